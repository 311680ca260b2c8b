(** * The older incremental classes of compat/v0.py: C45 to C52.

    C51 holds.  C45 to C50 and C52 are false of the code; the theorems say what
    the code does instead.  In the names below [chist_results step o h] are the
    results of the calls [h] on an object [o], exceptions included, and
    [chist_after step o h] is the object afterwards. *)
From Coq Require Import String ZArith List Arith Bool Lia Permutation SpecFloat.
From Verif Require Import Num NumPy Base GetCvi Lists Stream Generic F64 Compat CompatL CompatL2 CompatL3 CompatL4 CompatH.
From Coq Require Import Reals Lra.
From Verif Require Import Det Spec XR SpecX RGeom XLift XEval XInc XRun XPerm XBatch Obs XForm XBounds P_Inc P_Formula P_Nan CompatX.
Import ListNotations.
Local Notation length := List.length.

(** ** Specification vocabulary *)
(** all samples have [d] features and all labels are at least 0 *)
Definition regular {A : Arith} (d : nat) (h : list (list (F A) * Z)) : Prop :=
  forall x l, In (x, l) h -> length x = d /\ (0 <= l)%Z.
(** each label has occurred before or is the next unused number *)
Definition next_label {X} (h : list (X * Z)) : Prop :=
  forall i p, nth_error h i = Some p -> (0 <= snd p <= Z.of_nat (started (map snd (firstn i h))))%Z.
Lemma regular_Forall {A : Arith} d (h : list (list (F A) * Z)) : regular d h ->
  Forall (fun p => length (fst p) = d /\ (0 <= snd p)%Z) h.
Proof. intros H. apply Forall_forall. intros [x l] Hp. now apply H. Qed.
Lemma regular_lengths {A : Arith} d (h : list (list (F A) * Z)) : regular d h ->
  Forall (fun p => length (fst p) = d) h.
Proof. intros H. apply Forall_forall. intros [x l] Hp. now apply (H x l). Qed.

(** ** C45: iPS *)
(** whatever np.sum does with a generator, whatever the samples and labels *)
Theorem C45_returns_only_zero_exact (gen : list (F XR) -> E (F XR)) (h : list (list (F XR) * Z)) (y : F XR) :
  In (Ok y) (chist_results (ps_step gen) iPS_init h) -> y = Fin 0.
Proof.
  intros H. destruct (iPS_zero gen h y H) as [-> | ->]; [reflexivity|]. cbn. unfold xsum. cbn. f_equal. lra.
Qed.
Print Assumptions C45_returns_only_zero_exact.
Theorem C45_returns_only_zero_binary64 (L : Libm) (gen : list (F (F64 L)) -> E (F (F64 L)))
    (h : list (list (F (F64 L)) * Z)) (y : F (F64 L)) :
  In (Ok y) (chist_results (ps_step gen) iPS_init h) -> y = S754_zero false.
Proof. intros H. destruct (iPS_zero gen h y H) as [-> | ->]; reflexivity. Qed.
Print Assumptions C45_returns_only_zero_binary64.
(** with a numpy that sums generators every call returns *)
Theorem C45_every_call_returns (A : Arith) (d : nat) (h : list (list (F A) * Z)) :
  regular d h -> next_label h ->
  forall r, In r (chist_results (ps_step gen_sum_old) iPS_init h) -> exists y, r = Ok y.
Proof. intros H1 H2. now apply (ps_history d h); [apply regular_lengths|]. Qed.
Print Assumptions C45_every_call_returns.
(** with a numpy that refuses them no call returns once there are two clusters *)
Theorem C45_recent_numpy (A : Arith) (o o' : iPS (A := A)) (x : list (F A)) (l : Z) (y : F A) :
  ps_step gen_sum_new (x, l) o = (o', Ok y) -> length (ps_centers o') <= 1.
Proof. exact (iPS_refuses x l o o' y). Qed.
Print Assumptions C45_recent_numpy.
Example C45_recent_numpy_case (L : Libm) :
  map (fun r => match r with Ok _ => None | Err e => Some e end)
    (chist_results (ps_step (A := F64 L) gen_sum_new) iPS_init (fs L [([0], 0); ([1], 0)]%Z)) = [None; None] /\
  length (ps_centers (chist_after (ps_step (A := F64 L) gen_sum_new) iPS_init (fs L [([0], 0); ([1], 0)]%Z))) = 1.
Proof. split; reflexivity. Qed.

(** two samples, 0 labelled 0 and 1 labelled 1: the partition separation is
    2 - 2 exp(-4), which the module PS returns *)
Definition ps_data : data := [([0%R], 0%Z); ([1%R], 1%Z)].
Lemma ps_data_clusters : clusters ps_data = [[[0%R]]; [[1%R]]].
Proof. reflexivity. Qed.
Lemma ps_data_value : PS_formula 1 (clusters ps_data) = (2 - 2 * exp (- 4))%R.
Proof.
  rewrite ps_data_clusters. unfold PS_formula, PS_beta, Spec.cdist, dist2, centroid, nclus. cbn.
  rewrite !Rmax_left by lra.
  match goal with |- context [exp ?a] => replace a with (-4)%R by field end.
  match goal with |- context [exp (- ((?a) * _ + _) / _)] => idtac | _ => idtac end.
  match goal with |- context [Rplus (Rminus _ (exp ?a)) 0] => replace a with (-4)%R by field end.
  lra.
Qed.
Example ps_data_next : next_label ps_data.
Proof. intros [|[|[|i]]] p; cbn; intros [= <-]; cbn; lia. Qed.
Theorem C45_refuted :
  nth_error (chist_results (ps_step gen_sum_old) iPS_init (as_floats ps_data)) 1 = Some (Ok (Fin 0)) /\
  nth_error (stream_results kPS ps_data) 1 = Some (Ok (Fin (PS_formula 1 (clusters ps_data)))) /\
  PS_formula 1 (clusters ps_data) = (2 - 2 * exp (- 4))%R /\ PS_formula 1 (clusters ps_data) <> 0%R.
Proof.
  split; [|split; [|split]].
  - assert (R := C45_every_call_returns XR 1 (as_floats ps_data)).
    assert (Z := C45_returns_only_zero_exact gen_sum_old (as_floats ps_data)).
    assert (N := chist_results_length (ps_step gen_sum_old) (iPS_init (A := XR)) (as_floats ps_data)).
    set (rs := chist_results _ _ _) in *. destruct (nth_error rs 1) as [r|] eqn:Er.
    + pose proof (nth_error_In _ _ Er) as Hi. destruct (R) with (r := r) as [y ->]; auto.
      * intros x l [[= <- <-]|[[= <- <-]|[]]]; cbn; split; auto; lia.
      * intros [|[|[|i]]] p; cbn; intros [= <-]; cbn; lia.
      * now rewrite (Z y Hi).
    + apply nth_error_None in Er. rewrite N in Er. cbn in Er. lia.
  - apply (C29_PS_formula_streams 1 ps_data 1).
    + repeat constructor.
    + cbn. lia.
    + cbn. lia.
    + intros H. specialize (H [[0%R]] [[1%R]]). cbn in H. unfold centroid in H. cbn in H.
      assert (E : [((0 + 0) / 1)%R] = [((1 + 0) / 1)%R]) by (apply H; auto). injection E. lra.
  - exact ps_data_value.
  - rewrite ps_data_value. intros H. assert (H1 : (exp (-4) < exp 0)%R) by (apply exp_increasing; lra).
    rewrite exp_0 in H1. lra.
Qed.
Print Assumptions C45_refuted.

(** ** C46: iGD43 and iGD53 *)
Lemma started_mono ls1 ls2 : started ls1 <= started (ls1 ++ ls2).
Proof.
  induction ls2 as [|c ls2 IH] using rev_ind; [now rewrite app_nil_r|].
  rewrite app_assoc, started_snoc. destruct (_ =? _)%Z; lia.
Qed.
(** from any state a call returns only if it starts a cluster *)
Theorem C46_only_new_clusters_return (A : Arith) (o o' : iGD (A := A)) (x : list (F A)) (l : Z) (y : F A) :
  iGD_update x l o = (o', Ok y) -> l = Z.of_nat (length (gd_centers o)) /\ y = gd_output o.
Proof.
  intros H. destruct (Z.eq_dec l (Z.of_nat (length (gd_centers o)))) as [->|Hl].
  - rewrite iGD_new in H. injection H as _ <-. auto.
  - now destruct (iGD_old_never x l o o' y Hl).
Qed.
Print Assumptions C46_only_new_clusters_return.
(** a label that has been accepted raises AttributeError ever after; the centre
    and the size have been changed by then *)
Theorem C46_seen_label_raises (A : Arith) (t d : nat) (o0 : iGD (A := A)) (h : list (list (F A) * Z)) (i : nat) (x0 x : list (F A)) (l : Z) (y : F A) :
  iGD_init t = Ok o0 -> regular d h -> length x = d ->
  nth_error h i = Some (x0, l) -> nth_error (chist_results gd_step o0 h) i = Some (Ok y) ->
  let o := chist_after gd_step o0 h in
  exists o', iGD_update x l o = (o', Err AttributeError) /\ gd_output o' = f0 /\
    nth_error (gd_sizes o') (Z.to_nat l) = option_map S (nth_error (gd_sizes o) (Z.to_nat l)).
Proof.
  intros H0 Hr Hx Hi Hy o. assert (o0 = gd_new t) as ->.
  { unfold iGD_init in H0. destruct (_ || _); [|discriminate]. now injection H0. }
  destruct (gd_history d t h) as (W & O & _); [now apply regular_Forall|]. fold o in W, O.
  assert (Hl : l = Z.of_nat (started (map snd (firstn i h)))).
  { assert (Hn : i < length h) by (apply nth_error_Some; congruence).
    destruct (gd_history d t (firstn i h)) as ((W1 & _) & _).
    { apply regular_Forall. intros a b Hab. apply Hr. rewrite <- (firstn_skipn i h). apply in_or_app. auto. }
    pose proof (firstn_skipn i h) as Eh. rewrite <- Eh in Hy at 1. rewrite chist_results_app in Hy.
    rewrite nth_error_app2 in Hy by (rewrite chist_results_length, firstn_length; lia).
    rewrite chist_results_length, firstn_length, Nat.min_l, Nat.sub_diag in Hy by lia.
    destruct (skipn i h) as [|p h2] eqn:Es.
    - apply (f_equal (@length _)) in Es. rewrite skipn_length in Es. cbn in Es. lia.
    - assert (Ep : p = (x0, l)).
      { rewrite <- Eh in Hi. rewrite nth_error_app2 in Hi by (rewrite firstn_length; lia).
        rewrite firstn_length, Nat.min_l, Nat.sub_diag in Hi by lia. now injection Hi. }
      subst p. unfold chist_results in Hy. cbn [chist] in Hy.
      destruct (gd_step (x0, l) _) as [s1 r] eqn:E1 in Hy. destruct (chist gd_step s1 h2). cbn in Hy. injection Hy as ->.
      apply C46_only_new_clusters_return in E1 as [E1 _]. cbn [fst snd] in E1. now rewrite W1 in E1. }
  assert (Hb : (0 <= l < Z.of_nat (started (map snd h)))%Z).
  { split; [lia|]. rewrite Hl.
    assert (Hi' : nth_error (map snd h) i = Some l) by (now apply (map_nth_error snd) in Hi).
    rewrite <- (firstn_skipn i h) at 2. rewrite map_app.
    destruct (skipn i h) as [|p h2] eqn:Es.
    - assert (Hn : i < length h) by (apply nth_error_Some; congruence).
      apply (f_equal (@length _)) in Es. rewrite skipn_length in Es. cbn in Es. lia.
    - assert (Hn : i < length h) by (apply nth_error_Some; congruence).
      assert (Ep : p = (x0, l)).
      { rewrite <- (firstn_skipn i h), Es in Hi. rewrite nth_error_app2 in Hi by (rewrite firstn_length; lia).
        rewrite firstn_length, Nat.min_l, Nat.sub_diag in Hi by lia. now injection Hi. }
      subst p. cbn [map snd]. change (l :: map snd h2) with ([l] ++ map snd h2). rewrite app_assoc.
      pose proof (started_mono (map snd (firstn i h) ++ [l]) (map snd h2)) as Hm.
      rewrite started_snoc, <- Hl, Z.eqb_refl in Hm. lia. }
  destruct (iGD_old d (started (map snd h)) x o (Z.to_nat l) W Hx) as (o' & E & _ & _ & EO & _ & ES & _); [lia|].
  rewrite Z2Nat.id in E by lia. exists o'. split; auto. split; [congruence|].
  destruct W as (_ & _ & W3 & _). rewrite ES, nth_error_upd, Nat.eqb_refl.
  replace (Z.to_nat l <? length (gd_sizes o)) with true by (symmetry; apply Nat.ltb_lt; lia). cbn [andb].
  rewrite (nth_error_nth' (gd_sizes o) 0) by lia. cbn [option_map]. now rewrite Nat.add_1_r.
Qed.
Print Assumptions C46_seen_label_raises.
Theorem C46_refuted (L : Libm) : forall t o0, iGD_init (A := F64 L) t = Ok o0 ->
  map (fun r => match r with Ok _ => None | Err e => Some e end)
    (chist_results gd_step o0 (fs L [([0], 0); ([1], 1); ([2], 0)]%Z)) = [None; None; Some AttributeError].
Proof.
  intros t o0 H. unfold iGD_init in H. destruct (_ || _) eqn:Et; [|discriminate]. injection H as <-.
  destruct (t =? 43) eqn:E4; [apply Nat.eqb_eq in E4; subst; reflexivity|].
  destruct (t =? 53) eqn:E5; [apply Nat.eqb_eq in E5; subst; reflexivity|discriminate].
Qed.
Print Assumptions C46_refuted.
Example C46_case (L : Libm) : exists o0,
  iGD_init (A := F64 L) 43 = Ok o0 /\ regular 1 (fs L [([0], 0); ([1], 1); ([2], 0)]%Z) /\
  nth_error (fs L [([0], 0); ([1], 1); ([2], 0)]%Z) 1 = Some (fv L [1%Z], 1%Z) /\
  nth_error (chist_results gd_step o0 (fs L [([0], 0); ([1], 1); ([2], 0)]%Z)) 1 = Some (Ok (S754_zero false)).
Proof.
  eexists. split; [reflexivity|]. split; [|split; reflexivity].
  intros x l H. simpl in H. repeat destruct H as [H|H]; inversion H; split; auto; lia.
Qed.

(** ** C47: iDB *)
(** any calls before, with samples of any lengths and any labels *)
Theorem C47_what_a_call_does (A : Arith) (h : list (list (F A) * Z)) (x : list (F A)) (l : Z) :
  let o := chist_after db_step iDB_init h in
  let k := started (map snd h) in
  (l = Z.of_nat k -> snd (iDB_update x l o) = Ok f0) /\
  (l <> Z.of_nat k ->
     iDB_update x l o = (set_db_N (db_N o + 1) o, Err (if (Z.of_nat k <? l)%Z then ValueError else IndexError))).
Proof.
  cbv zeta. destruct (db_history h) as (H1 & H2 & H3 & H4 & _). set (o := chist_after _ _ _) in *. rewrite <- H3. split.
  - intros ->. rewrite iDB_new. cbn [snd]. now rewrite H2.
  - intros Hl. rewrite iDB_old by auto. now rewrite H4, <- H3.
Qed.
Print Assumptions C47_what_a_call_does.
(** in particular a label seen before is refused, and the index is constantly 0 *)
Theorem C47_seen_label_raises (A : Arith) (h : list (list (F A) * Z)) (x : list (F A)) (l : Z) :
  (0 <= l < Z.of_nat (started (map snd h)))%Z ->
  snd (iDB_update x l (chist_after db_step iDB_init h)) = Err IndexError.
Proof.
  intros Hl. destruct (C47_what_a_call_does A h x l) as [_ H]. rewrite H by lia. cbn [snd].
  replace (_ <? l)%Z with false by (symmetry; apply Z.ltb_ge; lia). reflexivity.
Qed.
Print Assumptions C47_seen_label_raises.
Theorem C47_returns_only_zero (A : Arith) (h : list (list (F A) * Z)) (y : F A) :
  In (Ok y) (chist_results db_step iDB_init h) -> y = f0.
Proof.
  apply (chist_inv db_step (fun o => db_CP o = [] /\ db_output o = f0) (fun y => y = f0)).
  - intros [x l] o o' r [H1 H2] E. destruct (iDB_inv x l o o' r H1 E) as (H3 & H4 & H5).
    split; [split; congruence|]. intros z Hz. rewrite (H5 z Hz). exact H2.
  - split; reflexivity.
Qed.
Print Assumptions C47_returns_only_zero.
Theorem C47_refuted (L : Libm) :
  map (fun r => match r with Ok y => Ok (SFeqb y (d_of_Z 0)) | Err e => Err e end)
    (chist_results (db_step (A := F64 L)) iDB_init (fs L [([0; 3], 0); ([1; 1], 1); ([2; 2], 0)]%Z)) =
  [Ok true; Ok true; Err IndexError].
Proof. reflexivity. Qed.
Print Assumptions C47_refuted.

(** ** C48: iSIL *)
(** the first call raises whatever the sample and the label; with label 0 it
    has doubled the caller's array [r] by then *)
Theorem C48_first_update (A : Arith) (h : nat -> list (F A)) (r : nat) (l : Z) :
  exists o', iSIL_update r l (iSIL_init h) = (o', Err (if (0 <=? l)%Z then ValueError else IndexError)) /\
    (l <> 0%Z -> sl_heap o' = h) /\
    (l = 0%Z -> sl_heap o' r = map (fun y => fadd y y) (h r) /\ forall r', r' <> r -> sl_heap o' r' = h r').
Proof.
  destruct (Z.eq_dec l 0) as [->|Hl].
  - destruct (iSIL_one (length (h r)) 0 r (iSIL_init h)) as (o' & E & _ & Eg & Eh); auto using SLD_init.
    exists o'. split; [exact E|]. split; [congruence|]. intros _. rewrite Eh, Eg. cbn [Nat.eqb sl_g iSIL_init app nth sl_heap].
    unfold heap_set. split.
    + rewrite Nat.eqb_refl. induction (h r) as [|y v IH]; [reflexivity|]. cbn [map2 map]. now rewrite IH.
    + intros r' Hr. apply Nat.eqb_neq in Hr. now rewrite Hr.
  - destruct (iSIL_first_other r l h Hl) as (o' & E & Eh & _). exists o'. split; [|split; [auto|congruence]].
    rewrite E. f_equal. f_equal. destruct (Z.leb_spec 0 l), (Z.ltb_spec 0 l); auto; lia.
Qed.
Print Assumptions C48_first_update.
(** from any state a call writes to at most one array: one given with the
    first sample of some cluster, possibly this sample itself *)
Theorem C48_what_is_written (A : Arith) (o o' : iSIL (A := A)) (r : nat) (l : Z) (res : E (F A)) :
  iSIL_update r l o = (o', res) ->
  sl_heap o' = sl_heap o \/
  exists r0, (In r0 (sl_g o) \/ r0 = r) /\ (forall r', r' <> r0 -> sl_heap o' r' = sl_heap o r') /\
    iadd (sl_heap o r0) (sl_heap o r) = Ok (sl_heap o' r0).
Proof.
  intros H. destruct (iSIL_heap r l o o' res H) as [_ [Hs|(r0 & y & Hg & Hy & Hh)]]; [auto|right].
  exists r0. split; [|split].
  - set (g' := if (_ =? _)%Z then _ else _) in Hg. assert (Hi : In r0 g').
    { unfold py_get in Hg. destruct (py_index _ _) as [p|]; [|discriminate]. cbn [bindE] in Hg. unfold get_item in Hg.
      destruct (nth_error g' p) eqn:E; [|discriminate]. injection Hg as ->. now apply nth_error_In in E. }
    unfold g' in Hi. destruct (_ =? _)%Z; auto. apply in_app_or in Hi as [Hi|[Hi|[]]]; auto.
  - intros r' Hr. rewrite Hh. unfold heap_set. apply Nat.eqb_neq in Hr. now rewrite Hr.
  - rewrite Hh. unfold heap_set. now rewrite Nat.eqb_refl.
Qed.
Print Assumptions C48_what_is_written.
(** as long as all labels are 0 no call returns; the caller may change the
    arrays in between *)
Theorem C48_one_cluster_never_returns (A : Arith) (d : nat) (h : nat -> list (F A)) (es : list sil_event) (r : nat) :
  (forall r, length (h r) = d) -> (forall r x, In (SilWrite r x) es -> length x = d) ->
  (forall r l, In (SilCall r l) es -> l = 0%Z) ->
  snd (iSIL_update r 0 (chist_after sil_step (iSIL_init h) es)) = Err ValueError.
Proof.
  intros Hh Hw Hl. destruct (sil_history d h es Hh) as [W L].
  { apply Forall_forall. intros [r' l|r' x] He; cbn; [rewrite (Hl _ _ He); lia|eauto]. }
  assert (Hk : started (sil_labels es) <= 1).
  { clear -Hl. induction es as [|e es IH] using rev_ind; [cbn; lia|].
    unfold sil_labels. rewrite flat_map_app. change (flat_map _ es) with (sil_labels es).
    assert (started (sil_labels es) <= 1) by (apply IH; intros; eapply Hl; apply in_or_app; eauto).
    destruct e as [r l|r x]; cbn [flat_map app]; [|now rewrite app_nil_r].
    rewrite (Hl r l) by (apply in_or_app; right; now left). rewrite started_snoc.
    destruct (Z.eqb_spec 0 (Z.of_nat (started (sil_labels es)))); lia. }
  destruct (iSIL_one d _ r _ W (L r) Hk) as (o' & -> & _). reflexivity.
Qed.
Print Assumptions C48_one_cluster_never_returns.
(** a call that starts the second or a later cluster returns nan *)
Theorem C48_new_cluster_is_nan_exact (d : nat) (h : nat -> list (F XR)) (es : list sil_event) (r : nat) :
  (forall r, length (h r) = d) -> Forall (ok_event d) es -> 1 <= started (sil_labels es) ->
  snd (iSIL_update r (Z.of_nat (started (sil_labels es))) (chist_after sil_step (iSIL_init h) es)) = Ok NaN.
Proof.
  intros Hh He Hk. destruct (sil_history d h es Hh He) as [W L].
  destruct (iSIL_new_bad (A := XR) (fun y => y = NaN)) with (d := d) (r := r) (5 := W) as (o' & y & E & ->); auto.
  - intros [s| | |]; reflexivity.
  - intros a b [-> | ->]; [reflexivity|]. now destruct a.
  - intros a b ->. now destruct a.
  - now rewrite E.
Qed.
Print Assumptions C48_new_cluster_is_nan_exact.
Theorem C48_new_cluster_is_nan_binary64 (L : Libm) (d : nat) (h : nat -> list (F (F64 L))) (es : list sil_event) (r : nat) :
  (forall r, length (h r) = d) -> Forall (ok_event d) es -> 1 <= started (sil_labels es) ->
  snd (iSIL_update r (Z.of_nat (started (sil_labels es))) (chist_after sil_step (iSIL_init h) es)) = Ok S754_nan.
Proof.
  intros Hh He Hk. destruct (sil_history d h es Hh He) as [W Le].
  destruct (iSIL_new_bad (A := F64 L) (fun y => y = S754_nan)) with (d := d) (r := r) (5 := W) as (o' & y & E & ->); auto.
  - intros [[]|[]| |[] ? ?]; reflexivity.
  - intros a b [-> | ->]; [reflexivity|]. now destruct a as [| [] | |].
  - intros a b ->. now destruct a as [| [] | |].
  - now rewrite E.
Qed.
Print Assumptions C48_new_cluster_is_nan_binary64.
(** three arrays 1, 5, 2; labels 0, 0, 1 *)
Definition sil_arrays (L : Libm) (r : nat) : list (F (F64 L)) := fv L [match r with 0 => 1%Z | 1 => 5%Z | _ => 2%Z end].
Example C48_case (L : Libm) :
  (forall r, length (sil_arrays L r) = 1) /\ Forall (ok_event (A := F64 L) 1) [SilCall 0 0%Z; SilCall 1 0%Z] /\
  started (sil_labels (A := F64 L) [SilCall 0 0%Z; SilCall 1 0%Z]) = 1.
Proof. split; [reflexivity|]. split; [|reflexivity]. repeat constructor; cbn; lia. Qed.
Theorem C48_refuted (L : Libm) :
  let o := iSIL_init (sil_arrays L) in
  snd (iSIL_update 0 0 o) = Err ValueError /\
  map (sl_heap (fst (iSIL_update 0 0 o))) [0; 1; 2] = [fv L [2]; fv L [5]; fv L [2]]%Z.
Proof. split; reflexivity. Qed.
Print Assumptions C48_refuted.

(** ** C49: iCH *)
(** samples labelled 0 are all kept apart, and the index stays 0 *)
Theorem C49_zero_labels_never_merge (A : Arith) (d : nat) (xs : list (list (F A))) :
  (forall x, In x xs -> length x = d) ->
  let h := map (fun x => (x, 0%Z)) xs in
  ch_centers (chist_after ch_step iCH_init h) = xs /\
  ch_sizes (chist_after ch_step iCH_init h) = repeat 1 (length xs) /\
  chist_results ch_step iCH_init h = repeat (Ok f0) (length xs).
Proof. intros H. apply (ch_zeros d). now apply Forall_forall. Qed.
Print Assumptions C49_zero_labels_never_merge.
(** any labels: there are as many clusters as samples labelled 0 *)
Theorem C49_number_of_clusters (A : Arith) (d : nat) (h : list (list (F A) * Z)) :
  (forall x l, In (x, l) h -> length x = d) ->
  let o := chist_after ch_step iCH_init h in
  length (ch_centers o) = count_occ Z.eq_dec (map snd h) 0%Z /\ ch_N o = length h.
Proof.
  intros H. destruct (ch_history d h) as [W N].
  - apply Forall_forall. intros [x l] Hp. now apply (H x l).
  - split; auto. apply W.
Qed.
Print Assumptions C49_number_of_clusters.
(** a positive label [l] joins the sample to the cluster of the [l]-th sample
    labelled 0 (counting from 0), if there is one; otherwise the call raises
    and the sample has been counted *)
Theorem C49_positive_labels (A : Arith) (d : nat) (h : list (list (F A) * Z)) (x : list (F A)) (l : nat) :
  (forall x l, In (x, l) h -> length x = d) -> length x = d -> l <> 0 ->
  let o := chist_after ch_step iCH_init h in
  let k := count_occ Z.eq_dec (map snd h) 0%Z in
  exists o' res, iCH_update x (Z.of_nat l) o = (o', res) /\ ch_N o' = ch_N o + 1 /\
    (k < l -> res = Err ValueError /\ ch_sizes o' = ch_sizes o) /\
    (l = k -> res = Err IndexError /\ ch_sizes o' = ch_sizes o) /\
    (l < k -> (exists y, res = Ok y) /\ ch_sizes o' = upd l (nth l (ch_sizes o) 0 + 1) (ch_sizes o)).
Proof.
  intros H Hx Hl. destruct (ch_history d h) as [W N].
  { apply Forall_forall. intros [x' l'] Hp. now apply (H x' l'). }
  cbv zeta. set (o := chist_after _ _ _) in *. set (k := count_occ _ _ _) in *.
  pose proof (iCH_other d k x (Z.of_nat l) o W Hx) as HO. specialize (HO ltac:(lia)).
  destruct (Nat.lt_ge_cases l k) as [Hk|Hk].
  - rewrite py_index_nat in HO by auto. destruct HO as (o' & E & _ & _ & ES & EN).
    exists o'. eexists. split; [exact E|]. repeat split; try lia; eauto.
  - rewrite py_index_high in HO by lia. eexists. eexists. split; [exact HO|]. split; [reflexivity|]. split; [|split].
    + intros Hk'. replace (_ <? _)%Z with true by (symmetry; apply Z.ltb_lt; lia). auto.
    + intros Hk'. replace (_ <? _)%Z with false by (symmetry; apply Z.ltb_ge; lia). auto.
    + lia.
Qed.
Print Assumptions C49_positive_labels.
Theorem C49_refuted (L : Libm) :
  let o := chist_after (ch_step (A := F64 L)) iCH_init (fs L [([0], 0); ([1], 0)]%Z) in
  ch_centers o = [fv L [0]; fv L [1]]%Z /\ ch_sizes o = [1; 1].
Proof. split; reflexivity. Qed.
Print Assumptions C49_refuted.
Example C49_case (L : Libm) :
  ch_sizes (chist_after (ch_step (A := F64 L)) iCH_init (fs L [([0], 0); ([1], 0); ([7], 1); ([9], 2); ([9], 3)]%Z)) = [1; 2] /\
  map (fun r => match r with Ok _ => None | Err e => Some e end)
    (chist_results (ch_step (A := F64 L)) iCH_init (fs L [([0], 0); ([1], 0); ([7], 1); ([9], 2); ([9], 3)]%Z)) =
  [None; None; None; Some IndexError; Some ValueError].
Proof. split; reflexivity. Qed.

(** ** C50: iXB beside the module XB, exact arithmetic *)
(** [in_order s]: each label lies between 0 and the number of different labels
    before it.  [occurred d s r]: [r] was the squared distance of two centroids
    at some time.  [now d s] is the smallest such distance at the end. *)
Definition smallest (D : R -> Prop) (r : R) : Prop := D r /\ forall r', D r' -> (r <= r')%R.

(** iXB divides by the smallest distance there ever was, XB by the smallest
    distance there is *)
Theorem C50_iXB_and_XB : forall d s i, wf d s -> in_order s -> i < length s ->
  let p := firstn (S i) s in
  2 <= length (distinct p) ->
  exists r, smallest (occurred d p) r /\ (0 <= r <= now d p)%R /\
    nth_error (chist_results xb_step iXB_init (as_floats s)) i =
      Some (Ok (xdiv (Fin (wgss d (clusters p) / INR (length p))) (Fin r))) /\
    nth_error (stream_results kXB s) i =
      Some (Ok (xdiv (Fin (wgss d (clusters p) / INR (length p))) (Fin (now d p)))).
Proof.
  intros d s i Hw Ho Hi p Hk. destruct (xb_both d s i Hw Ho Hi) as (m & HL & E).
  pose proof (now_occurred d p Hk) as Hn. fold p in HL, E.
  destruct HL as [[-> HN]|(r & -> & Hr & Hm)]; [now destruct (HN _ Hn)|].
  exists r. split; [split; auto|]. split; [split; [eapply occurred_nonneg; eauto|auto]|]. split; [exact E|].
  rewrite (stream_result_ok kXB d) by (auto; discriminate). fold p. unfold XVal.
  destruct (Nat.leb_spec (length (clusters p)) 1) as [H1|H1]; [rewrite distinct_clusters in H1; lia|].
  do 2 f_equal. unfold XB_ext. fold (now d p).
  assert (Hp : p <> []) by (intros E0; rewrite E0 in Hk; cbn in Hk; lia).
  assert (HN : nsamp (clusters p) = INR (length p)).
  { unfold nsamp. f_equal. rewrite (Permutation_length (clusters_concat p)).
    unfold points. now rewrite map_length. }
  rewrite HN. assert (0 < INR (length p))%R by (apply lt_0_INR; destruct p; [congruence|cbn; lia]).
  apply xdiv_assoc; lra.
Qed.
Print Assumptions C50_iXB_and_XB.

(** so iXB is never below XB ... *)
Theorem C50_never_smaller : forall d s i, wf d s -> in_order s -> i < length s ->
  2 <= length (distinct (firstn (S i) s)) -> forall v w,
  nth_error (chist_results xb_step iXB_init (as_floats s)) i = Some (Ok (Fin v)) ->
  nth_error (stream_results kXB s) i = Some (Ok (Fin w)) -> (w <= v)%R.
Proof.
  intros d s i Hw Ho Hi Hk v w Hv Hx. destruct (C50_iXB_and_XB d s i Hw Ho Hi Hk) as (r & _ & Hr & E1 & E2).
  rewrite E1 in Hv. rewrite E2 in Hx. set (p := firstn (S i) s) in *. set (a := (wgss d (clusters p) / INR (length p))%R) in *.
  assert (Ha : (0 <= a)%R).
  { unfold a, Rdiv. apply Rmult_le_pos; [apply wgss_nonneg|]. apply Rlt_le, Rinv_0_lt_compat, lt_0_INR.
    destruct p; cbn in *; lia. }
  assert (Hf : forall b z, xdiv (Fin a) (Fin b) = Fin z -> b <> 0%R /\ z = (a / b)%R).
  { intros b z. cbn [xdiv]. destruct (Req_EM_T b 0); [|intros [= <-]; auto].
    unfold inf_mul. destruct (Req_EM_T a 0); [discriminate|]. destruct (Rlt_dec 0 a); discriminate. }
  injection Hv as Hv. injection Hx as Hx. apply Hf in Hv as [Hr0 ->]. apply Hf in Hx as [Hn0 ->].
  unfold Rdiv. apply Rmult_le_compat_l; auto. apply Rinv_le_contravar; lra.
Qed.
Print Assumptions C50_never_smaller.
(** ... and they agree, for data that is not perfectly clustered, exactly when
    the smallest distance is the smallest there ever was *)
Theorem C50_agree_iff : forall d s i, wf d s -> in_order s -> i < length s ->
  let p := firstn (S i) s in
  2 <= length (distinct p) -> wgss d (clusters p) <> 0%R ->
  (nth_error (chist_results xb_step iXB_init (as_floats s)) i = nth_error (stream_results kXB s) i <->
   smallest (occurred d p) (now d p)).
Proof.
  intros d s i Hw Ho Hi p Hk Hg. destruct (C50_iXB_and_XB d s i Hw Ho Hi Hk) as (r & Hs & Hr & E1 & E2). fold p in Hs, Hr, E1, E2.
  rewrite E1, E2. set (a := (wgss d (clusters p) / INR (length p))%R) in *.
  assert (Ha : (0 < a)%R).
  { unfold a, Rdiv. apply Rmult_lt_0_compat; [pose proof (wgss_nonneg d (clusters p)); lra|].
    apply Rinv_0_lt_compat, lt_0_INR. destruct p; cbn in *; lia. }
  split.
  - intros E. assert (r = now d p) as <-; auto.
    injection E as E. cbn [xdiv] in E.
    assert (Hp : inf_mul a = PInf) by (unfold inf_mul; destruct (Req_EM_T a 0); [lra|destruct (Rlt_dec 0 a); [auto|lra]]).
    rewrite Hp in E. destruct (Req_EM_T r 0), (Req_EM_T (now d p) 0); try discriminate; [congruence|].
    injection E as E. apply Rmult_eq_reg_l in E; [|lra]. apply (f_equal Rinv) in E. now rewrite !Rinv_inv in E.
  - intros Hn. assert (r = now d p) as ->; auto. destruct Hs as [H1 H2], Hn as [H3 H4].
    pose proof (H2 _ H3). pose proof (H4 _ H1). lra.
Qed.
Print Assumptions C50_agree_iff.
(** one cluster: both are 0 *)
Theorem C50_one_cluster : forall d s i, wf d s -> in_order s -> i < length s ->
  length (distinct (firstn (S i) s)) <= 1 ->
  nth_error (chist_results xb_step iXB_init (as_floats s)) i = Some (Ok (Fin 0)) /\
  nth_error (stream_results kXB s) i = Some (Ok (Fin 0)).
Proof.
  intros d s i Hw Ho Hi Hk. destruct (xb_both d s i Hw Ho Hi) as (m & HL & E). split.
  - destruct HL as [[-> HN]|(r & -> & Hr & Hm)]; [exact E|]. now destruct (occurred_one d _ r Hk).
  - rewrite (stream_result_ok kXB d) by (auto; discriminate). unfold XVal. rewrite distinct_clusters.
    destruct (Nat.leb_spec (length (distinct (firstn (S i) s))) 1); [reflexivity|lia].
Qed.
Print Assumptions C50_one_cluster.

(** the samples 0, 1, 3 labelled 0, 1, 1: the centroids are 0 and 2 but were 0 and 1 *)
Definition xb_data : data := [([0%R], 0%Z); ([1%R], 1%Z); ([3%R], 1%Z)].
Lemma xb_data_ok : wf 1 xb_data /\ in_order xb_data.
Proof.
  split; [repeat constructor|]. intros [|[|[|[|i]]]] p; cbn; intros [= <-]; cbn; lia.
Qed.
Lemma xb_data_occurred r : occurred 1 xb_data r <-> r = 1%R \/ r = 4%R.
Proof.
  split.
  - intros (i & a & b & Ha & Hb & Hn & ->).
    destruct i as [|[|[|i]]]; cbn in Ha, Hb.
    + contradiction.
    + exfalso. lia.
    + left. assert (a = 0 /\ b = 1 \/ a = 1 /\ b = 0)%Z as [[-> ->]|[-> ->]] by lia;
        unfold Spec.cdist, dist2, centroid; cbn; field.
    + right. assert (Ef : firstn (S (S (S i))) xb_data = xb_data) by (cbn; now rewrite firstn_nil). rewrite Ef.
      rewrite firstn_nil in *. assert (a = 0 /\ b = 1 \/ a = 1 /\ b = 0)%Z as [[-> ->]|[-> ->]] by (cbn in Ha, Hb; lia);
        unfold Spec.cdist, dist2, centroid; cbn; field.
  - intros [-> | ->]; [exists 2|exists 3]; exists 0%Z, 1%Z; (split; [cbn; auto|]; split; [cbn; auto|]; split; [lia|]);
      unfold Spec.cdist, dist2, centroid; cbn; field.
Qed.
Theorem C50_refuted :
  wf 1 xb_data /\ in_order xb_data /\
  nth_error (chist_results xb_step iXB_init (as_floats xb_data)) 2 = Some (Ok (Fin (2 / 3))) /\
  nth_error (stream_results kXB xb_data) 2 = Some (Ok (Fin (1 / 6))).
Proof.
  destruct xb_data_ok as [Hw Ho]. split; auto. split; auto.
  destruct (C50_iXB_and_XB 1 xb_data 2 Hw Ho) as (r & [H1 H2] & _ & E1 & E2); [cbn; lia|cbn; lia|].
  change (firstn 3 xb_data) with xb_data in *.
  assert (r = 1%R) as ->.
  { pose proof (H2 1%R (proj2 (xb_data_occurred 1%R) (or_introl eq_refl))). apply xb_data_occurred in H1 as [H1|H1]; lra. }
  assert (EW : wgss 1 (clusters xb_data) = 2%R).
  { change (clusters xb_data) with [[[0%R]]; [[1%R]; [3%R]]]. unfold wgss, scatter, dist2, centroid. cbn. field. }
  assert (EN : now 1 xb_data = 4%R).
  { unfold now. change (clusters xb_data) with [[[0%R]]; [[1%R]; [3%R]]]. unfold Spec.cdist, dist2, centroid. cbn. field. }
  rewrite EW in E1, E2. rewrite EN in E2. change (length xb_data) with 3 in *. replace (INR 3) with 3%R in * by (simpl; lra).
  rewrite E1, E2. cbn [xdiv]. destruct (Req_EM_T 1 0); [lra|]. destruct (Req_EM_T 4 0); [lra|].
  split; do 3 f_equal; field.
Qed.
Print Assumptions C50_refuted.
(** every arithmetic: what is accepted *)
Theorem C50_which_calls_return (A : Arith) (d : nat) (h : list (list (F A) * Z)) : regular d h ->
  forall i x l, nth_error h i = Some (x, l) ->
  ((l <= Z.of_nat (started (map snd (firstn i h))))%Z ->
     exists y, nth_error (chist_results xb_step' iXB_init h) i = Some (Ok y)) /\
  ((l > Z.of_nat (started (map snd (firstn i h))))%Z ->
     nth_error (chist_results xb_step' iXB_init h) i = Some (Err ValueError)).
Proof.
  intros Hr i x l Hp. destruct (xb_history d h) as [_ H]; [now apply regular_Forall|]. specialize (H i _ Hp). cbn [snd] in H.
  split; intros Hl.
  - replace (_ <=? _)%Z with true in H by (symmetry; apply Z.leb_le; lia). exact H.
  - replace (_ <=? _)%Z with false in H by (symmetry; apply Z.leb_gt; lia). exact H.
Qed.
Print Assumptions C50_which_calls_return.
(** binary64: rounding makes the square root of a negative number possible.  The
    samples 0, 0, 1, 1 with one label give nan, where XB gives 0. *)
Theorem C50_nan_binary64 (L : Libm) : l_pow L S754_nan (d_of_Z 2) = S754_nan ->
  let s := fs L [([0], 0); ([0], 0); ([1], 0); ([1], 0)]%Z in
  nth_error (chist_results (xb_step' (A := F64 L)) iXB_init s) 3 = Some (Ok S754_nan) /\
  map (fun r => match r with Ok y => SFeqb y (d_of_Z 0) | Err _ => false end) (results kXB new_obj (stream s)) =
    [true; true; true; true].
Proof.
  intros HL s. split; [|reflexivity].
  set (h := fs L [([0], 0); ([0], 0); ([1], 0)]%Z).
  change s with (h ++ [(fv L [1%Z], 0%Z)]). rewrite chist_results_snoc.
  rewrite nth_error_app2 by (rewrite chist_results_length; cbn; lia).
  rewrite chist_results_length. change (3 - length h) with 0. cbn [nth_error].
  destruct (xb_history (A := F64 L) 1 h) as [W _].
  { repeat constructor; cbn; lia. }
  change (started (map snd h)) with 1 in W.
  destruct (iXB_bad (A := F64 L) (fun y => y = S754_nan) 1 1 (fv L [1%Z]) _ 0 W) as (o' & y & E & ->); auto.
  - intros a b ->. now destruct a as [| [] | |].
  - intros a b ->. reflexivity.
  - unfold xb_cp, cu_cp.
    match goal with |- fadd _ (powi (fsqrt ?a) 2) = _ => assert (Ea : fsqrt a = S754_nan) by (vm_compute; reflexivity) end.
    rewrite Ea. unfold powi. cbn [f_of_nat F64 fpow f_of_Z]. change (d_of_Z (Z.of_nat 2)) with (d_of_Z 2). rewrite HL.
    match goal with |- fadd ?a _ = _ => now destruct a as [| [] | |] end.
  - unfold xb_step' at 1. cbn [fst snd]. change 0%Z with (Z.of_nat 0). now rewrite E.
Qed.
Print Assumptions C50_nan_binary64.

(** ** C51: the factory *)
Theorem C51_seven_names (A : Arith) (h : nat -> list (F A)) :
  iCVI h "iDB" = Ok (O_iDB iDB_init) /\ iCVI h "iSIL" = Ok (O_iSIL (iSIL_init h)) /\
  (exists o, iGD_init 43 = Ok o /\ iCVI h "iGD43" = Ok (O_iGD43 o)) /\
  (exists o, iGD_init 53 = Ok o /\ iCVI h "iGD53" = Ok (O_iGD53 o)) /\
  iCVI h "iCH" = Ok (O_iCH iCH_init) /\ iCVI h "iPS" = Ok (O_iPS iPS_init) /\ iCVI h "iXB" = Ok (O_iXB iXB_init).
Proof. repeat split; try reflexivity; eexists; split; reflexivity. Qed.
Print Assumptions C51_seven_names.
Theorem C51_every_other_string (A : Arith) (h : nat -> list (F A)) (name : string) :
  ~ In name ["iDB"; "iSIL"; "iGD43"; "iGD53"; "iCH"; "iPS"; "iXB"]%string -> iCVI h name = Err ValueError.
Proof.
  intros H. unfold iCVI. cbn [In] in H.
  repeat match goal with |- context [String.eqb name ?s] =>
    destruct (String.eqb_spec name s) as [->|_]; [exfalso; apply H; tauto|] end.
  reflexivity.
Qed.
Print Assumptions C51_every_other_string.
Example C51_case (A : Arith) (h : nat -> list (F A)) :
  iCVI h "PS" = Err ValueError /\ iCVI h "" = Err ValueError /\ iCVI h "ixb" = Err ValueError.
Proof. repeat split. Qed.

(** ** C52: Cluster and Clusters *)
(** one call of Cluster.add_point; [fle] is <= on floats *)
Definition cl_step {A : Arith} (fle : F A -> F A -> bool) (p : list (F A) * option Z) : SM Compat.cluster unit :=
  add_point fle (fst p) (snd p).
(** The mean: points with the same number of features, default options.  Every
    call returns, and the object holds the points and their mean. *)
Theorem C52_mean (fle : F XR -> F XR -> bool) (d : nat) (pts : list point) (i : list (option Z)) :
  Forall (fun x => length x = d) pts -> length i = length pts ->
  let h := combine (map (fun x => map Fin x) pts) i in
  let o := chist_after (cl_step (A := XR) fle) (cluster_init true false) h in
  chist_results (cl_step (A := XR) fle) (cluster_init true false) h = map (fun _ => Ok tt) pts /\
  cl_points o = map (fun x => map Fin x) pts /\ cl_len o = length pts /\
  (pts <> [] -> cl_center o = Some (map Fin (centroid d pts))).
Proof.
  intros HF Hi. cbn zeta.
  enough (HH : let h := combine (map fin pts) i in
     let o := chist_after (cl_step (A := XR) fle) (cluster_init true false) h in
     chist_results (cl_step (A := XR) fle) (cluster_init true false) h = map (fun _ => Ok tt) pts /\
     cl_points o = map fin pts /\ cl_len o = length pts /\
     match pts with
     | [] => o = cluster_init true false
     | _ => cl_radial o = true /\ cl_box o = false /\ cl_dim o = d /\ cl_center o = Some (fin (centroid d pts))
     end).
  { destruct HH as (H1 & H2 & H3 & H4). repeat split; auto. intros Hp. destruct pts; [congruence|]. apply H4. }
  cbn zeta. revert i Hi HF. induction pts as [|x pts IH] using rev_ind; intros i Hi HF.
  { destruct i; [|discriminate]. repeat split. }
  destruct (exists_last (l := i)) as (i' & j & ->).
  { intros ->. rewrite app_length in Hi. cbn in Hi. lia. }
  rewrite !app_length in Hi. cbn in Hi. apply Forall_app in HF. destruct HF as [HF Hx].
  apply Forall_inv in Hx.
  specialize (IH i' ltac:(lia) HF). destruct IH as (H1 & H2 & H3 & H4).
  assert (EC : combine (map fin (pts ++ [x])) (i' ++ [j]) = combine (map fin pts) i' ++ [(fin x, j)]).
  { assert (HL : length i' = length pts) by lia. clear -HL. revert i' HL.
    induction pts as [|y pts IH]; intros [|k i'] HL; cbn in *; try lia; auto. f_equal. apply IH. lia. }
  rewrite EC, chist_results_snoc, chist_after_snoc, H1.
  set (o := chist_after _ _ _) in *. unfold cl_step at 1 2 3 4 5 6 7 8. cbn [fst snd].
  destruct pts as [|y pts].
  - rewrite H4, add_first. cbn. repeat split; auto.
    1: unfold fin; now rewrite map_length.
    f_equal. apply (add_one_fin d x Hx).
  - destruct H4 as (Hr & Hb & Hd & Hc).
    assert (Hp : cl_points o <> []) by (rewrite H2; discriminate).
    rewrite (add_next fle (fin x) (fin (centroid d (y :: pts))) j o Hr Hb Hp Hc)
      by (unfold fin; rewrite ?map_length, ?centroid_length; congruence).
    cbn [fst snd cl_points cl_len cl_radial cl_box cl_dim cl_center].
    rewrite H2, H3. rewrite !map_app. split; [reflexivity|]. split; [reflexivity|].
    split; [rewrite app_length; reflexivity|].
    change ((y :: pts) ++ [x]) with (y :: (pts ++ [x])). cbn [app].
    repeat split; auto. f_equal. rewrite (add_div_fin d (y :: pts) x) by (auto; discriminate). reflexivity.
Qed.
Print Assumptions C52_mean.
Example C52_mean_case :
  cl_center (chist_after (cl_step (A := XR) (fun _ _ => true)) (cluster_init true false)
    [(map Fin [1%R; 2%R], None); (map Fin [3%R; 6%R], Some 7%Z)]) = Some (map Fin [2%R; 4%R]).
Proof.
  destruct (C52_mean (fun _ _ => true) 2 [[1%R; 2%R]; [3%R; 6%R]] [None; Some 7%Z]) as (_ & _ & _ & H); auto.
  etransitivity; [apply H; discriminate|]. cbn. do 2 f_equal; [|f_equal]; f_equal; field.
Qed.
(** a point with another number of features is refused and changes nothing *)
Theorem C52_other_length (A : Arith) (fle : F A -> F A -> bool) (o : Compat.cluster (A := A)) (x : list (F A)) (i : option Z) :
  cl_points o <> [] -> length x <> cl_dim o -> cl_step fle (x, i) o = (o, Err AssertionError).
Proof. intros. now apply add_wrong_dim. Qed.
Print Assumptions C52_other_length.

(** the three distances of a cluster built from [pts] to a point [x] *)
Lemma norm_2_sub x y : norm_2 (A := XR) (map2 fsub (fin x) (fin y)) = Fin (sqrt (dist2 x y)).
Proof.
  rewrite sub_fin. unfold norm_2. rewrite np_dot_fin, rdot_sub, fsqrt_fin; auto. apply dist2_nonneg.
Qed.
Lemma distances_fin d x pts : length x = d -> Forall (fun y => length y = d) pts ->
  mapE (fun y => bindE (vsub (A := XR) (fin x) y) (fun v => Ok (norm_2 v))) (map fin pts) =
  Ok (map Fin (map (fun y => sqrt (dist2 x y)) pts)).
Proof.
  intros Hx H. induction H as [|y pts Hy H IH]; [reflexivity|]. cbn [map mapE].
  rewrite vsub_ok by (unfold fin; rewrite !map_length; lia). cbn [bindE]. rewrite norm_2_sub, IH. reflexivity.
Qed.
Lemma fold_min_fin l : l <> [] -> fold_left (fminimum (a := XR)) (map Fin l) finf = Fin (rmin l).
Proof.
  intros Hl. rewrite <- vmin_fin. destruct l as [|x l]; [congruence|]. reflexivity.
Qed.
Theorem C52_distances (fle : F XR -> F XR -> bool) (d : nat) (pts : list point) (i : list (option Z)) (x : point) :
  Forall (fun y => length y = d) pts -> length i = length pts -> pts <> [] -> length x = d ->
  let o := chist_after (cl_step (A := XR) fle) (cluster_init true false) (combine (map (fun y => map Fin y) pts) i) in
  min_distance o (map Fin x) = Ok (Fin (rmin (map (fun y => sqrt (dist2 x y)) pts))) /\
  avg_distance o (map Fin x) = Ok (Fin (rsum (map (fun y => sqrt (dist2 x y)) pts) / INR (length pts))) /\
  center_distance o (map Fin x) = Ok (Fin (sqrt (dist2 (centroid d pts) x))).
Proof.
  intros HF Hi Hp Hx o. destruct (C52_mean fle d pts i HF Hi) as (_ & H1 & H2 & H3). specialize (H3 Hp).
  fold o in H1, H2, H3. clearbody o. unfold min_distance, avg_distance, center_distance.
  rewrite H1, H2, H3.
  set (m := mapE _ _).
  assert (Em : m = Ok (map Fin (map (fun y => sqrt (dist2 x y)) pts))) by exact (distances_fin d x pts Hx HF).
  clearbody m. rewrite Em. cbn [bindE].
  assert (length pts <> 0) by (destruct pts; [congruence|discriminate]).
  split; [|split].
  - rewrite fold_min_fin; auto. destruct pts; [congruence|discriminate].
  - replace (length pts =? 0) with false by (symmetry; now apply Nat.eqb_neq).
    rewrite py_sum_fin, f_of_nat_fin, fdiv_fin; auto. now apply not_0_INR.
  - rewrite vsub_ok by (rewrite !map_length, centroid_length; lia). cbn [bindE].
    do 1 f_equal. apply norm_2_sub.
Qed.
Print Assumptions C52_distances.
Example C52_distances_case :
  avg_distance (chist_after (cl_step (A := XR) (fun _ _ => true)) (cluster_init true false)
    [(map Fin [1%R; 2%R], None); (map Fin [7%R; 10%R], None)]) (map Fin [4%R; 6%R]) = Ok (Fin 5).
Proof.
  destruct (C52_distances (fun _ _ => true) 2 [[1%R; 2%R]; [7%R; 10%R]] [None; None] [4%R; 6%R]) as (_ & H & _); auto; try discriminate.
  etransitivity; [exact H|]. unfold dist2. cbn. do 2 f_equal.
  replace ((4 - 1) * (4 - 1) + ((6 - 2) * (6 - 2) + 0))%R with (5 * 5)%R by ring.
  replace ((4 - 7) * (4 - 7) + ((6 - 10) * (6 - 10) + 0))%R with (5 * 5)%R by ring.
  rewrite sqrt_square by lra. field.
Qed.
(** an empty cluster: the smallest distance is inf, the average raises *)
Theorem C52_distances_empty (A : Arith) (r b : bool) (x : list (F A)) :
  min_distance (cluster_init r b) x = Ok finf /\ avg_distance (cluster_init r b) x = Err ZeroDivisionError.
Proof. split; reflexivity. Qed.
Print Assumptions C52_distances_empty.

(** Box mode: at most one call ever returns, whatever the points. *)
Theorem C52_box_at_most_one (A : Arith) (fle : F A -> F A -> bool) (radial : bool) (h : list (list (F A) * option Z)) (i j : nat) :
  let rs := chist_results (cl_step fle) (cluster_init radial true) h in
  i < j -> nth_error rs i = Some (Ok tt) -> nth_error rs j = Some (Ok tt) -> False.
Proof.
  cbn zeta. intros Hij Hi Hj.
  assert (Hl : i < length h).
  { rewrite <- (chist_results_length (cl_step fle) (cluster_init radial true)). apply nth_error_Some. congruence. }
  destruct (nth_error h i) as [p|] eqn:Ep; [|apply nth_error_None in Ep; lia].
  apply nth_error_split in Ep. destruct Ep as (h1 & h2 & -> & Hh1).
  rewrite chist_results_app in Hi, Hj.
  rewrite nth_error_app2 in Hi, Hj by (rewrite chist_results_length; lia). rewrite chist_results_length in Hi, Hj.
  set (o := chist_after _ _ h1) in *. replace (i - length h1) with 0 in Hi by lia.
  destruct (j - length h1) as [|k] eqn:Ek; [lia|].
  assert (Hb : cl_box o = true /\ (cl_bb o = None \/ exists bb, cl_bb o = Some bb /\ 2 <= length bb)).
  { refine (proj1 (chist_inv (cl_step fle)
      (fun o => cl_box o = true /\ (cl_bb o = None \/ exists bb, cl_bb o = Some bb /\ 2 <= length bb)) (fun _ => True) _ h1 _ _)).
    - intros q s s' r [Hb Hs] E. split; [|auto]. destruct Hs as [Hs|(bb & Hs & H2)].
      + destruct (box_bb fle (fst q) (snd q) s Hb Hs) as (B1 & B2 & _). unfold cl_step in E. rewrite E in B1, B2. auto.
      + destruct (add_box fle (fst q) (snd q) s bb Hb Hs H2) as (o' & e & E' & B1 & B2 & _).
        unfold cl_step in E. rewrite E' in E. injection E as <- _. split; auto. right. eauto.
    - cbn. auto. }
  unfold chist_results in Hi, Hj. cbn [chist] in Hi, Hj.
  destruct (cl_step fle p o) as [o1 r] eqn:E1. destruct (chist (cl_step fle) o1 h2) as [o2 rs2] eqn:E2.
  cbn in Hi. injection Hi as ->. cbn [nth_error snd] in Hj.
  assert (B : cl_box o1 = true /\ exists bb, cl_bb o1 = Some bb /\ 2 <= length bb).
  { destruct Hb as [Hb [Hs|(bb & Hs & H2)]].
    - destruct (box_bb fle (fst p) (snd p) o Hb Hs) as (B1 & B2 & B3). unfold cl_step in E1. rewrite E1 in B1, B2, B3.
      cbn in *. split; auto.
    - destruct (add_box fle (fst p) (snd p) o bb Hb Hs H2) as (o' & e & E' & _).
      unfold cl_step in E1. rewrite E' in E1. discriminate. }
  refine (proj2 (chist_inv (cl_step fle)
      (fun o => cl_box o = true /\ exists bb, cl_bb o = Some bb /\ 2 <= length bb) (fun _ => False) o1 h2 _ B) tt _).
  - intros q s s' r (Hb1 & bb & Hs & H2) E.
    destruct (add_box fle (fst q) (snd q) s bb Hb1 Hs H2) as (o' & e & E' & B1 & B2 & _).
    unfold cl_step in E. rewrite E' in E. injection E as <- <-. split; [eauto|discriminate].
  - unfold chist_results. rewrite E2. cbn. eapply nth_error_In; eauto.
Qed.
Print Assumptions C52_box_at_most_one.
(** the witness: the point 0.5 twice *)
Theorem C52_box_refuted (L : Libm) :
  chist_results (cl_step (A := F64 L) SFleb) (cluster_init true true) [([dyadic 1 1], None); ([dyadic 1 1], None)] =
  [Ok tt; Err ValueError].
Proof. reflexivity. Qed.
Print Assumptions C52_box_refuted.

(** from_list: it does nothing for no samples and raises otherwise, whatever is
    in the list already *)
Theorem C52_from_list (A : Arith) (c : Z) (C : list Z) (l : list (member (A := A))) :
  from_list [] l = (l, Ok tt) /\ exists l' e, from_list (c :: C) l = (l', Err e).
Proof.
  split; [reflexivity|]. unfold from_list. cbn [sfor]. unfold sbind, smod, sret, sget, slift.
  destruct (Z.of_nat (length l) <=? c)%Z;
    (match goal with |- context [py_get ?a ?b] => destruct (py_get a b) as [[]|] end); eauto.
Qed.
Print Assumptions C52_from_list.
(** on a new Clusters object *)
Theorem C52_from_list_refuted (A : Arith) (c : Z) (C : list Z) :
  snd (from_list (A := A) (c :: C) []) = Err (if (c =? 0)%Z then AttributeError else IndexError).
Proof.
  unfold from_list. cbn [sfor]. unfold sbind, smod, sret, sget, slift. cbn [length Z.of_nat].
  destruct (Z.leb_spec 0 c).
  - destruct (Z.eqb_spec c 0) as [->|Hc]; [reflexivity|]. cbn [app].
    unfold py_get, py_index. cbn [length]. destruct c; try lia. destruct p; reflexivity.
  - destruct (Z.eqb_spec c 0) as [->|Hc]; [lia|]. destruct c; try lia. unfold py_get. destruct p; reflexivity.
Qed.
Print Assumptions C52_from_list_refuted.
