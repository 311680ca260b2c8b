(** * Streams and batches of integer data without wrap-around *)
From Coq Require Import ZArith List Arith Bool Lia.
From Verif Require Import Num NumPy Base M_CH M_D M_PS GetCvi Lists Step Step2 StepB Hoare Eval Stream Shapes Generic.
From Verif Require Import M_Int IntL.
Import ListNotations.

Definition total (l : list Z) : Z := fold_right Z.add 0%Z l.
(** the integers in [_CP]: the sums of the squared norms of the clusters *)
Definition cps_of (p : list (list Z * Z)) : list Z := map (fun g => total (map sumsq g)) (groups p).

Lemma total_app a b : total (a ++ b) = (total a + total b)%Z.
Proof. unfold total. induction a as [|x a IH]; cbn; lia. Qed.
Lemma total_bounds Q l : Forall (fun z => 0 <= z <= Q)%Z l -> (0 <= total l <= Z.of_nat (length l) * Q)%Z.
Proof. unfold total. induction 1 as [|x l H _ IH]; cbn [fold_right length]; lia. Qed.

Section Stream.
  Context {A : Arith}.

  Lemma firsts_floats (p : list (list Z * Z)) : firsts (as_floats (A := A) p) = firsts p.
  Proof. unfold firsts, as_floats. now rewrite map_map. Qed.
  Lemma grp_floats (p : list (list Z * Z)) l : grp (as_floats (A := A) p) l = map floats (grp p l).
  Proof.
    unfold grp, as_floats. induction p as [|[x a] p IH]; cbn; [reflexivity|]. destruct (Z.eqb a l); cbn; now rewrite IH.
  Qed.
  Lemma groups_floats (p : list (list Z * Z)) : groups (as_floats (A := A) p) = map (map floats) (groups p).
  Proof. unfold groups. rewrite firsts_floats, map_map. apply map_ext. intros l. apply grp_floats. Qed.
  Lemma as_floats_app p q : as_floats (A := A) (p ++ q) = as_floats p ++ as_floats q.
  Proof. apply map_app. Qed.

  Lemma grp_len (p : list (list Z * Z)) l : length (grp p l) <= length p.
  Proof. unfold grp. rewrite map_length. induction p as [|[x a] p IH]; cbn; [lia|]. destruct (Z.eqb a l); cbn; lia. Qed.
  Lemma grp_in (p : list (list Z * Z)) l x : In x (grp p l) -> In (x, l) p.
  Proof.
    unfold grp. intros H. apply in_map_iff in H as ([y a] & <- & H). apply filter_In in H as [H E]. cbn in *.
    apply Z.eqb_eq in E. now subst.
  Qed.

  Lemma cps_step p x l : cps_of (p ++ [(x, l)]) = cps_next (length (firsts p)) (cps_of p) x (index l (firsts p)).
  Proof.
    unfold cps_next, cps_of. destruct (in_dec Z.eq_dec l (firsts p)) as [H|H].
    - destruct (index_In _ _ H) as [Hi _]. replace (length (firsts p) <=? index l (firsts p)) with false by (symmetry; apply Nat.leb_gt; lia).
      rewrite groups_old by auto. rewrite map_upd, map_app, total_app. cbn [map]. f_equal.
      change 0%Z with ((fun g => total (map sumsq g)) []). rewrite map_nth. unfold total at 2. cbn [fold_right]. lia.
    - rewrite index_notIn by auto. rewrite Nat.leb_refl, groups_new by auto. rewrite map_app. cbn [map]. f_equal. f_equal.
      unfold total. cbn. lia.
  Qed.

  Context (ver : numpy_version) (t : inttype) (Ht : int_ok t) (M : Z) (HX : ExactInt (A := A) M) (HM : (M <= it_max t)%Z)
          (HM' : (M <= it_max int64)%Z).
  Context (d : nat) (Q : Z) (HQ : (1 <= Q)%Z).
  Definition small (p : list (list Z * Z)) : Prop := Forall (fun q => length (fst q) = d /\ (sumsq (fst q) <= Q)%Z) p.

  Lemma sums_ok_of p x : small p -> (sumsq x <= Q)%Z -> (2 * Z.of_nat (length p + 1) * Q <= M)%Z ->
    sums_ok M (cps_of p) (map (fun l => length (grp p l)) (firsts p)) x.
  Proof.
    intros Hp Hx HB. split; [nia|]. intros cl cp m H1 H2. unfold cps_of, groups in H1. rewrite map_map in H1.
    rewrite nth_error_map in H1, H2. destruct (nth_error (firsts p) cl) as [l|] eqn:El; [|discriminate].
    cbn in H1, H2. injection H1 as <-. injection H2 as <-. apply nth_error_In in El.
    assert (Hn : grp p l <> []) by (apply grp_ne; now apply first_seen_In).
    pose proof (grp_len p l) as HL.
    assert (HT : (0 <= total (map sumsq (grp p l)) <= Z.of_nat (length (grp p l)) * Q)%Z).
    { rewrite <- (map_length sumsq). apply total_bounds. apply Forall_map. apply Forall_forall. intros y Hy.
      split; [apply sumsq_nonneg|]. apply grp_in in Hy. unfold small in Hp. rewrite Forall_forall in Hp. now apply Hp in Hy. }
    pose proof (sumsq_nonneg x). destruct (grp p l) as [|y g]; [congruence|]. split; [lia|]. split; [cbn; lia|].
    set (m := length (y :: g)) in *. split; nia.
  Qed.

  Lemma int_stream_from s : forall p (a : attrs A), small (p ++ s) -> (2 * Z.of_nat (length (p ++ s)) * Q <= M)%Z ->
    ((as_floats (A := A) p = [] /\ a = init_attrs) \/ (as_floats (A := A) p <> [] /\ Shape kcSIL d a)) -> Counted d (as_floats p) a ->
    CP a = floats (cps_of p) ->
    cSIL_int_stream ver t (mkObj (lmap (firsts p)) a) (cps_of p) s =
    results kcSIL (mkObj (lmap (firsts p)) a) (stream (as_floats s)).
  Proof.
    induction s as [|[x l] s IH]; intros p a Hp HB Hs Hc HC; [reflexivity|].
    assert (Hx : length x = d /\ (sumsq x <= Q)%Z).
    { unfold small in Hp. rewrite Forall_app in Hp. destruct Hp as [_ Hp]. now inversion Hp. }
    assert (Hpp : small p) by (unfold small in *; rewrite Forall_app in Hp; tauto).
    rewrite app_length in HB. cbn [length] in HB.
    destruct (counted_step kcSIL d (as_floats p) (floats x) l a ltac:(discriminate) Hs Hc) as (a1 & a2 & E1 & E2 & E3 & S1' & S2' & Hc').
    { rewrite floats_length. tauto. }
    destruct (ev_total kcSIL d a1 S1') as (a2' & E2' & _ & FR). rewrite E2 in E2'. injection E2' as <-.
    rewrite firsts_floats in E1. cbn [param_inc] in E1.
    destruct (int_step ver t Ht M HX HM HM' a a1 (cps_of p) x (index l (firsts p)) HC) as [EI EC].
    { rewrite (ct_n _ _ _ Hc), firsts_floats.
      replace (map _ (firsts p)) with (map (fun l => length (grp p l)) (firsts p)).
      - apply sums_ok_of; [auto|tauto|nia].
      - apply map_ext. intros b. rewrite grp_floats. now rewrite map_length. }
    { exact E1. }
    rewrite (ct_k _ _ _ Hc), firsts_floats, <- cps_step in EI, EC.
    cbn [cSIL_int_stream as_floats map fst snd stream label_map at_]. rewrite lmap_get, EI. cbn [evaluate] in E2. rewrite E2.
    unfold results. cbn [run]. unfold get_cvi, update. cbn [label_map at_]. rewrite lmap_get. cbn [param_inc]. rewrite E1. cbn [at_ evaluate label_map]. rewrite E2.
    specialize (IH (p ++ [(x, l)]) a2). rewrite firsts_snoc in IH. rewrite <- app_assoc in IH. cbn [app] in IH.
    rewrite IH.
    - unfold results. fold (as_floats (A := A) s). fold (stream (as_floats (A := A) s)). now destruct (run _ _ _).
    - exact Hp.
    - rewrite app_length. cbn [length]. exact HB.
    - right. split; auto. rewrite as_floats_app. now destruct (as_floats (A := A) p).
    - rewrite as_floats_app. exact Hc'.
    - rewrite (fr_CP _ _ FR). exact EC.
  Qed.

  Lemma cSIL_int_stream_ok s : small s -> (2 * Z.of_nat (length s) * Q <= M)%Z ->
    cSIL_int_stream ver t new_obj [] s = results kcSIL new_obj (stream (as_floats (A := A) s)).
  Proof.
    intros Hs HB. apply (int_stream_from s [] init_attrs); auto. constructor; reflexivity.
  Qed.
End Stream.

(** ** Batches of rCIP *)
Definition abs_dot (x y : list Z) : Z := fold_right Z.add 0%Z (map2 (fun a b => Z.abs (a * b)) x y).
Definition dot (x y : list Z) : Z := fold_right Z.add 0%Z (map2 Z.mul x y).
Lemma dot_abs x y : (Z.abs (dot x y) <= abs_dot x y)%Z.
Proof. unfold dot, abs_dot. revert y. induction x as [|a x IH]; intros [|b y]; cbn; try lia. specialize (IH y). lia. Qed.
Lemma dot_nonneg x y : Forall (fun z => 0 <= z)%Z x -> Forall (fun z => 0 <= z)%Z y -> (0 <= dot x y)%Z.
Proof.
  unfold dot. intros Hx. revert y. induction Hx as [|a x Ha _ IH]; intros y Hy; cbn; [lia|].
  destruct Hy as [|b y Hb Hy]; cbn; [lia|]. specialize (IH y Hy). nia.
Qed.
Lemma abs_dot_le Q x y : Forall (fun z => Z.abs z <= Q)%Z x -> Forall (fun z => Z.abs z <= Q)%Z y -> (0 <= Q)%Z ->
  (abs_dot x y <= Z.of_nat (length x) * (Q * Q))%Z.
Proof.
  unfold abs_dot. intros Hx Hy HQ. revert y Hy. induction Hx as [|a x Ha _ IH]; intros y Hy; cbn [map2 fold_right length]; [lia|].
  destruct Hy as [|b y Hb Hy]; cbn [fold_right]; [nia|]. specialize (IH y Hy). rewrite Z.abs_mul.
  pose proof (Z.mul_le_mono_nonneg (Z.abs a) Q (Z.abs b) Q). lia.
Qed.

Section Batch.
  Context {A : Arith} (t : inttype) (Ht : int_ok t) (M : Z) (HM : (M <= it_max t)%Z).
  (** the sums of products are exact as far as the covariances can tell *)
  Definition ExactGram (d : nat) : Prop := Plain A /\ forall x y c z i j, length x = length y -> (abs_dot x y <= M)%Z ->
    Forall (fun z => Z.abs z <= M)%Z x -> Forall (fun z => Z.abs z <= M)%Z y -> i < d -> j < d ->
    fadd (fmul c (fsub (np_dot (floats x) (floats y)) z)) (entry (rCIP_delta_term (A := A) d) i j) =
    fadd (fmul c (fsub (f_of_Z (dot x y)) z)) (entry (rCIP_delta_term (A := A) d) i j).
  Context (d : nat) (HG : ExactGram d) (Q : Z) (HQ : (0 <= Q)%Z).
  (** numbers of the dtype, of absolute value at most [Q] *)
  Definition entry_ok (z : Z) : Prop := (it_min t <= z <= it_max t)%Z /\ (Z.abs z <= Q)%Z.

  Lemma int_dot_ok x y : Forall entry_ok x -> Forall entry_ok y -> (abs_dot x y <= M)%Z -> int_dot t x y = dot x y.
  Proof.
    intros Hx Hy HD. unfold int_dot. fold (dot x y). pose proof (dot_abs x y) as HA. apply wrap_id; [apply Ht|].
    destruct Ht as [_ [H0|H0]].
    - assert (0 <= dot x y)%Z; [|lia]. apply dot_nonneg; (eapply Forall_impl; [|eassumption]; intros z [Hz _]; cbn beta; lia).
    - lia.
  Qed.

  Lemma mapE_floats (data : list (list Z)) idx : mapE (get_item (map (floats (A := A)) data)) idx =
    let* r := mapE (get_item data) idx in Ok (map floats r).
  Proof.
    induction idx as [|i idx IH]; cbn [mapE]; [reflexivity|]. rewrite IH.
    replace (get_item (map (floats (A := A)) data) i) with (let* r := get_item data i in Ok (floats (A := A) r)) by (unfold get_item; rewrite nth_error_map; now destruct (nth_error data i)).
    destruct (get_item data i); cbn [bindE]; [|reflexivity]. destruct (mapE (get_item data) idx); cbn [bindE map]; reflexivity.
  Qed.
  Lemma mapE_in {X} (data : list X) idx r : mapE (get_item data) idx = Ok r -> length r = length idx /\ incl r data.
  Proof.
    revert r. induction idx as [|i idx IH]; intros r; cbn; [intros [= <-]; split; [reflexivity|intros y []]|].
    unfold get_item at 1. destruct (nth_error data i) as [y|] eqn:Ey; cbn [bindE]; [|discriminate].
    destruct (mapE _ idx) as [r'|]; cbn [bindE]; [|discriminate]. intros [= <-]. destruct (IH _ eq_refl) as [H1 H2].
    split; [cbn; lia|]. intros z [<-|Hz]; [now apply nth_error_In in Ey|auto].
  Qed.
  Lemma col_floats (rows : list (list Z)) i : col (mkMat d (map (floats (A := A)) rows)) i = floats (map (fun r => nth i r 0%Z) rows).
  Proof.
    unfold col, floats. cbn [mrows]. rewrite !map_map. apply map_ext. intros r. apply (map_nth (f_of_Z (a := A))).
  Qed.

  Definition rows_ok (rows : list (list Z)) : Prop := Forall (fun r => length r = d /\ Forall entry_ok r) rows.
  Lemma col_ok rows i : rows_ok rows -> i < d -> Forall entry_ok (map (fun r => nth i r 0%Z) rows).
  Proof.
    intros H Hi. apply Forall_map. eapply Forall_impl; [|exact H]. intros r [Hl Hr]. rewrite Forall_forall in Hr. apply Hr, nth_In. lia.
  Qed.

  Lemma int_body_ok data labels ix (o : attrs A) : rows_ok data -> (Z.of_nat (length labels) * (Q * Q) <= M)%Z ->
    delta_term o = rCIP_delta_term d ->
    rCIP_int_batch_body t d data labels ix o = rCIP_batch_body (mkMat d (map floats data)) labels ix o.
  Proof.
    intros HR HB Hd. unfold rCIP_int_batch_body, rCIP_batch_body, take_rows, row. cbn [mrows mcols].
    pose proof (plain_smean0 (proj1 HG)) as EM. rewrite mapE_floats. destruct (mapE _ (indices_of ix labels)) as [rows|e] eqn:Er; cbn [bindE]; [|reflexivity].
    destruct (mapE_in _ _ _ Er) as [Hl Hi].
    assert (Hrows : rows_ok rows) by (apply Forall_forall; intros r Hr; unfold rows_ok in HR; rewrite Forall_forall in HR; auto).
    assert (HL : length rows <= length labels).
    { rewrite Hl. unfold indices_of. rewrite <- (seq_length (length labels) 0) at 2. generalize (seq 0 (length labels)). intros l.
      induction l as [|a l IH]; cbn; [lia|]. destruct (_ =? _)%Z; cbn; lia. }
    rewrite !(bind_lift _ _ _ _ eq_refl), !bind_get. unfold nrows. cbn [mrows]. rewrite map_length.
    rewrite EM. sx. destruct (Nat.ltb_spec 1 (length rows)) as [Hr1|_]; [|reflexivity].
    assert (HQM : (Q <= M)%Z).
    { assert (HN : (1 <= Z.of_nat (length labels))%Z) by lia. clear - HB HN HQ. revert HN HB. generalize (Z.of_nat (length labels)). intros n Hn HB.
      assert (Q <= Q * Q)%Z by nia. assert (0 <= Q * Q)%Z by lia. nia. }
    set (sub := mkMat d (map floats rows)). set (w := mean0 sub). set (c := fdiv f1 _).
    assert (Lw : length w = d) by (unfold w; rewrite mean0_length; reflexivity).
    assert (Ho : wfm d d (mscal (f_of_nat (length rows)) (outer w w))).
    { apply wfm_mscal. pose proof (wfm_outer w w) as H. now rewrite Lw in H. }
    assert (H1 : wfm d d (int_gram (A := A) t d rows)) by apply wfm_tab2.
    assert (H2 : wfm d d (gram sub)) by apply wfm_tab2.
    unfold msub. rewrite !(bc2_ok _ d d) by auto. rewrite !(bind_lift _ _ _ _ eq_refl).
    rewrite Hd. unfold madd.
    assert (H3 : wfm d d (rCIP_delta_term (A := A) d)) by apply wfm_tab2.
    rewrite !(bc2_ok _ d d) by auto using wfm_mscal, wfm_tab2. rewrite !(bind_lift _ _ _ _ eq_refl).
    f_equal. f_equal. f_equal. apply tab2_ext. intros i j Hi' Hj'.
    rewrite !(entry_mscal d d _ (tab2 _ _ _)) by auto using wfm_tab2. rewrite !entry_tab2 by auto.
    unfold int_gram, gram. rewrite (pl_dot _ (proj1 HG)). rewrite !entry_tab2 by auto. unfold sub. rewrite !col_floats.
    assert (HD : (abs_dot (map (fun r => nth i r 0%Z) rows) (map (fun r => nth j r 0%Z) rows) <= M)%Z).
    { eapply Z.le_trans; [apply (abs_dot_le Q); auto; eapply Forall_impl; try (apply col_ok; eassumption); intros z [_ Hz]; exact Hz|].
      rewrite map_length. nia. }
    assert (HF : forall k, k < d -> Forall (fun z => Z.abs z <= M)%Z (map (fun r => nth k r 0%Z) rows)).
    { intros k Hk. eapply Forall_impl; [|apply col_ok; eassumption]. intros z [_ Hz]. lia. }
    rewrite int_dot_ok by (auto using col_ok). symmetry.
    apply (proj2 HG (map (fun r => nth i r 0%Z) rows) (map (fun r => nth j r 0%Z) rows)); auto. now rewrite !map_length.
  Qed.

  Lemma body_delta (m : mat A) labels ix (o o' : attrs A) : rCIP_batch_body m labels ix o = (o', Ok tt) -> delta_term o' = delta_term o.
  Proof.
    unfold rCIP_batch_body. destruct (take_rows m _) as [sub|]; [|discriminate]. rewrite (bind_lift _ _ _ _ eq_refl). rewrite bind_get, !bind_modify.
    destruct (1 <? nrows sub).
    - destruct (msub _ _); [|discriminate]. rewrite (bind_lift _ _ _ _ eq_refl). destruct (madd _ _); [|discriminate].
      rewrite (bind_lift _ _ _ _ eq_refl). now intros [= <-].
    - now intros [= <-].
  Qed.
  Lemma bind_congr {X Y} (m m' : Base.M A X) (k : X -> Base.M A Y) o : m o = m' o -> bind m k o = bind m' k o.
  Proof. intros H. unfold bind. now rewrite H. Qed.
  Lemma for_eq {X} (f g : X -> Base.M A unit) (P : attrs A -> Prop) l : (forall ix o, P o -> f ix o = g ix o) ->
    (forall ix o o', P o -> g ix o = (o', Ok tt) -> P o') -> forall o, P o -> for_ l f o = for_ l g o.
  Proof.
    intros H1 H2. induction l as [|a l IH]; intros o Ho; cbn [for_]; [reflexivity|]. unfold bind. rewrite (H1 a o Ho).
    destruct (g a o) as [o' [[]|e]] eqn:Eg; [|reflexivity]. apply IH. eauto.
  Qed.

  Lemma rCIP_int_batch_ok (s : list (list Z * Z)) : rows_ok (map fst s) -> (Z.of_nat (length s) * (Q * Q) <= M)%Z ->
    [rCIP_int_batch (A := A) t d s] = results krCIP new_obj [batch_of d (as_floats s)].
  Proof.
    intros HR HB. unfold rCIP_int_batch, results, batch_of. cbn [run]. unfold get_cvi, update. cbn [at_ new_obj init_attrs is_setup label_map].
    cbn [unique_labels]. unfold as_floats. rewrite !map_map. cbn [fst snd].
    destruct (1 <? n_unique (map snd s)); cbn [negb]; [|reflexivity].
    assert (EB : rCIP_int_param_batch t d (map fst s) (map snd s) init_attrs =
                 rCIP_param_batch (mkMat (A := A) d (map floats (map fst s))) (map snd s) init_attrs).
    { unfold rCIP_int_param_batch, rCIP_param_batch, base_setup_batch. cbn [mcols]. sx. destruct (d =? 0); [now rewrite !bind_raise|]. sx.
      apply bind_congr. apply (for_eq _ _ (fun o => delta_term o = rCIP_delta_term d)).
      - intros ix o Ho. apply int_body_ok; auto. now rewrite map_length.
      - intros ix o o' Ho Eo. rewrite (body_delta _ _ _ _ _ Eo). exact Ho.
      - reflexivity. }
    rewrite EB. rewrite map_map. cbn [param_batch]. change (map (fun x : list Z * Z => snd x) s) with (map snd s).
    match goal with |- context [rCIP_param_batch ?a ?b ?c] => generalize (rCIP_param_batch a b c) end. intros [a1 [[]|e]]; [|reflexivity].
    cbn [at_ evaluate label_map]. generalize (rCIP_evaluate a1). intros [a2 [[]|e]]; reflexivity.
  Qed.
End Batch.
