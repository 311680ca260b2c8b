(** * nan features: C44.

    False of GD53: a sample with a nan that starts a cluster is not seen by the
    index until a second sample joins that cluster.  True of the other eight
    classes, and of GD53 from the second sample of that cluster on.  The
    theorems are about IEEE binary64 and about exact arithmetic with nan. *)
From Coq Require Import ZArith List Arith Bool Lia SpecFloat Permutation Reals.
From Verif Require Import Num NumPy Base GetCvi Lists Hoare Stream Shapes Generic F64 F64o XR P_Calls Nan.
Import ListNotations.

(** ** Specification vocabulary *)
Section Spec.
  Context {A : Arith}.
  (** some sample labelled [l] has a feature that [is_nan] *)
  Definition nan_in (is_nan : F A -> Prop) (s : list (vec A * Z)) (l : Z) : Prop :=
    exists x y, In (x, l) s /\ In y x /\ is_nan y.
  (** the calls before the [i]-th all returned *)
  Definition returned_before (i : nat) (rs : list (E (F A))) : Prop :=
    forall j, j < i -> exists v, nth_error rs j = Some (Ok v).
  Definition number_of_labels (s : list (vec A * Z)) : nat := length (nodup Z.eq_dec (map snd s)).
  Definition labelled (l : Z) (s : list (vec A * Z)) : nat := length (filter (fun p => Z.eqb (snd p) l) s).
End Spec.

Section Link.
  Context {A : Arith} (is_nan : F A -> Prop) (HB : Absorbing is_nan).

  Lemma nan_in_grp (s : list (vec A * Z)) l : nan_in is_nan s l -> has_nan is_nan (grp s l).
  Proof.
    intros (x & y & Hx & Hy & Hn). apply Exists_exists. exists x. split; [now apply grp_In|].
    apply Exists_exists. eauto.
  Qed.
  Lemma results_prefix c (s : list (vec A * Z)) i :
    results c new_obj (stream (firstn i s)) = firstn i (results c new_obj (stream s)).
  Proof.
    destruct (Nat.le_gt_cases (length s) i) as [H|H].
    - rewrite !firstn_all2; auto. rewrite results_length. unfold stream. now rewrite map_length.
    - assert (E : stream s = stream (firstn i s) ++ stream (skipn i s))
        by (rewrite <- stream_app; now rewrite firstn_skipn).
      rewrite E, results_app. set (r := results c new_obj (stream (firstn i s))).
      assert (Hl : length r = i).
      { unfold r. rewrite results_length. unfold stream. rewrite map_length, firstn_length. lia. }
      rewrite firstn_app, Hl, Nat.sub_diag, firstn_O, app_nil_r, firstn_all2; auto. lia.
  Qed.
  Lemma all_ok (rs : list (E (F A))) : (forall j, j < length rs -> exists v, nth_error rs j = Some (Ok v)) ->
    exists vs, rs = map Ok vs.
  Proof.
    induction rs as [|r rs IH]; intros H; [now exists []|].
    destruct (H 0) as [v Hv]; [simpl; lia|]. destruct IH as [vs E].
    - intros j Hj. apply (H (S j)). simpl. lia.
    - exists (v :: vs). simpl in Hv. injection Hv as ->. cbn [map]. now rewrite <- E.
  Qed.
  Lemma c44 c d (s : list (vec A * Z)) i v l : rectangular d s ->
    nth_error (results c new_obj (stream s)) i = Some (Ok v) ->
    (c = krCIP -> returned_before i (results c new_obj (stream s))) ->
    nan_in is_nan (firstn (S i) s) l -> (c = kGD53 -> 2 <= labelled l (firstn (S i) s)) ->
    2 <= number_of_labels (firstn (S i) s) -> is_nan v.
  Proof.
    intros Hr Hv Hok Hn H53 Hk. apply rectangular_wf in Hr.
    assert (Hb : returned_before i (results c new_obj (stream s))).
    { assert (Hc : c = krCIP \/ c <> krCIP) by (destruct c; auto; right; discriminate). destruct Hc as [Hc|Hc]; auto. intros j Hj.
      destruct (c18 c d s) as [vals E]; [now apply rectangular_wf|intros; contradiction|].
      rewrite E in *. assert (Hi : i < length vals).
      { rewrite <- (map_length (@Ok (F A))). apply nth_error_Some. congruence. }
      destruct (nth_error vals j) as [w|] eqn:Ew; [exists w; now apply map_nth_error|].
      apply nth_error_None in Ew. lia. }
    assert (Hi : i < length (results c new_obj (stream s))) by (apply nth_error_Some; congruence).
    set (rs := results c new_obj (stream s)) in *.
    assert (exists vs, firstn i rs = map Ok vs) as [vs Evs].
    { apply all_ok. rewrite firstn_length. intros j Hj. destruct (Hb j) as [w Hw]; [lia|].
      exists w. rewrite <- Hw. rewrite <- (firstn_skipn i rs) at 2. rewrite nth_error_app1; auto. rewrite firstn_length; lia. }
    apply (nan_last is_nan HB c d (firstn (S i) s) vs v l).
    - unfold wf_stream in *. apply Forall_forall. intros p Hp. rewrite Forall_forall in Hr. apply Hr.
      rewrite <- (firstn_skipn (S i) s). apply in_app_iff. now left.
    - rewrite results_prefix. fold rs. rewrite map_app. cbn [map]. rewrite <- Evs.
      clear -Hv. revert Hv. generalize rs. clear rs. induction i as [|i IH]; intros [|r rs] Hv; try discriminate.
      + injection Hv as ->. reflexivity.
      + cbn [firstn app]. f_equal. now apply IH.
    - now apply nan_in_grp.
    - intros Hc. specialize (H53 Hc). unfold labelled in H53. unfold grp. now rewrite map_length.
    - unfold firsts. rewrite first_seen_length. exact Hk.
  Qed.
  Lemma c44_batch c d k (s : list (vec A * Z)) v l : rectangular d s -> 2 <= k ->
    (forall z, In z (map snd s) <-> (0 <= z < Z.of_nat k)%Z) -> nan_in is_nan s l ->
    results c new_obj [batch_of d s] = [Ok v] -> is_nan v.
  Proof.
    intros Hr Hk Hl Hn Hv. apply rectangular_wf in Hr. apply nan_in_grp in Hn.
    assert (Hz : (0 <= l < Z.of_nat k)%Z).
    { apply Hl. apply (proj1 (first_seen_In _ _)). now apply (nan_label is_nan). }
    rewrite <- (Z2Nat.id l) in Hn by lia.
    unfold results, batch_of in Hv. cbn [run fst snd] in Hv. unfold get_cvi, update in Hv.
    cbn [at_ new_obj label_map init_attrs is_setup] in Hv.
    destruct (negb (1 <? unique_labels (Labs (map snd s)))); [discriminate|].
    destruct (param_batch c (mkMat d (map fst s)) (map snd s) init_attrs) as [o' [[]|e]] eqn:EB; [|discriminate].
    cbn [at_] in Hv. destruct (evaluate c o') as [o2 [[]|e]] eqn:EV; [|discriminate]. cbn [fst snd] in Hv. injection Hv as <-.
    apply (batch_bad is_nan HB d k s Hr Hk Hl (Z.to_nat l) ltac:(lia) Hn c o'); auto; now rewrite EV.
  Qed.
End Link.

(** ** The two arithmetics *)
(** exp(nan) is nan *)
Definition exp_nan (L : Libm) : Prop := l_exp L S754_nan = S754_nan.

(** a sum in any order *)
Lemma summed_nan l z : summed l z -> Exists (fun x => x = S754_nan) l -> z = S754_nan.
Proof.
  induction 1 as [|x|a b l x y _ _ _ IHa _ IHb P]; intros E; [inversion E|inversion E as [? ? H|? ? H]; auto; inversion H|].
  apply Exists_exists in E as (w & Hw & ->). apply (Permutation_in _ P) in Hw. apply in_app_iff in Hw as [Hw|Hw].
  - rewrite IHa by (apply Exists_exists; eauto). now destruct y.
  - rewrite IHb by (apply Exists_exists; eauto). now destruct x as [| [] | |].
Qed.
Lemma F64_absorbing L S : any_order S -> exp_nan L -> Absorbing (A := F64o L S) (fun x => x = S754_nan).
Proof.
  intros [HS HD] HL. constructor; cbn [F64o F fadd fsub fmul fdiv fminimum fmaximum fneg fsqrt fexp ftrue np_sum np_dot sadd smul sdiv ssum sdot].
  1-4: intros x y [-> | ->]; [destruct y as [| | |]|destruct x as [| | |]]; reflexivity.
  1-2: intros x y [-> | ->]; [destruct y as [| | |]|destruct x as [| [] | |[]]]; reflexivity.
  1-2: intros x ->; reflexivity.
  - intros x ->. exact HL.
  - intros x ->. reflexivity.
  - intros l. exact (summed_nan l _ (HS l)).
  - intros a b H. apply (summed_nan (dprods a b) _ (HD a b)). clear HS HD. revert b H. induction a as [|x a IH]; intros [|y b] H; auto; try (inversion H; fail).
    cbn [map2 dprods] in *. inversion H; subst; auto.
  - intros x y [-> | ->]; [destruct y as [| | |]|destruct x as [| | |]]; reflexivity.
  - intros x y [-> | ->]; [destruct y as [| | |]|destruct x as [| | |]]; reflexivity.
  - intros x y [-> | ->]; [destruct y as [| | |]|destruct x as [| | |]]; reflexivity.
  - intros l. exact (summed_nan l _ (HS l)).
  - intros a b H. apply (summed_nan (dprods a b) _ (HD a b)). clear HS HD. revert b H. induction a as [|x a IH]; intros [|y b] H; auto; try (inversion H; fail).
    cbn [map2 dprods] in *. inversion H; subst; auto.
Qed.

Lemma xsum_NaN l : Exists (fun x => x = NaN) l -> xsum l = NaN.
Proof.
  unfold xsum. generalize (Fin 0). induction l as [|a l IH]; intros x H; inversion H; subst; simpl.
  - replace (xadd x NaN) with NaN by (now destruct x). clear. induction l; auto.
  - auto.
Qed.
Lemma XR_absorbing : Absorbing (A := XR) (fun x => x = NaN).
Proof.
  constructor; cbn [XR F fadd fsub fmul fdiv fminimum fmaximum fneg fsqrt fexp ftrue np_sum np_dot sadd smul sdiv ssum sdot].
  1-6: intros x y [-> | ->]; [destruct y|destruct x]; reflexivity.
  1-4: intros x ->; reflexivity.
  - exact xsum_NaN.
  - intros a b H. apply xsum_NaN. revert b H. induction a as [|x a IH]; intros [|y b] H; auto; try (inversion H; fail).
    cbn [map2 xdot] in *. inversion H; subst; auto.
  - intros x y [-> | ->]; [destruct y|destruct x]; reflexivity.
  - intros x y [-> | ->]; [destruct y|destruct x]; reflexivity.
  - intros x y [-> | ->]; [destruct y|destruct x]; reflexivity.
  - exact xsum_NaN.
  - intros a b H. apply xsum_NaN. revert b H. induction a as [|x a IH]; intros [|y b] H; auto; try (inversion H; fail).
    cbn [map2 xdot] in *. inversion H; subst; auto.
Qed.

(** ** C44: one sample at a time *)
(** [i] is the number of the call; [firstn (S i) s] are the samples seen by then *)
Theorem C44_eight_classes_binary64 (L : Libm) (S : Sums) (c : kind) (d : nat) (s : list (vec (F64o L S) * Z)) (i : nat) (v : F (F64o L S)) :
  any_order S -> exp_nan L -> c <> kGD53 -> rectangular d s ->
  nth_error (results c new_obj (stream s)) i = Some (Ok v) ->
  (c = krCIP -> returned_before i (results c new_obj (stream s))) ->
  (exists l, nan_in (A := F64o L S) (fun x => x = S754_nan) (firstn (Datatypes.S i) s) l) ->
  2 <= number_of_labels (firstn (Datatypes.S i) s) ->
  v = S754_nan.
Proof.
  intros HS HL Hc Hr Hv Hb [l Hl] Hk.
  exact (c44 _ (F64_absorbing L S HS HL) c d s i v l Hr Hv Hb Hl (fun E => match Hc E with end) Hk).
Qed.
Print Assumptions C44_eight_classes_binary64.

Theorem C44_eight_classes_exact (c : kind) (d : nat) (s : list (vec XR * Z)) (i : nat) (v : F XR) :
  c <> kGD53 -> rectangular d s ->
  nth_error (results c new_obj (stream s)) i = Some (Ok v) ->
  (c = krCIP -> returned_before i (results c new_obj (stream s))) ->
  (exists l, nan_in (A := XR) (fun x => x = NaN) (firstn (S i) s) l) ->
  2 <= number_of_labels (firstn (S i) s) ->
  v = NaN.
Proof.
  intros Hc Hr Hv Hb [l Hl] Hk.
  exact (c44 _ XR_absorbing c d s i v l Hr Hv Hb Hl (fun E => match Hc E with end) Hk).
Qed.
Print Assumptions C44_eight_classes_exact.

(** the nan arrives third, as the first sample of label 7, and is never forgotten *)
Definition nan_data (L : Libm) : list (vec (F64 L) * Z) :=
  [(fv L [1; 2], 0); (fv L [3; 1], 5); ([S754_nan; d_of_Z 4], 7); (fv L [2; 2], 0); (fv L [9; 1], 1)]%Z.
Example C44_hypotheses (L : Libm) :
  rectangular 2 (nan_data L) /\
  nan_in (A := F64 L) (fun x => x = S754_nan) (firstn 3 (nan_data L)) 7%Z /\
  number_of_labels (firstn 3 (nan_data L)) = 3.
Proof.
  repeat split.
  - intros x l H. simpl in H. repeat destruct H as [H|H]; inversion H; reflexivity.
  - exists [S754_nan; d_of_Z 4], S754_nan. simpl. auto.
Qed.
Example C44_values (L : Libm) :
  map (fun r => match r with Ok v => dnan v | Err _ => false end) (results kXB new_obj (stream (nan_data L))) =
  [false; false; true; true; true].
Proof. vm_compute. reflexivity. Qed.

(** *** GD53 *)
Theorem C44_refuted (L : Libm) :
  let s := [(fv L [0], 0); (fv L [2], 0); ([S754_nan], 1); (fv L [5], 0)]%Z in
  rectangular 1 s /\ nan_in (A := F64 L) (fun x => x = S754_nan) (firstn 3 s) 1%Z /\
  number_of_labels (firstn 3 s) = 2 /\
  (* the third and the fourth value are numbers *)
  map (fun r => match r with Ok v => dnan v | Err _ => true end) (results kGD53 new_obj (stream s)) =
  [false; false; false; false] /\
  nth_error (results kGD53 new_obj (stream s)) 2 = Some (Ok (ddiv (ddiv (d_of_Z 2) (d_of_Z 3)) (d_of_Z 2))).
Proof.
  split; [|split; [|split; [|split]]].
  - intros x l H. simpl in H. repeat destruct H as [H|H]; inversion H; reflexivity.
  - exists [S754_nan], S754_nan. simpl. auto.
  - reflexivity.
  - vm_compute. reflexivity.
  - vm_compute. reflexivity.
Qed.
Print Assumptions C44_refuted.

Theorem C44_GD53_from_the_second_sample (L : Libm) (S : Sums) (d : nat) (s : list (vec (F64o L S) * Z)) (i : nat) (v : F (F64o L S)) (l : Z) :
  any_order S -> exp_nan L -> rectangular d s ->
  nth_error (results kGD53 new_obj (stream s)) i = Some (Ok v) ->
  nan_in (A := F64o L S) (fun x => x = S754_nan) (firstn (Datatypes.S i) s) l -> 2 <= labelled l (firstn (Datatypes.S i) s) ->
  2 <= number_of_labels (firstn (Datatypes.S i) s) ->
  v = S754_nan.
Proof.
  intros HS HL Hr Hv Hl H2 Hk.
  exact (c44 _ (F64_absorbing L S HS HL) kGD53 d s i v l Hr Hv ltac:(discriminate) Hl (fun _ => H2) Hk).
Qed.
Print Assumptions C44_GD53_from_the_second_sample.
Example C44_GD53_values (L : Libm) :
  let s := [(fv L [0], 0); (fv L [2], 0); ([S754_nan], 1); (fv L [5], 1); (fv L [3], 2)]%Z in
  nan_in (A := F64 L) (fun x => x = S754_nan) (firstn 4 s) 1%Z /\ labelled 1%Z (firstn 4 s) = 2 /\
  map (fun r => match r with Ok v => dnan v | Err _ => false end) (results kGD53 new_obj (stream s)) =
  [false; false; false; true; true].
Proof.
  split; [|split]; [|reflexivity|vm_compute; reflexivity].
  exists [S754_nan], S754_nan. simpl. auto.
Qed.

(** ** C44: one batch call, all nine classes *)
Theorem C44_batches_binary64 (L : Libm) (S : Sums) (c : kind) (d k : nat) (s : list (vec (F64o L S) * Z)) (v : F (F64o L S)) :
  any_order S -> exp_nan L -> rectangular d s -> 2 <= k ->
  (forall z, In z (map snd s) <-> (0 <= z < Z.of_nat k)%Z) ->
  (exists l, nan_in (A := F64o L S) (fun x => x = S754_nan) s l) ->
  results c new_obj [batch_of d s] = [Ok v] -> v = S754_nan.
Proof.
  intros HS HL Hr Hk Hl [l Hn] Hv.
  exact (c44_batch _ (F64_absorbing L S HS HL) c d k s v l Hr Hk Hl Hn Hv).
Qed.
Print Assumptions C44_batches_binary64.
Theorem C44_batches_exact (c : kind) (d k : nat) (s : list (vec XR * Z)) (v : F XR) :
  rectangular d s -> 2 <= k ->
  (forall z, In z (map snd s) <-> (0 <= z < Z.of_nat k)%Z) ->
  (exists l, nan_in (A := XR) (fun x => x = NaN) s l) ->
  results c new_obj [batch_of d s] = [Ok v] -> v = NaN.
Proof.
  intros Hr Hk Hl [l Hn] Hv.
  exact (c44_batch _ XR_absorbing c d k s v l Hr Hk Hl Hn Hv).
Qed.
Print Assumptions C44_batches_exact.
(** the data of the refutation, as a batch *)
Example C44_batch_GD53 (L : Libm) :
  let s := [(fv L [0], 0); (fv L [2], 0); ([S754_nan], 1); (fv L [5], 0)]%Z in
  (forall z, In z (map snd s) <-> (0 <= z < Z.of_nat 2)%Z) /\
  map (fun r => match r with Ok v => dnan v | Err _ => false end) (results kGD53 new_obj [batch_of (A := F64 L) 1 s]) = [true].
Proof.
  split; [|vm_compute; reflexivity]. intros z. cbn [map snd In]. split; [lia|]. intros H.
  assert (z = 0 \/ z = 1)%Z as [-> | ->] by lia; auto.
Qed.
