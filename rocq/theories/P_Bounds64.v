(** * C66: bounds of the values computed in binary64 *)
From Coq Require Import ZArith Lia Lra SpecFloat List Arith Bool Reals Permutation.
From Flocq Require Import Core. From Flocq Require BinarySingleNaN.
From Verif Require Import Num NumPy Base GetCvi Lists Step Step2 StepB Stream Eval Shapes Hoare Generic RunForm PSForm F64 F64o Rnd RndErr P_Sign Bnd BndVal.
Import ListNotations.
Local Open Scope R_scope.
Local Notation R := Rdefinitions.R.

(** ** The specification *)
(** not a number, or a finite number between [lo] and [hi] *)
Definition within (lo hi : R) (x : f64) : Prop := x = S754_nan \/ (fin x /\ lo <= rv x <= hi).
(** every number of the data is a binary64 number, perhaps an infinity or nan *)
Definition binary64_data (s : list (list f64 * Z)) : Prop := Forall (fun p => Forall valid (fst p)) s.
(** the number of clusters *)
Definition cluster_count (s : list (list f64 * Z)) : nat := length (nodup Z.eq_dec (map snd s)).

Lemma bounded_within M x : bounded M x -> within (- M) M x.
Proof. intros [H|(_ & Hf & H)]; [now left|]. right. split; auto. now apply Rabs_le_inv. Qed.
Lemma count_le (s : list (list f64 * Z)) : (cluster_count s <= length s)%nat.
Proof.
  unfold cluster_count. rewrite <- (map_length snd s). apply NoDup_incl_length; [apply NoDup_nodup|]. intros z. now rewrite nodup_In.
Qed.
Lemma rows_valid (s : list (list f64 * Z)) : binary64_data s -> valid_rows (map fst s).
Proof.
  unfold binary64_data, valid_rows. rewrite !Forall_forall. intros H r Hr. apply in_map_iff in Hr as (p & <- & Hp). exact (H p Hp).
Qed.

Lemma filter_le {X} (f : X -> bool) l : (length (filter f l) <= length l)%nat.
Proof. induction l as [|x l IH]; cbn; [lia|]. destruct (f x); cbn; lia. Qed.

Section Run.
  Context {A : Arith}.
  (** a batch call that returned a value *)
  Lemma batch_value c d (s : list (vec A * Z)) r : results c new_obj [batch_of d s] = [Ok r] ->
    let m := mkMat d (map fst s) in let ls := map snd s in
    (1 < n_unique ls)%nat /\ covers m ls (n_unique ls) /\ exists o' o2,
    param_batch c m ls init_attrs = (o', Ok tt) /\ evaluate c o' = (o2, Ok tt) /\ r = criterion_value o2 /\
    at_ (after c new_obj [batch_of d s]) = o2.
  Proof.
    intros Hv m ls. unfold results, after, batch_of in *. cbn [run fst snd] in *. unfold get_cvi, update in *.
    cbn [at_ new_obj label_map init_attrs is_setup] in *.
    destruct (1 <? unique_labels (Labs (map snd s)))%nat eqn:EU; cbn [negb] in *; [|discriminate].
    cbn [unique_labels] in EU. apply Nat.ltb_lt in EU. fold m ls in Hv, EU |- *.
    split; [exact EU|]. split.
    { apply covers_le. unfold nrows, m, ls. cbn [mrows]. now rewrite !map_length. }
    destruct (param_batch c m ls init_attrs) as [o' [[]|e]] eqn:EB; [|discriminate]. cbn [at_ label_map] in *.
    destruct (evaluate c o') as [o2 [[]|e]] eqn:EV; [|discriminate]. cbn [fst snd] in *.
    injection Hv as <-. exists o', o2. auto.
  Qed.
End Run.

(** ** cSIL, batch: between -1 and 1 *)
Theorem C66_cSIL_batch (L : Libm) (S : Sums) (d : nat) (s : list (vec (F64o L S) * Z)) (x : f64) :
  any_order S -> binary64_data s -> (Z.of_nat (length s) <= 2 ^ 53)%Z ->
  results kcSIL new_obj [batch_of d s] = [Ok x] -> within (-1) 1 x.
Proof.
  intros HS HV HN Hr. destruct (batch_value _ _ _ _ Hr) as (Hk & HC & o' & o2 & E1 & E2 & -> & _).
  set (m := mkMat (A := F64o L S) d (map fst s)) in *. set (ls := map snd s) in *.
  assert (Hn : (n_unique ls <= nrows m)%nat).
  { unfold nrows, m. cbn [mrows]. rewrite map_length. exact (count_le s). }
  destruct (cSIL_batch m ls HC Hn) as (o1 & E3 & HB & _ & _ & _ & HS2). cbn [param_batch] in E1. rewrite E3 in E1. injection E1 as <-.
  pose proof (bc_k _ _ _ HB) as Ek.
  destruct (cSIL_eval o1) as (o3 & E4 & E5 & _).
  { rewrite Ek. exact Hk. }
  { rewrite Ek, HS2. apply wfm_tab2. }
  rewrite E4 in E2. injection E2 as <-. rewrite E5. apply (bounded_within 1). apply (bound_cSIL L S HS).
  - rewrite Ek. change (n_unique ls) with (cluster_count s). assert (1 < cluster_count s)%nat by exact Hk. assert (cluster_count s <= length s)%nat by exact (count_le s). lia.
  - intros i j. rewrite HS2.
    destruct (Nat.lt_ge_cases i (n_unique ls)) as [Hi|Hi]; [destruct (Nat.lt_ge_cases j (n_unique ls)) as [Hj|Hj]|].
    + rewrite entry_tab2 by auto. apply vp_sil; auto. now apply rows_valid.
    + unfold entry, tab2. cbn [mrows]. rewrite (nth_overflow (nth i _ _)); [apply vp_Z; lia|].
      rewrite nth_indep with (d' := map (b_sil m ls 0) (seq 0 (n_unique ls))) by (rewrite map_length, seq_length; exact Hi).
      rewrite (map_nth (fun i => map (b_sil m ls i) (seq 0 (n_unique ls)))). rewrite map_length, seq_length. exact Hj.
    + unfold entry, tab2. cbn [mrows]. rewrite (nth_overflow (map _ _)); [destruct j; apply vp_Z; lia|].
      rewrite map_length, seq_length. exact Hi.
Qed.
Print Assumptions C66_cSIL_batch.

(** ** PS: between -k and k with k clusters, whichever way the samples are given *)
Theorem C66_PS_batch (L : Libm) (S : Sums) (d : nat) (s : list (vec (F64o L S) * Z)) (x : f64) :
  any_order S -> exp_range L -> (Z.of_nat (length s) <= 2 ^ 53)%Z ->
  results kPS new_obj [batch_of d s] = [Ok x] ->
  within (- INR (cluster_count s)) (INR (cluster_count s)) x.
Proof.
  intros HS HL HN Hr. destruct (ps_batch d s x Hr) as (a & HB & HD & Hk & ->).
  set (m := mkMat (A := F64o L S) d (map fst s)) in *. set (ls := map snd s) in *.
  pose proof (bc_k _ _ _ HB) as Ek. pose proof (bc_n _ _ _ HB) as En.
  apply bounded_within. change (cluster_count s) with (n_unique ls). rewrite <- Ek. apply (bound_PS L S HS HL).
  - rewrite Ek. assert (cluster_count s <= length s)%nat by exact (count_le s). change (n_unique ls) with (cluster_count s). lia.
  - assert (list_max (n a) <= length s)%nat; [|lia]. rewrite En. apply list_max_le. apply Forall_forall. intros q Hq.
    apply in_map_iff in Hq as (i & <- & _). unfold b_n, nrows, subset. cbn [mrows]. rewrite map_length.
    unfold indices_of. eapply Nat.le_trans; [apply filter_le|]. rewrite seq_length. unfold ls. now rewrite map_length.
  - intros i y Hi Hy. apply in_remove_nth in Hy. rewrite HD in Hy. unfold D_sym, tab2 in Hy. cbn [mrows] in Hy.
    rewrite Ek in Hi. 
    rewrite nth_indep with (d' := map (fun b => fadd (if (0 <? b)%nat then b_sqd m ls 0 b else f0) (if (b <? 0)%nat then b_sqd m ls b 0 else f0)) (seq 0 (n_unique ls))) in Hy
      by (rewrite map_length, seq_length; exact Hi).
    rewrite (map_nth (fun a => map (fun b => fadd (if (a <? b)%nat then b_sqd m ls a b else f0) (if (b <? a)%nat then b_sqd m ls b a else f0)) (seq 0 (n_unique ls)))) in Hy.
    apply in_map_iff in Hy as (j & <- & _). apply dadd_plus.
    + destruct (_ <? _)%nat; [apply plus_sqd; exact HS|reflexivity].
    + destruct (_ <? _)%nat; [apply plus_sqd; exact HS|reflexivity].
Qed.
Print Assumptions C66_PS_batch.

Theorem C66_PS_stream (L : Libm) (S : Sums) (d : nat) (s : list (vec (F64o L S) * Z)) (vs : list f64) (x : f64) :
  any_order S -> exp_range L -> wf_stream d s -> (Z.of_nat (length s) <= 2 ^ 53)%Z ->
  results kPS new_obj (stream s) = map Ok (vs ++ [x]) ->
  within (- INR (cluster_count s)) (INR (cluster_count s)) x.
Proof.
  intros HS HL Hw HN Hr. destruct (ps_stream d s vs x Hw Hr) as (a & HF & HD & ->).
  destruct HF as [Hsh Ek En _ _].
  assert (Ec : cluster_count s = n_clusters a) by (rewrite Ek; symmetry; apply first_seen_length).
  assert (Hle : (cluster_count s <= length s)%nat) by exact (count_le s). rewrite Ec in *. apply bounded_within. apply (bound_PS L S HS HL).
  - lia.
  - assert (list_max (n a) <= length s)%nat; [|lia]. rewrite En. apply list_max_le. apply Forall_forall. intros q Hq.
    apply in_map_iff in Hq as (g & <- & Hg). unfold groups in Hg. apply in_map_iff in Hg as (l & <- & _). unfold grp.
    rewrite map_length. apply filter_le.
  - intros i y Hi Hy. destruct Hsh as [[-> ->]|[_ Hsh]]; [cbn in Hi; lia|]. cbn [Shape] in Hsh. pose proof (sp_D _ _ (proj1 Hsh)) as (W1 & W2 & W3).
    unfold remove_nth in Hy.
    assert (Hj : exists j, (j < n_clusters a)%nat /\ j <> i /\ y = entry (D a) i j).
    { apply in_app_or in Hy as [Hy|Hy].
      - apply (In_nth _ _ f0) in Hy as (j & Hj & <-). rewrite firstn_length in Hj. rewrite Forall_forall in W3.
        assert (HL1 : length (nth i (mrows (D a)) []) = n_clusters a) by (apply W3, nth_In; lia).
        exists j. split; [lia|]. split; [lia|]. unfold entry. rewrite <- (firstn_skipn i (nth i (mrows (D a)) [])) at 2.
        now rewrite app_nth1 by (rewrite firstn_length; lia).
      - apply (In_nth _ _ f0) in Hy as (j & Hj & <-). rewrite skipn_length in Hj. rewrite Forall_forall in W3.
        assert (HL1 : length (nth i (mrows (D a)) []) = n_clusters a) by (apply W3, nth_In; lia).
        exists (Datatypes.S i + j)%nat. split; [lia|]. split; [lia|]. unfold entry.
        rewrite <- (firstn_skipn (Datatypes.S i) (nth i (mrows (D a)) [])) at 2.
        rewrite app_nth2 by (rewrite firstn_length; lia). f_equal. rewrite firstn_length. lia. }
    destruct Hj as (j & Hj & Nij & ->). destruct (HD i j Hi Hj (not_eq_sym Nij)) as [->| ->]; apply plus_sqd; exact HS.
Qed.
Print Assumptions C66_PS_stream.

(** ** GD53, batch: one half and at most two units in the last place more, unless
    the spread of the clusters underflows *)
(** some cluster of the object has a mean squared distance above 2^-960 *)
Definition spread {L S} (a : attrs (F64o L S)) : Prop :=
  exists i, (i < length (CP a))%nat /\
    bpow radix2 (-960) <= rv (ddiv (nth i (CP a) (d_of_Z 0) : f64) (d_of_Z (Z.of_nat (nth i (n a) 0%nat)))).
Theorem C66_GD53_batch (L : Libm) (S : Sums) (d : nat) (s : list (vec (F64o L S) * Z)) (x : f64) :
  any_order S -> binary64_data s -> (2 * Z.of_nat (length s) <= 2 ^ 53)%Z ->
  results kGD53 new_obj [batch_of d s] = [Ok x] ->
  spread (at_ (after kGD53 new_obj [batch_of d s])) ->
  x = S754_infinity false \/ within 0 (/ 2 + / 2 ^ 52) x.
Proof.
  intros HS HV HN Hr. destruct (batch_value _ _ _ _ Hr) as (Hk & HC & o' & o2 & E1 & E2 & -> & ->).
  set (m := mkMat (A := F64o L S) d (map fst s)) in *. set (ls := map snd s) in *. set (k := n_unique ls) in *.
  destruct (GD53_batch m ls HC) as (o1 & E3 & HB & HCP & _ & _ & _ & HD). cbn [param_batch] in E1. rewrite E3 in E1. injection E1 as <-.
  pose proof (bc_k _ _ _ HB) as Ek. pose proof (bc_n _ _ _ HB) as En. fold k in Ek, En, HCP, HD.
  destruct (GD53_eval o1) as (o3 & E4 & E5 & HF).
  { rewrite Ek. exact Hk. }
  { rewrite Ek, HD. apply wfm_tab2. }
  { now rewrite HCP, map_length, seq_length. }
  { now rewrite En, map_length, seq_length. }
  rewrite E4 in E2. injection E2 as <-. rewrite E5. unfold spread. rewrite (fr_CP _ _ HF), (fr_n _ _ HF), HCP, En.
  intros (i0 & Hi0 & Hbig). rewrite map_length, seq_length in Hi0.
  assert (HR : valid_rows (mrows m)) by (apply rows_valid; exact HV).
  assert (Hle : forall i, (b_n m ls i <= length s)%nat).
  { intros i. unfold b_n, nrows, subset. cbn [mrows]. rewrite map_length.
    unfold indices_of. eapply Nat.le_trans; [apply filter_le|]. rewrite seq_length. unfold ls. now rewrite map_length. }
  destruct (bound_GD53 L S k (b_CP m ls) (b_n m ls) o1) as [H|[H|[H1 H2]]]; auto.
  - intros i. apply vp_CP; auto.
  - intros i j. pose proof (Hle i). pose proof (Hle j). lia.
  - intros i j Hij. rewrite HD. unfold D_sym. rewrite entry_tab2 by lia.
    destruct (Nat.ltb_spec i j); [|lia]. destruct (Nat.ltb_spec j i); [lia|]. reflexivity.
  - exists i0. split; [exact Hi0|]. eapply Rle_trans; [exact Hbig|]. right.
    rewrite (nth_indep _ _ (b_CP m ls 0)) by (rewrite map_length, seq_length; exact Hi0). rewrite map_nth, seq_nth by exact Hi0.
    rewrite (nth_indep _ _ (b_n m ls 0)) by (rewrite map_length, seq_length; exact Hi0). rewrite map_nth, seq_nth by exact Hi0.
    reflexivity.
  - right. left. exact H.
  - right. right. split; [exact H1|]. rewrite u_val in H2. simpl pow. lra.
Qed.
Print Assumptions C66_GD53_batch.

(** the value can be above one half: the clusters -a, a and -b, 0, b *)
Definition fine_data (L : Libm) : list (vec (F64o L left_right) * Z) :=
  let a := S754_finite false 0x1315472543cbf3 (-52) in let b := S754_finite false 0x175f3814df6d76 (-52) in
  [([SFopp a], 0%Z); ([a], 0%Z); ([SFopp b], 1%Z); ([d_of_Z 0], 1%Z); ([b], 1%Z)].
Theorem C66_GD53_refuted (L : Libm) : exists x,
  results kGD53 new_obj [batch_of 1 (fine_data L)] = [Ok x] /\ fin x /\ rv x = / 2 + / 2 ^ 53.
Proof.
  exists (S754_finite false 4503599627370497 (-53)). split; [vm_compute; reflexivity|]. split; [reflexivity|].
  unfold rv. cbn [BinarySingleNaN.SF2R cond_Zopp]. unfold F2R. cbn [Fnum Fexp]. change (bpow radix2 (-53)) with (/ IZR (2 ^ 53)).
  change (2 ^ 53)%Z with 9007199254740992%Z. simpl pow. lra.
Qed.
Print Assumptions C66_GD53_refuted.
(** ... and this case meets the hypotheses of the bound *)
Example C66_GD53_hypotheses (L : Libm) :
  any_order left_right /\ binary64_data (fine_data L) /\ (2 * Z.of_nat (length (fine_data L)) <= 2 ^ 53)%Z /\
  spread (at_ (after kGD53 new_obj [batch_of 1 (fine_data L)])).
Proof.
  split; [apply left_right_order|]. split; [repeat constructor|]. split; [cbn; lia|].
  exists 0%nat. split; [vm_compute; lia|].
  match goal with |- _ <= rv ?x => let y := eval vm_compute in x in change (bpow radix2 (-960) <= rv y) end.
  match goal with |- _ <= rv (S754_finite false ?m ?e) => change (bpow radix2 (-960) <= F2R (Float radix2 (Zpos m) e)) end.
  unfold F2R. cbn [Fnum Fexp]. match goal with |- _ <= _ * ?b => apply Rle_trans with (1 * b) end.
  - rewrite Rmult_1_l. apply bpow_le. lia.
  - apply Rmult_le_compat_r; [apply bpow_ge_0|]. apply IZR_le. lia.
Qed.

(** two clusters 0, 2 and 10, 14: the coefficients are close to 1 *)
Definition two_data (L : Libm) : list (vec (F64o L left_right) * Z) :=
  [(dvec [0], 0); (dvec [2], 0); (dvec [10], 1); (dvec [14], 1)]%Z.
Example C66_cSIL_example (L : Libm) :
  binary64_data (two_data L) /\
  results kcSIL new_obj [batch_of 1 (two_data L)] = [Ok (S754_finite false 8823511453545946 (-53))].
Proof. split; [repeat constructor|vm_compute; reflexivity]. Qed.
(** a library whose exponential meets the hypothesis: 1 at zero, one half at the
    other numbers *)
Definition rough : Libm :=
  mkLibm (fun x => match x with S754_nan => S754_nan | S754_zero _ => d_of_Z 1 | _ => dyadic 1 1 end)
         (fun x _ => x) (fun _ => d_of_Z 0) (fun _ => None).
Example C66_PS_example : exp_range rough /\
  results kPS new_obj [batch_of 1 (two_data rough)] = [Ok (d_of_Z 1)] /\
  results kPS new_obj (stream (two_data rough)) = map Ok ([d_of_Z 0; d_of_Z 0; dyadic 1 1] ++ [d_of_Z 1]) /\
  wf_stream 1 (two_data rough).
Proof.
  split; [split; [reflexivity|]|].
  - assert (H1 : rv (d_of_Z 1) = 1) by (apply of_Z_ok; lia).
    assert (H2 : rv (dyadic 1 1) = / 2).
    { change (dyadic 1 1) with (S754_finite false 4503599627370496 (-53)). unfold rv. cbn [BinarySingleNaN.SF2R cond_Zopp].
      unfold F2R. cbn [Fnum Fexp]. change (bpow radix2 (-53)) with (/ IZR (2 ^ 53)). change (2 ^ 53)%Z with 9007199254740992%Z. lra. }
    intros x Hx. destruct x; cbn [rough l_exp]; try contradiction; (split; [reflexivity|]; split; [reflexivity|]); rewrite ?H1, ?H2; lra.
  - split; [vm_compute; reflexivity|]. split; [vm_compute; reflexivity|]. repeat constructor.
Qed.
