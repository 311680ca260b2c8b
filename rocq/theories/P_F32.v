(** * C78: float32 data

    What the classes keep and return when the samples are float32 arrays (the
    model is F32d.v).  The centroids of a stream are as close to the true means
    as float32 allows, whatever the number of samples; the means of a batch and
    the running mean of all samples lose a rounding per sample.  It is not true
    that the values are those of the same data converted to float64. *)
From Coq Require Import ZArith Lia Lra SpecFloat List Arith Reals Permutation.
From Flocq Require Import Core.
From Verif Require Import Num NumPy Base GetCvi Lists Step Stream Generic RunForm BatchForm P_Calls Nan P_Nan
  F64 F64o F32d Rnd RndErr RndMean RndSum RndCl Rnd32 RndMean32 RndCl32 Spec P_Round.
Import ListNotations.
Local Open Scope R_scope.
Local Notation R := Rdefinitions.R.

(** ** The specification *)
(** a number that float32 can hold, of absolute value at most [b] *)
Definition is_float32 (y : f64) : Prop :=
  valid y /\ fin y /\ exists m e : Z, (Z.abs m < 2 ^ 24)%Z /\ (-149 <= e)%Z /\ rv y = IZR m * bpow radix2 e.
Definition within32 (b : R) (s : list (list f64 * Z)) : Prop :=
  forall x l y, In (x, l) s -> In y x -> is_float32 y /\ Rabs (rv y) <= b.
Definition usual32 (b : R) : Prop := bpow radix2 (-80) <= b <= bpow radix2 90.

Lemma float32_ok b y : is_float32 y -> Rabs (rv y) <= b -> ok32 b y.
Proof.
  intros (V & Fi & m & e & Hm & He & E) Hb. repeat split; auto.
  apply (generic_format_FLT radix2 (-149) 24). exists (Float radix2 m e); auto.
Qed.
Lemma within_grp32 b d (s : list (list f64 * Z)) l : Forall (fun p => length (fst p) = d) s -> within32 b s ->
  Forall (fun x => length x = d /\ Forall (ok32 b) x) (grp s l).
Proof.
  intros Hw Hb. apply Forall_forall. intros x Hx. unfold grp in Hx. apply in_map_iff in Hx as ([x' z] & <- & Hp).
  apply filter_In in Hp as [Hp _]. rewrite Forall_forall in Hw. split; [exact (Hw _ Hp)|].
  apply Forall_forall. intros y Hy. destruct (Hb x' z y Hp Hy). now apply float32_ok.
Qed.
Lemma fcol_ok32 b d xs j : (j < d)%nat -> Forall (fun x => length x = d /\ Forall (ok32 b) x) xs -> Forall (ok32 b) (fcol j xs).
Proof.
  intros Hj HF. unfold fcol. apply Forall_map. eapply Forall_impl; [|exact HF]. intros x [H1 H2].
  rewrite Forall_forall in H2. apply H2, nth_In. now rewrite H1.
Qed.
Lemma fcol_ne j (xs : list (list f64)) : xs <> [] -> fcol j xs <> [].
Proof. intros H E. apply H. unfold fcol in E. now apply map_eq_nil in E. Qed.

(** ** Streams: the centroids, all nine classes.  The float32 part of the bound
    does not grow with the number of samples *)
Theorem C78_stream_centroids (L : Libm) (S T : Sums) (c : kind) (d : nat) (s : list (vec (F32d L S T) * Z)) vs (b : R) :
  wf_stream d s -> results c new_obj (stream s) = map Ok vs ->
  usual32 b -> within32 b s -> (Z.of_nat (length s) <= 2 ^ 48)%Z ->
  let o := after c new_obj (stream s) in
  forall l, In l (map snd s) -> exists i, lm_lookup (label_map o) l = Some i /\ (i < length (mrows (v (at_ o))))%nat /\
    row_near d (nth i (mrows (v (at_ o))) []) (true_centroid d s l)
      (3 * bpow radix2 (-24) * b + 17 * bpow radix2 (-53) * b * (size s l - 1)).
Proof.
  intros Hw Hr Hb Hwi HL o l Hl. destruct (formed_stream c d s vs Hw Hr) as (a & Ea & [_ Hk _ Hv _]).
  unfold o. rewrite Ea. cbn [label_map at_].
  assert (Hin : In l (firsts s)) by (now apply first_seen_In). destruct (index_In _ _ Hin) as [Hi Hn].
  exists (index l (firsts s)). split; [|split].
  - unfold lmap. rewrite lm_lookup_index. destruct (in_dec Z.eq_dec l (firsts s)); [reflexivity|contradiction].
  - rewrite Hv, map_length, groups_length. exact Hi.
  - rewrite Hv, (nth_groups (fun xs => c_v (cl_of xs))) by auto.
    assert (Eg : nth (index l (firsts s)) (groups s) [] = grp s l).
    { unfold groups. rewrite nth_indep with (d' := grp s 0%Z) by now rewrite map_length. rewrite map_nth. now rewrite Hn. }
    rewrite Eg. pose proof (grp_ne s l Hl) as Hne. pose proof (within_grp32 b d s l Hw Hwi) as HF.
    assert (HF' : Forall (fun x : list f64 => length x = d) (grp s l)) by (eapply Forall_impl; [|exact HF]; simpl; tauto).
    split.
    + exact (cl_of_v_length (A := F32d L S T) d _ Hne HF').
    + intros j Hj. pose proof (cl_v_nth32 L S T d (grp s l) j Hne HF' Hj) as Ev.
      destruct (near_rmean32 b (fcol j (grp s l)) Hb (fcol_ne j _ Hne) (fcol_ok32 b d _ j Hj HF)) as (_ & Hf & He).
      { unfold fcol. rewrite map_length. pose proof (grp_le s l) as Hle. apply Z.le_trans with (Z.of_nat (length s)); [apply inj_le, Hle|exact HL]. }
      rewrite <- Ev in Hf, He. split; [exact Hf|]. unfold true_centroid. rewrite cluster_grp, centroid_avg, size_grp by auto.
      unfold fcol in He. rewrite map_length in He. exact He.
Qed.
Print Assumptions C78_stream_centroids.

(** the running mean of all samples is kept in float32: a rounding per sample *)
Theorem C78_stream_mean (L : Libm) (S T : Sums) (c : kind) (d : nat) (s : list (vec (F32d L S T) * Z)) vs (b : R) :
  In c [kCH; kWB; kDB; kXB; kGD43; kGD53] ->
  wf_stream d s -> s <> [] -> results c new_obj (stream s) = map Ok vs ->
  usual32 b -> within32 b s -> (Z.of_nat (length s) <= 2 ^ 20)%Z ->
  row_near d (mu (at_ (after c new_obj (stream s)))) (centroid d (points (exact_data s)))
    (9 * bpow radix2 (-24) * b * (INR (length s) - 1)).
Proof.
  intros Hc Hw Hne Hr Hb Hwi HL. destruct (formed_stream c d s vs Hw Hr) as (a & Ea & [_ _ _ _ Hg]).
  rewrite Ea. cbn [at_]. destruct Hg as (_ & _ & _ & Hm).
  { cbn [In] in Hc. repeat (destruct Hc as [<-|Hc]; [reflexivity|]). destruct Hc. }
  rewrite (Hm Hne).
  assert (HF : Forall (fun x => length x = d /\ Forall (ok32 b) x) (map fst s)).
  { apply Forall_map, Forall_forall. intros [x z] Hp. unfold wf_stream in Hw. rewrite Forall_forall in Hw.
    split; [exact (Hw _ Hp)|]. apply Forall_forall. intros y Hy. destruct (Hwi x z y Hp Hy). now apply float32_ok. }
  assert (HF' : Forall (fun x : list f64 => length x = d) (map fst s)) by (eapply Forall_impl; [|exact HF]; simpl; tauto).
  assert (Hn : map fst s <> []) by (destruct s; [congruence|discriminate]).
  split; [exact (m_of_length L S T d _ Hn HF')|].
  intros j Hj. pose proof (m_of_nth32 L S T d (map fst s) j Hn HF' Hj) as Ev.
  destruct (near_mu32 b (fcol j (map fst s)) Hb (fcol_ne j _ Hn) (fcol_ok32 b d _ j Hj HF)) as [(_ & Hf & He) _].
  { unfold fcol. now rewrite !map_length. }
  rewrite <- Ev in Hf, He. split; [exact Hf|].
  assert (Ep : points (exact_data s) = map (map rv) (map fst s)).
  { unfold points, exact_data. rewrite !map_map. reflexivity. }
  rewrite Ep, centroid_avg by auto. unfold fcol in He. rewrite !map_length in He. exact He.
Qed.
Print Assumptions C78_stream_mean.

(** ** Batches: every order of the float32 sums *)
Theorem C78_batch_centroids (L : Libm) (S T : Sums) (c : kind) (d : nat) (s : list (vec (F32d L S T) * Z)) x (b : R) :
  any_order32 T -> wf_stream d s -> results c new_obj [batch_of d s] = [Ok x] ->
  usual32 b -> within32 b s -> (Z.of_nat (length s) <= 2 ^ 19)%Z ->
  let o := after c new_obj [batch_of d s] in
  forall i, In (Z.of_nat i) (map snd s) -> (i < length (nodup Z.eq_dec (map snd s)))%nat ->
    (i < length (mrows (v (at_ o))))%nat /\
    row_near d (nth i (mrows (v (at_ o))) []) (true_centroid d s (Z.of_nat i)) (2 * bpow radix2 (-24) * b * size s (Z.of_nat i)).
Proof.
  intros [HS _] Hw Hr Hb Hwi HL o i Hl Hi. destruct (formed_batch c d s x Hw Hr) as (a & Ea & _ & Hv & _).
  unfold o. rewrite Ea. cbn [at_]. rewrite Hv, map_length, seq_length. split; [exact Hi|].
  rewrite nth_map_seq by exact Hi.
  pose proof (grp_ne s _ Hl) as Hne. pose proof (within_grp32 b d s (Z.of_nat i) Hw Hwi) as HF.
  pose proof (grp_le s (Z.of_nat i)) as Hle.
  unfold true_centroid. rewrite cluster_grp, size_grp.
  set (xs := grp s (Z.of_nat i)) in *.
  split; [unfold mean_rows, smean0; now rewrite map_length, seq_length|]. intros j Hj.
  assert (HF' : Forall (fun x : list f64 => length x = d) xs) by (eapply Forall_impl; [|exact HF]; simpl; tauto).
  rewrite centroid_avg by auto. pose proof (mean_rows_nth32 L S T d xs j HF' Hj) as Ev.
  assert (El : length (fcol j xs) = length xs) by (unfold fcol; apply map_length).
  destruct (near_mean32 b (fcol j xs) (s_sum T (fcol j xs)) Hb (HS _) (fcol_ne j _ Hne) (fcol_ok32 b d _ j Hj HF)) as [(_ & Hf & He) _].
  - rewrite El. apply Z.le_trans with (Z.of_nat (length s)); [apply inj_le, Hle|exact HL].
  - rewrite El in Hf, He. pose proof (eq_sym Ev) as Ev'. split.
    + refine (eq_ind _ (fun z => fin z) Hf _ Ev').
    + refine (eq_ind _ (fun z => Rabs (rv z - _) <= _) He _ Ev').
Qed.
Print Assumptions C78_batch_centroids.

(** ** nan features are never lost (C44 for float32 data) *)
Lemma summed32_nan l z : summed32 l z -> Exists (fun x => x = S754_nan) l -> z = S754_nan.
Proof.
  induction 1 as [|x|a b l x y _ _ _ IHa _ IHb P]; intros E; [inversion E|inversion E as [? ? H|? ? H]; auto; inversion H|].
  apply Exists_exists in E as (w & Hw & ->). apply (Permutation_in _ P) in Hw. apply in_app_iff in Hw as [Hw|Hw].
  - rewrite IHa by (apply Exists_exists; eauto). unfold add32. cbn [narrow renorm]. now destruct (narrow y).
  - rewrite IHb by (apply Exists_exists; eauto). unfold add32. cbn [narrow renorm]. now destruct (narrow x) as [| [] | |].
Qed.
Lemma F32d_absorbing L S T : any_order S -> any_order32 T -> exp_nan L -> Absorbing (A := F32d L S T) (fun x => x = S754_nan).
Proof.
  intros HS0 [TS TD] HL. destruct (F64_absorbing L S HS0 HL) as [H1 H2 H3 H4 H5 H6 H7 H8 H9 H10 H11 H12 _ _ _ _ _].
  constructor; auto; cbn [F32d F sadd smul sdiv ssum sdot].
  - intros x y [-> | ->]; unfold add32; cbn [narrow renorm].
    + now destruct (narrow y).
    + now destruct (narrow x) as [| [] | |].
  - intros x y [-> | ->]; unfold mul32; cbn [narrow renorm]; [now destruct (narrow y)|now destruct (narrow x)].
  - intros x y H. unfold div32. assert (E : ddiv x y = S754_nan) by exact (H4 x y H). now rewrite E.
  - intros l. exact (summed32_nan l _ (TS l)).
  - intros a b H. apply (summed32_nan (prods32 a b) _ (TD a b)). revert b H. clear.
    induction a as [|x a IH]; intros [|y b] H; auto; try (inversion H; fail).
    cbn [map2 prods32] in *. inversion H; subst; auto.
Qed.
Theorem C78_nan_stream (L : Libm) (S T : Sums) (c : kind) (d : nat) (s : list (vec (F32d L S T) * Z)) (i : nat) (v : F (F32d L S T)) :
  any_order S -> any_order32 T -> exp_nan L -> c <> kGD53 -> rectangular d s ->
  nth_error (results c new_obj (stream s)) i = Some (Ok v) ->
  (c = krCIP -> returned_before i (results c new_obj (stream s))) ->
  (exists l, nan_in (A := F32d L S T) (fun x => x = S754_nan) (firstn (Datatypes.S i) s) l) ->
  (2 <= number_of_labels (firstn (Datatypes.S i) s))%nat ->
  v = S754_nan.
Proof.
  intros HS HT HL Hc Hr Hv Hb [l Hl] Hk.
  exact (c44 _ (F32d_absorbing L S T HS HT HL) c d s i v l Hr Hv Hb Hl (fun E => False_ind _ (Hc E)) Hk).
Qed.
Print Assumptions C78_nan_stream.
Theorem C78_nan_batch (L : Libm) (S T : Sums) (c : kind) (d k : nat) (s : list (vec (F32d L S T) * Z)) (v : F (F32d L S T)) :
  any_order S -> any_order32 T -> exp_nan L -> rectangular d s -> (2 <= k)%nat ->
  (forall z, In z (map snd s) <-> (0 <= z < Z.of_nat k)%Z) ->
  (exists l, nan_in (A := F32d L S T) (fun x => x = S754_nan) s l) ->
  results c new_obj [batch_of d s] = [Ok v] -> v = S754_nan.
Proof.
  intros HS HT HL Hr Hk Hl [l Hn] Hv.
  exact (c44_batch _ (F32d_absorbing L S T HS HT HL) c d k s v l Hr Hk Hl Hn Hv).
Qed.
Print Assumptions C78_nan_batch.
