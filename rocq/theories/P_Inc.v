(** * Incremental against batch: C01-C10, C12, and the closed form of cSIL's
    streams (C53).

    Arithmetic is exact ([XR]: reals with +inf, -inf and nan and numpy's rules
    for them); the features are finite.  [stream_results c s] are the results of
    the calls [get_cvi(x, l)] on a fresh object of class [c] for the samples of
    [s]; [batch_result c d s] that of one batch call on a fresh object (Obs.v);
    [wf], [exact_labels] are in Spec.v. *)
From Coq Require Import ZArith List Arith Bool Lia Permutation.
From Verif Require Import Num NumPy Base GetCvi Lists Stream F64.
From Coq Require Import Reals Lra.
From Verif Require Import Det Spec XR SpecX XEval XRun XPerm XBatch Obs XSil XSilEx.
Import ListNotations.
Local Open Scope R_scope.

(** ** Lemmas *)
Lemma inc_eq_batch c d s i k : c <> kcSIL -> (c = krCIP -> d <> 0%nat) ->
  wf d s -> (i < length s)%nat -> (2 <= k)%nat -> exact_labels (firstn (S i) s) k ->
  exists v, nth_error (stream_results c s) i = Some (Ok v) /\ batch_result c d (firstn (S i) s) = Ok v.
Proof.
  intros Hc Hd Hw Hi Hk He. exists (XVal c d (clusters (firstn (S i) s))). split; [now apply stream_result_ok|].
  apply (batch_result_ok c d k); auto. rewrite <- (firstn_skipn (S i) s) in Hw. now apply wf_app in Hw.
Qed.
Lemma relabel_exact f s k : exact_labels s k ->
  (forall a b, (0 <= a < Z.of_nat k)%Z -> (0 <= b < Z.of_nat k)%Z -> f a = f b -> a = b) ->
  (forall a, (0 <= a < Z.of_nat k)%Z -> (0 <= f a < Z.of_nat k)%Z) ->
  exact_labels (relabel f s) k.
Proof.
  intros He Hi Hr z. assert (El : labels (relabel f s) = map f (labels s)).
  { unfold labels, relabel. now rewrite !map_map. }
  rewrite El, in_map_iff. split.
  - intros (a & <- & Ha). now apply Hr, He.
  - intros Hz. assert (Hzs : forall y, In y (zs k) <-> (0 <= y < Z.of_nat k)%Z).
    { intros y. unfold zs. rewrite in_map_iff. split.
      - intros (n & <- & Hn). apply in_seq in Hn. lia.
      - intros Hy. exists (Z.to_nat y). rewrite in_seq. lia. }
    assert (HN : NoDup (zs k)).
    { unfold zs. apply FinFun.Injective_map_NoDup; [|apply seq_NoDup]. intros p q. lia. }
    assert (HP : incl (zs k) (map f (zs k))).
    { apply NoDup_length_incl.
      - assert (HB : forall l, NoDup l -> incl l (zs k) -> NoDup (map f l)).
        { induction l as [|y l IH]; intros Hn Hl; [constructor|]. inversion Hn; subst. cbn [map]. constructor.
          - intros Hy. apply in_map_iff in Hy as (y' & E & Hy'). apply Hi in E; [subst; contradiction|apply Hzs, Hl; now right|apply Hzs, Hl; now left].
          - apply IH; auto. intros u Hu. apply Hl. now right. }
        apply HB; auto. intros u; auto.
      - now rewrite map_length.
      - intros u Hu. apply in_map_iff in Hu as (y & <- & Hy). apply Hzs, Hr, Hzs, Hy. }
    apply Hzs, HP, in_map_iff in Hz as (a & <- & Ha). exists a. split; auto. now apply He, Hzs.
Qed.
Lemma batch_invariant c d k s s' f : (c = krCIP -> d <> 0%nat) -> wf d s -> (2 <= k)%nat -> exact_labels s k ->
  Permutation s s' ->
  (forall a b, (0 <= a < Z.of_nat k)%Z -> (0 <= b < Z.of_nat k)%Z -> f a = f b -> a = b) ->
  (forall a, (0 <= a < Z.of_nat k)%Z -> (0 <= f a < Z.of_nat k)%Z) ->
  exists v, batch_result c d s = Ok v /\ batch_result c d (relabel f s') = Ok v.
Proof.
  intros Hd Hw Hk He HP Hi Hr. exists (XVal c d (clusters s)). split; [now apply (batch_result_ok c d k)|].
  assert (He' : exact_labels s' k).
  { intros z. rewrite <- (He z). unfold labels. split; apply Permutation_in, Permutation_map; auto. now symmetry. }
  assert (Hw' : wf d s') by (unfold wf in *; eapply Permutation_Forall; eauto).
  rewrite (batch_result_ok c d k); auto using relabel_wf, relabel_exact.
  apply (f_equal (@Ok _)). rewrite (XVal_data c d s s' HP). apply XVal_perm, clusters_relabel.
  intros a b Ha Hb. apply Hi; now apply He'.
Qed.
Lemma order_irrelevant c d s s' : c <> kcSIL -> (c = krCIP -> d <> 0%nat) -> wf d s -> s <> [] -> Permutation s s' ->
  exists v, stream_observed c d s v /\ stream_observed c d s' v.
Proof.
  intros Hc Hd Hw Hs HP. assert (Hw' : wf d s') by (unfold wf in *; eapply Permutation_Forall; eauto).
  assert (Hs' : s' <> []). { intros ->. apply Hs. now apply Permutation_nil, Permutation_sym. }
  destruct (stream_observed_ex c d s Hc Hw Hs Hd) as (v & H). destruct (stream_observed_ex c d s' Hc Hw' Hs' Hd) as (v' & H').
  exists v. split; auto. rewrite (stream_observed_XVal c d s v Hc Hd H), (XVal_data c d s s' HP).
  now rewrite <- (stream_observed_XVal c d s' v' Hc Hd H').
Qed.

(** data for the examples: two clusters of two, second label seen third *)
Definition ex_s : data := [([0; 0], 0%Z); ([2; 1], 0%Z); ([10; 3], 1%Z); ([11; 5], 1%Z)].
Lemma ex_wf : wf 2 ex_s. Proof. repeat constructor. Qed.
Lemma ex_exact : exact_labels (firstn 4 ex_s) 2. Proof. apply exact_two. intros z. cbn. intuition. Qed.

(** ** C01 - C08 *)
Theorem C01_CH_incremental_is_batch : forall d s i k,
  wf d s -> (i < length s)%nat -> (2 <= k)%nat -> exact_labels (firstn (S i) s) k ->
  exists v, nth_error (stream_results kCH s) i = Some (Ok v) /\ batch_result kCH d (firstn (S i) s) = Ok v.
Proof. intros d s i k. exact (inc_eq_batch kCH d s i k ltac:(discriminate) ltac:(discriminate)). Qed.
Print Assumptions C01_CH_incremental_is_batch.

Theorem C02_WB_incremental_is_batch : forall d s i k,
  wf d s -> (i < length s)%nat -> (2 <= k)%nat -> exact_labels (firstn (S i) s) k ->
  exists v, nth_error (stream_results kWB s) i = Some (Ok v) /\ batch_result kWB d (firstn (S i) s) = Ok v.
Proof. intros d s i k. exact (inc_eq_batch kWB d s i k ltac:(discriminate) ltac:(discriminate)). Qed.
Print Assumptions C02_WB_incremental_is_batch.

Theorem C03_DB_incremental_is_batch : forall d s i k,
  wf d s -> (i < length s)%nat -> (2 <= k)%nat -> exact_labels (firstn (S i) s) k ->
  exists v, nth_error (stream_results kDB s) i = Some (Ok v) /\ batch_result kDB d (firstn (S i) s) = Ok v.
Proof. intros d s i k. exact (inc_eq_batch kDB d s i k ltac:(discriminate) ltac:(discriminate)). Qed.
Print Assumptions C03_DB_incremental_is_batch.

Theorem C04_XB_incremental_is_batch : forall d s i k,
  wf d s -> (i < length s)%nat -> (2 <= k)%nat -> exact_labels (firstn (S i) s) k ->
  exists v, nth_error (stream_results kXB s) i = Some (Ok v) /\ batch_result kXB d (firstn (S i) s) = Ok v.
Proof. intros d s i k. exact (inc_eq_batch kXB d s i k ltac:(discriminate) ltac:(discriminate)). Qed.
Print Assumptions C04_XB_incremental_is_batch.

Theorem C05_GD43_incremental_is_batch : forall d s i k,
  wf d s -> (i < length s)%nat -> (2 <= k)%nat -> exact_labels (firstn (S i) s) k ->
  exists v, nth_error (stream_results kGD43 s) i = Some (Ok v) /\ batch_result kGD43 d (firstn (S i) s) = Ok v.
Proof. intros d s i k. exact (inc_eq_batch kGD43 d s i k ltac:(discriminate) ltac:(discriminate)). Qed.
Print Assumptions C05_GD43_incremental_is_batch.

Theorem C06_GD53_incremental_is_batch : forall d s i k,
  wf d s -> (i < length s)%nat -> (2 <= k)%nat -> exact_labels (firstn (S i) s) k ->
  exists v, nth_error (stream_results kGD53 s) i = Some (Ok v) /\ batch_result kGD53 d (firstn (S i) s) = Ok v.
Proof. intros d s i k. exact (inc_eq_batch kGD53 d s i k ltac:(discriminate) ltac:(discriminate)). Qed.
Print Assumptions C06_GD53_incremental_is_batch.

Theorem C07_PS_incremental_is_batch : forall d s i k,
  wf d s -> (i < length s)%nat -> (2 <= k)%nat -> exact_labels (firstn (S i) s) k ->
  exists v, nth_error (stream_results kPS s) i = Some (Ok v) /\ batch_result kPS d (firstn (S i) s) = Ok v.
Proof. intros d s i k. exact (inc_eq_batch kPS d s i k ltac:(discriminate) ltac:(discriminate)). Qed.
Print Assumptions C07_PS_incremental_is_batch.

(** rCIP divides by the number of features: at least one is needed.  [Ok v]
    also says that [np.linalg.inv] never raised. *)
Theorem C08_rCIP_incremental_is_batch : forall d s i k, d <> 0%nat ->
  wf d s -> (i < length s)%nat -> (2 <= k)%nat -> exact_labels (firstn (S i) s) k ->
  exists v, nth_error (stream_results krCIP s) i = Some (Ok v) /\ batch_result krCIP d (firstn (S i) s) = Ok v.
Proof. intros d s i k Hd. exact (inc_eq_batch krCIP d s i k ltac:(discriminate) (fun _ => Hd)). Qed.
Print Assumptions C08_rCIP_incremental_is_batch.

(** the hypotheses are met by the last prefix of [ex_s]; CH is then 41 in both
    modes *)
Example C01_C08_hypotheses :
  (2 <> 0)%nat /\ wf 2 ex_s /\ (3 < length ex_s)%nat /\ (2 <= 2)%nat /\ exact_labels (firstn 4 ex_s) 2.
Proof. split; [lia|]. split; [apply ex_wf|]. split; [cbn; lia|]. split; [lia|apply ex_exact]. Qed.
Lemma ex_CH : XVal kCH 2 (clusters ex_s) = Fin 41.
Proof.
  change (clusters ex_s) with ([[[0; 0]; [2; 1]]; [[10; 3]; [11; 5]]] : list (list point)).
  unfold XVal, CH_ext. cbn [length Nat.leb].
  replace (bgss _ _) with (205 / 2) by (unfold bgss, centroid, dist2; cbn; lra).
  replace (wgss _ _) with 5 by (unfold wgss, scatter, centroid, dist2; cbn; lra).
  replace (nsamp _) with 4 by (unfold nsamp; cbn; lra). replace (nclus _) with 2 by (unfold nclus; cbn; lra).
  unfold xdiv. destruct (Req_EM_T 5 0); [lra|]. cbn [xmul]. f_equal. lra.
Qed.
Example C01_value : nth_error (stream_results kCH ex_s) 3 = Some (Ok (Fin 41)) /\ batch_result kCH 2 ex_s = Ok (Fin 41).
Proof.
  rewrite <- ex_CH. split.
  - apply (stream_result_ok kCH 2 ex_s 3); [discriminate|discriminate|apply ex_wf|cbn; lia].
  - apply (batch_result_ok kCH 2 2); [apply ex_wf|lia|apply ex_exact|discriminate].
Qed.

(** ** C09: false of the code.  The two modes of cSIL disagree. *)
Theorem C09_cSIL_incremental_is_batch_refuted : exists d s i k,
  wf d s /\ (i < length s)%nat /\ (2 <= k)%nat /\ exact_labels (firstn (S i) s) k /\
  nth_error (stream_results kcSIL s) i = Some (Ok (Fin (/ 2))) /\
  batch_result kcSIL d (firstn (S i) s) = Ok (Fin 0).
Proof.
  exists 1%nat, sil_s1, 2%nat, 2%nat.
  assert (Hw : wf 1 sil_s1) by repeat constructor.
  assert (He : exact_labels (firstn 3 sil_s1) 2) by (apply exact_two; intros z; cbn; intuition).
  split; [exact Hw|]. split; [cbn; lia|]. split; [lia|]. split; [exact He|]. split.
  - rewrite <- sil_s1_stream. apply (sil_stream_ok 1 sil_s1 2); [exact Hw|cbn; lia].
  - rewrite <- sil_s1_batch. apply (batch_result_ok kcSIL 1 2); [exact Hw|lia|exact He|discriminate].
Qed.
Print Assumptions C09_cSIL_incremental_is_batch_refuted.

(** the same in IEEE binary64, whatever the C library's exp, pow, ... *)
Theorem C09_cSIL_binary64_refuted : forall L : Libm,
  let s := fs L [([1; 2], 0); ([4; 4], 1); ([4; 6], 1); ([2; 2], 0)]%Z in
  exists v1 v2 v3 u v,
    results kcSIL (new_obj (A := F64 L)) (stream s) = [Ok v1; Ok v2; Ok v3; Ok u] /\
    results kcSIL (new_obj (A := F64 L)) [batch_of 2 s] = [Ok v] /\
    (* u < -5/4 and v > 7/8 *)
    SpecFloat.SFltb u (dyadic (-5) 2) = true /\ SpecFloat.SFltb (dyadic 7 3) v = true.
Proof. intros L s. do 5 eexists. split; [vm_compute; reflexivity|]. split; [vm_compute; reflexivity|]. split; vm_compute; reflexivity. Qed.
Print Assumptions C09_cSIL_binary64_refuted.

(** ** C53: what cSIL returns on a stream, for every stream and every prefix *)
Theorem C53_cSIL_streams : forall d s i, wf d s -> (i < length s)%nat ->
  nth_error (stream_results kcSIL s) i = Some (Ok (cSIL_stream_ext d (firstn (S i) s))).
Proof. exact sil_stream_ok. Qed.
Print Assumptions C53_cSIL_streams.
Example C53_hypotheses : wf 1 sil_s4 /\ (3 < length sil_s4)%nat /\ cSIL_stream_ext 1 (firstn 4 sil_s4) = Fin (- (71 / 16)).
Proof. split; [repeat constructor|]. split; [cbn; lia|exact sil_s4_stream]. Qed.

(** ** C10: true of eight classes, false of cSIL.
    Full statement: the same for every class [c]. *)
Theorem C10_order_of_samples_partial : forall c d s s', c <> kcSIL -> (c = krCIP -> d <> 0%nat) ->
  wf d s -> s <> [] -> Permutation s s' ->
  exists v, stream_observed c d s v /\ stream_observed c d s' v.
Proof. exact order_irrelevant. Qed.
Print Assumptions C10_order_of_samples_partial.
Example C10_hypotheses : kDB <> kcSIL /\ wf 2 ex_s /\ ex_s <> [] /\ Permutation ex_s (rev ex_s).
Proof. split; [discriminate|]. split; [apply ex_wf|]. split; [discriminate|apply Permutation_rev]. Qed.
Theorem C10_cSIL_order_of_samples_refuted : exists d s s',
  wf d s /\ s <> [] /\ Permutation s s' /\
  stream_observed kcSIL d s (Fin (/ 2)) /\ stream_observed kcSIL d s' NInf.
Proof.
  exists 1%nat, sil_s1, sil_s2. assert (Hw : wf 1 sil_s1) by repeat constructor. assert (Hw' : wf 1 sil_s2) by repeat constructor.
  split; [exact Hw|]. split; [discriminate|]. split.
  { unfold sil_s1, sil_s2. apply Permutation_sym. apply (Permutation_cons_append [([0], 0%Z); ([2], 0%Z)]). }
  rewrite <- sil_s1_stream, <- sil_s2_stream. split; apply sil_stream_observed_ex; auto; discriminate.
Qed.
Print Assumptions C10_cSIL_order_of_samples_refuted.

(** ** C12 *)
Theorem C12_batch_invariance : forall c d k s s' f, (c = krCIP -> d <> 0%nat) ->
  wf d s -> (2 <= k)%nat -> exact_labels s k ->
  (* the rows are permuted *)
  Permutation s s' ->
  (* the labels are permuted *)
  (forall a b, (0 <= a < Z.of_nat k)%Z -> (0 <= b < Z.of_nat k)%Z -> f a = f b -> a = b) ->
  (forall a, (0 <= a < Z.of_nat k)%Z -> (0 <= f a < Z.of_nat k)%Z) ->
  exists v, batch_result c d s = Ok v /\ batch_result c d (relabel f s') = Ok v.
Proof. exact batch_invariant. Qed.
Print Assumptions C12_batch_invariance.
Example C12_hypotheses : wf 2 ex_s /\ (2 <= 2)%nat /\ exact_labels ex_s 2 /\ Permutation ex_s (rev ex_s) /\
  (let f := fun a => (1 - a)%Z in
   (forall a b, (0 <= a < 2)%Z -> (0 <= b < 2)%Z -> f a = f b -> a = b) /\ (forall a, (0 <= a < 2)%Z -> (0 <= f a < 2)%Z)).
Proof.
  split; [apply ex_wf|]. split; [lia|]. split; [apply ex_exact|]. split; [apply Permutation_rev|].
  cbv zeta. split; intros; lia.
Qed.
