(** * Bounds, invariance and degenerate data: C32 - C39

    Exact arithmetic, finite features.  [observed c d s v]: a fresh object of
    class [c] returned [v] for the data [s] ([d] features), from one batch call
    with labels 0..k-1, k >= 2, or from the last of the one-sample calls (Obs.v). *)
From Coq Require Import ZArith List Arith Bool Lia Permutation.
From Verif Require Import Num NumPy Base GetCvi.
From Coq Require Import Reals Lra.
From Verif Require Import Det Spec XR SpecX RGeom XLift XEval XRun XPerm XBatch Obs XSil XSilEx XForm XBounds XSim XMove P_Inc P_Formula.
Import ListNotations.
Local Open Scope R_scope.

(** ** Lemmas *)
Lemma observed_wf c d s v : observed c d s v -> wf d s.
Proof. now intros [[H _]|[H _]]. Qed.
Lemma XVal_le1 c d gs : ~ (2 <= length gs)%nat -> XVal c d gs = Fin 0.
Proof. intros H. unfold XVal. destruct (Nat.leb_spec (length gs) 1); [auto|lia]. Qed.
Lemma XVal_ext c d gs : (2 <= length gs)%nat -> XVal c d gs = match c with
  | kCH => CH_ext d gs | kWB => WB_ext d gs | kDB => DB_ext d gs | kXB => XB_ext d gs
  | kGD43 => GD43_ext d gs | kGD53 => GD53_ext d gs | kPS => PS_ext d gs
  | krCIP => rCIP_ext d gs | kcSIL => cSIL_ext d gs
  end.
Proof. intros H. unfold XVal. destruct (Nat.leb_spec (length gs) 1); [lia|auto]. Qed.
(** reduction of a claim about observed values to one about partitions *)
Lemma observed_elim c d s (P : list (list point) -> xr -> Prop) v : c <> kcSIL -> (c = krCIP -> d <> 0%nat) ->
  (forall gs, good d gs -> (2 <= length gs)%nat -> P gs (XVal c d gs)) ->
  observed c d s v -> (2 <= length (distinct s))%nat -> P (clusters s) v.
Proof.
  intros Hc Hd H Ho Hk. rewrite (observed_XVal c d s v Hc Hd Ho). apply H; [apply clusters_good; now apply observed_wf in Ho|].
  now rewrite distinct_clusters.
Qed.
Lemma batch_elim c d s (P : list (list point) -> xr -> Prop) v : (c = krCIP -> d <> 0%nat) ->
  (forall gs, good d gs -> (2 <= length gs)%nat -> P gs (XVal c d gs)) ->
  batch_observed c d s v -> P (clusters s) v.
Proof.
  intros Hd H Ho. rewrite (batch_observed_XVal c d s v Hd Ho). destruct Ho as (Hw & (k & Hk & He) & _).
  apply H; [now apply clusters_good|]. now rewrite (exact_length s k He).
Qed.
Lemma nonneg_observed c d s v : c <> kPS -> c <> kcSIL -> (c = krCIP -> d <> 0%nat) -> observed c d s v -> nonneg_value v.
Proof.
  intros H1 H2 Hd Ho. apply nonneg_xnn. rewrite (observed_XVal c d s v H2 Hd Ho).
  destruct (le_lt_dec 2 (length (clusters s))) as [Hk|Hk].
  - apply XVal_nonneg; auto. apply clusters_good. now apply observed_wf in Ho.
  - rewrite XVal_le1 by lia. cbn. lra.
Qed.
Lemma GD53_observed d s r : observed kGD53 d s (Fin r) -> 0 <= r <= / 2.
Proof.
  intros Ho. pose proof (observed_XVal kGD53 d s (Fin r) ltac:(discriminate) ltac:(discriminate) Ho) as E.
  destruct (le_lt_dec 2 (length (clusters s))) as [Hk|Hk].
  - rewrite XVal_ext in E by auto. eapply GD53_half; eauto. apply clusters_good. now apply observed_wf in Ho.
  - rewrite XVal_le1 in E by lia. inversion E. lra.
Qed.
Lemma cSIL_observed d s r : batch_observed kcSIL d s (Fin r) -> -1 <= r <= 1.
Proof.
  intros Ho. refine (batch_elim kcSIL d s (fun gs v => forall r, v = Fin r -> -1 <= r <= 1) (Fin r) _ _ Ho r eq_refl); [discriminate|].
  intros gs Hg Hk r'. rewrite XVal_ext by auto. now apply cSIL_bound.
Qed.
Lemma PS_observed d s v : observed kPS d s v -> (2 <= length (distinct s))%nat ->
  let k := INR (length (distinct s)) in
  ((forall g h, In g (clusters s) -> In h (clusters s) -> centroid d g = centroid d h) /\ v = NaN) \/
  (~ (forall g h, In g (clusters s) -> In h (clusters s) -> centroid d g = centroid d h) /\ exists r, v = Fin r /\ - k < r < k).
Proof.
  intros Ho Hk k. unfold k. rewrite <- distinct_clusters.
  apply (observed_elim kPS d s (fun gs v => ((forall g h, In g gs -> In h gs -> centroid d g = centroid d h) /\ v = NaN) \/
    (~ (forall g h, In g gs -> In h gs -> centroid d g = centroid d h) /\ exists r, v = Fin r /\ - INR (length gs) < r < INR (length gs)))); auto; try discriminate.
  intros gs Hg Hk'. rewrite XVal_ext by auto. destruct (Req_dec (PS_beta d gs) 0) as [E|E].
  - left. pose proof (proj1 (beta_zero d gs Hk') E). split; auto. now apply PS_nan.
  - right. assert (H : ~ (forall g h, In g gs -> In h gs -> centroid d g = centroid d h)).
    { intros H. apply E. now apply beta_zero. }
    split; auto. eexists. split; [now apply PS_form|]. destruct (PS_bound d gs Hg Hk') as [B|B]; [exact B|contradiction].
Qed.
Lemma stream_results_ext c s s' : length s = length s' ->
  (forall i, (i < length s)%nat -> nth_error (stream_results c s) i = nth_error (stream_results c s') i) ->
  stream_results c s = stream_results c s'.
Proof.
  intros L H. assert (HE : forall (a b : list (E (F XR))), length a = length b ->
    (forall i, (i < length a)%nat -> nth_error a i = nth_error b i) -> a = b).
  { induction a as [|x a IH]; intros [|y b] L' H'; try discriminate; auto. injection L' as L'. f_equal.
    - pose proof (H' 0%nat (Nat.lt_0_succ _)) as H0. cbn in H0. congruence.
    - apply IH; [exact L'|]. intros i Hi. apply (H' (S i)). simpl. now apply -> Nat.succ_lt_mono. }
  apply HE; rewrite !stream_results_length; auto.
Qed.
Lemma wf_firstn d s i : wf d s -> wf d (firstn i s).
Proof. intros H. rewrite <- (firstn_skipn i s) in H. now apply wf_app in H. Qed.
Lemma translate_batch c d k t s : (c = krCIP -> d <> 0%nat) -> length t = d -> wf d s -> (2 <= k)%nat -> exact_labels s k ->
  exists v, batch_result c d s = Ok v /\ batch_result c d (translate t s) = Ok v.
Proof.
  intros Hd Ht Hw Hk He. exists (XVal c d (clusters s)). rewrite translate_tmap. split; [now apply (batch_result_ok c d k)|].
  rewrite (batch_result_ok c d k); auto using tmap_exact.
  - rewrite tmap_clusters, translate_XVal; auto using clusters_good.
  - apply tmap_wf; auto. intros; now apply shift_length.
Qed.
Lemma translate_stream c d t s : c <> kcSIL -> (c = krCIP -> d <> 0%nat) -> length t = d -> wf d s ->
  stream_results c (translate t s) = stream_results c s.
Proof.
  intros Hc Hd Ht Hw. rewrite translate_tmap.
  assert (Hw' : wf d (tmap (shift t) s)) by (apply tmap_wf; auto; intros; now apply shift_length).
  assert (L : length (tmap (shift t) s) = length s) by (unfold tmap; now rewrite map_length).
  apply stream_results_ext; auto. intros i Hi. rewrite !(stream_result_ok c d) by (auto; lia).
  rewrite tmap_firstn, tmap_clusters, translate_XVal; auto. apply clusters_good. now apply wf_firstn.
Qed.
Lemma rescale_batch c d k u s : u <> 0 -> c <> kGD43 -> c <> krCIP -> wf d s -> (2 <= k)%nat -> exact_labels s k ->
  exists v, batch_result c d s = Ok v /\ batch_result c d (rescale u s) = Ok v.
Proof.
  intros Hu H1 H2 Hw Hk He. exists (XVal c d (clusters s)). rewrite rescale_tmap. split; [apply (batch_result_ok c d k); auto; congruence|].
  rewrite (batch_result_ok c d k); auto using tmap_exact; try congruence.
  - rewrite tmap_clusters, rescale_XVal; auto using clusters_good.
  - apply tmap_wf; auto. intros; now apply scale_length.
Qed.
Lemma rescale_stream c d u s : u <> 0 -> c <> kGD43 -> c <> krCIP -> wf d s ->
  stream_results c (rescale u s) = stream_results c s.
Proof.
  intros Hu H1 H2 Hw. rewrite rescale_tmap.
  assert (Hw' : wf d (tmap (scale u) s)) by (apply tmap_wf; auto; intros; now apply scale_length).
  assert (L : length (tmap (scale u) s) = length s) by (unfold tmap; now rewrite map_length).
  apply stream_results_ext; auto. intros i Hi. destruct (kind_eq c kcSIL) as [->|Hc].
  - rewrite !(sil_stream_ok d) by (auto; lia). rewrite tmap_firstn, rescale_stream_cSIL; auto. now apply wf_firstn.
  - rewrite !(stream_result_ok c d) by (auto; try lia; congruence).
    rewrite tmap_firstn, tmap_clusters, rescale_XVal; auto. apply clusters_good. now apply wf_firstn.
Qed.
Lemma GD43_batch d k u s : u <> 0 -> wf d s -> (2 <= k)%nat -> exact_labels s k ->
  exists v, batch_result kGD43 d s = Ok v /\ batch_result kGD43 d (rescale u s) = Ok (xmul (Fin (/ Rabs u)) v).
Proof.
  intros Hu Hw Hk He. exists (XVal kGD43 d (clusters s)). rewrite rescale_tmap. split; [apply (batch_result_ok kGD43 d k); auto; discriminate|].
  rewrite (batch_result_ok kGD43 d k); auto using tmap_exact; try discriminate.
  - rewrite tmap_clusters, rescale_GD43; auto using clusters_good.
  - apply tmap_wf; auto. intros; now apply scale_length.
Qed.
Lemma GD43_stream d u s : u <> 0 -> wf d s -> forall i v, nth_error (stream_results kGD43 s) i = Some (Ok v) ->
  nth_error (stream_results kGD43 (rescale u s)) i = Some (Ok (xmul (Fin (/ Rabs u)) v)).
Proof.
  intros Hu Hw i v H. assert (Hi : (i < length s)%nat). { rewrite <- (stream_results_length kGD43). apply nth_error_Some. congruence. }
  rewrite (stream_result_ok kGD43 d) in H by (auto; discriminate). inversion H; subst v. rewrite rescale_tmap.
  rewrite (stream_result_ok kGD43 d); try discriminate.
  - rewrite tmap_firstn, tmap_clusters, rescale_GD43; auto. apply clusters_good. now apply wf_firstn.
  - apply tmap_wf; auto. intros; now apply scale_length.
  - unfold tmap. now rewrite map_length.
Qed.

(** ** C32 *)
Theorem C32_nonnegative : forall c d s v, c <> kPS -> c <> kcSIL -> (c = krCIP -> d <> 0%nat) ->
  observed c d s v -> v = NaN \/ v = PInf \/ exists r, v = Fin r /\ 0 <= r.
Proof. exact nonneg_observed. Qed.
Print Assumptions C32_nonnegative.
Example C32_hypotheses : kDB <> kPS /\ kDB <> kcSIL /\ (exists v, batch_observed kDB 2 ex_s v) /\ (exists v, stream_observed krCIP 2 ex_s v).
Proof.
  split; [discriminate|]. split; [discriminate|]. split.
  - apply (batch_observed_ex kDB 2 2); [apply ex_wf|lia|apply ex_exact|discriminate].
  - apply stream_observed_ex; [discriminate|apply ex_wf|discriminate|lia].
Qed.

(** ** C33 *)
Theorem C33_GD53_at_most_half : forall d s r, observed kGD53 d s (Fin r) -> 0 <= r <= / 2.
Proof. exact GD53_observed. Qed.
Print Assumptions C33_GD53_at_most_half.
(** the bound is reached *)
Example C33_hypotheses : batch_observed kGD53 2 ex_s (Fin (/ 2)).
Proof.
  split; [apply ex_wf|]. split; [exists 2%nat; split; [lia|apply ex_exact]|].
  rewrite (C28_GD53_formula 2 2 ex_s ex_wf ltac:(lia) ex_exact).
  - apply (f_equal (@Ok _)), (f_equal Fin). rewrite ex_clusters. unfold GD53_formula. cbn [pairs map app fst snd rmin rmax fold_right].
    rewrite ex_sg, ex_sh, ex_mg, ex_mh, Rmax_left by lra. unfold ex_g, ex_h. cbn. field.
  - rewrite ex_clusters. cbn [map rmax fold_right]. rewrite ex_mg, ex_mh, Rmax_left; lra.
Qed.

(** ** C34: true of batches, false of streams.
    Full statement: the same with [observed] for [batch_observed]. *)
Theorem C34_cSIL_bounds_partial : forall d s r, batch_observed kcSIL d s (Fin r) -> -1 <= r <= 1.
Proof. exact cSIL_observed. Qed.
Print Assumptions C34_cSIL_bounds_partial.
Example C34_hypotheses : batch_observed kcSIL 1 sil_s1 (Fin 0).
Proof.
  assert (Hw : wf 1 sil_s1) by repeat constructor.
  assert (He : exact_labels sil_s1 2) by (apply exact_two; intros z; cbn; intuition).
  split; [exact Hw|]. split; [exists 2%nat; split; [lia|exact He]|]. rewrite <- sil_s1_batch.
  apply (batch_result_ok kcSIL 1 2); [exact Hw|lia|exact He|discriminate].
Qed.
Theorem C34_cSIL_streams_refuted : exists d s, stream_observed kcSIL d s (Fin (- (71 / 16))).
Proof.
  exists 1%nat, sil_s4. rewrite <- sil_s4_stream. apply sil_stream_observed_ex; [repeat constructor|discriminate].
Qed.
Print Assumptions C34_cSIL_streams_refuted.

(** ** C35 *)
Theorem C35_PS_bounds : forall d s v, observed kPS d s v -> (2 <= length (distinct s))%nat ->
  let k := INR (length (distinct s)) in
  let all_equal := forall g h, In g (clusters s) -> In h (clusters s) -> centroid d g = centroid d h in
  (all_equal /\ v = NaN) \/ (~ all_equal /\ exists r, v = Fin r /\ - k < r < k).
Proof. exact PS_observed. Qed.
Print Assumptions C35_PS_bounds.
Example C35_hypotheses : (2 <= length (distinct ex_s))%nat /\ exists v, stream_observed kPS 2 ex_s v.
Proof. split; [cbn; lia|]. apply stream_observed_ex; [discriminate|apply ex_wf|discriminate|discriminate]. Qed.

(** ** C36: true of batches of all nine classes and of streams of the eight
    classes other than cSIL; false of cSIL's streams.
    Full statement: [C36_translation_streams_partial] without [c <> kcSIL]. *)
Theorem C36_translation_batch : forall c d k t s, (c = krCIP -> d <> 0%nat) -> length t = d ->
  wf d s -> (2 <= k)%nat -> exact_labels s k ->
  exists v, batch_result c d s = Ok v /\ batch_result c d (translate t s) = Ok v.
Proof. exact translate_batch. Qed.
Print Assumptions C36_translation_batch.
Theorem C36_translation_streams_partial : forall c d t s, c <> kcSIL -> (c = krCIP -> d <> 0%nat) -> length t = d -> wf d s ->
  stream_results c (translate t s) = stream_results c s.
Proof. exact translate_stream. Qed.
Print Assumptions C36_translation_streams_partial.
Example C36_hypotheses : krCIP <> kcSIL /\ (2 <> 0)%nat /\ length [5; -3] = 2%nat /\ wf 2 ex_s /\ (2 <= 2)%nat /\ exact_labels ex_s 2.
Proof. repeat (split; [discriminate || lia || reflexivity || apply ex_wf|]). apply ex_exact. Qed.
Theorem C36_cSIL_translation_refuted : exists d t s, length t = d /\ wf d s /\
  stream_observed kcSIL d s (Fin (/ 2)) /\ stream_observed kcSIL d (translate t s) (Fin 0).
Proof.
  exists 1%nat, [-1], sil_s1. split; [reflexivity|]. split; [repeat constructor|]. split.
  - rewrite <- sil_s1_stream. apply sil_stream_observed_ex; [repeat constructor|discriminate].
  - assert (E : translate [-1] sil_s1 = sil_s3).
    { unfold translate, sil_s1, sil_s3. cbn. repeat (f_equal; try lra). }
    rewrite E, <- sil_s3_stream. apply sil_stream_observed_ex; [repeat constructor|discriminate].
Qed.
Print Assumptions C36_cSIL_translation_refuted.

(** ** C37: all classes named, in both modes; GD43 obeys the law 1/|u| *)
Theorem C37_units_batch : forall c d k u s, u <> 0 -> c <> kGD43 -> c <> krCIP ->
  wf d s -> (2 <= k)%nat -> exact_labels s k ->
  exists v, batch_result c d s = Ok v /\ batch_result c d (rescale u s) = Ok v.
Proof. exact rescale_batch. Qed.
Print Assumptions C37_units_batch.
Theorem C37_units_streams : forall c d u s, u <> 0 -> c <> kGD43 -> c <> krCIP -> wf d s ->
  stream_results c (rescale u s) = stream_results c s.
Proof. exact rescale_stream. Qed.
Print Assumptions C37_units_streams.
Theorem C37_GD43_law_batch : forall d k u s, u <> 0 -> wf d s -> (2 <= k)%nat -> exact_labels s k ->
  exists v, batch_result kGD43 d s = Ok v /\ batch_result kGD43 d (rescale u s) = Ok (xmul (Fin (/ Rabs u)) v).
Proof. exact GD43_batch. Qed.
Print Assumptions C37_GD43_law_batch.
Theorem C37_GD43_law_streams : forall d u s, u <> 0 -> wf d s ->
  forall i v, nth_error (stream_results kGD43 s) i = Some (Ok v) ->
  nth_error (stream_results kGD43 (rescale u s)) i = Some (Ok (xmul (Fin (/ Rabs u)) v)).
Proof. exact GD43_stream. Qed.
Print Assumptions C37_GD43_law_streams.
Example C37_hypotheses : 2 <> 0 /\ kcSIL <> kGD43 /\ kcSIL <> krCIP /\ wf 2 ex_s /\ (2 <= 2)%nat /\ exact_labels ex_s 2.
Proof. repeat (split; [discriminate || lra || lia || apply ex_wf|]). apply ex_exact. Qed.
(** so GD43 does depend on the unit *)
Theorem C37_GD43_units_refuted : exists d s v w, v <> w /\
  batch_observed kGD43 d s (Fin v) /\ batch_observed kGD43 d (rescale 2 s) (Fin w).
Proof.
  assert (Hd : cdist 2 ex_g ex_h = 205 / 2) by (unfold cdist; rewrite ex_cg, ex_ch; unfold dist2; cbn; lra).
  assert (E : batch_result kGD43 2 ex_s = Ok (Fin (sqrt (205 / 2) / (5 / 2)))).
  { rewrite (C27_GD43_formula 2 2 ex_s ex_wf ltac:(lia) ex_exact).
    - apply (f_equal (@Ok _)), (f_equal Fin). rewrite ex_clusters. unfold GD43_formula. cbn [pairs map app fst snd rmin rmax fold_right].
      rewrite ex_mg, ex_mh, Hd, Rmax_left by lra. lra.
    - rewrite ex_clusters. cbn [map rmax fold_right]. rewrite ex_mg, ex_mh, Rmax_left; lra. }
  exists 2%nat, ex_s, (sqrt (205 / 2) / (5 / 2)), (/ Rabs 2 * (sqrt (205 / 2) / (5 / 2))).
  assert (0 < sqrt (205 / 2)) by (apply sqrt_lt_R0; lra). split; [rewrite Rabs_right by lra; lra|].
  split.
  - split; [apply ex_wf|]. split; [exists 2%nat; split; [lia|apply ex_exact]|]. exact E.
  - split; [apply tmap_wf; [intros; now apply scale_length|apply ex_wf]|].
    split; [exists 2%nat; split; [lia|apply (tmap_exact (scale 2)), ex_exact]|].
    destruct (GD43_batch 2 2 2 ex_s ltac:(lra) ex_wf ltac:(lia) ex_exact) as (v & E1 & E2). rewrite E in E1. inversion E1; subst v.
    exact E2.
Qed.
Print Assumptions C37_GD43_units_refuted.
