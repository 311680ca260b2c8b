(** * C75: tightening the clusters

    Exact arithmetic, finite features.  Each cluster shrinks about its centroid by
    the same factor.  CH, WB, DB, XB, GD43 and cSIL get better; GD53 and PS do not
    change; rCIP can get worse, and so can cSIL one sample at a time. *)
From Coq Require Import ZArith List Arith Bool Lia Permutation.
From Verif Require Import Num NumPy Base GetCvi.
From Coq Require Import Reals Lra.
From Verif Require Import Det Spec XR SpecX RGeom XLift XEval XInc XCov XRun XPerm XBatch Obs XForm XBounds XSim XSil XSilEx XMove P_Inc P_Formula P_Bounds P_Move XApart P_Apart.
Import ListNotations.
Local Notation length := List.length.
Local Open Scope R_scope.

(** Spec: the sample x of a cluster with centroid m becomes m + c (x - m) *)
Definition tightened (c : R) (d : nat) (s : data) : data :=
  map (fun p => (map (fun q => snd q + c * (fst q - snd q)) (combine (fst p) (centroid d (cluster s (snd p)))), snd p)) s.
Definition tight_law (k : kind) (c : R) (v v' : xr) : Prop :=
  match k with
  | kCH | kGD43 => v' = xmul (Fin (/ (c * c))) v
  | kWB | kDB | kXB => v' = xmul (Fin (c * c)) v
  | kGD53 | kPS => v' = v
  | krCIP => True
  | kcSIL => (v = NaN /\ v' = NaN) \/ (exists r r', v = Fin r /\ v' = Fin r' /\ r <= r')
  end.

Lemma tightened_rescale c d s : c <> 0 -> tightened c d s = rescale c (apart (/ c) d s).
Proof.
  intros Hc. unfold tightened, rescale, apart. rewrite map_map. apply map_ext. intros p. cbn [fst snd]. rewrite map_map.
  f_equal. apply map_ext. intros q. field. exact Hc.
Qed.
Lemma xmul_pos_assoc a b v : 0 < a -> 0 < b -> xmul (Fin a) (xmul (Fin b) v) = xmul (Fin (a * b)) v.
Proof.
  intros Ha Hb. assert (Hab : 0 < a * b) by nra. destruct v as [r| | |]; cbn; auto.
  - f_equal. ring.
  - unfold inf_mul. destruct (Req_EM_T b 0), (Req_EM_T (a * b) 0); try lra. destruct (Rlt_dec 0 b), (Rlt_dec 0 (a * b)); try lra. cbn.
    unfold inf_mul. destruct (Req_EM_T a 0); try lra. destruct (Rlt_dec 0 a); lra || reflexivity.
  - unfold inf_mul. destruct (Req_EM_T b 0), (Req_EM_T (a * b) 0); try lra. destruct (Rlt_dec 0 b), (Rlt_dec 0 (a * b)); try lra. cbn.
    unfold inf_mul. destruct (Req_EM_T a 0); try lra. destruct (Rlt_dec 0 a); lra || reflexivity.
Qed.
Lemma tight_holds k c d s : 0 < c <= 1 -> wf d s -> (2 <= length (clusters s))%nat ->
  tight_law k c (XVal k d (clusters s)) (XVal k d (clusters (tightened c d s))).
Proof.
  intros Hc Hw Hk. assert (H0 : c <> 0) by lra. pose proof (Rinv_0_lt_compat c ltac:(lra)) as Hi.
  assert (H1 : 1 <= / c) by (rewrite <- Rinv_1; apply Rinv_le_contravar; lra).
  assert (Hr : Rabs c = c) by (apply Rabs_right; lra).
  rewrite tightened_rescale, rescale_tmap, tmap_clusters by auto.
  pose proof (law_holds k (/ c) d (clusters s) H1 (clusters_good d s Hw) Hk) as L. rewrite <- apart_clusters in L.
  assert (G : good d (clusters (apart (/ c) d s))) by (apply clusters_good, apart_wf, Hw).
  assert (E1 : / (/ c * / c) = c * c) by (field; lra). assert (E2 : / c * / c = / (c * c)) by (field; lra).
  destruct k; cbn [law tight_law] in *; auto;
    try (rewrite rescale_XVal by (auto; discriminate); rewrite L, ?E1, ?E2; reflexivity);
    try (rewrite rescale_XVal by (auto; discriminate); exact L).
  rewrite rescale_GD43, L, Hr, xmul_pos_assoc, E2 by auto. reflexivity.
Qed.
Lemma tightened_wf c d s : c <> 0 -> wf d s -> wf d (tightened c d s).
Proof. intros Hc Hw. rewrite tightened_rescale, rescale_tmap by auto. apply tmap_wf; [intros; now apply scale_length|now apply apart_wf]. Qed.
Lemma tightened_exact c d s n : c <> 0 -> exact_labels s n -> exact_labels (tightened c d s) n.
Proof. intros Hc He. rewrite tightened_rescale, rescale_tmap by auto. now apply tmap_exact, apart_exact. Qed.

Theorem C75_batch_partial : forall k c d n s, 0 < c <= 1 -> k <> krCIP -> wf d s -> (2 <= n)%nat -> exact_labels s n ->
  exists v v', batch_result k d s = Ok v /\ batch_result k d (tightened c d s) = Ok v' /\ tight_law k c v v'.
Proof.
  intros k c d n s Hc Hk Hw Hn He. exists (XVal k d (clusters s)), (XVal k d (clusters (tightened c d s))).
  assert (c <> 0) by lra.
  split; [apply (batch_result_ok k d n); auto; congruence|].
  split; [apply (batch_result_ok k d n); auto using tightened_wf, tightened_exact; congruence|].
  apply tight_holds; auto. rewrite (exact_length s n He). exact Hn.
Qed.
Print Assumptions C75_batch_partial.
Theorem C75_streams_partial : forall k c d s v v', k <> kcSIL -> k <> krCIP -> 0 < c <= 1 -> (2 <= length (distinct s))%nat ->
  stream_observed k d s v -> stream_observed k d (tightened c d s) v' -> tight_law k c v v'.
Proof.
  intros k c d s v v' Hk Hp Hc Hn H1 H2. assert (Hw : wf d s) by apply H1. assert (Hd : k = krCIP -> d <> 0%nat) by congruence.
  rewrite (stream_observed_XVal k d s v Hk Hd H1), (stream_observed_XVal k d _ v' Hk Hd H2).
  apply tight_holds; auto. now rewrite distinct_clusters.
Qed.
Print Assumptions C75_streams_partial.
(** Full statement: rCIP, too, does not grow (it is small when the clusters are
    apart).  Two clusters with the same centroid: halving them raises it. *)
Theorem C75_rCIP_refuted : exists d s v w, v < w /\
  batch_observed krCIP d s (Fin v) /\ batch_observed krCIP d (tightened (/ 2) d s) (Fin w).
Proof.
  exists 1%nat, rep_s, (potential 1 [[-1]; [1]] [[0]]), (potential 1 [[- / 2]; [/ 2]] [[0]]).
  assert (Hw : wf 1 rep_s) by repeat constructor.
  assert (He : exact_labels rep_s 2) by (apply exact_two; intros z; cbn; intuition lia).
  assert (T : tightened (/ 2) 1 rep_s = [([- / 2], 0%Z); ([/ 2], 0%Z); ([0], 1%Z)]).
  { unfold tightened, rep_s, centroid. cbn. repeat (f_equal; try lra). }
  split; [|split].
  - assert (C1 : centroid 1 [[-1]; [1]] = centroid 1 [[0]]) by (unfold centroid; cbn; f_equal; lra).
    assert (C2 : centroid 1 [[- / 2]; [/ 2]] = centroid 1 [[0]]) by (unfold centroid; cbn; f_equal; lra).
    rewrite !potential_1 by (auto; repeat constructor).
    assert (V1 : covar 1 [[-1]; [1]] 0 0 = 2) by (unfold covar, centroid; cbn; lra).
    assert (V2 : covar 1 [[0]] 0 0 = 0) by reflexivity.
    assert (V3 : covar 1 [[- / 2]; [/ 2]] 0 0 = / 2) by (unfold covar, centroid; cbn; lra).
    rewrite V1, V2, V3. assert (P : 0 < Rpower 10 (-12)) by (unfold Rpower; apply exp_pos).
    assert (P2 : 0 < sqrt (Rpower (2 * PI) 1)) by (apply sqrt_lt_R0; unfold Rpower; apply exp_pos).
    apply Rmult_lt_compat_l; [now apply Rinv_0_lt_compat|]. apply Rinv_lt_contravar.
    + apply Rmult_lt_0_compat; apply sqrt_lt_R0; lra.
    + apply sqrt_lt_1; lra.
  - split; [auto|]. split; [exists 2%nat; auto|]. rewrite (batch_result_ok krCIP 1 2) by auto.
    change (clusters rep_s) with ([[[-1]; [1]]; [[0]]] : list (list point)). apply rCIP_two.
  - rewrite T. assert (Hw' : wf 1 [([- / 2], 0%Z); ([/ 2], 0%Z); ([0], 1%Z)]) by repeat constructor.
    assert (He' : exact_labels [([- / 2], 0%Z); ([/ 2], 0%Z); ([0], 1%Z)] 2) by (apply exact_two; intros z; cbn; intuition lia).
    split; [auto|]. split; [exists 2%nat; auto|]. rewrite (batch_result_ok krCIP 1 2) by auto.
    change (clusters _) with ([[[- / 2]; [/ 2]]; [[0]]] : list (list point)). apply rCIP_two.
Qed.
Print Assumptions C75_rCIP_refuted.
Local Ltac entry := unfold sil_entry, mdist, inner, centroid, cluster, dist2; cbn; lra.
Local Ltac qfin := unfold xdiv; repeat match goal with |- context [Req_EM_T ?a ?b] => destruct (Req_EM_T a b); [exfalso; lra|] end.

Lemma pull_s_tight : tightened (/ 2) 1 pull_s = [([/ 4], 0%Z); ([/ 2], 1%Z); ([3 / 4], 0%Z); ([3 / 2], 1%Z)].
Proof. unfold tightened, pull_s, centroid. cbn. repeat (f_equal; try lra). Qed.
Lemma pull_s_tight_stream : cSIL_stream_ext 1 (tightened (/ 2) 1 pull_s) = Fin (- (12 / 5)).
Proof.
  rewrite pull_s_tight. unfold cSIL_stream_ext. change (distinct _) with [0%Z; 1%Z]. cbn [length Nat.leb].
  rewrite (sil_two _ 0 1 (/ 16) (/ 4) (5 / 16) (- / 4)); [|entry..|lra].
  rewrite Rmax_left, Rmax_right by lra. qfin. cbn [xadd]. qfin. f_equal. lra.
Qed.
(** Full statement: cSIL grows on streams as it does on batches.  Halving the two
    clusters about their centroids lowers the last value. *)
Theorem C75_cSIL_streams_refuted : exists d s, (2 <= length (distinct s))%nat /\
  (forall g h, clusters s = [g; h] -> 0 < dist2 (centroid d g) (centroid d h)) /\
  stream_observed kcSIL d s (Fin (- / 4)) /\ stream_observed kcSIL d (tightened (/ 2) d s) (Fin (- (12 / 5))).
Proof.
  exists 1%nat, pull_s. split; [cbn; lia|]. split; [|split].
  - intros g h E. change (clusters pull_s) with ([[[0]; [1]]; [[0]; [2]]] : list (list point)) in E. injection E as <- <-.
    unfold dist2, centroid. cbn. lra.
  - rewrite <- pull_s_stream. apply sil_stream_observed_ex; [repeat constructor|discriminate].
  - rewrite <- pull_s_tight_stream. apply sil_stream_observed_ex; [apply tightened_wf; [lra|repeat constructor]|discriminate].
Qed.
Print Assumptions C75_cSIL_streams_refuted.
Example C75_hypotheses : 0 < / 2 <= 1 /\ kCH <> krCIP /\ wf 2 ex_s /\ (2 <= 2)%nat /\ exact_labels ex_s 2 /\ (2 <= length (distinct ex_s))%nat /\
  (exists v, stream_observed kCH 2 ex_s v) /\ (exists v, stream_observed kCH 2 (tightened (/ 2) 2 ex_s) v) /\
  tightened (/ 2) 1 [([0], 0%Z); ([2], 0%Z); ([7], 1%Z)] = [([/ 2], 0%Z); ([3 / 2], 0%Z); ([7], 1%Z)].
Proof.
  split; [lra|]. split; [discriminate|]. split; [apply ex_wf|]. split; [lia|]. split; [apply ex_exact|]. split; [cbn; lia|].
  split; [apply stream_observed_ex; try discriminate; auto using ex_wf|].
  split; [apply stream_observed_ex; try discriminate; apply tightened_wf; [lra|apply ex_wf]|].
  unfold tightened, centroid. cbn. repeat (f_equal; try lra).
Qed.
