(** * C74: pulling the clusters apart

    Exact arithmetic, finite features.  The clusters keep their shapes and move
    away from each other.  An index of clustering quality should improve.  CH, WB,
    DB, XB, GD43, cSIL and rCIP do; GD53 and PS do not see it, and GD53 does not
    see where the clusters are at all.  One sample at a time cSIL can get worse. *)
From Coq Require Import ZArith List Arith Bool Lia Permutation.
From Verif Require Import Num NumPy Base GetCvi.
From Coq Require Import Reals Lra.
From Verif Require Import Det Spec XR SpecX RGeom XLift XEval XInc XCov XRun XPerm XBatch Obs XForm XBounds XSim XSil XSilEx XMove P_Inc P_Formula P_Bounds.
From Verif Require Import XApart.
Import ListNotations.
Local Notation length := List.length.
Local Open Scope R_scope.

(** Spec: each sample moved by (c - 1) times the centroid of its cluster, so that
    the centroids are multiplied by [c] *)
Definition apart (c : R) (d : nat) (s : data) : data :=
  map (fun p => (map (fun q => fst q + (c - 1) * snd q) (combine (fst p) (centroid d (cluster s (snd p)))), snd p)) s.
(** each cluster moved by a vector of its own *)
Definition moved (t : Z -> point) (s : data) : data :=
  map (fun p => (map (fun q => fst q + snd q) (combine (fst p) (t (snd p))), snd p)) s.
(** [v] before and [v'] after *)
Definition law (k : kind) (c : R) (v v' : xr) : Prop :=
  match k with
  | kCH => v' = xmul (Fin (c * c)) v
  | kWB | kDB | kXB => v' = xmul (Fin (/ (c * c))) v
  | kGD43 => v' = xmul (Fin c) v
  | kGD53 | kPS => v' = v
  | krCIP => exists r r', v = Fin r /\ v' = Fin r' /\ 0 < r' <= r
  | kcSIL => (v = NaN /\ v' = NaN) \/ (exists r r', v = Fin r /\ v' = Fin r' /\ r <= r')
  end.

Lemma combine_scale (x y : point) u : map (fun q => fst q + u * snd q) (combine x y) = shift (scale u y) x.
Proof. unfold shift, scale. revert y. induction x as [|a x IH]; intros [|b y]; cbn; auto. now rewrite IH. Qed.
Lemma apart_relocate c d s : apart c d s = relocate (fun l => scale (c - 1) (centroid d (cluster s l))) s.
Proof. unfold apart, relocate. apply map_ext. intros p. now rewrite combine_scale. Qed.
Lemma apart_clusters c d s : clusters (apart c d s) = map (away c d) (clusters s).
Proof. rewrite apart_relocate, relocate_clusters. unfold clusters. rewrite map_map. reflexivity. Qed.
Lemma vec_len c d s : forall l, length (scale (c - 1) (centroid d (cluster s l))) = d.
Proof. intros l. apply scale_length, centroid_length. Qed.
Lemma apart_wf c d s : wf d s -> wf d (apart c d s).
Proof. intros H. rewrite apart_relocate. apply relocate_wf; auto using vec_len. Qed.
Lemma apart_exact c d s k : exact_labels s k -> exact_labels (apart c d s) k.
Proof. rewrite apart_relocate. apply relocate_exact. Qed.
Lemma rCIP_value_pos d gs : (2 <= length gs)%nat -> 0 < rCIP_formula d gs.
Proof.
  intros H. unfold rCIP_formula. apply rsum_pos.
  - apply Forall_map, Forall_forall. intros p _. apply XCov.potential_pos.
  - intros E. apply map_eq_nil in E. now apply (pairs_ne gs H).
Qed.
Lemma law_holds k c d gs : 1 <= c -> good d gs -> (2 <= length gs)%nat -> law k c (XVal k d gs) (XVal k d (map (away c d) gs)).
Proof.
  intros Hc Hg Hk. assert (H0 : 0 < c) by lra. unfold XVal. rewrite map_length.
  destruct (Nat.leb_spec (length gs) 1); [lia|]. destruct k; cbn [law].
  - now apply away_CH.
  - now apply away_WB.
  - now apply away_DB.
  - now apply away_XB.
  - now apply away_GD43.
  - now apply away_GD53.
  - now apply away_PS.
  - exists (rCIP_formula d gs), (rCIP_formula d (map (away c d) gs)). split; [reflexivity|]. split; [reflexivity|].
    split; [apply rCIP_value_pos; now rewrite map_length|]. now apply away_rCIP.
  - now apply away_cSIL.
Qed.

Theorem C74_batch_partial : forall k c d n s, 1 <= c -> (k = krCIP -> d <> 0%nat) -> wf d s -> (2 <= n)%nat -> exact_labels s n ->
  exists v v', batch_result k d s = Ok v /\ batch_result k d (apart c d s) = Ok v' /\ law k c v v'.
Proof.
  intros k c d n s Hc Hd Hw Hn He. exists (XVal k d (clusters s)), (XVal k d (clusters (apart c d s))).
  split; [now apply (batch_result_ok k d n)|]. split; [apply (batch_result_ok k d n); auto using apart_wf, apart_exact|].
  rewrite apart_clusters. apply law_holds; auto; [now apply clusters_good|].
  rewrite (exact_length s n He). exact Hn.
Qed.
Print Assumptions C74_batch_partial.
(** the last value of a stream *)
Theorem C74_streams_partial : forall k c d s v v', k <> kcSIL -> 1 <= c -> (k = krCIP -> d <> 0%nat) -> (2 <= length (distinct s))%nat ->
  stream_observed k d s v -> stream_observed k d (apart c d s) v' -> law k c v v'.
Proof.
  intros k c d s v v' Hk Hc Hd Hn H1 H2. assert (Hw : wf d s) by apply H1.
  rewrite (stream_observed_XVal k d s v Hk Hd H1), (stream_observed_XVal k d _ v' Hk Hd H2).
  rewrite apart_clusters. apply law_holds; auto; [now apply clusters_good|]. now rewrite distinct_clusters.
Qed.
Print Assumptions C74_streams_partial.
(** GD53 does not depend on where the clusters are *)
Theorem C74_GD53_blind_batch : forall d n t s, (forall l, length (t l) = d) -> wf d s -> (2 <= n)%nat -> exact_labels s n ->
  exists v, batch_result kGD53 d s = Ok v /\ batch_result kGD53 d (moved t s) = Ok v.
Proof.
  intros d n t s Ht Hw Hn He. change (moved t s) with (relocate t s). exists (XVal kGD53 d (clusters s)).
  split; [apply (batch_result_ok kGD53 d n); auto; discriminate|].
  rewrite (batch_result_ok kGD53 d n); auto using relocate_wf, relocate_exact; try discriminate. now rewrite relocate_GD53.
Qed.
Print Assumptions C74_GD53_blind_batch.
Theorem C74_GD53_blind_streams : forall d t s, (forall l, length (t l) = d) -> wf d s ->
  stream_results kGD53 (moved t s) = stream_results kGD53 s.
Proof.
  intros d t s Ht Hw. change (moved t s) with (relocate t s).
  assert (L : length (relocate t s) = length s) by (unfold relocate; now rewrite map_length).
  apply stream_results_ext; auto. intros i Hi.
  rewrite !(stream_result_ok kGD53 d) by (auto using relocate_wf; try discriminate; lia).
  rewrite relocate_firstn, relocate_GD53; auto. now apply wf_firstn.
Qed.
Print Assumptions C74_GD53_blind_streams.
(** Full statement: for [1 < c] the value after is better than the value before,
    greater or smaller as the index goes.  Here the two clusters have their
    centroids ten times as far from each other and neither GD53 nor PS changes. *)
Theorem C74_refuted : exists d s, wf d s /\ exact_labels s 2 /\ apart 10 d s <> s /\
  (forall g h, clusters s = [g; h] -> 0 < dist2 (centroid d g) (centroid d h)) /\
  batch_result kGD53 d s = Ok (Fin (/ 2)) /\ batch_result kGD53 d (apart 10 d s) = Ok (Fin (/ 2)) /\
  exists r, batch_result kPS d s = Ok (Fin r) /\ batch_result kPS d (apart 10 d s) = Ok (Fin r).
Proof.
  exists 2%nat, ex_s. split; [apply ex_wf|]. split; [apply ex_exact|].
  split.
  { intros E. apply (f_equal (fun s => nth 0 (nth 0 (map fst s) []) 0)) in E. unfold apart, ex_s, centroid in E. cbn in E. lra. }
  split. { intros g h E. rewrite ex_clusters in E. injection E as <- <-. rewrite ex_cg, ex_ch. unfold dist2. cbn. lra. }
  pose proof C33_hypotheses as (_ & _ & G). split; [exact G|].
  destruct (C74_batch_partial kGD53 10 2 2 ex_s ltac:(lra) ltac:(discriminate) ex_wf ltac:(lia) ex_exact) as (v & v' & E1 & E2 & E3).
  cbn in E3. subst v'. split; [exact (eq_trans E2 (eq_trans (eq_sym E1) G))|].
  destruct (C74_batch_partial kPS 10 2 2 ex_s ltac:(lra) ltac:(discriminate) ex_wf ltac:(lia) ex_exact) as (w & w' & F1 & F2 & F3).
  cbn in F3. subst w'.
  pose proof C23_C31_hypotheses as (_ & _ & _ & _ & _ & _ & _ & _ & Hne & _).
  exists (PS_formula 2 (clusters ex_s)).
  assert (F : batch_result kPS 2 ex_s = Ok (Fin (PS_formula 2 (clusters ex_s)))) by exact (C29_PS_formula 2 2 ex_s ex_wf ltac:(lia) ex_exact Hne).
  split; [exact F|exact (eq_trans F2 (eq_trans (eq_sym F1) F))].
Qed.
Print Assumptions C74_refuted.
Local Ltac entry := unfold sil_entry, mdist, inner, centroid, cluster, dist2; cbn; lra.
Local Ltac qfin := unfold xdiv; repeat match goal with |- context [Req_EM_T ?a ?b] => destruct (Req_EM_T a b); [exfalso; lra|] end.

(** two clusters of two samples, centroids 1/2 and 1 *)
Definition pull_s : data := [([0], 0%Z); ([0], 1%Z); ([1], 0%Z); ([2], 1%Z)].
Lemma pull_s_stream : cSIL_stream_ext 1 pull_s = Fin (- / 4).
Proof.
  unfold cSIL_stream_ext. change (distinct pull_s) with [0%Z; 1%Z]. cbn [length Nat.leb].
  rewrite (sil_two _ 0 1 (/ 4) 1 (/ 2) (/ 4)); [|entry..|lra].
  rewrite Rmax_left, Rmax_left by lra. qfin. cbn [xadd]. qfin. f_equal. lra.
Qed.
Lemma pull_s_apart : apart 2 1 pull_s = [([/ 2], 0%Z); ([1], 1%Z); ([3 / 2], 0%Z); ([3], 1%Z)].
Proof. unfold apart, pull_s, centroid. cbn. repeat (f_equal; try lra). Qed.
Lemma pull_s_apart_stream : cSIL_stream_ext 1 (apart 2 1 pull_s) = Fin (- (12 / 5)).
Proof.
  rewrite pull_s_apart. unfold cSIL_stream_ext. change (distinct _) with [0%Z; 1%Z]. cbn [length Nat.leb].
  rewrite (sil_two _ 0 1 (/ 4) 1 (5 / 4) (-1)); [|entry..|lra].
  rewrite Rmax_left, Rmax_right by lra. qfin. cbn [xadd]. qfin. f_equal. lra.
Qed.
(** Full statement: the law holds of the last value of a stream of cSIL as well.
    The two clusters go twice as far from each other and the value falls. *)
Theorem C74_cSIL_streams_refuted : exists d s, (2 <= length (distinct s))%nat /\
  (forall g h, clusters s = [g; h] -> 0 < dist2 (centroid d g) (centroid d h)) /\
  stream_observed kcSIL d s (Fin (- / 4)) /\ stream_observed kcSIL d (apart 2 d s) (Fin (- (12 / 5))).
Proof.
  exists 1%nat, pull_s. split; [cbn; lia|]. split; [|split].
  - intros g h E. change (clusters pull_s) with ([[[0]; [1]]; [[0]; [2]]] : list (list point)) in E. injection E as <- <-.
    unfold dist2, centroid. cbn. lra.
  - rewrite <- pull_s_stream. apply sil_stream_observed_ex; [repeat constructor|discriminate].
  - rewrite <- pull_s_apart_stream. apply sil_stream_observed_ex; [apply apart_wf; repeat constructor|discriminate].
Qed.
Print Assumptions C74_cSIL_streams_refuted.
Example C74_hypotheses : 1 <= 3 /\ wf 2 ex_s /\ (2 <= 2)%nat /\ exact_labels ex_s 2 /\ (2 <= length (distinct ex_s))%nat /\
  (forall l, length ((fun l => [IZR l * 100; 7]) l : point) = 2%nat) /\
  (exists v, stream_observed kDB 2 ex_s v) /\ (exists v, stream_observed kDB 2 (apart 3 2 ex_s) v).
Proof.
  split; [lra|]. split; [apply ex_wf|]. split; [lia|]. split; [apply ex_exact|]. split; [cbn; lia|]. split; [reflexivity|].
  split; apply stream_observed_ex; try discriminate; auto using apart_wf, ex_wf.
Qed.
