(** * Rotations, repeated samples and constant features: C56 - C58

    Exact arithmetic, finite features.  The transformations of the data are those
    of Spec.v and SpecT.v; what is observed is that of Obs.v. *)
From Coq Require Import ZArith List Arith Bool Lia Permutation.
From Verif Require Import Num NumPy Base GetCvi.
From Coq Require Import Reals Lra.
From Verif Require Import Det DetMul Spec SpecT XR SpecX RGeom XLift XEval XCov XRun XPerm XBatch Obs XSil XSilEx XForm XBounds XSim XMove XRot XRep
  P_Inc P_Formula P_Bounds.
Import ListNotations.
Local Open Scope R_scope.

(** ** C56: rotations and reflections change no value, in either mode, of any class *)
Theorem C56_rotation_batch : forall c d k q s, (c = krCIP -> d <> 0%nat) -> orthogonal d q ->
  wf d s -> (2 <= k)%nat -> exact_labels s k ->
  exists v, batch_result c d s = Ok v /\ batch_result c d (rotate q s) = Ok v.
Proof.
  intros c d k q s Hd Hq Hw Hk He. exists (XVal c d (clusters s)). rewrite rotate_tmap. split; [now apply (batch_result_ok c d k)|].
  rewrite (batch_result_ok c d k); auto using tmap_exact.
  - rewrite tmap_clusters, rotate_XVal; auto using clusters_good.
  - apply tmap_wf; auto. intros; now apply T_len.
Qed.
Print Assumptions C56_rotation_batch.
Theorem C56_rotation_streams : forall c d q s, (c = krCIP -> d <> 0%nat) -> orthogonal d q -> wf d s ->
  stream_results c (rotate q s) = stream_results c s.
Proof.
  intros c d q s Hd Hq Hw. rewrite rotate_tmap.
  assert (Hw' : wf d (tmap (mat_vec q) s)) by (apply tmap_wf; auto; intros; now apply T_len).
  assert (L : length (tmap (mat_vec q) s) = length s) by (unfold tmap; now rewrite map_length).
  apply stream_results_ext; auto. intros i Hi. destruct (kind_eq c kcSIL) as [->|Hc].
  - rewrite !(sil_stream_ok d) by (auto; lia). rewrite tmap_firstn, rotate_stream_cSIL; auto. now apply wf_firstn.
  - rewrite !(stream_result_ok c d) by (auto; lia).
    rewrite tmap_firstn, tmap_clusters, rotate_XVal; auto. apply clusters_good. now apply wf_firstn.
Qed.
Print Assumptions C56_rotation_streams.
(** the rotation by the angle whose cosine is 3/5 *)
Lemma rot_orthogonal : orthogonal 2 [[3 / 5; - (4 / 5)]; [4 / 5; 3 / 5]].
Proof.
  repeat split; auto.
  - intros [|[|i]] [|[|j]] Hi Hj; try lia; unfold sumn, ent; cbn; lra.
  - intros [|[|i]] [|[|j]] Hi Hj; try lia; unfold sumn, ent; cbn; lra.
Qed.
Example C56_hypotheses : orthogonal 2 [[3 / 5; - (4 / 5)]; [4 / 5; 3 / 5]] /\ wf 2 ex_s /\ (2 <= 2)%nat /\ exact_labels ex_s 2 /\
  rotate [[3 / 5; - (4 / 5)]; [4 / 5; 3 / 5]] ex_s <> ex_s.
Proof.
  split; [apply rot_orthogonal|]. split; [apply ex_wf|]. split; [lia|]. split; [apply ex_exact|].
  unfold rotate, ex_s, mat_vec. cbn. intros H. injection H. intros. lra.
Qed.

(** in particular the order of the features is irrelevant *)
Lemma reorder_rotate d f s : Permutation f (seq 0 d) -> wf d s ->
  reorder f s = rotate (map (fun i => map (fun j => if (i =? j)%nat then 1 else 0) (seq 0 d)) f) s.
Proof.
  intros Hf Hw. unfold reorder, rotate, mat_vec. apply map_ext_in. intros [x l] Hp. cbn [fst snd]. f_equal.
  rewrite map_map. apply map_ext_in. intros i Hi. assert (Hx : length x = d).
  { unfold wf in Hw. rewrite Forall_forall in Hw. exact (Hw _ Hp). }
  rewrite (dot_coords d) by (auto; now rewrite map_length, seq_length).
  apply (Permutation_in _ Hf), in_seq in Hi.
  rewrite (Det.sumn_one d i); [|lia|].
  - unfold co. rewrite nth_map_seq by lia. rewrite Nat.eqb_refl. ring.
  - intros j Hj Hn. unfold co at 1. rewrite nth_map_seq by lia. destruct (Nat.eqb_spec i j); [congruence|ring].
Qed.
Lemma perm_orthogonal d f : Permutation f (seq 0 d) ->
  orthogonal d (map (fun i => map (fun j => if (i =? j)%nat then 1 else 0) (seq 0 d)) f).
Proof.
  intros Hf. assert (L : length f = d) by (rewrite (Permutation_length Hf); apply seq_length).
  assert (ND : NoDup f) by (apply (Permutation_NoDup (Permutation_sym Hf)), seq_NoDup).
  set (m := map _ f).
  assert (EN : forall i j, (i < d)%nat -> (j < d)%nat -> ent m i j = if (nth i f 0 =? j)%nat then 1 else 0).
  { intros i j Hi Hj. unfold ent, m.
    rewrite (nth_indep _ [] ((fun i => map (fun j => if (i =? j)%nat then 1 else 0) (seq 0 d)) 0%nat)) by (rewrite map_length; lia).
    rewrite (map_nth (fun i => map (fun j => if (i =? j)%nat then 1 else 0) (seq 0 d))). now rewrite nth_map_seq. }
  assert (FI : forall i, (i < d)%nat -> (nth i f 0 < d)%nat).
  { intros i Hi. assert (In (nth i f 0%nat) f) by (apply nth_In; lia). apply (Permutation_in _ Hf), in_seq in H. lia. }
  split; [unfold m; now rewrite map_length|]. split.
  { apply Forall_map, Forall_forall. intros i _. now rewrite map_length, seq_length. }
  split; intros i j Hi Hj.
  - rewrite (Det.sumn_one d (nth i f 0%nat)); auto.
    + rewrite !EN by auto. rewrite Nat.eqb_refl. destruct (Nat.eqb_spec i j) as [->|Hn]; [rewrite Nat.eqb_refl; ring|].
      destruct (Nat.eqb_spec (nth j f 0%nat) (nth i f 0%nat)) as [E|]; [|ring]. exfalso. apply Hn.
      symmetry. apply (proj1 (NoDup_nth f 0%nat) ND); auto; lia.
    + intros k Hk Hn. rewrite (EN i k) by auto. destruct (Nat.eqb_spec (nth i f 0%nat) k); [congruence|ring].
  - assert (Ex : exists a, (a < d)%nat /\ nth a f 0%nat = i).
    { assert (In i f) by (apply (Permutation_in _ (Permutation_sym Hf)), in_seq; lia).
      apply (In_nth _ _ 0%nat) in H as (a & Ha & E). exists a. split; [lia|auto]. }
    destruct Ex as (a & Ha & Ea). rewrite (Det.sumn_one d a); auto.
    + rewrite !EN by auto. rewrite Ea, Nat.eqb_refl. destruct (Nat.eqb_spec i j); ring.
    + intros k Hk Hn. rewrite (EN k i) by auto. destruct (Nat.eqb_spec (nth k f 0%nat) i) as [E|]; [|ring]. exfalso. apply Hn.
      apply (proj1 (NoDup_nth f 0%nat) ND); congruence.
Qed.
Theorem C56_order_of_features : forall c d f s, (c = krCIP -> d <> 0%nat) -> Permutation f (seq 0 d) -> wf d s ->
  stream_results c (reorder f s) = stream_results c s /\
  forall k, (2 <= k)%nat -> exact_labels s k -> exists v, batch_result c d s = Ok v /\ batch_result c d (reorder f s) = Ok v.
Proof.
  intros c d f s Hd Hf Hw. rewrite (reorder_rotate d f s Hf Hw). split.
  - apply (C56_rotation_streams c d); auto using perm_orthogonal.
  - intros k Hk He. apply (C56_rotation_batch c d k); auto using perm_orthogonal.
Qed.
Print Assumptions C56_order_of_features.
Example C56_order_hypotheses : Permutation [2; 0; 1]%nat (seq 0 3) /\ reorder [2; 0; 1]%nat [([5; 6; 7], 0%Z)] = [([7; 5; 6], 0%Z)].
Proof. split; [|reflexivity]. exact (Permutation_middle [0; 1]%nat [] 2%nat). Qed.

(** ** C57: every sample given m times *)
Theorem C57_repeated_batch : forall c d k m s, c <> kCH -> c <> krCIP -> (0 < m)%nat ->
  wf d s -> (2 <= k)%nat -> exact_labels s k ->
  exists v, batch_result c d s = Ok v /\ batch_result c d (repeated m s) = Ok v.
Proof.
  intros c d k m s H1 H2 Hm Hw Hk He. exists (XVal c d (clusters s)).
  split; [apply (batch_result_ok c d k); auto; congruence|].
  rewrite (batch_result_ok c d k); auto using rep_exact, rep_wf; try congruence.
  rewrite rep_clusters by auto. rewrite rep_XVal; auto using clusters_good. now rewrite (exact_length s k He).
Qed.
Print Assumptions C57_repeated_batch.
(** after the m-th copy of a sample the value is the one after that sample in the
    stream without copies *)
Theorem C57_repeated_streams_partial : forall c d m s i, c <> kCH -> c <> krCIP -> c <> kcSIL -> (0 < m)%nat -> wf d s -> (i < length s)%nat ->
  nth_error (stream_results c (repeated m s)) (m * S i - 1) = nth_error (stream_results c s) i.
Proof.
  intros c d m s i H1 H2 H3 Hm Hw Hi.
  assert (LI : (m * S i - 1 < length (repeated m s))%nat) by (rewrite repeated_rep, rep_length; nia).
  rewrite !(stream_result_ok c d) by (auto using rep_wf; congruence).
  replace (S (m * S i - 1)) with (m * S i)%nat by nia. rewrite repeated_rep, rep_firstn, <- repeated_rep, rep_clusters by auto.
  pose proof (clusters_good d _ (wf_firstn d s (S i) Hw)) as G.
  destruct (le_lt_dec 2 (length (clusters (firstn (S i) s)))) as [Hk|Hk].
  - now rewrite rep_XVal.
  - rewrite !XVal_le1; auto; [lia|]. rewrite map_length. lia.
Qed.
Print Assumptions C57_repeated_streams_partial.
(** CH with N samples in k clusters is multiplied by (m N - k) / (N - k) *)
Theorem C57_CH_law : forall d k m s, (0 < m)%nat -> wf d s -> (2 <= k)%nat -> exact_labels s k -> length s <> k ->
  exists v, batch_result kCH d s = Ok v /\
    batch_result kCH d (repeated m s) = Ok (xmul v (Fin ((INR m * INR (length s) - INR k) / (INR (length s) - INR k)))).
Proof.
  intros d k m s Hm Hw Hk He Hn. exists (XVal kCH d (clusters s)).
  split; [apply (batch_result_ok kCH d k); auto; discriminate|].
  rewrite (batch_result_ok kCH d k); auto using rep_exact, rep_wf; try discriminate. apply (f_equal (@Ok _)).
  pose proof (exact_length s k He) as L.
  assert (LS : INR (length s) = nsamp (clusters s)).
  { unfold nsamp. f_equal. rewrite <- (map_length fst s). symmetry. apply Permutation_length, clusters_concat. }
  assert (LK : INR k = nclus (clusters s)) by (unfold nclus; f_equal; auto).
  rewrite rep_clusters by auto. rewrite !XVal_ext by (rewrite ?map_length; lia). rewrite LS, LK.
  apply rep_CH; auto using clusters_good; [lia|]. rewrite <- LS, <- LK. intros E. apply INR_eq in E. auto.
Qed.
Print Assumptions C57_CH_law.
Theorem C57_CH_law_streams : forall d m s i v, (0 < m)%nat -> wf d s -> (i < length s)%nat ->
  S i <> length (distinct (firstn (S i) s)) ->
  nth_error (stream_results kCH s) i = Some (Ok v) ->
  nth_error (stream_results kCH (repeated m s)) (m * S i - 1) =
    Some (Ok (xmul v (Fin ((INR m * INR (S i) - INR (length (distinct (firstn (S i) s)))) /
                           (INR (S i) - INR (length (distinct (firstn (S i) s)))))))).
Proof.
  intros d m s i v Hm Hw Hi Hn Hv.
  assert (LI : (m * S i - 1 < length (repeated m s))%nat) by (rewrite repeated_rep, rep_length; nia).
  rewrite (stream_result_ok kCH d) in Hv by (auto; discriminate).
  assert (Ev : v = XVal kCH d (clusters (firstn (S i) s))) by congruence. rewrite Ev. clear Hv Ev.
  rewrite (stream_result_ok kCH d) by (auto using rep_wf; discriminate).
  replace (S (m * S i - 1)) with (m * S i)%nat by nia. rewrite repeated_rep, rep_firstn, <- repeated_rep, rep_clusters by auto.
  pose proof (clusters_good d _ (wf_firstn d s (S i) Hw)) as G.
  assert (LS : INR (S i) = nsamp (clusters (firstn (S i) s))).
  { unfold nsamp. f_equal. rewrite (Permutation_length (clusters_concat _)). unfold points. rewrite map_length, firstn_length. lia. }
  rewrite <- distinct_clusters in Hn |- *. set (gs := clusters (firstn (S i) s)) in *. apply (f_equal Some), (f_equal (@Ok _)).
  destruct (le_lt_dec 2 (length gs)) as [Hk|Hk].
  - rewrite !XVal_ext by (rewrite ?map_length; lia). rewrite LS. change (INR (length gs)) with (nclus gs).
    apply rep_CH; auto. rewrite <- LS. unfold nclus. intros E. apply INR_eq in E. auto.
  - rewrite !XVal_le1 by (rewrite ?map_length; lia). cbn [xmul]. f_equal. ring.
Qed.
Print Assumptions C57_CH_law_streams.
(** cSIL's streams see the copies *)
Theorem C57_cSIL_streams_refuted : exists d m s, (0 < m)%nat /\ wf d s /\
  stream_observed kcSIL d s (Fin (/ 2)) /\ stream_observed kcSIL d (repeated m s) (Fin (- / 2)).
Proof.
  exists 1%nat, 2%nat, sil_s1. split; [lia|]. split; [repeat constructor|]. split.
  - rewrite <- sil_s1_stream. apply sil_stream_observed_ex; [repeat constructor|discriminate].
  - assert (E : cSIL_stream_ext 1 (repeated 2 sil_s1) = Fin (- / 2)).
    { unfold cSIL_stream_ext. change (distinct (repeated 2 sil_s1)) with [0%Z; 1%Z]. cbn [length Nat.leb].
      rewrite (sil_two _ 0 1 1 0 1 (-1)); [|unfold sil_entry, mdist, inner, centroid, cluster, dist2; cbn; lra..|lra].
      rewrite Rmax_left, Rmax_right by lra. unfold xdiv.
      repeat match goal with |- context [Req_EM_T ?a ?b] => destruct (Req_EM_T a b); [exfalso; lra|] end.
      cbn [xadd]. repeat match goal with |- context [Req_EM_T ?a ?b] => destruct (Req_EM_T a b); [exfalso; lra|] end. f_equal. lra. }
    rewrite <- E. apply sil_stream_observed_ex; [repeat constructor|discriminate].
Qed.
Print Assumptions C57_cSIL_streams_refuted.
Example C57_hypotheses : (0 < 3)%nat /\ wf 2 ex_s /\ (2 <= 2)%nat /\ exact_labels ex_s 2 /\ length ex_s <> 2%nat /\
  repeated 2 [([1], 5%Z); ([3], 6%Z)] = [([1], 5%Z); ([1], 5%Z); ([3], 6%Z); ([3], 6%Z)].
Proof. split; [lia|]. split; [apply ex_wf|]. split; [lia|]. split; [apply ex_exact|]. split; [discriminate|reflexivity]. Qed.
(** rCIP's covariances divide by n - 1, so copies matter *)
Lemma potential_1 g h : wfg 1 g -> wfg 1 h -> centroid 1 g = centroid 1 h ->
  potential 1 g h = / sqrt (Rpower (2 * PI) 1) * / sqrt (covar 1 g 0 0 + covar 1 h 0 0 + 2 * Rpower 10 (- 12)).
Proof.
  intros Hg Hh E. unfold potential, mahal. rewrite E. cbv zeta.
  rewrite (Det.sumn_ext 1 _ (fun _ => 0)) by (intros i _; apply Det.sumn_zero; intros; ring).
  rewrite Det.sumn_zero by auto. rewrite Rmult_0_r, exp_0, Rmult_1_r. change (INR 1) with 1. do 3 f_equal.
  unfold Qmat, detR. cbn [seq map length detf]. unfold sumn, ent. cbn. unfold regcov. cbn [Nat.eqb]. unfold delta.
  change (INR 1) with 1. replace (-12 / 1) with (-12) by field. ring.
Qed.
Lemma rCIP_two d g h : Ok (XVal krCIP d [g; h]) = Ok (Fin (potential d g h)).
Proof. apply (f_equal (@Ok _)). unfold XVal, rCIP_ext, rCIP_formula. cbn [length Nat.leb pairs map app fst snd]. apply (f_equal Fin). unfold rsum. cbn [fold_right]. ring. Qed.
Definition rep_s : data := [([-1], 0%Z); ([1], 0%Z); ([0], 1%Z)].
Theorem C57_rCIP_refuted : exists d m s v w, v <> w /\
  batch_observed krCIP d s (Fin v) /\ batch_observed krCIP d (repeated m s) (Fin w).
Proof.
  exists 1%nat, 2%nat, rep_s, (potential 1 [[-1]; [1]] [[0]]), (potential 1 [[-1]; [-1]; [1]; [1]] [[0]; [0]]).
  assert (Hw : wf 1 rep_s) by repeat constructor.
  assert (He : exact_labels rep_s 2) by (apply exact_two; intros z; cbn; intuition lia).
  split.
  - assert (C1 : centroid 1 [[-1]; [1]] = centroid 1 [[0]]) by (unfold centroid; cbn; f_equal; lra).
    assert (C2 : centroid 1 [[-1]; [-1]; [1]; [1]] = centroid 1 [[0]; [0]]) by (unfold centroid; cbn; f_equal; lra).
    rewrite !potential_1 by (auto; repeat constructor).
    assert (V1 : covar 1 [[-1]; [1]] 0 0 = 2) by (unfold covar, centroid; cbn; lra).
    assert (V2 : covar 1 [[0]] 0 0 = 0) by reflexivity.
    assert (V3 : covar 1 [[-1]; [-1]; [1]; [1]] 0 0 = 4 / 3) by (unfold covar, centroid; cbn; lra).
    assert (V4 : covar 1 [[0]; [0]] 0 0 = 0) by (unfold covar, centroid; cbn; lra).
    rewrite V1, V2, V3, V4. assert (P : 0 < Rpower 10 (-12)) by (unfold Rpower; apply exp_pos).
    assert (P2 : 0 < sqrt (Rpower (2 * PI) 1)) by (apply sqrt_lt_R0; unfold Rpower; apply exp_pos).
    intros E. apply Rmult_eq_reg_l in E; [|apply Rinv_neq_0_compat; lra].
    apply (f_equal Rinv) in E. rewrite !Rinv_inv in E. apply sqrt_inj in E; lra.
  - split.
    + split; [auto|]. split; [exists 2%nat; auto|]. rewrite (batch_result_ok krCIP 1 2) by auto.
      change (clusters rep_s) with ([[[-1]; [1]]; [[0]]] : list (list point)). apply rCIP_two.
    + split; [now apply rep_wf|]. split; [exists 2%nat; split; [lia|apply rep_exact; auto; lia]|].
      rewrite (batch_result_ok krCIP 1 2) by (auto using rep_wf; apply rep_exact; auto; lia).
      rewrite rep_clusters by lia. change (clusters rep_s) with ([[[-1]; [1]]; [[0]]] : list (list point)).
      apply rCIP_two.
Qed.
Print Assumptions C57_rCIP_refuted.

(** ** C58: a constant feature *)
Lemma sil_value_ext_in {X} (E E' : X -> X -> R) ls : (forall a b, In a ls -> In b ls -> E a b = E' a b) -> sil_value E ls = sil_value E' ls.
Proof.
  intros H. unfold sil_value.
  assert (HF : forall (f f' : X -> bool) l, (forall a, In a l -> f a = f' a) -> forallb f l = forallb f' l).
  { intros f f' l. induction l as [|a l IH]; intros Hf; simpl; auto. rewrite Hf, IH; auto; [intros; apply Hf; now right|now left]. }
  rewrite (HF _ (fun a => forallb (fun b => if Req_EM_T (E' a b) 0 then true else false) ls)).
  - destruct (forallb _ ls); auto. do 2 f_equal. apply map_ext_in. intros [x r] Hp. cbv zeta. cbn [fst snd].
    pose proof (selects_In ls x r Hp) as P.
    assert (Hx : In x ls) by (eapply Permutation_in; [symmetry; exact P|now left]).
    assert (Hr : forall y, In y r -> In y ls) by (intros y Hy; eapply Permutation_in; [symmetry; exact P|now right]).
    rewrite H by auto. replace (map (fun l => E' l x) r) with (map (fun l => E l x) r); auto.
    apply map_ext_in. intros; auto.
  - intros a Ha. apply HF. intros b Hb. now rewrite H.
Qed.
Theorem C58_constant_feature_batch_partial : forall c d k x s, c <> krCIP -> wf d s -> (2 <= k)%nat -> exact_labels s k ->
  exists v, batch_result c d s = Ok v /\ batch_result c (S d) (append_constant x s) = Ok v.
Proof.
  intros c d k x s H2 Hw Hk He. exists (XVal c d (clusters s)). rewrite append_tmap.
  split; [apply (batch_result_ok c d k); auto; congruence|].
  assert (Hw' : wf (S d) (tmap (addc x) s)).
  { unfold wf, tmap. apply Forall_map. eapply Forall_impl; [|exact Hw]. intros [y l] Hy. cbn in *. now apply addc_len. }
  rewrite (batch_result_ok c (S d) k); auto using tmap_exact; try congruence.
  rewrite tmap_clusters, append_XVal; auto using clusters_good.
Qed.
Print Assumptions C58_constant_feature_batch_partial.
Theorem C58_constant_feature_streams_partial : forall c d x s, c <> krCIP -> c <> kcSIL \/ x = 0 -> wf d s ->
  stream_results c (append_constant x s) = stream_results c s.
Proof.
  intros c d x s H2 Hc Hw. rewrite append_tmap.
  assert (Hw' : wf (S d) (tmap (addc x) s)).
  { unfold wf, tmap. apply Forall_map. eapply Forall_impl; [|exact Hw]. intros [y l] Hy. cbn in *. now apply addc_len. }
  assert (L : length (tmap (addc x) s) = length s) by (unfold tmap; now rewrite map_length).
  apply stream_results_ext; auto. intros i Hi. destruct (kind_eq c kcSIL) as [->|Hn].
  - destruct Hc as [Hc| ->]; [congruence|]. rewrite (sil_stream_ok (S d)), (sil_stream_ok d) by (auto; lia).
    rewrite tmap_firstn. do 2 f_equal. unfold cSIL_stream_ext, distinct. rewrite tmap_labels.
    destruct (_ <=? _)%nat; auto. apply wf_firstn with (i := S i) in Hw. revert Hw. generalize (firstn (S i) s). clear. intros s Hw.
    apply sil_value_ext_in. intros a b Ha Hb. apply nodup_In in Hb. now apply addc_entry0.
  - rewrite (stream_result_ok c (S d)), (stream_result_ok c d) by (auto; try lia; congruence).
    rewrite tmap_firstn, tmap_clusters, append_XVal; auto. apply clusters_good. now apply wf_firstn.
Qed.
Print Assumptions C58_constant_feature_streams_partial.
Example C58_hypotheses : kcSIL <> krCIP /\ wf 2 ex_s /\ (2 <= 2)%nat /\ exact_labels ex_s 2 /\
  append_constant 7 [([1; 2], 5%Z)] = [([1; 2; 7], 5%Z)].
Proof. split; [discriminate|]. split; [apply ex_wf|]. split; [lia|]. split; [apply ex_exact|reflexivity]. Qed.
(** rCIP's regularisation depends on the number of features *)
Definition const_s : data := [([0], 0%Z); ([0], 1%Z)].
Lemma potential_2 : potential 2 [[0; 0]] [[0; 0]] = / sqrt (Rpower (2 * PI) 2) * / sqrt (4 * (Rpower 10 (- 6) * Rpower 10 (- 6))).
Proof.
  unfold potential, mahal. cbv zeta.
  rewrite (Det.sumn_ext 2 _ (fun _ => 0)) by (intros i _; apply Det.sumn_zero; intros; ring).
  rewrite Det.sumn_zero by auto. rewrite Rmult_0_r, exp_0, Rmult_1_r. replace (INR 2) with 2 by (cbn; ring). do 3 f_equal.
  change (Qmat 2 [[0; 0]] [[0; 0]]) with
    [[regcov 2 [[0; 0]] 0 0 + regcov 2 [[0; 0]] 0 0; regcov 2 [[0; 0]] 0 1 + regcov 2 [[0; 0]] 0 1];
     [regcov 2 [[0; 0]] 1 0 + regcov 2 [[0; 0]] 1 0; regcov 2 [[0; 0]] 1 1 + regcov 2 [[0; 0]] 1 1]].
  rewrite detR_2. unfold regcov, covar. cbn [length Nat.leb Nat.eqb]. unfold delta. replace (INR 2) with 2 by (cbn; ring).
  replace (-12 / 2) with (-6) by field. ring.
Qed.
Theorem C58_rCIP_refuted : exists d s v w, v <> w /\
  batch_observed krCIP d s (Fin v) /\ batch_observed krCIP (S d) (append_constant 0 s) (Fin w).
Proof.
  exists 1%nat, const_s, (potential 1 [[0]] [[0]]), (potential 2 [[0; 0]] [[0; 0]]).
  assert (Hw : wf 1 const_s) by repeat constructor.
  assert (He : exact_labels const_s 2) by (apply exact_two; intros z; cbn; intuition lia).
  assert (Hw2 : wf 2 (append_constant 0 const_s)) by repeat constructor.
  assert (He2 : exact_labels (append_constant 0 const_s) 2) by (apply exact_two; intros z; cbn; intuition lia).
  split.
  - rewrite potential_1 by (auto; repeat constructor). rewrite potential_2.
    change (covar 1 [[0]] 0 0) with 0. rewrite !Rplus_0_l.
    assert (PP : 1 < PI) by (pose proof PI2_3_2; lra).
    rewrite Rpower_1 by lra.
    replace (Rpower (2 * PI) 2) with (2 * PI * (2 * PI)).
    2:{ replace 2 with (1 + 1) at 4 by ring. rewrite Rpower_plus, !Rpower_1 by lra. reflexivity. }
    replace (-12) with (-6 + -6) by ring. rewrite Rpower_plus.
    set (e := Rpower 10 (-6)). assert (P : 0 < e) by (unfold e, Rpower; apply exp_pos).
    intros E. rewrite <- !Rinv_mult in E. apply (f_equal Rinv) in E. rewrite !Rinv_inv in E.
    rewrite <- !sqrt_mult in E by nra. apply sqrt_inj in E; [|nra|nra].
    assert (e * e * PI * (PI - 1 / 4) = 0) by lra. assert (0 < e * e * PI * (PI - 1 / 4)) by (apply Rmult_lt_0_compat; [|lra]; apply Rmult_lt_0_compat; [|lra]; nra).
    lra.
  - split.
    + split; [auto|]. split; [exists 2%nat; auto|]. rewrite (batch_result_ok krCIP 1 2) by auto.
      change (clusters const_s) with ([[[0]]; [[0]]] : list (list point)). apply rCIP_two.
    + split; [auto|]. split; [exists 2%nat; auto|]. rewrite (batch_result_ok krCIP 2 2) by auto.
      change (clusters (append_constant 0 const_s)) with ([[[0; 0]]; [[0; 0]]] : list (list point)).
      apply rCIP_two.
Qed.
Print Assumptions C58_rCIP_refuted.
(** the wrong inner products of cSIL's incremental update see the constant *)
Theorem C58_cSIL_streams_refuted : exists d s, wf d s /\
  stream_observed kcSIL d s (Fin (/ 2)) /\ stream_observed kcSIL (S d) (append_constant 1 s) (Fin (3 / 4)).
Proof.
  exists 1%nat, sil_s1. split; [repeat constructor|]. split.
  - rewrite <- sil_s1_stream. apply sil_stream_observed_ex; [repeat constructor|discriminate].
  - assert (E : cSIL_stream_ext 2 (append_constant 1 sil_s1) = Fin (3 / 4)).
    { unfold cSIL_stream_ext. change (distinct (append_constant 1 sil_s1)) with [0%Z; 1%Z]. cbn [length Nat.leb].
      rewrite (sil_two _ 0 1 1 0 1 2); [|unfold sil_entry, mdist, inner, centroid, cluster, dist2; cbn; lra..|lra].
      rewrite !Rmax_right by lra. unfold xdiv.
      repeat match goal with |- context [Req_EM_T ?a ?b] => destruct (Req_EM_T a b); [exfalso; lra|] end.
      cbn [xadd]. repeat match goal with |- context [Req_EM_T ?a ?b] => destruct (Req_EM_T a b); [exfalso; lra|] end. f_equal. lra. }
    rewrite <- E. apply sil_stream_observed_ex; [repeat constructor|discriminate].
Qed.
Print Assumptions C58_cSIL_streams_refuted.
