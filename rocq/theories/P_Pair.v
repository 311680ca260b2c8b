(** * C88: what the Xie-Beni value says about the other indices

    Exact arithmetic, any number k >= 2 of clusters.  A small XB forces WB and DB to
    be small and CH to be large; the converse fails: all three can be as good as
    one likes while XB is as bad as one likes. *)
From Coq Require Import ZArith List Arith Bool Lia Permutation.
From Verif Require Import Num NumPy Base GetCvi.
From Coq Require Import Reals Lra.
From Verif Require Import Det Spec XR SpecX RGeom XMove XLift XEval XRun XPerm XBatch Obs XForm XBounds P_Inc P_Formula P_Bounds P_Degenerate XSilEx.
From Verif Require Import XOne P_One P_Merge P_Two.
From Verif Require Import XPair.
Import ListNotations.
Local Notation length := List.length.
Local Open Scope R_scope.

(** ** Vocabulary *)
(** the number of pairs of samples with different labels, the number of samples of
    the smallest cluster *)
Definition split_pairs (s : data) : R :=
  rsum (map (fun p => size s (fst p) * size s (snd p)) (pairs (distinct s))).
Definition smallest (s : data) : R := rmin (map (size s) (distinct s)).
Definition total (s : data) : R := INR (length s).
Definition number (s : data) : R := INR (length (distinct s)).

(** ** Lemmas *)
Lemma split_pairs_clusters s : split_pairs s = size_products (clusters s).
Proof. unfold split_pairs, size_products, clusters. rewrite pairs_map, map_map. reflexivity. Qed.
Lemma smallest_clusters s : smallest s = rmin (map (fun g => INR (length g)) (clusters s)).
Proof. unfold smallest, clusters. now rewrite map_map. Qed.
Lemma number_clusters s : number s = nclus (clusters s).
Proof. unfold number, nclus, clusters. now rewrite map_length. Qed.
Lemma total_clusters s : total s = nsamp (clusters s).
Proof.
  unfold total, nsamp. f_equal. pose proof (clusters_concat s) as P. apply Permutation_length in P. unfold points in P. rewrite map_length in P. auto.
Qed.
Lemma XB_fin d s x : observed kXB d s (Fin x) -> (2 <= length (distinct s))%nat ->
  let gs := clusters s in let D := rmin (map (fun p => cdist d (fst p) (snd p)) (pairs gs)) in
  0 < D /\ x = wgss d gs / (nsamp gs * D) /\ x = XB_formula d gs /\ good d gs /\ (2 <= length gs)%nat /\ 0 < nsamp gs.
Proof.
  intros Ho Hk gs D. assert (Hg : good d gs) by (apply clusters_good; now apply observed_wf in Ho).
  assert (Hk' : (2 <= length gs)%nat) by (unfold gs; now rewrite distinct_clusters).
  pose proof (observed_XVal kXB d s (Fin x) ltac:(discriminate) ltac:(discriminate) Ho) as E. fold gs in E.
  rewrite XVal_ext in E by auto. unfold XB_ext in E. symmetry in E. apply P_Two.xdiv_fin in E as [N ->]. fold D in N |- *.
  assert (0 <= D). { apply rmin_nonneg. apply Forall_forall. intros z Hz. apply in_map_iff in Hz as (p & <- & _). apply cdist_nonneg. }
  assert (D <> 0) by (intros E; apply N; rewrite E; apply Rmult_0_r). pose proof (n_pos d gs Hg Hk').
  repeat split; auto; try lra; apply Hg.
Qed.

(** ** The statements *)
Theorem C88_WB : forall d s w x, (2 <= length (distinct s))%nat -> observed kXB d s (Fin x) -> observed kWB d s (Fin w) ->
  w <= number s * total s ^ 2 / split_pairs s * x.
Proof.
  intros d s w x Hk Hx Hw. destruct (XB_fin d s x Hx Hk) as (PD & -> & _ & Hg & Hk' & PN).
  pose proof (observed_XVal kWB d s (Fin w) ltac:(discriminate) ltac:(discriminate) Hw) as E.
  rewrite XVal_ext in E by auto. unfold WB_ext in E. symmetry in E. apply xmul_fin in E as (z & E & ->). apply P_Two.xdiv_fin in E as [N ->].
  rewrite split_pairs_clusters, number_clusters, total_clusters.
  pose proof (bgss_ge d (clusters s) Hg Hk') as G. pose proof (size_products_pos d (clusters s) Hg Hk') as PP.
  pose proof (bgss_nonneg d (clusters s)) as B0. pose proof (k_gt (clusters s) Hk') as K. pose proof (wgss_nonneg d (clusters s)) as W0.
  set (gs := clusters s) in *. set (D := rmin (map (fun p => cdist d (fst p) (snd p)) (pairs gs))) in *.
  replace (nclus gs * nsamp gs ^ 2 / size_products gs * (wgss d gs / (nsamp gs * D))) with (nclus gs * wgss d gs * (nsamp gs * / (size_products gs * D))) by (field; lra).
  replace (wgss d gs / bgss d gs * nclus gs) with (nclus gs * wgss d gs * / bgss d gs) by (field; auto).
  apply Rmult_le_compat_l; [apply Rmult_le_pos; lra|].
  assert (PB : 0 < bgss d gs) by lra. assert (0 < size_products gs * D) by now apply Rmult_lt_0_compat.
  apply (Rmult_le_reg_r (bgss d gs * (size_products gs * D))); [now apply Rmult_lt_0_compat|].
  replace (/ bgss d gs * (bgss d gs * (size_products gs * D))) with (size_products gs * D) by (field; lra).
  replace (nsamp gs * / (size_products gs * D) * (bgss d gs * (size_products gs * D))) with (nsamp gs * bgss d gs) by (field; lra). exact G.
Qed.
Print Assumptions C88_WB.

Theorem C88_CH : forall d s c x, (2 <= length (distinct s))%nat -> observed kXB d s (Fin x) -> observed kCH d s (Fin c) ->
  (total s - number s) / (number s - 1) * (split_pairs s / total s ^ 2) <= c * x.
Proof.
  intros d s c x Hk Hx Hc. destruct (XB_fin d s x Hx Hk) as (PD & -> & _ & Hg & Hk' & PN).
  pose proof (observed_XVal kCH d s (Fin c) ltac:(discriminate) ltac:(discriminate) Hc) as E.
  rewrite XVal_ext in E by auto. unfold CH_ext in E. symmetry in E. apply xmul_fin in E as (z & E & ->). apply P_Two.xdiv_fin in E as [N ->].
  rewrite split_pairs_clusters, number_clusters, total_clusters.
  pose proof (bgss_ge d (clusters s) Hg Hk') as G. pose proof (size_products_pos d (clusters s) Hg Hk') as PP.
  pose proof (k_gt (clusters s) Hk') as K. pose proof (n_ge_k d (clusters s) Hg) as NK.
  set (gs := clusters s) in *. set (D := rmin (map (fun p => cdist d (fst p) (snd p)) (pairs gs))) in *.
  replace (bgss d gs / wgss d gs * ((nsamp gs - nclus gs) / (nclus gs - 1)) * (wgss d gs / (nsamp gs * D)))
    with ((nsamp gs - nclus gs) / (nclus gs - 1) * (nsamp gs * bgss d gs / (nsamp gs ^ 2 * D))) by (field; repeat split; auto; lra).
  apply Rmult_le_compat_l.
  { apply Rmult_le_pos; [lra|]. apply Rlt_le, Rinv_0_lt_compat. lra. }
  replace (size_products gs / nsamp gs ^ 2) with (size_products gs * D / (nsamp gs ^ 2 * D)) by (field; lra).
  apply Rmult_le_compat_r; auto. apply Rlt_le, Rinv_0_lt_compat. apply Rmult_lt_0_compat; auto. apply pow_lt. lra.
Qed.
Print Assumptions C88_CH.

Theorem C88_DB : forall d s y x, (2 <= length (distinct s))%nat -> observed kXB d s (Fin x) -> observed kDB d s (Fin y) ->
  y <= total s / smallest s * x.
Proof.
  intros d s y x Hk Hx Hy. destruct (XB_fin d s x Hx Hk) as (PD & _ & -> & Hg & Hk' & PN).
  pose proof (observed_XVal kDB d s (Fin y) ltac:(discriminate) ltac:(discriminate) Hy) as E.
  rewrite XVal_ext, DB_form in E by (auto; apply mindist_pos; auto). injection E as ->.
  rewrite smallest_clusters, total_clusters. pose proof (smallest_pos d (clusters s) Hg Hk') as Pm.
  pose proof (DB_le_XB d (clusters s) Hg Hk' PD) as H. set (gs := clusters s) in *. cbv zeta in *.
  apply (Rmult_le_reg_l (rmin (map (fun g => INR (length g)) gs))); [exact Pm|]. eapply Rle_trans; [exact H|].
  apply Req_le. field. apply Rgt_not_eq. exact Pm.
Qed.
Print Assumptions C88_DB.

(** with two clusters, the bounds of WB and CH are equalities (C84) *)
Theorem C88_two : forall s a b, two_labels s a b -> let n := size s a in let m := size s b in
  number s = 2 /\ total s = n + m /\ split_pairs s = n * m /\ smallest s = Rmin n m.
Proof.
  intros s a b H n m. assert (T : total s = size s a + size s b).
  { rewrite total_clusters. unfold clusters. destruct (two_distinct s a b H) as [-> | ->]; cbn [map]; rewrite two_nsamp; auto. apply Rplus_comm. }
  unfold number, split_pairs, smallest. destruct (two_distinct s a b H) as [-> | ->]; cbn [pairs map app fst snd rsum fold_right rmin]; rewrite T; subst n m; repeat split; cbn; try lra.
  rewrite Rmin_comm. reflexivity. 
Qed.
Print Assumptions C88_two.

(** two single samples e apart, and two samples 2 apart whose centroid is M + e away *)
Definition lone (e M : R) : data := [([0], 0%Z); ([e], 1%Z); ([M + e - 1], 2%Z); ([M + e + 1], 2%Z)].
Lemma fdiv x y z : y <> 0 -> x / y = z -> xdiv (Fin x) (Fin y) = Fin z.
Proof. intros Hy <-. cbn. now destruct (Req_EM_T y 0). Qed.
Section Lone.
  Context (e M : R).
  Hypotheses (He : 0 < e <= 1) (HM : 1 < M).
  Let gs : list (list point) := [[[0]]; [[e]]; [[M + e - 1]; [M + e + 1]]].
  Lemma lone_clusters : clusters (lone e M) = gs. Proof. reflexivity. Qed.
  Lemma lone_wf : wf 1 (lone e M). Proof. repeat constructor. Qed.
  Lemma lone_s1 : scatter 1 [[0]] = 0. Proof. unfold scatter, dist2, centroid; cbn; field. Qed.
  Lemma lone_s2 : scatter 1 [[e]] = 0. Proof. unfold scatter, dist2, centroid; cbn; field. Qed.
  Lemma lone_s3 : scatter 1 [[M + e - 1]; [M + e + 1]] = 2. Proof. unfold scatter, dist2, centroid; cbn; field. Qed.
  Lemma lone_d12 : cdist 1 [[0]] [[e]] = e * e. Proof. unfold cdist, dist2, centroid; cbn; field. Qed.
  Lemma lone_d13 : cdist 1 [[0]] [[M + e - 1]; [M + e + 1]] = (M + e) * (M + e). Proof. unfold cdist, dist2, centroid; cbn; field. Qed.
  Lemma lone_d23 : cdist 1 [[e]] [[M + e - 1]; [M + e + 1]] = M * M. Proof. unfold cdist, dist2, centroid; cbn; field. Qed.
  Lemma lone_wgss : wgss 1 gs = 2. Proof. unfold wgss, gs. cbn [map rsum fold_right]. rewrite lone_s1, lone_s2, lone_s3. lra. Qed.
  Lemma lone_good : good 1 gs.
  Proof. split; unfold gs; repeat (apply Forall_cons || apply Forall_nil); try discriminate; repeat (apply Forall_cons || apply Forall_nil); reflexivity. Qed.
  Lemma lone_nsamp : nsamp gs = 4. Proof. unfold nsamp, gs. cbn. lra. Qed.
  Lemma lone_nclus : nclus gs = 3. Proof. unfold nclus, gs. cbn. lra. Qed.
  Lemma lone_bgss : bgss 1 gs = (e * e + 2 * ((M + e) * (M + e)) + 2 * (M * M)) / 4.
  Proof.
    pose proof (bgss_pairs 1 gs lone_good ltac:(cbn; lia)) as H. rewrite lone_nsamp in H.
    assert (E : 4 * bgss 1 gs = e * e + 2 * ((M + e) * (M + e)) + 2 * (M * M)); [|lra].
    rewrite H. unfold gs. cbn [pairs map app fst snd rsum fold_right length INR]. rewrite lone_d12, lone_d13, lone_d23. ring.
  Qed.
  Lemma lone_min : rmin (map (fun p => cdist 1 (fst p) (snd p)) (pairs gs)) = e * e.
  Proof.
    unfold gs. cbn [pairs map app fst snd rmin fold_right]. rewrite lone_d12, lone_d13, lone_d23.
    assert (e * e <= 1) by nra. assert (1 <= M * M) by nra. assert (1 <= (M + e) * (M + e)) by nra.
    rewrite (Rmin_right (M * M)) by lra. apply Rmin_right. lra.
  Qed.
  Lemma lone_XB : observed kXB 1 (lone e M) (Fin (/ (2 * (e * e)))).
  Proof.
    apply observed_is; try discriminate; [apply lone_wf|]. rewrite lone_clusters, XVal_ext by (cbn; lia). unfold XB_ext.
    rewrite lone_wgss, lone_nsamp, lone_min. assert (0 < e * e) by nra. apply fdiv; [lra|]. field. lra.
  Qed.
  Lemma lone_WB : observed kWB 1 (lone e M) (Fin (6 / bgss 1 gs)).
  Proof.
    apply observed_is; try discriminate; [apply lone_wf|]. rewrite lone_clusters, XVal_ext by (cbn; lia). unfold WB_ext.
    rewrite lone_wgss, lone_nclus. assert (0 < bgss 1 gs) by (rewrite lone_bgss; nra). rewrite (fdiv 2 (bgss 1 gs) (2 / bgss 1 gs)) by first [reflexivity|apply Rgt_not_eq; assumption]. cbn [xmul]. f_equal. field. lra.
  Qed.
  Lemma lone_CH : observed kCH 1 (lone e M) (Fin (bgss 1 gs / 4)).
  Proof.
    apply observed_is; try discriminate; [apply lone_wf|]. rewrite lone_clusters, XVal_ext by (cbn; lia). unfold CH_ext.
    rewrite lone_wgss, lone_nclus, lone_nsamp. rewrite (fdiv (bgss 1 gs) 2 (bgss 1 gs / 2)) by first [reflexivity|lra]. cbn [xmul]. f_equal. field.
  Qed.
  Lemma lone_DB : exists y, y <= / (M * M) /\ observed kDB 1 (lone e M) (Fin y).
  Proof.
    assert (Q1 : 0 < e * e) by nra. assert (Q2 : 0 < M * M) by nra. assert (Q3 : M * M <= (M + e) * (M + e)) by nra.
    exists (DB_formula 1 gs). split.
    - unfold DB_formula, mse, gs. cbn [selects map fst snd rmax rsum fold_right length INR]. rewrite (cdist_sym 1 [[e]] [[0]]), (cdist_sym 1 [[M + e - 1]; [M + e + 1]] [[0]]), (cdist_sym 1 [[M + e - 1]; [M + e + 1]] [[e]]).
      rewrite lone_s1, lone_s2, lone_s3, lone_d12, lone_d13, lone_d23. fold gs. rewrite lone_nclus.
      assert (Z : / ((M + e) * (M + e)) <= / (M * M)) by (apply Rinv_le_contravar; auto).
      assert (Z' : 0 < / ((M + e) * (M + e))) by (apply Rinv_0_lt_compat; lra). assert (Z2 : 0 < / (M * M)) by (apply Rinv_0_lt_compat; lra).
      replace ((0 / 1 + 0 / 1) / (e * e)) with 0 by (field; lra).
      replace ((0 / 1 + 2 / (1 + 1)) / ((M + e) * (M + e))) with (/ ((M + e) * (M + e))) by (field; lra).
      replace ((0 / 1 + 2 / (1 + 1)) / (M * M)) with (/ (M * M)) by (field; nra).
      replace ((2 / (1 + 1) + 0 / 1) / ((M + e) * (M + e))) with (/ ((M + e) * (M + e))) by (field; lra).
      replace ((2 / (1 + 1) + 0 / 1) / (M * M)) with (/ (M * M)) by (field; nra).
      unfold Rmax. repeat destruct Rle_dec; lra.
    - apply observed_is; try discriminate; [apply lone_wf|]. rewrite lone_clusters, XVal_ext by (cbn; lia). apply DB_form; [cbn; lia|].
      apply mindist_pos; [cbn; lia|]. rewrite lone_min. lra.
  Qed.
End Lone.

(** not the other way round: WB, DB and CH as good, XB as bad as one likes *)
Theorem C88_no_converse : forall t, 0 < t -> exists d s x y w c,
  observed kXB d s (Fin x) /\ observed kDB d s (Fin y) /\ observed kWB d s (Fin w) /\ observed kCH d s (Fin c) /\
  t < x /\ y < / t /\ w < / t /\ t < c.
Proof.
  intros t Ht. set (e := / (1 + t)). set (M := 4 * (1 + t)).
  assert (He : 0 < e <= 1). { unfold e. split; [apply Rinv_0_lt_compat; lra|]. rewrite <- Rinv_1. apply Rinv_le_contravar; lra. }
  assert (HM : 1 < M) by (unfold M; lra).
  destruct (lone_DB e M He HM) as (y & Hy & Oy).
  exists 1%nat, (lone e M). do 4 eexists. split; [apply (lone_XB e M He HM)|]. split; [exact Oy|]. split; [apply (lone_WB e M He HM)|]. split; [apply (lone_CH e M)|].
  rewrite lone_bgss by auto.
  assert (B : M * M <= (e * e + 2 * ((M + e) * (M + e)) + 2 * (M * M)) / 4) by nra.
  set (b := (e * e + 2 * ((M + e) * (M + e)) + 2 * (M * M)) / 4) in *.
  assert (MM : M * M = 16 * ((1 + t) * (1 + t))) by (unfold M; ring).
  assert (T : t < (1 + t) * (1 + t)) by nra.
  split; [|split; [|split]].
  - unfold e. replace (/ (2 * (/ (1 + t) * / (1 + t)))) with ((1 + t) * (1 + t) / 2) by (field; lra). nra.
  - eapply Rle_lt_trans; [exact Hy|]. apply Rinv_lt_contravar; [apply Rmult_lt_0_compat; nra|]. nra.
  - apply (Rmult_lt_reg_r (b * t)); [apply Rmult_lt_0_compat; nra|]. replace (6 / b * (b * t)) with (6 * t) by (field; nra).
    replace (/ t * (b * t)) with b by (field; lra). nra.
  - nra.
Qed.
Print Assumptions C88_no_converse.

(** 0 | 1 | 9, 11: XB = 1/2 *)
Example C88_hypotheses : (2 <= length (distinct (lone 1 9)))%nat /\ split_pairs (lone 1 9) = 5 /\ smallest (lone 1 9) = 1 /\ total (lone 1 9) = 4 /\
  observed kXB 1 (lone 1 9) (Fin (/ 2)) /\ observed kWB 1 (lone 1 9) (Fin (24 / 363)) /\ observed kCH 1 (lone 1 9) (Fin (363 / 16)) /\ exists y, observed kDB 1 (lone 1 9) (Fin y).
Proof.
  split; [cbn; lia|]. split; [unfold split_pairs, size; cbn; lra|]. split.
  { unfold smallest, size. cbn. unfold Rmin. repeat destruct Rle_dec; lra. }
  split; [unfold total; cbn; lra|].
  assert (He : 0 < 1 <= 1) by lra. assert (HM : 1 < 9) by lra.
  split; [|split; [|split]].
  - pose proof (lone_XB 1 9 He HM) as H. replace (/ (2 * (1 * 1))) with (/ 2) in H by field. exact H.
  - pose proof (lone_WB 1 9 He HM) as H. rewrite lone_bgss in H by auto. replace (24 / 363) with (6 / ((1 * 1 + 2 * ((9 + 1) * (9 + 1)) + 2 * (9 * 9)) / 4)) by field. exact H.
  - pose proof (lone_CH 1 9) as H. rewrite lone_bgss in H by auto. replace (363 / 16) with ((1 * 1 + 2 * ((9 + 1) * (9 + 1)) + 2 * (9 * 9)) / 4 / 4) by field. exact H.
  - destruct (lone_DB 1 9 He HM) as (y & _ & H). now exists y.
Qed.
