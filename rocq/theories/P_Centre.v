(** * C102: a sample at the centroid of its own cluster

    Exact arithmetic; [observed c d s v] as in P_Bounds.v.  CH, WB, DB, XB and GD43
    do not get worse, XB by an exact factor; GD53 can fall. *)
From Coq Require Import ZArith List Arith Bool Lia Permutation.
From Verif Require Import Num NumPy Base GetCvi Lists Stream Generic.
From Coq Require Import Reals Lra.
From Verif Require Import Det Spec XR SpecX RGeom XLift XEval XRun XPerm XBatch Obs XForm XBounds P_Inc P_Formula P_Bounds P_Degenerate.
From Verif Require Import CompSpec Comp CompX P_Comp.
From Verif Require Import XSilEx XOne P_One.
Import ListNotations.
Local Notation length := List.length.
Local Open Scope R_scope.

(** Spec: one more sample with label [l], at the centroid of the samples labelled [l] *)
Definition centred (d : nat) (s : data) (l : Z) : data := s ++ [(centroid d (cluster s l), l)].

Section Centred.
  Context (d : nat) (s : data) (l : Z).
  Hypotheses (Hw : wf d s) (Hl : In l (labels s)) (Hk : (2 <= length (distinct s))%nat).
  Let x : point := centroid d (cluster s l).
  Let t : data := (x, l) :: s.
  Lemma centred_perm : Permutation (centred d s l) t.
  Proof. unfold centred, t, x. symmetry. apply Permutation_cons_append. Qed.
  Lemma t_distinct : distinct t = distinct s.
  Proof. unfold distinct, t, labels. cbn [map snd nodup]. destruct (in_dec Z.eq_dec l (map snd s)); [reflexivity|contradiction]. Qed.
  Lemma t_cluster m : cluster t m = if Z.eqb l m then x :: cluster s m else cluster s m.
  Proof. unfold cluster, t. cbn [filter snd]. now destruct (Z.eqb l m). Qed.
  Lemma t_centroid m : In m (labels s) -> centroid d (cluster t m) = centroid d (cluster s m).
  Proof.
    intros Hm. rewrite t_cluster. destruct (Z.eqb_spec l m) as [<-|]; auto.
    assert (Hn : cluster s l <> []) by now apply cluster_some.
    apply (point_ext d); try apply centroid_length. intros j Hj.
    change (x :: cluster s l) with ([x] ++ cluster s l). rewrite co_centroid_app by (auto; discriminate).
    rewrite centroid_single by apply centroid_length. pose proof (INR_pos (cluster s l) Hn). cbn [length INR]. unfold x. field. lra.
  Qed.
  Lemma t_scatter m : In m (labels s) -> scatter d (cluster t m) = scatter d (cluster s m).
  Proof.
    intros Hm. unfold scatter. rewrite t_centroid by auto. rewrite t_cluster. destruct (Z.eqb_spec l m) as [<-|]; auto.
    cbn [map]. rewrite rsum_cons. unfold x. rewrite dist2_refl. lra.
  Qed.
  Lemma t_mse m : In m (labels s) -> mse d (cluster t m) <= mse d (cluster s m).
  Proof.
    intros Hm. unfold mse. rewrite t_scatter by auto. rewrite t_cluster. destruct (Z.eqb_spec l m) as [<-|]; [|lra].
    apply Rmult_le_compat_l; [apply scatter_nonneg|]. pose proof (INR_pos (cluster s l) (cluster_some s l Hl)).
    apply Rinv_le_contravar; auto. apply le_INR. cbn [length]. lia.
  Qed.
  Lemma in_distinct m : In m (distinct s) -> In m (labels s).
  Proof. apply nodup_In. Qed.
  Lemma t_clusters : clusters t = map (cluster t) (distinct s).
  Proof. unfold clusters. now rewrite t_distinct. Qed.
  Lemma wf_t : wf d t.
  Proof. constructor; [apply centroid_length|exact Hw]. Qed.
  Lemma t_len : length (clusters t) = length (distinct s).
  Proof. rewrite t_clusters. apply map_length. Qed.
  Lemma pairs_in (f : Z -> list point) p : In p (pairs (distinct s)) -> In (fst p) (labels s) /\ In (snd p) (labels s).
  Proof. intros Hp. destruct p as [a b]. apply pairs_In in Hp as [Ha Hb]. split; now apply in_distinct. Qed.
  Lemma t_dists : map (fun p => cdist d (fst p) (snd p)) (pairs (clusters t)) = map (fun p => cdist d (fst p) (snd p)) (pairs (clusters s)).
  Proof.
    rewrite t_clusters. unfold clusters. rewrite !pairs_map, !map_map. apply map_ext_in. intros p Hp. cbn [fst snd].
    destruct (pairs_in (cluster s) p Hp). unfold cdist. now rewrite !t_centroid.
  Qed.
  Lemma t_wgss : wgss d (clusters t) = wgss d (clusters s).
  Proof. rewrite t_clusters. unfold wgss, clusters. rewrite !map_map. f_equal. apply map_ext_in. intros m Hm. apply t_scatter. now apply in_distinct. Qed.
  Lemma t_nsamp : nsamp (clusters t) = nsamp (clusters s) + 1.
  Proof. rewrite !nsamp_length. unfold t. cbn [length]. now rewrite S_INR. Qed.
  Lemma t_nclus : nclus (clusters t) = nclus (clusters s).
  Proof. now rewrite !nclus_distinct, t_distinct. Qed.
  Lemma t_bgss : bgss d (clusters s) <= bgss d (clusters t).
  Proof.
    assert (Hx : length x = d) by apply centroid_length.
    pose proof (C38_total_scatter d s Hw) as T. pose proof (C38_total_scatter d t wf_t) as T'.
    assert (E : scatter d (points t) = scatter d (points s) + gain d (points s) x).
    { rewrite <- (total_snoc d s x l Hw Hx). apply scatter_perm. unfold points, t. rewrite map_app. cbn [map fst]. apply Permutation_cons_append. }
    pose proof (gain_nonneg d (points s) x). pose proof t_wgss. lra.
  Qed.
  Lemma value c v : c <> kcSIL -> c <> krCIP -> observed c d (centred d s l) v -> v = XVal c d (clusters t).
  Proof.
    intros H1 H2 Ho. rewrite (observed_XVal c d (centred d s l) v) by (auto; congruence). apply XVal_data, centred_perm.
  Qed.
End Centred.

Lemma xmul_div_pos a b c : 0 < c -> xdiv (Fin a) (Fin (b / c)) = xmul (Fin c) (xdiv (Fin a) (Fin b)).
Proof.
  intros Hc. unfold xdiv. assert (I : 0 < / c) by now apply Rinv_0_lt_compat. unfold Rdiv at 1.
  destruct (Req_EM_T b 0) as [->|Hb].
  - destruct (Req_EM_T (0 * / c) 0); [|lra]. unfold inf_mul. destruct (Req_EM_T a 0); auto.
    destruct (Rlt_dec 0 a); cbn [xmul]; unfold inf_mul; destruct (Req_EM_T c 0); try lra; destruct (Rlt_dec 0 c); lra || reflexivity.
  - destruct (Req_EM_T (b * / c) 0) as [E|E]; [exfalso; apply Rmult_integral in E; lra|]. cbn [xmul]. f_equal. field. lra.
Qed.

(** ** XB: multiplied by n / (n + 1), n the number of samples before *)
Theorem C102_XB d s l v v' : In l (labels s) -> (2 <= length (distinct s))%nat ->
  observed kXB d s v -> observed kXB d (centred d s l) v' ->
  v' = xmul (Fin (INR (length s) / (INR (length s) + 1))) v.
Proof.
  intros Hl Hk H H'. pose proof (observed_wf _ _ _ _ H) as Hw.
  assert (K : (2 <= length (clusters s))%nat) by now rewrite distinct_clusters.
  rewrite (value d s l kXB v') by (auto; discriminate). rewrite (observed_XVal kXB d s v) by (auto; discriminate).
  rewrite !XVal_ext by (rewrite ?t_len; auto). unfold XB_ext. rewrite t_wgss, t_dists, t_nsamp, nsamp_length by auto.
  assert (P : 0 < INR (length s)) by (apply (lt_INR 0); destruct s; [destruct Hl|cbn; lia]).
  rewrite <- xmul_div_pos by (apply Rmult_lt_0_compat; [lra|apply Rinv_0_lt_compat; lra]). f_equal. f_equal. field. lra.
Qed.
Print Assumptions C102_XB.

(** ** GD43: the same, or both numbers and the value does not fall *)
Theorem C102_GD43 d s l v v' : In l (labels s) -> (2 <= length (distinct s))%nat ->
  observed kGD43 d s v -> observed kGD43 d (centred d s l) v' ->
  v' = v \/ exists r r', v = Fin r /\ v' = Fin r' /\ 0 <= r <= r'.
Proof.
  intros Hl Hk H H'. pose proof (observed_wf _ _ _ _ H) as Hw.
  assert (K : (2 <= length (clusters s))%nat) by now rewrite distinct_clusters.
  rewrite (value d s l kGD43 v') by (auto; discriminate). rewrite (observed_XVal kGD43 d s v) by (auto; discriminate).
  rewrite !XVal_ext by (rewrite ?t_len; auto). unfold GD43_ext.
  set (t := (centroid d (cluster s l), l) :: s).
  assert (E : map (fun p => sqrt (cdist d (fst p) (snd p))) (pairs (clusters t)) = map (fun p => sqrt (cdist d (fst p) (snd p))) (pairs (clusters s))).
  { rewrite <- !(map_map (fun p => cdist d (fst p) (snd p)) sqrt). f_equal. now apply t_dists. }
  rewrite E. set (m := rmin _). set (M := rmax (map (mse d) (clusters s))). set (M' := rmax (map (mse d) (clusters t))).
  assert (Nt : clusters t <> []) by (intros F; pose proof (t_len d s l Hl) as L; fold t in L; rewrite F in L; cbn in L; lia).
  assert (Ns : clusters s <> []) by (intros F; rewrite F in K; cbn in K; lia).
  assert (Ct : clusters t = map (cluster t) (distinct s)) by now apply t_clusters.
  assert (LE : M' <= M).
  { destruct (in_map_iff (mse d) (clusters t) M') as [F _]. destruct F as (g & <- & Hg); [apply rmax_In; intros F; now apply map_eq_nil in F|].
    rewrite Ct in Hg. apply in_map_iff in Hg as (a & <- & Ha). apply Rle_trans with (mse d (cluster s a)).
    - apply t_mse; auto. now apply in_distinct.
    - apply rmax_ge, in_map, in_map, Ha. }
  assert (P : forall g, 0 <= mse d g) by (intros; apply mse_nonneg).
  assert (M0 : 0 <= M) by (apply rmax_nonneg, Forall_map, Forall_forall; auto).
  assert (M0' : 0 <= M') by (apply rmax_nonneg, Forall_map, Forall_forall; auto).
  assert (ZZ : M' = 0 -> M = 0).
  { intros Z. apply rmax_zero in Z; [|apply Forall_map, Forall_forall; auto]. rewrite Forall_map, Forall_forall in Z.
    apply rmax_unique.
    - destruct (clusters s) as [|g gs] eqn:Eg; [congruence|]. left.
      assert (Hg : In g (clusters s)) by (rewrite Eg; now left). clear Eg.
      unfold clusters in Hg. apply in_map_iff in Hg as (a & <- & Ha). pose proof (in_distinct s a Ha) as La.
      assert (Z1 : mse d (cluster t a) = 0) by (apply Z; rewrite Ct; now apply in_map).
      unfold mse in *. unfold t in Z1. rewrite t_scatter in Z1 by auto. fold t in Z1. apply Rmult_integral in Z1 as [Z1|Z1]; [rewrite Z1; unfold Rdiv; ring|].
      exfalso. revert Z1. apply Rinv_neq_0_compat. apply not_0_INR. intros F. apply length_zero_iff_nil in F.
      revert F. apply cluster_some. unfold t, labels. cbn [map snd]. now right.
    - intros y Hy. apply in_map_iff in Hy as (g & <- & Hg). unfold clusters in Hg. apply in_map_iff in Hg as (a & <- & Ha). pose proof (in_distinct s a Ha) as La.
      assert (Z1 : mse d (cluster t a) = 0) by (apply Z; rewrite Ct; now apply in_map).
      unfold mse in *. unfold t in Z1. rewrite t_scatter in Z1 by auto. fold t in Z1. apply Rmult_integral in Z1 as [Z1|Z1]; [rewrite Z1; unfold Rdiv; lra|].
      exfalso. revert Z1. apply Rinv_neq_0_compat. apply not_0_INR. intros F. apply length_zero_iff_nil in F.
      revert F. apply cluster_some. unfold t, labels. cbn [map snd]. now right. }
  destruct (Req_dec M 0) as [Z|Z].
  - left. assert (M' = 0) by lra. now rewrite Z, H0.
  - right. assert (M' <> 0) by tauto. rewrite !xdiv_fin by lra. do 2 eexists. split; [reflexivity|]. split; [reflexivity|].
    assert (Hm : 0 <= m).
    { unfold m. destruct (map (fun p => sqrt (cdist d (fst p) (snd p))) (pairs (clusters s))) as [|y ys] eqn:Ey; [cbn; lra|].
      pose proof (rmin_In (y :: ys) ltac:(discriminate)) as I. rewrite <- Ey in I at 2. apply in_map_iff in I as (p & <- & _). apply sqrt_pos. }
    split.
    + apply Rmult_le_pos; auto. apply Rlt_le, Rinv_0_lt_compat. lra.
    + apply Rmult_le_compat_l; auto. apply Rinv_le_contravar; lra.
Qed.
Print Assumptions C102_GD43.

(** ** CH does not fall, WB does not grow *)
Theorem C102_CH d s l r r' : In l (labels s) -> (2 <= length (distinct s))%nat ->
  observed kCH d s (Fin r) -> observed kCH d (centred d s l) (Fin r') -> r <= r'.
Proof.
  intros Hl Hk H H'. pose proof (observed_wf _ _ _ _ H) as Hw. pose proof (clusters_good d s Hw) as Hg.
  destruct (finite_CH _ _ _ H Hk) as [W ->].
  set (t := (centroid d (cluster s l), l) :: s).
  assert (K : (2 <= length (clusters s))%nat) by now rewrite distinct_clusters.
  pose proof (value d s l kCH (Fin r') ltac:(discriminate) ltac:(discriminate) H') as E. rewrite XVal_ext in E by (rewrite t_len; auto).
  fold t in E. unfold CH_ext in E.
  assert (EW : wgss d (clusters t) = wgss d (clusters s)) by now apply t_wgss.
  assert (EN : nsamp (clusters t) = nsamp (clusters s) + 1) by now apply t_nsamp.
  assert (EK : nclus (clusters t) = nclus (clusters s)) by now apply t_nclus.
  assert (EB : bgss d (clusters s) <= bgss d (clusters t)) by now apply t_bgss.
  rewrite EW, EN, EK in E. rewrite xdiv_fin in E by lra. cbn [xmul] in E. injection E as ->.
  assert (k2 : 1 < nclus (clusters s)) by (unfold nclus; apply (lt_INR 1); lia).
  assert (kn : nclus (clusters s) < nsamp (clusters s)).
  { pose proof (CH_form d (clusters s) Hg K ltac:(lra)) as F. pose proof (single_nk d (clusters s) Hg) as TN.
    assert (nclus (clusters s) <= nsamp (clusters s)).
    { rewrite nclus_distinct, nsamp_length. apply le_INR. rewrite <- (map_length snd s). apply NoDup_incl_length; [apply NoDup_nodup|intros z; apply nodup_In]. }
    destruct (Req_dec (nclus (clusters s)) (nsamp (clusters s))) as [Z|Z]; [|lra].
    exfalso. assert (wgss d (clusters s) = 0) by (apply singles_wgss; auto; lra). lra. }
  pose proof (bgss_nonneg d (clusters s)) as B0. unfold CH_formula.
  set (b := bgss d (clusters s)) in *. set (b' := bgss d (clusters t)) in *. set (w := wgss d (clusters s)) in *.
  set (k := nclus (clusters s)) in *. set (n := nsamp (clusters s)) in *.
  replace (b / (k - 1) / (w / (n - k))) with (b / w * ((n - k) / (k - 1))) by (field; lra).
  assert (IW : 0 < / w) by now apply Rinv_0_lt_compat. assert (IK : 0 < / (k - 1)) by (apply Rinv_0_lt_compat; lra).
  apply Rmult_le_compat.
  - apply Rmult_le_pos; lra.
  - apply Rmult_le_pos; lra.
  - apply Rmult_le_compat_r; lra.
  - apply Rmult_le_compat_r; lra.
Qed.
Print Assumptions C102_CH.
Theorem C102_WB d s l r r' : In l (labels s) -> (2 <= length (distinct s))%nat ->
  observed kWB d s (Fin r) -> observed kWB d (centred d s l) (Fin r') -> r' <= r.
Proof.
  intros Hl Hk H H'. pose proof (observed_wf _ _ _ _ H) as Hw.
  destruct (finite_WB _ _ _ H Hk) as [B ->].
  set (t := (centroid d (cluster s l), l) :: s).
  pose proof (value d s l kWB (Fin r') ltac:(discriminate) ltac:(discriminate) H') as E. rewrite XVal_ext in E by (rewrite t_len; auto).
  fold t in E. unfold WB_ext in E.
  assert (EW : wgss d (clusters t) = wgss d (clusters s)) by now apply t_wgss.
  assert (EK : nclus (clusters t) = nclus (clusters s)) by now apply t_nclus.
  assert (EB : bgss d (clusters s) <= bgss d (clusters t)) by now apply t_bgss.
  rewrite EW, EK in E. rewrite xdiv_fin in E by lra. cbn [xmul] in E. injection E as ->.
  pose proof (wgss_nonneg d (clusters s)) as W0. pose proof (pos_INR (length (clusters s))) as K0. fold (nclus (clusters s)) in K0. unfold WB_formula.
  set (b := bgss d (clusters s)) in *. set (b' := bgss d (clusters t)) in *. set (w := wgss d (clusters s)) in *.
  set (k := nclus (clusters s)) in *.
  apply Rle_trans with (w / b * k); [|right; field; lra]. apply Rmult_le_compat_r; auto.
  apply Rmult_le_compat_l; auto. apply Rinv_le_contravar; lra.
Qed.
Print Assumptions C102_WB.

(** ** DB does not grow *)
Lemma rmax_mono {X} (f g : X -> R) l : (forall a, In a l -> f a <= g a) -> rmax (map f l) <= rmax (map g l).
Proof.
  intros H. destruct l as [|a l]; [right; reflexivity|].
  pose proof (rmax_In (map f (a :: l)) ltac:(discriminate)) as I. apply in_map_iff in I as (b & E & Hb). rewrite <- E.
  apply Rle_trans with (g b); [now apply H|]. apply rmax_ge. now apply in_map.
Qed.
Lemma rsum_mono {X} (f g : X -> R) l : (forall a, In a l -> f a <= g a) -> rsum (map f l) <= rsum (map g l).
Proof.
  induction l as [|a l IH]; intros H; [right; reflexivity|]. cbn [map]. rewrite !rsum_cons.
  apply Rplus_le_compat; [apply H; now left|apply IH; intros; apply H; now right].
Qed.
Theorem C102_DB d s l v v' : In l (labels s) -> (2 <= length (distinct s))%nat -> NoDup (map (centroid d) (clusters s)) ->
  observed kDB d s v -> observed kDB d (centred d s l) v' ->
  exists r r', v = Fin r /\ v' = Fin r' /\ r' <= r.
Proof.
  intros Hl Hk Hn H H'. pose proof (observed_wf _ _ _ _ H) as Hw.
  assert (K : (2 <= length (clusters s))%nat) by now rewrite distinct_clusters.
  rewrite (value d s l kDB v') by (auto; discriminate). rewrite (observed_XVal kDB d s v) by (auto; discriminate).
  rewrite !XVal_ext by (rewrite ?t_len; auto).
  set (t := (centroid d (cluster s l), l) :: s).
  assert (Ct : clusters t = map (cluster t) (distinct s)) by now apply t_clusters.
  assert (Hn' : NoDup (map (centroid d) (clusters t))).
  { rewrite Ct, map_map. rewrite (map_ext_in _ (fun a => centroid d (cluster s a))).
    - unfold clusters in Hn. now rewrite map_map in Hn.
    - intros a Ha. apply t_centroid; auto. now apply in_distinct. }
  rewrite (DB_form d (clusters s)) by (auto using clusters_good).
  assert (Kt : (2 <= length (clusters t))%nat) by (unfold t; rewrite t_len; auto).
  rewrite (DB_form d (clusters t)) by (auto; apply clusters_good, wf_t; auto).
  do 2 eexists. split; [reflexivity|]. split; [reflexivity|]. unfold DB_formula.
  assert (EK : nclus (clusters t) = nclus (clusters s)) by now apply t_nclus. rewrite EK.
  apply Rmult_le_compat_r; [apply Rlt_le, Rinv_0_lt_compat; unfold nclus; apply (lt_INR 0); lia|].
  rewrite Ct. unfold clusters. rewrite !selects_map, !map_map. apply rsum_mono. intros [a r] Ha. cbn [fst snd]. rewrite !map_map.
  apply selects_In in Ha.
  assert (La : In a (labels s)) by (apply in_distinct, (Permutation_in _ (Permutation_sym Ha)); now left).
  apply rmax_mono. intros b Hb.
  assert (Lb : In b (labels s)) by (apply in_distinct, (Permutation_in _ (Permutation_sym Ha)); now right).
  unfold cdist, t. rewrite !t_centroid by auto.
  pose proof (t_mse d s l Hl Hk a La). pose proof (t_mse d s l Hl Hk b Lb).
  assert (P : centroid d (cluster s a) <> centroid d (cluster s b)).
  { unfold clusters in Hn. rewrite map_map in Hn. apply (Permutation_NoDup (Permutation_map _ Ha)) in Hn. cbn [map] in Hn.
    inversion Hn as [|? ? NI _]; subst. intros F. apply NI. rewrite F. now apply (in_map (fun a => centroid d (cluster s a))). }
  assert (D : 0 < dist2 (centroid d (cluster s a)) (centroid d (cluster s b))).
  { pose proof (dist2_nonneg (centroid d (cluster s a)) (centroid d (cluster s b))) as [D|D]; auto. exfalso. apply P.
    symmetry in D. apply dist2_zero in D; auto. now rewrite !centroid_length. }
  apply Rmult_le_compat_r; [now apply Rlt_le, Rinv_0_lt_compat|]. lra.
Qed.
Print Assumptions C102_DB.

(** clusters -1, 1 | 10, 14; a sample 0 in the first *)
Definition mid_s : data := [([-1], 0%Z); ([1], 0%Z); ([10], 1%Z); ([14], 1%Z)].
Lemma mid_centred : centred 1 mid_s 0%Z = mid_s ++ [([0], 0%Z)].
Proof. unfold centred. do 4 f_equal. cbn. unfold centroid. cbn. f_equal. field. Qed.
Lemma mid_wf : wf 1 mid_s.
Proof. repeat constructor. Qed.
Lemma mid_wf' : wf 1 (centred 1 mid_s 0%Z).
Proof. rewrite mid_centred. repeat constructor. Qed.
Theorem C102_example : In 0%Z (labels mid_s) /\ length (distinct mid_s) = 2%nat /\ NoDup (map (centroid 1) (clusters mid_s)) /\
  forall c, c <> kcSIL -> c <> krCIP ->
    (exists v, batch_observed c 1 mid_s v) /\ (exists v, batch_observed c 1 (centred 1 mid_s 0%Z) v) /\
    (exists v, stream_observed c 1 mid_s v) /\ exists v, stream_observed c 1 (centred 1 mid_s 0%Z) v.
Proof.
  split; [now left|]. split; [reflexivity|]. split.
  { unfold centroid. cbn. repeat constructor; cbn; [|tauto]. intros [F|[]]. injection F. intros. lra. }
  intros c H1 H2. pose proof mid_wf as W. pose proof mid_wf' as W'. repeat split.
  - apply (batch_observed_ex c 1 2); auto; try congruence. intros z; cbn; lia.
  - apply (batch_observed_ex c 1 2); auto; try congruence. rewrite mid_centred. intros z; cbn; lia.
  - apply stream_observed_ex; auto; try congruence. discriminate.
  - apply stream_observed_ex; auto; try congruence. rewrite mid_centred. discriminate.
Qed.
Print Assumptions C102_example.

(** ** GD53 can fall: from 5/16 to 1/4 *)
Theorem C102_GD53_refuted : exists d s l v v', In l (labels s) /\ length (distinct s) = 2%nat /\
  batch_observed kGD53 d s v /\ batch_observed kGD53 d (centred d s l) v' /\ v = Fin (5 / 16) /\ v' = Fin (1 / 4).
Proof.
  exists 1%nat, mid_s, 0%Z.
  destruct (proj2 (proj2 (proj2 C102_example)) kGD53 ltac:(discriminate) ltac:(discriminate)) as ((v & H) & (v' & H') & _).
  exists v, v'. split; [now left|]. split; [reflexivity|]. split; auto. split; auto. split.
  - rewrite (observed_XVal kGD53 1 mid_s v ltac:(discriminate) ltac:(discriminate) (or_introl H)). rewrite XVal_ext by (cbn; lia).
    assert (EM : rmax (map (mse 1) (clusters mid_s)) = 4).
    { apply rmax_unique.
      - right. left. unfold mse, scatter, centroid, dist2. cbn. field.
      - intros y [<-|[<-|[]]]; unfold mse, scatter, centroid, dist2; cbn; lra. }
    unfold GD53_ext. rewrite EM. rewrite xdiv_fin by lra. f_equal. unfold pooled, scatter, centroid, dist2. cbn. field.
  - rewrite (observed_XVal kGD53 1 _ v' ltac:(discriminate) ltac:(discriminate) (or_introl H')). rewrite mid_centred. rewrite XVal_ext by (cbn; lia).
    assert (EM : rmax (map (mse 1) (clusters (mid_s ++ [([0], 0%Z)]))) = 4).
    { apply rmax_unique.
      - left. unfold mse, scatter, centroid, dist2. cbn. field.
      - intros y [<-|[<-|[]]]; unfold mse, scatter, centroid, dist2; cbn; lra. }
    unfold GD53_ext. rewrite EM. rewrite xdiv_fin by lra. f_equal. unfold pooled, scatter, centroid, dist2. cbn. field.
Qed.
Print Assumptions C102_GD53_refuted.
