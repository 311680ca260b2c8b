(** * C84: data in two clusters

    Exact arithmetic.  With two clusters CH, WB and XB are functions of one
    another and of the sizes n, m; DB is twice XB for equal sizes, never below XB;
    and PS is (n + m) / max(n, m) - 2 exp(-4): it depends on the sizes only. *)
From Coq Require Import ZArith List Arith Bool Lia Permutation.
From Verif Require Import Num NumPy Base GetCvi.
From Coq Require Import Reals Lra.
From Verif Require Import Det Spec XR SpecX RGeom XMove XLift XEval XRun XPerm XBatch Obs XForm XBounds P_Inc P_Formula P_Bounds P_Degenerate XSilEx.
From Verif Require Import XOne P_One P_Merge.
Import ListNotations.
Local Notation length := List.length.
Local Open Scope R_scope.

Section Two.
  Context (d : nat) (g h : list point).
  Hypotheses (Wg : wfg d g) (Wh : wfg d h) (Ng : g <> []) (Nh : h <> []).
  Let n := INR (length g).
  Let m := INR (length h).
  Let D := cdist d g h.
  Let Pn : 0 < n. Proof. now apply INR_pos. Qed.
  Let Pm : 0 < m. Proof. now apply INR_pos. Qed.
  Lemma two_nclus : nclus [g; h] = 2.
  Proof. unfold nclus. cbn. lra. Qed.
  Lemma two_nsamp : nsamp [g; h] = n + m.
  Proof. unfold nsamp. cbn [concat]. rewrite app_nil_r, app_length. apply plus_INR. Qed.
  Lemma two_bgss : bgss d [g; h] = n * m / (n + m) * D.
  Proof.
    unfold bgss. cbn [map concat]. rewrite app_nil_r. destruct (dist2_pooled d g h Ng Nh) as [E1 E2]. cbv zeta in *.
    rewrite E1, E2. cbn [rsum fold_right]. fold n m D. field. lra.
  Qed.
  Lemma two_XB : D <> 0 -> XB_formula d [g; h] = wgss d [g; h] / ((n + m) * D).
  Proof. intros _. unfold XB_formula. now rewrite two_nsamp. Qed.
  Lemma two_WB : D <> 0 -> WB_formula d [g; h] = 2 * ((n + m) * (n + m)) / (n * m) * XB_formula d [g; h].
  Proof. intros H. rewrite two_XB by auto. unfold WB_formula. rewrite two_nclus, two_bgss. field. repeat split; auto; lra. Qed.
  Lemma two_CH : D <> 0 -> wgss d [g; h] <> 0 -> n + m <> 2 ->
    CH_formula d [g; h] * XB_formula d [g; h] = n * m * (n + m - 2) / ((n + m) * (n + m)).
  Proof.
    intros H HW HN. rewrite two_XB by auto. unfold CH_formula. rewrite two_nclus, two_nsamp, two_bgss. field.
    repeat split; auto; lra.
  Qed.
  Lemma two_wgss : wgss d [g; h] = n * mse d g + m * mse d h.
  Proof. unfold wgss, mse. cbn. fold n m. field. lra. Qed.
  Lemma two_DB : DB_formula d [g; h] = (mse d g + mse d h) / D.
  Proof.
    unfold DB_formula. cbn [selects map fst snd rmax fold_right rsum]. rewrite two_nclus, (cdist_sym d h g). fold D. lra.
  Qed.
  Lemma two_XB_DB : 0 < D -> XB_formula d [g; h] <= DB_formula d [g; h].
  Proof.
    intros H. rewrite two_XB, two_DB, two_wgss by lra. pose proof (mse_nonneg d g) as A. pose proof (mse_nonneg d h) as B.
    replace ((n * mse d g + m * mse d h) / ((n + m) * D)) with ((n * mse d g + m * mse d h) / (n + m) * / D) by (field; lra).
    unfold Rdiv at 2. apply Rmult_le_compat_r; [apply Rlt_le, Rinv_0_lt_compat, H|].
    apply (Rmult_le_reg_r (n + m)); [lra|]. unfold Rdiv. rewrite Rmult_assoc, Rinv_l, Rmult_1_r by lra.
    pose proof (Rmult_le_pos _ _ (Rlt_le _ _ Pn) B). pose proof (Rmult_le_pos _ _ (Rlt_le _ _ Pm) A). lra.
  Qed.
  Lemma two_equal : D <> 0 -> n = m -> DB_formula d [g; h] = 2 * XB_formula d [g; h].
  Proof. intros H E. rewrite two_XB, two_DB, two_wgss by auto. rewrite <- E. field. split; auto. lra. Qed.
  Lemma two_beta : PS_beta d [g; h] = D / 4.
  Proof.
    unfold PS_beta. rewrite two_nclus. cbn [map rsum fold_right].
    destruct (dist2_pooled d [centroid d g] [centroid d h] ltac:(discriminate) ltac:(discriminate)) as [E1 E2]. cbv zeta in *.
    unfold cdist in E1, E2. rewrite !(centroid_single d (centroid d g)), !(centroid_single d (centroid d h)) in E1, E2 by apply centroid_length.
    cbn [app length INR] in E1, E2. rewrite E1, E2. fold (cdist d g h). fold D. lra.
  Qed.
  Lemma two_PS : D <> 0 -> PS_formula d [g; h] = (n + m) / Rmax n m - 2 * exp (-4).
  Proof.
    intros H. unfold PS_formula. cbn [selects map fst snd rmin rmax fold_right rsum]. rewrite two_beta, (cdist_sym d h g). fold D n m.
    replace (- D / (D / 4)) with (-4) by (field; auto). rewrite (Rmax_comm m n). unfold Rdiv. ring.
  Qed.
End Two.

(** exactly two labels occur *)
Definition two_labels (s : data) (a b : Z) : Prop := a <> b /\ forall l, In l (labels s) <-> l = a \/ l = b.

Lemma two_distinct s a b : two_labels s a b -> distinct s = [a; b] \/ distinct s = [b; a].
Proof.
  intros [N H]. assert (P : Permutation [a; b] (distinct s)).
  { apply NoDup_Permutation; [constructor; [cbn; intuition congruence|repeat constructor; intros []]|apply NoDup_nodup|]. intros z. unfold distinct. rewrite nodup_In, H. cbn. intuition congruence. }
  destruct (Permutation_length_2_inv P); auto.
Qed.
(** reduction to the clusters *)
Lemma two_elim c d s a b v (P : list point -> list point -> xr -> Prop) : c <> kcSIL -> (c = krCIP -> d <> 0%nat) ->
  (forall g h, wfg d g -> wfg d h -> g <> [] -> h <> [] -> P g h (XVal c d [g; h])) ->
  (forall g h w, P g h w -> P h g w) ->
  observed c d s v -> two_labels s a b -> P (cluster s a) (cluster s b) v.
Proof.
  intros Hc Hd H S Ho Ht. pose proof (clusters_good d s (observed_wf _ _ _ _ Ho)) as [HF HN].
  rewrite (observed_XVal c d s v Hc Hd Ho). unfold clusters in *.
  destruct (two_distinct s a b Ht) as [E|E]; rewrite E in *; cbn [map] in *; (apply Forall_cons_iff in HF as [A1 HF]; apply Forall_cons_iff in HF as [A2 _]; apply Forall_cons_iff in HN as [B1 HN]; apply Forall_cons_iff in HN as [B2 _]);
    [|apply S]; apply H; auto.
Qed.


Lemma xdiv_fin x y r : xdiv (Fin x) (Fin y) = Fin r -> y <> 0 /\ r = x / y.
Proof.
  cbn. destruct (Req_EM_T y 0) as [->|Hy]; [|intros E; injection E as <-; auto].
  unfold inf_mul. repeat (destruct Rlt_dec || destruct Req_EM_T || destruct Rle_dec || destruct Rgt_dec); discriminate.
Qed.
Lemma xmul_fin u y r : xmul u (Fin y) = Fin r -> exists x, u = Fin x /\ r = x * y.
Proof.
  destruct u; cbn; try discriminate; try (unfold inf_mul, xneg; repeat (destruct Rlt_dec || destruct Req_EM_T || destruct Rle_dec); discriminate).
  intros E. injection E as <-. eauto.
Qed.

(** the sizes and the parts of the two clusters *)
Definition size (s : data) (l : Z) : R := INR (length (cluster s l)).
Definition apart (d : nat) (s : data) (a b : Z) : R := cdist d (cluster s a) (cluster s b).

Lemma two_XB_value d s a b x : observed kXB d s (Fin x) -> two_labels s a b ->
  0 < apart d s a b /\ x = (scatter d (cluster s a) + scatter d (cluster s b)) / ((size s a + size s b) * apart d s a b).
Proof.
  intros Ho Ht. refine (two_elim kXB d s a b (Fin x) (fun g h v => forall x, v = Fin x -> 0 < cdist d g h /\
    x = (scatter d g + scatter d h) / ((INR (length g) + INR (length h)) * cdist d g h)) _ _ _ _ Ho Ht x eq_refl); try discriminate.
  - intros g h Wg Wh Ng Nh y Hy. rewrite XVal_ext in Hy by (cbn; lia). unfold XB_ext in Hy. apply xdiv_fin in Hy as [H0 ->].
    cbn [pairs map app fst snd rmin fold_right] in *. rewrite two_nsamp in *. pose proof (cdist_nonneg d g h).
    assert (cdist d g h <> 0) by (intros E; apply H0; rewrite E; apply Rmult_0_r). split; [lra|]. unfold wgss. cbn. now rewrite Rplus_0_r.
  - intros g h w H y Hy. destruct (H y Hy) as [H1 ->]. rewrite (cdist_sym d h g). split; auto. f_equal; [|f_equal]; apply Rplus_comm || (f_equal; apply Rplus_comm).
Qed.
Lemma two_sizes s a b : two_labels s a b -> 0 < size s a /\ 0 < size s b.
Proof.
  intros [_ H]. split; apply INR_pos; apply cluster_ne_In; unfold distinct; rewrite nodup_In; apply H; auto.
Qed.
Lemma two_k s a b : two_labels s a b -> length (distinct s) = 2%nat.
Proof. intros H. now destruct (two_distinct s a b H) as [-> | ->]. Qed.
Lemma two_WB_value d s a b x : observed kWB d s (Fin x) -> two_labels s a b -> 0 < apart d s a b /\
  x = 2 * (scatter d (cluster s a) + scatter d (cluster s b)) / (size s a * size s b / (size s a + size s b) * apart d s a b).
Proof.
  intros Ho Ht. refine (two_elim kWB d s a b (Fin x) (fun g h v => forall x, v = Fin x -> 0 < cdist d g h /\
    x = 2 * (scatter d g + scatter d h) / (INR (length g) * INR (length h) / (INR (length g) + INR (length h)) * cdist d g h)) _ _ _ _ Ho Ht x eq_refl); try discriminate.
  - intros g h Wg Wh Ng Nh y Hy. rewrite XVal_ext in Hy by (cbn; lia). unfold WB_ext in Hy. apply xmul_fin in Hy as (z & Hy & ->).
    apply xdiv_fin in Hy as [H0 ->]. rewrite two_bgss in * by auto. rewrite two_nclus. pose proof (cdist_nonneg d g h).
    assert (cdist d g h <> 0) by (intros E; apply H0; rewrite E; apply Rmult_0_r). split; [lra|]. unfold wgss. cbn [map rsum fold_right].
    rewrite Rplus_0_r. unfold Rdiv. ring.
  - intros g h w H y Hy. destruct (H y Hy) as [H1 ->]. rewrite (cdist_sym d h g), (Rplus_comm (scatter d h)), (Rplus_comm (INR (length h))), (Rmult_comm (INR (length h))). auto.
Qed.
Lemma two_CH_value d s a b x : observed kCH d s (Fin x) -> two_labels s a b -> 0 < scatter d (cluster s a) + scatter d (cluster s b) /\
  x = size s a * size s b / (size s a + size s b) * apart d s a b / (scatter d (cluster s a) + scatter d (cluster s b)) * (size s a + size s b - 2).
Proof.
  intros Ho Ht. refine (two_elim kCH d s a b (Fin x) (fun g h v => forall x, v = Fin x -> 0 < scatter d g + scatter d h /\
    x = INR (length g) * INR (length h) / (INR (length g) + INR (length h)) * cdist d g h / (scatter d g + scatter d h) * (INR (length g) + INR (length h) - 2)) _ _ _ _ Ho Ht x eq_refl); try discriminate.
  - intros g h Wg Wh Ng Nh y Hy. rewrite XVal_ext in Hy by (cbn; lia). unfold CH_ext in Hy. apply xmul_fin in Hy as (z & Hy & ->).
    apply xdiv_fin in Hy as [H0 ->]. rewrite two_bgss, two_nclus, two_nsamp in * by auto.
    assert (EW : wgss d [g; h] = scatter d g + scatter d h) by (unfold wgss; cbn; lra). rewrite EW in *.
    pose proof (scatter_nonneg d g). pose proof (scatter_nonneg d h). split; [lra|]. f_equal. field.
  - intros g h w H y Hy. destruct (H y Hy) as [H1 ->]. rewrite (cdist_sym d h g), (Rplus_comm (scatter d h)), (Rplus_comm (INR (length h))), (Rmult_comm (INR (length h))). auto.
Qed.
Lemma two_DB_value d s a b x : observed kDB d s (Fin x) -> two_labels s a b ->
  0 < apart d s a b -> x = (mse d (cluster s a) + mse d (cluster s b)) / apart d s a b.
Proof.
  intros Ho Ht. refine (two_elim kDB d s a b (Fin x) (fun g h v => forall x, v = Fin x -> 0 < cdist d g h ->
    x = (mse d g + mse d h) / cdist d g h) _ _ _ _ Ho Ht x eq_refl); try discriminate.
  - intros g h Wg Wh Ng Nh y Hy HD. rewrite XVal_ext in Hy by (cbn; lia). unfold DB_ext in Hy.
    cbn [selects map fst snd xmaxl fold_right] in Hy. rewrite two_nclus, (cdist_sym d h g) in Hy. cbn [xdiv] in Hy.
    destruct (Req_EM_T (cdist d g h) 0); [lra|]. cbn in Hy. destruct (Req_EM_T 2 0); [lra|]. injection Hy as <-. lra.
  - intros g h w H y Hy. rewrite (cdist_sym d h g), (Rplus_comm (mse d h)). auto.
Qed.

(** ** The statements *)
Theorem C84_WB_is_XB : forall d s a b w x, two_labels s a b -> observed kWB d s (Fin w) -> observed kXB d s (Fin x) ->
  let n := size s a in let m := size s b in
  w = 2 * (n + m) ^ 2 / (n * m) * x.
Proof.
  intros d s a b w x Ht Hw Hx n m. destruct (two_WB_value _ _ _ _ _ Hw Ht) as [D0 ->]. destruct (two_XB_value _ _ _ _ _ Hx Ht) as [_ ->].
  destruct (two_sizes s a b Ht). subst n m. field. lra.
Qed.
Print Assumptions C84_WB_is_XB.

Theorem C84_CH_is_XB : forall d s a b c x, two_labels s a b -> observed kCH d s (Fin c) -> observed kXB d s (Fin x) ->
  let n := size s a in let m := size s b in
  c * x = n * m * (n + m - 2) / (n + m) ^ 2.
Proof.
  intros d s a b w x Ht Hw Hx n m. destruct (two_CH_value _ _ _ _ _ Hw Ht) as [D0 ->]. destruct (two_XB_value _ _ _ _ _ Hx Ht) as [? ->].
  destruct (two_sizes s a b Ht). subst n m. field. lra.
Qed.
Print Assumptions C84_CH_is_XB.

Theorem C84_DB_and_XB : forall d s a b y x, two_labels s a b -> observed kDB d s (Fin y) -> observed kXB d s (Fin x) ->
  x <= y /\ (size s a = size s b -> y = 2 * x).
Proof.
  intros d s a b y x Ht Hy Hx. destruct (two_XB_value _ _ _ _ _ Hx Ht) as [D0 ->]. rewrite (two_DB_value _ _ _ _ _ Hy Ht D0).
  destruct (two_sizes s a b Ht) as [P1 P2]. unfold mse. fold (size s a) (size s b).
  pose proof (scatter_nonneg d (cluster s a)) as S1. pose proof (scatter_nonneg d (cluster s b)) as S2.
  set (n := size s a) in *. set (m := size s b) in *. set (D := apart d s a b) in *. set (A := scatter d (cluster s a)) in *. set (B := scatter d (cluster s b)) in *.
  split.
  - replace ((A + B) / ((n + m) * D)) with ((A + B) / (n + m) / D) by (field; lra).
    unfold Rdiv at 1 3. apply Rmult_le_compat_r; [apply Rlt_le, Rinv_0_lt_compat, D0|].
    unfold Rdiv. rewrite Rmult_plus_distr_r. apply Rplus_le_compat; apply Rmult_le_compat_l; auto; apply Rinv_le_contravar; lra.
  - intros E. rewrite <- E. field. lra.
Qed.
Print Assumptions C84_DB_and_XB.

(** what PS says of two clusters *)
Theorem C84_PS_value : forall d s a b v, two_labels s a b -> observed kPS d s v ->
  let n := size s a in let m := size s b in
  (apart d s a b = 0 -> v = NaN) /\
  (apart d s a b <> 0 -> v = Fin ((n + m) / Rmax n m - 2 * exp (-4))).
Proof.
  intros d s a b v Ht Ho. refine (two_elim kPS d s a b v (fun g h v => (cdist d g h = 0 -> v = NaN) /\
    (cdist d g h <> 0 -> v = Fin ((INR (length g) + INR (length h)) / Rmax (INR (length g)) (INR (length h)) - 2 * exp (-4)))) _ _ _ _ Ho Ht); try discriminate.
  - intros g h Wg Wh Ng Nh. rewrite XVal_ext by (cbn; lia). unfold PS_ext. rewrite two_beta.
    destruct (Req_EM_T (cdist d g h / 4) 0); split; intros H; auto; try lra. now rewrite two_PS.
  - intros g h w H. rewrite (cdist_sym d h g), (Rmax_comm (INR (length h))), (Rplus_comm (INR (length h))). exact H.
Qed.
Print Assumptions C84_PS_value.

Theorem C84_PS_blind : forall d s a b v d' s' a' b' v', two_labels s a b -> two_labels s' a' b' ->
  size s a = size s' a' -> size s b = size s' b' -> apart d s a b <> 0 -> apart d' s' a' b' <> 0 ->
  observed kPS d s v -> observed kPS d' s' v' -> v = v'.
Proof.
  intros d s a b v d' s' a' b' v' H H' E1 E2 N N' Ho Ho'.
  destruct (C84_PS_value _ _ _ _ _ H Ho) as [_ ->]; auto. destruct (C84_PS_value _ _ _ _ _ H' Ho') as [_ ->]; auto.
  cbv zeta. now rewrite E1, E2.
Qed.
Print Assumptions C84_PS_blind.

(** 0, 2 | 10, 12 and the same numbers grouped as 0, 10 | 2, 12 *)
Definition two_a : data := [([0], 0%Z); ([2], 0%Z); ([10], 1%Z); ([12], 1%Z)].
Definition two_b : data := [([0], 0%Z); ([10], 0%Z); ([2], 1%Z); ([12], 1%Z)].
(** 0, 1, 2 | 100 and the same numbers grouped as 0, 100 | 1, 2 *)
Definition two_c : data := [([0], 0%Z); ([1], 0%Z); ([2], 0%Z); ([100], 1%Z)].
Definition two_d : data := [([0], 0%Z); ([100], 0%Z); ([1], 1%Z); ([2], 1%Z)].

Lemma observed_is c d s v : c <> kcSIL -> (c = krCIP -> d <> 0%nat) -> wf d s -> s <> [] -> XVal c d (clusters s) = v -> observed c d s v.
Proof.
  intros Hc Hd Hw Hs E. destruct (stream_observed_ex c d s Hc Hw Hs Hd) as [w Hv]. assert (H : observed c d s w) by now right.
  rewrite <- E, <- (observed_XVal c d s w Hc Hd H). exact H.
Qed.
Ltac two_lab := split; [discriminate|]; intros l; cbn; intuition congruence.

(** PS rates a grouping across the gap as high as, and higher than, the natural one *)
Theorem C84_PS_refuted :
  let e := 2 - 2 * exp (-4) in
  (observed kPS 1 two_a (Fin e) /\ observed kPS 1 two_b (Fin e)) /\
  (observed kPS 1 two_c (Fin (4 / 3 - 2 * exp (-4))) /\ observed kPS 1 two_d (Fin e)).
Proof.
  assert (G : forall s, wf 1 s -> s <> [] -> two_labels s 0 1 -> apart 1 s 0 1 <> 0 ->
    observed kPS 1 s (Fin ((size s 0 + size s 1) / Rmax (size s 0) (size s 1) - 2 * exp (-4)))).
  { intros s W N T A. destruct (stream_observed_ex kPS 1 s ltac:(discriminate) W N ltac:(discriminate)) as [v Hv].
    assert (H : observed kPS 1 s v) by now right. destruct (C84_PS_value 1 s 0 1 v T H) as [_ E]. now rewrite (E A) in H. }
  assert (K : forall s r, wf 1 s -> s <> [] -> two_labels s 0 1 -> apart 1 s 0 1 <> 0 ->
    (size s 0 + size s 1) / Rmax (size s 0) (size s 1) = r -> observed kPS 1 s (Fin (r - 2 * exp (-4)))).
  { intros s r W N T A E. rewrite <- E. now apply G. }
  cbv zeta. repeat split; apply K; try (repeat constructor; fail); try discriminate; try two_lab;
    try (unfold apart, cdist, dist2, centroid; cbn; lra); unfold size; cbn.
  - rewrite Rmax_left by lra. lra.
  - rewrite Rmax_left by lra. lra.
  - rewrite Rmax_left by lra. lra.
  - rewrite Rmax_left by lra. lra.
Qed.
Print Assumptions C84_PS_refuted.

Example C84_hypotheses : two_labels two_a 0 1 /\ two_labels two_b 0 1 /\ size two_a 0 = 2 /\ size two_a 1 = 2 /\
  observed kXB 1 two_a (Fin (1 / 100)) /\ observed kXB 1 two_b (Fin (25 / 4)) /\
  observed kDB 1 two_a (Fin (1 / 50)) /\ observed kWB 1 two_a (Fin (2 / 25)) /\ observed kCH 1 two_a (Fin 50).
Proof.
  split; [two_lab|]. split; [two_lab|]. split; [unfold size; cbn; lra|]. split; [unfold size; cbn; lra|].
  assert (Ca : clusters two_a = [[[0]; [2]]; [[10]; [12]]]) by reflexivity.
  assert (Cb : clusters two_b = [[[0]; [10]]; [[2]; [12]]]) by reflexivity.
  assert (W1 : scatter 1 [[0]; [2]] = 2) by (unfold scatter, dist2, centroid; cbn; field).
  assert (W2 : scatter 1 [[10]; [12]] = 2) by (unfold scatter, dist2, centroid; cbn; field).
  assert (W3 : scatter 1 [[0]; [10]] = 50) by (unfold scatter, dist2, centroid; cbn; field).
  assert (W4 : scatter 1 [[2]; [12]] = 50) by (unfold scatter, dist2, centroid; cbn; field).
  assert (D1 : cdist 1 [[0]; [2]] [[10]; [12]] = 100) by (unfold cdist, dist2, centroid; cbn; field).
  assert (D2 : cdist 1 [[0]; [10]] [[2]; [12]] = 4) by (unfold cdist, dist2, centroid; cbn; field).
  assert (F : forall x y z, y <> 0 -> x / y = z -> xdiv (Fin x) (Fin y) = Fin z).
  { intros x y z Hy <-. cbn. now destruct (Req_EM_T y 0). }
  repeat split; apply observed_is; try discriminate; try (repeat constructor; fail); rewrite XVal_ext by (cbn; lia); rewrite ?Ca, ?Cb.
  - unfold XB_ext, wgss, nsamp. cbn [pairs map app fst snd rmin rsum fold_right concat]. rewrite W1, W2, D1. apply F; cbn; lra.
  - unfold XB_ext, wgss, nsamp. cbn [pairs map app fst snd rmin rsum fold_right concat]. rewrite W3, W4, D2. apply F; cbn; lra.
  - unfold DB_ext, nclus, mse. cbn [selects map fst snd xmaxl fold_right List.length]. rewrite (cdist_sym 1 [[10]; [12]]), W1, W2, D1.
    rewrite (F _ 100 (2 / 100)) by (cbn; lra). cbn [xsum fold_left xadd]. apply F; cbn; lra.
  - unfold WB_ext. rewrite two_bgss, D1 by discriminate. unfold wgss, nclus. cbn [map rsum fold_right List.length]. rewrite W1, W2.
    rewrite (F _ _ (1 / 25)) by (cbn; lra). cbn. f_equal. lra.
  - unfold CH_ext. rewrite two_bgss, D1 by discriminate. unfold wgss, nclus, nsamp. cbn [map rsum fold_right List.length concat app]. rewrite W1, W2.
    rewrite (F _ _ 25) by (cbn; lra). cbn. f_equal. lra.
Qed.
