(** * Pulling the clusters apart: lemmas in exact arithmetic *)
From Coq Require Import ZArith List Arith Bool Lia Permutation.
From Verif Require Import Num NumPy Base GetCvi.
From Coq Require Import Reals Lra.
From Verif Require Import Det Spec XR SpecX RGeom XLift XEval XInc XCov XRun XPerm XBatch Obs XForm XBounds XSim XSil XSilEx XMove.
Import ListNotations.
Local Notation length := List.length.
Local Open Scope R_scope.

(** ** Multiplying by a positive number *)
Lemma xs_div_num u a b : 0 < u -> xdiv (Fin (u * a)) (Fin b) = xmul (Fin u) (xdiv (Fin a) (Fin b)).
Proof.
  intros Hu. cbn [xdiv]. destruct (Req_EM_T b 0); [|cbn [xmul]; f_equal; unfold Rdiv; ring].
  unfold inf_mul. destruct (Req_EM_T a 0) as [->|Ha].
  - rewrite Rmult_0_r. destruct (Req_EM_T 0 0); [reflexivity|lra].
  - destruct (Req_EM_T (u * a) 0) as [E|E]; [apply Rmult_integral in E; lra|].
    destruct (Rlt_dec 0 a) as [P|P].
    + destruct (Rlt_dec 0 (u * a)) as [|N]; [|exfalso; apply N; now apply Rmult_lt_0_compat]. cbn [xmul]. now rewrite inf_mul_pos.
    + destruct (Rlt_dec 0 (u * a)) as [Q|]; [|cbn [xmul]; now rewrite inf_mul_pos].
      exfalso. apply P. apply (Rmult_lt_reg_l u); auto. lra.
Qed.
Lemma xs_div_den u a b : 0 < u -> xdiv (Fin a) (Fin (u * b)) = xmul (Fin (/ u)) (xdiv (Fin a) (Fin b)).
Proof.
  intros Hu. rewrite <- xs_div_num by now apply Rinv_0_lt_compat.
  replace a with (u * (/ u * a)) at 1 by (field; lra). now rewrite xdiv_scale.
Qed.
Lemma xs_add u x y : 0 < u -> xadd (xmul (Fin u) x) (xmul (Fin u) y) = xmul (Fin u) (xadd x y).
Proof.
  intros Hu. destruct x, y; cbn [xmul xadd]; rewrite ?inf_mul_pos by auto; cbn [xmul xadd xneg]; auto. f_equal. ring.
Qed.
Lemma xs_max u x y : 0 < u -> xmax (xmul (Fin u) x) (xmul (Fin u) y) = xmul (Fin u) (xmax x y).
Proof.
  intros Hu. destruct x as [x| | |], y as [y| | |]; cbn [xmul xmax]; rewrite ?inf_mul_pos by auto; cbn [xmul xmax xneg xle]; auto;
    rewrite ?inf_mul_pos by auto; auto.
  destruct (Rle_dec x y) as [H|H], (Rle_dec (u * x) (u * y)) as [H'|H']; auto; exfalso.
  - apply H'. apply Rmult_le_compat_l; lra.
  - apply H. apply (Rmult_le_reg_l u); auto.
Qed.
Lemma xs_maxl u l : 0 < u -> l <> [] -> xmaxl (map (xmul (Fin u)) l) = xmul (Fin u) (xmaxl l).
Proof.
  intros Hu Hl. destruct l as [|x l]; [congruence|]. cbn [map xmaxl]. clear Hl. induction l as [|y l IH]; [reflexivity|].
  cbn [map fold_right]. now rewrite IH, xs_max.
Qed.
Lemma xs_sum u l : 0 < u -> xsum (map (xmul (Fin u)) l) = xmul (Fin u) (xsum l).
Proof.
  intros Hu. unfold xsum. replace (Fin 0) with (xmul (Fin u) (Fin 0)) at 1 by (cbn; f_equal; ring).
  generalize (Fin 0). induction l as [|x l IH]; intros a; [reflexivity|]. cbn [map fold_left]. now rewrite xs_add, IH.
Qed.
Lemma xs_div u x k : 0 < u -> 0 < k -> xdiv (xmul (Fin u) x) (Fin k) = xmul (Fin u) (xdiv x (Fin k)).
Proof.
  intros Hu Hk. destruct x; cbn [xmul]; rewrite ?inf_mul_pos by auto; cbn [xneg xdiv]; destruct (Req_EM_T k 0); try lra; cbn [xmul];
    rewrite ?inf_mul_pos by auto; cbn [xneg xmul]; rewrite ?inf_mul_pos by auto; auto. f_equal. unfold Rdiv. ring.
Qed.
Lemma xs_mul u x k : 0 < u -> xmul (xmul (Fin u) x) (Fin k) = xmul (Fin u) (xmul x (Fin k)).
Proof.
  intros Hu. destruct x; cbn [xmul]; rewrite ?inf_mul_pos by auto; cbn [xneg xmul]; auto; [f_equal; ring| |];
  unfold inf_mul; destruct (Req_EM_T k 0); cbn [xmul xneg]; auto; destruct (Rlt_dec 0 k); cbn [xmul xneg]; rewrite ?inf_mul_pos by auto; auto.
Qed.

(** ** The clusters moved: each keeps its shape, its centroid is multiplied by [c] *)
Definition away (c : R) (d : nat) (g : list point) : list point := map (shift (scale (c - 1) (centroid d g))) g.
Section Away.
  Context (c : R) (d : nat) (Hc : 0 < c).
  Let A := away c d.
  Let q := c * c.
  Lemma q_pos : 0 < q. Proof. unfold q. now apply Rmult_lt_0_compat. Qed.
  Lemma sc_len g : length (scale (c - 1) (centroid d g)) = d.
  Proof. apply scale_length, centroid_length. Qed.
  Lemma away_length g : length (A g) = length g.
  Proof. unfold A, away. apply map_length. Qed.
  Lemma away_wf g : wfg d g -> wfg d (A g).
  Proof.
    intros H. unfold wfg, A, away in *. apply Forall_map. eapply Forall_impl; [|exact H].
    intros x Hx. apply shift_length; auto using sc_len.
  Qed.
  Lemma away_ne g : g <> [] -> A g <> [].
  Proof. destruct g; [congruence|discriminate]. Qed.
  Lemma away_centroid g : wfg d g -> g <> [] -> centroid d (A g) = scale c (centroid d g).
  Proof.
    intros Hw Hn. unfold A, away. rewrite shift_centroid by auto using sc_len.
    apply (point_ext d); [apply shift_length; auto using sc_len, centroid_length|apply scale_length, centroid_length|].
    intros j Hj. rewrite (co_shift d) by auto using sc_len, centroid_length. rewrite !co_scale. ring.
  Qed.
  Lemma away_scatter g : wfg d g -> g <> [] -> scatter d (A g) = scatter d g.
  Proof.
    intros Hw Hn. unfold A, away.
    rewrite (T_scatter d d (shift (scale (c - 1) (centroid d g))) 1); auto; try lra.
    - intros x y Hx Hy. apply (shift_dist d); auto using sc_len.
    - intros h H1 H2. apply shift_centroid; auto using sc_len.
  Qed.
  Lemma away_mse g : wfg d g -> g <> [] -> mse d (A g) = mse d g.
  Proof. intros. unfold mse. now rewrite away_scatter, away_length. Qed.
  Lemma away_cdist g h : wfg d g -> g <> [] -> wfg d h -> h <> [] -> cdist d (A g) (A h) = q * cdist d g h.
  Proof. intros. unfold cdist. rewrite !away_centroid by auto. apply (scale_dist c d); apply centroid_length. Qed.
  Lemma away_pooled g h : wfg d g -> g <> [] -> wfg d h -> h <> [] -> pooled d (A g) (A h) = pooled d g h.
  Proof. intros. unfold pooled. now rewrite !away_scatter, !away_length. Qed.
  Lemma mdist_split g h : wfg d h -> h <> [] -> mdist d g h = mse d h + cdist d g h.
  Proof.
    intros Hw Hn. unfold mdist. rewrite (parallel_axis d) by auto using centroid_length. unfold mse, cdist.
    rewrite (dist2_sym (centroid d g)). pose proof (INR_pos h Hn). field. lra.
  Qed.
  Lemma away_mdist g h : wfg d g -> g <> [] -> wfg d h -> h <> [] -> mdist d (A g) (A h) = mse d h + q * cdist d g h.
  Proof. intros. rewrite mdist_split by auto using away_wf, away_ne. now rewrite away_mse, away_cdist. Qed.
  Lemma away_regcov g i j : wfg d g -> g <> [] -> (i < d)%nat -> (j < d)%nat -> regcov d (A g) i j = regcov d g i j.
  Proof. intros. unfold A, away. apply shift_regcov; auto using sc_len. Qed.
  Lemma away_Qmat g h : wfg d g -> g <> [] -> wfg d h -> h <> [] -> Qmat d (A g) (A h) = Qmat d g h.
  Proof.
    intros. unfold Qmat. apply map_ext_in. intros i Hi. apply map_ext_in. intros j Hj. apply in_seq in Hi, Hj.
    rewrite !away_regcov by (auto; lia). reflexivity.
  Qed.
  Lemma away_mahal g h : wfg d g -> g <> [] -> wfg d h -> h <> [] -> mahal d (A g) (A h) = q * mahal d g h.
  Proof.
    intros. unfold mahal. rewrite away_Qmat by auto. cbv zeta. rewrite <- sumn_scal. apply sumn_ext. intros i Hi.
    rewrite <- sumn_scal. apply sumn_ext. intros j Hj. rewrite !away_centroid by auto.
    change (nth i (scale c (centroid d g)) 0) with (co i (scale c (centroid d g))).
    change (nth j (scale c (centroid d g)) 0) with (co j (scale c (centroid d g))).
    change (nth i (scale c (centroid d h)) 0) with (co i (scale c (centroid d h))).
    change (nth j (scale c (centroid d h)) 0) with (co j (scale c (centroid d h))).
    rewrite !co_scale. unfold co, q. ring.
  Qed.

  Context (gs : list (list point)).
  Hypotheses (Hg : good d gs) (Hk : (2 <= length gs)%nat).
  Lemma aw g : In g gs -> wfg d g. Proof. apply (g_wf d gs Hg). Qed.
  Lemma an g : In g gs -> g <> []. Proof. apply (g_ne d gs Hg). Qed.
  Lemma away_good : good d (map A gs).
  Proof.
    split; apply Forall_map, Forall_forall; intros g H; [apply away_wf, aw|apply away_ne, an]; auto.
  Qed.
  Lemma away_nclus : nclus (map A gs) = nclus gs. Proof. unfold nclus. now rewrite map_length. Qed.
  Lemma away_nsamp : nsamp (map A gs) = nsamp gs.
  Proof.
    unfold nsamp. f_equal. clear. induction gs as [|g l IH]; [reflexivity|]. cbn [map concat]. now rewrite !app_length, IH, away_length.
  Qed.
  Lemma away_wgss : wgss d (map A gs) = wgss d gs.
  Proof. unfold wgss. rewrite map_map. apply rsum_map_ext. intros g H. apply away_scatter; auto using aw, an. Qed.
  Lemma away_grand : centroid d (concat (map A gs)) = scale c (centroid d (concat gs)).
  Proof.
    apply (point_ext d); [apply centroid_length|apply scale_length, centroid_length|]. intros j Hj.
    rewrite co_scale, !co_centroid by auto. change (INR (length (concat (map A gs)))) with (nsamp (map A gs)).
    rewrite away_nsamp. change (INR (length (concat gs))) with (nsamp gs).
    replace (rsum (map (co j) (concat (map A gs)))) with (c * rsum (map (co j) (concat gs))); [unfold Rdiv; ring|].
    rewrite !rsum_concat, map_map, <- rsum_map_scal. apply rsum_map_ext. intros g H.
    rewrite !(rsum_centroid d) by auto using an, away_ne. rewrite away_length, away_centroid, co_scale by auto using aw, an. ring.
  Qed.
  Lemma away_bgss : bgss d (map A gs) = q * bgss d gs.
  Proof.
    unfold bgss. rewrite map_map, away_grand, <- rsum_map_scal. apply rsum_map_ext. intros g H.
    rewrite away_length, away_centroid by auto using aw, an. rewrite (scale_dist c d) by apply centroid_length. unfold q. ring.
  Qed.
  Lemma away_maxmse : rmax (map (mse d) (map A gs)) = rmax (map (mse d) gs).
  Proof. rewrite map_map. f_equal. apply map_ext_in. intros g H. apply away_mse; auto using aw, an. Qed.
  Lemma away_pairs (f f' : list point -> list point -> R) u : 0 < u ->
    (forall g h, In g gs -> In h gs -> f (A g) (A h) = u * f' g h) ->
    rmin (map (fun p => f (fst p) (snd p)) (pairs (map A gs))) = u * rmin (map (fun p => f' (fst p) (snd p)) (pairs gs)).
  Proof.
    intros Hu H. rewrite pairs_map, !map_map, <- rmin_scale, map_map by auto. f_equal. apply map_ext_in. intros [g h] Hp. cbn [fst snd].
    apply pairs_In in Hp as [? ?]. auto.
  Qed.
  Lemma asel g r : In (g, r) (selects gs) -> In g gs /\ forall h, In h r -> In h gs.
  Proof.
    intros H. pose proof (selects_In gs g r H) as P. split; [eapply Permutation_in; [symmetry; exact P|now left]|].
    intros h Hh. eapply Permutation_in; [symmetry; exact P|now right].
  Qed.
  Lemma away_mindist : rmin (map (fun p => cdist d (fst p) (snd p)) (pairs (map A gs))) =
    q * rmin (map (fun p => cdist d (fst p) (snd p)) (pairs gs)).
  Proof. apply away_pairs; [apply q_pos|]. intros g h A1 A2. apply away_cdist; auto using aw, an. Qed.

  Lemma away_CH : CH_ext d (map A gs) = xmul (Fin q) (CH_ext d gs).
  Proof. unfold CH_ext. rewrite away_bgss, away_wgss, away_nclus, away_nsamp, xs_div_num, xs_mul by apply q_pos. reflexivity. Qed.
  Lemma away_WB : WB_ext d (map A gs) = xmul (Fin (/ q)) (WB_ext d gs).
  Proof.
    pose proof (Rinv_0_lt_compat _ q_pos). unfold WB_ext.
    rewrite away_bgss, away_wgss, away_nclus, xs_div_den by apply q_pos. now rewrite xs_mul.
  Qed.
  Lemma away_XB : XB_ext d (map A gs) = xmul (Fin (/ q)) (XB_ext d gs).
  Proof.
    unfold XB_ext. rewrite away_wgss, away_nsamp, away_mindist.
    replace (nsamp gs * (q * _)) with (q * (nsamp gs * rmin (map (fun p => cdist d (fst p) (snd p)) (pairs gs)))) by ring.
    apply xs_div_den, q_pos.
  Qed.
  Lemma away_DB : DB_ext d (map A gs) = xmul (Fin (/ q)) (DB_ext d gs).
  Proof.
    pose proof (Rinv_0_lt_compat _ q_pos) as Hq. unfold DB_ext. rewrite away_nclus, <- xs_div by (auto; pose proof (k_gt gs Hk); lra).
    f_equal. rewrite <- xs_sum, map_map by auto. f_equal. rewrite selects_map, map_map. apply map_ext_in. intros [g r] Hp. cbn [fst snd].
    destruct (asel g r Hp) as [S1 S2]. rewrite <- xs_maxl; auto.
    - f_equal. rewrite !map_map. apply map_ext_in. intros h Hh. specialize (S2 h Hh).
      rewrite !away_mse, away_cdist by auto using aw, an. apply xs_div_den, q_pos.
    - intros E. apply map_eq_nil in E. now apply (selects_ne gs g r Hk Hp).
  Qed.
  Lemma away_GD43 : GD43_ext d (map A gs) = xmul (Fin c) (GD43_ext d gs).
  Proof.
    unfold GD43_ext. rewrite away_maxmse.
    rewrite (away_pairs (fun g h => sqrt (cdist d g h)) (fun g h => sqrt (cdist d g h)) c Hc); [now apply xs_div_num|].
    intros g h A1 A2. rewrite away_cdist by auto using aw, an. unfold q.
    rewrite sqrt_mult_alt by (apply Rlt_le, Rmult_lt_0_compat; auto). now rewrite sqrt_square by lra.
  Qed.
  Lemma away_GD53 : GD53_ext d (map A gs) = GD53_ext d gs.
  Proof.
    unfold GD53_ext. rewrite away_maxmse, (away_pairs (pooled d) (pooled d) 1 Rlt_0_1); [now rewrite Rmult_1_l|].
    intros g h A1 A2. rewrite away_pooled by auto using aw, an. ring.
  Qed.
  Lemma away_beta : PS_beta d (map A gs) = q * PS_beta d gs.
  Proof.
    unfold PS_beta. rewrite away_nclus, !map_map.
    assert (E : centroid d (map (fun g => centroid d (A g)) gs) = scale c (centroid d (map (centroid d) gs))).
    { rewrite <- scale_centroid, map_map. f_equal. apply map_ext_in. intros g H. apply away_centroid; auto using aw, an. }
    rewrite E. rewrite (rsum_map_ext _ (fun g => q * dist2 (centroid d g) (centroid d (map (centroid d) gs)))).
    - rewrite rsum_map_scal. unfold Rdiv. ring.
    - intros g H. rewrite away_centroid by auto using aw, an. apply (scale_dist c d); apply centroid_length.
  Qed.
  Lemma away_PS : PS_ext d (map A gs) = PS_ext d gs.
  Proof.
    pose proof q_pos as Hq. unfold PS_ext. rewrite away_beta.
    assert (Eq : q * PS_beta d gs = 0 <-> PS_beta d gs = 0).
    { split; intros E; [apply Rmult_integral in E; destruct E; lra|rewrite E; ring]. }
    destruct (Req_EM_T (q * PS_beta d gs) 0) as [E|E], (Req_EM_T (PS_beta d gs) 0) as [E'|E']; auto; try tauto.
    f_equal. unfold PS_formula. rewrite away_beta, selects_map, !map_map. f_equal. apply map_ext_in. intros [g r] Hp. cbn [fst snd].
    destruct (asel g r Hp) as [S1 S2]. rewrite away_length. f_equal.
    - f_equal. f_equal. apply map_ext. intros h. now rewrite away_length.
    - f_equal. rewrite map_map. replace (map (fun x => cdist d (A g) (A x)) r) with (map (Rmult q) (map (cdist d g) r)).
      + rewrite rmin_scale by auto. field. split; auto. lra.
      + rewrite map_map. apply map_ext_in. intros h Hh. symmetry. apply away_cdist; auto using aw, an.
  Qed.
  (** rCIP *)
  Lemma mahal_nonneg g h : 0 <= mahal d g h.
  Proof.
    destruct (@posdef_det_inv (Qmat d g h) d (Qmat_length d g h)) as (_ & W & E & H3 & H4 & H5 & _).
    - intros i j Hi Hj. rewrite !ent_Qmat by auto. now rewrite (regcov_sym d g), (regcov_sym d h).
    - intros x Hx. change (0 < qform d (ent (Qmat d g h)) x).
      rewrite (qform_ext d _ (fun i j => covar d g i j + (covar d h i j +
                ((if (i =? j)%nat then delta d else 0) + (if (i =? j)%nat then delta d else 0))))).
      + rewrite !qform_plus, qform_delta. pose proof (qform_covar d g x). pose proof (qform_covar d h x).
        pose proof (Rmult_lt_0_compat _ _ (delta_pos d) (sumsq_pos d x Hx)). lra.
      + intros i j Hi Hj. rewrite ent_Qmat by auto. unfold regcov. ring.
    - unfold mahal. rewrite E. cbv zeta. set (dv := fun i => nth i (centroid d g) 0 - nth i (centroid d h) 0).
      set (y := fun i => sumn d (fun j => ent W i j * dv j)).
      assert (Ey : forall i, (i < d)%nat -> sumn d (fun k => ent (Qmat d g h) i k * y k) = dv i).
      { intros i Hi. unfold y. rewrite (sumn_ext d _ (fun k => sumn d (fun j => ent (Qmat d g h) i k * ent W k j * dv j))).
        - rewrite sumn_swap. rewrite (sumn_ext d _ (fun j => if (i =? j)%nat then dv j else 0)).
          + now apply sumn_delta.
          + intros j Hj. rewrite (sumn_ext d _ (fun k => dv j * (ent (Qmat d g h) i k * ent W k j))) by (intros; ring).
            rewrite sumn_scal, H5 by auto. destruct (i =? j)%nat; ring.
        - intros k _. rewrite <- sumn_scal. apply sumn_ext. intros; ring. }
      change (0 <= sumn d (fun i => sumn d (fun j => dv i * ent W i j * dv j))).
      replace (sumn d (fun i => sumn d (fun j => dv i * ent W i j * dv j))) with (qform d (ent (Qmat d g h)) y).
      + rewrite (qform_ext d _ (fun i j => covar d g i j + (covar d h i j +
                ((if (i =? j)%nat then delta d else 0) + (if (i =? j)%nat then delta d else 0))))).
        * rewrite !qform_plus, qform_delta. pose proof (qform_covar d g y). pose proof (qform_covar d h y).
          assert (0 <= sumn d (fun i => y i * y i)).
          { rewrite sumn_rsum. apply rsum_map_nonneg. intros i _. apply Rle_0_sqr. }
          pose proof (Rmult_le_pos _ _ (Rlt_le _ _ (delta_pos d)) H1). lra.
        * intros i j Hi Hj. rewrite ent_Qmat by auto. unfold regcov. ring.
      + unfold qform. apply sumn_ext. intros i Hi.
        rewrite (sumn_ext d (fun j => dv i * ent W i j * dv j) (fun j => dv i * (ent W i j * dv j))) by (intros; ring).
        rewrite !sumn_scal. fold (y i). rewrite Ey by auto. ring.
  Qed.
  Lemma away_potential g h : 1 <= c -> In g gs -> In h gs -> potential d (A g) (A h) <= potential d g h.
  Proof.
    intros H1 I1 I2. unfold potential. rewrite away_Qmat, away_mahal by auto using aw, an.
    destruct (Qmat_good d g h) as [HD _]. pose proof (mahal_nonneg g h) as Hm.
    apply Rmult_le_compat_l.
    - apply Rlt_le, Rmult_lt_0_compat; apply Rinv_0_lt_compat, sqrt_lt_R0; auto. unfold Rpower. apply exp_pos.
    - assert (Hq : 1 <= q) by (unfold q; rewrite <- (Rmult_1_l 1); apply Rmult_le_compat; lra).
      assert (1 * mahal d g h <= q * mahal d g h) by (apply Rmult_le_compat_r; auto).
      set (a := - / 2 * (q * mahal d g h)). set (b := - / 2 * mahal d g h). assert (Hab : a <= b) by (unfold a, b; lra).
      destruct (Rle_lt_or_eq_dec _ _ Hab) as [Hl|El]; [apply Rlt_le, exp_increasing, Hl|rewrite El; lra].
  Qed.
  Lemma away_rCIP : 1 <= c -> rCIP_formula d (map A gs) <= rCIP_formula d gs.
  Proof.
    intros H1. unfold rCIP_formula. rewrite pairs_map, map_map. apply rsum_map_le. intros [g h] Hp. cbn [fst snd].
    apply pairs_In in Hp as [? ?]. now apply away_potential.
  Qed.
End Away.

(** ** cSIL *)
Lemma sil_mono a b b' : 0 <= a -> 0 <= b -> b <= b' -> 0 < Rmax a b -> (b - a) / Rmax a b <= (b' - a) / Rmax a b'.
Proof.
  intros Ha Hb Hbb Hm. destruct (Rle_dec a b) as [H|H].
  - rewrite !Rmax_right in * by lra.
    apply (Rmult_le_reg_r (b * b')); [apply Rmult_lt_0_compat; lra|].
    replace ((b - a) / b * (b * b')) with ((b - a) * b') by (field; lra).
    replace ((b' - a) / b' * (b * b')) with ((b' - a) * b) by (field; lra).
    assert (a * b <= a * b') by (apply Rmult_le_compat_l; lra). lra.
  - rewrite (Rmax_left a b) in * by lra. assert (Ha' : 0 < a) by lra. destruct (Rle_dec a b') as [H'|H'].
    + rewrite Rmax_right by lra. apply Rle_trans with 0.
      * apply (Rmult_le_reg_r a); auto. unfold Rdiv. rewrite Rmult_assoc, Rinv_l by lra. lra.
      * apply (Rmult_le_reg_r b'); [lra|]. unfold Rdiv. rewrite Rmult_assoc, Rinv_l by lra. lra.
    + rewrite Rmax_left by lra. apply (Rmult_le_reg_r a); auto. unfold Rdiv. rewrite !Rmult_assoc, Rinv_l by lra. lra.
Qed.
Lemma rmin_mono {X} (f g : X -> R) l : (forall x, In x l -> f x <= g x) -> rmin (map f l) <= rmin (map g l).
Proof.
  intros H. destruct l as [|x l]; [cbn; lra|]. set (L := x :: l) in *.
  assert (HL : map g L <> []) by discriminate. apply rmin_In, in_map_iff in HL as (y & E & Hy). rewrite <- E.
  apply Rle_trans with (f y); [|now apply H]. apply rmin_le. now apply in_map.
Qed.
Section AwaySil.
  Context (c : R) (d : nat) (Hc : 1 <= c) (gs : list (list point)).
  Hypotheses (Hg : good d gs) (Hk : (2 <= length gs)%nat).
  Let A := away c d.
  Lemma Hc0 : 0 < c. Proof. lra. Qed.
  Lemma q_ge : 1 <= c * c. Proof. rewrite <- (Rmult_1_l 1). apply Rmult_le_compat; lra. Qed.
  Definition bval (g : list point) (r : list (list point)) : R := rmin (map (mdist d g) r).
  Lemma away_b g r : In (g, r) (selects gs) -> bval g r <= bval (A g) (map A r) <= c * c * bval g r.
  Proof.
    intros Hp. destruct (asel gs g r Hp) as [S1 S2]. unfold bval. rewrite map_map. pose proof q_ge as Hq.
    assert (W : forall g, In g gs -> wfg d g /\ g <> []) by (intros h Hh; split; [now apply (g_wf d gs)|now apply (g_ne d gs)]).
    destruct (W g S1) as [W1 W2].
    assert (E : forall h, In h r -> mdist d (A g) (A h) = mse d h + c * c * cdist d g h /\ mdist d g h = mse d h + cdist d g h).
    { intros h Hh. destruct (W h (S2 h Hh)). split; [now apply away_mdist|now apply mdist_split]. }
    split.
    - apply rmin_mono. intros h Hh. destruct (E h Hh) as [-> ->]. pose proof (cdist_nonneg d g h).
      assert (1 * cdist d g h <= c * c * cdist d g h) by (apply Rmult_le_compat_r; auto). lra.
    - rewrite <- rmin_scale, map_map by lra. apply rmin_mono. intros h Hh. destruct (E h Hh) as [-> ->]. pose proof (mse_nonneg d h).
      assert (1 * mse d h <= c * c * mse d h) by (apply Rmult_le_compat_r; auto). lra.
  Qed.
  Lemma away_sel g' r' : In (g', r') (selects (map A gs)) <-> exists g r, In (g, r) (selects gs) /\ g' = A g /\ r' = map A r.
  Proof.
    rewrite selects_map, in_map_iff. split.
    - intros ([g r] & E & H). injection E as <- <-. exists g, r. auto.
    - intros (g & r & H & -> & ->). exists (g, r). auto.
  Qed.
  Lemma away_self g : In g gs -> mdist d (A g) (A g) = mdist d g g.
  Proof. intros H. rewrite !mdist_self. apply away_mse; [now apply (g_wf d gs)|now apply (g_ne d gs)]. Qed.
  Lemma away_undefined : sil_undefined d (map A gs) <-> sil_undefined d gs.
  Proof.
    split.
    - intros (g' & r' & Hp & H1 & H2). apply away_sel in Hp as (g & r & Hp & -> & ->). exists g, r. split; auto.
      rewrite away_self in H1 by (exact (proj1 (asel gs g r Hp))). split; auto. pose proof (away_b g r Hp) as [B1 _].
      unfold bval in B1. pose proof (sil_b_nonneg d g r). lra.
    - intros (g & r & Hp & H1 & H2). exists (A g), (map A r). split; [apply away_sel; eauto|].
      rewrite away_self by (exact (proj1 (asel gs g r Hp))). split; auto. pose proof (away_b g r Hp) as [_ B2].
      unfold bval in B2. rewrite H2 in B2. pose proof (sil_b_nonneg d (A g) (map A r)). lra.
  Qed.
  Lemma away_tss : tss d (map A gs) = 0 <-> tss d gs = 0.
  Proof.
    pose proof (away_good c d gs Hg) as Hg'. rewrite <- (total_scatter d (map A gs) (proj1 Hg') (proj2 Hg')), <- (total_scatter d gs (proj1 Hg) (proj2 Hg)).
    unfold A. rewrite away_bgss, away_wgss by auto. pose proof (wgss_nonneg d gs). pose proof (bgss_nonneg d gs). pose proof q_ge as Hq.
    assert (1 * bgss d gs <= c * c * bgss d gs) by (apply Rmult_le_compat_r; auto).
    split; intros E; [lra|]. assert (E1 : bgss d gs = 0) by lra. assert (E2 : wgss d gs = 0) by lra. rewrite E1, E2. ring.
  Qed.
  Lemma away_cSIL :
    (cSIL_ext d gs = NaN /\ cSIL_ext d (map A gs) = NaN) \/
    (exists r r', cSIL_ext d gs = Fin r /\ cSIL_ext d (map A gs) = Fin r' /\ r <= r').
  Proof.
    pose proof (away_good c d gs Hg) as Hg'. fold A in Hg'.
    assert (Hk' : (2 <= length (map A gs))%nat) by now rewrite map_length.
    destruct (Req_dec (tss d gs) 0) as [Et|Et].
    { right. exists 0, 0. split; [now apply cSIL_zero|]. split; [|lra]. apply cSIL_zero; auto. now apply away_tss. }
    destruct (Classical_Prop.classic (sil_undefined d gs)) as [Hu|Hu].
    { left. split; [now apply cSIL_nan|]. apply cSIL_nan; auto; [|now apply away_undefined]. now rewrite away_tss. }
    right. exists (cSIL_formula d gs), (cSIL_formula d (map A gs)). split; [now apply cSIL_form|].
    split; [apply cSIL_form; auto; now rewrite away_undefined|].
    unfold cSIL_formula. change (nclus (map A gs)) with (nclus (map (away c d) gs)). rewrite away_nclus. pose proof (k_gt gs Hk) as K.
    apply Rmult_le_compat_r; [apply Rlt_le, Rinv_0_lt_compat; lra|].
    rewrite selects_map, map_map. apply rsum_map_le. intros [g r] Hp. cbv zeta. cbn [fst snd].
    rewrite away_self by (exact (proj1 (asel gs g r Hp))).
    destruct (away_b g r Hp) as [B _]. unfold bval in B.
    apply sil_mono; auto using mdist_nonneg, sil_b_nonneg.
    destruct (Rle_lt_or_eq_dec 0 (Rmax (mdist d g g) (rmin (map (mdist d g) r)))) as [|E]; auto.
    - eapply Rle_trans; [apply (mdist_nonneg d g g)|apply Rmax_l].
    - exfalso. apply Hu. exists g, r. split; auto. pose proof (mdist_nonneg d g g). pose proof (sil_b_nonneg d g r).
      pose proof (Rmax_l (mdist d g g) (rmin (map (mdist d g) r))). pose proof (Rmax_r (mdist d g g) (rmin (map (mdist d g) r))). lra.
  Qed.
End AwaySil.

(** ** The data *)
(** each cluster moved by a vector of its own *)
Definition relocate (t : Z -> point) (s : data) : data := map (fun p => (shift (t (snd p)) (fst p), snd p)) s.
Lemma relocate_labels t s : labels (relocate t s) = labels s.
Proof. unfold labels, relocate. now rewrite map_map. Qed.
Lemma relocate_cluster t s l : cluster (relocate t s) l = map (shift (t l)) (cluster s l).
Proof.
  unfold cluster, relocate. induction s as [|[x a] s IH]; auto. cbn [map filter fst snd]. destruct (Z.eqb_spec a l) as [->|]; auto.
  cbn [map fst snd]. now rewrite IH.
Qed.
Lemma relocate_clusters t s : clusters (relocate t s) = map (fun l => map (shift (t l)) (cluster s l)) (distinct s).
Proof. unfold clusters, distinct. rewrite relocate_labels. apply map_ext. intros l. apply relocate_cluster. Qed.
Lemma relocate_wf t d s : (forall l, length (t l) = d) -> wf d s -> wf d (relocate t s).
Proof.
  intros Ht Hw. unfold wf, relocate. apply Forall_map. eapply Forall_impl; [|exact Hw]. intros [x l] H. cbn in *.
  now apply shift_length.
Qed.
Lemma relocate_exact t s k : exact_labels s k -> exact_labels (relocate t s) k.
Proof. unfold exact_labels. now rewrite relocate_labels. Qed.
Lemma relocate_firstn t s i : firstn i (relocate t s) = relocate t (firstn i s).
Proof. unfold relocate. apply firstn_map. Qed.
(** GD53 *)
Lemma relocate_GD53 d t s : (forall l, length (t l) = d) -> wf d s ->
  XVal kGD53 d (clusters (relocate t s)) = XVal kGD53 d (clusters s).
Proof.
  intros Ht Hw. unfold XVal. rewrite relocate_clusters. unfold clusters. rewrite !map_length. destruct (_ <=? _)%nat; auto.
  assert (HS : forall l, In l (distinct s) -> scatter d (map (shift (t l)) (cluster s l)) = scatter d (cluster s l)).
  { intros l Hl. rewrite (T_scatter d d (shift (t l)) 1); auto using cluster_wfg, cluster_ne_In; try lra.
    - intros x y Hx Hy. now apply (shift_dist d).
    - intros g H1 H2. now apply shift_centroid. }
  unfold GD53_ext. rewrite !pairs_map, !map_map. f_equal.
  - f_equal. f_equal. apply map_ext_in. intros [a b] Hp. cbn [fst snd]. apply pairs_In in Hp as [? ?].
    unfold pooled. now rewrite !HS, !map_length by auto.
  - do 3 f_equal. apply map_ext_in. intros l Hl. unfold mse. now rewrite HS, map_length by auto.
Qed.
