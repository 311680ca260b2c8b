(** * Case analysis on degenerate data, bounds, and behaviour under translations
    and changes of units. *)
From Coq Require Import ZArith List Arith Bool Lia Permutation.
From Verif Require Import Num Base GetCvi.
From Coq Require Import Reals Lra.
From Verif Require Import Det Spec XR SpecX RGeom XLift XEval XInc XRun XPerm XBatch Obs XForm.
Import ListNotations.
Local Open Scope R_scope.

(** ** Sums and maxima with inf and nan *)
Lemma xsum_nan l : (exists x, In x l /\ x = NaN) -> xsum l = NaN.
Proof.
  induction l as [|y l IH]; intros (x & Hx & ->); [destruct Hx|]. rewrite xsum_cons. destruct Hx as [->|Hx].
  - reflexivity.
  - rewrite IH by (now exists NaN). now destruct y.
Qed.
Lemma xsum_pinf l : (forall x, In x l -> x = PInf \/ exists r, x = Fin r) -> (exists x, In x l /\ x = PInf) -> xsum l = PInf.
Proof.
  intros H1 H2.
  assert (H3 : xsum l = PInf \/ exists r, xsum l = Fin r /\ ~ exists x, In x l /\ x = PInf).
  { clear H2. induction l as [|y l IH].
    - right. exists 0. split; auto. intros (x & [] & _).
    - rewrite xsum_cons. destruct IH as [E|(r & E & N)]; [intros; apply H1; now right| |]; rewrite E.
      + left. destruct (H1 y (or_introl eq_refl)) as [->|(u & ->)]; reflexivity.
      + destruct (H1 y (or_introl eq_refl)) as [->|(u & ->)]; [now left|]. right. exists (u + r). split; auto.
        intros (x & [<-|Hx] & E'); [discriminate|]. apply N. now exists x. }
  destruct H3 as [|(r & _ & N)]; tauto.
Qed.
Lemma xmaxl_nan l : (exists x, In x l /\ x = NaN) -> xmaxl l = NaN.
Proof.
  intros (x & Hx & ->). destruct l as [|y l]; [destruct Hx|]. cbn [xmaxl].
  induction l as [|z l IH].
  - destruct Hx as [->|[]]. reflexivity.
  - cbn [fold_right]. destruct Hx as [->|[->|Hx]].
    + rewrite IH by now left. now destruct z.
    + reflexivity.
    + rewrite IH by now right. now destruct z.
Qed.
Lemma xmax_PInf_l a : a <> NaN -> xmax PInf a = PInf.
Proof. destruct a; intros H; try congruence; unfold xmax, xle; reflexivity. Qed.
Lemma xmaxl_pinf l : (forall x, In x l -> x = PInf \/ exists r, x = Fin r) -> (exists x, In x l /\ x = PInf) -> xmaxl l = PInf.
Proof.
  intros H1 (x & Hx & ->). apply in_split in Hx as (l1 & l2 & ->).
  rewrite (xmaxl_perm _ (PInf :: l1 ++ l2)) by (symmetry; apply Permutation_middle).
  destruct (l1 ++ l2) as [|z l] eqn:E; [reflexivity|]. rewrite xmaxl_cons by discriminate.
  apply xmax_PInf_l.
  assert (Hz : forall u, In u (z :: l) -> u <> NaN).
  { intros u Hu. rewrite <- E in Hu. destruct (H1 u) as [->|(r & ->)]; try discriminate.
    apply in_app_or in Hu as [Hu|Hu]; apply in_or_app; [now left|right; now right]. }
  clear -Hz. revert z Hz. induction l as [|w l IH]; intros z Hz; [apply Hz; now left|].
  rewrite xmaxl_cons by discriminate.
  assert (H1 : xmaxl (w :: l) <> NaN) by (apply IH; intros u Hu; apply Hz; now right).
  assert (H2 : z <> NaN) by (apply Hz; now left).
  unfold xmax. destruct z, (xmaxl (w :: l)); try congruence; destruct (xle _ _); congruence.
Qed.

(** ** Degenerate data *)
Section D.
  Context (d : nat) (gs : list (list point)).
  Hypotheses (Hg : good d gs) (Hk : (2 <= length gs)%nat).

  Lemma CH_inf : wgss d gs = 0 -> bgss d gs <> 0 -> nclus gs <> nsamp gs -> CH_ext d gs = PInf.
  Proof.
    intros Hw Hb Hn. unfold CH_ext. rewrite Hw, xdiv_zero. pose proof (bgss_nonneg d gs). rewrite inf_mul_pos by lra.
    cbn [xmul]. apply inf_mul_pos. pose proof (k_gt gs Hk). pose proof (n_ge_k d gs Hg).
    apply Rmult_lt_0_compat; [lra|apply Rinv_0_lt_compat; lra].
  Qed.
  Lemma CH_nan : wgss d gs = 0 -> bgss d gs = 0 \/ nclus gs = nsamp gs -> CH_ext d gs = NaN.
  Proof.
    intros Hw H. unfold CH_ext. rewrite Hw, xdiv_zero. destruct (Req_dec (bgss d gs) 0) as [E|E].
    - rewrite E, inf_mul_zero. reflexivity.
    - destruct H as [H|H]; [contradiction|]. pose proof (bgss_nonneg d gs). rewrite inf_mul_pos by lra. cbn [xmul].
      rewrite H. replace (_ / _) with 0 by (unfold Rdiv; ring). apply inf_mul_zero.
  Qed.
  Lemma WB_inf : bgss d gs = 0 -> wgss d gs <> 0 -> WB_ext d gs = PInf.
  Proof.
    intros Hb Hw. unfold WB_ext. rewrite Hb, xdiv_zero. pose proof (wgss_nonneg d gs). rewrite inf_mul_pos by lra.
    cbn [xmul]. apply inf_mul_pos. pose proof (k_gt gs Hk). lra.
  Qed.
  Lemma WB_nan : bgss d gs = 0 -> wgss d gs = 0 -> WB_ext d gs = NaN.
  Proof. intros Hb Hw. unfold WB_ext. now rewrite Hb, Hw, xdiv_zero, inf_mul_zero. Qed.
  Lemma mindist_zero : ~ NoDup (map (centroid d) gs) -> rmin (map (fun p => cdist d (fst p) (snd p)) (pairs gs)) = 0.
  Proof.
    intros H. pose proof (mindist_nonneg d gs). destruct (Req_dec (rmin (map (fun p => cdist d (fst p) (snd p)) (pairs gs))) 0) as [|E]; auto.
    exfalso. apply H, mindist_pos; auto. lra.
  Qed.
  Lemma XB_inf : ~ NoDup (map (centroid d) gs) -> wgss d gs <> 0 -> XB_ext d gs = PInf.
  Proof.
    intros H Hw. unfold XB_ext. rewrite mindist_zero, Rmult_0_r, xdiv_zero by auto. apply inf_mul_pos. pose proof (wgss_nonneg d gs). lra.
  Qed.
  Lemma XB_nan : ~ NoDup (map (centroid d) gs) -> wgss d gs = 0 -> XB_ext d gs = NaN.
  Proof. intros H Hw. unfold XB_ext. rewrite mindist_zero, Rmult_0_r, xdiv_zero, Hw by auto. apply inf_mul_zero. Qed.
  (** two clusters with one centroid, all their samples at it *)
  Definition coinciding_points : Prop := exists g h, In (g, h) (pairs gs) /\
    centroid d g = centroid d h /\ mse d g = 0 /\ mse d h = 0.
  Lemma not_nodup : ~ NoDup (map (centroid d) gs) -> exists g h, In (g, h) (pairs gs) /\ centroid d g = centroid d h.
  Proof.
    intros H. destruct (Exists_dec (fun p => centroid d (fst p) = centroid d (snd p)) (pairs gs)) as [E|E].
    { intros [g h]. cbn. destruct (Req_EM_T (cdist d g h) 0) as [E|E]; [left|right]; rewrite <- cdist_zero; auto. }
    - apply Exists_exists in E as ([g h] & Hp & E). now exists g, h.
    - exfalso. apply H, NoDup_pairs. intros x y Hp Exy. apply E, Exists_exists. now exists (x, y).
  Qed.
  Lemma DB_term g h : xdiv (Fin (mse d g + mse d h)) (Fin (cdist d g h)) =
    (if Req_EM_T (cdist d g h) 0 then if Req_EM_T (mse d g + mse d h) 0 then NaN else PInf
     else Fin ((mse d g + mse d h) / cdist d g h)).
  Proof.
    unfold xdiv. destruct (Req_EM_T (cdist d g h) 0); auto. pose proof (mse_nonneg d g). pose proof (mse_nonneg d h).
    destruct (Req_EM_T _ 0) as [E|E]; [rewrite E; apply inf_mul_zero|apply inf_mul_pos; lra].
  Qed.
  Lemma DB_nan : coinciding_points -> DB_ext d gs = NaN.
  Proof.
    intros (g & h & Hp & Ec & E1 & E2). unfold DB_ext. rewrite xsum_nan; auto. exists NaN. split; auto.
    destruct (pairs_selects gs g h Hp) as (r & Hr & Hh). apply in_map_iff. exists (g, r). split; auto. cbn [fst snd].
    apply xmaxl_nan. exists NaN. split; auto. apply in_map_iff. exists h. split; auto. rewrite DB_term.
    apply cdist_zero in Ec. destruct (Req_EM_T (cdist d g h) 0); [|contradiction]. rewrite E1, E2, Rplus_0_l.
    now destruct (Req_EM_T 0 0).
  Qed.
  Lemma DB_inf : ~ NoDup (map (centroid d) gs) -> ~ coinciding_points -> DB_ext d gs = PInf.
  Proof.
    intros Hn Hc. unfold DB_ext. pose proof (k_gt gs Hk) as K.
    assert (Ht : forall g r h, In (g, r) (selects gs) -> In h r ->
       (cdist d g h = 0 /\ xdiv (Fin (mse d g + mse d h)) (Fin (cdist d g h)) = PInf) \/
       (exists x, xdiv (Fin (mse d g + mse d h)) (Fin (cdist d g h)) = Fin x)).
    { intros g r h Hp Hh. rewrite DB_term. destruct (Req_EM_T (cdist d g h) 0) as [E|E]; [left|right; eauto].
      split; auto. destruct (Req_EM_T (mse d g + mse d h) 0) as [E'|]; auto. exfalso. apply Hc.
      pose proof (mse_nonneg d g). pose proof (mse_nonneg d h). apply cdist_zero in E.
      destruct (selects_pairs gs g r h Hp Hh) as [Q|Q]; [exists g, h|exists h, g]; repeat split; auto; lra. }
    replace (xsum _) with PInf.
    - unfold xdiv. destruct (Req_EM_T (nclus gs) 0); auto. apply inf_mul_pos. lra.
    - symmetry. apply xsum_pinf.
      + intros x Hx. apply in_map_iff in Hx as ([g r] & <- & Hp). cbn [fst snd].
        destruct (Exists_dec (fun h => cdist d g h = 0) r) as [E|E].
        { intros h. destruct (Req_EM_T (cdist d g h) 0); auto. }
        * left. apply xmaxl_pinf.
          -- intros x Hx. apply in_map_iff in Hx as (h & <- & Hh). destruct (Ht g r h Hp Hh) as [[_ ->]|]; auto.
          -- apply Exists_exists in E as (h & Hh & E). exists PInf. split; auto. apply in_map_iff. exists h. split; auto.
             destruct (Ht g r h Hp Hh) as [[_ ->]|(x & Ex)]; auto. exfalso. rewrite DB_term in Ex.
             destruct (Req_EM_T (cdist d g h) 0); [|contradiction]. destruct (Req_EM_T _ 0); discriminate.
        * right. rewrite (map_ext_in _ (fun h => Fin ((mse d g + mse d h) / cdist d g h))).
          -- rewrite <- (map_map (fun h => (mse d g + mse d h) / cdist d g h) Fin), xmaxl_fin. eauto.
          -- intros h Hh. apply xdiv_fin. intros E'. apply E, Exists_exists. eauto.
      + destruct (not_nodup Hn) as (g & h & Hp & Ec). destruct (pairs_selects gs g h Hp) as (r & Hr & Hh).
        exists PInf. split; auto. apply in_map_iff. exists (g, r). split; auto. cbn [fst snd]. apply xmaxl_pinf.
        * intros x Hx. apply in_map_iff in Hx as (h' & <- & Hh'). destruct (Ht g r h' Hr Hh') as [[_ ->]|]; auto.
        * exists PInf. split; auto. apply in_map_iff. exists h. split; auto. apply cdist_zero in Ec.
          destruct (Ht g r h Hr Hh) as [[_ ->]|(x & Ex)]; auto. exfalso. rewrite DB_term in Ex.
          destruct (Req_EM_T (cdist d g h) 0); [|contradiction]. destruct (Req_EM_T _ 0); discriminate.
  Qed.
  Lemma minsqrt : rmin (map (fun p => sqrt (cdist d (fst p) (snd p))) (pairs gs)) =
                  sqrt (rmin (map (fun p => cdist d (fst p) (snd p)) (pairs gs))).
  Proof.
    assert (HP := pairs_ne' gs Hk). apply rmin_unique.
    - assert (K : In (rmin (map (fun p => cdist d (fst p) (snd p)) (pairs gs))) (map (fun p => cdist d (fst p) (snd p)) (pairs gs))).
      { apply rmin_In. intros E. now apply map_eq_nil in E. }
      apply in_map_iff in K as (p & E & Hp). rewrite <- E. apply in_map_iff. now exists p.
    - intros y Hy. apply in_map_iff in Hy as (p & <- & Hp). apply sqrt_le_1_alt. apply rmin_le. apply in_map_iff. now exists p.
  Qed.
  Lemma GD43_inf : rmax (map (mse d) gs) = 0 -> NoDup (map (centroid d) gs) -> GD43_ext d gs = PInf.
  Proof.
    intros E H. unfold GD43_ext. rewrite E, Rmult_0_r, xdiv_zero, minsqrt. apply inf_mul_pos, sqrt_lt_R0. now apply mindist_pos.
  Qed.
  Lemma GD43_nan : rmax (map (mse d) gs) = 0 -> ~ NoDup (map (centroid d) gs) -> GD43_ext d gs = NaN.
  Proof.
    intros E H. unfold GD43_ext. rewrite E, Rmult_0_r, xdiv_zero, minsqrt, mindist_zero, sqrt_0 by auto. apply inf_mul_zero.
  Qed.
  Lemma pooled_nonneg g h : 0 <= pooled d g h.
  Proof.
    unfold pooled. pose proof (scatter_nonneg d g). pose proof (scatter_nonneg d h).
    pose proof (pos_INR (length g)). pose proof (pos_INR (length h)).
    destruct (Req_dec (INR (length g) + INR (length h)) 0) as [E|E].
    - assert (L : length g = 0%nat /\ length h = 0%nat).
      { split; apply INR_eq; cbn [INR]; unfold point in *; lra. }
      destruct L as [L1 L2]. apply length_zero_iff_nil in L1, L2. subst. unfold scatter. cbn. unfold Rdiv. rewrite Rplus_0_r, Rmult_0_l. lra.
    - apply Rmult_le_pos; [lra|]. apply Rlt_le, Rinv_0_lt_compat. lra.
  Qed.
  Lemma scatter_mse g : In g gs -> scatter d g = INR (length g) * mse d g.
  Proof. intros H. unfold mse. field. pose proof (INR_pos g (g_ne d gs Hg g H)). unfold point in *. lra. Qed.
  Lemma mse_le g : In g gs -> mse d g <= rmax (map (mse d) gs).
  Proof. intros H. apply rmax_ge. now apply in_map. Qed.
  Lemma pooled_le g h : In g gs -> In h gs -> pooled d g h <= rmax (map (mse d) gs).
  Proof.
    intros H1 H2. unfold pooled. rewrite !scatter_mse by auto.
    pose proof (INR_pos g (g_ne d gs Hg g H1)) as P1. pose proof (INR_pos h (g_ne d gs Hg h H2)) as P2.
    pose proof (mse_le g H1) as M1. pose proof (mse_le h H2) as M2. set (m := rmax _) in *.
    apply (Rmult_le_reg_r (INR (length g) + INR (length h))); [unfold point in *; lra|].
    unfold Rdiv. rewrite Rmult_assoc, Rinv_l by (unfold point in *; lra).
    pose proof (Rmult_le_compat_l (INR (length g)) _ _ (Rlt_le _ _ P1) M1).
    pose proof (Rmult_le_compat_l (INR (length h)) _ _ (Rlt_le _ _ P2) M2). unfold point in *. lra.
  Qed.
  Lemma minpooled : 0 <= rmin (map (fun p => pooled d (fst p) (snd p)) (pairs gs)) <= rmax (map (mse d) gs).
  Proof.
    split; [apply rmin_nonneg, Forall_map, Forall_forall; intros; apply pooled_nonneg|].
    pose proof (pairs_ne' gs Hk) as HP. destruct (pairs gs) as [|[g h] l] eqn:E; [congruence|].
    destruct (pairs_In gs g h) as [H1 H2]; [rewrite E; now left|].
    eapply Rle_trans; [apply rmin_le; left; reflexivity|]. now apply pooled_le.
  Qed.
  Lemma GD53_nan : rmax (map (mse d) gs) = 0 -> GD53_ext d gs = NaN.
  Proof.
    intros E. unfold GD53_ext. pose proof minpooled as M. rewrite E in M.
    replace (rmin _) with 0 by lra. rewrite E, Rmult_0_r, xdiv_zero. apply inf_mul_zero.
  Qed.
  Lemma PS_nan : (forall g h, In g gs -> In h gs -> centroid d g = centroid d h) -> PS_ext d gs = NaN.
  Proof. intros H. unfold PS_ext. rewrite (proj2 (beta_zero d gs Hk) H). now destruct (Req_EM_T 0 0). Qed.
  Lemma cSIL_nan : tss d gs <> 0 -> sil_undefined d gs -> cSIL_ext d gs = NaN.
  Proof.
    intros Ht (g & r & Hp & Ea & Eb). unfold cSIL_ext. destruct (Req_EM_T (tss d gs) 0); [contradiction|].
    rewrite xsum_nan; auto. exists NaN. split; auto. apply in_map_iff. exists (g, r). split; auto. cbv zeta. cbn [fst snd].
    rewrite Ea, Eb, Rmax_left, Rminus_0_r, xdiv_zero by lra. apply inf_mul_zero.
  Qed.
  Lemma cSIL_zero : tss d gs = 0 -> cSIL_ext d gs = Fin 0.
  Proof. intros E. unfold cSIL_ext. destruct (Req_EM_T (tss d gs) 0); [auto|contradiction]. Qed.

  (** ** Bounds *)
  Definition nonneg_value (v : xr) : Prop := v = NaN \/ v = PInf \/ exists r, v = Fin r /\ 0 <= r.
  Lemma nonneg_xnn v : xnonneg v -> nonneg_value v.
  Proof. unfold nonneg_value. destruct v; cbn; eauto; tauto. Qed.
  Lemma xdiv_nn a b : 0 <= a -> 0 <= b -> xnonneg (xdiv (Fin a) (Fin b)).
  Proof.
    intros Ha Hb. unfold xdiv. destruct (Req_EM_T b 0).
    - unfold inf_mul. destruct (Req_EM_T a 0); [exact I|]. destruct (Rlt_dec 0 a); [exact I|]. lra.
    - cbn. apply Rmult_le_pos; auto. apply Rlt_le, Rinv_0_lt_compat. lra.
  Qed.
  Lemma xmul_nn v q : xnonneg v -> 0 <= q -> xnonneg (xmul v (Fin q)).
  Proof.
    intros Hv Hq. destruct v; cbn in *; [now apply Rmult_le_pos| |contradiction|exact I].
    unfold inf_mul. destruct (Req_EM_T q 0); [exact I|]. destruct (Rlt_dec 0 q); [exact I|]. lra.
  Qed.
  Lemma xsum_nn l : Forall xnonneg l -> xnonneg (xsum l).
  Proof.
    induction 1 as [|x l Hx Hl IH]; [cbn; lra|]. rewrite xsum_cons. destruct x, (xsum l); cbn in *; auto; try tauto. lra.
  Qed.
  Lemma xdivn_nn v q : xnonneg v -> 0 < q -> xnonneg (xdiv v (Fin q)).
  Proof.
    intros Hv Hq. destruct v; try exact I; try contradiction.
    - apply xdiv_nn; [exact Hv|lra].
    - unfold xdiv. destruct (Req_EM_T q 0); [lra|]. rewrite inf_mul_pos by auto. exact I.
  Qed.
  Lemma potential_pos g h : 0 <= potential d g h.
  Proof.
    unfold potential. pose proof (exp_pos (- / 2 * mahal d g h)).
    assert (Hi : forall x, 0 <= / sqrt x).
    { intros x. pose proof (sqrt_pos x). destruct (Req_dec (sqrt x) 0) as [E|E].
      - rewrite E, Rinv_0. lra.
      - apply Rlt_le, Rinv_0_lt_compat. lra. }
    apply Rmult_le_pos; [apply Rmult_le_pos; apply Hi|lra].
  Qed.
End D.
