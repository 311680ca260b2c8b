(** * Bounds on the values, and behaviour under translations and changes of units. *)
From Coq Require Import ZArith List Arith Bool Lia Permutation.
From Verif Require Import Num Base GetCvi.
From Coq Require Import Reals Lra.
From Verif Require Import Det Spec XR SpecX RGeom XLift XEval XInc XRun XPerm XBatch Obs XForm XBounds.
Import ListNotations.
Local Open Scope R_scope.

Section B.
  Context (d : nat) (gs : list (list point)).
  Hypotheses (Hg : good d gs) (Hk : (2 <= length gs)%nat).

  Lemma XVal_nonneg c : c <> kPS -> c <> kcSIL -> xnonneg (XVal c d gs).
  Proof.
    intros H1 H2. unfold XVal. destruct (Nat.leb_spec (length gs) 1) as [|_]; [lia|].
    pose proof (k_gt gs Hk) as K. pose proof (n_ge_k d gs Hg) as N. pose proof (n_pos d gs Hg Hk) as N0.
    pose proof (bgss_nonneg d gs). pose proof (wgss_nonneg d gs). pose proof (maxmse_nonneg d gs).
    destruct c; try congruence.
    - unfold CH_ext. apply xmul_nn; [now apply xdiv_nn|].
      apply Rmult_le_pos; [lra|apply Rlt_le, Rinv_0_lt_compat; lra].
    - unfold WB_ext. apply xmul_nn; [now apply xdiv_nn|lra].
    - unfold DB_ext. apply xdivn_nn; [|lra]. apply xsum_nn, Forall_map, Forall_forall. intros [g r] Hp. cbn [fst snd].
      apply xmaxl_nonneg, Forall_map, Forall_forall. intros h Hh. apply xdiv_nn; [|apply cdist_nonneg].
      pose proof (mse_nonneg d g). pose proof (mse_nonneg d h). lra.
    - unfold XB_ext. apply xdiv_nn; auto. apply Rmult_le_pos; [lra|]. apply mindist_nonneg.
    - unfold GD43_ext. apply xdiv_nn; [|lra]. apply rmin_nonneg, Forall_map, Forall_forall. intros; apply sqrt_pos.
    - unfold GD53_ext. apply xdiv_nn; [|lra]. apply (minpooled d gs Hg Hk).
    - unfold rCIP_ext, rCIP_formula. cbn. apply rsum_map_nonneg. intros; apply potential_pos.
  Qed.
  Lemma GD53_half r : GD53_ext d gs = Fin r -> 0 <= r <= / 2.
  Proof.
    intros E. pose proof (minpooled d gs Hg Hk) as [M1 M2]. pose proof (maxmse_nonneg d gs) as M3.
    destruct (Req_dec (rmax (map (mse d) gs)) 0) as [E0|E0].
    - rewrite GD53_nan in E by auto. discriminate.
    - unfold GD53_ext in E. rewrite xdiv_fin in E by lra. inversion E. set (m := rmax _) in *. set (p := rmin _) in *.
      assert (0 < / (2 * m)) by (apply Rinv_0_lt_compat; lra). split.
      + apply Rmult_le_pos; lra.
      + apply (Rmult_le_reg_r (2 * m)); [lra|]. unfold Rdiv. rewrite Rmult_assoc, Rinv_l by lra. lra.
  Qed.
  Lemma rsum_bound {X} (f : X -> R) b l : (forall x, In x l -> - b < f x < b) -> l <> [] ->
    - (INR (length l) * b) < rsum (map f l) < INR (length l) * b.
  Proof.
    induction l as [|x l IH]; intros H Hl; [congruence|]. cbn [map]. rewrite rsum_cons.
    change (length (x :: l)) with (S (length l)). rewrite S_INR.
    pose proof (H x (or_introl eq_refl)). destruct l as [|y l].
    - cbn. lra.
    - specialize (IH (fun z Hz => H z (or_intror Hz)) ltac:(discriminate)). lra.
  Qed.
  Lemma rsum_bound_le {X} (f : X -> R) l : (forall x, In x l -> - 1 <= f x <= 1) ->
    - INR (length l) <= rsum (map f l) <= INR (length l).
  Proof.
    induction l as [|x l IH]; intros H; [cbn; lra|]. cbn [map]. rewrite rsum_cons.
    change (length (x :: l)) with (S (length l)). rewrite S_INR.
    pose proof (H x (or_introl eq_refl)). specialize (IH (fun z Hz => H z (or_intror Hz))). lra.
  Qed.
  Lemma PS_bound : - nclus gs < PS_formula d gs < nclus gs \/ PS_beta d gs = 0.
  Proof.
    destruct (Req_dec (PS_beta d gs) 0) as [E|E]; [now right|left]. pose proof (beta_nonneg d gs Hk) as Bn.
    unfold PS_formula, nclus. rewrite <- selects_length. rewrite <- (Rmult_1_r (INR (length (selects gs)))).
    apply rsum_bound.
    - intros [g r] Hp. cbn [fst snd]. set (e := exp _). set (m := rmax _).
      assert (Hgi : In g gs) by (eapply Permutation_in; [symmetry; exact (selects_In gs g r Hp)|now left]).
      pose proof (INR_pos g (g_ne d gs Hg g Hgi)) as Pg.
      assert (Hm : INR (length g) <= m) by (apply rmax_ge, in_map_iff; now exists g).
      assert (Q : 0 < INR (length g) / m <= 1).
      { split; [apply Rmult_lt_0_compat; [auto|apply Rinv_0_lt_compat; unfold point in *; lra]|].
        apply (Rmult_le_reg_r m); [unfold point in *; lra|]. unfold Rdiv. rewrite Rmult_assoc, Rinv_l by (unfold point in *; lra).
        unfold point in *. lra. }
      assert (0 < e <= 1).
      { split; [apply exp_pos|]. unfold e. rewrite <- exp_0. 
        assert (Hx : - rmin (map (cdist d g) r) / PS_beta d gs <= 0).
        { assert (0 <= rmin (map (cdist d g) r)) by (apply rmin_nonneg, Forall_map, Forall_forall; intros; apply cdist_nonneg).
          assert (0 < / PS_beta d gs) by (apply Rinv_0_lt_compat; lra). unfold Rdiv.
          assert (0 <= rmin (map (cdist d g) r) * / PS_beta d gs) by (apply Rmult_le_pos; lra). lra. }
        destruct Hx as [Hx| ->]; [left; now apply exp_increasing|right; reflexivity]. }
      unfold point in *. lra.
    - intros E0. apply (f_equal (@length _)) in E0. rewrite selects_length in E0. simpl in E0. lia.
  Qed.
  Lemma cSIL_bound r : cSIL_ext d gs = Fin r -> - 1 <= r <= 1.
  Proof.
    intros E. destruct (Req_dec (tss d gs) 0) as [Et|Et].
    { rewrite cSIL_zero in E by auto. inversion E. lra. }
    assert (Hu : ~ sil_undefined d gs). { intros H. rewrite cSIL_nan in E by auto. discriminate. }
    rewrite (cSIL_form d gs Hg Hk Hu) in E. inversion E as [E']. clear E.
    unfold cSIL_formula. unfold nclus. rewrite <- selects_length.
    match goal with |- _ <= rsum (map ?f _) / _ <= _ => assert (H := rsum_bound_le f (selects gs)) end.
    pose proof (k_gt gs Hk) as K. unfold nclus in K. rewrite <- selects_length in K.
    assert (Hb : forall x, In x (selects gs) -> - 1 <= (let a := mdist d (fst x) (fst x) in let b := rmin (map (mdist d (fst x)) (snd x)) in (b - a) / Rmax a b) <= 1).
    { intros [g r'] Hp. cbv zeta. cbn [fst snd]. set (a := mdist d g g). set (b := rmin _).
      assert (Ha : 0 <= a) by apply mdist_nonneg. assert (Hb : 0 <= b) by apply sil_b_nonneg.
      pose proof (Rmax_l a b). pose proof (Rmax_r a b).
      assert (Hm : 0 < Rmax a b).
      { destruct (Req_dec (Rmax a b) 0) as [E0|]; [|lra]. exfalso. apply Hu. exists g, r'. fold a b. repeat split; auto; lra. }
      split; apply (Rmult_le_reg_r (Rmax a b)); auto; unfold Rdiv; rewrite Rmult_assoc, Rinv_l by lra; lra. }
    specialize (H Hb). set (n := INR _) in *. set (t := rsum _) in *.
    split; apply (Rmult_le_reg_r n); try lra; unfold Rdiv; rewrite Rmult_assoc, Rinv_l by lra; lra.
  Qed.
  Lemma cSIL_finite_or_nan : cSIL_ext d gs = NaN \/ exists r, cSIL_ext d gs = Fin r.
  Proof.
    destruct (Req_dec (tss d gs) 0) as [Et|Et]; [right; exists 0; now apply cSIL_zero|].
    destruct (Classical_Prop.classic (sil_undefined d gs)) as [H|H]; [left; now apply cSIL_nan|right; eexists; now apply cSIL_form].
  Qed.
  (** CH and WB *)
  Lemma CH_WB a b : CH_ext d gs = Fin a -> WB_ext d gs = Fin b -> a <> 0 -> b <> 0 ->
    a * b = nclus gs * (nsamp gs - nclus gs) / (nclus gs - 1).
  Proof.
    intros E1 E2 Ha Hb. pose proof (k_gt gs Hk) as K.
    destruct (Req_dec (wgss d gs) 0) as [W|W].
    { destruct (Req_dec (bgss d gs) 0) as [B0|B0]; [rewrite CH_nan in E1 by auto; discriminate|].
      destruct (Req_dec (nclus gs) (nsamp gs)) as [N|N]; [rewrite CH_nan in E1 by auto|rewrite (CH_inf d gs Hg Hk) in E1 by auto]; discriminate. }
    destruct (Req_dec (bgss d gs) 0) as [B0|B0]; [rewrite (WB_inf d gs Hk) in E2 by auto; discriminate|].
    rewrite (CH_form d gs Hg Hk W) in E1. rewrite WB_form in E2 by auto. inversion E1; subst a. inversion E2; subst b.
    unfold CH_formula, WB_formula.
    assert (nsamp gs - nclus gs <> 0). { intros E. apply W, (singles_wgss d gs Hg Hk). lra. }
    field. repeat split; auto. lra.
  Qed.
End B.

(** ** Similarities of the space *)
Lemma xdiv_scale q a b : 0 < q -> xdiv (Fin (q * a)) (Fin (q * b)) = xdiv (Fin a) (Fin b).
Proof.
  intros Hq. unfold xdiv. destruct (Req_EM_T b 0) as [->|Hb].
  - rewrite Rmult_0_r. destruct (Req_EM_T 0 0); [|congruence]. unfold inf_mul.
    destruct (Req_EM_T a 0) as [->|Ha].
    + rewrite Rmult_0_r. destruct (Req_EM_T 0 0); [auto|congruence].
    + destruct (Req_EM_T (q * a) 0) as [E|_]; [apply Rmult_integral in E; destruct E; lra|].
      destruct (Rlt_dec 0 a) as [H|H], (Rlt_dec 0 (q * a)) as [H'|H']; auto; exfalso.
      * apply H'. now apply Rmult_lt_0_compat.
      * apply H. apply (Rmult_lt_reg_l q); auto. lra.
  - destruct (Req_EM_T (q * b) 0) as [E|_]; [apply Rmult_integral in E; destruct E; lra|]. f_equal. field. split; auto. lra.
Qed.
Lemma rmin_scale q l : 0 < q -> rmin (map (Rmult q) l) = q * rmin l.
Proof.
  intros Hq. destruct l as [|x l]; [cbn; ring|]. apply rmin_unique.
  - apply in_map. apply rmin_In. discriminate.
  - intros y Hy. apply in_map_iff in Hy as (z & <- & Hz). apply Rmult_le_compat_l; [lra|]. now apply rmin_le.
Qed.
Lemma rmax_scale q l : 0 < q -> rmax (map (Rmult q) l) = q * rmax l.
Proof.
  intros Hq. destruct l as [|x l]; [cbn; ring|]. apply rmax_unique.
  - apply in_map. apply rmax_In. discriminate.
  - intros y Hy. apply in_map_iff in Hy as (z & <- & Hz). apply Rmult_le_compat_l; [lra|]. now apply rmax_ge.
Qed.
Lemma Rmax_scale q a b : 0 < q -> Rmax (q * a) (q * b) = q * Rmax a b.
Proof. intros Hq. apply RmaxRmult. lra. Qed.

Section T.
  Context (d d' : nat) (T : point -> point) (q : R).
  Hypotheses (Hq : 0 < q)
    (T_dist : forall x y, length x = d -> length y = d -> dist2 (T x) (T y) = q * dist2 x y)
    (T_cen : forall g, wfg d g -> g <> [] -> centroid d' (map T g) = T (centroid d g)).
  Let TG := map T.
  Lemma T_scatter g : wfg d g -> g <> [] -> scatter d' (TG g) = q * scatter d g.
  Proof.
    intros H Hn. unfold scatter, TG. rewrite T_cen, map_map, <- rsum_map_scal by auto. apply rsum_map_ext. intros x Hx.
    apply T_dist; [|apply centroid_length]. unfold wfg in H. rewrite Forall_forall in H. auto.
  Qed.
  Lemma T_mse g : wfg d g -> g <> [] -> mse d' (TG g) = q * mse d g.
  Proof. intros H Hn. unfold mse. rewrite T_scatter by auto. unfold TG. rewrite map_length. unfold Rdiv. ring. Qed.
  Lemma T_cdist g h : wfg d g -> g <> [] -> wfg d h -> h <> [] -> cdist d' (TG g) (TG h) = q * cdist d g h.
  Proof. intros. unfold cdist, TG. rewrite !T_cen by auto. apply T_dist; apply centroid_length. Qed.
  Lemma T_mdist g h : wfg d g -> g <> [] -> wfg d h -> h <> [] -> mdist d' (TG g) (TG h) = q * mdist d g h.
  Proof.
    intros H1 H2 H3 H4. unfold mdist, TG. rewrite T_cen, map_map, map_length by auto.
    rewrite (rsum_map_ext _ (fun x => q * dist2 x (centroid d g))).
    - rewrite rsum_map_scal. unfold Rdiv. ring.
    - intros x Hx. apply T_dist; [|apply centroid_length]. unfold wfg in H3. rewrite Forall_forall in H3. auto.
  Qed.
  Lemma T_pooled g h : wfg d g -> g <> [] -> wfg d h -> h <> [] -> pooled d' (TG g) (TG h) = q * pooled d g h.
  Proof. intros. unfold pooled. rewrite !T_scatter by auto. unfold TG. rewrite !map_length. unfold Rdiv. ring. Qed.

  Context (gs : list (list point)).
  Hypotheses (Hg : good d gs) (Hk : (2 <= length gs)%nat).
  Lemma gw g : In g gs -> wfg d g. Proof. apply (g_wf d gs Hg). Qed.
  Lemma gn g : In g gs -> g <> []. Proof. apply (g_ne d gs Hg). Qed.
  Lemma T_nclus : nclus (map TG gs) = nclus gs. Proof. unfold nclus. now rewrite map_length. Qed.
  Lemma T_concat : concat (map TG gs) = TG (concat gs). Proof. unfold TG. now rewrite concat_map. Qed.
  Lemma T_nsamp : nsamp (map TG gs) = nsamp gs.
  Proof. unfold nsamp. rewrite T_concat. unfold TG. now rewrite map_length. Qed.
  Lemma T_wgss : wgss d' (map TG gs) = q * wgss d gs.
  Proof. unfold wgss. rewrite map_map, <- rsum_map_scal. apply rsum_map_ext. intros g H. apply T_scatter; [now apply gw|now apply gn]. Qed.
  Lemma c_wf : wfg d (concat gs). Proof. apply wfg_concat. apply Hg. Qed.
  Lemma c_ne : concat gs <> []. Proof. apply concat_ne; [now apply (gs_ne d gs Hg Hk)|apply Hg]. Qed.
  Lemma T_bgss : bgss d' (map TG gs) = q * bgss d gs.
  Proof.
    unfold bgss. rewrite map_map, T_concat, <- rsum_map_scal. apply rsum_map_ext. intros g H.
    unfold TG. rewrite map_length, !T_cen by auto using c_wf, c_ne, gw, gn. rewrite T_dist by apply centroid_length. ring.
  Qed.
  Lemma T_tss : tss d' (map TG gs) = q * tss d gs.
  Proof. unfold tss. rewrite T_concat. apply T_scatter; [apply c_wf|apply c_ne]. Qed.
  Lemma T_maxmse : rmax (map (mse d') (map TG gs)) = q * rmax (map (mse d) gs).
  Proof.
    rewrite <- rmax_scale, !map_map by auto. f_equal. apply map_ext_in. intros g H. apply T_mse; [now apply gw|now apply gn].
  Qed.
  Lemma T_pairs (f f' : list point -> list point -> R) u : 0 < u ->
    (forall g h, In g gs -> In h gs -> f (TG g) (TG h) = u * f' g h) ->
    rmin (map (fun p => f (fst p) (snd p)) (pairs (map TG gs))) = u * rmin (map (fun p => f' (fst p) (snd p)) (pairs gs)).
  Proof.
    intros Hu H. rewrite pairs_map, !map_map, <- rmin_scale, map_map by auto. f_equal. apply map_ext_in. intros [g h] Hp. cbn [fst snd].
    apply pairs_In in Hp as [? ?]. auto.
  Qed.
  Lemma sel_in g r : In (g, r) (selects gs) -> In g gs /\ forall h, In h r -> In h gs.
  Proof.
    intros H. pose proof (selects_In gs g r H) as P. split; [eapply Permutation_in; [symmetry; exact P|now left]|].
    intros h Hh. eapply Permutation_in; [symmetry; exact P|now right].
  Qed.
  Lemma T_beta : PS_beta d' (map TG gs) = q * PS_beta d gs.
  Proof.
    unfold PS_beta. rewrite T_nclus, !map_map.
    assert (Ec : centroid d' (map (fun g => centroid d' (TG g)) gs) = T (centroid d (map (centroid d) gs))).
    { rewrite <- T_cen.
      - f_equal. rewrite map_map. apply map_ext_in. intros g H. apply T_cen; [now apply gw|now apply gn].
      - apply Forall_map, Forall_forall. intros; apply centroid_length.
      - intros E. apply map_eq_nil in E. now apply (gs_ne d gs Hg Hk). }
    rewrite Ec. rewrite (rsum_map_ext _ (fun g => q * dist2 (centroid d g) (centroid d (map (centroid d) gs)))).
    - rewrite rsum_map_scal. unfold Rdiv. ring.
    - intros g H. unfold TG. rewrite T_cen by auto using gw, gn. apply T_dist; apply centroid_length.
  Qed.
  Lemma T_XVal c : c <> kGD43 -> c <> krCIP -> XVal c d' (map TG gs) = XVal c d gs.
  Proof.
    intros H1 H2. unfold XVal. rewrite map_length. destruct (_ <=? _)%nat; auto.
    assert (W : forall g, In g gs -> wfg d g /\ g <> []) by (split; [now apply gw|now apply gn]).
    destruct c; try congruence.
    - unfold CH_ext. now rewrite T_bgss, T_wgss, T_nclus, T_nsamp, xdiv_scale.
    - unfold WB_ext. now rewrite T_bgss, T_wgss, T_nclus, xdiv_scale.
    - unfold DB_ext. rewrite T_nclus, selects_map, map_map. do 2 f_equal. apply map_ext_in. intros [g r] Hp. cbn [fst snd].
      f_equal. rewrite map_map. destruct (sel_in g r Hp) as [S1 S2]. apply map_ext_in. intros h Hh. destruct (W g S1), (W h (S2 h Hh)).
      rewrite !T_mse, T_cdist by auto. replace (q * mse d g + q * mse d h) with (q * (mse d g + mse d h)) by ring.
      now apply xdiv_scale.
    - unfold XB_ext. rewrite T_wgss, T_nsamp, (T_pairs (cdist d') (cdist d) q Hq).
      + replace (nsamp gs * (q * _)) with (q * (nsamp gs * rmin (map (fun p => cdist d (fst p) (snd p)) (pairs gs)))) by ring.
        now apply xdiv_scale.
      + intros g h A B. destruct (W g A), (W h B). now apply T_cdist.
    - unfold GD53_ext. rewrite T_maxmse, (T_pairs (pooled d') (pooled d) q Hq).
      + replace (2 * (q * rmax (map (mse d) gs))) with (q * (2 * rmax (map (mse d) gs))) by ring. now apply xdiv_scale.
      + intros g h A B. destruct (W g A), (W h B). now apply T_pooled.
    - unfold PS_ext. rewrite T_beta.
      assert (Eq : q * PS_beta d gs = 0 <-> PS_beta d gs = 0).
      { split; intros E; [apply Rmult_integral in E; destruct E; lra|rewrite E; ring]. }
      destruct (Req_EM_T (q * PS_beta d gs) 0) as [E|E], (Req_EM_T (PS_beta d gs) 0) as [E'|E']; auto; try tauto.
      f_equal. unfold PS_formula. rewrite T_beta, selects_map, !map_map. f_equal. apply map_ext_in. intros [g r] Hp. cbn [fst snd].
      destruct (sel_in g r Hp) as [S1 S2]. destruct (W g S1). unfold TG. rewrite map_length. f_equal.
      + f_equal. f_equal. apply map_ext. intros h. now rewrite map_length.
      + f_equal. rewrite map_map. replace (map (fun x => cdist d' (map T g) (map T x)) r) with (map (Rmult q) (map (cdist d g) r)).
        * rewrite rmin_scale by auto. field. split; auto. lra.
        * rewrite map_map. apply map_ext_in. intros h Hh. destruct (W h (S2 h Hh)). symmetry. now apply T_cdist.
    - unfold cSIL_ext. rewrite T_tss, T_nclus.
      assert (Eq : q * tss d gs = 0 <-> tss d gs = 0).
      { split; intros E; [apply Rmult_integral in E; destruct E; lra|rewrite E; ring]. }
      destruct (Req_EM_T (q * tss d gs) 0) as [E|E], (Req_EM_T (tss d gs) 0) as [E'|E']; auto; try tauto.
      do 2 f_equal. rewrite selects_map, map_map. apply map_ext_in. intros [g r] Hp. cbv zeta. cbn [fst snd].
      destruct (sel_in g r Hp) as [S1 S2]. destruct (W g S1). rewrite T_mdist by auto.
      replace (rmin (map (mdist d' (TG g)) (map TG r))) with (q * rmin (map (mdist d g) r)).
      + rewrite Rmax_scale, <- Rmult_minus_distr_l by auto. now apply xdiv_scale.
      + rewrite <- rmin_scale, !map_map by auto. f_equal. apply map_ext_in. intros h Hh. destruct (W h (S2 h Hh)). symmetry. now apply T_mdist.
  Qed.
  (** GD43 is not dimensionless *)
  Lemma T_GD43 : GD43_ext d' (map TG gs) = xmul (Fin (/ sqrt q)) (GD43_ext d gs).
  Proof.
    unfold GD43_ext. rewrite T_maxmse.
    assert (Hs : 0 < sqrt q) by now apply sqrt_lt_R0.
    rewrite (T_pairs (fun g h => sqrt (cdist d' g h)) (fun g h => sqrt (cdist d g h)) (sqrt q) Hs).
    - set (a := rmin _). set (b := rmax _).
      assert (E : q = sqrt q * sqrt q) by (rewrite sqrt_sqrt; lra).
      replace (2 * (q * b)) with (sqrt q * (2 * (sqrt q * b))) by (rewrite E at 3; ring).
      rewrite xdiv_scale by auto. unfold xdiv.
      destruct (Req_EM_T (2 * b) 0) as [Eb|Eb]; destruct (Req_EM_T (2 * (sqrt q * b)) 0) as [Eb'|Eb'].
      + unfold inf_mul at 2. unfold inf_mul at 1. destruct (Req_EM_T a 0); [reflexivity|].
        destruct (Rlt_dec 0 a); cbn [xmul]; [now rewrite inf_mul_pos by (now apply Rinv_0_lt_compat)|].
        now rewrite inf_mul_pos by (now apply Rinv_0_lt_compat).
      + exfalso. apply Eb'. assert (b = 0) by lra. subst b. rewrite H. ring.
      + exfalso. apply Eb. assert (sqrt q * b = 0) by lra. apply Rmult_integral in H as [H|H]; [lra|]. rewrite H. ring.
      + cbn [xmul]. f_equal. field. split; lra.
    - intros g h A B. rewrite T_cdist by auto using gw, gn. apply sqrt_mult; [lra|apply cdist_nonneg].
  Qed.
End T.
