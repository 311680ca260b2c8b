(** * Data sets with the same (or proportional) distances

    Two data sets with the same labels, possibly of different dimension, such that
    the squared distances of the second are q times those of the first: all
    indices but rCIP and GD43 have the same value, GD43 differs by 1 / sqrt q. *)
From Coq Require Import ZArith List Arith Bool Lia Permutation.
From Verif Require Import Num Base GetCvi.
From Coq Require Import Reals Lra ClassicalEpsilon.
From Verif Require Import Det Spec XR SpecX RGeom XLift XEval XInc XRun XPerm XBatch Obs XForm XBounds XSim XMove.
Import ListNotations.
Local Open Scope R_scope.

Lemma F2_length {X Y} (P : X -> Y -> Prop) a b : Forall2 P a b -> length a = length b.
Proof. induction 1; cbn; congruence. Qed.
(** ** Weights that add up to zero *)
Definition wsum {X} (f : X -> R) (C : list (R * X)) : R := rsum (map (fun z => fst z * f (snd z)) C).
Lemma wsum_app {X} (f : X -> R) C D : wsum f (C ++ D) = wsum f C + wsum f D.
Proof. unfold wsum. now rewrite map_app, rsum_app. Qed.
Lemma square_sum {X} (f : X -> R) (C : list (R * X)) : rsum (map fst C) = 0 ->
  wsum f C * wsum f C = - / 2 * rsum (map (fun z => rsum (map (fun y => fst z * fst y * ((f (snd z) - f (snd y)) * (f (snd z) - f (snd y)))) C)) C).
Proof.
  intros H0.
  assert (E : rsum (map (fun z => rsum (map (fun y => fst z * fst y * ((f (snd z) - f (snd y)) * (f (snd z) - f (snd y)))) C)) C) =
    rsum (map (fun z => fst z * (f (snd z) * f (snd z)) * rsum (map fst C) - 2 * wsum f C * (fst z * f (snd z)) + wsum (fun x => f x * f x) C * fst z) C)).
  { apply rsum_map_ext. intros z _. unfold wsum.
    rewrite (Rmult_comm (2 * rsum _)), <- (Rmult_assoc (fst z * f (snd z)) 2), <- !rsum_map_scal, (Rmult_comm _ (fst z)), <- rsum_map_scal, <- rsum_map_minus, <- rsum_map_plus.
    apply rsum_map_ext. intros y _. ring. }
  rewrite E, H0, rsum_map_plus, rsum_map_minus.
  rewrite (rsum_map_ext (fun z => fst z * (f (snd z) * f (snd z)) * 0) (fun z => 0 * fst z)) by (intros; ring). rewrite !rsum_map_scal.
  change (rsum (map (fun z => fst z) C)) with (rsum (map fst C)). rewrite H0. fold (wsum f C). lra.
Qed.

Section Iso.
  Context (d d' : nat) (q : R) (S : list (point * point)).
  Hypotheses (Hq : 0 < q)
    (Sl : forall z, In z S -> length (fst z) = d /\ length (snd z) = d')
    (Sd : forall y z, In y S -> In z S -> dist2 (snd y) (snd z) = q * dist2 (fst y) (fst z)).

  (** the same affine combination of the samples of both data sets *)
  Definition twin (x x' : point) : Prop := length x = d /\ length x' = d' /\ exists A : list (R * (point * point)),
    (forall z, In z A -> In (snd z) S) /\ rsum (map fst A) = 1 /\
    (forall j, (j < d)%nat -> co j x = wsum (fun z => co j (fst z)) A) /\
    (forall j, (j < d')%nat -> co j x' = wsum (fun z => co j (snd z)) A).
  Lemma wneg {X} (f : X -> R) B : wsum f (map (fun z => (- fst z, snd z)) B) = - wsum f B.
  Proof.
    unfold wsum. rewrite map_map. cbn [fst snd]. replace (- _) with (- (1) * rsum (map (fun z => fst z * f (snd z)) B)) by ring.
    rewrite <- rsum_map_scal. apply rsum_map_ext. intros; ring.
  Qed.
  Lemma dist2_wsum e (pr : point * point -> point) x y A B : length x = e -> length y = e ->
    (forall z, In z A -> length (pr (snd z)) = e) -> (forall z, In z B -> length (pr (snd z)) = e) ->
    rsum (map fst A) = 1 -> rsum (map fst B) = 1 ->
    (forall j, (j < e)%nat -> co j x = wsum (fun z => co j (pr z)) A) ->
    (forall j, (j < e)%nat -> co j y = wsum (fun z => co j (pr z)) B) ->
    let C := A ++ map (fun z => (- fst z, snd z)) B in
    dist2 x y = - / 2 * rsum (map (fun z => rsum (map (fun w => fst z * fst w * dist2 (pr (snd z)) (pr (snd w))) C)) C).
  Proof.
    intros Hx Hy HA HB SA SB EA EB C. rewrite (dist2_coords e x y Hx Hy).
    assert (C0 : rsum (map fst C) = 0).
    { unfold C. rewrite map_app, rsum_app, map_map. cbn [fst]. rewrite (rsum_map_ext (fun z : R * (point * point) => - fst z) (fun z => - (1) * fst z)) by (intros; ring).
      rewrite rsum_map_scal. change (rsum (map (fun z : R * (point * point) => fst z) B)) with (rsum (map fst B)). lra. }
    assert (CL : forall z, In z C -> length (pr (snd z)) = e).
    { intros z Hz. apply in_app_or in Hz as [Hz|Hz]; auto. apply in_map_iff in Hz as (w & <- & Hw). exact (HB w Hw). }
    rewrite (rsum_map_ext _ (fun j => - / 2 * rsum (map (fun z => rsum (map (fun w => fst z * fst w *
      ((co j (pr (snd z)) - co j (pr (snd w))) * (co j (pr (snd z)) - co j (pr (snd w))))) C)) C))).
    - rewrite rsum_map_scal. f_equal. rewrite rsum_swap. apply rsum_map_ext. intros z Hz. rewrite rsum_swap.
      apply rsum_map_ext. intros w Hw. rewrite rsum_map_scal. f_equal. symmetry. apply dist2_coords; auto.
    - intros j Hj. apply in_seq in Hj. rewrite <- (square_sum (fun z => co j (pr z)) C C0).
      unfold C. rewrite wsum_app, wneg, EA, EB by lia. ring.
  Qed.
  Lemma twin_dist x x' y y' : twin x x' -> twin y y' -> dist2 x' y' = q * dist2 x y.
  Proof.
    intros (Lx & Lx' & A & A1 & A2 & A3 & A4) (Ly & Ly' & B & B1 & B2 & B3 & B4).
    rewrite (dist2_wsum d fst x y A B), (dist2_wsum d' snd x' y' A B); auto;
      try (intros z Hz; apply Sl; auto; fail).
    set (C := A ++ _).
    assert (CS : forall z, In z C -> In (snd z) S).
    { intros z Hz. apply in_app_or in Hz as [Hz|Hz]; auto. apply in_map_iff in Hz as (w & <- & Hw). exact (B1 w Hw). }
    rewrite <- Rmult_assoc, (Rmult_comm q), Rmult_assoc. f_equal. rewrite <- rsum_map_scal. apply rsum_map_ext. intros z Hz.
    rewrite <- rsum_map_scal. apply rsum_map_ext. intros w Hw. rewrite Sd by auto. ring.
  Qed.
  Lemma twin_uniq x y y' : twin x y -> twin x y' -> y = y'.
  Proof.
    intros H1 H2. apply dist2_zero; [destruct H1 as (_ & -> & _), H2 as (_ & -> & _); reflexivity|].
    rewrite (twin_dist x y x y' H1 H2), dist2_refl. ring.
  Qed.
  Lemma twin_sample z : In z S -> twin (fst z) (snd z).
  Proof.
    intros Hz. destruct (Sl z Hz). split; auto. split; auto. exists [(1, z)]. split; [intros y [<-|[]]; auto|].
    unfold wsum. cbn. split; [lra|]. split; intros; lra.
  Qed.
  Lemma rsum_flat {X Y} (f : Y -> R) (h : X -> list Y) l : rsum (map f (flat_map h l)) = rsum (map (fun x => rsum (map f (h x))) l).
  Proof. induction l as [|x l IH]; [reflexivity|]. cbn [flat_map map]. now rewrite map_app, rsum_app, IH, rsum_cons. Qed.
  Lemma twin_cen g g' : Forall2 twin g g' -> g <> [] -> twin (centroid d g) (centroid d' g').
  Proof.
    intros H Hn. split; [apply centroid_length|]. split; [apply centroid_length|].
    assert (HA : exists A : list (R * (point * point)), (forall z, In z A -> In (snd z) S) /\ rsum (map fst A) = INR (length g) /\
      (forall j, (j < d)%nat -> rsum (map (co j) g) = wsum (fun z => co j (fst z)) A) /\
      (forall j, (j < d')%nat -> rsum (map (co j) g') = wsum (fun z => co j (snd z)) A)).
    { clear Hn. induction H as [|x x' g g' (_ & _ & B & B1 & B2 & B3 & B4) H (A & A1 & A2 & A3 & A4)].
      - exists []. cbn. repeat split; auto; try (intros; contradiction).
      - exists (B ++ A). split; [intros z Hz; apply in_app_or in Hz as [?|?]; auto|].
        change (length (x :: g)) with (Datatypes.S (length g)). rewrite map_app, rsum_app, S_INR. split; [lra|].
        cbn [map]. split; intros j Hj; rewrite rsum_cons, wsum_app; [now rewrite B3, A3|now rewrite B4, A4]. }
    destruct HA as (A & A1 & A2 & A3 & A4). pose proof (INR_pos g Hn) as Pn.
    exists (map (fun z => (fst z / INR (length g), snd z)) A). split; [|split; [|split]].
    - intros z Hz. apply in_map_iff in Hz as (w & <- & Hw). exact (A1 w Hw).
    - rewrite map_map. cbn [fst]. rewrite (rsum_map_ext _ (fun z => / INR (length g) * fst z)) by (intros; unfold Rdiv; ring).
      rewrite rsum_map_scal. change (rsum (map (fun z : R * (point * point) => fst z) A)) with (rsum (map fst A)). rewrite A2. field. lra.
    - intros j Hj. rewrite co_centroid, A3 by auto. unfold wsum. rewrite map_map. cbn [fst snd].
      rewrite (rsum_map_ext (fun z : R * (point * point) => fst z / INR (length g) * co j (fst (snd z))) (fun z => / INR (length g) * (fst z * co j (fst (snd z))))) by (intros; unfold Rdiv; ring).
      rewrite rsum_map_scal. unfold Rdiv. ring.
    - intros j Hj. rewrite co_centroid, A4 by auto. rewrite <- (F2_length _ _ _ H). unfold wsum. rewrite map_map. cbn [fst snd].
      rewrite (rsum_map_ext (fun z : R * (point * point) => fst z / INR (length g) * co j (snd (snd z))) (fun z => / INR (length g) * (fst z * co j (snd (snd z))))) by (intros; unfold Rdiv; ring).
      rewrite rsum_map_scal. unfold Rdiv. ring.
  Qed.

  (** the second data set as an image of the first *)
  Definition D (x : point) : Prop := exists x', twin x x'.
  Definition T (x : point) : point :=
    match excluded_middle_informative (D x) with left H => proj1_sig (constructive_indefinite_description _ H) | right _ => x end.
  Lemma T_twin x : D x -> twin x (T x).
  Proof.
    intros H. unfold T. destruct (excluded_middle_informative (D x)) as [H'|]; [|contradiction].
    destruct (constructive_indefinite_description _ H') as [x' Hx']. exact Hx'.
  Qed.
  Lemma T_is x x' : twin x x' -> T x = x'.
  Proof. intros H. apply (twin_uniq x); auto. apply T_twin. now exists x'. Qed.
  Lemma T_dist x y : D x -> D y -> dist2 (T x) (T y) = q * dist2 x y.
  Proof. intros Hx Hy. apply twin_dist; now apply T_twin. Qed.
  Lemma D_cen g : Forall D g -> g <> [] -> D (centroid d g).
  Proof.
    intros H Hn. exists (centroid d' (map T g)). apply twin_cen; auto. clear Hn. induction H; cbn [map]; constructor; auto. now apply T_twin.
  Qed.
  Lemma T_cen g : Forall D g -> g <> [] -> centroid d' (map T g) = T (centroid d g).
  Proof.
    intros H Hn. symmetry. apply T_is. apply twin_cen; auto. clear Hn. induction H; cbn [map]; constructor; auto. now apply T_twin.
  Qed.
End Iso.

(** ** Similarities of a part of the space: XSim.v with a domain *)
Section Sim.
  Context (d d' : nat) (D : point -> Prop) (T : point -> point) (q : R).
  Hypotheses (Hq : 0 < q)
    (D_cen : forall g, Forall D g -> g <> [] -> D (centroid d g))
    (T_dist : forall x y, D x -> D y -> dist2 (T x) (T y) = q * dist2 x y)
    (T_cen : forall g, Forall D g -> g <> [] -> centroid d' (map T g) = T (centroid d g)).
  Let TG := map T.
  Lemma T_scatter g : Forall D g -> g <> [] -> scatter d' (TG g) = q * scatter d g.
  Proof.
    intros H Hn. unfold scatter, TG. rewrite T_cen, map_map, <- rsum_map_scal by auto. apply rsum_map_ext. intros x Hx.
    apply T_dist; [|now apply D_cen]. rewrite Forall_forall in H. auto.
  Qed.
  Lemma T_mse g : Forall D g -> g <> [] -> mse d' (TG g) = q * mse d g.
  Proof. intros H Hn. unfold mse. rewrite T_scatter by auto. unfold TG. rewrite map_length. unfold Rdiv. ring. Qed.
  Lemma T_cdist g h : Forall D g -> g <> [] -> Forall D h -> h <> [] -> cdist d' (TG g) (TG h) = q * cdist d g h.
  Proof. intros. unfold cdist, TG. rewrite !T_cen by auto. apply T_dist; now apply D_cen. Qed.
  Lemma T_mdist g h : Forall D g -> g <> [] -> Forall D h -> h <> [] -> mdist d' (TG g) (TG h) = q * mdist d g h.
  Proof.
    intros H1 H2 H3 H4. unfold mdist, TG. rewrite T_cen, map_map, map_length by auto.
    rewrite (rsum_map_ext _ (fun x => q * dist2 x (centroid d g))).
    - rewrite rsum_map_scal. unfold Rdiv. ring.
    - intros x Hx. apply T_dist; [|now apply D_cen]. rewrite Forall_forall in H3. auto.
  Qed.
  Lemma T_pooled g h : Forall D g -> g <> [] -> Forall D h -> h <> [] -> pooled d' (TG g) (TG h) = q * pooled d g h.
  Proof. intros. unfold pooled. rewrite !T_scatter by auto. unfold TG. rewrite !map_length. unfold Rdiv. ring. Qed.

  Context (gs : list (list point)).
  Hypotheses (Hg : good d gs) (Hk : (2 <= length gs)%nat) (HD : Forall (Forall D) gs).
  Lemma gw g : In g gs -> Forall D g. Proof. intros H. rewrite Forall_forall in HD. auto. Qed.
  Lemma gn g : In g gs -> g <> []. Proof. apply (g_ne d gs Hg). Qed.
  Lemma T_nclus : nclus (map TG gs) = nclus gs. Proof. unfold nclus. now rewrite map_length. Qed.
  Lemma T_concat : concat (map TG gs) = TG (concat gs). Proof. unfold TG. now rewrite concat_map. Qed.
  Lemma T_nsamp : nsamp (map TG gs) = nsamp gs.
  Proof. unfold nsamp. rewrite T_concat. unfold TG. now rewrite map_length. Qed.
  Lemma T_wgss : wgss d' (map TG gs) = q * wgss d gs.
  Proof. unfold wgss. rewrite map_map, <- rsum_map_scal. apply rsum_map_ext. intros g H. apply T_scatter; [now apply gw|now apply gn]. Qed.
  Lemma c_wf : Forall D (concat gs). Proof. apply Forall_concat. exact HD. Qed.
  Lemma c_ne : concat gs <> []. Proof. apply concat_ne; [now apply (gs_ne d gs Hg Hk)|apply Hg]. Qed.
  Lemma T_bgss : bgss d' (map TG gs) = q * bgss d gs.
  Proof.
    unfold bgss. rewrite map_map, T_concat, <- rsum_map_scal. apply rsum_map_ext. intros g H.
    unfold TG. rewrite map_length, !T_cen by auto using c_wf, c_ne, gw, gn. rewrite T_dist by auto using D_cen, c_wf, c_ne, gw, gn. ring.
  Qed.
  Lemma T_tss : tss d' (map TG gs) = q * tss d gs.
  Proof. unfold tss. rewrite T_concat. apply T_scatter; [apply c_wf|apply c_ne]. Qed.
  Lemma T_maxmse : rmax (map (mse d') (map TG gs)) = q * rmax (map (mse d) gs).
  Proof.
    rewrite <- rmax_scale, !map_map by auto. f_equal. apply map_ext_in. intros g H. apply T_mse; [now apply gw|now apply gn].
  Qed.
  Lemma T_pairs (f f' : list point -> list point -> R) u : 0 < u ->
    (forall g h, In g gs -> In h gs -> f (TG g) (TG h) = u * f' g h) ->
    rmin (map (fun p => f (fst p) (snd p)) (pairs (map TG gs))) = u * rmin (map (fun p => f' (fst p) (snd p)) (pairs gs)).
  Proof.
    intros Hu H. rewrite pairs_map, !map_map, <- rmin_scale, map_map by auto. f_equal. apply map_ext_in. intros [g h] Hp. cbn [fst snd].
    apply pairs_In in Hp as [? ?]. auto.
  Qed.
  Lemma sel_in g r : In (g, r) (selects gs) -> In g gs /\ forall h, In h r -> In h gs.
  Proof.
    intros H. pose proof (selects_In gs g r H) as P. split; [eapply Permutation_in; [symmetry; exact P|now left]|].
    intros h Hh. eapply Permutation_in; [symmetry; exact P|now right].
  Qed.
  Lemma T_beta : PS_beta d' (map TG gs) = q * PS_beta d gs.
  Proof.
    unfold PS_beta. rewrite T_nclus, !map_map.
    assert (Ec : centroid d' (map (fun g => centroid d' (TG g)) gs) = T (centroid d (map (centroid d) gs))).
    { rewrite <- T_cen.
      - f_equal. rewrite map_map. apply map_ext_in. intros g H. apply T_cen; [now apply gw|now apply gn].
      - apply Forall_map, Forall_forall. intros; apply D_cen; auto using gw, gn.
      - intros E. apply map_eq_nil in E. now apply (gs_ne d gs Hg Hk). }
    rewrite Ec. rewrite (rsum_map_ext _ (fun g => q * dist2 (centroid d g) (centroid d (map (centroid d) gs)))).
    - rewrite rsum_map_scal. unfold Rdiv. ring.
    - intros g H. unfold TG. rewrite T_cen by auto using gw, gn. apply T_dist; [now apply D_cen; auto using gw, gn|].
      apply D_cen; [apply Forall_map, Forall_forall; intros; apply D_cen; auto using gw, gn|]. intros E. apply map_eq_nil in E. now apply (gs_ne d gs Hg Hk).
  Qed.
  Lemma T_XVal c : c <> kGD43 -> c <> krCIP -> XVal c d' (map TG gs) = XVal c d gs.
  Proof.
    intros H1 H2. unfold XVal. rewrite map_length. destruct (_ <=? _)%nat; auto.
    assert (W : forall g, In g gs -> Forall D g /\ g <> []) by (split; [now apply gw|now apply gn]).
    destruct c; try congruence.
    - unfold CH_ext. now rewrite T_bgss, T_wgss, T_nclus, T_nsamp, xdiv_scale.
    - unfold WB_ext. now rewrite T_bgss, T_wgss, T_nclus, xdiv_scale.
    - unfold DB_ext. rewrite T_nclus, selects_map, map_map. do 2 f_equal. apply map_ext_in. intros [g r] Hp. cbn [fst snd].
      f_equal. rewrite map_map. destruct (sel_in g r Hp) as [S1 S2]. apply map_ext_in. intros h Hh. destruct (W g S1), (W h (S2 h Hh)).
      rewrite !T_mse, T_cdist by auto. replace (q * mse d g + q * mse d h) with (q * (mse d g + mse d h)) by ring.
      now apply xdiv_scale.
    - unfold XB_ext. rewrite T_wgss, T_nsamp, (T_pairs (cdist d') (cdist d) q Hq).
      + replace (nsamp gs * (q * _)) with (q * (nsamp gs * rmin (map (fun p => cdist d (fst p) (snd p)) (pairs gs)))) by ring.
        now apply xdiv_scale.
      + intros g h A B. destruct (W g A), (W h B). now apply T_cdist.
    - unfold GD53_ext. rewrite T_maxmse, (T_pairs (pooled d') (pooled d) q Hq).
      + replace (2 * (q * rmax (map (mse d) gs))) with (q * (2 * rmax (map (mse d) gs))) by ring. now apply xdiv_scale.
      + intros g h A B. destruct (W g A), (W h B). now apply T_pooled.
    - unfold PS_ext. rewrite T_beta.
      assert (Eq : q * PS_beta d gs = 0 <-> PS_beta d gs = 0).
      { split; intros E; [apply Rmult_integral in E; destruct E; lra|rewrite E; ring]. }
      destruct (Req_EM_T (q * PS_beta d gs) 0) as [E|E], (Req_EM_T (PS_beta d gs) 0) as [E'|E']; auto; try tauto.
      f_equal. unfold PS_formula. rewrite T_beta, selects_map, !map_map. f_equal. apply map_ext_in. intros [g r] Hp. cbn [fst snd].
      destruct (sel_in g r Hp) as [S1 S2]. destruct (W g S1). unfold TG. rewrite map_length. f_equal.
      + f_equal. f_equal. apply map_ext. intros h. now rewrite map_length.
      + f_equal. rewrite map_map. replace (map (fun x => cdist d' (map T g) (map T x)) r) with (map (Rmult q) (map (cdist d g) r)).
        * rewrite rmin_scale by auto. field. split; auto. lra.
        * rewrite map_map. apply map_ext_in. intros h Hh. destruct (W h (S2 h Hh)). symmetry. now apply T_cdist.
    - unfold cSIL_ext. rewrite T_tss, T_nclus.
      assert (Eq : q * tss d gs = 0 <-> tss d gs = 0).
      { split; intros E; [apply Rmult_integral in E; destruct E; lra|rewrite E; ring]. }
      destruct (Req_EM_T (q * tss d gs) 0) as [E|E], (Req_EM_T (tss d gs) 0) as [E'|E']; auto; try tauto.
      do 2 f_equal. rewrite selects_map, map_map. apply map_ext_in. intros [g r] Hp. cbv zeta. cbn [fst snd].
      destruct (sel_in g r Hp) as [S1 S2]. destruct (W g S1). rewrite T_mdist by auto.
      replace (rmin (map (mdist d' (TG g)) (map TG r))) with (q * rmin (map (mdist d g) r)).
      + rewrite Rmax_scale, <- Rmult_minus_distr_l by auto. now apply xdiv_scale.
      + rewrite <- rmin_scale, !map_map by auto. f_equal. apply map_ext_in. intros h Hh. destruct (W h (S2 h Hh)). symmetry. now apply T_mdist.
  Qed.
  (** GD43 is not dimensionless *)
  Lemma T_GD43 : GD43_ext d' (map TG gs) = xmul (Fin (/ sqrt q)) (GD43_ext d gs).
  Proof.
    unfold GD43_ext. rewrite T_maxmse.
    assert (Hs : 0 < sqrt q) by now apply sqrt_lt_R0.
    rewrite (T_pairs (fun g h => sqrt (cdist d' g h)) (fun g h => sqrt (cdist d g h)) (sqrt q) Hs).
    - set (a := rmin _). set (b := rmax _).
      assert (E : q = sqrt q * sqrt q) by (rewrite sqrt_sqrt; lra).
      replace (2 * (q * b)) with (sqrt q * (2 * (sqrt q * b))) by (rewrite E at 3; ring).
      rewrite xdiv_scale by auto. unfold xdiv.
      destruct (Req_EM_T (2 * b) 0) as [Eb|Eb]; destruct (Req_EM_T (2 * (sqrt q * b)) 0) as [Eb'|Eb'].
      + unfold inf_mul at 2. unfold inf_mul at 1. destruct (Req_EM_T a 0); [reflexivity|].
        destruct (Rlt_dec 0 a); cbn [xmul]; [now rewrite inf_mul_pos by (now apply Rinv_0_lt_compat)|].
        now rewrite inf_mul_pos by (now apply Rinv_0_lt_compat).
      + exfalso. apply Eb'. assert (b = 0) by lra. subst b. rewrite H. ring.
      + exfalso. apply Eb. assert (sqrt q * b = 0) by lra. apply Rmult_integral in H as [H|H]; [lra|]. rewrite H. ring.
      + cbn [xmul]. f_equal. field. split; lra.
    - intros g h A B. rewrite T_cdist by auto using gw, gn. apply sqrt_mult; [lra|apply cdist_nonneg].
  Qed.
End Sim.
