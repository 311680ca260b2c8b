(** * The value of each index is its published formula, off the degenerate data;
    and the complete case analysis on the degenerate data. *)
From Coq Require Import ZArith List Arith Bool Lia Permutation.
From Verif Require Import Num Base GetCvi.
From Coq Require Import Reals Lra.
From Verif Require Import Det Spec XR SpecX RGeom XLift XEval XInc XRun XPerm XBatch Obs.
Import ListNotations.
Local Open Scope R_scope.

(** ** Pairs of different clusters *)
Lemma pairs_two {X} (l : list X) x y : In (x, y) (pairs l) -> exists l1 l2 l3, l = l1 ++ x :: l2 ++ y :: l3.
Proof.
  induction l as [|z l IH]; simpl; [tauto|]. intros H. apply in_app_or in H as [H|H].
  - apply in_map_iff in H as (w & E & Hw). inversion E; subst. apply in_split in Hw as (l2 & l3 & ->). now exists [], l2, l3.
  - destruct (IH H) as (l1 & l2 & l3 & ->). now exists (z :: l1), l2, l3.
Qed.
Lemma pairs_two' {X} (l : list X) l1 x l2 y l3 : l = l1 ++ x :: l2 ++ y :: l3 -> In (x, y) (pairs l).
Proof.
  revert l; induction l1 as [|z l1 IH]; intros l ->; simpl; apply in_or_app.
  - left. apply in_map_iff. exists y. split; auto. apply in_or_app; right; now left.
  - right. now apply IH.
Qed.
Lemma NoDup_pairs {X Y} (f : X -> Y) l : NoDup (map f l) <-> (forall x y, In (x, y) (pairs l) -> f x <> f y).
Proof.
  induction l as [|z l IH]; simpl.
  - split; [tauto|constructor].
  - rewrite NoDup_cons_iff, IH. split.
    + intros [H1 H2] x y H. apply in_app_or in H as [H|H]; auto.
      apply in_map_iff in H as (w & E & Hw). inversion E; subst. intros E'. apply H1. rewrite E'. now apply in_map.
    + intros H. split.
      * intros Hi. apply in_map_iff in Hi as (w & E & Hw). apply (H z w); auto. apply in_or_app; left. now apply in_map.
      * intros x y Hxy. apply H. apply in_or_app; now right.
Qed.
Lemma selects_pairs {X} (l : list X) x r y : In (x, r) (selects l) -> In y r -> In (x, y) (pairs l) \/ In (y, x) (pairs l).
Proof.
  revert x r; induction l as [|z l IH]; intros x r; simpl; [tauto|]. intros [E|H] Hy.
  - inversion E; subst. left. apply in_or_app; left. now apply in_map.
  - apply in_map_iff in H as ([x' r'] & E & H). inversion E; subst. cbn in *.
    destruct Hy as [<-|Hy].
    + right. apply in_or_app; left. apply in_map. apply selects_In in H. eapply Permutation_in; [symmetry; exact H|now left].
    + destruct (IH _ _ H Hy); [left|right]; apply in_or_app; now right.
Qed.
Lemma pairs_selects {X} (l : list X) x y : In (x, y) (pairs l) -> exists r, In (x, r) (selects l) /\ In y r.
Proof.
  induction l as [|z l IH]; simpl; [tauto|]. intros H. apply in_app_or in H as [H|H].
  - apply in_map_iff in H as (w & E & Hw). inversion E; subst. exists l. auto.
  - destruct (IH H) as (r & Hr & Hy). exists (z :: r). split; [|now right]. right. apply in_map_iff. now exists (x, r).
Qed.
Lemma pairs_swap_selects {X} (l : list X) x y : In (x, y) (pairs l) -> exists r, In (y, r) (selects l) /\ In x r.
Proof.
  induction l as [|z l IH]; simpl; [tauto|]. intros H. apply in_app_or in H as [H|H].
  - apply in_map_iff in H as (w & E & Hw). inversion E; subst.
    assert (Hs : exists r, In (y, r) (selects l)).
    { assert (Hi : In y (map fst (selects l))) by now rewrite selects_fst. apply in_map_iff in Hi as ([a r] & <- & Hi). now exists r. }
    destruct Hs as (r & Hr). exists (x :: r). split; [|now left]. right. apply in_map_iff. now exists (y, r).
  - destruct (IH H) as (r & Hr & Hy). exists (z :: r). split; [|now right]. right. apply in_map_iff. now exists (y, r).
Qed.

(** ** Degenerate data *)
Section G.
  Context (d : nat) (gs : list (list point)).
  Hypotheses (Hg : good d gs) (Hk : (2 <= length gs)%nat).

  Lemma k_gt : 1 < nclus gs.
  Proof. unfold nclus. change 1 with (INR 1). apply lt_INR. lia. Qed.
  Lemma gs_ne : gs <> []. Proof. intros ->. simpl in Hk. lia. Qed.
  Lemma some_in : exists g, In g gs.
  Proof. pose proof gs_ne. destruct gs as [|g l]; [congruence|]. exists g. now left. Qed.
  Lemma g_wf g : In g gs -> wfg d g. Proof. intros H. destruct Hg as [A B]. rewrite Forall_forall in A, B. auto. Qed.
  Lemma g_ne g : In g gs -> g <> []. Proof. intros H. destruct Hg as [A B]. rewrite Forall_forall in A, B. auto. Qed.
  Lemma n_pos : 0 < nsamp gs.
  Proof. unfold nsamp. apply INR_pos. apply concat_ne; [apply gs_ne|]. apply Hg. Qed.
  Lemma n_ge_k : nclus gs <= nsamp gs.
  Proof.
    unfold nclus, nsamp. apply le_INR. destruct Hg as [_ B]. clear -B. induction B as [|g l Hg B IH]; simpl; [lia|].
    rewrite app_length. destruct g; [congruence|simpl; lia].
  Qed.
  (** as many samples as clusters: all clusters are singletons *)
  Lemma n_eq_k : nclus gs = nsamp gs <-> Forall (fun g => length g = 1%nat) gs.
  Proof.
    unfold nclus, nsamp. split.
    - intros E. apply INR_eq in E. destruct Hg as [_ B]. clear Hg Hk.
      assert (HL : forall l : list (list point), Forall (fun g => g <> []) l -> (length l <= length (concat l))%nat).
      { clear. induction 1 as [|g l Hg B IH]; simpl; [lia|]. rewrite app_length. destruct g; [congruence|simpl; lia]. }
      induction B as [|g l Hg B IH]; constructor; simpl in E; rewrite app_length in E; specialize (HL l B);
        destruct g; try congruence; simpl in *; [lia|]. apply IH. lia.
    - intros H. f_equal. clear Hg Hk. induction H; simpl; auto. rewrite app_length. lia.
  Qed.
  Lemma wgss_zero : wgss d gs = 0 <-> (forall g x, In g gs -> In x g -> x = centroid d g).
  Proof.
    unfold wgss. split.
    - intros E g x Hgi Hx.
      assert (H0 : scatter d g = 0). { apply (rsum_map_zero (scatter d) gs); auto. intros; apply scatter_nonneg. }
      revert Hx. apply scatter_zero; auto. now apply g_wf.
    - intros H. rewrite (rsum_map_ext _ (fun _ => 0)); [rewrite rsum_const; ring|].
      intros g Hgi. apply scatter_zero; [now apply g_wf|]. auto.
  Qed.
  Lemma singles_wgss : nclus gs = nsamp gs -> wgss d gs = 0.
  Proof.
    intros E. apply n_eq_k in E. rewrite Forall_forall in E. apply wgss_zero. intros g x Hgi Hx.
    specialize (E g Hgi). destruct g as [|y [|z g]]; simpl in E; try lia. destruct Hx as [->|[]].
    symmetry. apply centroid_single. pose proof (g_wf _ Hgi) as W. now inversion W.
  Qed.
  Lemma cdist_zero g h : cdist d g h = 0 <-> centroid d g = centroid d h.
  Proof. unfold cdist. apply dist2_zero. now rewrite !centroid_length. Qed.
  Lemma bgss_zero : bgss d gs = 0 <-> (forall g h, In g gs -> In h gs -> centroid d g = centroid d h).
  Proof.
    assert (Hnn : forall g, In g gs -> 0 <= INR (length g) * dist2 (centroid d g) (centroid d (concat gs))).
    { intros g Hgi. apply Rmult_le_pos; [apply pos_INR|apply dist2_nonneg]. }
    unfold bgss. split.
    - intros E. assert (H : forall g, In g gs -> centroid d g = centroid d (concat gs)).
      { intros g Hgi. pose proof (rsum_map_zero _ gs Hnn E g Hgi) as H0. cbn beta in H0.
        pose proof (INR_pos g (g_ne g Hgi)). apply Rmult_integral in H0 as [H0|H0]; [lra|].
        apply dist2_zero in H0; auto. now rewrite !centroid_length. }
      intros g h Hgi Hh. now rewrite (H g), (H h).
    - intros H. (* the grand mean is then the common centroid *)
      destruct some_in as (g0 & H0).
      assert (Ec : centroid d (concat gs) = centroid d g0).
      { apply (point_ext d); auto using centroid_length. intros j Hj. rewrite co_centroid by auto.
        assert (Es : rsum (map (co j) (concat gs)) = INR (length (concat gs)) * co j (centroid d g0)).
        { rewrite rsum_concat.
          assert (Ei : INR (length (concat gs)) = rsum (map (fun g => INR (length g)) gs)).
          { clear. induction gs as [|g l IH]; cbn [concat map]; [reflexivity|]. now rewrite app_length, plus_INR, rsum_cons, IH. }
          rewrite Ei, Rmult_comm, <- rsum_map_scal. apply rsum_map_ext. intros g Hgi.
          rewrite (rsum_centroid d) by (auto using g_ne). rewrite (H g g0) by auto. ring. }
        rewrite Es. field. assert (P := n_pos). unfold nsamp in P. lra. }
      rewrite (rsum_map_ext _ (fun _ => 0)); [rewrite rsum_const; ring|].
      intros g Hgi. rewrite Ec, (H g g0) by auto. rewrite dist2_refl. ring.
  Qed.
  Lemma pairs_ne' : pairs gs <> []. Proof. now apply pairs_ne. Qed.
  Lemma mindist_nonneg : 0 <= rmin (map (fun p => cdist d (fst p) (snd p)) (pairs gs)).
  Proof. apply rmin_nonneg, Forall_map, Forall_forall. intros; apply cdist_nonneg. Qed.
  Lemma mindist_pos : 0 < rmin (map (fun p => cdist d (fst p) (snd p)) (pairs gs)) <-> NoDup (map (centroid d) gs).
  Proof.
    rewrite NoDup_pairs, rmin_pos, Forall_forall.
    - split.
      + intros H x y Hp E. apply cdist_zero in E. specialize (H (cdist d x y)). rewrite E in H.
        specialize (H ltac:(apply in_map_iff; exists (x, y); auto)). lra.
      + intros H u Hu. apply in_map_iff in Hu as ([x y] & <- & Hp). cbn [fst snd].
        pose proof (cdist_nonneg d x y). destruct (Req_dec (cdist d x y) 0) as [E|E]; [|lra].
        apply cdist_zero in E. exfalso. exact (H x y Hp E).
    - intros E. apply map_eq_nil in E. now apply pairs_ne'.
  Qed.
  Lemma mse_zero g : In g gs -> (mse d g = 0 <-> forall x, In x g -> x = centroid d g).
  Proof.
    intros Hgi. pose proof (INR_pos g (g_ne g Hgi)). rewrite <- scatter_zero by now apply g_wf.
    unfold mse, Rdiv. split; intros E.
    - apply Rmult_integral in E as [E|E]; auto. exfalso. apply Rinv_neq_0_compat in E; auto. lra.
    - rewrite E. ring.
  Qed.
  Lemma maxmse_nonneg : 0 <= rmax (map (mse d) gs).
  Proof. apply rmax_nonneg, Forall_map, Forall_forall. intros; apply mse_nonneg. Qed.
  Lemma maxmse_zero : rmax (map (mse d) gs) = 0 <-> wgss d gs = 0.
  Proof.
    rewrite wgss_zero. split.
    - intros E g x Hgi Hx. apply rmax_zero in E; [|apply Forall_map, Forall_forall; intros; apply mse_nonneg].
      rewrite Forall_map, Forall_forall in E. revert x Hx. apply (mse_zero g); auto.
    - intros H. apply rmax_unique.
      + destruct some_in as (g & Hgi). rewrite <- (proj2 (mse_zero g Hgi) (fun x Hx => H g x Hgi Hx)). now apply in_map.
      + intros y Hy. apply in_map_iff in Hy as (g & <- & Hgi). apply Req_le. apply mse_zero; auto.
  Qed.
  Lemma beta_nonneg : 0 <= PS_beta d gs.
  Proof.
    unfold PS_beta. pose proof k_gt. apply Rmult_le_pos; [|apply Rlt_le, Rinv_0_lt_compat; lra].
    apply rsum_map_nonneg. intros; apply dist2_nonneg.
  Qed.
  Lemma beta_zero : PS_beta d gs = 0 <-> (forall g h, In g gs -> In h gs -> centroid d g = centroid d h).
  Proof.
    unfold PS_beta. pose proof k_gt as K. set (c := centroid d (map (centroid d) gs)). split.
    - intros E. unfold Rdiv in E. apply Rmult_integral in E as [E|E]; [|apply Rinv_neq_0_compat in E; lra].
      assert (H : forall g, In g gs -> centroid d g = c).
      { intros g Hgi. pose proof (rsum_map_zero _ gs (fun g _ => dist2_nonneg _ _) E g Hgi) as H0. cbn beta in H0.
        apply dist2_zero in H0; auto. unfold c. now rewrite !centroid_length. }
      intros g h Hgi Hh. now rewrite (H g), (H h).
    - intros H. assert (Hc : forall g, In g gs -> centroid d g = c).
      { intros g Hgi. unfold c. apply (point_ext d); auto using centroid_length. intros j Hj. rewrite (co_centroid d (map _ gs)) by auto.
        rewrite map_length, map_map. rewrite (rsum_map_ext _ (fun _ => co j (centroid d g))).
        - rewrite rsum_const. unfold nclus in K. field. lra.
        - intros h Hh. now rewrite (H h g). }
      rewrite (rsum_map_ext _ (fun _ => 0)); [rewrite rsum_const; field; lra|].
      intros g Hgi. rewrite <- (Hc g Hgi). apply dist2_refl.
  Qed.

  (** ** The formulas *)
  Lemma CH_form : wgss d gs <> 0 -> CH_ext d gs = Fin (CH_formula d gs).
  Proof.
    intros H. unfold CH_ext, CH_formula. rewrite xdiv_fin by auto. cbn [xmul]. f_equal.
    pose proof k_gt. assert (nsamp gs - nclus gs <> 0). { intros E. apply H, singles_wgss. lra. }
    field. repeat split; auto; lra.
  Qed.
  Lemma WB_form : bgss d gs <> 0 -> WB_ext d gs = Fin (WB_formula d gs).
  Proof. intros H. unfold WB_ext, WB_formula. rewrite xdiv_fin by auto. cbn [xmul]. f_equal. field. auto. Qed.
  Lemma DB_form : NoDup (map (centroid d) gs) -> DB_ext d gs = Fin (DB_formula d gs).
  Proof.
    intros H. unfold DB_ext, DB_formula. pose proof k_gt.
    rewrite (map_ext_in _ (fun p => Fin (rmax (map (fun h => (mse d (fst p) + mse d h) / cdist d (fst p) h) (snd p))))).
    - rewrite <- (map_map (fun p => rmax (map (fun h => (mse d (fst p) + mse d h) / cdist d (fst p) h) (snd p))) Fin).
      rewrite xsum_fin, xdiv_fin by lra. reflexivity.
    - intros [g r] Hp. cbn [fst snd]. rewrite <- xmaxl_fin, map_map. f_equal. apply map_ext_in. intros h Hh.
      apply xdiv_fin. intros E. apply cdist_zero in E. rewrite NoDup_pairs in H.
      destruct (selects_pairs gs g r h Hp Hh) as [K|K]; apply H in K; congruence.
  Qed.
  Lemma XB_form : NoDup (map (centroid d) gs) -> XB_ext d gs = Fin (XB_formula d gs).
  Proof.
    intros H. unfold XB_ext, XB_formula. apply xdiv_fin. apply mindist_pos in H. pose proof n_pos.
    apply Rmult_integral_contrapositive; split; lra.
  Qed.
  Lemma GD43_form : rmax (map (mse d) gs) <> 0 -> GD43_ext d gs = Fin (GD43_formula d gs).
  Proof. intros H. apply xdiv_fin. lra. Qed.
  Lemma GD53_form : rmax (map (mse d) gs) <> 0 -> GD53_ext d gs = Fin (GD53_formula d gs).
  Proof. intros H. apply xdiv_fin. lra. Qed.
  Lemma PS_form : ~ (forall g h, In g gs -> In h gs -> centroid d g = centroid d h) -> PS_ext d gs = Fin (PS_formula d gs).
  Proof. intros H. unfold PS_ext. destruct (Req_EM_T (PS_beta d gs) 0) as [E|]; auto. exfalso. exact (H (proj1 beta_zero E)). Qed.
  Lemma mdist_self g : mdist d g g = mse d g.
  Proof. reflexivity. Qed.
  Lemma mdist_nn g h : 0 <= mdist d g h.
  Proof. apply mdist_nonneg. Qed.
  (** a cluster with a_i = b_i = 0 *)
  Definition sil_undefined : Prop := exists g r, In (g, r) (selects gs) /\
    mdist d g g = 0 /\ rmin (map (mdist d g) r) = 0.
  Lemma sil_b_nonneg g r : 0 <= rmin (map (mdist d g) r).
  Proof. apply rmin_nonneg, Forall_map, Forall_forall. intros; apply mdist_nn. Qed.
  Lemma cSIL_form : ~ sil_undefined -> cSIL_ext d gs = Fin (cSIL_formula d gs).
  Proof.
    intros H. unfold cSIL_ext, cSIL_formula. pose proof k_gt.
    assert (Hm : forall g r, In (g, r) (selects gs) -> Rmax (mdist d g g) (rmin (map (mdist d g) r)) <> 0).
    { intros g r Hp E. apply H. exists g, r. split; auto. pose proof (mdist_nn g g). pose proof (sil_b_nonneg g r).
      pose proof (Rmax_l (mdist d g g) (rmin (map (mdist d g) r))). pose proof (Rmax_r (mdist d g g) (rmin (map (mdist d g) r))). lra. }
    destruct (Req_EM_T (tss d gs) 0) as [E|E].
    - exfalso. destruct (selects gs) as [|[g r] l] eqn:Es.
      { apply (f_equal (@length _)) in Es. rewrite selects_length in Es. simpl in Es. lia. }
      assert (Hp : In (g, r) (selects gs)) by (rewrite Es; now left). apply (Hm g r); [now left|].
      pose proof (proj1 (tss_zero d gs Hg Hk) E) as T.
      pose proof (selects_In gs g r Hp) as HP. pose proof (selects_ne gs g r Hk Hp) as Hr.
      assert (In g gs) by (eapply Permutation_in; [symmetry; exact HP|now left]).
      rewrite T by auto. replace (rmin (map (mdist d g) r)) with 0; [apply Rmax_left; lra|].
      symmetry. assert (K : In (rmin (map (mdist d g) r)) (map (mdist d g) r)).
      { apply rmin_In. intros K. apply map_eq_nil in K. auto. }
      apply in_map_iff in K as (h & Eh & Hh). rewrite <- Eh. apply T; auto.
      eapply Permutation_in; [symmetry; exact HP|now right].
    - rewrite (map_ext_in _ (fun p => Fin ((rmin (map (mdist d (fst p)) (snd p)) - mdist d (fst p) (fst p)) /
                Rmax (mdist d (fst p) (fst p)) (rmin (map (mdist d (fst p)) (snd p)))))).
      + rewrite <- (map_map (fun p => (rmin (map (mdist d (fst p)) (snd p)) - mdist d (fst p) (fst p)) /
                Rmax (mdist d (fst p) (fst p)) (rmin (map (mdist d (fst p)) (snd p)))) Fin).
        rewrite xsum_fin, xdiv_fin by lra. reflexivity.
      + intros [g r] Hp. cbv zeta. cbn [fst snd]. apply xdiv_fin. now apply Hm.
  Qed.
End G.
