(** * The between-group sum as a sum over pairs of clusters, and what the smallest
    distance of two centroids says about the other indices. *)
From Coq Require Import ZArith List Arith Bool Lia Permutation.
From Coq Require Import Reals Lra.
From Verif Require Import Det Spec XR SpecX RGeom XLift XEval XRun XPerm XBatch Obs XForm XBounds.
Import ListNotations.
Local Notation length := List.length.
Local Open Scope R_scope.

(** a double sum over all ordered pairs is twice the sum over the unordered ones *)
Lemma double_pairs {X} (f : X -> X -> R) (l : list X) : (forall x, f x x = 0) -> (forall x y, f x y = f y x) ->
  rsum (map (fun x => rsum (map (f x) l)) l) = 2 * rsum (map (fun p => f (fst p) (snd p)) (pairs l)).
Proof.
  intros H0 Hs. induction l as [|x l IH]; [cbn; lra|].
  cbn [map pairs]. rewrite map_app, map_map, rsum_app. cbn [fst snd].
  rewrite !rsum_cons, H0. rewrite (rsum_map_ext (fun y => rsum (f y x :: map (f y) l)) (fun y => f y x + rsum (map (f y) l))) by (intros; apply rsum_cons).
  rewrite rsum_map_plus, IH, (rsum_map_ext (fun y => f y x) (f x)) by auto.
  set (a := rsum (map (f x) l)). set (b := rsum (map (fun p => f (fst p) (snd p)) (pairs l))).
  change (rsum (map (fun x0 => f x x0) l)) with a. lra.
Qed.

(** weighted variance through the differences *)
Lemma weighted_pairs {X} (n v : X -> R) (l : list X) (N mu : R) : N = rsum (map n l) -> N * mu = rsum (map (fun x => n x * v x) l) ->
  N * rsum (map (fun x => n x * ((v x - mu) * (v x - mu))) l) =
  rsum (map (fun p => n (fst p) * n (snd p) * ((v (fst p) - v (snd p)) * (v (fst p) - v (snd p)))) (pairs l)).
Proof.
  intros HN Hm. apply (Rmult_eq_reg_l 2); [|lra].
  rewrite <- (double_pairs (fun x y => n x * n y * ((v x - v y) * (v x - v y)))) by (intros; ring).
  set (S1 := rsum (map (fun x => n x * v x) l)) in *. set (S2 := rsum (map (fun x => n x * (v x * v x)) l)).
  rewrite (rsum_map_ext (fun x => n x * ((v x - mu) * (v x - mu))) (fun x => n x * (v x * v x) + (-2 * mu) * (n x * v x) + (mu * mu) * n x)) by (intros; ring).
  rewrite !rsum_map_plus. rewrite (rsum_map_scal (-2 * mu) (fun x => n x * v x)), (rsum_map_scal (mu * mu) n). fold S1 S2. rewrite <- HN.
  rewrite (rsum_map_ext (fun x => rsum (map (fun y => n x * n y * ((v x - v y) * (v x - v y))) l))
    (fun x => N * (n x * (v x * v x)) + (-2 * S1) * (n x * v x) + S2 * n x)).
  - rewrite !rsum_map_plus. rewrite (rsum_map_scal N (fun x => n x * (v x * v x))), (rsum_map_scal (-2 * S1) (fun x => n x * v x)), (rsum_map_scal S2 n). fold S1 S2. rewrite <- HN, <- Hm. ring.
  - intros x _. rewrite (rsum_map_ext (fun y => n x * n y * ((v x - v y) * (v x - v y)))
      (fun y => (n x * (v x * v x)) * n y + (-2 * (n x * v x)) * (n y * v y) + n x * (n y * (v y * v y)))) by (intros; ring).
    rewrite !rsum_map_plus. rewrite (rsum_map_scal (n x * (v x * v x)) n), (rsum_map_scal (-2 * (n x * v x)) (fun y => n y * v y)), (rsum_map_scal (n x) (fun y => n y * (v y * v y))). fold S1 S2. rewrite <- HN. ring.
Qed.

Section Gs.
  Context (d : nat) (gs : list (list point)).
  Hypotheses (Hg : good d gs) (Hk : (2 <= length gs)%nat).
  Let n (g : list point) := INR (length g).
  Lemma nsamp_sum : nsamp gs = rsum (map n gs).
  Proof.
    unfold nsamp, n. clear. induction gs as [|g l IH]; [reflexivity|]. cbn [concat map]. rewrite app_length, plus_INR, rsum_cons. now rewrite IH.
  Qed.
  Lemma bgss_pairs : nsamp gs * bgss d gs = rsum (map (fun p => n (fst p) * n (snd p) * cdist d (fst p) (snd p)) (pairs gs)).
  Proof.
    unfold bgss, cdist.
    rewrite (rsum_map_ext _ (fun g => rsum (map (fun j => n g * ((co j (centroid d g) - co j (centroid d (concat gs))) * (co j (centroid d g) - co j (centroid d (concat gs))))) (seq 0 d)))).
    - rewrite rsum_swap, <- rsum_map_scal.
      rewrite (rsum_map_ext _ (fun j => rsum (map (fun p => n (fst p) * n (snd p) * ((co j (centroid d (fst p)) - co j (centroid d (snd p))) * (co j (centroid d (fst p)) - co j (centroid d (snd p))))) (pairs gs)))).
      + rewrite rsum_swap. apply rsum_map_ext. intros [g h] Hp. cbn [fst snd]. rewrite (dist2_coords d) by apply centroid_length. apply (rsum_map_scal (n g * n h) (fun j => (co j (centroid d g) - co j (centroid d h)) * (co j (centroid d g) - co j (centroid d h)))).
      + intros j Hj. apply (weighted_pairs n (fun g => co j (centroid d g))); [apply nsamp_sum|].
        assert (Hc : concat gs <> []) by (apply concat_ne; [intros E; rewrite E in Hk; cbn in Hk; lia|apply Hg]).
        unfold nsamp. rewrite <- rsum_centroid by (auto; apply in_seq in Hj; lia). rewrite rsum_concat. apply rsum_map_ext.
        intros g Hi. apply rsum_centroid; [|apply in_seq in Hj; lia]. destruct Hg as [_ B]. rewrite Forall_forall in B. now apply B.
    - intros g Hi. rewrite (dist2_coords d) by apply centroid_length. fold (n g). symmetry. apply rsum_map_scal.
  Qed.
  (** the products of the sizes of two clusters *)
  Definition size_products : R := rsum (map (fun p => n (fst p) * n (snd p)) (pairs gs)).
  Lemma size_products_pos : 0 < size_products.
  Proof.
    unfold size_products. apply rsum_pos; [|intros E; apply map_eq_nil in E; now apply (pairs_ne gs) in E].
    apply Forall_forall. intros z Hz. apply in_map_iff in Hz as ([g h] & <- & Hz). apply pairs_In in Hz as [A B].
    destruct Hg as [_ HB]. rewrite Forall_forall in HB. cbn. apply Rmult_lt_0_compat; apply INR_pos; auto.
  Qed.
  Let D := rmin (map (fun p => cdist d (fst p) (snd p)) (pairs gs)).
  Lemma bgss_ge : size_products * D <= nsamp gs * bgss d gs.
  Proof.
    rewrite bgss_pairs. unfold size_products. rewrite Rmult_comm, <- rsum_map_scal. apply rsum_map_le. intros [g h] Hp. cbn [fst snd].
    rewrite Rmult_comm. apply Rmult_le_compat_l; [apply Rmult_le_pos; apply pos_INR|]. apply rmin_le. apply in_map_iff. now exists (g, h).
  Qed.
  (** the cluster of largest mean squared distance, against the smallest cluster *)
  Let m := rmin (map n gs).
  Lemma smallest_pos : 0 < m.
  Proof.
    apply rmin_pos; [intros E; apply map_eq_nil in E; rewrite E in Hk; cbn in Hk; lia|]. apply Forall_forall. intros z Hz.
    apply in_map_iff in Hz as (g & <- & Hz). destruct Hg as [_ HB]. rewrite Forall_forall in HB. apply INR_pos. auto.
  Qed.
  Lemma mse_le_wgss g : In g gs -> m * mse d g <= wgss d gs.
  Proof.
    intros Hi. assert (Pn : 0 < n g). { destruct Hg as [_ HB]. rewrite Forall_forall in HB. apply INR_pos. auto. }
    apply Rle_trans with (n g * mse d g).
    - apply Rmult_le_compat_r; [apply mse_nonneg|]. apply rmin_le. now apply in_map.
    - unfold mse. fold (n g). replace (n g * (scatter d g / n g)) with (scatter d g) by (field; lra).
      unfold wgss. apply in_split in Hi as (l1 & l2 & ->). rewrite map_app, rsum_app. cbn [map]. rewrite rsum_cons.
      pose proof (rsum_map_nonneg (scatter d) l1 ltac:(intros; apply scatter_nonneg)).
      pose proof (rsum_map_nonneg (scatter d) l2 ltac:(intros; apply scatter_nonneg)). lra.
  Qed.
  (** two different clusters together *)
  Lemma mse2_le_wgss g r h : In (g, r) (selects gs) -> In h r -> m * (mse d g + mse d h) <= wgss d gs.
  Proof.
    intros Hs Hh. assert (P := selects_In gs g r Hs). assert (Hi : In g gs) by (eapply Permutation_in; [symmetry; exact P|now left]).
    assert (Hj : In h gs) by (eapply Permutation_in; [symmetry; exact P|now right]).
    assert (Q : forall x, In x gs -> 0 < n x). { intros x Hx. destruct Hg as [_ HB]. rewrite Forall_forall in HB. apply INR_pos. auto. }
    assert (Q2 : forall x, In x gs -> m * mse d x <= scatter d x).
    { intros x Hx. apply Rle_trans with (n x * mse d x); [apply Rmult_le_compat_r; [apply mse_nonneg|apply rmin_le; now apply in_map]|].
      unfold mse. fold (n x). apply Req_le. field. pose proof (Q x Hx). lra. }
    unfold wgss. rewrite (rsum_perm (map (scatter d) gs) (map (scatter d) (g :: r))) by now apply Permutation_map.
    apply in_split in Hh as (l1 & l2 & ->). cbn [map]. rewrite rsum_cons, map_app, rsum_app. cbn [map]. rewrite rsum_cons.
    pose proof (rsum_map_nonneg (scatter d) l1 ltac:(intros; apply scatter_nonneg)).
    pose proof (rsum_map_nonneg (scatter d) l2 ltac:(intros; apply scatter_nonneg)). pose proof (Q2 g Hi). pose proof (Q2 h Hj). lra.
  Qed.
  Lemma DB_le_XB : 0 < D -> m * DB_formula d gs <= nsamp gs * XB_formula d gs.
  Proof.
    intros PD. pose proof smallest_pos as Pm. assert (Pk : 0 < nclus gs) by (unfold nclus; apply INR_pos; intros E; rewrite E in Hk; cbn in Hk; lia).
    assert (Pn : 0 < nsamp gs) by now apply (n_pos d).
    unfold XB_formula. fold D. replace (nsamp gs * (wgss d gs / (nsamp gs * D))) with (wgss d gs / D) by (field; lra).
    unfold DB_formula. apply Rle_trans with (m * (nclus gs * (wgss d gs / (m * D)) / nclus gs)).
    - apply Rmult_le_compat_l; [lra|]. unfold Rdiv at 1 3. apply Rmult_le_compat_r; [apply Rlt_le, Rinv_0_lt_compat, Pk|].
      unfold nclus. rewrite <- (selects_length gs), <- rsum_const. apply rsum_map_le. intros [g r] Hs. cbn [fst snd].
      assert (Nr : map (fun h => (mse d g + mse d h) / cdist d g h) r <> []).
      { intros E. apply map_eq_nil in E. now apply (selects_ne gs g r) in Hs. }
      pose proof (rmax_In _ Nr) as HI. apply in_map_iff in HI as (h & E & Hh). rewrite <- E.
      assert (HD : D <= cdist d g h).
      { destruct (selects_pairs gs g r h Hs Hh) as [Hp|Hp]; [|rewrite cdist_sym]; apply rmin_le; apply in_map_iff; eexists; (split; [|exact Hp]); reflexivity. }
      pose proof (mse2_le_wgss g r h Hs Hh) as HW.
      apply (Rmult_le_reg_r (cdist d g h)); [lra|]. unfold Rdiv at 1. rewrite Rmult_assoc, Rinv_l, Rmult_1_r by lra.
      apply (Rmult_le_reg_l (m * D)); [now apply Rmult_lt_0_compat|].
      replace (m * D * (wgss d gs / (m * D) * cdist d g h)) with (wgss d gs * cdist d g h) by (field; lra).
      replace (m * D * (mse d g + mse d h)) with (m * (mse d g + mse d h) * D) by ring.
      apply Rmult_le_compat; auto; try lra. apply Rmult_le_pos; [lra|]. pose proof (mse_nonneg d g). pose proof (mse_nonneg d h). lra.
    - apply Req_le. field. lra.
  Qed.
End Gs.
