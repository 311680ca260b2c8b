(** * The remaining functions of compat/v0.py: C63 (the table of iSIL) and C64
    (the box of a Cluster), and the range check of C52. *)
From Coq Require Import ZArith List Arith Bool Lia.
From Verif Require Import Num NumPy Lists Compat CompatL CompatL4 CompatH.
From Coq Require Import Reals Lra.
From Verif Require Import Det Spec XR SpecX RGeom XLift XEval XInc XRun XPerm XBatch XSil CompatX P_Compat.
Import ListNotations.
Local Open Scope R_scope.
Local Notation length := List.length.

(** ** C63: the entries of the table *)
(** what an entry is meant to be: the mean of the squared distances of the
    samples [ys] of cluster j to the center [c] of cluster i *)
Definition mean_sq (ys : list point) (c : point) : R := rsum (map (fun y => dist2 y c) ys) / INR (length ys).
(** what the object keeps of a cluster: the sum of the squared norms, and the
    sum of the samples *)
Definition norms (ys : list point) : R := rsum (map (fun y => rsum (map (fun a => a * a) y)) ys).
Definition sums (d : nat) (ys : list point) : point := map (fun j => rsum (map (fun y => nth j y 0) ys)) (seq 0 d).
Definition rows (d : nat) (ys : list point) : Prop := Forall (fun y => length y = d) ys.

Lemma norms_sumsq ys : norms ys = sumsq ys.
Proof.
  unfold norms, sumsq. f_equal. apply map_ext. intros y. unfold rdot. f_equal.
  induction y as [|a y IH]; [reflexivity|]. cbn. now rewrite IH.
Qed.
Lemma nth_seq (f : nat -> R) d z j : (j < d)%nat -> nth j (map f (seq 0 d)) z = f j.
Proof.
  intros Hj. rewrite (nth_indep _ z (f 0%nat)) by (rewrite map_length, seq_length; lia). now rewrite map_nth, seq_nth.
Qed.
Lemma sums_gsum d ys : rows d ys -> sums d ys = gsum d ys.
Proof.
  intros H. assert (HL : length (gsum d ys) = d) by (apply gsum_length; exact H).
  apply nth_ext with 0 0.
  - unfold sums. rewrite map_length, seq_length. now symmetry.
  - unfold sums at 1. rewrite map_length, seq_length. intros j Hj. unfold sums.
    rewrite nth_seq by exact Hj.
    clear HL. induction H as [|y ys Hy H IH]; cbn [map gsum fold_right].
    + now rewrite nth_repeat.
    + rewrite rsum_cons, IH. change (fold_right (map2 Rplus) (repeat 0 d) ys) with (gsum d ys).
      pose proof (gsum_length d ys H). rewrite (nth_map2 Rplus _ _ _ 0 0) by (rewrite ?Hy; lia). reflexivity.
Qed.
Lemma spread d ys c : rows d ys -> length c = d ->
  norms ys + INR (length ys) * rdot c c - 2 * rdot c (sums d ys) = rsum (map (fun y => dist2 y c) ys).
Proof.
  intros H Hc. rewrite norms_sumsq, sums_gsum by exact H. rewrite <- (sum_dist d ys c H Hc).
  assert (Es : rdot c (gsum d ys) = rdot (gsum d ys) c).
  { unfold rdot. f_equal. generalize (gsum d ys). clear. intros b. revert b. induction c as [|x c IH]; intros [|y b]; cbn; auto.
    now rewrite IH, Rmult_comm. }
  rewrite Es. ring.
Qed.
Lemma inner_fin a b : length a = length b -> NumPy.inner (A := XR) (fin a) (fin b) = Ok (Fin (rdot a b)).
Proof. intros H. unfold NumPy.inner. unfold fin. rewrite !map_length, H, Nat.eqb_refl. f_equal. apply np_dot_fin. Qed.
Lemma sums_length d ys : length (sums d ys) = d.
Proof. unfold sums. now rewrite map_length, seq_length. Qed.

(** [s_ij_new_cluster]: the sample [x] starts cluster J.  In exact arithmetic
    every entry it computes is the mean it stands for. *)
Theorem C63_new_cluster (d : nat) (x vi : point) (ys : list point) (i j : nat) (J : Z) (old : F XR) :
  length x = d -> length vi = d -> rows d ys -> ys <> [] ->
  let r := s_ij_new_cluster (A := XR) (map Fin x) i j J (length ys) (Fin (norms ys)) (map Fin vi) (map Fin vi) (map Fin (sums d ys)) old in
  (Z.of_nat i <> J -> Z.of_nat j = J -> r = Ok (Fin (mean_sq [x] vi))) /\
  (Z.of_nat i = J -> Z.of_nat j <> J -> r = Ok (Fin (mean_sq ys vi))) /\
  (Z.of_nat i = J -> Z.of_nat j = J -> r = Ok (Fin (mean_sq [x] x))) /\
  (Z.of_nat i <> J -> Z.of_nat j <> J -> r = Ok old).
Proof.
  intros Hx Hv Hy Hn r. unfold r, s_ij_new_cluster. clear r. change (map Fin) with fin.
  assert (E1 : NumPy.inner (A := XR) (fin vi) (fin x) = Ok (Fin (rdot vi x))) by (apply inner_fin; lia).
  assert (E2 : NumPy.inner (A := XR) (fin vi) (fin (sums d ys)) = Ok (Fin (rdot vi (sums d ys)))) by (apply inner_fin; rewrite sums_length; lia).
  assert (L0 : length ys <> 0%nat) by (destruct ys; [congruence|discriminate]).
  assert (N0 : INR (length ys) <> 0) by (now apply not_0_INR).
  repeat split; intros Hi Hj; repeat match goal with
    | H : Z.of_nat _ = J |- _ => apply Z.eqb_eq in H; rewrite H
    | H : Z.of_nat _ <> J |- _ => apply Z.eqb_neq in H; rewrite H end; cbn [negb].
  - rewrite E1. cbn [bindE]. rewrite !norm22_fin. change (f2 (A := XR)) with (Fin 2).
    change (Ok (Fin (rdot x x + rdot vi vi - 2 * rdot vi x)) = Ok (Fin (mean_sq [x] vi))).
    unfold mean_sq. cbn [map length INR]. do 2 f_equal. rewrite rsum_cons. unfold rsum. cbn [fold_right].
    rewrite (dist2_rdot d) by auto. assert (Ec : rdot vi x = rdot x vi).
    { unfold rdot. f_equal. clear. revert x. induction vi as [|a v IH]; intros [|b x]; cbn; auto. now rewrite IH, Rmult_comm. }
    rewrite Ec. field.
  - replace (length ys =? 0)%nat with false by (symmetry; now apply Nat.eqb_neq). rewrite E2. cbn [bindE]. rewrite !norm22_fin, f_of_nat_fin.
    change (f1 (A := XR)) with (Fin 1). change (f2 (A := XR)) with (Fin 2). rewrite fdiv_fin by exact N0.
    change (Ok (Fin (1 / INR (length ys) * (norms ys + INR (length ys) * rdot vi vi - 2 * rdot vi (sums d ys)))) = Ok (Fin (mean_sq ys vi))).
    do 2 f_equal. unfold mean_sq. rewrite <- (spread d ys vi Hy Hv). unfold Rdiv. ring.
  - change (Ok (Fin 0) = Ok (Fin (mean_sq [x] x))). unfold mean_sq. cbn [map length INR]. do 2 f_equal. rewrite rsum_cons. unfold rsum. cbn [fold_right].
    rewrite (dist2_rdot d) by auto. field.
  - reflexivity.
Qed.
Print Assumptions C63_new_cluster.

(** [s_ij_new]: the sample [x] joins cluster J, which held [ys]. *)
Theorem C63_seen_cluster (d : nat) (x vj vi : point) (ys : list point) (i j : nat) (J : Z) (old : F XR) :
  length x = d -> length vi = d -> length vj = d -> rows d ys -> ys <> [] ->
  let r nj := s_ij_new (A := XR) (map Fin x) i j J nj (nj - 1) (Fin (norms ys)) (map Fin vj) (map Fin vi) (map Fin (sums d ys)) old in
  let n := length ys in
  (Z.of_nat i = J -> Z.of_nat j = J -> r (n + 1)%nat = Ok (Fin (mean_sq (ys ++ [x]) vj))) /\
  (Z.of_nat i = J -> Z.of_nat j <> J -> r n = Ok (Fin (mean_sq ys vi))) /\
  (Z.of_nat i <> J -> Z.of_nat j <> J -> r n = Ok old) /\
  (Z.of_nat i <> J -> Z.of_nat j = J ->
   r (n + 1)%nat = Ok (Fin (mean_sq (ys ++ [x]) vi + rsum (map (fun a => a * a) vi) / INR (n + 1)))).
Proof.
  intros Hx Hv Hvj Hy Hn r n. unfold r, s_ij_new. clear r. change (map Fin) with fin.
  assert (E1 : forall c, length c = d -> NumPy.inner (A := XR) (fin c) (fin (sums d ys)) = Ok (Fin (rdot c (sums d ys)))) by (intros c Hc; apply inner_fin; rewrite sums_length; lia).
  assert (E2 : forall c, length c = d -> vsub (A := XR) (fin x) (fin c) = Ok (map2 fsub (fin x) (fin c))).
  { intros c Hc. apply vsub_ok. unfold fin. rewrite !map_length. lia. }
  assert (L0 : n <> 0%nat) by (unfold n; destruct ys; [congruence|discriminate]).
  assert (N0 : INR n <> 0) by (now apply not_0_INR). assert (N1 : INR (n + 1) <> 0) by (apply not_0_INR; lia).
  assert (Es : forall c, length c = d -> rsum (map (fun y => dist2 y c) (ys ++ [x])) = norms ys + INR n * rdot c c - 2 * rdot c (sums d ys) + dist2 x c).
  { intros c Hc. rewrite map_app, rsum_app, <- (spread d ys c Hy Hc). cbn [map]. rewrite rsum_cons. unfold rsum. cbn [fold_right]. unfold n. ring. }
  assert (Em : length (ys ++ [x]) = (n + 1)%nat) by (now rewrite app_length).
  rewrite !E2 by auto. cbn [bindE].
  repeat split; intros Hi Hj; repeat match goal with
    | H : Z.of_nat _ = J |- _ => apply Z.eqb_eq in H; rewrite H
    | H : Z.of_nat _ <> J |- _ => apply Z.eqb_neq in H; rewrite H end; cbn [negb].
  - rewrite E1 by auto. cbn [bindE]. rewrite !norm22_sub, !norm22_fin, !f_of_nat_fin.
    change (f1 (A := XR)) with (Fin 1). change (f2 (A := XR)) with (Fin 2). rewrite fdiv_fin by exact N1. replace (n + 1 - 1)%nat with n by lia.
    change (Ok (Fin (1 / INR (n + 1) * (norms ys + dist2 x vj + INR n * rdot vj vj - 2 * rdot vj (sums d ys)))) = Ok (Fin (mean_sq (ys ++ [x]) vj))).
    do 2 f_equal. unfold mean_sq. rewrite Es, Em by auto. unfold Rdiv. ring.
  - rewrite E1 by auto. cbn [bindE]. rewrite !norm22_fin, !f_of_nat_fin.
    change (f1 (A := XR)) with (Fin 1). change (f2 (A := XR)) with (Fin 2). rewrite fdiv_fin by exact N0.
    change (Ok (Fin (1 / INR n * (norms ys + INR n * rdot vi vi - 2 * rdot vi (sums d ys)))) = Ok (Fin (mean_sq ys vi))).
    do 2 f_equal. unfold mean_sq. rewrite <- (spread d ys vi Hy Hv). fold n. unfold Rdiv. ring.
  - reflexivity.
  - rewrite E1 by auto. cbn [bindE]. rewrite !norm22_sub, !norm22_fin, !f_of_nat_fin.
    change (f1 (A := XR)) with (Fin 1). change (f2 (A := XR)) with (Fin 2). rewrite fdiv_fin by exact N1.
    change (Ok (Fin (1 / INR (n + 1) * (norms ys + dist2 x vi + INR (n + 1) * rdot vi vi - 2 * rdot vi (sums d ys))))
            = Ok (Fin (mean_sq (ys ++ [x]) vi + rsum (map (fun a => a * a) vi) / INR (n + 1)))).
    do 2 f_equal. unfold mean_sq. rewrite Es, Em by auto.
    replace (rsum (map (fun a => a * a) vi)) with (rdot vi vi) by (unfold rdot; f_equal; clear; induction vi as [|a v IH]; cbn; [auto|now rewrite IH]).
    rewrite plus_INR. change (INR 1) with 1. rewrite plus_INR in N1. change (INR 1) with 1 in N1. field. exact N1.
Qed.
Print Assumptions C63_seen_cluster.
(** So the entry for the center of another cluster is too large.  The sample 2
    joins the cluster {0}, the other center is 3: the mean is (9 + 1) / 2 = 5,
    and s_ij_new returns 19/2. *)
Theorem C63_refuted : exists (x vj vi : point) (ys : list point) (r : R),
  s_ij_new (A := XR) (map Fin x) 0 1 1 (length ys + 1) (length ys) (Fin (norms ys)) (map Fin vj) (map Fin vi) (map Fin (sums 1 ys)) (Fin 0) = Ok (Fin r) /\
  vj = centroid 1 (ys ++ [x]) /\ mean_sq (ys ++ [x]) vi = 5 /\ r = 19 / 2.
Proof.
  exists [2], [1], [3], [[0]], (19 / 2).
  destruct (C63_seen_cluster 1 [2] [1] [3] [[0]] 0 1 1 (Fin 0)) as (_ & _ & _ & H); try reflexivity; try discriminate; [repeat constructor|].
  assert (Em : mean_sq ([[0]] ++ [[2]]) [3] = 5) by (unfold mean_sq, dist2; cbn; field).
  split; [|split; [unfold centroid; cbn; f_equal; field|split; [exact Em|reflexivity]]].
  cbn [length Nat.add Nat.sub] in H |- *. rewrite H by (cbn; lia). do 2 f_equal. unfold mean_sq, dist2. cbn. field.
Qed.
Print Assumptions C63_refuted.
(** a case of [C63_new_cluster]: the cluster {0, 2} and a new sample 5 *)
Example C63_case :
  s_ij_new_cluster (A := XR) (map Fin [5]) 1 0 1 2 (Fin (norms [[0]; [2]])) (map Fin [5]) (map Fin [5]) (map Fin (sums 1 [[0]; [2]])) (Fin 0) = Ok (Fin 17).
Proof.
  destruct (C63_new_cluster 1 [5] [5] [[0]; [2]] 1 0 1 (Fin 0)) as (_ & H & _); try reflexivity; try discriminate; [repeat constructor|].
  cbn [length] in H. rewrite H by (cbn; lia). do 2 f_equal. unfold mean_sq, dist2. cbn. field.
Qed.

(** ** C52, C64: the box of a Cluster *)
(** [fle] is <= on numbers *)
Definition is_le (fle : F XR -> F XR -> bool) : Prop := forall a b : R, fle (Fin a) (Fin b) = true <-> a <= b.
Lemma is_le_false fle a b : is_le fle -> b < a -> fle (Fin a) (Fin b) = false.
Proof. intros H Hb. destruct (fle (Fin a) (Fin b)) eqn:Ef; auto. apply H in Ef. lra. Qed.
Definition in_unit (x : point) : Prop := Forall (fun a => 0 <= a <= 1) x.

Lemma unit_dec (x : point) : x <> [] -> rmax x <= 1 -> 0 <= rmin x -> in_unit x.
Proof.
  intros Hx H1 H2. apply Forall_forall. intros a Ha. pose proof (rmax_ge x a Ha). pose proof (rmin_le x a Ha). lra.
Qed.
Lemma unit_max x : x <> [] -> in_unit x -> rmax x <= 1 /\ 0 <= rmin x.
Proof.
  intros Hx H. unfold in_unit in H. rewrite Forall_forall in H. split; [apply (H _ (rmax_In x Hx))|apply (H _ (rmin_In x Hx))].
Qed.
(** A cluster in box mode takes its first point exactly when all entries are in
    [0, 1]; a point with an entry outside raises. *)
Theorem C52_box_range (fle : F XR -> F XR -> bool) (radial : bool) (x : point) (i : option Z) : is_le fle -> x <> [] ->
  let r := cl_step (A := XR) fle (map Fin x, i) (cluster_init radial true) in
  (in_unit x -> snd r = Ok tt /\ cl_points (fst r) = [map Fin x] /\ cl_bb (fst r) = Some (map Fin (x ++ map (fun a => 1 - a) x))) /\
  (~ in_unit x -> snd r = Err AssertionError /\ cl_points (fst r) = [] /\ cl_bb (fst r) = None).
Proof.
  intros Hf Hx r. assert (Hn : fin x <> []) by (destruct x; [congruence|discriminate]).
  assert (Em : np_max (A := XR) (fin x) = Ok (Fin (rmax x))) by (rewrite Eval.np_max_ok by exact Hn; now rewrite vmax_fin).
  assert (En : np_min (A := XR) (fin x) = Ok (Fin (rmin x))) by (rewrite Eval.np_min_ok by exact Hn; now rewrite vmin_fin).
  unfold r, cl_step. cbn [fst snd]. change (map Fin x) with (fin x). unfold add_point, sbind, sget, smod, slift, sret.
  cbn [cluster_init cl_points cl_dim set_cl_dim]. rewrite Nat.eqb_refl. cbn [cl_radial].
  assert (Ec : fin x ++ map (fsub (a := XR) f1) (fin x) = map Fin (x ++ map (fun a => 1 - a) x)).
  { unfold fin. rewrite map_app, !map_map. f_equal. }
  split; intros Hu.
  - destruct (unit_max x Hx Hu) as [U1 U2]. destruct radial; cbn [set_cl_center cl_radial cl_box cl_center]; rewrite Em, En;
      change (f1 (A := XR)) with (Fin 1) in *; change (f0 (A := XR)) with (Fin 0) in *;
      rewrite (proj2 (Hf _ _) U1), (proj2 (Hf _ _) U2); destruct i; cbn; repeat split; auto; exact (f_equal Some Ec).
  - assert (HH : ~ rmax x <= 1 \/ (rmax x <= 1 /\ ~ 0 <= rmin x)).
    { destruct (Rle_dec (rmax x) 1); [right|left; auto]. split; auto. intros H0. apply Hu. now apply unit_dec. }
    destruct radial; cbn [set_cl_center cl_radial cl_box cl_center]; rewrite Em, ?En;
      change (f1 (A := XR)) with (Fin 1) in *; change (f0 (A := XR)) with (Fin 0) in *;
      (destruct HH as [HH|[H1 HH]]; [rewrite (is_le_false fle _ _ Hf) by lra; cbn; auto
        |rewrite (proj2 (Hf _ _) H1), (is_le_false fle _ _ Hf) by lra; cbn; auto]).
Qed.
Print Assumptions C52_box_range.

(** The box of a cluster that holds [p] (it never holds more, C52). *)
Definition boxed (fle : F XR -> F XR -> bool) (radial : bool) (p : point) : Compat.cluster (A := XR) :=
  fst (cl_step (A := XR) fle (map Fin p, None) (cluster_init radial true)).
Lemma boxed_bb fle radial p : is_le fle -> p <> [] -> in_unit p ->
  cl_bb (boxed fle radial p) = Some (map Fin (p ++ map (fun a => 1 - a) p)).
Proof. intros Hf Hp Hu. now apply (C52_box_range fle radial p None Hf Hp). Qed.

(** With two or more features the question raises, for every point. *)
Theorem C64_two_or_more_features (fle : F XR -> F XR -> bool) (radial : bool) (p x : point) :
  is_le fle -> in_unit p -> (2 <= length p)%nat -> length x = length p ->
  within_bounding_box fle (boxed fle radial p) (map Fin x) = Err ValueError.
Proof.
  intros Hf Hu H2 Hx. unfold within_bounding_box. rewrite boxed_bb by (first [assumption | destruct p; [cbn in H2; lia|discriminate]]).
  unfold bc. rewrite !map_length, app_length, map_length.
  replace (length x =? length p + length p)%nat with false by (symmetry; apply Nat.eqb_neq; lia).
  destruct x as [|x1 [|x2 x]]; [cbn in Hx; lia|cbn in Hx; lia|]. destruct p as [|p1 [|p2 p]]; [cbn in H2; lia|cbn in H2; lia|]. reflexivity.
Qed.
Print Assumptions C64_two_or_more_features.

Lemma min_is fle (a b : R) : is_le fle ->
  (fle (fminimum (a := XR) (Fin a) (Fin b)) (Fin b) && fle (Fin b) (fminimum (a := XR) (Fin a) (Fin b)) = true <-> b <= a).
Proof.
  intros Hf. red in Hf. change (fminimum (a := XR) (Fin a) (Fin b)) with (xmin (Fin a) (Fin b)). rewrite xmin_fin, andb_true_iff, !Hf.
  unfold Rmin. destruct (Rle_dec a b); lra.
Qed.
(** With one feature it compares the number with p and with 1 - p; so it is
    false of p itself when p < 1/2. *)
Theorem C64_one_feature (fle : F XR -> F XR -> bool) (radial : bool) (p x : R) : is_le fle -> 0 <= p <= 1 ->
  exists r, within_bounding_box fle (boxed fle radial [p]) [Fin x] = Ok r /\ (r = true <-> p <= x /\ 1 - p <= x).
Proof.
  intros Hf Hp. unfold within_bounding_box. rewrite boxed_bb; [|auto|discriminate|constructor; [exact Hp|constructor]].
  cbn [app map bc length Nat.eqb bindE]. eexists. split; [reflexivity|]. cbn [combine forallb fst snd length Nat.eqb andb].
  rewrite andb_true_r, andb_true_iff, !min_is by exact Hf. reflexivity.
Qed.
Print Assumptions C64_one_feature.
(** Asked about the complement-coded point (x, 1 - x), it is true of p only. *)
Theorem C64_coded (fle : F XR -> F XR -> bool) (radial : bool) (p x : point) :
  is_le fle -> p <> [] -> in_unit p -> length x = length p ->
  exists r, within_bounding_box fle (boxed fle radial p) (map Fin (x ++ map (fun a => 1 - a) x)) = Ok r /\ (r = true <-> x = p).
Proof.
  intros Hf Hp Hu Hx. unfold within_bounding_box. rewrite boxed_bb by auto. unfold bc.
  rewrite !map_length, !app_length, !map_length, Hx, Nat.eqb_refl. cbn [bindE]. eexists. split; [reflexivity|].
  assert (HM : forall a b : point, length a = length b ->
     (forallb (fun q => fle (fst q) (snd q) && fle (snd q) (fst q)) (combine (map2 (fminimum (a := XR)) (map Fin a) (map Fin b)) (map Fin b)) = true
      <-> Forall2 Rle b a)).
  { induction a as [|y a IH]; intros [|z b] HL; cbn in HL; try lia; cbn [map map2 combine forallb fst snd].
    - split; auto.
    - rewrite andb_true_iff, (min_is fle y z Hf), IH by lia. split; [intros []; constructor; auto|intros H; inversion H; auto]. }
  rewrite length_map2, !map_length, !app_length, !map_length, Hx, Nat.min_id, Nat.eqb_refl. cbn [andb].
  rewrite HM by (rewrite !app_length, !map_length; lia). clear HM Hf Hp Hu. split.
  - intros H. apply Forall2_app_inv_l in H as (l1 & l2 & H1 & H2 & Hl).
    assert (EL : l1 = x /\ l2 = map (fun a => 1 - a) x).
    { assert (HP : length p = length l1) by (clear -H1; induction H1; cbn; auto). assert (H : length l1 = length x) by (rewrite <- HP; now symmetry). clear -Hl H.
      revert l1 Hl H. generalize (map (fun a => 1 - a) x). induction x as [|a x IH]; intros m [|b l1] Hl H; cbn in H; try lia; cbn in Hl; auto.
      injection Hl as -> Hl. destruct (IH m l1 Hl) as [-> ->]; auto. }
    destruct EL as [-> ->]. clear Hl. revert p Hx H1 H2. induction x as [|a x IH]; intros [|b p] Hx H1 H2; cbn in Hx; try lia; auto.
    inversion H1; subst. inversion H2; subst. f_equal; [lra|]. apply IH; auto.
  - intros ->. generalize (p ++ map (fun a => 1 - a) p). induction l; constructor; auto. lra.
Qed.
Print Assumptions C64_coded.
(** an empty cluster has an empty box: True of every point with one feature *)
Theorem C64_empty (A : Arith) (fle : F A -> F A -> bool) (radial box : bool) (x : list (F A)) :
  within_bounding_box fle (cluster_init radial box) x = match x with [] | [_] => Ok true | _ => Err ValueError end.
Proof. destruct x as [|a [|b x]]; reflexivity. Qed.
Print Assumptions C64_empty.
(** So a point is in general not within the box of the cluster that holds it. *)
Definition rle (a b : F XR) : bool :=
  match a, b with Fin a, Fin b => if Rle_dec a b then true else false | _, _ => false end.
Lemma rle_ok : is_le rle.
Proof. intros a b. cbn. destruct (Rle_dec a b); split; auto; discriminate. Qed.
Theorem C64_refuted : exists fle : F XR -> F XR -> bool, is_le fle /\ forall radial,
  cl_points (boxed fle radial [/ 4]) = [[Fin (/ 4)]] /\
  within_bounding_box fle (boxed fle radial [/ 4]) [Fin (/ 4)] = Ok false /\
  within_bounding_box fle (boxed fle radial [/ 4; / 2]) [Fin (/ 4); Fin (/ 2)] = Err ValueError.
Proof.
  exists rle. split; [apply rle_ok|]. intros radial. split; [|split].
  - apply (C52_box_range rle radial [/ 4] None rle_ok); [discriminate|repeat constructor; lra].
  - destruct (C64_one_feature rle radial (/ 4) (/ 4) rle_ok) as (r & -> & H); [lra|]. destruct r; auto.
    destruct (proj1 H eq_refl). lra.
  - apply (C64_two_or_more_features rle radial [/ 4; / 2] [/ 4; / 2] rle_ok); auto. repeat constructor; lra.
Qed.
Print Assumptions C64_refuted.
Example C52_box_range_case : snd (cl_step (A := XR) rle ([Fin (/ 4); Fin (- 1)], None) (cluster_init true true)) = Err AssertionError.
Proof.
  apply (C52_box_range rle true [/ 4; - 1] None rle_ok); [discriminate|]. intros H. inversion H; subst. inversion H3; subst. lra.
Qed.
