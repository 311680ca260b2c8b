(** * Specification: labelled data sets, their clusters and the published
    formulas of the indices, over plain real numbers.

    Nothing here mentions the model of the code. *)
From Coq Require Import ZArith Reals List Arith Bool.
From Verif Require Import Det.
Import ListNotations.
Local Open Scope R_scope.

(** ** Finite sums, minima, maxima *)
Definition rsum (l : list R) : R := fold_right Rplus 0 l.
(** smallest / largest element of a non-empty list (0 for the empty list) *)
Definition rmin (l : list R) : R :=
  match l with [] => 0 | x :: l' => fold_right Rmin x l' end.
Definition rmax (l : list R) : R :=
  match l with [] => 0 | x :: l' => fold_right Rmax x l' end.

(** all unordered pairs of elements at two different positions *)
Fixpoint pairs {X} (l : list X) : list (X * X) :=
  match l with [] => [] | x :: l' => map (fun y => (x, y)) l' ++ pairs l' end.
(** every element together with the list of all the others *)
Fixpoint selects {X} (l : list X) : list (X * list X) :=
  match l with
  | [] => []
  | x :: l' => (x, l') :: map (fun p => (fst p, x :: snd p)) (selects l')
  end.

(** ** Labelled data *)
Definition point := list R.
Definition data := list (point * Z).
(** all samples have [d] features *)
Definition wf (d : nat) (s : data) : Prop := Forall (fun p => length (fst p) = d) s.
Definition points (s : data) : list point := map fst s.
Definition labels (s : data) : list Z := map snd s.
(** the samples carrying label [l] *)
Definition cluster (s : data) (l : Z) : list point :=
  map fst (filter (fun p => Z.eqb (snd p) l) s).
(** the distinct labels, and the clusters they define *)
Definition distinct (s : data) : list Z := nodup Z.eq_dec (labels s).
Definition clusters (s : data) : list (list point) := map (cluster s) (distinct s).
(** the labels used are exactly 0, 1, ..., k-1 *)
Definition exact_labels (s : data) (k : nat) : Prop :=
  forall z, In z (labels s) <-> (0 <= z < Z.of_nat k)%Z.

(** ** Geometry *)
Definition dist2 (x y : point) : R :=
  rsum (map (fun p => (fst p - snd p) * (fst p - snd p)) (combine x y)).
(** mean of a set of points with [d] features *)
Definition centroid (d : nat) (g : list point) : point :=
  map (fun j => rsum (map (fun x => nth j x 0) g) / INR (length g)) (seq 0 d).
(** sum of squared distances to the centroid, and its mean *)
Definition scatter (d : nat) (g : list point) : R :=
  rsum (map (fun x => dist2 x (centroid d g)) g).
Definition mse (d : nat) (g : list point) : R := scatter d g / INR (length g).
(** squared distance of two centroids *)
Definition cdist (d : nat) (g h : list point) : R := dist2 (centroid d g) (centroid d h).

(** ** Quantities of a partition [gs] *)
Definition nclus (gs : list (list point)) : R := INR (length gs).
Definition nsamp (gs : list (list point)) : R := INR (length (concat gs)).
(** within-group, between-group and total sum of squares *)
Definition wgss (d : nat) (gs : list (list point)) : R := rsum (map (scatter d) gs).
Definition bgss (d : nat) (gs : list (list point)) : R :=
  rsum (map (fun g => INR (length g) * dist2 (centroid d g) (centroid d (concat gs))) gs).
Definition tss (d : nat) (gs : list (list point)) : R := scatter d (concat gs).

(** ** The published formulas (Calinski-Harabasz, WB, Davies-Bouldin, Xie-Beni,
    generalised Dunn 43 and 53, partition separation, centroid silhouette,
    representative cross information potential) *)
Definition CH_formula d gs : R :=
  (bgss d gs / (nclus gs - 1)) / (wgss d gs / (nsamp gs - nclus gs)).
Definition WB_formula d gs : R := nclus gs * wgss d gs / bgss d gs.
Definition DB_formula d gs : R :=
  rsum (map (fun p => rmax (map (fun h => (mse d (fst p) + mse d h) / cdist d (fst p) h) (snd p)))
            (selects gs)) / nclus gs.
Definition XB_formula d gs : R :=
  wgss d gs / (nsamp gs * rmin (map (fun p => cdist d (fst p) (snd p)) (pairs gs))).
Definition GD43_formula d gs : R :=
  rmin (map (fun p => sqrt (cdist d (fst p) (snd p))) (pairs gs)) / (2 * rmax (map (mse d) gs)).
Definition GD53_formula d gs : R :=
  rmin (map (fun p => (scatter d (fst p) + scatter d (snd p)) /
                      (INR (length (fst p)) + INR (length (snd p)))) (pairs gs))
  / (2 * rmax (map (mse d) gs)).
(** mean squared distance of the centroids to their mean *)
Definition PS_beta d gs : R :=
  rsum (map (fun g => dist2 (centroid d g) (centroid d (map (centroid d) gs))) gs) / nclus gs.
Definition PS_formula d gs : R :=
  rsum (map (fun p => INR (length (fst p)) / rmax (map (fun g => INR (length g)) gs)
                      - exp (- rmin (map (cdist d (fst p)) (snd p)) / PS_beta d gs))
            (selects gs)).
(** mean squared distance of the points of [h] to the centroid of [g] *)
Definition mdist d (g h : list point) : R :=
  rsum (map (fun x => dist2 x (centroid d g)) h) / INR (length h).
Definition cSIL_formula d gs : R :=
  rsum (map (fun p => let a := mdist d (fst p) (fst p) in
                      let b := rmin (map (mdist d (fst p)) (snd p)) in
                      (b - a) / Rmax a b) (selects gs)) / nclus gs.

(** sample covariance (0 for a single point), regularised by delta * identity *)
Definition covar d (g : list point) (i j : nat) : R :=
  if length g <=? 1 then 0
  else rsum (map (fun x => (nth i x 0 - nth i (centroid d g) 0) * (nth j x 0 - nth j (centroid d g) 0)) g)
       / (INR (length g) - 1).
Definition delta (d : nat) : R := Rpower 10 (- 12 / INR d).
Definition regcov d g i j : R := covar d g i j + (if i =? j then delta d else 0).
Definition Qmat d g h : list (list R) :=
  map (fun i => map (fun j => regcov d g i j + regcov d h i j) (seq 0 d)) (seq 0 d).
(** the quadratic form  (v_g - v_h)' Q^-1 (v_g - v_h) *)
Definition mahal d g h : R :=
  let W := match invR (Qmat d g h) with Some w => w | None => [] end in
  let dv := fun i => nth i (centroid d g) 0 - nth i (centroid d h) 0 in
  sumn d (fun i => sumn d (fun j => dv i * ent W i j * dv j)).
Definition potential d g h : R :=
  / sqrt (Rpower (2 * PI) (INR d)) * / sqrt (detR (Qmat d g h)) * exp (- / 2 * mahal d g h).
Definition rCIP_formula d gs : R :=
  rsum (map (fun p => potential d (fst p) (snd p)) (pairs gs)).

(** ** Moving the data *)
(** the same vector added to every sample *)
Definition translate (t : point) (s : data) : data :=
  map (fun p => (map (fun q => fst q + snd q) (combine (fst p) t), snd p)) s.
(** every sample multiplied by a number *)
Definition rescale (c : R) (s : data) : data := map (fun p => (map (Rmult c) (fst p), snd p)) s.
