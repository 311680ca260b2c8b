(** * Specification: the value of each index on every partition of finite data,
    including the partitions on which the published formula divides by zero.

    Division is that of IEEE 754 on exact reals (XR.v); nothing here mentions
    the model of the code. *)
From Coq Require Import ZArith Reals List Arith.
From Verif Require Import Det Spec XR.
Import ListNotations.
Local Open Scope R_scope.

(** largest element, nan if one is nan *)
Definition xmaxl (l : list xr) : xr := match l with [] => Fin 0 | x :: l' => fold_right xmax x l' end.

Definition CH_ext d gs : xr :=
  xmul (xdiv (Fin (bgss d gs)) (Fin (wgss d gs))) (Fin ((nsamp gs - nclus gs) / (nclus gs - 1))).
Definition WB_ext d gs : xr :=
  xmul (xdiv (Fin (wgss d gs)) (Fin (bgss d gs))) (Fin (nclus gs)).
Definition DB_ext d gs : xr :=
  xdiv (xsum (map (fun p => xmaxl (map (fun h => xdiv (Fin (mse d (fst p) + mse d h)) (Fin (cdist d (fst p) h)))
                                       (snd p))) (selects gs)))
       (Fin (nclus gs)).
Definition XB_ext d gs : xr :=
  xdiv (Fin (wgss d gs)) (Fin (nsamp gs * rmin (map (fun p => cdist d (fst p) (snd p)) (pairs gs)))).
Definition GD43_ext d gs : xr :=
  xdiv (Fin (rmin (map (fun p => sqrt (cdist d (fst p) (snd p))) (pairs gs))))
       (Fin (2 * rmax (map (mse d) gs))).
Definition pooled d (g h : list point) : R :=
  (scatter d g + scatter d h) / (INR (length g) + INR (length h)).
Definition GD53_ext d gs : xr :=
  xdiv (Fin (rmin (map (fun p => pooled d (fst p) (snd p)) (pairs gs))))
       (Fin (2 * rmax (map (mse d) gs))).
(** all centroids coincide: 0/0 *)
Definition PS_ext d gs : xr := if Req_EM_T (PS_beta d gs) 0 then NaN else Fin (PS_formula d gs).
Definition rCIP_ext d gs : xr := Fin (rCIP_formula d gs).
(** all samples equal: the array of mean distances is zero and the value is 0 *)
Definition cSIL_ext d gs : xr :=
  if Req_EM_T (tss d gs) 0 then Fin 0
  else xdiv (xsum (map (fun p => let a := mdist d (fst p) (fst p) in
                                 let b := rmin (map (mdist d (fst p)) (snd p)) in
                                 xdiv (Fin (b - a)) (Fin (Rmax a b))) (selects gs)))
            (Fin (nclus gs)).

(** ** What cSIL returns on a stream

    cSIL's incremental update does not compute the mean distances [mdist]: two
    inner products are wrong.  [sil_entry] says what it stores instead for the
    samples labelled [la] and the centroid of those labelled [lb]: the mean
    distance plus an error that depends on the last sample [x] that got one of
    the two labels.  No error if its label was [lb]; if its label was [la] the
    error is  x.v  for a cluster of one sample and  -2 x.v / n  for a cluster of
    [n] samples, [v] being the centroid of [lb]. *)
Definition inner (x y : point) : R := rsum (map (fun p => fst p * snd p) (combine x y)).
Definition sil_entry (d : nat) (s : data) (la lb : Z) : R :=
  mdist d (cluster s lb) (cluster s la) +
  (if Z.eqb la lb then 0
   else match rev (filter (fun p => Z.eqb (snd p) la || Z.eqb (snd p) lb)%bool s) with
        | (x, l) :: _ =>
            if Z.eqb l la
            then (if length (cluster s la) =? 1 then 1 else - 2 / INR (length (cluster s la)))
                 * inner x (centroid d (cluster s lb))
            else 0
        | [] => 0
        end).
(** the silhouette computed from a table [E] of mean distances *)
Definition sil_value {X} (E : X -> X -> R) (ls : list X) : xr :=
  if forallb (fun a => forallb (fun b => if Req_EM_T (E a b) 0 then true else false) ls) ls then Fin 0
  else xdiv (xsum (map (fun p => let a := E (fst p) (fst p) in
                                 let b := rmin (map (fun l => E l (fst p)) (snd p)) in
                                 xdiv (Fin (b - a)) (Fin (Rmax a b))) (selects ls)))
            (Fin (INR (length ls))).
Definition cSIL_stream_ext (d : nat) (s : data) : xr :=
  if length (distinct s) <=? 1 then Fin 0 else sil_value (sil_entry d s) (distinct s).
