(** * Specification: other ways of changing the data.

    Nothing here mentions the model of the code. *)
From Coq Require Import ZArith Reals List Arith Bool.
From Verif Require Import Det Spec.
Import ListNotations.
Local Open Scope R_scope.

(** the product of an array (a list of rows) and a point *)
Definition mat_vec (q : list (list R)) (x : point) : point :=
  map (fun r => rsum (map (fun p => fst p * snd p) (combine r x))) q.
(** a d x d array whose rows are orthonormal and whose columns are orthonormal:
    a rotation or a reflection *)
Definition orthogonal (d : nat) (q : list (list R)) : Prop :=
  length q = d /\ Forall (fun r => length r = d) q /\
  (forall i j, (i < d)%nat -> (j < d)%nat -> sumn d (fun k => ent q i k * ent q j k) = if (i =? j)%nat then 1 else 0) /\
  (forall i j, (i < d)%nat -> (j < d)%nat -> sumn d (fun k => ent q k i * ent q k j) = if (i =? j)%nat then 1 else 0).
(** every sample multiplied by the array *)
Definition rotate (q : list (list R)) (s : data) : data := map (fun p => (mat_vec q (fst p), snd p)) s.
(** the features listed in another order: feature [i] becomes the old feature [nth i f] *)
Definition reorder (f : list nat) (s : data) : data := map (fun p => (map (fun j => nth j (fst p) 0) f, snd p)) s.
(** every sample given [m] times in a row *)
Definition repeated (m : nat) (s : data) : data := flat_map (fun p => repeat p m) s.
(** a feature with the same value for all samples appended *)
Definition append_constant (c : R) (s : data) : data := map (fun p => (fst p ++ [c], snd p)) s.
