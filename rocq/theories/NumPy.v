(** * The numpy / Python array operations used by the package.

    Arrays are lists; every operation that can raise in numpy because of shapes
    or indices returns [Err] with the exception class.  Element arithmetic is
    taken from [Arith]. *)
From Coq Require Import ZArith List Arith Bool Lia.
From Verif Require Import Num.
Import ListNotations.

Inductive exn :=
| ValueError | IndexError | ZeroDivisionError | AttributeError
| LinAlgError | TypeError | AssertionError | NotImplementedError | OverflowError.

(** Result of an expression that may raise. *)
Inductive E (X : Type) :=
| Ok (x : X)
| Err (e : exn).
Arguments Ok {X}. Arguments Err {X}.

Definition bindE {X Y} (m : E X) (k : X -> E Y) : E Y :=
  match m with Ok x => k x | Err e => Err e end.
Notation "'let*' x ':=' m 'in' k" := (bindE m (fun x => k))
  (at level 200, x pattern, m at level 100, k at level 200, right associativity).

Fixpoint mapE {X Y} (f : X -> E Y) (l : list X) : E (list Y) :=
  match l with
  | [] => Ok []
  | x :: l' => let* y := f x in let* ys := mapE f l' in Ok (y :: ys)
  end.

Fixpoint map2 {X Y Z} (f : X -> Y -> Z) (a : list X) (b : list Y) : list Z :=
  match a, b with
  | x :: a', y :: b' => f x y :: map2 f a' b'
  | _, _ => []
  end.

(** a[i] on a Python list or 1-D array (indices here are never negative) *)
Definition get_item {X} (l : list X) (i : nat) : E X :=
  match nth_error l i with Some x => Ok x | None => Err IndexError end.

Fixpoint upd {X} (i : nat) (x : X) (l : list X) : list X :=
  match l, i with
  | [], _ => []
  | _ :: l', O => x :: l'
  | y :: l', S i' => y :: upd i' x l'
  end.

(** a[i] = x *)
Definition set_item {X} (l : list X) (i : nat) (x : X) : E (list X) :=
  if i <? length l then Ok (upd i x l) else Err IndexError.

(** np.delete(a, i) *)
Definition remove_nth {X} (i : nat) (l : list X) : list X :=
  firstn i l ++ skipn (S i) l.
Definition np_delete {X} (l : list X) (i : nat) : E (list X) :=
  if i <? length l then Ok (remove_nth i l) else Err IndexError.

Section NP.
  Context {A : Arith}.
  Notation F := (F A).

  (** a 1-D array *)
  Local Notation vec := (list F).

  (** A 2-D array: number of columns (needed when there are no rows) and rows. *)
  Record mat := mkMat { mcols : nat; mrows : list vec }.
  Definition nrows (m : mat) : nat := length (mrows m).

  (** elementwise binary operation of two 1-D arrays with numpy broadcasting *)
  Definition bc (op : F -> F -> F) (a b : vec) : E vec :=
    if length a =? length b then Ok (map2 op a b)
    else match a, b with
         | [x], _ => Ok (map (fun y => op x y) b)
         | _, [y] => Ok (map (fun x => op x y) a)
         | _, _ => Err ValueError
         end.
  Definition vadd := bc fadd.
  Definition vsub := bc fsub.
  (** the sum of two arrays in the dtype of the data *)
  Definition svadd := bc sadd.
  (** scalar * array *)
  Definition scal (c : F) (a : vec) : vec := map (fmul c) a.
  (** scalar * data *)
  Definition sscal (c : F) (a : vec) : vec := map (smul c) a.
  (** np.inner(a, b), 1-D: lengths must agree, no broadcasting *)
  Definition inner (a b : vec) : E F :=
    if length a =? length b then Ok (np_dot a b) else Err ValueError.
  (** np.inner(a, b) of data *)
  Definition sinner (a b : vec) : E F :=
    if length a =? length b then Ok (sdot a b) else Err ValueError.
  (** np.sum(a ** 2) *)
  Definition np_sumsq (a : vec) : F := np_sum (map fsq a).
  (** builtin sum(a ** 2) *)
  Definition py_sumsq (a : vec) : F := py_sum (map fsq a).

  Definition zeros (n : nat) : vec := repeat f0 n.
  Definition zmat (r c : nat) : mat := mkMat c (repeat (zeros c) r).

  (** np.vstack([m, row]) *)
  Definition vstack (m : mat) (r : vec) : E mat :=
    if length r =? mcols m then Ok (mkMat (mcols m) (mrows m ++ [r]))
    else Err ValueError.
  (** m[i, :] *)
  Definition row (m : mat) (i : nat) : E vec := get_item (mrows m) i.
  (** entry, only used with indices inside the shape *)
  Definition entry (m : mat) (i j : nat) : F := nth j (nth i (mrows m) []) f0.
  (** m[i, j] *)
  Definition get2 (m : mat) (i j : nat) : E F :=
    if (i <? nrows m) && (j <? mcols m) then Ok (entry m i j) else Err IndexError.
  (** m[i, :] = r *)
  Definition set_row (m : mat) (i : nat) (r : vec) : E mat :=
    if i <? nrows m then
      if length r =? mcols m then Ok (mkMat (mcols m) (upd i r (mrows m)))
      else match r with
           | [x] => Ok (mkMat (mcols m) (upd i (repeat x (mcols m)) (mrows m)))
           | _ => Err ValueError
           end
    else Err IndexError.
  (** m[:, j] = c *)
  Definition set_col (m : mat) (j : nat) (c : vec) : E mat :=
    if j <? mcols m then
      if length c =? nrows m then Ok (mkMat (mcols m) (map2 (upd j) c (mrows m)))
      else match c with
           | [x] => Ok (mkMat (mcols m) (map (upd j x) (mrows m)))
           | _ => Err ValueError
           end
    else Err IndexError.
  (** m[:, j], index inside the shape *)
  Definition col (m : mat) (j : nat) : vec := map (fun r => nth j r f0) (mrows m).
  Definition get_col (m : mat) (j : nat) : E vec :=
    if j <? mcols m then Ok (col m j) else Err IndexError.
  Definition transpose (m : mat) : mat :=
    mkMat (nrows m) (map (col m) (seq 0 (mcols m))).
  (** array given by its entries *)
  Definition tab2 (r c : nat) (f : nat -> nat -> F) : mat :=
    mkMat c (map (fun i => map (f i) (seq 0 c)) (seq 0 r)).

  (** elementwise binary operation on 2-D arrays with broadcasting *)
  Definition bc2 (op : F -> F -> F) (a b : mat) : E mat :=
    let ok x y := (x =? y) || (x =? 1) || (y =? 1) in
    let out x y := if x =? 1 then y else x in
    let pick n i := if n =? 1 then 0 else i in
    if ok (nrows a) (nrows b) && ok (mcols a) (mcols b) then
      Ok (tab2 (out (nrows a) (nrows b)) (out (mcols a) (mcols b))
            (fun i j => op (entry a (pick (nrows a) i) (pick (mcols a) j))
                           (entry b (pick (nrows b) i) (pick (mcols b) j))))
    else Err ValueError.
  Definition madd := bc2 fadd.
  Definition msub := bc2 fsub.
  Definition mscal (c : F) (m : mat) : mat := mkMat (mcols m) (map (map (fmul c)) (mrows m)).
  (** np.outer *)
  Definition outer (a b : vec) : mat := mkMat (length b) (map (fun x => map (fmul x) b) a).
  (** a @ m  with a 1-D *)
  Definition vecmat (a : vec) (m : mat) : E vec :=
    if length a =? nrows m
    then Ok (map (fun j => np_dot a (col m j)) (seq 0 (mcols m)))
    else Err ValueError.
  (** np.transpose(data) @ data *)
  Definition gram (m : mat) : mat :=
    tab2 (mcols m) (mcols m) (fun i j => sdot (col m i) (col m j)).
  (** np.linalg.inv of a square array *)
  Definition linalg_inv (m : mat) : E mat :=
    match np_inv (mrows m) with
    | Some r => Ok (mkMat (mcols m) r)
    | None => Err LinAlgError
    end.

  (** big[0:k, 0:k] = m  where big = np.zeros((k+1, k+1)) *)
  Definition grow (k : nat) (m : mat) : E mat :=
    let ok x := (x =? k) || (x =? 1) in
    let pick n i := if n =? 1 then 0 else i in
    if ok (nrows m) && ok (mcols m) then
      Ok (tab2 (S k) (S k)
            (fun i j => if (i <? k) && (j <? k)
                        then entry m (pick (nrows m) i) (pick (mcols m) j) else f0))
    else Err ValueError.

  (** np.mean(m, axis=0) *)
  Definition mean0 (m : mat) : vec :=
    map (fun j => fdiv (np_sum (col m j)) (f_of_nat (nrows m))) (seq 0 (mcols m)).
  (** np.mean(data, axis=0) of data *)
  Definition smean0 (m : mat) : vec :=
    map (fun j => sdiv (ssum (col m j)) (f_of_nat (nrows m))) (seq 0 (mcols m)).

  (** data[idx, :] *)
  Definition take_rows (m : mat) (idx : list nat) : E mat :=
    let* rs := mapE (row m) idx in Ok (mkMat (mcols m) rs).
  (** [x for x in range(len(labels)) if labels[x] == ix] *)
  Definition indices_of (ix : nat) (labels : list Z) : list nat :=
    filter (fun x => Z.eqb (nth x labels 0%Z) (Z.of_nat ix)) (seq 0 (length labels)).
  (** subset - v * np.ones((n, 1)): n is the number of rows of subset and v has
      as many entries as subset has columns, so no shape error is possible *)
  Definition sub_rows (m : mat) (v : vec) : list vec :=
    map (fun r => map2 fsub r (map (fun x => fmul x f1) v)) (mrows m).
  (** np.sum(rows ** 2) over the whole array *)
  Definition np_sumsq_all (rs : list vec) : F := np_sum (map fsq (concat rs)).

  (** np.min / np.max of a 1-D array; of an empty one: ValueError *)
  Definition np_min (l : vec) : E F :=
    match l with [] => Err ValueError | x :: l' => Ok (fold_left fminimum l' x) end.
  Definition np_max (l : vec) : E F :=
    match l with [] => Err ValueError | x :: l' => Ok (fold_left fmaximum l' x) end.

  (** entries strictly above the diagonal, row by row *)
  Definition triu_values (m : mat) : vec :=
    flat_map (fun i => map (entry m i) (seq (S i) (mcols m - S i))) (seq 0 (nrows m)).
  (** D[np.triu(np.ones((k, k), bool), 1),]: the mask must have D's shape *)
  Definition triu_mask_values (k : nat) (m : mat) : E vec :=
    if (nrows m =? k) && (mcols m =? k) then Ok (triu_values m) else Err IndexError.
  (** D[np.triu_indices(D.shape[0], k=1)] on an array with as many columns as rows *)
  Definition triu_indices_values (m : mat) : E vec :=
    if (mcols m <? nrows m) then Err IndexError
    else Ok (flat_map (fun i => map (entry m i) (seq (S i) (nrows m - S i))) (seq 0 (nrows m))).
  (** m.any() *)
  Definition np_any (m : mat) : bool := existsb (existsb ftrue) (mrows m).
  (** np.unique(labels).size *)
  Definition n_unique (labels : list Z) : nat := length (nodup Z.eq_dec labels).
End NP.
Notation vec A := (list (F A)).
Arguments mat : clear implicits.
