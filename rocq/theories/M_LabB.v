(** * Label arrays of other dtypes in a batch

    The nine [_param_batch] methods use the array of labels in two places only:
    [np.unique(labels).size] (CH.py:142-143 and alike) and [labels[x] == ix] for
    x in range(len(labels)) (CH.py:151 and alike, cSIL.py:214); [get_cvi] uses
    [np.unique(label)] (_base.py:148).  This file says what the two give for
    arrays of ints, bools, floats and strings, and what a batch with such an
    array does. *)
From Coq Require Import ZArith QArith List Arith Bool String.
From Verif Require Import Num NumPy Base GetCvi M_Lab.
Import ListNotations.

(** one element of an array of dtype float64, and the arrays *)
Inductive npfloat := FFin (m e : Z) | FInf (negative : bool) | FNan.
Inductive label_array :=
| AInt (ls : list Z)
| ABool (ls : list bool)
| AFloat (ls : list npfloat)
| AStr (ls : list string).

(** the elements as Python objects.  All nans get one identity: [np.unique]
    counts them once (equal_nan=True, the default since NumPy 1.21). *)
Definition elements (a : label_array) : list pylabel :=
  match a with
  | AInt ls => map PyInt ls
  | ABool ls => map PyBool ls
  | AFloat ls => map (fun l => match l with FFin m e => PyFloat m e | FInf s => PyInf s | FNan => PyNan 0 end) ls
  | AStr ls => map PyStr ls
  end.

(** [np.unique(labels).size] *)
Fixpoint distinct_count (ls : list pylabel) : nat :=
  match ls with
  | [] => 0
  | l :: ls' => if existsb (pysame l) ls' then distinct_count ls' else S (distinct_count ls')
  end.
(** [labels[x] == ix]; never true of a nan or a string *)
Definition is_number (l : pylabel) (ix : nat) : bool := pysame l (PyInt (Z.of_nat ix)).
(** [[x for x in range(len(labels)) if labels[x] == ix]] *)
Definition rows_of (ix : nat) (ls : list pylabel) : list nat :=
  filter (fun x => is_number (nth x ls (PyInt 0)) ix) (seq 0 (List.length ls)).

(** Instead of repeating the nine methods, the array is replaced by an array of
    ints that gives the same two answers: a label equal to one of 0..k-1 by that
    number, another one by k plus the place where it occurs first.  That every
    array of ints with the same answers does as well is C86_only_two_things. *)
Fixpoint place (ls : list pylabel) (l : pylabel) : nat :=
  match ls with [] => 0 | l' :: ls' => if pysame l' l then 0 else S (place ls' l) end.
Definition int_for (ls : list pylabel) (l : pylabel) : Z :=
  let k := distinct_count ls in
  match find (is_number l) (seq 0 k) with
  | Some ix => Z.of_nat ix
  | None => Z.of_nat (k + place ls l)
  end.
Definition as_ints (ls : list pylabel) : list Z := map (int_for ls) ls.

(** [get_cvi(data, labels)] with such an array (_base.py:118-181) *)
Definition array_get_cvi {A : Arith} (c : kind) (o : obj A) (m : mat A) (labels : label_array) : obj A * E (F A) :=
  get_cvi c o (Mat m) (Labs (as_ints (elements labels))).
