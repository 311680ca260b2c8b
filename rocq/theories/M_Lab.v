(** * Labels that are not integers

    [LabelMap] keeps the labels as keys of a Python dict (src/cvi/modules/_base.py:28-29,
    39-46) and does nothing else with them, so that any hashable object serves as
    the label of a sample.  This file repeats the label map of Base.v and
    [CVI.get_cvi] of GetCvi.v for labels of any type [K] with a lookup relation. *)
From Coq Require Import ZArith QArith List Arith Bool String.
From Verif Require Import Num NumPy Base GetCvi.
Import ListNotations.

Section Lab.
  Context {A : Arith} {K : Type}.
  (** [same k label]: the dict finds the key [k] when asked for [label]; Python
      compares identities, then hashes and values. *)
  Context (same : K -> K -> bool).

  (** [label in self.map] / [self.map[label]] (_base.py:40-41) *)
  Fixpoint k_lookup (m : list (K * nat)) (label : K) : option nat :=
    match m with
    | [] => None
    | (k, i) :: m' => if same k label then Some i else k_lookup m' label
    end.
  (** LabelMap.get_internal_label (_base.py:31-48) *)
  Definition k_get_internal_label (m : list (K * nat)) (label : K) : nat * list (K * nat) :=
    match k_lookup m label with
    | Some internal_label => (internal_label, m)
    | None => let internal_label := List.length m in (internal_label, m ++ [(label, internal_label)])
    end.

  (** the object, and the label argument: one hashable label, or an array of ints *)
  Record kobj := mkKobj { k_map : list (K * nat); k_at : attrs A }.
  Definition k_new : kobj := mkKobj [] init_attrs.
  Inductive k_arg := KLab (k : K) | KLabs (ls : list Z).

  (** the parameter update of get_cvi (_base.py:137-174), as [update] of GetCvi.v *)
  Definition k_update (c : kind) (o : kobj) (data : data_arg A) (label : k_arg) : kobj * E unit :=
    match data with
    | Vec x =>
        match label with
        | KLab l =>
            let '(i_label, lm') := k_get_internal_label (k_map o) l in
            let '(a', r) := param_inc c x i_label (k_at o) in
            (mkKobj lm' a', r)
        | KLabs _ => (o, Err TypeError)
        end
    | Mat m =>
        if is_setup (k_at o) then (o, Err ValueError)
        else match label with
             | KLab _ => (o, Err ValueError)                 (* np.unique of one object has one element *)
             | KLabs ls =>
                 if negb (1 <? n_unique ls) then (o, Err ValueError)
                 else let '(a', r) := param_batch c m ls (k_at o) in (mkKobj (k_map o) a', r)
             end
    | Nd _ => (o, Err ValueError)
    end.
  (** CVI.get_cvi (_base.py:118-181) *)
  Definition k_get_cvi (c : kind) (o : kobj) (data : data_arg A) (label : k_arg) : kobj * E (F A) :=
    match k_update c o data label with
    | (o1, Err e) => (o1, Err e)
    | (o1, Ok _) =>
        match evaluate c (k_at o1) with
        | (a2, Err e) => (mkKobj (k_map o1) a2, Err e)
        | (a2, Ok _) => (mkKobj (k_map o1) a2, Ok (criterion_value a2))
        end
    end.
  Fixpoint k_run (c : kind) (o : kobj) (h : list (data_arg A * k_arg)) : kobj * list (E (F A)) :=
    match h with
    | [] => (o, [])
    | (d, l) :: h' =>
        let '(o1, r) := k_get_cvi c o d l in
        let '(o2, rs) := k_run c o1 h' in
        (o2, r :: rs)
    end.
End Lab.
Arguments kobj : clear implicits.
Arguments k_arg : clear implicits.

(** ** Python labels: ints (and numpy ints), bools, floats, strings

    A finite float is its exact value m * 2^e.  A nan carries the identity of the
    object: the elements of a numpy array are objects of their own each time they
    are read, [math.nan] is always the same one. *)
Inductive pylabel :=
| PyInt (z : Z)
| PyBool (b : bool)
| PyFloat (m e : Z)
| PyInf (negative : bool)
| PyNan (id : nat)
| PyStr (s : string).

(** the number an int, a bool or a finite float stands for *)
Definition pow2Q (e : Z) : Q := match e with Zneg p => 1 # (2 ^ p) | _ => inject_Z (2 ^ e) end.
Definition pynum (l : pylabel) : option Q :=
  match l with
  | PyInt z => Some (inject_Z z)
  | PyBool b => Some (inject_Z (if b then 1 else 0))
  | PyFloat m e => Some (inject_Z m * pow2Q e)%Q
  | _ => None
  end.
(** [a is b or a == b]: numbers of different types compare by value, nan equals
    nothing but is found again under its identity.  (Equal numbers have equal
    hashes in Python.) *)
Definition pysame (a b : pylabel) : bool :=
  match a, b with
  | PyInf s, PyInf t => Bool.eqb s t
  | PyNan i, PyNan j => Nat.eqb i j
  | PyStr s, PyStr t => String.eqb s t
  | _, _ => match pynum a, pynum b with Some p, Some q => Qeq_bool p q | _, _ => false end
  end.
