(** * Using the exported base class itself: src/cvi/modules/_base.py, class CVI
    and class LabelMap (exported by modules/__init__.py:8-14 and, CVI, by
    cvi/__init__.py:9). *)
From Coq Require Import ZArith List Arith Bool.
From Verif Require Import Num NumPy Base GetCvi.
Import ListNotations.

Section BaseCls.
  Context {A : Arith}.
  (** CVI.get_cvi (_base.py:118-181) on an object of class CVI.  [@abstractmethod]
      has no effect since CVI does not use ABCMeta (_base.py:51), so CVI() works;
      [_param_inc], [_param_batch] (_base.py:106-112) raise at once. *)
  Definition base_get_cvi (o : obj A) (data : data_arg A) (label : label_arg) : obj A * E (F A) :=
    match data with
    | Vec _ => (o, Err NotImplementedError)                  (* :138-139, :107-108 *)
    | Mat _ =>                                               (* :142 *)
        if is_setup (at_ o) then (o, Err ValueError)         (* :157-162 *)
        else if negb (1 <? unique_labels label) then (o, Err ValueError)  (* :148-151 *)
        else (o, Err NotImplementedError)                    (* :154, :111-112 *)
    | Nd _ => (o, Err ValueError)                            (* :169-174 *)
    end.
  Fixpoint base_run (o : obj A) (h : list (call A)) : obj A * list (E (F A)) :=
    match h with
    | [] => (o, [])
    | (d, l) :: h' =>
        let '(o1, r) := base_get_cvi o d l in
        let '(o2, rs) := base_run o1 h' in
        (o2, r :: rs)
    end.
End BaseCls.

(** a sequence of calls of LabelMap.get_internal_label (_base.py:31-48) on one
    map; the map and the numbers returned *)
Fixpoint map_run (m : labelmap) (ls : list Z) : labelmap * list nat :=
  match ls with
  | [] => (m, [])
  | l :: ls' => let '(i, m1) := get_internal_label m l in
                let '(m2, is) := map_run m1 ls' in
                (m2, i :: is)
  end.
