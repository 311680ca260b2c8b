(** * CVI.get_cvi (src/cvi/modules/_base.py:118-181), objects and call histories *)
From Coq Require Import ZArith List Arith Bool.
From Verif Require Import Num NumPy Base M_CH M_D M_PS.
Import ListNotations.

(** The nine classes exported by the package (src/cvi/__init__.py:9-20, MODULES). *)
Inductive kind := kCH | kWB | kDB | kXB | kGD43 | kGD53 | kPS | krCIP | kcSIL.
Definition kinds := [kCH; kcSIL; kDB; kGD43; kGD53; kPS; krCIP; kWB; kXB].

Section GetCvi.
  Context {A : Arith}.

  (** method resolution: the overridden [_param_inc] without its first statement
      [i_label = self._label_map.get_internal_label(label)] *)
  Definition param_inc (c : kind) : vec A -> nat -> M A unit :=
    match c with
    | kCH => CH_param_inc | kWB => WB_param_inc | kDB => DB_param_inc
    | kXB => XB_param_inc | kGD43 => GD43_param_inc | kGD53 => GD53_param_inc
    | kPS => PS_param_inc | krCIP => rCIP_param_inc | kcSIL => cSIL_param_inc
    end.
  Definition param_batch (c : kind) : mat A -> list Z -> M A unit :=
    match c with
    | kCH => CH_param_batch | kWB => WB_param_batch | kDB => DB_param_batch
    | kXB => XB_param_batch | kGD43 => GD43_param_batch | kGD53 => GD53_param_batch
    | kPS => PS_param_batch | krCIP => rCIP_param_batch | kcSIL => cSIL_param_batch
    end.
  Definition evaluate (c : kind) : M A unit :=
    match c with
    | kCH => CH_evaluate | kWB => WB_evaluate | kDB => DB_evaluate
    | kXB => XB_evaluate | kGD43 => GD43_evaluate | kGD53 => GD53_evaluate
    | kPS => PS_evaluate | krCIP => rCIP_evaluate | kcSIL => cSIL_evaluate
    end.

  (** A CVI object: its label map (_base.py:61) and its other attributes.  No
      method except the first line of [_param_inc] touches the label map. *)
  Record obj := mkObj { label_map : labelmap; at_ : attrs A }.
  (** CVI() for any of the classes *)
  Definition new_obj : obj := mkObj [] init_attrs.

  (** the [data] argument: a 1-D array, a 2-D array, or any other ndim *)
  Inductive data_arg :=
  | Vec (x : vec A)
  | Mat (m : mat A)
  | Nd (ndim : nat).
  (** the [label] argument: an int or an array of ints *)
  Inductive label_arg :=
  | Lab (l : Z)
  | Labs (ls : list Z).

  (** len(np.unique(label)); np.unique of a scalar has one element *)
  Definition unique_labels (l : label_arg) : nat :=
    match l with Lab _ => 1 | Labs ls => n_unique ls end.

  (** the parameter update of get_cvi (_base.py:137-174) *)
  Definition update (c : kind) (o : obj) (data : data_arg) (label : label_arg) : obj * E unit :=
    match data with
    | Vec x =>                                               (* :138-139 *)
        match label with
        | Lab l =>
            let '(i_label, lm') := get_internal_label (label_map o) l in
            let '(a', r) := param_inc c x i_label (at_ o) in
            (mkObj lm' a', r)
        | Labs _ => (o, Err TypeError)       (* [label in self.map]: unhashable *)
        end
    | Mat m =>                                               (* :142 *)
        if is_setup (at_ o) then (o, Err ValueError)         (* :157-162 *)
        else if negb (1 <? unique_labels label) then (o, Err ValueError)  (* :148-151 *)
        else match label with
             | Labs ls =>
                 let '(a', r) := param_batch c m ls (at_ o) in
                 (mkObj (label_map o) a', r)                 (* :154 *)
             | Lab _ => (o, Err ValueError)  (* unreachable: a scalar has one unique value *)
             end
    | Nd _ => (o, Err ValueError)                            (* :169-174 *)
    end.

  (** CVI.get_cvi (_base.py:118-181) *)
  Definition get_cvi (c : kind) (o : obj) (data : data_arg) (label : label_arg) : obj * E (F A) :=
    match update c o data label with
    | (o1, Err e) => (o1, Err e)
    | (o1, Ok _) =>
        match evaluate c (at_ o1) with                       (* :177 *)
        | (a2, Err e) => (mkObj (label_map o1) a2, Err e)
        | (a2, Ok _) => (mkObj (label_map o1) a2, Ok (criterion_value a2))  (* :178-181 *)
        end
    end.

  (** A program using one object: any sequence of calls; the caller may catch
      the exceptions and go on. *)
  Definition call := (data_arg * label_arg)%type.
  Fixpoint run (c : kind) (o : obj) (h : list call) : obj * list (E (F A)) :=
    match h with
    | [] => (o, [])
    | (d, l) :: h' =>
        let '(o1, r) := get_cvi c o d l in
        let '(o2, rs) := run c o1 h' in
        (o2, r :: rs)
    end.
  (** the object after the calls [h] *)
  Definition after (c : kind) (o : obj) (h : list call) : obj := fst (run c o h).
  (** the results of the calls [h] *)
  Definition results (c : kind) (o : obj) (h : list call) : list (E (F A)) := snd (run c o h).

  (** one-sample-at-a-time use: for x, l in zip(data, labels): cvi.get_cvi(x, l) *)
  Definition stream (s : list (vec A * Z)) : list call :=
    map (fun p => (Vec (fst p), Lab (snd p))) s.
  (** batch use: CVI().get_cvi(data, labels) on the same samples *)
  Definition batch_of (d : nat) (s : list (vec A * Z)) : call :=
    (Mat (mkMat d (map fst s)), Labs (map snd s)).
End GetCvi.
Arguments obj : clear implicits.
Arguments data_arg : clear implicits.
Arguments call : clear implicits.
