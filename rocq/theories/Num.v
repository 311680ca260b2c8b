(** * Arithmetic as a parameter.

    The Python code computes with Python floats / numpy float64.  The model is
    written over an arbitrary record of operations [Arith]; the record contains
    operations only, no laws.  [XR] (file XR.v) instantiates it with exact reals
    plus inf/nan, [F64] (file F64.v) with IEEE binary64.

    numpy computes an expression in which only the caller's data occur in the
    dtype of the data: a float32 array times a Python float is a float32 array,
    and so are its mean and its inner product with itself.  As soon as a float64
    array of the object takes part the result is float64.  The operations of the
    first kind are the last five fields; in [XR], [F64] and [F64o] (data in
    float64) they are the ordinary ones, in [F32d] (file F32d.v) they round to
    float32.  The data of one object all have the same dtype. *)
From Coq Require Import ZArith List.

Record Arith := mkArith {
  F : Type;                         (* a Python float / numpy.float64 *)
  f_of_Z : Z -> F;                  (* int used where a float is expected *)
  fadd : F -> F -> F;               (* + *)
  fsub : F -> F -> F;               (* - *)
  fmul : F -> F -> F;               (* * *)
  fdiv : F -> F -> F;               (* /, numpy semantics: never raises *)
  fneg : F -> F;                    (* unary - *)
  fabs : F -> F;                    (* abs *)
  fsqrt : F -> F;                   (* np.sqrt *)
  fexp : F -> F;                    (* np.exp *)
  fpow : F -> F -> F;               (* ** on floats *)
  fpi : F;                          (* np.pi *)
  finf : F;                         (* np.inf *)
  fminimum : F -> F -> F;           (* np.minimum, nan-propagating *)
  fmaximum : F -> F -> F;           (* np.maximum, nan-propagating *)
  flt : F -> F -> bool;             (* Python < on floats *)
  ftrue : F -> bool;                (* truth value: nonzero (nan is true) *)
  np_sum : list F -> F;             (* np.add.reduce over the operands *)
  np_dot : list F -> list F -> F;   (* np.inner / @ of two equal-length 1-D arrays *)
  np_det : list (list F) -> F;      (* np.linalg.det of a square matrix *)
  np_inv : list (list F) -> option (list (list F));
                                    (* np.linalg.inv; None = LinAlgError *)
  sadd : F -> F -> F;               (* + in the dtype of the data *)
  smul : F -> F -> F;               (* number * data, in the dtype of the data *)
  sdiv : F -> F -> F;               (* data / number, in the dtype of the data *)
  ssum : list F -> F;               (* np.add.reduce in the dtype of the data *)
  sdot : list F -> list F -> F      (* np.inner / @ in the dtype of the data *)
}.

Arguments f_of_Z {a}. Arguments fadd {a}. Arguments fsub {a}. Arguments fmul {a}.
Arguments fdiv {a}. Arguments fneg {a}. Arguments fabs {a}. Arguments fsqrt {a}.
Arguments fexp {a}. Arguments fpow {a}. Arguments fpi {a}. Arguments finf {a}.
Arguments fminimum {a}. Arguments fmaximum {a}. Arguments flt {a}. Arguments ftrue {a}.
Arguments np_sum {a}. Arguments np_dot {a}. Arguments np_det {a}. Arguments np_inv {a}.
Arguments sadd {a}. Arguments smul {a}. Arguments sdiv {a}. Arguments ssum {a}. Arguments sdot {a}.

Section Derived.
  Context {A : Arith}.
  Definition f0 : F A := f_of_Z 0.
  Definition f1 : F A := f_of_Z 1.
  Definition f2 : F A := f_of_Z 2.
  (** int -> float for the counters of the package *)
  Definition f_of_nat (n : nat) : F A := f_of_Z (Z.of_nat n).
  Definition fsq (x : F A) : F A := fmul x x.     (* array ** 2 *)
  (** Python's builtin [sum]: starts from the int 0 and adds left to right *)
  Definition py_sum (l : list (F A)) : F A := fold_left fadd l f0.
End Derived.

(** the data have the dtype of the object's arrays, float64 *)
Record Plain (A : Arith) : Prop := mkPlain {
  pl_add : sadd (a := A) = fadd;
  pl_mul : smul (a := A) = fmul;
  pl_div : sdiv (a := A) = fdiv;
  pl_sum : ssum (a := A) = np_sum;
  pl_dot : sdot (a := A) = np_dot
}.
