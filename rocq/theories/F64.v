(** * IEEE 754 binary64 arithmetic

    The operations of Coq's [SpecFloat] with precision 53 and maximal exponent
    1024, rounding to nearest even: the arithmetic of Python floats and of
    numpy.float64.  Sums and inner products are computed from left to right,
    which is what numpy does for fewer than eight terms (no fused operations).
    [Libm] holds what IEEE 754 does not fix: exp, **, det and inv. *)
From Coq Require Import ZArith List Bool SpecFloat.
From Verif Require Import Num NumPy.
Import ListNotations.

Notation f64 := spec_float.
Local Notation prec := 53%Z.
Local Notation emax := 1024%Z.

Record Libm := mkLibm {
  l_exp : f64 -> f64;
  l_pow : f64 -> f64 -> f64;
  l_det : list (list f64) -> f64;
  l_inv : list (list f64) -> option (list (list f64))
}.

Definition d_of_Z (z : Z) : f64 := binary_normalize prec emax z 0 false.
Definition dadd := SFadd prec emax.
Definition dsub := SFsub prec emax.
Definition dmul := SFmul prec emax.
Definition ddiv := SFdiv prec emax.
Definition dsqrt := SFsqrt prec emax.
Definition dmin (a b : f64) : f64 :=
  match SFcompare a b with
  | None => S754_nan | Some Gt => b | Some _ => a
  end.
Definition dmax (a b : f64) : f64 :=
  match SFcompare a b with
  | None => S754_nan | Some Lt => b | Some _ => a
  end.
Definition dtrue (a : f64) : bool := match a with S754_zero _ => false | _ => true end.
Definition dsum (l : list f64) : f64 :=
  match l with [] => S754_zero false | x :: l' => fold_left dadd l' x end.
Fixpoint dprods (a b : list f64) : list f64 :=
  match a, b with x :: a', y :: b' => dmul x y :: dprods a' b' | _, _ => [] end.

Definition F64 (L : Libm) : Arith := {|
  F := f64; f_of_Z := d_of_Z;
  fadd := dadd; fsub := dsub; fmul := dmul; fdiv := ddiv; fneg := SFopp; fabs := SFabs;
  fsqrt := dsqrt; fexp := l_exp L; fpow := l_pow L;
  fpi := S754_finite false 7074237752028440 (-51); finf := S754_infinity false;
  fminimum := dmin; fmaximum := dmax; flt := SFltb; ftrue := dtrue;
  np_sum := dsum; np_dot := fun a b => dsum (dprods a b);
  np_det := l_det L; np_inv := l_inv L;
  sadd := dadd; smul := dmul; sdiv := ddiv; ssum := dsum; sdot := fun a b => dsum (dprods a b) |}.

(** ** Decidable comparisons used in examples *)
Definition dnan (a : f64) : bool := match a with S754_nan => true | _ => false end.
(** [m / 2^e] *)
Definition dyadic (m : Z) (e : Z) : f64 := binary_normalize prec emax m (- e) false.
Definition dvec (l : list Z) : list f64 := map d_of_Z l.
(** labelled samples with integer features *)
Definition fs (L : Libm) (s : list (list Z * Z)) : list (vec (F64 L) * Z) :=
  map (fun p => (dvec (fst p), snd p)) s.
Definition fv (L : Libm) (l : list Z) : vec (F64 L) := dvec l.
