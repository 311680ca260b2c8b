(** * Exact arithmetic with inf and nan.

    [xr] is the real line with [+inf], [-inf] and [nan] and IEEE 754's rules for
    them.  There is no rounding and zero is unsigned: a quotient by zero has the
    sign of its numerator, as for a denominator [+0.0]. *)
From Coq Require Import ZArith Reals List Bool Lra.
From Verif Require Import Num Det.
Import ListNotations.
Local Open Scope R_scope.

Inductive xr := Fin (x : R) | PInf | NInf | NaN.

Definition xneg (a : xr) : xr :=
  match a with Fin x => Fin (- x) | PInf => NInf | NInf => PInf | NaN => NaN end.
Definition xadd (a b : xr) : xr :=
  match a, b with
  | NaN, _ | _, NaN => NaN
  | Fin x, Fin y => Fin (x + y)
  | PInf, NInf | NInf, PInf => NaN
  | PInf, _ | _, PInf => PInf
  | NInf, _ | _, NInf => NInf
  end.
Definition xsub (a b : xr) : xr := xadd a (xneg b).
(** +inf times a finite number *)
Definition inf_mul (x : R) : xr :=
  if Req_EM_T x 0 then NaN else if Rlt_dec 0 x then PInf else NInf.
Definition xmul (a b : xr) : xr :=
  match a, b with
  | NaN, _ | _, NaN => NaN
  | Fin x, Fin y => Fin (x * y)
  | Fin x, PInf | PInf, Fin x => inf_mul x
  | Fin x, NInf | NInf, Fin x => xneg (inf_mul x)
  | PInf, PInf | NInf, NInf => PInf
  | PInf, NInf | NInf, PInf => NInf
  end.
(** numpy division *)
Definition xdiv (a b : xr) : xr :=
  match a, b with
  | NaN, _ | _, NaN => NaN
  | Fin x, Fin y => if Req_EM_T y 0 then inf_mul x else Fin (x / y)
  | Fin _, _ => Fin 0
  | PInf, Fin y => if Req_EM_T y 0 then PInf else inf_mul y
  | NInf, Fin y => if Req_EM_T y 0 then NInf else xneg (inf_mul y)
  | _, _ => NaN
  end.
Definition xabs (a : xr) : xr :=
  match a with Fin x => Fin (Rabs x) | PInf | NInf => PInf | NaN => NaN end.
Definition xsqrt (a : xr) : xr :=
  match a with
  | Fin x => if Rlt_dec x 0 then NaN else Fin (sqrt x)
  | PInf => PInf | NInf => NaN | NaN => NaN
  end.
Definition xexp (a : xr) : xr :=
  match a with Fin x => Fin (exp x) | PInf => PInf | NInf => Fin 0 | NaN => NaN end.
(** [a ** b]; the package only raises non-negative numbers to positive powers and
    positive numbers to finite powers, everything else is mapped to nan *)
Definition xpow (a b : xr) : xr :=
  match a, b with
  | Fin x, Fin y => if Rlt_dec 0 x then Fin (Rpower x y)
                    else if Req_EM_T x 0 then (if Rlt_dec 0 y then Fin 0 else NaN) else NaN
  | PInf, Fin y => if Rlt_dec 0 y then PInf else NaN
  | _, _ => NaN
  end.
(** IEEE <= on non-nan numbers *)
Definition xle (a b : xr) : bool :=
  match a, b with
  | NaN, _ | _, NaN => false
  | NInf, _ => true
  | _, PInf => true
  | Fin x, Fin y => if Rle_dec x y then true else false
  | _, _ => false
  end.
Definition xlt (a b : xr) : bool :=
  match a, b with
  | NaN, _ | _, NaN => false
  | _, _ => negb (xle b a)
  end.
(** np.minimum and np.maximum: nan if either is nan *)
Definition xmin (a b : xr) : xr :=
  match a, b with
  | NaN, _ | _, NaN => NaN
  | _, _ => if xle a b then a else b
  end.
Definition xmax (a b : xr) : xr :=
  match a, b with
  | NaN, _ | _, NaN => NaN
  | _, _ => if xle a b then b else a
  end.
Definition xtrue (a : xr) : bool :=
  match a with Fin x => if Req_EM_T x 0 then false else true | _ => true end.
Definition xsum (l : list xr) : xr := fold_left xadd l (Fin 0).
Fixpoint xdot (a b : list xr) : list xr :=
  match a, b with x :: a', y :: b' => xmul x y :: xdot a' b' | _, _ => [] end.

(** arrays all of whose entries are finite *)
Fixpoint fins (l : list xr) : option (list R) :=
  match l with
  | [] => Some []
  | Fin x :: l' => match fins l' with Some r => Some (x :: r) | None => None end
  | _ :: _ => None
  end.
Fixpoint finrows (m : list (list xr)) : option (list (list R)) :=
  match m with
  | [] => Some []
  | r :: m' => match fins r, finrows m' with Some a, Some b => Some (a :: b) | _, _ => None end
  end.
(** np.linalg.det and np.linalg.inv.  LAPACK returns arrays of nan for arrays
    with a nan entry; the same is assumed for arrays with an infinite entry. *)
Definition xdet (m : list (list xr)) : xr :=
  match finrows m with Some r => Fin (detR r) | None => NaN end.
Definition xinv (m : list (list xr)) : option (list (list xr)) :=
  match finrows m with
  | Some r => match invR r with Some w => Some (map (map Fin) w) | None => None end
  | None => Some (map (map (fun _ => NaN)) m)
  end.

Definition XR : Arith := {|
  F := xr; f_of_Z := fun z => Fin (IZR z);
  fadd := xadd; fsub := xsub; fmul := xmul; fdiv := xdiv; fneg := xneg; fabs := xabs;
  fsqrt := xsqrt; fexp := xexp; fpow := xpow; fpi := Fin PI; finf := PInf;
  fminimum := xmin; fmaximum := xmax; flt := xlt; ftrue := xtrue;
  np_sum := xsum; np_dot := fun a b => xsum (xdot a b);
  np_det := xdet; np_inv := xinv;
  sadd := xadd; smul := xmul; sdiv := xdiv; ssum := xsum; sdot := fun a b => xsum (xdot a b) |}.
Lemma XR_plain : Plain XR.
Proof. constructor; reflexivity. Qed.
