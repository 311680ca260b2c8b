(** * float32 data

    What the classes compute when the caller's array has dtype float32.  The
    arrays that the classes allocate themselves (np.zeros) are float64, and an
    operation between a float64 array and a float32 array is done in float64,
    so only the operations written [sadd], [smul], [sdiv], [ssum], [sdot] in the
    model differ from [F64o].  A float32 number is represented by the float64
    with the same value; [narrow] converts to binary32, [widen] back.

    - [smul c x]: a Python float times a float32 array; the float is converted
      to float32 first (NEP 50, and the value based casting before it).
    - [sdiv]: the division in np.mean (numpy/core/_methods.py) of the float32
      sums by the count: float64 division cast to float32, which for counts up
      to 2^24 is the float32 division.
    - [ssum], [sdot]: np.mean's sums and np.inner / @ of float32 arrays, done in
      float32, in an order left open ([Sums], see F64o.v).

    Simplifications: all arrays given to one object have dtype float32, and an
    object receives single samples only or one batch only (after a batch the
    list _CP holds float64 numbers). *)
From Coq Require Import ZArith List Bool SpecFloat Permutation.
From Verif Require Import Num NumPy F64 F64o.
Import ListNotations.

Definition renorm (prec emax : Z) (x : spec_float) : spec_float :=
  match x with
  | S754_finite s m e => binary_normalize prec emax (cond_Zopp s (Zpos m)) e s
  | _ => x
  end.
(** float64 to float32, float32 to float64, and both *)
Definition narrow : spec_float -> spec_float := renorm 24 128.
Definition widen : spec_float -> spec_float := renorm 53 1024.
Definition r32 (x : f64) : f64 := widen (narrow x).
Definition add32 (a b : f64) : f64 := widen (SFadd 24 128 (narrow a) (narrow b)).
Definition mul32 (a b : f64) : f64 := widen (SFmul 24 128 (narrow a) (narrow b)).
Definition div32 (s n : f64) : f64 := r32 (ddiv s n).

Definition F32d (L : Libm) (S T : Sums) : Arith := {|
  F := f64; f_of_Z := d_of_Z;
  fadd := dadd; fsub := dsub; fmul := dmul; fdiv := ddiv; fneg := SFopp; fabs := SFabs;
  fsqrt := dsqrt; fexp := l_exp L; fpow := l_pow L;
  fpi := S754_finite false 7074237752028440 (-51); finf := S754_infinity false;
  fminimum := dmin; fmaximum := dmax; flt := SFltb; ftrue := dtrue;
  np_sum := s_sum S; np_dot := s_dot S;
  np_det := l_det L; np_inv := l_inv L;
  sadd := add32; smul := mul32; sdiv := div32; ssum := s_sum T; sdot := s_dot T |}.

(** float32 sums in some order *)
Inductive summed32 : list f64 -> f64 -> Prop :=
| sum32_none : summed32 [] (S754_zero false)
| sum32_one x : summed32 [x] x
| sum32_add a b l x y : a <> [] -> b <> [] -> summed32 a x -> summed32 b y -> Permutation l (a ++ b) ->
    summed32 l (add32 x y).
Fixpoint prods32 (a b : list f64) : list f64 :=
  match a, b with x :: a', y :: b' => mul32 x y :: prods32 a' b' | _, _ => [] end.
Definition any_order32 (T : Sums) : Prop :=
  (forall l, summed32 l (s_sum T l)) /\ (forall a b, summed32 (prods32 a b) (s_dot T a b)).
(** from left to right *)
Definition sum32 (l : list f64) : f64 :=
  match l with [] => S754_zero false | x :: l' => fold_left add32 l' x end.
Definition left_right32 : Sums := mkSums sum32 (fun a b => sum32 (prods32 a b)).
Lemma sum32_summed l : summed32 l (sum32 l).
Proof.
  destruct l as [|x l]; [constructor|]. cbn [sum32].
  assert (H : forall p z, p <> [] -> summed32 p z -> summed32 (p ++ l) (fold_left add32 l z)).
  { induction l as [|y l IH]; intros p z Hp Hz; cbn [fold_left]; [now rewrite app_nil_r|].
    change (y :: l) with ([y] ++ l). rewrite app_assoc. apply IH; [now destruct p|].
    apply (sum32_add p [y]); auto; [discriminate|constructor]. }
  apply (H [x]); [discriminate|constructor].
Qed.
Lemma left_right32_order : any_order32 left_right32.
Proof. split; intros; apply sum32_summed. Qed.
