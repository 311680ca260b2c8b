(** * Binary64 with the sums taken in any order

    [F64] adds from left to right, which is what numpy does for fewer than eight
    terms.  For more terms numpy's order depends on the number of terms, on the
    memory layout and on the build, but each term is added exactly once.  [F64o]
    leaves the order open. *)
From Coq Require Import ZArith List Bool SpecFloat Permutation.
From Verif Require Import Num NumPy F64.
Import ListNotations.

Record Sums := mkSums {
  s_sum : list f64 -> f64;
  s_dot : list f64 -> list f64 -> f64
}.
Definition F64o (L : Libm) (S : Sums) : Arith := {|
  F := f64; f_of_Z := d_of_Z;
  fadd := dadd; fsub := dsub; fmul := dmul; fdiv := ddiv; fneg := SFopp; fabs := SFabs;
  fsqrt := dsqrt; fexp := l_exp L; fpow := l_pow L;
  fpi := S754_finite false 7074237752028440 (-51); finf := S754_infinity false;
  fminimum := dmin; fmaximum := dmax; flt := SFltb; ftrue := dtrue;
  np_sum := s_sum S; np_dot := s_dot S;
  np_det := l_det L; np_inv := l_inv L;
  sadd := dadd; smul := dmul; sdiv := ddiv; ssum := s_sum S; sdot := s_dot S |}.

Lemma F64o_plain L S : Plain (F64o L S).
Proof. constructor; reflexivity. Qed.

(** [summed l z]: [z] comes from adding the terms [l] in some order, each once *)
Inductive summed : list f64 -> f64 -> Prop :=
| sum_none : summed [] (S754_zero false)
| sum_one x : summed [x] x
| sum_add a b l x y : a <> [] -> b <> [] -> summed a x -> summed b y -> Permutation l (a ++ b) ->
    summed l (dadd x y).
Definition any_order (S : Sums) : Prop :=
  (forall l, summed l (s_sum S l)) /\ (forall a b, summed (dprods a b) (s_dot S a b)).

(** from left to right *)
Definition left_right : Sums := mkSums dsum (fun a b => dsum (dprods a b)).
Lemma F64_left_right L : F64 L = F64o L left_right.
Proof. reflexivity. Qed.
Lemma dsum_summed l : summed l (dsum l).
Proof.
  destruct l as [|x l]; [constructor|]. cbn [dsum].
  assert (H : forall p z, p <> [] -> summed p z -> summed (p ++ l) (fold_left dadd l z)).
  { induction l as [|y l IH]; intros p z Hp Hz; cbn [fold_left]; [now rewrite app_nil_r|].
    change (y :: l) with ([y] ++ l). rewrite app_assoc. apply IH; [now destruct p|].
    apply (sum_add p [y]); auto; [discriminate|constructor]. }
  apply (H [x]); [discriminate|constructor].
Qed.
Lemma left_right_order : any_order left_right.
Proof. split; intros; apply dsum_summed. Qed.

