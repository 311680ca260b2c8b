(** * C98, batches: every sample a cluster of its own *)
From Coq Require Import ZArith List Arith Bool Lia SpecFloat Permutation Reals Lra.
From Flocq Require Import Core BinarySingleNaN.
From Verif Require Import Num NumPy Base GetCvi Lists Step StepB Stream Generic F64 F64o F32d XR P_Sign Alone P_Alone Rnd Scal AloneB.
Import ListNotations.
Local Open Scope nat_scope.

(** ** A number minus itself divided by one *)
Definition plus0_or_nan (x : f64) : Prop := x = S754_zero false \/ x = S754_nan.
Lemma no_overflow_rv x : valid x -> no_overflow (rv x).
Proof.
  intros V. unfold no_overflow, rnd. rewrite round_generic; [|apply valid_rnd_N|now apply fmt_rv].
  rewrite <- (B2R_rv x V). apply abs_B2R_lt_emax.
Qed.
Lemma rnd_rv x : valid x -> rnd (rv x) = rv x.
Proof. intros V. apply round_generic; [apply valid_rnd_N|now apply fmt_rv]. Qed.
Lemma same_finite s m e y : valid (S754_finite s m e) -> valid y -> fin y -> rv y = rv (S754_finite s m e) -> y = S754_finite s m e.
Proof.
  intros V Vy Fy E. apply rel_0. split; [auto|split; auto].
  assert (Nz : rv (S754_finite s m e) <> 0%R).
  { unfold rv. cbn [SF2R]. intros H. apply eq_0_F2R in H. destruct s; discriminate. }
  destruct y as [?|?| |s' m' e']; try discriminate Fy.
  - exfalso. apply Nz. rewrite <- E. reflexivity.
  - cbn -[rv]. rewrite E. ring.
Qed.
Lemma of_Z_1 : valid (d_of_Z 1) /\ fin (d_of_Z 1) /\ rv (d_of_Z 1) = 1%R.
Proof. apply of_Z_ok. lia. Qed.
Lemma ddiv_one x : valid x -> ddiv x (d_of_Z 1) = x.
Proof.
  intros V. destruct of_Z_1 as (V1 & F1 & R1).
  destruct x as [[]|[]| |s m e]; try reflexivity.
  destruct (ddiv_ok (S754_finite s m e) (d_of_Z 1)) as (Vy & Fy & Ey); auto; rewrite ?R1; [lra| |].
  - replace (rv (S754_finite s m e) / 1)%R with (rv (S754_finite s m e)) by field. now apply no_overflow_rv.
  - apply same_finite; auto. rewrite Ey, R1. replace (rv (S754_finite s m e) / 1)%R with (rv (S754_finite s m e)) by field. now apply rnd_rv.
Qed.
Lemma dmul_one x : valid x -> dmul x (d_of_Z 1) = x.
Proof.
  intros V. destruct of_Z_1 as (V1 & F1 & R1).
  destruct x as [[]|[]| |s m e]; try reflexivity.
  destruct (dmul_ok (S754_finite s m e) (d_of_Z 1)) as (Vy & Fy & Ey); auto; rewrite ?R1.
  - rewrite Rmult_1_r. now apply no_overflow_rv.
  - apply same_finite; auto. rewrite Ey, R1, Rmult_1_r. now apply rnd_rv.
Qed.
Lemma dsub_self x : plus0_or_nan (dsub x x).
Proof.
  destruct x as [[]|[]| |s m e]; try (now left); try (now right).
  left. unfold dsub, SFsub. cbv zeta. rewrite Z.sub_diag. reflexivity.
Qed.
Lemma summed_one l z : summed l z -> forall x, l = [x] -> z = x.
Proof.
  destruct 1 as [|y|a b l x y Ha Hb _ _ P]; intros w E; [discriminate|congruence|].
  exfalso. subst l. apply Permutation_length in P. rewrite app_length in P. destruct a, b; try congruence; cbn in P; lia.
Qed.
Lemma summed32_one l z : summed32 l z -> forall x, l = [x] -> z = x.
Proof.
  destruct 1 as [|y|a b l x y Ha Hb _ _ P]; intros w E; [discriminate|congruence|].
  exfalso. subst l. apply Permutation_length in P. rewrite app_length in P. destruct a, b; try congruence; cbn in P; lia.
Qed.

(** what an array of dtype float32 holds, as float64 *)
Definition is_float32 (x : f64) : Prop := valid x /\ r32 x = x.

Section Two.
  Context (L : Libm) (S : Sums) (HS : any_order S).
  Lemma plus0_plus x : plus0_or_nan x -> nan_or_plus x.
  Proof. intros [->| ->]; reflexivity. Qed.
  Lemma plus0_zero x : plus0_or_nan x <-> zero_or_nan x /\ nan_or_plus x.
  Proof.
    split; [intros [->| ->]; split; reflexivity || exact I|].
    intros [H1 H2]. destruct x as [s|s| |s m e]; try destruct H1; cbn in H2; subst; [now left|now right].
  Qed.
  Lemma nat_plus k : nan_or_plus (d_of_Z (Z.of_nat k)).
  Proof. apply normalize_plus. lia. Qed.
  Lemma F64o_pluses : Pluses (F64o L S) zero_or_nan (eq S754_nan) not_minus inf_or_nan plus0_or_nan valid.
  Proof.
    destruct HS as [HS1 _].
    constructor; cbn [F64o F f_of_Z fadd fsub fmul fdiv fsqrt fminimum fmaximum np_sum sdiv ssum f_of_nat f0 f1 f2 fsq].
    - intros a Ha. now apply plus0_zero in Ha.
    - now left.
    - intros a b [->| ->] [->| ->]; first [now left|now right].
    - intros a [->| ->]; first [now left|now right].
    - intros a k Ha. apply plus0_zero in Ha as [H1 H2]. apply plus0_zero. split; [now apply zero_div|apply ddiv_plus; auto using nat_plus].
    - intros a [->| ->]; first [now left|now right].
    - intros a b [->| ->] [->| ->]; first [now left|now right].
    - intros a b [->| ->] [->| ->]; first [now left|now right].
    - intros l Hl. apply plus0_zero. split.
      + apply (summed_zero l); [apply HS1|]. eapply Forall_impl; [|exact Hl]. intros a Ha. now apply plus0_zero in Ha.
      + apply (summed_plus l); [apply HS1|]. eapply Forall_impl; [|exact Hl]. intros a Ha. now apply plus0_zero in Ha.
    - intros a b [->| ->] [->| ->]; reflexivity.
    - intros b w m [->| ->] _; symmetry; [apply over_zero, zero_div; exact I|]. destruct b; reflexivity.
    - intros [[]|[]| |[] m e] H; try exact I; try destruct H.
    - intros a b Ha [->| ->]; [|right; now destruct a]. exact (q_inf _ _ _ _ _ (F64o_zeros L S HS) a Ha).
    - intros a Va. rewrite (summed_one [a] _ (HS1 [a]) a eq_refl). change (Z.of_nat 1) with 1%Z.
      rewrite ddiv_one, dmul_one by auto. apply dsub_self.
  Qed.
  Lemma F32d_pluses T : any_order32 T ->
    Pluses (F32d L S T) zero_or_nan (eq S754_nan) not_minus inf_or_nan plus0_or_nan is_float32.
  Proof.
    intros [HT _]. destruct F64o_pluses. constructor; try assumption.
    cbn [F32d F f_of_Z fadd fsub fmul fdiv sdiv ssum f_of_nat f0 f1].
    intros a [Va Ra]. rewrite (summed32_one [a] _ (HT [a]) a eq_refl). change (Z.of_nat 1) with 1%Z.
    unfold div32. rewrite ddiv_one, Ra, dmul_one by auto. apply dsub_self.
  Qed.
End Two.

Lemma XR_pluses : Pluses XR (fun x => x = Fin 0 \/ x = NaN) (eq NaN) x_not_minus (fun x => x = PInf \/ x = NaN)
  (fun x => x = Fin 0 \/ x = NaN) (fun _ => True).
Proof.
  assert (E0 : inf_mul 0 = NaN) by (unfold inf_mul; destruct (Req_EM_T 0 0); [reflexivity|lra]).
  assert (E1 : inf_mul 1 = PInf) by (unfold inf_mul; destruct (Req_EM_T 1 0); [lra|]; destruct (Rlt_dec 0 1); [reflexivity|lra]).
  pose proof XR_zeros as HZ.
  constructor; try (apply HZ); auto; cbn [XR F f_of_Z fadd fsub fmul fdiv fsqrt fminimum fmaximum np_sum sdiv ssum f0 f1 f2 f_of_nat fsq].
  - intros a [->| ->]; cbn; auto. left. f_equal. ring.
  - intros a k. apply xzero_div.
  - intros a [->| ->]; cbn; auto. left. f_equal. ring.
  - intros a b [->| ->] [->| ->]; cbn; auto. destruct (Rle_dec 0 0); auto.
  - intros a b [->| ->] [->| ->]; cbn; auto. destruct (Req_EM_T 0 0); [now rewrite E0|lra].
  - intros b w m [->| ->] _; symmetry; [apply xover_zero, xzero_div; now left|]. destruct b; reflexivity.
  - intros [x| | |] H; cbn in *; auto. lra.
  - intros a b Ha [->| ->]; [|right; now destruct a]. exact (q_inf _ _ _ _ _ HZ a Ha).
  - intros a _. unfold xsum. cbn [fold_left].
    destruct a as [x| | |]; cbn; destruct (Req_EM_T 1 0); try lra; cbn; rewrite ?E1; cbn; rewrite ?E1; cbn; auto.
    left. f_equal. field.
Qed.

(** ** C98: one batch.  The labels are distinct, and need not be 0, 1, ...: a label
    that no sample has gives a cluster without samples. *)
Theorem C98_batch (L : Libm) (S : Sums) (c : kind) (d : nat) (s : list (vec (F64o L S) * Z)) :
  any_order S -> In c [kCH; kWB; kDB; kXB; kGD43; kGD53] ->
  Forall (fun p => length (fst p) = d) s -> Forall (fun p => Forall valid (fst p)) s -> NoDup (map snd s) -> 2 <= length s ->
  exists v : f64, results c new_obj [batch_of d s] = [Ok v] /\ trivial64 c v.
Proof.
  intros HS Hc Hw Hv Hn Hl.
  destruct (batch_alone _ _ _ _ _ _ (F64o_zeros L S HS) (F64o_pluses L S HS) c d s Hc Hw Hv Hn Hl) as (x & E & Hx).
  exists x. split; auto. destruct c; cbn in Hx |- *; auto.
Qed.
Print Assumptions C98_batch.
Theorem C98_batch_float32 (L : Libm) (S T : Sums) (c : kind) (d : nat) (s : list (vec (F32d L S T) * Z)) :
  any_order S -> any_order32 T -> In c [kCH; kWB; kDB; kXB; kGD43; kGD53] ->
  Forall (fun p => length (fst p) = d) s -> Forall (fun p => Forall is_float32 (fst p)) s -> NoDup (map snd s) -> 2 <= length s ->
  exists v : f64, results c new_obj [batch_of d s] = [Ok v] /\ trivial64 c v.
Proof.
  intros HS HT Hc Hw Hv Hn Hl.
  destruct (batch_alone _ _ _ _ _ _ (F32d_zeros L S T HS) (F32d_pluses L S HS T HT) c d s Hc Hw Hv Hn Hl) as (x & E & Hx).
  exists x. split; auto. destruct c; cbn in Hx |- *; auto.
Qed.
Print Assumptions C98_batch_float32.
Theorem C98_batch_exact (c : kind) (d : nat) (s : list (vec XR * Z)) :
  In c [kCH; kWB; kDB; kXB; kGD43; kGD53] ->
  Forall (fun p => length (fst p) = d) s -> NoDup (map snd s) -> 2 <= length s ->
  exists v : xr, results c new_obj [batch_of d s] = [Ok v] /\ trivialX c v.
Proof.
  intros Hc Hw Hn Hl.
  destruct (batch_alone _ _ _ _ _ _ XR_zeros XR_pluses c d s Hc Hw) as (x & E & Hx); auto.
  { apply Forall_forall. intros p _. apply Forall_forall. auto. }
  exists x. split; auto. destruct c; cbn in Hx |- *; auto.
Qed.
Print Assumptions C98_batch_exact.

(** the three samples of [apart3] labelled 2, 0, 1, and labelled 7, -2, 0; with the
    labels 7, -2, 0 two of the three clusters have no sample *)
Definition relabel (L : Libm) (ls : list Z) : list (vec (F64 L) * Z) := combine (map fst (apart3 L)) ls.
Theorem C98_batch_example (L : Libm) :
  Forall (fun p => length (fst p) = 2) (relabel L [2; 0; 1]%Z) /\ Forall (fun p => Forall valid (fst p)) (relabel L [2; 0; 1]%Z) /\
  Forall (fun p => Forall is_float32 (fst p)) (relabel L [2; 0; 1]%Z) /\
  NoDup (map snd (relabel L [2; 0; 1]%Z)) /\
  (let z := Ok (S754_zero false) in let n := Ok S754_nan in let i := Ok (S754_infinity false) in
   map (fun c => results c new_obj [batch_of 2 (relabel L [2; 0; 1]%Z)]) [kCH; kWB; kDB; kXB; kGD43; kGD53] =
   [[n]; [z]; [z]; [z]; [i]; [n]] /\
   map (fun c => results c new_obj [batch_of 2 (relabel L [7; -2; 0]%Z)]) [kCH; kWB; kDB; kXB; kGD43; kGD53] =
   [[n]; [n]; [n]; [n]; [n]; [n]]).
Proof.
  split; [repeat constructor|]. split; [repeat constructor|]. split; [repeat constructor|].
  split; [repeat constructor; cbn; intuition discriminate|]. split; vm_compute; reflexivity.
Qed.
Print Assumptions C98_batch_example.
