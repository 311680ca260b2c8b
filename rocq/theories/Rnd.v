(** * The binary64 operations as rounded real operations.

    [SpecFloat]'s operations agree with those of Flocq's [BinarySingleNaN] on
    valid operands, and Flocq proves the latter correctly rounded. *)
From Coq Require Import ZArith Reals Lia Lra SpecFloat Psatz.
From Flocq Require Import Core BinarySingleNaN Relative.
From Verif Require Import Num F64.
Local Open Scope R_scope.

Definition valid (x : f64) : Prop := valid_binary 53 1024 x = true.
Definition fin (x : f64) : Prop := is_finite_SF x = true.
(** the real number a float denotes (0 for inf and nan) *)
Definition rv (x : f64) : R := SF2R radix2 x.
Definition rnd (x : R) : R := round radix2 (SpecFloat.fexp 53 1024) ZnearestE x.
Notation fmt := (generic_format radix2 (SpecFloat.fexp 53 1024)).

Lemma Hprec : Prec_gt_0 53. Proof. reflexivity. Qed.
Lemma Hmax : Prec_lt_emax 53 1024. Proof. reflexivity. Qed.
#[local] Existing Instance Hprec.
#[local] Existing Instance Hmax.
Lemma fexp_FLT e : SpecFloat.fexp 53 1024 e = FLT_exp (-1074) 53 e.
Proof. reflexivity. Qed.
Global Instance vexp : Valid_exp (SpecFloat.fexp 53 1024).
Proof. exact (FLT_exp_valid (-1074) 53). Qed.

Lemma rne_equiv s m l : SpecFloat.round_nearest_even m l = choice_mode mode_NE s m l.
Proof. destruct l as [|[]]; cbn; try reflexivity. unfold Round.cond_incr. destruct (Z.even m); reflexivity. Qed.
Lemma round_aux_equiv sx mx ex lx :
  SpecFloat.binary_round_aux 53 1024 sx mx ex lx = binary_round_aux 53 1024 mode_NE sx mx ex lx.
Proof.
  unfold SpecFloat.binary_round_aux, binary_round_aux. destruct (shr_fexp _ _ _ _ _) as [mrs e].
  now rewrite (rne_equiv sx).
Qed.
Lemma normalize_equiv m e z :
  SpecFloat.binary_normalize 53 1024 m e z = B2SF (binary_normalize 53 1024 Hprec Hmax mode_NE m e z).
Proof.
  assert (H : forall s m, SpecFloat.binary_round 53 1024 s m e = binary_round 53 1024 mode_NE s m e).
  { intros s p. unfold SpecFloat.binary_round, binary_round, shl_align_fexp. destruct (shl_align _ _ _). apply round_aux_equiv. }
  destruct m; cbn -[SpecFloat.binary_round binary_round]; auto; rewrite B2SF_SF2B; apply H.
Qed.
Notation B := (SF2B (prec := 53) (emax := 1024)).
Lemma dadd_equiv x y (Hx : valid x) (Hy : valid y) : dadd x y = B2SF (Bplus mode_NE (B x Hx) (B y Hy)).
Proof.
  destruct x as [sx|sx| |sx mx ex], y as [sy|sy| |sy my ey]; try reflexivity; try (now destruct sx, sy).
  apply normalize_equiv.
Qed.
Lemma dsub_equiv x y (Hx : valid x) (Hy : valid y) : dsub x y = B2SF (Bminus mode_NE (B x Hx) (B y Hy)).
Proof.
  destruct x as [sx|sx| |sx mx ex], y as [sy|sy| |sy my ey]; try reflexivity; try (now destruct sx, sy).
  cbn. unfold Zminus. rewrite <- cond_Zopp_negb. apply normalize_equiv.
Qed.
Lemma dmul_equiv x y (Hx : valid x) (Hy : valid y) : dmul x y = B2SF (Bmult mode_NE (B x Hx) (B y Hy)).
Proof.
  destruct x as [sx|sx| |sx mx ex], y as [sy|sy| |sy my ey]; try reflexivity; try (now destruct sx, sy).
  cbn -[binary_round_aux SpecFloat.binary_round_aux]. rewrite B2SF_SF2B. apply round_aux_equiv.
Qed.
Lemma ddiv_equiv x y (Hx : valid x) (Hy : valid y) : ddiv x y = B2SF (Bdiv mode_NE (B x Hx) (B y Hy)).
Proof.
  destruct x as [sx|sx| |sx mx ex], y as [sy|sy| |sy my ey]; try reflexivity; try (now destruct sx, sy).
  cbn -[binary_round_aux SpecFloat.binary_round_aux SFdiv_core_binary]. rewrite B2SF_SF2B.
  destruct (SFdiv_core_binary 53 1024 (Z.pos mx) ex (Z.pos my) ey) as [[mz ez] lz]. apply round_aux_equiv.
Qed.

Lemma B2R_rv x H : B2R (B x H) = rv x.
Proof. now destruct x. Qed.
Lemma fin_B x H : is_finite (B x H) = is_finite_SF x.
Proof. now destruct x. Qed.
Lemma rv_B2SF (x : binary_float 53 1024) : rv (B2SF x) = B2R x.
Proof. apply SF2R_B2SF. Qed.
Lemma fin_B2SF (x : binary_float 53 1024) : is_finite_SF (B2SF x) = is_finite x.
Proof. apply is_finite_SF_B2SF. Qed.
Lemma valid_B2SF' (x : binary_float 53 1024) : valid (B2SF x).
Proof. apply valid_binary_B2SF. Qed.

Lemma fmt_rv x : valid x -> fmt (rv x).
Proof. intros H. rewrite <- (B2R_rv x H). apply generic_format_B2R. Qed.

(** ** The four operations and the conversion of integers *)
Definition no_overflow (x : R) : Prop := Rabs (rnd x) < bpow radix2 1024.
Lemma dadd_ok x y : valid x -> valid y -> fin x -> fin y -> no_overflow (rv x + rv y) ->
  valid (dadd x y) /\ fin (dadd x y) /\ rv (dadd x y) = rnd (rv x + rv y).
Proof.
  intros Hx Hy Fx Fy Ho. rewrite (dadd_equiv x y Hx Hy). split; [apply valid_B2SF'|].
  unfold fin. rewrite fin_B2SF, rv_B2SF.
  pose proof (Bplus_correct 53 1024 _ _ mode_NE (B x Hx) (B y Hy)) as H. rewrite !fin_B, !B2R_rv in H.
  specialize (H Fx Fy). rewrite Rlt_bool_true in H by exact Ho. split; apply H.
Qed.
Lemma dsub_ok x y : valid x -> valid y -> fin x -> fin y -> no_overflow (rv x - rv y) ->
  valid (dsub x y) /\ fin (dsub x y) /\ rv (dsub x y) = rnd (rv x - rv y).
Proof.
  intros Hx Hy Fx Fy Ho. rewrite (dsub_equiv x y Hx Hy). split; [apply valid_B2SF'|].
  unfold fin. rewrite fin_B2SF, rv_B2SF.
  pose proof (Bminus_correct 53 1024 _ _ mode_NE (B x Hx) (B y Hy)) as H. rewrite !fin_B, !B2R_rv in H.
  specialize (H Fx Fy). rewrite Rlt_bool_true in H by exact Ho. split; apply H.
Qed.
Lemma dmul_ok x y : valid x -> valid y -> fin x -> fin y -> no_overflow (rv x * rv y) ->
  valid (dmul x y) /\ fin (dmul x y) /\ rv (dmul x y) = rnd (rv x * rv y).
Proof.
  intros Hx Hy Fx Fy Ho. rewrite (dmul_equiv x y Hx Hy). split; [apply valid_B2SF'|].
  unfold fin. rewrite fin_B2SF, rv_B2SF.
  pose proof (Bmult_correct 53 1024 _ _ mode_NE (B x Hx) (B y Hy)) as H. rewrite !fin_B, !B2R_rv in H.
  rewrite Rlt_bool_true in H by exact Ho. destruct H as (H1 & H2 & _). rewrite H2, Fx, Fy. split; auto.
Qed.
Lemma ddiv_ok x y : valid x -> valid y -> fin x -> rv y <> 0 -> no_overflow (rv x / rv y) ->
  valid (ddiv x y) /\ fin (ddiv x y) /\ rv (ddiv x y) = rnd (rv x / rv y).
Proof.
  intros Hx Hy Fx Ny Ho. rewrite (ddiv_equiv x y Hx Hy). split; [apply valid_B2SF'|].
  unfold fin. rewrite fin_B2SF, rv_B2SF.
  pose proof (Bdiv_correct 53 1024 _ _ mode_NE (B x Hx) (B y Hy)) as H. rewrite !B2R_rv in H.
  specialize (H Ny). rewrite Rlt_bool_true in H by exact Ho. destruct H as (H1 & H2 & _). rewrite H2, fin_B. auto.
Qed.
Lemma of_Z_ok z : (Z.abs z <= 2 ^ 53)%Z ->
  valid (d_of_Z z) /\ fin (d_of_Z z) /\ rv (d_of_Z z) = IZR z.
Proof.
  intros Hz. unfold d_of_Z. rewrite normalize_equiv. split; [apply valid_B2SF'|].
  unfold fin. rewrite fin_B2SF, rv_B2SF.
  pose proof (binary_normalize_correct 53 1024 _ _ mode_NE z 0 false) as H. cbv zeta in H.
  assert (E : F2R (Float radix2 z 0) = IZR z) by (unfold F2R; cbn; ring). rewrite E in H.
  assert (Hf : fmt (IZR z)).
  { rewrite <- E. apply (generic_format_FLT radix2 (-1074) 53).
    destruct (Z.eq_dec (Z.abs z) (2 ^ 53)) as [Eq|Ne].
    - destruct (Z.abs_or_opp_abs z) as [Es|Es]; rewrite Es, Eq.
      + exists (Float radix2 1 53); [now rewrite <- F2R_change_exp with (e' := 0%Z) (e := 53%Z) (m := 1%Z)|reflexivity|cbn; lia].
      + exists (Float radix2 (-1) 53); [now rewrite <- F2R_change_exp with (e' := 0%Z) (e := 53%Z) (m := (-1)%Z)|reflexivity|cbn; lia].
    - exists (Float radix2 z 0); [reflexivity| |cbn; lia]. cbn [Fnum]. change (radix2 ^ 53)%Z with (2 ^ 53)%Z. lia. }
  rewrite (round_generic radix2 (SpecFloat.fexp 53 1024) (round_mode mode_NE) _ Hf) in H.
  rewrite Rlt_bool_true in H.
  - split; apply H.
  - rewrite <- abs_IZR. apply Rle_lt_trans with (IZR (2 ^ 53)); [now apply IZR_le|].
    rewrite <- (IZR_Zpower radix2) by lia. apply IZR_lt. reflexivity.
Qed.
