(** * Bounds of computed numbers: lemmas about binary64 operations, sums in any order *)
From Coq Require Import ZArith Lia Lra SpecFloat List Arith Reals Permutation.
From Flocq Require Import Core BinarySingleNaN.
From Verif Require Import Num NumPy F64 F64o Rnd RndErr RndSel P_Sign.
Import ListNotations.
Local Open Scope R_scope.
Local Notation R := Rdefinitions.R.

Lemma valid_add x y : valid x -> valid y -> valid (dadd x y).
Proof. intros Hx Hy. rewrite (dadd_equiv x y Hx Hy). apply valid_B2SF'. Qed.
Lemma valid_sub x y : valid x -> valid y -> valid (dsub x y).
Proof. intros Hx Hy. rewrite (dsub_equiv x y Hx Hy). apply valid_B2SF'. Qed.
Lemma valid_mul x y : valid x -> valid y -> valid (dmul x y).
Proof. intros Hx Hy. rewrite (dmul_equiv x y Hx Hy). apply valid_B2SF'. Qed.
Lemma valid_div x y : valid x -> valid y -> valid (ddiv x y).
Proof. intros Hx Hy. rewrite (ddiv_equiv x y Hx Hy). apply valid_B2SF'. Qed.
Lemma valid_Z z : valid (d_of_Z z).
Proof. unfold d_of_Z. rewrite (normalize_equiv z 0 false). apply valid_B2SF'. Qed.
Lemma valid_min x y : valid x -> valid y -> valid (dmin x y).
Proof. intros Hx Hy. unfold dmin. destruct (SFcompare x y) as [[]|]; auto. reflexivity. Qed.
Lemma valid_max x y : valid x -> valid y -> valid (dmax x y).
Proof. intros Hx Hy. unfold dmax. destruct (SFcompare x y) as [[]|]; auto. reflexivity. Qed.
Lemma valid_summed l z : summed l z -> Forall valid l -> valid z.
Proof.
  induction 1 as [|x|a b l x y _ _ _ IHa _ IHb P]; intros HF; [reflexivity|now inversion HF|].
  rewrite P in HF. apply Forall_app in HF as [HA HB]. apply valid_add; auto.
Qed.

(** the three kinds of nonnegative results *)
Lemma plus_cases x : nan_or_plus x -> x = S754_nan \/ x = S754_infinity false \/ (fin x /\ 0 <= rv x).
Proof.
  destruct x as [s|s| |s m e]; cbn; intros H; subst; auto.
  - right. right. split; [reflexivity|]. unfold rv. cbn. lra.
  - right. right. split; [reflexivity|]. unfold rv. cbn. apply F2R_ge_0. cbn. lia.
Qed.
Lemma fin_zero x : fin x -> rv x = 0 -> exists s, x = S754_zero s.
Proof.
  destruct x as [s|s| |s m e]; cbn; intros Hf H; try discriminate; eauto.
  exfalso. unfold rv in H. cbn in H. apply eq_0_F2R in H. destruct s; discriminate.
Qed.
Lemma no_overflow_fmt x y : fmt y -> Rabs x <= y -> y < bpow radix2 1024 -> no_overflow x.
Proof. intros Hy H Ht. unfold no_overflow. eapply Rle_lt_trans; [apply (rnd_abs_le x y Hy H)|exact Ht]. Qed.
Lemma fin_top x : valid x -> fin x -> Rabs (rv x) < bpow radix2 1024.
Proof.
  intros V Fi. pose proof (abs_B2R_lt_emax 53 1024 (B x V)) as H. now rewrite B2R_rv in H.
Qed.

(** not a number, or a finite number of absolute value at most M *)
Definition bounded (M : R) (x : f64) : Prop := x = S754_nan \/ (valid x /\ fin x /\ Rabs (rv x) <= M).

Lemma nan_add_l y : dadd S754_nan y = S754_nan. Proof. reflexivity. Qed.
Lemma nan_add_r x : dadd x S754_nan = S754_nan. Proof. now destruct x as [[]|[]| |]. Qed.
Lemma nan_sub_l y : dsub S754_nan y = S754_nan. Proof. reflexivity. Qed.
Lemma nan_sub_r x : dsub x S754_nan = S754_nan. Proof. now destruct x as [[]|[]| |]. Qed.
Lemma nan_div_l y : ddiv S754_nan y = S754_nan. Proof. reflexivity. Qed.
Lemma nan_div_r x : ddiv x S754_nan = S754_nan. Proof. now destruct x as [[]|[]| |]. Qed.

Lemma fmt_nat n : (Z.of_nat n <= 2 ^ 53)%Z -> fmt (INR n).
Proof. intros H. rewrite INR_IZR_INZ. destruct (of_Z_ok (Z.of_nat n)) as (V & _ & <-); [lia|]. now apply fmt_rv. Qed.
Lemma nat_top n : (Z.of_nat n <= 2 ^ 53)%Z -> INR n < bpow radix2 1024.
Proof.
  intros H. rewrite INR_IZR_INZ. apply Rle_lt_trans with (IZR (2 ^ 53)); [now apply IZR_le|].
  change (IZR (2 ^ 53)) with (bpow radix2 53). apply bpow_lt. lia.
Qed.
Lemma bounded_add x y a b : bounded (INR a) x -> bounded (INR b) y -> (Z.of_nat (a + b) <= 2 ^ 53)%Z -> bounded (INR (a + b)) (dadd x y).
Proof.
  intros [->|(Vx & Fx & Hx)] [->|(Vy & Fy & Hy)] Hn; try (left; (apply nan_add_l || apply nan_add_r)).
  right. assert (H : Rabs (rv x + rv y) <= INR (a + b)).
  { rewrite plus_INR. eapply Rle_trans; [apply Rabs_triang|]. lra. }
  destruct (dadd_ok x y Vx Vy Fx Fy) as (V & Fi & E); [apply (no_overflow_fmt _ _ (fmt_nat _ Hn) H (nat_top _ Hn))|].
  split; auto. split; auto. rewrite E. apply rnd_abs_le; auto. now apply fmt_nat.
Qed.
(** a sum of n numbers of absolute value at most 1 *)
Lemma bounded_sum l z : summed l z -> Forall (bounded 1) l -> (Z.of_nat (length l) <= 2 ^ 53)%Z -> bounded (INR (length l)) z.
Proof.
  induction 1 as [|x|a b l x y _ _ Ha IHa Hb IHb P]; intros HF Hn.
  - right. split; [reflexivity|]. split; [reflexivity|]. unfold rv. cbn. rewrite Rabs_R0. lra.
  - inversion HF; subst. exact H1.
  - rewrite P in HF. apply Forall_app in HF as [HA HB]. rewrite (Permutation_length P), app_length in *.
    apply bounded_add; auto; [apply IHa|apply IHb]; auto; lia.
Qed.
(** ... divided by n *)
Lemma bounded_mean z k : bounded (INR k) z -> (0 < Z.of_nat k <= 2 ^ 53)%Z -> bounded 1 (ddiv z (d_of_Z (Z.of_nat k))).
Proof.
  intros [->|(V & Fi & H)] Hk; [left; apply nan_div_l|].
  destruct (of_Z_ok (Z.of_nat k)) as (Vk & Fk & Ek); [lia|]. rewrite <- INR_IZR_INZ in Ek.
  assert (Pk : 0 < INR k) by (rewrite INR_IZR_INZ; apply IZR_lt; lia).
  assert (H1 : Rabs (rv z / rv (d_of_Z (Z.of_nat k))) <= 1).
  { rewrite Ek. unfold Rdiv. rewrite Rabs_mult, (Rabs_pos_eq (/ INR k)) by (left; now apply Rinv_0_lt_compat).
    apply Rmult_le_reg_r with (INR k); auto. rewrite Rmult_assoc, Rinv_l by lra. lra. }
  assert (F1 : fmt 1) by (change 1 with (bpow radix2 0); apply fmt_bpow; lia).
  destruct (ddiv_ok z (d_of_Z (Z.of_nat k)) V Vk Fi) as (V' & Fi' & E'); [lra| |].
  - apply (no_overflow_fmt _ 1); auto. change 1 with (bpow radix2 0) at 1. apply bpow_lt. lia.
  - right. split; auto. split; auto. rewrite E'. now apply rnd_abs_le.
Qed.

Lemma max_ok x y : valid x -> valid y -> fin x -> fin y -> valid (dmax x y) /\ fin (dmax x y) /\ rv (dmax x y) = Rmax (rv x) (rv y).
Proof.
  intros Vx Vy Fx Fy. unfold dmax. rewrite (cmp_ok x y) by auto. destruct (Rcompare_spec (rv x) (rv y)) as [H|H|H].
  - rewrite Rmax_right by lra. auto.
  - rewrite Rmax_left by lra. auto.
  - rewrite Rmax_left by lra. auto.
Qed.
(** (b - a) / max(a, b) *)
Lemma bounded_coef a b : valid a -> valid b -> nan_or_plus a -> nan_or_plus b -> bounded 1 (ddiv (dsub b a) (dmax a b)).
Proof.
  intros Va Vb Pa Pb.
  destruct (plus_cases a Pa) as [->|[->|[Fa Ra]]].
  { left. now rewrite nan_sub_r. }
  { left. destruct (plus_cases b Pb) as [->|[->|[Fb Rb]]]; [reflexivity|reflexivity|]. now destruct b as [[]| | |[]]. }
  destruct (plus_cases b Pb) as [->|[->|[Fb Rb]]].
  { left. reflexivity. }
  { left. now destruct a as [[]| | |[]]. }
  destruct (max_ok a b Va Vb Fa Fb) as (Vm & Fm & Em).
  assert (Hm : Rabs (rv b - rv a) <= rv (dmax a b)).
  { rewrite Em. apply Rabs_le. pose proof (Rmax_l (rv a) (rv b)). pose proof (Rmax_r (rv a) (rv b)). lra. }
  destruct (dsub_ok b a Vb Va Fb Fa) as (Vs & Fs & Es).
  { apply (no_overflow_fmt _ _ (fmt_rv _ Vm) Hm). eapply Rle_lt_trans; [apply Rle_abs|]. now apply fin_top. }
  assert (Hs : Rabs (rv (dsub b a)) <= rv (dmax a b)) by (rewrite Es; apply rnd_abs_le; auto; now apply fmt_rv).
  destruct (Req_dec (rv (dmax a b)) 0) as [H0|H0].
  - left. rewrite H0 in Hs. pose proof (Rabs_pos (rv (dsub b a))).
    destruct (fin_zero _ Fm H0) as [s ->]. destruct (fin_zero _ Fs) as [s' ->].
    { apply Rabs_eq_R0. lra. }
    now destruct s, s'.
  - assert (Pm : 0 < rv (dmax a b)) by (pose proof (Rabs_pos (rv b - rv a)); lra).
    assert (H1 : Rabs (rv (dsub b a) / rv (dmax a b)) <= 1).
    { unfold Rdiv. rewrite Rabs_mult, (Rabs_pos_eq (/ _)) by (left; now apply Rinv_0_lt_compat).
      apply Rmult_le_reg_r with (rv (dmax a b)); auto. rewrite Rmult_assoc, Rinv_l by lra. lra. }
    assert (F1 : fmt 1) by (change 1 with (bpow radix2 0); apply fmt_bpow; lia).
    destruct (ddiv_ok _ (dmax a b) Vs Vm Fs H0) as (V' & Fi' & E').
    + apply (no_overflow_fmt _ 1); auto. change 1 with (bpow radix2 0) at 1. apply bpow_lt. lia.
    + right. split; auto. split; auto. rewrite E'. now apply rnd_abs_le.
Qed.
