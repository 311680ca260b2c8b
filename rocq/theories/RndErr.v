(** * Rounding errors of the binary64 operations *)
From Coq Require Import ZArith Reals Lia Lra SpecFloat Psatz.
From Flocq Require Import Core Relative.
From Verif Require Import Num F64 Rnd.
Local Open Scope R_scope.

(** unit roundoff 2^-53 and half the smallest positive number, 2^-1075 *)
Definition u : R := bpow radix2 (-53).
Definition eta : R := bpow radix2 (-1075).
Lemma u_pos : 0 < u. Proof. apply bpow_gt_0. Qed.
Lemma eta_pos : 0 < eta. Proof. apply bpow_gt_0. Qed.
Lemma u_val : u = / 9007199254740992.
Proof. reflexivity. Qed.
Lemma eta_u e : (-1022 <= e)%Z -> eta <= u * bpow radix2 e.
Proof. intros H. unfold eta, u. rewrite <- bpow_plus. apply bpow_le. lia. Qed.

Lemma rnd_err x : Rabs (rnd x - x) <= u * Rabs x + eta.
Proof.
  destruct (error_N_FLT radix2 (-1074) 53 eq_refl (fun z => negb (Z.even z)) x) as (eps & et & H1 & H2 & _ & H3).
  unfold rnd. change (SpecFloat.fexp 53 1024) with (FLT_exp (-1074) 53). rewrite H3.
  replace (x * (1 + eps) + et - x) with (eps * x + et) by ring.
  eapply Rle_trans; [apply Rabs_triang|]. rewrite Rabs_mult.
  apply Rplus_le_compat.
  - apply Rmult_le_compat_r; [apply Rabs_pos|]. eapply Rle_trans; [exact H1|].
    change (/ 2) with (bpow radix2 (-1)). rewrite <- bpow_plus. apply Req_le. reflexivity.
  - eapply Rle_trans; [exact H2|]. change (/ 2) with (bpow radix2 (-1)). rewrite <- bpow_plus. apply Req_le. reflexivity.
Qed.
Lemma rnd_0 : rnd 0 = 0.
Proof. apply round_0. auto with typeclass_instances. Qed.
Lemma rnd_le x y : x <= y -> rnd x <= rnd y.
Proof. apply round_le; auto with typeclass_instances. Qed.
Lemma rnd_id x : fmt x -> rnd x = x.
Proof. apply round_generic. auto with typeclass_instances. Qed.
Lemma fmt_rnd x : fmt (rnd x).
Proof. apply generic_format_round; auto with typeclass_instances. Qed.
Lemma fmt_opp x : fmt x -> fmt (- x).
Proof. apply generic_format_opp. Qed.
Lemma fmt_bpow e : (-1074 <= e)%Z -> fmt (bpow radix2 e).
Proof.
  intros H. apply (@generic_format_FLT_bpow radix2 (-1074) 53 Hprec). exact H.
Qed.
(** a number that rounds from something not larger than a float is not larger either *)
Lemma rnd_abs_le x y : fmt y -> Rabs x <= y -> Rabs (rnd x) <= y.
Proof. intros. apply abs_round_le_generic; auto with typeclass_instances. Qed.
Lemma no_overflow_le x e : (-1074 <= e < 1024)%Z -> Rabs x <= bpow radix2 e -> no_overflow x.
Proof.
  intros He Hx. unfold no_overflow. apply Rle_lt_trans with (bpow radix2 e).
  - apply rnd_abs_le; auto. apply fmt_bpow. lia.
  - apply bpow_lt. lia.
Qed.

(** ** A float close to a real *)
Definition near (x : f64) (r e : R) : Prop := valid x /\ fin x /\ Rabs (rv x - r) <= e.
Definition top : R := bpow radix2 1000.
Lemma top_ok x : Rabs x <= top -> no_overflow x.
Proof. apply no_overflow_le. lia. Qed.
Lemma near_e x r e : near x r e -> 0 <= e.
Proof. intros (_ & _ & H). pose proof (Rabs_pos (rv x - r)). lra. Qed.
Lemma near_abs x r e : near x r e -> Rabs (rv x) <= Rabs r + e.
Proof.
  intros (_ & _ & H). replace (rv x) with (r + (rv x - r)) by ring. eapply Rle_trans; [apply Rabs_triang|]. lra.
Qed.
Lemma near_weaken x r e e' : near x r e -> e <= e' -> near x r e'.
Proof. intros (H1 & H2 & H) He. repeat split; auto. lra. Qed.
Lemma near_rnd (z : f64) s r e : valid z -> fin z -> rv z = rnd s -> Rabs (s - r) <= e ->
  near z r (e + u * (Rabs r + e) + eta).
Proof.
  intros Hv Hf Hz Hs. repeat split; auto. rewrite Hz.
  replace (rnd s - r) with ((rnd s - s) + (s - r)) by ring. eapply Rle_trans; [apply Rabs_triang|].
  pose proof (rnd_err s). assert (Rabs s <= Rabs r + e).
  { replace s with (r + (s - r)) by ring. eapply Rle_trans; [apply Rabs_triang|]. lra. }
  assert (u * Rabs s <= u * (Rabs r + e)) by (apply Rmult_le_compat_l; [apply Rlt_le, u_pos|auto]). lra.
Qed.
Lemma near_add x y a b ea eb : near x a ea -> near y b eb -> Rabs a + Rabs b + ea + eb <= top ->
  near (dadd x y) (a + b) (ea + eb + u * (Rabs (a + b) + (ea + eb)) + eta).
Proof.
  intros Hx Hy Ho. pose proof (near_abs _ _ _ Hx). pose proof (near_abs _ _ _ Hy).
  destruct Hx as (Vx & Fx & Ex), Hy as (Vy & Fy & Ey).
  destruct (dadd_ok x y) as (V & Fi & E); auto.
  { apply top_ok. eapply Rle_trans; [apply Rabs_triang|]. lra. }
  apply (near_rnd _ _ _ _ V Fi E). replace (rv x + rv y - (a + b)) with ((rv x - a) + (rv y - b)) by ring.
  eapply Rle_trans; [apply Rabs_triang|]. lra.
Qed.
Lemma near_sub x y a b ea eb : near x a ea -> near y b eb -> Rabs a + Rabs b + ea + eb <= top ->
  near (dsub x y) (a - b) (ea + eb + u * (Rabs (a - b) + (ea + eb)) + eta).
Proof.
  intros Hx Hy Ho. pose proof (near_abs _ _ _ Hx). pose proof (near_abs _ _ _ Hy).
  destruct Hx as (Vx & Fx & Ex), Hy as (Vy & Fy & Ey).
  destruct (dsub_ok x y) as (V & Fi & E); auto.
  { apply top_ok. unfold Rminus. eapply Rle_trans; [apply Rabs_triang|]. rewrite Rabs_Ropp. lra. }
  apply (near_rnd _ _ _ _ V Fi E). replace (rv x - rv y - (a - b)) with ((rv x - a) + - (rv y - b)) by ring.
  eapply Rle_trans; [apply Rabs_triang|]. rewrite Rabs_Ropp. lra.
Qed.
Lemma mul_err p q a b ea eb : Rabs (p - a) <= ea -> Rabs (q - b) <= eb ->
  Rabs (p * q - a * b) <= Rabs a * eb + Rabs b * ea + ea * eb.
Proof.
  intros Hp Hq. replace (p * q - a * b) with (a * (q - b) + b * (p - a) + (p - a) * (q - b)) by ring.
  eapply Rle_trans; [apply Rabs_triang|]. apply Rplus_le_compat.
  - eapply Rle_trans; [apply Rabs_triang|]. rewrite !Rabs_mult.
    apply Rplus_le_compat; apply Rmult_le_compat_l; auto; apply Rabs_pos.
  - rewrite Rabs_mult. apply Rmult_le_compat; auto; apply Rabs_pos.
Qed.
Lemma near_mul x y a b ea eb : near x a ea -> near y b eb -> (Rabs a + ea) * (Rabs b + eb) <= top ->
  let e := Rabs a * eb + Rabs b * ea + ea * eb in
  near (dmul x y) (a * b) (e + u * (Rabs (a * b) + e) + eta).
Proof.
  intros Hx Hy Ho e. pose proof (near_abs _ _ _ Hx). pose proof (near_abs _ _ _ Hy).
  destruct Hx as (Vx & Fx & Ex), Hy as (Vy & Fy & Ey).
  destruct (dmul_ok x y) as (V & Fi & E); auto.
  { apply top_ok. rewrite Rabs_mult. eapply Rle_trans; [|exact Ho]. apply Rmult_le_compat; auto; apply Rabs_pos. }
  apply (near_rnd _ _ _ _ V Fi E). now apply mul_err.
Qed.
Lemma near_Z z : (Z.abs z <= 2 ^ 53)%Z -> near (d_of_Z z) (IZR z) 0.
Proof.
  intros H. destruct (of_Z_ok z H) as (V & Fi & E). repeat split; auto. rewrite E, Rminus_eq_0, Rabs_R0. lra.
Qed.
Lemma near_exact x : valid x -> fin x -> near x (rv x) 0.
Proof. intros. repeat split; auto. rewrite Rminus_eq_0, Rabs_R0. lra. Qed.
(** division by a whole number *)
Lemma near_div_Z x a e n : near x a e -> (0 < n <= 2 ^ 53)%Z -> Rabs a + e <= top ->
  near (ddiv x (d_of_Z n)) (a / IZR n) (e / IZR n + u * (Rabs (a / IZR n) + e / IZR n) + eta).
Proof.
  intros Hx Hn Ho. pose proof (near_abs _ _ _ Hx). destruct Hx as (Vx & Fx & Ex).
  destruct (of_Z_ok n) as (Vn & Fn & En); [lia|].
  assert (Hp : 1 <= IZR n) by (apply IZR_le; lia).
  destruct (ddiv_ok x (d_of_Z n)) as (V & Fi & E); auto.
  { rewrite En. lra. }
  { apply top_ok. rewrite En. unfold Rdiv. rewrite Rabs_mult, Rabs_inv, (Rabs_pos_eq (IZR n)) by lra.
    apply Rle_trans with (Rabs (rv x) * 1); [|lra]. apply Rmult_le_compat_l; [apply Rabs_pos|].
    rewrite <- Rinv_1. apply Rinv_le_contravar; lra. }
  rewrite En in E. apply (near_rnd _ _ _ _ V Fi E).
  replace (rv x / IZR n - a / IZR n) with ((rv x - a) / IZR n) by (field; lra).
  unfold Rdiv. rewrite Rabs_mult, Rabs_inv, (Rabs_pos_eq (IZR n)) by lra.
  apply Rmult_le_compat_r; auto. left. apply Rinv_0_lt_compat. lra.
Qed.
