(** * Rounding errors of sums with known terms, quotients, square roots, minima and maxima *)
From Coq Require Import ZArith Reals Lia Lra SpecFloat Psatz List Permutation.
From Flocq Require Import Core Relative.
From Verif Require Import Num F64 F64o Rnd RndErr RndMean RndSum RndCP RndCP3.
Import ListNotations.
Local Open Scope R_scope.

Lemma rsum_pos l : Forall (fun x => 0 <= x) l -> 0 <= rsum l.
Proof. induction 1; cbn [rsum fold_right]; [lra|]. unfold rsum in *. lra. Qed.
Lemma rsum_le {X} (f g : X -> R) l : (forall x, In x l -> f x <= g x) -> rsum (map f l) <= rsum (map g l).
Proof.
  induction l as [|a l IH]; intros H; cbn [map rsum fold_right]; [lra|]. pose proof (H a ltac:(now left)).
  assert (rsum (map f l) <= rsum (map g l)) by (apply IH; intros; apply H; now right). unfold rsum in *. lra.
Qed.
Lemma rsum_scal {X} c (f : X -> R) l : rsum (map (fun x => c * f x) l) = c * rsum (map f l).
Proof. induction l as [|a l IH]; cbn [map rsum fold_right]; [ring|]. unfold rsum in IH. rewrite IH. ring. Qed.

(** ** Sums from left to right, starting at 0 *)
Lemma near_fold {X} (f : X -> f64) (r e : X -> R) M xs : low <= M <= high -> forall acc a ea k, 0 <= k ->
  u * (k + INR (length xs)) <= / 32 ->
  near acc a (ea + 2 * u * M * k) -> 0 <= ea -> (forall x, In x xs -> near (f x) (r x) (e x)) ->
  Rabs a + ea + rsum (map (fun x => Rabs (r x) + e x) xs) <= M ->
  near (fold_left dadd (map f xs) acc) (a + rsum (map r xs)) (ea + rsum (map e xs) + 2 * u * M * (k + INR (length xs))).
Proof.
  intros HM. induction xs as [|x xs IH]; intros acc a ea k Hk Hu Ha Hea Hn HS.
  - cbn [map fold_left rsum fold_right length INR] in *. eapply near_weaken.
    + replace (a + 0) with a by ring. exact Ha.
    + right. ring.
  - cbn [map fold_left length] in *. rewrite S_INR in *.
    assert (Nx := Hn x ltac:(now left)). pose proof (near_e _ _ _ Nx) as Ex.
    change (rsum ((Rabs (r x) + e x) :: map (fun x => Rabs (r x) + e x) xs)) with ((Rabs (r x) + e x) + rsum (map (fun x => Rabs (r x) + e x) xs)) in HS.
    change (rsum (r x :: map r xs)) with (r x + rsum (map r xs)). change (rsum (e x :: map e xs)) with (e x + rsum (map e xs)).
    assert (P0 : 0 <= rsum (map (fun x => Rabs (r x) + e x) xs)).
    { apply rsum_pos, Forall_map, Forall_forall. intros y Hy. pose proof (near_e _ _ _ (Hn y ltac:(now right))). pose proof (Rabs_pos (r y)). lra. }
    pose proof (Rabs_pos a) as A0. pose proof (Rabs_pos (r x)) as R0. pose proof (pos_INR (length xs)) as L0.
    destruct HM as [M1 M2]. pose proof low_pos as Lp. pose proof u_small as [U1 U2]. destruct (eta_B M M1) as [_ He].
    set (t := u * M) in *. assert (Ht : 0 < t) by (apply Rmult_lt_0_compat; lra).
    assert (HtM : t <= / 1000000 * M) by (apply Rmult_le_compat_r; lra).
    replace (2 * u * M) with (2 * t) in * by (unfold t; ring).
    replace (u * u * M) with (u * t) in He by (unfold t; ring).
    assert (K1 : 2 * t * k <= / 16 * M).
    { replace (2 * t * k) with (2 * (u * k) * M) by (unfold t; ring). apply Rmult_le_compat_r; [lra|].
      rewrite Rmult_plus_distr_l in Hu. assert (0 <= u * (INR (length xs) + 1)) by (apply Rmult_le_pos; lra). lra. }
    assert (K0 : 0 <= 2 * t * k) by (apply Rmult_le_pos; lra).
    assert (UT : u * t <= / 1000000 * t) by (apply Rmult_le_compat_r; lra).
    replace (a + (r x + rsum (map r xs))) with ((a + r x) + rsum (map r xs)) by ring.
    replace (ea + (e x + rsum (map e xs)) + 2 * t * (k + (INR (length xs) + 1))) with ((ea + e x) + rsum (map e xs) + 2 * t * ((k + 1) + INR (length xs))) by ring.
    pose proof (Rabs_triang a (r x)) as Tr.
    apply IH; try lra.
    + eapply near_weaken; [apply near_add; [exact Ha|exact Nx|]|].
      * pose proof high_top. assert (0 < high) by apply bpow_gt_0. lra.
      * assert (u * (Rabs (a + r x) + (ea + 2 * t * k + e x)) <= u * (17 / 16 * M)) by (apply Rmult_le_compat_l; lra).
        replace (u * (17 / 16 * M)) with (17 / 16 * t) in H by (unfold t; ring). lra.
    + intros y Hy. apply Hn. now right.
Qed.
Lemma near_psum {X} (f : X -> f64) (r e : X -> R) M xs : low <= M <= high -> u * INR (length xs) <= / 32 ->
  (forall x, In x xs -> near (f x) (r x) (e x)) -> rsum (map (fun x => Rabs (r x) + e x) xs) <= M ->
  near (fold_left dadd (map f xs) (d_of_Z 0)) (rsum (map r xs)) (rsum (map e xs) + 2 * u * M * INR (length xs)).
Proof.
  intros HM Hu Hn HS. pose proof (near_fold f r e M xs HM (d_of_Z 0) 0 0 0) as H.
  rewrite !Rplus_0_l in H. apply H; auto; try lra.
  - eapply near_weaken; [apply near_Z0|]. right. ring.
  - rewrite Rabs_R0. lra.
Qed.

(** squares are never -0, so adding them to 0 first changes nothing *)
Lemma psum_squares l : l <> [] -> fold_left dadd (map (fun x => dmul x x) l) (d_of_Z 0) = dsum (map (fun x => dmul x x) l).
Proof.
  destruct l as [|x l]; [congruence|]. intros _. cbn [map fold_left dsum]. f_equal.
  change (d_of_Z 0) with (S754_zero false). unfold dadd, SFadd.
  destruct (dmul x x) as [s| | |s m e] eqn:E; auto. destruct s; auto. exfalso.
  revert E. unfold dmul, SFmul. destruct x as [s|s| |s m e]; try discriminate; try (destruct s; discriminate).
  rewrite Bool.xorb_nilpotent. unfold binary_round_aux. destruct (shr_fexp _ _ _ _ _). destruct (shr_fexp _ _ _ _ _).
  destruct (shr_m s1); try discriminate. destruct (_ <=? _)%Z; discriminate.
Qed.

(** ** Quotients *)
Lemma quot_err x y a c ea ec : Rabs (x - a) <= ea -> Rabs (y - c) <= ec -> 0 <= a -> 0 < c -> 4 * ec <= c ->
  3 / 4 * c <= y /\ Rabs (x / y - a / c) <= 4 / 3 * ((ea + a / c * ec) / c).
Proof.
  intros Hx Hy Ha Hc H4.
  assert (Y : 3 / 4 * c <= y).
  { apply Rabs_le_inv in Hy. lra. }
  assert (Y0 : 0 < y) by lra. split; [exact Y|].
  assert (Q0 : 0 <= a / c) by (apply Rmult_le_pos; [lra|left; now apply Rinv_0_lt_compat]).
  replace (x / y - a / c) with (((x - a) - a / c * (y - c)) * / y) by (field; lra).
  rewrite Rabs_mult, (Rabs_pos_eq (/ y)) by (left; now apply Rinv_0_lt_compat).
  assert (N : Rabs (x - a - a / c * (y - c)) <= ea + a / c * ec).
  { unfold Rminus at 1. eapply Rle_trans; [apply Rabs_triang|]. rewrite Rabs_Ropp, Rabs_mult, (Rabs_pos_eq (a / c)) by auto.
    apply Rplus_le_compat; [exact Hx|]. apply Rmult_le_compat_l; auto. }
  assert (I : / y <= 4 / 3 * / c).
  { replace (4 / 3 * / c) with (/ (3 / 4 * c)) by (field; lra). apply Rinv_le_contravar; lra. }
  eapply Rle_trans.
  - apply Rmult_le_compat; [apply Rabs_pos|left; now apply Rinv_0_lt_compat|exact N|exact I].
  - right. unfold Rdiv. ring.
Qed.
Lemma near_quot x y a c ea ec : near x a ea -> near y c ec -> 0 <= a -> 0 < c -> 4 * ec <= c ->
  let q := a / c in let E := 4 / 3 * ((ea + q * ec) / c) in q + E <= top ->
  near (ddiv x y) q (E + u * (q + E) + eta).
Proof.
  intros (V1 & F1 & E1) (V2 & F2 & E2) Ha Hc H4 q E Ht.
  destruct (quot_err _ _ _ _ _ _ E1 E2 Ha Hc H4) as [Y HE]. fold q E in HE.
  assert (Q0 : 0 <= q) by (apply Rmult_le_pos; [lra|left; now apply Rinv_0_lt_compat]).
  destruct (ddiv_ok x y V1 V2 F1) as (V & Fi & Ev); [lra| |].
  - apply top_ok. replace (rv x / rv y) with (q + (rv x / rv y - q)) by ring. eapply Rle_trans; [apply Rabs_triang|].
    rewrite (Rabs_pos_eq q) by auto. lra.
  - rewrite <- (Rabs_pos_eq q) at 2 by auto. apply (near_rnd _ _ _ _ V Fi Ev). exact HE.
Qed.
(** with both errors at most [rho] times the denominator *)
Lemma near_quot_rho x y a c rho : near x a (rho * c) -> near y c (rho * c) -> 0 <= a -> 0 < c -> 64 * u <= rho <= / 4 ->
  a / c <= / u -> near (ddiv x y) (a / c) (11 / 8 * (rho * (1 + a / c))).
Proof.
  intros Hx Hy Ha Hc [R1 R2] Hq. pose proof u_small as [U1 U2].
  assert (H4 : 4 * (rho * c) <= c) by nra.
  assert (Q0 : 0 <= a / c) by (apply Rmult_le_pos; [lra|left; now apply Rinv_0_lt_compat]).
  pose proof (near_quot x y a c _ _ Hx Hy Ha Hc H4) as H. cbv zeta in H. set (q := a / c) in *.
  replace ((rho * c + q * (rho * c)) / c) with (rho * (1 + q)) in H by (field; lra).
  assert (P : 0 <= rho * (1 + q)) by (apply Rmult_le_pos; lra).
  assert (P4 : rho * (1 + q) <= / 4 * (1 + q)) by (apply Rmult_le_compat_r; lra).
  assert (Ut : / u <= high).
  { unfold u. rewrite <- bpow_opp. apply bpow_le. lia. }
  assert (He : eta <= u * u).
  { unfold eta, u. rewrite <- bpow_plus. apply bpow_le. lia. }
  eapply near_weaken; [apply H|].
  - pose proof high_top. pose proof one_top. assert (0 < high) by apply bpow_gt_0. lra.
  - set (w := rho * (1 + q)) in *. assert (Ru : 64 * u * (1 + q) <= w) by (apply Rmult_le_compat_r; lra).
    assert (u * (q + 4 / 3 * w) <= u * (4 / 3 * (1 + q))) by (apply Rmult_le_compat_l; lra).
    assert (u * u <= / 1000000 * u) by (apply Rmult_le_compat_r; lra).
    assert (u * 1 <= u * (1 + q)) by (apply Rmult_le_compat_l; lra). lra.
Qed.
(** then a product with a factor known up to [2u] *)
Lemma near_scale q' q m' m rho : near q' q (11 / 8 * (rho * (1 + q))) -> near m' m (2 * u * m) -> 64 * u <= rho <= / 4 ->
  0 <= q <= / u -> u <= m <= / u -> near (dmul q' m') (q * m) (2 * (rho * (1 + q)) * m).
Proof.
  intros Hq Hm [R1 R2] [Q0 Q1] [M1 M2]. pose proof u_small as [U1 U2].
  set (w := rho * (1 + q)) in *.
  assert (W0 : 0 <= w) by (apply Rmult_le_pos; lra).
  assert (W4 : w <= / 4 * (1 + q)) by (apply Rmult_le_compat_r; lra).
  assert (Ru : 64 * (u * (1 + q)) <= w) by (unfold w; nra).
  assert (UQ : u * 1 <= u * (1 + q)) by (apply Rmult_le_compat_l; lra).
  assert (Ut : / u <= bpow radix2 53).
  { unfold u. rewrite <- bpow_opp. apply bpow_le. lia. }
  assert (H53 : 1000 <= bpow radix2 53) by (change (bpow radix2 53) with 9007199254740992; lra).
  assert (He : eta <= u * u * u).
  { unfold eta, u. rewrite <- !bpow_plus. apply bpow_le. lia. }
  eapply near_weaken; [apply near_mul; [exact Hq|exact Hm|]|].
  - rewrite !Rabs_pos_eq by lra.
    apply Rle_trans with (bpow radix2 55 * bpow radix2 55).
    + change 55%Z with (53 + 2)%Z. rewrite bpow_plus. change (bpow radix2 2) with 4.
      assert (2 * u * m <= 1 * m) by (apply Rmult_le_compat_r; lra). assert (0 <= 2 * u * m) by (apply Rmult_le_pos; lra).
      apply Rmult_le_compat; lra.
    + rewrite <- bpow_plus. apply bpow_le. lia.
  - rewrite !Rabs_pos_eq by (try apply Rmult_le_pos; lra).
    assert (W1 : w * m >= 0) by (apply Rle_ge, Rmult_le_pos; lra).
    replace (q * (2 * u * m) + m * (11 / 8 * w) + 11 / 8 * w * (2 * u * m)) with ((2 * (u * q) + 11 / 8 * w + 11 / 8 * 2 * (u * w)) * m) by ring.
    assert (UW : u * w <= / 1000000 * w) by (apply Rmult_le_compat_r; lra).
    assert (B1 : 2 * (u * q) + 11 / 8 * w + 11 / 8 * 2 * (u * w) <= (11 / 8 + 1 / 16) * w) by (rewrite Rmult_plus_distr_l in Ru; lra).
    set (g := 2 * (u * q) + 11 / 8 * w + 11 / 8 * 2 * (u * w)) in *.
    assert (G0 : 0 <= g). { assert (0 <= u * q) by (apply Rmult_le_pos; lra). assert (0 <= u * w) by (apply Rmult_le_pos; lra). unfold g. lra. }
    assert (B2 : g * m <= (11 / 8 + 1 / 16) * w * m) by (apply Rmult_le_compat_r; lra).
    replace (u * (q * m + g * m)) with (u * (q + g) * m) by ring.
    assert (B3 : u * (q + g) <= / 16 * w).
    { assert (u * g <= / 1000000 * g) by (apply Rmult_le_compat_r; lra). rewrite Rmult_plus_distr_l in *. lra. }
    assert (B4 : u * (q + g) * m <= / 16 * w * m) by (apply Rmult_le_compat_r; lra).
    assert (B5 : u * u * u <= / 64 * w * m).
    { apply Rle_trans with (/ 64 * w * u).
      - assert (u * u * u <= u * u) by nra. assert (/ 64 * (64 * u) * u <= / 64 * w * u) by (apply Rmult_le_compat_r; lra). lra.
      - apply Rmult_le_compat_l; lra. }
    lra.
Qed.
