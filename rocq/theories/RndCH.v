(** * The values of CH and WB *)
From Coq Require Import ZArith Reals Lia Lra SpecFloat Psatz List Permutation.
From Flocq Require Import Core Relative.
From Verif Require Import Num NumPy Base GetCvi Lists Step Stream RunForm BatchForm F64 F64o Rnd RndErr RndMean RndSum RndCl RndCP RndCP2 RndCP3 RndCP4 RndOps RndVal Spec RGeom XPerm P_Round.
Import ListNotations.
Local Open Scope R_scope.
Local Notation R := Rdefinitions.R.
Local Notation nanv := S754_nan.
Local Notation rsum := RndMean.rsum.

(** quotients of two sizes *)
Lemma near_ratio p q : (1 <= p <= 2 ^ 24)%Z -> (1 <= q <= 2 ^ 24)%Z ->
  near (ddiv (d_of_Z p) (d_of_Z q)) (IZR p / IZR q) (2 * u * (IZR p / IZR q)) /\ u <= IZR p / IZR q <= / u.
Proof.
  intros Hp Hq. pose proof u_small as [U1 U2].
  assert (P1 : 1 <= IZR p <= 16777216) by (split; [apply (IZR_le 1)|apply (IZR_le _ (2 ^ 24))]; lia).
  assert (Q1 : 1 <= IZR q <= 16777216) by (split; [apply (IZR_le 1)|apply (IZR_le _ (2 ^ 24))]; lia).
  assert (I1 : / 16777216 <= / IZR q) by (apply Rinv_le_contravar; lra).
  assert (I2 : / IZR q <= 1) by (rewrite <- Rinv_1; apply Rinv_le_contravar; lra).
  assert (X1 : / 16777216 <= IZR p / IZR q).
  { unfold Rdiv. rewrite <- (Rmult_1_l (/ 16777216)). apply Rmult_le_compat; lra. }
  assert (X2 : IZR p / IZR q <= 16777216).
  { unfold Rdiv. rewrite <- (Rmult_1_r 16777216). apply Rmult_le_compat; lra. }
  assert (Ui : 16777216 <= / u) by (rewrite u_val, Rinv_inv; lra).
  assert (Us : u <= / 16777216 * / 1000) by (rewrite u_val; lra).
  assert (He : eta <= u * u).
  { unfold eta, u. rewrite <- bpow_plus. apply bpow_le. lia. }
  split; [|lra].
  eapply near_weaken; [apply near_div_Z with (e := 0); [apply near_Z; lia|lia|]|].
  - rewrite Rabs_pos_eq by lra. pose proof one_top.
    assert (16777216 <= top) by (change 16777216 with (bpow radix2 24); apply bpow_le; lia). lra.
  - rewrite Rabs_pos_eq by lra. unfold Rdiv at 1 3. rewrite !Rmult_0_l.
    assert (u * u <= u * (IZR p / IZR q)) by (apply Rmult_le_compat_l; lra). lra.
Qed.
Lemma near_size p : (1 <= p <= 2 ^ 24)%Z -> near (d_of_Z p) (IZR p) (2 * u * IZR p) /\ u <= IZR p <= / u.
Proof.
  intros Hp. pose proof u_small as [U1 U2].
  assert (P1 : 1 <= IZR p <= 16777216) by (split; [apply (IZR_le 1)|apply (IZR_le _ (2 ^ 24))]; lia).
  assert (Ui : 16777216 <= / u) by (rewrite u_val, Rinv_inv; lra).
  split; [|lra]. eapply near_weaken; [apply near_Z; lia|]. apply Rmult_le_pos; lra.
Qed.

Lemma scatter_one d x : length x = d -> scatter d [x] = 0.
Proof.
  intros H. unfold scatter. cbn [map Spec.rsum fold_right]. rewrite (dist2_rS d); auto.
  2:{ unfold centroid. now rewrite map_length, seq_length. }
  rewrite (rS_ext d _ (fun _ => 0 * 0)).
  - rewrite rS_scal. ring.
  - intros j Hj. unfold centroid. rewrite nth_map_seq by auto. cbn [map Spec.rsum fold_right length INR].
    replace ((nth j x 0 + 0) / 1) with (nth j x 0) by field. ring.
Qed.

Section Val.
  Context (b : R) (Hb : lo2 <= b <= hi2 / 2) (d : nat) (Hd : (1 <= Z.of_nat d <= 2 ^ 20)%Z).
  Context (gs : list (list (list f64))) (Hgs : (2 <= length gs)%nat).
  Context (Hg : forall g, In g gs -> g <> [] /\ Forall (fun x => length x = d /\ Forall (ok_in b) x) g).
  Context (HN : (Z.of_nat (length (concat gs)) <= 2 ^ 24)%Z).
  Let D := INR d.
  Let n := length (concat gs).
  Let N := INR n.
  Let T := u * (b * b).
  Let k := length gs.
  Let W := wgss d (map exact gs).
  Let B := bgss d (map exact gs).
  Let e := eps b d gs.
  Lemma Hgs' : gs <> []. Proof. destruct gs; [cbn in Hgs; lia|discriminate]. Qed.

  Lemma rho_ok c a : 4 * e <= c -> 0 <= c <= 4 * D * (b * b) * N -> 0 <= a <= 4 * D * (b * b) * N ->
    0 < e /\ 0 < c /\ 64 * u <= e / c <= / 4 /\ 0 <= a / c <= / u.
  Proof.
    intros H4 Hc Ha. destruct (g_pre b Hb d Hd gs Hgs' Hg HN) as ((N1 & N2) & (D1 & D2) & T0 & Un & U0 & b0 & Et & (B1 & B2) & TB).
    fold D in D1, D2. fold n in N1, N2, Un. fold N in N1, N2, Un. fold T in T0.
    assert (B0 : 0 < b * b) by nra.
    assert (DN : 1 <= D * N) by nra.
    assert (Ee : e = 380 * (D * N) * u * (D * N * (b * b))) by (unfold e, eps; fold D n; fold N; ring).
    set (Y := D * N * (b * b)) in *. assert (Y0 : 0 < Y) by (unfold Y; apply Rmult_lt_0_compat; lra).
    replace (4 * D * (b * b) * N) with (4 * Y) in * by (unfold Y; ring).
    assert (E1 : 380 * u * Y <= e).
    { rewrite Ee. apply Rmult_le_compat_r; [lra|]. nra. }
    assert (E0 : 0 < e) by (assert (0 < u * Y) by (apply Rmult_lt_0_compat; lra); lra).
    assert (c0 : 0 < c) by lra. assert (ic : 0 < / c) by (now apply Rinv_0_lt_compat).
    assert (cc : c * / c = 1) by (field; lra).
    assert (P1 : u * (4 * Y) * / c >= u * 1).
    { rewrite <- cc, <- (Rmult_assoc u c (/ c)). apply Rle_ge, Rmult_le_compat_r; [lra|]. apply Rmult_le_compat_l; lra. }
    split; [exact E0|]. split; [exact c0|]. split; [split|split].
    - unfold Rdiv. apply Rle_trans with (380 * u * Y * / c); [lra|]. apply Rmult_le_compat_r; lra.
    - unfold Rdiv. assert (4 * e * / c <= c * / c) by (apply Rmult_le_compat_r; lra). lra.
    - unfold Rdiv. apply Rmult_le_pos; lra.
    - apply (Rmult_le_reg_l u); [lra|]. rewrite Rinv_r by lra. unfold Rdiv.
      assert (u * a * / c <= c * / c).
      { apply Rmult_le_compat_r; [lra|]. assert (u * a <= u * (4 * Y)) by (apply Rmult_le_compat_l; lra).
        assert (0 < u * Y) by (apply Rmult_lt_0_compat; lra). lra. }
      lra.
  Qed.

  Lemma more_samples : 0 < W -> (k < n)%nat.
  Proof.
    intros HW. apply Nat.nle_gt. intros Hle. apply (Rlt_irrefl 0). apply Rlt_le_trans with W; [exact HW|]. right.
    assert (H1 : forall g, In g gs -> length g = 1%nat).
    { clear -Hle Hg. unfold n, k in Hle.
      assert (H0 : forall g, In g gs -> (1 <= length g)%nat).
      { intros g H. destruct (Hg g H) as [Hne _]. destruct g; [congruence|cbn; lia]. }
      clear Hg. induction gs as [|h l IH]; [intros g []|]. cbn [concat length] in Hle. rewrite app_length in Hle.
      pose proof (H0 h ltac:(now left)).
      assert (Hl : (length l <= length (concat l))%nat).
      { assert (H2 : forall g, In g l -> (1 <= length g)%nat) by (intros; apply H0; now right). clear -H2.
        induction l as [|h l IH]; [cbn; lia|]. cbn [concat length]. rewrite app_length. pose proof (H2 h ltac:(now left)).
        specialize (IH ltac:(intros; apply H2; now right)). lia. }
      intros g [<-|Hi]; [lia|]. apply IH; auto; [lia|]. intros; apply H0; now right. }
    unfold W, wgss. rewrite map_map.
    assert (H2 : forall g, In g gs -> scatter d (exact g) = 0).
    { intros g H. destruct (Hg g H) as [_ HF]. specialize (H1 g H). destruct g as [|x [|]]; try discriminate.
      inversion HF as [|? ? [Hx _] _]; subst. apply scatter_one. now rewrite map_length. }
    clear -H2. induction gs as [|h l IH]; [reflexivity|]. cbn [map Spec.rsum fold_right]. unfold Spec.rsum in IH.
    rewrite IH, (H2 h); [ring|now left|]. intros; apply H2; now right.
  Qed.
  Lemma n_k : (2 <= k <= n)%nat.
  Proof.
    split; [exact Hgs|]. pose proof (k_range b d gs Hg) as H. apply INR_le. exact H.
  Qed.

  Theorem near_CH X Y : near X B e -> near Y W e -> 4 * e <= W ->
    near (dmul (ddiv X Y) (ddiv (d_of_Z (Z.of_nat n - Z.of_nat k)) (d_of_Z (Z.of_nat k - 1))))
      (CH_formula d (map exact gs)) (2 * (e / W) * (CH_formula d (map exact gs) + (N - INR k) / (INR k - 1))).
  Proof.
    intros HX HY H4.
    pose proof (wgss_range b Hb d Hd gs Hgs' Hg HN) as RW. pose proof (bgss_range b Hb d Hd gs Hgs' Hg HN) as RB.
    destruct (rho_ok W B H4 RW RB) as (E0 & W0 & HR & HQ).
    pose proof (more_samples W0) as Hkn. pose proof n_k as [K1 K2].
    assert (Ex : forall c, 0 < c -> e / c * c = e) by (intros; field; lra).
    pose proof (near_quot_rho X Y B W (e / W)) as HD. rewrite (Ex W W0) in HD.
    specialize (HD HX HY (proj1 RB) W0 HR (proj2 HQ)).
    destruct (near_ratio (Z.of_nat n - Z.of_nat k) (Z.of_nat k - 1)) as [HM HMr]; [unfold n in *; lia|unfold n in *; lia|].
    pose proof (near_scale _ _ _ _ _ HD HM HR HQ HMr) as HF. rewrite !minus_IZR, <- !INR_IZR_INZ in HF. fold N in HF.
    assert (k1 : 1 < INR k) by (apply (lt_INR 1); lia). assert (nk : INR k < N) by (apply lt_INR; lia).
    assert (EF : CH_formula d (map exact gs) = B / W * ((N - INR k) / (INR k - 1))).
    { unfold CH_formula, nclus, nsamp. fold W B. rewrite map_length, exact_concat, exact_length. fold n k. fold N. field. lra. }
    rewrite EF. eapply near_weaken; [exact HF|]. right. ring.
  Qed.
  Theorem near_WB X Y : near X B e -> near Y W e -> 4 * e <= B ->
    near (dmul (ddiv Y X) (d_of_Z (Z.of_nat k)))
      (WB_formula d (map exact gs)) (2 * (e / B) * (WB_formula d (map exact gs) + INR k)).
  Proof.
    intros HX HY H4.
    pose proof (wgss_range b Hb d Hd gs Hgs' Hg HN) as RW. pose proof (bgss_range b Hb d Hd gs Hgs' Hg HN) as RB.
    destruct (rho_ok B W H4 RB RW) as (E0 & W0 & HR & HQ).
    pose proof n_k as [K1 K2].
    assert (Ex : forall c, 0 < c -> e / c * c = e) by (intros; field; lra).
    pose proof (near_quot_rho Y X W B (e / B)) as HD. rewrite (Ex B W0) in HD.
    specialize (HD HY HX (proj1 RW) W0 HR (proj2 HQ)).
    destruct (near_size (Z.of_nat k)) as [HM HMr]; [unfold n in *; lia|].
    pose proof (near_scale _ _ _ _ _ HD HM HR HQ HMr) as HF. rewrite <- !INR_IZR_INZ in HF.
    assert (EF : WB_formula d (map exact gs) = W / B * INR k).
    { unfold WB_formula, nclus. fold W B. rewrite map_length. fold k. field. lra. }
    rewrite EF. eapply near_weaken; [exact HF|]. right. ring.
  Qed.
End Val.
