(** * Rounding error of the compactness updated sample by sample *)
From Coq Require Import ZArith Reals Lia Lra SpecFloat Psatz List Permutation.
From Flocq Require Import Core Relative.
From Verif Require Import Num F64 F64o Rnd RndErr RndMean RndSum.
Import ListNotations.
Local Open Scope R_scope.

(** sizes at which squares neither overflow nor underflow *)
Definition lo2 : R := bpow radix2 (-400).
Definition hi2 : R := bpow radix2 400.
Lemma lo2_pos : 0 < lo2. Proof. apply bpow_gt_0. Qed.
Lemma lo2_low : low <= lo2. Proof. apply bpow_le. lia. Qed.
Lemma hi2_high : hi2 * 1024 <= high.
Proof. unfold hi2, high. change 1024 with (bpow radix2 10). rewrite <- bpow_plus. apply bpow_le. lia. Qed.

(** ** One coordinate of one update; [N] is the new number of samples *)
Section Scalar.
  Context (B : R) (HB : lo2 <= B <= hi2) (N : Z) (HN : (2 <= N <= 2 ^ 25)%Z).
  Context (V x g : f64) (OV : ok_in B V) (Ox : ok_in B x).
  (** the new centroid, which is not far from the old one *)
  Context (V' : f64) (OV' : ok_in B V').
  Let w := / IZR N.
  Let t := u * B.
  Context (Hmv : Rabs (rv V - rv V') <= 3 * (w * B)).

  Lemma w_range : 128 * u <= w <= / 2.
  Proof.
    unfold w. rewrite u_val. apply proj1 with (B := True). assert (2 <= IZR N <= IZR (2 ^ 25)) as [H1 H2] by (split; apply IZR_le; lia).
    change (IZR (2 ^ 25)) with 33554432 in H2. split; auto. split.
    - apply Rle_trans with (/ 33554432); [lra|]. apply Rinv_le_contravar; lra.
    - apply Rinv_le_contravar; lra.
  Qed.
  Lemma B_facts : 0 < B /\ low <= B <= high /\ 0 < t /\ eta <= u * t /\ 1000 * B <= top /\ t <= / 1000000 * B /\ u * t <= / 1000000 * t.
  Proof.
    destruct HB as [H1 H2]. pose proof lo2_pos. pose proof lo2_low. pose proof hi2_high. pose proof u_small as [U1 U2]. pose proof high_top.
    assert (0 < hi2) by apply bpow_gt_0.
    destruct (eta_B B ltac:(lra)) as [_ He]. assert (Ht : 0 < t) by (apply Rmult_lt_0_compat; lra).
    repeat split; try lra.
    - unfold t. lra.
    - unfold t. apply Rmult_le_compat_r; lra.
    - apply Rmult_le_compat_r; lra.
  Qed.

  (** the movement of the centroid *)
  Lemma near_dv : near (dsub V V') (rv V - rv V') (4 * (w * t)).
  Proof.
    destruct B_facts as (B0 & BL & T0 & Te & Tt & TB & UT). pose proof w_range as [W1 W2]. pose proof u_small as [U1 U2].
    pose proof Hmv as M. destruct OV as (VV & FV & AV), OV' as (VV' & FV' & AV').
    assert (0 < w * B) by (apply Rmult_lt_0_compat; lra).
    assert (u * t <= w * t) by (apply Rmult_le_compat_r; lra).
    eapply near_weaken.
    - apply near_sub; [now apply near_exact|now apply near_exact|lra].
    - assert (u * (Rabs (rv V - rv V') + (0 + 0)) <= u * (3 * (w * B))) by (apply Rmult_le_compat_l; lra).
      replace (u * (3 * (w * B))) with (3 * (w * t)) in H1 by (unfold t; ring). lra.
  Qed.
  (** the sample as seen from the new centroid *)
  Lemma x_move : Rabs (rv x - rv V') <= 2 * B.
  Proof.
    destruct OV' as (_ & _ & A'), Ox as (_ & _ & Ax). unfold Rminus. eapply Rle_trans; [apply Rabs_triang|]. rewrite Rabs_Ropp. lra.
  Qed.
  Lemma near_dx : near (dsub x V') (rv x - rv V') (3 * t).
  Proof.
    destruct B_facts as (B0 & BL & T0 & Te & Tt & TB & UT). pose proof u_small as [U1 U2].
    pose proof x_move as M. destruct Ox as (Vx & Fx & Ax), OV' as (VV' & FV' & AV').
    eapply near_weaken.
    - apply near_sub; [now apply near_exact|now apply near_exact|lra].
    - assert (u * (Rabs (rv x - rv V') + (0 + 0)) <= u * (2 * B)) by (apply Rmult_le_compat_l; lra).
      replace (u * (2 * B)) with (2 * t) in H by (unfold t; ring). lra.
  Qed.
  (** the gradient *)
  Lemma n_w : IZR (N - 1) * w = 1 - w /\ 1 <= IZR (N - 1).
  Proof.
    assert (2 <= IZR N) by (apply IZR_le; lia). rewrite minus_IZR. split; [unfold w; field; lra|lra].
  Qed.
  Lemma near_ndv : near (dmul (d_of_Z (N - 1)) (dsub V V')) (IZR (N - 1) * (rv V - rv V')) (8 * t) /\
    Rabs (IZR (N - 1) * (rv V - rv V')) <= 3 * B.
  Proof.
    destruct B_facts as (B0 & BL & T0 & Te & Tt & TB & UT). pose proof w_range as [W1 W2]. pose proof u_small as [U1 U2].
    pose proof Hmv as M. destruct n_w as [Nw N1]. set (m := IZR (N - 1)) in *.
    assert (Em : m * (3 * (w * B)) <= 3 * B).
    { replace (m * (3 * (w * B))) with (3 * ((m * w) * B)) by ring. rewrite Nw. nra. }
    assert (Am : Rabs m = m) by (apply Rabs_pos_eq; lra).
    assert (A1 : Rabs (m * (rv V - rv V')) <= 3 * B).
    { rewrite Rabs_mult, Am. apply Rle_trans with (m * (3 * (w * B))); auto. apply Rmult_le_compat_l; lra. }
    split; [|exact A1].
    assert (E1 : m * (4 * (w * t)) <= 4 * t).
    { replace (m * (4 * (w * t))) with (4 * ((m * w) * t)) by ring. rewrite Nw. nra. }
    eapply near_weaken.
    - apply near_mul; [apply near_Z; lia|exact near_dv|]. fold m. rewrite Am.
      replace ((m + 0) * (Rabs (rv V - rv V') + 4 * (w * t))) with (m * Rabs (rv V - rv V') + m * (4 * (w * t))) by ring.
      rewrite Rabs_mult, Am in A1. lra.
    - fold m. rewrite Am. rewrite Rmult_0_r, Rmult_0_l, !Rplus_0_r.
      assert (E2 : u * (Rabs (m * (rv V - rv V')) + m * (4 * (w * t))) <= u * (3 * B + 4 * t)) by (apply Rmult_le_compat_l; lra).
      replace (u * (3 * B + 4 * t)) with (3 * t + 4 * (u * t)) in E2 by (unfold t; ring). lra.
  Qed.
  Lemma near_g G e : near g G e -> Rabs G <= B -> e <= B ->
    near (dadd (dadd g (dsub x V')) (dmul (d_of_Z (N - 1)) (dsub V V')))
         (G + (rv x - rv V') + IZR (N - 1) * (rv V - rv V')) (e + 25 * t).
  Proof.
    intros Hg HG He. pose proof (near_e _ _ _ Hg) as He0.
    destruct B_facts as (B0 & BL & T0 & Te & Tt & TB & UT). pose proof u_small as [U1 U2].
    destruct near_ndv as [H2 A2]. pose proof near_dx as H1. pose proof x_move as A1.
    set (p := rv x - rv V') in *. set (q := IZR (N - 1) * (rv V - rv V')) in *.
    pose proof (Rabs_triang G p) as Tr1. pose proof (Rabs_triang (G + p) q) as Tr2.
    assert (H3 : near (dadd g (dsub x V')) (G + p) (e + 9 * t)).
    { eapply near_weaken; [apply near_add; [exact Hg|exact H1|lra]|].
      assert (u * (Rabs (G + p) + (e + 3 * t)) <= u * (5 * B)) by (apply Rmult_le_compat_l; lra).
      replace (u * (5 * B)) with (5 * t) in H by (unfold t; ring). lra. }
    eapply near_weaken; [apply near_add; [exact H3|exact H2|lra]|].
    assert (u * (Rabs (G + p + q) + (e + 9 * t + 8 * t)) <= u * (7 * B + 100 * t)) by (apply Rmult_le_compat_l; lra).
    replace (u * (7 * B + 100 * t)) with (7 * t + 100 * (u * t)) in H by (unfold t; ring). lra.
  Qed.
End Scalar.
(** running means in binary64 do not move far *)
Lemma v_move B N V x : lo2 <= B <= hi2 -> (2 <= N <= 2 ^ 25)%Z -> ok_in B V -> ok_in B x ->
  Rabs (rv V - rv (mean_step N V x)) <= 3 * (/ IZR N * B).
Proof.
  intros HB HN OV Ox. set (w := / IZR N). set (V' := mean_step N V x).
  destruct (B_facts B HB) as (B0 & BL & T0 & Te & Tt & TB & UT). pose proof (w_range N HN) as [W1 W2]. fold w in W1, W2. pose proof u_small as [U1 U2].
  destruct OV as (VV & FV & AV), Ox as (Vx & Fx & Ax).
  destruct (near_mean_step N V x (rv V) 0 B) as (_ & _ & E); auto; try lra; [lia|now apply near_exact|]. fold w V' in E.
  rewrite Rmult_0_r, Rplus_0_l in E.
  replace (rv V - rv V') with (w * (rv V + - rv x) + - (rv V' - ((1 - w) * rv V + w * rv x))) by ring.
  eapply Rle_trans; [apply Rabs_triang|]. rewrite Rabs_Ropp, Rabs_mult, (Rabs_pos_eq w) by lra.
  assert (Rabs (rv V + - rv x) <= 2 * B).
  { eapply Rle_trans; [apply Rabs_triang|]. rewrite Rabs_Ropp. lra. }
  assert (w * Rabs (rv V + - rv x) <= w * (2 * B)) by (apply Rmult_le_compat_l; lra).
  assert (17 * u * B <= w * B) by (apply Rmult_le_compat_r; lra). lra.
Qed.

(** ** Sums over coordinates *)
Definition rS (d : nat) (f : nat -> R) : R := rsum (map f (seq 0 d)).
Lemma rS_ext d f h : (forall j, (j < d)%nat -> f j = h j) -> rS d f = rS d h.
Proof. intros H. unfold rS. f_equal. apply map_ext_in. intros j Hj. apply in_seq in Hj. apply H. lia. Qed.
Lemma rS_plus d f h : rS d (fun j => f j + h j) = rS d f + rS d h.
Proof. unfold rS. induction (seq 0 d) as [|a l IH]; cbn [map rsum fold_right]; [ring|]. unfold rsum in IH. rewrite IH. ring. Qed.
Lemma rS_scal d c f : rS d (fun j => c * f j) = c * rS d f.
Proof. unfold rS. induction (seq 0 d) as [|a l IH]; cbn [map rsum fold_right]; [ring|]. unfold rsum in IH. rewrite IH. ring. Qed.
Lemma rS_abs d f M : (forall j, (j < d)%nat -> Rabs (f j) <= M) -> Rabs (rS d f) <= INR d * M.
Proof.
  intros H. unfold rS. rewrite <- (seq_length d 0) at 2. rewrite <- (map_length f (seq 0 d)).
  apply rsum_abs, Forall_map, Forall_forall. intros j Hj. apply in_seq in Hj. apply H. lia.
Qed.
Lemma rS_pos d f : (forall j, (j < d)%nat -> 0 <= f j) -> 0 <= rS d f.
Proof.
  intros H. unfold rS. assert (G : forall j, In j (seq 0 d) -> 0 <= f j) by (intros j Hj; apply in_seq in Hj; apply H; lia).
  revert G. induction (seq 0 d) as [|a l IH]; cbn [map rsum fold_right]; intros G; [lra|].
  pose proof (G a ltac:(now left)). assert (0 <= rsum (map f l)) by (apply IH; intros; apply G; now right). unfold rsum in *. lra.
Qed.

(** inner products in any order of addition *)
Lemma dprods_map d : forall a b, length a = d -> length b = d ->
  dprods a b = map (fun j => dmul (nth j a S754_nan) (nth j b S754_nan)) (seq 0 d).
Proof.
  induction d as [|d IH]; intros [|x a] [|y b] Ha Hb; try discriminate; auto.
  cbn [dprods seq map nth]. f_equal. rewrite <- seq_shift, map_map. apply IH; cbn in *; lia.
Qed.
Lemma near_dot d a b (al be : nat -> R) Ma Mb ea eb P e z : length a = d -> length b = d -> summed (dprods a b) z ->
  (Z.of_nat d <= 2 ^ 48)%Z -> low <= P <= high ->
  (forall j, (j < d)%nat -> near (nth j a S754_nan) (al j) ea /\ Rabs (al j) <= Ma) ->
  (forall j, (j < d)%nat -> near (nth j b S754_nan) (be j) eb /\ Rabs (be j) <= Mb) ->
  0 <= Ma -> 0 <= Mb -> 0 <= ea -> 0 <= eb ->
  let e0 := Ma * eb + Mb * ea + ea * eb in
  e0 + u * (Ma * Mb + e0) + eta <= e -> Ma * Mb + e <= P ->
  near z (rS d (fun j => al j * be j)) (INR d * e + 2 * u * P * (INR d * INR d)).
Proof.
  intros La Lb Hz Hd HP Na Nb HMa HMb Hea Heb e0 He HMP. rewrite (dprods_map d) in Hz by auto.
  pose proof u_pos as U0. pose proof eta_pos as E0. pose proof low_pos as L0. pose proof (pos_INR d) as D0.
  assert (Z0 : 0 <= e0) by (unfold e0; repeat apply Rplus_le_le_0_compat; apply Rmult_le_pos; auto).
  assert (ZM : 0 <= Ma * Mb) by (apply Rmult_le_pos; auto).
  assert (Ze : 0 <= e).
  { assert (0 <= u * (Ma * Mb + e0)) by (apply Rmult_le_pos; lra). lra. }
  assert (T : forall j, (j < d)%nat -> near (dmul (nth j a S754_nan) (nth j b S754_nan)) (al j * be j) e /\ Rabs (al j * be j) <= Ma * Mb).
  { intros j Hj. destruct (Na j Hj) as [N1 A1], (Nb j Hj) as [N2 A2].
    assert (A3 : Rabs (al j * be j) <= Ma * Mb) by (rewrite Rabs_mult; apply Rmult_le_compat; auto; apply Rabs_pos).
    split; [|exact A3].
    assert (X1 : Rabs (al j) * eb + Rabs (be j) * ea + ea * eb <= e0).
    { unfold e0. apply Rplus_le_compat_r. apply Rplus_le_compat; apply Rmult_le_compat_r; auto. }
    eapply near_weaken; [apply near_mul; [exact N1|exact N2|]|].
    - apply Rle_trans with ((Ma + ea) * (Mb + eb)).
      + pose proof (Rabs_pos (al j)). pose proof (Rabs_pos (be j)). apply Rmult_le_compat; lra.
      + replace ((Ma + ea) * (Mb + eb)) with (Ma * Mb + e0) by (unfold e0; ring).
        pose proof high_top. assert (0 < high) by apply bpow_gt_0.
        assert (0 <= u * (Ma * Mb + e0)) by (apply Rmult_le_pos; lra). lra.
    - eapply Rle_trans; [|exact He]. apply Rplus_le_compat_r. apply Rplus_le_compat; auto.
      apply Rmult_le_compat_l; lra. }
  destruct d as [|d].
  - cbn [seq map] in Hz. assert (z = S754_zero false) as ->.
    { inversion Hz as [| |p q l x y Hp Hq _ _ Pm]; auto. apply Permutation_length in Pm. rewrite app_length in Pm. destruct p; [congruence|discriminate]. }
    unfold rS. cbn. repeat split. cbn. rewrite Rminus_0_r, Rabs_R0. lra.
  - set (n := Datatypes.S d) in *.
    set (l := map (fun j => dmul (nth j a S754_nan) (nth j b S754_nan)) (seq 0 n)) in *.
    assert (Ll : length l = n) by (unfold l; now rewrite map_length, seq_length).
    destruct (near_summed P l z HP Hz) as (Vz & Fz & Ez).
    + unfold l. discriminate.
    + unfold l. apply Forall_map, Forall_forall. intros j Hj. apply in_seq in Hj. destruct (T j ltac:(lia)) as [N1 A1].
      pose proof (near_abs _ _ _ N1). destruct N1 as (? & ? & ?). repeat split; auto. lra.
    + rewrite Ll. exact Hd.
    + repeat split; auto. rewrite Ll in Ez.
      assert (Es : Rabs (rsum (map rv l) - rS n (fun j => al j * be j)) <= INR n * e).
      { replace (rsum (map rv l) - rS n (fun j => al j * be j)) with
          (rS n (fun j => rv (dmul (nth j a S754_nan) (nth j b S754_nan)) + (-1) * (al j * be j))).
        2:{ rewrite rS_plus, rS_scal. unfold rS at 1, l. rewrite map_map. ring. }
        apply rS_abs. intros j Hj. destruct (T j Hj) as [(_ & _ & N3) _].
        replace (_ + -1 * _) with (rv (dmul (nth j a S754_nan) (nth j b S754_nan)) - al j * be j) by ring. exact N3. }
      replace (rv z - rS n (fun j => al j * be j)) with ((rv z - rsum (map rv l)) + (rsum (map rv l) - rS n (fun j => al j * be j))) by ring.
      eapply Rle_trans; [apply Rabs_triang|].
      assert (2 * u * P * (INR n * (INR n - 1)) <= 2 * u * P * (INR n * INR n)).
      { apply Rmult_le_compat_l; [|nra]. apply Rmult_le_pos; lra. }
      lra.
Qed.

(** ** Sums of differences and of squares around a point *)
Definition gex (v : R) (l : list R) : R := rsum (map (fun x => x - v) l).
Definition cex (v : R) (l : list R) : R := rsum (map (fun x => (x - v) * (x - v)) l).
Lemma gex_sum v l : gex v l = rsum l - INR (length l) * v.
Proof.
  unfold gex. induction l as [|x l IH]; cbn [map rsum fold_right length]; [cbn; ring|]. unfold rsum in IH. rewrite IH, S_INR. ring.
Qed.
Lemma cex_move v v' l : cex v' l = cex v l + INR (length l) * ((v - v') * (v - v')) + 2 * ((v - v') * gex v l).
Proof.
  rewrite gex_sum. unfold cex. induction l as [|x l IH]; cbn [map rsum fold_right length]; [cbn; ring|]. unfold rsum in *. rewrite IH, S_INR. ring.
Qed.
Lemma gex_snoc v v' l x : gex v' (l ++ [x]) = gex v l + (x - v') + INR (length l) * (v - v').
Proof. rewrite !gex_sum, rsum_app, app_length, plus_INR. cbn. ring. Qed.
Lemma cex_snoc v v' l x : cex v' (l ++ [x]) =
  cex v l + (x - v') * (x - v') + INR (length l) * ((v - v') * (v - v')) + 2 * ((v - v') * gex v l).
Proof.
  unfold cex at 1. rewrite map_app, rsum_app. fold (cex v' l). rewrite (cex_move v v' l). cbn. ring.
Qed.
Lemma cex_range v l B : Rabs v <= B -> Forall (fun x => Rabs x <= B) l -> 0 <= cex v l <= INR (length l) * (4 * (B * B)).
Proof.
  intros Hv. unfold cex. induction 1 as [|x l Hx Hl IH]; cbn [map rsum fold_right length]; [cbn; lra|].
  unfold rsum in IH. rewrite S_INR.
  assert (Hd : Rabs (x - v) <= 2 * B) by (unfold Rminus; eapply Rle_trans; [apply Rabs_triang|]; rewrite Rabs_Ropp; lra).
  pose proof (Rle_0_sqr (x - v)) as Hp. unfold Rsqr in Hp.
  assert ((x - v) * (x - v) <= 4 * (B * B)).
  { rewrite <- (Rabs_pos_eq _ Hp), Rabs_mult. apply Rle_trans with (2 * B * (2 * B)); [|lra].
    apply Rmult_le_compat; auto; apply Rabs_pos. }
  lra.
Qed.
