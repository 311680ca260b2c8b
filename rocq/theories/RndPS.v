(** * The value of PS *)
From Coq Require Import ZArith Reals Lia Lra SpecFloat Psatz List Permutation.
From Flocq Require Import Core Relative.
From Verif Require Import Num NumPy Base GetCvi Lists Step Eval Stream Shapes RunForm BatchForm F64 F64o Rnd RndErr RndMean RndSum RndCl RndCP RndCP2 RndCP3 RndCP4 RndOps RndVal RndCH RndSel RndVal2 Spec RGeom XPerm XEval P_Round.
Import ListNotations.
Local Open Scope R_scope.
Local Notation R := Rdefinitions.R.
Local Notation nanv := S754_nan.
Local Notation rsum := RndMean.rsum.

(** ** The exponential *)
Lemma exp_above x : 1 + x <= exp x.
Proof. destruct (Req_dec x 0) as [->|H]; [rewrite exp_0; lra|]. left. now apply exp_ineq1. Qed.
Lemma exp_step x y : x <= y -> 0 <= exp y - exp x <= (y - x) * exp y.
Proof.
  intros H. split.
  - destruct H as [H| ->]; [|lra]. pose proof (exp_increasing _ _ H). lra.
  - replace (exp x) with (exp (x - y) * exp y) by (rewrite <- exp_plus; f_equal; ring).
    pose proof (exp_above (x - y)). pose proof (exp_pos y). nra.
Qed.
Lemma exp_decay x : 0 <= x -> x * exp (- x) <= / 2.
Proof.
  intros Hx. assert (H : 2 * x <= exp x).
  { replace (exp x) with (exp (x / 2) * exp (x / 2)) by (rewrite <- exp_plus; f_equal; field).
    pose proof (exp_above (x / 2)). assert ((1 + x / 2) * (1 + x / 2) <= exp (x / 2) * exp (x / 2)) by (apply Rmult_le_compat; lra).
    pose proof (Rle_0_sqr (1 - x / 2)). unfold Rsqr in *. lra. }
  rewrite exp_Ropp. pose proof (exp_pos x). apply (Rmult_le_reg_r (exp x)); [lra|]. rewrite Rmult_assoc, Rinv_l by lra. lra.
Qed.
(** a relative error of the exponent is an absolute error of the exponential *)
Lemma exp_rel t t' r : 0 <= t -> 0 <= r <= / 4 -> Rabs (t' - t) <= 7 / 4 * r * t -> Rabs (exp (- t') - exp (- t)) <= 14 / 9 * r.
Proof.
  intros Ht Hr H. apply Rabs_le_inv in H.
  assert (Hrt : 0 <= r * t <= / 4 * t) by (split; [apply Rmult_le_pos; lra|apply Rmult_le_compat_r; lra]).
  assert (D : Rabs (exp (- t') - exp (- t)) <= 7 / 4 * r * t * exp (- (9 / 16 * t))).
  { assert (M : forall z, 9 / 16 * t <= z -> exp (- z) <= exp (- (9 / 16 * t))).
    { intros z Hz. destruct Hz as [Hz|Hz]; [left; apply exp_increasing; lra|right; f_equal; lra]. }
    destruct (Rle_dec t t') as [Hl|Hl].
    - pose proof (exp_step (- t') (- t) ltac:(lra)) as [S1 S2]. rewrite Rabs_left1 by lra.
      pose proof (M t ltac:(lra)). pose proof (exp_pos (- t)).
      apply Rle_trans with ((- t - - t') * exp (- t)); [lra|]. apply Rmult_le_compat; lra.
    - pose proof (exp_step (- t) (- t') ltac:(lra)) as [S1 S2]. rewrite Rabs_pos_eq by lra.
      pose proof (M t' ltac:(lra)). pose proof (exp_pos (- t')).
      apply Rle_trans with ((- t' - - t) * exp (- t')); [lra|]. apply Rmult_le_compat; lra. }
  pose proof (exp_decay (9 / 16 * t) ltac:(lra)) as E1.
  apply Rle_trans with (28 / 9 * r * (9 / 16 * t * exp (- (9 / 16 * t)))); [|nra].
  eapply Rle_trans; [exact D|]. right. field.
Qed.
Lemma rv_opp x : rv (SFopp x) = - rv x.
Proof. destruct x as [s|s| |s m e]; cbn [SFopp rv]; try (unfold rv; cbn; ring). unfold rv. cbn. destruct s; cbn; rewrite <- ?F2R_Zopp; cbn; auto. Qed.
Lemma valid_opp x : valid x -> valid (SFopp x). Proof. destruct x; auto. Qed.
Lemma fin_opp x : fin x -> fin (SFopp x). Proof. destruct x; auto. Qed.
Lemma near_neg_quot x y a c ea ec : near x a ea -> near y c ec -> 0 <= a -> 0 < c -> 4 * ec <= c ->
  let q := a / c in let E := 4 / 3 * ((ea + q * ec) / c) in q + E <= top ->
  near (ddiv (SFopp x) y) (- q) (E + u * (q + E) + eta).
Proof.
  intros (V1 & F1 & E1) (V2 & F2 & E2) Ha Hc H4 q E Ht.
  destruct (quot_err _ _ _ _ _ _ E1 E2 Ha Hc H4) as [Y HE]. fold q E in HE.
  assert (Q0 : 0 <= q) by (apply Rmult_le_pos; [lra|left; now apply Rinv_0_lt_compat]).
  assert (Eo : rv (SFopp x) / rv y = - (rv x / rv y)) by (rewrite rv_opp; field; lra).
  destruct (ddiv_ok (SFopp x) y (valid_opp _ V1) V2 (fin_opp _ F1)) as (V & Fi & Ev); [lra| |].
  - apply top_ok. rewrite Eo, Rabs_Ropp. replace (rv x / rv y) with (q + (rv x / rv y - q)) by ring. eapply Rle_trans; [apply Rabs_triang|].
    rewrite (Rabs_pos_eq q) by auto. lra.
  - rewrite Eo in Ev. rewrite <- (Rabs_pos_eq q) at 2 by auto. rewrite <- (Rabs_Ropp q). apply (near_rnd _ _ _ _ V Fi Ev).
    replace (- (rv x / rv y) - - q) with (- (rv x / rv y - q)) by ring. now rewrite Rabs_Ropp.
Qed.

(** how accurate the exponential of the C library is on negative numbers *)
Definition exp_close (L : Libm) (tau : R) : Prop := forall x, valid x -> fin x -> rv x <= 0 ->
  valid (l_exp L x) /\ fin (l_exp L x) /\ Rabs (rv (l_exp L x) - exp (rv x)) <= tau.

Lemma le_INR_le_Z p q : INR p <= INR q -> (Z.of_nat p <= Z.of_nat q)%Z.
Proof. intros H. apply INR_le in H. lia. Qed.

Section ValPS.
  Context (L : Libm) (S : Sums) (HS : any_order S).
  Notation A := (F64o L S).
  Context (b : R) (Hb : lo2 <= b <= hi2 / 2) (d : nat) (Hd : (1 <= Z.of_nat d <= 2 ^ 20)%Z).
  Context (gs : list (list (list f64))) (Hgs : (2 <= length gs)%nat).
  Context (Hg : forall g, In g gs -> g <> [] /\ Forall (fun x => length x = d /\ Forall (ok_in b) x) g).
  Context (HN : (Z.of_nat (length (concat gs)) <= 2 ^ 24)%Z).
  Let D := INR d.
  Let N := INR (length (concat gs)).
  Let T := u * (b * b).
  Let k := length gs.
  Let Y := D * (b * b).
  Let G i := nth i gs [].
  Let dist i j := cdist d (exact (G i)) (exact (G j)).
  Let lamb := lam b d gs.
  Let delta0 := sepmin d gs.
  Let gne := gs_ne b d gs Hgs Hg HN.
  Let pm (i j : nat) : R := ravg (fcol j (G i)).
  Let pb (j : nat) : R := rsum (map (fun i => pm i j) (seq 0 k)) / INR k.
  Let beta := PS_beta d (map exact gs).

  Lemma k_pos : 2 <= INR k.
  Proof. apply (le_INR 2). exact Hgs. Qed.
  Lemma pm_le i j : (i < k)%nat -> (j < d)%nat -> Rabs (pm i j) <= b.
  Proof. intros Hi Hj. apply (avg_le b Hb d Hd gs gne Hg HN); auto. left. exists (G i). split; auto. apply nth_In, Hi. Qed.
  Lemma pb_le j : (j < d)%nat -> Rabs (pb j) <= b.
  Proof.
    intros Hj. pose proof k_pos. unfold pb, Rdiv. rewrite Rabs_mult, (Rabs_pos_eq (/ INR k)) by (left; apply Rinv_0_lt_compat; lra).
    apply (Rmult_le_reg_r (INR k)); [lra|]. rewrite Rmult_assoc, Rinv_l, Rmult_1_r by lra. rewrite Rmult_comm.
    rewrite <- (seq_length k 0) at 2. rewrite <- (map_length (fun i => pm i j)). apply rsum_abs. apply Forall_map, Forall_forall.
    intros i Hi. apply in_seq in Hi. apply pm_le; auto. lia.
  Qed.
  Lemma beta_sum : beta = rsum (map (fun i => rdist2 d (pm i) pb) (seq 0 k)) / INR k.
  Proof.
    unfold beta, PS_beta, nclus. rewrite map_length. fold k. f_equal. change Spec.rsum with rsum. f_equal. rewrite map_map.
    rewrite (G_seq gs (fun g => dist2 (centroid d (exact g)) (centroid d (map (centroid d) (map exact gs))))).
    apply map_ext_in. intros i Hi. rewrite (dist2_rS d) by (unfold centroid; now rewrite map_length, seq_length).
    apply rS_ext. intros j Hj.
    assert (E1 : nth j (centroid d (exact (nth i gs []))) 0 = pm i j) by (unfold exact; now rewrite centroid_avg).
    assert (E2 : nth j (centroid d (map (centroid d) (map exact gs))) 0 = pb j).
    { unfold centroid at 1. rewrite nth_map_seq by auto. rewrite !map_length. fold k. unfold pb. f_equal. change Spec.rsum with rsum. f_equal.
      rewrite !map_map. rewrite (G_seq gs (fun g => nth j (centroid d (exact g)) 0)). apply map_ext. intros m. unfold exact. now rewrite centroid_avg. }
    now rewrite E1, E2.
  Qed.
  Lemma dist_pm i j : dist i j = rdist2 d (pm i) (pm j).
  Proof. unfold dist. now rewrite cdist_avg. Qed.
  Lemma rdist2_nonneg p q : 0 <= rdist2 d p q.
  Proof. apply rS_pos. intros j _. apply Rle_0_sqr. Qed.
  Lemma rdist2_half p q m : rdist2 d p q <= 2 * (rdist2 d p m + rdist2 d q m).
  Proof.
    unfold rdist2. rewrite <- rS_plus, <- rS_scal. apply Rminus_le.
    match goal with |- rS d ?f - rS d ?h <= 0 => assert (H : 0 <= rS d (fun j => h j + -1 * f j)); [|rewrite (rS_plus d h), (rS_scal d (-1) f) in H; lra] end.
    apply rS_pos. intros j _. pose proof (Rle_0_sqr (p j + q j - 2 * m j)). unfold Rsqr in *. lra.
  Qed.
  Lemma beta_low : delta0 <= 2 * INR k * beta.
  Proof.
    pose proof k_pos as K. rewrite beta_sum. replace (2 * INR k * (rsum (map (fun i => rdist2 d (pm i) pb) (seq 0 k)) / INR k)) with (2 * rsum (map (fun i => rdist2 d (pm i) pb) (seq 0 k))) by (field; lra).
    pose proof Hgs as H2. fold k in H2. apply Rle_trans with (dist 0 1); [apply (delta_le d gs Hgs); fold k; lia|].
    rewrite dist_pm. eapply Rle_trans; [apply (rdist2_half _ _ pb)|]. apply Rmult_le_compat_l; [lra|].
    destruct (Nat.le_exists_sub 2 k H2) as (m & -> & _). rewrite Nat.add_comm. cbn [Nat.add seq map rsum fold_right].
    assert (0 <= fold_right Rplus 0 (map (fun i => rdist2 d (pm i) pb) (seq 2 m))).
    { apply RndOps.rsum_pos, Forall_map, Forall_forall. intros i _. apply rdist2_nonneg. }
    lra.
  Qed.
  Lemma beta_range : 0 <= beta <= 4 * Y.
  Proof.
    pose proof k_pos as K. rewrite beta_sum. split.
    - apply Rle_mult_inv_pos; [|lra]. apply RndOps.rsum_pos, Forall_map, Forall_forall. intros i _. apply rdist2_nonneg.
    - apply (Rmult_le_reg_r (INR k)); [lra|]. unfold Rdiv. rewrite Rmult_assoc, Rinv_l, Rmult_1_r by lra.
      rewrite Rmult_comm. rewrite <- (seq_length k 0) at 2. rewrite <- (map_length (fun i => rdist2 d (pm i) pb)).
      eapply Rle_trans; [apply Rle_abs|]. apply rsum_abs. apply Forall_map, Forall_forall. intros i Hi. apply in_seq in Hi.
      rewrite Rabs_pos_eq by apply rdist2_nonneg. replace (4 * Y) with (4 * D * (b * b)) by (unfold Y; ring).
      apply (rdist2_range b d); intros j Hj; [apply pm_le; [lia|auto]|now apply pb_le].
  Qed.

  (** ** The mean of the stored centroids *)
  Context (v : nat -> list f64) (Hv : forall i, (i < k)%nat -> at_mean d (v i) (G i) (17 * u * b * INR (length (G i)))).
  Let rows := map v (seq 0 k).
  Let vb : list f64 := mean_rows (A := A) d rows.
  Lemma size_sum : rsum (map (fun i => INR (length (G i))) (seq 0 k)) = N.
  Proof. unfold N. rewrite <- (len_concat gs). f_equal. symmetry. apply (G_seq gs (fun g => INR (length g))). Qed.
  Lemma k_le_N : INR k <= N.
  Proof. exact (k_range b d gs Hg). Qed.
  Lemma vb_length : length vb = d.
  Proof. unfold vb, mean_rows, smean0. now rewrite map_length, seq_length. Qed.
  Lemma near_pb j : (j < d)%nat -> near (nth j vb nanv) (pb j) (17 * u * b * N).
  Proof.
    intros Hj. destruct (g_pre b Hb d Hd gs gne Hg HN) as ((N1 & N2) & (D1 & D2) & T0 & Un & U0 & b0 & Et & (B1 & B2) & TB).
    fold N in N1, N2, Un. pose proof k_pos as K. pose proof k_le_N as KN. pose proof (Hb_mean b Hb) as Hbm.
    assert (E0 : nth j vb nanv = ddiv (s_sum S (fcol j rows)) (d_of_Z (Z.of_nat (length rows)))).
    { apply (mean_rows_nth L S d rows j); auto. unfold rows. apply Forall_map, Forall_forall. intros i Hi. apply in_seq in Hi.
      destruct (Hv i ltac:(lia)) as [H _]. exact H. }
    assert (Lr : length rows = k) by (unfold rows; now rewrite map_length, seq_length).
    assert (Lc : length (fcol j rows) = k) by (rewrite fcol_length; exact Lr).
    assert (UbN : 0 < u * b * N) by (repeat apply Rmult_lt_0_compat; lra).
    assert (Hi17 : forall i, (i < k)%nat -> near (nth j (v i) nanv) (pm i j) (17 * u * b * INR (length (G i))) /\ 17 * u * b * INR (length (G i)) <= b).
    { intros i Hi. destruct (Hv i Hi) as [_ H]. split; [exact (H j Hj)|].
      destruct (n_range b d gs Hg (G i)) as [_ Hn]; [apply nth_In, Hi|]. fold N in Hn.
      apply Rle_trans with (17 * (u * N) * b); [|nra]. replace (17 * u * b * INR (length (G i))) with (17 * u * b * INR (length (G i))) by ring.
      replace (17 * (u * N) * b) with (17 * u * b * N) by ring. apply Rmult_le_compat_l; [|exact Hn]. apply Rmult_le_pos; lra. }
    assert (HM : near (ddiv (s_sum S (fcol j rows)) (d_of_Z (Z.of_nat (length (fcol j rows))))) (ravg (fcol j rows)) (2 * u * (2 * b) * INR (length (fcol j rows)))).
    { apply near_mean.
      - pose proof low_pos. split; [lra|]. destruct Hb as [_ Hb2]. unfold hi2, high in *. apply Rle_trans with (bpow radix2 400); [lra|]. apply bpow_le. lia.
      - apply (proj1 HS).
      - intros E. rewrite E in Lc. cbn in Lc. pose proof Hgs as H. fold k in H. lia.
      - unfold fcol, rows. rewrite map_map. apply Forall_map, Forall_forall. intros i Hi. apply in_seq in Hi.
        destruct (Hi17 i ltac:(lia)) as [H H']. pose proof (near_abs _ _ _ H) as Ha. destruct H as (V & Fi & _).
        pose proof (pm_le i j ltac:(lia) Hj). repeat split; auto. lra.
      - rewrite Lc. pose proof HN as HN'. apply le_INR_le_Z in KN. lia. }
    rewrite Lc in HM. rewrite E0, Lr. destruct HM as (V & Fi & HM). repeat split; auto.
    assert (HA : Rabs (ravg (fcol j rows) - pb j) <= 17 / 2 * (u * b * N)).
    { unfold ravg, pb. rewrite Lc. unfold Rdiv. rewrite <- Rmult_minus_distr_r, Rabs_mult, (Rabs_pos_eq (/ INR k)) by (left; apply Rinv_0_lt_compat; lra).
      apply (Rmult_le_reg_r (INR k)); [lra|]. rewrite Rmult_assoc, Rinv_l, Rmult_1_r by lra.
      apply Rle_trans with (17 * (u * b * N)); [|nra].
      assert (Hd' : forall l, (forall i, In i l -> (i < k)%nat) -> Rabs (rsum (map (fun i => rv (nth j (v i) nanv)) l) - rsum (map (fun i => pm i j) l)) <= 17 * u * b * rsum (map (fun i => INR (length (G i))) l)).
      { induction l as [|i l IH]; intros Hl; cbn [map rsum fold_right]; [rewrite Rminus_0_r, Rabs_R0; lra|].
        specialize (IH ltac:(intros; apply Hl; now right)). destruct (Hi17 i ltac:(apply Hl; now left)) as [(_ & _ & H) _]. unfold rsum in IH.
        match goal with |- Rabs (?a + ?x - (?c + ?y)) <= _ => replace (a + x - (c + y)) with ((a - c) + (x - y)) by ring end.
        eapply Rle_trans; [apply Rabs_triang|]. lra. }
      specialize (Hd' (seq 0 k) ltac:(intros i Hi; apply in_seq in Hi; lia)). rewrite size_sum in Hd'.
      unfold fcol, rows. rewrite !map_map. lra. }
    replace (rv (ddiv (s_sum S (fcol j rows)) (d_of_Z (Z.of_nat k))) - pb j) with
      ((rv (ddiv (s_sum S (fcol j rows)) (d_of_Z (Z.of_nat k))) - ravg (fcol j rows)) + (ravg (fcol j rows) - pb j)) by ring.
    eapply Rle_trans; [apply Rabs_triang|].
    assert (u * b * INR k <= u * b * N) by (apply Rmult_le_compat_l; [apply Rmult_le_pos; lra|lra]). lra.
  Qed.

  (** ** The normalisation *)
  Let yi i : list f64 := map2 dsub (v i) vb.
  Lemma near_bi i : (i < k)%nat -> near (s_dot S (yi i) (yi i)) (rdist2 d (pm i) pb) (em b d gs).
  Proof.
    intros Hi. destruct (Hv i Hi) as [Lv Hvi]. destruct (g_pre b Hb d Hd gs gne Hg HN) as ((N1 & N2) & _ & _ & _ & U0 & b0 & _).
    destruct (n_range b d gs Hg (G i)) as [_ Hn]; [apply nth_In, Hi|].
    unfold em. apply (near_sumsq b Hb d Hd gs gne Hg HN (v i) vb); auto using vb_length.
    - intros j Hj. split; [|now apply pm_le]. eapply near_weaken; [apply Hvi, Hj|]. apply Rmult_le_compat_l; [|exact Hn].
      apply Rmult_le_pos; lra.
    - intros j Hj. split; [now apply near_pb|now apply pb_le].
    - replace (map (fun x => dmul x x) (map2 dsub (v i) vb)) with (dprods (yi i) (yi i)); [apply (proj2 HS)|].
      fold (yi i). clear. induction (yi i) as [|a y IH]; cbn; [reflexivity|]. now rewrite IH.
  Qed.
  Let bt := ddiv (fold_left dadd (map (fun i => s_dot S (yi i) (yi i)) (seq 0 k)) (d_of_Z 0)) (d_of_Z (Z.of_nat k)).
  Lemma near_bt : near bt beta (lamb / 2).
  Proof.
    destruct (lam_pre b Hb d Hd gs Hgs Hg HN) as (U & N1 & Y0 & L1 & LK & L2 & Et & (YL & YH) & L0 & Tp & _).
    fold lamb in L1, LK, L2, Et, L0. change (INR d * (b * b)) with Y in Y0, L1, LK, L2, YL, YH, Tp. fold k in LK. change (INR (length (concat gs))) with N in N1, Tp.
    pose proof k_pos as K. pose proof k_le_N as KN. pose proof beta_range as [B0 B1]. pose proof (em_lam b d gs) as Ee. fold lamb in Ee.
    set (s0 := rsum (map (fun i => rdist2 d (pm i) pb) (seq 0 k))).
    assert (Es : s0 = INR k * beta) by (rewrite beta_sum; fold s0; field; lra).
    assert (HM : low <= 5 * Y * INR k <= high).
    { split.
      - apply Rle_trans with (bpow radix2 (-800)); [apply bpow_le; lia|]. nra.
      - apply Rle_trans with (bpow radix2 3 * bpow radix2 818 * bpow radix2 24); [|rewrite <- !bpow_plus; apply bpow_le; lia].
        destruct (g_pre b Hb d Hd gs gne Hg HN) as ((_ & N2) & _). fold N in N2. change (bpow radix2 3) with 8. change (bpow radix2 24) with 16777216.
        apply Rmult_le_compat; nra. }
    assert (Uk : u * INR k <= / 32).
    { destruct (g_pre b Hb d Hd gs gne Hg HN) as (_ & _ & _ & Un & _). fold N in Un. apply Rle_trans with (u * N); [apply Rmult_le_compat_l; lra|lra]. }
    assert (HP : near (fold_left dadd (map (fun i => s_dot S (yi i) (yi i)) (seq 0 k)) (d_of_Z 0)) s0 (INR k * (175 / 380 * lamb))).
    { eapply near_weaken; [apply (near_psum (fun i => s_dot S (yi i) (yi i)) (fun i => rdist2 d (pm i) pb) (fun _ => em b d gs) (5 * Y * INR k) (seq 0 k) HM)|].
      - now rewrite seq_length.
      - intros i Hi. apply in_seq in Hi. apply near_bi. lia.
      - rewrite Rmult_comm. rewrite <- (seq_length k 0) at 2. rewrite <- (map_length (fun i => Rabs (rdist2 d (pm i) pb) + em b d gs)).
        eapply Rle_trans; [apply Rle_abs|]. apply rsum_abs. apply Forall_map, Forall_forall. intros i Hi. apply in_seq in Hi.
        assert (R0 : 0 <= rdist2 d (pm i) pb <= 4 * D * (b * b)) by (apply (rdist2_range b d); intros j Hj; [apply pm_le; [lia|auto]|now apply pb_le]).
        replace (4 * D * (b * b)) with (4 * Y) in R0 by (unfold Y; ring).
        rewrite (Rabs_pos_eq (rdist2 _ _ _)) by lra. rewrite Ee, Rabs_pos_eq by lra. lra.
      - rewrite seq_length. assert (Ec : rsum (map (fun _ : nat => em b d gs) (seq 0 k)) = INR k * em b d gs).
        { rewrite <- (seq_length k 0) at 2. generalize (seq 0 k) as l. intros l. induction l as [|i l IH]; [cbn; ring|].
          cbn [length]. rewrite S_INR. cbn [map rsum fold_right]. unfold rsum in IH. rewrite IH. ring. }
        rewrite Ec, Ee. assert (10 * (u * Y) * INR k * INR k <= 10 / 380 * lamb * INR k) by (apply Rmult_le_compat_r; lra).
        replace (2 * u * (5 * Y * INR k) * INR k) with (10 * (u * Y) * INR k * INR k) by ring. lra. }
    assert (Hk : (0 < Z.of_nat k <= 2 ^ 53)%Z) by (pose proof Hgs as H; fold k in H; apply le_INR_le_Z in KN; lia).
    unfold bt. replace beta with (s0 / IZR (Z.of_nat k)) by (rewrite Es, <- INR_IZR_INZ; field; lra).
    assert (BY : INR k * beta <= N * (4 * Y)) by (apply Rmult_le_compat; lra).
    assert (LY : INR k * (175 / 380 * lamb) <= N * Y) by (apply Rmult_le_compat; lra).
    eapply near_weaken; [apply near_div_Z; [exact HP|exact Hk|]|].
    - rewrite Es, Rabs_pos_eq by (apply Rmult_le_pos; lra). assert (0 < N * Y) by (apply Rmult_lt_0_compat; lra). lra.
    - rewrite <- INR_IZR_INZ. replace (s0 / INR k) with beta by (rewrite Es; field; lra).
      replace (INR k * (175 / 380 * lamb) / INR k) with (175 / 380 * lamb) by (field; lra).
      rewrite Rabs_pos_eq by lra. assert (u * (beta + 175 / 380 * lamb) <= u * (5 * Y)) by (apply Rmult_le_compat_l; lra). lra.
  Qed.

  (** ** One term *)
  Let mn i : R := rmin (map (dist i) (remove_nth i (seq 0 k))).
  Lemma others_ne i : (i < k)%nat -> remove_nth i (seq 0 k) <> [].
  Proof.
    intros Hi H. apply (f_equal (@length _)) in H. rewrite remove_nth_length in H by (now rewrite seq_length). rewrite seq_length in H.
    pose proof Hgs as H2. fold k in H2. cbn in H. lia.
  Qed.
  Lemma mn_range i : (i < k)%nat -> delta0 <= mn i <= 4 * Y.
  Proof.
    intros Hi. assert (H : In (mn i) (map (dist i) (remove_nth i (seq 0 k)))).
    { apply rmin_In. intros E. apply map_eq_nil in E. now apply (others_ne i). }
    apply in_map_iff in H as (j & <- & Hj). apply remove_nth_seq in Hj as [Hj Hij]. specialize (Hij Hi). split.
    - apply (delta_le d gs Hgs); auto.
    - apply (Y_range b Hb d Hd gs Hgs Hg HN i j Hi Hj).
  Qed.
  Context (e : nat -> nat -> f64) (He : forall i j, (i < k)%nat -> (j < k)%nat -> i <> j -> near (e i j) (dist i j) (em b d gs)).
  Let mn' i : f64 := vmin (A := A) (map (e i) (remove_nth i (seq 0 k))).
  Lemma near_mn i : (i < k)%nat -> near (mn' i) (mn i) (em b d gs).
  Proof.
    intros Hi. apply near_min; [now apply others_ne|]. intros j Hj. apply remove_nth_seq in Hj as [Hj Hij]. apply He; auto.
    intros E. now apply (Hij Hi).
  Qed.
  Let kap := INR k * lamb / delta0.
  Context (H4 : 4 * (INR k * lamb) <= delta0).
  Lemma kap_range : 0 < delta0 /\ 95 * u * INR k <= kap <= / 4 /\ 2 * lamb <= beta.
  Proof.
    destruct (lam_pre b Hb d Hd gs Hgs Hg HN) as (U & N1 & Y0 & L1 & LK & L2 & Et & (YL & YH) & L0 & Tp & _).
    fold lamb in L1, LK, L2, Et, L0. change (INR d * (b * b)) with Y in Y0, L1, LK, L2, YL, YH, Tp. fold k in LK.
    pose proof k_pos as K. pose proof beta_low as BL. pose proof (delta_range b Hb d Hd gs Hgs Hg HN) as DR. fold delta0 in DR.
    change (INR d * (b * b)) with Y in DR. assert (0 < INR k * lamb) by (apply Rmult_lt_0_compat; lra). assert (D0 : 0 < delta0) by lra.
    split; [exact D0|]. split; [split|].
    - unfold kap. apply (Rmult_le_reg_r delta0); [lra|]. replace (INR k * lamb / delta0 * delta0) with (INR k * lamb) by (field; lra).
      apply Rle_trans with (95 * u * INR k * (4 * Y)); [apply Rmult_le_compat_l; [apply Rmult_le_pos; lra|lra]|].
      replace (95 * u * INR k * (4 * Y)) with (INR k * (380 * (u * Y))) by ring. apply Rmult_le_compat_l; lra.
    - unfold kap. apply (Rmult_le_reg_r delta0); [lra|]. replace (INR k * lamb / delta0 * delta0) with (INR k * lamb) by (field; lra). lra.
    - apply (Rmult_le_reg_l (2 * INR k)); lra.
  Qed.
  Lemma near_expo i : (i < k)%nat -> near (ddiv (SFopp (mn' i)) bt) (- (mn i / beta)) (7 / 4 * kap * (mn i / beta)) /\ 0 <= mn i / beta.
  Proof.
    intros Hi. destruct (lam_pre b Hb d Hd gs Hgs Hg HN) as (U & N1 & Y0 & L1 & LK & L2 & Et & (YL & YH) & L0 & Tp & Eu).
    fold lamb in L1, LK, L2, Et, L0. change (INR d * (b * b)) with Y in Y0, L1, LK, L2, YL, YH, Tp. fold k in LK.
    pose proof k_pos as K. pose proof beta_low as BL. destruct kap_range as (D0 & (K1 & K2) & B2). destruct (mn_range i Hi) as [M1 M2].
    pose proof beta_range as [_ B1]. pose proof (near_mn i Hi) as HM. pose proof near_bt as HB. rewrite (em_lam b d gs) in HM. fold lamb in HM.
    assert (B0 : 0 < beta) by lra. set (t := mn i / beta).
    assert (Ib : 0 < / beta) by (apply Rinv_0_lt_compat; lra).
    assert (T0 : 0 < t) by (apply Rmult_lt_0_compat; lra).
    assert (T1 : 380 * u <= t).
    { unfold t. apply (Rmult_le_reg_r beta); [lra|]. replace (mn i / beta * beta) with (mn i) by (field; lra).
      apply Rle_trans with (380 * u * (4 * Y)); [apply Rmult_le_compat_l; lra|]. apply Rle_trans with (4 * (INR k * lamb)); [|lra].
      assert (1 * lamb <= INR k * lamb) by (apply Rmult_le_compat_r; lra). lra. }
    assert (T2 : t <= 4 * Y / (2 * lamb)).
    { unfold t, Rdiv. apply Rmult_le_compat; try lra. apply Rinv_le_contravar; lra. }
    assert (T3 : t <= / u).
    { eapply Rle_trans; [exact T2|]. apply (Rmult_le_reg_r (2 * lamb)); [lra|]. replace (4 * Y / (2 * lamb) * (2 * lamb)) with (4 * Y) by (field; lra).
      apply (Rmult_le_reg_l u); [lra|]. replace (u * (/ u * (2 * lamb))) with (2 * lamb) by (field; lra). lra. }
    set (E := 4 / 3 * ((165 / 380 * lamb + t * (lamb / 2)) / beta)).
    assert (EE : E <= 5 / 3 * (kap * t)).
    { unfold E. apply Rle_trans with (4 / 3 * (5 / 4 * (kap * t))); [|lra]. apply Rmult_le_compat_l; [lra|].
      assert (P1 : lamb / beta <= 2 * kap).
      { unfold kap. apply (Rmult_le_reg_r (beta * delta0)); [apply Rmult_lt_0_compat; lra|].
        replace (lamb / beta * (beta * delta0)) with (lamb * delta0) by (field; lra).
        replace (2 * (INR k * lamb / delta0) * (beta * delta0)) with (lamb * (2 * INR k * beta)) by (field; lra).
        apply Rmult_le_compat_l; lra. }
      assert (P2 : lamb <= mn i * kap / 2).
      { apply Rle_trans with (delta0 * kap / 2).
        - unfold kap. replace (delta0 * (INR k * lamb / delta0) / 2) with (INR k / 2 * lamb) by (field; lra).
          rewrite <- (Rmult_1_l lamb) at 1. apply Rmult_le_compat_r; lra.
        - apply Rmult_le_compat_r; [lra|]. apply Rmult_le_compat_r; [|lra]. assert (0 < 95 * u * INR k) by (apply Rmult_lt_0_compat; lra). lra. }
      replace ((165 / 380 * lamb + t * (lamb / 2)) / beta) with (165 / 380 * (lamb * / beta) + t * / 2 * (lamb / beta)) by (field; lra).
      assert (Q1 : lamb * / beta <= kap * t / 2).
      { unfold t. replace (kap * (mn i / beta) / 2) with (mn i * kap / 2 * / beta) by (field; lra). apply Rmult_le_compat_r; lra. }
      assert (Q2 : t * / 2 * (lamb / beta) <= t * / 2 * (2 * kap)) by (apply Rmult_le_compat_l; lra).
      assert (0 <= kap * t) by (apply Rmult_le_pos; [|lra]; assert (0 < 95 * u * INR k) by (apply Rmult_lt_0_compat; lra); lra). lra. }
    assert (KT : kap * t <= / 4 * t) by (apply Rmult_le_compat_r; lra).
    assert (UT : 190 * (u * t) <= kap * t).
    { rewrite <- Rmult_assoc. apply Rmult_le_compat_r; [lra|]. assert (u * 2 <= u * INR k) by (apply Rmult_le_compat_l; lra). lra. }
    assert (E0 : 0 <= E).
    { unfold E. apply Rmult_le_pos; [lra|]. apply Rmult_le_pos; [|lra]. assert (0 <= t * (lamb / 2)) by (apply Rmult_le_pos; lra). lra. }
    split; [|lra]. eapply near_weaken; [apply (near_neg_quot (mn' i) bt (mn i) beta (165 / 380 * lamb) (lamb / 2)); auto; try lra|].
    - fold t E. assert (/ u <= high) by (unfold u; rewrite <- bpow_opp; apply bpow_le; lia). pose proof high_top. assert (0 < high) by apply bpow_gt_0. lra.
    - fold t E. assert (u * (t + E) <= u * (2 * t)) by (apply Rmult_le_compat_l; lra). assert (u * (380 * u) <= u * t) by (apply Rmult_le_compat_l; lra).
      assert (eta <= u * u) by (unfold eta, u; rewrite <- bpow_plus; apply bpow_le; lia). nra.
  Qed.

  (** ** The value *)
  Context (tau : R) (Htau : 0 <= tau <= 1) (HX : exp_close L tau).
  Let mx := list_max (map (@length _) gs).
  Let tm i : R := INR (length (G i)) / INR mx - exp (- mn i / beta).
  Let tm' i : f64 := dsub (ddiv (d_of_Z (Z.of_nat (length (G i)))) (d_of_Z (Z.of_nat mx))) (l_exp L (ddiv (SFopp (mn' i)) bt)).
  Lemma PS_terms : PS_formula d (map exact gs) = rsum (map tm (seq 0 k)).
  Proof.
    unfold PS_formula. change Spec.rsum with rsum. f_equal. set (X := map exact gs : list (list point)). assert (Lx : length X = k) by apply map_length.
    rewrite <- (selects_seq (fun g r => INR (length g) / rmax (map (fun g => INR (length g)) X) - exp (- rmin (map (cdist d g) r) / PS_beta d X)) X []).
    rewrite Lx. apply map_ext_in. intros i Hi. apply in_seq in Hi.
    assert (En : forall j, nth j X [] = exact (G j)) by (intros j; unfold X, G; apply (map_nth exact gs [])).
    unfold tm. rewrite !En, exact_length. fold beta. change (PS_beta d X) with beta.
    assert (Em : rmax (map (fun g => INR (length g)) X) = INR mx).
    { unfold mx. rewrite rmax_INR. f_equal. unfold X. rewrite !map_map. apply map_ext. intros g. now rewrite exact_length. }
    assert (Er : map (cdist d (exact (G i))) (remove_nth i X) = map (dist i) (remove_nth i (seq 0 k))).
    { rewrite <- (remove_nth_map (dist i)), <- (remove_nth_map (cdist d (exact (G i)))). f_equal. unfold X. rewrite map_map.
      exact (G_seq gs (fun g => cdist d (exact (G i)) (exact g))). }
    rewrite Em, Er. reflexivity.
  Qed.
  Lemma near_tm i : (i < k)%nat -> near (tm' i) (tm i) (14 / 9 * kap + tau + 9 * u) /\ Rabs (tm i) <= 1.
  Proof.
    intros Hi. destruct (near_expo i Hi) as [HE T0]. set (t := mn i / beta) in *. destruct kap_range as (D0 & (K1 & K2) & B2).
    pose proof u_small as [U1 U2]. pose proof k_pos as K. assert (K0 : 0 < kap) by (assert (0 < 95 * u * INR k) by (apply Rmult_lt_0_compat; lra); lra).
    assert (KT : 0 <= kap * t <= / 4 * t) by (split; [apply Rmult_le_pos; lra|apply Rmult_le_compat_r; lra]).
    destruct HE as (VE & FE & DE). set (x := ddiv (SFopp (mn' i)) bt) in *.
    assert (Hx : rv x <= 0) by (apply Rabs_le_inv in DE; lra).
    destruct (HX x VE FE Hx) as (VX & FX & DX).
    assert (NX : near (l_exp L x) (exp (- t)) (tau + 14 / 9 * kap)).
    { repeat split; auto. replace (rv (l_exp L x) - exp (- t)) with ((rv (l_exp L x) - exp (rv x)) + (exp (rv x) - exp (- t))) by ring.
      eapply Rle_trans; [apply Rabs_triang|]. apply Rplus_le_compat; [exact DX|].
      replace (rv x) with (- - rv x) by ring. apply exp_rel; [exact T0|lra|]. rewrite <- Rabs_Ropp.
      replace (- (- rv x - t)) with (rv x - - t) by ring. exact DE. }
    assert (X01 : 0 < exp (- t) <= 1).
    { split; [apply exp_pos|]. rewrite <- exp_0. destruct T0 as [T0| <-]; [left; apply exp_increasing; lra|right; f_equal; ring]. }
    assert (In_i : In (G i) gs) by (apply nth_In, Hi).
    assert (Sz : (1 <= Z.of_nat (length (G i)) <= Z.of_nat mx)%Z /\ (Z.of_nat mx <= 2 ^ 24)%Z).
    { destruct (n_range b d gs Hg (G i) In_i) as [n1 n2]. apply (INR_le 1) in n1.
      assert (M1 : (length (G i) <= mx)%nat) by (apply list_max_le, in_map, In_i).
      assert (M2 : In mx (map (@length _) gs)) by (apply list_max_In; intros E; apply map_eq_nil in E; congruence).
      apply in_map_iff in M2 as (g & Eg & Hgi). destruct (n_range b d gs Hg g Hgi) as [_ n3]. apply INR_le in n3. lia. }
    destruct (near_ratio (Z.of_nat (length (G i))) (Z.of_nat mx)) as [NR _]; [lia|lia|]. rewrite <- !INR_IZR_INZ in NR.
    assert (R01 : 0 <= INR (length (G i)) / INR mx <= 1).
    { assert (P1 : 1 <= INR (length (G i))) by (apply (le_INR 1); lia). assert (P2 : INR (length (G i)) <= INR mx) by (apply le_INR; lia). split.
      - apply Rle_mult_inv_pos; lra.
      - apply (Rmult_le_reg_r (INR mx)); [lra|]. replace (INR (length (G i)) / INR mx * INR mx) with (INR (length (G i))) by (field; lra). lra. }
    set (q := INR (length (G i)) / INR mx) in *.
    assert (Ht : tm i = q - exp (- t)) by (unfold tm; fold q; do 2 f_equal; unfold t, Rdiv; ring).
    assert (A1 : Rabs (q - exp (- t)) <= 1) by (apply Rabs_le; lra).
    rewrite Ht. split; [|exact A1]. eapply near_weaken; [apply near_sub; [exact NR|exact NX|]|].
    - rewrite !Rabs_pos_eq by lra. pose proof one_top. assert (2 * u * q <= 2 * u * 1) by (apply Rmult_le_compat_l; lra). lra.
    - assert (2 * u * q <= 2 * u * 1) by (apply Rmult_le_compat_l; lra). assert (0 <= 2 * u * q) by (apply Rmult_le_pos; lra).
      assert (u * (Rabs (q - exp (- t)) + (2 * u * q + (tau + 14 / 9 * kap))) <= u * 3) by (apply Rmult_le_compat_l; lra).
      assert (eta <= u * u) by (unfold eta, u; rewrite <- bpow_plus; apply bpow_le; lia).
      assert (u * u <= / 1000000 * u) by (apply Rmult_le_compat_r; lra). lra.
  Qed.
  Theorem near_PS : near (s_sum S (map tm' (seq 0 k))) (PS_formula d (map exact gs)) (INR k * (tau + 2 * kap)).
  Proof.
    rewrite PS_terms. destruct kap_range as (D0 & (K1 & K2) & B2). pose proof u_small as [U1 U2]. pose proof k_pos as K.
    assert (K0 : 0 < kap) by (assert (0 < 95 * u * INR k) by (apply Rmult_lt_0_compat; lra); lra).
    assert (KN : INR k <= 16777216) by (destruct (g_pre b Hb d Hd gs gne Hg HN) as ((_ & N2) & _); fold N in N2; pose proof k_le_N; lra).
    set (er := 14 / 9 * kap + tau + 9 * u).
    assert (Ec : rsum (map (fun _ : nat => er) (seq 0 k)) = INR k * er).
    { rewrite <- (seq_length k 0) at 2. generalize (seq 0 k) as l. intros l. induction l as [|i l IH]; [cbn; ring|].
      cbn [length]. rewrite S_INR. cbn [map rsum fold_right]. unfold rsum in IH. rewrite IH. ring. }
    eapply near_weaken; [apply (near_summed_near tm' tm (fun _ => er) (3 * INR k) (seq 0 k))|].
    - split.
      + apply Rle_trans with (bpow radix2 0); [apply bpow_le; lia|]. change (bpow radix2 0) with 1. lra.
      + apply Rle_trans with (bpow radix2 26); [change (bpow radix2 26) with 67108864; lra|apply bpow_le; lia].
    - apply (proj1 HS).
    - pose proof Hgs as H. fold k in H. intros E. apply (f_equal (@length _)) in E. rewrite seq_length in E. cbn in E. lia.
    - intros i Hi. apply in_seq in Hi. apply near_tm. lia.
    - rewrite Rmult_comm. rewrite <- (seq_length k 0) at 2. rewrite <- (map_length (fun i => Rabs (tm i) + er)).
      eapply Rle_trans; [apply Rle_abs|]. apply rsum_abs. apply Forall_map, Forall_forall. intros i Hi. apply in_seq in Hi.
      destruct (near_tm i ltac:(lia)) as [_ Ha]. pose proof (Rabs_pos (tm i)). rewrite Rabs_pos_eq; unfold er; lra.
    - rewrite seq_length. assert (u * INR k <= / 1000000000 * 16777216); [|lra]. apply Rmult_le_compat; try lra. rewrite u_val. lra.
    - rewrite Ec, seq_length.
      assert (u * INR k * INR k <= / 95 * kap * INR k) by (apply Rmult_le_compat_r; lra).
      assert (u * 2 <= u * INR k) by (apply Rmult_le_compat_l; lra).
      assert (INR k * u <= INR k * (/ 190 * kap)) by (apply Rmult_le_compat_l; lra).
      unfold er. replace (2 * u * (3 * INR k) * INR k) with (6 * (u * INR k * INR k)) by ring.
      assert (0 <= INR k * kap) by (apply Rmult_le_pos; lra). lra.
  Qed.
End ValPS.
