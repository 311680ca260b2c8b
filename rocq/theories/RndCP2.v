(** * The compactness of one cluster after any number of samples *)
From Coq Require Import ZArith Reals Lia Lra SpecFloat Psatz List Permutation.
From Flocq Require Import Core Relative.
From Verif Require Import Num NumPy Base GetCvi Lists Step Stream RunForm BatchForm F64 F64o Rnd RndErr RndMean RndSum RndCl RndCP.
Import ListNotations.
Local Open Scope R_scope.
Local Notation R := Rdefinitions.R.
Local Notation nanv := S754_nan.

Lemma nth_map2_sub (a b : list f64) d j : length a = d -> length b = d -> (j < d)%nat ->
  nth j (map2 dsub a b) nanv = dsub (nth j a nanv) (nth j b nanv).
Proof. intros Ha Hb Hj. now apply (nth_map2 dsub a b j nanv nanv nanv); lia. Qed.

(** one update of the compactness *)
Section Step.
  Context (B : R) (HB : lo2 <= B <= hi2) (N : Z) (HN : (2 <= N <= 2 ^ 24)%Z) (d : nat) (Hd : (1 <= Z.of_nat d <= 2 ^ 20)%Z).
  Context (V x V' g : list f64) (LV : length V = d) (Lx : length x = d) (LV' : length V' = d) (Lg : length g = d).
  Context (MV : forall j, (j < d)%nat -> Rabs (rv (nth j V nanv) - rv (nth j V' nanv)) <= 3 * (/ IZR N * B)).
  Context (OV : forall j, (j < d)%nat -> ok_in B (nth j V nanv)).
  Context (Ox : forall j, (j < d)%nat -> ok_in B (nth j x nanv)).
  Context (OV' : forall j, (j < d)%nat -> ok_in B (nth j V' nanv)).
  Context (G : nat -> R) (eg : R).
  Context (Ng : forall j, (j < d)%nat -> near (nth j g nanv) (G j) eg /\ Rabs (G j) <= B).
  Let t := u * B.
  Context (Heg0 : 0 <= eg) (Heg : eg <= 25 * t * IZR (N - 1)).
  Let w := / IZR N.
  Let D := INR d.
  Notation dv j := (rv (nth j V nanv) - rv (nth j V' nanv)).
  Notation dx j := (rv (nth j x nanv) - rv (nth j V' nanv)).

  Lemma HN' : (2 <= N <= 2 ^ 25)%Z. Proof. lia. Qed.
  Lemma Hd' : (Z.of_nat d <= 2 ^ 48)%Z. Proof. lia. Qed.
  Lemma D_facts : 0 <= D /\ D <= D * D /\ 1 <= D <= 1048576.
  Proof.
    unfold D. split; [apply pos_INR|]. split.
    - destruct d as [|q]; [cbn; lra|]. rewrite S_INR. pose proof (pos_INR q). nra.
    - split; [apply (le_INR 1); lia|]. rewrite INR_IZR_INZ. apply (IZR_le _ (2 ^ 20)). lia.
  Qed.
  Lemma tB_facts : 0 < t * B /\ eta <= u * (t * B) * (w * w) /\ low <= B * B * (w * w) /\ 1000000 * (B * B) <= high /\ u * (t * B) <= / 1000000 * (t * B) /\ t * B <= / 1000000 * (B * B) /\ w * w <= / 4.
  Proof.
    destruct HB as [H1 H2]. pose proof lo2_pos. pose proof u_small as [U1 U2].
    assert (B0 : 0 < B) by lra. assert (0 < t) by (apply Rmult_lt_0_compat; lra).
    assert (HW : bpow radix2 (-24) <= w).
    { unfold w. change (bpow radix2 (-24)) with (/ IZR (2 ^ 24)). apply Rinv_le_contravar; [apply IZR_lt; lia|apply IZR_le; lia]. }
    pose proof (w_range N HN') as [_ W2]. fold w in W2.
    pose proof (bpow_gt_0 radix2 (-24)) as P24.
    assert (HWW : bpow radix2 (-48) <= w * w).
    { change (-48)%Z with (-24 + -24)%Z. rewrite bpow_plus. apply Rmult_le_compat; lra. }
    assert (HBB : bpow radix2 (-800) <= B * B).
    { change (-800)%Z with (-400 + -400)%Z. rewrite bpow_plus. unfold lo2 in *. apply Rmult_le_compat; lra. }
    pose proof (bpow_gt_0 radix2 (-800)). pose proof (bpow_gt_0 radix2 (-48)).
    assert (X : bpow radix2 (-848) <= B * B * (w * w)).
    { change (-848)%Z with (-800 + -48)%Z. rewrite bpow_plus. apply Rmult_le_compat; lra. }
    assert (T0 : 0 < t * B) by (apply Rmult_lt_0_compat; lra).
    repeat split; auto.
    - replace (u * (t * B) * (w * w)) with (u * u * (B * B * (w * w))) by (unfold t; ring).
      apply Rle_trans with (u * u * bpow radix2 (-848)).
      + unfold eta, u. rewrite <- !bpow_plus. apply bpow_le. lia.
      + apply Rmult_le_compat_l; [nra|auto].
    - apply Rle_trans with (bpow radix2 (-848)); auto. apply bpow_le. lia.
    - assert (B * B <= bpow radix2 800).
      { change 800%Z with (400 + 400)%Z. rewrite bpow_plus. unfold hi2 in *. apply Rmult_le_compat; lra. }
      apply Rle_trans with (bpow radix2 20 * bpow radix2 800).
      + apply Rmult_le_compat; try lra. cbn. lra.
      + rewrite <- bpow_plus. apply bpow_le. lia.
    - apply Rmult_le_compat_r; lra.
    - unfold t. rewrite Rmult_assoc. apply Rmult_le_compat_r; nra.
    - assert (0 < w) by lra. nra.
  Qed.

  Ltac base := destruct D_facts as (D0 & DD & D2 & D1); destruct tB_facts as (T0 & Te & TL & TH & TU & TT & TW);
    pose proof (w_range N HN') as [W1 W2]; fold w in W1, W2; pose proof u_small as [U1 U2];
    destruct (B_facts B HB) as (B0 & BL & Bt & Be & Btop & BtB & But); fold t in Bt, Be, BtB, But;
    pose proof low_pos as L0.

  Lemma near_dxdx z : summed (dprods (map2 dsub x V') (map2 dsub x V')) z ->
    near z (rS d (fun j => dx j * dx j)) (27 * (t * B) * (D * D)).
  Proof.
    intros Hz. base. assert (L : length (map2 dsub x V') = d) by (rewrite length_map2; lia).
    assert (Nn : forall j, (j < d)%nat -> near (nth j (map2 dsub x V') nanv) (dx j) (3 * t) /\ Rabs (dx j) <= 2 * B).
    { intros j Hj. rewrite (nth_map2_sub x V' d) by auto. split.
      - apply (near_dx B HB); auto.
      - apply (x_move B); auto. }
    assert (Q : t * t <= / 1000000 * (t * B)) by (unfold t in *; nra).
    assert (WW : eta <= u * (t * B)).
    { eapply Rle_trans; [exact Te|]. assert (0 <= u * (t * B)) by (apply Rmult_le_pos; lra). nra. }
    assert (BB : 0 < B * B) by nra.
    assert (SB : low <= 5 * (B * B)) by nra.
    eapply near_weaken.
    - apply (near_dot d _ _ (fun j => dx j) (fun j => dx j) (2 * B) (2 * B) (3 * t) (3 * t) (5 * (B * B)) (17 * (t * B)) z L L Hz Hd'); auto; try lra.
      + replace (2 * B * (3 * t) + 2 * B * (3 * t) + 3 * t * (3 * t)) with (12 * (t * B) + 9 * (t * t)) by ring.
        set (q := 12 * (t * B) + 9 * (t * t)) in *. assert (q <= 13 * (t * B)) by (unfold q; lra).
        assert (u * (2 * B * (2 * B) + q) <= u * (4 * (B * B)) + u * (13 * (t * B))).
        { rewrite <- Rmult_plus_distr_l. apply Rmult_le_compat_l; lra. }
        replace (u * (4 * (B * B))) with (4 * (t * B)) in H0 by (unfold t; ring).
        assert (q <= 12 * (t * B) + 9 * (/ 1000000 * (t * B))) by (unfold q; lra). lra.
    - fold D. replace (2 * u * (5 * (B * B)) * (D * D)) with (10 * ((t * B) * (D * D))) by (unfold t; ring).
      assert (D * (17 * (t * B)) <= 17 * ((t * B) * (D * D))) by nra. lra.
  Qed.

  Lemma dv_facts : length (map2 dsub V V') = d /\
    forall j, (j < d)%nat -> near (nth j (map2 dsub V V') nanv) (dv j) (4 * (w * t)) /\ Rabs (dv j) <= 3 * (w * B).
  Proof.
    split; [rewrite length_map2; lia|]. intros j Hj. rewrite (nth_map2_sub V V' d) by auto. split.
    - apply (near_dv B HB N HN'); auto.
    - exact (MV j Hj).
  Qed.
  Lemma near_dvdv z : summed (dprods (map2 dsub V V') (map2 dsub V V')) z ->
    near z (rS d (fun j => dv j * dv j)) (54 * (t * B) * (w * w) * (D * D)).
  Proof.
    intros Hz. base. destruct dv_facts as [L Nn].
    set (W := w * w) in *. assert (W0 : 0 < W) by (unfold W; nra).
    assert (BB : 0 < B * B) by nra. assert (TW' : 0 < t * B * W) by (apply Rmult_lt_0_compat; auto).
    assert (Q : t * t * W <= / 1000000 * (t * B * W)).
    { replace (/ 1000000 * (t * B * W)) with (t * (/ 1000000 * B) * W) by ring. apply Rmult_le_compat_r; [lra|]. apply Rmult_le_compat_l; lra. }
    assert (Q2 : u * (t * B) * W <= / 1000000 * (t * B * W)).
    { replace (/ 1000000 * (t * B * W)) with (/ 1000000 * (t * B) * W) by ring. apply Rmult_le_compat_r; lra. }
    assert (Q3 : t * B * W <= / 1000000 * (B * B * W)).
    { replace (/ 1000000 * (B * B * W)) with (/ 1000000 * (B * B) * W) by ring. apply Rmult_le_compat_r; lra. }
    assert (Q4 : B * B * W <= B * B) by nra.
    eapply near_weaken.
    - apply (near_dot d _ _ (fun j => dv j) (fun j => dv j) (3 * (w * B)) (3 * (w * B)) (4 * (w * t)) (4 * (w * t)) (10 * (B * B * W)) (34 * (t * B * W)) z L L Hz Hd'); auto; try lra; try nra.
      + replace (3 * (w * B) * (4 * (w * t)) + 3 * (w * B) * (4 * (w * t)) + 4 * (w * t) * (4 * (w * t))) with (24 * (t * B * W) + 16 * (t * t * W)) by (unfold W; ring).
        replace (3 * (w * B) * (3 * (w * B))) with (9 * (B * B * W)) by (unfold W; ring).
        replace (u * (9 * (B * B * W) + (24 * (t * B * W) + 16 * (t * t * W)))) with (9 * (t * B * W) + 24 * (u * (t * B) * W) + 16 * (u * (t * t * W))) by (unfold t; ring).
        assert (0 < t * t * W) by (apply Rmult_lt_0_compat; nra).
        assert (u * (t * t * W) <= 1 * (t * t * W)) by (apply Rmult_le_compat_r; lra). lra.
      + replace (3 * (w * B) * (3 * (w * B))) with (9 * (B * B * W)) by (unfold W; ring). lra.
    - fold D. replace (2 * u * (10 * (B * B * W)) * (D * D)) with (20 * ((t * B * W) * (D * D))) by (unfold t; ring).
      assert (D * (34 * (t * B * W)) <= 34 * ((t * B * W) * (D * D))) by nra. lra.
  Qed.
  Lemma dvdv_abs : Rabs (rS d (fun j => dv j * dv j)) <= D * (9 * (B * B) * (w * w)).
  Proof.
    apply rS_abs. intros j Hj. destruct dv_facts as [_ Nn]. destruct (Nn j Hj) as [_ A]. rewrite Rabs_mult.
    replace (9 * (B * B) * (w * w)) with (3 * (w * B) * (3 * (w * B))) by ring. apply Rmult_le_compat; auto; apply Rabs_pos.
  Qed.
  Lemma near_ndvdv z : summed (dprods (map2 dsub V V') (map2 dsub V V')) z ->
    near (dmul (d_of_Z (N - 1)) z) (IZR (N - 1) * rS d (fun j => dv j * dv j)) (33 * (t * B) * (D * D)) /\
    Rabs (IZR (N - 1) * rS d (fun j => dv j * dv j)) <= 5 * (B * B) * D.
  Proof.
    intros Hz. pose proof (near_dvdv z Hz) as Nz. pose proof dvdv_abs as Ab. base. destruct (n_w N HN') as [Nw N1]. fold w in Nw.
    set (m := IZR (N - 1)) in *. set (q := rS d (fun j => dv j * dv j)) in *.
    assert (Am : Rabs m = m) by (apply Rabs_pos_eq; lra).
    assert (BB : 0 < B * B) by nra.
    assert (mw : 0 <= m * w <= 1) by (rewrite Nw; lra).
    assert (mww : 0 <= m * (w * w) <= / 2) by (split; nra).
    assert (A1 : m * Rabs q <= 9 / 2 * (B * B) * D).
    { apply Rle_trans with (m * (D * (9 * (B * B) * (w * w)))); [apply Rmult_le_compat_l; lra|].
      replace (m * (D * (9 * (B * B) * (w * w)))) with (9 * (B * B) * D * (m * (w * w))) by ring.
      replace (9 / 2 * (B * B) * D) with (9 * (B * B) * D * / 2) by field. apply Rmult_le_compat_l; [nra|lra]. }
    assert (A2 : m * (54 * (t * B) * (w * w) * (D * D)) <= 27 * (t * B) * (D * D)).
    { replace (m * (54 * (t * B) * (w * w) * (D * D))) with (54 * (t * B) * (D * D) * (m * (w * w))) by ring.
      replace (27 * (t * B) * (D * D)) with (54 * (t * B) * (D * D) * / 2) by field. apply Rmult_le_compat_l; [|lra].
      apply Rmult_le_pos; nra. }
    assert (X1 : 0 <= (t * B) * D) by (apply Rmult_le_pos; lra).
    assert (X2 : (t * B) * D <= (t * B) * (D * D)) by (apply Rmult_le_compat_l; lra).
    assert (X3 : (t * B) * (D * D) <= / 500 * (B * B * D) * 1000000).
    { replace ((t * B) * (D * D)) with ((t * B) * D * D) by ring.
      apply Rle_trans with (/ 1000000 * (B * B) * D * D); [|].
      - apply Rmult_le_compat_r; auto. apply Rmult_le_compat_r; auto.
      - replace (/ 1000000 * (B * B) * D * D) with ((B * B * D) * (/ 1000000 * D)) by ring.
        replace (/ 500 * (B * B * D) * 1000000) with ((B * B * D) * 2000) by field. apply Rmult_le_compat_l; [nra|lra]. }
    assert (X4 : B * B * D <= B * B * 1048576) by (apply Rmult_le_compat_l; lra).
    assert (X5 : (t * B) * (D * D) <= 2 * (B * B) * D).
    { replace ((t * B) * (D * D)) with ((B * B * D) * (u * D)) by (unfold t; ring).
      replace (2 * (B * B) * D) with ((B * B * D) * 2) by ring. apply Rmult_le_compat_l; nra. }
    pose proof high_top as HT.
    split.
    - eapply near_weaken; [apply near_mul; [apply near_Z; lia|exact Nz|]|].
      + fold m. rewrite Am. rewrite Rplus_0_r, Rmult_plus_distr_l. lra.
      + fold m. rewrite Am, Rabs_mult, Am. rewrite Rmult_0_r, Rmult_0_l, !Rplus_0_r.
        assert (E2 : u * (m * Rabs q + m * (54 * (t * B) * (w * w) * (D * D))) <= u * (9 / 2 * (B * B) * D + 27 * ((t * B) * (D * D)))).
        { apply Rmult_le_compat_l; lra. }
        replace (u * (9 / 2 * (B * B) * D + 27 * ((t * B) * (D * D)))) with (9 / 2 * ((t * B) * D) + 27 * (u * ((t * B) * (D * D)))) in E2 by (unfold t; field).
        assert (X6 : 0 <= (t * B) * (D * D)) by (apply Rmult_le_pos; nra).
        assert (E3 : u * ((t * B) * (D * D)) <= / 1000000 * ((t * B) * (D * D))) by (apply Rmult_le_compat_r; lra).
        assert (E4 : eta <= / 1000000 * ((t * B) * (D * D))).
        { eapply Rle_trans; [exact Te|]. apply Rle_trans with (u * (t * B)).
          - assert (0 <= u * (t * B)) by (apply Rmult_le_pos; lra). nra.
          - eapply Rle_trans; [exact TU|]. apply Rmult_le_compat_l; [lra|]. nra. }
        lra.
    - rewrite Rabs_mult, Am. assert (0 <= B * B * D) by nra. lra.
  Qed.

  Lemma near_dvg z : summed (dprods (map2 dsub V V') g) z ->
    near (dmul (d_of_Z 2) z) (2 * rS d (fun j => dv j * G j)) (172 * (t * B) * (D * D)) /\
    Rabs (2 * rS d (fun j => dv j * G j)) <= 3 * (B * B) * D.
  Proof.
    intros Hz. base. destruct dv_facts as [L Nn]. destruct (n_w N HN') as [Nw N1]. fold w in Nw.
    set (m := IZR (N - 1)) in *. assert (w0 : 0 < w) by lra.
    assert (BB : 0 < B * B) by nra.
    assert (we : w * eg <= 25 * t).
    { apply Rle_trans with (w * (25 * t * m)); [apply Rmult_le_compat_l; lra|].
      replace (w * (25 * t * m)) with (25 * t * (m * w)) by ring. rewrite Nw. nra. }
    assert (we0 : 0 <= w * eg) by (apply Rmult_le_pos; lra).
    assert (Q : t * t <= / 1000000 * (t * B)).
    { replace (/ 1000000 * (t * B)) with (t * (/ 1000000 * B)) by ring. apply Rmult_le_compat_l; lra. }
    assert (WW : eta <= u * (t * B)).
    { eapply Rle_trans; [exact Te|]. assert (0 <= u * (t * B)) by (apply Rmult_le_pos; lra). nra. }
    assert (Aq : Rabs (rS d (fun j => dv j * G j)) <= D * (3 / 2 * (B * B))).
    { apply rS_abs. intros j Hj. destruct (Nn j Hj) as [_ A]. destruct (Ng j Hj) as [_ A']. rewrite Rabs_mult.
      replace (3 / 2 * (B * B)) with (3 * (/ 2 * B) * B) by field. apply Rmult_le_compat; auto; try apply Rabs_pos.
      eapply Rle_trans; [exact A|]. apply Rmult_le_compat_l; [lra|]. apply Rmult_le_compat_r; lra. }
    assert (Nz : near z (rS d (fun j => dv j * G j)) (84 * (t * B) * (D * D))).
    { assert (BW : 3 * (w * B) * B <= 3 / 2 * (B * B)).
      { replace (3 * (w * B) * B) with (3 * (B * B) * w) by ring. replace (3 / 2 * (B * B)) with (3 * (B * B) * / 2) by field.
        apply Rmult_le_compat_l; lra. }
      assert (BW0 : 0 <= 3 * (w * B) * B) by (repeat apply Rmult_le_pos; lra).
      set (q := 3 * (w * B) * eg + B * (4 * (w * t)) + 4 * (w * t) * eg).
      assert (Hq : 0 <= q <= 77 * (t * B) + 100 * (t * t)).
      { unfold q. replace (3 * (w * B) * eg + B * (4 * (w * t)) + 4 * (w * t) * eg) with (3 * B * (w * eg) + 4 * (t * B) * w + 4 * t * (w * eg)) by ring.
        assert (3 * B * (w * eg) <= 3 * B * (25 * t)) by (apply Rmult_le_compat_l; lra).
        assert (4 * t * (w * eg) <= 4 * t * (25 * t)) by (apply Rmult_le_compat_l; lra).
        assert (4 * (t * B) * w <= 4 * (t * B) * / 2) by (apply Rmult_le_compat_l; lra).
        assert (0 <= 3 * B * (w * eg)) by (apply Rmult_le_pos; lra).
        assert (0 <= 4 * t * (w * eg)) by (apply Rmult_le_pos; lra).
        assert (0 <= 4 * (t * B) * w) by (apply Rmult_le_pos; lra). split; lra. }
      eapply near_weaken.
      - apply (near_dot d _ _ (fun j => dv j) G (3 * (w * B)) B (4 * (w * t)) eg (2 * (B * B)) (80 * (t * B)) z L Lg Hz Hd'); auto; try lra.
        + split; [|lra]. apply Rle_trans with (B * B * (w * w)); [lra|nra].
        + assert (0 < w * B) by (apply Rmult_lt_0_compat; lra). lra.
        + assert (0 < w * t) by (apply Rmult_lt_0_compat; lra). lra.
        + fold q. assert (u * (3 * (w * B) * B + q) <= u * (3 / 2 * (B * B) + 78 * (t * B))) by (apply Rmult_le_compat_l; lra).
          replace (u * (3 / 2 * (B * B) + 78 * (t * B))) with (3 / 2 * (t * B) + 78 * (u * (t * B))) in H by (unfold t; field). lra.
      - fold D. replace (2 * u * (2 * (B * B)) * (D * D)) with (4 * ((t * B) * (D * D))) by (unfold t; ring).
        assert (D * (80 * (t * B)) <= 80 * ((t * B) * (D * D))) by nra. lra. }
    set (q := rS d (fun j => dv j * G j)) in *.
    assert (X1 : 0 <= (t * B) * D) by (apply Rmult_le_pos; lra).
    assert (X2 : (t * B) * D <= (t * B) * (D * D)) by (apply Rmult_le_compat_l; lra).
    assert (X4 : B * B * D <= B * B * 1048576) by (apply Rmult_le_compat_l; lra).
    assert (X5 : (t * B) * (D * D) <= 2 * (B * B) * D).
    { replace ((t * B) * (D * D)) with ((B * B * D) * (u * D)) by (unfold t; ring).
      replace (2 * (B * B) * D) with ((B * B * D) * 2) by ring. apply Rmult_le_compat_l; nra. }
    assert (X0 : t * B <= (t * B) * (D * D)) by nra.
    pose proof high_top as HT.
    assert (A2 : Rabs 2 = 2) by (apply Rabs_pos_eq; lra).
    split.
    - eapply near_weaken; [apply near_mul; [apply near_Z; lia|exact Nz|]|].
      + rewrite A2. assert (HH : 1000 * (B * B * 1048576) <= bpow radix2 100 * (B * B)).
        { replace (1000 * (B * B * 1048576)) with ((1000 * 1048576) * (B * B)) by ring. apply Rmult_le_compat_r; [lra|]. cbn. lra. }
        destruct HB as [_ HB2]. assert (HB3 : B * B <= bpow radix2 800).
        { change 800%Z with (400 + 400)%Z. rewrite bpow_plus. unfold hi2 in *. apply Rmult_le_compat; lra. }
        assert (HH2 : bpow radix2 100 * (B * B) <= high).
        { apply Rle_trans with (bpow radix2 100 * bpow radix2 800).
          - apply Rmult_le_compat_l; auto. apply bpow_ge_0.
          - rewrite <- bpow_plus. apply bpow_le. lia. }
        lra.
      + rewrite A2, Rabs_mult, A2. rewrite Rmult_0_r, Rmult_0_l, !Rplus_0_r.
        assert (E2 : u * (2 * Rabs q + 2 * (84 * (t * B) * (D * D))) <= u * (3 * (B * B) * D + 168 * ((t * B) * (D * D)))).
        { apply Rmult_le_compat_l; lra. }
        replace (u * (3 * (B * B) * D + 168 * ((t * B) * (D * D)))) with (3 * ((t * B) * D) + 168 * (u * ((t * B) * (D * D)))) in E2 by (unfold t; field).
        assert (X6 : 0 <= (t * B) * (D * D)) by (apply Rmult_le_pos; nra).
        assert (E3 : u * ((t * B) * (D * D)) <= / 1000000 * ((t * B) * (D * D))) by (apply Rmult_le_compat_r; lra).
        lra.
    - rewrite Rabs_mult, A2. lra.
  Qed.

  (** the new compactness *)
  Context (cp : f64) (C e : R) (Ncp : near cp C e) (HC : 0 <= C <= 4 * (B * B) * (D * IZR (N - 1))).
  Context (He : e <= 92 * (t * B) * (D * D * (IZR N * IZR N))).
  Lemma near_cp z1 z2 z3 : summed (dprods (map2 dsub x V') (map2 dsub x V')) z1 ->
    summed (dprods (map2 dsub V V') (map2 dsub V V')) z2 -> summed (dprods (map2 dsub V V') g) z3 ->
    near (dadd (dadd (dadd cp z1) (dmul (d_of_Z (N - 1)) z2)) (dmul (d_of_Z 2) z3))
      (C + rS d (fun j => dx j * dx j) + IZR (N - 1) * rS d (fun j => dv j * dv j) + 2 * rS d (fun j => dv j * G j))
      (e + 137 * (t * B) * (D * D) * IZR N).
  Proof.
    intros H1 H2 H3. pose proof (near_dxdx z1 H1) as N1. pose proof (near_ndvdv z2 H2) as [N2 A2]. pose proof (near_dvg z3 H3) as [N3 A3].
    base. assert (A1 : Rabs (rS d (fun j => dx j * dx j)) <= D * (4 * (B * B))).
    { apply rS_abs. intros j Hj. rewrite Rabs_mult. replace (4 * (B * B)) with (2 * B * (2 * B)) by ring.
      assert (Rabs (dx j) <= 2 * B). { apply (x_move B); auto. }
      apply Rmult_le_compat; auto; apply Rabs_pos. }
    set (p1 := rS d (fun j => dx j * dx j)) in *. set (p2 := IZR (N - 1) * rS d (fun j => dv j * dv j)) in *.
    set (p3 := 2 * rS d (fun j => dv j * G j)) in *. rewrite minus_IZR in HC.
    assert (n2 : 2 <= IZR N <= 16777216) by (split; apply IZR_le; lia).
    set (n := IZR N) in *. pose proof (near_e _ _ _ Ncp) as e0.
    set (T := t * B) in *. set (X := B * B) in *.
    assert (BB : 0 < X) by (unfold X; nra).
    set (Y := D * n). assert (Y0 : 2 * D <= Y) by (unfold Y; nra).
    assert (DDY : D * D <= D * Y) by nra.
    assert (Y1 : u * Y <= / 512).
    { unfold Y. rewrite u_val. assert (D * n <= 1048576 * 16777216) by (apply Rmult_le_compat; lra). lra. }
    assert (TX : T = u * X) by (unfold T, X, t; ring).
    assert (e1 : e <= 92 * (T * (Y * Y))).
    { eapply Rle_trans; [exact He|]. unfold Y. right. ring. }
    assert (e2 : u * e <= / 5 * (T * Y)).
    { apply Rle_trans with (u * (92 * (T * (Y * Y)))); [apply Rmult_le_compat_l; lra|].
      replace (u * (92 * (T * (Y * Y)))) with (92 * (T * Y) * (u * Y)) by ring.
      replace (/ 5 * (T * Y)) with (92 * (T * Y) * / 460) by field. apply Rmult_le_compat_l; [|lra].
      apply Rmult_le_pos; [lra|]. apply Rmult_le_pos; lra. }
    assert (TY : 0 < T * Y) by (apply Rmult_lt_0_compat; lra).
    assert (d1 : T * (D * D) <= X * D).
    { rewrite TX. replace (u * X * (D * D)) with (X * D * (u * D)) by ring. rewrite <- (Rmult_1_r (X * D)) at 2.
      apply Rmult_le_compat_l; [nra|]. nra. }
    assert (d2 : u * (T * (D * D)) <= / 1000 * (T * Y)).
    { replace (u * (T * (D * D))) with (T * D * (u * D)) by ring. assert (u * D <= / 512) by nra.
      apply Rle_trans with (T * D * (u * D)); [lra|].
      assert (u * D <= / 900000000) by (rewrite u_val; lra).
      apply Rle_trans with (T * D * / 900000000); [apply Rmult_le_compat_l; nra|]. nra. }
    assert (d3 : X * D <= X * Y) by (apply Rmult_le_compat_l; lra).
    assert (d3' : 2 * (X * D) <= X * Y) by nra.
    assert (e3 : e <= X * Y).
    { apply Rle_trans with (92 * (T * (Y * Y))); auto. rewrite TX. replace (92 * (u * X * (Y * Y))) with (X * Y * (92 * (u * Y))) by ring.
      rewrite <- (Rmult_1_r (X * Y)) at 2. apply Rmult_le_compat_l; [|lra]. apply Rmult_le_pos; lra. }
    assert (tp : 1000 * (X * Y) <= top).
    { pose proof high_top as HT. apply Rle_trans with high; [|pose proof (bpow_gt_0 radix2 900); unfold high in *; lra].
      assert (D * n <= 1048576 * 16777216) by (apply Rmult_le_compat; lra). fold Y in H.
      assert (B * B <= bpow radix2 800).
      { destruct HB as [_ HB2]. change 800%Z with (400 + 400)%Z. rewrite bpow_plus. unfold hi2 in *. apply Rmult_le_compat; lra. }
      fold X in H0. apply Rle_trans with (bpow radix2 60 * bpow radix2 800).
      - replace (1000 * (X * Y)) with (1000 * Y * X) by ring. apply Rmult_le_compat; try lra. cbn. lra.
      - rewrite <- bpow_plus. apply bpow_le. lia. }
    assert (et : eta <= / 1000000 * (T * Y)).
    { eapply Rle_trans; [exact Te|]. apply Rle_trans with (u * T).
      - assert (0 <= u * T) by (apply Rmult_le_pos; lra). nra.
      - eapply Rle_trans; [exact TU|]. apply Rmult_le_compat_l; [lra|]. nra. }
    assert (HC' : C <= 4 * (X * Y) - 4 * (X * D)).
    { destruct HC as [_ HC']. eapply Rle_trans; [exact HC'|]. unfold Y. right. ring. }
    assert (AC : Rabs C = C) by (apply Rabs_pos_eq; lra).
    assert (XDp : 0 < X * D) by (apply Rmult_lt_0_compat; lra).
    (* the three additions *)
    pose proof (Rabs_triang C p1) as R1. pose proof (Rabs_triang (C + p1) p2) as R2. pose proof (Rabs_triang (C + p1 + p2) p3) as R3.
    assert (uXY : forall k, u * (k * (X * Y)) = k * (T * Y)) by (intros k; rewrite TX; ring).
    assert (S1 : near (dadd cp z1) (C + p1) (e + 27 * (T * (D * D)) + 5 * (T * Y))).
    { eapply near_weaken; [apply near_add; [exact Ncp|exact N1|lra]|].
      assert (E2 : u * (Rabs (C + p1) + (e + 27 * T * (D * D))) <= u * (4 * (X * Y)) + u * e + 27 * (u * (T * (D * D)))).
      { replace (u * (4 * (X * Y)) + u * e + 27 * (u * (T * (D * D)))) with (u * (4 * (X * Y) + (e + 27 * T * (D * D)))) by ring.
        apply Rmult_le_compat_l; lra. }
      rewrite uXY in E2. lra. }
    assert (S2 : near (dadd (dadd cp z1) (dmul (d_of_Z (N - 1)) z2)) (C + p1 + p2) (e + 60 * (T * (D * D)) + 12 * (T * Y))).
    { assert (TYX : T * Y <= X * Y) by (apply Rmult_le_compat_r; lra).
      eapply near_weaken; [apply near_add; [exact S1|exact N2|lra]|].
      assert (E2 : u * (Rabs (C + p1 + p2) + (e + 27 * (T * (D * D)) + 5 * (T * Y) + 33 * T * (D * D))) <= u * (13 / 2 * (X * Y)) + u * e + 60 * (u * (T * (D * D))) + 5 * (u * (T * Y))).
      { replace (u * (13 / 2 * (X * Y)) + u * e + 60 * (u * (T * (D * D))) + 5 * (u * (T * Y))) with (u * (13 / 2 * (X * Y) + (e + 27 * (T * (D * D)) + 5 * (T * Y) + 33 * T * (D * D)))) by ring.
        apply Rmult_le_compat_l; lra. }
      rewrite uXY in E2. assert (u * (T * Y) <= / 1000000 * (T * Y)) by (apply Rmult_le_compat_r; lra). lra. }
    eapply near_weaken; [apply near_add; [exact S2|exact N3|]|].
    - assert (TYX : T * Y <= X * Y) by (apply Rmult_le_compat_r; lra). lra.
    - assert (E2 : u * (Rabs (C + p1 + p2 + p3) + (e + 60 * (T * (D * D)) + 12 * (T * Y) + 172 * T * (D * D))) <= u * (8 * (X * Y)) + u * e + 232 * (u * (T * (D * D))) + 12 * (u * (T * Y))).
      { replace (u * (8 * (X * Y)) + u * e + 232 * (u * (T * (D * D))) + 12 * (u * (T * Y))) with (u * (8 * (X * Y) + (e + 60 * (T * (D * D)) + 12 * (T * Y) + 172 * T * (D * D)))) by ring.
        apply Rmult_le_compat_l; lra. }
      rewrite uXY in E2. assert (u * (T * Y) <= / 1000000 * (T * Y)) by (apply Rmult_le_compat_r; lra).
      assert (F1 : 2 * (T * (D * D)) <= T * (D * D) * n).
      { rewrite (Rmult_comm 2). apply Rmult_le_compat_l; [|lra]. apply Rmult_le_pos; nra. }
      assert (F2 : T * Y <= T * (D * D) * n).
      { unfold Y. replace (T * (D * D) * n) with (T * (D * D * n)) by ring. apply Rmult_le_compat_l; nra. }
      replace (137 * T * (D * D) * n) with (137 * (T * (D * D) * n)) by ring. lra.
  Qed.
End Step.
