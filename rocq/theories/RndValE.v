(** * The sums of squares, with an error [ev] of the stored points *)
From Coq Require Import ZArith Reals Lia Lra SpecFloat Psatz List Permutation.
From Flocq Require Import Core Relative.
From Verif Require Import Num NumPy Base GetCvi Lists Step Stream RunForm BatchForm F64 F64o Rnd RndErr RndMean RndSum RndCl RndCP RndCP2 RndCP3 RndCP4 RndOps RndVal RndCH Spec RGeom XPerm P_Round.
Import ListNotations.
Local Open Scope R_scope.
Local Notation R := Rdefinitions.R.
Local Notation nanv := S754_nan.
Local Notation rsum := RndMean.rsum.

Section Gs.
  Context (b : R) (Hb : lo2 <= b <= hi2 / 2) (d : nat) (Hd : (1 <= Z.of_nat d <= 2 ^ 20)%Z).
  Context (gs : list (list (list f64))) (Hgs : gs <> []).
  Context (Hg : forall g, In g gs -> g <> [] /\ Forall (fun x => length x = d /\ Forall (ok_in b) x) g).
  Context (HN : (Z.of_nat (length (concat gs)) <= 2 ^ 24)%Z).
  Let D := INR d.
  Let N := INR (length (concat gs)).
  Let T := u * (b * b).
  Let nn (g : list (list f64)) := INR (length g).
  Context (ev : R) (Hev : 1000 * u * b * N <= ev <= b / 8).
  Let Z0 := ev * b.

  Lemma lenE : rsum (map nn gs) = N. Proof. exact (len_concat gs). Qed.
  Lemma e_pre : 1 <= N <= 16777216 /\ 1 <= D <= 1048576 /\ 0 < b /\ 0 < u <= / 1000000 /\ 0 < ev /\ 1000 * (u * b) <= ev /\
    u * N <= / 500000000 /\ 0 < T /\ 0 < Z0 /\ 1000 * (T * N) <= Z0 /\ 1000 * T <= Z0 /\ Z0 <= / 8 * (b * b) /\
    eta <= / 1000000 * T /\ eta <= / 2 * (u * b) /\ bpow radix2 (-800) <= b * b <= bpow radix2 798.
  Proof.
    destruct (g_pre b Hb d Hd gs Hgs Hg HN) as ((N1 & N2) & (D1 & D2) & T0 & Un & U0 & b0 & Et & (B1 & B2) & TB).
    fold N in N1, N2, Un. fold D in D1, D2. fold T in T0, Et, TB. destruct Hev as [E1 E2]. pose proof u_small as [U1 U2].
    assert (B0 : 0 < b * b) by (apply Rmult_lt_0_compat; lra). assert (ub : 0 < u * b) by (apply Rmult_lt_0_compat; lra).
    assert (E3 : 1000 * (u * b) <= ev).
    { eapply Rle_trans; [|exact E1]. rewrite <- (Rmult_1_r (1000 * (u * b))). replace (1000 * u * b * N) with (1000 * (u * b) * N) by ring.
      apply Rmult_le_compat_l; lra. }
    assert (Z1 : 1000 * (T * N) <= Z0).
    { unfold Z0, T. replace (1000 * (u * (b * b) * N)) with (1000 * u * b * N * b) by ring. apply Rmult_le_compat_r; lra. }
    assert (T1 : T <= T * N) by (rewrite <- (Rmult_1_r T) at 1; apply Rmult_le_compat_l; lra).
    assert (Z2 : 0 < Z0) by (unfold Z0; apply Rmult_lt_0_compat; lra).
    assert (Z3 : Z0 <= / 8 * (b * b)).
    { unfold Z0. replace (/ 8 * (b * b)) with (b / 8 * b) by field. apply Rmult_le_compat_r; lra. }
    assert (Eb : eta <= / 2 * (u * b)).
    { destruct (eta_B b) as [_ H]; [pose proof (Hb_mean b Hb); lra|]. eapply Rle_trans; [exact H|].
      rewrite Rmult_assoc. apply Rmult_le_compat_r; [apply Rmult_le_pos|]; lra. }
    assert (Et' : eta <= / 1000000 * T).
    { eapply Rle_trans; [exact Et|]. apply Rmult_le_compat_r; lra. }
    split; [lra|]. split; [lra|]. split; [lra|]. split; [lra|]. split; [lra|]. split; [lra|]. split; [lra|].
    split; [exact T0|]. split; [exact Z2|]. split; [exact Z1|]. split; [lra|]. split; [exact Z3|]. split; [exact Et'|]. split; [exact Eb|]. lra.
  Qed.

  Lemma near_diffE v w p q : near v p ev -> near w q ev -> Rabs p <= b -> Rabs q <= b ->
    near (dsub v w) (p - q) (201 / 100 * ev) /\ Rabs (p - q) <= 2 * b.
  Proof.
    intros Hv Hw Hp Hq. destruct e_pre as (_ & _ & b0 & (U0 & U1) & e0 & E1 & _ & _ & _ & _ & _ & _ & _ & Eb & _).
    destruct Hev as [_ E2].
    assert (M : Rabs (p - q) <= 2 * b).
    { unfold Rminus. eapply Rle_trans; [apply Rabs_triang|]. rewrite Rabs_Ropp. lra. }
    split; auto.
    assert (bt : 1000 * b <= top).
    { pose proof (Hb_mean b Hb) as [_ H]. pose proof high_top. lra. }
    eapply near_weaken; [apply near_sub; [exact Hv|exact Hw|lra]|].
    assert (u * (Rabs (p - q) + (ev + ev)) <= u * (9 / 4 * b)) by (apply Rmult_le_compat_l; lra). lra.
  Qed.
  Lemma near_sumsqE (v w : list f64) p q z : length v = d -> length w = d ->
    (forall j, (j < d)%nat -> near (nth j v nanv) (p j) ev /\ Rabs (p j) <= b) ->
    (forall j, (j < d)%nat -> near (nth j w nanv) (q j) ev /\ Rabs (q j) <= b) ->
    summed (map (fun x => dmul x x) (map2 dsub v w)) z ->
    near z (rdist2 d p q) (87 / 10 * ev * b * (D * D)).
  Proof.
    intros Lv Lw Hv Hw Hz.
    destruct e_pre as ((N1 & N2) & (D1 & D2) & b0 & (U0 & U1) & e0 & E1 & Un & T0 & Z1 & Z2 & Z3 & Z4 & Et & Eb & (B1 & B2)).
    destruct Hev as [_ E2].
    set (y := map2 dsub v w) in *.
    assert (Ly : length y = d) by (unfold y; rewrite length_map2; lia).
    assert (Ny : forall j, (j < d)%nat -> near (nth j y nanv) (p j - q j) (201 / 100 * ev) /\ Rabs (p j - q j) <= 2 * b).
    { intros j Hj. unfold y. rewrite (nth_map2_sub v w d j) by auto. destruct (Hv j Hj), (Hw j Hj). now apply near_diffE. }
    replace (map (fun x => dmul x x) y) with (dprods y y) in Hz.
    2:{ clear. induction y as [|a y IH]; cbn; [reflexivity|]. now rewrite IH. }
    assert (B0 : 0 < b * b) by (apply Rmult_lt_0_compat; lra).
    assert (EE : ev * ev <= / 8 * Z0).
    { unfold Z0. replace (/ 8 * (ev * b)) with (ev * (b / 8)) by field. apply Rmult_le_compat_l; lra. }
    eapply near_weaken.
    - unfold rdist2. apply (near_dot d y y (fun j => p j - q j) (fun j => p j - q j) (2 * b) (2 * b) (201 / 100 * ev) (201 / 100 * ev) (6 * (b * b)) (86 / 10 * Z0) z Ly Ly Hz); auto; try lra.
      + lia.
      + split.
        * apply Rle_trans with (bpow radix2 (-800)); [apply bpow_le; lia|lra].
        * apply Rle_trans with (8 * bpow radix2 798); [lra|]. change 8 with (bpow radix2 3). rewrite <- bpow_plus. apply bpow_le. lia.
      + replace (2 * b * (201 / 100 * ev) + 2 * b * (201 / 100 * ev) + 201 / 100 * ev * (201 / 100 * ev))
          with (804 / 100 * Z0 + 40401 / 10000 * (ev * ev)) by (unfold Z0; field).
        set (q0 := 804 / 100 * Z0 + 40401 / 10000 * (ev * ev)).
        assert (Q0 : q0 <= 8546 / 1000 * Z0) by (unfold q0; lra).
        assert (H : u * (2 * b * (2 * b) + q0) <= u * (6 * (b * b))) by (apply Rmult_le_compat_l; lra).
        replace (u * (6 * (b * b))) with (6 * T) in H by (unfold T; ring). lra.
    - fold D. replace (2 * u * (6 * (b * b)) * (D * D)) with (12 * T * (D * D)) by (unfold T; ring).
      assert (K0 : 1 <= D * D) by nra.
      assert (K1 : D * (86 / 10 * Z0) <= D * D * (86 / 10 * Z0)) by (apply Rmult_le_compat_r; [lra|nra]).
      assert (K2 : 1000 * (T * (D * D)) <= Z0 * (D * D)) by (rewrite <- Rmult_assoc; apply Rmult_le_compat_r; lra).
      replace (87 / 10 * ev * b * (D * D)) with (87 / 10 * (Z0 * (D * D))) by (unfold Z0; field).
      assert (0 < Z0 * (D * D)) by (apply Rmult_lt_0_compat; lra). lra.
  Qed.

  Lemma M_okE : low <= 6 * D * D * N * (b * b) <= high.
  Proof.
    destruct e_pre as ((N1 & N2) & (D1 & D2) & b0 & _ & _ & _ & _ & _ & _ & _ & _ & _ & _ & _ & (B1 & B2)).
    assert (DD : 1 <= D * D <= 1048576 * 1048576) by (split; [nra|apply Rmult_le_compat; lra]).
    assert (DN : 1 <= D * D * N <= 1048576 * 1048576 * 16777216) by (split; [nra|apply Rmult_le_compat; lra]).
    assert (B0 : 0 < b * b) by nra.
    replace (6 * D * D * N * (b * b)) with (6 * (D * D * N) * (b * b)) by ring. split.
    - apply Rle_trans with (bpow radix2 (-800)); [apply bpow_le; lia|]. rewrite <- (Rmult_1_l (bpow _ _)).
      apply Rmult_le_compat; try lra. apply bpow_ge_0.
    - apply Rle_trans with (bpow radix2 67 * bpow radix2 798).
      + apply Rmult_le_compat; try lra. change (bpow radix2 67) with 147573952589676412928. lra.
      + rewrite <- bpow_plus. apply bpow_le. lia.
  Qed.
  Definition epsE : R := 9 * ev * b * (D * D * N).
  Let Y := Z0 * (D * D * N).
  Lemma Y_facts : 0 < Y /\ 1 <= D * D * N /\ 4 * D * (b * b) * N + 9 * Y <= 6 * D * D * N * (b * b) /\
    (forall kk, 0 <= kk <= N -> 2 * u * (6 * D * D * N * (b * b)) * kk <= 12 / 1000 * Y).
  Proof.
    destruct e_pre as ((N1 & N2) & (D1 & D2) & b0 & (U0 & U1) & e0 & E1 & Un & T0 & Z1 & Z2 & Z3 & Z4 & Et & Eb & (B1 & B2)).
    assert (DD : D <= D * D) by nra. assert (DDN : 1 <= D * D * N) by nra. assert (B0 : 0 < b * b) by nra.
    assert (Y0 : 0 < Y) by (unfold Y; apply Rmult_lt_0_compat; lra).
    split; [exact Y0|]. split; [exact DDN|]. split.
    - assert (H1 : D * (b * b) * N <= D * D * N * (b * b)).
      { replace (D * D * N * (b * b)) with (D * D * (b * b) * N) by ring. apply Rmult_le_compat_r; [lra|]. apply Rmult_le_compat_r; lra. }
      assert (H2 : Y <= / 8 * (b * b) * (D * D * N)) by (unfold Y; apply Rmult_le_compat_r; lra).
      assert (0 < D * D * N * (b * b)) by (apply Rmult_lt_0_compat; lra).
      replace (4 * D * (b * b) * N) with (4 * (D * (b * b) * N)) by ring.
      replace (6 * D * D * N * (b * b)) with (6 * (D * D * N * (b * b))) by ring. lra.
    - intros kk [K0 K]. replace (2 * u * (6 * D * D * N * (b * b)) * kk) with ((12 * (T * kk)) * (D * D * N)) by (unfold T; ring).
      replace (12 / 1000 * Y) with (12 / 1000 * Z0 * (D * D * N)) by (unfold Y; field). apply Rmult_le_compat_r; [lra|].
      assert (T * kk <= T * N) by (apply Rmult_le_compat_l; lra). lra.
  Qed.
  Lemma near_wgssE (f : list (list f64) -> f64) : (forall g, In g gs -> near (f g) (scatter d (exact g)) (ev * b * (D * D) * nn g)) ->
    near (fold_left dadd (map f gs) (d_of_Z 0)) (wgss d (map exact gs)) epsE.
  Proof.
    intros Hf. destruct Y_facts as (Y0 & DDN & YM & YK).
    destruct e_pre as ((N1 & N2) & (D1 & D2) & b0 & (U0 & U1) & _ & _ & Un & _).
    pose proof (k_range b d gs Hg) as K. fold N in K. pose proof (pos_INR (length gs)) as K0.
    assert (SE : rsum (map (fun g => ev * b * (D * D) * nn g) gs) = Y).
    { rewrite (RndOps.rsum_scal (ev * b * (D * D))). rewrite lenE. unfold Y, Z0. ring. }
    unfold wgss. rewrite map_map.
    eapply near_weaken.
    - apply (near_psum f (fun g => scatter d (exact g)) _ (6 * D * D * N * (b * b)) gs M_okE) with (2 := Hf).
      + assert (u * INR (length gs) <= u * N) by (apply Rmult_le_compat_l; lra). lra.
      + rewrite RndCP4.rsum_map_plus, SE.
        assert (H : rsum (map (fun g => Rabs (scatter d (exact g))) gs) <= rsum (map (fun g => 4 * D * (b * b) * nn g) gs)).
        { apply RndOps.rsum_le. intros g H. destruct (scatter_range b Hb d Hd gs Hgs Hg HN g H) as [X1 X2]. rewrite Rabs_pos_eq; auto. }
        rewrite (RndOps.rsum_scal (4 * D * (b * b))), lenE in H. lra.
    - rewrite SE. unfold epsE. replace (9 * ev * b * (D * D * N)) with (9 * Y) by (unfold Y, Z0; ring).
      pose proof (YK _ (conj K0 K)). lra.
  Qed.

  Definition emE : R := 87 / 10 * ev * b * (D * D).
  Lemma near_bgssE (f : list (list f64) -> f64) (z : list (list f64) -> f64) all : Permutation all (concat gs) ->
    (forall g, In g gs -> near (z g) (rdist2 d (fun j => ravg (fcol j g)) (fun j => ravg (fcol j all))) emE /\ f g = dmul (d_of_Z (Z.of_nat (length g))) (z g)) ->
    near (fold_left dadd (map f gs) (d_of_Z 0)) (bgss d (map exact gs)) epsE.
  Proof.
    intros Hp Hf. destruct Y_facts as (Y0 & DDN & YM & YK).
    destruct e_pre as ((N1 & N2) & (D1 & D2) & b0 & (U0 & U1) & e0 & E1 & Un & T0 & Z1 & Z2 & Z3 & Z4 & Et & Eb & (B1 & B2)).
    pose proof (k_range b d gs Hg) as K. fold N in K. pose proof (pos_INR (length gs)) as K0.
    assert (B0 : 0 < b * b) by nra. assert (DD : D <= D * D) by nra. assert (D4 : 1 <= D * D) by nra.
    set (r2 := fun g => rdist2 d (fun j => ravg (fcol j g)) (fun j => ravg (fcol j all))) in *.
    assert (Hr2 : forall g, In g gs -> 0 <= r2 g <= 4 * D * (b * b)).
    { intros g H. apply (rdist2_range b d); intros j Hj; apply (avg_le b Hb d Hd gs Hgs Hg HN); eauto. }
    set (X := Z0 * (D * D)) in *. assert (X0 : 0 < X) by (unfold X; apply Rmult_lt_0_compat; lra).
    assert (EX : emE = 87 / 10 * X) by (unfold emE, X, Z0; field).
    assert (XM : X <= / 8 * (D * D * (b * b))).
    { unfold X. replace (/ 8 * (D * D * (b * b))) with (/ 8 * (b * b) * (D * D)) by ring. apply Rmult_le_compat_r; lra. }
    assert (XT : 1000 * (T * (D * D)) <= X).
    { unfold X. rewrite <- Rmult_assoc. apply Rmult_le_compat_r; lra. }
    assert (DB : D * (b * b) <= D * D * (b * b)) by (apply Rmult_le_compat_r; lra).
    assert (DBp : 0 < D * D * (b * b)) by (apply Rmult_lt_0_compat; lra).
    assert (TX : T <= T * (D * D)) by (rewrite <- (Rmult_1_r T) at 1; apply Rmult_le_compat_l; lra).
    assert (F1 : forall g, In g gs -> near (f g) (nn g * r2 g) (88 / 10 * X * nn g)).
    { intros g H. destruct (Hf g H) as [Nz ->]. fold (r2 g) in Nz. destruct (n_range b d gs Hg g H) as [n1 n2].
      change (INR (length g)) with (nn g) in n1, n2. fold N in n2. destruct (Hr2 g H) as [X1 X2].
      assert (Nn : near (d_of_Z (Z.of_nat (length g))) (nn g) 0).
      { unfold nn. rewrite INR_IZR_INZ. apply near_Z. unfold nn in *.
        assert (H0 : INR (length g) <= INR (length (concat gs))) by (unfold N in *; lra). apply INR_le in H0. lia. }
      rewrite EX in Nz.
      eapply near_weaken; [apply near_mul; [exact Nn|exact Nz|]|].
      - rewrite !Rabs_pos_eq by lra. rewrite Rplus_0_r.
        apply Rle_trans with (N * (6 * (D * D) * (b * b))).
        + apply Rmult_le_compat; lra.
        + replace (N * (6 * (D * D) * (b * b))) with (6 * D * D * N * (b * b)) by ring.
          eapply Rle_trans; [apply M_okE|]. pose proof high_top. assert (0 < high) by apply bpow_gt_0. lra.
      - rewrite !Rabs_pos_eq by (try apply Rmult_le_pos; lra).
        replace (nn g * (87 / 10 * X) + r2 g * 0 + 0 * (87 / 10 * X)) with (nn g * (87 / 10 * X)) by ring.
        replace (u * (nn g * r2 g + nn g * (87 / 10 * X))) with (nn g * (u * (r2 g + 87 / 10 * X))) by ring.
        assert (H0 : u * (r2 g + 87 / 10 * X) <= u * (6 * (D * D * (b * b)))) by (apply Rmult_le_compat_l; lra).
        replace (u * (6 * (D * D * (b * b)))) with (6 * (T * (D * D))) in H0 by (unfold T; ring).
        assert (H1 : nn g * (u * (r2 g + 87 / 10 * X)) <= nn g * (6 / 1000 * X)) by (apply Rmult_le_compat_l; lra).
        assert (H2 : eta <= nn g * (/ 1000 * X)).
        { apply Rle_trans with (1 * (/ 1000 * X)); [lra|]. apply Rmult_le_compat_r; lra. }
        assert (0 < nn g * X) by (apply Rmult_lt_0_compat; lra).
        replace (88 / 10 * X * nn g) with (88 / 10 * (nn g * X)) by ring.
        replace (nn g * (87 / 10 * X)) with (87 / 10 * (nn g * X)) by ring.
        replace (nn g * (6 / 1000 * X)) with (6 / 1000 * (nn g * X)) in H1 by ring.
        replace (nn g * (/ 1000 * X)) with (/ 1000 * (nn g * X)) in H2 by ring. lra. }
    assert (EB : bgss d (map exact gs) = rsum (map (fun g => nn g * r2 g) gs)).
    { unfold bgss. change Spec.rsum with rsum. rewrite map_map. f_equal. apply map_ext_in. intros g H.
      rewrite exact_concat, exact_length. unfold nn. f_equal. unfold r2. rewrite <- cdist_avg. unfold cdist. f_equal.
      apply centroid_perm. unfold exact. apply Permutation_map. now symmetry. }
    rewrite EB.
    assert (SE : rsum (map (fun g => 88 / 10 * X * nn g) gs) = 88 / 10 * Y).
    { rewrite (RndOps.rsum_scal (88 / 10 * X)). rewrite lenE. unfold Y, X. ring. }
    eapply near_weaken.
    - apply (near_psum f (fun g => nn g * r2 g) _ (6 * D * D * N * (b * b)) gs M_okE) with (2 := F1).
      + assert (u * INR (length gs) <= u * N) by (apply Rmult_le_compat_l; lra). lra.
      + rewrite RndCP4.rsum_map_plus, SE.
        assert (H : rsum (map (fun g => Rabs (nn g * r2 g)) gs) <= rsum (map (fun g => 4 * D * (b * b) * nn g) gs)).
        { apply RndOps.rsum_le. intros g H. destruct (Hr2 g H) as [X1 X2].
          assert (0 <= nn g) by apply pos_INR.
          rewrite Rabs_pos_eq by (apply Rmult_le_pos; lra). rewrite Rmult_comm. apply Rmult_le_compat_r; lra. }
        rewrite (RndOps.rsum_scal (4 * D * (b * b))), lenE in H. lra.
    - rewrite SE. unfold epsE. replace (9 * ev * b * (D * D * N)) with (9 * Y) by (unfold Y, Z0; ring).
      pose proof (YK _ (conj K0 K)). lra.
  Qed.
End Gs.

Section Val.
  Context (b : R) (Hb : lo2 <= b <= hi2 / 2) (d : nat) (Hd : (1 <= Z.of_nat d <= 2 ^ 20)%Z).
  Context (gs : list (list (list f64))) (Hgs : (2 <= length gs)%nat).
  Context (Hg : forall g, In g gs -> g <> [] /\ Forall (fun x => length x = d /\ Forall (ok_in b) x) g).
  Context (HN : (Z.of_nat (length (concat gs)) <= 2 ^ 24)%Z).
  Let D := INR d.
  Let n := length (concat gs).
  Let N := INR n.
  Let k := length gs.
  Let W := wgss d (map exact gs).
  Let B := bgss d (map exact gs).
  Context (ev : R) (Hev : 1000 * u * b * N <= ev <= b / 8).
  Let e := epsE b d gs ev.
  Let Hn := Hgs' b d gs Hgs Hg HN.

  Lemma rho_okE c a : 4 * e <= c -> 0 <= c <= 4 * D * (b * b) * N -> 0 <= a <= 4 * D * (b * b) * N ->
    0 < e /\ 0 < c /\ 64 * u <= e / c <= / 4 /\ 0 <= a / c <= / u.
  Proof.
    intros H4 Hc Ha.
    destruct (e_pre b Hb d Hd gs Hn Hg HN ev Hev) as ((N1 & N2) & (D1 & D2) & b0 & (U0 & U1) & e0 & E1 & Un & T0 & Z1 & Z2 & Z3 & Z4 & Et & Eb & (B1 & B2)).
    fold D in D1, D2. fold n in N1, N2, Un. fold N in N1, N2, Un.
    assert (B0 : 0 < b * b) by nra.
    assert (DN : 0 < D * N) by nra.
    set (Y := D * N * (b * b)) in *. assert (Y0 : 0 < Y) by (unfold Y; apply Rmult_lt_0_compat; lra).
    replace (4 * D * (b * b) * N) with (4 * Y) in * by (unfold Y; ring).
    assert (E2 : 380 * u * Y <= e).
    { unfold e, epsE. fold n D. fold N. apply Rle_trans with (1000 * (u * (b * b)) * (D * N)).
      - unfold Y. assert (0 < u * (b * b) * (D * N)) by (repeat apply Rmult_lt_0_compat; lra).
        replace (380 * u * (D * N * (b * b))) with (380 * (u * (b * b) * (D * N))) by ring.
        replace (1000 * (u * (b * b)) * (D * N)) with (1000 * (u * (b * b) * (D * N))) by ring. lra.
      - replace (9 * ev * b * (D * D * N)) with (9 * (ev * b) * (D * D * N)) by ring. apply Rmult_le_compat; try lra; try nra. }
    assert (E0 : 0 < e) by (assert (0 < u * Y) by (apply Rmult_lt_0_compat; lra); lra).
    assert (c0 : 0 < c) by lra. assert (ic : 0 < / c) by (now apply Rinv_0_lt_compat).
    assert (cc : c * / c = 1) by (field; lra).
    assert (P1 : u * (4 * Y) * / c >= u * 1).
    { rewrite <- cc, <- (Rmult_assoc u c (/ c)). apply Rle_ge, Rmult_le_compat_r; [lra|]. apply Rmult_le_compat_l; lra. }
    split; [exact E0|]. split; [exact c0|]. split; [split|split].
    - unfold Rdiv. apply Rle_trans with (380 * u * Y * / c); [lra|]. apply Rmult_le_compat_r; lra.
    - unfold Rdiv. assert (4 * e * / c <= c * / c) by (apply Rmult_le_compat_r; lra). lra.
    - unfold Rdiv. apply Rmult_le_pos; lra.
    - apply (Rmult_le_reg_l u); [lra|]. rewrite Rinv_r by lra. unfold Rdiv.
      assert (u * a * / c <= c * / c).
      { apply Rmult_le_compat_r; [lra|]. assert (u * a <= u * (4 * Y)) by (apply Rmult_le_compat_l; lra).
        assert (0 < u * Y) by (apply Rmult_lt_0_compat; lra). lra. }
      lra.
  Qed.
  Theorem near_CHE X Y : near X B e -> near Y W e -> 4 * e <= W ->
    near (dmul (ddiv X Y) (ddiv (d_of_Z (Z.of_nat n - Z.of_nat k)) (d_of_Z (Z.of_nat k - 1))))
      (CH_formula d (map exact gs)) (2 * (e / W) * (CH_formula d (map exact gs) + (N - INR k) / (INR k - 1))).
  Proof.
    intros HX HY H4.
    pose proof (wgss_range b Hb d Hd gs Hn Hg HN) as RW. pose proof (bgss_range b Hb d Hd gs Hn Hg HN) as RB.
    destruct (rho_okE W B H4 RW RB) as (E0 & W0 & HR & HQ).
    pose proof (more_samples b d Hd gs Hg W0) as Hkn. pose proof (n_k b d gs Hgs Hg) as [K1 K2]. fold n in Hkn, K2. fold k in Hkn, K1, K2.
    assert (Ex : forall c, 0 < c -> e / c * c = e) by (intros; field; lra).
    pose proof (near_quot_rho X Y B W (e / W)) as HD. rewrite (Ex W W0) in HD.
    specialize (HD HX HY (proj1 RB) W0 HR (proj2 HQ)).
    destruct (near_ratio (Z.of_nat n - Z.of_nat k) (Z.of_nat k - 1)) as [HM HMr]; [unfold n in *; lia|unfold n in *; lia|].
    pose proof (near_scale _ _ _ _ _ HD HM HR HQ HMr) as HF. rewrite !minus_IZR, <- !INR_IZR_INZ in HF. fold N in HF.
    assert (k1 : 1 < INR k) by (apply (lt_INR 1); lia). assert (nk : INR k < N) by (apply lt_INR; lia).
    assert (EF : CH_formula d (map exact gs) = B / W * ((N - INR k) / (INR k - 1))).
    { unfold CH_formula, nclus, nsamp. fold W B. rewrite map_length, exact_concat, exact_length. fold n k. fold N. field. lra. }
    rewrite EF. eapply near_weaken; [exact HF|]. right. ring.
  Qed.
  Theorem near_WBE X Y : near X B e -> near Y W e -> 4 * e <= B ->
    near (dmul (ddiv Y X) (d_of_Z (Z.of_nat k)))
      (WB_formula d (map exact gs)) (2 * (e / B) * (WB_formula d (map exact gs) + INR k)).
  Proof.
    intros HX HY H4.
    pose proof (wgss_range b Hb d Hd gs Hn Hg HN) as RW. pose proof (bgss_range b Hb d Hd gs Hn Hg HN) as RB.
    destruct (rho_okE B W H4 RB RW) as (E0 & W0 & HR & HQ).
    pose proof (n_k b d gs Hgs Hg) as [K1 K2]. fold n in K2. fold k in K1, K2.
    assert (Ex : forall c, 0 < c -> e / c * c = e) by (intros; field; lra).
    pose proof (near_quot_rho Y X W B (e / B)) as HD. rewrite (Ex B W0) in HD.
    specialize (HD HY HX (proj1 RW) W0 HR (proj2 HQ)).
    destruct (near_size (Z.of_nat k)) as [HM HMr]; [unfold n in *; lia|].
    pose proof (near_scale _ _ _ _ _ HD HM HR HQ HMr) as HF. rewrite <- !INR_IZR_INZ in HF.
    assert (EF : WB_formula d (map exact gs) = W / B * INR k).
    { unfold WB_formula, nclus. fold W B. rewrite map_length. fold k. field. lra. }
    rewrite EF. eapply near_weaken; [exact HF|]. right. ring.
  Qed.
End Val.
