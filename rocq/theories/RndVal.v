(** * Distances of centroids and the within and between sums of squares *)
From Coq Require Import ZArith Reals Lia Lra SpecFloat Psatz List Permutation.
From Flocq Require Import Core Relative.
From Verif Require Import Num NumPy Base GetCvi Lists Step Stream RunForm BatchForm F64 F64o Rnd RndErr RndMean RndSum RndCl RndCP RndCP2 RndCP3 RndCP4 RndOps Spec RGeom XPerm P_Round.
Import ListNotations.
Local Open Scope R_scope.
Local Notation R := Rdefinitions.R.
Local Notation nanv := S754_nan.
Local Notation rsum := RndMean.rsum.

Definition exact (xs : list (list f64)) : list (list R) := map (map rv) xs.
Lemma exact_concat gs : concat (map exact gs) = exact (concat gs).
Proof. unfold exact. symmetry. apply concat_map. Qed.
Lemma exact_length xs : length (exact xs) = length xs. Proof. apply map_length. Qed.

(** a stored point [v] close to the mean of [xs] *)
Definition at_mean (d : nat) (v : list f64) (xs : list (list f64)) (e : R) : Prop :=
  length v = d /\ forall j, (j < d)%nat -> near (nth j v nanv) (ravg (fcol j xs)) e.

Section Gs.
  Context (L : Libm) (S : Sums) (HS : any_order S).
  Notation A := (F64o L S).
  Context (b : R) (Hb : lo2 <= b <= hi2 / 2) (d : nat) (Hd : (1 <= Z.of_nat d <= 2 ^ 20)%Z).
  Context (gs : list (list (list f64))) (Hgs : gs <> []).
  Context (Hg : forall g, In g gs -> g <> [] /\ Forall (fun x => length x = d /\ Forall (ok_in b) x) g).
  Context (HN : (Z.of_nat (length (concat gs)) <= 2 ^ 24)%Z).
  Let D := INR d.
  Let N := INR (length (concat gs)).
  Let T := u * (b * b).
  Let nn (g : list (list f64)) := INR (length g).

  Lemma g_pre : 1 <= N <= 16777216 /\ 1 <= D <= 1048576 /\ 0 < T /\ u * N <= / 500000000 /\ 0 < u /\ 0 < b /\ eta <= u * T /\
    bpow radix2 (-800) <= b * b <= bpow radix2 798 /\ T <= / 1000000 * (b * b).
  Proof.
    pose proof u_small as [U1 U2]. pose proof lo2_pos. unfold N, D, T.
    assert (N1 : 1 <= INR (length (concat gs))).
    { apply (le_INR 1). destruct gs as [|g l]; [congruence|]. destruct (Hg g ltac:(now left)) as [Hne _].
      cbn [concat]. rewrite app_length. destruct g; [congruence|cbn; lia]. }
    assert (N2 : INR (length (concat gs)) <= 16777216) by (rewrite INR_IZR_INZ; apply (IZR_le _ (2 ^ 24)); auto).
    assert (B1 : bpow radix2 (-800) <= b * b).
    { change (-800)%Z with (-400 + -400)%Z. rewrite bpow_plus. unfold lo2 in *. apply Rmult_le_compat; lra. }
    assert (B2 : b * b <= bpow radix2 798).
    { change 798%Z with (399 + 399)%Z. rewrite bpow_plus.
      assert (hi2 / 2 = bpow radix2 399).
      { unfold hi2. change 400%Z with (399 + 1)%Z. rewrite bpow_plus. change (bpow radix2 1) with 2. field. }
      apply Rmult_le_compat; lra. }
    assert (B0 : 0 < b * b) by nra.
    repeat split; auto; try lra.
    - apply (le_INR 1). lia.
    - rewrite INR_IZR_INZ. apply (IZR_le _ (2 ^ 20)). lia.
    - apply Rmult_lt_0_compat; lra.
    - rewrite u_val. lra.
    - rewrite <- Rmult_assoc. apply Rle_trans with (u * u * bpow radix2 (-800)).
      + unfold eta, u. rewrite <- !bpow_plus. apply bpow_le. lia.
      + apply Rmult_le_compat_l; nra.
    - apply Rmult_le_compat_r; lra.
  Qed.
  Lemma len_concat : rsum (map nn gs) = N.
  Proof.
    unfold N. clear. induction gs as [|g l IH]; [reflexivity|]. cbn [map concat]. rewrite app_length, plus_INR, <- IH. reflexivity.
  Qed.
  Lemma n_range g : In g gs -> 1 <= nn g <= N.
  Proof.
    intros H. destruct (Hg g H) as [Hne _]. unfold nn. split.
    - apply (le_INR 1). destruct g; [congruence|cbn; lia].
    - apply le_INR. clear -H. induction gs as [|h l IH]; [destruct H|]. cbn [concat]. rewrite app_length.
      destruct H as [->|H]; [lia|]. specialize (IH H). lia.
  Qed.
  Lemma k_range : INR (length gs) <= N.
  Proof.
    rewrite <- len_concat. rewrite <- (Rmult_1_r (INR (length gs))), <- (map_length nn gs).
    assert (H : forall g, In g gs -> 1 <= nn g) by (intros g H; apply n_range in H; lra). clear -H. 
    induction gs as [|g l IH]; [cbn; lra|]. cbn [map length rsum fold_right] in *. rewrite S_INR.
    pose proof (H g ltac:(now left)). assert (INR (length (map nn l)) * 1 <= rsum (map nn l)) by (apply IH; intros; apply H; now right).
    unfold rsum in *. lra.
  Qed.
  Lemma avg_le xs j : (exists g, In g gs /\ xs = g) \/ Permutation xs (concat gs) -> (j < d)%nat -> Rabs (ravg (fcol j xs)) <= b.
  Proof.
    intros Hx Hj. assert (Hn : xs <> [] /\ Forall (fun x => length x = d /\ Forall (ok_in b) x) xs).
    { destruct Hx as [(g & H & ->)|H]; [exact (Hg g H)|]. split.
      - intros ->. apply Permutation_nil in H. destruct g_pre as ((P & _) & _). unfold N in P. rewrite H in P. cbn in P. lra.
      - rewrite H. apply Forall_forall. intros x Hxi. apply in_concat in Hxi as (g & H1 & H2). destruct (Hg g H1) as [_ HF].
        rewrite Forall_forall in HF. auto. }
    destruct Hn as [Hne HF]. apply ravg_abs.
    - unfold fcol. destruct xs; [congruence|discriminate].
    - unfold fcol. apply Forall_map. eapply Forall_impl; [|exact HF]. intros r [H1 H2].
      rewrite Forall_forall in H2. apply H2, nth_In. now rewrite H1.
  Qed.

  (** differences of two stored points *)
  Let ev := 17 * u * b * N.
  Lemma near_diff v w p q : near v p ev -> near w q ev -> Rabs p <= b -> Rabs q <= b ->
    near (dsub v w) (p - q) (37 * u * b * N) /\ Rabs (p - q) <= 2 * b.
  Proof.
    intros Hv Hw Hp Hq. destruct g_pre as ((N1 & N2) & (D1 & D2) & T0 & Un & U0 & b0 & Et & (B1 & B2) & TB).
    assert (M : Rabs (p - q) <= 2 * b).
    { unfold Rminus. eapply Rle_trans; [apply Rabs_triang|]. rewrite Rabs_Ropp. lra. }
    split; auto. set (t := u * b * N).
    assert (t0 : 0 < t) by (unfold t; repeat apply Rmult_lt_0_compat; lra).
    assert (tb : t <= / 500000000 * b).
    { unfold t. replace (u * b * N) with (u * N * b) by ring. apply Rmult_le_compat_r; lra. }
    assert (ub : u * b <= t).
    { unfold t. rewrite <- (Rmult_1_r (u * b)) at 1. apply Rmult_le_compat_l; [apply Rmult_le_pos|]; lra. }
    assert (eb : eta <= / 2 * (u * b)).
    { destruct (eta_B b) as [_ H]; [pose proof (Hb_mean b Hb); lra|]. pose proof u_small as [_ U2]. eapply Rle_trans; [exact H|].
      rewrite Rmult_assoc. apply Rmult_le_compat_r; [apply Rmult_le_pos|]; lra. }
    assert (bt : 1000 * b <= top).
    { pose proof (Hb_mean b Hb) as [_ H]. pose proof high_top. lra. }
    replace ev with (17 * t) in * by (unfold ev, t; ring).
    replace (37 * u * b * N) with (37 * t) by (unfold t; ring).
    eapply near_weaken; [apply near_sub; [exact Hv|exact Hw|lra]|].
    assert (u * (Rabs (p - q) + (17 * t + 17 * t)) <= u * (21 / 10 * b)) by (apply Rmult_le_compat_l; lra). lra.
  Qed.

  Definition rdist2 (p q : nat -> R) : R := rS d (fun j => (p j - q j) * (p j - q j)).
  (** the sum of their squares, in any order *)
  Lemma near_sumsq (v w : list f64) p q z : length v = d -> length w = d ->
    (forall j, (j < d)%nat -> near (nth j v nanv) (p j) ev /\ Rabs (p j) <= b) ->
    (forall j, (j < d)%nat -> near (nth j w nanv) (q j) ev /\ Rabs (q j) <= b) ->
    summed (map (fun x => dmul x x) (map2 dsub v w)) z ->
    near z (rdist2 p q) (165 * T * (D * D * N)).
  Proof.
    intros Lv Lw Hv Hw Hz. destruct g_pre as ((N1 & N2) & (D1 & D2) & T0 & Un & U0 & b0 & Et & (B1 & B2) & TB).
    pose proof u_small as [U1 U2].
    set (y := map2 dsub v w) in *.
    assert (Ly : length y = d) by (unfold y; rewrite length_map2; lia).
    assert (Ny : forall j, (j < d)%nat -> near (nth j y nanv) (p j - q j) (37 * u * b * N) /\ Rabs (p j - q j) <= 2 * b).
    { intros j Hj. unfold y. rewrite (nth_map2_sub v w d j) by auto. destruct (Hv j Hj), (Hw j Hj). now apply near_diff. }
    replace (map (fun x => dmul x x) y) with (dprods y y) in Hz.
    2:{ clear. induction y as [|a y IH]; cbn; [reflexivity|]. now rewrite IH. }
    assert (t0 : 0 < u * b * N) by (repeat apply Rmult_lt_0_compat; lra).
    assert (TN : 0 < T * N) by (apply Rmult_lt_0_compat; lra).
    assert (Ttn : T <= T * N) by (rewrite <- (Rmult_1_r T) at 1; apply Rmult_le_compat_l; lra).
    assert (Q1 : u * b * N * (u * b * N) <= / 500000000 * (T * N)).
    { replace (u * b * N * (u * b * N)) with (u * N * (T * N)) by (unfold T; ring). apply Rmult_le_compat_r; lra. }
    assert (TNb : T * N <= / 500000000 * (b * b)).
    { unfold T. replace (u * (b * b) * N) with (u * N * (b * b)) by ring. apply Rmult_le_compat_r; lra. }
    assert (B0 : 0 < b * b) by nra.
    eapply near_weaken.
    - unfold rdist2. apply (near_dot d y y (fun j => p j - q j) (fun j => p j - q j) (2 * b) (2 * b) (37 * u * b * N) (37 * u * b * N) (5 * (b * b)) (153 * (T * N)) z Ly Ly Hz); auto; try lra.
      + lia.
      + split.
        * apply Rle_trans with (bpow radix2 (-800)); [apply bpow_le; lia|lra].
        * apply Rle_trans with (8 * bpow radix2 798); [lra|]. change 8 with (bpow radix2 3). rewrite <- bpow_plus. apply bpow_le. lia.
      + replace (2 * b * (37 * u * b * N) + 2 * b * (37 * u * b * N) + 37 * u * b * N * (37 * u * b * N))
          with (148 * (T * N) + 1369 * (u * b * N * (u * b * N))) by (unfold T; ring).
        set (q0 := 148 * (T * N) + 1369 * (u * b * N * (u * b * N))).
        assert (q0 <= 1484 / 10 * (T * N)) by (unfold q0; lra).
        assert (u * (2 * b * (2 * b) + q0) <= u * (41 / 10 * (b * b))) by (apply Rmult_le_compat_l; lra).
        replace (u * (41 / 10 * (b * b))) with (41 / 10 * T) in H0 by (unfold T; ring).
        assert (u * T <= / 1000000 * T) by (apply Rmult_le_compat_r; lra). lra.
    - fold D. replace (2 * u * (5 * (b * b)) * (D * D)) with (10 * T * (D * D)) by (unfold T; ring).
      assert (K1 : D * (153 * (T * N)) <= D * D * (153 * (T * N))) by (apply Rmult_le_compat_r; [lra|nra]).
      assert (K2 : T * (D * D) <= T * N * (D * D)) by (apply Rmult_le_compat_r; nra).
      replace (165 * T * (D * D * N)) with (165 * (T * N * (D * D))) by ring. assert (0 <= T * N * (D * D)) by (apply Rmult_le_pos; nra). lra.
  Qed.
  Lemma rdist2_range p q : (forall j, (j < d)%nat -> Rabs (p j) <= b) -> (forall j, (j < d)%nat -> Rabs (q j) <= b) ->
    0 <= rdist2 p q <= 4 * D * (b * b).
  Proof.
    intros Hp Hq. split.
    - apply rS_pos. intros j _. apply Rle_0_sqr.
    - replace (4 * D * (b * b)) with (D * (4 * (b * b))) by ring. eapply Rle_trans; [apply Rle_abs|]. apply rS_abs. intros j Hj.
      rewrite Rabs_mult. assert (M : Rabs (p j - q j) <= 2 * b).
      { unfold Rminus. eapply Rle_trans; [apply Rabs_triang|]. rewrite Rabs_Ropp. specialize (Hp j Hj). specialize (Hq j Hj). lra. }
      pose proof (Rabs_pos (p j - q j)). nra.
  Qed.

  Lemma cdist_avg xs ys : cdist d (exact xs) (exact ys) = rdist2 (fun j => ravg (fcol j xs)) (fun j => ravg (fcol j ys)).
  Proof.
    unfold cdist. rewrite (dist2_rS d) by (unfold centroid; now rewrite map_length, seq_length).
    apply rS_ext. intros j Hj. unfold exact. now rewrite !centroid_avg.
  Qed.
  Lemma scatter_range g : In g gs -> 0 <= scatter d (exact g) <= 4 * D * (b * b) * nn g.
  Proof.
    intros H. destruct (Hg g H) as [Hne HF].
    assert (HF' : Forall (fun x => length x = d) g) by (eapply Forall_impl; [|exact HF]; simpl; tauto).
    unfold exact. rewrite (scatter_is d g HF').
    assert (HC : forall j, (j < d)%nat -> 0 <= cex (ravg (fcol j g)) (map rv (fcol j g)) <= nn g * (4 * (b * b))).
    { intros j Hj. unfold nn. rewrite <- (map_length (fun x => nth j x nanv) g), <- (map_length rv (map _ g)).
      apply cex_range.
      - apply avg_le; eauto.
      - apply Forall_map. unfold fcol. apply Forall_map. eapply Forall_impl; [|exact HF]. intros r [H1 H2].
        rewrite Forall_forall in H2. apply (H2 (nth j r nanv)), nth_In. now rewrite H1. }
    split.
    - apply rS_pos. intros j Hj. apply (HC j Hj).
    - eapply Rle_trans; [apply Rle_abs|]. eapply Rle_trans; [apply (rS_abs d _ (nn g * (4 * (b * b))))|].
      + intros j Hj. rewrite Rabs_pos_eq; apply (HC j Hj).
      + fold D. right. ring.
  Qed.

  (** ** Within *)
  Lemma M_ok : low <= 5 * D * N * (b * b) <= high.
  Proof.
    destruct g_pre as ((N1 & N2) & (D1 & D2) & T0 & Un & U0 & b0 & Et & (B1 & B2) & TB).
    assert (DN : 1 <= D * N <= 1048576 * 16777216) by (split; [nra|apply Rmult_le_compat; lra]).
    assert (B0 : 0 < b * b) by nra.
    replace (5 * D * N * (b * b)) with (5 * (D * N) * (b * b)) by ring. split.
    - apply Rle_trans with (bpow radix2 (-800)); [apply bpow_le; lia|]. rewrite <- (Rmult_1_l (bpow _ _)).
      apply Rmult_le_compat; try lra. apply bpow_ge_0.
    - apply Rle_trans with (bpow radix2 47 * bpow radix2 798).
      + apply Rmult_le_compat; try lra. change (bpow radix2 47) with 140737488355328. lra.
      + rewrite <- bpow_plus. apply bpow_le. lia.
  Qed.
  Definition eps : R := 380 * T * (D * D * (N * N)).
  Lemma near_wgss (f : list (list f64) -> f64) : (forall g, In g gs -> near (f g) (scatter d (exact g)) (369 * T * (D * D * (nn g * nn g)))) ->
    near (fold_left dadd (map f gs) (d_of_Z 0)) (wgss d (map exact gs)) eps.
  Proof.
    intros Hf. destruct g_pre as ((N1 & N2) & (D1 & D2) & T0 & Un & U0 & b0 & Et & (B1 & B2) & TB).
    pose proof k_range as K. pose proof (pos_INR (length gs)) as K0.
    assert (B0 : 0 < b * b) by nra. assert (D4 : 0 < D * D) by nra. assert (DD : D <= D * D) by nra.
    assert (TDD : 0 <= T * (D * D)) by (apply Rmult_le_pos; lra).
    assert (Hsq : rsum (map (fun g => 369 * T * (D * D * (nn g * nn g))) gs) <= 369 * (T * (D * D) * (N * N))).
    { apply Rle_trans with (rsum (map (fun g => 369 * (T * (D * D)) * N * nn g) gs)).
      - apply RndOps.rsum_le. intros g H. apply n_range in H. replace (369 * T * (D * D * (nn g * nn g))) with (369 * (T * (D * D)) * (nn g * nn g)) by ring.
        rewrite !Rmult_assoc. apply Rmult_le_compat_l; [lra|]. rewrite <- !Rmult_assoc. apply Rmult_le_compat_r; [lra|]. apply Rmult_le_compat_l; lra.
      - rewrite (RndOps.rsum_scal (369 * (T * (D * D)) * N)), len_concat. right. ring. }
    assert (TN2 : T * (D * D) * (N * N) <= / 400 * (D * N * (b * b))).
    { unfold T. replace (u * (b * b) * (D * D) * (N * N)) with (u * N * D * (D * N * (b * b))) by ring.
      apply Rmult_le_compat_r; [apply Rmult_le_pos; nra|].
      apply Rle_trans with (/ 500000000 * 1048576); [apply Rmult_le_compat; nra|lra]. }
    unfold wgss. rewrite map_map.
    eapply near_weaken.
    - apply (near_psum f (fun g => scatter d (exact g)) _ (5 * D * N * (b * b)) gs M_ok) with (2 := Hf).
      + assert (u * INR (length gs) <= u * N) by (apply Rmult_le_compat_l; lra). lra.
      + rewrite RndCP4.rsum_map_plus.
        assert (rsum (map (fun g => Rabs (scatter d (exact g))) gs) <= rsum (map (fun g => 4 * D * (b * b) * nn g) gs)).
        { apply RndOps.rsum_le. intros g H. destruct (scatter_range g H) as [X1 X2]. rewrite Rabs_pos_eq; auto. }
        rewrite (RndOps.rsum_scal (4 * D * (b * b))), len_concat in H.
        assert (0 <= D * N * (b * b)) by (apply Rmult_le_pos; nra).
        replace (4 * D * (b * b) * N) with (4 * (D * N * (b * b))) in H by ring. lra.
    - unfold eps. replace (380 * T * (D * D * (N * N))) with (380 * (T * (D * D) * (N * N))) by ring.
      assert (2 * u * (5 * D * N * (b * b)) * INR (length gs) <= 10 * (T * (D * D) * (N * N))).
      { replace (2 * u * (5 * D * N * (b * b)) * INR (length gs)) with (10 * T * (D * (N * INR (length gs)))) by (unfold T; ring).
        replace (10 * (T * (D * D) * (N * N))) with (10 * T * (D * D * (N * N))) by ring.
        apply Rmult_le_compat_l; [lra|]. apply Rmult_le_compat; [lra|apply Rmult_le_pos; lra|lra|apply Rmult_le_compat_l; lra]. }
      assert (0 <= T * (D * D) * (N * N)) by (apply Rmult_le_pos; [lra|apply Rmult_le_pos; lra]). lra.
  Qed.

  (** ** Between *)
  Definition em : R := 165 * T * (D * D * N).
  Lemma near_bgss (f : list (list f64) -> f64) (z : list (list f64) -> f64) all : Permutation all (concat gs) ->
    (forall g, In g gs -> near (z g) (rdist2 (fun j => ravg (fcol j g)) (fun j => ravg (fcol j all))) em /\ f g = dmul (d_of_Z (Z.of_nat (length g))) (z g)) ->
    near (fold_left dadd (map f gs) (d_of_Z 0)) (bgss d (map exact gs)) eps.
  Proof.
    intros Hp Hf. destruct g_pre as ((N1 & N2) & (D1 & D2) & T0 & Un & U0 & b0 & Et & (B1 & B2) & TB).
    pose proof k_range as K. pose proof (pos_INR (length gs)) as K0. pose proof u_small as [U1 U2].
    assert (B0 : 0 < b * b) by nra. assert (D4 : 0 < D * D) by nra. assert (DD : D <= D * D) by nra.
    assert (TDD : 0 <= T * (D * D)) by (apply Rmult_le_pos; lra).
    set (r2 := fun g => rdist2 (fun j => ravg (fcol j g)) (fun j => ravg (fcol j all))) in *.
    assert (Hr2 : forall g, In g gs -> 0 <= r2 g <= 4 * D * (b * b)).
    { intros g H. apply rdist2_range; intros j Hj; apply avg_le; eauto. }
    assert (Q : T * (D * D * N) <= / 400 * (D * (b * b))).
    { unfold T. replace (u * (b * b) * (D * D * N)) with (u * N * D * (D * (b * b))) by ring.
      apply Rmult_le_compat_r; [nra|].
      apply Rle_trans with (/ 500000000 * 1048576); [apply Rmult_le_compat; nra|lra]. }
    assert (TDN : 0 < T * (D * D * N)) by (apply Rmult_lt_0_compat; [lra|nra]).
    assert (TD : T <= T * (D * D * N)).
    { rewrite <- (Rmult_1_r T) at 1. apply Rmult_le_compat_l; [lra|]. nra. }
    assert (TD' : T * D <= T * (D * D * N)).
    { apply Rmult_le_compat_l; [lra|]. nra. }
    assert (BH : b * b <= bpow radix2 798) by lra.
    assert (E1 : forall g, In g gs -> near (f g) (nn g * r2 g) (170 * T * (D * D * N) * nn g)).
    { intros g H. destruct (Hf g H) as [Nz ->]. fold (r2 g) in Nz. destruct (n_range g H) as [n1 n2]. destruct (Hr2 g H) as [X1 X2].
      assert (Nn : near (d_of_Z (Z.of_nat (length g))) (nn g) 0).
      { unfold nn. rewrite INR_IZR_INZ. apply near_Z. unfold nn in *.
        assert (INR (length g) <= INR (length (concat gs))) by (unfold N in *; lra). apply INR_le in H0. lia. }
      assert (em0 : 0 <= em <= D * (b * b)) by (unfold em; lra).
      eapply near_weaken; [apply near_mul; [exact Nn|exact Nz|]|].
      - rewrite !Rabs_pos_eq by lra. rewrite Rplus_0_r.
        apply Rle_trans with (16777216 * (5 * (1048576 * bpow radix2 798))).
        + apply Rmult_le_compat; try lra.
          assert (D * (b * b) <= 1048576 * bpow radix2 798) by (apply Rmult_le_compat; lra). lra.
        + apply Rle_trans with (bpow radix2 47 * bpow radix2 798).
          * assert (0 <= bpow radix2 798) by apply bpow_ge_0. change (bpow radix2 47) with 140737488355328. lra.
          * rewrite <- bpow_plus. apply bpow_le. lia.
      - rewrite !Rabs_pos_eq by (try apply Rmult_le_pos; lra).
        replace (nn g * em + r2 g * 0 + 0 * em) with (nn g * em) by ring.
        replace (u * (nn g * r2 g + nn g * em)) with (nn g * (u * (r2 g + em))) by ring.
        assert (u * (r2 g + em) <= u * (9 / 2 * (D * (b * b)))).
        { apply Rmult_le_compat_l; [lra|]. unfold em. lra. }
        replace (u * (9 / 2 * (D * (b * b)))) with (9 / 2 * (T * D)) in H0 by (unfold T; ring).
        assert (nn g * (u * (r2 g + em)) <= nn g * (9 / 2 * (T * D))) by (apply Rmult_le_compat_l; lra).
        assert (UT : u * T <= / 1000000 * T) by (apply Rmult_le_compat_r; lra).
        assert (E2 : eta <= nn g * (/ 1000000 * T)).
        { apply Rle_trans with (1 * (/ 1000000 * T)); [lra|]. apply Rmult_le_compat_r; lra. }
        assert (E3 : nn g * (/ 1000000 * T) <= nn g * (/ 1000000 * (T * (D * D * N)))) by (apply Rmult_le_compat_l; lra).
        assert (E4 : nn g * (T * D) <= nn g * (T * (D * D * N))) by (apply Rmult_le_compat_l; lra).
        replace (nn g * em) with (165 * (nn g * (T * (D * D * N)))) by (unfold em; ring).
        replace (170 * T * (D * D * N) * nn g) with (170 * (nn g * (T * (D * D * N)))) by ring.
        assert (0 <= nn g * (T * (D * D * N))) by (apply Rmult_le_pos; lra). lra. }
    assert (EB : bgss d (map exact gs) = rsum (map (fun g => nn g * r2 g) gs)).
    { unfold bgss. change Spec.rsum with rsum. rewrite map_map. f_equal. apply map_ext_in. intros g H.
      rewrite exact_concat, exact_length. unfold nn. f_equal. unfold r2. rewrite <- cdist_avg. unfold cdist. f_equal.
      apply centroid_perm. unfold exact. apply Permutation_map. now symmetry. }
    rewrite EB.
    assert (SE : rsum (map (fun g => 170 * T * (D * D * N) * nn g) gs) = 170 * (T * (D * D) * (N * N))).
    { rewrite (RndOps.rsum_scal (170 * T * (D * D * N))), len_concat. ring. }
    assert (TN2 : T * (D * D) * (N * N) <= / 400 * (D * N * (b * b))).
    { replace (T * (D * D) * (N * N)) with (T * (D * D * N) * N) by ring.
      replace (/ 400 * (D * N * (b * b))) with (/ 400 * (D * (b * b)) * N) by ring. apply Rmult_le_compat_r; lra. }
    eapply near_weaken.
    - apply (near_psum f (fun g => nn g * r2 g) _ (5 * D * N * (b * b)) gs M_ok) with (2 := E1).
      + assert (u * INR (length gs) <= u * N) by (apply Rmult_le_compat_l; lra). lra.
      + rewrite RndCP4.rsum_map_plus, SE.
        assert (rsum (map (fun g => Rabs (nn g * r2 g)) gs) <= rsum (map (fun g => 4 * D * (b * b) * nn g) gs)).
        { apply RndOps.rsum_le. intros g H. destruct (Hr2 g H) as [X1 X2]. destruct (n_range g H) as [n1 n2].
          rewrite Rabs_pos_eq by (apply Rmult_le_pos; lra). rewrite Rmult_comm. apply Rmult_le_compat_r; lra. }
        rewrite (RndOps.rsum_scal (4 * D * (b * b))), len_concat in H.
        assert (0 <= D * N * (b * b)) by (apply Rmult_le_pos; nra).
        replace (4 * D * (b * b) * N) with (4 * (D * N * (b * b))) in H by ring. lra.
    - rewrite SE. unfold eps. replace (380 * T * (D * D * (N * N))) with (380 * (T * (D * D) * (N * N))) by ring.
      assert (2 * u * (5 * D * N * (b * b)) * INR (length gs) <= 10 * (T * (D * D) * (N * N))).
      { replace (2 * u * (5 * D * N * (b * b)) * INR (length gs)) with (10 * T * (D * (N * INR (length gs)))) by (unfold T; ring).
        replace (10 * (T * (D * D) * (N * N))) with (10 * T * (D * D * (N * N))) by ring.
        apply Rmult_le_compat_l; [lra|]. apply Rmult_le_compat; [lra|apply Rmult_le_pos; lra|lra|apply Rmult_le_compat_l; lra]. }
      assert (0 <= T * (D * D) * (N * N)) by (apply Rmult_le_pos; [lra|apply Rmult_le_pos; lra]). lra.
  Qed.
  Lemma bgss_range : 0 <= bgss d (map exact gs) <= 4 * D * (b * b) * N.
  Proof.
    assert (H : forall g, In g gs -> 0 <= dist2 (centroid d (exact g)) (centroid d (concat (map exact gs))) <= 4 * D * (b * b)).
    { intros g H. rewrite exact_concat. fold (cdist d (exact g) (exact (concat gs))). rewrite cdist_avg.
      apply rdist2_range; intros j Hj; apply avg_le; eauto. }
    unfold bgss. change Spec.rsum with rsum. rewrite map_map. split.
    - apply RndOps.rsum_pos, Forall_map, Forall_forall. intros g Hi. apply Rmult_le_pos; [apply pos_INR|]. now apply H.
    - rewrite <- len_concat, <- (RndOps.rsum_scal (4 * D * (b * b))). apply RndOps.rsum_le. intros g Hi. rewrite exact_length. unfold nn.
      rewrite Rmult_comm. apply Rmult_le_compat_r; [apply pos_INR|]. now apply H.
  Qed.
  Lemma wgss_range : 0 <= wgss d (map exact gs) <= 4 * D * (b * b) * N.
  Proof.
    unfold wgss. change Spec.rsum with rsum. rewrite map_map. split.
    - apply RndOps.rsum_pos, Forall_map, Forall_forall. intros g Hi. now apply scatter_range.
    - rewrite <- len_concat, <- (RndOps.rsum_scal (4 * D * (b * b))). apply RndOps.rsum_le. intros g Hi. now apply scatter_range.
  Qed.
End Gs.
