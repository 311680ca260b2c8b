(** * Compactness against the scatter around the true centroid *)
From Coq Require Import ZArith Reals Lia Lra SpecFloat Psatz List Permutation.
From Flocq Require Import Core Relative.
From Verif Require Import Num NumPy Base GetCvi Lists Step Stream RunForm BatchForm F64 F64o Rnd RndErr RndMean RndSum RndCl RndCP RndCP2 RndCP3 Spec.
Import ListNotations.
Local Open Scope R_scope.
Local Notation R := Rdefinitions.R.
Local Notation nanv := S754_nan.
Local Notation rsum := RndMean.rsum.

Lemma rsum_map_plus {X} (f h : X -> R) l : rsum (map (fun x => f x + h x) l) = rsum (map f l) + rsum (map h l).
Proof. induction l as [|a l IH]; cbn [map rsum fold_right]; [ring|]. unfold rsum in IH. rewrite IH. ring. Qed.
Lemma rS_swap {X} d (f : X -> nat -> R) l : rsum (map (fun x => rS d (f x)) l) = rS d (fun j => rsum (map (fun x => f x j) l)).
Proof.
  induction l as [|a l IH].
  - cbn. unfold rS. induction (seq 0 d) as [|q r IH]; cbn; [reflexivity|]. unfold rsum in IH. rewrite <- IH. ring.
  - cbn [map rsum fold_right]. unfold rsum in IH. rewrite IH, <- rS_plus. reflexivity.
Qed.
Lemma dist2_rS d : forall x w, length x = d -> length w = d -> dist2 x w = rS d (fun j => (nth j x 0 - nth j w 0) * (nth j x 0 - nth j w 0)).
Proof.
  induction d as [|d IH]; intros [|a x] [|c w] Hx Hw; try discriminate; [reflexivity|].
  cbn in Hx, Hw. injection Hx as Hx. injection Hw as Hw. specialize (IH x w Hx Hw). unfold rS, dist2 in *.
  cbn [combine map seq]. rewrite <- seq_shift, map_map. change Spec.rsum with rsum in *. cbn [rsum fold_right fst snd nth].
  unfold rsum in IH. rewrite IH. reflexivity.
Qed.
Lemma scatter_from d (xs : list (list f64)) w : Forall (fun x => length x = d) xs -> length w = d ->
  rsum (map (fun x => dist2 (map rv x) w) xs) = rS d (fun j => cex (nth j w 0) (map rv (fcol j xs))).
Proof.
  intros HF Hw. rewrite (map_ext_in _ (fun x => rS d (fun j => (rv (nth j x nanv) - nth j w 0) * (rv (nth j x nanv) - nth j w 0)))).
  - rewrite rS_swap. apply rS_ext. intros j Hj. unfold cex, fcol. now rewrite !map_map.
  - intros x Hx. rewrite Forall_forall in HF. rewrite (dist2_rS d) by (rewrite ?map_length; auto).
    apply rS_ext. intros j Hj. rewrite <- (map_nth rv). reflexivity.
Qed.
Lemma scatter_is d (xs : list (list f64)) : Forall (fun x => length x = d) xs ->
  scatter d (map (map rv) xs) = rS d (fun j => cex (ravg (fcol j xs)) (map rv (fcol j xs))).
Proof.
  intros HF. unfold scatter. change Spec.rsum with rsum. rewrite map_map.
  rewrite (scatter_from d xs) by (auto; unfold centroid; now rewrite map_length, seq_length).
  apply rS_ext. intros j Hj. f_equal. unfold centroid. rewrite nth_map_seq by auto. unfold ravg, fcol. rewrite !map_length. f_equal.
  change RndMean.rsum with Spec.rsum. rewrite !map_map. f_equal. apply map_ext. intros x. change 0 with (rv S754_nan). apply map_nth.
Qed.
(** moving the centre away from the mean adds the square of the distance *)
Lemma cex_avg xs v : xs <> [] -> cex v (map rv xs) = cex (ravg xs) (map rv xs) + INR (length xs) * ((ravg xs - v) * (ravg xs - v)).
Proof.
  intros Hne. rewrite (cex_move (ravg xs) v), map_length.
  replace (gex (ravg xs) (map rv xs)) with 0; [ring|]. rewrite gex_sum, map_length. unfold ravg. field.
  apply not_0_INR. destruct xs; [congruence|discriminate].
Qed.
Lemma shift_bound d (xs : list (list f64)) (v : nat -> R) e : xs <> [] -> Forall (fun x => length x = d) xs ->
  (forall j, (j < d)%nat -> Rabs (v j - ravg (fcol j xs)) <= e) ->
  Rabs (rS d (fun j => cex (v j) (map rv (fcol j xs))) - scatter d (map (map rv) xs)) <= INR d * (INR (length xs) * (e * e)).
Proof.
  intros Hne HF He. rewrite scatter_is by auto.
  replace (rS d (fun j => cex (v j) (map rv (fcol j xs))) - rS d (fun j => cex (ravg (fcol j xs)) (map rv (fcol j xs)))) with
    (rS d (fun j => INR (length xs) * ((ravg (fcol j xs) - v j) * (ravg (fcol j xs) - v j)))).
  - apply rS_abs. intros j Hj. rewrite !Rabs_mult. rewrite (Rabs_pos_eq (INR _)) by apply pos_INR.
    apply Rmult_le_compat_l; [apply pos_INR|]. rewrite Rabs_minus_sym. specialize (He j Hj).
    apply Rmult_le_compat; auto; apply Rabs_pos.
  - rewrite (rS_ext d (fun j => cex (v j) _) (fun j => cex (ravg (fcol j xs)) (map rv (fcol j xs)) + INR (length xs) * ((ravg (fcol j xs) - v j) * (ravg (fcol j xs) - v j)))).
    + rewrite rS_plus. ring.
    + intros j Hj. rewrite cex_avg, fcol_length; auto. unfold fcol. destruct xs; [congruence|discriminate].
Qed.

Section Cl.
  Context (L : Libm) (S : Sums) (HS : any_order S).
  Notation A := (F64o L S).
  Context (b : R) (Hb : lo2 <= b <= hi2 / 2) (d : nat) (Hd : (1 <= Z.of_nat d <= 2 ^ 20)%Z).
  Context (xs : list (vec A)) (Hne : xs <> []) (HF : Forall (fun x : vec A => length x = d /\ Forall (ok_in b) x) xs)
    (HL : (Z.of_nat (length xs) <= 2 ^ 24)%Z).
  Let D := INR d.
  Let n := INR (length xs).
  Let T := u * (b * b).
  Lemma pre : 1 <= n <= 16777216 /\ 1 <= D <= 1048576 /\ 0 < T /\ u * n <= / 500000000 /\ Forall (fun x : list f64 => length x = d) xs /\ 0 < u /\ 0 < b.
  Proof.
    unfold n, D, T. pose proof u_small as [U1 _]. pose proof lo2_pos.
    assert (N1 : 1 <= INR (length xs)) by (apply (le_INR 1); destruct xs; [congruence|cbn; lia]).
    assert (N2 : INR (length xs) <= 16777216) by (rewrite INR_IZR_INZ; apply (IZR_le _ (2 ^ 24)); auto).
    repeat split; auto.
    - apply (le_INR 1). lia.
    - rewrite INR_IZR_INZ. apply (IZR_le _ (2 ^ 20)). lia.
    - apply Rmult_lt_0_compat; nra.
    - rewrite u_val. lra.
    - eapply Forall_impl; [|exact HF]. simpl. tauto.
    - lra.
  Qed.

  Theorem near_cl_cp : near (c_cp (cl_of xs)) (scatter d (map (map rv) xs)) (369 * T * (D * D * (n * n - 1))).
  Proof.
    destruct pre as ((N1 & N2) & (D1 & D2) & T0 & Un & HF' & U0 & b0).
    destruct (cl_main L S HS b Hb d Hd xs Hne HF HL) as (_ & _ & (Vc & Fc & Ec)).
    pose proof (shift_bound d xs (fun j => rv (nth j (c_v (cl_of (A := A) xs)) nanv)) (17 * u * b * (n - 1)) Hne HF') as Hs.
    repeat split; auto. fold D n in Ec.
    assert (He : Rabs (rS d (fun j => cex (rv (nth j (c_v (cl_of (A := A) xs)) nanv)) (map rv (fcol j xs))) - scatter d (map (map rv) xs)) <=
                 D * (n * (17 * u * b * (n - 1) * (17 * u * b * (n - 1))))).
    { apply Hs. intros j Hj. destruct (near_cl_v L S b d xs j (Hb_mean b Hb) Hne HF ltac:(lia) Hj) as (_ & _ & H). exact H. }
    clear Hs. set (q := rS d _) in *. set (z := rv (c_cp (cl_of (A := A) xs))) in *. set (w := scatter _ _) in *.
    replace (z - w) with ((z - q) + (q - w)) by ring. eapply Rle_trans; [apply Rabs_triang|].
    replace (92 * (u * (2 * b) * (2 * b)) * (D * D) * (n * n - 1)) with (368 * (T * (D * D * (n * n - 1)))) in Ec by (unfold T; ring).
    replace (D * (n * (17 * u * b * (n - 1) * (17 * u * b * (n - 1))))) with (T * (D * (289 * (u * n) * ((n - 1) * (n - 1))))) in He by (unfold T; ring).
    assert (K : T * (D * (289 * (u * n) * ((n - 1) * (n - 1)))) <= T * (D * D * (n * n - 1))).
    { apply Rmult_le_compat_l; [lra|]. replace (D * D * (n * n - 1)) with (D * (D * (n * n - 1))) by ring. apply Rmult_le_compat_l; [lra|].
      apply Rle_trans with (1 * ((n - 1) * (n - 1))); [apply Rmult_le_compat_r; nra|].
      apply Rle_trans with (1 * (n * n - 1)); [nra|]. apply Rmult_le_compat_r; nra. }
    replace (369 * T * (D * D * (n * n - 1))) with (369 * (T * (D * D * (n * n - 1)))) by ring.
    change (Rabs (z - q) <= 368 * (T * (D * D * (n * n - 1)))) in Ec. lra.
  Qed.

  (** one pass over all entries, in any order *)
  Lemma dmul_one (y : f64) : ok_in (2 * b) y -> valid (dmul y (d_of_Z 1)) /\ fin (dmul y (d_of_Z 1)) /\ rv (dmul y (d_of_Z 1)) = rv y.
  Proof.
    intros (V1 & F1 & A1). destruct (of_Z_ok 1) as (V2 & F2 & E2); [lia|].
    assert (Er : rnd (rv y * rv (d_of_Z 1)) = rv y).
    { rewrite E2, Rmult_1_r. unfold rnd. apply round_generic; [typeclasses eauto|]. now apply fmt_rv. }
    destruct (dmul_ok y (d_of_Z 1)) as (V3 & F3 & E3); auto.
    - unfold no_overflow. rewrite Er. eapply Rle_lt_trans; [exact A1|]. pose proof (HB b Hb) as [_ H].
      eapply Rle_lt_trans; [exact H|]. apply bpow_lt. lia.
    - repeat split; auto. congruence.
  Qed.
  Lemma near_sub2 (x y : f64) : ok_in (2 * b) x -> ok_in (2 * b) y ->
    near (dsub x (dmul y (d_of_Z 1))) (rv x - rv y) (3 * (u * (2 * b))) /\ Rabs (rv x - rv y) <= 2 * (2 * b).
  Proof.
    intros (V1 & F1 & A1) O2. destruct (dmul_one y O2) as (V3 & F3 & E3). destruct O2 as (V2 & F2 & A2).
    destruct (B_facts (2 * b) (HB b Hb)) as (B0 & BL & T0' & Te & Tt & TB & UT). pose proof u_small as [U1 U2].
    assert (M : Rabs (rv x - rv y) <= 2 * (2 * b)).
    { unfold Rminus. eapply Rle_trans; [apply Rabs_triang|]. rewrite Rabs_Ropp. lra. }
    split; auto. rewrite <- E3 in *. eapply near_weaken.
    - apply near_sub; [now apply near_exact|now apply near_exact|lra].
    - assert (u * (Rabs (rv x - rv (dmul y (d_of_Z 1))) + (0 + 0)) <= u * (2 * (2 * b))) by (apply Rmult_le_compat_l; lra).
      replace (u * (2 * (2 * b))) with (2 * (u * (2 * b))) in H by ring. lra.
  Qed.

  Lemma near_sqs (w : list f64) (al : list R) z : let B := 2 * b in let t := u * B in
    Forall2 (fun y a => near y a (3 * t) /\ Rabs a <= 2 * B) w al -> summed (map (fun y => dmul y y) w) z -> (Z.of_nat (length w) <= 2 ^ 48)%Z ->
    near z (rsum (map (fun a => a * a) al)) (27 * (t * B) * (INR (length w) * INR (length w))).
  Proof.
    intros B t H2 Hz Hl. destruct (B_facts B (HB b Hb)) as (B0 & BL & Bt & Be & Btop & BtB & But). fold t in Bt, Be, BtB, But.
    pose proof u_small as [U1 U2]. set (M := length w) in *.
    assert (Lal : length al = M) by (unfold M; clear -H2; induction H2; cbn; congruence).
    assert (Nn : forall j, (j < M)%nat -> near (nth j w nanv) (nth j al 0) (3 * t) /\ Rabs (nth j al 0) <= 2 * B).
    { intros j Hj. clear -H2 Hj. unfold M in Hj. revert j Hj. induction H2 as [|y a w al H HF IH]; intros [|j] Hj; cbn in *; try lia; auto.
      apply IH. lia. }
    replace (map (fun y => dmul y y) w) with (dprods w w) in Hz.
    2:{ clear. induction w as [|y w IH]; cbn; [reflexivity|]. now rewrite IH. }
    assert (T0' : 0 < t * B) by (apply Rmult_lt_0_compat; auto).
    assert (Q : t * t <= / 1000000 * (t * B)).
    { replace (/ 1000000 * (t * B)) with (t * (/ 1000000 * B)) by ring. apply Rmult_le_compat_l; lra. }
    assert (TU : u * (t * B) <= / 1000000 * (t * B)) by (apply Rmult_le_compat_r; lra).
    destruct (HB b Hb) as [HB1 HB2]. fold B in HB1, HB2. pose proof lo2_pos as L2.
    assert (BB : 0 < B * B) by nra.
    assert (B1 : bpow radix2 (-800) <= B * B).
    { change (-800)%Z with (-400 + -400)%Z. rewrite bpow_plus. unfold lo2 in *. apply Rmult_le_compat; lra. }
    assert (B2 : B * B <= bpow radix2 800).
    { change 800%Z with (400 + 400)%Z. rewrite bpow_plus. unfold hi2 in *. apply Rmult_le_compat; lra. }
    assert (WW : eta <= u * (t * B)).
    { replace (u * (t * B)) with (u * u * (B * B)) by (unfold t; ring). apply Rle_trans with (u * u * bpow radix2 (-800)).
      - unfold eta, u. rewrite <- !bpow_plus. apply bpow_le. lia.
      - apply Rmult_le_compat_l; [nra|auto]. }
    assert (SB : low <= 5 * (B * B)).
    { apply Rle_trans with (bpow radix2 (-800)); [apply bpow_le; lia|lra]. }
    assert (TT : t * B <= / 1000000 * (B * B)).
    { unfold t. rewrite Rmult_assoc. apply Rmult_le_compat_r; lra. }
    assert (TH : 5 * (B * B) <= high).
    { apply Rle_trans with (8 * bpow radix2 800); [lra|]. change 8 with (bpow radix2 3). rewrite <- bpow_plus. apply bpow_le. lia. }
    pose proof (pos_INR M) as M0.
    assert (MM : INR M <= INR M * INR M).
    { destruct M as [|q]; [cbn; lra|]. rewrite S_INR. pose proof (pos_INR q). nra. }
    replace (rsum (map (fun a => a * a) al)) with (rS M (fun j => nth j al 0 * nth j al 0)).
    2:{ unfold rS. f_equal. rewrite <- Lal. rewrite <- map_map with (f := fun j => nth j al 0) (g := fun a => a * a). f_equal.
        clear. induction al as [|a al IH]; cbn; [reflexivity|]. rewrite <- seq_shift, map_map. now rewrite IH. }
    eapply near_weaken.
    - apply (near_dot M w w (fun j => nth j al 0) (fun j => nth j al 0) (2 * B) (2 * B) (3 * t) (3 * t) (5 * (B * B)) (17 * (t * B)) z eq_refl eq_refl Hz Hl); auto; try lra.
      replace (2 * B * (3 * t) + 2 * B * (3 * t) + 3 * t * (3 * t)) with (12 * (t * B) + 9 * (t * t)) by ring.
      set (q := 12 * (t * B) + 9 * (t * t)) in *. assert (q <= 13 * (t * B)) by (unfold q; lra).
      assert (u * (2 * B * (2 * B) + q) <= u * (4 * (B * B)) + u * (13 * (t * B))).
      { rewrite <- Rmult_plus_distr_l. apply Rmult_le_compat_l; lra. }
      replace (u * (4 * (B * B))) with (4 * (t * B)) in H0 by (unfold t; ring).
      assert (q <= 12 * (t * B) + 9 * (/ 1000000 * (t * B))) by (unfold q; lra). lra.
    - replace (2 * u * (5 * (B * B)) * (INR M * INR M)) with (10 * ((t * B) * (INR M * INR M))) by (unfold t; ring).
      assert (INR M * (17 * (t * B)) <= 17 * ((t * B) * (INR M * INR M))) by nra. lra.
  Qed.

  (** the sum of the squared distances from a point [V] that is near the mean *)
  Definition rows_from (V : list f64) : f64 :=
    s_sum S (map (fun y => dmul y y) (concat (map (fun r : list f64 => map2 dsub r (map (fun y => dmul y (d_of_Z 1)) V)) xs))).
  Lemma near_rows_from (V : list f64) e : length V = d ->
    (forall j, (j < d)%nat -> near (nth j V nanv) (ravg (fcol j xs)) e /\ ok_in (2 * b) (nth j V nanv)) ->
    near (rows_from V) (scatter d (map (map rv) xs)) (108 * T * ((D * n) * (D * n)) + D * (n * (e * e))).
  Proof.
    intros LV NV. destruct pre as ((N1 & N2) & (D1 & D2) & T0 & Un & HF' & U0 & b0). destruct HS as [Hsum _].
    set (row := fun r : list f64 => map2 dsub r (map (fun y => dmul y (d_of_Z 1)) V)).
    set (ex := fun r : list f64 => map (fun p => fst p - snd p) (combine (map rv r) (map rv V))).
    assert (Hrow : forall r, In r xs -> Forall2 (fun y a => near y a (3 * (u * (2 * b))) /\ Rabs a <= 2 * (2 * b)) (row r) (ex r) /\ length (row r) = d).
    { intros r Hr. rewrite Forall_forall in HF. destruct (HF r Hr) as [H1 H2]. split.
      2:{ unfold row. rewrite length_map2, map_length. change (F A) with f64 in *. lia. }
      assert (OVs : Forall (ok_in (2 * b)) V).
      { apply Forall_forall. intros y Hy. destruct (In_nth V y nanv Hy) as (j & Hj & <-). apply NV. rewrite <- LV. exact Hj. }
      assert (Hl : length r = length V) by (rewrite H1; symmetry; exact LV).
      unfold row, ex. clear -L S d xs H2 OVs Hl Hb b0. revert Hl. generalize dependent r. induction OVs as [|v V' Hv _ IH]; intros [|y r] Hy Hl; try discriminate; cbn; constructor.
      - inversion Hy as [|? ? (Y1 & Y2 & Y3) Hys]; subst. apply near_sub2; auto. repeat split; auto. lra.
      - apply IH; [now inversion Hy|]. cbn in Hl. now injection Hl. }
    unfold rows_from. change (map (fun r : list f64 => map2 dsub r (map (fun y => dmul y (d_of_Z 1)) V)) xs) with (map row xs).
    set (w := concat (map row xs)).
    assert (Hw : Forall2 (fun y a => near y a (3 * (u * (2 * b))) /\ Rabs a <= 2 * (2 * b)) w (concat (map ex xs)) /\ length w = (length xs * d)%nat).
    { unfold w. clear -Hrow. clearbody row ex. clear V. induction xs as [|r l IH]; cbn [map concat length]; [split; [constructor|reflexivity]|].
      destruct IH as [I1 I2]; [intros r' Hr'; apply Hrow; now right|]. destruct (Hrow r ltac:(now left)) as [R1 R2].
      split; [now apply Forall2_app|]. rewrite app_length, R2, I2. lia. }
    destruct Hw as [W1 W2].
    assert (Hlen : (Z.of_nat (length w) <= 2 ^ 48)%Z).
    { rewrite W2, Nat2Z.inj_mul. change (2 ^ 48)%Z with (2 ^ 28 * 2 ^ 20)%Z. apply Z.mul_le_mono_nonneg; lia. }
    pose proof (near_sqs w _ _ W1 (Hsum _) Hlen) as (V1 & F1 & E1).
    assert (Es : rsum (map (fun a => a * a) (concat (map ex xs))) = rS d (fun j => cex (rv (nth j V nanv)) (map rv (fcol j xs)))).
    { rewrite (rS_ext d _ (fun j => cex (nth j (map rv V) 0) (map rv (fcol j xs)))).
      2:{ intros j Hj. rewrite <- (map_nth rv). reflexivity. }
      rewrite <- scatter_from; auto; [|now rewrite map_length].
      clear -ex. induction xs as [|r l IH]; [reflexivity|]. cbn [map concat]. rewrite map_app, rsum_app, IH. cbn [rsum fold_right]. unfold rsum. f_equal.
      unfold dist2, ex. rewrite map_map. reflexivity. }
    rewrite Es in E1.
    pose proof (shift_bound d xs (fun j => rv (nth j V nanv)) e Hne HF' (fun j Hj => proj2 (proj2 (proj1 (NV j Hj))))) as Hs.
    repeat split; auto. rewrite W2, mult_INR in E1. change (INR (length xs)) with n in E1, Hs. fold D in E1, Hs.
    set (z := rv _) in *. set (q := rS _ _) in *. set (c := scatter _ _) in *.
    replace (z - c) with ((z - q) + (q - c)) by ring. eapply Rle_trans; [apply Rabs_triang|].
    replace (27 * (u * (2 * b) * (2 * b)) * (n * D * (n * D))) with (108 * (T * (D * n * (D * n)))) in E1 by (unfold T; ring).
    replace (108 * T * (D * n * (D * n))) with (108 * (T * (D * n * (D * n)))) by ring. lra.
  Qed.
  Theorem near_rows_cp : near (cp_rows d xs) (scatter d (map (map rv) xs)) (109 * T * ((D * n) * (D * n))).
  Proof.
    destruct pre as ((N1 & N2) & (D1 & D2) & T0 & Un & HF' & U0 & b0). destruct HS as [Hsum _].
    set (V := mean_rows (A := A) d xs).
    assert (LV : length V = d) by (unfold V, mean_rows, smean0; now rewrite map_length, seq_length).
    assert (NV : forall j, (j < d)%nat -> near (nth j V nanv) (ravg (fcol j xs)) (2 * u * b * n) /\ ok_in (2 * b) (nth j V nanv)).
    { intros j Hj. assert (El : length (fcol j xs) = length xs) by apply fcol_length.
      assert (Hcol : Forall (ok_in b) (fcol j xs)).
      { unfold fcol. apply Forall_map. eapply Forall_impl; [|exact HF]. intros r [H1 H2].
        rewrite Forall_forall in H2. apply H2, nth_In. rewrite <- H1 in Hj. exact Hj. }
      assert (Hcn : fcol j xs <> []) by (unfold fcol; destruct xs; [congruence|discriminate]).
      pose proof (near_mean b (fcol j xs) (s_sum S (fcol j xs)) (Hb_mean b Hb) (Hsum _) Hcn Hcol ltac:(rewrite El; change (F A) with f64 in *; lia)) as H.
      assert (E0 : nth j V nanv = ddiv (s_sum S (fcol j xs)) (d_of_Z (Z.of_nat (length xs)))) by (apply (mean_rows_nth L S d xs j); auto).
      rewrite El in H. rewrite E0. split; [exact H|].
      pose proof (near_abs _ _ _ H) as Hab. pose proof (ravg_abs _ b Hcn Hcol) as Ha. destruct H as (V1 & F1 & _). split; [exact V1|]. split; [exact F1|].
      eapply Rle_trans; [exact Hab|]. match goal with |- context [INR ?q] => change (INR q) with n end. replace (2 * u * b * n) with (2 * b * (u * n)) by ring.
      assert (2 * b * (u * n) <= 2 * b * / 500000000) by (apply Rmult_le_compat_l; lra). lra. }
    pose proof (near_rows_from V (2 * u * b * n) LV NV) as H. eapply near_weaken; [exact H|].
    replace (D * (n * (2 * u * b * n * (2 * u * b * n)))) with (T * (D * n * (4 * (u * n) * n))) by (unfold T; ring).
    assert (K : T * (D * n * (4 * (u * n) * n)) <= T * (D * n * (D * n))).
    { apply Rmult_le_compat_l; [lra|]. apply Rmult_le_compat_l; [nra|]. apply Rmult_le_compat_r; lra. }
    replace (109 * T * (D * n * (D * n))) with (109 * (T * (D * n * (D * n)))) by ring.
    replace (108 * T * (D * n * (D * n))) with (108 * (T * (D * n * (D * n)))) by ring. lra.
  Qed.
End Cl.
