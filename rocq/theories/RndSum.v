(** * Rounding error of sums and means taken in any order *)
From Coq Require Import ZArith Reals Lia Lra SpecFloat Psatz List Permutation.
From Flocq Require Import Core Relative.
From Verif Require Import Num F64 F64o Rnd RndErr RndMean.
Import ListNotations.
Local Open Scope R_scope.

Lemma rsum_perm l l' : Permutation l l' -> rsum l = rsum l'.
Proof. induction 1; cbn [rsum fold_right] in *; unfold rsum in *; lra. Qed.
Lemma INR_le_48 n : (Z.of_nat n <= 2 ^ 48)%Z -> u * INR n <= / 32.
Proof.
  intros H. rewrite INR_IZR_INZ. apply IZR_le in H. rewrite u_val. change (IZR (2 ^ 48)) with 281474976710656 in H. lra.
Qed.
Lemma high_48 b n : low <= b <= high -> (Z.of_nat n <= 2 ^ 48)%Z -> 8 * (INR n * b) <= top.
Proof.
  intros [H1 H2] Hn. pose proof low_pos. unfold top, high in *. apply IZR_le in Hn. rewrite <- INR_IZR_INZ in Hn.
  apply Rle_trans with (bpow radix2 3 * (bpow radix2 48 * bpow radix2 900)).
  - apply Rmult_le_compat; [lra| |cbn; lra|].
    + apply Rmult_le_pos; [apply pos_INR|lra].
    + apply Rmult_le_compat; try lra; [apply pos_INR|]. exact Hn.
  - rewrite <- !bpow_plus. apply bpow_le. lia.
Qed.

(** terms of absolute value at most [b] *)
Lemma near_summed b l z : low <= b <= high -> summed l z -> l <> [] -> Forall (ok_in b) l ->
  (Z.of_nat (length l) <= 2 ^ 48)%Z ->
  near z (rsum (map rv l)) (2 * u * b * (INR (length l) * (INR (length l) - 1))).
Proof.
  intros Hb Hs. induction Hs as [|x|p q l x y Hp Hq Sp IHp Sq IHq Pl]; intros Hn HF HL; [congruence| |].
  - inversion HF as [|? ? (V & Fi & _) _]; subst. apply near_weaken with 0.
    + replace (rsum (map rv [x])) with (rv x) by (cbn; ring). now apply near_exact.
    + cbn [length INR]. lra.
  - assert (EL : length l = (length p + length q)%nat) by (rewrite (Permutation_length Pl); apply app_length).
    assert (HF' : Forall (ok_in b) (p ++ q)) by (now rewrite <- Pl). apply Forall_app in HF' as [Fp Fq].
    rewrite EL in HL.
    assert (Np : near x (rsum (map rv p)) (2 * u * b * (INR (length p) * (INR (length p) - 1)))) by (apply IHp; auto; lia).
    assert (Nq : near y (rsum (map rv q)) (2 * u * b * (INR (length q) * (INR (length q) - 1)))) by (apply IHq; auto; lia).
    assert (ES : rsum (map rv l) = rsum (map rv p) + rsum (map rv q)).
    { rewrite (rsum_perm _ _ (Permutation_map rv Pl)), map_app. apply rsum_app. }
    assert (Ap : Rabs (rsum (map rv p)) <= INR (length p) * b).
    { rewrite <- (map_length rv p). apply rsum_abs, Forall_map. eapply Forall_impl; [|exact Fp]. intros ? (_ & _ & ?); auto. }
    assert (Aq : Rabs (rsum (map rv q)) <= INR (length q) * b).
    { rewrite <- (map_length rv q). apply rsum_abs, Forall_map. eapply Forall_impl; [|exact Fq]. intros ? (_ & _ & ?); auto. }
    rewrite ES, EL, plus_INR.
    assert (P1 : 1 <= INR (length p)) by (apply (le_INR 1); destruct p; [congruence|cbn; lia]).
    assert (Q1 : 1 <= INR (length q)) by (apply (le_INR 1); destruct q; [congruence|cbn; lia]).
    pose proof (INR_le_48 _ HL) as H48. pose proof (high_48 b _ Hb HL) as HT. rewrite plus_INR in H48, HT.
    set (m := INR (length p)) in *. set (k := INR (length q)) in *. clearbody m k.
    destruct Hb as [Hb1 Hb2]. pose proof low_pos as HLo. pose proof u_small as [Hu1 Hu2].
    destruct (eta_B b Hb1) as [_ He].
    set (t := u * b) in *. assert (Ht : 0 < t) by (apply Rmult_lt_0_compat; lra).
    replace (2 * u * b) with (2 * t) in * by (unfold t; ring).
    replace (u * u * b) with (u * t) in He by (unfold t; ring).
    assert (Hut : u * t <= / 1000000 * t) by (apply Rmult_le_compat_r; lra).
    (* the error so far is small compared with the bound on the sum *)
    assert (E1 : 2 * t * (m * (m - 1)) + 2 * t * (k * (k - 1)) <= / 16 * ((m + k) * b)).
    { apply Rle_trans with (2 * t * ((m + k) * (m + k))).
      - rewrite <- Rmult_plus_distr_l. apply Rmult_le_compat_l; [lra|]. nra.
      - replace (2 * t * ((m + k) * (m + k))) with (2 * (u * (m + k)) * ((m + k) * b)) by (unfold t; ring).
        apply Rmult_le_compat_r; [apply Rmult_le_pos; lra|lra]. }
    assert (Z1 : 0 <= 2 * t * (m * (m - 1))) by (apply Rmult_le_pos; [lra|apply Rmult_le_pos; lra]).
    assert (Z2 : 0 <= 2 * t * (k * (k - 1))) by (apply Rmult_le_pos; [lra|apply Rmult_le_pos; lra]).
    assert (ZS : 0 <= (m + k) * b) by (apply Rmult_le_pos; lra).
    eapply near_weaken.
    + apply near_add; [exact Np|exact Nq|]. lra.
    + pose proof (Rabs_triang (rsum (map rv p)) (rsum (map rv q))) as HTr.
      assert (E2 : u * (Rabs (rsum (map rv p) + rsum (map rv q)) + (2 * t * (m * (m - 1)) + 2 * t * (k * (k - 1))))
                   <= u * (2 * ((m + k) * b))) by (apply Rmult_le_compat_l; lra).
      replace (u * (2 * ((m + k) * b))) with (2 * (t * (m + k))) in E2 by (unfold t; ring).
      assert (E3 : t * (m + k) <= t * (2 * (m * k) - (m - 1) * (k - 1))) by (apply Rmult_le_compat_l; nra).
      replace (2 * t * ((m + k) * (m + k - 1))) with
        (2 * t * (m * (m - 1)) + 2 * t * (k * (k - 1)) + 4 * (t * (m * k))) by ring.
      (* 2 t (m + k) + eta <= 4 t m k : true unless m = k = 1, where a sharper bound is needed *)
      assert (E4 : u * (Rabs (rsum (map rv p) + rsum (map rv q)) + (2 * t * (m * (m - 1)) + 2 * t * (k * (k - 1))))
                   <= u * (17 / 16 * ((m + k) * b))) by (apply Rmult_le_compat_l; lra).
      replace (u * (17 / 16 * ((m + k) * b))) with (17 / 16 * (t * (m + k))) in E4 by (unfold t; ring).
      assert (E5 : t * (m + k) <= t * (2 * (m * k))) by (apply Rmult_le_compat_l; nra).
      assert (E6 : t * 1 <= t * (m * k)) by (apply Rmult_le_compat_l; nra). lra.
Qed.

(** the mean: the sum divided by the number of terms *)
Lemma near_mean b l z : low <= b <= high -> summed l z -> l <> [] -> Forall (ok_in b) l ->
  (Z.of_nat (length l) <= 2 ^ 48)%Z ->
  near (ddiv z (d_of_Z (Z.of_nat (length l)))) (ravg l) (2 * u * b * INR (length l)).
Proof.
  intros Hb Hs Hn HF HL. pose proof (near_summed b l z Hb Hs Hn HF HL) as N.
  pose proof (ravg_abs l b Hn HF) as HA.
  assert (P1 : 1 <= INR (length l)) by (apply (le_INR 1); destruct l; [congruence|cbn; lia]).
  pose proof (INR_le_48 _ HL) as H48. pose proof (high_48 b _ Hb HL) as HT.
  assert (As : Rabs (rsum (map rv l)) <= INR (length l) * b).
  { rewrite <- (map_length rv l). apply rsum_abs, Forall_map. eapply Forall_impl; [|exact HF]. intros ? (_ & _ & ?); auto. }
  assert (EI : IZR (Z.of_nat (length l)) = INR (length l)) by (symmetry; apply INR_IZR_INZ).
  assert (Hl : (0 < Z.of_nat (length l))%Z) by (destruct l; [congruence|cbn; lia]).
  pose proof (near_div_Z z (rsum (map rv l)) _ (Z.of_nat (length l)) N) as D. rewrite EI in D. unfold ravg in *.
  set (m := INR (length l)) in *. clearbody m.
  destruct Hb as [Hb1 Hb2]. pose proof low_pos as HLo. pose proof u_small as [Hu1 Hu2].
  destruct (eta_B b Hb1) as [_ He].
  set (t := u * b) in *. assert (Ht : 0 < t) by (apply Rmult_lt_0_compat; lra).
  replace (2 * u * b) with (2 * t) in * by (unfold t; ring).
  replace (u * u * b) with (u * t) in He by (unfold t; ring).
  assert (Hut : u * t <= / 1000000 * t) by (apply Rmult_le_compat_r; lra).
  assert (Eq : 2 * t * (m * (m - 1)) / m = 2 * t * (m - 1)) by (field; lra).
  assert (E1 : 2 * t * (m - 1) <= / 16 * b).
  { apply Rle_trans with (2 * (u * m) * b); [unfold t; nra|]. apply Rmult_le_compat_r; lra. }
  assert (E2 : 2 * t * (m * (m - 1)) <= / 16 * (m * b)).
  { replace (2 * t * (m * (m - 1))) with (m * (2 * t * (m - 1))) by ring.
    replace (/ 16 * (m * b)) with (m * (/ 16 * b)) by ring. apply Rmult_le_compat_l; lra. }
  eapply near_weaken.
  - apply D; [lia|]. assert (0 <= m * b) by (apply Rmult_le_pos; lra). lra.
  - rewrite Eq.
    assert (E3 : u * (Rabs (rsum (map rv l) / m) + 2 * t * (m - 1)) <= u * (17 / 16 * b)) by (apply Rmult_le_compat_l; lra).
    replace (u * (17 / 16 * b)) with (17 / 16 * t) in E3 by (unfold t; ring). lra.
Qed.
