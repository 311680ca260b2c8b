(** * Rounding error of means of float32 data, one coordinate *)
From Coq Require Import ZArith Reals Lia Lra SpecFloat Psatz List Permutation.
From Flocq Require Import Core Relative.
From Verif Require Import Num F64 F64o F32d Rnd RndErr RndMean RndSum Rnd32.
Import ListNotations.
Local Open Scope R_scope.

Definition low32 : R := bpow radix2 (-80).
Definition high32 : R := bpow radix2 90.
Lemma low32_pos : 0 < low32. Proof. apply bpow_gt_0. Qed.
Lemma u32_small : 0 < u32 <= / 1000000.
Proof. rewrite u32_val. lra. Qed.
Lemma u_u32 : u <= / 1000000 * u32.
Proof. rewrite u32_val, u_val. lra. Qed.
Lemma low_low32 : low <= low32.
Proof. apply bpow_le. lia. Qed.
Lemma high32_high : high32 <= high.
Proof. apply bpow_le. lia. Qed.
Lemma range32 b : low32 <= b <= high32 -> low <= b <= high.
Proof. pose proof low_low32. pose proof high32_high. lra. Qed.
Lemma high32_top : 1000 * high32 <= top32.
Proof.
  unfold top32, high32. change 120%Z with (30 + 90)%Z. rewrite bpow_plus. apply Rmult_le_compat_r; [apply bpow_ge_0|].
  apply Rle_trans with (bpow radix2 10); [cbn; lra|apply bpow_le; lia].
Qed.
Lemma one_top32 : 1000 <= top32.
Proof. apply Rle_trans with (bpow radix2 10); [cbn; lra|]. apply bpow_le. lia. Qed.
(** 2^-150 against u b *)
Lemma eta32_B b : low32 <= b -> eta32 <= u * b /\ eta32 <= / 1000000 * (u32 * b).
Proof.
  intros H. pose proof u_u32. pose proof low32_pos. pose proof u_small.
  assert (eta32 <= u * low32) by (unfold eta32, u, low32; rewrite <- bpow_plus; apply bpow_le; lia).
  assert (u * low32 <= u * b) by (apply Rmult_le_compat_l; lra).
  assert (u * b <= / 1000000 * u32 * b) by (apply Rmult_le_compat_r; lra). lra.
Qed.
Lemma eta32_w n : (2 <= n <= 2 ^ 53)%Z -> eta32 <= / 1000000 * (u32 * / IZR n).
Proof.
  intros Hn. pose proof (inv_range n Hn) as [H1 H2]. pose proof u_u32. pose proof u_small.
  apply Rle_trans with (u * u).
  - unfold eta32, u. rewrite <- bpow_plus. apply bpow_le. lia.
  - replace (/ 1000000 * (u32 * / IZR n)) with (/ 1000000 * u32 * / IZR n) by ring. apply Rmult_le_compat; lra.
Qed.

(** 1/n times a float32 *)
Lemma near_w32 n x b : (2 <= n <= 2 ^ 53)%Z -> low32 <= b <= high32 ->
  valid x -> fin x -> fmt32 (rv x) -> Rabs (rv x) <= b ->
  near32 (mul32 (wgt n) x) (/ IZR n * rv x) (3 * u32 * (/ IZR n * b) + u * b).
Proof.
  intros Hn [Hb1 Hb2] Vx Fx Hf Hx. pose proof (inv_range n Hn) as [H1 H2]. pose proof u_small as [Hu1 Hu2].
  pose proof u32_small as [Hv1 Hv2]. pose proof u_u32 as Huu. pose proof high32_top as HT. pose proof low32_pos as HL.
  pose proof (eta32_w n Hn) as Hew. destruct (eta32_B b Hb1) as [Heb _]. pose proof one_top32 as H1T.
  pose proof (near_wgt n Hn) as Hc. set (w := / IZR n) in *.
  assert (Ew : Rabs w = w) by (apply Rabs_pos_eq; lra). pose proof (Rabs_pos (rv x)) as Hx0.
  assert (Wu : u * w <= / 1000000 * (u32 * w)).
  { replace (/ 1000000 * (u32 * w)) with (/ 1000000 * u32 * w) by ring. apply Rmult_le_compat_r; lra. }
  set (q := u32 * w) in *. assert (Hq : 0 < q) by (apply Rmult_lt_0_compat; lra).
  assert (Hqw : q <= / 1000000 * w) by (apply Rmult_le_compat_r; lra).
  set (ea' := 2 * u * w + u32 * (Rabs w + 2 * u * w) + eta32).
  assert (Ea : ea' <= 101 / 100 * q).
  { unfold ea'. rewrite Ew.
    assert (u32 * (w + 2 * u * w) <= 1000001 / 1000000 * q).
    { replace (u32 * (w + 2 * u * w)) with (q + 2 * u32 * (u * w)) by (unfold q; ring).
      assert (u32 * (u * w) <= / 1000000 * (/ 1000000 * q)) by (apply Rmult_le_compat; nra). lra. }
    lra. }
  assert (Ea0 : 0 <= ea').
  { unfold ea'. rewrite Ew. assert (0 <= u * w) by nra. assert (0 <= eta32) by apply bpow_ge_0. nra. }
  eapply near32_weaken.
  - apply near32_mul; [exact Hc|exact (near32_exact x Vx Fx Hf)|..]; rewrite ?Ew.
    + nra.
    + lra.
    + replace (2 * u * w + u32 * (w + 2 * u * w) + eta32) with ea' by (unfold ea'; now rewrite Ew).
      apply Rle_trans with (2 * (b + b)); [|lra]. apply Rmult_le_compat; lra.
  - cbv zeta. fold ea'. rewrite Rabs_mult, Ew.
    set (e0 := w * 0 + Rabs (rv x) * ea' + ea' * 0).
    assert (Ee : e0 = Rabs (rv x) * ea') by (unfold e0; ring).
    assert (E0 : e0 <= 101 / 100 * (u32 * (w * b))).
    { rewrite Ee. replace (101 / 100 * (u32 * (w * b))) with (b * (101 / 100 * q)) by (unfold q; ring).
      apply Rmult_le_compat; lra. }
    assert (Hwb : 0 < w * b) by (apply Rmult_lt_0_compat; lra).
    assert (E1 : w * Rabs (rv x) <= w * b) by (apply Rmult_le_compat_l; lra).
    assert (E2 : u32 * (w * Rabs (rv x) + e0) <= u32 * (101 / 100 * (w * b))).
    { apply Rmult_le_compat_l; [lra|]. assert (u32 * (w * b) <= / 1000000 * (w * b)) by (apply Rmult_le_compat_r; lra). lra. }
    assert (0 < u32 * (w * b)) by (apply Rmult_lt_0_compat; lra).
    replace (3 * u32 * (w * b)) with (3 * (u32 * (w * b))) by ring.
    replace (u32 * (101 / 100 * (w * b))) with (101 / 100 * (u32 * (w * b))) in E2 by ring. lra.
Qed.

(** ** A centroid: float64 running mean, the product with the sample in float32 *)
Definition mean_step32 (n : Z) (v x : f64) : f64 := dadd (dmul (cwgt n) v) (mul32 (wgt n) x).
Definition ok32 (b : R) (x : f64) : Prop := valid x /\ fin x /\ fmt32 (rv x) /\ Rabs (rv x) <= b.
Lemma ok32_in b x : ok32 b x -> ok_in b x.
Proof. intros (H1 & H2 & _ & H3). repeat split; auto. Qed.
Lemma near_mean_step32 n v x m e b : (2 <= n <= 2 ^ 53)%Z -> low32 <= b <= high32 ->
  near v m e -> Rabs m <= b -> e <= b -> ok32 b x ->
  near (mean_step32 n v x) ((1 - / IZR n) * m + / IZR n * rv x)
    ((1 - / IZR n) * e + / IZR n * (3 * u32 * b) + 17 * u * b).
Proof.
  intros Hn Hb Hv Hm He (Vx & Fx & Hf & Hx). pose proof (near_w32 n x b Hn Hb Vx Fx Hf Hx) as [Q _].
  destruct (range32 b Hb) as [Hb1 Hb2]. destruct Hb as [Hc1 Hc2].
  pose proof (inv_range n Hn) as [H1 H2]. pose proof u_small as [Hu1 Hu2]. pose proof high_top as HT. pose proof low_pos as HL.
  pose proof u32_small as [Hv1 Hv2].
  pose proof (near_e _ _ _ Hv) as He0. set (w := / IZR n) in *.
  destruct (eta_B b Hb1) as [_ Het]. assert (Hb : 0 < b) by lra.
  set (t := u * b) in *. assert (Ht : 0 < t) by (apply Rmult_lt_0_compat; lra).
  assert (Htb : t <= / 1000000 * b) by (apply Rmult_le_compat_r; lra).
  assert (Hut : u * t <= / 1000000 * t) by (apply Rmult_le_compat_r; lra).
  replace (u * u * b) with (u * t) in Het by (unfold t; ring).
  assert (P : near (dmul (cwgt n) v) ((1 - w) * m) ((1 - w) * e + 10 * t)).
  { pose proof (near_cwgt n Hn) as Hc. fold w in Hc.
    assert (B1 : u * e <= t) by (apply Rmult_le_compat_l; lra).
    assert (B2 : u * Rabs m <= t) by (apply Rmult_le_compat_l; lra).
    assert (B3 : 0 <= u * e) by (apply Rmult_le_pos; lra).
    assert (B4 : 0 <= u * Rabs m) by (apply Rmult_le_pos; [lra|apply Rabs_pos]).
    assert (Ea : Rabs (1 - w) = 1 - w) by (apply Rabs_pos_eq; lra).
    assert (B5 : (1 - w) * e <= 1 * e) by (apply Rmult_le_compat_r; lra).
    assert (B6 : (1 - w) * Rabs m <= 1 * Rabs m) by (apply Rmult_le_compat_r; [apply Rabs_pos|lra]).
    assert (B7 : 0 <= (1 - w) * e) by (apply Rmult_le_pos; lra).
    assert (B8 : 0 <= (1 - w) * Rabs m) by (apply Rmult_le_pos; [lra|apply Rabs_pos]).
    eapply near_weaken.
    - apply near_mul; [exact Hc|exact Hv|]. rewrite Ea.
      apply Rle_trans with (2 * (b + b)); [|lra].
      pose proof (Rabs_pos m). apply Rmult_le_compat; lra.
    - rewrite Rabs_mult, Ea.
      set (e0 := (1 - w) * e + Rabs m * (3 * u) + 3 * u * e).
      assert (E0 : e0 <= (1 - w) * e + 6 * t) by (unfold e0; lra).
      assert (E1 : u * ((1 - w) * Rabs m + e0) <= u * (2 * b + 6 * t)) by (apply Rmult_le_compat_l; lra).
      replace (u * (2 * b + 6 * t)) with (2 * t + 6 * (u * t)) in E1 by (unfold t; ring). lra. }
  assert (B5 : (1 - w) * e <= 1 * e) by (apply Rmult_le_compat_r; lra).
  assert (B7 : 0 <= (1 - w) * e) by (apply Rmult_le_pos; lra).
  assert (Hs : Rabs ((1 - w) * m) + Rabs (w * rv x) <= b).
  { rewrite !Rabs_mult, (Rabs_pos_eq w), (Rabs_pos_eq (1 - w)) by lra.
    assert ((1 - w) * Rabs m <= (1 - w) * b) by (apply Rmult_le_compat_l; lra).
    assert (w * Rabs (rv x) <= w * b) by (apply Rmult_le_compat_l; lra). lra. }
  set (q := 3 * u32 * (w * b)) in *. replace (w * (3 * u32 * b)) with q by (unfold q; ring).
  assert (Hq : 0 <= q <= / 1000 * b).
  { unfold q. assert (0 <= w * b <= / 2 * b) by (split; [apply Rmult_le_pos|apply Rmult_le_compat_r]; lra).
    split; [apply Rmult_le_pos; lra|]. apply Rle_trans with (3 * / 1000000 * (/ 2 * b)); [apply Rmult_le_compat; lra|lra]. }
  eapply near_weaken.
  - unfold mean_step32. apply near_add; [exact P|exact Q|]. lra.
  - assert (Hs' : Rabs ((1 - w) * m + w * rv x) <= b) by (eapply Rle_trans; [apply Rabs_triang|lra]).
    assert (E1 : u * (Rabs ((1 - w) * m + w * rv x) + ((1 - w) * e + 10 * t + (q + t))) <= u * (3 * b)).
    { apply Rmult_le_compat_l; lra. }
    replace (u * (3 * b)) with (3 * t) in E1 by (unfold t; ring).
    replace (17 * u * b) with (17 * t) by (unfold t; ring). lra.
Qed.

Definition fold32 (step : Z -> f64 -> f64 -> f64) (xs : list f64) : Z * f64 :=
  match xs with
  | [] => (0%Z, S754_nan)
  | x :: xs' => fold_left (fun nv y => (fst nv + 1, step (fst nv + 1) (snd nv) y)%Z) xs' (1%Z, x)
  end.
Lemma fold32_snoc step xs x : xs <> [] ->
  fold32 step (xs ++ [x]) = (fst (fold32 step xs) + 1, step (fst (fold32 step xs) + 1) (snd (fold32 step xs)) x)%Z.
Proof. destruct xs as [|y t]; [congruence|]. intros _. cbn [app fold32]. now rewrite fold_left_app. Qed.
Lemma fold32_n step xs : fst (fold32 step xs) = Z.of_nat (length xs).
Proof.
  induction xs as [|x xs IH] using rev_ind; [reflexivity|]. destruct xs as [|y t]; [reflexivity|].
  rewrite fold32_snoc by discriminate. cbn [fst]. rewrite IH, app_length. cbn [length]. lia.
Qed.
Lemma near_rmean32 b xs : low32 <= b <= high32 -> xs <> [] -> Forall (ok32 b) xs -> (Z.of_nat (length xs) <= 2 ^ 48)%Z ->
  near (snd (fold32 mean_step32 xs)) (ravg xs) (3 * u32 * b + 17 * u * b * (INR (length xs) - 1)).
Proof.
  intros Hb. induction xs as [|x xs IH] using rev_ind; intros Hn HF HL; [congruence|].
  apply Forall_app in HF as [HF Hx]. inversion Hx as [|? ? Ox _]; subst.
  rewrite app_length in *. cbn [length] in *. pose proof u_small as [Hu1 Hu2]. pose proof u32_small as [Hv1 Hv2].
  pose proof low32_pos. assert (Hub : 0 < u * b) by (apply Rmult_lt_0_compat; lra).
  assert (Hvb : 0 < u32 * b) by (apply Rmult_lt_0_compat; lra).
  destruct xs as [|y xs].
  - cbn [app length fold32 fold_left snd].
    replace (INR (0 + 1)) with 1 by reflexivity. apply near_weaken with 0; [|lra].
    replace (ravg [x]) with (rv x) by (unfold ravg; cbn; field). apply near_exact; apply Ox.
  - specialize (IH ltac:(discriminate) HF ltac:(lia)).
    set (xs0 := y :: xs) in *. rewrite fold32_snoc by discriminate. cbn [snd]. rewrite fold32_n.
    assert (Hl : (1 <= length xs0)%nat) by (cbn; lia).
    set (e := 3 * u32 * b + 17 * u * b * (INR (length xs0) - 1)) in *.
    assert (HI : 1 <= INR (length xs0)) by (apply (le_INR 1); auto).
    assert (He : e <= b).
    { assert (17 * u * b * (INR (length xs0) - 1) <= 17 / 32 * b).
      { apply Rle_trans with (17 * u * b * IZR (2 ^ 48)).
        - apply Rmult_le_compat_l; [lra|]. rewrite INR_IZR_INZ. assert (IZR (Z.of_nat (length xs0)) <= IZR (2 ^ 48)) by (apply IZR_le; lia). lra.
        - replace (17 * u * b * IZR (2 ^ 48)) with (17 * (u * IZR (2 ^ 48)) * b) by ring.
          apply Rmult_le_compat_r; [lra|]. rewrite u_val. change (2 ^ 48)%Z with 281474976710656%Z. lra. }
      assert (u32 * b <= / 1000000 * b) by (apply Rmult_le_compat_r; lra). unfold e. lra. }
    pose proof (near_mean_step32 (Z.of_nat (length xs0) + 1) _ x (ravg xs0) e b ltac:(lia) Hb IH
                  (ravg_abs xs0 b ltac:(discriminate) (Forall_impl _ (ok32_in b) HF)) He Ox) as HS.
    rewrite ravg_snoc in HS by discriminate.
    eapply near_weaken; [exact HS|]. rewrite plus_INR. change (INR 1) with 1.
    assert (Hw : 0 < / IZR (Z.of_nat (length xs0) + 1)) by (apply Rinv_0_lt_compat, IZR_lt; lia).
    set (w := / IZR (Z.of_nat (length xs0) + 1)) in *.
    set (g := 17 * u * b * (INR (length xs0) - 1)) in *.
    assert (Hg : 0 <= g) by (unfold g; apply Rmult_le_pos; lra). assert (0 <= w * g) by (apply Rmult_le_pos; lra).
    replace (17 * u * b * (INR (length xs0) + 1 - 1)) with (g + 17 * u * b) by (unfold g; ring).
    unfold e. replace ((1 - w) * (3 * u32 * b + g) + w * (3 * u32 * b)) with (3 * u32 * b + g - w * g) by ring. lra.
Qed.

(** ** The mean of all samples: everything in float32 *)
Definition mu_step32 (n : Z) (v x : f64) : f64 := add32 (mul32 (cwgt n) v) (mul32 (wgt n) x).
Lemma near_mu_step32 n v x m e b : (2 <= n <= 2 ^ 53)%Z -> low32 <= b <= high32 ->
  near32 v m e -> Rabs m <= b -> e <= b -> ok32 b x ->
  near32 (mu_step32 n v x) ((1 - / IZR n) * m + / IZR n * rv x) ((1 - / IZR n) * e + 9 * u32 * b).
Proof.
  intros Hn Hb Hv Hm He (Vx & Fx & Hf & Hx). pose proof (near_w32 n x b Hn Hb Vx Fx Hf Hx) as Q.
  destruct Hb as [Hb1 Hb2]. pose proof (inv_range n Hn) as [H1 H2]. pose proof u_small as [Hu1 Hu2].
  pose proof u32_small as [Hv1 Hv2]. pose proof u_u32 as Huu. pose proof high32_top as HT. pose proof low32_pos as HL.
  destruct (eta32_B b Hb1) as [Heb Heb']. pose proof one_top32 as H1T.
  pose proof (near_e _ _ _ (proj1 Hv)) as He0. pose proof (near_cwgt n Hn) as Hc. set (w := / IZR n) in *.
  set (t := u32 * b) in *. assert (Ht : 0 < t) by (apply Rmult_lt_0_compat; lra).
  assert (Htb : t <= / 1000000 * b) by (apply Rmult_le_compat_r; lra).
  assert (Hut : u32 * t <= / 1000000 * t) by (apply Rmult_le_compat_r; lra).
  assert (Hub : u * b <= / 1000000 * t).
  { replace (/ 1000000 * t) with (/ 1000000 * u32 * b) by (unfold t; ring). apply Rmult_le_compat_r; lra. }
  assert (Hwb : u32 * (w * b) <= / 2 * t).
  { replace (/ 2 * t) with (u32 * (/ 2 * b)) by (unfold t; ring). apply Rmult_le_compat_l; [lra|]. apply Rmult_le_compat_r; lra. }
  assert (Ew : Rabs (1 - w) = 1 - w) by (apply Rabs_pos_eq; lra). pose proof (Rabs_pos m) as Hm0.
  assert (Eta1 : eta32 <= / 1000000 * u32).
  { pose proof (eta32_B 1) as He1. destruct He1; [unfold low32; change 1 with (bpow radix2 0); apply bpow_le; lia|lra]. }
  assert (Eta0 : 0 < eta32) by apply bpow_gt_0.
  set (ea := 3 * u) in *. set (ea' := ea + u32 * (Rabs (1 - w) + ea) + eta32).
  assert (Ea : 0 < ea' <= 11 / 10 * u32).
  { unfold ea'. rewrite Ew. unfold ea. assert (u32 * (1 - w + 3 * u) <= u32 * (101 / 100)) by (apply Rmult_le_compat_l; lra).
    assert (0 < u32 * (1 - w + 3 * u)) by (apply Rmult_lt_0_compat; lra). lra. }
  assert (P : near32 (mul32 (cwgt n) v) ((1 - w) * m) ((1 - w) * e + 5 * t)).
  { assert (B1 : ea' * e <= 11 / 10 * t).
    { unfold t. rewrite <- Rmult_assoc. apply Rmult_le_compat; lra. }
    assert (B2 : Rabs m * ea' <= 11 / 10 * t).
    { replace (11 / 10 * t) with (b * (11 / 10 * u32)) by (unfold t; ring). apply Rmult_le_compat; lra. }
    assert (B5 : 0 <= (1 - w) * e <= 1 * e) by (split; [apply Rmult_le_pos; lra|apply Rmult_le_compat_r; lra]).
    assert (B6 : (1 - w) * Rabs m <= 1 * Rabs m) by (apply Rmult_le_compat_r; lra).
    eapply near32_weaken.
    - apply near32_mul; [exact Hc|exact Hv|..]; rewrite ?Ew.
      + unfold ea. lra.
      + lra.
      + replace (ea + u32 * (1 - w + ea) + eta32) with ea' by (unfold ea'; now rewrite Ew). apply Rle_trans with (2 * (b + b)); [|lra]. apply Rmult_le_compat; lra.
    - cbv zeta. fold ea'. rewrite Rabs_mult, Ew.
      assert (E1 : u32 * ((1 - w) * Rabs m + ((1 - w) * e + Rabs m * ea' + ea' * e)) <= u32 * (21 / 10 * b)).
      { apply Rmult_le_compat_l; lra. }
      replace (u32 * (21 / 10 * b)) with (21 / 10 * t) in E1 by (unfold t; ring). lra. }
  assert (B5 : 0 <= (1 - w) * e <= 1 * e) by (split; [apply Rmult_le_pos; lra|apply Rmult_le_compat_r; lra]).
  assert (Hs : Rabs ((1 - w) * m) + Rabs (w * rv x) <= b).
  { rewrite !Rabs_mult, (Rabs_pos_eq w), (Rabs_pos_eq (1 - w)) by lra.
    assert ((1 - w) * Rabs m <= (1 - w) * b) by (apply Rmult_le_compat_l; lra).
    assert (w * Rabs (rv x) <= w * b) by (apply Rmult_le_compat_l; lra). lra. }
  assert (Q' : near32 (mul32 (wgt n) x) (w * rv x) (151 / 100 * t)).
  { eapply near32_weaken; [exact Q|]. replace (3 * u32 * (w * b)) with (3 * (u32 * (w * b))) by ring. lra. }
  eapply near32_weaken.
  - unfold mu_step32. apply near32_add; [exact P|exact Q'|]. lra.
  - assert (Hs' : Rabs ((1 - w) * m + w * rv x) <= b) by (eapply Rle_trans; [apply Rabs_triang|lra]).
    assert (E1 : u32 * (Rabs ((1 - w) * m + w * rv x) + ((1 - w) * e + 5 * t + 151 / 100 * t)) <= u32 * (21 / 10 * b)).
    { apply Rmult_le_compat_l; lra. }
    replace (u32 * (21 / 10 * b)) with (21 / 10 * t) in E1 by (unfold t; ring).
    replace (9 * u32 * b) with (9 * t) by (unfold t; ring). lra.
Qed.
Lemma near_mu32 b xs : low32 <= b <= high32 -> xs <> [] -> Forall (ok32 b) xs -> (Z.of_nat (length xs) <= 2 ^ 20)%Z ->
  near32 (snd (fold32 mu_step32 xs)) (ravg xs) (9 * u32 * b * (INR (length xs) - 1)).
Proof.
  intros Hb. induction xs as [|x xs IH] using rev_ind; intros Hn HF HL; [congruence|].
  apply Forall_app in HF as [HF Hx]. inversion Hx as [|? ? Ox _]; subst.
  rewrite app_length in *. cbn [length] in *. pose proof u32_small as [Hv1 Hv2].
  pose proof low32_pos. assert (Hvb : 0 < u32 * b) by (apply Rmult_lt_0_compat; lra).
  destruct xs as [|y xs].
  - cbn [app length fold32 fold_left snd].
    replace (INR (0 + 1)) with 1 by reflexivity. apply near32_weaken with 0; [|lra].
    replace (ravg [x]) with (rv x) by (unfold ravg; cbn; field). apply near32_exact; apply Ox.
  - specialize (IH ltac:(discriminate) HF ltac:(lia)).
    set (xs0 := y :: xs) in *. rewrite fold32_snoc by discriminate. cbn [snd]. rewrite fold32_n.
    assert (Hl : (1 <= length xs0)%nat) by (cbn; lia).
    set (e := 9 * u32 * b * (INR (length xs0) - 1)) in *.
    assert (HI : 1 <= INR (length xs0)) by (apply (le_INR 1); auto).
    assert (He : e <= b).
    { unfold e. apply Rle_trans with (9 * u32 * b * IZR (2 ^ 20)).
      - apply Rmult_le_compat_l; [lra|]. rewrite INR_IZR_INZ. assert (IZR (Z.of_nat (length xs0)) <= IZR (2 ^ 20)) by (apply IZR_le; lia). lra.
      - replace (9 * u32 * b * IZR (2 ^ 20)) with (9 * (u32 * IZR (2 ^ 20)) * b) by ring.
        apply Rle_trans with (1 * b); [|lra]. apply Rmult_le_compat_r; [lra|]. rewrite u32_val. change (2 ^ 20)%Z with 1048576%Z. lra. }
    pose proof (near_mu_step32 (Z.of_nat (length xs0) + 1) _ x (ravg xs0) e b ltac:(lia) Hb IH
                  (ravg_abs xs0 b ltac:(discriminate) (Forall_impl _ (ok32_in b) HF)) He Ox) as HS.
    rewrite ravg_snoc in HS by discriminate.
    eapply near32_weaken; [exact HS|]. rewrite plus_INR. change (INR 1) with 1.
    assert (Hw : 0 < / IZR (Z.of_nat (length xs0) + 1)) by (apply Rinv_0_lt_compat, IZR_lt; lia).
    set (w := / IZR (Z.of_nat (length xs0) + 1)) in *.
    assert (He0 : 0 <= e) by (unfold e; apply Rmult_le_pos; lra). assert (0 <= w * e) by (apply Rmult_le_pos; lra).
    replace (9 * u32 * b * (INR (length xs0) + 1 - 1)) with (e + 9 * u32 * b) by (unfold e; ring). lra.
Qed.

(** ** Batch means: float32 sums in any order *)
Lemma INR_le_19 n : (Z.of_nat n <= 2 ^ 19)%Z -> u32 * INR n <= / 32.
Proof.
  intros H. rewrite INR_IZR_INZ. apply IZR_le in H. rewrite u32_val. change (IZR (2 ^ 19)) with 524288 in H. lra.
Qed.
Lemma high_19 b n : low32 <= b <= high32 -> (Z.of_nat n <= 2 ^ 19)%Z -> 8 * (INR n * b) <= top32.
Proof.
  intros [H1 H2] Hn. pose proof low32_pos. unfold top32, high32 in *. apply IZR_le in Hn. rewrite <- INR_IZR_INZ in Hn.
  apply Rle_trans with (bpow radix2 3 * (bpow radix2 19 * bpow radix2 90)).
  - apply Rmult_le_compat; [lra| |cbn; lra|].
    + apply Rmult_le_pos; [apply pos_INR|lra].
    + apply Rmult_le_compat; try lra; [apply pos_INR|]. exact Hn.
  - rewrite <- !bpow_plus. apply bpow_le. lia.
Qed.
Lemma near_summed32 b l z : low32 <= b <= high32 -> summed32 l z -> l <> [] -> Forall (ok32 b) l ->
  (Z.of_nat (length l) <= 2 ^ 19)%Z ->
  near32 z (rsum (map rv l)) (2 * u32 * b * (INR (length l) * (INR (length l) - 1))).
Proof.
  intros Hb Hs. induction Hs as [|x|p q l x y Hp Hq Sp IHp Sq IHq Pl]; intros Hn HF HL; [congruence| |].
  - inversion HF as [|? ? (V & Fi & Fm & _) _]; subst. apply near32_weaken with 0.
    + replace (rsum (map rv [x])) with (rv x) by (cbn; ring). now apply near32_exact.
    + cbn [length INR]. lra.
  - assert (EL : length l = (length p + length q)%nat) by (rewrite (Permutation_length Pl); apply app_length).
    assert (HF' : Forall (ok32 b) (p ++ q)) by (now rewrite <- Pl). apply Forall_app in HF' as [Fp Fq].
    rewrite EL in HL.
    assert (Np : near32 x (rsum (map rv p)) (2 * u32 * b * (INR (length p) * (INR (length p) - 1)))) by (apply IHp; auto; lia).
    assert (Nq : near32 y (rsum (map rv q)) (2 * u32 * b * (INR (length q) * (INR (length q) - 1)))) by (apply IHq; auto; lia).
    assert (ES : rsum (map rv l) = rsum (map rv p) + rsum (map rv q)).
    { rewrite (rsum_perm _ _ (Permutation_map rv Pl)), map_app. apply rsum_app. }
    assert (Ap : Rabs (rsum (map rv p)) <= INR (length p) * b).
    { rewrite <- (map_length rv p). apply rsum_abs, Forall_map. eapply Forall_impl; [|exact Fp]. intros ? (_ & _ & _ & ?); auto. }
    assert (Aq : Rabs (rsum (map rv q)) <= INR (length q) * b).
    { rewrite <- (map_length rv q). apply rsum_abs, Forall_map. eapply Forall_impl; [|exact Fq]. intros ? (_ & _ & _ & ?); auto. }
    rewrite ES, EL, plus_INR.
    assert (P1 : 1 <= INR (length p)) by (apply (le_INR 1); destruct p; [congruence|cbn; lia]).
    assert (Q1 : 1 <= INR (length q)) by (apply (le_INR 1); destruct q; [congruence|cbn; lia]).
    pose proof (INR_le_19 _ HL) as H48. pose proof (high_19 b _ Hb HL) as HT. rewrite plus_INR in H48, HT.
    set (m := INR (length p)) in *. set (k := INR (length q)) in *. clearbody m k.
    destruct Hb as [Hb1 Hb2]. pose proof low32_pos as HLo. pose proof u32_small as [Hu1 Hu2].
    destruct (eta32_B b Hb1) as [_ He].
    set (t := u32 * b) in *. assert (Ht : 0 < t) by (apply Rmult_lt_0_compat; lra).
    replace (2 * u32 * b) with (2 * t) in * by (unfold t; ring).
    assert (E1 : 2 * t * (m * (m - 1)) + 2 * t * (k * (k - 1)) <= / 16 * ((m + k) * b)).
    { apply Rle_trans with (2 * t * ((m + k) * (m + k))).
      - rewrite <- Rmult_plus_distr_l. apply Rmult_le_compat_l; [lra|]. nra.
      - replace (2 * t * ((m + k) * (m + k))) with (2 * (u32 * (m + k)) * ((m + k) * b)) by (unfold t; ring).
        apply Rmult_le_compat_r; [apply Rmult_le_pos; lra|lra]. }
    assert (Z1 : 0 <= 2 * t * (m * (m - 1))) by (apply Rmult_le_pos; [lra|apply Rmult_le_pos; lra]).
    assert (Z2 : 0 <= 2 * t * (k * (k - 1))) by (apply Rmult_le_pos; [lra|apply Rmult_le_pos; lra]).
    assert (ZS : 0 <= (m + k) * b) by (apply Rmult_le_pos; lra).
    eapply near32_weaken.
    + apply near32_add; [exact Np|exact Nq|]. lra.
    + pose proof (Rabs_triang (rsum (map rv p)) (rsum (map rv q))) as HTr.
      replace (2 * t * ((m + k) * (m + k - 1))) with
        (2 * t * (m * (m - 1)) + 2 * t * (k * (k - 1)) + 4 * (t * (m * k))) by ring.
      assert (E4 : u32 * (Rabs (rsum (map rv p) + rsum (map rv q)) + (2 * t * (m * (m - 1)) + 2 * t * (k * (k - 1))))
                   <= u32 * (17 / 16 * ((m + k) * b))) by (apply Rmult_le_compat_l; lra).
      replace (u32 * (17 / 16 * ((m + k) * b))) with (17 / 16 * (t * (m + k))) in E4 by (unfold t; ring).
      assert (E5 : t * (m + k) <= t * (2 * (m * k))) by (apply Rmult_le_compat_l; nra).
      assert (E6 : t * 1 <= t * (m * k)) by (apply Rmult_le_compat_l; nra). lra.
Qed.
Lemma near_mean32 b l z : low32 <= b <= high32 -> summed32 l z -> l <> [] -> Forall (ok32 b) l ->
  (Z.of_nat (length l) <= 2 ^ 19)%Z ->
  near32 (div32 z (d_of_Z (Z.of_nat (length l)))) (ravg l) (2 * u32 * b * INR (length l)).
Proof.
  intros Hb Hs Hn HF HL. pose proof (near_summed32 b l z Hb Hs Hn HF HL) as [N _].
  pose proof (ravg_abs l b Hn (Forall_impl _ (ok32_in b) HF)) as HA.
  assert (P1 : 1 <= INR (length l)) by (apply (le_INR 1); destruct l; [congruence|cbn; lia]).
  pose proof (INR_le_19 _ HL) as H48. pose proof (high_19 b _ Hb HL) as HT.
  assert (As : Rabs (rsum (map rv l)) <= INR (length l) * b).
  { rewrite <- (map_length rv l). apply rsum_abs, Forall_map. eapply Forall_impl; [|exact HF]. intros ? (_ & _ & _ & ?); auto. }
  assert (EI : IZR (Z.of_nat (length l)) = INR (length l)) by (symmetry; apply INR_IZR_INZ).
  assert (Hl : (0 < Z.of_nat (length l))%Z) by (destruct l; [congruence|cbn; lia]).
  pose proof (near_div_Z z (rsum (map rv l)) _ (Z.of_nat (length l)) N) as D. rewrite EI in D. unfold ravg in *.
  set (m := INR (length l)) in *. clearbody m.
  destruct (range32 b Hb) as [Hc1 Hc2]. destruct Hb as [Hb1 Hb2]. pose proof low32_pos as HLo.
  pose proof u32_small as [Hu1 Hu2]. pose proof u_small as [Hs1 Hs2]. pose proof u_u32 as Huu.
  destruct (eta_B b Hc1) as [He0 _]. destruct (eta32_B b Hb1) as [_ He].
  set (t := u32 * b) in *. assert (Ht : 0 < t) by (apply Rmult_lt_0_compat; lra).
  assert (Htb : t <= / 1000000 * b) by (apply Rmult_le_compat_r; lra).
  replace (2 * u32 * b) with (2 * t) in * by (unfold t; ring).
  assert (Hub : u * b <= / 1000000 * t).
  { replace (/ 1000000 * t) with (/ 1000000 * u32 * b) by (unfold t; ring). apply Rmult_le_compat_r; lra. }
  assert (Eq : 2 * t * (m * (m - 1)) / m = 2 * t * (m - 1)) by (field; lra).
  assert (E1 : 0 <= 2 * t * (m - 1) <= / 16 * b).
  { split; [apply Rmult_le_pos; lra|]. apply Rle_trans with (2 * (u32 * m) * b); [unfold t; nra|]. apply Rmult_le_compat_r; lra. }
  assert (E2 : 2 * t * (m * (m - 1)) <= / 16 * (m * b)).
  { replace (2 * t * (m * (m - 1))) with (m * (2 * t * (m - 1))) by ring.
    replace (/ 16 * (m * b)) with (m * (/ 16 * b)) by ring. apply Rmult_le_compat_l; lra. }
  assert (TT : top32 <= top) by (apply bpow_le; lia).
  assert (Mb : 0 <= m * b) by (apply Rmult_le_pos; lra). assert (Mb' : 1 * b <= m * b) by (apply Rmult_le_compat_r; lra).
  assert (D' : near (ddiv z (d_of_Z (Z.of_nat (length l)))) (rsum (map rv l) / m) (2 * t * (m - 1) + / 1000 * t)).
  { eapply near_weaken; [apply D; [lia|lra]|]. rewrite Eq.
    assert (E3 : u * (Rabs (rsum (map rv l) / m) + 2 * t * (m - 1)) <= u * (17 / 16 * b)) by (apply Rmult_le_compat_l; lra). lra. }
  eapply near32_weaken.
  - unfold div32. apply near_r32; [exact D'|]. lra.
  - assert (E3 : u32 * (Rabs (rsum (map rv l) / m) + (2 * t * (m - 1) + / 1000 * t)) <= u32 * (18 / 16 * b)) by (apply Rmult_le_compat_l; lra).
    replace (u32 * (18 / 16 * b)) with (18 / 16 * t) in E3 by (unfold t; ring). lra.
Qed.
