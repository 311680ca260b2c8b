(** * Rounding error of the running mean, one coordinate *)
From Coq Require Import ZArith Reals Lia Lra SpecFloat Psatz List.
From Flocq Require Import Core Relative.
From Verif Require Import Num F64 Rnd RndErr.
Import ListNotations.
Local Open Scope R_scope.

Lemma u_small : 0 < u <= / 1000000.
Proof. rewrite u_val. lra. Qed.
Definition low : R := bpow radix2 (-900).
Definition high : R := bpow radix2 900.
Lemma low_pos : 0 < low. Proof. apply bpow_gt_0. Qed.
Lemma eta_low : eta <= u * u * low.
Proof. unfold eta, u, low. rewrite <- !bpow_plus. apply bpow_le. lia. Qed.
Lemma high_top : 1000 * high <= top.
Proof.
  unfold top, high. change 1000%Z with (100 + 900)%Z. rewrite bpow_plus. apply Rmult_le_compat_r; [apply bpow_ge_0|].
  apply Rle_trans with (bpow radix2 10); [cbn; lra|apply bpow_le; lia].
Qed.
Lemma one_top : 1000 <= top.
Proof. apply Rle_trans with (bpow radix2 10); [cbn; lra|]. apply bpow_le. lia. Qed.
Lemma eta_B b : low <= b -> eta <= u * b /\ eta <= u * u * b.
Proof.
  intros H. pose proof u_small. pose proof eta_low. pose proof low_pos.
  assert (u * u * low <= u * u * b) by (apply Rmult_le_compat_l; [nra|auto]).
  assert (u * u * b <= u * b).
  { rewrite Rmult_assoc. apply Rle_trans with (1 * (u * b)); [|lra]. apply Rmult_le_compat_r; nra. }
  lra.
Qed.

(** 1/(n+1) and 1 - 1/(n+1) *)
Definition wgt (n : Z) : f64 := ddiv (d_of_Z 1) (d_of_Z n).
Definition cwgt (n : Z) : f64 := dsub (d_of_Z 1) (wgt n).
Lemma inv_range n : (2 <= n <= 2 ^ 53)%Z -> u <= / IZR n <= / 2.
Proof.
  intros Hn. rewrite u_val. assert (2 <= IZR n <= IZR (2 ^ 53)) as [H1 H2] by (split; apply IZR_le; lia).
  split; apply Rinv_le_contravar; try lra.
Qed.
Lemma near_wgt n : (2 <= n <= 2 ^ 53)%Z -> near (wgt n) (/ IZR n) (2 * u * / IZR n).
Proof.
  intros Hn. pose proof (inv_range n Hn) as [H1 H2]. pose proof u_small. pose proof one_top.
  eapply near_weaken.
  - unfold wgt. replace (/ IZR n) with (1 / IZR n) by (unfold Rdiv; ring).
    apply near_div_Z; [apply (near_Z 1); lia|lia|]. rewrite Rabs_R1. lra.
  - assert (eta <= u * / IZR n).
    { apply Rle_trans with (u * u); [|apply Rmult_le_compat_l; lra].
      unfold eta, u. rewrite <- bpow_plus. apply bpow_le. lia. }
    unfold Rdiv. rewrite Rmult_0_l, Rmult_1_l, Rabs_pos_eq by lra. nra.
Qed.
Lemma near_cwgt n : (2 <= n <= 2 ^ 53)%Z -> near (cwgt n) (1 - / IZR n) (3 * u).
Proof.
  intros Hn. pose proof (inv_range n Hn) as [H1 H2]. pose proof u_small. pose proof one_top.
  assert (0 < / IZR n) by lra. set (w := / IZR n) in *.
  assert (Hw : u * w <= u * / 2) by (apply Rmult_le_compat_l; lra).
  assert (0 < u * w) by (apply Rmult_lt_0_compat; lra).
  assert (Huw : u * (u * w) <= / 1000000 * (u * w)) by (apply Rmult_le_compat_r; lra).
  pose proof (eta_B 1) as He. assert (low <= 1) by (unfold low; change 1 with (bpow radix2 0); apply bpow_le; lia).
  destruct (He ltac:(auto)) as [_ He2]. assert (u * u <= / 1000000 * u) by (apply Rmult_le_compat_r; lra).
  eapply near_weaken.
  - unfold cwgt. apply near_sub; [apply (near_Z 1); lia|exact (near_wgt n Hn)|].
    fold w. rewrite Rabs_R1, (Rabs_pos_eq w) by lra. lra.
  - fold w. rewrite Rabs_pos_eq by lra.
    replace (0 + 2 * u * w + u * (1 - w + (0 + 2 * u * w)) + eta) with (u * w + u + 2 * (u * (u * w)) + eta) by ring. lra.
Qed.

(** one step of the running mean of numbers of absolute value at most [b] *)
Definition mean_step (n : Z) (v x : f64) : f64 := dadd (dmul (cwgt n) v) (dmul (wgt n) x).
Lemma near_mean_step n v x m e b : (2 <= n <= 2 ^ 53)%Z -> low <= b <= high ->
  near v m e -> Rabs m <= b -> e <= b -> valid x -> fin x -> Rabs (rv x) <= b ->
  near (mean_step n v x) ((1 - / IZR n) * m + / IZR n * rv x) ((1 - / IZR n) * e + 17 * u * b).
Proof.
  intros Hn [Hb1 Hb2] Hv Hm He Vx Fx Hx.
  pose proof (inv_range n Hn) as [H1 H2]. pose proof u_small as [Hu1 Hu2]. pose proof high_top as HT. pose proof low_pos as HL.
  pose proof (near_e _ _ _ Hv) as He0. set (w := / IZR n) in *.
  destruct (eta_B b Hb1) as [_ Het]. assert (Hb : 0 < b) by lra.
  set (t := u * b) in *. assert (Ht : 0 < t) by (apply Rmult_lt_0_compat; lra).
  assert (Htb : t <= / 1000000 * b) by (apply Rmult_le_compat_r; lra).
  assert (Hut : u * t <= / 1000000 * t) by (apply Rmult_le_compat_r; lra).
  replace (u * u * b) with (u * t) in Het by (unfold t; ring).
  (* (1 - 1/n) * v *)
  assert (P : near (dmul (cwgt n) v) ((1 - w) * m) ((1 - w) * e + 10 * t)).
  { pose proof (near_cwgt n Hn) as Hc. fold w in Hc.
    assert (B1 : u * e <= t) by (apply Rmult_le_compat_l; lra).
    assert (B2 : u * Rabs m <= t) by (apply Rmult_le_compat_l; lra).
    assert (B3 : 0 <= u * e) by (apply Rmult_le_pos; lra).
    assert (B4 : 0 <= u * Rabs m) by (apply Rmult_le_pos; [lra|apply Rabs_pos]).
    assert (Ea : Rabs (1 - w) = 1 - w) by (apply Rabs_pos_eq; lra).
    assert (B5 : (1 - w) * e <= 1 * e) by (apply Rmult_le_compat_r; lra).
    assert (B6 : (1 - w) * Rabs m <= 1 * Rabs m) by (apply Rmult_le_compat_r; [apply Rabs_pos|lra]).
    assert (B7 : 0 <= (1 - w) * e) by (apply Rmult_le_pos; lra).
    assert (B8 : 0 <= (1 - w) * Rabs m) by (apply Rmult_le_pos; [lra|apply Rabs_pos]).
    eapply near_weaken.
    - apply near_mul; [exact Hc|exact Hv|]. rewrite Ea.
      apply Rle_trans with (2 * (b + b)); [|lra].
      pose proof (Rabs_pos m). apply Rmult_le_compat; lra.
    - rewrite Rabs_mult, Ea.
      set (e0 := (1 - w) * e + Rabs m * (3 * u) + 3 * u * e).
      assert (E0 : e0 <= (1 - w) * e + 6 * t) by (unfold e0; lra).
      assert (E1 : u * ((1 - w) * Rabs m + e0) <= u * (2 * b + 6 * t)) by (apply Rmult_le_compat_l; lra).
      replace (u * (2 * b + 6 * t)) with (2 * t + 6 * (u * t)) in E1 by (unfold t; ring). lra. }
  (* 1/n * x *)
  assert (Q : near (dmul (wgt n) x) (w * rv x) (3 * t)).
  { pose proof (near_wgt n Hn) as Hc. fold w in Hc.
    assert (B1 : w * Rabs (rv x) <= / 2 * b) by (apply Rmult_le_compat; try lra; apply Rabs_pos).
    assert (B0 : 0 <= w * Rabs (rv x)) by (apply Rmult_le_pos; [lra|apply Rabs_pos]).
    assert (Bu : u * (w * Rabs (rv x)) <= u * (/ 2 * b)) by (apply Rmult_le_compat_l; lra).
    assert (Ew : Rabs w = w) by (apply Rabs_pos_eq; lra).
    eapply near_weaken.
    - apply near_mul; [exact Hc|exact (near_exact x Vx Fx)|]. rewrite Ew.
      assert (2 * u * w <= 1) by nra.
      apply Rle_trans with (2 * (b + b)); [|lra]. pose proof (Rabs_pos (rv x)). apply Rmult_le_compat; try lra; nra.
    - rewrite Rabs_mult, Ew.
      set (e0 := w * 0 + Rabs (rv x) * (2 * u * w) + 2 * u * w * 0).
      assert (E0 : e0 = 2 * (u * (w * Rabs (rv x)))) by (unfold e0; ring).
      assert (E1 : u * (w * Rabs (rv x) + e0) <= u * (/ 2 * b + t)).
      { apply Rmult_le_compat_l; [lra|]. rewrite E0. unfold t. lra. }
      replace (u * (/ 2 * b + t)) with (/ 2 * t + u * t) in E1 by (unfold t; ring).
      replace (u * (/ 2 * b)) with (/ 2 * t) in Bu by (unfold t; ring). lra. }
  assert (B5 : (1 - w) * e <= 1 * e) by (apply Rmult_le_compat_r; lra).
  assert (B7 : 0 <= (1 - w) * e) by (apply Rmult_le_pos; lra).
  assert (Hs : Rabs ((1 - w) * m) + Rabs (w * rv x) <= b).
  { rewrite !Rabs_mult, (Rabs_pos_eq w), (Rabs_pos_eq (1 - w)) by lra.
    assert ((1 - w) * Rabs m <= (1 - w) * b) by (apply Rmult_le_compat_l; lra).
    assert (w * Rabs (rv x) <= w * b) by (apply Rmult_le_compat_l; lra). lra. }
  eapply near_weaken.
  - unfold mean_step. apply near_add; [exact P|exact Q|]. lra.
  - assert (Hs' : Rabs ((1 - w) * m + w * rv x) <= b) by (eapply Rle_trans; [apply Rabs_triang|lra]).
    set (e0 := (1 - w) * e + 10 * t + 3 * t). 
    assert (E1 : u * (Rabs ((1 - w) * m + w * rv x) + e0) <= u * (3 * b)).
    { apply Rmult_le_compat_l; [lra|]. unfold e0. lra. }
    replace (u * (3 * b)) with (3 * t) in E1 by (unfold t; ring). unfold e0 in *.
    replace (17 * u * b) with (17 * t) by (unfold t; ring). lra.
Qed.

(** ** The running mean of a list *)
Definition rmean_list (xs : list f64) : f64 :=
  match xs with
  | [] => S754_nan
  | x :: xs' => snd (fold_left (fun nv y => (fst nv + 1, mean_step (fst nv + 1) (snd nv) y)%Z) xs' (1%Z, x))
  end.
Definition rsum (l : list R) : R := fold_right Rplus 0 l.
Definition ravg (xs : list f64) : R := rsum (map rv xs) / INR (length xs).
Definition ok_in (b : R) (x : f64) : Prop := valid x /\ fin x /\ Rabs (rv x) <= b.
Lemma rsum_app a c : rsum (a ++ c) = rsum a + rsum c.
Proof. induction a as [|x a IH]; simpl; [ring|]. rewrite IH. ring. Qed.
Lemma rsum_abs l b : Forall (fun x => Rabs x <= b) l -> Rabs (rsum l) <= INR (length l) * b.
Proof.
  induction 1 as [|x l Hx Hl IH]; cbn [rsum fold_right length]; [rewrite Rabs_R0; cbn; lra|].
  rewrite S_INR. eapply Rle_trans; [apply Rabs_triang|]. unfold rsum in IH. lra.
Qed.
Lemma ravg_abs xs b : xs <> [] -> Forall (ok_in b) xs -> Rabs (ravg xs) <= b.
Proof.
  intros Hn H. unfold ravg. assert (Hp : 0 < INR (length xs)) by (apply lt_0_INR; destruct xs; [congruence|simpl; lia]).
  unfold Rdiv. rewrite Rabs_mult, Rabs_inv, (Rabs_pos_eq (INR _)) by lra.
  apply Rmult_le_reg_r with (INR (length xs)); auto. rewrite Rmult_assoc, Rinv_l, Rmult_1_r by lra.
  rewrite <- (map_length rv xs). rewrite Rmult_comm. apply rsum_abs. apply Forall_map.
  eapply Forall_impl; [|exact H]. intros x (_ & _ & Hx). exact Hx.
Qed.
Lemma ravg_snoc xs x : xs <> [] ->
  (1 - / IZR (Z.of_nat (length xs) + 1)) * ravg xs + / IZR (Z.of_nat (length xs) + 1) * rv x = ravg (xs ++ [x]).
Proof.
  intros Hn. unfold ravg. rewrite map_app, rsum_app, app_length, plus_INR, INR_IZR_INZ, plus_IZR. cbn [map rsum fold_right length].
  assert (Hp : 0 < IZR (Z.of_nat (length xs))) by (apply IZR_lt; destruct xs; [congruence|simpl; lia]).
  change (INR 1) with 1. field. lra.
Qed.
Lemma near_rmean_list b xs : low <= b <= high -> xs <> [] -> Forall (ok_in b) xs -> (Z.of_nat (length xs) <= 2 ^ 48)%Z ->
  near (rmean_list xs) (ravg xs) (17 * u * b * (INR (length xs) - 1)) /\
  fold_left (fun nv y => (fst nv + 1, mean_step (fst nv + 1) (snd nv) y)%Z) (tl xs) (1%Z, hd S754_nan xs) =
  (Z.of_nat (length xs), rmean_list xs).
Proof.
  intros Hb. induction xs as [|x xs IH] using rev_ind; intros Hn HF HL; [congruence|].
  apply Forall_app in HF as [HF Hx]. inversion Hx as [|? ? (Vx & Fx & Ax) _]; subst.
  rewrite app_length in *. cbn [length] in *.
  destruct xs as [|y xs].
  - cbn [app length rmean_list fold_left snd tl hd]. split; [|reflexivity].
    replace (INR (0 + 1)) with 1 by reflexivity. apply near_weaken with 0; [|lra].
    replace (ravg [x]) with (rv x) by (unfold ravg; cbn; field). now apply near_exact.
  - destruct IH as [IH1 IH2]; auto; [discriminate|lia|].
    set (xs0 := y :: xs) in *. 
    assert (E : fold_left (fun nv y => (fst nv + 1, mean_step (fst nv + 1) (snd nv) y)%Z) (tl (xs0 ++ [x])) (1%Z, hd S754_nan (xs0 ++ [x])) =
      (Z.of_nat (length xs0 + 1), mean_step (Z.of_nat (length xs0) + 1) (rmean_list xs0) x)).
    { change (tl (xs0 ++ [x])) with (tl xs0 ++ [x]). change (hd S754_nan (xs0 ++ [x])) with (hd S754_nan xs0).
      rewrite fold_left_app, IH2. cbn [fold_left fst snd]. f_equal. lia. }
    assert (E' : rmean_list (xs0 ++ [x]) = mean_step (Z.of_nat (length xs0) + 1) (rmean_list xs0) x).
    { change (rmean_list (xs0 ++ [x])) with (snd (fold_left (fun nv y => (fst nv + 1, mean_step (fst nv + 1) (snd nv) y)%Z) (tl (xs0 ++ [x])) (1%Z, hd S754_nan (xs0 ++ [x])))).
      now rewrite E. }
    rewrite E'. split; [|exact E].
    assert (Hl : (1 <= length xs0)%nat) by (cbn; lia).
    pose proof u_small as [Hu1 Hu2]. pose proof low_pos.
    set (e := 17 * u * b * (INR (length xs0) - 1)) in *.
    assert (HI : 1 <= INR (length xs0)) by (apply (le_INR 1); auto).
    assert (Hub : 0 < u * b) by (apply Rmult_lt_0_compat; lra).
    assert (He : e <= b).
    { unfold e. apply Rle_trans with (17 * u * b * IZR (2 ^ 48)).
      - apply Rmult_le_compat_l; [lra|]. rewrite INR_IZR_INZ. assert (IZR (Z.of_nat (length xs0)) <= IZR (2 ^ 48)) by (apply IZR_le; lia). lra.
      - replace (17 * u * b * IZR (2 ^ 48)) with (17 * (u * IZR (2 ^ 48)) * b) by ring.
        apply Rle_trans with (1 * b); [|lra]. apply Rmult_le_compat_r; [lra|]. rewrite u_val.
        change (2 ^ 48)%Z with 281474976710656%Z. lra. }
    pose proof (near_mean_step (Z.of_nat (length xs0) + 1) (rmean_list xs0) x (ravg xs0) e b ltac:(lia) Hb IH1
                  (ravg_abs xs0 b ltac:(discriminate) HF) He Vx Fx Ax) as HS.
    rewrite ravg_snoc in HS by discriminate.
    eapply near_weaken; [exact HS|]. rewrite plus_INR. change (INR 1) with 1.
    assert (0 < / IZR (Z.of_nat (length xs0) + 1)) by (apply Rinv_0_lt_compat, IZR_lt; lia).
    assert (He0 : 0 <= e) by (unfold e; apply Rmult_le_pos; lra).
    assert ((1 - / IZR (Z.of_nat (length xs0) + 1)) * e <= 1 * e) by (apply Rmult_le_compat_r; lra).
    replace (17 * u * b * (INR (length xs0) + 1 - 1)) with (e + 17 * u * b) by (unfold e; ring). lra.
Qed.
