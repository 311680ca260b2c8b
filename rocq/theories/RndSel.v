(** * Rounding errors of minima, maxima, square roots and sums in any order *)
From Coq Require Import ZArith Reals Lia Lra SpecFloat Psatz List Permutation.
From Flocq Require Import Core BinarySingleNaN Relative.
From Verif Require Import Num F64 F64o Rnd RndErr RndMean RndSum RndCP RndCP3 RndOps.
Import ListNotations.
Local Open Scope R_scope.
Local Notation R := Rdefinitions.R.
#[local] Existing Instance Hprec.
#[local] Existing Instance Hmax.

(** ** Minimum and maximum *)
Lemma cmp_ok x y : valid x -> valid y -> fin x -> fin y -> SFcompare x y = Some (Rcompare (rv x) (rv y)).
Proof.
  intros Vx Vy Fx Fy. pose proof (Bcompare_correct 53 1024 (B x Vx) (B y Vy)) as H.
  rewrite !fin_B, !B2R_rv in H. specialize (H Fx Fy). unfold Bcompare in H. rewrite !B2SF_SF2B in H. exact H.
Qed.
Lemma near_dmin x y a b e : near x a e -> near y b e -> near (dmin x y) (Rmin a b) e.
Proof.
  intros (Vx & Fx & Ex) (Vy & Fy & Ey). unfold dmin. rewrite cmp_ok by auto. apply Rabs_le_inv in Ex. apply Rabs_le_inv in Ey.
  unfold Rmin. destruct (Rcompare_spec (rv x) (rv y)), (Rle_dec a b); repeat split; auto; apply Rabs_le; lra.
Qed.
Lemma near_dmax x y a b e : near x a e -> near y b e -> near (dmax x y) (Rmax a b) e.
Proof.
  intros (Vx & Fx & Ex) (Vy & Fy & Ey). unfold dmax. rewrite cmp_ok by auto. apply Rabs_le_inv in Ex. apply Rabs_le_inv in Ey.
  unfold Rmax. destruct (Rcompare_spec (rv x) (rv y)), (Rle_dec a b); repeat split; auto; apply Rabs_le; lra.
Qed.
Lemma near_fold_min {X} (f : X -> f64) (r : X -> R) e xs : (forall x, In x xs -> near (f x) (r x) e) -> forall y b, near y b e ->
  near (fold_left dmin (map f xs) y) (fold_left Rmin (map r xs) b) e.
Proof.
  induction xs as [|x xs IH]; intros H y b Hy; [exact Hy|]. cbn [map fold_left]. apply IH.
  - intros z Hz. apply H. now right.
  - apply near_dmin; auto. apply H. now left.
Qed.
Lemma near_fold_max {X} (f : X -> f64) (r : X -> R) e xs : (forall x, In x xs -> near (f x) (r x) e) -> forall y b, near y b e ->
  near (fold_left dmax (map f xs) y) (fold_left Rmax (map r xs) b) e.
Proof.
  induction xs as [|x xs IH]; intros H y b Hy; [exact Hy|]. cbn [map fold_left]. apply IH.
  - intros z Hz. apply H. now right.
  - apply near_dmax; auto. apply H. now left.
Qed.

(** ** Adding 0 *)
Lemma add_0_r x a e : near x a e -> near (dadd x (d_of_Z 0)) a e.
Proof.
  intros (V & Fi & Ex). destruct (of_Z_ok 0) as (V0 & F0 & E0); [lia|].
  assert (Ef : rnd (rv x + rv (d_of_Z 0)) = rv x) by (rewrite E0, Rplus_0_r; apply rnd_id, fmt_rv, V).
  destruct (dadd_ok x (d_of_Z 0)) as (V' & F' & E'); auto.
  - unfold no_overflow. rewrite Ef. rewrite <- (B2R_rv x V). apply abs_B2R_lt_emax.
  - rewrite Ef in E'. repeat split; auto. now rewrite E'.
Qed.
Lemma add_0_l x a e : near x a e -> near (dadd (d_of_Z 0) x) a e.
Proof.
  intros (V & Fi & Ex). destruct (of_Z_ok 0) as (V0 & F0 & E0); [lia|].
  assert (Ef : rnd (rv (d_of_Z 0) + rv x) = rv x) by (rewrite E0, Rplus_0_l; apply rnd_id, fmt_rv, V).
  destruct (dadd_ok (d_of_Z 0) x) as (V' & F' & E'); auto.
  - unfold no_overflow. rewrite Ef. rewrite <- (B2R_rv x V). apply abs_B2R_lt_emax.
  - rewrite Ef in E'. repeat split; auto. now rewrite E'.
Qed.

(** ** Square root *)
Lemma dsqrt_ok x : valid x -> fin x -> 0 <= rv x -> valid (dsqrt x) /\ fin (dsqrt x) /\ rv (dsqrt x) = rnd (sqrt (rv x)).
Proof.
  intros V Fi H0.
  assert (Eq : dsqrt x = B2SF (Bsqrt mode_NE (B x V))).
  { destruct x as [s|[]| |[] m e]; try reflexivity; try discriminate. cbn -[SFsqrt_core_binary SpecFloat.binary_round_aux binary_round_aux].
    rewrite B2SF_SF2B. destruct (SFsqrt_core_binary 53 1024 (Z.pos m) e) as [[mz ez] lz]. apply round_aux_equiv. }
  destruct (Bsqrt_correct 53 1024 _ _ mode_NE (B x V)) as (H1 & H2 & _). rewrite B2R_rv in H1.
  rewrite Eq. split; [apply valid_B2SF'|]. unfold fin. rewrite fin_B2SF, rv_B2SF. split; [|exact H1].
  rewrite H2. destruct x as [s|[]| |[] m e]; try reflexivity; try discriminate. exfalso.
  unfold rv in H0. cbn in H0. assert (F2R (Float radix2 (Z.neg m) e) < 0) by (now apply F2R_lt_0). lra.
Qed.
Lemma sqrt_diff x a e : 0 <= x -> 0 < a -> Rabs (x - a) <= e -> Rabs (sqrt x - sqrt a) <= e / sqrt a.
Proof.
  intros Hx Ha He. pose proof (sqrt_pos x). assert (0 < sqrt a) by (now apply sqrt_lt_R0).
  replace (sqrt x - sqrt a) with ((x - a) / (sqrt x + sqrt a)).
  2:{ rewrite <- (sqrt_sqrt x) at 1 by auto. rewrite <- (sqrt_sqrt a) at 1 by lra. field. lra. }
  unfold Rdiv. rewrite Rabs_mult, Rabs_inv, (Rabs_pos_eq (sqrt x + sqrt a)) by lra.
  apply Rmult_le_compat; auto; [apply Rabs_pos|left; apply Rinv_0_lt_compat; lra|]. apply Rinv_le_contravar; lra.
Qed.
Lemma near_sqrt x a e : near x a e -> 0 < a -> e <= a -> let E := e / sqrt a in
  near (dsqrt x) (sqrt a) (E + u * (sqrt a + E) + eta).
Proof.
  intros (V & Fi & Ex) Ha He E. assert (H0 : 0 <= rv x) by (apply Rabs_le_inv in Ex; lra).
  destruct (dsqrt_ok x V Fi H0) as (V' & F' & E'). rewrite <- (Rabs_pos_eq (sqrt a)) at 2 by apply sqrt_pos.
  apply (near_rnd _ _ _ _ V' F' E'). now apply sqrt_diff.
Qed.

(** ** Sums in any order, relative to the sum of the absolute values *)
Lemma near_summed_abs M l z : low <= M <= high -> summed l z -> l <> [] -> Forall (fun x => valid x /\ fin x) l ->
  rsum (map (fun x => Rabs (rv x)) l) <= M -> u * INR (length l) <= / 32 ->
  near z (rsum (map rv l)) (2 * u * M * (INR (length l) - 1)).
Proof.
  intros [M1 M2] Hs. pose proof low_pos as Lp. pose proof u_small as [U1 U2]. destruct (eta_B M M1) as [_ He].
  set (t := u * M) in *. assert (Ht : 0 < t) by (apply Rmult_lt_0_compat; lra).
  assert (HtM : t <= / 1000000 * M) by (apply Rmult_le_compat_r; lra).
  replace (2 * u * M) with (2 * t) by (unfold t; ring).
  replace (u * u * M) with (u * t) in He by (unfold t; ring).
  assert (UT : u * t <= / 1000000 * t) by (apply Rmult_le_compat_r; lra).
  assert (SA : forall l, Rabs (rsum (map rv l)) <= rsum (map (fun x => Rabs (rv x)) l)).
  { intros l0. induction l0 as [|x l0 IH]; cbn [map rsum fold_right]; [rewrite Rabs_R0; lra|].
    eapply Rle_trans; [apply Rabs_triang|]. unfold rsum in IH. lra. }
  assert (SP : forall l, 0 <= rsum (map (fun x => Rabs (rv x)) l)).
  { intros l0. apply rsum_pos, Forall_map, Forall_forall. intros x _. apply Rabs_pos. }
  induction Hs as [|x|p q l x y Hp Hq Sp IHp Sq IHq Pl]; intros Hn HF HM Hk; [congruence| |].
  - inversion HF as [|? ? (V & Fi) _]; subst. apply near_weaken with 0.
    + replace (rsum (map rv [x])) with (rv x) by (cbn; ring). now apply near_exact.
    + cbn [length INR]. lra.
  - assert (EL : length l = (length p + length q)%nat) by (rewrite (Permutation_length Pl); apply app_length).
    assert (HF' : Forall (fun x => valid x /\ fin x) (p ++ q)) by (now rewrite <- Pl). apply Forall_app in HF' as [Fp Fq].
    assert (ES : rsum (map rv l) = rsum (map rv p) + rsum (map rv q)).
    { rewrite (rsum_perm _ _ (Permutation_map rv Pl)), map_app. apply rsum_app. }
    assert (EA : rsum (map (fun x => Rabs (rv x)) l) = rsum (map (fun x => Rabs (rv x)) p) + rsum (map (fun x => Rabs (rv x)) q)).
    { rewrite (rsum_perm _ _ (Permutation_map (fun x => Rabs (rv x)) Pl)), map_app. apply rsum_app. }
    rewrite EA in HM. rewrite EL, plus_INR in Hk |- *. rewrite ES.
    pose proof (SP p). pose proof (SP q). pose proof (SA p). pose proof (SA q).
    assert (P1 : 1 <= INR (length p)) by (apply (le_INR 1); destruct p; [congruence|cbn; lia]).
    assert (Q1 : 1 <= INR (length q)) by (apply (le_INR 1); destruct q; [congruence|cbn; lia]).
    set (m := INR (length p)) in *. set (k := INR (length q)) in *. clearbody m k.
    assert (Um : 0 <= u * m) by (apply Rmult_le_pos; lra). assert (Uk : 0 <= u * k) by (apply Rmult_le_pos; lra).
    rewrite Rmult_plus_distr_l in Hk.
    assert (Np : near x (rsum (map rv p)) (2 * t * (m - 1))) by (apply IHp; auto; lra).
    assert (Nq : near y (rsum (map rv q)) (2 * t * (k - 1))) by (apply IHq; auto; lra).
    assert (B1 : 2 * t * (m - 1) + 2 * t * (k - 1) <= / 16 * M).
    { apply Rle_trans with (2 * (u * m + u * k) * M); [unfold t; nra|apply Rmult_le_compat_r; lra]. }
    assert (Z1 : 0 <= 2 * t * (m - 1)) by (apply Rmult_le_pos; lra). assert (Z2 : 0 <= 2 * t * (k - 1)) by (apply Rmult_le_pos; lra).
    pose proof (Rabs_triang (rsum (map rv p)) (rsum (map rv q))) as HTr.
    eapply near_weaken; [apply near_add; [exact Np|exact Nq|]|].
    + pose proof high_top. assert (0 < high) by apply bpow_gt_0. lra.
    + assert (E2 : u * (Rabs (rsum (map rv p) + rsum (map rv q)) + (2 * t * (m - 1) + 2 * t * (k - 1))) <= u * (17 / 16 * M))
        by (apply Rmult_le_compat_l; lra).
      replace (u * (17 / 16 * M)) with (17 / 16 * t) in E2 by (unfold t; ring).
      replace (2 * t * (m + k - 1)) with (2 * t * (m - 1) + 2 * t * (k - 1) + 2 * t) by ring. lra.
Qed.
Lemma near_summed_near {X} (f : X -> f64) (r e : X -> R) M xs z : low <= M <= high -> summed (map f xs) z -> xs <> [] ->
  (forall x, In x xs -> near (f x) (r x) (e x)) -> rsum (map (fun x => Rabs (r x) + e x) xs) <= M -> u * INR (length xs) <= / 32 ->
  near z (rsum (map r xs)) (rsum (map e xs) + 2 * u * M * INR (length xs)).
Proof.
  intros HM Hs Hn HF HS Hk.
  assert (Z := near_summed_abs M (map f xs) z HM Hs). rewrite map_length, !map_map in Z.
  assert (Z' : near z (rsum (map (fun x => rv (f x)) xs)) (2 * u * M * (INR (length xs) - 1))).
  { apply Z; auto.
    - intros E. apply map_eq_nil in E. congruence.
    - apply Forall_map, Forall_forall. intros x Hx. destruct (HF x Hx) as (? & ? & _); auto.
    - eapply Rle_trans; [|exact HS]. apply rsum_le. intros x Hx. apply near_abs, HF, Hx. }
  clear Z. destruct Z' as (V & Fi & Ez). repeat split; auto.
  assert (Ed : Rabs (rsum (map (fun x => rv (f x)) xs) - rsum (map r xs)) <= rsum (map e xs)).
  { clear -HF. induction xs as [|x xs IH]; cbn [map rsum fold_right]; [rewrite Rminus_0_r, Rabs_R0; lra|].
    destruct (HF x ltac:(now left)) as (_ & _ & Hx). assert (IH' := IH ltac:(intros; apply HF; now right)). unfold rsum in IH'.
    set (a := fold_right Rplus 0 (map (fun x0 => rv (f x0)) xs)) in *. set (b := fold_right Rplus 0 (map r xs)) in *.
    replace (rv (f x) + a - (r x + b)) with ((rv (f x) - r x) + (a - b)) by ring. eapply Rle_trans; [apply Rabs_triang|]. lra. }
  replace (rv z - rsum (map r xs)) with ((rv z - rsum (map (fun x => rv (f x)) xs)) + (rsum (map (fun x => rv (f x)) xs) - rsum (map r xs))) by ring.
  eapply Rle_trans; [apply Rabs_triang|].
  destruct HM as [M1 M2]. pose proof low_pos. pose proof u_pos. assert (0 <= 2 * u * M) by (apply Rmult_le_pos; lra).
  assert (2 * u * M * (INR (length xs) - 1) <= 2 * u * M * INR (length xs)) by (apply Rmult_le_compat_l; lra). lra.
Qed.
