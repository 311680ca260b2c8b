(** * Rounding error of the value of cSIL for a batch *)
From Coq Require Import ZArith Reals Lia Lra SpecFloat Psatz List Permutation.
From Flocq Require Import Core Relative.
From Verif Require Import Num NumPy Base GetCvi Lists Step Step2 StepB Eval Stream Shapes F64 F64o Rnd RndErr RndMean RndSum RndCl RndCP RndCP2 RndCP3 RndCP4 RndOps RndVal RndCH RndSel RndVal2 RndPS Spec RGeom XPerm XBatch XEval P_Round.
Import ListNotations.
Local Open Scope R_scope.
Local Notation R := Rdefinitions.R.
Local Notation nanv := S754_nan.

(** a quotient of modulus at most 1, the numerator of any sign *)
Lemma near_ratio x y a c ea ec : near x a ea -> near y c ec -> Rabs a <= c -> 0 < c -> 4 * ec <= c -> 4 * ea <= 3 * c ->
  let E := 4 / 3 * ((ea + ec) / c) in near (ddiv x y) (a / c) (E + u * (1 + E) + eta).
Proof.
  intros (V1 & F1 & E1) (V2 & F2 & E2) Ha Hc H4 H4' E. pose proof (Rle_trans _ _ _ (Rabs_pos _) E1) as P1. pose proof (Rle_trans _ _ _ (Rabs_pos _) E2) as P2.
  assert (Yl : 3 / 4 * c <= rv y) by (apply Rabs_le_inv in E2; lra). set (q := a / c).
  assert (Q1 : Rabs q <= 1).
  { unfold q, Rdiv. rewrite Rabs_mult, (Rabs_pos_eq (/ c)) by (left; now apply Rinv_0_lt_compat).
    apply (Rmult_le_reg_r c); [lra|]. rewrite Rmult_assoc, Rinv_l by lra. lra. }
  assert (HE : Rabs (rv x / rv y - q) <= E).
  { replace (rv x / rv y - q) with (((rv x - a) - q * (rv y - c)) * / rv y) by (unfold q; field; lra).
    rewrite Rabs_mult, (Rabs_pos_eq (/ rv y)) by (left; apply Rinv_0_lt_compat; lra).
    assert (Nm : Rabs (rv x - a - q * (rv y - c)) <= ea + ec).
    { unfold Rminus at 1. eapply Rle_trans; [apply Rabs_triang|]. rewrite Rabs_Ropp, Rabs_mult.
      apply Rplus_le_compat; [exact E1|]. rewrite <- (Rmult_1_l ec). apply Rmult_le_compat; auto using Rabs_pos. }
    assert (Iy : / rv y <= 4 / 3 * / c).
    { replace (4 / 3 * / c) with (/ (3 / 4 * c)) by (field; lra). apply Rinv_le_contravar; lra. }
    eapply Rle_trans; [apply Rmult_le_compat; [apply Rabs_pos|left; apply Rinv_0_lt_compat; lra|exact Nm|exact Iy]|].
    right. unfold E, Rdiv. ring. }
  assert (E4 : E <= 2).
  { unfold E. apply (Rmult_le_reg_r c); [lra|]. replace (4 / 3 * ((ea + ec) / c) * c) with (4 / 3 * (ea + ec)) by (field; lra). lra. }
  destruct (ddiv_ok x y V1 V2 F1) as (V & Fi & Ev); [lra| |].
  - apply top_ok. replace (rv x / rv y) with (q + (rv x / rv y - q)) by ring. eapply Rle_trans; [apply Rabs_triang|].
    pose proof one_top. lra.
  - eapply near_weaken; [apply (near_rnd _ _ _ _ V Fi Ev HE)|]. pose proof u_pos.
    assert (u * (Rabs q + E) <= u * (1 + E)) by (apply Rmult_le_compat_l; lra). lra.
Qed.
Section Sil.
  Context (L : Libm) (S : Sums) (HS : any_order S).
  Notation A := (F64o L S).
  Context (b : R) (Hb : lo2 <= b <= hi2 / 2) (d : nat) (Hd : (1 <= Z.of_nat d <= 2 ^ 20)%Z).
  Context (gs : list (list (list f64))) (Hgs : (2 <= length gs)%nat).
  Context (Hg : forall g, In g gs -> g <> [] /\ Forall (fun x => length x = d /\ Forall (ok_in b) x) g).
  Context (HN : (Z.of_nat (length (concat gs)) <= 2 ^ 24)%Z).
  Let D := INR d.
  Let N := INR (length (concat gs)).
  Let T := u * (b * b).
  Let k := length gs.
  Let Y := D * (b * b).
  Let G i := nth i gs [].
  Let dist i j := cdist d (exact (G i)) (exact (G j)).
  Let lamb := lam b d gs.
  Let sep := sepmin d gs.
  Let gne := gs_ne b d gs Hgs Hg HN.
  Let pm (i j : nat) : R := ravg (fcol j (G i)).

  (** the stored centroids *)
  Context (W : nat -> list f64) (HW : forall i, (i < k)%nat -> at_mean d (W i) (G i) (17 * u * b * N)).
  (** squared distance of a sample to a stored centroid (cSIL.py:208) *)
  Let sq (x : list f64) i : f64 := s_sum S (map (fun y => dmul y y) (map2 dsub x (map (fun y => dmul y (d_of_Z 1)) (W i)))).
  Let md i j : R := mdist d (exact (G i)) (exact (G j)).

  Lemma sil_pm_le i j : (i < k)%nat -> (j < d)%nat -> Rabs (pm i j) <= b.
  Proof. intros Hi Hj. apply (avg_le b Hb d Hd gs gne Hg HN); auto. left. exists (G i). split; auto. apply nth_In, Hi. Qed.
  Lemma W_one i : (i < k)%nat -> at_mean d (map (fun y => dmul y (d_of_Z 1)) (W i)) (G i) (17 * u * b * N).
  Proof.
    intros Hi. destruct (HW i Hi) as [Lw Hw]. split; [now rewrite map_length|]. intros j Hj. destruct (Hw j Hj) as (V & Fi & E0).
    rewrite (nth_indep _ nanv (dmul nanv (d_of_Z 1))) by (rewrite map_length; lia). rewrite (map_nth (fun y => dmul y (d_of_Z 1))).
    destruct (g_pre b Hb d Hd gs gne Hg HN) as (_ & _ & _ & Un & U0 & b0 & _). fold N in Un.
    destruct (dmul_one L S b Hb 0%nat [] (nth j (W i) nanv)) as (V' & F' & E').
    - split; [exact V|]. split; [exact Fi|]. pose proof (near_abs _ _ _ (conj V (conj Fi E0))) as Ha. fold (pm i j) in Ha.
      pose proof (sil_pm_le i j Hi Hj). assert (17 * (u * N) * b <= 17 * / 500000000 * b) by (apply Rmult_le_compat_r; lra).
      replace (17 * u * b * N) with (17 * (u * N) * b) in Ha by ring. lra.
    - split; [exact V'|]. split; [exact F'|]. rewrite E'. exact E0.
  Qed.
  Lemma near_sq x i j : (i < k)%nat -> (j < k)%nat -> In x (G j) ->
    near (sq x i) (dist2 (map rv x) (centroid d (exact (G i)))) (em b d gs) /\ 0 <= dist2 (map rv x) (centroid d (exact (G i))) <= 4 * Y.
  Proof.
    intros Hi Hj Hx. destruct (Hg (G j) (nth_In _ _ Hj)) as [_ HF]. rewrite Forall_forall in HF. destruct (HF x Hx) as [Lx Ox].
    rewrite Forall_forall in Ox. assert (Px : forall m, (m < d)%nat -> ok_in b (nth m x nanv)) by (intros m Hm; apply Ox, nth_In; lia).
    assert (Ed : dist2 (map rv x) (centroid d (exact (G i))) = rdist2 d (fun m => rv (nth m x nanv)) (pm i)).
    { rewrite (dist2_rS d) by (rewrite ?map_length; auto; apply centroid_length). apply rS_ext. intros m Hm.
      unfold exact. rewrite centroid_avg by auto. fold (pm i m). change 0 with (rv nanv). now rewrite map_nth. }
    rewrite Ed. split.
    - destruct (W_one i Hi) as [Lw Hw]. destruct (g_pre b Hb d Hd gs gne Hg HN) as ((N1 & _) & _ & _ & _ & U0 & b0 & _). fold N in N1.
      apply (near_sumsq b Hb d Hd gs gne Hg HN x (map (fun y => dmul y (d_of_Z 1)) (W i))); auto.
      + intros m Hm. destruct (Px m Hm) as (V & Fi & Ha). split; [|exact Ha]. eapply near_weaken; [apply near_exact; auto|].
        change (0 <= 17 * u * b * N). assert (0 <= u * b) by (apply Rmult_le_pos; lra). assert (0 <= u * b * N) by (apply Rmult_le_pos; lra). lra.
      + intros m Hm. split; [apply Hw, Hm|now apply sil_pm_le].
      + apply (proj1 HS).
    - replace (4 * Y) with (4 * D * (b * b)) by (unfold Y; ring). apply (rdist2_range b d).
      + intros m Hm. apply (Px m Hm).
      + intros m Hm. now apply sil_pm_le.
  Qed.

  (** ** An entry of the table *)
  Let ent j i : f64 := ddiv (fold_left dadd (map (fun x => sq x i) (G j)) (d_of_Z 0)) (d_of_Z (Z.of_nat (length (G j)))).
  Lemma md_sum i j : md i j = rsum (map (fun x => dist2 (map rv x) (centroid d (exact (G i)))) (G j)) / INR (length (G j)).
  Proof. unfold md, mdist. unfold exact at 2. rewrite exact_length, map_map. reflexivity. Qed.
  Lemma near_ent i j : (i < k)%nat -> (j < k)%nat -> near (ent j i) (md i j) (lamb / 2) /\ 0 <= md i j <= 4 * Y.
  Proof.
    intros Hi Hj. destruct (lam_pre b Hb d Hd gs Hgs Hg HN) as (U & N1 & Y0 & L1 & LK & L2 & Et & (Yl & Yh) & L0 & Tp & Eu).
    fold N D Y k lamb in N1, Y0, L1, LK, L2, Et, Yl, Yh, L0, Tp.
    pose proof (nth_In gs [] Hj) as Ij. destruct (n_range b d gs Hg _ Ij) as [n1 n2]. fold N in n2. fold (G j) in n1, n2, Ij.
    set (n := INR (length (G j))) in *.
    assert (Eem : em b d gs = 165 / 380 * lamb) by apply em_lam.
    assert (UN : 380 * (u * Y * N) <= lamb).
    { unfold lamb, lam. fold D N. replace (380 * (u * (b * b)) * (D * D * N)) with (380 * (u * Y * N) * D) by (unfold Y; ring).
      destruct (g_pre b Hb d Hd gs gne Hg HN) as (_ & (D1 & _) & _). fold D in D1.
      assert (0 <= u * Y * N) by (apply Rmult_le_pos; [apply Rmult_le_pos|]; lra). nra. }
    assert (Un : u * n <= / 500000000).
    { destruct (g_pre b Hb d Hd gs gne Hg HN) as (_ & _ & _ & Un & _). fold N in Un. apply Rle_trans with (u * N); [apply Rmult_le_compat_l; lra|exact Un]. }
    assert (Ce : rsum (map (fun _ : list f64 => em b d gs) (G j)) = n * em b d gs) by (apply (RGeom.rsum_const (em b d gs) (G j))).
    set (dd := fun x : list f64 => dist2 (map rv x) (centroid d (exact (G i)))).
    assert (S0 : 0 <= rsum (map dd (G j)) <= n * (4 * Y)).
    { split; [apply RndOps.rsum_pos, Forall_map, Forall_forall; intros x Hx; apply (near_sq x i j Hi Hj Hx)|].
      pose proof (RGeom.rsum_const (4 * Y) (G j)) as C4. change Spec.rsum with rsum in C4. unfold n. rewrite <- C4.
      apply RndOps.rsum_le. intros x Hx. apply (near_sq x i j Hi Hj Hx). }
    assert (HM := M_ok b Hb d Hd gs gne Hg HN). fold D N in HM.
    assert (Hsum : near (fold_left dadd (map (fun x => sq x i) (G j)) (d_of_Z 0)) (rsum (map dd (G j))) (n * em b d gs + 2 * u * (5 * D * N * (b * b)) * n)).
    { rewrite <- Ce. apply (near_psum (fun x => sq x i) dd (fun _ => em b d gs) (5 * D * N * (b * b)) (G j) HM).
      - fold n. lra.
      - intros x Hx. apply (near_sq x i j Hi Hj Hx).
      - pose proof (RGeom.rsum_const (5 * Y) (G j)) as C5. change Spec.rsum with rsum in C5. fold n in C5.
        apply Rle_trans with (n * (5 * Y)).
        + rewrite <- C5. apply RndOps.rsum_le. intros x Hx. destruct (near_sq x i j Hi Hj Hx) as [_ Hr]. fold (dd x) in Hr.
          rewrite (Rabs_pos_eq (dd x)), Eem by lra. lra.
        + replace (5 * D * N * (b * b)) with (N * (5 * Y)) by (unfold Y; ring). apply Rmult_le_compat_r; lra. }
    assert (HnZ : (0 < Z.of_nat (length (G j)) <= 2 ^ 53)%Z).
    { split; [destruct (G j) eqn:Eg; [unfold n in n1; cbn in n1; lra|cbn; lia]|]. apply INR_le in n2. lia. }
    assert (R1 : 0 <= md i j <= 4 * Y).
    { rewrite md_sum. fold dd n. split; [apply Rmult_le_pos; [lra|left; apply Rinv_0_lt_compat; lra]|].
      apply (Rmult_le_reg_r n); [lra|]. unfold Rdiv. rewrite Rmult_assoc, Rinv_l by lra. lra. }
    split; [|exact R1].
    assert (Ee : (n * em b d gs + 2 * u * (5 * D * N * (b * b)) * n) / n = 165 / 380 * lamb + 10 * (u * Y * N)) by (rewrite Eem; unfold Y; field; lra).
    assert (H := near_div_Z _ _ _ _ Hsum HnZ). rewrite <- INR_IZR_INZ in H. fold n in H. rewrite Ee in H.
    rewrite md_sum in R1 |- *. fold dd n in R1 |- *. rewrite (Rabs_pos_eq (rsum (map dd (G j)) / n)) in H by lra.
    eapply near_weaken; [apply H|].
    - rewrite Rabs_pos_eq by lra.
      assert (n * em b d gs + 2 * u * (5 * D * N * (b * b)) * n = n * (165 / 380 * lamb + 10 * (u * Y * N))) by (rewrite Eem; unfold Y; ring).
      assert (n * (4 * Y + (165 / 380 * lamb + 10 * (u * Y * N))) <= N * (6 * Y)) by (apply Rmult_le_compat; try lra; assert (0 <= u * Y * N) by (apply Rmult_le_pos; [apply Rmult_le_pos|]; lra); lra).
      assert (0 <= Y * N) by (apply Rmult_le_pos; lra). lra.
    - set (z := rsum (map dd (G j)) / n) in *. assert (u * (z + (165 / 380 * lamb + 10 * (u * Y * N))) <= u * (6 * Y)) by (apply Rmult_le_compat_l; lra). lra.
  Qed.
  (** by the parallel axis theorem *)
  Lemma md_far i j : (i < k)%nat -> (j < k)%nat -> i <> j -> sep <= md i j.
  Proof.
    intros Hi Hj Hij. assert (Hle : dist i j <= md i j); [|exact (Rle_trans _ _ _ (delta_le d gs Hgs i j Hi Hj Hij) Hle)].
    destruct (Hg (G j) (nth_In _ _ Hj)) as [Hne HF]. set (g := exact (G j)). set (c := centroid d (exact (G i))).
    assert (Wg : wfg d g) by (unfold g, exact, wfg; apply Forall_map; eapply Forall_impl; [|exact HF]; cbn beta; intros x [Lx _]; now rewrite map_length).
    assert (Ng : g <> []) by (unfold g, exact; destruct (G j); [congruence|discriminate]).
    unfold md, mdist. fold g c. rewrite (parallel_axis d g c) by (auto; apply centroid_length).
    assert (n0 : 0 < INR (length g)) by (apply (lt_INR 0); destruct g; [congruence|cbn; lia]).
    assert (Eq : forall s n x : R, 0 < n -> (s + n * x) / n = s / n + x) by (intros; field; lra). rewrite Eq by exact n0.
    assert (P : 0 <= scatter d g / INR (length g)) by (apply Rmult_le_pos; [apply scatter_nonneg|left; now apply Rinv_0_lt_compat]).
    unfold dist, cdist. fold g c. rewrite (dist2_sym c). rewrite <- (Rplus_0_l (dist2 (centroid d g) c)) at 1. apply Rplus_le_compat_r, P.
  Qed.

  (** ** One coefficient *)
  Let bi i : R := rmin (map (md i) (remove_nth i (seq 0 k))).
  Let ai i : R := md i i.
  Let bi' i : f64 := vmin (A := A) (map (fun j => ent j i) (remove_nth i (seq 0 k))).
  Let ce i : R := (bi i - ai i) / Rmax (ai i) (bi i).
  Let ce' i : f64 := ddiv (dsub (bi' i) (ent i i)) (dmax (ent i i) (bi' i)).
  Lemma bi_range i : (i < k)%nat -> sep <= bi i <= 4 * Y.
  Proof.
    intros Hi. assert (H : In (bi i) (map (md i) (remove_nth i (seq 0 k)))).
    { apply rmin_In. intros E. apply map_eq_nil in E. now apply (others_ne d gs Hgs i). }
    apply in_map_iff in H as (j & <- & Hj). apply remove_nth_seq in Hj as [Hj Hij]. specialize (Hij Hi). split.
    - apply md_far; auto.
    - now apply near_ent.
  Qed.
  Lemma near_bi' i : (i < k)%nat -> near (bi' i) (bi i) (lamb / 2).
  Proof.
    intros Hi. apply near_min; [now apply (others_ne d gs Hgs)|]. intros j Hj. apply remove_nth_seq in Hj as [Hj Hij]. now apply near_ent.
  Qed.
  Context (H4 : 4 * lamb <= sep).
  Let rho := lamb / sep.
  Lemma near_ce i : (i < k)%nat -> near (ce' i) (ce i) (9 / 4 * rho) /\ Rabs (ce i) <= 1.
  Proof.
    intros Hi. destruct (lam_pre b Hb d Hd gs Hgs Hg HN) as (U & N1 & Y0 & L1 & LK & L2 & Et & _ & L0 & Tp & Eu).
    fold N D Y k lamb in N1, Y0, L1, LK, L2, Et, L0, Tp.
    destruct (lam_rho b Hb d Hd gs Hgs Hg HN 0 sep 1) as (d0 & HR & _ & _); auto; [lra|change (0 <= 0 <= 4 * Y * 1); lra|apply (delta_range b Hb d Hd gs Hgs Hg HN)|].
    change (lam b d gs / sep) with rho in HR.
    destruct (near_ent i i Hi Hi) as [Na [A0 A1]]. fold (ai i) in Na, A0, A1. pose proof (bi_range i Hi) as [B1 B2]. pose proof (near_bi' i Hi) as Nb.
    set (m := Rmax (ai i) (bi i)). assert (M1 : bi i <= m) by apply Rmax_r. assert (M2 : ai i <= m) by apply Rmax_l.
    assert (Mm : m <= 4 * Y) by (apply Rmax_lub; lra).
    assert (m0 : 0 < m) by lra. assert (Nm : near (dmax (ent i i) (bi' i)) m (lamb / 2)) by (now apply near_dmax).
    assert (Ra : Rabs (bi i - ai i) <= m) by (apply Rabs_le; lra).
    assert (YN : Y <= Y * N) by (rewrite <- (Rmult_1_r Y) at 1; apply Rmult_le_compat_l; lra).
    assert (Nx : near (dsub (bi' i) (ent i i)) (bi i - ai i) (33 / 32 * lamb)).
    { eapply near_weaken; [apply near_sub; [exact Nb|exact Na|]|].
      - rewrite !Rabs_pos_eq by lra. lra.
      - assert (u * (Rabs (bi i - ai i) + (lamb / 2 + lamb / 2)) <= u * (5 * Y)) by (apply Rmult_le_compat_l; lra). lra. }
    assert (X : lamb / m <= rho) by (unfold rho, Rdiv; apply Rmult_le_compat_l; [lra|]; apply Rinv_le_contravar; lra).
    assert (X0 : 0 < lamb / m) by (apply Rmult_lt_0_compat; [lra|now apply Rinv_0_lt_compat]).
    split.
    - unfold ce', ce. fold m. eapply near_weaken; [apply (near_ratio _ _ _ _ _ _ Nx Nm Ra m0); lra|].
      replace ((33 / 32 * lamb + lamb / 2) / m) with (49 / 32 * (lamb / m)) by (field; lra).
      assert (u * (1 + 4 / 3 * (49 / 32 * (lamb / m))) <= u * 2) by (apply Rmult_le_compat_l; lra). lra.
    - unfold ce. fold m. unfold Rdiv. rewrite Rabs_mult, (Rabs_pos_eq (/ m)) by (left; now apply Rinv_0_lt_compat).
      apply (Rmult_le_reg_r m); [lra|]. rewrite Rmult_assoc, Rinv_l by lra. lra.
  Qed.

  (** ** The value *)
  Lemma cSIL_terms : cSIL_formula d (map exact gs) = rsum (map ce (seq 0 k)) / INR k.
  Proof.
    set (X := map exact gs : list (list point)). assert (Lx : length X = k) by apply map_length.
    set (F := fun (g : list point) r => let a := mdist d g g in let b := rmin (map (mdist d g) r) in (b - a) / Rmax a b).
    change (rsum (map (fun p => F (fst p) (snd p)) (selects X)) / INR (length X) = rsum (map ce (seq 0 k)) / INR k).
    rewrite <- (selects_seq F X []), Lx. unfold F. f_equal. f_equal.
    apply map_ext_in. intros i Hi. apply in_seq in Hi. cbv zeta.
    assert (En : forall j, nth j X [] = exact (G j)) by (intros j; unfold X, G; apply (map_nth exact gs [])).
    rewrite En. assert (Er : map (mdist d (exact (G i))) (remove_nth i X) = map (md i) (remove_nth i (seq 0 k))).
    { rewrite <- (remove_nth_map (md i)), <- (remove_nth_map (mdist d (exact (G i)))). f_equal. unfold X. rewrite map_map.
      exact (G_seq gs (fun g => mdist d (exact (G i)) (exact g))). }
    rewrite Er. reflexivity.
  Qed.
  Theorem near_cSIL : near (ddiv (s_sum S (map ce' (seq 0 k))) (d_of_Z (Z.of_nat k))) (cSIL_formula d (map exact gs)) (3 * rho).
  Proof.
    rewrite cSIL_terms. destruct (lam_pre b Hb d Hd gs Hgs Hg HN) as (U & N1 & Y0 & L1 & LK & L2 & Et & _ & L0 & Tp & Eu).
    change (0 < Y) in Y0.
    destruct (lam_rho b Hb d Hd gs Hgs Hg HN 0 sep 1) as (d0 & HR & HK & _); auto; [lra|change (0 <= 0 <= 4 * Y * 1); lra|apply (delta_range b Hb d Hd gs Hgs Hg HN)|].
    change (lam b d gs / sep) with rho in HR, HK. fold k in HK.
    assert (k0 : 2 <= INR k) by (apply (le_INR 2); exact Hgs).
    assert (HkZ : (Z.of_nat k <= 2 ^ 24)%Z).
    { pose proof (k_range b d gs Hg) as K. apply INR_le in K. unfold k. lia. }
    assert (k1 : INR k <= 16777216) by (rewrite INR_IZR_INZ; apply (IZR_le _ (2 ^ 24)); exact HkZ).
    set (kk := INR k) in *. set (er := 9 / 4 * rho).
    assert (Ec : rsum (map (fun _ : nat => er) (seq 0 k)) = kk * er).
    { pose proof (RGeom.rsum_const er (seq 0 k)) as C. rewrite seq_length in C. exact C. }
    assert (Ss : Rabs (rsum (map ce (seq 0 k))) <= kk).
    { assert (H : Rabs (rsum (map ce (seq 0 k))) <= INR (length (map ce (seq 0 k))) * 1).
      - apply rsum_abs, Forall_map, Forall_forall. intros i Hi. apply in_seq in Hi. apply near_ce. lia.
      - rewrite map_length, seq_length, Rmult_1_r in H. exact H. }
    assert (Hs : near (s_sum S (map ce' (seq 0 k))) (rsum (map ce (seq 0 k))) (kk * er + 2 * u * (2 * kk) * kk)).
    { rewrite <- Ec. pose proof (near_summed_near ce' ce (fun _ => er) (2 * kk) (seq 0 k) (s_sum S (map ce' (seq 0 k)))) as H.
      rewrite seq_length in H. apply H; clear H.
      - split.
        + apply Rle_trans with (bpow radix2 0); [apply bpow_le; lia|]. change (bpow radix2 0) with 1. lra.
        + apply Rle_trans with (bpow radix2 26); [change (bpow radix2 26) with 67108864; lra|apply bpow_le; lia].
      - apply (proj1 HS).
      - pose proof Hgs as H. fold k in H. destruct k; [lia|discriminate].
      - intros i Hi. apply in_seq in Hi. apply near_ce. lia.
      - assert (H : rsum (map (fun x => Rabs (ce x) + er) (seq 0 k)) <= kk * 2); [|rewrite (Rmult_comm 2 kk); exact H].
        pose proof (RGeom.rsum_const 2 (seq 0 k)) as C. rewrite seq_length in C. fold kk in C. rewrite <- C. change Spec.rsum with rsum.
        apply RndOps.rsum_le. intros i Hi. apply in_seq in Hi. destruct (near_ce i ltac:(lia)) as [_ Ha]. unfold er. lra.
      - fold kk. assert (u * kk <= u * 16777216) by (apply Rmult_le_compat_l; lra). assert (u * 16777216 <= / 32) by (change (u * bpow radix2 24 <= / 32); unfold u; rewrite <- bpow_plus; change (/ 32) with (bpow radix2 (-5)); apply bpow_le; lia). lra. }
    assert (HkZ' : (0 < Z.of_nat k <= 2 ^ 53)%Z) by (pose proof Hgs as H; fold k in H; lia).
    assert (H := near_div_Z _ _ _ _ Hs HkZ'). rewrite <- INR_IZR_INZ in H. fold kk in H.
    replace ((kk * er + 2 * u * (2 * kk) * kk) / kk) with (er + 4 * (u * kk)) in H by (field; lra).
    assert (Uk : 0 < u * kk) by (apply Rmult_lt_0_compat; lra).
    assert (Q : Rabs (rsum (map ce (seq 0 k)) / kk) <= 1).
    { unfold Rdiv. rewrite Rabs_mult, (Rabs_pos_eq (/ kk)) by (left; apply Rinv_0_lt_compat; lra).
      apply (Rmult_le_reg_r kk); [lra|]. rewrite Rmult_assoc, Rinv_l by lra. lra. }
    eapply near_weaken; [apply H|].
    - pose proof one_top. replace (kk * er + 2 * u * (2 * kk) * kk) with (kk * (er + 4 * (u * kk))) by ring.
      assert (kk * (er + 4 * (u * kk)) <= kk * 1) by (apply Rmult_le_compat_l; unfold er; lra).
      assert (33554432 <= top) by (change 33554432 with (bpow radix2 25); apply bpow_le; lia). lra.
    - assert (u * (Rabs (rsum (map ce (seq 0 k)) / kk) + (er + 4 * (u * kk))) <= u * 2) by (apply Rmult_le_compat_l; unfold er; lra).
      unfold er in *. lra.
  Qed.
End Sil.
