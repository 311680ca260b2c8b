(** * The values of XB, DB, GD43 and GD53 with a rounding level [lam] of the entries *)
From Coq Require Import ZArith Reals Lia Lra SpecFloat Psatz List Permutation.
From Flocq Require Import Core Relative.
From Verif Require Import Num NumPy Base GetCvi Lists Step Eval Stream RunForm BatchForm F64 F64o Rnd RndErr RndMean RndSum RndCl RndCP RndCP2 RndCP3 RndCP4 RndOps RndVal RndCH RndSel RndVal2 Spec RGeom XPerm XEval P_Round.
Import ListNotations.
Local Open Scope R_scope.
Local Notation R := Rdefinitions.R.
Local Notation nanv := S754_nan.
Local Notation rsum := RndMean.rsum.

Section Val2E.
  Context (L : Libm) (S : Sums).
  Notation A := (F64o L S).
  Context (b : R) (Hb : lo2 <= b <= hi2 / 2) (d : nat) (Hd : (1 <= Z.of_nat d <= 2 ^ 20)%Z).
  Context (gs : list (list (list f64))) (Hgs : (2 <= length gs)%nat).
  Context (Hg : forall g, In g gs -> g <> [] /\ Forall (fun x => length x = d /\ Forall (ok_in b) x) g).
  Context (HN : (Z.of_nat (length (concat gs)) <= 2 ^ 24)%Z).
  Let D := INR d.
  Let N := INR (length (concat gs)).
  Let T := u * (b * b).
  Let nn (g : list (list f64)) := INR (length g).
  Let k := length gs.
  Let Y := D * (b * b).
  Let G i := nth i gs [].
  Let dist i j := cdist d (exact (G i)) (exact (G j)).
  Context (lam : R) (Hlam : 380 * (u * Y) * INR k <= lam <= Y).
  Let sepmin := sepmin d gs.
  Let mmax := mmax d gs.
  Lemma gs_neE : gs <> [].
  Proof. exact (RndVal2.gs_ne b d gs Hgs Hg HN). Qed.
  Lemma G_inE : forall i, (i < k)%nat -> In (G i) gs.
  Proof. exact (RndVal2.G_in gs). Qed.
  Lemma G_seqE {X} (F : list (list f64) -> X) : map F gs = map (fun i => F (G i)) (seq 0 k).
  Proof. exact (RndVal2.G_seq gs F). Qed.
  Lemma Y_rangeE : forall i j, (i < k)%nat -> (j < k)%nat -> 0 <= dist i j <= 4 * Y.
  Proof. exact (RndVal2.Y_range b Hb d Hd gs Hgs Hg HN). Qed.
  Lemma mse_rangeE : forall i, (i < k)%nat -> 0 <= mse d (exact (G i)) <= 4 * Y.
  Proof. exact (RndVal2.mse_range b Hb d Hd gs Hgs Hg HN). Qed.
  Lemma idx_pairsE : forall (F : list point -> list point -> R),
    map (fun p => F (fst p) (snd p)) (pairs (map exact gs)) = map (fun p => F (exact (G (fst p))) (exact (G (snd p)))) (pairs (seq 0 k)).
  Proof. exact (RndVal2.idx_pairs gs). Qed.
  Lemma idx_neE : pairs (seq 0 k) <> [].
  Proof. exact (RndVal2.idx_ne gs Hgs). Qed.
  Lemma delta_leE : forall i j, (i < k)%nat -> (j < k)%nat -> i <> j -> sepmin <= dist i j.
  Proof. exact (RndVal2.delta_le d gs Hgs). Qed.
  Lemma delta_rangeE : sepmin <= 4 * Y.
  Proof. exact (RndVal2.delta_range b Hb d Hd gs Hgs Hg HN). Qed.
  Lemma mmax_rangeE : 0 <= mmax <= 4 * Y.
  Proof. exact (RndVal2.mmax_range b Hb d Hd gs Hgs Hg HN). Qed.
  Lemma lam_preE : 0 < u <= / 1000000 /\ 1 <= N /\ 0 < Y /\ 380 * (u * Y) <= lam /\ 380 * (u * Y) * INR k <= lam /\ lam <= Y /\ eta <= / 1000000 * lam /\
    bpow radix2 (-800) <= Y <= bpow radix2 818 /\ 0 < lam /\ 1000 * Y * N <= top /\ eta <= / 1000000 * u.
  Proof.
    destruct (lam_pre b Hb d Hd gs Hgs Hg HN) as (U & N1 & Y0 & _ & _ & _ & _ & YR & _ & Tp & Eu). fold N in N1, Tp. fold D in Y0, YR, Tp. fold Y in Y0, YR, Tp.
    assert (k2 : 2 <= INR k) by (apply (le_INR 2); exact Hgs). destruct Hlam as [L1 L2].
    assert (UY : 0 < u * Y) by (apply Rmult_lt_0_compat; lra).
    assert (L3 : 380 * (u * Y) <= lam) by nra.
    assert (Et : eta <= / 1000000 * lam).
    { apply Rle_trans with (/ 1000000 * (u * Y)); [|lra]. apply Rle_trans with (u * u * Y).
      - apply Rle_trans with (u * u * bpow radix2 (-800)); [unfold eta, u; rewrite <- !bpow_plus; apply bpow_le; lia|].
        apply Rmult_le_compat_l; [apply Rmult_le_pos; lra|lra].
      - rewrite Rmult_assoc. apply Rmult_le_compat_r; lra. }
    repeat split; auto; lra.
  Qed.


  (** ** Mean squared distances *)
  Let cp_near (f : list (list f64) -> f64) := forall g, In g gs -> near (f g) (scatter d (exact g)) (369 / 380 * lam * nn g).
  Lemma near_mseE f i : cp_near f -> (i < k)%nat -> near (ddiv (f (G i)) (d_of_Z (Z.of_nat (length (G i))))) (mse d (exact (G i))) (749 / 760 * lam).
  Proof.
    intros Hf Hi. destruct lam_preE as (U & N1 & Y0 & L1 & _ & L2 & Et & _ & L0 & Tp & _).
    pose proof (mse_rangeE i Hi) as [M0 M1]. apply G_inE in Hi. specialize (Hf _ Hi).
    destruct (n_range b d gs Hg _ Hi) as [n1 n2]. fold N in n2.
    destruct (scatter_range b Hb d Hd gs gs_neE Hg HN _ Hi) as [S1 S2]. change (INR d) with D in S2.
    fold (nn (G i)) in n1, n2, S2. set (n := nn (G i)) in *.
    assert (En : 369 / 380 * lam * n / n = 369 / 380 * lam) by (field; lra).
    unfold mse in M0, M1 |- *. rewrite exact_length in M0, M1 |- *. change (INR (length (G i))) with n in M0, M1 |- *.
    assert (HZ : (0 < Z.of_nat (length (G i)) <= 2 ^ 53)%Z).
    { assert (H1 : INR (length (G i)) <= INR (length (concat gs))) by exact n2. apply INR_le in H1.
      assert (H2 : INR 0 < INR (length (G i))) by (apply Rlt_le_trans with 1; [cbn; lra|exact n1]). apply INR_lt in H2. lia. }
    assert (Ez : IZR (Z.of_nat (length (G i))) = n) by (symmetry; apply INR_IZR_INZ).
    assert (En' : 369 / 380 * lam * n <= Y * N) by (apply Rmult_le_compat; lra).
    assert (En0 : 0 <= 369 / 380 * lam * n) by (apply Rmult_le_pos; lra).
    assert (S3 : scatter d (exact (G i)) <= 4 * Y * N).
    { eapply Rle_trans; [exact S2|]. replace (4 * D * (b * b) * n) with (4 * Y * n) by (unfold Y; ring). apply Rmult_le_compat_l; lra. }
    assert (YN : 0 <= Y * N) by (apply Rmult_le_pos; lra).
    assert (H := near_div_Z _ _ _ _ Hf HZ). rewrite Ez, En in H.
    eapply near_weaken; [apply H; rewrite Rabs_pos_eq; lra|]. rewrite Rabs_pos_eq by lra.
    set (w := 369 / 380 * lam) in *.
    assert (W : w <= 369 / 380 * lam) by (unfold w; lra). assert (W0 : 0 <= w) by (unfold w; lra). clearbody w.
    assert (u * (scatter d (exact (G i)) / n + w) <= u * (5 * Y)) by (apply Rmult_le_compat_l; lra). lra.
  Qed.

  (** the denominator of GD43 and GD53 *)
  Lemma near_2mmaxE f : cp_near f ->
    near (dmul (d_of_Z 2) (vmax (A := A) (map (fun g => ddiv (f g) (d_of_Z (Z.of_nat (length g)))) gs))) (2 * mmax) (2 * lam).
  Proof.
    intros Hf. destruct lam_preE as (U & N1 & Y0 & L1 & _ & L2 & Et & _ & L0 & Tp & _). pose proof mmax_rangeE as [M0 M1].
    assert (H : near (vmax (A := A) (map (fun g => ddiv (f g) (d_of_Z (Z.of_nat (length g)))) gs)) mmax (749 / 760 * lam)).
    { unfold mmax, RndVal2.mmax. rewrite map_map, !G_seqE. apply near_max.
      - pose proof Hgs as H. fold k in H. destruct k; [lia|discriminate].
      - intros i Hi. apply in_seq in Hi. apply near_mseE; auto. lia. }
    assert (YN : Y <= Y * N) by (rewrite <- (Rmult_1_r Y) at 1; apply Rmult_le_compat_l; lra).
    assert (H2 : near (d_of_Z 2) 2 0) by (apply (near_Z 2); lia).
    eapply near_weaken; [apply near_mul; [exact H2|exact H|]|].
    - rewrite !Rabs_pos_eq by lra. lra.
    - rewrite !Rabs_pos_eq by lra. assert (u * (2 * mmax + (2 * (749 / 760 * lam) + mmax * 0 + 0 * (749 / 760 * lam))) <= u * (10 * Y)) by (apply Rmult_le_compat_l; lra). lra.
  Qed.
  (** a quotient [a / c] whose terms are as large as mean squared distances *)
  Lemma lam_rhoE a c m : 0 < m -> 4 * lam <= c -> 0 <= a <= 4 * Y * m -> c <= 4 * Y ->
    0 < c /\ 64 * u <= lam / c <= / 4 /\ 95 * u * INR k <= lam / c /\ 0 <= a / (m * c) <= / u.
  Proof.
    intros m0 H4 Ha Hc. destruct lam_preE as (U & N1 & Y0 & L1 & LK & L2 & Et & _ & L0 & Tp & _).
    assert (c0 : 0 < c) by lra. split; [exact c0|]. assert (ic : 0 < / c) by (now apply Rinv_0_lt_compat).
    assert (cc : c * / c = 1) by (field; lra).
    assert (P1 : u * 1 <= u * (4 * Y) * / c).
    { rewrite <- cc, <- (Rmult_assoc u c (/ c)). apply Rmult_le_compat_r; [lra|]. apply Rmult_le_compat_l; lra. }
    assert (K0 : 0 <= INR k) by apply pos_INR.
    split; [split|split; [|split]].
    - unfold Rdiv. apply Rle_trans with (380 * (u * Y) * / c); [|apply Rmult_le_compat_r; lra]. lra.
    - unfold Rdiv. assert (4 * lam * / c <= c * / c) by (apply Rmult_le_compat_r; lra). lra.
    - unfold Rdiv. apply Rle_trans with (380 * (u * Y) * INR k * / c); [|apply Rmult_le_compat_r; lra].
      assert (u * 1 * INR k <= u * (4 * Y) * / c * INR k) by (apply Rmult_le_compat_r; lra). lra.
    - unfold Rdiv. rewrite Rinv_mult. apply Rmult_le_pos; [lra|]. apply Rmult_le_pos; [left; now apply Rinv_0_lt_compat|lra].
    - apply (Rmult_le_reg_l u); [lra|]. rewrite Rinv_r by lra.
      replace (u * (a / (m * c))) with (u * (a * / m) * / c) by (field; lra). rewrite <- cc. apply Rmult_le_compat_r; [lra|].
      assert (a * / m <= 4 * Y).
      { apply (Rmult_le_reg_r m); [lra|]. rewrite Rmult_assoc, Rinv_l, Rmult_1_r by lra. lra. }
      apply Rle_trans with (u * (4 * Y)); [apply Rmult_le_compat_l; lra|]. lra.
  Qed.

  Let up_near (e : nat -> nat -> f64) := forall i j, (i < j < k)%nat -> near (e i j) (dist i j) (165 / 380 * lam).
  Lemma near_deltaE e : up_near e -> near (vmin (A := A) (triu (A := A) k e)) sepmin (165 / 380 * lam).
  Proof.
    intros He. unfold sepmin, RndVal2.sepmin. rewrite (idx_pairsE (cdist d)), triu_idx. apply near_min; [exact idx_neE|].
    intros p Hp. apply pairs_seq_in in Hp. apply (He (fst p) (snd p)). lia.
  Qed.

  Theorem near_XBE f e : near (fold_left dadd (map f gs) (d_of_Z 0)) (wgss d (map exact gs)) (lam * N) -> up_near e -> 4 * lam <= sepmin ->
    near (ddiv (fold_left dadd (map f gs) (d_of_Z 0)) (dmul (d_of_Z (Z.of_nat (length (concat gs)))) (vmin (A := A) (triu (A := A) k e))))
      (XB_formula d (map exact gs)) (2 * (lam / sepmin) * (1 + XB_formula d (map exact gs))).
  Proof.
    intros HW He H4. destruct lam_preE as (U & N1 & Y0 & L1 & LK & L2 & Et & _ & L0 & Tp & _).
    pose proof delta_rangeE as D1.
    pose proof (wgss_range b Hb d Hd gs gs_neE Hg HN) as RW. change (INR d) with D in RW. change (INR (length (concat gs))) with N in RW.
    replace (4 * D * (b * b) * N) with (4 * Y * N) in RW by (unfold Y; ring).
    destruct (lam_rhoE (wgss d (map exact gs)) sepmin N) as (D0 & HR & _ & HQ); auto; [lra|].
    assert (EF : XB_formula d (map exact gs) = wgss d (map exact gs) / (N * sepmin)).
    { unfold XB_formula, nsamp. rewrite exact_concat, exact_length. reflexivity. }
    assert (YN : 0 <= Y * N) by (apply Rmult_le_pos; lra).
    assert (LN : lam * N <= Y * N) by (apply Rmult_le_compat_r; lra).
    assert (DN : N * sepmin <= 4 * (Y * N)) by (replace (4 * (Y * N)) with (N * (4 * Y)) by ring; apply Rmult_le_compat_l; lra).
    assert (DP : 0 <= N * sepmin) by (apply Rmult_le_pos; lra). assert (LP : lam <= lam * N) by (rewrite <- (Rmult_1_r lam) at 1; apply Rmult_le_compat_l; lra).
    assert (HD : near (dmul (d_of_Z (Z.of_nat (length (concat gs)))) (vmin (A := A) (triu (A := A) k e))) (N * sepmin) (lam * N)).
    { assert (H1 : near (d_of_Z (Z.of_nat (length (concat gs)))) N 0) by (unfold N; rewrite INR_IZR_INZ; apply near_Z; lia).
      eapply near_weaken; [apply near_mul; [exact H1|exact (near_deltaE e He)|]|].
      - rewrite !Rabs_pos_eq by lra. replace ((N + 0) * (sepmin + 165 / 380 * lam)) with (N * sepmin + 165 / 380 * (lam * N)) by ring. lra.
      - rewrite !Rabs_pos_eq by lra.
        replace (N * (165 / 380 * lam) + sepmin * 0 + 0 * (165 / 380 * lam)) with (165 / 380 * (lam * N)) by ring.
        assert (u * (N * sepmin + 165 / 380 * (lam * N)) <= u * (5 * (Y * N))) by (apply Rmult_le_compat_l; lra).
        assert (UN : 380 * (u * Y) * N <= lam * N) by (apply Rmult_le_compat_r; lra). lra. }
    assert (El : lam * N = lam / sepmin * (N * sepmin)) by (field; lra).
    rewrite El in HW, HD. rewrite EF.
    assert (NP : 0 < N * sepmin) by (apply Rmult_lt_0_compat; lra).
    eapply near_weaken; [exact (near_quot_rho _ _ _ _ _ HW HD (proj1 RW) NP HR (proj2 HQ))|].
    set (q := wgss d (map exact gs) / (N * sepmin)) in *. 
    assert (0 <= lam / sepmin * (1 + q)) by (apply Rmult_le_pos; lra). lra.
  Qed.

  (** ** GD53 *)
  Let pool i j := (scatter d (exact (G i)) + scatter d (exact (G j))) / (nn (G i) + nn (G j)).
  Lemma pool_rangeE : forall i j, (i < k)%nat -> (j < k)%nat -> 0 <= pool i j <= 4 * Y.
  Proof. exact (RndVal2.pool_range b Hb d Hd gs Hgs Hg HN). Qed.
  Lemma near_poolE x y i j : near x (scatter d (exact (G i))) (369 / 380 * lam * nn (G i)) ->
    near y (scatter d (exact (G j))) (369 / 380 * lam * nn (G j)) -> (i < k)%nat -> (j < k)%nat ->
    near (ddiv (dadd x y) (d_of_Z (Z.of_nat (length (G i) + length (G j))))) (pool i j) lam.
  Proof.
    intros Fi Fj Hi Hj. destruct lam_preE as (U & N1 & Y0 & L1 & _ & L2 & Et & _ & L0 & Tp & _).
    pose proof (pool_rangeE i j Hi Hj) as [P0 P1]. apply G_inE in Hi, Hj.
    destruct (scatter_range b Hb d Hd gs gs_neE Hg HN _ Hi) as [S1 S2]. destruct (scatter_range b Hb d Hd gs gs_neE Hg HN _ Hj) as [S3 S4].
    destruct (n_range b d gs Hg _ Hi) as [n1 n1']. destruct (n_range b d gs Hg _ Hj) as [n2 n2'].
    assert (HZ : (0 < Z.of_nat (length (G i) + length (G j)) <= 2 ^ 53)%Z).
    { assert (H1 : INR (length (G i)) <= INR (length (concat gs))) by exact n1'. apply INR_le in H1.
      assert (H2 : INR (length (G j)) <= INR (length (concat gs))) by exact n2'. apply INR_le in H2.
      assert (H3 : INR 0 < INR (length (G i))) by (apply Rlt_le_trans with 1; [cbn; lra|exact n1]). apply INR_lt in H3. lia. }
    assert (Ez : IZR (Z.of_nat (length (G i) + length (G j))) = nn (G i) + nn (G j)) by (rewrite <- INR_IZR_INZ; apply plus_INR).
    change (INR (length (G i))) with (nn (G i)) in *. change (INR (length (G j))) with (nn (G j)) in *. change (INR d) with D in S2, S4. fold N in n1', n2'.
    unfold pool in *. set (p := nn (G i)) in *. set (q := nn (G j)) in *. set (s := scatter d (exact (G i))) in *. set (t := scatter d (exact (G j))) in *.
    set (m := p + q) in *. assert (m2 : 2 <= m <= 2 * N) by (unfold m; lra).
    assert (Hm : s + t <= 4 * Y * m).
    { unfold m, Y. replace (4 * (D * (b * b)) * (p + q)) with (4 * D * (b * b) * p + 4 * D * (b * b) * q) by ring. lra. }
    assert (He : 369 / 380 * lam * p + 369 / 380 * lam * q <= 369 / 380 * lam * m) by (unfold m; lra).
    assert (E1p : 0 <= 369 / 380 * lam * p) by (apply Rmult_le_pos; lra). assert (E2p : 0 <= 369 / 380 * lam * q) by (apply Rmult_le_pos; lra).
    set (e1 := 369 / 380 * lam * p) in *. set (e2 := 369 / 380 * lam * q) in *.
    assert (YM : 0 <= Y * m <= 2 * (Y * N)).
    { split; [apply Rmult_le_pos; lra|]. replace (2 * (Y * N)) with (Y * (2 * N)) by ring. apply Rmult_le_compat_l; lra. }
    assert (LM : lam * m <= Y * m) by (apply Rmult_le_compat_r; lra). assert (lm0 : lam <= lam * m) by (rewrite <- (Rmult_1_r lam) at 1; apply Rmult_le_compat_l; lra).
    assert (UL : 380 * (u * (Y * m)) <= lam * m) by (replace (380 * (u * (Y * m))) with (380 * (u * Y) * m) by ring; apply Rmult_le_compat_r; lra).
    assert (HA : near (dadd x y) (s + t) (374 / 380 * lam * m + 1 / 380 * lam)).
    { eapply near_weaken; [apply near_add; [exact Fi|exact Fj|]|].
      - rewrite !Rabs_pos_eq by lra. lra.
      - rewrite !Rabs_pos_eq by lra. assert (u * (s + t + (e1 + e2)) <= u * (5 * (Y * m))) by (apply Rmult_le_compat_l; lra). lra. }
    pose proof (near_div_Z _ _ _ _ HA HZ) as H. rewrite Ez in H.
    eapply near_weaken; [apply H; rewrite Rabs_pos_eq by lra; lra|]. rewrite Rabs_pos_eq by lra.
    replace ((374 / 380 * lam * m + 1 / 380 * lam) / m) with (374 / 380 * lam + 1 / 380 * lam / m) by (field; lra).
    assert (X1 : 0 <= 1 / 380 * lam / m <= / 760 * lam).
    { split; [apply Rmult_le_pos; [lra|left; apply Rinv_0_lt_compat; lra]|].
      apply (Rmult_le_reg_r m); [lra|]. unfold Rdiv. rewrite Rmult_assoc, Rinv_l, Rmult_1_r by lra.
      assert (lam * 2 <= lam * m) by (apply Rmult_le_compat_l; lra). lra. }
    set (w := 1 / 380 * lam / m) in *. clearbody w.
    assert (u * ((s + t) / m + (374 / 380 * lam + w)) <= u * (5 * Y)) by (apply Rmult_le_compat_l; lra). lra.
  Qed.

  Lemma rmin_rangeE : forall (r : nat -> nat -> R), (forall i j, (i < j < k)%nat -> 0 <= r i j <= 4 * Y) ->
    0 <= rmin (map (fun p => r (fst p) (snd p)) (pairs (seq 0 k))) <= 4 * Y.
  Proof. exact (RndVal2.rmin_range b d gs Hgs). Qed.
  Theorem near_GD53E f e : cp_near f -> (forall i j, (i < j < k)%nat -> near (e i j) (pool i j) lam) -> 4 * lam <= mmax ->
    near (ddiv (vmin (A := A) (triu (A := A) k e)) (dmul (d_of_Z 2) (vmax (A := A) (map (fun g => ddiv (f g) (d_of_Z (Z.of_nat (length g)))) gs))))
      (GD53_formula d (map exact gs)) (2 * (lam / mmax) * (1 + GD53_formula d (map exact gs))).
  Proof.
    intros Hf He H4. destruct lam_preE as (U & N1 & Y0 & L1 & LK & L2 & Et & _ & L0 & Tp & _).
    pose proof mmax_rangeE as [M0 M1].
    assert (RP := rmin_rangeE pool ltac:(intros; apply pool_rangeE; lia)).
    set (a := rmin (map (fun p => pool (fst p) (snd p)) (pairs (seq 0 k)))) in *.
    assert (EF : GD53_formula d (map exact gs) = a / (2 * mmax)).
    { unfold GD53_formula. change (rmax (map (mse d) (map exact gs))) with mmax. f_equal. unfold a. f_equal.
      etransitivity; [exact (idx_pairsE (fun g h => (scatter d g + scatter d h) / (INR (length g) + INR (length h))))|].
      apply map_ext. intros p. unfold pool, nn. now rewrite !exact_length. }
    assert (HA : near (vmin (A := A) (triu (A := A) k e)) a lam).
    { rewrite triu_idx. apply near_min; [exact idx_neE|]. intros p Hp. apply pairs_seq_in in Hp. apply He. lia. }
    destruct (lam_rhoE a mmax 2) as (m0 & HR & _ & HQ); auto; [lra|lra|].
    pose proof (near_2mmaxE f Hf) as HC.
    assert (El : 2 * lam = lam / mmax * (2 * mmax)) by (field; lra).
    assert (HA' : near (vmin (A := A) (triu (A := A) k e)) a (lam / mmax * (2 * mmax))) by (eapply near_weaken; [exact HA|]; lra).
    rewrite El in HC. rewrite EF.
    eapply near_weaken; [apply (near_quot_rho _ _ _ _ _ HA' HC); try tauto; lra|].
    assert (0 <= lam / mmax * (1 + a / (2 * mmax))) by (apply Rmult_le_pos; lra). lra.
  Qed.

  (** ** GD43 *)
  Lemma near_rootE z i j : (i < k)%nat -> (j < k)%nat -> i <> j -> 4 * lam <= sepmin -> near z (dist i j) (165 / 380 * lam) ->
    near (dsqrt z) (sqrt (dist i j)) (lam / (2 * sqrt sepmin)).
  Proof.
    intros Hi Hj Hij H4 Hz. destruct lam_preE as (U & N1 & Y0 & L1 & LK & L2 & Et & (Y1 & Y2) & L0 & Tp & _).
    pose proof (Y_rangeE i j Hi Hj) as [D0 D1]. pose proof (delta_leE i j Hi Hj Hij) as D2.
    assert (s0 : 0 < sqrt sepmin) by (apply sqrt_lt_R0; lra).
    assert (s1 : sqrt sepmin <= sqrt (dist i j)) by (apply sqrt_le_1_alt; lra).
    assert (s2 : sqrt (dist i j) <= 2 * sqrt Y).
    { replace 2 with (sqrt 4) by (apply sqrt_lem_1; lra). rewrite <- sqrt_mult by lra. apply sqrt_le_1_alt. lra. }
    set (y := sqrt Y) in *. assert (y0 : 0 < y) by (apply sqrt_lt_R0; lra). assert (yy : y * y = Y) by (apply sqrt_sqrt; lra).
    assert (is0 : 0 < / sqrt sepmin) by (now apply Rinv_0_lt_compat).
    assert (Q : 190 * (u * y) <= lam / sqrt sepmin).
    { apply (Rmult_le_reg_r (sqrt sepmin)); [lra|]. unfold Rdiv. rewrite (Rmult_assoc lam), Rinv_l, Rmult_1_r by lra.
      apply Rle_trans with (190 * (u * y) * (2 * y)).
      - apply Rmult_le_compat_l; [|lra]. apply Rmult_le_pos; [lra|]. apply Rmult_le_pos; lra.
      - replace (190 * (u * y) * (2 * y)) with (380 * (u * (y * y))) by ring. rewrite yy. lra. }
    assert (y1 : bpow radix2 (-400) <= y).
    { apply Rsqr_incr_0_var; [|lra]. unfold Rsqr. rewrite yy, <- bpow_plus. exact Y1. }
    assert (Ey : eta <= / 1000000 * (u * y)).
    { apply Rle_trans with (u * u * y); [|rewrite Rmult_assoc; apply Rmult_le_compat_r; [apply Rmult_le_pos; lra|lra]].
      apply Rle_trans with (u * u * bpow radix2 (-400)); [unfold eta, u; rewrite <- !bpow_plus; apply bpow_le; lia|].
      apply Rmult_le_compat_l; [apply Rmult_le_pos; lra|lra]. }
    assert (uy : 0 < u * y) by (apply Rmult_lt_0_compat; lra).
    assert (E1 : 165 / 380 * lam / sqrt (dist i j) <= 165 / 380 * (lam / sqrt sepmin)).
    { unfold Rdiv. rewrite !Rmult_assoc. apply Rmult_le_compat_l; [lra|]. apply Rmult_le_compat_l; [lra|].
      apply Rmult_le_compat_l; [lra|]. apply Rinv_le_contravar; lra. }
    eapply near_weaken; [apply near_sqrt; [exact Hz|lra|lra]|].
    assert (E0 : 0 <= 165 / 380 * lam / sqrt (dist i j)).
    { apply Rmult_le_pos; [lra|]. left. apply Rinv_0_lt_compat. lra. }
    set (E := 165 / 380 * lam / sqrt (dist i j)) in *. 
    replace (lam / (2 * sqrt sepmin)) with (/ 2 * (lam / sqrt sepmin)) by (field; lra). set (Z := lam / sqrt sepmin) in *. clearbody E Z.
    assert (u * E <= / 1000000 * E) by (apply Rmult_le_compat_r; lra).
    assert (u * (sqrt (dist i j) + E) <= 2 * (u * y) + / 1000000 * E).
    { rewrite Rmult_plus_distr_l. assert (u * sqrt (dist i j) <= u * (2 * y)) by (apply Rmult_le_compat_l; lra). lra. }
    lra.
  Qed.
  Theorem near_GD43E f e : cp_near f -> (forall i j, (i < j < k)%nat -> near (e i j) (sqrt (dist i j)) (lam / (2 * sqrt sepmin))) ->
    4 * lam <= sepmin -> 4 * lam <= mmax ->
    near (ddiv (vmin (A := A) (triu (A := A) k e)) (dmul (d_of_Z 2) (vmax (A := A) (map (fun g => ddiv (f g) (d_of_Z (Z.of_nat (length g)))) gs))))
      (GD43_formula d (map exact gs)) (2 * (lam / sepmin + lam / mmax) * GD43_formula d (map exact gs)).
  Proof.
    intros Hf He H4 H4'. destruct lam_preE as (U & N1 & Y0 & L1 & LK & L2 & Et & (Y1 & Y2) & L0 & Tp & Eu).
    pose proof mmax_rangeE as [M0 M1]. pose proof delta_rangeE as D1.
    assert (s0 : 0 < sqrt sepmin) by (apply sqrt_lt_R0; lra). assert (ss : sqrt sepmin * sqrt sepmin = sepmin) by (apply sqrt_sqrt; lra).
    assert (EF : GD43_formula d (map exact gs) = sqrt sepmin / (2 * mmax)).
    { unfold GD43_formula. change (rmax (map (mse d) (map exact gs))) with mmax. f_equal. unfold sepmin, RndVal2.sepmin. rewrite (rmin_sqrt (fun p : list point * list point => cdist d (fst p) (snd p))); [reflexivity|].
      apply pairs_ne. rewrite map_length. exact Hgs. }
    assert (HA : near (vmin (A := A) (triu (A := A) k e)) (sqrt sepmin) (lam / (2 * sqrt sepmin))).
    { unfold sepmin at 1. unfold RndVal2.sepmin. rewrite <- (rmin_sqrt (fun p : list point * list point => cdist d (fst p) (snd p))) by (apply pairs_ne; rewrite map_length; exact Hgs).
      rewrite (idx_pairsE (fun g h => sqrt (cdist d g h))), triu_idx. apply near_min; [exact idx_neE|].
      intros p Hp. apply pairs_seq_in in Hp. apply He. lia. }
    pose proof (near_2mmaxE f Hf) as HC. rewrite EF.
    destruct (lam_rhoE 0 sepmin 1) as (_ & HR1 & _); auto; [lra|lra|]. destruct (lam_rhoE 0 mmax 1) as (m0 & HR2 & _); auto; [lra|lra|].
    set (q := sqrt sepmin / (2 * mmax)) in *. set (r1 := lam / sepmin) in *. set (r2 := lam / mmax) in *.
    assert (q0 : 0 < q) by (apply Rmult_lt_0_compat; [lra|apply Rinv_0_lt_compat; lra]).
    assert (qq : q * q = sepmin / (4 * (mmax * mmax))) by (unfold q; rewrite <- ss at 3; field; lra).
    assert (mm : 0 < mmax * mmax) by (now apply Rmult_lt_0_compat). 
    (* the quotient is neither too small nor too large *)
    assert (Q1 : bpow radix2 (-440) <= q).
    { apply Rsqr_incr_0_var; [|lra]. unfold Rsqr. rewrite qq. apply (Rmult_le_reg_r (4 * (mmax * mmax))); [lra|].
      replace (sepmin / (4 * (mmax * mmax)) * (4 * (mmax * mmax))) with sepmin by (field; lra).
      apply Rle_trans with (bpow radix2 (-880) * (64 * (Y * Y))).
      - rewrite <- bpow_plus. apply Rmult_le_compat_l; [apply bpow_ge_0|].
        assert (mmax * mmax <= 4 * Y * (4 * Y)) by (apply Rmult_le_compat; lra). lra.
      - apply Rle_trans with (u * Y); [|lra]. rewrite <- !Rmult_assoc. apply Rmult_le_compat_r; [lra|].
        apply Rle_trans with (bpow radix2 (-880) * bpow radix2 6 * bpow radix2 818).
        + change (bpow radix2 6) with 64. apply Rmult_le_compat_l; [|lra]. apply Rmult_le_pos; [apply bpow_ge_0|lra].
        + rewrite <- !bpow_plus. apply bpow_le. lia. }
    assert (Q2 : q <= bpow radix2 460).
    { apply Rsqr_incr_0_var; [|apply bpow_ge_0]. unfold Rsqr. rewrite qq. apply (Rmult_le_reg_r (4 * (mmax * mmax))); [lra|].
      replace (sepmin / (4 * (mmax * mmax)) * (4 * (mmax * mmax))) with sepmin by (field; lra).
      apply Rle_trans with (4 * Y); [lra|]. rewrite <- bpow_plus.
      assert (W : u * Y * (u * Y) <= mmax * mmax) by (assert (0 < u * Y) by (apply Rmult_lt_0_compat; lra); apply Rmult_le_compat; lra).
      apply Rle_trans with (bpow radix2 920 * (4 * (u * Y * (u * Y)))); [|apply Rmult_le_compat_l; [apply bpow_ge_0|lra]].
      replace (bpow radix2 920 * (4 * (u * Y * (u * Y)))) with (4 * Y * (bpow radix2 920 * (u * u) * Y)) by ring.
      rewrite <- (Rmult_1_r (4 * Y)) at 1. apply Rmult_le_compat_l; [lra|].
      apply Rle_trans with (bpow radix2 920 * (u * u) * bpow radix2 (-800)).
      - unfold u. rewrite <- !bpow_plus. change 1 with (bpow radix2 0). apply bpow_le. lia.
      - apply Rmult_le_compat_l; [|lra]. apply Rmult_le_pos; [apply bpow_ge_0|apply Rmult_le_pos; lra]. }
    assert (Eq : eta <= / 1000000 * (u * q)).
    { apply Rle_trans with (u * u * q); [|rewrite Rmult_assoc; apply Rmult_le_compat_r; [apply Rmult_le_pos; lra|lra]].
      apply Rle_trans with (u * u * bpow radix2 (-440)); [unfold eta, u; rewrite <- !bpow_plus; apply bpow_le; lia|].
      apply Rmult_le_compat_l; [apply Rmult_le_pos; lra|lra]. }
    assert (EE : 4 / 3 * ((lam / (2 * sqrt sepmin) + q * (2 * lam)) / (2 * mmax)) = 2 / 3 * (r1 * q) + 4 / 3 * (r2 * q)).
    { assert (Er : r1 = lam / (sqrt sepmin * sqrt sepmin)) by (unfold r1; now rewrite ss). rewrite Er. unfold r2, q. field. lra. }
    assert (R1 : 0 <= r1 * q <= / 4 * q) by (split; [apply Rmult_le_pos; lra|apply Rmult_le_compat_r; lra]).
    assert (R2 : 64 * (u * q) <= r2 * q <= / 4 * q) by (split; [rewrite <- Rmult_assoc; apply Rmult_le_compat_r; lra|apply Rmult_le_compat_r; lra]).
    pose proof (near_quot _ _ _ _ _ _ HA HC) as H. cbv zeta in H. fold q in H. rewrite EE in H.
    eapply near_weaken; [apply H; try lra|].
    - apply Rle_trans with (bpow radix2 3 * bpow radix2 460).
      + change (bpow radix2 3) with 8. lra.
      + rewrite <- bpow_plus. apply bpow_le. lia.
    - assert (0 < u * q) by (apply Rmult_lt_0_compat; lra).
      assert (u * (q + (2 / 3 * (r1 * q) + 4 / 3 * (r2 * q))) <= u * (2 * q)) by (apply Rmult_le_compat_l; lra). lra.
  Qed.

  (** ** DB *)
  Let tt (j i : nat) : R := if (i =? j)%nat then 0 else (mse d (exact (G j)) + mse d (exact (G i))) / dist j i.
  Let Rj (j : nat) : R := rmax (map (tt j) (seq 0 k)).
  Lemma DB_rowsE : DB_formula d (map exact gs) = rsum (map Rj (seq 0 k)) / INR k.
  Proof. exact (RndVal2.DB_rows d gs Hgs). Qed.
  Let lowq (h : list (list f64) -> f64) (e : nat -> nat -> f64) (j i : nat) : f64 :=
    if (i <? j)%nat then ddiv (dadd (h (G i)) (h (G j))) (e j i) else d_of_Z 0.
  Lemma tt_rangeE j i : (i < k)%nat -> (j < k)%nat -> 4 * lam <= sepmin -> 0 <= tt j i <= 2 * / u.
  Proof.
    intros Hi Hj H4. destruct lam_preE as (U & _ & Y0 & _). assert (0 < / u) by (apply Rinv_0_lt_compat; lra).
    unfold tt. destruct (Nat.eqb_spec i j) as [->|Hij]; [lra|].
    pose proof (mse_rangeE i Hi) as [A0 A1]. pose proof (mse_rangeE j Hj) as [B0 B1].
    pose proof (Y_rangeE j i Hj Hi) as [D0 D1]. pose proof (delta_leE j i Hj Hi ltac:(congruence)) as D2.
    destruct (lam_rhoE (mse d (exact (G j)) + mse d (exact (G i))) (dist j i) 2) as (D3 & _ & _ & HQ); try lra.
    replace ((mse d (exact (G j)) + mse d (exact (G i))) / dist j i) with (2 * ((mse d (exact (G j)) + mse d (exact (G i))) / (2 * dist j i))) by (field; lra). lra.
  Qed.
  Lemma Rj_rangeE j : (j < k)%nat -> 4 * lam <= sepmin -> 0 <= Rj j <= 2 * / u.
  Proof.
    intros Hj H4. unfold Rj. assert (H : In (rmax (map (tt j) (seq 0 k))) (map (tt j) (seq 0 k))).
    { apply rmax_In. destruct k; [lia|discriminate]. }
    apply in_map_iff in H as (i & E & Hi). rewrite <- E. apply in_seq in Hi. apply tt_rangeE; auto. lia.
  Qed.
  Lemma near_entryE h e j i : (forall i, (i < k)%nat -> near (h (G i)) (mse d (exact (G i))) (749 / 760 * lam)) ->
    (forall i j, (i < j < k)%nat -> near (e j i) (dist j i) (165 / 380 * lam)) -> 4 * lam <= sepmin -> (j < k)%nat -> (i < k)%nat -> i <> j ->
    forall x, x = dadd (h (G i)) (h (G j)) \/ x = dadd (h (G j)) (h (G i)) -> forall y, near y (dist j i) (165 / 380 * lam) ->
    near (ddiv x y) (tt j i) (lam / sepmin * (11 / 4 + 7 / 10 * Rj j)).
  Proof.
    intros Hh He H4 Hj Hi Hij x Hx y Hy. destruct lam_preE as (U & N1 & Y0 & L1 & LK & L2 & Et & _ & L0 & Tp & Eu).
    pose proof (mse_rangeE i Hi) as [A0 A1]. pose proof (mse_rangeE j Hj) as [B0 B1].
    pose proof (Y_rangeE j i Hj Hi) as [D0 D1]. pose proof (delta_leE j i Hj Hi ltac:(congruence)) as D2.
    pose proof (tt_rangeE j i Hi Hj H4) as [T0 T1].
    assert (TR : tt j i <= Rj j) by (apply rmax_ge, in_map, in_seq; lia).
    assert (Et' : tt j i = (mse d (exact (G j)) + mse d (exact (G i))) / dist j i).
    { unfold tt. destruct (Nat.eqb_spec i j); [contradiction|reflexivity]. }
    destruct (lam_rhoE 0 sepmin 1) as (d0 & HR & _); auto; [lra|lra|apply delta_rangeE|].
    set (m := mse d (exact (G j)) + mse d (exact (G i))) in *.
    assert (YN : Y <= Y * N) by (rewrite <- (Rmult_1_r Y) at 1; apply Rmult_le_compat_l; lra).
    assert (HX : near x m (2 * lam)).
    { assert (H : forall p q a c, near p a (749 / 760 * lam) -> near q c (749 / 760 * lam) -> 0 <= a <= 4 * Y -> 0 <= c <= 4 * Y -> near (dadd p q) (a + c) (2 * lam)).
      { intros p q a c Hp Hq Ha Hc. eapply near_weaken; [apply near_add; [exact Hp|exact Hq|]|].
        - rewrite !Rabs_pos_eq by lra. lra.
        - rewrite !Rabs_pos_eq by lra. assert (u * (a + c + (749 / 760 * lam + 749 / 760 * lam)) <= u * (10 * Y)) by (apply Rmult_le_compat_l; lra). lra. }
      destruct Hx as [-> | ->].
      - unfold m. rewrite Rplus_comm. apply H; auto.
      - unfold m. apply H; auto. }
    rewrite Et' in *.
    set (q := m / dist j i) in *. set (rho := lam / sepmin) in *.
    assert (X1 : lam / dist j i <= rho).
    { unfold rho, Rdiv. apply Rmult_le_compat_l; [lra|]. apply Rinv_le_contravar; lra. }
    assert (X0 : 0 <= lam / dist j i) by (apply Rmult_le_pos; [lra|left; apply Rinv_0_lt_compat; lra]).
    assert (EE : 4 / 3 * ((2 * lam + q * (165 / 380 * lam)) / dist j i) = (8 / 3 + 11 / 19 * q) * (lam / dist j i)) by (field; lra).
    assert (E1 : (8 / 3 + 11 / 19 * q) * (lam / dist j i) <= (8 / 3 + 11 / 19 * q) * rho) by (apply Rmult_le_compat_l; lra).
    assert (E2 : 0 <= (8 / 3 + 11 / 19 * q) * (lam / dist j i)) by (apply Rmult_le_pos; lra).
    pose proof (near_quot _ _ _ _ _ _ HX Hy) as H. cbv zeta in H. fold q in H. rewrite EE in H.
    set (w := (8 / 3 + 11 / 19 * q) * (lam / dist j i)) in *. clearbody w.
    assert (QR : 0 <= q * rho) by (apply Rmult_le_pos; lra). assert (QR4 : q * rho <= q * / 4) by (apply Rmult_le_compat_l; lra).
    assert (u1 : / u <= bpow radix2 60) by (unfold u; change (/ bpow radix2 (-53)) with (/ / bpow radix2 53); rewrite Rinv_inv; apply bpow_le; lia).
    assert (m0 : 0 <= m) by (unfold m; lra).
    assert (Hq : q + w <= top).
    { apply Rle_trans with (bpow radix2 3 * bpow radix2 60).
      + change (bpow radix2 3) with 8. assert (1 <= bpow radix2 60) by (change 1 with (bpow radix2 0); apply bpow_le; lia). lra.
      + rewrite <- bpow_plus. apply bpow_le. lia. }
    eapply near_weaken; [apply H; lra|].
    assert (u * (q + w) <= rho / 64 * q + / 1000000 * w).
      { rewrite Rmult_plus_distr_l. apply Rplus_le_compat; apply Rmult_le_compat_r; lra. }
    replace ((8 / 3 + 11 / 19 * q) * rho) with (8 / 3 * rho + 11 / 19 * (q * rho)) in E1 by ring.
      replace (rho / 64 * q) with (/ 64 * (q * rho)) in H0 by field.
      assert (q * rho <= Rj j * rho) by (apply Rmult_le_compat_r; lra).
      replace (rho * (11 / 4 + 7 / 10 * Rj j)) with (11 / 4 * rho + 7 / 10 * (Rj j * rho)) by ring. lra.
  Qed.

  Context (HS : any_order S).
  Theorem near_DBE h e : (forall i, (i < k)%nat -> near (h (G i)) (mse d (exact (G i))) (749 / 760 * lam)) ->
    (forall i j, (i < j < k)%nat -> near (e j i) (dist j i) (165 / 380 * lam)) -> 4 * lam <= sepmin ->
    near (ddiv (s_sum S (map (fun j => vmax (A := A) (map (fun i => dadd (lowq h e i j) (lowq h e j i)) (seq 0 k))) (seq 0 k))) (d_of_Z (Z.of_nat k)))
      (DB_formula d (map exact gs)) (lam / sepmin * (3 + DB_formula d (map exact gs))).
  Proof.
    intros Hh He H4. destruct lam_preE as (U & N1 & Y0 & L1 & LK & L2 & Et & _ & L0 & Tp & Eu).
    destruct (lam_rhoE 0 sepmin 1) as (d0 & HR & HK & _); auto; [lra|lra|apply delta_rangeE|].
    set (rho := lam / sepmin) in *. pose proof Hgs as Hk2. fold k in Hk2.
    assert (Nz : near (d_of_Z 0) 0 0) by (apply (near_Z 0); lia).
    assert (Row : forall j, (j < k)%nat -> near (vmax (A := A) (map (fun i => dadd (lowq h e i j) (lowq h e j i)) (seq 0 k))) (Rj j) (rho * (11 / 4 + 7 / 10 * Rj j))).
    { intros j Hj. unfold Rj at 1. pose proof (Rj_rangeE j Hj H4) as [R0 R1].
      assert (E0 : 0 <= rho * (11 / 4 + 7 / 10 * Rj j)) by (apply Rmult_le_pos; lra).
      apply near_max; [destruct k; [lia|discriminate]|].
      intros i Hi. apply in_seq in Hi. unfold lowq. destruct (Nat.ltb_spec j i) as [Hl|Hl], (Nat.ltb_spec i j) as [Hl'|Hl']; try lia.
      - apply add_0_r. apply (near_entryE h e j i); auto; try lia.
        replace (dist j i) with (dist i j) by (apply cdist_sym). apply He. lia.
      - apply add_0_l. apply (near_entryE h e j i); auto; lia.
      - assert (i = j) by lia. subst i. unfold tt. rewrite Nat.eqb_refl. eapply near_weaken; [apply add_0_l, Nz|exact E0]. }
    assert (k0 : 2 <= INR k) by (apply (le_INR 2); exact Hk2).
    assert (HkZ : (Z.of_nat k <= 2 ^ 24)%Z).
    { pose proof (k_range b d gs Hg) as K. apply INR_le in K. unfold k. lia. }
    assert (k1 : INR k <= 16777216) by (rewrite INR_IZR_INZ; apply (IZR_le _ (2 ^ 24)); exact HkZ).
    rewrite DB_rowsE. set (Sm := rsum (map Rj (seq 0 k))). set (kk := INR k) in *.
    assert (S0 : 0 <= Sm).
    { apply RndOps.rsum_pos, Forall_map, Forall_forall. intros j Hj. apply in_seq in Hj. apply Rj_rangeE; auto. lia. }
    assert (Cst : forall c l, rsum (map (fun _ : nat => c) l) = INR (length l) * c).
    { intros c l. apply (RGeom.rsum_const c l). }
    assert (S1 : Sm <= kk * (2 * / u)).
    { unfold kk. rewrite <- (seq_length k 0), <- Cst. apply RndOps.rsum_le. intros j Hj. apply in_seq in Hj. apply Rj_rangeE; auto. lia. }
    assert (Se : rsum (map (fun j => rho * (11 / 4 + 7 / 10 * Rj j)) (seq 0 k)) = rho * (11 / 4 * kk + 7 / 10 * Sm)).
    { rewrite (RndOps.rsum_scal rho (fun j => 11 / 4 + 7 / 10 * Rj j)). f_equal. rewrite (RndCP4.rsum_map_plus (fun _ => 11 / 4) (fun j => 7 / 10 * Rj j)).
      rewrite Cst, seq_length, (RndOps.rsum_scal (7 / 10) Rj). unfold Sm, kk. ring. }
    assert (Ek : rho * kk <= / 4 * kk) by (apply Rmult_le_compat_r; lra). assert (Es : rho * Sm <= / 4 * Sm) by (apply Rmult_le_compat_r; lra).
    assert (Ek0 : 0 <= rho * kk) by (apply Rmult_le_pos; lra). assert (Es0 : 0 <= rho * Sm) by (apply Rmult_le_pos; lra).
    assert (Su : u * Sm <= 2 * kk).
    { replace (2 * kk) with (u * (kk * (2 * / u))) by (field; lra). apply Rmult_le_compat_l; lra. }
    assert (u1 : / u <= bpow radix2 60) by (unfold u; change (/ bpow radix2 (-53)) with (/ / bpow radix2 53); rewrite Rinv_inv; apply bpow_le; lia).
    assert (SB : Sm <= bpow radix2 90).
    { apply Rle_trans with (bpow radix2 24 * (bpow radix2 1 * bpow radix2 60)).
      - eapply Rle_trans; [exact S1|]. change (bpow radix2 24) with 16777216. change (bpow radix2 1) with 2.
        assert (0 < / u) by (apply Rinv_0_lt_compat; lra). apply Rmult_le_compat; lra.
      - rewrite <- !bpow_plus. apply bpow_le. lia. }
    assert (B1 : 16777216 <= bpow radix2 90) by (change 16777216 with (bpow radix2 24); apply bpow_le; lia).
    assert (B2 : 100 * bpow radix2 90 <= high).
    { apply Rle_trans with (bpow radix2 7 * bpow radix2 90); [change (bpow radix2 7) with 128; assert (0 < bpow radix2 90) by apply bpow_gt_0; lra|].
      rewrite <- bpow_plus. apply bpow_le. lia. }
    set (M := 2 * (kk + Sm)).
    assert (HM : low <= M <= high).
    { split; [|unfold M; lra]. apply Rle_trans with 1; [change 1 with (bpow radix2 0); apply bpow_le; lia|unfold M; lra]. }
    destruct HS as [Hsum _].
    assert (HSum := near_summed_near (fun j => vmax (A := A) (map (fun i => dadd (lowq h e i j) (lowq h e j i)) (seq 0 k))) Rj
                 (fun j => rho * (11 / 4 + 7 / 10 * Rj j)) M (seq 0 k) _ HM (Hsum _)).
    rewrite Se, seq_length in HSum. fold Sm kk in HSum.
    assert (HSum' : near (s_sum S (map (fun j => vmax (A := A) (map (fun i => dadd (lowq h e i j) (lowq h e j i)) (seq 0 k))) (seq 0 k))) Sm
                     (rho * (11 / 4 * kk + 7 / 10 * Sm) + 2 * u * M * kk)).
    { apply HSum.
      - destruct k; [lia|discriminate].
      - intros j Hj. apply in_seq in Hj. apply Row. lia.
      - rewrite RndCP4.rsum_map_plus, Se. rewrite (map_ext_in _ Rj).
        + fold Sm. unfold M. lra.
        + intros j Hj. apply in_seq in Hj. apply Rabs_pos_eq, Rj_rangeE; auto. lia.
      - assert (u * kk <= u * 16777216) by (apply Rmult_le_compat_l; lra). rewrite u_val in *. lra. }
    clear HSum Hsum.
    assert (UM : 2 * u * M * kk = 4 * (u * kk) * kk + 4 * (u * kk) * Sm) by (unfold M; ring).
    assert (Uk : 95 * (u * kk) <= rho) by lra. assert (Uk0 : 0 <= u * kk) by (apply Rmult_le_pos; lra).
    assert (UM1 : 95 * (u * kk) * kk <= rho * kk) by (apply Rmult_le_compat_r; lra).
    assert (UM2 : 95 * (u * kk) * Sm <= rho * Sm) by (apply Rmult_le_compat_r; lra).
    assert (HE : rho * (11 / 4 * kk + 7 / 10 * Sm) + 2 * u * M * kk <= kk * (rho * (14 / 5)) + 3 / 4 * (rho * Sm)).
    { rewrite UM. replace (rho * (11 / 4 * kk + 7 / 10 * Sm)) with (11 / 4 * (rho * kk) + 7 / 10 * (rho * Sm)) by ring. lra. }
    assert (HSum := near_weaken _ _ _ _ HSum' HE).
    assert (HkZ' : (0 < Z.of_nat k <= 2 ^ 53)%Z) by lia.
    assert (H := near_div_Z _ _ _ _ HSum HkZ'). rewrite <- INR_IZR_INZ in H. fold kk in H.
    assert (HT : high <= top).
    { pose proof high_top. assert (0 < high) by apply bpow_gt_0. lra. }
    eapply near_weaken; [apply H; rewrite Rabs_pos_eq by lra; lra|].
    assert (Eq : (kk * (rho * (14 / 5)) + 3 / 4 * (rho * Sm)) / kk = 14 / 5 * rho + 3 / 4 * (rho * (Sm / kk))) by (field; lra).
    rewrite Eq. set (q := Sm / kk) in *. assert (q0 : 0 <= q) by (apply Rmult_le_pos; [lra|left; apply Rinv_0_lt_compat; lra]).
    rewrite Rabs_pos_eq by lra.
    assert (Q1 : 0 <= rho * q <= / 4 * q) by (split; [apply Rmult_le_pos; lra|apply Rmult_le_compat_r; lra]).
    assert (Q2 : u * q <= / 64 * (rho * q)).
    { rewrite <- Rmult_assoc. apply Rmult_le_compat_r; lra. }
    assert (Q3 : u * (14 / 5 * rho + 3 / 4 * (rho * q)) <= / 1000000 * (14 / 5 * rho + 3 / 4 * (rho * q))) by (apply Rmult_le_compat_r; lra).
    replace (rho * (3 + q)) with (3 * rho + rho * q) by ring. rewrite Rmult_plus_distr_l. lra.
  Qed.
End Val2E.
