(** * Compactness of a cluster after any number of samples *)
From Coq Require Import ZArith Reals Lia Lra SpecFloat Psatz List Permutation.
From Flocq Require Import Core Relative.
From Verif Require Import Num NumPy Base GetCvi Lists Step Stream RunForm BatchForm F64 F64o Rnd RndErr RndMean RndSum RndCl RndCP RndCP2.
Import ListNotations.
Local Open Scope R_scope.
Local Notation R := Rdefinitions.R.
Local Notation nanv := S754_nan.

Lemma rv_d0 : rv (d_of_Z 0) = 0. Proof. destruct (of_Z_ok 0) as (_ & _ & E); [lia|exact E]. Qed.
Lemma near_Z0 : near (d_of_Z 0) 0 0.
Proof. destruct (of_Z_ok 0) as (V & Fi & E); [lia|]. repeat split; auto. rewrite E, Rminus_0_r, Rabs_R0. lra. Qed.
Lemma fcol_snoc j xs x : fcol j (xs ++ [x]) = fcol j xs ++ [nth j x nanv].
Proof. unfold fcol. now rewrite map_app. Qed.
Lemma fcol_length j xs : length (fcol j xs) = length xs. Proof. apply map_length. Qed.

(** binary64 with any operations in the dtype of the data *)
Definition Gd (L : Libm) (S : Sums) (sa sm sd : f64 -> f64 -> f64) (ss : list f64 -> f64) (st : list f64 -> list f64 -> f64) : Arith := {|
  F := f64; f_of_Z := d_of_Z;
  fadd := dadd; fsub := dsub; fmul := dmul; fdiv := ddiv; fneg := SFopp; fabs := SFabs;
  fsqrt := dsqrt; fexp := l_exp L; fpow := l_pow L;
  fpi := S754_finite false 7074237752028440 (-51); finf := S754_infinity false;
  fminimum := dmin; fmaximum := dmax; flt := SFltb; ftrue := dtrue;
  np_sum := s_sum S; np_dot := s_dot S;
  np_det := l_det L; np_inv := l_inv L;
  sadd := sa; smul := sm; sdiv := sd; ssum := ss; sdot := st |}.

(** the compactness is that around the centroid kept, however that comes about *)
Section Gen.
  Context (L : Libm) (S : Sums) (HS : any_order S) (sa sm sd : f64 -> f64 -> f64) (ss : list f64 -> f64) (st : list f64 -> list f64 -> f64).
  Notation A := (Gd L S sa sm sd ss st).
  Context (b : R) (Hb : lo2 <= b <= hi2 / 2) (d : nat) (Hd : (1 <= Z.of_nat d <= 2 ^ 20)%Z).
  Let B := 2 * b.
  Let t := u * B.
  Let D := INR d.
  Context (Q : f64 -> Prop) (HQ : forall y, Q y -> ok_in b y) (nmax : Z) (Hmax : (nmax <= 2 ^ 24)%Z).
  Notation rows xs := (Forall (fun x : vec A => length x = d /\ Forall Q x) xs).
  Notation Vj j xs := (rv (nth j (c_v (cl_of (A := A) xs)) nanv)).
  Notation Cj j xs := (map rv (fcol j xs)).
  Context (HVG : forall xs j, xs <> [] -> rows xs -> (Z.of_nat (length xs) <= nmax)%Z -> (j < d)%nat ->
    ok_in B (nth j (c_v (cl_of (A := A) xs)) nanv) /\ Rabs (gex (Vj j xs) (Cj j xs)) <= B).
  Context (HMV : forall xs x j, xs <> [] -> rows (xs ++ [x]) -> (Z.of_nat (length xs + 1) <= nmax)%Z -> (j < d)%nat ->
    Rabs (Vj j xs - Vj j (xs ++ [x])) <= 3 * (/ IZR (Z.of_nat (length xs) + 1) * B)).

  Lemma HB' : lo2 <= B <= hi2. Proof. unfold B. pose proof lo2_pos. lra. Qed.
  Lemma col_le' xs j : rows xs -> (j < d)%nat -> Forall (fun x => Rabs x <= B) (Cj j xs).
  Proof.
    intros HF Hj. apply Forall_map. unfold fcol. apply Forall_map. eapply Forall_impl; [|exact HF]. intros x [H1 H2].
    rewrite Forall_forall in H2. pose proof lo2_pos. destruct (HQ _ (H2 (nth j x nanv) ltac:(apply nth_In; rewrite <- H1 in Hj; exact Hj))) as (_ & _ & H3).
    unfold B. lra.
  Qed.

  Lemma cl_main_gen xs : xs <> [] -> rows xs -> (Z.of_nat (length xs) <= nmax)%Z ->
    length (c_g (cl_of (A := A) xs)) = d /\
    (forall j, (j < d)%nat -> near (nth j (c_g (cl_of (A := A) xs)) nanv) (gex (Vj j xs) (Cj j xs)) (25 * t * (INR (length xs) - 1))) /\
    near (c_cp (cl_of (A := A) xs)) (rS d (fun j => cex (Vj j xs) (Cj j xs))) (92 * (t * B) * (D * D) * (INR (length xs) * INR (length xs) - 1)).
  Proof.
    induction xs as [|x xs IH] using rev_ind; [congruence|]. intros _ HF0 HL0. pose proof HF0 as HF. apply Forall_app in HF as [HF Hx].
    inversion Hx as [|? ? [Lx Ox] _]; subst x0 l. rewrite app_length in *. cbn [length] in *.
    destruct HS as [_ Hdot]. pose proof (B_facts B HB') as (B0 & _ & T0 & _ & _ & TB & _). fold t in T0, TB.
    destruct xs as [|y t0].
    { cbn [app length cl_of fold_left cl_one c_v c_g c_cp]. replace (INR (0 + 1)) with 1 by reflexivity.
      split; [|split].
      - unfold zeros. now rewrite repeat_length.
      - intros j Hj. unfold zeros. change (@f0 A) with (d_of_Z 0).
        assert (Er : nth j (repeat (d_of_Z 0) (length x)) nanv = d_of_Z 0).
        { eapply repeat_spec. apply nth_In. rewrite repeat_length. rewrite <- Lx in Hj. exact Hj. }
        refine (eq_ind_r (fun q => near q _ _) _ Er).
        unfold gex, fcol. cbn [map rsum fold_right]. rewrite Rminus_diag_eq, Rplus_0_r by reflexivity. apply near_weaken with 0; [apply near_Z0|lra].
      - unfold cex, fcol. cbn [map rsum fold_right]. rewrite (rS_ext d _ (fun j => 0 * 0)) by (intros; rewrite Rminus_diag_eq by reflexivity; ring).
        rewrite rS_scal. rewrite !Rmult_0_l. apply near_weaken with 0; [apply near_Z0|]. rewrite Rmult_1_r. right. ring. }
    set (xs := y :: t0) in *. assert (Hne : xs <> []) by discriminate.
    destruct IH as (IHl & IHg & IHc); auto; [lia|].
    assert (HV : forall j, (j < d)%nat -> ok_in B (nth j (c_v (cl_of (A := A) xs)) nanv)).
    { intros j Hj. apply HVG; auto. lia. }
    assert (HV' : forall j, (j < d)%nat -> ok_in B (nth j (c_v (cl_of (A := A) (xs ++ [x]))) nanv)).
    { intros j Hj. apply HVG; auto. { intros E0; now apply app_eq_nil in E0. } rewrite app_length. exact HL0. }
    assert (HG : forall j, (j < d)%nat -> Rabs (gex (Vj j xs) (Cj j xs)) <= B).
    { intros j Hj. apply HVG; auto. lia. }
    assert (Hox : forall j, (j < d)%nat -> ok_in B (nth j x nanv)).
    { intros j Hj. rewrite Forall_forall in Ox. destruct (HQ _ (Ox (nth j x nanv) ltac:(apply nth_In; rewrite <- Lx in Hj; exact Hj))) as (O1 & O2 & O3).
      pose proof lo2_pos. repeat split; auto. unfold B. lra. }
    pose proof (fun j => HMV xs x j Hne HF0 HL0) as HMV'.
    assert (Lrows : Forall (fun x : vec A => length x = d) xs) by (eapply Forall_impl; [|exact HF]; simpl; tauto).
    assert (LV : length (c_v (cl_of (A := A) xs)) = d) by (apply (cl_of_v_length (A := A)); auto).
    rewrite cl_of_snoc in * by auto. cbn [cl_add c_v c_g c_cp] in *. rewrite cl_of_n in *.
    set (k := length xs) in *. assert (Hk1 : (1 <= k)%nat) by (unfold k, xs; cbn; lia).
    set (V := c_v (cl_of (A := A) xs)) in *. set (g := c_g (cl_of (A := A) xs)) in *. set (cp := c_cp (cl_of (A := A) xs)) in *.
    set (V' := v_upd (A := A) k V x) in *. set (N := (Z.of_nat k + 1)%Z).
    assert (LV' : length V' = d) by (unfold V', v_upd; rewrite rmean_length; [exact Lx|exact (eq_trans LV (eq_sym Lx))]).
    assert (MV : forall j, (j < d)%nat -> Rabs (rv (nth j V nanv) - rv (nth j V' nanv)) <= 3 * (/ IZR N * B)) by exact HMV'.
    assert (En : INR (k + 1) = INR k + 1) by (rewrite plus_INR; reflexivity).
    assert (Ek : IZR (N - 1) = INR k) by (unfold N; rewrite INR_IZR_INZ; f_equal; lia).
    assert (EN : IZR N = INR k + 1) by (unfold N; rewrite plus_IZR, INR_IZR_INZ; reflexivity).
    assert (HN : (2 <= N <= 2 ^ 24)%Z) by (unfold N; lia).
    assert (K0 : 1 <= INR k) by (apply (le_INR 1); auto).
    assert (Kb : INR k <= 16777216) by (rewrite INR_IZR_INZ; apply (IZR_le _ (2 ^ 24)); lia).
    assert (Hgf : length (g_upd (A := A) k V g x) = d).
    { unfold g_upd, scal. fold V'. rewrite !length_map2, map_length, length_map2.
      change (F A) with f64 in *. lia. }
    split; [exact Hgf|]. split.
    - intros j Hj. rewrite fcol_snoc, map_app. cbn [map]. rewrite (gex_snoc (rv (nth j V nanv))). rewrite map_length, fcol_length. change (@length (list f64) xs) with k.
      replace (nth j (g_upd (A := A) k V g x) nanv) with
        (dadd (dadd (nth j g nanv) (dsub (nth j x nanv) (nth j V' nanv)))
              (dmul (d_of_Z (N - 1)) (dsub (nth j V nanv) (nth j V' nanv)))).
      2:{ unfold g_upd, scal. fold V'.
          rewrite (nth_map2 (fadd (a := A)) _ _ j nanv nanv nanv) by (rewrite ?map_length, !length_map2; change (F A) with f64 in *; lia).
          rewrite (nth_map2 (fadd (a := A)) _ _ j nanv nanv nanv) by (rewrite ?map_length, ?length_map2; change (F A) with f64 in *; lia).
          rewrite (nth_indep (map _ _) nanv (fmul (a := A) (f_of_nat k) nanv)) by (rewrite map_length, length_map2; change (F A) with f64 in *; lia).
          rewrite (map_nth (fmul (a := A) (f_of_nat k))).
          rewrite (nth_map2 (fsub (a := A)) x V' j nanv nanv nanv) by (change (F A) with f64 in *; lia).
          rewrite (nth_map2 (fsub (a := A)) V V' j nanv nanv nanv) by (change (F A) with f64 in *; lia).
          replace (N - 1)%Z with (Z.of_nat k) by (unfold N; lia). reflexivity. }
      rewrite <- Ek.
      replace (25 * t * (INR (k + 1) - 1)) with (25 * t * (INR k - 1) + 25 * (u * B)) by (rewrite En; unfold t; ring).
      apply (near_g B HB' N); auto; [unfold N; lia|].
      assert (Ht : t <= / 1000000000 * B). { unfold t. rewrite u_val. lra. }
      assert (25 * t * (INR k - 1) <= 25 * (/ 1000000000 * B) * (INR k - 1)) by (apply Rmult_le_compat_r; lra).
      assert (B * (INR k - 1) <= B * 16777216) by (apply Rmult_le_compat_l; lra). lra.
    - unfold cp_upd. fold V'.
      assert (HC : 0 <= rS d (fun j => cex (rv (nth j V nanv)) (Cj j xs)) <= 4 * (B * B) * (D * IZR (N - 1))).
      { rewrite Ek. assert (Hc : forall j, (j < d)%nat -> 0 <= cex (rv (nth j V nanv)) (Cj j xs) <= INR k * (4 * (B * B))).
        { intros j Hj. pose proof (cex_range (rv (nth j V nanv)) (Cj j xs) B ltac:(apply HV; auto) (col_le' xs j HF Hj)) as H.
          rewrite map_length, fcol_length in H. exact H. }
        assert (P0 : 0 <= rS d (fun j => cex (rv (nth j V nanv)) (Cj j xs))) by (apply rS_pos; intros j Hj; apply Hc; auto).
        split; auto. rewrite <- (Rabs_pos_eq _ P0). eapply Rle_trans; [apply rS_abs with (M := INR k * (4 * (B * B)))|].
        - intros j Hj. rewrite Rabs_pos_eq; apply Hc; auto.
        - fold D. right. ring. }
      set (C := rS d (fun j => cex (rv (nth j V nanv)) (Cj j xs))) in *.
      assert (TB0 : 0 < t * B) by (apply Rmult_lt_0_compat; auto).
      assert (DD0 : 0 <= D * D) by (pose proof (pos_INR d); unfold D; nra).
      assert (He : 92 * (t * B) * (D * D) * (INR k * INR k - 1) <= 92 * (t * B) * (D * D * (IZR N * IZR N))).
      { rewrite EN. replace (92 * (t * B) * (D * D * ((INR k + 1) * (INR k + 1)))) with (92 * (t * B) * (D * D) * ((INR k + 1) * (INR k + 1))) by ring.
        apply Rmult_le_compat_l; [apply Rmult_le_pos; lra|]. nra. }
      pose proof (near_cp B HB' N HN d Hd V x V' g LV Lx LV' IHl MV HV Hox HV'
                    (fun j => gex (rv (nth j V nanv)) (Cj j xs)) (25 * t * (INR k - 1)) (fun j Hj => conj (IHg j Hj) (HG j Hj))
                    ltac:(apply Rmult_le_pos; lra) ltac:(rewrite Ek; fold t; apply Rmult_le_compat_l; lra)
                    cp C _ IHc HC He _ _ _ (Hdot (map2 dsub x V') (map2 dsub x V')) (Hdot (map2 dsub V V') (map2 dsub V V')) (Hdot (map2 dsub V V') g)) as H.
      eapply near_weaken; [|].
      + replace (rS d (fun j => cex (rv (nth j V' nanv)) (Cj j (xs ++ [x])))) with
          (C + rS d (fun j => (rv (nth j x nanv) - rv (nth j V' nanv)) * (rv (nth j x nanv) - rv (nth j V' nanv)))
             + IZR (N - 1) * rS d (fun j => (rv (nth j V nanv) - rv (nth j V' nanv)) * (rv (nth j V nanv) - rv (nth j V' nanv)))
             + 2 * rS d (fun j => (rv (nth j V nanv) - rv (nth j V' nanv)) * gex (rv (nth j V nanv)) (Cj j xs))).
        * replace (Z.of_nat k) with (N - 1)%Z in * by (unfold N; lia).
          change (f_of_nat (A := A) k) with (d_of_Z (Z.of_nat k)). replace (Z.of_nat k) with (N - 1)%Z by (unfold N; lia). exact H.
        * unfold C. rewrite <- !rS_scal, <- !rS_plus. apply rS_ext. intros j Hj.
          rewrite fcol_snoc, map_app. cbn [map]. rewrite (cex_snoc (rv (nth j V nanv))). rewrite map_length, fcol_length. change (@length (list f64) xs) with k. rewrite Ek. reflexivity.
      + fold t D. rewrite EN, En.
        replace (92 * (t * B) * (D * D) * (INR k * INR k - 1) + 137 * (t * B) * (D * D) * (INR k + 1)) with
          ((t * B) * (D * D) * (92 * (INR k * INR k - 1) + 137 * (INR k + 1))) by ring.
        replace (92 * (t * B) * (D * D) * ((INR k + 1) * (INR k + 1) - 1)) with
          ((t * B) * (D * D) * (92 * ((INR k + 1) * (INR k + 1) - 1))) by ring.
        apply Rmult_le_compat_l; [apply Rmult_le_pos; lra|]. nra.
  Qed.
End Gen.

Section Cl.
  Context (L : Libm) (S : Sums) (HS : any_order S).
  Notation A := (F64o L S).
  Context (b : R) (Hb : lo2 <= b <= hi2 / 2) (d : nat) (Hd : (1 <= Z.of_nat d <= 2 ^ 20)%Z).
  Let B := 2 * b.
  Let t := u * B.
  Let D := INR d.
  Notation rows xs := (Forall (fun x : vec A => length x = d /\ Forall (ok_in b) x) xs).
  Notation Vj j xs := (rv (nth j (c_v (cl_of (A := A) xs)) nanv)).
  Notation Cj j xs := (map rv (fcol j xs)).

  Lemma HB : lo2 <= B <= hi2. Proof. unfold B. pose proof lo2_pos. lra. Qed.
  Lemma Hb_mean : low <= b <= high.
  Proof. pose proof lo2_low. pose proof hi2_high. assert (0 < hi2) by apply bpow_gt_0. lra. Qed.
  Lemma nsmall n : (Z.of_nat n <= 2 ^ 24)%Z -> 0 <= INR n /\ INR n <= 16777216 /\ 17 * (u * (INR n * INR n)) <= 17 / 32.
  Proof.
    intros H. assert (H1 : INR n <= 16777216) by (rewrite INR_IZR_INZ; apply (IZR_le _ (2 ^ 24)); auto).
    pose proof (pos_INR n). repeat split; auto. rewrite u_val. assert (INR n * INR n <= 16777216 * 16777216) by (apply Rmult_le_compat; auto). lra.
  Qed.
  Lemma cl_V_ok xs j : xs <> [] -> rows xs -> (Z.of_nat (length xs) <= 2 ^ 24)%Z -> (j < d)%nat ->
    ok_in B (nth j (c_v (cl_of (A := A) xs)) nanv) /\ Rabs (gex (Vj j xs) (Cj j xs)) <= 17 * (u * b) * (INR (length xs) * INR (length xs)) /\
    17 * (u * b) * (INR (length xs) * INR (length xs)) <= b.
  Proof.
    intros Hne HF HL Hj. destruct (near_cl_v L S b d xs j Hb_mean Hne HF ltac:(lia) Hj) as (Vv & Fv & Ev).
    destruct (nsmall _ HL) as (N0 & N1 & N2). pose proof u_small as [U1 U2]. pose proof lo2_pos.
    set (n := INR (length xs)) in *. assert (n1 : 1 <= n).
    { apply (le_INR 1). destruct xs; [congruence|cbn; lia]. }
    assert (Hub : 0 < u * b) by (apply Rmult_lt_0_compat; lra).
    assert (X2 : 17 * (u * b) * (n * n) <= b).
    { replace (17 * (u * b) * (n * n)) with (b * (17 * (u * (n * n)))) by ring.
      apply Rle_trans with (b * 1); [apply Rmult_le_compat_l; lra|lra]. }
    assert (X1 : 17 * u * b * (n - 1) <= 17 * (u * b) * n) by nra.
    assert (X3 : 17 * (u * b) * n <= 17 * (u * b) * (n * n)).
    { apply Rmult_le_compat_l; [lra|]. rewrite <- (Rmult_1_r n) at 1. apply Rmult_le_compat_l; lra. }
    assert (Ha : Rabs (ravg (fcol j xs)) <= b).
    { apply ravg_abs; [unfold fcol; destruct xs; [congruence|discriminate]|].
      unfold fcol. apply Forall_map. eapply Forall_impl; [|exact HF]. intros x [H1 H2].
      rewrite Forall_forall in H2. apply H2, nth_In. rewrite <- H1 in Hj. exact Hj. }
    split; [|split; auto].
    - repeat split; auto. unfold B. replace (rv _) with ((Vj j xs - ravg (fcol j xs)) + ravg (fcol j xs)) by ring.
      eapply Rle_trans; [apply Rabs_triang|]. lra.
    - rewrite gex_sum, map_length, fcol_length. change (INR (@length (list f64) xs)) with n.
      replace (rsum (Cj j xs) - n * Vj j xs) with (n * - (Vj j xs - ravg (fcol j xs))).
      2:{ unfold ravg. rewrite fcol_length. change (INR (@length (list f64) xs)) with n. set (q := rsum _). set (y := rv _). field. lra. }
      rewrite Rabs_mult, Rabs_Ropp, (Rabs_pos_eq n) by lra.
      apply Rle_trans with (n * (17 * u * b * (n - 1))); [apply Rmult_le_compat_l; lra|]. nra.
  Qed.
  Lemma cl_main xs : xs <> [] -> rows xs -> (Z.of_nat (length xs) <= 2 ^ 24)%Z ->
    length (c_g (cl_of (A := A) xs)) = d /\
    (forall j, (j < d)%nat -> near (nth j (c_g (cl_of (A := A) xs)) nanv) (gex (Vj j xs) (Cj j xs)) (25 * t * (INR (length xs) - 1))) /\
    near (c_cp (cl_of (A := A) xs)) (rS d (fun j => cex (Vj j xs) (Cj j xs))) (92 * (t * B) * (D * D) * (INR (length xs) * INR (length xs) - 1)).
  Proof.
    apply (cl_main_gen L S HS dadd dmul ddiv (s_sum S) (s_dot S) b Hb d Hd (ok_in b) (fun y H => H) (2 ^ 24) (Z.le_refl _)).
    - intros ys j H1 H2 H3 H4. destruct (cl_V_ok ys j H1 H2 H3 H4) as (G0 & G1 & G2). pose proof lo2_pos. split; [exact G0|].
      assert (Hle : b <= 2 * b) by lra. exact (Rle_trans _ _ _ (Rle_trans _ _ _ G1 G2) Hle).
    - intros ys x j Hne HF HL0 Hj. assert (HL : (Z.of_nat (@length (vec A) ys + 1) <= 2 ^ 24)%Z) by exact HL0. clear HL0. pose proof HF as HF0. apply Forall_app in HF0 as [HF0 Hx]. inversion Hx as [|? ? [Lx Ox] _]; subst x0 l.
      assert (Lr : Forall (fun x : vec A => length x = d) ys) by (eapply Forall_impl; [|exact HF0]; simpl; tauto).
      assert (LV : length (c_v (cl_of (A := A) ys)) = d) by (apply (cl_of_v_length (A := A)); auto).
      assert (OV : ok_in B (nth j (c_v (cl_of (A := A) ys)) nanv)) by (apply cl_V_ok; auto; lia).
      assert (Oxj : ok_in B (nth j x nanv)).
      { rewrite Forall_forall in Ox. destruct (Ox (nth j x nanv)) as (O1 & O2 & O3); [apply nth_In; rewrite <- Lx in Hj; exact Hj|].
        pose proof lo2_pos. repeat split; auto. unfold B. lra. }
      assert (E : nth j (c_v (cl_of (A := A) (ys ++ [x]))) nanv = mean_step (Z.of_nat (length ys) + 1) (nth j (c_v (cl_of (A := A) ys)) nanv) (nth j x nanv)).
      { rewrite cl_of_snoc by auto. cbn [cl_add c_v]. rewrite cl_of_n. unfold v_upd. refine (eq_trans (rmean_nth L S (length ys + 1) _ x j _ _) _).
        - exact (eq_trans LV (eq_sym Lx)).
        - rewrite <- Lx in Hj. exact Hj.
        - f_equal. lia. }
      assert (Hy : (1 <= @length (vec A) ys)%nat) by (destruct ys; [congruence|cbn; lia]).
      pose proof (v_move B (Z.of_nat (@length (vec A) ys) + 1) _ _ HB ltac:(lia) OV Oxj) as M.
      exact (eq_ind_r (fun z => Rabs (rv (nth j (c_v (cl_of (A := A) ys)) nanv) - rv z) <= 3 * (/ IZR (Z.of_nat (@length (vec A) ys) + 1) * B)) M E).
  Qed.
End Cl.
