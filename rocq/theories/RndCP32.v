(** * Rounding error of the compactness for float32 data *)
From Coq Require Import ZArith Reals Lia Lra SpecFloat Psatz List Permutation.
From Flocq Require Import Core Relative.
From Verif Require Import Num NumPy Base GetCvi Lists Step Stream RunForm BatchForm F64 F64o F32d Rnd RndErr RndMean RndSum RndCl RndCP RndCP2 RndCP3 RndCP4 Rnd32 RndMean32 RndCl32 Spec P_Round.
Import ListNotations.
Local Open Scope R_scope.
Local Notation R := Rdefinitions.R.
Local Notation nanv := S754_nan.
Local Notation rsum := RndMean.rsum.

Lemma F32d_Gd L S T : F32d L S T = Gd L S add32 mul32 div32 (s_sum T) (s_dot T).
Proof. reflexivity. Qed.
Lemma usual_lo2 b : low32 <= b <= high32 / 2 -> lo2 <= b <= hi2 / 2.
Proof.
  intros [H1 H2]. assert (lo2 <= low32) by (apply bpow_le; lia). assert (high32 <= hi2) by (apply bpow_le; lia). lra.
Qed.
Lemma u32_sq : u32 * u32 = 32 * u.
Proof. rewrite u32_val, u_val. lra. Qed.

Lemma tri x y z a c : Rabs (x - y) <= a -> Rabs (y - z) <= c -> Rabs (x - z) <= a + c.
Proof. intros H1 H2. replace (x - z) with ((x - y) + (y - z)) by ring. eapply Rle_trans; [apply Rabs_triang|]. lra. Qed.

Section Cl.
  Context (L : Libm) (S T : Sums) (HS : any_order S).
  Notation A := (F32d L S T).
  Context (b : R) (Hb : low32 <= b <= high32 / 2) (d : nat) (Hd : (1 <= Z.of_nat d <= 2 ^ 20)%Z).
  Let B := 2 * b.
  Let D := INR d.
  Notation rows xs := (Forall (fun x : list f64 => length x = d /\ Forall (ok32 b) x) xs).
  Notation Vj j xs := (rv (nth j (c_v (cl_of (A := A) xs)) nanv)).

  Lemma b_pos : 0 < b. Proof. pose proof low32_pos. lra. Qed.
  Lemma rows_in xs : rows xs -> Forall (fun x : list f64 => length x = d /\ Forall (ok_in b) x) xs.
  Proof.
    intros H. eapply Forall_impl; [|exact H]. intros x [H1 H2]. split; [exact H1|]. eapply Forall_impl; [|exact H2]. intros y. apply ok32_in.
  Qed.
  Lemma rows_len xs : rows xs -> Forall (fun x : list f64 => length x = d) xs.
  Proof. intros H. eapply Forall_impl; [|exact H]. simpl. tauto. Qed.
  Lemma col_ok32 xs j : (j < d)%nat -> rows xs -> Forall (ok32 b) (fcol j xs).
  Proof.
    intros Hj HF. unfold fcol. apply Forall_map. eapply Forall_impl; [|exact HF]. intros x [H1 H2].
    rewrite Forall_forall in H2. apply H2, nth_In. now rewrite H1.
  Qed.
  Lemma col_ne j (xs : list (list f64)) : xs <> [] -> fcol j xs <> [].
  Proof. intros H E. apply H. unfold fcol in E. now apply map_eq_nil in E. Qed.
  Lemma n20 n : (Z.of_nat n <= 2 ^ 20)%Z -> 0 <= INR n <= 1048576.
  Proof. intros H. split; [apply pos_INR|]. rewrite INR_IZR_INZ. apply (IZR_le _ (2 ^ 20)). exact H. Qed.

  (** the centroids of a stream *)
  Lemma cl_V_near xs j : xs <> [] -> rows xs -> (Z.of_nat (length xs) <= 2 ^ 20)%Z -> (j < d)%nat ->
    near (nth j (c_v (cl_of (A := A) xs)) nanv) (ravg (fcol j xs)) (4 * u32 * b).
  Proof.
    intros Hne HF HL Hj. pose proof (cl_v_nth32 L S T d xs j Hne (rows_len xs HF) Hj) as E.
    assert (El : length (fcol j xs) = length xs) by apply fcol_length.
    pose proof (near_rmean32 b (fcol j xs) ltac:(pose proof low32_pos; unfold high32 in *; lra) (col_ne j xs Hne) (col_ok32 xs j Hj HF)
                  ltac:(rewrite El; lia)) as H. rewrite El in H.
    refine (eq_ind_r (fun z => near z _ _) _ E). eapply near_weaken; [exact H|].
    pose proof (n20 _ HL) as [_ N1]. pose proof b_pos. pose proof u32_small as [U0 _].
    assert (0 < u * b) by (apply Rmult_lt_0_compat; [apply u_pos|lra]).
    assert (17 * u * b * (INR (length xs) - 1) <= 17 * (u * b) * 1048576).
    { rewrite Rmult_assoc with (r1 := 17). apply Rmult_le_compat_l; lra. }
    assert (u = / 536870912 * u32) by (rewrite u32_val, u_val; lra). rewrite H3 in *.
    assert (0 < u32 * b) by (apply Rmult_lt_0_compat; lra). lra.
  Qed.
  Lemma avg_in xs j : xs <> [] -> rows xs -> (j < d)%nat -> Rabs (ravg (fcol j xs)) <= b.
  Proof.
    intros Hne HF Hj. apply ravg_abs; [now apply col_ne|]. eapply Forall_impl; [|exact (col_ok32 xs j Hj HF)]. intros y. apply ok32_in.
  Qed.
  Lemma cl_V_in xs j : xs <> [] -> rows xs -> (Z.of_nat (length xs) <= 2 ^ 20)%Z -> (j < d)%nat ->
    ok_in B (nth j (c_v (cl_of (A := A) xs)) nanv) /\ Rabs (gex (Vj j xs) (map rv (fcol j xs))) <= B.
  Proof.
    intros Hne HF HL Hj. destruct (cl_V_near xs j Hne HF HL Hj) as (Vv & Fv & Ev). pose proof (avg_in xs j Hne HF Hj) as Ha.
    pose proof b_pos. pose proof u32_small as [U0 U1]. assert (4 * u32 * b <= / 250000 * b) by (apply Rmult_le_compat_r; lra).
    split.
    - split; [exact Vv|]. split; [exact Fv|]. unfold B. replace (Vj j xs) with ((Vj j xs - ravg (fcol j xs)) + ravg (fcol j xs)) by ring.
      eapply Rle_trans; [apply Rabs_triang|]. lra.
    - rewrite gex_sum, map_length, fcol_length. pose proof (n20 _ HL) as [_ N1].
      set (n := INR (length xs)) in *. assert (n1 : 1 <= n) by (apply (le_INR 1); destruct xs; [congruence|cbn; lia]).
      replace (rsum (map rv (fcol j xs)) - n * Vj j xs) with (n * - (Vj j xs - ravg (fcol j xs))).
      2:{ unfold ravg. rewrite fcol_length. fold n. set (q := rsum _). set (y := rv _). field. lra. }
      rewrite Rabs_mult, Rabs_Ropp, (Rabs_pos_eq n) by lra.
      apply Rle_trans with (1048576 * (4 * u32 * b)); [apply Rmult_le_compat; try lra; apply Rabs_pos|].
      rewrite u32_val. unfold B. lra.
  Qed.
  Lemma cl_V_move (xs : list (vec A)) (x : vec A) j : xs <> [] -> rows (xs ++ [x]) -> (Z.of_nat (length xs + 1) <= 2 ^ 20)%Z -> (j < d)%nat ->
    Rabs (Vj j xs - Vj j (xs ++ [x])) <= 3 * (/ IZR (Z.of_nat (length xs) + 1) * B).
  Proof.
    intros Hne HF HL Hj. assert (HL1 : (Z.of_nat (@length (list f64) xs) <= 2 ^ 20)%Z) by (apply (Z.le_trans _ (Z.of_nat (length xs + 1))); [apply inj_le; exact (Nat.le_add_r _ _)|exact HL]).
    pose proof HF as HF0. apply Forall_app in HF0 as [HF0 Hx]. inversion Hx as [|? ? [Lx Ox] _]; subst x0 l.
    assert (LV : length (c_v (cl_of (A := A) xs)) = d) by (apply (cl_of_v_length (A := A)); auto; now apply rows_len).
    destruct (cl_V_in xs j Hne HF0 HL1 Hj) as [(Vv & Fv & Av) _].
    assert (Oxj : ok32 B (nth j x nanv)).
    { rewrite Forall_forall in Ox. destruct (Ox (nth j x nanv)) as (O1 & O2 & O3 & O4); [apply nth_In; rewrite <- Lx in Hj; exact Hj|].
      pose proof b_pos. repeat split; auto. unfold B. lra. }
    assert (E : nth j (c_v (cl_of (A := A) (xs ++ [x]))) nanv = mean_step32 (Z.of_nat (length xs) + 1) (nth j (c_v (cl_of (A := A) xs)) nanv) (nth j x nanv)).
    { rewrite cl_of_snoc by auto. cbn [cl_add c_v]. rewrite cl_of_n. unfold v_upd. refine (eq_trans (rmean_nth32 L S T (length xs + 1) _ x j _ _) _).
      - exact (eq_trans LV (eq_sym Lx)).
      - rewrite <- Lx in Hj. exact Hj.
      - f_equal. lia. }
    assert (Hy : (1 <= length xs)%nat) by (destruct xs; [congruence|cbn; lia]).
    set (N := (Z.of_nat (length xs) + 1)%Z) in *. assert (HN : (2 <= N <= 2 ^ 53)%Z) by (unfold N; lia).
    pose proof b_pos. assert (HB32 : low32 <= B <= high32) by (unfold B; lra).
    pose proof (near_mean_step32 N _ (nth j x nanv) (Vj j xs) 0 B HN HB32 (near_exact _ Vv Fv) Av ltac:(unfold B; lra) Oxj) as (_ & _ & M).
    rewrite <- E in M. destruct Oxj as (_ & _ & _ & Ax).
    assert (HN' : (2 <= N <= 2 ^ 25)%Z) by (unfold N; lia). pose proof (w_range N HN') as [W1 W2].
    set (w := / IZR N) in *. set (p := Vj j xs) in *. set (q := Vj j (xs ++ [x])) in *. set (r := rv (nth j x nanv)) in *.
    replace (p - q) with (w * (p + - r) + - (q - ((1 - w) * p + w * r))) by ring.
    eapply Rle_trans; [apply Rabs_triang|]. pose proof u_small as [U1 U2]. pose proof u32_small as [U3 U4].
    rewrite Rabs_Ropp, Rabs_mult, (Rabs_pos_eq w) by lra.
    assert (X : Rabs (p + - r) <= 2 * B) by (eapply Rle_trans; [apply Rabs_triang|]; rewrite Rabs_Ropp; lra).
    assert (w * Rabs (p + - r) <= w * (2 * B)) by (apply Rmult_le_compat_l; lra).
    assert (B0 : 0 < B) by (unfold B; lra). assert (0 < w * B) by (apply Rmult_lt_0_compat; lra).
    assert (17 * u * B <= 17 / 128 * (w * B)).
    { replace (17 / 128 * (w * B)) with (17 / 128 * w * B) by ring. apply Rmult_le_compat_r; lra. }
    assert (w * (3 * u32 * B) <= / 2 * (w * B)).
    { replace (w * (3 * u32 * B)) with (3 * u32 * (w * B)) by ring. apply Rmult_le_compat_r; lra. }
    lra.
  Qed.

  (** ** The compactness of a cluster *)
  Context (xs : list (list f64)) (Hne : xs <> []) (HF : rows xs).
  Let n := INR (length xs).
  Let W := u * (b * b).
  Theorem near_cl_cp32 : (Z.of_nat (length xs) <= 2 ^ 20)%Z ->
    near (c_cp (cl_of (A := A) xs)) (scatter d (map (map rv) xs)) (880 * W * (D * D * (n * n))).
  Proof.
    intros HL.
    destruct (cl_main_gen L S HS add32 mul32 div32 (s_sum T) (s_dot T) b (usual_lo2 b Hb) d Hd (ok32 b) (ok32_in b) (2 ^ 20) ltac:(lia)
                cl_V_in cl_V_move xs Hne HF HL) as (_ & _ & (Vc & Fc & Ec)).
    pose proof (shift_bound d xs (fun j => Vj j xs) (4 * u32 * b) Hne (rows_len xs HF) (fun j Hj => proj2 (proj2 (cl_V_near xs j Hne HF HL Hj)))) as Hs.
    split; [exact Vc|]. split; [exact Fc|].
    eapply Rle_trans; [exact (tri _ _ _ _ _ Ec Hs)|].
    change (INR (@length (vec (Gd L S add32 mul32 div32 (s_sum T) (s_dot T))) xs)) with n. change (INR (length xs)) with n. change (INR d) with D.
    replace (4 * u32 * b * (4 * u32 * b)) with (16 * (u32 * u32) * (b * b)) by ring. rewrite u32_sq.
      replace (92 * (u * (2 * b) * (2 * b)) * (D * D) * (n * n - 1)) with (368 * W * (D * D * (n * n - 1))) by (unfold W; ring).
      replace (D * (n * (16 * (32 * u) * (b * b)))) with (512 * W * (D * n)) by (unfold W; ring).
      assert (n1 : 1 <= n) by (apply (le_INR 1); destruct xs; [congruence|cbn; lia]).
      assert (D1 : 1 <= D) by (apply (le_INR 1); lia).
      assert (W0 : 0 <= W) by (unfold W; pose proof b_pos; pose proof u_pos; apply Rmult_le_pos; [lra|nra]).
      assert (K1 : W * (D * n) <= W * (D * D * (n * n))).
      { apply Rmult_le_compat_l; [exact W0|]. replace (D * D * (n * n)) with ((D * n) * (D * n)) by ring.
        assert (1 <= D * n) by nra. nra. }
      assert (K2 : W * (D * D * (n * n - 1)) <= W * (D * D * (n * n))).
      { apply Rmult_le_compat_l; [exact W0|]. apply Rmult_le_compat_l; [nra|lra]. }
      lra.
  Qed.

  Context (HT : any_order32 T).
  Lemma rows_V_near ys j : ys <> [] -> rows ys -> (Z.of_nat (length ys) <= 2 ^ 19)%Z -> (j < d)%nat ->
    near (nth j (mean_rows (A := A) d ys) nanv) (ravg (fcol j ys)) (2 * u32 * b * INR (length ys)).
  Proof.
    intros Hny HFy HL Hj. pose proof (mean_rows_nth32 L S T d ys j (rows_len ys HFy) Hj) as E.
    assert (El : length (fcol j ys) = length ys) by apply fcol_length. destruct HT as [Hsum _].
    pose proof (near_mean32 b (fcol j ys) (s_sum T (fcol j ys)) ltac:(pose proof low32_pos; unfold high32 in *; lra) (Hsum _) (col_ne j ys Hny) (col_ok32 ys j Hj HFy)
                  ltac:(rewrite El; lia)) as [H _]. rewrite El in H.
    exact (eq_ind_r (fun z => near z _ _) H E).
  Qed.
  Theorem near_rows_cp32 : (Z.of_nat (length xs) <= 2 ^ 19)%Z ->
    near (cp_rows (A := A) d xs) (scatter d (map (map rv) xs)) (108 * W * ((D * n) * (D * n)) + 128 * W * (D * n * (n * n))).
  Proof.
    intros HL. pose proof b_pos as b0.
    eapply near_weaken.
    - apply (near_rows_from L S HS b (usual_lo2 b Hb) d Hd xs Hne (rows_in xs HF) ltac:(change (vec (F64o L S)) with (list f64); lia) (mean_rows (A := A) d xs) (2 * u32 * b * n)).
      + unfold mean_rows, smean0. now rewrite map_length, seq_length.
      + intros j Hj. pose proof (rows_V_near xs j Hne HF HL Hj) as H. split; [exact H|].
        pose proof (near_abs _ _ _ H) as Ha. destruct H as (V1 & F1 & _). split; [exact V1|]. split; [exact F1|].
        eapply Rle_trans; [exact Ha|]. pose proof (avg_in xs j Hne HF Hj). pose proof (INR_le_19 _ HL).
        assert (2 * u32 * b * INR (length xs) <= / 16 * b).
        { replace (2 * u32 * b * INR (length xs)) with (2 * (u32 * INR (length xs)) * b) by ring. apply Rmult_le_compat_r; lra. }
        lra.
    - fold D n. change (INR (@length (vec (F64o L S)) xs)) with n. 
      replace (2 * u32 * b * n * (2 * u32 * b * n)) with (4 * (u32 * u32) * (b * b) * (n * n)) by ring. rewrite u32_sq. unfold W. right. ring.
  Qed.
End Cl.
