(** * Float32 data: the sums of squares after a stream and after one batch *)
From Coq Require Import ZArith Reals Lia Lra SpecFloat Psatz List Permutation.
From Flocq Require Import Core Relative.
From Verif Require Import Num NumPy Base GetCvi Lists Step StepB Stream Generic RunForm BatchForm ValForm F64 F64o F32d Rnd RndErr RndMean RndSum RndCl RndCP RndCP2 RndCP3 RndCP4 RndOps RndVal RndCH RndRun RndValE
  Rnd32 RndMean32 RndCl32 RndCP32 Spec RGeom XPerm XBatch P_Round P_F32.
Import ListNotations.
Local Open Scope R_scope.
Local Notation R := Rdefinitions.R.
Local Notation nanv := S754_nan.
Local Notation rsum := RndMean.rsum.

Lemma within32_within b s : within32 b s -> within b s.
Proof. intros H x l y Hp Hy. destruct (H x l y Hp Hy) as [(V & Fi & _) Hb]. repeat split; auto. Qed.
Lemma small17 (p q : nat) : (p <= q)%nat -> (Z.of_nat q <= 2 ^ 17)%Z -> (Z.of_nat p <= 2 ^ 17)%Z.
Proof. lia. Qed.
Lemma up17 p k : (Z.of_nat p <= 2 ^ 17)%Z -> (2 ^ 17 <= k)%Z -> (Z.of_nat p <= k)%Z.
Proof. lia. Qed.

Section Run.
  Context (L : Libm) (S T : Sums) (HS : any_order S).
  Notation A := (F32d L S T).
  Context (b : R) (Hb : low32 <= b <= high32 / 2) (d : nat) (Hd : (1 <= Z.of_nat d <= 2 ^ 20)%Z).
  Context (s : list (list f64 * Z)) (Hw : wf_stream (A := A) d s) (Hwi : within32 b s) (HL : (Z.of_nat (length s) <= 2 ^ 17)%Z) (Hs : s <> []).
  Let Nn := INR (length s).
  Definition ev32 : R := 9 * u32 * b * INR (length s).
  Let ev := ev32.
  Let row32 xs := Forall (fun x => length x = d /\ Forall (ok32 b) x) xs.

  Lemma Hb2 : lo2 <= b <= hi2 / 2. Proof. exact (usual_lo2 b Hb). Qed.
  Lemma HL24 : (Z.of_nat (length s) <= 2 ^ 24)%Z. Proof. exact (up17 _ (2 ^ 24) HL ltac:(lia)). Qed.
  Lemma pre32 : 0 < b /\ 0 < u32 /\ 1 <= Nn /\ u32 * Nn <= / 128 /\ 0 < ev /\ 1000000 * u <= u32.
  Proof.
    pose proof low32_pos. pose proof u32_small as [U1 U2]. assert (b0 : 0 < b) by lra.
    assert (N1 : 1 <= Nn) by (unfold Nn; apply (le_INR 1); destruct s; [congruence|cbn; lia]).
    assert (N2 : Nn <= 131072) by (unfold Nn; rewrite INR_IZR_INZ; apply (IZR_le _ (2 ^ 17)); exact HL).
    assert (U3 : u32 = / 16777216) by reflexivity.
    split; [exact b0|]. split; [exact U1|]. split; [exact N1|]. split; [rewrite U3; lra|]. split.
    - unfold ev, ev32. fold Nn. repeat apply Rmult_lt_0_compat; lra.
    - rewrite U3, u_val. lra.
  Qed.
  Lemma ev_ok n : n = length s -> 1000 * u * b * INR n <= ev <= b / 8.
  Proof.
    intros ->. fold Nn. destruct pre32 as (b0 & U0 & N1 & UN & e0 & UU). pose proof u_pos. unfold ev, ev32. fold Nn. split.
    - replace (1000 * u * b * Nn) with (1000 * u * (b * Nn)) by ring. replace (9 * u32 * b * Nn) with (9 * u32 * (b * Nn)) by ring.
      apply Rmult_le_compat_r; [nra|lra].
    - replace (9 * u32 * b * Nn) with (9 * (u32 * Nn) * b) by ring. unfold Rdiv. rewrite (Rmult_comm b). apply Rmult_le_compat_r; lra.
  Qed.
  Lemma perm_ok32 gs : Permutation gs (groups s) -> gs <> [] /\
    (forall g, In g gs -> g <> [] /\ Forall (fun x => length x = d /\ Forall (ok_in b) x) g) /\
    length (concat gs) = length s /\ Permutation (map fst s) (concat gs) /\ Permutation (map exact gs) (clusters (exact_data s)) /\
    length gs = length (clusters (exact_data s)).
  Proof. exact (perm_ok L S b d s Hw (within32_within b s Hwi) HL24 Hs gs). Qed.
  Lemma rows_ok32 gs g : Permutation gs (groups s) -> In g gs -> row32 g /\ (length g <= length s)%nat.
  Proof.
    intros P Hi. split.
    - assert (Hg : In g (groups s)) by (now rewrite <- P). unfold groups in Hg. apply in_map_iff in Hg as (l & <- & _).
      now apply within_grp32.
    - exact (gs_le L S b d s Hw (within32_within b s Hwi) HL24 Hs gs P g Hi).
  Qed.
  Lemma all_ok32 : map fst s <> [] /\ row32 (map fst s) /\ length (map fst s) = length s.
  Proof.
    split; [destruct s; [congruence|discriminate]|]. split; [|apply map_length].
    apply Forall_map, Forall_forall. intros [x z] Hp. unfold wf_stream in Hw. rewrite Forall_forall in Hw.
    split; [exact (Hw _ Hp)|]. apply Forall_forall. intros y Hy. destruct (Hwi x z y Hp Hy). now apply float32_ok.
  Qed.

  (** ** Stored points *)
  Lemma len32 xs : row32 xs -> Forall (fun x : list f64 => length x = d) xs.
  Proof. intros H. eapply Forall_impl; [|exact H]. simpl. tauto. Qed.
  Lemma cl_mean32 xs : xs <> [] -> row32 xs -> (length xs <= length s)%nat -> at_mean d (c_v (cl_of (A := A) xs)) xs ev.
  Proof.
    intros Hne HF Hle. destruct pre32 as (b0 & U0 & N1 & UN & e0 & UU). split.
    - exact (cl_of_v_length (A := A) d xs Hne (len32 xs HF)).
    - intros j Hj. eapply near_weaken; [exact (cl_V_near L S T b Hb d Hd xs j Hne HF (up17 _ (2 ^ 20) (small17 _ _ Hle HL) ltac:(lia)) Hj)|].
      unfold ev, ev32. fold Nn. rewrite <- (Rmult_1_r (4 * u32 * b)).
      assert (0 < u32 * b) by (apply Rmult_lt_0_compat; lra).
      apply Rmult_le_compat; lra.
  Qed.
  Lemma mu_mean32 : at_mean d (snd (m_of (A := A) (map fst s))) (map fst s) ev.
  Proof.
    destruct all_ok32 as (Hn & HF & _). destruct pre32 as (b0 & U0 & N1 & UN & e0 & UU). split.
    - exact (m_of_length L S T d _ Hn (len32 _ HF)).
    - intros j Hj. pose proof (m_of_nth32 L S T d (map fst s) j Hn (len32 _ HF) Hj) as Ev.
      assert (El : length (fcol j (map fst s)) = length s) by (rewrite fcol_length; apply map_length).
      destruct (near_mu32 b (fcol j (map fst s)) ltac:(pose proof low32_pos; unfold high32 in *; lra) (fcol_ne j _ Hn) (fcol_ok32 b d _ j Hj HF)) as [Hm _].
      { rewrite El. exact (up17 _ (2 ^ 20) HL ltac:(lia)). }
      refine (eq_ind_r (fun z => near z _ _) _ Ev). eapply near_weaken; [exact Hm|]. rewrite El. unfold ev, ev32.
      apply Rmult_le_compat_l; [|lra]. apply Rmult_le_pos; lra.
  Qed.
  Lemma rows_mean32 xs : any_order32 T -> xs <> [] -> row32 xs -> (length xs <= length s)%nat -> at_mean d (mean_rows (A := A) d xs) xs ev.
  Proof.
    intros HT Hne HF Hle. destruct pre32 as (b0 & U0 & N1 & UN & e0 & UU). split.
    - unfold mean_rows, smean0. now rewrite map_length, seq_length.
    - intros j Hj. eapply near_weaken; [exact (rows_V_near L S T b Hb d Hd HT xs j Hne HF (up17 _ (2 ^ 19) (small17 _ _ Hle HL) ltac:(lia)) Hj)|].
      unfold ev, ev32. apply le_INR in Hle. pose proof (pos_INR (length xs)).
      assert (0 < u32 * b) by (apply Rmult_lt_0_compat; lra).
      apply Rmult_le_compat; lra.
  Qed.

  Lemma near_dist32 gs (v w : list f64) xs ys z : Permutation gs (groups s) ->
    at_mean d v xs ev -> at_mean d w ys ev ->
    (exists g, In g gs /\ xs = g) \/ Permutation xs (concat gs) -> (exists g, In g gs /\ ys = g) \/ Permutation ys (concat gs) ->
    summed (map (fun x => dmul x x) (map2 dsub v w)) z ->
    near z (rdist2 d (fun j => ravg (fcol j xs)) (fun j => ravg (fcol j ys))) (emE b d ev).
  Proof.
    intros P [V1 V2] [W1 W2] Hx Hy Hz. destruct (perm_ok32 gs P) as (G1 & G2 & G3 & G4 & _).
    assert (HN : (Z.of_nat (length (concat gs)) <= 2 ^ 24)%Z) by (rewrite G3; exact HL24).
    unfold emE. apply (near_sumsqE b Hb2 d Hd gs G1 G2 HN ev (ev_ok _ G3) v w _ _ z); auto.
    - intros j Hj. split; [auto|]. apply (avg_le b Hb2 d Hd gs G1 G2 HN); auto.
    - intros j Hj. split; [auto|]. apply (avg_le b Hb2 d Hd gs G1 G2 HN); auto.
  Qed.

  (** ** Streams *)
  Lemma cp_small (n W' : R) : 1 <= n <= Nn -> W' = u * (b * b) ->
    880 * W' * (INR d * INR d * (n * n)) <= ev * b * (INR d * INR d) * n /\
    108 * W' * ((INR d * n) * (INR d * n)) + 128 * W' * (INR d * n * (n * n)) <= ev * b * (INR d * INR d) * n.
  Proof.
    intros [n1 n2] ->. destruct pre32 as (b0 & U0 & N1 & UN & e0 & UU). pose proof u_pos as U1.
    assert (D1 : 1 <= INR d) by (apply (le_INR 1); lia). set (D := INR d) in *.
    assert (B0 : 0 < b * b) by nra. assert (DD : D <= D * D) by nra.
    set (Q := u32 * (b * b) * (D * D * (Nn * n))).
    assert (Q0 : 0 < Q) by (unfold Q; repeat apply Rmult_lt_0_compat; nra).
    assert (EQ : ev * b * (D * D) * n = 9 * Q) by (unfold Q, ev, ev32; fold Nn; ring).
    assert (nN : n * n <= Nn * n) by (apply Rmult_le_compat_r; lra).
    assert (X1 : 1000000 * (u * (b * b) * (D * D * (n * n))) <= Q).
    { unfold Q. rewrite <- !Rmult_assoc. rewrite (Rmult_assoc (1000000 * u)), (Rmult_assoc (1000000 * u)), (Rmult_assoc (1000000 * u)), (Rmult_assoc (1000000 * u)), (Rmult_assoc (1000000 * u)).
      rewrite (Rmult_assoc u32), (Rmult_assoc u32), (Rmult_assoc u32), (Rmult_assoc u32), (Rmult_assoc u32).
      apply Rmult_le_compat; try lra; [repeat apply Rmult_le_pos; nra|].
      rewrite !Rmult_assoc. repeat (apply Rmult_le_compat_l; [lra|]). lra. }
    assert (X2 : 128 * (u * (b * b) * (D * n * (n * n))) <= Q).
    { assert (Y1 : 128 * u * n <= u32).
      { assert (u * n <= u * Nn) by (apply Rmult_le_compat_l; lra).
        assert (N2 : Nn <= 131072) by (unfold Nn; rewrite INR_IZR_INZ; apply (IZR_le _ (2 ^ 17)); exact HL).
        assert (u * Nn <= u * 131072) by (apply Rmult_le_compat_l; lra).
        assert (U3 : u32 = / 16777216) by reflexivity. assert (128 * u * 131072 <= u32) by (rewrite U3, u_val; lra). lra. }
      replace (128 * (u * (b * b) * (D * n * (n * n)))) with (128 * u * n * (b * b * (D * (n * n)))) by ring.
      unfold Q. rewrite (Rmult_assoc u32). apply Rmult_le_compat; [nra|repeat apply Rmult_le_pos; nra|exact Y1|].
      apply Rmult_le_compat_l; [lra|]. apply Rmult_le_compat; nra. }
    split; rewrite EQ.
    - replace (880 * (u * (b * b)) * (D * D * (n * n))) with (880 * (u * (b * b) * (D * D * (n * n)))) by ring. lra.
    - replace (108 * (u * (b * b)) * (D * n * (D * n))) with (108 * (u * (b * b) * (D * D * (n * n)))) by ring.
      replace (128 * (u * (b * b)) * (D * n * (n * n))) with (128 * (u * (b * b) * (D * n * (n * n)))) by ring. lra.
  Qed.
  Lemma g_size gs g : Permutation gs (groups s) -> In g gs -> 1 <= INR (length g) <= Nn.
  Proof.
    intros P Hi. destruct (perm_ok32 gs P) as (_ & G2 & _). destruct (G2 g Hi) as [Hne _]. destruct (rows_ok32 gs g P Hi) as [_ Hle]. split.
    - apply (le_INR 1). destruct g; [congruence|cbn; lia].
    - unfold Nn. now apply le_INR.
  Qed.
  Lemma form_CP32 c a : gclass c = true -> Formed (A := A) c d s a ->
    near (py_sum (A := A) (CP a)) (wgss d (map exact (groups s))) (epsE b d (groups s) ev).
  Proof.
    intros Hc [_ Hk _ _ HG]. destruct (HG Hc) as (_ & HCP & _). rewrite HCP.
    destruct (perm_ok32 _ (Permutation_refl _)) as (G1 & G2 & G3 & _).
    apply (near_wgssE b Hb2 d Hd (groups s) G1 G2 ltac:(rewrite G3; exact HL24) ev (ev_ok _ G3)).
    intros g Hi. destruct (G2 g Hi) as [Hne _]. destruct (rows_ok32 _ g (Permutation_refl _) Hi) as [HF Hle].
    eapply near_weaken; [exact (near_cl_cp32 L S T HS b Hb d Hd g Hne HF (up17 _ (2 ^ 20) (small17 _ _ Hle HL) ltac:(lia)))|].
    apply (cp_small (INR (length g)) _ (g_size _ g (Permutation_refl _) Hi) eq_refl).
  Qed.
  Lemma form_SEP32 c a : gclass c = true -> Formed (A := A) c d s a -> SEP a = sep_of a ->
    near (py_sum (A := A) (SEP a)) (bgss d (map exact (groups s))) (epsE b d (groups s) ev).
  Proof.
    intros Hc [_ Hk Hn Hv HG] HSEP. destruct (HG Hc) as (_ & _ & _ & Hmu). rewrite HSEP.
    destruct (perm_ok32 _ (Permutation_refl _)) as (G1 & G2 & G3 & _).
    set (z := fun g : list (list f64) => dsum (map (fun x => dmul x x) (map2 dsub (c_v (cl_of (A := A) g)) (snd (m_of (A := A) (map fst s)))))).
    assert (E0 : sep_of (A := A) a = map (fun g => dmul (d_of_Z (Z.of_nat (length g))) (z g)) (groups s)).
    { unfold sep_of. rewrite Hk, <- groups_length.
      rewrite <- (map_nth_seq (fun g => dmul (d_of_Z (Z.of_nat (length g))) (z g)) (groups s) []).
      apply map_ext_in. intros i Hi. apply in_seq in Hi. destruct Hi as [_ Hi]. cbn [plus] in Hi. rewrite groups_length in Hi.
      assert (E1 : nn (A := A) a i = length (nth i (groups s) [])) by (unfold nn; rewrite Hn; exact (nth_groups (A := A) (@length _) s i _ Hi)).
      assert (E2 : vrow (A := A) a i = c_v (cl_of (A := A) (nth i (groups s) []))) by (unfold vrow; rewrite Hv; exact (nth_groups (A := A) (fun xs => c_v (cl_of xs)) s i _ Hi)).
      rewrite E1, E2, (Hmu Hs). unfold z.
      assert (Lv : length (map2 dsub (c_v (cl_of (A := A) (nth i (groups s) []))) (snd (m_of (A := A) (map fst s)))) = d).
      { rewrite length_map2. assert (Hi' : In (nth i (groups s) []) (groups s)) by (apply nth_In; now rewrite groups_length).
        destruct (G2 _ Hi') as [Hne _]. destruct (rows_ok32 _ _ (Permutation_refl _) Hi') as [HF Hle].
        destruct (cl_mean32 _ Hne HF Hle) as [L1 _]. destruct mu_mean32 as [L2 _].
        change (F A) with f64 in *. rewrite L1, L2. lia. }
      unfold f_of_nat. change (@f_of_Z A) with d_of_Z. change (@fmul A) with dmul. apply (f_equal (dmul (d_of_Z _))).
      unfold py_sumsq, py_sum, fsq. change (@fadd A) with dadd. change (@f0 A) with (d_of_Z 0). change (@fsub A) with dsub. change (@fmul A) with dmul.
      apply psum_squares. intros E. rewrite E in Lv. cbn in Lv. lia. }
    rewrite E0. apply (near_bgssE b Hb2 d Hd (groups s) G1 G2 ltac:(rewrite G3; exact HL24) ev (ev_ok _ G3)) with (z := z) (all := map fst s); [symmetry; apply groups_concat|].
    intros g Hi. split; [|reflexivity]. destruct (G2 g Hi) as [Hne _]. destruct (rows_ok32 _ g (Permutation_refl _) Hi) as [HF Hle].
    apply (near_dist32 (groups s) _ _ g (map fst s) (z g) (Permutation_refl _) (cl_mean32 g Hne HF Hle) mu_mean32).
    - eauto.
    - right. symmetry. apply groups_concat.
    - apply dsum_summed.
  Qed.

  (** ** One batch *)
  Lemma bgroups_perm32 : labels_upto s -> Permutation (bgroups (A := A) s) (groups s).
  Proof. exact (bgroups_perm L S d s). Qed.
  Lemma bform_CP32 c a : any_order32 T -> labels_upto s -> BForm (A := A) c d s a ->
    near (py_sum (A := A) (CP a)) (wgss d (map exact (bgroups (A := A) s))) (epsE b d (bgroups (A := A) s) ev).
  Proof.
    intros HT Hl [_ _ _ _ HCP _ _ _]. rewrite HCP. destruct (perm_ok32 _ (bgroups_perm32 Hl)) as (G1 & G2 & G3 & _).
    apply (near_wgssE b Hb2 d Hd (bgroups (A := A) s) G1 G2 ltac:(rewrite G3; exact HL24) ev (ev_ok _ G3)).
    intros g Hi. destruct (G2 g Hi) as [Hne _]. destruct (rows_ok32 _ g (bgroups_perm32 Hl) Hi) as [HF Hle].
    eapply near_weaken; [exact (near_rows_cp32 L S T HS b Hb d Hd g Hne HF HT (up17 _ (2 ^ 19) (small17 _ _ Hle HL) ltac:(lia)))|].
    apply (cp_small (INR (length g)) _ (g_size _ g (bgroups_perm32 Hl) Hi) eq_refl).
  Qed.
  Lemma bform_SEP32 c a : any_order32 T -> labels_upto s -> BForm (A := A) c d s a -> c = kCH \/ c = kWB ->
    near (py_sum (A := A) (SEP a)) (bgss d (map exact (bgroups (A := A) s))) (epsE b d (bgroups (A := A) s) ev).
  Proof.
    intros HT Hl [_ _ _ _ _ HSEP _ _] Hc. rewrite (HSEP Hc). destruct (perm_ok32 _ (bgroups_perm32 Hl)) as (G1 & G2 & G3 & G4 & _).
    destruct all_ok32 as (X1 & X2 & X3). destruct HS as [Hsum Hdot].
    apply (near_bgssE b Hb2 d Hd (bgroups (A := A) s) G1 G2 ltac:(rewrite G3; exact HL24) ev (ev_ok _ G3)) with
      (z := fun g => np_sumsq (A := A) (map2 dsub (mean_rows (A := A) d g) (mean_rows (A := A) d (map fst s)))) (all := map fst s); [exact G4|].
    intros g Hi. split; [|reflexivity]. destruct (G2 g Hi) as [Hne _]. destruct (rows_ok32 _ g (bgroups_perm32 Hl) Hi) as [HF Hle].
    apply (near_dist32 _ _ _ g (map fst s) _ (bgroups_perm32 Hl) (rows_mean32 g HT Hne HF Hle) (rows_mean32 (map fst s) HT X1 X2 (Nat.eq_le_incl _ _ (map_length fst s)))).
    - eauto.
    - right. exact G4.
    - apply Hsum.
  Qed.
End Run.
