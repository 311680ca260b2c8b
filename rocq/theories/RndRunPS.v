(** * The value of PS after a stream and after one batch *)
From Coq Require Import ZArith Reals Lia Lra SpecFloat Psatz List Permutation.
From Flocq Require Import Core Relative.
From Verif Require Import Num NumPy Base GetCvi Lists Step Step2 StepB Eval Stream Shapes Generic RunForm BatchForm ValForm PSForm F64 F64o Rnd RndErr RndMean RndSum RndCl RndCP RndCP2 RndCP3 RndCP4 RndOps RndVal RndCH RndSel RndVal2 RndRun RndRun2 RndPS Spec RGeom XPerm XBatch P_Round.
Import ListNotations.
Local Open Scope R_scope.
Local Notation R := Rdefinitions.R.
Local Notation nanv := S754_nan.

Lemma row_entries {X} (l : list X) z : map (fun j => nth j l z) (seq 0 (length l)) = l.
Proof. apply map_seq_nth. Qed.

Section RunPS.
  Context (L : Libm) (S : Sums) (HS : any_order S).
  Notation A := (F64o L S).
  Context (b : R) (Hb : lo2 <= b <= hi2 / 2) (d : nat) (Hd : (1 <= Z.of_nat d <= 2 ^ 20)%Z).
  Context (s : list (list f64 * Z)) (Hw : wf_stream (A := A) d s) (Hwi : within b s) (HL : (Z.of_nat (length s) <= 2 ^ 24)%Z) (Hs : s <> []).
  Context (gs : list (list (list f64))) (P : Permutation gs (groups s)) (Hgs : (2 <= length gs)%nat).
  Context (tau : R) (Htau : 0 <= tau <= 1) (HX : exp_close L tau).
  Let Hok := perm_ok L S b d s Hw Hwi HL Hs gs P.
  Let Hg := proj1 (proj2 Hok).
  Let Hlen := proj1 (proj2 (proj2 Hok)).
  Let HN0 := HN L S b d s Hw Hwi HL Hs gs P.
  Let G i : list (list f64) := nth i gs [].
  Let k := length gs.
  Let dist i j := cdist d (exact (G i)) (exact (G j)).
  Let lamb := lam b d gs.
  Let dlt := sepmin d gs.

  (** the stored centroids and their distances *)
  Record ps_holds (a : attrs A) : Prop := mkPsHolds {
    ph_k : n_clusters a = k;
    ph_n : n a = map (@length _) gs;
    ph_d : mcols (v a) = d;
    ph_rows : length (mrows (v a)) = k;
    ph_v : forall i, (i < k)%nat -> at_mean d (vrow a i) (G i) (17 * u * b * INR (length (G i)));
    ph_D : wfm k k (D a);
    ph_e : forall i j, (i < k)%nat -> (j < k)%nat -> i <> j ->
      plus0 (A := A) (sqd (A := A) (vrow a i) (vrow a j)) (entry (D a) i j) \/ plus0 (A := A) (sqd (A := A) (vrow a j) (vrow a i)) (entry (D a) i j)
  }.
  Lemma at_mean_s v g : In g gs -> at_mean d v g (17 * u * b * INR (length g)) -> at_mean d v g (17 * u * b * INR (length s)).
  Proof.
    intros Hi [H1 H2]. split; auto. intros j Hj. eapply near_weaken; [apply H2, Hj|].
    pose proof u_pos. pose proof lo2_pos. apply Rmult_le_compat_l; [apply Rmult_le_pos; lra|].
    apply le_INR. exact (gs_le L S b d s Hw Hwi HL Hs gs P g Hi).
  Qed.
  Lemma near_sqd a i j : ps_holds a -> (i < k)%nat -> (j < k)%nat -> near (sqd (A := A) (vrow a i) (vrow a j)) (dist i j) (em b d gs).
  Proof.
    intros Ho Hi Hj. assert (Ii : In (G i) gs) by (apply nth_In, Hi). assert (Ij : In (G j) gs) by (apply nth_In, Hj).
    unfold dist. rewrite cdist_avg. destruct HS as [Hsum _].
    apply (near_np_dist L S b Hb d Hd s Hw Hwi HL Hs gs P (vrow a i) (vrow a j) (G i) (G j)).
    - apply at_mean_s; auto. now apply (ph_v a Ho).
    - apply at_mean_s; auto. now apply (ph_v a Ho).
    - left. exists (G i). auto.
    - left. exists (G j). auto.
    - apply Hsum.
  Qed.
  Theorem obj_PS a : ps_holds a -> 4 * (INR k * lamb) <= dlt ->
    near (val_of (A := A) kPS a) (PS_formula d (map exact gs)) (INR k * (tau + 2 * (INR k * lamb / dlt))).
  Proof.
    intros Ho H4. pose proof Ho as [Hk Hn Hc Hr Hv HD He].
    assert (Hv' : forall i, (i < length gs)%nat -> at_mean d (vrow a i) (nth i gs []) (17 * u * b * INR (length (nth i gs [])))) by (intros i Hi; apply Hv; exact Hi).
    assert (He' : forall i j, (i < length gs)%nat -> (j < length gs)%nat -> i <> j -> near (entry (D a) i j) (cdist d (exact (nth i gs [])) (exact (nth j gs []))) (em b d gs)).
    { intros i j Hi Hj Hij. destruct (He i j Hi Hj Hij) as [H|H]; (eapply (near_plus0 L S); [|exact H]).
      - now apply near_sqd.
      - pose proof (near_sqd a j i Ho Hj Hi) as H'. unfold dist in H'. rewrite cdist_sym in H'. exact H'. }
    pose proof (near_PS L S HS b Hb d Hd gs Hgs Hg HN0 (fun i => vrow a i) Hv' (fun i j => entry (D a) i j) He' H4 tau Htau HX) as H.
    fold k lamb dlt in H. refine (eq_ind _ (fun t => near t _ _) H _ _).
    unfold val_of. destruct (Nat.leb_spec (n_clusters a) 1) as [Hx|_]; [rewrite Hk in Hx; unfold k in *; lia|].
    assert (Ev : v a = mkMat (A := A) d (map (fun i => vrow a i) (seq 0 k))).
    { destruct (v a) as [c r] eqn:E. cbn [mcols mrows] in Hc, Hr. subst c. f_equal. unfold vrow. rewrite E. cbn [mrows].
      rewrite <- Hr. symmetry. apply row_entries. }
    unfold PS_val. rewrite Hk. change (@np_sum A) with (s_sum S). f_equal. apply map_ext_in. intros i Hi. apply in_seq in Hi.
    change (@fsub A) with dsub. change (@fdiv A) with ddiv. change (@fexp A) with (l_exp L). change (@fneg A) with SFopp. f_equal.
    - unfold nn. rewrite Hn. unfold f_of_nat. change (@f_of_Z A) with d_of_Z. f_equal. f_equal. f_equal. symmetry.
      change 0%nat with (length (@nil (list f64))). apply (map_nth (@length (list f64)) gs [] i).
    - f_equal. f_equal.
      + f_equal. f_equal. rewrite <- (XEval.remove_nth_map (fun j => entry (D a) i j)). f_equal.
        pose proof (wfm_row _ _ _ i HD ltac:(lia)) as Lr. unfold entry. rewrite <- Lr. apply (row_entries (nth i (mrows (D a)) [])).
      + unfold PS_bt. rewrite Hk. unfold py_sum, f_of_nat. change (@f_of_Z A) with d_of_Z. change (@fadd A) with dadd. change (@fdiv A) with ddiv. change (@f0 A) with (d_of_Z 0).
        refine (f_equal (fun m : mat A => ddiv (fold_left dadd (map (fun i0 : nat => s_dot S (map2 dsub (vrow a i0) (mean0 (A := A) m)) (map2 dsub (vrow a i0) (mean0 (A := A) m))) (seq 0 k)) (d_of_Z 0)) (d_of_Z (Z.of_nat k))) (eq_sym Ev)).
  Qed.

  (** ** Streams *)
  Lemma ps_holds_stream a : gs = groups s -> Formed (A := A) kPS d s a -> Dist (A := A) a -> ps_holds a.
  Proof.
    intros Eg HF HD. destruct HF as [Hsh Hk Hn Hv _]. destruct Hsh as [[E _]|[_ Hsh]]; [exfalso; exact (Hs E)|]. cbn [Shape] in Hsh. destruct Hsh as [Hsh _].
    assert (Ek : n_clusters a = k) by (rewrite Hk; unfold k; now rewrite Eg, groups_length).
    constructor.
    - exact Ek.
    - now rewrite Eg.
    - apply (sp_v _ _ Hsh).
    - rewrite Hv, map_length. exact (f_equal (@length _) (eq_sym Eg)).
    - intros i Hi. assert (Ii : In (G i) gs) by (apply nth_In, Hi). destruct (Hg (G i) Ii) as [Hne HFo].
      pose proof (gs_le L S b d s Hw Hwi HL Hs gs P (G i) Ii) as Hle.
      assert (Er : vrow a i = c_v (cl_of (A := A) (G i))).
      { assert (Hv' : mrows (v a) = map (fun xs => c_v (cl_of (A := A) xs)) gs) by (rewrite Eg; exact Hv). unfold vrow. rewrite Hv'. unfold G. rewrite (nth_indep _ _ (c_v (cl_of (A := A) []))) by (rewrite map_length; exact Hi).
        apply (map_nth (fun xs => c_v (cl_of (A := A) xs)) gs [] i). }
      rewrite Er. split.
      + apply (cl_of_v_length (A := A)); auto. eapply Forall_impl; [|exact HFo]. simpl. tauto.
      + intros j Hj. eapply near_weaken; [apply (near_cl_v L S b d (G i) j (Hb_mean b Hb) Hne HFo); [exact (small48 _ _ Hle HL)|exact Hj]|].
        pose proof u_pos. pose proof lo2_pos. apply Rmult_le_compat_l; [apply Rmult_le_pos; lra|]. match goal with |- ?p - 1 <= ?q => change (p - 1 <= p) end. lra.
    - rewrite <- Ek. exact (sp_D _ _ Hsh).
    - intros i j Hi Hj Hij. rewrite <- Ek in Hi, Hj. destruct (HD i j Hi Hj Hij) as [E|E]; [left|right]; left; exact E.
  Qed.

  (** ** One batch *)
  Lemma ps_holds_batch a : gs = bgroups (A := A) s -> BCommon (A := A) (mkMat (A := A) d (map fst s)) (map snd s) a ->
    D a = D_sym (A := A) (n_unique (map snd s)) (b_sqd (A := A) (mkMat (A := A) d (map fst s)) (map snd s)) -> ps_holds a.
  Proof.
    intros Eg HB HD. pose proof (bc_k _ _ _ HB) as Bk. pose proof (bc_n _ _ _ HB) as Bn. pose proof (bc_v _ _ _ HB) as Bv.
    set (m := mkMat (A := A) d (map fst s)) in *. set (ls := map snd s) in *.
    assert (Ek : n_unique ls = k) by (unfold k; rewrite Eg; unfold bgroups; rewrite map_length, seq_length; reflexivity).
    assert (EG : forall i, (i < k)%nat -> G i = grp s (Z.of_nat i)).
    { intros i Hi. unfold G. rewrite Eg. unfold bgroups. exact (nth_map_seq _ _ _ _ (eq_ind_r (fun t => (i < t)%nat) Hi Ek)). }
    assert (Ev : forall i, (i < k)%nat -> vrow a i = b_v m ls i).
    { intros i Hi. unfold vrow. rewrite Bv. cbn [mrows]. apply nth_map_seq. rewrite Ek. exact Hi. }
    assert (Eb : forall i, (i < k)%nat -> b_v m ls i = mean_rows (A := A) d (G i)).
    { intros i Hi. rewrite (EG i Hi). exact (f_equal (mean0 (A := A)) (subset_is (A := A) d s i)). }
    constructor.
    - rewrite Bk. exact Ek.
    - rewrite Bn, Eg. unfold bgroups. rewrite map_map. apply map_ext. intros i. exact (f_equal (nrows (A := A)) (subset_is (A := A) d s i)).
    - rewrite Bv. reflexivity.
    - rewrite Bv. cbn [mrows]. rewrite map_length, seq_length. exact Ek.
    - intros i Hi. rewrite (Ev i Hi), (Eb i Hi). assert (Ii : In (G i) gs) by (apply nth_In, Hi). destruct (Hg (G i) Ii) as [Hne HFo].
      pose proof (gs_le L S b d s Hw Hwi HL Hs gs P (G i) Ii) as Hle.
      pose proof (rows_mean L S HS b Hb d Hd (map (fun x => (x, 0%Z)) (G i))) as H. rewrite map_length in H.
      apply H; auto. exact (small24 _ _ Hle HL).
    - rewrite HD, Ek. apply wfm_tab2.
    - assert (Hsym : forall i j, (i < j < k)%nat -> plus0 (A := A) (b_sqd (A := A) m ls i j) (entry (D a) i j) /\ plus0 (A := A) (b_sqd (A := A) m ls i j) (entry (D a) j i)).
      { intros i j Hij. rewrite HD, Ek. apply D_sym_plus0. exact Hij. }
      intros i j Hi Hj Hij. destruct (Nat.lt_total i j) as [H|[H|H]]; [left|contradiction|right].
      + rewrite !Ev by auto. apply Hsym. lia.
      + rewrite !Ev by auto. apply Hsym. lia.
  Qed.
End RunPS.
