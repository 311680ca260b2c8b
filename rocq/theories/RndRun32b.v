(** * Float32 data: the values of XB, DB, GD43 and GD53 after a stream and after one batch *)
From Coq Require Import ZArith Reals Lia Lra SpecFloat Psatz List Permutation.
From Flocq Require Import Core Relative.
From Verif Require Import Num NumPy Base GetCvi Lists Step StepB Eval Stream Shapes Generic RunForm BatchForm ValForm F64 F64o F32d Rnd RndErr RndMean RndSum RndCl RndCP RndCP2 RndCP3 RndCP4 RndOps RndVal RndCH RndSel RndVal2 RndVal2E RndRun RndRun2 RndValE
  Rnd32 RndMean32 RndCl32 RndCP32 RndRun32 Spec RGeom XPerm XBatch P_Round P_F32.
Import ListNotations.
Local Open Scope R_scope.
Local Notation R := Rdefinitions.R.
Local Notation nanv := S754_nan.
Local Notation rsum := RndMean.rsum.

Section Run2.
  Context (L : Libm) (S T : Sums) (HS : any_order S).
  Notation A := (F32d L S T).
  Context (b : R) (Hb : low32 <= b <= high32 / 2) (d : nat) (Hd : (1 <= Z.of_nat d <= 2 ^ 20)%Z).
  Context (s : list (list f64 * Z)) (Hw : wf_stream (A := A) d s) (Hwi : within32 b s) (HL : (Z.of_nat (length s) <= 2 ^ 24)%Z) (Hs : s <> []).
  Context (gs : list (list (list f64))) (P : Permutation gs (groups s)) (Hgs : (2 <= length gs)%nat).
  Let HBb : lo2 <= b <= hi2 / 2 := usual_lo2 b Hb.
  Let Hok := perm_ok L S b d s Hw (within32_within b s Hwi) HL Hs gs P.
  Let Hg := proj1 (proj2 Hok).
  Let Hlen := proj1 (proj2 (proj2 Hok)).
  Lemma HNb : (Z.of_nat (length (concat gs)) <= 2 ^ 24)%Z.
  Proof. rewrite Hlen. exact HL. Qed.
  (** the error of a stored point *)
  Context (ev : R) (Hev : 1000 * u * b * INR (length s) <= ev <= b / 8).
  Definition lam32 : R := 21 * ev * b * (INR d * INR d).
  Let lamb := lam32.
  Context (HlY : lamb <= INR d * (b * b)).
  Lemma Hev' : 1000 * u * b * INR (length (concat gs)) <= ev <= b / 8.
  Proof. rewrite Hlen. exact Hev. Qed.
  Lemma Hlam32 : 380 * (u * (INR d * (b * b))) * INR (length gs) <= lamb <= INR d * (b * b).
  Proof.
    split; [|exact HlY]. destruct (e_pre b HBb d Hd gs (proj1 Hok) Hg HNb ev Hev') as ((N1 & _) & (D1 & _) & b0 & (U0 & _) & e0 & _).
    pose proof (k_range b d gs Hg) as K. rewrite Hlen in K, N1. destruct Hev as [H1 _].
    unfold lamb, lam32. set (D := INR d) in *. set (N := INR (length s)) in *. set (k := INR (length gs)) in *. assert (k0 : 0 <= k) by apply pos_INR.
    assert (B0 : 0 < b * b) by nra. assert (DD : D <= D * D) by nra.
    assert (X1 : 1000 * u * b * N * b <= ev * b) by (apply Rmult_le_compat_r; lra).
    assert (X2 : 1000 * u * b * N * b * D <= ev * b * D) by (apply Rmult_le_compat_r; lra).
    assert (eb : 0 < ev * b) by (apply Rmult_lt_0_compat; lra).
    assert (X3 : ev * b * D <= ev * b * (D * D)) by (apply Rmult_le_compat_l; lra).
    replace (380 * (u * (D * (b * b))) * k) with (380 * (u * (D * (b * b)) * k)) by ring.
    replace (1000 * u * b * N * b * D) with (1000 * (u * (D * (b * b)) * N)) in X2 by ring.
    assert (0 < u * (D * (b * b))) by (repeat apply Rmult_lt_0_compat; lra).
    assert (u * (D * (b * b)) * k <= u * (D * (b * b)) * N) by (apply Rmult_le_compat_l; lra).
    assert (0 <= u * (D * (b * b)) * k) by (apply Rmult_le_pos; lra). lra.
  Qed.
  Lemma lam32_parts : 0 < ev /\ 0 < lamb /\ emE b d ev <= 165 / 380 * lamb /\ (forall n, 0 <= n -> ev * b * (INR d * INR d) * n <= 369 / 380 * lamb * n) /\
    epsE b d gs ev <= lamb * INR (length (concat gs)).
  Proof.
    destruct (e_pre b HBb d Hd gs (proj1 Hok) Hg HNb ev Hev') as ((N1 & _) & (D1 & _) & b0 & (U0 & _) & e0 & _).
    unfold emE, epsE, lamb, lam32. set (D := INR d) in *. set (N := INR (length (concat gs))) in *.
    assert (Q : 0 < ev * b * (D * D)) by (repeat apply Rmult_lt_0_compat; lra).
    split; [exact e0|]. split; [lra|]. split; [|split].
    - replace (87 / 10 * ev * b * (D * D)) with (87 / 10 * (ev * b * (D * D))) by ring. lra.
    - intros n Hn. apply Rmult_le_compat_r; [lra|]. lra.
    - replace (9 * ev * b * (D * D * N)) with (9 * (ev * b * (D * D)) * N) by ring. apply Rmult_le_compat_r; lra.
  Qed.
  Let G i : list (list f64) := nth i gs [].
  Let k := length gs.
  Let dist i j := cdist d (exact (G i)) (exact (G j)).
  Let pool i j := (scatter d (exact (G i)) + scatter d (exact (G j))) / (INR (length (G i)) + INR (length (G j))).
  Let dlt := sepmin d gs.

  (** what a cluster stores about the group [g] *)
  Definition stores32 (x : cl (A := A)) (g : list (list f64)) : Prop :=
    c_n x = length g /\ at_mean d (c_v x) g ev /\
    near (c_cp x) (scatter d (exact g)) (ev * b * (INR d * INR d) * INR (length g)).
  Lemma cp_weak x g : near x (scatter d (exact g)) (ev * b * (INR d * INR d) * INR (length g)) -> near x (scatter d (exact g)) (369 / 380 * lamb * INR (length g)).
  Proof. intros H. eapply near_weaken; [exact H|]. apply lam32_parts, pos_INR. Qed.

  (** ** Entries of the matrix *)
  Definition e_true32 (c : kind) (i j : nat) : R :=
    match c with kGD43 => sqrt (dist i j) | kGD53 => pool i j | _ => dist i j end.
  Definition e_err32 (c : kind) : R :=
    match c with kGD43 => lamb / (2 * sqrt dlt) | kGD53 => lamb | _ => 165 / 380 * lamb end.
  Lemma e_sym32 c i j : e_true32 c i j = e_true32 c j i.
  Proof.
    assert (H : dist i j = dist j i) by apply cdist_sym. unfold e_true32. destruct c; auto; [now rewrite H|].
    unfold pool. f_equal; ring.
  Qed.
  Lemma G_in32 i : (i < k)%nat -> In (G i) gs. Proof. intros H. apply nth_In, H. Qed.
  Lemma near_dterm32 c (X : nat -> cl (A := A)) i j : dclass c = true -> (c = kGD43 -> 4 * lamb <= dlt) ->
    (forall i, (i < k)%nat -> stores32 (X i) (G i)) -> (i < k)%nat -> (j < k)%nat -> i <> j ->
    near (dterm c (X i) (X j)) (e_true32 c i j) (e_err32 c).
  Proof.
    intros Hc H4 HX Hi Hj Hij. destruct (HX i Hi) as (N1 & V1 & C1). destruct (HX j Hj) as (N2 & V2 & C2).
    assert (HD : near (sqd (A := A) (c_v (X i)) (c_v (X j))) (dist i j) (165 / 380 * lamb)).
    { unfold dist. rewrite cdist_avg. destruct HS as [Hsum _]. destruct V1 as [L1 W1], V2 as [L2 W2].
      eapply near_weaken; [|apply lam32_parts]. unfold emE.
      apply (near_sumsqE b HBb d Hd gs (proj1 Hok) Hg HNb ev Hev' (c_v (X i)) (c_v (X j)) _ _ _ L1 L2).
      - intros m Hm. split; [auto|]. apply (avg_le b HBb d Hd gs (proj1 Hok) Hg HNb); auto. left. exists (G i). auto using G_in32.
      - intros m Hm. split; [auto|]. apply (avg_le b HBb d Hd gs (proj1 Hok) Hg HNb); auto. left. exists (G j). auto using G_in32.
      - apply Hsum. }
    destruct c; try discriminate; cbn [dterm e_true32 e_err32]; auto.
    - apply (near_rootE b HBb d Hd gs Hgs Hg HNb lamb Hlam32 _ i j Hi Hj Hij (H4 eq_refl)). exact HD.
    - rewrite N1, N2. exact (near_poolE b HBb d Hd gs Hgs Hg HNb lamb Hlam32 _ _ i j (cp_weak _ _ C1) (cp_weak _ _ C2) Hi Hj).
  Qed.
  Lemma near_plus032 t x r e : near t r e -> plus0 (A := A) t x -> near x r e.
  Proof.
    intros H [->|[->| ->]]; auto; change (@fadd A) with dadd; change (@f0 A) with (d_of_Z 0); [now apply add_0_r|now apply add_0_l].
  Qed.
  (** the object read by an evaluation *)
  Definition entries32 (c : kind) (a : attrs A) : Prop := forall i j, (i < k)%nat -> (j < k)%nat -> i <> j ->
    c <> kXB \/ (i < j)%nat -> near (entry (D a) i j) (e_true32 c i j) (e_err32 c).
  Record holds32 (a : attrs A) (f : list (list f64) -> f64) : Prop := mkHolds32 {
    ho_k32 : n_clusters a = k;
    ho_ns32 : n_samples a = length s;
    ho_n32 : n a = map (@length _) gs;
    ho_CP32 : CP a = map f gs;
    ho_f32 : forall g, In g gs -> near (f g) (scatter d (exact g)) (369 / 380 * lamb * INR (length g));
    ho_w32 : near (fold_left dadd (map f gs) (d_of_Z 0)) (wgss d (map exact gs)) (lamb * INR (length (concat gs)))
  }.
  Lemma wgss32 (f : list (list f64) -> f64) : (forall g, In g gs -> near (f g) (scatter d (exact g)) (ev * b * (INR d * INR d) * INR (length g))) ->
    near (fold_left dadd (map f gs) (d_of_Z 0)) (wgss d (map exact gs)) (lamb * INR (length (concat gs))).
  Proof.
    intros H. eapply near_weaken; [exact (near_wgssE b HBb d Hd gs (proj1 Hok) Hg HNb ev Hev' f H)|]. apply lam32_parts.
  Qed.
  Lemma k_232 a f : holds32 a f -> (n_clusters a <=? 1)%nat = false.
  Proof. intros H. apply Nat.leb_gt. rewrite (ho_k32 _ _ H). exact Hgs. Qed.
  Lemma ratios32 a f : holds32 a f -> map2 ddiv (CP a) (map (f_of_nat (A := A)) (n a)) = map (fun g => ddiv (f g) (d_of_Z (Z.of_nat (length g)))) gs.
  Proof.
    intros H. rewrite (ho_CP32 _ _ H), (ho_n32 _ _ H), map_map. clear. induction gs as [|g l IH]; [reflexivity|]. cbn [map map2]. f_equal. exact IH.
  Qed.
  Theorem obj_XB32 a f : holds32 a f -> entries32 kXB a -> 4 * lamb <= dlt ->
    near (val_of (A := A) kXB a) (XB_formula d (map exact gs)) (2 * (lamb / dlt) * (1 + XB_formula d (map exact gs))).
  Proof.
    intros Ho He H4. unfold val_of. rewrite (k_232 a f Ho). unfold XB_val. rewrite (ho_ns32 _ _ Ho), (ho_k32 _ _ Ho), (ho_CP32 _ _ Ho), <- Hlen.
    apply (near_XBE L S b HBb d Hd gs Hgs Hg HNb lamb Hlam32 f (entry (D a)) (ho_w32 _ _ Ho)); auto.
    intros i j Hij. apply He; lia.
  Qed.
  Theorem obj_GD5332 a f : holds32 a f -> entries32 kGD53 a -> 4 * lamb <= mmax d gs ->
    near (val_of (A := A) kGD53 a) (GD53_formula d (map exact gs)) (2 * (lamb / mmax d gs) * (1 + GD53_formula d (map exact gs))).
  Proof.
    intros Ho He H4. unfold val_of. rewrite (k_232 a f Ho). unfold GD_val. rewrite (ho_k32 _ _ Ho).
    refine (eq_ind_r (fun t => near (ddiv _ (dmul (d_of_Z 2) (vmax (A := A) t))) _ _) _ (ratios32 a f Ho)).
    apply (near_GD53E L S b HBb d Hd gs Hgs Hg HNb lamb Hlam32 f (entry (D a)) (ho_f32 _ _ Ho)); auto.
    intros i j Hij. apply (He i j); lia.
  Qed.
  Theorem obj_GD4332 a f : holds32 a f -> entries32 kGD43 a -> 4 * lamb <= dlt -> 4 * lamb <= mmax d gs ->
    near (val_of (A := A) kGD43 a) (GD43_formula d (map exact gs)) (2 * (lamb / dlt + lamb / mmax d gs) * GD43_formula d (map exact gs)).
  Proof.
    intros Ho He H4 H4'. unfold val_of. rewrite (k_232 a f Ho). unfold GD_val. rewrite (ho_k32 _ _ Ho).
    refine (eq_ind_r (fun t => near (ddiv _ (dmul (d_of_Z 2) (vmax (A := A) t))) _ _) _ (ratios32 a f Ho)).
    apply (near_GD43E L S b HBb d Hd gs Hgs Hg HNb lamb Hlam32 f (entry (D a)) (ho_f32 _ _ Ho)); auto.
    intros i j Hij. apply (He i j); lia.
  Qed.
  Theorem obj_DB32 a f h : holds32 a f -> entries32 kDB a -> S1 a = map h gs ->
    (forall g, In g gs -> near (h g) (mse d (exact g)) (749 / 760 * lamb)) -> 4 * lamb <= dlt ->
    near (val_of (A := A) kDB a) (DB_formula d (map exact gs)) (lamb / dlt * (3 + DB_formula d (map exact gs))).
  Proof.
    intros Ho He HS1 Hh H4. unfold val_of. rewrite (k_232 a f Ho). unfold DB_val. rewrite (ho_k32 _ _ Ho).
    assert (Es : forall i, (i < k)%nat -> nth i (S1 a) (f0 : F A) = h (G i)).
    { intros i Hi. rewrite HS1. rewrite (nth_indep (map h gs) f0 (h [])) by (rewrite map_length; exact Hi). exact (map_nth h gs [] i). }
    assert (El : forall i j, (i < k)%nat -> (j < k)%nat -> DB_low (A := A) a j i = if (i <? j)%nat then ddiv (dadd (h (G i)) (h (G j))) (entry (D a) j i) else d_of_Z 0).
    { intros i j Hi Hj. unfold DB_low. now rewrite !Es by auto. }
    pose proof (near_DBE L S b HBb d Hd gs Hgs Hg HNb lamb Hlam32 HS h (fun i j => entry (D a) i j)) as H.
    refine (eq_ind _ (fun t => near (ddiv (s_sum S t) (d_of_Z (Z.of_nat k))) _ _) (H _ _ H4) _ _).
    - intros i Hi. apply Hh. now apply G_in32.
    - intros i j Hij. apply (He j i); try lia. left. discriminate.
    - symmetry. apply map_ext_in. intros j Hj. apply in_seq in Hj. refine (f_equal (vmax (A := A)) _). apply map_ext_in. intros i Hi. apply in_seq in Hi.
      rewrite !El by lia. reflexivity.
  Qed.

  Lemma mse_one32 g : In g gs -> length g = 1%nat -> mse d (exact g) = 0.
  Proof.
    intros Hi H1. destruct (Hg g Hi) as [_ HF]. destruct g as [|x [|]]; try discriminate.
    inversion HF as [|? ? [Hx _] _]; subst. unfold mse. cbn [exact map]. rewrite scatter_one by (now rewrite map_length). unfold Rdiv. ring.
  Qed.
  Lemma near_mse_g32 f g : (forall g, In g gs -> near (f g) (scatter d (exact g)) (369 / 380 * lamb * INR (length g))) ->
    In g gs -> near (ddiv (f g) (d_of_Z (Z.of_nat (length g)))) (mse d (exact g)) (749 / 760 * lamb).
  Proof.
    intros Hf Hi. apply (In_nth _ _ []) in Hi as (i & Hi & <-). exact (near_mseE b HBb d Hd gs Hgs Hg HNb lamb Hlam32 f i Hf Hi).
  Qed.
  (** ** What a stream leaves in the object *)
  Section Streams.
    Context (Eg : gs = groups s) (HSt : forall g, In g gs -> stores32 (cl_of (A := A) g) g).
    Lemma holds_stream32 c a : gclass c = true -> Formed (A := A) c d s a -> holds32 a (fun g => c_cp (cl_of (A := A) g)).
    Proof.
      intros Hc [_ Hk Hn _ HG]. destruct (HG Hc) as (Hns & HCP & _). constructor; auto.
      - rewrite Hk. unfold k. rewrite Eg, groups_length. reflexivity.
      - rewrite Eg. exact Hn.
      - rewrite Eg. exact HCP.
      - intros g Hi. apply cp_weak, (HSt g Hi).
      - apply (wgss32 (fun g => c_cp (cl_of (A := A) g))). intros g Hi. apply (HSt g Hi).
    Qed.
    Lemma entries_stream32 c a : dclass c = true -> (c = kGD43 -> 4 * lamb <= dlt) -> Extra (A := A) c s a -> entries32 c a.
    Proof.
      intros Hc H4 [HD _]. specialize (HD Hc). intros i j Hi Hj Hij _.
      assert (HX : forall i, (i < k)%nat -> stores32 (cl_at (A := A) gs i) (G i)).
      { intros m Hm. apply (HSt (G m)). now apply G_in32. }
      assert (HD' : Dform (A := A) c gs (D a)) by (rewrite Eg; exact HD). destruct (HD' i j Hi Hj Hij) as [E|E].
      - refine (eq_ind_r (fun t => near t _ _) _ E). now apply near_dterm32.
      - refine (eq_ind_r (fun t => near t _ _) _ E). rewrite e_sym32. apply near_dterm32; auto.
    Qed.
    Lemma S_stream32 a : Extra (A := A) kDB s a -> S1 a = map (S_form (A := A)) gs.
    Proof. intros [_ H]. rewrite Eg. now apply H. Qed.
  Lemma near_S_form32 g : In g gs -> near (S_form (A := A) g) (mse d (exact g)) (749 / 760 * lamb).
  Proof.
    intros Hi. unfold S_form. change (@length (vec A) g) with (@length (list f64) g). destruct (Nat.eqb_spec (length g) 1) as [E|_].
    - rewrite (mse_one32 g Hi E). eapply near_weaken; [apply (near_Z 0); lia|].
      destruct lam32_parts as (_ & L0 & _). lra.
    - apply (near_mse_g32 (fun g => c_cp (cl_of (A := A) g)) g); auto. intros h Hh. apply cp_weak, (HSt h Hh).
  Qed.
  End Streams.
  (** ** What one batch leaves in the object *)
  Section Batches.
    Context (Eg : gs = bgroups (A := A) s) (HBt : forall g, In g gs -> stores32 (bcl (A := A) d g) g).
    Lemma k_batch32 : k = n_unique (map snd s).
    Proof. unfold k. rewrite Eg. unfold bgroups. rewrite map_length, seq_length. reflexivity. Qed.
    Lemma holds_batch32 c a : BForm (A := A) c d s a -> holds32 a (cp_rows (A := A) d).
    Proof.
      intros HB. constructor.
      - rewrite (bf_k _ _ _ _ HB). symmetry. exact k_batch32.
      - exact (bf_ns _ _ _ _ HB).
      - rewrite Eg. exact (bf_n _ _ _ _ HB).
      - rewrite Eg. exact (bf_CP _ _ _ _ HB).
      - intros g Hi. apply cp_weak, (HBt g Hi).
      - apply wgss32. intros g Hi. apply (HBt g Hi).
    Qed.
    Lemma entries_batch32 c a : dclass c = true -> (c = kGD43 -> 4 * lamb <= dlt) -> BForm (A := A) c d s a -> entries32 c a.
    Proof.
      intros Hc H4 HB. pose proof (bf_D _ _ _ _ HB Hc) as HD. intros i j Hi Hj Hij Hx.
      assert (HX : forall i, (i < k)%nat -> stores32 (bcl_at (A := A) d gs i) (G i)).
      { intros m Hm. apply (HBt (G m)). now apply G_in32. }
      pose proof k_batch32 as Kb.
      assert (HD' : forall i j, (i < j < k)%nat -> let t := dterm c (bcl_at (A := A) d gs i) (bcl_at (A := A) d gs j) in
                plus0 t (entry (D a) i j) /\ (c <> kXB -> plus0 t (entry (D a) j i))) by (rewrite Kb, Eg; exact HD).
      destruct (Nat.lt_total i j) as [Hl'|[He|Hl']]; [|contradiction|].
      - destruct (HD' i j ltac:(lia)) as [H _]. eapply near_plus032; [|exact H]. apply near_dterm32; auto.
      - destruct (HD' j i ltac:(lia)) as [_ H]. eapply near_plus032; [|apply H; destruct Hx; [auto|lia]]. rewrite e_sym32. apply near_dterm32; auto.
    Qed.
    Lemma S_batch32 a : BForm (A := A) kDB d s a -> S1 a = map (fun g => ddiv (cp_rows (A := A) d g) (d_of_Z (Z.of_nat (length g)))) gs.
    Proof. intros HB. rewrite Eg. exact (bf_S _ _ _ _ HB eq_refl). Qed.
    Lemma near_S_batch32 g : In g gs -> near (ddiv (cp_rows (A := A) d g) (d_of_Z (Z.of_nat (length g)))) (mse d (exact g)) (749 / 760 * lamb).
    Proof. intros Hi. apply (near_mse_g32 (cp_rows (A := A) d) g); auto. intros h Hh. apply cp_weak, (HBt h Hh). Qed.
  End Batches.
End Run2.

(** ** The error of the stored points *)
Section Stored.
  Context (L : Libm) (S T : Sums) (HS : any_order S).
  Notation A := (F32d L S T).
  Context (b : R) (Hb : low32 <= b <= high32 / 2) (d : nat) (Hd : (1 <= Z.of_nat d <= 2 ^ 20)%Z).
  Context (s : list (list f64 * Z)) (Hw : wf_stream (A := A) d s) (Hwi : within32 b s) (Hs : s <> []).
  Definition ev_s : R := 5 * u32 * b.
  Definition ev_b : R := 3 * u32 * b * INR (length s).
  Lemma N_of K : (Z.of_nat (length s) <= K)%Z -> 1 <= INR (length s) <= IZR K.
  Proof.
    intros H. split; [apply (le_INR 1); destruct s; [congruence|cbn; lia]|]. rewrite INR_IZR_INZ. now apply IZR_le.
  Qed.
  Lemma ev_s_ok : (Z.of_nat (length s) <= 2 ^ 20)%Z -> 1000 * u * b * INR (length s) <= ev_s <= b / 8.
  Proof.
    intros HL. pose proof low32_pos. destruct (N_of _ HL) as [N1 N2]. change (IZR (2 ^ 20)) with 1048576 in N2. unfold ev_s.
    set (N := INR (length s)) in *. assert (b0 : 0 < b) by lra. rewrite u32_val. split; [|lra].
    replace (1000 * u * b * N) with (1000 * u * N * b) by ring. apply Rmult_le_compat_r; [lra|].
    assert (u * N <= u * 1048576) by (pose proof u_pos; apply Rmult_le_compat_l; lra). rewrite u_val in *. lra.
  Qed.
  Lemma ev_b_ok : (Z.of_nat (length s) <= 2 ^ 19)%Z -> 1000 * u * b * INR (length s) <= ev_b <= b / 8.
  Proof.
    intros HL. pose proof low32_pos. destruct (N_of _ HL) as [N1 N2]. change (IZR (2 ^ 19)) with 524288 in N2. unfold ev_b.
    set (N := INR (length s)) in *. assert (b0 : 0 < b) by lra. rewrite u32_val, u_val. split.
    - apply Rmult_le_compat_r; [lra|]. apply Rmult_le_compat_r; lra.
    - replace (3 * / 16777216 * b * N) with (3 * / 16777216 * N * b) by ring. unfold Rdiv. rewrite (Rmult_comm b). apply Rmult_le_compat_r; lra.
  Qed.
  Context (gs : list (list (list f64))) (P : Permutation gs (groups s)).
  Lemma g_ok (HL : (Z.of_nat (length s) <= 2 ^ 24)%Z) g : In g gs ->
    g <> [] /\ Forall (fun x => length x = d /\ Forall (ok32 b) x) g /\ (length g <= length s)%nat /\ 1 <= INR (length g) <= INR (length s).
  Proof.
    intros Hi. destruct (perm_ok L S b d s Hw (within32_within b s Hwi) HL Hs gs P) as (_ & G2 & _). destruct (G2 g Hi) as [Hne _].
    pose proof (gs_le L S b d s Hw (within32_within b s Hwi) HL Hs gs P g Hi) as Hle.
    split; [exact Hne|]. split; [|split; [exact Hle|split; [apply (le_INR 1); destruct g; [congruence|cbn; lia]|now apply le_INR]]].
    assert (Hg : In g (groups s)) by (now rewrite <- P). unfold groups in Hg. apply in_map_iff in Hg as (l & <- & _). now apply within_grp32.
  Qed.
  Lemma len_of (xs : list (list f64)) : Forall (fun x => length x = d /\ Forall (ok32 b) x) xs -> Forall (fun x : list f64 => length x = d) xs.
  Proof. intros H. eapply Forall_impl; [|exact H]. simpl. tauto. Qed.
  Lemma stores_stream32 g : (Z.of_nat (length s) <= 2 ^ 20)%Z -> In g gs -> stores32 L S T b d ev_s (cl_of (A := A) g) g.
  Proof.
    intros HL Hi. destruct (g_ok ltac:(lia) g Hi) as (Hne & HF & Hle & n1 & n2).
    pose proof low32_pos. assert (b0 : 0 < b) by lra. destruct (N_of _ HL) as [N1 N2]. change (IZR (2 ^ 20)) with 1048576 in N2.
    split; [exact (cl_of_n (A := A) g)|]. split; [split|].
    - exact (cl_of_v_length (A := A) d g Hne (len_of g HF)).
    - intros j Hj. eapply near_weaken; [exact (cl_V_near L S T b Hb d Hd g j Hne HF (Z.le_trans _ _ _ (inj_le _ _ Hle) HL) Hj)|].
      unfold ev_s. apply Rmult_le_compat_r; [lra|]. rewrite u32_val. lra.
    - eapply near_weaken; [exact (near_cl_cp32 L S T HS b Hb d Hd g Hne HF (Z.le_trans _ _ _ (inj_le _ _ Hle) HL))|].
      assert (G : forall D n : R, 0 <= D -> 1 <= n <= 1048576 -> 880 * (u * (b * b)) * (D * D * (n * n)) <= ev_s * b * (D * D) * n).
      { clear -b0. intros D n D0 Hn. unfold ev_s. replace (880 * (u * (b * b)) * (D * D * (n * n))) with (880 * u * n * ((b * b) * (D * D) * n)) by ring.
        replace (5 * u32 * b * b * (D * D) * n) with (5 * u32 * ((b * b) * (D * D) * n)) by ring.
        apply Rmult_le_compat_r; [repeat apply Rmult_le_pos; lra|]. rewrite u32_val, u_val. lra. }
      apply G; [apply pos_INR|]. change (1 <= INR (length g) <= 1048576). lra.
  Qed.
  Lemma stores_batch32 g : any_order32 T -> (Z.of_nat (length s) <= 2 ^ 19)%Z -> In g gs -> stores32 L S T b d ev_b (bcl (A := A) d g) g.
  Proof.
    intros HT HL Hi. destruct (g_ok ltac:(lia) g Hi) as (Hne & HF & Hle & n1 & n2).
    pose proof low32_pos. assert (b0 : 0 < b) by lra. destruct (N_of _ HL) as [N1 N2]. change (IZR (2 ^ 19)) with 524288 in N2.
    split; [reflexivity|]. split; [split|].
    - cbn [bcl c_v]. unfold mean_rows, smean0. now rewrite map_length, seq_length.
    - intros j Hj. eapply near_weaken; [exact (rows_V_near L S T b Hb d Hd HT g j Hne HF (Z.le_trans _ _ _ (inj_le _ _ Hle) HL) Hj)|].
      unfold ev_b. assert (0 < u32 * b) by (rewrite u32_val; lra). apply Rmult_le_compat; try lra. 
    - eapply near_weaken; [exact (near_rows_cp32 L S T HS b Hb d Hd g Hne HF HT (Z.le_trans _ _ _ (inj_le _ _ Hle) HL))|].
      assert (G : forall D n N : R, 1 <= D -> 1 <= n <= N -> N <= 524288 ->
        108 * (u * (b * b)) * (D * n * (D * n)) + 128 * (u * (b * b)) * (D * n * (n * n)) <= 3 * u32 * b * N * b * (D * D) * n).
      { clear -b0. intros D n N D1 Hn HN.
        set (Q := (b * b) * (D * D) * n). assert (Q0 : 0 <= Q) by (unfold Q; repeat apply Rmult_le_pos; lra).
        set (Q' := (b * b) * D * n). assert (Q1 : 0 <= Q' <= Q).
        { unfold Q, Q'. split; [repeat apply Rmult_le_pos; lra|]. apply Rmult_le_compat_r; [lra|]. apply Rmult_le_compat_l; [apply Rmult_le_pos; lra|].
          rewrite <- (Rmult_1_r D) at 1. apply Rmult_le_compat_l; lra. }
        replace (108 * (u * (b * b)) * (D * n * (D * n)) + 128 * (u * (b * b)) * (D * n * (n * n))) with (108 * u * n * Q + 128 * u * (n * n) * Q') by (unfold Q, Q'; ring).
        replace (3 * u32 * b * N * b * (D * D) * n) with (3 * u32 * N * Q) by (unfold Q; ring).
        assert (nn : n * n <= 524288 * N) by (apply Rmult_le_compat; lra).
        assert (E1 : 108 * u * n * Q <= u32 * N * Q) by (apply Rmult_le_compat_r; [lra|]; rewrite u32_val, u_val; lra).
        assert (E2 : 128 * u * (n * n) * Q' <= u32 * N * Q).
        { apply Rmult_le_compat; try lra; [|rewrite u32_val, u_val; lra]. apply Rmult_le_pos; [pose proof u_pos; lra|]. apply Rmult_le_pos; lra. }
        assert (0 <= u32 * N * Q) by (apply Rmult_le_pos; [rewrite u32_val; lra|lra]). lra. }
      unfold ev_b. apply G; [apply (le_INR 1); lia| |exact N2]. change (1 <= INR (length g) <= INR (length s)). lra.
  Qed.
End Stored.
