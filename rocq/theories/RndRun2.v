(** * Values of XB, DB, GD43 and GD53 after a stream and after one batch *)
From Coq Require Import ZArith Reals Lia Lra SpecFloat Psatz List Permutation.
From Flocq Require Import Core Relative.
From Verif Require Import Num NumPy Base GetCvi Lists Step StepB Eval Stream Shapes Generic RunForm BatchForm ValForm F64 F64o Rnd RndErr RndMean RndSum RndCl RndCP RndCP2 RndCP3 RndCP4 RndOps RndVal RndCH RndSel RndVal2 RndRun Spec RGeom XPerm XBatch P_Round.
Import ListNotations.
Local Open Scope R_scope.
Local Notation R := Rdefinitions.R.
Local Notation nanv := S754_nan.
Local Notation rsum := RndMean.rsum.

Section Run2.
  Context (L : Libm) (S : Sums) (HS : any_order S).
  Notation A := (F64o L S).
  Context (b : R) (Hb : lo2 <= b <= hi2 / 2) (d : nat) (Hd : (1 <= Z.of_nat d <= 2 ^ 20)%Z).
  Context (s : list (list f64 * Z)) (Hw : wf_stream (A := A) d s) (Hwi : within b s) (HL : (Z.of_nat (length s) <= 2 ^ 24)%Z) (Hs : s <> []).
  Context (gs : list (list (list f64))) (P : Permutation gs (groups s)) (Hgs : (2 <= length gs)%nat).
  Let Hok := perm_ok L S b d s Hw Hwi HL Hs gs P.
  Let Hg := proj1 (proj2 Hok).
  Let Hlen := proj1 (proj2 (proj2 Hok)).
  Lemma HN : (Z.of_nat (length (concat gs)) <= 2 ^ 24)%Z.
  Proof. rewrite Hlen. exact HL. Qed.
  Let G i : list (list f64) := nth i gs [].
  Let k := length gs.
  Let dist i j := cdist d (exact (G i)) (exact (G j)).
  Let pool i j := (scatter d (exact (G i)) + scatter d (exact (G j))) / (INR (length (G i)) + INR (length (G j))).
  Let lamb := lam b d gs.
  Let dlt := sepmin d gs.

  (** what a cluster stores about the group [g] *)
  Definition stores (x : cl (A := A)) (g : list (list f64)) : Prop :=
    c_n x = length g /\ at_mean d (c_v x) g (17 * u * b * INR (length s)) /\
    near (c_cp x) (scatter d (exact g)) (369 * (u * (b * b)) * (INR d * INR d * (INR (length g) * INR (length g)))).
  Lemma stores_stream g : In g gs -> stores (cl_of (A := A) g) g.
  Proof.
    intros Hi. destruct (Hg g Hi) as [Hne HF]. pose proof (gs_le L S b d s Hw Hwi HL Hs gs P g Hi) as Hle.
    split; [exact (cl_of_n (A := A) g)|]. split; [apply (cl_mean L S b Hb d Hd s HL); auto|].
    eapply near_weaken; [apply (near_cl_cp L S HS b Hb d Hd g Hne HF); exact (small24 _ _ Hle HL)|].
    pose proof u_pos. pose proof lo2_pos. apply Rmult_le_compat_l; [apply Rmult_le_pos; [lra|]; apply Rmult_le_pos; [lra|]; apply Rmult_le_pos; lra|].
    apply Rmult_le_compat_l; [apply Rmult_le_pos; apply pos_INR|].
    match goal with |- ?p * ?p - 1 <= ?q * ?q => change (p * p - 1 <= p * p) end. lra.
  Qed.
  Lemma stores_batch g : In g gs -> stores (bcl (A := A) d g) g.
  Proof.
    intros Hi. destruct (Hg g Hi) as [Hne HF]. pose proof (gs_le L S b d s Hw Hwi HL Hs gs P g Hi) as Hle.
    split; [reflexivity|]. split; [apply (rows_mean L S HS b Hb d Hd s HL); auto|].
    eapply near_weaken; [apply (near_rows_cp L S HS b Hb d Hd g Hne HF); exact (small24 _ _ Hle HL)|].
    pose proof u_pos. pose proof lo2_pos. assert (0 <= u * (b * b)) by (apply Rmult_le_pos; [lra|]; apply Rmult_le_pos; lra).
    match goal with |- 109 * ?t * (?p * ?q * (?p * ?q)) <= _ => replace (109 * t * (p * q * (p * q))) with (109 * t * (p * p * (q * q))) by ring end.
    apply Rmult_le_compat_r; [|lra]. apply Rmult_le_pos; apply Rmult_le_pos; apply pos_INR.
  Qed.

  (** ** Entries of the matrix *)
  Definition e_true (c : kind) (i j : nat) : R :=
    match c with kGD43 => sqrt (dist i j) | kGD53 => pool i j | _ => dist i j end.
  Definition e_err (c : kind) : R :=
    match c with kGD43 => lamb / (2 * sqrt dlt) | kGD53 => lamb | _ => em b d gs end.
  Lemma e_sym c i j : e_true c i j = e_true c j i.
  Proof.
    assert (H : dist i j = dist j i) by apply cdist_sym. unfold e_true. destruct c; auto; [now rewrite H|].
    unfold pool. f_equal; ring.
  Qed.
  Lemma G_in' i : (i < k)%nat -> In (G i) gs. Proof. intros H. apply nth_In, H. Qed.
  Lemma near_dterm c (X : nat -> cl (A := A)) i j : dclass c = true -> (c = kGD43 -> 4 * lamb <= dlt) ->
    (forall i, (i < k)%nat -> stores (X i) (G i)) -> (i < k)%nat -> (j < k)%nat -> i <> j ->
    near (dterm c (X i) (X j)) (e_true c i j) (e_err c).
  Proof.
    intros Hc H4 HX Hi Hj Hij. destruct (HX i Hi) as (N1 & V1 & C1). destruct (HX j Hj) as (N2 & V2 & C2).
    assert (HD : near (sqd (A := A) (c_v (X i)) (c_v (X j))) (dist i j) (em b d gs)).
    { unfold dist. rewrite cdist_avg. destruct HS as [Hsum _].
      apply (near_np_dist L S b Hb d Hd s Hw Hwi HL Hs gs P (c_v (X i)) (c_v (X j)) (G i) (G j)); auto.
      - left. exists (G i). auto using G_in'.
      - left. exists (G j). auto using G_in'.
      - apply Hsum. }
    destruct c; try discriminate; cbn [dterm e_true e_err]; auto.
    - apply (near_root b Hb d Hd gs Hgs Hg HN _ i j Hi Hj Hij (H4 eq_refl)). exact HD.
    - rewrite N1, N2. exact (near_pool b Hb d Hd gs Hgs Hg HN _ _ i j C1 C2 Hi Hj).
  Qed.
  Lemma near_plus0 t x r e : near t r e -> plus0 (A := A) t x -> near x r e.
  Proof.
    intros H [->|[->| ->]]; auto; change (@fadd A) with dadd; change (@f0 A) with (d_of_Z 0); [now apply add_0_r|now apply add_0_l].
  Qed.
  (** the object read by an evaluation *)
  Definition entries (c : kind) (a : attrs A) : Prop := forall i j, (i < k)%nat -> (j < k)%nat -> i <> j ->
    c <> kXB \/ (i < j)%nat -> near (entry (D a) i j) (e_true c i j) (e_err c).
  Record holds (a : attrs A) (f : list (list f64) -> f64) : Prop := mkHolds {
    ho_k : n_clusters a = k;
    ho_ns : n_samples a = length s;
    ho_n : n a = map (@length _) gs;
    ho_CP : CP a = map f gs;
    ho_f : forall g, In g gs -> near (f g) (scatter d (exact g)) (369 * (u * (b * b)) * (INR d * INR d * (INR (length g) * INR (length g))))
  }.
  Lemma k_2 a f : holds a f -> (n_clusters a <=? 1)%nat = false.
  Proof. intros H. apply Nat.leb_gt. rewrite (ho_k _ _ H). exact Hgs. Qed.
  Lemma ratios a f : holds a f -> map2 ddiv (CP a) (map (f_of_nat (A := A)) (n a)) = map (fun g => ddiv (f g) (d_of_Z (Z.of_nat (length g)))) gs.
  Proof.
    intros H. rewrite (ho_CP _ _ H), (ho_n _ _ H), map_map. clear. induction gs as [|g l IH]; [reflexivity|]. cbn [map map2]. f_equal. exact IH.
  Qed.
  Theorem obj_XB a f : holds a f -> entries kXB a -> 4 * lamb <= dlt ->
    near (val_of (A := A) kXB a) (XB_formula d (map exact gs)) (2 * (lamb / dlt) * (1 + XB_formula d (map exact gs))).
  Proof.
    intros Ho He H4. unfold val_of. rewrite (k_2 a f Ho). unfold XB_val. rewrite (ho_ns _ _ Ho), (ho_k _ _ Ho), (ho_CP _ _ Ho), <- Hlen.
    apply (near_XB L S b Hb d Hd gs Hgs Hg HN f (entry (D a)) (ho_f _ _ Ho)); auto.
    intros i j Hij. apply He; lia.
  Qed.
  Theorem obj_GD53 a f : holds a f -> entries kGD53 a -> 4 * lamb <= mmax d gs ->
    near (val_of (A := A) kGD53 a) (GD53_formula d (map exact gs)) (2 * (lamb / mmax d gs) * (1 + GD53_formula d (map exact gs))).
  Proof.
    intros Ho He H4. unfold val_of. rewrite (k_2 a f Ho). unfold GD_val. rewrite (ho_k _ _ Ho).
    refine (eq_ind_r (fun t => near (ddiv _ (dmul (d_of_Z 2) (vmax (A := A) t))) _ _) _ (ratios a f Ho)).
    apply (near_GD53 L S b Hb d Hd gs Hgs Hg HN f (entry (D a)) (ho_f _ _ Ho)); auto.
    intros i j Hij. apply (He i j); lia.
  Qed.
  Theorem obj_GD43 a f : holds a f -> entries kGD43 a -> 4 * lamb <= dlt -> 4 * lamb <= mmax d gs ->
    near (val_of (A := A) kGD43 a) (GD43_formula d (map exact gs)) (2 * (lamb / dlt + lamb / mmax d gs) * GD43_formula d (map exact gs)).
  Proof.
    intros Ho He H4 H4'. unfold val_of. rewrite (k_2 a f Ho). unfold GD_val. rewrite (ho_k _ _ Ho).
    refine (eq_ind_r (fun t => near (ddiv _ (dmul (d_of_Z 2) (vmax (A := A) t))) _ _) _ (ratios a f Ho)).
    apply (near_GD43 L S b Hb d Hd gs Hgs Hg HN f (entry (D a)) (ho_f _ _ Ho)); auto.
    intros i j Hij. apply (He i j); lia.
  Qed.
  Theorem obj_DB a f h : holds a f -> entries kDB a -> S1 a = map h gs ->
    (forall g, In g gs -> near (h g) (mse d (exact g)) (749 / 760 * lamb)) -> 4 * lamb <= dlt ->
    near (val_of (A := A) kDB a) (DB_formula d (map exact gs)) (lamb / dlt * (3 + DB_formula d (map exact gs))).
  Proof.
    intros Ho He HS1 Hh H4. unfold val_of. rewrite (k_2 a f Ho). unfold DB_val. rewrite (ho_k _ _ Ho).
    assert (Es : forall i, (i < k)%nat -> nth i (S1 a) (f0 : F A) = h (G i)).
    { intros i Hi. rewrite HS1. rewrite (nth_indep (map h gs) f0 (h [])) by (rewrite map_length; exact Hi). exact (map_nth h gs [] i). }
    assert (El : forall i j, (i < k)%nat -> (j < k)%nat -> DB_low (A := A) a j i = if (i <? j)%nat then ddiv (dadd (h (G i)) (h (G j))) (entry (D a) j i) else d_of_Z 0).
    { intros i j Hi Hj. unfold DB_low. now rewrite !Es by auto. }
    pose proof (near_DB L S b Hb d Hd gs Hgs Hg HN HS h (fun i j => entry (D a) i j)) as H.
    refine (eq_ind _ (fun t => near (ddiv (s_sum S t) (d_of_Z (Z.of_nat k))) _ _) (H _ _ H4) _ _).
    - intros i Hi. apply Hh. now apply G_in'.
    - intros i j Hij. apply (He j i); try lia. left. discriminate.
    - symmetry. apply map_ext_in. intros j Hj. apply in_seq in Hj. f_equal. apply map_ext_in. intros i Hi. apply in_seq in Hi.
      rewrite !El by lia. reflexivity.
  Qed.

  (** ** What a stream leaves in the object *)
  Section Streams.
    Context (Eg : gs = groups s).
    Lemma holds_stream c a : gclass c = true -> Formed (A := A) c d s a -> holds a (fun g => c_cp (cl_of (A := A) g)).
    Proof.
      intros Hc [_ Hk Hn _ HG]. destruct (HG Hc) as (Hns & HCP & _). constructor; auto.
      - rewrite Hk. unfold k. rewrite Eg, groups_length. reflexivity.
      - rewrite Eg. exact Hn.
      - rewrite Eg. exact HCP.
      - intros g Hi. apply (stores_stream g Hi).
    Qed.
    Lemma entries_stream c a : dclass c = true -> (c = kGD43 -> 4 * lamb <= dlt) -> Extra (A := A) c s a -> entries c a.
    Proof.
      intros Hc H4 [HD _]. specialize (HD Hc). intros i j Hi Hj Hij _.
      assert (HX : forall i, (i < k)%nat -> stores (cl_at (A := A) gs i) (G i)).
      { intros m Hm. apply (stores_stream (G m)). now apply G_in'. }
      assert (HD' : Dform (A := A) c gs (D a)) by (rewrite Eg; exact HD). destruct (HD' i j Hi Hj Hij) as [E|E].
      - refine (eq_ind_r (fun t => near t _ _) _ E). now apply near_dterm.
      - refine (eq_ind_r (fun t => near t _ _) _ E). rewrite e_sym. apply near_dterm; auto.
    Qed.
    Lemma S_stream a : Extra (A := A) kDB s a -> S1 a = map (S_form (A := A)) gs.
    Proof. intros [_ H]. rewrite Eg. now apply H. Qed.
  End Streams.
  Lemma mse_one g : In g gs -> length g = 1%nat -> mse d (exact g) = 0.
  Proof.
    intros Hi H1. destruct (Hg g Hi) as [_ HF]. destruct g as [|x [|]]; try discriminate.
    inversion HF as [|? ? [Hx _] _]; subst. unfold mse. cbn [exact map]. rewrite scatter_one by (now rewrite map_length). unfold Rdiv. ring.
  Qed.
  Lemma near_mse_g f g : (forall g, In g gs -> near (f g) (scatter d (exact g)) (369 * (u * (b * b)) * (INR d * INR d * (INR (length g) * INR (length g))))) ->
    In g gs -> near (ddiv (f g) (d_of_Z (Z.of_nat (length g)))) (mse d (exact g)) (749 / 760 * lamb).
  Proof.
    intros Hf Hi. apply (In_nth _ _ []) in Hi as (i & Hi & <-). exact (near_mse b Hb d Hd gs Hgs Hg HN f i Hf Hi).
  Qed.
  Lemma near_S_form g : In g gs -> near (S_form (A := A) g) (mse d (exact g)) (749 / 760 * lamb).
  Proof.
    intros Hi. unfold S_form. change (@length (vec A) g) with (@length (list f64) g). destruct (Nat.eqb_spec (length g) 1) as [E|_].
    - rewrite (mse_one g Hi E). eapply near_weaken; [apply (near_Z 0); lia|].
      destruct (lam_pre b Hb d Hd gs Hgs Hg HN) as (_ & _ & _ & _ & _ & _ & _ & _ & L0 & _). fold lamb in L0. lra.
    - apply (near_mse_g (fun g => c_cp (cl_of (A := A) g)) g); auto. intros h Hh. apply (stores_stream h Hh).
  Qed.

  (** ** What one batch leaves in the object *)
  Section Batches.
    Context (Eg : gs = bgroups (A := A) s) (Hl : labels_upto s).
    Lemma k_batch : k = n_unique (map snd s).
    Proof. unfold k. rewrite Eg. unfold bgroups. rewrite map_length, seq_length. reflexivity. Qed.
    Lemma holds_batch c a : BForm (A := A) c d s a -> holds a (cp_rows (A := A) d).
    Proof.
      intros HB. constructor.
      - rewrite (bf_k _ _ _ _ HB). symmetry. exact k_batch.
      - exact (bf_ns _ _ _ _ HB).
      - rewrite Eg. exact (bf_n _ _ _ _ HB).
      - rewrite Eg. exact (bf_CP _ _ _ _ HB).
      - intros g Hi. apply (stores_batch g Hi).
    Qed.
    Lemma entries_batch c a : dclass c = true -> (c = kGD43 -> 4 * lamb <= dlt) -> BForm (A := A) c d s a -> entries c a.
    Proof.
      intros Hc H4 HB. pose proof (bf_D _ _ _ _ HB Hc) as HD. intros i j Hi Hj Hij Hx.
      assert (HX : forall i, (i < k)%nat -> stores (bcl_at (A := A) d gs i) (G i)).
      { intros m Hm. apply (stores_batch (G m)). now apply G_in'. }
      pose proof k_batch as Kb.
      assert (HD' : forall i j, (i < j < k)%nat -> let t := dterm c (bcl_at (A := A) d gs i) (bcl_at (A := A) d gs j) in
                plus0 t (entry (D a) i j) /\ (c <> kXB -> plus0 t (entry (D a) j i))) by (rewrite Kb, Eg; exact HD).
      destruct (Nat.lt_total i j) as [Hl'|[He|Hl']]; [|contradiction|].
      - destruct (HD' i j ltac:(lia)) as [H _]. eapply near_plus0; [|exact H]. apply near_dterm; auto.
      - destruct (HD' j i ltac:(lia)) as [_ H]. eapply near_plus0; [|apply H; destruct Hx; [auto|lia]]. rewrite e_sym. apply near_dterm; auto.
    Qed.
    Lemma S_batch a : BForm (A := A) kDB d s a -> S1 a = map (fun g => ddiv (cp_rows (A := A) d g) (d_of_Z (Z.of_nat (length g)))) gs.
    Proof. intros HB. rewrite Eg. exact (bf_S _ _ _ _ HB eq_refl). Qed.
    Lemma near_S_batch g : In g gs -> near (ddiv (cp_rows (A := A) d g) (d_of_Z (Z.of_nat (length g)))) (mse d (exact g)) (749 / 760 * lamb).
    Proof. intros Hi. apply (near_mse_g (cp_rows (A := A) d) g); auto. intros h Hh. apply (stores_batch h Hh). Qed.
  End Batches.
End Run2.
