(** * Streams of samples on a fresh object.  For every arithmetic. *)
From Coq Require Import ZArith List Arith Bool Lia Permutation.
From Verif Require Import Num NumPy Base M_CH M_D M_PS GetCvi Lists Step Step2 StepB Hoare Eval.
Import ListNotations.

(** ** Labels in order of first appearance *)
Definition add_label (acc : list Z) (l : Z) : list Z :=
  if in_dec Z.eq_dec l acc then acc else acc ++ [l].
Definition first_seen (ls : list Z) : list Z := fold_left add_label ls [].
(** position of [l], the length of the list if it does not occur *)
Fixpoint index (l : Z) (fs : list Z) : nat :=
  match fs with [] => 0 | a :: fs' => if Z.eqb a l then 0 else S (index l fs') end.
(** the samples labelled [l] *)
Definition grp {X} (s : list (X * Z)) (l : Z) : list X :=
  map fst (filter (fun p => Z.eqb (snd p) l) s).
Definition firsts {X} (s : list (X * Z)) : list Z := first_seen (map snd s).

Lemma first_seen_snoc ls l : first_seen (ls ++ [l]) = add_label (first_seen ls) l.
Proof. unfold first_seen. now rewrite fold_left_app. Qed.
Lemma firsts_snoc {X} (s : list (X * Z)) x l : firsts (s ++ [(x, l)]) = add_label (firsts s) l.
Proof. unfold firsts. rewrite map_app. apply first_seen_snoc. Qed.

Lemma first_seen_In ls l : In l (first_seen ls) <-> In l ls.
Proof.
  induction ls as [|a ls IH] using rev_ind; [reflexivity|].
  rewrite first_seen_snoc, in_app_iff. unfold add_label.
  destruct (in_dec Z.eq_dec a (first_seen ls)) as [H|H].
  - rewrite IH. simpl. split; [tauto|]. intros [?|[->|[]]]; auto. now apply IH.
  - rewrite in_app_iff, IH. tauto.
Qed.
Lemma first_seen_NoDup ls : NoDup (first_seen ls).
Proof.
  induction ls as [|a ls IH] using rev_ind; [constructor|].
  rewrite first_seen_snoc. unfold add_label.
  destruct (in_dec Z.eq_dec a (first_seen ls)) as [H|H]; auto.
  apply (Permutation_NoDup (Permutation_cons_append _ _)). now constructor.
Qed.
Lemma first_seen_perm ls : Permutation (first_seen ls) (nodup Z.eq_dec ls).
Proof.
  apply NoDup_Permutation; auto using first_seen_NoDup, NoDup_nodup.
  intros x. rewrite first_seen_In. symmetry. apply nodup_In.
Qed.
Lemma first_seen_length ls : length (first_seen ls) = length (nodup Z.eq_dec ls).
Proof. apply Permutation_length, first_seen_perm. Qed.

Lemma index_In l fs : In l fs -> index l fs < length fs /\ nth (index l fs) fs 0%Z = l.
Proof.
  induction fs as [|a fs IH]; [intros []|]. simpl. intros H.
  destruct (Z.eqb_spec a l) as [->|Hn]; [split; auto; lia|].
  destruct H as [H|H]; [contradiction|]. destruct (IH H). split; auto; lia.
Qed.
Lemma index_notIn l fs : ~ In l fs -> index l fs = length fs.
Proof.
  induction fs as [|a fs IH]; auto. simpl. intros H.
  destruct (Z.eqb_spec a l) as [->|Hn]; [tauto|]. rewrite IH; tauto.
Qed.
Lemma index_nth i fs : NoDup fs -> i < length fs -> index (nth i fs 0%Z) fs = i.
Proof.
  intros H Hi. destruct (index_In (nth i fs 0%Z) fs (nth_In _ _ Hi)) as [H1 H2].
  now apply (proj1 (NoDup_nth fs 0%Z) H).
Qed.

Lemma grp_snoc {X} (s : list (X * Z)) x l l' :
  grp (s ++ [(x, l)]) l' = grp s l' ++ (if Z.eqb l l' then [x] else []).
Proof.
  unfold grp. rewrite filter_app, map_app. simpl. now destruct (Z.eqb l l').
Qed.
Lemma grp_nil {X} (s : list (X * Z)) l : ~ In l (map snd s) -> grp s l = [].
Proof.
  unfold grp. induction s as [|[x a] s IH]; auto. simpl. intros H.
  destruct (Z.eqb_spec a l) as [->|]; [tauto|]. apply IH. tauto.
Qed.
Lemma grp_ne {X} (s : list (X * Z)) l : In l (map snd s) -> grp s l <> [].
Proof.
  unfold grp. induction s as [|[x a] s IH]; [intros []|]. simpl. intros [->|H].
  - now rewrite Z.eqb_refl.
  - destruct (Z.eqb_spec a l); [discriminate|]. auto.
Qed.
(** the groups, in order of first appearance, after one more sample *)
Definition groups {X} (s : list (X * Z)) : list (list X) := map (grp s) (firsts s).
Lemma groups_new {X} (s : list (X * Z)) x l : ~ In l (firsts s) ->
  groups (s ++ [(x, l)]) = groups s ++ [[x]].
Proof.
  intros H. unfold groups. rewrite firsts_snoc. unfold add_label.
  destruct (in_dec Z.eq_dec l (firsts s)); [contradiction|]. rewrite map_app. simpl. f_equal.
  - apply map_ext_in. intros a Ha. rewrite grp_snoc.
    destruct (Z.eqb_spec l a) as [->|]; [contradiction|]. apply app_nil_r.
  - rewrite grp_snoc, Z.eqb_refl, grp_nil; auto. intros Hi. apply H. now apply first_seen_In.
Qed.
Lemma groups_old {X} (s : list (X * Z)) x l : In l (firsts s) ->
  let i := index l (firsts s) in
  groups (s ++ [(x, l)]) = upd i (nth i (groups s) [] ++ [x]) (groups s).
Proof.
  intros H i. destruct (index_In _ _ H) as [Hi Hn]. fold i in Hi, Hn.
  unfold groups. rewrite firsts_snoc. unfold add_label.
  destruct (in_dec Z.eq_dec l (firsts s)); [|contradiction].
  apply nth_ext with (d := []) (d' := []); [now rewrite length_upd, !map_length|].
  intros j Hj. rewrite map_length in Hj. rewrite nth_upd by (now rewrite map_length).
  assert (E : forall (f : Z -> list X) j, j < length (firsts s) -> nth j (map f (firsts s)) [] = f (nth j (firsts s) 0%Z)).
  { intros f a Ha. rewrite nth_indep with (d' := f 0%Z) by now rewrite map_length. apply map_nth. }
  rewrite !E by auto. rewrite grp_snoc. destruct (Nat.eqb_spec j i) as [->|Hji].
  - rewrite Hn, Z.eqb_refl. reflexivity.
  - destruct (Z.eqb_spec l (nth j (firsts s) 0%Z)) as [->|_]; [|apply app_nil_r].
    exfalso. apply Hji. unfold i. symmetry. apply index_nth; auto. apply first_seen_NoDup.
Qed.
Lemma groups_length {X} (s : list (X * Z)) : length (groups s) = length (firsts s).
Proof. apply map_length. Qed.

(** ** The label map *)
Lemma lm_lookup_index fs : forall b l, lm_lookup (combine fs (seq b (length fs))) l =
  if in_dec Z.eq_dec l fs then Some (b + index l fs) else None.
Proof.
  induction fs as [|a fs IH]; intros b l; auto. cbn [length seq combine lm_lookup index].
  destruct (Z.eqb_spec a l) as [->|Hn].
  - destruct (in_dec Z.eq_dec l (l :: fs)) as [_|H]; [f_equal; lia|]. exfalso; apply H; now left.
  - rewrite IH. destruct (in_dec Z.eq_dec l fs) as [H|H]; destruct (in_dec Z.eq_dec l (a :: fs)) as [H'|H']; auto.
    + f_equal; lia.
    + exfalso; apply H'; now right.
    + destruct H' as [H'|H']; contradiction.
Qed.
Definition lmap (fs : list Z) : labelmap := combine fs (seq 0 (length fs)).
Lemma combine_snoc {X Y} (a : list X) (b : list Y) x y : length a = length b ->
  combine (a ++ [x]) (b ++ [y]) = combine a b ++ [(x, y)].
Proof.
  revert b; induction a as [|u a IH]; intros [|w b] L; simpl in *; try lia; auto.
  f_equal. apply IH. lia.
Qed.
Lemma lmap_get fs l : get_internal_label (lmap fs) l = (index l fs, lmap (add_label fs l)).
Proof.
  unfold get_internal_label, lmap. rewrite lm_lookup_index. unfold add_label.
  destruct (in_dec Z.eq_dec l fs) as [H|H]; auto.
  rewrite index_notIn by auto. rewrite combine_length, seq_length, Nat.min_id. f_equal.
  rewrite app_length. simpl. rewrite Nat.add_1_r, seq_S. simpl.
  symmetry. apply combine_snoc. now rewrite seq_length.
Qed.

Section Run.
  Context {A : Arith}.

  Lemma run_app c (o : obj A) h1 h2 : run c o (h1 ++ h2) =
    (fst (run c (fst (run c o h1)) h2), snd (run c o h1) ++ snd (run c (fst (run c o h1)) h2)).
  Proof.
    revert o; induction h1 as [|[d l] h1 IH]; intros o; simpl.
    - now destruct (run c o h2).
    - destruct (get_cvi c o d l) as [o1 r]. rewrite IH.
      destruct (run c o1 h1) as [o2 rs]. reflexivity.
  Qed.
  Lemma results_app c (o : obj A) h1 h2 :
    results c o (h1 ++ h2) = results c o h1 ++ results c (after c o h1) h2.
  Proof. unfold results, after. now rewrite run_app. Qed.
  Lemma after_app c (o : obj A) h1 h2 : after c o (h1 ++ h2) = after c (after c o h1) h2.
  Proof. unfold after. now rewrite run_app. Qed.
  Lemma results_length c (o : obj A) h : length (results c o h) = length h.
  Proof.
    unfold results. revert o; induction h as [|[d l] h IH]; intros o; simpl; auto.
    destruct (get_cvi c o d l) as [o1 r]. specialize (IH o1). destruct (run c o1 h). simpl in *. lia.
  Qed.

  Lemma stream_app (s t : list (vec A * Z)) : stream (s ++ t) = stream s ++ stream t.
  Proof. apply map_app. Qed.

  (** Induction over streams that start on the object [o0]: if [P] is kept by
      every step of a well-formed stream, then no call raises and the values
      returned are [val] of the prefixes. *)
  Lemma run_stream_from c (W : list (vec A * Z) -> Prop) (P : list (vec A * Z) -> attrs A -> Prop)
      (val : list (vec A * Z) -> F A) a0 :
    (forall s p, W (s ++ [p]) -> W s) ->
    P [] a0 ->
    (forall s x l a, P s a -> W (s ++ [(x, l)]) -> exists a1 a2,
       param_inc c x (index l (firsts s)) a = (a1, Ok tt) /\
       evaluate c a1 = (a2, Ok tt) /\
       criterion_value a2 = val (s ++ [(x, l)]) /\ P (s ++ [(x, l)]) a2) ->
    forall s, W s -> exists a,
      run c (mkObj [] a0) (stream s) =
        (mkObj (lmap (firsts s)) a, map (fun i => Ok (val (firstn (S i) s))) (seq 0 (length s))) /\
      P s a.
  Proof.
    intros HW H0 Hstep s. induction s as [|[x l] s IH] using rev_ind; intros Hs.
    - exists a0. split; auto.
    - destruct (IH (HW _ _ Hs)) as (a & Hr & HP). clear IH.
      destruct (Hstep s x l a HP Hs) as (a1 & a2 & E1 & E2 & E3 & HP').
      exists a2. split; auto.
      rewrite stream_app, run_app, Hr. cbn [fst snd stream map run]. unfold get_cvi, update.
      cbn [label_map at_ fst snd]. rewrite lmap_get, E1. cbn [at_ label_map]. rewrite E2. cbn [fst snd].
      f_equal.
      + f_equal. now rewrite firsts_snoc.
      + rewrite app_length. cbn [length]. rewrite Nat.add_1_r, seq_S, map_app, Nat.add_0_l. f_equal.
        * apply map_ext_in. intros i Hi. apply in_seq in Hi. f_equal. f_equal.
          rewrite firstn_app. replace (S i - length s) with 0 by lia. now rewrite firstn_O, app_nil_r.
        * cbn [map]. rewrite E3. f_equal. f_equal. f_equal.
          rewrite firstn_all2; auto. rewrite app_length. simpl. lia.
  Qed.
  (** ** Shapes *)
  Definition Shape (c : kind) (d : nat) (o : attrs A) : Prop :=
    let k := n_clusters o in
    match c with
    | kCH | kWB => ShapeG d o
    | kDB => ShapeG d o /\ wfm k k (D o) /\ length (S1 o) = k
    | kXB | kGD43 | kGD53 => ShapeG d o /\ wfm k k (D o)
    | kPS => ShapeP d o /\ Forall (fun m => m <> 0) (n o)
    | krCIP => ShapeR d o
    | kcSIL => ShapeS d o
    end.

  Lemma ShapeG_new d x (o o' : attrs A) : o = init_attrs \/ ShapeG d o -> length x = d ->
    Common d x o o' -> CommonNew d x o o' -> GNew d x o o' -> mu o' = mu_upd x o -> ShapeG d o'.
  Proof.
    intros Hs Hx [C1 C2 C3 C4 C5] [N1 N2 N3] [G1 G2] Hm.
    assert (HH : length (n o) = n_clusters o /\ length (CP o) = n_clusters o /\
                 wfm (n_clusters o) (mcols (v o)) (v o) /\ Forall (fun r => length r = d) (mrows (v o)) /\
                 length (mrows (G o)) = n_clusters o /\ Forall (fun r => length r = d) (mrows (G o)) /\
                 length (mu o') = d).
    { destruct Hs as [->|[H1 H2 H3 H4 (V1 & V2 & V3) H6 (W1 & W2 & W3) H8 Hna]].
      - rewrite Hm. simpl. repeat split; auto; constructor.
      - rewrite Hm. unfold mu_upd. replace (n_samples o =? 0) with false by (symmetry; apply Nat.eqb_neq; lia).
        rewrite srmean_length by lia. subst d. rewrite <- V1 in V3. repeat split; auto. now rewrite <- V1. }
    destruct HH as (L1 & L2 & (_ & L3 & _) & L4 & L5 & L6 & L7).
    constructor; auto; try lia.
    - rewrite N2, app_length, N1. simpl. lia.
    - rewrite N3, N1. repeat split; cbn [mrows mcols]; [rewrite app_length; simpl; lia|].
      apply Forall_app; split; auto.
    - rewrite G1, app_length, N1. simpl. lia.
    - rewrite G2, N1. repeat split; cbn [mrows mcols]; [rewrite app_length; simpl; lia|].
      apply Forall_app; split; auto. constructor; auto. apply length_zeros.
  Qed.
  Lemma ShapeG_old d x i (o o' : attrs A) : ShapeG d o -> length x = d -> i < n_clusters o ->
    Common d x o o' -> CommonOld d x i o o' -> GOld d x i o o' -> mu o' = mu_upd x o -> ShapeG d o'.
  Proof.
    intros [H1 H2 H3 H4 H5 H6 H7 H8 Hna] Hx Hi [C1 C2 C3 C4 C5] [N1 N2 N3] [G1 G2] Hm.
    assert (E0 : (n_samples o =? 0) = false) by (apply Nat.eqb_neq; lia).
    pose proof (wfm_row _ _ _ _ H5 Hi) as Lv. pose proof (wfm_row _ _ _ _ H7 Hi) as LG.
    constructor; auto; try lia.
    - rewrite N2, N1, length_upd. auto.
    - rewrite N3, N1. apply wfm_upd; auto. unfold v_upd, vrow. rewrite rmean_length; lia.
    - rewrite G1, N1, length_upd. auto.
    - rewrite G2, N1. apply wfm_upd; auto. unfold g_upd, v_upd, vrow, grow_. lens.
    - rewrite Hm. unfold mu_upd. rewrite E0. rewrite srmean_length; lia.
  Qed.

  (** np.linalg.inv never raises and keeps the shape *)
  Definition inv_total : Prop := forall m : list (vec A), exists r, np_inv m = Some r /\ length r = length m.
  (** what rCIP needs *)
  Definition inv_good (c : kind) (d : nat) : Prop := c = krCIP -> d <> 0 /\ inv_total.

  Lemma rCIP_term_total d k (o : attrs A) vn sn j : inv_total -> wfm k d (v o) -> length vn = d ->
    length (sigma o) = k -> Forall (wfm d d) (sigma o) -> wfm d d sn -> j < k ->
    exists g, rCIP_term o vn sn j = Ok g.
  Proof.
    intros HI Hv Lv Ls Hs Hsn Hj. unfold rCIP_term.
    rewrite (row_ok _ _ _ _ Hv Hj). cbn [bindE].
    rewrite vsub_ok by (rewrite (wfm_row _ _ _ _ Hv Hj); auto). cbn [bindE].
    rewrite (get_item_ok _ _ (zmat 0 0)) by lia. cbn [bindE].
    unfold madd. rewrite (bc2_ok _ d d) by (auto; rewrite Forall_forall in Hs; apply Hs, nth_In; lia).
    cbn [bindE]. unfold rCIP_potential, linalg_inv.
    match goal with |- context [np_inv (mrows ?q)] => destruct (HI (mrows q)) as (r & Er & Lr) end.
    rewrite Er. cbn [bindE].
    assert (L : length (map2 fsub vn (nth j (mrows (v o)) [])) = d).
    { rewrite length_map2, (wfm_row _ _ _ _ Hv Hj). lia. }
    unfold vecmat, nrows. cbn [mrows mcols]. rewrite length_scal, L, Lr.
    cbn [tab2 mrows mcols]. rewrite map_length, seq_length, Nat.eqb_refl. cbn [bindE].
    rewrite inner_ok by (rewrite map_length, seq_length; auto). cbn [bindE]. eauto.
  Qed.

  (** choose a table for finitely many existence statements *)
  Lemma table {X} (Q : nat -> X -> Prop) k (x0 : X) :
    (forall j, j < k -> exists g, Q j g) -> exists g, forall j, j < k -> Q j (g j).
  Proof.
    induction k as [|k IH]; intros H; [exists (fun _ => x0); lia|].
    destruct IH as [g Hg]; [intros; apply H; lia|]. destruct (H k) as [y Hy]; [lia|].
    exists (fun j => if j =? k then y else g j). intros j Hj.
    destruct (Nat.eqb_spec j k) as [->|]; auto. apply Hg. lia.
  Qed.
End Run.
