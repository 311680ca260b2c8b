(** * cSIL on streams in exact arithmetic: what the incremental update stores. *)
From Coq Require Import ZArith List Arith Bool Lia Permutation.
From Verif Require Import Num NumPy Base M_CH M_D M_PS GetCvi Lists Step Step2 StepB Hoare Eval Stream Shapes Generic.
From Coq Require Import Reals Lra.
From Verif Require Import Det Spec XR SpecX RGeom XLift XEval XInc XCov XRun XPerm XBatch.
Import ListNotations.
Local Open Scope R_scope.

(** ** Inner products *)
Lemma inner_rdot x y : inner x y = rdot x y.
Proof. unfold inner, rdot. now rewrite map2_combine. Qed.
Lemma dist2_rdot d x y : length x = d -> length y = d -> dist2 x y = rdot x x + rdot y y - 2 * rdot x y.
Proof.
  intros <-. revert y; induction x as [|a x IH]; intros [|b y] L; simpl in L; try lia.
  - unfold dist2, rdot. cbn [combine map map2]. cbn. lra.
  - rewrite dist2_cons, (IH y) by lia. unfold rdot. cbn [map2]. rewrite !rsum_cons. ring.
Qed.
Lemma rdot_add a b c : length a = length b -> rdot (map2 Rplus a b) c = rdot a c + rdot b c.
Proof.
  unfold rdot. revert b c; induction a as [|x a IH]; intros [|y b] [|z c] L; simpl in L; try lia; cbn [map2].
  1-3: cbn; lra. rewrite !rsum_cons, IH by lia. ring.
Qed.
(** sums of squares and of samples *)
Definition sumsq (g : list point) : R := rsum (map (fun x => rdot x x) g).
Definition gsum (d : nat) (g : list point) : point := fold_right (map2 Rplus) (repeat 0 d) g.
Lemma gsum_length d g : wfg d g -> length (gsum d g) = d.
Proof. induction 1; cbn; [apply repeat_length|]. rewrite length_map2. unfold gsum in IHForall. rewrite IHForall. lia. Qed.
Lemma rdot_repeat0 k c : rdot (repeat 0 k) c = 0.
Proof.
  unfold rdot. revert c; induction k as [|k IH]; intros [|z c]; cbn [repeat map2]; try reflexivity.
  rewrite rsum_cons, IH. ring.
Qed.
Lemma gsum_snoc d g x : wfg d g -> length x = d -> gsum d (g ++ [x]) = map2 Rplus (gsum d g) x.
Proof.
  intros Hg Hx. apply (point_ext d).
  - apply gsum_length. apply Forall_app; auto.
  - rewrite length_map2, gsum_length by auto. lia.
  - assert (HC : forall h j, wfg d h -> (j < d)%nat -> co j (gsum d h) = rsum (map (co j) h)).
    { intros h j Hh Hj. induction Hh as [|y h Hy Hh IH]; cbn [gsum fold_right map].
      - unfold co. now rewrite nth_repeat.
      - rewrite rsum_cons, <- IH. unfold co at 1. change (fold_right (map2 Rplus) (repeat 0 d) h) with (gsum d h).
        pose proof (gsum_length d h Hh). rewrite (nth_map2 Rplus _ _ _ 0 0) by (rewrite ?Hy; lia). reflexivity. }
    intros j Hj. rewrite HC by (auto; apply Forall_app; auto). rewrite map_app, rsum_app, <- HC by auto.
    pose proof (gsum_length d g Hg). cbn [map]. rewrite rsum_cons. unfold co. rewrite (nth_map2 Rplus _ _ _ 0 0) by lia.
    unfold rsum. cbn. ring.
Qed.
Lemma sum_dist d g c : wfg d g -> length c = d ->
  sumsq g + INR (length g) * rdot c c - 2 * rdot (gsum d g) c = rsum (map (fun x => dist2 x c) g).
Proof.
  intros Hg Hc. induction Hg as [|x g Hx Hg IH].
  - unfold sumsq. cbn [map length INR gsum fold_right]. rewrite rdot_repeat0. unfold rsum. cbn [fold_right]. ring.
  - cbn [map gsum fold_right]. change (fold_right (map2 Rplus) (repeat 0 d) g) with (gsum d g).
    rewrite rsum_cons, <- IH, (dist2_rdot d) by auto. pose proof (gsum_length d g Hg).
    rewrite rdot_add by (unfold point in *; lia). unfold sumsq. cbn [map]. rewrite rsum_cons.
    change (length (x :: g)) with (S (length g)). rewrite S_INR. unfold point in *. ring.
Qed.

(** ** The value computed from a table *)
Lemma sil_val_gen {X} (E : X -> X -> R) (ls : list X) z (o : attrs XR) : n_clusters o = length ls ->
  S2 o = tab2 (A := XR) (length ls) (length ls) (fun a b => Fin (E (nth a ls z) (nth b ls z))) ->
  cSIL_val o = sil_value E ls.
Proof.
  intros E1 E5. unfold cSIL_val, sil_value. rewrite E1, E5.
  set (all0 := forallb _ ls).
  assert (H0 : all0 = true <-> forall a b, In a ls -> In b ls -> E a b = 0).
  { unfold all0. rewrite forallb_forall. split.
    - intros H a b Ha Hb. specialize (H a Ha). rewrite forallb_forall in H. specialize (H b Hb).
      destruct (Req_EM_T (E a b) 0); congruence.
    - intros H a Ha. apply forallb_forall. intros b Hb. rewrite H by auto. now destruct (Req_EM_T 0 0). }
  pose proof (np_any_tab [[];[]] (le_n 2) (length ls) (fun a b => E (nth a ls z) (nth b ls z))) as HN.
  destruct (np_any _) eqn:Ea.
  - assert (Ez : all0 = false).
    { apply not_true_iff_false. intros Et. enough (true = false) by discriminate. apply HN. intros a b Ha Hb.
      apply (proj1 H0 Et); now apply nth_In. }
    rewrite Ez. rewrite f_of_nat_fin. change (@fdiv XR) with xdiv. change (@np_sum XR) with xsum. f_equal. f_equal.
    rewrite <- (selects_seq (fun g r => xdiv (Fin (rmin (map (fun l => E l g) r) - E g g))
                 (Fin (Rmax (E g g) (rmin (map (fun l => E l g) r))))) ls z).
    apply map_ext_in. intros i Hi. apply in_seq in Hi. rewrite entry_tab2 by lia.
    assert (Ec : vmin (remove_nth i (col (tab2 (A := XR) (length ls) (length ls)
                   (fun a b => Fin (E (nth a ls z) (nth b ls z)))) i)) =
                 Fin (rmin (map (fun l => E l (nth i ls z)) (remove_nth i ls)))).
    { rewrite <- vmin_fin. f_equal. unfold col, tab2. cbn [mrows]. rewrite map_map.
      rewrite (map_ext_in _ (fun a => Fin (E (nth a ls z) (nth i ls z)))).
      - rewrite <- (map_map (fun a => nth a ls z) (fun h => Fin (E h (nth i ls z)))), map_seq_nth.
        rewrite remove_nth_map. unfold fin. now rewrite map_map.
      - intros a Ha. now rewrite nth_map_seq by lia. }
    rewrite Ec. change (@fmaximum XR) with xmax. rewrite xmax_fin. reflexivity.
  - assert (Ez : all0 = true).
    { apply H0. intros a b Ha Hb. apply (In_nth _ _ z) in Ha as (i & Hi & <-). apply (In_nth _ _ z) in Hb as (j & Hj & <-).
      now apply (proj1 HN eq_refl). }
    now rewrite Ez.
Qed.
Lemma sil_value_perm {X} (E : X -> X -> R) a b : Permutation a b -> sil_value E a = sil_value E b.
Proof.
  intros H. unfold sil_value. rewrite (Permutation_length H).
  replace (forallb (fun u => forallb (fun w => if Req_EM_T (E u w) 0 then true else false) a) a)
    with (forallb (fun u => forallb (fun w => if Req_EM_T (E u w) 0 then true else false) b) b).
  - destruct (forallb _ b); auto. f_equal. apply xsum_perm.
    apply (selects_perm (fun x r => let u := E x x in let w := rmin (map (fun l => E l x) r) in
                                   xdiv (Fin (w - u)) (Fin (Rmax u w)))); auto.
    intros x r r' Hr. now rewrite (rmin_perm _ _ (Permutation_map (fun l => E l x) Hr)).
  - apply eq_true_iff_eq. rewrite !forallb_forall. split; intros K u Hu; apply forallb_forall; intros w Hw.
    + assert (Hu' : In u b) by (eapply Permutation_in; eauto). specialize (K u Hu'). rewrite forallb_forall in K.
      apply K. eapply Permutation_in; eauto.
    + apply Permutation_sym in H. assert (Hu' : In u a) by (eapply Permutation_in; eauto). specialize (K u Hu').
      rewrite forallb_forall in K. apply K. eapply Permutation_in; eauto.
Qed.

(** ** One more sample *)
Lemma cluster_snoc (s : data) (x : point) l l' : cluster (s ++ [(x, l)]) l' = cluster s l' ++ (if Z.eqb l l' then [x] else []).
Proof. apply (grp_snoc s x l l'). Qed.
Lemma entry_other d (s : data) (x : point) l la lb : l <> la -> l <> lb -> sil_entry d (s ++ [(x, l)]) la lb = sil_entry d s la lb.
Proof.
  intros Ha Hb. unfold sil_entry. rewrite filter_app. cbn [filter snd].
  rewrite !cluster_snoc. destruct (Z.eqb_spec l la); [congruence|]. destruct (Z.eqb_spec l lb); [congruence|].
  cbn [orb]. now rewrite !app_nil_r.
Qed.
Lemma entry_col d (s : data) (x : point) l la : l <> la ->
  sil_entry d (s ++ [(x, l)]) la l = mdist d (cluster s l ++ [x]) (cluster s la).
Proof.
  intros Ha. unfold sil_entry. rewrite filter_app, rev_app_distr. cbn [filter snd].
  rewrite !cluster_snoc, Z.eqb_refl. destruct (Z.eqb_spec l la); [congruence|]. cbn [orb rev app].
  destruct (Z.eqb_spec la l); [congruence|]. rewrite app_nil_r. destruct (Z.eqb_spec l la); [congruence|]. ring.
Qed.
Lemma entry_self d (s : data) (x : point) l : sil_entry d (s ++ [(x, l)]) l l = mdist d (cluster s l ++ [x]) (cluster s l ++ [x]).
Proof. unfold sil_entry. rewrite !cluster_snoc, !Z.eqb_refl. ring. Qed.
Lemma entry_row d (s : data) (x : point) l lb : l <> lb ->
  sil_entry d (s ++ [(x, l)]) l lb = mdist d (cluster s lb) (cluster s l ++ [x]) +
    (if (length (cluster s l) =? 0)%nat then 1 else - 2 / (INR (length (cluster s l)) + 1)) * inner x (centroid d (cluster s lb)).
Proof.
  intros Hb. unfold sil_entry. rewrite filter_app, rev_app_distr. cbn [filter snd].
  rewrite !cluster_snoc, Z.eqb_refl. destruct (Z.eqb_spec l lb); [congruence|]. cbn [orb rev app].
  rewrite Z.eqb_refl, app_nil_r. f_equal. f_equal. rewrite app_length. cbn [length].
  rewrite plus_INR, Nat.add_1_r. cbn [INR]. reflexivity.
Qed.

(** ** The invariant *)
Record SRep d (s : data) (o : attrs XR) : Prop := mkSRep {
  sr_0 : Stat0 d (groups s) o;
  sr_CP : CP o = map (fun g => Fin (sumsq g)) (groups s);
  sr_G : mrows (G o) = map (fun g => fin (gsum d g)) (groups s);
  sr_S : S2 o = tab2 (A := XR) (length (firsts s)) (length (firsts s))
                  (fun a b => Fin (sil_entry d s (nth a (firsts s) 0%Z) (nth b (firsts s) 0%Z)))
}.
Lemma SRep_init d : SRep d [] init_attrs.
Proof. constructor; try reflexivity. apply (Rep_init kcSIL d). Qed.
Lemma nth_groups s i : (i < length (firsts s))%nat -> nth i (groups s) [] = cluster s (nth i (firsts s) 0%Z).
Proof.
  intros Hi. unfold groups. rewrite nth_indep with (d' := grp s 0%Z) by now rewrite map_length. apply map_nth.
Qed.

Section Step.
  Context (d : nat) (s : data) (o : attrs XR).
  Hypotheses (Hw : wf d s) (HR : SRep d s o).
  Let gs := groups s.
  Let Hg : good d gs := good_groups d s Hw.

  Lemma scpi_x j : (j < length gs)%nat -> cpi o j = Fin (sumsq (nth j gs [])).
  Proof.
    intros Hj. unfold cpi. rewrite (sr_CP _ _ _ HR). rewrite nth_indep with (d' := Fin (sumsq [])) by (now rewrite map_length).
    apply (map_nth (fun g => Fin (sumsq g))).
  Qed.
  Lemma sgrow_x j : (j < length gs)%nat -> grow_ o j = fin (gsum d (nth j gs [])).
  Proof.
    intros Hj. unfold grow_. rewrite (sr_G _ _ _ HR). rewrite nth_indep with (d' := fin (gsum d [])) by (now rewrite map_length).
    apply (map_nth (fun g => fin (gsum d g))).
  Qed.
  Lemma sil_row_x c j : (j < length gs)%nat -> length c = d ->
    sil_row o (fin c) j = Fin (rsum (map (fun x => dist2 x c) (nth j gs [])) / INR (length (nth j gs []))).
  Proof.
    intros Hj Hc. destruct (good_nth d gs j Hg Hj) as [G1 G2]. pose proof (INR_pos _ G2) as P.
    unfold sil_row. rewrite scpi_x, sgrow_x, (nn_x d gs o (sr_0 _ _ _ HR)) by auto.
    rewrite f_of_nat_fin, f2_fin, !np_dot_fin, !fmul_fin, fadd_fin, fsub_fin.
    rewrite fdiv_fin by (unfold point in *; lra). f_equal. f_equal. now apply sum_dist.
  Qed.
  Lemma sil_self_x x i : (i < length gs)%nat -> length x = d ->
    sil_self o (fin x) i = Fin (mdist d (nth i gs [] ++ [x]) (nth i gs [] ++ [x])).
  Proof.
    intros Hi Hx. destruct (good_nth d gs i Hg Hi) as [G1 G2]. pose proof (INR_pos _ G2) as P.
    unfold sil_self. cbv zeta. rewrite (v_upd_x d gs o Hg (sr_0 _ _ _ HR)) by auto.
    rewrite scpi_x, sgrow_x, (nn_x d gs o (sr_0 _ _ _ HR)) by auto.
    set (g := nth i gs []) in *. set (c := centroid d (g ++ [x])).
    rewrite !f_of_nat_fin, f2_fin, dot_sub_fin, !np_dot_fin, !fmul_fin, !fadd_fin, fsub_fin.
    rewrite plus_INR. cbn [INR]. rewrite fdiv_fin by (unfold point in *; lra). f_equal. unfold mdist. fold c.
    rewrite app_length, plus_INR, map_app, rsum_app. cbn [length INR map]. rewrite rsum_cons.
    rewrite <- (sum_dist d g c) by (auto; apply centroid_length). unfold rsum at 1. cbn [fold_right].
    f_equal. ring.
  Qed.
  Lemma sil_col_old_x x i j : (i < length gs)%nat -> (j < length gs)%nat -> length x = d ->
    sil_col_old o (fin x) i j = Fin (mdist d (nth j gs []) (nth i gs [] ++ [x]) +
      - 2 / (INR (length (nth i gs [])) + 1) * inner x (centroid d (nth j gs []))).
  Proof.
    intros Hi Hj Hx. destruct (good_nth d gs i Hg Hi) as [G1 G2]. pose proof (INR_pos _ G2) as P.
    unfold sil_col_old. cbv zeta. rewrite scpi_x, sgrow_x, (nn_x d gs o (sr_0 _ _ _ HR)), (vrow_x d gs o (sr_0 _ _ _ HR)) by auto.
    set (g := nth i gs []) in *. set (c := centroid d (nth j gs [])).
    assert (Lc : length c = d) by apply centroid_length.
    rewrite !f_of_nat_fin, f2_fin, dot_sub_fin, add_fin, !np_dot_fin, !fmul_fin, !fadd_fin, fsub_fin.
    pose proof (gsum_length d g G1). rewrite rdot_add by (unfold point in *; lia).
    rewrite plus_INR. cbn [INR]. rewrite fdiv_fin by (unfold point in *; lra). f_equal. unfold mdist. fold c.
    rewrite app_length, plus_INR, map_app, rsum_app. cbn [length INR map]. rewrite rsum_cons, inner_rdot.
    rewrite <- (sum_dist d g c) by auto. unfold rsum at 1. cbn [fold_right].
    field. unfold point in *. lra.
  Qed.
  Lemma sil_col_new_x x j : (j < length gs)%nat -> length x = d ->
    sil_col_new o (fin x) j = Fin (mdist d (nth j gs []) [x] + 1 * inner x (centroid d (nth j gs []))).
  Proof.
    intros Hj Hx. unfold sil_col_new. rewrite (vrow_x d gs o (sr_0 _ _ _ HR)) by auto.
    change (sdot (a := XR)) with (np_dot (a := XR)). rewrite !np_dot_fin, fadd_fin, fsub_fin. f_equal. unfold mdist. cbn [map length INR]. rewrite rsum_cons, inner_rdot.
    rewrite (dist2_rdot d x) by (auto; apply centroid_length). unfold rsum. cbn [fold_right]. field.
  Qed.
End Step.

Lemma srep_step d (s : data) (x : point) l a : wf d (s ++ [(x, l)]) -> SRep d s a ->
  ((s = [] /\ a = init_attrs) \/ (s <> [] /\ Shape kcSIL d a)) ->
  exists a1, param_inc kcSIL (fin x) (index l (firsts s)) a = (a1, Ok tt) /\ Shape kcSIL d a1 /\ SRep d (s ++ [(x, l)]) a1.
Proof.
  intros Hw HR Hs. destruct (wf_app _ _ _ Hw) as [Hw1 Hw2]. assert (Hx : length x = d) by (inversion Hw2; auto).
  assert (Hx' : length (fin x) = d) by now rewrite fin_length.
  pose proof (good_groups d s Hw1) as Hg. pose proof (sr_0 _ _ _ HR) as HS0. pose proof (s0_k _ _ _ HS0) as Hk. rewrite groups_length in Hk.
  destruct (in_dec Z.eq_dec l (firsts s)) as [Hin|Hin].
  - destruct (index_In _ _ Hin) as [Hi Hnth].
    assert (HS : Shape kcSIL d a). { destruct Hs as [[-> ->]|[_ H]]; auto. destruct Hin. }
    set (i := index l (firsts s)) in *.
    destruct (cSIL_old d (fin x) i a HS Hx' ltac:(lia)) as (a1 & E & C & N & E1 & E2 & E3).
    destruct (shape_old kcSIL d (fin x) i a HS Hx' ltac:(lia) ltac:(now apply inv_good_x)) as (a1' & E' & HS' & _).
    cbn [param_inc] in E' |- *. assert (a1' = a1) by congruence. subst a1'.
    exists a1. split; auto. split; auto.
    assert (Hgo := groups_old s x l Hin). cbv zeta in Hgo. fold i in Hgo.
    assert (Hf : firsts (s ++ [(x, l)]) = firsts s).
    { rewrite firsts_snoc. unfold add_label. destruct (in_dec _ _ _); [auto|contradiction]. }
    assert (Hi' : (i < length (groups s))%nat) by now rewrite groups_length.
    destruct (good_nth d _ i Hg Hi') as [G1 G2].
    constructor.
    + rewrite Hgo. now apply (Stat0_old d (groups s) a Hg HS0 i x a1).
    + rewrite E1, Hgo, map_upd, <- (sr_CP _ _ _ HR). f_equal. rewrite (scpi_x d s a HR) by auto.
      change (sdot (a := XR)) with (np_dot (a := XR)). change (sadd (a := XR)) with (fadd (a := XR)).
      rewrite np_dot_fin, fadd_fin. f_equal. unfold sumsq. rewrite map_app, rsum_app. cbn [map]. rewrite rsum_cons.
      change (rsum []) with 0. unfold point in *. lra.
    + rewrite E2. cbn [mrows]. rewrite Hgo, map_upd, <- (sr_G _ _ _ HR). f_equal. rewrite (sgrow_x d s a HR) by auto.
      rewrite add_fin. f_equal. symmetry. now apply gsum_snoc.
    + rewrite E3, Hf, Hk. unfold S_set. apply tab2_ext. intros p q Hp Hq.
      assert (Hp' : (p < length (groups s))%nat) by now rewrite groups_length.
      assert (Hq' : (q < length (groups s))%nat) by now rewrite groups_length.
      assert (Hne : forall r, (r < length (firsts s))%nat -> r <> i -> l <> nth r (firsts s) 0%Z).
      { intros r Hr Hri El. apply Hri. unfold i. rewrite El. symmetry. apply index_nth; auto. apply first_seen_NoDup. }
      destruct (Nat.eqb_spec q i) as [->|Hqi]; destruct (Nat.eqb_spec p i) as [->|Hpi].
      * rewrite Hnth, entry_self, (sil_self_x d s a Hw1 HR) by auto. now rewrite nth_groups, Hnth by auto.
      * rewrite Hnth, entry_col by auto. rewrite (v_upd_x d (groups s) a Hg HS0) by auto.
        rewrite (sil_row_x d s a Hw1 HR) by (auto; apply centroid_length).
        rewrite !nth_groups, Hnth by auto. reflexivity.
      * rewrite Hnth, entry_row by auto. rewrite (sil_col_old_x d s a Hw1 HR) by auto.
        rewrite !nth_groups, Hnth by auto. do 3 f_equal.
        destruct (Nat.eqb_spec (length (cluster s l)) 0) as [Z|_]; auto.
        exfalso. apply G2. rewrite nth_groups, Hnth by auto. now apply length_zero_iff_nil.
      * rewrite entry_other by auto. rewrite (sr_S _ _ _ HR), entry_tab2 by auto. reflexivity.
  - rewrite index_notIn by auto. rewrite <- Hk.
    assert (HS : a = init_attrs \/ Shape kcSIL d a) by (destruct Hs as [[_ H]|[_ H]]; auto).
    destruct (cSIL_new d (fin x) a HS Hx') as (a1 & E & C & N & E1 & E2 & E3).
    destruct (shape_new kcSIL d (fin x) a HS Hx' ltac:(now apply inv_good_x)) as (a1' & E' & HS' & _).
    cbn [param_inc] in E' |- *. assert (a1' = a1) by congruence. subst a1'.
    exists a1. split; auto. split; auto.
    assert (Hgn := groups_new s x l Hin).
    assert (Hf : firsts (s ++ [(x, l)]) = firsts s ++ [l]).
    { rewrite firsts_snoc. unfold add_label. destruct (in_dec _ _ _); [contradiction|auto]. }
    assert (Hc0 : cluster s l = []).
    { apply (grp_nil s). intros Hi. apply Hin. now apply first_seen_In. }
    constructor.
    + rewrite Hgn. now apply (Stat0_new d (groups s) a HS0 x a1).
    + rewrite E1, Hgn, map_app, <- (sr_CP _ _ _ HR). f_equal. cbn [map]. f_equal. change (sdot (a := XR)) with (np_dot (a := XR)). rewrite np_dot_fin. f_equal.
      unfold sumsq. cbn [map]. rewrite rsum_cons. unfold rsum. cbn [fold_right]. ring.
    + rewrite E2. cbn [mrows]. rewrite Hgn, map_app, <- (sr_G _ _ _ HR). f_equal. cbn [map]. f_equal. f_equal.
      rewrite <- (app_nil_l [x]). rewrite gsum_snoc by (auto; constructor). cbn [gsum fold_right].
      clear -Hx. subst d. induction x as [|u x IH]; auto. cbn [length repeat map2]. rewrite <- IH. f_equal. ring.
    + rewrite E3, Hf, app_length, Nat.add_1_r, Hk. unfold S_app. apply tab2_ext. intros p q Hp Hq.
      set (k := length (firsts s)) in *.
      assert (Hlast : nth k (firsts s ++ [l]) 0%Z = l) by (rewrite app_nth2 by (unfold k; lia); unfold k; now rewrite Nat.sub_diag).
      assert (Hold : forall r, (r < S k)%nat -> r <> k -> (r < k)%nat /\ (r < length (groups s))%nat /\
                nth r (firsts s ++ [l]) 0%Z = nth r (firsts s) 0%Z /\ l <> nth r (firsts s) 0%Z).
      { intros r Hr Hrk. split; [lia|]. split; [rewrite groups_length; fold k; lia|]. split; [apply app_nth1; fold k; lia|].
        intros El. apply Hin. rewrite El. apply nth_In. fold k. lia. }
      destruct (Nat.eqb_spec q k) as [->|Hqi]; destruct (Nat.eqb_spec p k) as [->|Hpi].
      * rewrite Hlast, entry_self, Hc0. cbn [app].
        assert (Hm : mdist d [x] [x] = 0).
        { unfold mdist. cbn [map length INR]. rewrite (centroid_single d x Hx), rsum_cons, dist2_refl. unfold rsum. cbn [fold_right]. field. }
        match goal with |- _ = Fin ?t => change t with (mdist d [x] [x]) end. now rewrite Hm.
      * destruct (Hold p Hp Hpi) as (H1 & H2 & H3 & H4). rewrite Hlast, H3, entry_col, Hc0 by auto. cbn [app].
        rewrite (plain_sil_row XR_plain).
        rewrite (sil_row_x d s a Hw1 HR) by auto. rewrite nth_groups by auto. unfold mdist. now rewrite (centroid_single d x Hx).
      * destruct (Hold q Hq Hqi) as (H1 & H2 & H3 & H4). rewrite Hlast, H3, entry_row, Hc0 by auto. cbn [app length Nat.eqb].
        rewrite (sil_col_new_x d s a HR) by auto. now rewrite nth_groups by auto.
      * destruct (Hold q Hq Hqi) as (H1 & H2 & H3 & H4). destruct (Hold p Hp Hpi) as (J1 & J2 & J3 & J4).
        rewrite H3, J3, entry_other by auto. rewrite (sr_S _ _ _ HR), entry_tab2 by auto. reflexivity.
Qed.

Lemma SRep_frame d s (o o' : attrs XR) : Frame o o' -> SRep d s o -> SRep d s o'.
Proof.
  intros F [H0 H1 H2 H3]. pose proof (Rep_frame kcSIL d (groups s) o o' F (conj H0 I)) as [H0' _].
  destruct F. constructor; congruence.
Qed.
Lemma SRep_val d s o : SRep d s o -> val_of kcSIL o = cSIL_stream_ext d s.
Proof.
  intros HR. pose proof (s0_k _ _ _ (sr_0 _ _ _ HR)) as Hk. rewrite groups_length in Hk.
  unfold val_of, cSIL_stream_ext. rewrite Hk. unfold distinct, labels. rewrite <- first_seen_length.
  change (first_seen (map snd s)) with (firsts s). destruct (_ <=? _)%nat; auto.
  rewrite <- (sil_value_perm _ _ _ (first_seen_perm (map snd s))).
  apply (sil_val_gen (sil_entry d s) (firsts s) 0%Z o); auto. apply (sr_S _ _ _ HR).
Qed.

Theorem sil_values d s : wf d s -> exists a,
  run kcSIL new_obj (stream (fin_data s)) =
    (mkObj (lmap (firsts s)) a, map (fun i => Ok (cSIL_stream_ext d (firstn (S i) s))) (seq 0 (length s))) /\
  SRep d s a /\ ((s = [] /\ a = init_attrs) \/ (s <> [] /\ Shape kcSIL d a)).
Proof.
  induction s as [|[x l] s IH] using rev_ind; intros Hw.
  - exists init_attrs. split; auto. split; [apply SRep_init|auto].
  - destruct (IH (proj1 (wf_app _ _ _ Hw))) as (a & Er & HI & Hs). clear IH.
    destruct (srep_step d s x l a Hw HI Hs) as (a1 & E1 & Sh & R1).
    destruct (ev_total kcSIL d a1 Sh) as (a2 & E2 & E3 & FR).
    exists a2. split; [|split; [eapply SRep_frame; eauto|right; split; [destruct s; discriminate|eapply Shape_frame; eauto]]].
    rewrite fin_data_app, stream_app, run_app, Er. cbn [fst snd stream map run fin_data]. unfold get_cvi, update.
    cbn [label_map at_ fst snd]. rewrite lmap_get, E1. cbn [at_ label_map]. rewrite E2. cbn [fst snd].
    f_equal.
    + f_equal. now rewrite firsts_snoc.
    + rewrite app_length. cbn [length]. rewrite Nat.add_1_r, seq_S, map_app, Nat.add_0_l. f_equal.
      * apply map_ext_in. intros i Hi. apply in_seq in Hi. f_equal. f_equal.
        rewrite firstn_app. replace (S i - length s)%nat with 0%nat by lia. now rewrite firstn_O, app_nil_r.
      * cbn [map]. rewrite E3, (SRep_val d _ a1 R1). f_equal. f_equal. f_equal.
        rewrite firstn_all2; auto. rewrite app_length. simpl. lia.
Qed.
