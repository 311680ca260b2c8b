(** * One batch call in exact arithmetic: the value returned is that of the
    specification. *)
From Coq Require Import ZArith List Arith Bool Lia Permutation.
From Verif Require Import Num NumPy Base M_CH M_D M_PS GetCvi Lists Step Step2 StepB Hoare Eval Stream Shapes Generic.
From Coq Require Import Reals Lra.
From Verif Require Import Det Spec XR SpecX RGeom XLift XEval XInc XCov XRun XPerm.
Import ListNotations.
Local Open Scope R_scope.

Lemma rsum_concat_map {X} (f : X -> list R) l : rsum (concat (map f l)) = rsum (map (fun x => rsum (f x)) l).
Proof. induction l as [|x l IH]; auto. cbn [map concat]. now rewrite rsum_app, rsum_cons, IH. Qed.

(** ** Selecting the rows with a label *)
Lemma filter_map_S (f : nat -> bool) l : filter f (map S l) = map S (filter (fun x => f (S x)) l).
Proof. induction l as [|a l IH]; simpl; auto. rewrite IH. now destruct (f (S a)). Qed.
Lemma select_rows {X} (s : list (X * Z)) z ix :
  map (fun i => nth i (map fst s) z) (indices_of ix (map snd s)) =
  map fst (filter (fun p => Z.eqb (snd p) (Z.of_nat ix)) s).
Proof.
  unfold indices_of. rewrite map_length. induction s as [|[x l] s IH]; auto.
  cbn [length seq map filter fst snd nth]. rewrite <- seq_shift, filter_map_S. cbn [nth].
  destruct (Z.eqb l (Z.of_nat ix)); cbn [map fst]; rewrite map_map; cbn [nth]; rewrite IH; reflexivity.
Qed.

(** ** Clusters and permutations of labels *)
Lemma cluster_cons s x l l' : cluster ((x, l) :: s) l' = (if Z.eqb l l' then [x] else []) ++ cluster s l'.
Proof. unfold cluster. cbn [filter snd]. now destruct (Z.eqb l l'). Qed.
Lemma concat_clusters ls s : NoDup ls -> (forall l, In l (labels s) -> In l ls) ->
  Permutation (concat (map (cluster s) ls)) (points s).
Proof.
  intros Hn. induction s as [|[x l] s IH]; intros Hl.
  - cbn. clear. induction ls; simpl; auto.
  - cbn [points map fst]. destruct (in_split l ls) as (l1 & l2 & E); [apply Hl; now left|].
    assert (Hx : forall l', l' <> l -> cluster ((x, l) :: s) l' = cluster s l').
    { intros l' Hl'. rewrite cluster_cons. destruct (Z.eqb_spec l l'); [congruence|auto]. }
    assert (Hn' := Hn). rewrite E in Hn'. apply NoDup_remove in Hn' as [_ Hn'].
    rewrite E, map_app, concat_app. cbn [map concat]. rewrite cluster_cons, Z.eqb_refl.
    rewrite !(map_ext_in (cluster ((x, l) :: s)) (cluster s)).
    2:{ intros a Ha. apply Hx. intros ->. apply Hn'. apply in_app_iff. now right. }
    2:{ intros a Ha. apply Hx. intros ->. apply Hn'. apply in_app_iff. now left. }
    rewrite <- !app_assoc. cbn [app]. symmetry. apply Permutation_cons_app.
    etransitivity; [symmetry; apply IH; intros a Ha; apply Hl; now right|].
    rewrite E, map_app, concat_app. cbn [map concat]. now rewrite <- ?app_assoc.
Qed.

Definition zs (k : nat) : list Z := map Z.of_nat (seq 0 k).
Lemma zs_NoDup k : NoDup (zs k).
Proof. apply FinFun.Injective_map_NoDup; [|apply seq_NoDup]. intros a b; lia. Qed.
Lemma zs_In k z : In z (zs k) <-> (0 <= z < Z.of_nat k)%Z.
Proof.
  unfold zs. rewrite in_map_iff. split.
  - intros (i & <- & Hi). apply in_seq in Hi. lia.
  - intros H. exists (Z.to_nat z). split; [lia|]. apply in_seq. lia.
Qed.
Lemma zs_distinct s k : exact_labels s k -> Permutation (zs k) (distinct s).
Proof.
  intros H. apply NoDup_Permutation; [apply zs_NoDup|apply NoDup_nodup|].
  intros z. rewrite zs_In, <- (H z). symmetry. apply nodup_In.
Qed.
Lemma clusters_zs s k : exact_labels s k -> Permutation (map (cluster s) (zs k)) (clusters s).
Proof. intros H. now apply Permutation_map, zs_distinct. Qed.
Lemma groups_clusters (s : data) : Permutation (groups s) (clusters s).
Proof. unfold groups, clusters. apply (Permutation_map (cluster s)). apply first_seen_perm. Qed.

Lemma fin_cluster s z : map fst (filter (fun p => Z.eqb (snd p) z) (fin_data s)) = map fin (cluster s z).
Proof.
  unfold fin_data, cluster. induction s as [|[x l] t IH]; auto. cbn [map filter fst snd].
  destruct (Z.eqb l z); cbn [map fst]; auto. now rewrite IH.
Qed.
Lemma sub_rows_fin d g c : length c = d -> wfg d g ->
  sub_rows (A := XR) (mkMat d (map fin g)) (fin c) = map (fun x => fin (map2 Rminus x c)) g.
Proof.
  intros _ _. unfold sub_rows. cbn [mrows]. rewrite map_map. apply map_ext. intros x.
  replace (map (fun y : F XR => fmul y f1) (fin c)) with (fin c); [apply sub_fin|].
  unfold fin. rewrite map_map. apply map_ext. intros y. rewrite f1_fin, fmul_fin. f_equal. ring.
Qed.
Lemma sumsq_all_fin g c :
  np_sumsq_all (A := XR) (map (fun x => fin (map2 Rminus x c)) g) = Fin (rsum (map (fun x => dist2 x c) g)).
Proof.
  unfold np_sumsq_all. replace (map (fsq (A := XR)) (concat (map (fun x => fin (map2 Rminus x c)) g)))
    with (fin (concat (map (fun x => map2 Rmult (map2 Rminus x c) (map2 Rminus x c)) g))).
  - unfold fin. rewrite np_sum_fin. f_equal. rewrite rsum_concat_map. apply rsum_map_ext. intros x _. apply rdot_sub.
  - unfold fin. rewrite !concat_map, !map_map. apply (f_equal (@concat _)). apply map_ext. intros x. symmetry. apply map_fsq.
Qed.

Section B.
  Context (d k : nat) (s : data).
  Hypotheses (Hw : wf d s) (Hk : (2 <= k)%nat) (He : exact_labels s k).
  Let gs := map (cluster s) (zs k).
  Let m : mat XR := mkMat d (map fst (fin_data s)).
  Let ls := map snd (fin_data s).

  Lemma b_ls : ls = labels s.
  Proof. unfold ls, fin_data, labels. now rewrite map_map. Qed.
  Lemma b_unique : n_unique ls = k.
  Proof.
    rewrite b_ls. unfold n_unique. transitivity (length (zs k)); [|unfold zs; now rewrite map_length, seq_length].
    symmetry. apply Permutation_length, zs_distinct, He.
  Qed.
  Lemma b_glen : length gs = k.
  Proof. unfold gs, zs. now rewrite !map_length, seq_length. Qed.
  Lemma b_mrows : mrows m = map fin (points s).
  Proof. unfold m, fin_data, points. cbn [mrows]. now rewrite !map_map. Qed.
  Lemma b_nrows : nrows m = length s.
  Proof. unfold nrows. rewrite b_mrows. unfold points. now rewrite !map_length. Qed.
  Lemma b_le : (length ls <= nrows m)%nat.
  Proof. rewrite b_nrows, b_ls. unfold labels. rewrite map_length. apply le_n. Qed.
  Lemma b_wfm : wfm (nrows m) (mcols m) m.
  Proof.
    repeat split. rewrite b_mrows. apply Forall_map, Forall_forall. intros x Hx. rewrite fin_length.
    apply in_map_iff in Hx as (p & <- & Hp). unfold wf in Hw. rewrite Forall_forall in Hw. auto.
  Qed.
  Lemma b_good : good d gs.
  Proof.
    split; apply Forall_map, Forall_forall; intros l Hl.
    - apply Forall_forall. intros x Hx. apply in_map_iff in Hx as (p & <- & Hp). apply filter_In in Hp as [Hp _].
      unfold wf in Hw. rewrite Forall_forall in Hw. auto.
    - apply (grp_ne s). apply He. now apply zs_In.
  Qed.
  Lemma b_concat : Permutation (concat gs) (points s).
  Proof. apply concat_clusters; [apply zs_NoDup|]. intros l Hl. now apply zs_In, He. Qed.

  Lemma b_nth i : (i < k)%nat -> nth i gs [] = cluster s (Z.of_nat i).
  Proof.
    intros Hi. unfold gs, zs. rewrite map_map. apply (nth_map_seq (fun i => cluster s (Z.of_nat i))). auto.
  Qed.
  Lemma b_map {Y} (f : list point -> Y) (t : nat -> Y) : (forall i, (i < k)%nat -> t i = f (nth i gs [])) ->
    map t (seq 0 k) = map f gs.
  Proof.
    intros H. unfold gs, zs. rewrite !map_map. apply map_ext_in. intros i Hi. apply in_seq in Hi.
    rewrite H by lia. now rewrite b_nth by lia.
  Qed.
  Lemma b_subset i : (i < k)%nat -> subset m ls i = mkMat d (map fin (nth i gs [])).
  Proof.
    intros Hi. unfold subset. f_equal. rewrite b_nth by auto. unfold m, ls. cbn [mrows].
    rewrite select_rows. apply fin_cluster.
  Qed.
  Lemma b_n_x i : (i < k)%nat -> b_n m ls i = length (nth i gs []).
  Proof. intros Hi. unfold b_n, nrows. rewrite b_subset by auto. cbn [mrows]. apply map_length. Qed.
  Lemma b_gne i : (i < k)%nat -> wfg d (nth i gs []) /\ nth i gs [] <> [].
  Proof. intros Hi. apply good_nth; [apply b_good|now rewrite b_glen]. Qed.
  Lemma b_v_x i : (i < k)%nat -> b_v m ls i = fin (centroid d (nth i gs [])).
  Proof. intros Hi. unfold b_v. rewrite b_subset by auto. apply mean0_fin, b_gne, Hi. Qed.
  Lemma b_CP_x i : (i < k)%nat -> b_CP m ls i = Fin (scatter d (nth i gs [])).
  Proof.
    intros Hi. unfold b_CP. rewrite b_v_x, b_subset by auto.
    rewrite sub_rows_fin by (apply centroid_length || apply b_gne, Hi). apply sumsq_all_fin.
  Qed.
  Lemma b_ne : s <> [].
  Proof.
    intros E. assert (H : In 0%Z (labels s)) by (apply He; lia). rewrite E in H. destruct H.
  Qed.
  Lemma b_mu : smean0 m = fin (centroid d (concat gs)).
  Proof.
    rewrite (centroid_perm d _ _ b_concat). replace m with (mkMat (A := XR) d (map fin (points s))).
    - apply mean0_fin. intros E. apply b_ne. unfold points in E. now apply map_eq_nil in E.
    - rewrite <- b_mrows. reflexivity.
  Qed.
  Lemma b_SEP_x i : (i < k)%nat -> b_SEP m ls i =
    Fin (INR (length (nth i gs [])) * dist2 (centroid d (nth i gs [])) (centroid d (concat gs))).
  Proof.
    intros Hi. unfold b_SEP. rewrite b_n_x, b_v_x, b_mu, np_sumsq_sub, f_of_nat_fin by auto. apply fmul_fin.
  Qed.
  Lemma b_len i : (i < k)%nat -> INR (length (nth i gs [])) <> 0.
  Proof. intros Hi. apply Rgt_not_eq, INR_pos, b_gne, Hi. Qed.
  Lemma b_S_x i : (i < k)%nat -> b_S m ls i = Fin (mse d (nth i gs [])).
  Proof. intros Hi. unfold b_S. rewrite b_CP_x, b_n_x, f_of_nat_fin by auto. apply fdiv_fin, b_len, Hi. Qed.
  Lemma b_sqd_x i j : (i < k)%nat -> (j < k)%nat -> b_sqd m ls i j = Fin (cdist d (nth i gs []) (nth j gs [])).
  Proof. intros Hi Hj. unfold b_sqd. rewrite !b_v_x by auto. apply sqd_fin. Qed.
  Lemma b_gd53_x i j : (i < k)%nat -> (j < k)%nat -> b_gd53 m ls i j = Fin (pooled d (nth i gs []) (nth j gs [])).
  Proof.
    intros Hi Hj. unfold b_gd53. rewrite !b_CP_x, !b_n_x, f_of_nat_fin, plus_INR by auto. apply fdiv_fin.
    destruct (b_gne i Hi) as [_ H1]. destruct (b_gne j Hj) as [_ H2]. pose proof (INR_pos _ H1). pose proof (INR_pos _ H2).
    unfold point in *. lra.
  Qed.
  Lemma b_sil_x j i : (j < k)%nat -> (i < k)%nat -> b_sil m ls j i = Fin (mdist d (nth i gs []) (nth j gs [])).
  Proof.
    intros Hj Hi. unfold b_sil. rewrite b_v_x, b_n_x, f_of_nat_fin by auto.
    replace m with (mkMat (A := XR) d (map fin (points s))) by (rewrite <- b_mrows; reflexivity).
    rewrite sub_rows_fin by (apply centroid_length || (apply Forall_map; exact Hw)).
    set (c := centroid d (nth i gs [])).
    replace (map (np_sumsq (A := XR)) (map (fun x => fin (map2 Rminus x c)) (points s)))
      with (map fst (map (fun p => (Fin (dist2 (fst p) c), snd p)) s)).
    2:{ unfold points. rewrite !map_map. apply map_ext. intros x. cbn [fst]. now rewrite <- sub_fin, np_sumsq_sub. }
    replace ls with (map snd (map (fun p => (Fin (dist2 (fst p) c), snd p)) s)).
    2:{ rewrite b_ls. unfold labels. now rewrite map_map. }
    rewrite select_rows, b_nth by auto.
    replace (map fst (filter _ _)) with (map (fun x => Fin (dist2 x c)) (cluster s (Z.of_nat j))).
    - rewrite py_sum_map. unfold mdist. fold c. apply fdiv_fin. rewrite <- b_nth by auto. apply b_len, Hj.
    - unfold cluster. generalize s. intros t. induction t as [|[x l] t IH]; auto. cbn [map filter fst snd].
      destruct (Z.eqb l (Z.of_nat j)); cbn [map fst]; auto. now rewrite IH.
  Qed.
  Lemma b_sigma_x i : d <> 0%nat -> (i < k)%nat -> b_sigma m ls i = cov_table d (nth i gs []).
  Proof.
    intros Hd Hi. unfold b_sigma. cbv zeta. rewrite b_subset by auto. change (mcols m) with d.
    unfold nrows. cbn [mrows]. rewrite map_length. destruct (b_gne i Hi) as [H1 H2].
    set (g := nth i gs []) in *. pose proof (INR_pos g H2) as P.
    match goal with |- (if ?b then _ else _) = _ => destruct b eqn:L end; [apply Nat.ltb_lt in L|apply Nat.ltb_ge in L].
    - unfold cov_table. apply tab2_ext. intros a b Ha Hb. rewrite delta_term_entry by auto.
      change (smean0 (A := XR)) with (mean0 (A := XR)). change (sdot (a := XR)) with (np_dot (a := XR)).
      rewrite mean0_fin by auto. rewrite !nth_fin, !(col_fin d g).
      change (map (fun x => Fin (co a x)) g) with (map (fun x => Fin (co a x)) g).
      rewrite <- (map_map (co a) Fin), <- (map_map (co b) Fin).
      change (map Fin (map (co a) g)) with (fin (map (co a) g)). change (map Fin (map (co b) g)) with (fin (map (co b) g)).
      rewrite np_dot_fin, f_of_nat_fin, !fmul_fin, fsub_fin.
      cbn [f_of_Z XR]. rewrite minus_IZR, <- INR_IZR_INZ, f1_fin. apply lt_INR in L. cbn [INR] in L.
      rewrite fdiv_fin by lra. rewrite fmul_fin, fadd_fin. f_equal. unfold regcov. f_equal.
      rewrite covar_cross. replace (length g <=? 1)%nat with false.
      2:{ symmetry. apply Nat.leb_gt. apply INR_lt. exact L. }
      rewrite <- (cross_raw d g a b) by auto. unfold rdot. rewrite map2_combine.
      replace (rsum (map _ (combine (map (co a) g) (map (co b) g)))) with (rsum (map (fun x => co a x * co b x) g)).
      + unfold point, Rdiv. ring.
      + f_equal. clear. induction g as [|x g IH]; auto. cbn [map combine fst snd]. now rewrite IH.
    - destruct g as [|x [|y g]]; [congruence| |simpl in L; lia]. now apply delta_term_single.
  Qed.

  Lemma Doff_sym F t o' : (forall g h, F g h = F h g) -> D o' = D_sym (A := XR) k t ->
    (forall a b, (a < k)%nat -> (b < k)%nat -> t a b = Fin (F (nth a gs []) (nth b gs []))) -> Doff F gs o'.
  Proof.
    intros HF E Ht a b Ha Hb Hab. rewrite b_glen in Ha, Hb. rewrite E. unfold D_sym. rewrite entry_tab2 by auto.
    destruct (Nat.ltb_spec a b), (Nat.ltb_spec b a); try lia; rewrite Ht by auto; rewrite f0_fin, fadd_fin; f_equal.
    - ring.
    - rewrite HF. ring.
  Qed.

  Lemma wfm_D_sym t : wfm k k (D_sym (A := XR) k t).
  Proof. apply wfm_tab2. Qed.

  Lemma BData c o' : BCommon m ls o' -> Stats c d gs o' -> Data c d gs o'.
  Proof.
    intros [B1 B2 B3 B4 B5 B6] HS. rewrite b_unique in *. constructor; auto.
    - now rewrite B4, b_glen.
    - rewrite B1, b_nrows, (Permutation_length b_concat). unfold points. now rewrite map_length.
    - rewrite B5. apply b_map. apply b_n_x.
    - rewrite B6. change (mcols m) with d. f_equal. apply (b_map (fun g => fin (centroid d g))). apply b_v_x.
  Qed.

  Theorem batch_param c : (c = krCIP -> d <> 0%nat) -> exists o', param_batch c m ls init_attrs = (o', Ok tt) /\
    Data c d gs o' /\ evals c o' (val_of c o').
  Proof.
    intros Hd. pose proof (covers_le m ls (n_unique ls) b_le) as L. pose proof b_unique as U. pose proof b_glen as GL.
    assert (V : forall o', BCommon m ls o' -> val_of c o' = match c with kCH => CH_val o' | kWB => WB_val o' | kDB => DB_val o'
                | kXB => XB_val o' | kGD43 => GD_val o' | kGD53 => GD_val o' | kPS => PS_val o' | krCIP => rCIP_val o'
                | kcSIL => cSIL_val o' end).
    { intros o' [_ _ _ B4 _ _]. unfold val_of. rewrite B4, U. replace (k <=? 1)%nat with false; [now destruct c|].
      symmetry. apply Nat.leb_gt. lia. }
    assert (K : forall o', BCommon m ls o' -> n_clusters o' = k) by (intros o' [_ _ _ B4 _ _]; congruence).
    assert (LN : forall o', BCommon m ls o' -> length (n o') = n_clusters o').
    { intros o' B. rewrite (K _ B), (bc_n _ _ _ B), U. now rewrite map_length, seq_length. }
    destruct c; cbn [param_batch].
    - destruct (CH_batch m ls L) as (o' & E & B & C1 & C2 & _). exists o'. split; auto. rewrite U in *. split.
      + apply BData; auto. split.
        * unfold CPs. rewrite C1. apply b_map. apply b_CP_x.
        * rewrite C2. apply (b_map (fun g => Fin (INR (length g) * dist2 (centroid d g) (centroid d (concat gs))))).
          apply b_SEP_x.
      + rewrite (V _ B). apply CH_eval. rewrite (K _ B). lia.
    - destruct (WB_batch m ls L) as (o' & E & B & C1 & C2 & _). exists o'. split; auto. rewrite U in *. split.
      + apply BData; auto. split.
        * unfold CPs. rewrite C1. apply b_map. apply b_CP_x.
        * rewrite C2. apply (b_map (fun g => Fin (INR (length g) * dist2 (centroid d g) (centroid d (concat gs))))).
          apply b_SEP_x.
      + rewrite (V _ B). apply WB_eval. rewrite (K _ B). lia.
    - destruct (DB_batch m ls L) as (o' & E & B & C1 & C2 & _ & _ & _ & C3). exists o'. split; auto. rewrite U in *. split.
      + apply BData; auto. split.
        * rewrite C2. apply (b_map (fun g => Fin (mse d g))). apply b_S_x.
        * eapply Doff_sym; eauto using cdist_sym, b_sqd_x.
      + rewrite (V _ B). apply DB_eval; rewrite (K _ B); [lia|rewrite C3; apply wfm_D_sym|rewrite C2; now rewrite map_length, seq_length].
    - destruct (XB_batch m ls L) as (o' & E & B & C1 & _ & _ & C2). exists o'. split; auto. rewrite U in *. split.
      + apply BData; auto. split.
        * unfold CPs. rewrite C1. apply b_map. apply b_CP_x.
        * intros a b Ha Hb. rewrite GL in Hb. rewrite C2, entry_tab2 by lia. replace (a <? b)%nat with true; [apply b_sqd_x; lia|].
          symmetry. now apply Nat.ltb_lt.
      + rewrite (V _ B). apply XB_eval; rewrite (K _ B); [lia|rewrite C2; apply wfm_tab2].
    - destruct (GD43_batch m ls L) as (o' & E & B & C1 & _ & _ & _ & C2). exists o'. split; auto. rewrite U in *. split.
      + apply BData; auto. split.
        * unfold CPs. rewrite C1. apply b_map. apply b_CP_x.
        * apply Doff_Dup. eapply (Doff_sym (fun g h => sqrt (cdist d g h))); eauto using scdist_sym.
          intros a b Ha Hb. cbv beta. rewrite b_sqd_x by auto. apply fsqrt_fin, cdist_nonneg.
      + rewrite (V _ B). apply GD43_eval; auto; rewrite (K _ B); [lia|rewrite C2; apply wfm_D_sym|rewrite C1; now rewrite map_length, seq_length].
    - destruct (GD53_batch m ls L) as (o' & E & B & C1 & _ & _ & _ & C2). exists o'. split; auto. rewrite U in *. split.
      + apply BData; auto. split.
        * unfold CPs. rewrite C1. apply b_map. apply b_CP_x.
        * apply Doff_Dup. eapply (Doff_sym (pooled d)); eauto using pooled_sym, b_gd53_x.
      + rewrite (V _ B). apply GD53_eval; auto; rewrite (K _ B); [lia|rewrite C2; apply wfm_D_sym|rewrite C1; now rewrite map_length, seq_length].
    - destruct (PS_batch m ls L) as (o' & E & B & _ & C1). exists o'. split; auto. rewrite U in *. split.
      + apply BData; auto. split.
        * rewrite C1, GL. apply wfm_D_sym.
        * eapply Doff_sym; eauto using cdist_sym, b_sqd_x.
      + rewrite (V _ B). apply (PS_eval d); auto; try rewrite (K _ B); [lia|rewrite C1; apply wfm_D_sym| |].
        * rewrite (bc_v _ _ _ B), U. repeat split; cbn [mrows]; [now rewrite map_length, seq_length|].
          apply Forall_map, Forall_forall. intros i Hi. apply in_seq in Hi. rewrite b_v_x by lia.
          now rewrite fin_length, centroid_length.
        * rewrite (bc_n _ _ _ B), U. apply list_max_ne.
          -- apply Forall_map, Forall_forall. intros i Hi. apply in_seq in Hi. rewrite b_n_x by lia.
             destruct (b_gne i ltac:(lia)) as [_ H]. intros Z. now apply length_zero_iff_nil in Z.
          -- clear -Hk. destruct k; [lia|discriminate].
    - assert (Hd' := Hd eq_refl).
      destruct (rCIP_batch m ls (fun a b => Fin (potential d (nth a gs []) (nth b gs []))) L b_wfm Hd') as (o' & E & B & C1 & _ & _ & C2).
      { intros a b Hab Hb. rewrite U in Hb. change (mcols m) with d. rewrite !b_sigma_x, !b_v_x by (auto; lia).
        now apply potential_fin. }
      exists o'. split; auto. rewrite U in *. split.
      + apply BData; auto. apply Doff_Dup. eapply (Doff_sym (potential d)); eauto using potential_sym.
      + rewrite (V _ B). apply rCIP_eval; rewrite (K _ B); [lia|rewrite C2; apply wfm_D_sym].
    - assert (Hn : (n_unique ls <= nrows m)%nat).
      { rewrite b_nrows, b_ls. unfold n_unique. rewrite <- (map_length snd s).
        apply NoDup_incl_length; [apply NoDup_nodup|]. intros z. apply nodup_In. }
      destruct (cSIL_batch m ls L Hn) as (o' & E & B & _ & _ & _ & C2). exists o'. split; auto. rewrite U in *. split.
      + apply BData; auto. cbn [Stats]. rewrite C2, GL. apply tab2_ext. intros a b Ha Hb. now apply b_sil_x.
      + rewrite (V _ B). apply cSIL_eval; rewrite (K _ B); [lia|rewrite C2; apply wfm_tab2].
  Qed.

  Theorem batch_value c : (c = krCIP -> d <> 0%nat) ->
    results c new_obj [batch_of d (fin_data s)] = [Ok (XVal c d (clusters s))].
  Proof.
    intros Hd. destruct (batch_param c Hd) as (o' & E & HD & o2 & E2 & E3 & _).
    unfold results, batch_of. cbn [run snd]. unfold get_cvi, update. cbn [new_obj at_ label_map].
    change (is_setup init_attrs) with false. cbv iota. unfold unique_labels.
    change (map snd (fin_data s)) with ls. rewrite b_unique.
    replace (1 <? k)%nat with true by (symmetry; apply Nat.ltb_lt; lia). cbn [negb].
    change (mkMat d (map fst (fin_data s))) with m. rewrite E. cbn [at_ label_map]. rewrite E2. cbn [snd fst].
    rewrite E3, (val_of_XVal c d gs o' b_good HD). do 2 f_equal. apply XVal_perm, clusters_zs, He.
  Qed.
End B.
