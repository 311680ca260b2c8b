(** * Incremental updates in exact arithmetic: the attributes hold the exact
    statistics of the partition seen so far. *)
From Coq Require Import ZArith List Arith Bool Lia Permutation.
From Verif Require Import Num NumPy Base M_CH M_D M_PS GetCvi Lists Step Step2 StepB Hoare Eval Stream Shapes Generic.
From Coq Require Import Reals Lra.
From Verif Require Import Det Spec XR SpecX RGeom XLift XEval.
Import ListNotations.
Local Open Scope R_scope.

(** ** Closed forms of the recurrences *)
Lemma rmean_fin d g x : g <> [] -> length x = d ->
  rmean (A := XR) (length g + 1) (fin (centroid d g)) (fin x) = fin (centroid d (g ++ [x])).
Proof.
  intros Hg Hx. pose proof (INR_pos g Hg) as P. unfold rmean. change (sscal (A := XR)) with (scal (A := XR)). rewrite f_of_nat_fin, plus_INR. cbn [INR].
  rewrite f1_fin, !fdiv_fin by lra. rewrite fsub_fin, !scal_fin, add_fin. f_equal.
  apply (point_ext d).
  - rewrite length_map2, !map_length, centroid_length. lia.
  - apply centroid_length.
  - intros j Hj. rewrite co_centroid_snoc by auto.
    transitivity ((1 - 1 / (INR (length g) + 1)) * co j (centroid d g) + 1 / (INR (length g) + 1) * co j x).
    + unfold co. rewrite (nth_map2 _ _ _ _ 0 0) by (rewrite !map_length, ?centroid_length; lia).
      rewrite (nth_indep _ 0 ((1 - 1 / (INR (length g) + 1)) * 0)) by (rewrite map_length, centroid_length; lia).
      rewrite map_nth.
      rewrite (nth_indep (map (Rmult (1 / (INR (length g) + 1))) x) 0 (1 / (INR (length g) + 1) * 0))
        by (rewrite map_length; lia).
      rewrite map_nth. reflexivity.
    + field. lra.
Qed.

Lemma scatter_step d g x : g <> [] -> wfg d g -> length x = d ->
  scatter d (g ++ [x]) = scatter d g + dist2 x (centroid d (g ++ [x]))
                         + INR (length g) * dist2 (centroid d g) (centroid d (g ++ [x])).
Proof.
  intros Hg Hw Hx. unfold scatter at 1. rewrite map_app, rsum_app. cbn [map]. rewrite rsum_cons.
  rewrite (parallel_axis d); auto using centroid_length. unfold rsum at 1. cbn [fold_right]. lra.
Qed.

Lemma rdot_zero a k : rdot a (repeat 0 k) = 0.
Proof.
  unfold rdot. revert k; induction a as [|x a IH]; intros [|k]; try reflexivity. cbn [repeat map2].
  rewrite rsum_cons, IH. lra.
Qed.

Lemma cp_upd_fin d g x : g <> [] -> wfg d g -> length x = d ->
  cp_upd (A := XR) (length g) (fin (centroid d g)) (Fin (scatter d g)) (zeros d) (fin x)
  = Fin (scatter d (g ++ [x])).
Proof.
  intros Hg Hw Hx. unfold cp_upd, v_upd. rewrite rmean_fin by auto. cbv zeta. rewrite !dot_sub_fin.
  rewrite f_of_nat_fin, f2_fin, zeros_fin, sub_fin, np_dot_fin, rdot_zero, !fmul_fin, !fadd_fin.
  f_equal. rewrite (scatter_step d g x) by auto. lra.
Qed.

Lemma g_upd_fin d g x : g <> [] -> length x = d ->
  g_upd (A := XR) (length g) (fin (centroid d g)) (zeros d) (fin x) = zeros d.
Proof.
  intros Hg Hx. pose proof (INR_pos g Hg) as P. unfold g_upd, v_upd. rewrite rmean_fin by auto. cbv zeta.
  rewrite f_of_nat_fin, zeros_fin, !sub_fin, scal_fin, !add_fin. f_equal.
  set (c' := centroid d (g ++ [x])). assert (Lc' : length c' = d) by apply centroid_length.
  pose proof (centroid_length d g) as Lc.
  assert (L1 : length (map2 Rminus x c') = d) by (rewrite length_map2; lia).
  assert (L2 : length (map2 Rminus (centroid d g) c') = d) by (rewrite length_map2; lia).
  apply (point_ext d).
  - rewrite !length_map2, map_length, repeat_length. lia.
  - apply repeat_length.
  - intros j Hj. unfold co.
    rewrite (nth_map2 _ _ _ _ 0 0) by (rewrite ?length_map2, ?map_length, ?repeat_length; lia).
    rewrite (nth_map2 _ _ _ _ 0 0) by (rewrite ?length_map2, ?map_length, ?repeat_length; lia).
    rewrite nth_repeat.
    rewrite (nth_map2 Rminus x c' j 0 0) by lia.
    rewrite (nth_indep (map _ _) 0 (INR (length g) * 0)) by (rewrite map_length; lia). rewrite map_nth.
    rewrite (nth_map2 Rminus _ c' j 0 0) by lia.
    assert (E : nth j c' 0 = (INR (length g) * nth j (centroid d g) 0 + nth j x 0) / (INR (length g) + 1))
      by (apply co_centroid_snoc; auto).
    rewrite E. field. lra.
Qed.

(** ** Partitions after one more sample *)
Definition join (i : nat) (x : point) (gs : list (list point)) : list (list point) :=
  upd i (nth i gs [] ++ [x]) gs.
Lemma join_length i x gs : length (join i x gs) = length gs.
Proof. apply length_upd. Qed.
Lemma nth_join i x gs j : (i < length gs)%nat ->
  nth j (join i x gs) [] = if (j =? i)%nat then nth i gs [] ++ [x] else nth j gs [].
Proof. intros H. unfold join. now rewrite nth_upd. Qed.
Lemma concat_join i x gs : (i < length gs)%nat -> Permutation (concat (join i x gs)) (concat gs ++ [x]).
Proof.
  unfold join. revert i; induction gs as [|g gs IH]; intros i Hi; [simpl in Hi; lia|].
  destruct i as [|i]; cbn [upd concat nth].
  - rewrite <- !app_assoc. apply Permutation_app_head. apply Permutation_app_comm.
  - rewrite <- app_assoc. apply Permutation_app_head. apply IH. simpl in Hi. lia.
Qed.
Lemma concat_new (gs : list (list point)) x : concat (gs ++ [[x]]) = concat gs ++ [x].
Proof. rewrite concat_app. reflexivity. Qed.
Lemma good_new d gs x : good d gs -> length x = d -> good d (gs ++ [[x]]).
Proof.
  intros [H1 H2] Hx. split; apply Forall_app; split; auto; constructor; auto; [|discriminate].
  constructor; auto.
Qed.
Lemma good_join d gs i x : good d gs -> length x = d -> (i < length gs)%nat -> good d (join i x gs).
Proof.
  intros [H1 H2] Hx Hi. split; apply Forall_upd; auto.
  - apply Forall_app; split; [|constructor; auto]. rewrite Forall_forall in H1. apply H1. now apply nth_In.
  - destruct (nth i gs []); discriminate.
Qed.
Lemma good_nth d gs i : good d gs -> (i < length gs)%nat -> wfg d (nth i gs []) /\ nth i gs [] <> [].
Proof.
  intros [H1 H2] Hi. rewrite Forall_forall in H1, H2. split; [apply H1|apply H2]; now apply nth_In.
Qed.

(** ** The statistics kept by the incremental methods *)
Record Stat0 d gs (o : attrs XR) : Prop := mkStat0 {
  s0_k : n_clusters o = length gs;
  s0_ns : n_samples o = length (concat gs);
  s0_n : n o = map (@length point) gs;
  s0_v : mrows (v o) = map (fun g => fin (centroid d g)) gs
}.
Record GPart d gs (o : attrs XR) : Prop := mkGPart {
  gp_CP : CPs d gs o;
  gp_G : mrows (G o) = map (fun _ => zeros d) gs;
  gp_mu : gs <> [] -> mu o = fin (centroid d (concat gs))
}.
Definition SEPs d gs (o : attrs XR) : Prop :=
  SEP o = map (fun g => Fin (INR (length g) * dist2 (centroid d g) (centroid d (concat gs)))) gs.
Definition cov_table d (g : list point) : mat XR := tab2 (A := XR) d d (fun a b => Fin (regcov d g a b)).
Definition IPart (c : kind) d gs (o : attrs XR) : Prop :=
  match c with
  | kCH | kWB => GPart d gs o
  | kDB => GPart d gs o /\ S1 o = map (fun g => Fin (mse d g)) gs /\ Doff (cdist d) gs o
  | kXB => GPart d gs o /\ Doff (cdist d) gs o
  | kGD43 => GPart d gs o /\ Doff (fun g h => sqrt (cdist d g h)) gs o
  | kGD53 => GPart d gs o /\ Doff (pooled d) gs o
  | kPS => Doff (cdist d) gs o
  | krCIP => Base.sigma o = map (cov_table d) gs /\ Doff (potential d) gs o
  | kcSIL => True
  end.
Definition Rep c d gs (o : attrs XR) : Prop := Stat0 d gs o /\ IPart c d gs o.
(** recomputed by every update of CH and WB *)
Definition SepOk (c : kind) d gs (o : attrs XR) : Prop :=
  match c with kCH | kWB => SEPs d gs o | _ => True end.

Lemma Rep_init c d : Rep c d [] init_attrs.
Proof.
  split; [now constructor|].
  assert (GPart d [] init_attrs) by (constructor; [reflexivity|reflexivity|congruence]).
  assert (forall F, Doff F [] (init_attrs (A := XR))) by (intros F a b Ha; simpl in Ha; lia).
  destruct c; cbn [IPart]; auto; split; auto; try reflexivity; split; auto.
Qed.

Lemma Rep_Data c d gs o : c <> kcSIL -> Shape c d o -> Rep c d gs o -> SepOk c d gs o -> Data c d gs o.
Proof.
  intros Hc HS [[K1 K2 K3 K4] HI] HSep. destruct (Shape_init c d o HS) as (_ & _ & (V1 & V2 & V3) & _).
  constructor; auto.
  - destruct (v o) as [cc rr]. cbn [mrows mcols] in *. now subst.
  - destruct c; cbn [IPart Stats Shape SepOk] in *; try congruence.
    + destruct HI; auto.
    + destruct HI; auto.
    + tauto.
    + destruct HI as [[] ?]; split; auto using Doff_Dup.
    + destruct HI as [[] ?]; split; auto using Doff_Dup.
    + destruct HI as [[] ?]; split; auto using Doff_Dup.
    + destruct HS as [HS _]. destruct HS. split; auto. now rewrite <- K1.
    + apply Doff_Dup, HI.
Qed.

Section Parts.
  Context (d : nat) (gs : list (list point)) (o : attrs XR).
  Hypothesis (Hg : good d gs) (HS : Stat0 d gs o).

  Lemma vrow_x j : (j < length gs)%nat -> vrow o j = fin (centroid d (nth j gs [])).
  Proof.
    intros Hj. unfold vrow. rewrite (s0_v _ _ _ HS).
    rewrite nth_indep with (d' := fin (centroid d [])) by (now rewrite map_length).
    apply (map_nth (fun g => fin (centroid d g))).
  Qed.
  Lemma nn_x j : nn o j = length (nth j gs []).
  Proof. unfold nn. rewrite (s0_n _ _ _ HS). apply (map_nth (@length point) gs []). Qed.
  Lemma cpi_x j : CPs d gs o -> (j < length gs)%nat -> cpi o j = Fin (scatter d (nth j gs [])).
  Proof.
    intros H Hj. unfold cpi. rewrite H. rewrite nth_indep with (d' := Fin (scatter d [])) by (now rewrite map_length).
    apply (map_nth (fun g => Fin (scatter d g))).
  Qed.
  Lemma grow_x j : GPart d gs o -> (j < length gs)%nat -> grow_ o j = zeros d.
  Proof.
    intros H Hj. unfold grow_. rewrite (gp_G _ _ _ H). rewrite nth_indep with (d' := zeros d) by (now rewrite map_length).
    apply (map_nth (fun _ => zeros d) gs []).
  Qed.
  Lemma v_upd_x i x : (i < length gs)%nat -> length x = d ->
    v_upd (nn o i) (vrow o i) (fin x) = fin (centroid d (nth i gs [] ++ [x])).
  Proof.
    intros Hi Hx. rewrite vrow_x, nn_x by auto. destruct (good_nth d gs i Hg Hi) as [_ H].
    now apply rmean_fin.
  Qed.
  Lemma cp_upd_x i x : GPart d gs o -> (i < length gs)%nat -> length x = d ->
    cp_upd (nn o i) (vrow o i) (cpi o i) (grow_ o i) (fin x) = Fin (scatter d (nth i gs [] ++ [x])).
  Proof.
    intros HP Hi Hx. rewrite vrow_x, nn_x, cpi_x, grow_x by (auto; apply HP).
    destruct (good_nth d gs i Hg Hi). now apply cp_upd_fin.
  Qed.
  Lemma sep_x : mu o = fin (centroid d (concat gs)) -> sep_of o =
    map (fun g => Fin (INR (length g) * dist2 (centroid d g) (centroid d (concat gs)))) gs.
  Proof.
    intros Hm. unfold sep_of. rewrite Hm, (s0_k _ _ _ HS).
    set (f := fun g : list point => Fin (INR (length g) * dist2 (centroid d g) (centroid d (concat gs)))).
    transitivity (map f (map (fun i => nth i gs []) (seq 0 (length gs)))); [|now rewrite map_seq_nth].
    rewrite map_map. apply map_ext_in.
    intros i Hi. apply in_seq in Hi. rewrite vrow_x, nn_x, py_sumsq_sub, f_of_nat_fin by lia. reflexivity.
  Qed.

  Lemma Stat0_new x o' : length x = d -> Common d (fin x) o o' -> CommonNew d (fin x) o o' ->
    Stat0 d (gs ++ [[x]]) o'.
  Proof.
    intros Hx [C1 _ _ _ _] [N1 N2 N3]. destruct HS as [K1 K2 K3 K4]. constructor.
    - rewrite N1, K1, app_length. reflexivity.
    - rewrite C1, K2, concat_new, app_length. reflexivity.
    - rewrite N2, K3, map_app. reflexivity.
    - rewrite N3. cbn [mrows]. rewrite K4, map_app. cbn [map]. now rewrite centroid_single.
  Qed.
  Lemma Stat0_old i x o' : length x = d -> (i < length gs)%nat -> Common d (fin x) o o' -> CommonOld d (fin x) i o o' ->
    Stat0 d (join i x gs) o'.
  Proof.
    intros Hx Hi [C1 _ _ _ _] [N1 N2 N3]. pose proof HS as [K1 K2 K3 K4]. constructor.
    - now rewrite N1, K1, join_length.
    - rewrite C1, K2, (Permutation_length (concat_join i x gs Hi)), app_length. reflexivity.
    - rewrite N2, nn_x, K3. unfold join. rewrite map_upd, app_length. reflexivity.
    - rewrite N3. cbn [mrows]. rewrite v_upd_x by auto. rewrite K4. unfold join. now rewrite map_upd.
  Qed.

  Lemma mu_x x gs' : length x = d -> (gs <> [] -> mu o = fin (centroid d (concat gs))) ->
    Permutation (concat gs') (concat gs ++ [x]) -> mu_upd (fin x) o = fin (centroid d (concat gs')).
  Proof.
    intros Hx Hm HP. rewrite (centroid_perm d _ _ HP). unfold mu_upd. rewrite (s0_ns _ _ _ HS).
    destruct (Nat.eqb_spec (length (concat gs)) 0) as [E|E].
    - apply length_zero_iff_nil in E. rewrite E. cbn [app]. now rewrite centroid_single.
    - assert (Hne : concat gs <> []) by (intros E'; rewrite E' in E; simpl in E; lia).
      rewrite Hm by (intros ->; simpl in E; lia). now apply rmean_fin.
  Qed.
  Lemma GPart_new x o' : length x = d -> GPart d gs o -> GNew d (fin x) o o' -> mu o' = mu_upd (fin x) o ->
    GPart d (gs ++ [[x]]) o'.
  Proof.
    intros Hx [P1 P2 P3] [N1 N2] Hm. constructor.
    - unfold CPs in *. rewrite N1, P1, map_app. cbn [map]. now rewrite scatter_single.
    - rewrite N2. cbn [mrows]. rewrite P2, map_app. reflexivity.
    - intros _. rewrite Hm. apply mu_x; auto. now rewrite concat_new.
  Qed.
  Lemma GPart_old i x o' : length x = d -> (i < length gs)%nat -> GPart d gs o -> GOld d (fin x) i o o' ->
    mu o' = mu_upd (fin x) o -> GPart d (join i x gs) o'.
  Proof.
    intros Hx Hi HP [N1 N2] Hm. constructor.
    - unfold CPs. rewrite N1, cp_upd_x by auto. rewrite (gp_CP _ _ _ HP). unfold join. now rewrite map_upd.
    - rewrite N2. cbn [mrows]. rewrite vrow_x, nn_x, grow_x by auto.
      destruct (good_nth d gs i Hg Hi). rewrite g_upd_fin by auto. rewrite (gp_G _ _ _ HP). unfold join.
      now rewrite map_upd.
    - intros _. rewrite Hm. apply mu_x; auto; [apply HP|now apply concat_join].
  Qed.

  Lemma Doff_app F x o' t : (forall g h, F g h = F h g) -> Doff F gs o ->
    D o' = D_app (n_clusters o) (entry (D o)) t ->
    (forall j, (j < length gs)%nat -> t j = Fin (F [x] (nth j gs []))) -> Doff F (gs ++ [[x]]) o'.
  Proof.
    intros HF HD E Ht a b Ha Hb Hab. rewrite app_length, Nat.add_1_r in Ha, Hb. rewrite E, (s0_k _ _ _ HS).
    unfold D_app. rewrite entry_tab2 by auto.
    assert (EN : forall j, (j < S (length gs))%nat -> nth j (gs ++ [[x]]) [] = if (j =? length gs)%nat then [x] else nth j gs []).
    { intros j Hj. destruct (Nat.eqb_spec j (length gs)) as [->|Hn].
      - rewrite app_nth2, Nat.sub_diag by lia. reflexivity.
      - apply app_nth1. lia. }
    rewrite !EN by auto.
    destruct (Nat.eqb_spec b (length gs)), (Nat.eqb_spec a (length gs)); try lia.
    - rewrite Ht by lia. now rewrite HF.
    - apply Ht. lia.
    - apply HD; lia.
  Qed.
  Lemma Doff_set F i x o' t : (forall g h, F g h = F h g) -> (i < length gs)%nat -> Doff F gs o ->
    D o' = D_set (n_clusters o) i (entry (D o)) t ->
    (forall j, (j < length gs)%nat -> t j = Fin (F (nth i gs [] ++ [x]) (nth j gs []))) -> Doff F (join i x gs) o'.
  Proof.
    intros HF Hi HD E Ht a b Ha Hb Hab. rewrite join_length in Ha, Hb. rewrite E, (s0_k _ _ _ HS).
    unfold D_set. rewrite entry_tab2 by auto. rewrite !nth_join by auto.
    destruct (Nat.eqb_spec b i), (Nat.eqb_spec a i); try lia.
    - rewrite Ht by lia. now rewrite HF.
    - apply Ht. lia.
    - apply HD; lia.
  Qed.
End Parts.

Lemma pooled_sym d g h : pooled d g h = pooled d h g.
Proof. unfold pooled. now rewrite Rplus_comm, (Rplus_comm (INR _)). Qed.
Lemma scdist_sym d g h : sqrt (cdist d g h) = sqrt (cdist d h g).
Proof. now rewrite cdist_sym. Qed.
Lemma cdist_single d x g : length x = d -> cdist d [x] g = dist2 x (centroid d g).
Proof. intros H. unfold cdist. now rewrite centroid_single. Qed.
Lemma pooled_fin d g n h : INR n = INR (length g) -> h <> [] ->
  fdiv (a := XR) (fadd (a := XR) (Fin (scatter d g)) (Fin (scatter d h))) (f_of_nat (n + length h)) = Fin (pooled d g h).
Proof.
  intros E Hh. pose proof (INR_pos h Hh) as P. pose proof (pos_INR (length g)) as P'.
  rewrite f_of_nat_fin, fadd_fin, plus_INR, E. apply fdiv_fin. lra.
Qed.
Lemma mse_snoc d g x : fdiv (a := XR) (Fin (scatter d (g ++ [x]))) (f_of_nat (length g + 1)) = Fin (mse d (g ++ [x])).
Proof.
  rewrite f_of_nat_fin. unfold mse. rewrite app_length. cbn [length]. apply fdiv_fin.
  rewrite plus_INR. cbn [INR]. pose proof (pos_INR (length g)). lra.
Qed.
Lemma mse_single d x : length x = d -> mse d [x] = 0.
Proof. intros H. unfold mse. rewrite scatter_single by auto. unfold Rdiv. ring. Qed.

(** ** One step of every class but rCIP and cSIL *)
Lemma inv_good_x c d : c <> krCIP -> inv_good (A := XR) c d.
Proof. intros H ->. congruence. Qed.

Lemma rep_new c d gs o x : c <> kcSIL -> c <> krCIP -> good d gs -> Rep c d gs o ->
  o = init_attrs \/ Shape c d o -> length x = d ->
  exists o', param_inc c (fin x) (n_clusters o) o = (o', Ok tt) /\ Shape c d o' /\
    Rep c d (gs ++ [[x]]) o' /\ SepOk c d (gs ++ [[x]]) o'.
Proof.
  intros Hc1 Hc2 Hg [HS HI] Hs Hx. assert (Hx' : length (fin x) = d) by now rewrite fin_length.
  destruct (shape_new c d (fin x) o Hs Hx' (inv_good_x c d Hc2)) as (o0 & E0 & Sh & _ & _).
  assert (Hg' := good_new d gs x Hg Hx).
  assert (EJ : forall o', param_inc c (fin x) (n_clusters o) o = (o', Ok tt) -> o' = o0) by (intros o' E'; congruence).
  exists o0. split; auto. split; auto.
  destruct c; cbn [param_inc IPart Shape SepOk] in *; try congruence.
  - destruct (CH_new d (fin x) o Hs Hx') as (o' & E & C & N & Gn & Mu & Sp). rewrite (EJ o' E) in *.
    assert (S0 := Stat0_new d gs o HS x o0 Hx C N).
    assert (GP := GPart_new d gs o Hg HS x o0 Hx HI Gn Mu).
    split; [split; auto|]. unfold SEPs. rewrite Sp. apply sep_x; auto. apply GP. destruct gs; discriminate.
  - destruct (WB_new d (fin x) o Hs Hx') as (o' & E & C & N & Gn & Mu & Sp). rewrite (EJ o' E) in *.
    assert (S0 := Stat0_new d gs o HS x o0 Hx C N).
    assert (GP := GPart_new d gs o Hg HS x o0 Hx HI Gn Mu).
    split; [split; auto|]. unfold SEPs. rewrite Sp. apply sep_x; auto. apply GP. destruct gs; discriminate.
  - destruct (DB_new d (fin x) o Hs Hx') as (o' & E & C & N & Gn & Mu & ED & ES). rewrite (EJ o' E) in *.
    destruct HI as (GP & H1 & H2). split; [|exact I].
    split; [eapply Stat0_new; eauto|]. split; [eapply GPart_new; eauto|]. split.
    + rewrite ES, H1, map_app. cbn [map]. now rewrite mse_single.
    + eapply Doff_app; eauto using cdist_sym. intros j Hj. unfold DBt. rewrite (vrow_x d gs o HS) by auto.
      rewrite sqd_fin, cdist_single by auto. reflexivity.
  - destruct (XB_new d (fin x) o Hs Hx') as (o' & E & C & N & Gn & Mu & ED). rewrite (EJ o' E) in *.
    destruct HI as (GP & H2). split; [|exact I].
    split; [eapply Stat0_new; eauto|]. split; [eapply GPart_new; eauto|].
    eapply Doff_app; eauto using cdist_sym. intros j Hj. unfold XBt. rewrite (vrow_x d gs o HS) by auto.
    rewrite sqd_fin, cdist_single by auto. reflexivity.
  - destruct (GD43_new d (fin x) o Hs Hx') as (o' & E & C & N & Gn & Mu & ED). rewrite (EJ o' E) in *.
    destruct HI as (GP & H2). split; [|exact I].
    split; [eapply Stat0_new; eauto|]. split; [eapply GPart_new; eauto|].
    eapply (Doff_app d gs o HS (fun g h => sqrt (cdist d g h))); eauto using scdist_sym.
    intros j Hj. unfold GD43t. rewrite (vrow_x d gs o HS) by auto.
    rewrite sqd_fin, cdist_single, fsqrt_fin by auto using dist2_nonneg. reflexivity.
  - destruct (GD53_new d (fin x) o Hs Hx') as (o' & E & C & N & Gn & Mu & ED). rewrite (EJ o' E) in *.
    destruct HI as (GP & H2). split; [|exact I].
    split; [eapply Stat0_new; eauto|]. split; [eapply GPart_new; eauto|].
    eapply Doff_app; eauto using pooled_sym. intros j Hj. unfold GD53t.
    rewrite (cpi_x d gs o j) by (auto; apply GP). rewrite (nn_x d gs o HS).
    change (f0 : F XR) with (Fin 0). rewrite <- (scatter_single d x Hx).
    apply pooled_fin; [reflexivity|]. now apply (good_nth d gs j Hg).
  - assert (Hs' : o = init_attrs \/ ShapeP d o) by tauto.
    destruct (PS_new d (fin x) o Hs' Hx') as (o' & E & C & N & ED). rewrite (EJ o' E) in *. split; [|exact I].
    split; [eapply Stat0_new; eauto|]. cbn [IPart].
    eapply Doff_app; eauto using cdist_sym. intros j Hj. unfold PSt. rewrite (vrow_x d gs o HS) by auto.
    rewrite sqd_fin, cdist_single by auto. reflexivity.
Qed.

Lemma rep_old c d gs o i x : c <> kcSIL -> c <> krCIP -> good d gs -> Rep c d gs o ->
  Shape c d o -> length x = d -> (i < length gs)%nat ->
  exists o', param_inc c (fin x) i o = (o', Ok tt) /\ Shape c d o' /\
    Rep c d (join i x gs) o' /\ SepOk c d (join i x gs) o'.
Proof.
  intros Hc1 Hc2 Hg [HS HI] Hs Hx Hi. assert (Hx' : length (fin x) = d) by now rewrite fin_length.
  assert (Hi' : (i < n_clusters o)%nat) by now rewrite (s0_k _ _ _ HS).
  destruct (shape_old c d (fin x) i o Hs Hx' Hi' (inv_good_x c d Hc2)) as (o0 & E0 & Sh & _ & _).
  assert (EJ : forall o', param_inc c (fin x) i o = (o', Ok tt) -> o' = o0) by (intros o' E'; congruence).
  assert (Hj0 : join i x gs <> []) by (intros E; apply (f_equal (@length _)) in E; rewrite join_length in E; simpl in E; lia).
  exists o0. split; auto. split; auto.
  destruct c; cbn [param_inc IPart Shape SepOk] in *; try congruence.
  - destruct (CH_old d (fin x) i o Hs Hx' Hi') as (o' & E & C & N & Gn & Mu & Sp). rewrite (EJ o' E) in *.
    assert (S0 := Stat0_old d gs o Hg HS i x o0 Hx Hi C N).
    assert (GP := GPart_old d gs o Hg HS i x o0 Hx Hi HI Gn Mu).
    split; [split; auto|]. unfold SEPs. rewrite Sp. apply sep_x; auto. apply GP. auto.
  - destruct (WB_old d (fin x) i o Hs Hx' Hi') as (o' & E & C & N & Gn & Mu & Sp). rewrite (EJ o' E) in *.
    assert (S0 := Stat0_old d gs o Hg HS i x o0 Hx Hi C N).
    assert (GP := GPart_old d gs o Hg HS i x o0 Hx Hi HI Gn Mu).
    split; [split; auto|]. unfold SEPs. rewrite Sp. apply sep_x; auto. apply GP. auto.
  - destruct (DB_old d (fin x) i o Hs Hx' Hi') as (o' & E & C & N & Gn & Mu & ED & ES). rewrite (EJ o' E) in *.
    destruct HI as (GP & H1 & H2). split; [|exact I].
    split; [eapply Stat0_old; eauto|]. split; [eapply GPart_old; eauto|]. split.
    + rewrite ES, H1, (cp_upd_x d gs o) by auto. rewrite (nn_x d gs o HS), mse_snoc. unfold join. now rewrite map_upd.
    + eapply Doff_set; eauto using cdist_sym. intros j Hj. unfold DBt. rewrite (vrow_x d gs o HS j) by auto.
      rewrite (v_upd_x d gs o) by auto. apply sqd_fin.
  - destruct (XB_old d (fin x) i o Hs Hx' Hi') as (o' & E & C & N & Gn & Mu & ED). rewrite (EJ o' E) in *.
    destruct HI as (GP & H2). split; [|exact I].
    split; [eapply Stat0_old; eauto|]. split; [eapply GPart_old; eauto|].
    eapply Doff_set; eauto using cdist_sym. intros j Hj. unfold XBt. rewrite (vrow_x d gs o HS j) by auto.
    rewrite (v_upd_x d gs o) by auto. apply sqd_fin.
  - destruct (GD43_old d (fin x) i o Hs Hx' Hi') as (o' & E & C & N & Gn & Mu & ED). rewrite (EJ o' E) in *.
    destruct HI as (GP & H2). split; [|exact I].
    split; [eapply Stat0_old; eauto|]. split; [eapply GPart_old; eauto|].
    eapply (Doff_set d gs o HS (fun g h => sqrt (cdist d g h))); eauto using scdist_sym.
    intros j Hj. unfold GD43t. rewrite (vrow_x d gs o HS j) by auto.
    rewrite (v_upd_x d gs o) by auto. rewrite sqd_fin. apply fsqrt_fin, dist2_nonneg.
  - destruct (GD53_old d (fin x) i o Hs Hx' Hi') as (o' & E & C & N & Gn & Mu & ED). rewrite (EJ o' E) in *.
    destruct HI as (GP & H2). split; [|exact I].
    split; [eapply Stat0_old; eauto|]. split; [eapply GPart_old; eauto|].
    eapply Doff_set; eauto using pooled_sym. intros j Hj. unfold GD53t.
    rewrite (cp_upd_x d gs o) by auto. rewrite (cpi_x d gs o j) by (auto; apply GP). rewrite !(nn_x d gs o HS).
    apply pooled_fin; [now rewrite app_length|]. now apply (good_nth d gs j Hg).
  - destruct (PS_old d (fin x) i o (proj1 Hs) Hx' Hi') as (o' & E & C & N & ED). rewrite (EJ o' E) in *. split; [|exact I].
    split; [eapply Stat0_old; eauto|]. cbn [IPart].
    eapply Doff_set; eauto using cdist_sym. intros j Hj. unfold PSt. rewrite (vrow_x d gs o HS j) by auto.
    rewrite (v_upd_x d gs o) by auto. apply sqd_fin.
Qed.
