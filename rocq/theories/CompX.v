(** * The attributes an evaluation leaves behind, in exact arithmetic: the
    components of the published formulas. *)
From Coq Require Import ZArith List Arith Bool Lia Permutation.
From Verif Require Import Num NumPy Base M_CH M_D M_PS GetCvi Lists Step Step2 StepB Hoare Eval Stream Shapes Generic.
From Coq Require Import Reals Lra.
From Verif Require Import Det Spec XR SpecX RGeom XLift XEval XInc XCov XRun XPerm XBatch Obs.
From Verif Require Import CompSpec Comp.
Import ListNotations.
Local Open Scope R_scope.

Lemma keeps_SEP c (o o' : attrs XR) : c = kCH \/ c = kWB -> evaluate c o = (o', Ok tt) -> SEP o' = SEP o.
Proof.
  intros [-> | ->]; cbn [evaluate].
  - unfold CH_evaluate, bind, get, modify. destruct (1 <? n_clusters o)%nat; intros H; injection H as <-; reflexivity.
  - unfold WB_evaluate, bind, get, modify. destruct (1 <? n_clusters o)%nat; intros H; injection H as <-; reflexivity.
Qed.

Section P.
  Variables (d : nat) (gs : list (list point)).
  Hypotheses (Hg : good d gs) (Hk : (1 < length gs)%nat).

  Lemma parts c (o o' : attrs XR) : Data c d gs o -> (c = kXB -> nrows (D o) = length gs) ->
    evaluate c o = (o', Ok tt) -> Parts c d gs o'.
  Proof.
    intros HD HX HE. pose proof (evaluate_fits c o o' HE) as HF.
    pose proof (ev_all c o) as FR. unfold post in FR. rewrite HE in FR. destruct FR as [FR _]. cbn [fst] in FR.
    assert (HD' : n_clusters o' = length gs /\ n_samples o' = length (concat gs) /\ n o' = map (@length point) gs /\
                  v o' = mkMat d (map (fun g => fin (centroid d g)) gs)).
    { destruct HD as [E1 E2 E3 E4 _]. rewrite (fr_k _ _ FR), (fr_ns _ _ FR), (fr_n _ _ FR), (fr_v _ _ FR). auto. }
    destruct HD' as (K1 & K2 & K3 & K4). pose proof (da_st _ _ _ _ HD) as ST.
    assert (Lk : (1 <? n_clusters o')%nat = true) by (rewrite K1; now apply Nat.ltb_lt).
    split; [auto|]. split; [auto|]. split; [now rewrite K4|].
    assert (SP : forall i, (i < length gs)%nat -> In (nth i gs []) gs) by (intros; now apply nth_In).
    destruct c; cbn [Fits Stats] in *; cbv zeta in HF; rewrite ?Lk in HF.
    - destruct ST as [S1' S2']. unfold CPs in S1'. rewrite <- (fr_CP _ _ FR) in S1'.
      rewrite <- (keeps_SEP kCH o o') in S2' by auto. destruct HF as (F1 & F2 & _).
      rewrite F1, F2, S1', S2', !py_sum_map. auto.
    - destruct ST as [S1' S2']. unfold CPs in S1'. rewrite <- (fr_CP _ _ FR) in S1'.
      rewrite <- (keeps_SEP kWB o o') in S2' by auto. destruct HF as (F1 & F2 & _).
      rewrite F1, F2, S1', S2', !py_sum_map. auto.
    - destruct ST as [S1' S2']. rewrite <- (fr_S1 _ _ FR) in S1'. split; auto.
      destruct HF as [F1 _]. intros i j Hi Hj. rewrite F1, entry_tab2 by (rewrite K1; auto).
      assert (ES : forall i, (i < length gs)%nat -> nth i (S1 o') (f0 : F XR) = Fin (mse d (nth i gs []))).
      { intros l Hl. rewrite S1'. rewrite nth_indep with (d' := Fin (mse d [])) by (now rewrite map_length).
        apply (map_nth (fun g => Fin (mse d g))). }
      unfold DB_ratio. rewrite !ES, (fr_D _ _ FR) by auto.
      destruct (Nat.eqb_spec i j) as [->|Hn].
      + rewrite Nat.ltb_irrefl. cbn. f_equal. lra.
      + destruct (Nat.ltb_spec j i) as [L1|L1], (Nat.ltb_spec i j) as [L2|L2]; try lia.
        * rewrite S2' by auto. cbn [fadd fdiv XR]. rewrite xadd_comm, f0_fin, xadd_0_l. cbn [xadd]. f_equal. f_equal. lra.
        * rewrite S2' by auto. cbn [fadd fdiv XR]. rewrite f0_fin, xadd_0_l. cbn [xadd]. f_equal. f_equal. apply cdist_sym.
    - destruct ST as [S1' S2']. unfold CPs in S1'. rewrite <- (fr_CP _ _ FR) in S1'.
      destruct HF as (sep & upper & F1 & F2 & F3 & F4 & _). split; auto.
      split; [rewrite F1, S1', py_sum_map; reflexivity|]. rewrite F4. f_equal.
      apply np_min_inv in F3. rewrite F3. unfold triu_indices_values in F2.
      destruct (_ <? _)%nat; [discriminate|]. injection F2 as <-.
      rewrite (fr_D _ _ FR), (HX eq_refl). change (vmin (A := XR) (triu (length gs) (entry (D o))) =
        Fin (rmin (map (fun p => cdist d (fst p) (snd p)) (pairs gs)))).
      now rewrite (triu_Dup _ _ _ _ S2' eq_refl), vmin_fin.
    - destruct ST as [S1' S2']. unfold CPs in S1'. rewrite <- (fr_CP _ _ FR) in S1'.
      destruct HF as ((ratios & m & F1 & F2 & F3) & (upper & F4 & F5) & _). split; auto. split.
      + rewrite F3. unfold bc in F1. rewrite S1', K3, !map_length, Nat.eqb_refl in F1. injection F1 as <-.
        assert (Em : m = vmax (map2 fdiv (CP o') (map f_of_nat (n o')))).
        { apply np_max_inv in F2. rewrite F2, S1', K3. reflexivity. }
        rewrite Em, (intra_xval d gs o' Hg) by auto. reflexivity.
      + apply np_min_inv in F5. rewrite F5. unfold triu_mask_values in F4.
        destruct (Nat.eqb_spec (nrows (D o')) (n_clusters o')) as [N1|]; [|discriminate].
        destruct (Nat.eqb_spec (mcols (D o')) (n_clusters o')) as [N2|]; [|discriminate].
        cbn [andb] in F4. injection F4 as <-. unfold triu_values. rewrite N1, N2, K1, (fr_D _ _ FR).
        change (vmin (A := XR) (triu (length gs) (entry (D o))) =
          Fin (rmin (map (fun p => sqrt (cdist d (fst p) (snd p))) (pairs gs)))).
        now rewrite (triu_Dup _ _ _ _ S2' eq_refl), vmin_fin.
    - destruct ST as [S1' S2']. unfold CPs in S1'. rewrite <- (fr_CP _ _ FR) in S1'.
      destruct HF as ((ratios & m & F1 & F2 & F3) & (upper & F4 & F5) & _). split; auto. split.
      + rewrite F3. unfold bc in F1. rewrite S1', K3, !map_length, Nat.eqb_refl in F1. injection F1 as <-.
        assert (Em : m = vmax (map2 fdiv (CP o') (map f_of_nat (n o')))).
        { apply np_max_inv in F2. rewrite F2, S1', K3. reflexivity. }
        rewrite Em, (intra_xval d gs o' Hg) by auto. reflexivity.
      + apply np_min_inv in F5. rewrite F5. unfold triu_mask_values in F4.
        destruct (Nat.eqb_spec (nrows (D o')) (n_clusters o')) as [N1|]; [|discriminate].
        destruct (Nat.eqb_spec (mcols (D o')) (n_clusters o')) as [N2|]; [|discriminate].
        cbn [andb] in F4. injection F4 as <-. unfold triu_values. rewrite N1, N2, K1, (fr_D _ _ FR).
        change (vmin (A := XR) (triu (length gs) (entry (D o))) =
          Fin (rmin (map (fun p => pooled d (fst p) (snd p)) (pairs gs)))).
        now rewrite (triu_Dup _ _ _ _ S2' eq_refl), vmin_fin.
    - destruct ST as [S1' S2'].
      destruct HF as (F1 & (sq & F2 & F3) & F4 & _).
      assert (EV : v_bar o' = fin (centroid d (map (centroid d) gs))).
      { rewrite F1, K4, <- (map_map (centroid d) fin). apply mean0_fin. destruct gs; [simpl in Hk; lia|discriminate]. }
      assert (EB : beta_t o' = Fin (PS_beta d gs)).
      { rewrite F3. set (cc := centroid d (map (centroid d) gs)) in *.
        apply (mapE_map _ (fun i => (fun g => Fin (dist2 (centroid d g) cc)) (nth i gs []))) in F2.
        - rewrite F2, K1, <- (map_map (fun i => nth i gs []) (fun g => Fin (dist2 (centroid d g) cc))), map_seq_nth, py_sum_map.
          rewrite f_of_nat_fin. pose proof (nclus_pos gs Hk) as P. unfold nclus in *. apply fdiv_fin. lra.
        - intros i y Hi Hy. apply in_seq in Hi. cbv beta in Hy. unfold row in Hy.
          destruct (get_item (mrows (v o')) i) as [vi|] eqn:Ei; [|discriminate]. cbn [bindE] in Hy.
          apply (get_item_inv _ _ (fin (centroid d []))) in Ei. rewrite K4 in Ei. cbn [mrows] in Ei.
          rewrite (map_nth (fun g => fin (centroid d g))) in Ei.
          rewrite EV, Ei in Hy. unfold vsub, bc in Hy. rewrite !fin_length in Hy. unfold cc in Hy. rewrite !centroid_length, Nat.eqb_refl in Hy.
          cbn [bindE] in Hy. unfold NumPy.inner in Hy. rewrite Nat.eqb_refl in Hy. injection Hy as <-. apply dot_sub_fin. }
      split; [exact EV|]. split; [exact EB|]. rewrite F4, K1, EB, K3, (fr_D _ _ FR).
      assert (Hm : 0 < rmax (map (fun g : list point => INR (length g)) gs)).
      { destruct (some_g d gs Hg Hk) as [g Hin]. eapply Rlt_le_trans; [apply (len_pos d gs Hg g Hin)|].
        apply rmax_ge. apply (in_map (fun g : list point => INR (length g))), Hin. }
      rewrite <- (selects_seq (fun g r => xsub (Fin (INR (length g) / rmax (map (fun g : list point => INR (length g)) gs)))
                    (xexp (xdiv (Fin (- rmin (map (cdist d g) r))) (Fin (PS_beta d gs))))) gs []).
      apply map_ext_in. intros i Hi. apply in_seq in Hi.
      rewrite (min_row d gs o) by (auto; lia). rewrite !f_of_nat_fin, rmax_INR, map_map.
      cbn [fsub fdiv fexp fneg XR xneg]. f_equal.
      rewrite nth_indep with (d' := length (@nil point)) by (rewrite map_length; lia).
      rewrite map_nth. apply xdiv_fin. lra.
    - intros i j Hi Hj. rewrite (fr_D _ _ FR). now apply ST.
    - rewrite (fr_S2 _ _ FR), ST in HF. rewrite K1 in HF.
      replace (1 <? length gs)%nat with true in HF by (symmetry; now apply Nat.ltb_lt).
      destruct (np_any _) eqn:Ea; cbn [andb] in HF; destruct HF as [HF _]; rewrite HF.
      + destruct (Req_EM_T (tss d gs) 0) as [Et|Et].
        { exfalso. apply not_false_iff_true in Ea. apply Ea.
          apply (np_any_tab gs Hk (length gs) (fun a b => mdist d (nth b gs []) (nth a gs []))).
          intros a b Ha Hb. apply (proj1 (tss_zero d gs Hg Hk) Et); now apply nth_In. }
        rewrite <- (selects_seq (fun g r => xdiv (Fin (rmin (map (mdist d g) r) - mdist d g g))
                     (Fin (Rmax (mdist d g g) (rmin (map (mdist d g) r))))) gs []).
        apply map_ext_in. intros i Hi. apply in_seq in Hi. rewrite entry_tab2 by lia.
        assert (Ec : vmin (remove_nth i (col (tab2 (A := XR) (length gs) (length gs)
                       (fun a b => Fin (mdist d (nth b gs []) (nth a gs [])))) i)) =
                     Fin (rmin (map (mdist d (nth i gs [])) (remove_nth i gs)))).
        { rewrite <- vmin_fin. f_equal. unfold col, tab2. cbn [mrows]. rewrite map_map.
          rewrite (map_ext_in _ (fun a => Fin (mdist d (nth i gs []) (nth a gs [])))).
          - rewrite <- (map_map (fun a => nth a gs []) (fun h => Fin (mdist d (nth i gs []) h))), map_seq_nth.
            rewrite remove_nth_map. unfold fin. now rewrite map_map.
          - intros a Ha. now rewrite nth_map_seq by lia. }
        rewrite Ec. change (@fmaximum XR) with xmax. cbv zeta. rewrite xmax_fin. reflexivity.
      + destruct (Req_EM_T (tss d gs) 0) as [Et|Et]; [reflexivity|]. exfalso. apply Et, (tss_zero d gs Hg Hk).
        intros g h Hg' Hh. apply (In_nth _ _ []) in Hg' as (b & Hb & <-). apply (In_nth _ _ []) in Hh as (a & Ha & <-).
        apply (proj1 (np_any_tab gs Hk (length gs) (fun a b => mdist d (nth b gs []) (nth a gs []))) Ea); auto.
  Qed.
End P.

(** ** Streams *)
Lemma inc_data c d s x l a : c <> kcSIL -> (c = krCIP -> d <> 0%nat) -> wf d (s ++ [(x, l)]) -> Inv c d s a ->
  exists a1, param_inc c (fin x) (index l (firsts s)) a = (a1, Ok tt) /\ Shape c d a1 /\
    Data c d (groups (s ++ [(x, l)])) a1.
Proof.
  intros Hc Hd Hw [HR Hs]. destruct (wf_app _ _ _ Hw) as [Hw1 Hw2].
  assert (Hx : length x = d) by (inversion Hw2; auto).
  pose proof (good_groups d s Hw1) as Hg. pose proof (good_groups d _ Hw) as Hg'.
  assert (HE : exists a1, param_inc c (fin x) (index l (firsts s)) a = (a1, Ok tt) /\ Shape c d a1 /\
                 Rep c d (groups (s ++ [(x, l)])) a1 /\ SepOk c d (groups (s ++ [(x, l)])) a1).
  { destruct (in_dec Z.eq_dec l (firsts s)) as [Hin|Hin].
    - destruct (index_In _ _ Hin) as [Hi _]. rewrite <- groups_length in Hi.
      assert (HS : Shape c d a). { destruct Hs as [[-> ->]|[_ H]]; auto. destruct Hin. }
      rewrite (groups_old s x l Hin). change (upd _ _ (groups s)) with (join (index l (firsts s)) x (groups s)).
      destruct (kind_eq c krCIP) as [->|Hr].
      + destruct (rep_old_R d (groups s) a (index l (firsts s)) x) as (a1 & E & S1' & R1); auto.
        exists a1. repeat (split; auto).
      + destruct (rep_old c d (groups s) a (index l (firsts s)) x) as (a1 & E & S1' & R1 & R2); auto. eauto.
    - rewrite index_notIn by auto. rewrite groups_new by auto.
      replace (length (firsts s)) with (n_clusters a) by (destruct HR as [HR _]; rewrite (s0_k _ _ _ HR); apply groups_length).
      destruct (kind_eq c krCIP) as [->|Hr].
      + destruct (rep_new_R d (groups s) a x) as (a1 & E & S1' & R1); auto.
        { destruct Hs as [[-> ->]|[_ H]]; auto. }
        exists a1. repeat (split; auto).
      + destruct (rep_new c d (groups s) a x) as (a1 & E & S1' & R1 & R2); eauto.
        destruct Hs as [[_ H]|[_ H]]; auto. }
  destruct HE as (a1 & E1 & Sh & R1 & Sp). exists a1. split; auto. split; auto. now apply Rep_Data.
Qed.

Lemma stream_parts c d s : c <> kcSIL -> (c = krCIP -> d <> 0%nat) -> wf d s -> (2 <= length (distinct s))%nat ->
  let o := after c new_obj (stream (fin_data s)) in
  label_map o = lmap (firsts s) /\ Parts c d (groups s) (at_ o).
Proof.
  intros Hc Hd Hw Hl. destruct s as [|[x l] s] using rev_ind; [cbn in Hl; lia|]. clear IHs.
  assert (Hk : (1 < length (groups (s ++ [(x, l)])))%nat).
  { rewrite (Permutation_length (groups_clusters (s ++ [(x, l)]))). unfold clusters. rewrite map_length. lia. }
  destruct (inc_values c d s Hc Hd (proj1 (wf_app _ _ _ Hw))) as (a & Er & HI).
  destruct (inc_data c d s x l a Hc Hd Hw HI) as (a1 & E1 & Sh & HD).
  destruct (ev_total c d a1 Sh) as (a2 & E2 & _ & FR).
  assert (Ea : after c new_obj (stream (fin_data (s ++ [(x, l)]))) = mkObj (lmap (firsts (s ++ [(x, l)]))) a2).
  { unfold after. rewrite fin_data_app, stream_app, run_app, Er. cbn [fst snd stream map run fin_data]. unfold get_cvi, update.
    cbn [label_map at_ fst snd]. rewrite lmap_get, E1. cbn [at_ label_map]. rewrite E2. cbn [fst snd].
    now rewrite firsts_snoc. }
  cbv zeta. rewrite Ea. cbn [label_map at_]. split; auto.
  apply (parts d _ (good_groups d _ Hw) Hk c a1 a2); auto.
  intros ->. destruct Sh as (_ & (_ & W & _)). rewrite <- (da_k _ _ _ _ HD). exact W.
Qed.

(** ** Batches *)
Lemma batch_parts c d k s : (c = krCIP -> d <> 0%nat) -> wf d s -> (2 <= k)%nat -> exact_labels s k ->
  Parts c d (map (cluster s) (zs k)) (at_ (after c new_obj [batch_of d (fin_data s)])).
Proof.
  intros Hd Hw Hk He. destruct (batch_param d k s Hw Hk He c Hd) as (o' & E & HD & o2 & E2 & E3 & FR).
  assert (Ea : after c new_obj [batch_of d (fin_data s)] = mkObj (label_map (new_obj (A := XR))) o2).
  { unfold after, batch_of. cbn [run fst]. unfold get_cvi, update. cbn [new_obj at_ label_map].
    change (is_setup init_attrs) with false. cbv iota. unfold unique_labels.
    change (map snd (fin_data s)) with (map snd (fin_data s)). rewrite (b_unique k s He).
    replace (1 <? k)%nat with true by (symmetry; apply Nat.ltb_lt; lia). cbn [negb].
    rewrite E. cbn [at_ label_map]. rewrite E2. reflexivity. }
  rewrite Ea. cbn [at_]. eapply (parts d _ (b_good d k s Hw He)); eauto.
  - unfold zs. rewrite !map_length, seq_length. lia.
  - intros ->. destruct (XB_batch _ _ (covers_le _ _ _ (b_le d s))) as (o'' & E' & _ & _ & _ & _ & C2).
    cbn [param_batch] in E. rewrite E in E'. injection E' as <-. rewrite C2. unfold nrows, tab2. cbn [mrows].
    rewrite map_length, seq_length, (b_unique k s He). unfold zs. now rewrite !map_length, seq_length.
Qed.
