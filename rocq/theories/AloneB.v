(** * Batches in which every sample has a label of its own.  For every arithmetic
    in which zeros behave as in [Zeros] and [Pluses]. *)
From Coq Require Import ZArith List Arith Bool Lia.
From Verif Require Import Num NumPy Base M_CH M_D M_PS GetCvi Lists Step Step2 StepB Hoare Eval Shapes Stream Generic RunForm BatchForm Alone.
Import ListNotations.

(** [P]: +0 or nan; [V]: what the data may be *)
Record Pluses (A : Arith) (Z N Q I P V : F A -> Prop) : Prop := mkPluses {
  p_Z a : P a -> Z a;
  p_0 : P f0;
  p_add a b : P a -> P b -> P (fadd a b);
  p_sq a : P a -> P (fsq a);
  p_div a k : P a -> P (fdiv a (f_of_nat k));
  p_mul2 a : P a -> P (fmul f2 a);
  p_min a b : P a -> P b -> P (fminimum a b);
  p_max a b : P a -> P b -> P (fmaximum a b);
  p_sum l : Forall P l -> P (np_sum l);
  p_N a b : P a -> P b -> N (fdiv a b);
  p_ch b w m : P w -> (0 < m)%Z -> N (fmul (fdiv b w) (fdiv f0 (f_of_Z m)));
  q_add0 a : Q a -> Q (fadd a f0);
  q_infP a b : Q a -> P b -> I (fdiv a b);
  p_self a : V a -> P (fsub a (fmul (sdiv (ssum [a]) (f_of_nat 1)) f1))
}.

Section AloneB.
  Context {A : Arith} (Z N Q I P V : F A -> Prop) (HZ : Zeros A Z N Q I) (HP : Pluses A Z N Q I P V).

  Lemma grp_alone {X} (s : list (X * BinInt.Z)) l : NoDup (map snd s) -> grp s l = [] \/ exists x, grp s l = [x] /\ In (x, l) s.
  Proof.
    unfold grp. induction s as [|[x k] s IH]; intros H; [now left|]. cbn [map snd] in H. inversion H as [|? ? H1 H2]; subst.
    cbn [filter snd]. destruct (Z.eqb_spec k l) as [->|Hk].
    - right. exists x. split; [|now left]. cbn [map fst]. f_equal.
      replace (filter (fun p : X * BinInt.Z => (snd p =? l)%Z) s) with (@nil (X * BinInt.Z)); auto. symmetry.
      clear IH H H2. induction s as [|[y k] s IH]; auto. cbn [filter snd].
      destruct (Z.eqb_spec k l) as [->|Hk]; [destruct H1; now left|]. apply IH. intros H. apply H1. now right.
    - destruct (IH H2) as [E|(y & E & Hy)]; [now left|right]. exists y. split; auto. now right.
  Qed.

  Lemma cp_alone d (s : list (vec A * BinInt.Z)) l : NoDup (map snd s) -> wf_stream d s -> Forall (fun p => Forall V (fst p)) s ->
    P (cp_rows d (grp s l)).
  Proof.
    intros Hn Hw Hv. unfold cp_rows, np_sumsq_all. apply (p_sum _ _ _ _ _ _ _ HP).
    destruct (grp_alone s l Hn) as [->|(x & -> & Hx)]; [constructor|].
    unfold wf_stream in Hw. rewrite Forall_forall in Hw, Hv. specialize (Hw _ Hx). specialize (Hv _ Hx). cbn [fst] in Hw, Hv.
    apply Forall_map. unfold sub_rows, mean_rows, smean0, col, nrows. cbn [mrows mcols map concat length]. rewrite app_nil_r.
    rewrite map_map. rewrite <- (map_seq_nth x f0) at 1. rewrite Hw. rewrite map2_same.
    apply Forall_map, Forall_forall. intros j Hj. apply in_seq in Hj.
    apply (p_sq _ _ _ _ _ _ _ HP), (p_self _ _ _ _ _ _ _ HP). rewrite Forall_forall in Hv. apply Hv, nth_In. lia.
  Qed.

  Lemma py_sum_P (l : vec A) : Forall P l -> P (py_sum l).
  Proof.
    intros H. unfold py_sum. assert (G : forall z, P z -> P (fold_left fadd l z)).
    { induction H as [|x l Hx Hl IH]; intros z Hz; simpl; auto. apply IH. now apply (p_add _ _ _ _ _ _ _ HP). }
    apply G, (p_0 _ _ _ _ _ _ _ HP).
  Qed.
  Lemma ratios_P (a : vec A) (b : list nat) : Forall P a -> Forall P (map2 fdiv a (map f_of_nat b)).
  Proof.
    intros H. revert b. induction H as [|x l Hx Hl IH]; intros [|k b]; simpl; constructor; auto. now apply (p_div _ _ _ _ _ _ _ HP).
  Qed.
  Lemma n_unique_alone (ls : list BinInt.Z) : NoDup ls -> n_unique ls = length ls.
  Proof.
    intros H. unfold n_unique. apply Nat.le_antisymm; apply NoDup_incl_length; auto; try apply NoDup_nodup; intros z; rewrite ?nodup_In; auto.
  Qed.

  Lemma batch_alone c d (s : list (vec A * BinInt.Z)) : six c -> wf_stream d s -> Forall (fun p => Forall V (fst p)) s ->
    NoDup (map snd s) -> 2 <= length s ->
    exists x, results c new_obj [batch_of d s] = [Ok x] /\ alone Z N I c x.
  Proof.
    intros Hc Hw Hv Hn Hl. unfold results, batch_of. cbn [run fst snd]. unfold get_cvi, update.
    cbn [at_ new_obj label_map init_attrs is_setup].
    set (m := mkMat d (map fst s)). set (ls := map snd s).
    assert (HU : n_unique ls = length s) by (unfold ls; rewrite n_unique_alone by auto; apply map_length).
    assert (EU : (1 <? unique_labels (Labs ls)) = true).
    { apply Nat.ltb_lt. cbn [unique_labels]. rewrite HU. lia. }
    rewrite EU. cbn [negb]. 
    assert (HC : covers m ls (n_unique ls)).
    { apply covers_le. unfold nrows, m, ls. cbn [mrows]. now rewrite !map_length. }
    assert (HN : nrows m = length s) by (unfold nrows, m; cbn [mrows]; apply map_length).
    set (k := n_unique ls) in *. assert (Hk : 1 < k) by lia.
    assert (PC : forall ix, P (b_CP m ls ix)).
    { intros ix. replace (b_CP m ls ix) with (cp_rows d (grp s (Z.of_nat ix))); [now apply cp_alone|].
      unfold b_CP, b_v, cp_rows, mean_rows, m, ls. now rewrite subset_is. }
    assert (FP : Forall P (map (b_CP m ls) (seq 0 k))) by (apply Forall_map, Forall_forall; intros; apply PC).
    assert (G : exists o', param_batch c m ls init_attrs = (o', Ok tt) /\ (exists x, evals c o' x /\ alone Z N I c x)).
    { assert (GD : forall o', n_clusters o' = k -> n o' = map (b_n m ls) (seq 0 k) -> CP o' = map (b_CP m ls) (seq 0 k) ->
        P (fmul f2 (vmax (map2 fdiv (CP o') (map f_of_nat (n o')))))).
      { intros o' K1 K2 K3. apply (p_mul2 _ _ _ _ _ _ _ HP), vmax_all; [apply (p_max _ _ _ _ _ _ _ HP)|apply (p_0 _ _ _ _ _ _ _ HP)|].
        rewrite K3. now apply ratios_P. }
      unfold six in Hc. repeat (destruct Hc as [<-|Hc]; [|]); [..|destruct Hc]; cbn [param_batch alone].
      - destruct (CH_batch m ls HC) as (o' & E & [B1 B2 B3 B4 B5 B6] & E1 & _). fold k in B4, B5, E1. exists o'. split; auto.
        exists (CH_val o'). split; [apply CH_eval; lia|]. unfold CH_val. rewrite B1, B4, E1, HN, <- HU, Z.sub_diag.
        apply (p_ch _ _ _ _ _ _ _ HP); [now apply py_sum_P|lia].
      - destruct (WB_batch m ls HC) as (o' & E & [B1 B2 B3 B4 B5 B6] & E1 & _). fold k in B4, B5, E1. exists o'. split; auto.
        exists (WB_val o'). split; [apply WB_eval; lia|]. unfold WB_val. rewrite E1.
        apply (z_mul _ _ _ _ _ HZ), (z_div _ _ _ _ _ HZ), (p_Z _ _ _ _ _ _ _ HP). now apply py_sum_P.
      - destruct (DB_batch m ls HC) as (o' & E & [B1 B2 B3 B4 B5 B6] & E1 & ES & _ & _ & _ & ED). fold k in B4, B5, E1, ES, ED.
        exists o'. split; auto. exists (DB_val o'). split.
        { apply DB_eval; rewrite ?B4; auto; [rewrite ED; apply wfm_tab2|rewrite ES, map_length, seq_length; auto]. }
        unfold DB_val. apply (z_div _ _ _ _ _ HZ), (z_sum _ _ _ _ _ HZ).
        assert (PS1 : forall i, P (nth i (S1 o') f0)).
        { intros i. destruct (Nat.lt_ge_cases i k) as [Hi|Hi].
          - rewrite ES, nth_map_seq by auto. apply (p_div _ _ _ _ _ _ _ HP), PC.
          - rewrite nth_overflow; [apply (p_0 _ _ _ _ _ _ _ HP)|]. now rewrite ES, map_length, seq_length. }
        assert (HL : forall i j, Z (DB_low o' j i)).
        { intros i j. unfold DB_low. destruct (i <? j); [|apply (z_0 _ _ _ _ _ HZ)].
          apply (z_div _ _ _ _ _ HZ), (p_Z _ _ _ _ _ _ _ HP), (p_add _ _ _ _ _ _ _ HP); auto. }
        apply Forall_map, Forall_forall. intros j _.
        apply vmax_all; [apply (z_max _ _ _ _ _ HZ)|apply (z_0 _ _ _ _ _ HZ)|].
        apply Forall_map, Forall_forall. intros i _. apply (z_add _ _ _ _ _ HZ); auto.
      - destruct (XB_batch m ls HC) as (o' & E & [B1 B2 B3 B4 B5 B6] & E1 & _ & _ & ED). fold k in B4, B5, E1, ED. exists o'. split; auto.
        exists (XB_val o'). split; [apply XB_eval; rewrite ?B4; auto; rewrite ED; apply wfm_tab2|]. unfold XB_val. rewrite E1.
        apply (z_div _ _ _ _ _ HZ), (p_Z _ _ _ _ _ _ _ HP). now apply py_sum_P.
      - destruct (GD43_batch m ls HC) as (o' & E & [B1 B2 B3 B4 B5 B6] & E1 & _ & _ & _ & ED). fold k in B4, B5, E1, ED. exists o'. split; auto.
        exists (GD_val o'). split.
        { apply GD43_eval; rewrite ?B4; auto; [rewrite ED; apply wfm_tab2|rewrite E1|rewrite B5]; now rewrite map_length, seq_length. }
        unfold GD_val. apply (q_infP _ _ _ _ _ _ _ HP); auto. rewrite B4, ED.
        apply vmin_all; [apply (q_min _ _ _ _ _ HZ)|now apply triu_ne|].
        apply triu_all. intros i j Hi Hj. unfold D_sym. rewrite entry_tab2 by lia.
        destruct (Nat.ltb_spec i j); [|lia]. destruct (Nat.ltb_spec j i); [lia|].
        apply (q_add0 _ _ _ _ _ _ _ HP), (q_sqrt _ _ _ _ _ HZ).
      - destruct (GD53_batch m ls HC) as (o' & E & [B1 B2 B3 B4 B5 B6] & E1 & _ & _ & _ & ED). fold k in B4, B5, E1, ED. exists o'. split; auto.
        exists (GD_val o'). split.
        { apply GD53_eval; rewrite ?B4; auto; [rewrite ED; apply wfm_tab2|rewrite E1|rewrite B5]; now rewrite map_length, seq_length. }
        unfold GD_val. apply (p_N _ _ _ _ _ _ _ HP); auto. rewrite B4, ED.
        apply vmin_all; [apply (p_min _ _ _ _ _ _ _ HP)|now apply triu_ne|].
        apply triu_all. intros i j Hi Hj. unfold D_sym. rewrite entry_tab2 by lia.
        destruct (Nat.ltb_spec i j); [|lia]. destruct (Nat.ltb_spec j i); [lia|].
        apply (p_add _ _ _ _ _ _ _ HP); [|apply (p_0 _ _ _ _ _ _ _ HP)].
        unfold b_gd53. apply (p_div _ _ _ _ _ _ _ HP), (p_add _ _ _ _ _ _ _ HP); auto. }
    destruct G as (o' & E & x & (o2 & E2 & Ex & _) & Hx). fold m ls. rewrite E. cbn [at_]. rewrite E2. cbn [fst snd].
    exists x. split; auto. now rewrite Ex.
  Qed.
End AloneB.
