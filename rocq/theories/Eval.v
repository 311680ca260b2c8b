(** * Evaluation on well-shaped objects as closed expressions.  For every arithmetic. *)
From Coq Require Import ZArith List Arith Bool Lia.
From Verif Require Import Num NumPy Base M_CH M_D M_PS GetCvi Lists Step Step2 StepB Hoare.
Import ListNotations.

Section Eval.
  Context {A : Arith}.

  (** np.min and np.max of non-empty arrays *)
  Definition vmin (l : vec A) : F A := match l with [] => f0 | x :: l' => fold_left fminimum l' x end.
  Definition vmax (l : vec A) : F A := match l with [] => f0 | x :: l' => fold_left fmaximum l' x end.
  Lemma np_min_ok (l : vec A) : l <> [] -> np_min l = Ok (vmin l).
  Proof. destruct l; [congruence|reflexivity]. Qed.
  Lemma np_max_ok (l : vec A) : l <> [] -> np_max l = Ok (vmax l).
  Proof. destruct l; [congruence|reflexivity]. Qed.

  (** entries above the diagonal of a k x k array *)
  Definition triu (k : nat) (e : nat -> nat -> F A) : vec A :=
    flat_map (fun i => map (e i) (seq (S i) (k - S i))) (seq 0 k).
  Lemma triu_ne k e : 1 < k -> triu k e <> [].
  Proof. destruct k as [|[|k]]; [lia|lia|]. discriminate. Qed.
  Lemma triu_ext k e e' : (forall i j, i < j -> j < k -> e i j = e' i j) -> triu k e = triu k e'.
  Proof.
    intros H. unfold triu. rewrite !flat_map_concat_map. f_equal. apply map_ext_in. intros i Hi.
    apply in_seq in Hi. apply map_ext_in. intros j Hj. apply in_seq in Hj. apply H; lia.
  Qed.
  Lemma triu_mask_ok k (m : mat A) : wfm k k m -> triu_mask_values k m = Ok (triu k (entry m)).
  Proof.
    intros (H1 & H2 & _). unfold triu_mask_values, triu_values, nrows. now rewrite H1, H2, Nat.eqb_refl.
  Qed.
  Lemma triu_indices_ok k (m : mat A) : wfm k k m -> triu_indices_values m = Ok (triu k (entry m)).
  Proof.
    intros (H1 & H2 & _). unfold triu_indices_values, nrows. rewrite H1, H2, Nat.ltb_irrefl. reflexivity.
  Qed.

  Definition CH_val (o : attrs A) : F A :=
    fmul (fdiv (py_sum (SEP o)) (py_sum (CP o)))
         (fdiv (f_of_Z (Z.of_nat (n_samples o) - Z.of_nat (n_clusters o)))
               (f_of_Z (Z.of_nat (n_clusters o) - 1))).
  Definition WB_val (o : attrs A) : F A :=
    fmul (fdiv (py_sum (CP o)) (py_sum (SEP o))) (f_of_nat (n_clusters o)).
  Definition DB_low (o : attrs A) (j i : nat) : F A :=
    if i <? j then fdiv (fadd (nth i (S1 o) f0) (nth j (S1 o) f0)) (entry (D o) j i) else f0.
  Definition DB_val (o : attrs A) : F A :=
    let k := n_clusters o in
    fdiv (np_sum (map (fun j => vmax (map (fun i => fadd (DB_low o i j) (DB_low o j i)) (seq 0 k))) (seq 0 k)))
         (f_of_nat k).
  Definition XB_val (o : attrs A) : F A :=
    fdiv (py_sum (CP o)) (fmul (f_of_nat (n_samples o)) (vmin (triu (n_clusters o) (entry (D o))))).
  Definition GD_val (o : attrs A) : F A :=
    fdiv (vmin (triu (n_clusters o) (entry (D o)))) (fmul f2 (vmax (map2 fdiv (CP o) (map f_of_nat (n o))))).
  Definition PS_bt (o : attrs A) : F A :=
    let vb := mean0 (v o) in
    fdiv (py_sum (map (fun i => np_dot (map2 fsub (vrow o i) vb) (map2 fsub (vrow o i) vb)) (seq 0 (n_clusters o))))
         (f_of_nat (n_clusters o)).
  Definition PS_val (o : attrs A) : F A :=
    np_sum (map (fun i =>
      fsub (fdiv (f_of_nat (nn o i)) (f_of_nat (list_max (n o))))
           (fexp (fdiv (fneg (vmin (remove_nth i (nth i (mrows (D o)) [])))) (PS_bt o))))
      (seq 0 (n_clusters o))).
  Definition rCIP_val (o : attrs A) : F A := np_sum (triu (n_clusters o) (entry (D o))).
  Definition cSIL_val (o : attrs A) : F A :=
    let k := n_clusters o in
    if np_any (S2 o) then
      fdiv (np_sum (map (fun i =>
              let a := entry (S2 o) i i in
              let b := vmin (remove_nth i (col (S2 o) i)) in
              fdiv (fsub b a) (fmaximum a b)) (seq 0 k))) (f_of_nat k)
    else f0.

  (** the evaluation succeeds, gives [x] and leaves the rest alone *)
  Definition evals (c : kind) (o : attrs A) (x : F A) : Prop :=
    exists o', evaluate c o = (o', Ok tt) /\ criterion_value o' = x /\ Frame o o'.

  Lemma evals_intro c o o' x : evaluate c o = (o', Ok tt) -> criterion_value o' = x -> evals c o x.
  Proof.
    intros H Hx. exists o'. repeat split; auto; pose proof (ev_all c o) as H';
      unfold post in H'; rewrite H in H'; simpl in H'; apply H'.
  Qed.

  Lemma CH_eval o : 1 < n_clusters o -> evals kCH o (CH_val o).
  Proof.
    intros H. apply Nat.ltb_lt in H. eapply evals_intro; cbn [evaluate]; unfold CH_evaluate; sx; [rewrite H; sx; reflexivity|].
    reflexivity.
  Qed.
  Lemma WB_eval o : 1 < n_clusters o -> evals kWB o (WB_val o).
  Proof.
    intros H. apply Nat.ltb_lt in H. eapply evals_intro; cbn [evaluate]; unfold WB_evaluate; sx; [rewrite H; sx; reflexivity|].
    reflexivity.
  Qed.

  Lemma DB_eval o : 1 < n_clusters o -> wfm (n_clusters o) (n_clusters o) (D o) ->
    length (S1 o) = n_clusters o -> evals kDB o (DB_val o).
  Proof.
    intros H HD HS. pose proof H as H'. apply Nat.ltb_lt in H'. set (k := n_clusters o) in *.
    set (rows := map (fun j => map (DB_low o j) (seq 0 k)) (seq 0 k)).
    assert (Er : mapE (fun jx => mapE (fun ix =>
                   if ix <? jx then
                     let* S_i := get_item (S1 o) ix in
                     let* S_j := get_item (S1 o) jx in
                     let* d := get2 (D o) jx ix in
                     Ok (fdiv (fadd S_i S_j) d)
                   else Ok f0) (seq 0 k)) (seq 0 k) = Ok rows).
    { apply mapE_ok. intros j Hj. apply in_seq in Hj. apply mapE_ok. intros i Hi. apply in_seq in Hi.
      unfold DB_low. destruct (Nat.ltb_spec i j); auto.
      rewrite (get_item_ok _ _ f0) by lia. cbn [bindE].
      rewrite (get_item_ok _ _ f0) by lia. cbn [bindE].
      rewrite (get2_ok k k) by (auto; lia). reflexivity. }
    assert (HT : wfm k k (mkMat k rows)) by apply (wfm_tab2 k k (DB_low o)).
    set (R_new := tab2 k k (fun i j => fadd (entry (mkMat k rows) i j) (entry (transpose (mkMat k rows)) i j))).
    assert (Ec : forall j, j < k -> col R_new j = map (fun i => fadd (DB_low o i j) (DB_low o j i)) (seq 0 k)).
    { intros j Hj. unfold col, R_new, tab2. cbn [mrows]. rewrite map_map. apply map_ext_in.
      intros i Hi. apply in_seq in Hi. rewrite nth_map_seq by auto.
      rewrite (entry_transpose k k) by (auto; lia).
      change (mkMat k rows) with (tab2 k k (DB_low o)). rewrite !entry_tab2 by lia. reflexivity. }
    assert (Em : mapE (fun j => np_max (col R_new j)) (seq 0 k) =
                 Ok (map (fun j => vmax (map (fun i => fadd (DB_low o i j) (DB_low o j i)) (seq 0 k))) (seq 0 k))).
    { apply mapE_ok. intros j Hj. apply in_seq in Hj. rewrite Ec by lia. apply np_max_ok.
      destruct k; [lia|discriminate]. }
    eapply evals_intro; cbn [evaluate]; unfold DB_evaluate; sx.
    - fold k. rewrite H'. rewrite (bind_lift _ _ _ _ Er). sx. fold R_new.
      rewrite (bind_lift _ _ _ _ Em). reflexivity.
    - reflexivity.
  Qed.

  Lemma XB_eval o : 1 < n_clusters o -> wfm (n_clusters o) (n_clusters o) (D o) -> evals kXB o (XB_val o).
  Proof.
    intros H HD. pose proof H as H'. apply Nat.ltb_lt in H'.
    eapply evals_intro; cbn [evaluate]; unfold XB_evaluate; sx.
    - rewrite H'. sx. rewrite (bind_lift _ _ _ _ (triu_indices_ok _ _ HD)). sx.
      rewrite (bind_lift _ _ _ _ (np_min_ok _ (triu_ne _ _ H))). sx. reflexivity.
    - reflexivity.
  Qed.

  Lemma ratios_ne op k (a : vec A) (b : list nat) : 1 < k -> length a = k -> length b = k ->
    map2 op a (map f_of_nat b : vec A) <> [] :> vec A.
  Proof. destruct a, b; simpl; intros; try lia; discriminate. Qed.

  Lemma GD43_eval o : 1 < n_clusters o -> wfm (n_clusters o) (n_clusters o) (D o) ->
    length (CP o) = n_clusters o -> length (n o) = n_clusters o -> evals kGD43 o (GD_val o).
  Proof.
    intros H HD HC Hn. pose proof H as H'. apply Nat.ltb_lt in H'.
    assert (L : length (CP o) = length (map f_of_nat (n o) : vec A)) by (rewrite map_length; lia).
    eapply evals_intro; cbn [evaluate]; unfold GD43_evaluate; sx.
    - rewrite H'. sx. rewrite (bind_lift _ _ _ _ (bc_ok fdiv _ _ L)). sx.
      rewrite (bind_lift _ _ _ _ (np_max_ok _ (ratios_ne _ _ _ _ H HC Hn))). sx.
      rewrite (bind_lift _ _ _ _ (triu_mask_ok _ _ HD)). sx.
      rewrite (bind_lift _ _ _ _ (np_min_ok _ (triu_ne _ _ H))). sx. reflexivity.
    - reflexivity.
  Qed.
  Lemma GD53_eval o : 1 < n_clusters o -> wfm (n_clusters o) (n_clusters o) (D o) ->
    length (CP o) = n_clusters o -> length (n o) = n_clusters o -> evals kGD53 o (GD_val o).
  Proof.
    intros H HD HC Hn. pose proof H as H'. apply Nat.ltb_lt in H'.
    assert (L : length (CP o) = length (map f_of_nat (n o) : vec A)) by (rewrite map_length; lia).
    eapply evals_intro; cbn [evaluate]; unfold GD53_evaluate; sx.
    - rewrite H'. sx. rewrite (bind_lift _ _ _ _ (bc_ok fdiv _ _ L)). sx.
      rewrite (bind_lift _ _ _ _ (np_max_ok _ (ratios_ne _ _ _ _ H HC Hn))). sx.
      rewrite (bind_lift _ _ _ _ (triu_mask_ok _ _ HD)). sx.
      rewrite (bind_lift _ _ _ _ (np_min_ok _ (triu_ne _ _ H))). sx. reflexivity.
    - reflexivity.
  Qed.

  Lemma remove_nth_length {X} i (l : list X) : i < length l -> length (remove_nth i l) = length l - 1.
  Proof.
    intros H. unfold remove_nth. rewrite app_length, firstn_length, skipn_length. lia.
  Qed.
  Lemma np_delete_ok {X} (l : list X) i : i < length l -> np_delete l i = Ok (remove_nth i l).
  Proof. intros H. unfold np_delete. apply Nat.ltb_lt in H. now rewrite H. Qed.

  Lemma PS_eval d o : 1 < n_clusters o -> wfm (n_clusters o) (n_clusters o) (D o) -> wfm (n_clusters o) d (v o) ->
    length (n o) = n_clusters o -> list_max (n o) <> 0 -> evals kPS o (PS_val o).
  Proof.
    intros H HD Hv Hn Hm. pose proof H as H'. apply Nat.ltb_lt in H'. apply Nat.eqb_neq in Hm.
    eapply evals_intro; cbn [evaluate]; unfold PS_evaluate; sx.
    - rewrite H'. sx.
      rewrite (bind_lift _ (map (fun i => np_dot (map2 fsub (vrow o i) (mean0 (v o)))
                                                 (map2 fsub (vrow o i) (mean0 (v o)))) (seq 0 (n_clusters o)))).
      2:{ apply mapE_ok. intros i Hi. apply in_seq in Hi.
          rewrite (row_ok _ _ _ _ Hv) by lia. cbn [bindE].
          rewrite vsub_ok by (rewrite (wfm_row _ _ _ _ Hv) by lia; rewrite mean0_length; symmetry; apply Hv).
          cbn [bindE]. now rewrite inner_ok. }
      sx. rewrite (bind_lift _ (map (fun i =>
             fsub (fdiv (f_of_nat (nn o i)) (f_of_nat (list_max (n o))))
               (fexp (fdiv (fneg (vmin (remove_nth i (nth i (mrows (D o)) [])))) (PS_bt o))))
             (seq 0 (n_clusters o)))).
      2:{ apply mapE_ok. intros i Hi. apply in_seq in Hi.
          rewrite (row_ok _ _ _ _ HD) by lia. cbn [bindE].
          pose proof (wfm_row _ _ _ i HD ltac:(lia)) as L.
          rewrite np_delete_ok by lia. cbn [bindE].
          rewrite (get_item_ok _ _ 0) by lia. cbn [bindE]. rewrite Hm.
          rewrite np_min_ok. reflexivity.
          intros E. apply (f_equal (@length _)) in E. rewrite remove_nth_length in E by lia. simpl in E. lia. }
      sx. reflexivity.
    - reflexivity.
  Qed.

  Lemma rCIP_eval o : 1 < n_clusters o -> wfm (n_clusters o) (n_clusters o) (D o) -> evals krCIP o (rCIP_val o).
  Proof.
    intros H HD. pose proof H as H'. apply Nat.ltb_lt in H'.
    eapply evals_intro; cbn [evaluate]; unfold rCIP_evaluate; sx.
    - assert (E : nrows (D o) = n_clusters o) by apply HD. rewrite E, H'. sx.
      rewrite (bind_lift _ _ _ _ (triu_indices_ok _ _ HD)). reflexivity.
    - reflexivity.
  Qed.

  Lemma cSIL_eval o : 1 < n_clusters o -> wfm (n_clusters o) (n_clusters o) (S2 o) -> evals kcSIL o (cSIL_val o).
  Proof.
    intros H HS. pose proof H as H'. apply Nat.ltb_lt in H'. unfold cSIL_val.
    destruct (np_any (S2 o)) eqn:Ea.
    - eapply evals_intro; cbn [evaluate]; unfold cSIL_evaluate; sx.
      + rewrite H', Ea. cbn [andb]. sx.
        rewrite (bind_lift _ (map (fun i => fdiv (fsub (vmin (remove_nth i (col (S2 o) i))) (entry (S2 o) i i))
                 (fmaximum (entry (S2 o) i i) (vmin (remove_nth i (col (S2 o) i))))) (seq 0 (n_clusters o)))).
        2:{ apply mapE_ok. intros i Hi. apply in_seq in Hi.
            rewrite (get2_ok _ _ _ _ _ HS) by lia. cbn [bindE].
            unfold get_col. replace (mcols (S2 o)) with (n_clusters o) by (symmetry; apply HS).
            destruct (Nat.ltb_spec i (n_clusters o)); [|lia]. cbn [bindE].
            assert (L : length (col (S2 o) i) = n_clusters o) by (unfold col; rewrite map_length; apply HS).
            rewrite np_delete_ok by lia. cbn [bindE].
            rewrite np_min_ok. reflexivity.
            intros E. apply (f_equal (@length _)) in E. rewrite remove_nth_length in E by lia. simpl in E. lia. }
        sx. reflexivity.
      + reflexivity.
    - eapply evals_intro; cbn [evaluate]; unfold cSIL_evaluate; sx.
      + rewrite H', Ea. cbn [andb]. sx. reflexivity.
      + reflexivity.
  Qed.

  Lemma few_eval c o : few c o -> evals c o f0.
  Proof.
    intros H. destruct (ev_few c o H) as [H1 H2]. destruct (evaluate c o) as [o' r] eqn:E.
    simpl in *. subst r. now apply evals_intro with (o' := o').
  Qed.
End Eval.
