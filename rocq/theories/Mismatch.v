(** * Batches whose numbers of rows and labels differ, for every arithmetic. *)
From Coq Require Import ZArith List Arith Bool Lia.
From Verif Require Import Num NumPy Base M_CH M_D M_PS GetCvi Lists Step Step2 StepB Hoare.
Import ListNotations.

Section Mismatch.
  Context {A : Arith}.

  (** ** Fewer labels than rows: six classes only look at the labelled rows *)
  (** the first [q] rows *)
  Definition top (q : nat) (m : mat A) : mat A := mkMat (mcols m) (firstn q (mrows m)).

  (** two states that differ in _mu and _n_samples only *)
  Definition W (x : vec A) (y : nat) (o : attrs A) : attrs A := set_mu x (set_n_samples y o).
  Definition comm {X} (x : vec A) (y : nat) (f g : M A X) : Prop :=
    forall o, g (W x y o) = (W x y (fst (f o)), snd (f o)).

  Lemma comm_for {X} x y (l : list X) (f g : X -> M A unit) :
    (forall a, In a l -> comm x y (f a) (g a)) -> comm x y (for_ l f) (for_ l g).
  Proof.
    induction l as [|a l IH]; intros H o; cbn [for_].
    - reflexivity.
    - unfold bind. rewrite (H a (or_introl eq_refl) o).
      assert (IH' := IH (fun b Hb => H b (or_intror Hb))). clear IH.
      destruct (f a o) as [o1 [[]|e]]; cbn [fst snd]; [apply IH'|reflexivity].
  Qed.

  Lemma nth_firstn {X} i q (l : list X) z : i < q -> nth i (firstn q l) z = nth i l z.
  Proof. revert q l; induction i as [|i IH]; intros [|q] [|x l] H; try lia; auto. cbn [firstn nth]. apply IH. lia. Qed.

  Context (m : mat A) (ls : list Z).
  Hypothesis Hl : length ls <= nrows m.
  Let m' := top (length ls) m.
  Let k := n_unique ls.

  Lemma top_nth i : i < length ls -> nth i (mrows m') [] = nth i (mrows m) [].
  Proof.
    intros Hi. unfold m', top. cbn [mrows]. rewrite <- (firstn_skipn (length ls) (mrows m)) at 2.
    rewrite app_nth1; auto. rewrite firstn_length. unfold nrows in Hl. lia.
  Qed.
  Lemma top_nrows : nrows m' = length ls.
  Proof. unfold m', top, nrows in *. cbn [mrows]. rewrite firstn_length. lia. Qed.
  Lemma top_subset ix : subset m' ls ix = subset m ls ix.
  Proof.
    unfold subset. cbn [mcols]. f_equal. apply map_ext_in. intros i Hi. apply top_nth. eapply indices_lt, Hi.
  Qed.
  Lemma top_take ix : take_rows m' (indices_of ix ls) = take_rows m (indices_of ix ls).
  Proof.
    assert (C1 : covers m ls (S ix)) by (now apply covers_le).
    assert (C2 : covers m' ls (S ix)) by (apply covers_le; now rewrite top_nrows).
    rewrite (subset_ok m ls (S ix) ix), (subset_ok m' ls (S ix) ix) by (auto; lia). now rewrite top_subset.
  Qed.
  Lemma k_le : k <= length ls.
  Proof.
    unfold k, n_unique. apply NoDup_incl_length; [apply NoDup_nodup|]. intros z. apply nodup_In.
  Qed.

  Lemma body_DB x y ix : comm x y (DB_batch_body m ls ix) (DB_batch_body m' ls ix).
  Proof. intros o. unfold DB_batch_body. rewrite top_take. destruct (take_rows m (indices_of ix ls)) as [s|e]; reflexivity. Qed.
  Lemma body_GD43 x y ix : comm x y (GD43_batch_body m ls ix) (GD43_batch_body m' ls ix).
  Proof. intros o. unfold GD43_batch_body. rewrite top_take. destruct (take_rows m (indices_of ix ls)) as [s|e]; reflexivity. Qed.
  Lemma body_GD53 x y ix : comm x y (GD53_batch_body m ls ix) (GD53_batch_body m' ls ix).
  Proof. intros o. unfold GD53_batch_body. rewrite top_take. destruct (take_rows m (indices_of ix ls)) as [s|e]; reflexivity. Qed.
  Lemma body_PS x y ix : comm x y (PS_batch_body m ls ix) (PS_batch_body m' ls ix).
  Proof. intros o. unfold PS_batch_body. rewrite top_take. destruct (take_rows m (indices_of ix ls)) as [s|e]; reflexivity. Qed.
  Lemma body_rCIP x y ix : comm x y (rCIP_batch_body m ls ix) (rCIP_batch_body m' ls ix).
  Proof.
    intros o. unfold rCIP_batch_body. rewrite top_take. destruct (take_rows m (indices_of ix ls)) as [s|e]; [|reflexivity].
    rewrite !(bind_lift (Ok s) s _ _ eq_refl). sx. cbv zeta. sx.
    destruct (1 <? nrows s); [|reflexivity].
    change (delta_term (W x y o)) with (delta_term o).
    destruct (msub (gram s) _) as [s0|e]; [|reflexivity]. rewrite !(bind_lift (Ok s0) s0 _ _ eq_refl).
    destruct (madd _ (delta_term o)) as [s1|e]; reflexivity.
  Qed.
  Lemma body_cSIL x y ix : ix < k -> comm x y (cSIL_batch_body m ls ix) (cSIL_batch_body m' ls ix).
  Proof.
    intros Hi o. unfold cSIL_batch_body. rewrite top_take. pose proof k_le.
    replace (ix <? nrows m') with true by (symmetry; apply Nat.ltb_lt; rewrite top_nrows; lia).
    replace (ix <? nrows m) with true by (symmetry; apply Nat.ltb_lt; lia).
    destruct (take_rows m (indices_of ix ls)) as [s|e]; reflexivity.
  Qed.

  (** the classes that read neither _mu nor _n_samples *)
  Definition labelled_rows_only (c : kind) : Prop :=
    match c with kDB | kGD43 | kGD53 | kPS | krCIP | kcSIL => True | _ => False end.

  Definition same_up_to (r r' : attrs A * E unit) : Prop := exists x y, fst r' = W x y (fst r) /\ snd r' = snd r.
  Lemma comm_same x y (f g : M A unit) o o' : comm x y f g -> o' = W x y o -> same_up_to (f o) (g o').
  Proof. intros H ->. rewrite H. exists x, y. split; reflexivity. Qed.

  Lemma batch_same c : labelled_rows_only c ->
    same_up_to (param_batch c m ls init_attrs) (param_batch c m' ls init_attrs).
  Proof.
    assert (Hb : forall x y (f g : M A unit) (kk kk' : M A unit),
              comm x y f g -> comm x y kk kk' -> comm x y (f ;; kk) (g ;; kk')).
    { intros x y f g kk kk' H1 H2 o. unfold bind. rewrite H1. destruct (f o) as [o1 [[]|e]]; cbn [fst snd]; [apply H2|reflexivity]. }
    intros Hc. destruct c; destruct Hc; cbn [param_batch].
    - unfold DB_param_batch, base_setup_batch. sx. fold k.
      eapply (comm_same (smean0 m') (nrows m')); [|reflexivity]. apply Hb; [apply comm_for; intros; apply body_DB|].
      intros o. reflexivity.
    - unfold GD43_param_batch, base_setup_batch. sx. fold k.
      eapply (comm_same (smean0 m') (nrows m')); [|reflexivity]. apply Hb; [apply comm_for; intros; apply body_GD43|].
      intros o. reflexivity.
    - unfold GD53_param_batch, base_setup_batch. sx. fold k.
      eapply (comm_same (smean0 m') (nrows m')); [|reflexivity]. apply Hb; [apply comm_for; intros; apply body_GD53|].
      intros o. reflexivity.
    - unfold PS_param_batch, base_setup_batch. sx. fold k.
      eapply (comm_same (smean0 m') (nrows m')); [|reflexivity]. apply Hb; [apply comm_for; intros; apply body_PS|].
      intros o. reflexivity.
    - unfold rCIP_param_batch, base_setup_batch. sx. fold k. change (mcols m') with (mcols m).
      destruct (mcols m =? 0).
      { exists [], (nrows m'). split; reflexivity. }
      sx. eapply (comm_same [] (nrows m')); [|reflexivity]. apply Hb; [apply comm_for; intros; apply body_rCIP|].
      intros o. sx. change (rCIP_batch_term (W [] (nrows m') o)) with (rCIP_batch_term o).
      destruct (mapE _ (seq 0 k)) as [rows|e]; reflexivity.
    - unfold cSIL_param_batch, base_setup_batch. sx. fold k.
      eapply (comm_same [] (nrows m')); [|reflexivity]. apply Hb.
      { apply comm_for; intros a Ha. apply in_seq in Ha. apply body_cSIL. lia. }
      intros o. sx. unfold modify. cbn [fst snd]. apply (f_equal (fun S => (S, Ok tt))).
      change (set_S2 ?a (W ?x ?y ?o)) with (W x y (set_S2 a o)). do 2 f_equal. apply tab2_ext. intros jx ix _ _. do 2 f_equal.
      apply map_ext_in. intros i Hi. apply indices_lt in Hi. unfold cSIL_D_row, sub_rows.
      change (v (W [] (nrows m') o)) with (v o). unfold m', top. cbn [mrows].
      rewrite <- !firstn_map. now apply nth_firstn.
  Qed.

  Ltac wred := match goal with |- context [W ?x ?y ?o] =>
    try change (n_clusters (W x y o)) with (n_clusters o); try change (n (W x y o)) with (n o);
    try change (v (W x y o)) with (v o); try change (CP (W x y o)) with (CP o); try change (D (W x y o)) with (D o);
    try change (S1 (W x y o)) with (S1 o); try change (S2 (W x y o)) with (S2 o) end; cbv zeta.
  Lemma eval_comm c x y : labelled_rows_only c -> comm x y (evaluate c) (evaluate c).
  Proof.
    intros Hc o. destruct c; destruct Hc; cbn [evaluate].
    - unfold DB_evaluate. sx. wred. destruct (1 <? n_clusters o); [|reflexivity]. cbv zeta.
     
      match goal with |- context [lift ?e] => destruct e as [r|] end; [|reflexivity].
      rewrite !(bind_lift (Ok r) r _ _ eq_refl). sx.
      match goal with |- context [lift ?e] => destruct e as [r'|] end; reflexivity.
    - unfold GD43_evaluate. sx. wred. destruct (1 <? n_clusters o); [|reflexivity].
     
      do 2 (match goal with |- context [lift ?e] => destruct e as [?r|] end; [|reflexivity]; rewrite !(bind_lift (Ok _) _ _ _ eq_refl); sx).
      do 2 (match goal with |- context [lift ?e] => destruct e as [?r|] end; [|reflexivity]; rewrite !(bind_lift (Ok _) _ _ _ eq_refl); sx).
      reflexivity.
    - unfold GD53_evaluate. sx. wred. destruct (1 <? n_clusters o); [|reflexivity].
     
      do 2 (match goal with |- context [lift ?e] => destruct e as [?r|] end; [|reflexivity]; rewrite !(bind_lift (Ok _) _ _ _ eq_refl); sx).
      do 2 (match goal with |- context [lift ?e] => destruct e as [?r|] end; [|reflexivity]; rewrite !(bind_lift (Ok _) _ _ _ eq_refl); sx).
      reflexivity.
    - unfold PS_evaluate. sx. wred. destruct (1 <? n_clusters o); [|reflexivity]. cbv zeta. sx.
     
      do 2 (match goal with |- context [lift ?e] => destruct e as [?r|] end; [|reflexivity]; rewrite !(bind_lift (Ok _) _ _ _ eq_refl); sx).
      reflexivity.
    - unfold rCIP_evaluate. sx. wred. destruct (1 <? nrows (D o)); [|reflexivity].
      destruct (triu_indices_values (D o)) as [r|e]; reflexivity.
    - unfold cSIL_evaluate. sx. wred.
      destruct ((1 <? n_clusters o) && np_any (S2 o)); [|reflexivity].
      match goal with |- context [lift ?e] => destruct e as [r|] end; reflexivity.
  Qed.

  Theorem fewer_labels c : labelled_rows_only c ->
    snd (get_cvi c new_obj (Mat m) (Labs ls)) = snd (get_cvi c new_obj (Mat m') (Labs ls)).
  Proof.
    intros Hc. unfold get_cvi, update. cbn [new_obj at_ is_setup init_attrs label_map].
    destruct (1 <? unique_labels (Labs ls)); [|reflexivity]. cbn [negb].
    destruct (batch_same c Hc) as (x & y & E1 & E2).
    destruct (param_batch c m ls init_attrs) as [o1 r1]. destruct (param_batch c m' ls init_attrs) as [o2 r2].
    cbn [fst snd] in E1, E2. subst o2 r2. destruct r1 as [[]|e]; [|reflexivity]. cbn [at_].
    rewrite (eval_comm c x y Hc o1). destruct (evaluate c o1) as [o3 [[]|e]]; reflexivity.
  Qed.

  (** ** More labels than rows *)
End Mismatch.

Section More.
  Context {A : Arith}.
  Lemma take_rows_fails (m : mat A) idx i : In i idx -> nrows m <= i -> take_rows m idx = Err IndexError.
  Proof.
    intros Hi Hn. unfold take_rows. assert (E : mapE (row m) idx = Err IndexError); [|now rewrite E].
    induction idx as [|j idx IH]; [destruct Hi|]. cbn [mapE].
    destruct (row m j) as [r|e] eqn:E.
    - destruct Hi as [->|Hi].
      + exfalso. unfold row, get_item in E. apply nth_error_None in Hn. unfold nrows in Hn. now rewrite Hn in E.
      + cbn [bindE]. now rewrite IH.
    - unfold row, get_item in E. destruct (nth_error (mrows m) j); [discriminate|]. inversion E. reflexivity.
  Qed.
  Lemma for_fails {X} (l : list X) (body : X -> M A unit) a o : In a l -> (forall o, exists e, snd (body a o) = Err e) ->
    exists e, snd (for_ l body o) = Err e.
  Proof.
    revert o; induction l as [|b l IH]; intros o Hi H; [destruct Hi|]. cbn [for_]; unfold bind. destruct Hi as [->|Hi].
    - destruct (H o) as [e E]. destruct (body a o) as [o1 r]. cbn [snd] in E. subst r. now exists e.
    - destruct (body b o) as [o1 [[]|e]]; [now apply IH|now exists e].
  Qed.
  Lemma bind_fails {X Y} (f : M A X) (g : X -> M A Y) o : (exists e, snd (f o) = Err e) -> exists e, snd (bind f g o) = Err e.
  Proof. intros [e E]. unfold bind. destruct (f o) as [o1 r]. cbn [snd] in E. subst r. now exists e. Qed.

  (** an extra label among 0 .. k-1: the call raises *)
  Theorem extra_label_raises c (m : mat A) ls p ix : p < length ls -> nrows m <= p -> nth p ls 0%Z = Z.of_nat ix ->
    ix < n_unique ls -> exists e, snd (get_cvi c new_obj (Mat m) (Labs ls)) = Err e.
  Proof.
    intros Hp Hn Hx Hk. unfold get_cvi, update. cbn [new_obj at_ is_setup init_attrs label_map].
    destruct (1 <? unique_labels (Labs ls)); [|now exists ValueError]. cbn [negb].
    assert (Hi : In p (indices_of ix ls)).
    { unfold indices_of. apply filter_In. split; [apply in_seq; lia|]. now apply Z.eqb_eq. }
    pose proof (take_rows_fails m _ _ Hi Hn) as HF.
    assert (Hs : In ix (seq 0 (n_unique ls))) by (apply in_seq; lia).
    assert (HP : exists e, snd (param_batch c m ls init_attrs) = Err e).
    { destruct c; cbn [param_batch].
      - unfold CH_param_batch, base_setup_batch. sx. eapply for_fails; [exact Hs|]. intros o. exists IndexError. unfold CH_batch_body. now rewrite HF.
      - unfold WB_param_batch, base_setup_batch. sx. eapply for_fails; [exact Hs|]. intros o. exists IndexError. unfold WB_batch_body. now rewrite HF.
      - unfold DB_param_batch, base_setup_batch. sx. apply bind_fails. eapply for_fails; [exact Hs|]. intros o. exists IndexError. unfold DB_batch_body. now rewrite HF.
      - unfold XB_param_batch, base_setup_batch. sx. apply bind_fails. eapply for_fails; [exact Hs|]. intros o. exists IndexError. unfold XB_batch_body. now rewrite HF.
      - unfold GD43_param_batch, base_setup_batch. sx. apply bind_fails. eapply for_fails; [exact Hs|]. intros o. exists IndexError. unfold GD43_batch_body. now rewrite HF.
      - unfold GD53_param_batch, base_setup_batch. sx. apply bind_fails. eapply for_fails; [exact Hs|]. intros o. exists IndexError. unfold GD53_batch_body. now rewrite HF.
      - unfold PS_param_batch, base_setup_batch. sx. apply bind_fails. eapply for_fails; [exact Hs|]. intros o. exists IndexError. unfold PS_batch_body. now rewrite HF.
      - unfold rCIP_param_batch, base_setup_batch. sx. destruct (mcols m =? 0); [now exists ZeroDivisionError|]. sx.
        apply bind_fails. eapply for_fails; [exact Hs|]. intros o. exists IndexError. unfold rCIP_batch_body. now rewrite HF.
      - unfold cSIL_param_batch, base_setup_batch. sx. apply bind_fails. eapply for_fails; [exact Hs|]. intros o. exists IndexError. unfold cSIL_batch_body. now rewrite HF. }
    destruct HP as [e HP]. destruct (param_batch c m ls init_attrs) as [a r]. cbn [snd] in HP. subst r. now exists e.
  Qed.
  (** more clusters than rows: cSIL raises *)
  Theorem cSIL_raises (m : mat A) ls : nrows m < n_unique ls -> exists e, snd (get_cvi kcSIL new_obj (Mat m) (Labs ls)) = Err e.
  Proof.
    intros Hk. unfold get_cvi, update. cbn [new_obj at_ is_setup init_attrs label_map].
    destruct (1 <? unique_labels (Labs ls)); [|now exists ValueError]. cbn [negb param_batch].
    assert (HP : exists e, snd (cSIL_param_batch m ls init_attrs) = Err e).
    { unfold cSIL_param_batch, base_setup_batch. sx. apply bind_fails. apply (for_fails _ _ (nrows m)); [apply in_seq; lia|].
      intros o. unfold cSIL_batch_body. rewrite Nat.ltb_irrefl. destruct (take_rows m (indices_of (nrows m) ls)); [exists IndexError|exists e]; reflexivity. }
    destruct HP as [e HP]. destruct (cSIL_param_batch m ls init_attrs) as [a r]. cbn [snd] in HP. subst r. now exists e.
  Qed.
End More.
