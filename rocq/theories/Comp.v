(** * The attributes an evaluation leaves behind.  For every arithmetic and
    every state of the object. *)
From Coq Require Import ZArith List Arith Bool Lia.
From Verif Require Import Num NumPy Base M_CH M_D M_PS GetCvi Lists Step Step2 StepB Hoare Eval.
From Verif Require Import CompSpec.
Import ListNotations.

Section Comp.
  Context {A : Arith}.

  Lemma mapE_inv {X Y} (f : X -> E Y) l ys : mapE f l = Ok ys -> Forall2 (fun x y => f x = Ok y) l ys.
  Proof.
    revert ys; induction l as [|x l IH]; intros ys H; cbn [mapE] in H.
    - injection H as <-. constructor.
    - destruct (f x) as [y|e] eqn:E; cbn [bindE] in H; [|discriminate].
      destruct (mapE f l) as [ys'|e]; cbn [bindE] in H; [|discriminate]. injection H as <-. constructor; auto.
  Qed.
  Lemma mapE_map {X Y} (f : X -> E Y) (g : X -> Y) l ys : mapE f l = Ok ys ->
    (forall x y, In x l -> f x = Ok y -> y = g x) -> ys = map g l.
  Proof.
    intros H Hg. apply mapE_inv in H. induction H as [|x y l ys E _ IH]; auto. cbn [map]. f_equal.
    - apply Hg; auto. now left.
    - apply IH. intros. apply Hg; auto. now right.
  Qed.
  Lemma get_item_inv {X} (l : list X) i z x : get_item l i = Ok x -> x = nth i l z.
  Proof.
    unfold get_item. destruct (nth_error l i) eqn:E; [|discriminate]. intros H. injection H as <-.
    symmetry. now apply nth_error_nth.
  Qed.
  Lemma get2_inv (m : mat A) i j x : get2 m i j = Ok x -> x = entry m i j.
  Proof. unfold get2. destruct (_ && _); [|discriminate]. congruence. Qed.
  Lemma get_col_inv (m : mat A) j x : get_col m j = Ok x -> x = col m j.
  Proof. unfold get_col. destruct (_ <? _); [|discriminate]. congruence. Qed.
  Lemma np_delete_inv {X} (l : list X) i x : np_delete l i = Ok x -> x = remove_nth i l.
  Proof. unfold np_delete. destruct (_ <? _); [|discriminate]. congruence. Qed.
  Lemma np_min_inv (l : vec A) x : np_min l = Ok x -> x = vmin l.
  Proof. destruct l; [discriminate|]. cbn. congruence. Qed.

  Lemma np_max_inv (l : vec A) x : np_max l = Ok x -> x = vmax l.
  Proof. destruct l; [discriminate|]. cbn. congruence. Qed.

  Ltac inv1 H := match type of H with
    | context [match ?e with Ok _ => _ | Err _ => _ end] =>
        let y := fresh "y" in let E := fresh "E" in destruct e as [y|y] eqn:E; [|discriminate H]
    end.

  Lemma evaluate_fits c (o o' : attrs A) : evaluate c o = (o', Ok tt) -> Fits c o' (criterion_value o').
  Proof.
    destruct c; cbn [evaluate]; intros H.
    - unfold CH_evaluate, bind, get, modify in H. unfold Fits.
      destruct (1 <? n_clusters o) eqn:Ek; injection H as <-; cbn -[Nat.ltb andb seq]; rewrite Ek; auto.
    - unfold WB_evaluate, bind, get, modify in H. unfold Fits.
      destruct (1 <? n_clusters o) eqn:Ek; injection H as <-; cbn -[Nat.ltb andb seq]; rewrite Ek; auto.
    - unfold DB_evaluate, bind, get, modify, lift in H. cbv zeta in H. unfold Fits. cbv zeta.
      destruct (1 <? n_clusters o) eqn:Ek; [|injection H as <-; cbn -[Nat.ltb andb seq]; rewrite Ek; auto].
      inv1 H. rename y into rows, E into Er.
      apply (mapE_map _ (fun jx => map (fun ix => if ix <? jx then DB_ratio o ix jx else f0) (seq 0 (n_clusters o)))) in Er.
      2:{ intros jx y _ Hy. apply (mapE_map _ _ _ _ Hy). intros ix z _ Hz. destruct (ix <? jx); [|congruence].
          destruct (get_item (S1 o) ix) eqn:E1; [|discriminate]. cbn [bindE] in Hz.
          destruct (get_item (S1 o) jx) eqn:E2; [|discriminate]. cbn [bindE] in Hz.
          destruct (get2 (D o) jx ix) eqn:E3; [|discriminate]. cbn [bindE] in Hz. injection Hz as <-.
          unfold DB_ratio. now rewrite (get_item_inv _ _ f0 _ E1), (get_item_inv _ _ f0 _ E2), (get2_inv _ _ _ _ E3). }
      set (k := n_clusters o) in *.
      assert (ER : tab2 k k (fun i j => fadd (entry (mkMat k rows) i j) (entry (transpose (mkMat k rows)) i j)) =
                   tab2 k k (fun i j => fadd (if j <? i then DB_ratio o j i else f0) (if i <? j then DB_ratio o i j else f0))).
      { subst rows. change (mkMat k _) with (tab2 (A := A) k k (fun jx ix => if ix <? jx then DB_ratio o ix jx else f0)).
        apply tab2_ext. intros i j Hi Hj. rewrite (entry_transpose k k) by (auto using wfm_tab2).
        now rewrite !entry_tab2 by auto. }
      inv1 H. injection H as <-. cbn -[Nat.ltb andb seq tab2 mapE]. fold k. rewrite Ek. split; [exact ER|]. eauto.
    - unfold XB_evaluate, bind, get, modify, lift in H. cbv zeta in H. unfold Fits. cbv zeta.
      destruct (1 <? n_clusters o) eqn:Ek; [|injection H as <-; cbn -[Nat.ltb andb seq]; rewrite Ek; auto].
      inv1 H. inv1 H. injection H as <-. cbn -[Nat.ltb andb seq mapE]. rewrite Ek. eexists _, _. eauto 10.
    - unfold GD43_evaluate, bind, get, modify, lift in H. cbv zeta in H. unfold Fits. cbv zeta.
      destruct (1 <? n_clusters o) eqn:Ek; [|injection H as <-; cbn -[Nat.ltb andb seq]; rewrite Ek; auto].
      inv1 H. inv1 H. inv1 H. inv1 H. injection H as <-. cbn -[Nat.ltb andb seq mapE]. rewrite Ek. split; [eexists _, _; eauto|]. split; eauto.
    - unfold GD53_evaluate, bind, get, modify, lift in H. cbv zeta in H. unfold Fits. cbv zeta.
      destruct (1 <? n_clusters o) eqn:Ek; [|injection H as <-; cbn -[Nat.ltb andb seq]; rewrite Ek; auto].
      inv1 H. inv1 H. inv1 H. inv1 H. injection H as <-. cbn -[Nat.ltb andb seq mapE]. rewrite Ek. split; [eexists _, _; eauto|]. split; eauto.
    - unfold PS_evaluate, bind, get, modify, lift in H. cbv zeta in H. unfold Fits. cbv zeta.
      destruct (1 <? n_clusters o) eqn:Ek; [|injection H as <-; cbn -[Nat.ltb andb seq]; rewrite Ek; auto].
      inv1 H. inv1 H. injection H as <-. cbn -[Nat.ltb andb seq mapE]. rewrite Ek. split; [reflexivity|]. split; [eauto|]. split; [|reflexivity].
      eapply mapE_map; [exact E0|]. clear E E0. intros i w _ Hy. cbv beta in Hy. unfold row in Hy.
      destruct (get_item (mrows (D o)) i) as [l|] eqn:E1; [|discriminate]. cbn [bindE] in Hy.
      destruct (np_delete l i) as [l0|] eqn:E2; [|discriminate]. cbn [bindE] in Hy.
      destruct (get_item (n o) i) eqn:E3; [|discriminate]. cbn [bindE] in Hy.
      destruct (list_max (n o) =? 0); [discriminate|].
      destruct (np_min l0) eqn:E4; [|discriminate]. cbn [bindE] in Hy. injection Hy as <-.
      now rewrite (np_min_inv _ _ E4), (np_delete_inv _ _ _ E2), (get_item_inv _ _ [] _ E1), (get_item_inv _ _ 0 _ E3).
    - unfold rCIP_evaluate, bind, get, modify, lift in H. unfold Fits.
      destruct (1 <? nrows (D o)) eqn:Ek; [|injection H as <-; cbn -[Nat.ltb andb seq]; rewrite Ek; auto].
      inv1 H. injection H as <-. cbn -[Nat.ltb andb seq mapE]. rewrite Ek. eauto.
    - unfold cSIL_evaluate, bind, get, modify, lift in H. cbv zeta in H. unfold Fits. cbv zeta.
      destruct ((1 <? n_clusters o) && np_any (S2 o)) eqn:Ek; [|injection H as <-; cbn -[Nat.ltb andb seq]; rewrite Ek; auto].
      inv1 H. injection H as <-. cbn -[Nat.ltb andb seq mapE]. rewrite Ek. split; [|reflexivity].
      eapply mapE_map; [exact E|]. clear E. intros i w _ Hy. cbv beta in Hy.
      destruct (get2 (S2 o) i i) eqn:E1; [|discriminate]. cbn [bindE] in Hy.
      destruct (get_col (S2 o) i) as [l|] eqn:E2; [|discriminate]. cbn [bindE] in Hy.
      destruct (np_delete l i) as [l0|] eqn:E3; [|discriminate]. cbn [bindE] in Hy.
      destruct (np_min l0) eqn:E4; [|discriminate]. cbn [bindE] in Hy. injection Hy as <-.
      now rewrite (np_min_inv _ _ E4), (np_delete_inv _ _ _ E3), (get_col_inv _ _ _ E2), (get2_inv _ _ _ _ E1).
  Qed.

  Lemma get_cvi_fits c (o o' : obj A) dat lab x : get_cvi c o dat lab = (o', Ok x) -> Fits c (at_ o') x.
  Proof.
    unfold get_cvi. destruct (update c o dat lab) as [o1 [u|e]]; [|discriminate].
    destruct (evaluate c (at_ o1)) as [a2 [[]|e]] eqn:E; [|discriminate].
    intros H. injection H as <- <-. cbn [at_]. now apply evaluate_fits in E.
  Qed.
End Comp.
