(** * Batch values and signs: lemmas for every arithmetic with a predicate that
      sums, products, quotients, roots, minima and maxima preserve and squares have. *)
From Coq Require Import ZArith List Arith Bool Lia.
From Verif Require Import Num NumPy Base M_CH M_D M_PS GetCvi Lists Step Step2 StepB Hoare Eval Stream Shapes Generic Nan.
Import ListNotations.

Record Signed {A : Arith} (pos : F A -> Prop) : Prop := mkSigned {
  sg_Z : forall z, (0 <= z)%Z -> pos (f_of_Z z);
  sg_sq : forall x, pos (fmul x x);
  sg_add : forall x y, pos x -> pos y -> pos (fadd x y);
  sg_mul : forall x y, pos x -> pos y -> pos (fmul x y);
  sg_div : forall x y, pos x -> pos y -> pos (fdiv x y);
  sg_sqrt : forall x, pos x -> pos (fsqrt x);
  sg_min : forall x y, pos x -> pos y -> pos (fminimum x y);
  sg_max : forall x y, pos x -> pos y -> pos (fmaximum x y);
  sg_sum : forall l, Forall pos l -> pos (np_sum l)
}.

Section Sign.
  Context {A : Arith} (pos : F A -> Prop) (HP : Signed pos).

  Lemma pos_nat k : pos (f_of_nat k).
  Proof. apply HP. lia. Qed.
  Lemma pos_0 : pos f0.
  Proof. apply HP. lia. Qed.
  Lemma pos_2 : pos f2.
  Proof. apply HP. lia. Qed.
  Lemma pos_fold (op : F A -> F A -> F A) : (forall x y, pos x -> pos y -> pos (op x y)) ->
    forall l x, pos x -> Forall pos l -> pos (fold_left op l x).
  Proof.
    intros Hop l. induction l as [|a l IH]; intros x Hx Hl; simpl; auto.
    inversion Hl; subst. apply IH; auto.
  Qed.
  Lemma pos_vmin l : Forall pos l -> pos (vmin l).
  Proof. destruct l; intros H; [exact pos_0|]. inversion H; subst. cbn [vmin]. apply pos_fold; auto. apply HP. Qed.
  Lemma pos_vmax l : Forall pos l -> pos (vmax l).
  Proof. destruct l; intros H; [exact pos_0|]. inversion H; subst. cbn [vmax]. apply pos_fold; auto. apply HP. Qed.
  Lemma pos_py_sum l : Forall pos l -> pos (py_sum l).
  Proof. intros H. apply pos_fold; auto; [apply HP|exact pos_0]. Qed.
  Lemma pos_sumsq (l : vec A) : pos (np_sumsq l).
  Proof. apply HP. apply Forall_map, Forall_forall. intros x _. apply HP. Qed.
  Lemma pos_sumsq_all (l : list (vec A)) : pos (np_sumsq_all l).
  Proof. apply HP. apply Forall_map, Forall_forall. intros x _. apply HP. Qed.
  Lemma pos_map (f : nat -> F A) k : (forall i, i < k -> pos (f i)) -> Forall pos (map f (seq 0 k)).
  Proof. intros H. apply Forall_map, Forall_forall. intros i Hi. apply in_seq in Hi. apply H. lia. Qed.
  Lemma pos_triu k e : (forall i j, i < j -> j < k -> pos (e i j)) -> Forall pos (triu k e).
  Proof.
    intros H. unfold triu. apply Forall_forall. intros x Hx. apply in_flat_map in Hx as (i & Hi & Hx).
    apply in_seq in Hi. apply in_map_iff in Hx as (j & <- & Hj). apply in_seq in Hj. apply H; lia.
  Qed.
  Lemma pos_ratios (a : vec A) (b : list nat) : Forall pos a -> Forall pos (map2 fdiv a (map f_of_nat b)).
  Proof.
    revert b. induction a as [|x a IH]; intros [|y b] H; constructor; inversion H; subst; auto.
    apply HP; auto. apply pos_nat.
  Qed.

  (** the values of six classes *)
  Lemma pos_CH (o : attrs A) : Forall pos (SEP o) -> Forall pos (CP o) -> n_clusters o <= n_samples o ->
    1 < n_clusters o -> pos (CH_val o).
  Proof. intros. unfold CH_val. apply HP; apply HP; try (apply HP; lia); now apply pos_py_sum. Qed.
  Lemma pos_WB (o : attrs A) : Forall pos (SEP o) -> Forall pos (CP o) -> pos (WB_val o).
  Proof. intros. unfold WB_val. apply HP; [apply HP; now apply pos_py_sum|apply pos_nat]. Qed.
  Lemma pos_DB (o : attrs A) : Forall pos (S1 o) ->
    (forall i j, i < n_clusters o -> j < n_clusters o -> pos (entry (D o) i j)) -> pos (DB_val o).
  Proof.
    intros HS HD. unfold DB_val. apply HP; [|apply pos_nat]. apply HP, pos_map. intros j Hj.
    apply pos_vmax, pos_map. intros i Hi.
    assert (HN : forall a, pos (nth a (S1 o) f0)).
    { intros a. destruct (nth_in_or_default a (S1 o) f0) as [Hin|E].
      - rewrite Forall_forall in HS. now apply HS.
      - rewrite E. exact pos_0. }
    apply HP; unfold DB_low; [destruct (j <? i)|destruct (i <? j)]; auto using pos_0; apply HP; auto; apply HP; auto.
  Qed.
  Lemma pos_XB (o : attrs A) : Forall pos (CP o) ->
    (forall i j, i < j -> j < n_clusters o -> pos (entry (D o) i j)) -> pos (XB_val o).
  Proof.
    intros HC HD. unfold XB_val. apply HP; [now apply pos_py_sum|]. apply HP; [apply pos_nat|].
    now apply pos_vmin, pos_triu.
  Qed.
  Lemma pos_GD (o : attrs A) : Forall pos (CP o) ->
    (forall i j, i < j -> j < n_clusters o -> pos (entry (D o) i j)) -> pos (GD_val o).
  Proof.
    intros HC HD. unfold GD_val. apply HP; [now apply pos_vmin, pos_triu|]. apply HP; [exact pos_2|].
    now apply pos_vmax, pos_ratios.
  Qed.

  (** batches *)
  Section Batch.
    Variables (m : mat A) (ls : list Z).
    Let k := n_unique ls.
    Hypotheses (HC : covers m ls k) (Hk : 2 <= k) (Hn : k <= nrows m).

    Lemma pos_b_CP ix : pos (b_CP m ls ix).
    Proof. apply pos_sumsq_all. Qed.
    Lemma pos_b_SEP ix : pos (b_SEP m ls ix).
    Proof. apply HP; [apply pos_nat|apply pos_sumsq]. Qed.
    Lemma pos_b_sqd a b : pos (b_sqd m ls a b).
    Proof. apply pos_sumsq. Qed.
    Lemma pos_D_sym (t : nat -> nat -> F A) i j : (forall a b, pos (t a b)) -> i < k -> j < k -> pos (entry (D_sym k t) i j).
    Proof.
      intros Ht Hi Hj. unfold D_sym. rewrite entry_tab2 by auto.
      apply HP; [destruct (i <? j)|destruct (j <? i)]; auto using pos_0.
    Qed.

    Lemma batch_pos c o' r : In c [kCH; kWB; kDB; kXB; kGD43; kGD53] ->
      param_batch c m ls init_attrs = (o', Ok tt) ->
      r = criterion_value (fst (evaluate c o')) -> pos r.
    Proof.
      intros Hc EB ->.
      assert (HE : forall x, evals c o' x -> pos x -> pos (criterion_value (fst (evaluate c o')))).
      { intros x (o2 & E2 & E3 & _) Hb. rewrite E2. cbn [fst]. congruence. }
      assert (Lk : forall X (f : nat -> X), length (map f (seq 0 k)) = k) by (intros; now rewrite map_length, seq_length).
      cbn [In] in Hc.
      destruct Hc as [<-|[<-|[<-|[<-|[<-|[<-|[]]]]]]]; cbn [param_batch] in EB.
      - destruct (CH_batch m ls HC) as (o1 & E & B & E1 & E2 & _). rewrite E in EB; inversion EB; subst o1.
        pose proof (bc_k _ _ _ B) as Hkk. pose proof (bc_ns _ _ _ B) as Hns. fold k in Hkk.
        eapply HE; [apply CH_eval; lia|]. apply pos_CH; try lia; rewrite ?E1, ?E2; apply pos_map; intros.
        + apply pos_b_SEP.
        + apply pos_b_CP.
      - destruct (WB_batch m ls HC) as (o1 & E & B & E1 & E2 & _). rewrite E in EB; inversion EB; subst o1.
        pose proof (bc_k _ _ _ B) as Hkk. fold k in Hkk.
        eapply HE; [apply WB_eval; lia|]. apply pos_WB; rewrite ?E1, ?E2; apply pos_map; intros.
        + apply pos_b_SEP.
        + apply pos_b_CP.
      - destruct (DB_batch m ls HC) as (o1 & E & B & E1 & E2 & _ & _ & _ & E3). rewrite E in EB; inversion EB; subst o1.
        pose proof (bc_k _ _ _ B) as Hkk. fold k in Hkk, E1, E2, E3.
        eapply HE; [apply DB_eval; rewrite Hkk; auto|].
        + rewrite E3. apply wfm_tab2.
        + rewrite E2. apply Lk.
        + apply pos_DB; rewrite ?E2, ?Hkk.
          * apply pos_map. intros. apply HP; [apply pos_b_CP|apply pos_nat].
          * intros i j Hi Hj. rewrite E3. apply pos_D_sym; auto. exact pos_b_sqd.
      - destruct (XB_batch m ls HC) as (o1 & E & B & E1 & _ & _ & E3). rewrite E in EB; inversion EB; subst o1.
        pose proof (bc_k _ _ _ B) as Hkk. fold k in Hkk, E1, E3.
        eapply HE; [apply XB_eval; rewrite Hkk; auto|].
        + rewrite E3. apply wfm_tab2.
        + apply pos_XB; rewrite ?E1, ?Hkk.
          * apply pos_map. intros. apply pos_b_CP.
          * intros i j Hi Hj. rewrite E3, entry_tab2 by lia. destruct (i <? j); [apply pos_b_sqd|exact pos_0].
      - destruct (GD43_batch m ls HC) as (o1 & E & B & E1 & _ & _ & _ & E3). rewrite E in EB; inversion EB; subst o1.
        pose proof (bc_k _ _ _ B) as Hkk. pose proof (bc_n _ _ _ B) as Hnn. fold k in Hkk, E1, E3, Hnn.
        eapply HE; [apply GD43_eval; rewrite Hkk; auto|].
        + rewrite E3. apply wfm_tab2.
        + rewrite E1. apply Lk.
        + rewrite Hnn. apply Lk.
        + apply pos_GD; rewrite ?E1, ?Hkk.
          * apply pos_map. intros. apply pos_b_CP.
          * intros i j Hi Hj. rewrite E3. apply pos_D_sym; try lia. intros. apply HP, pos_b_sqd.
      - destruct (GD53_batch m ls HC) as (o1 & E & B & E1 & _ & _ & _ & E3). rewrite E in EB; inversion EB; subst o1.
        pose proof (bc_k _ _ _ B) as Hkk. pose proof (bc_n _ _ _ B) as Hnn. fold k in Hkk, E1, E3, Hnn.
        eapply HE; [apply GD53_eval; rewrite Hkk; auto|].
        + rewrite E3. apply wfm_tab2.
        + rewrite E1. apply Lk.
        + rewrite Hnn. apply Lk.
        + apply pos_GD; rewrite ?E1, ?Hkk.
          * apply pos_map. intros. apply pos_b_CP.
          * intros i j Hi Hj. rewrite E3. apply pos_D_sym; try lia. intros.
            apply HP; [apply HP; apply pos_b_CP|apply pos_nat].
    Qed.
  End Batch.
End Sign.
