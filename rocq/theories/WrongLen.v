(** * Samples of the wrong length after a well-formed stream, for every arithmetic. *)
From Coq Require Import ZArith List Arith Bool Lia.
From Verif Require Import Num NumPy Base M_CH M_D M_PS GetCvi Lists Step Step2 StepB Hoare Eval Stream Shapes Generic.
Import ListNotations.

Section WrongLen.
  Context {A : Arith}.

  (** ** Broadcasting *)
  Lemma bc_bad op (a b : vec A) : length a <> length b -> length a <> 1 -> length b <> 1 -> bc op a b = Err ValueError.
  Proof.
    intros H1 H2 H3. unfold bc. replace (length a =? length b) with false by (symmetry; now apply Nat.eqb_neq).
    destruct a as [|x [|x' a]], b as [|y [|y' b]]; simpl in *; try lia; reflexivity.
  Qed.
  Lemma map2_repeat_r {X} (op : X -> X -> X) (a : list X) (x : X) : map2 op a (repeat x (length a)) = map (fun y => op y x) a.
  Proof. induction a as [|y a IH]; auto. cbn [length repeat map2 map]. now rewrite IH. Qed.
  Lemma map2_repeat_l {X} (op : X -> X -> X) (a : list X) (x : X) : map2 op (repeat x (length a)) a = map (fun y => op x y) a.
  Proof. induction a as [|y a IH]; auto. cbn [length repeat map2 map]. now rewrite IH. Qed.
  Lemma bc_one_r op (a : vec A) x : bc op a [x] = bc op a (repeat x (length a)).
  Proof.
    unfold bc. rewrite repeat_length, Nat.eqb_refl. destruct a as [|y [|z a]]; auto.
    now rewrite map2_repeat_r.
  Qed.
  Lemma bc_one_l op (a : vec A) x : bc op [x] a = bc op (repeat x (length a)) a.
  Proof.
    unfold bc at 2. rewrite repeat_length, Nat.eqb_refl. unfold bc. destruct a as [|y [|z a]]; auto.
    now rewrite map2_repeat_l.
  Qed.
  Lemma bc_length op (a b r : vec A) : bc op a b = Ok r -> length a <> length b -> length a <> 1 \/ length b <> 1 ->
    (length a = 1 /\ length r = length b) \/ (length b = 1 /\ length r = length a).
  Proof.
    unfold bc. intros H Hn _. replace (length a =? length b) with false in H by (symmetry; now apply Nat.eqb_neq).
    destruct a as [|x [|x' a]], b as [|y [|y' b]]; inversion H; simpl; rewrite ?map_length; auto.
  Qed.

  Lemma rm_one k (m : vec A) y : running_mean k m [y] = running_mean k m (repeat y (length m)).
  Proof.
    unfold running_mean, vadd. cbn [sscal map]. rewrite bc_one_r. unfold sscal, scal. rewrite map_length. f_equal.
    induction m; simpl; congruence.
  Qed.
  Lemma srm_one k (m : vec A) y : srunning_mean k m [y] = srunning_mean k m (repeat y (length m)).
  Proof.
    unfold srunning_mean, svadd. cbn [sscal map]. rewrite bc_one_r. unfold sscal. rewrite map_length. f_equal.
    induction m; simpl; congruence.
  Qed.
  Lemma rm_bad k (m x : vec A) : length m <> length x -> length m <> 1 -> length x <> 1 -> running_mean k m x = Err ValueError.
  Proof. intros. unfold running_mean, vadd. apply bc_bad; now rewrite ?length_scal, ?length_sscal. Qed.
  Lemma srm_bad k (m x : vec A) : length m <> length x -> length m <> 1 -> length x <> 1 -> srunning_mean k m x = Err ValueError.
  Proof. intros. unfold srunning_mean, svadd. apply bc_bad; now rewrite ?length_sscal. Qed.
  Lemma rm_length k (m x r : vec A) : running_mean k m x = Ok r -> length m <> length x -> length x <> 1 -> length m = 1 /\ length r = length x.
  Proof.
    unfold running_mean, vadd. intros H Hn Hx. apply bc_length in H; rewrite ?length_scal, ?length_sscal in *; auto; try tauto.
  Qed.

  (** ** A new cluster: every wrong length raises *)
  Lemma vstack_wrong (m m' : mat A) x : vstack m x = Ok m' -> length x = mcols m.
  Proof. unfold vstack. destruct (Nat.eqb_spec (length x) (mcols m)); auto. discriminate. Qed.
  Lemma set_row_wrong (m m' : mat A) i r : set_row m i r = Ok m' -> length r = mcols m \/ length r = 1.
  Proof.
    unfold set_row. destruct (i <? nrows m); [|discriminate]. destruct (Nat.eqb_spec (length r) (mcols m)); auto.
    destruct r as [|? [|]]; try discriminate. auto.
  Qed.

  Definition raises (o' : attrs A) (r : E unit) : Prop := exists e, r = Err e.
  Ltac ndone H0 Hk := solve
    [ exfalso; congruence
    | eexists; reflexivity
    | exfalso; match goal with E : (n_samples _ =? 0) = true |- _ => apply Nat.eqb_eq in E; apply H0; exact E end
    | exfalso; match goal with E : vstack (v _) _ = Ok _ |- _ => apply Hk; exact (vstack_wrong _ _ _ E) end
    | exfalso; match goal with E : (n_clusters _ <=? _) = _ |- _ => rewrite Nat.leb_refl in E; discriminate end ].
  Lemma new_raises c x (o : attrs A) : n_samples o <> 0 -> length x <> mcols (v o) ->
    post (param_inc c x (n_clusters o)) o raises.
  Proof.
    intros H0 Hk. destruct c; cbn [param_inc].
    - unfold CH_param_inc, append_n. hrun. all: ndone H0 Hk.
    - unfold WB_param_inc, append_n. hrun. all: ndone H0 Hk.
    - unfold DB_param_inc, append_n. hrun. all: ndone H0 Hk.
    - unfold XB_param_inc, append_n. hrun. all: ndone H0 Hk.
    - unfold GD43_param_inc, append_n. hrun. all: ndone H0 Hk.
    - unfold GD53_param_inc, append_n. hrun. all: ndone H0 Hk.
    - unfold PS_param_inc, append_n. hrun. all: ndone H0 Hk.
    - unfold rCIP_param_inc, append_n. hrun. all: ndone H0 Hk.
    - unfold cSIL_param_inc, append_n. hrun. all: ndone H0 Hk.
  Qed.

  (** ** A known cluster: every wrong length but one raises *)
  Ltac odone H0 Hk Hx := solve
    [ exfalso; congruence
    | eexists; reflexivity
    | exfalso; match goal with E : (n_samples _ =? 0) = true |- _ => apply Nat.eqb_eq in E; apply H0; exact E end
    | exfalso; match goal with E : (n_clusters _ <=? _) = true |- _ => apply Nat.leb_le in E; lia end
    | exfalso; match goal with E : row (v _) _ = Ok ?vi, E' : running_mean _ ?vi _ = Ok ?r, E2 : set_row (v _) _ ?r = Ok _ |- _ =>
        eapply Hx; [exact E|exact E'|exact E2] end ].
  Lemma old_raises c d x i (o : attrs A) : n_samples o <> 0 -> wfm (n_clusters o) d (v o) -> i < n_clusters o ->
    length x <> d -> length x <> 1 ->
    post (param_inc c x i) o raises.
  Proof.
    intros H0 Hk Hi Hd H1.
    assert (Hx : forall vi r m' nw, row (v o) i = Ok vi -> running_mean nw vi x = Ok r -> set_row (v o) i r = Ok m' -> False).
    { intros vi r m' nw E1 E2 E3. assert (L : length vi = d).
      { unfold row, get_item in E1. destruct Hk as (_ & K2 & K3). rewrite Forall_forall in K3.
        destruct (nth_error (mrows (v o)) i) eqn:En; [|discriminate]. inversion E1; subst. apply K3. eapply nth_error_In, En. }
      apply rm_length in E2; auto; [|congruence]. apply set_row_wrong in E3. destruct Hk as (K1 & _). lia. }
    destruct c; cbn [param_inc].
    - unfold CH_param_inc, append_n. hrun. all: odone H0 Hk Hx.
    - unfold WB_param_inc, append_n. hrun. all: odone H0 Hk Hx.
    - unfold DB_param_inc, append_n. hrun. all: odone H0 Hk Hx.
    - unfold XB_param_inc, append_n. hrun. all: odone H0 Hk Hx.
    - unfold GD43_param_inc, append_n. hrun. all: odone H0 Hk Hx.
    - unfold GD53_param_inc, append_n. hrun. all: odone H0 Hk Hx.
    - unfold PS_param_inc, append_n. hrun. all: odone H0 Hk Hx.
    - unfold rCIP_param_inc, append_n. hrun. all: odone H0 Hk Hx.
    - unfold cSIL_param_inc, append_n. hrun. all: odone H0 Hk Hx.
  Qed.

  (** ** A known cluster and one coordinate: the number is used for every coordinate *)
  Lemma bind_lift_ext {X Y} (e : E X) (k1 k2 : X -> M A Y) o :
    (forall x, e = Ok x -> k1 x o = k2 x o) -> bind (lift e) k1 o = bind (lift e) k2 o.
  Proof. unfold bind, lift. destruct e; simpl; auto. Qed.
  Lemma rm_one_d d k (m : vec A) y : length m = d -> running_mean k m [y] = running_mean k m (repeat y d).
  Proof. intros <-. apply rm_one. Qed.
  Lemma srm_one_d d k (m : vec A) y : length m = d -> srunning_mean k m [y] = srunning_mean k m (repeat y d).
  Proof. intros <-. apply srm_one. Qed.
  Lemma vsub_one_l d (m : vec A) y : length m = d -> vsub [y] m = vsub (repeat y d) m.
  Proof. intros <-. apply bc_one_l. Qed.
  Lemma vadd_one_r d (m : vec A) y : length m = d -> vadd m [y] = vadd m (repeat y d).
  Proof. intros <-. apply bc_one_r. Qed.
  Lemma rm_repeat_length d k (m r : vec A) y : length m = d -> running_mean k m (repeat y d) = Ok r -> length r = d.
  Proof.
    intros H. rewrite running_mean_ok by now rewrite repeat_length. intros E; inversion E.
    rewrite rmean_length; rewrite repeat_length; auto.
  Qed.
  Lemma srm_repeat_length d k (m r : vec A) y : length m = d -> srunning_mean k m (repeat y d) = Ok r -> length r = d.
  Proof.
    intros H. rewrite srunning_mean_ok by now rewrite repeat_length. intros E; inversion E.
    rewrite srmean_length; rewrite repeat_length; auto.
  Qed.
  Lemma wfm_row_length k d (m : mat A) i r : wfm k d m -> row m i = Ok r -> length r = d.
  Proof.
    intros (_ & _ & H) E. unfold row, get_item in E. rewrite Forall_forall in H.
    destruct (nth_error (mrows m) i) eqn:En; [|discriminate]. inversion E; subst. apply H. eapply nth_error_In, En.
  Qed.

  Ltac both := repeat first
    [ progress sx
    | match goal with
      | |- bind (lift (running_mean _ ?m [?y])) _ _ = _ => rewrite (rm_one_d _ _ m y) by eassumption
      | |- bind (lift (srunning_mean _ ?m [?y])) _ _ = _ => rewrite (srm_one_d _ _ m y) by eassumption
      | |- bind (lift (vsub [?y] ?m)) _ _ = _ => rewrite (vsub_one_l _ m y) by eassumption
      | |- bind (lift (vadd ?m [?y])) _ _ = _ => rewrite (vadd_one_r _ m y) by eassumption
      end
    | match goal with
      | |- bind (lift (running_mean _ ?m (repeat ?y ?d))) _ _ = bind (lift (running_mean _ ?m (repeat ?y ?d))) _ _ =>
          apply bind_lift_ext; let r := fresh "r" in let E := fresh in intros r E; apply (rm_repeat_length d) in E; [|eassumption]
      | |- bind (lift (srunning_mean _ ?m (repeat ?y ?d))) _ _ = bind (lift (srunning_mean _ ?m (repeat ?y ?d))) _ _ =>
          apply bind_lift_ext; let r := fresh "r" in let E := fresh in intros r E; apply (srm_repeat_length d) in E; [|eassumption]
      | H : wfm ?k ?d (v ?o) |- bind (lift (row (v ?o) ?i)) _ _ = bind (lift (row (v ?o) ?i)) _ _ =>
          apply bind_lift_ext; let r := fresh "r" in let E := fresh in intros r E; apply (wfm_row_length k d) in E; [|eassumption]
      | |- bind (lift ?e) _ _ = bind (lift ?e) _ _ => apply bind_lift_ext; intros ? _
      | |- bind (if ?b then _ else _) _ _ = bind (if ?b then _ else _) _ _ => destruct b
      end ].

  Lemma one_is_all c d y i (o : attrs A) : c <> kcSIL -> Shape c d o -> i < n_clusters o ->
    param_inc c [y] i o = param_inc c (repeat y d) i o.
  Proof.
    intros Hc HS Hi.
    assert (E0 : (n_samples o =? 0) = false) by (apply Nat.eqb_neq; apply Shape_init in HS; lia).
    assert (Ek : (n_clusters o <=? i) = false) by (apply Nat.leb_gt; lia).
    assert (Hv : wfm (n_clusters o) d (v o)) by (apply Shape_init in HS; tauto).
    destruct c; try congruence; cbn [Shape param_inc] in *;
      repeat match goal with H : _ /\ _ |- _ => destruct H end;
      try match goal with H : ShapeG _ _ |- _ => pose proof (sg_mu _ _ H) end.
    - unfold CH_param_inc. sx. rewrite E0. both; try discriminate Ek; reflexivity.
    - unfold WB_param_inc. sx. rewrite E0. both; try discriminate Ek; reflexivity.
    - unfold DB_param_inc. sx. rewrite E0. both; try discriminate Ek; reflexivity.
    - unfold XB_param_inc. sx. rewrite E0. both; try discriminate Ek; reflexivity.
    - unfold GD43_param_inc. sx. rewrite E0. both; try discriminate Ek; reflexivity.
    - unfold GD53_param_inc. sx. rewrite E0. both; try discriminate Ek; reflexivity.
    - unfold PS_param_inc. sx. rewrite E0. both; try discriminate Ek; reflexivity.
    - unfold rCIP_param_inc. sx. rewrite E0. both; try discriminate Ek; reflexivity.
  Qed.

  (** cSIL accepts it too; only the scatter _CP of the cluster then differs (it adds the square of one number) *)
  Ltac lift1 := match goal with
    | |- context [bind (lift ?e) _ _] =>
        first
        [ erewrite (bind_lift (running_mean _ _ _)) by (apply running_mean_ok; solve [lens])
        | erewrite (bind_lift (srunning_mean _ _ _)) by (apply srunning_mean_ok; solve [lens])
        | erewrite (bind_lift (vsub _ _)) by (apply vsub_ok; solve [lens])
        | erewrite (bind_lift (vadd _ _)) by (apply vadd_ok; solve [lens])
        | erewrite (bind_lift (inner _ _)) by (apply inner_ok; solve [lens])
        | erewrite (bind_lift (sinner _ _)) by (apply sinner_ok; solve [lens])
        | erewrite (bind_lift (get_item _ _)) by (apply (get_item_ok _ _ f0); solve [lens])
        | erewrite (bind_lift (get_item _ _)) by (apply (get_item_ok _ _ 0); solve [lens])
        | erewrite (bind_lift (set_item _ _ _)) by (apply set_item_ok; solve [lens])
        | erewrite (bind_lift (row _ _)) by (eapply row_ok; [eassumption|solve [lens]])
        | erewrite (bind_lift (set_row _ _ _)) by (eapply set_row_ok; [eassumption|solve [lens]|solve [lens]])
        ]
    end.
  Lemma cSIL_one d y i (o : attrs A) : ShapeS d o -> i < n_clusters o -> exists o',
    cSIL_param_inc [y] i o = (o', Ok tt) /\ ShapeS d o' /\
    n_samples o' = n_samples o + 1 /\ n o' = upd i (nn o i + 1) (n o) /\ n_clusters o' = n_clusters o /\
    CP o' = upd i (sadd (cpi o i) (sdot [y] [y])) (CP o) /\
    v o' = mkMat d (upd i (v_upd (nn o i) (vrow o i) (repeat y d)) (mrows (v o))) /\
    G o' = mkMat d (upd i (map2 fadd (grow_ o i) (repeat y d)) (mrows (G o))) /\
    S2 o' = S_set (n_clusters o) i (entry (S2 o)) (sil_col_old o (repeat y d) i)
              (sil_row o (v_upd (nn o i) (vrow o i) (repeat y d))) (sil_self o (repeat y d) i).
  Proof.
    intros [H1 H2 H3 H4 H5 H6 H7 H8 Hna] Hi.
    set (x := repeat y d). assert (Hx : length x = d) by apply repeat_length.
    assert (E0 : (n_samples o =? 0) = false) by (apply Nat.eqb_neq; lia).
    assert (Ek : (n_clusters o <=? i) = false) by (apply Nat.leb_gt; lia).
    pose proof (wfm_row _ _ _ _ H5 Hi) as Lv. pose proof (wfm_row _ _ _ _ H7 Hi) as LG.
    unfold cSIL_param_inc, append_n. sx. rewrite E0. sx. rewrite Ek. sx.
    set (k := n_clusters o) in *.
    lift1; sx. lift1; sx. rewrite (rm_one_d d) by auto. fold x. do 4 (lift1; sx).
    rewrite (vadd_one_r d) by auto. fold x. lift1; sx.
    set (cl := fun j => if j =? i then f0 else sil_col_old o x i j).
    set (rw := fun j => if j =? i then f0 else sil_row o (v_upd (nn o i) (vrow o i) x) j).
    rewrite (bind_lift _ (map (fun j => (cl j, rw j)) (seq 0 k))).
    2:{ apply mapE_ok. intros j Hj. apply in_seq in Hj. unfold cl, rw.
        destruct (Nat.eqb_spec j i); auto.
        fold (cpi o i) (nn o i) (grow_ o i) (vrow o i).
        assert (Ec : forall g, cSIL_col_old o [y] (cpi o i) (nn o i) g j = cSIL_col_old o x (cpi o i) (nn o i) g j).
        { intros g. unfold cSIL_col_old. rewrite (row_ok k d) by (auto; lia). cbn [bindE].
          rewrite (vsub_one_l d); [reflexivity|]. apply (wfm_row k); auto. lia. }
        rewrite Ec, (sil_col_old_ok d k) by (auto; lia). cbn [bindE].
        rewrite (sil_row_ok d k); [reflexivity|auto|auto|auto|unfold vrow; lens|lia]. }
    sx. rewrite (vsub_one_l d) by lens. fold x. repeat (lift1; sx).
    rewrite !map_map. cbn [fst snd].
    assert (L : forall (g : nat -> F A), length (map g (seq 0 k)) = k)
      by (intros; now rewrite map_length, seq_length).
    rewrite (bind_lift _ _ _ _ (set_item_ok (map cl (seq 0 k)) i _ ltac:(rewrite (L _); lia))). sx.
    rewrite (bind_lift _ _ _ _ (set_item_ok (map rw (seq 0 k)) i _ ltac:(rewrite (L _); lia))). sx.
    repeat (lift1; sx).
    match goal with |- context [set_row (S2 o) i (upd i ?s (map cl (seq 0 k)))] => set (sii := s) end.
    destruct (set_row_col2 k (S2 o) i (upd i sii (map cl (seq 0 k))) (upd i sii (map rw (seq 0 k))) H8 Hi)
      as [Hr Hc]; [now rewrite length_upd, L|now rewrite length_upd, L|].
    rewrite (bind_lift _ _ _ _ Hr). sx.
    rewrite (bind_lift _ _ _ _ Hc). sx.
    eexists; split; [reflexivity|]. red_attrs. split.
    - constructor; red_attrs; auto; try lia.
      + now rewrite length_upd.
      + apply wfm_upd; auto. lens.
      + now rewrite length_upd.
      + apply wfm_upd; auto. lens.
      + apply wfm_tab2.
    - repeat (split; [reflexivity|]).
      apply tab2_ext. intros a b Ha Hb.
      rewrite !nth_upd by (rewrite L; auto). rewrite !nth_map_seq by auto.
      unfold cl, rw.
      destruct (Nat.eqb_spec b i).
      + destruct (Nat.eqb_spec a i); auto.
      + destruct (Nat.eqb_spec a i); auto.
  Qed.

  (** ** Wrong lengths that leave no trace in the attributes *)
  Lemma set_constant_id k (o : attrs A) : constant o = k -> set_constant k o = o.
  Proof. intros <-. now destruct o. Qed.
  Definition const_ok (c : kind) (o : attrs A) : Prop := c = krCIP -> constant o = rCIP_constant (dim o).

  Lemma old_no_trace c d x i (o : attrs A) : Shape c d o -> const_ok c o -> i < n_clusters o ->
    d <> 1 -> length x <> d -> length x <> 1 ->
    param_inc c x i o = (o, Err ValueError).
  Proof.
    intros HS Hk Hi Hd Hx Hx1.
    assert (E0 : (n_samples o =? 0) = false) by (apply Nat.eqb_neq; apply Shape_init in HS; lia).
    assert (Ek : (n_clusters o <=? i) = false) by (apply Nat.leb_gt; lia).
    assert (Hv : wfm (n_clusters o) d (v o)) by (apply Shape_init in HS; tauto).
    assert (Hn : length (n o) = n_clusters o) by (apply Shape_init in HS; tauto).
    pose proof (wfm_row _ _ _ _ Hv Hi) as Lv.
    assert (Em : forall k (m : vec A), length m = d -> running_mean k m x = Err ValueError).
    { intros. apply rm_bad; congruence. }
    assert (Es' : forall k (m : vec A), length m = d -> srunning_mean k m x = Err ValueError).
    { intros. apply srm_bad; congruence. }
    destruct c; cbn [Shape param_inc] in *;
      repeat match goal with H : _ /\ _ |- _ => destruct H end;
      try match goal with H : ShapeG _ _ |- _ => pose proof (sg_mu _ _ H) end.
    - unfold CH_param_inc. sx. rewrite E0. sx. now rewrite (bind_lift_err _ ValueError) by auto.
    - unfold WB_param_inc. sx. rewrite E0. sx. now rewrite (bind_lift_err _ ValueError) by auto.
    - unfold DB_param_inc. sx. rewrite E0. sx. now rewrite (bind_lift_err _ ValueError) by auto.
    - unfold XB_param_inc. sx. rewrite E0. sx. now rewrite (bind_lift_err _ ValueError) by auto.
    - unfold GD43_param_inc. sx. rewrite E0. sx. now rewrite (bind_lift_err _ ValueError) by auto.
    - unfold GD53_param_inc. sx. rewrite E0. sx. now rewrite (bind_lift_err _ ValueError) by auto.
    - unfold PS_param_inc. sx. rewrite E0. sx. rewrite Ek. sx. do 2 (lift1; sx). now rewrite (bind_lift_err _ ValueError) by auto.
    - unfold rCIP_param_inc. sx. rewrite E0. sx. rewrite Ek. sx. do 2 (lift1; sx).
      rewrite (bind_lift_err _ ValueError) by auto. f_equal. now apply set_constant_id, Hk.
    - unfold cSIL_param_inc. sx. rewrite E0. sx. rewrite Ek. sx. do 2 (lift1; sx). now rewrite (bind_lift_err _ ValueError) by auto.
  Qed.

  Lemma mapE_first {X Y} (f : X -> E Y) l e : match l with a :: _ => f a = Err e | [] => False end -> mapE f l = Err e.
  Proof. destruct l; simpl; [tauto|]. now intros ->. Qed.
  Lemma vsub_bad d (m x : vec A) : length m = d -> d <> 1 -> length x <> d -> length x <> 1 -> vsub x m = Err ValueError.
  Proof. intros. apply bc_bad; congruence. Qed.
  Lemma new_no_trace c d x (o : attrs A) : Shape c d o -> const_ok c o -> 0 < n_clusters o ->
    d <> 1 -> length x <> d -> length x <> 1 ->
    param_inc c x (n_clusters o) o = (o, Err ValueError).
  Proof.
    intros HS Hk Hi Hd Hx Hx1.
    assert (E0 : (n_samples o =? 0) = false) by (apply Nat.eqb_neq; apply Shape_init in HS; lia).
    assert (Hv : wfm (n_clusters o) d (v o)) by (apply Shape_init in HS; tauto).
    pose proof (wfm_row _ _ _ _ Hv Hi) as Lv. pose proof (row_ok _ _ _ _ Hv Hi) as Rv.
    assert (Em : forall k (m : vec A), length m = d -> running_mean k m x = Err ValueError).
    { intros. apply rm_bad; congruence. }
    assert (Es' : forall k (m : vec A), length m = d -> srunning_mean k m x = Err ValueError).
    { intros. apply srm_bad; congruence. }
    assert (Es : exists q, seq 0 (n_clusters o) = 0 :: q).
    { destruct (n_clusters o); [lia|]. eexists; reflexivity. }
    destruct Es as [q Eq].
    assert (ED : forall f, wfm (n_clusters o) (n_clusters o) (D o) -> f 0 = Err ValueError ->
               D_new_cluster (n_clusters o) (n_clusters o) (D o) f = Err ValueError).
    { intros f HD Hf. unfold D_new_cluster. replace (n_clusters o =? 0) with false by (symmetry; apply Nat.eqb_neq; lia).
      rewrite (grow_ok _ _ HD) by lia. cbn [bindE]. rewrite (mapE_first f _ ValueError); auto. now rewrite Eq. }
    destruct c; cbn [Shape param_inc] in *;
      repeat match goal with H : _ /\ _ |- _ => destruct H end;
      try match goal with H : ShapeG _ _ |- _ => pose proof (sg_mu _ _ H) end.
    - unfold CH_param_inc. sx. rewrite E0. sx. now rewrite (bind_lift_err _ ValueError) by auto.
    - unfold WB_param_inc. sx. rewrite E0. sx. now rewrite (bind_lift_err _ ValueError) by auto.
    - unfold DB_param_inc. sx. rewrite E0. sx. now rewrite (bind_lift_err _ ValueError) by auto.
    - unfold XB_param_inc. sx. rewrite E0. sx. now rewrite (bind_lift_err _ ValueError) by auto.
    - unfold GD43_param_inc. sx. rewrite E0. sx. now rewrite (bind_lift_err _ ValueError) by auto.
    - unfold GD53_param_inc. sx. rewrite E0. sx. now rewrite (bind_lift_err _ ValueError) by auto.
    - unfold PS_param_inc. sx. rewrite E0. sx. rewrite Nat.leb_refl. sx. rewrite (bind_lift_err _ ValueError); auto.
      apply ED; [apply (sp_D d); auto|]. unfold sqdist_to. rewrite Rv. cbn [bindE]. now rewrite (vsub_bad d).
    - unfold rCIP_param_inc. sx. rewrite E0. sx. rewrite Nat.leb_refl. sx. rewrite (bind_lift_err _ ValueError).
      + f_equal. now apply set_constant_id, Hk.
      + apply ED; [apply (sr_D d); auto|]. unfold rCIP_term. red_attrs. rewrite Rv. cbn [bindE]. now rewrite (vsub_bad d).
    - unfold cSIL_param_inc. sx. rewrite E0. sx. rewrite Nat.leb_refl. sx. lift1. sx.
      replace (n_clusters o =? 0) with false by (symmetry; apply Nat.eqb_neq; lia). sx.
      rewrite (bind_lift _ _ _ _ (grow_ok _ _ (ss_S _ _ HS) ltac:(lia))). sx.
      rewrite (bind_lift_err _ ValueError); auto. rewrite Eq. apply mapE_first.
      unfold cSIL_col_new. rewrite Rv. cbn [bindE]. rewrite inner_ok by auto. cbn [bindE].
      unfold inner. now replace (length x =? _) with false by (symmetry; apply Nat.eqb_neq; congruence).
  Qed.

  (** ** After a well-formed stream *)
  Lemma const_inc x i (o : attrs A) : post (rCIP_param_inc x i) o
    (fun o' r => r = Ok tt -> constant o' = rCIP_constant (dim o')).
  Proof. unfold rCIP_param_inc, append_n, rCIP_setup, base_setup. hrun. all: intros HX; try discriminate HX; auto. Qed.

  Lemma after_wf c d (s : list (vec A * Z)) : inv_good (A := A) c d -> wf_stream d s -> s <> [] -> exists a,
    after c new_obj (stream s) = mkObj (lmap (firsts s)) a /\ Shape c d a /\ const_ok c a /\
    n_clusters a = length (firsts s) /\ 0 < n_clusters a.
  Proof.
    intros HI Hw Hs. destruct (run_wf c d s HI Hw) as (a & vals & Er & [[? _]|[_ HS]] & [C1 C2 C3]); [contradiction|].
    exists a. unfold after. rewrite Er. cbn [fst]. split; auto. split; auto. split; [|split; auto].
    - intros ->. destruct s as [|[x l] s _] using rev_ind; [contradiction|].
      destruct (run_wf krCIP d s HI (wf_snoc _ _ _ Hw)) as (a0 & v0 & Er0 & _).
      rewrite stream_app, run_app, Er0 in Er. cbn [fst snd stream map run] in Er.
      unfold get_cvi, update in Er. cbn [label_map at_] in Er. rewrite lmap_get in Er.
      pose proof (const_inc x (index l (firsts s)) a0) as H. unfold post in H. cbn [param_inc evaluate] in *.
      destruct (rCIP_param_inc x (index l (firsts s)) a0) as [a1 r1]. cbn [fst snd] in *.
      destruct r1 as [[]|e1]; cbn [at_ label_map] in Er.
      + specialize (H eq_refl). pose proof (ev_all krCIP a1) as H2. unfold post, ev_ok in H2. cbn [evaluate] in H2.
        destruct (rCIP_evaluate a1) as [a2 r2]. cbn [fst snd] in *.
        destruct H2 as [[F1 F2 F3 F4 F5 F6 F7 F8 F9 F10 F11 F12 F13 F14 F15 F16 F17] _].
        destruct r2; inversion Er; subst; congruence.
      + inversion Er. exfalso.
        match goal with E : _ ++ [Err _] = map Ok _ |- _ =>
          assert (Hin : In (Err e1) (map (@Ok (F A)) vals)) by (rewrite <- E; apply in_or_app; right; now left) end.
        apply in_map_iff in Hin. destruct Hin as (? & Hx & _). discriminate.
    - rewrite C1. destruct s as [|[x l] s]; [contradiction|].
      assert (Hin : In l (firsts ((x, l) :: s))) by (apply first_seen_In; now left).
      destruct (firsts ((x, l) :: s)); [destruct Hin|simpl; lia].
  Qed.

  Lemma get_lab c (a : attrs A) fs x l : get_cvi c (mkObj (lmap fs) a) (Vec x) (Lab l) =
    match param_inc c x (index l fs) a with
    | (a1, Err e) => (mkObj (lmap (add_label fs l)) a1, Err e)
    | (a1, Ok _) => match evaluate c a1 with
                    | (a2, Err e) => (mkObj (lmap (add_label fs l)) a2, Err e)
                    | (a2, Ok _) => (mkObj (lmap (add_label fs l)) a2, Ok (criterion_value a2))
                    end
    end.
  Proof.
    unfold get_cvi, update. cbn [label_map at_]. rewrite lmap_get.
    destruct (param_inc c x (index l fs) a) as [a1 [[]|e]]; reflexivity.
  Qed.

  Lemma wrong_raises c d (s : list (vec A * Z)) x l : inv_good (A := A) c d -> wf_stream d s -> s <> [] -> length x <> d ->
    ~ In l (map snd s) \/ length x <> 1 ->
    exists e, snd (get_cvi c (after c new_obj (stream s)) (Vec x) (Lab l)) = Err e.
  Proof.
    intros HI Hw Hs Hx Hl. destruct (after_wf c d s HI Hw Hs) as (a & -> & HS & _ & Hk & _).
    rewrite get_lab. destruct (Shape_init c d a HS) as (N1 & N2 & N3 & _).
    assert (H : post (param_inc c x (index l (firsts s))) a raises).
    { destruct (in_dec Z.eq_dec l (firsts s)) as [Hin|Hin].
      - destruct (index_In _ _ Hin) as [Hi _]. apply (old_raises c d); auto; try lia.
        destruct Hl as [Hl|Hl]; auto. exfalso. apply Hl. exact (proj1 (first_seen_In _ _) Hin).
      - rewrite index_notIn, <- Hk by auto. apply new_raises; [lia|]. destruct N3 as (-> & _). auto. }
    unfold post, raises in H. destruct (param_inc c x (index l (firsts s)) a) as [a1 r]. cbn [fst snd] in H.
    destruct H as [e ->]. eexists; reflexivity.
  Qed.

  Lemma one_known c d (s : list (vec A * Z)) y l : inv_good (A := A) c d -> wf_stream d s -> In l (map snd s) -> c <> kcSIL ->
    get_cvi c (after c new_obj (stream s)) (Vec [y]) (Lab l) = get_cvi c (after c new_obj (stream s)) (Vec (repeat y d)) (Lab l).
  Proof.
    intros HI Hw Hl Hc. assert (Hs : s <> []) by (intros ->; destruct Hl).
    destruct (after_wf c d s HI Hw Hs) as (a & -> & HS & _ & Hk & _).
    rewrite !get_lab. apply first_seen_In in Hl. destruct (index_In _ _ Hl) as [Hi _]. fold (firsts s) in *.
    rewrite (one_is_all c d); [reflexivity|auto|auto|]. rewrite Hk. exact Hi.
  Qed.
  Lemma kind_eq (a b : kind) : {a = b} + {a <> b}.
  Proof. decide equality. Qed.
  Lemma one_known_ok c d (s : list (vec A * Z)) y l : inv_good (A := A) c d -> wf_stream d s -> In l (map snd s) ->
    exists r, snd (get_cvi c (after c new_obj (stream s)) (Vec [y]) (Lab l)) = Ok r.
  Proof.
    intros HI Hw Hl. assert (Hs : s <> []) by (intros ->; destruct Hl).
    destruct (after_wf c d s HI Hw Hs) as (a & E & HS & _ & Hk & _). 
    apply first_seen_In in Hl. destruct (index_In _ _ Hl) as [Hi _].
    assert (HE : exists a1, param_inc c [y] (index l (firsts s)) a = (a1, Ok tt) /\ Shape c d a1).
    { assert (Hi' : index l (firsts s) < n_clusters a) by (rewrite Hk; exact Hi).
      destruct (kind_eq c kcSIL) as [->|Hc].
      - destruct (cSIL_one d y _ a HS Hi') as (a1 & E1 & HS1 & _). eauto.
      - rewrite (one_is_all c d) by auto.
        destruct (shape_old c d (repeat y d) (index l (firsts s)) a HS (repeat_length _ _) Hi' HI) as (a1 & E1 & HS1 & _). eauto. }
    destruct HE as (a1 & E1 & HS1). destruct (ev_total c d a1 HS1) as (a2 & E2 & E3 & _).
    rewrite E, get_lab, E1, E2. eexists; reflexivity.
  Qed.

  (** *** no trace *)
  Lemma known_no_trace c d (s : list (vec A * Z)) x l : inv_good (A := A) c d -> wf_stream d s -> In l (map snd s) ->
    d <> 1 -> length x <> d -> length x <> 1 ->
    get_cvi c (after c new_obj (stream s)) (Vec x) (Lab l) = (after c new_obj (stream s), Err ValueError).
  Proof.
    intros HI Hw Hl Hd Hx Hx1. assert (Hs : s <> []) by (intros ->; destruct Hl).
    destruct (after_wf c d s HI Hw Hs) as (a & -> & HS & HK & Hk & _).
    apply first_seen_In in Hl. destruct (index_In _ _ Hl) as [Hi _]. fold (firsts s) in *.
    rewrite get_lab, (old_no_trace c d) by (auto; rewrite Hk; exact Hi). unfold add_label. now destruct (in_dec Z.eq_dec l (firsts s)).
  Qed.
  Lemma new_only_label c d (s : list (vec A * Z)) x l : inv_good (A := A) c d -> wf_stream d s -> s <> [] -> ~ In l (map snd s) ->
    d <> 1 -> length x <> d -> length x <> 1 ->
    get_cvi c (after c new_obj (stream s)) (Vec x) (Lab l) =
      (mkObj (lmap (firsts s ++ [l])) (at_ (after c new_obj (stream s))), Err ValueError).
  Proof.
    intros HI Hw Hs Hl Hd Hx Hx1.
    destruct (after_wf c d s HI Hw Hs) as (a & -> & HS & HK & Hk & H0).
    assert (Hl' : ~ In l (firsts s)) by (intros H; apply Hl; exact (proj1 (first_seen_In _ _) H)).
    rewrite get_lab, index_notIn, <- Hk, (new_no_trace c d) by auto. unfold add_label. now destruct (in_dec Z.eq_dec l (firsts s)).
  Qed.

  (** calls whose labels are all in [ks] *)
  Definition known_call (ks : list Z) (k : call A) : Prop :=
    match k with (Vec _, Lab l) => In l ks | _ => True end.
  Lemma known_same c ks l (a : attrs A) k : is_setup a = true -> known_call ks k -> NoDup ks ->
    exists a' r, is_setup a' = true /\
      get_cvi c (mkObj (lmap ks) a) (fst k) (snd k) = (mkObj (lmap ks) a', r) /\
      get_cvi c (mkObj (lmap (ks ++ [l])) a) (fst k) (snd k) = (mkObj (lmap (ks ++ [l])) a', r).
  Proof.
    intros Hset Hk Hnd. destruct k as [[x|m|nd] lab]; cbn [fst snd].
    - destruct lab as [l'|ls]; cbn [known_call] in Hk.
      + rewrite !get_lab.
        assert (Ei : index l' (ks ++ [l]) = index l' ks).
        { clear -Hk. induction ks as [|b ks IH]; [destruct Hk|]. simpl. destruct (Z.eqb_spec b l'); auto.
          f_equal. apply IH. destruct Hk; [contradiction|auto]. }
        assert (E1 : add_label ks l' = ks) by (unfold add_label; now destruct (in_dec Z.eq_dec l' ks)).
        assert (E2 : add_label (ks ++ [l]) l' = ks ++ [l]).
        { unfold add_label. destruct (in_dec Z.eq_dec l' (ks ++ [l])) as [|H]; auto. exfalso. apply H, in_or_app; auto. }
        rewrite Ei, E1, E2. pose proof (inc_all c x (index l' ks) a) as H. unfold post in H.
        destruct H as (_ & H & _). specialize (H Hset).
        destruct (param_inc c x (index l' ks) a) as [a1 [[]|e]]; cbn [fst snd] in H.
        * pose proof (ev_all c a1) as H2. unfold post, ev_ok in H2.
          destruct (evaluate c a1) as [a2 [[]|e]]; cbn [fst snd] in H2; destruct H2 as [HF _];
            (do 2 eexists; split; [|split; reflexivity]); rewrite (fr_setup _ _ HF); exact H.
        * do 2 eexists. split; [|split; reflexivity]. exact H.
      + exists a, (Err TypeError). auto.
    - exists a, (Err ValueError). unfold get_cvi, update. cbn [at_ label_map]. rewrite Hset. auto.
    - exists a, (Err ValueError). auto.
  Qed.
  Lemma known_same_run c ks l h : Forall (known_call ks) h -> NoDup ks -> forall a : attrs A, is_setup a = true ->
    exists a', is_setup a' = true /\
      after c (mkObj (lmap ks) a) h = mkObj (lmap ks) a' /\
      after c (mkObj (lmap (ks ++ [l])) a) h = mkObj (lmap (ks ++ [l])) a' /\
      results c (mkObj (lmap (ks ++ [l])) a) h = results c (mkObj (lmap ks) a) h.
  Proof.
    intros Hh Hnd. induction Hh as [|k h Hk Hh IH]; intros a Ha.
    - exists a. auto.
    - destruct (known_same c ks l a k Ha Hk Hnd) as (a1 & r & Ha1 & E1 & E2).
      destruct (IH a1 Ha1) as (a2 & Ha2 & F1 & F2 & F3). exists a2. split; auto.
      destruct k as [dd ll]. cbn [fst snd] in *. unfold after, results in *. simpl. rewrite E1, E2.
      destruct (run c (mkObj (lmap ks) a1) h) as [o1 r1], (run c (mkObj (lmap (ks ++ [l])) a1) h) as [o2 r2].
      cbn [fst snd] in *. subst. auto.
  Qed.
  Lemma new_same_run c d (s : list (vec A * Z)) x l h y h2 : inv_good (A := A) c d -> wf_stream d s -> s <> [] ->
    ~ In l (map snd s) -> d <> 1 -> length x <> d -> length x <> 1 ->
    Forall (known_call (map snd s)) h ->
    results c new_obj (stream s ++ (Vec x, Lab l) :: h) =
      results c new_obj (stream s) ++ Err ValueError :: results c (after c new_obj (stream s)) h /\
    results c new_obj (stream s ++ (Vec x, Lab l) :: h ++ (Vec y, Lab l) :: h2) =
      results c new_obj (stream s) ++ Err ValueError :: results c (after c new_obj (stream s)) (h ++ (Vec y, Lab l) :: h2).
  Proof.
    intros HI Hw Hs Hl Hd Hx Hx1 Hh.
    pose proof (new_only_label c d s x l HI Hw Hs Hl Hd Hx Hx1) as E.
    destruct (after_wf c d s HI Hw Hs) as (a & Ea & HS & HK & Hk & H0). rewrite Ea in *. cbn [at_] in E.
    assert (Hh' : Forall (known_call (firsts s)) h).
    { eapply Forall_impl; [|exact Hh]. intros [[z|m|nd] [lb|ls]]; simpl; auto. intros. now apply first_seen_In. }
    destruct (known_same_run c (firsts s) l h Hh' (first_seen_NoDup _) a) as (a' & Ha' & F1 & F2 & F3).
    { apply Shape_init in HS. tauto. }
    rewrite !results_app, Ea. split.
    - f_equal. unfold results at 1. cbn [run]. rewrite E.
      destruct (run c (mkObj (lmap (firsts s ++ [l])) a) h) as [o2 r2] eqn:Er. cbn [snd]. f_equal.
      rewrite <- F3. unfold results. now rewrite Er.
    - f_equal. unfold results at 1. cbn [run]. rewrite E.
      destruct (run c (mkObj (lmap (firsts s ++ [l])) a) (h ++ (Vec y, Lab l) :: h2)) as [o2 r2] eqn:Er. cbn [snd]. f_equal.
      transitivity (results c (mkObj (lmap (firsts s ++ [l])) a) (h ++ (Vec y, Lab l) :: h2)); [unfold results; now rewrite Er|].
      rewrite !results_app, F3, F1, F2. f_equal.
      unfold results. cbn [run]. rewrite !get_lab.
      assert (Hl' : ~ In l (firsts s)) by (intros H; apply Hl; exact (proj1 (first_seen_In _ _) H)).
      assert (Ei : index l (firsts s ++ [l]) = index l (firsts s)).
      { rewrite (index_notIn l (firsts s)) by auto. clear -Hl'. revert Hl'. generalize (firsts s). intros ks Hl'. induction ks as [|b ks IH]; simpl; [now rewrite Z.eqb_refl|].
        destruct (Z.eqb_spec b l); [exfalso; apply Hl'; now left|]. f_equal. apply IH. intros H. apply Hl'. now right. }
      assert (E1 : add_label (firsts s) l = firsts s ++ [l]) by (unfold add_label; now destruct (in_dec Z.eq_dec l (firsts s))).
      assert (E2 : add_label (firsts s ++ [l]) l = firsts s ++ [l]).
      { unfold add_label. destruct (in_dec Z.eq_dec l (firsts s ++ [l])) as [|H]; auto. exfalso. apply H, in_or_app; right; now left. }
      rewrite Ei, E1, E2. reflexivity.
  Qed.

  (** *** the trace: the next new label *)
  Lemma D_next_bad k (m : mat A) f : wfm k k m -> 0 < k -> (forall j, j < k -> exists g, f j = Ok g) ->
    D_new_cluster k (k + 1) m f = Err IndexError.
  Proof.
    intros Hm Hk Hf. unfold D_new_cluster. replace (k =? 0) with false by (symmetry; apply Nat.eqb_neq; lia).
    rewrite (grow_ok _ _ Hm) by lia. cbn [bindE].
    destruct (mapE f (seq 0 k)) as [ys|e] eqn:Em.
    - cbn [bindE]. unfold set_row, nrows. cbn [tab2 mrows]. rewrite map_length, seq_length.
      replace (k + 1 <? S k) with false by (symmetry; apply Nat.ltb_ge; lia). reflexivity.
    - exfalso. destruct (table (fun j g => f j = Ok g) k f0 Hf) as [g Hg].
      rewrite (mapE_ok f g) in Em; [discriminate|]. intros j Hj. apply in_seq in Hj. apply Hg. lia.
  Qed.
  Definition keeps_matrix (c : kind) : Prop := c <> kCH /\ c <> kWB.
  Lemma next_new_bad c d y (o : attrs A) : keeps_matrix c -> Shape c d o -> inv_good (A := A) c d -> 0 < n_clusters o -> length y = d ->
    post (param_inc c y (n_clusters o + 1)) o (fun _ r => r = Err IndexError).
  Proof.
    intros [Hc1 Hc2] HS HI Hk Hy.
    assert (E0 : (n_samples o =? 0) = false) by (apply Nat.eqb_neq; apply Shape_init in HS; lia).
    assert (Ek : (n_clusters o <=? n_clusters o + 1) = true) by (apply Nat.leb_le; lia).
    assert (Hv : wfm (n_clusters o) d (v o)) by (apply Shape_init in HS; tauto).
    assert (Hn : length (n o) = n_clusters o) by (apply Shape_init in HS; tauto).
    unfold post.
    destruct c; try congruence; cbn [Shape param_inc] in *;
      repeat match goal with H : _ /\ _ |- _ => destruct H end;
      try match goal with H : ShapeG _ _ |- _ => pose proof (sg_mu _ _ H); pose proof (sg_CP _ _ H) end.
    - unfold DB_param_inc. sx. rewrite E0. sx. lift1; sx. rewrite Ek. sx. rewrite (bind_lift_err _ IndexError); auto.
      apply D_next_bad; auto. intros j Hj. eexists. apply (DB_term_ok d); auto.
    - unfold XB_param_inc. sx. rewrite E0. sx. lift1; sx. rewrite Ek. sx. rewrite (bind_lift_err _ IndexError); auto.
      apply D_next_bad; auto. intros j Hj. eexists. apply (XB_term_ok d); auto.
    - unfold GD43_param_inc. sx. rewrite E0. sx. lift1; sx. rewrite Ek. sx. rewrite (bind_lift_err _ IndexError); auto.
      apply D_next_bad; auto. intros j Hj. eexists. apply (GD43_term_ok d); auto.
    - unfold GD53_param_inc. sx. rewrite E0. sx. lift1; sx. rewrite Ek. sx. rewrite (bind_lift_err _ IndexError); auto.
      apply D_next_bad; auto. intros j Hj. eexists. apply GD53_term_ok; auto.
    - unfold PS_param_inc. sx. rewrite E0. sx. rewrite Ek. sx. rewrite (bind_lift_err _ IndexError); auto.
      apply D_next_bad; [apply (sp_D d); auto|auto|]. intros j Hj. eexists. apply (sqdist_ok d (n_clusters o)); auto.
    - unfold rCIP_param_inc. sx. rewrite E0. sx. rewrite Ek. sx. rewrite (bind_lift_err _ IndexError); auto.
      destruct (HI eq_refl) as [Hd Ht]. destruct HS. apply D_next_bad; auto.
      intros j Hj. apply (rCIP_term_total d (n_clusters o)); auto. red_attrs. rewrite sr_delta. apply wfm_delta.
    - unfold cSIL_param_inc. sx. rewrite E0. sx. rewrite Ek. sx. lift1. sx.
      destruct HS. replace (n_clusters o =? 0) with false by (symmetry; apply Nat.eqb_neq; lia). sx.
      rewrite (bind_lift _ _ _ _ (grow_ok _ _ ss_S ltac:(lia))). sx.
      rewrite (bind_lift _ (map (fun j => (sil_col_new o y j, sil_row_new o y j)) (seq 0 (n_clusters o)))).
      2:{ apply mapE_ok. intros j Hj. apply in_seq in Hj.
          rewrite (sil_col_new_ok d (n_clusters o)) by (auto; lia). cbn [bindE].
          rewrite (sil_row_new_ok d (n_clusters o)) by (auto; lia). reflexivity. }
      sx. rewrite (bind_lift_err _ IndexError); auto. unfold set_item.
      rewrite app_length, !map_length, seq_length. simpl. now rewrite Nat.ltb_irrefl.
  Qed.
  Lemma next_new_raises c d (s : list (vec A * Z)) x l y l2 : keeps_matrix c -> inv_good (A := A) c d -> wf_stream d s -> s <> [] ->
    ~ In l (map snd s) -> ~ In l2 (map snd s) -> l2 <> l -> d <> 1 -> length x <> d -> length x <> 1 -> length y = d ->
    results c new_obj (stream (s ++ [(x, l); (y, l2)])) = results c new_obj (stream s) ++ [Err ValueError; Err IndexError].
  Proof.
    intros Hc HI Hw Hs Hl Hl2 Hll Hd Hx Hx1 Hy.
    pose proof (new_only_label c d s x l HI Hw Hs Hl Hd Hx Hx1) as E.
    destruct (after_wf c d s HI Hw Hs) as (a & Ea & HS & HK & Hk & H0). rewrite Ea in E. cbn [at_] in E.
    rewrite stream_app, results_app, Ea. f_equal. unfold results. cbn [stream map run fst snd]. rewrite E, get_lab.
    assert (Hi : index l2 (firsts s ++ [l]) = n_clusters a + 1).
    { rewrite index_notIn, app_length, Hk; auto. rewrite in_app_iff. intros [H|[H|[]]]; auto. apply Hl2. exact (proj1 (first_seen_In _ _) H). }
    rewrite Hi. pose proof (next_new_bad c d y a Hc HS HI H0 Hy) as H. unfold post in H.
    destruct (param_inc c y (n_clusters a + 1) a) as [a1 r]. cbn [fst snd] in H. subst r. reflexivity.
  Qed.

  (** CH and WB look only at whether the number is below _n_clusters *)
  Lemma number_past_end c x i (o : attrs A) : c = kCH \/ c = kWB -> n_samples o <> 0 -> n_clusters o <= i ->
    param_inc c x i o = param_inc c x (n_clusters o) o.
  Proof.
    intros Hc H0 Hi. assert (E0 : (n_samples o =? 0) = false) by now apply Nat.eqb_neq.
    assert (E1 : (n_clusters o <=? i) = true) by now apply Nat.leb_le.
    destruct Hc as [-> | ->]; cbn [param_inc].
    - unfold CH_param_inc. sx. rewrite E0. sx. apply bind_lift_ext. intros r _. sx. rewrite E1, Nat.leb_refl. reflexivity.
    - unfold WB_param_inc. sx. rewrite E0. sx. apply bind_lift_ext. intros r _. sx. rewrite E1, Nat.leb_refl. reflexivity.
  Qed.
  Lemma next_new_split c d (s : list (vec A * Z)) x l y z l2 l3 : c = kCH \/ c = kWB -> wf_stream d s -> s <> [] ->
    ~ In l (map snd s) -> ~ In l2 (map snd s) -> ~ In l3 (map snd s) -> l2 <> l -> l3 <> l2 ->
    d <> 1 -> length x <> d -> length x <> 1 -> length y = d -> length z = d ->
    results c new_obj (stream (s ++ [(x, l); (y, l2); (z, l2)])) =
    results c new_obj (stream s) ++ Err ValueError :: skipn (length s) (results c new_obj (stream (s ++ [(y, l2); (z, l3)]))).
  Proof.
    intros Hc Hw Hs Hl Hl2 Hl3 Hll Hll3 Hd Hx Hx1 Hy Hz.
    assert (HI : inv_good (A := A) c d) by (intros ->; destruct Hc; discriminate).
    pose proof (new_only_label c d s x l HI Hw Hs Hl Hd Hx Hx1) as E.
    destruct (after_wf c d s HI Hw Hs) as (a & Ea & HS & HK & Hk & H0). rewrite Ea in E. cbn [at_] in E.
    rewrite !stream_app, !results_app, Ea. f_equal.
    rewrite skipn_app, results_length. unfold stream at 3. rewrite map_length, Nat.sub_diag, skipn_O.
    rewrite skipn_all2 by (rewrite results_length; unfold stream; now rewrite map_length). cbn [app].
    unfold results. cbn [stream map run fst snd]. rewrite E, !get_lab.
    assert (N : forall lb, ~ In lb (map snd s) -> ~ In lb (firsts s)) by (intros lb H H'; apply H; exact (proj1 (first_seen_In _ _) H')).
    assert (Hi : index l2 (firsts s ++ [l]) = n_clusters a + 1).
    { rewrite index_notIn, app_length, Hk; auto. rewrite in_app_iff. intros [H|[H|[]]]; auto. now apply (N l2). }
    assert (Hi2 : index l2 (firsts s) = n_clusters a) by (rewrite index_notIn, Hk; auto).
    assert (A1 : add_label (firsts s ++ [l]) l2 = firsts s ++ [l; l2]).
    { unfold add_label. destruct (in_dec Z.eq_dec l2 (firsts s ++ [l])) as [H|_]; [|now rewrite <- app_assoc].
      exfalso. rewrite in_app_iff in H. destruct H as [H|[H|[]]]; auto. now apply (N l2). }
    assert (A2 : add_label (firsts s) l2 = firsts s ++ [l2]).
    { unfold add_label. destruct (in_dec Z.eq_dec l2 (firsts s)) as [H|_]; auto. exfalso. now apply (N l2). }
    rewrite Hi, Hi2, A1, A2, (number_past_end c y (n_clusters a + 1)) by (auto; try lia; apply Shape_init in HS; lia).
    destruct (shape_new c d y a (or_intror HS) Hy HI) as (a1 & E1 & HS1 & C1 & N1).
    destruct (ev_total c d a1 HS1) as (a2 & E2 & E3 & FR). rewrite E1, E2, !get_lab.
    assert (HS2 : Shape c d a2) by (eapply Shape_frame; eauto).
    assert (K2 : n_clusters a2 = n_clusters a + 1) by (rewrite (fr_k _ _ FR), (cn_k _ _ _ _ N1); auto).
    assert (Hj : index l2 (firsts s ++ [l; l2]) = n_clusters a2).
    { rewrite K2, Hk. clear -N Hl2 Hll. specialize (N l2 Hl2). induction (firsts s) as [|b ks IH]; simpl.
      - destruct (Z.eqb_spec l l2); [congruence|]. now rewrite Z.eqb_refl.
      - destruct (Z.eqb_spec b l2); [exfalso; apply N; now left|]. f_equal. apply IH. intros H. apply N. now right. }
    assert (Hj2 : index l3 (firsts s ++ [l2]) = n_clusters a2).
    { rewrite index_notIn, app_length, K2, Hk; auto. rewrite in_app_iff. intros [H|[H|[]]]; [now apply (N l3)|congruence]. }
    rewrite Hj, Hj2.
    destruct (shape_new c d z a2 (or_intror HS2) Hz HI) as (a3 & E4 & HS3 & _).
    destruct (ev_total c d a3 HS3) as (a4 & E5 & _). rewrite E4, E5. reflexivity.
  Qed.
End WrongLen.
