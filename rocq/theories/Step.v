(** * One incremental update, free of exceptions on well-shaped objects.

    For every arithmetic: on an object whose arrays have consistent shapes and a
    sample of the right length, [_param_inc] does not raise and its effect on
    the attributes is given by closed expressions. *)
From Coq Require Import ZArith List Arith Bool Lia.
From Verif Require Import Num NumPy Base M_CH M_D M_PS GetCvi Lists.
Import ListNotations.

Section Monad.
  Context {A : Arith}.
  Lemma bind_get {X} (k : attrs A -> M A X) o : bind get k o = k o o.
  Proof. reflexivity. Qed.
  Lemma bind_modify {X} f (k : unit -> M A X) o : bind (modify f) k o = k tt (f o).
  Proof. reflexivity. Qed.
  Lemma bind_ret {X Y} (x : X) (k : X -> M A Y) o : bind (ret x) k o = k x o.
  Proof. reflexivity. Qed.
  Lemma bind_raise {X Y} e (k : X -> M A Y) o : bind (raise e) k o = (o, Err e).
  Proof. reflexivity. Qed.
  Lemma bind_lift {X Y} (e : E X) x (k : X -> M A Y) o : e = Ok x -> bind (lift e) k o = k x o.
  Proof. now intros ->. Qed.
  Lemma bind_lift_err {X Y} (e : E X) ex (k : X -> M A Y) o :
    e = Err ex -> bind (lift e) k o = (o, Err ex).
  Proof. now intros ->. Qed.
  Lemma bind_assoc {X Y Z} (m : M A X) (k : X -> M A Y) (h : Y -> M A Z) o :
    bind (bind m k) h o = bind m (fun x => bind (k x) h) o.
  Proof. unfold bind. destruct (m o) as [o' [x|e]]; reflexivity. Qed.
  Lemma bind_ok {X Y} (m : M A X) (k : X -> M A Y) o o' x :
    m o = (o', Ok x) -> bind m k o = k x o'.
  Proof. intros H. unfold bind. now rewrite H. Qed.
End Monad.

(** projections and setters *)
Ltac red_attrs :=
  cbn [dim n_samples n n_array v CP CP_deleted G n_clusters criterion_value is_setup mu SEP BGSS
       WGSS D R S1 S2 sil_coefs inter intra sigma delta_term constant v_bar beta_t PS_i
       set_dim set_n_samples set_n set_n_array set_v set_CP set_CP_deleted set_G set_n_clusters
       set_criterion_value set_is_setup set_mu set_SEP set_BGSS set_WGSS set_D set_R
       set_S1 set_S2 set_sil_coefs set_inter set_intra set_sigma set_delta_term
       set_constant set_v_bar set_beta_t set_PS_i
       init_attrs Nat.eqb Nat.leb app Nat.add zmat repeat mcols mrows].

Section Pure.
  Context {A : Arith}.
  (** the running mean as a plain vector expression *)
  Definition rmean (n_new : nat) (m x : vec A) : vec A :=
    map2 fadd (scal (fsub f1 (fdiv f1 (f_of_nat n_new))) m)
              (sscal (fdiv f1 (f_of_nat n_new)) x).
  Lemma rmean_length k m x : length m = length x -> length (rmean k m x) = length x.
  Proof. intros H. unfold rmean. rewrite length_map2, length_scal, length_sscal, H. lia. Qed.
  Lemma running_mean_ok k (m x : vec A) : length m = length x ->
    running_mean k m x = Ok (rmean k m x).
  Proof. intros H. apply vadd_ok. now rewrite length_scal, length_sscal. Qed.
  (** the same for [_mu] *)
  Definition srmean (n_new : nat) (m x : vec A) : vec A :=
    map2 sadd (sscal (fsub f1 (fdiv f1 (f_of_nat n_new))) m)
              (sscal (fdiv f1 (f_of_nat n_new)) x).
  Lemma srmean_length k m x : length m = length x -> length (srmean k m x) = length x.
  Proof. intros H. unfold srmean. rewrite length_map2, !length_sscal, H. lia. Qed.
  Lemma srunning_mean_ok k (m x : vec A) : length m = length x ->
    srunning_mean k m x = Ok (srmean k m x).
  Proof. intros H. apply svadd_ok. now rewrite !length_sscal. Qed.

  Lemma plain_srmean (H : Plain A) k m x : srmean k m x = rmean k m x.
  Proof. unfold srmean, rmean. now rewrite !(plain_sscal H), (pl_add _ H). Qed.

  (** centroid, scatter and gradient of a cluster of [ni] samples after [x] joined *)
  Definition v_upd (ni : nat) (vi x : vec A) := rmean (ni + 1) vi x.
  Definition cp_upd (ni : nat) (vi : vec A) (cpi : F A) (gi x : vec A) : F A :=
    let vn := v_upd ni vi x in
    let dv := map2 fsub vi vn in
    let dx := map2 fsub x vn in
    fadd (fadd (fadd cpi (np_dot dx dx)) (fmul (f_of_nat ni) (np_dot dv dv)))
         (fmul f2 (np_dot dv gi)).
  Definition g_upd (ni : nat) (vi gi x : vec A) : vec A :=
    let vn := v_upd ni vi x in
    map2 fadd (map2 fadd gi (map2 fsub x vn)) (scal (f_of_nat ni) (map2 fsub vi vn)).

  Definition vrow (o : attrs A) i : vec A := nth i (mrows (v o)) [].
  Definition grow_ (o : attrs A) i : vec A := nth i (mrows (G o)) [].
  Definition nn (o : attrs A) i : nat := nth i (n o) 0.
  Definition cpi (o : attrs A) i : F A := nth i (CP o) f0.

  Definition sqd (a b : vec A) : F A := np_sumsq (map2 fsub a b).

  (** the matrix after a cluster with terms [f] against the others joined / changed *)
  Definition D_app (k : nat) (e : nat -> nat -> F A) (f : nat -> F A) : mat A :=
    tab2 (S k) (S k) (fun a b => if b =? k then (if a =? k then f0 else f a)
                                 else if a =? k then f b else e a b).
  Definition D_set (k i : nat) (e : nat -> nat -> F A) (f : nat -> F A) : mat A :=
    tab2 k k (fun a b => if b =? i then (if a =? i then f0 else f a)
                         else if a =? i then f b else e a b).

  Lemma D_new_cluster_0 i (m : mat A) f : D_new_cluster 0 i m f = Ok (zmat 1 1).
  Proof. reflexivity. Qed.

  Lemma D_new_cluster_ok k (m : mat A) f g : wfm k k m ->
    (forall j, j < k -> f j = Ok (g j)) ->
    D_new_cluster k k m f = Ok (D_app k (entry m) g).
  Proof.
    intros H Hf. unfold D_new_cluster. destruct (Nat.eqb_spec k 0) as [->|Hk]; [reflexivity|].
    rewrite (grow_ok _ _ H Hk). cbn [bindE].
    rewrite (mapE_ok _ g) by (intros j Hj; apply in_seq in Hj; apply Hf; lia). cbn [bindE].
    assert (Hc : length (map g (seq 0 k) ++ [f0]) = S k)
      by (rewrite app_length, map_length, seq_length; simpl; lia).
    set (T := tab2 (S k) (S k) _).
    assert (HT : wfm (S k) (S k) T) by apply wfm_tab2.
    rewrite (set_row_ok (S k) (S k) T k _ HT (Nat.lt_succ_diag_r k) Hc). cbn [bindE].
    rewrite (set_col_ok (S k) (S k) _ k _ (wfm_upd _ _ _ _ _ HT Hc) (Nat.lt_succ_diag_r k) Hc).
    f_equal. cbn [mrows].
    rewrite (set_row_col (S k) T k _ HT (Nat.lt_succ_diag_r k) Hc).
    apply tab2_ext. intros a b Ha Hb.
    assert (Hn : forall j, j < S k -> nth j (map g (seq 0 k) ++ [f0]) f0 = if j =? k then f0 else g j).
    { intros j Hj. destruct (Nat.eqb_spec j k) as [->|Hjk].
      - rewrite app_nth2; rewrite map_length, seq_length; [|lia]. now rewrite Nat.sub_diag.
      - rewrite app_nth1 by (rewrite map_length, seq_length; lia). apply nth_map_seq. lia. }
    rewrite !Hn by auto.
    destruct (Nat.eqb_spec b k); auto. destruct (Nat.eqb_spec a k); auto.
    unfold T. rewrite entry_tab2 by lia.
    destruct (Nat.ltb_spec a k); [|lia]. destruct (Nat.ltb_spec b k); [|lia]. reflexivity.
  Qed.

  Lemma D_old_column_ok k i f g : (forall j, j < k -> j <> i -> f j = Ok (g j)) ->
    D_old_column k i f = Ok (map (fun j => if j =? i then f0 else g j : F A) (seq 0 k)).
  Proof.
    intros H. apply mapE_ok. intros j Hj. apply in_seq in Hj.
    destruct (Nat.eqb_spec j i); auto. apply H; lia.
  Qed.

  Lemma D_set_ok k i (m : mat A) g : wfm k k m -> i < k ->
    let c := map (fun j => if j =? i then f0 else g j) (seq 0 k) in
    set_row m i c = Ok (mkMat k (upd i c (mrows m))) /\
    set_col (mkMat k (upd i c (mrows m))) i c = Ok (D_set k i (entry m) g).
  Proof.
    intros H Hi c. assert (Hc : length c = k) by (unfold c; now rewrite map_length, seq_length).
    split; [now apply (set_row_ok k k)|].
    rewrite (set_col_ok k k); auto; [|now apply wfm_upd]. f_equal. cbn [mrows].
    rewrite (set_row_col k m i c H Hi Hc). apply tab2_ext. intros a b Ha Hb.
    unfold c. rewrite !nth_map_seq by auto.
    destruct (Nat.eqb_spec b i); auto.
  Qed.
End Pure.

(** symbolic execution of a method *)
Ltac lens := repeat (rewrite ?length_map2, ?length_scal, ?length_sscal, ?rmean_length, ?srmean_length, ?length_zeros); simpl; try lia; auto.
Ltac sx := repeat (progress (rewrite ?bind_assoc, ?bind_get, ?bind_modify, ?bind_ret; red_attrs)).

Section Steps.
  Context {A : Arith}.

  (** shapes shared by CH, WB, DB, XB, GD43 and GD53 *)
  Record ShapeG (d : nat) (o : attrs A) : Prop := mkShapeG {
    sg_ns : 0 < n_samples o;
    sg_dim : dim o = d;
    sg_setup : is_setup o = true;
    sg_n : length (n o) = n_clusters o;
    sg_v : wfm (n_clusters o) d (v o);
    sg_CP : length (CP o) = n_clusters o;
    sg_G : wfm (n_clusters o) d (G o);
    sg_mu : length (mu o) = d;
    sg_na : n_array o = false
  }.

  (** what every class does to sizes and centroids *)
  Record Common (d : nat) (x : vec A) (o o' : attrs A) : Prop := mkCommon {
    cm_ns : n_samples o' = n_samples o + 1;
    cm_dim : dim o' = d;
    cm_setup : is_setup o' = true;
    cm_cv : criterion_value o' = criterion_value o;
    cm_na : n_array o' = false
  }.
  Record CommonNew (d : nat) (x : vec A) (o o' : attrs A) : Prop := mkCommonNew {
    cn_k : n_clusters o' = n_clusters o + 1;
    cn_n : n o' = n o ++ [1];
    cn_v : v o' = mkMat d (mrows (v o) ++ [x])
  }.
  Record CommonOld (d : nat) (x : vec A) (i : nat) (o o' : attrs A) : Prop := mkCommonOld {
    co_k : n_clusters o' = n_clusters o;
    co_n : n o' = upd i (nn o i + 1) (n o);
    co_v : v o' = mkMat d (upd i (v_upd (nn o i) (vrow o i) x) (mrows (v o)))
  }.
  Record GNew (d : nat) (x : vec A) (o o' : attrs A) : Prop := mkGNew {
    gn_CP : CP o' = CP o ++ [f0];
    gn_G : G o' = mkMat d (mrows (G o) ++ [zeros d])
  }.
  Record GOld (d : nat) (x : vec A) (i : nat) (o o' : attrs A) : Prop := mkGOld {
    go_CP : CP o' = upd i (cp_upd (nn o i) (vrow o i) (cpi o i) (grow_ o i) x) (CP o);
    go_G : G o' = mkMat d (upd i (g_upd (nn o i) (vrow o i) (grow_ o i) x) (mrows (G o)))
  }.
  Definition sep_of (o : attrs A) : vec A :=
    map (fun ix => fmul (f_of_nat (nn o ix)) (py_sumsq (map2 fsub (vrow o ix) (mu o))))
        (seq 0 (n_clusters o)).

  Lemma sep_ok d o : length (n o) = n_clusters o -> wfm (n_clusters o) d (v o) -> length (mu o) = d ->
    mapE (fun ix => let* n_ix := get_item (n o) ix in
                    let* v_ix := row (v o) ix in
                    let* df := vsub v_ix (mu o) in
                    Ok (fmul (f_of_nat n_ix) (py_sumsq df))) (seq 0 (n_clusters o))
    = Ok (sep_of o).
  Proof.
    intros H1 H2 H3. apply mapE_ok. intros i Hi. apply in_seq in Hi.
    rewrite (get_item_ok _ _ 0) by lia. cbn [bindE].
    rewrite (row_ok _ _ _ _ H2) by lia. cbn [bindE].
    rewrite vsub_ok; [reflexivity|]. rewrite (wfm_row _ _ _ _ H2) by lia. auto.
  Qed.


  Definition mu_upd (x : vec A) (o : attrs A) : vec A :=
    if n_samples o =? 0 then x else srmean (n_samples o + 1) (mu o) x.

  Ltac lift1 := match goal with
    | H : n_array _ = false |- context [if n_array _ then _ else _] => rewrite H
    | |- context [bind (lift ?e) _ _] =>
        first
        [ erewrite (bind_lift (vstack _ _)) by (eapply vstack_ok; [eassumption || apply wfm_zmat|solve [lens]])
        | erewrite (bind_lift (running_mean _ _ _)) by (apply running_mean_ok; solve [lens])
        | erewrite (bind_lift (srunning_mean _ _ _)) by (apply srunning_mean_ok; solve [lens])
        | erewrite (bind_lift (vsub _ _)) by (apply vsub_ok; solve [lens])
        | erewrite (bind_lift (vadd _ _)) by (apply vadd_ok; solve [lens])
        | erewrite (bind_lift (inner _ _)) by (apply inner_ok; solve [lens])
        | erewrite (bind_lift (get_item _ _)) by (apply (get_item_ok _ _ f0); solve [lens])
        | erewrite (bind_lift (get_item _ _)) by (apply (get_item_ok _ _ 0); solve [lens])
        | erewrite (bind_lift (set_item _ _ _)) by (apply set_item_ok; solve [lens])
        | erewrite (bind_lift (row _ _)) by (eapply row_ok; [eassumption|solve [lens]])
        | erewrite (bind_lift (set_row _ _ _)) by (eapply set_row_ok; [eassumption|solve [lens]|solve [lens]])
        ]
    end.

  Ltac wfm_tac := solve
    [ assumption | apply wfm_zmat
    | rewrite ?Nat.add_1_r; apply wfm_snoc; [assumption|lens]
    | apply wfm_upd; [assumption|lens]
    | repeat split; simpl; repeat constructor; lens ].
  Ltac sepx d := match goal with
    | |- context [bind (lift ?e) _ ?o] =>
        rewrite (bind_lift e (sep_of o)) by
          (apply (sep_ok d o); red_attrs; rewrite ?app_length, ?length_upd; solve [lens | wfm_tac])
    end.
  Ltac facts := repeat match goal with
    | |- _ /\ _ => split
    | |- Common _ _ _ _ => constructor
    | |- CommonNew _ _ _ _ => constructor
    | |- CommonOld _ _ _ _ _ => constructor
    | |- GNew _ _ _ _ => constructor
    | |- GOld _ _ _ _ _ => constructor
    end; red_attrs; try reflexivity; auto.

  (** ** CH *)
  Lemma CH_new d x o : o = init_attrs \/ ShapeG d o -> length x = d -> exists o',
    CH_param_inc x (n_clusters o) o = (o', Ok tt) /\
    Common d x o o' /\ CommonNew d x o o' /\ GNew d x o o' /\ mu o' = mu_upd x o /\ SEP o' = sep_of o'.
  Proof.
    intros [->|[H1 H2 H3 H4 H5 H6 H7 H8 Hna]] Hx.
    - subst d. unfold CH_param_inc, append_n, CH_setup, base_setup. sx.
      repeat (lift1; sx).
      sepx (length x). eexists; split; [reflexivity|]. facts.
    - assert (E0 : (n_samples o =? 0) = false) by (apply Nat.eqb_neq; lia).
      unfold CH_param_inc, append_n, mu_upd. sx. rewrite E0. sx. lift1. sx. rewrite Nat.leb_refl. sx.
      repeat (lift1; sx).
      sepx d.
      eexists; split; [reflexivity|]. facts; rewrite H2; auto.
  Qed.

  Lemma CH_old d x i o : ShapeG d o -> length x = d -> i < n_clusters o -> exists o',
    CH_param_inc x i o = (o', Ok tt) /\
    Common d x o o' /\ CommonOld d x i o o' /\ GOld d x i o o' /\ mu o' = mu_upd x o /\ SEP o' = sep_of o'.
  Proof.
    intros [H1 H2 H3 H4 H5 H6 H7 H8 Hna] Hx Hi.
    assert (E0 : (n_samples o =? 0) = false) by (apply Nat.eqb_neq; lia).
    assert (Ek : (n_clusters o <=? i) = false) by (apply Nat.leb_gt; lia).
    pose proof (wfm_row _ _ _ _ H5 Hi) as Lv. pose proof (wfm_row _ _ _ _ H7 Hi) as LG.
    unfold CH_param_inc, append_n, mu_upd. sx. rewrite E0. sx. lift1. sx. rewrite Ek. sx.
    repeat (lift1; sx).
    sepx d.
    eexists; split; [reflexivity|]. facts; rewrite H2; auto.
  Qed.

  (** ** WB *)
  Lemma WB_new d x o : o = init_attrs \/ ShapeG d o -> length x = d -> exists o',
    WB_param_inc x (n_clusters o) o = (o', Ok tt) /\
    Common d x o o' /\ CommonNew d x o o' /\ GNew d x o o' /\ mu o' = mu_upd x o /\ SEP o' = sep_of o'.
  Proof.
    intros [->|[H1 H2 H3 H4 H5 H6 H7 H8 Hna]] Hx.
    - subst d. unfold WB_param_inc, append_n, WB_setup, base_setup. sx.
      repeat (lift1; sx).
      sepx (length x). eexists; split; [reflexivity|]. facts.
    - assert (E0 : (n_samples o =? 0) = false) by (apply Nat.eqb_neq; lia).
      unfold WB_param_inc, append_n, mu_upd. sx. rewrite E0. sx. lift1. sx. rewrite Nat.leb_refl. sx.
      repeat (lift1; sx).
      sepx d.
      eexists; split; [reflexivity|]. facts; rewrite H2; auto.
  Qed.

  Lemma WB_old d x i o : ShapeG d o -> length x = d -> i < n_clusters o -> exists o',
    WB_param_inc x i o = (o', Ok tt) /\
    Common d x o o' /\ CommonOld d x i o o' /\ GOld d x i o o' /\ mu o' = mu_upd x o /\ SEP o' = sep_of o'.
  Proof.
    intros [H1 H2 H3 H4 H5 H6 H7 H8 Hna] Hx Hi.
    assert (E0 : (n_samples o =? 0) = false) by (apply Nat.eqb_neq; lia).
    assert (Ek : (n_clusters o <=? i) = false) by (apply Nat.leb_gt; lia).
    pose proof (wfm_row _ _ _ _ H5 Hi) as Lv. pose proof (wfm_row _ _ _ _ H7 Hi) as LG.
    unfold WB_param_inc, append_n, mu_upd. sx. rewrite E0. sx. lift1. sx. rewrite Ek. sx.
    repeat (lift1; sx).
    sepx d.
    eexists; split; [reflexivity|]. facts; rewrite H2; auto.
  Qed.

  (** ** the pairwise terms as plain expressions *)
  Definition DBt (o : attrs A) (vn : vec A) (cpn : F A) (nnew j : nat) : F A := sqd vn (vrow o j).
  Definition XBt (o : attrs A) (vn : vec A) (cpn : F A) (nnew j : nat) : F A := sqd vn (vrow o j).
  Definition GD43t (o : attrs A) (vn : vec A) (cpn : F A) (nnew j : nat) : F A := fsqrt (sqd vn (vrow o j)).
  Definition GD53t (o : attrs A) (vn : vec A) (cpn : F A) (nnew j : nat) : F A :=
    fdiv (fadd cpn (cpi o j)) (f_of_nat (nnew + nn o j)).

  Lemma sqdist_ok d k vn (m : mat A) j : wfm k d m -> length vn = d -> j < k ->
    sqdist_to vn m j = Ok (sqd vn (nth j (mrows m) [])).
  Proof.
    intros H Hv Hj. unfold sqdist_to. rewrite (row_ok _ _ _ _ H Hj). cbn [bindE].
    rewrite vsub_ok; [reflexivity|]. now rewrite (wfm_row _ _ _ _ H Hj).
  Qed.
  Lemma DB_term_ok d vn cpn nnew o j : wfm (n_clusters o) d (v o) -> length vn = d ->
    j < n_clusters o -> DB_term o vn cpn nnew j = Ok (DBt o vn cpn nnew j).
  Proof. intros. now apply sqdist_ok with (d := d) (k := n_clusters o). Qed.
  Lemma XB_term_ok d vn cpn nnew o j : wfm (n_clusters o) d (v o) -> length vn = d ->
    j < n_clusters o -> XB_term o vn cpn nnew j = Ok (XBt o vn cpn nnew j).
  Proof. intros. now apply sqdist_ok with (d := d) (k := n_clusters o). Qed.
  Lemma GD43_term_ok d vn cpn nnew o j : wfm (n_clusters o) d (v o) -> length vn = d ->
    j < n_clusters o -> GD43_term o vn cpn nnew j = Ok (GD43t o vn cpn nnew j).
  Proof. intros. unfold GD43_term. now rewrite (sqdist_ok d (n_clusters o)). Qed.
  Lemma GD53_term_ok vn cpn nnew o j : length (CP o) = n_clusters o -> length (n o) = n_clusters o ->
    j < n_clusters o -> GD53_term o vn cpn nnew j = Ok (GD53t o vn cpn nnew j).
  Proof.
    intros. unfold GD53_term. rewrite (get_item_ok _ _ f0) by lia. cbn [bindE].
    rewrite (get_item_ok _ _ 0) by lia. reflexivity.
  Qed.

  Ltac liftD g := match goal with
    | |- context [bind (lift (D_new_cluster ?k ?i ?m ?f)) _ _] =>
        rewrite (bind_lift (D_new_cluster k i m f) (D_app k (entry m) g))
          by (apply D_new_cluster_ok; [wfm_tac|intros j Hj; g_ok])
    | |- context [bind (lift (D_old_column ?k ?i ?f)) _ _] =>
        rewrite (bind_lift (D_old_column k i f) (map (fun j => if j =? i then f0 else g j) (seq 0 k)))
          by (apply D_old_column_ok; intros j Hj Hji; g_ok)
    end
  with g_ok := first
    [ etransitivity; [eapply DB_term_ok; red_attrs|reflexivity]; [eassumption|solve [lens]|assumption]
    | etransitivity; [eapply XB_term_ok; red_attrs|reflexivity]; [eassumption|solve [lens]|assumption]
    | etransitivity; [eapply GD43_term_ok; red_attrs|reflexivity]; [eassumption|solve [lens]|assumption]
    | etransitivity; [eapply GD53_term_ok; red_attrs|reflexivity]; [solve [lens]|solve [lens]|assumption]
    | exfalso; simpl in *; lia ].

  (** ** DB *)
  Lemma DB_new d x o :
    o = init_attrs \/ (ShapeG d o /\ wfm (n_clusters o) (n_clusters o) (D o) /\ length (S1 o) = n_clusters o) ->
    length x = d -> exists o',
    DB_param_inc x (n_clusters o) o = (o', Ok tt) /\
    Common d x o o' /\ CommonNew d x o o' /\ GNew d x o o' /\ mu o' = mu_upd x o /\
    D o' = D_app (n_clusters o) (entry (D o)) (DBt o x f0 1) /\ S1 o' = S1 o ++ [f0].
  Proof.
    intros [->|[[H1 H2 H3 H4 H5 H6 H7 H8 Hna] [HD HS]]] Hx.
    - subst d. unfold DB_param_inc, append_n, DB_setup, base_setup. sx.
      liftD (DBt init_attrs x f0 1). sx.
      repeat (lift1; sx).
      eexists; split; [reflexivity|]. facts.
    - assert (E0 : (n_samples o =? 0) = false) by (apply Nat.eqb_neq; lia).
      unfold DB_param_inc, append_n, mu_upd. sx. rewrite E0. sx. lift1. sx. rewrite Nat.leb_refl. sx.
      liftD (DBt o x f0 1). sx.
      repeat (lift1; sx).
      eexists; split; [reflexivity|]. facts; rewrite H2; auto.
  Qed.

  Lemma DB_old d x i o :
    ShapeG d o /\ wfm (n_clusters o) (n_clusters o) (D o) /\ length (S1 o) = n_clusters o ->
    length x = d -> i < n_clusters o -> exists o',
    DB_param_inc x i o = (o', Ok tt) /\
    Common d x o o' /\ CommonOld d x i o o' /\ GOld d x i o o' /\ mu o' = mu_upd x o /\
    D o' = D_set (n_clusters o) i (entry (D o))
             (DBt o (v_upd (nn o i) (vrow o i) x)
                (cp_upd (nn o i) (vrow o i) (cpi o i) (grow_ o i) x) (nn o i + 1)) /\ S1 o' = upd i (fdiv (cp_upd (nn o i) (vrow o i) (cpi o i) (grow_ o i) x) (f_of_nat (nn o i + 1))) (S1 o).
  Proof.
    intros [[H1 H2 H3 H4 H5 H6 H7 H8 Hna] [HD HS]] Hx Hi.
    assert (E0 : (n_samples o =? 0) = false) by (apply Nat.eqb_neq; lia).
    assert (Ek : (n_clusters o <=? i) = false) by (apply Nat.leb_gt; lia).
    pose proof (wfm_row _ _ _ _ H5 Hi) as Lv. pose proof (wfm_row _ _ _ _ H7 Hi) as LG.
    unfold DB_param_inc, append_n, mu_upd. sx. rewrite E0. sx. lift1. sx. rewrite Ek. sx.
    repeat (lift1; sx).
    set (g := DBt o (v_upd (nn o i) (vrow o i) x)
                (cp_upd (nn o i) (vrow o i) (cpi o i) (grow_ o i) x) (nn o i + 1)).
    liftD g. sx.
    destruct (D_set_ok _ i _ g HD Hi) as [Hr Hc].
    repeat (lift1; sx).
    rewrite (bind_lift _ _ _ _ Hr). sx.
    rewrite (bind_lift _ _ _ _ Hc). sx.
    eexists; split; [reflexivity|]. facts; rewrite H2; auto.
  Qed.

  (** ** XB *)
  Lemma XB_new d x o :
    o = init_attrs \/ (ShapeG d o /\ wfm (n_clusters o) (n_clusters o) (D o)) ->
    length x = d -> exists o',
    XB_param_inc x (n_clusters o) o = (o', Ok tt) /\
    Common d x o o' /\ CommonNew d x o o' /\ GNew d x o o' /\ mu o' = mu_upd x o /\
    D o' = D_app (n_clusters o) (entry (D o)) (XBt o x f0 1).
  Proof.
    intros [->|[[H1 H2 H3 H4 H5 H6 H7 H8 Hna] HD]] Hx.
    - subst d. unfold XB_param_inc, append_n, XB_setup, base_setup. sx.
      liftD (XBt init_attrs x f0 1). sx.
      repeat (lift1; sx).
      eexists; split; [reflexivity|]. facts.
    - assert (E0 : (n_samples o =? 0) = false) by (apply Nat.eqb_neq; lia).
      unfold XB_param_inc, append_n, mu_upd. sx. rewrite E0. sx. lift1. sx. rewrite Nat.leb_refl. sx.
      liftD (XBt o x f0 1). sx.
      repeat (lift1; sx).
      eexists; split; [reflexivity|]. facts; rewrite H2; auto.
  Qed.

  Lemma XB_old d x i o :
    ShapeG d o /\ wfm (n_clusters o) (n_clusters o) (D o) ->
    length x = d -> i < n_clusters o -> exists o',
    XB_param_inc x i o = (o', Ok tt) /\
    Common d x o o' /\ CommonOld d x i o o' /\ GOld d x i o o' /\ mu o' = mu_upd x o /\
    D o' = D_set (n_clusters o) i (entry (D o))
             (XBt o (v_upd (nn o i) (vrow o i) x)
                (cp_upd (nn o i) (vrow o i) (cpi o i) (grow_ o i) x) (nn o i + 1)).
  Proof.
    intros [[H1 H2 H3 H4 H5 H6 H7 H8 Hna] HD] Hx Hi.
    assert (E0 : (n_samples o =? 0) = false) by (apply Nat.eqb_neq; lia).
    assert (Ek : (n_clusters o <=? i) = false) by (apply Nat.leb_gt; lia).
    pose proof (wfm_row _ _ _ _ H5 Hi) as Lv. pose proof (wfm_row _ _ _ _ H7 Hi) as LG.
    unfold XB_param_inc, append_n, mu_upd. sx. rewrite E0. sx. lift1. sx. rewrite Ek. sx.
    repeat (lift1; sx).
    set (g := XBt o (v_upd (nn o i) (vrow o i) x)
                (cp_upd (nn o i) (vrow o i) (cpi o i) (grow_ o i) x) (nn o i + 1)).
    liftD g. sx.
    destruct (D_set_ok _ i _ g HD Hi) as [Hr Hc].
    repeat (lift1; sx).
    rewrite (bind_lift _ _ _ _ Hr). sx.
    rewrite (bind_lift _ _ _ _ Hc). sx.
    eexists; split; [reflexivity|]. facts; rewrite H2; auto.
  Qed.

  (** ** GD43 *)
  Lemma GD43_new d x o :
    o = init_attrs \/ (ShapeG d o /\ wfm (n_clusters o) (n_clusters o) (D o)) ->
    length x = d -> exists o',
    GD43_param_inc x (n_clusters o) o = (o', Ok tt) /\
    Common d x o o' /\ CommonNew d x o o' /\ GNew d x o o' /\ mu o' = mu_upd x o /\
    D o' = D_app (n_clusters o) (entry (D o)) (GD43t o x f0 1).
  Proof.
    intros [->|[[H1 H2 H3 H4 H5 H6 H7 H8 Hna] HD]] Hx.
    - subst d. unfold GD43_param_inc, append_n, GD43_setup, base_setup. sx.
      liftD (GD43t init_attrs x f0 1). sx.
      repeat (lift1; sx).
      eexists; split; [reflexivity|]. facts.
    - assert (E0 : (n_samples o =? 0) = false) by (apply Nat.eqb_neq; lia).
      unfold GD43_param_inc, append_n, mu_upd. sx. rewrite E0. sx. lift1. sx. rewrite Nat.leb_refl. sx.
      liftD (GD43t o x f0 1). sx.
      repeat (lift1; sx).
      eexists; split; [reflexivity|]. facts; rewrite H2; auto.
  Qed.

  Lemma GD43_old d x i o :
    ShapeG d o /\ wfm (n_clusters o) (n_clusters o) (D o) ->
    length x = d -> i < n_clusters o -> exists o',
    GD43_param_inc x i o = (o', Ok tt) /\
    Common d x o o' /\ CommonOld d x i o o' /\ GOld d x i o o' /\ mu o' = mu_upd x o /\
    D o' = D_set (n_clusters o) i (entry (D o))
             (GD43t o (v_upd (nn o i) (vrow o i) x)
                (cp_upd (nn o i) (vrow o i) (cpi o i) (grow_ o i) x) (nn o i + 1)).
  Proof.
    intros [[H1 H2 H3 H4 H5 H6 H7 H8 Hna] HD] Hx Hi.
    assert (E0 : (n_samples o =? 0) = false) by (apply Nat.eqb_neq; lia).
    assert (Ek : (n_clusters o <=? i) = false) by (apply Nat.leb_gt; lia).
    pose proof (wfm_row _ _ _ _ H5 Hi) as Lv. pose proof (wfm_row _ _ _ _ H7 Hi) as LG.
    unfold GD43_param_inc, append_n, mu_upd. sx. rewrite E0. sx. lift1. sx. rewrite Ek. sx.
    repeat (lift1; sx).
    set (g := GD43t o (v_upd (nn o i) (vrow o i) x)
                (cp_upd (nn o i) (vrow o i) (cpi o i) (grow_ o i) x) (nn o i + 1)).
    liftD g. sx.
    destruct (D_set_ok _ i _ g HD Hi) as [Hr Hc].
    repeat (lift1; sx).
    rewrite (bind_lift _ _ _ _ Hr). sx.
    rewrite (bind_lift _ _ _ _ Hc). sx.
    eexists; split; [reflexivity|]. facts; rewrite H2; auto.
  Qed.

  (** ** GD53 *)
  Lemma GD53_new d x o :
    o = init_attrs \/ (ShapeG d o /\ wfm (n_clusters o) (n_clusters o) (D o)) ->
    length x = d -> exists o',
    GD53_param_inc x (n_clusters o) o = (o', Ok tt) /\
    Common d x o o' /\ CommonNew d x o o' /\ GNew d x o o' /\ mu o' = mu_upd x o /\
    D o' = D_app (n_clusters o) (entry (D o)) (GD53t o x f0 1).
  Proof.
    intros [->|[[H1 H2 H3 H4 H5 H6 H7 H8 Hna] HD]] Hx.
    - subst d. unfold GD53_param_inc, append_n, GD53_setup, base_setup. sx.
      liftD (GD53t init_attrs x f0 1). sx.
      repeat (lift1; sx).
      eexists; split; [reflexivity|]. facts.
    - assert (E0 : (n_samples o =? 0) = false) by (apply Nat.eqb_neq; lia).
      unfold GD53_param_inc, append_n, mu_upd. sx. rewrite E0. sx. lift1. sx. rewrite Nat.leb_refl. sx.
      liftD (GD53t o x f0 1). sx.
      repeat (lift1; sx).
      eexists; split; [reflexivity|]. facts; rewrite H2; auto.
  Qed.

  Lemma GD53_old d x i o :
    ShapeG d o /\ wfm (n_clusters o) (n_clusters o) (D o) ->
    length x = d -> i < n_clusters o -> exists o',
    GD53_param_inc x i o = (o', Ok tt) /\
    Common d x o o' /\ CommonOld d x i o o' /\ GOld d x i o o' /\ mu o' = mu_upd x o /\
    D o' = D_set (n_clusters o) i (entry (D o))
             (GD53t o (v_upd (nn o i) (vrow o i) x)
                (cp_upd (nn o i) (vrow o i) (cpi o i) (grow_ o i) x) (nn o i + 1)).
  Proof.
    intros [[H1 H2 H3 H4 H5 H6 H7 H8 Hna] HD] Hx Hi.
    assert (E0 : (n_samples o =? 0) = false) by (apply Nat.eqb_neq; lia).
    assert (Ek : (n_clusters o <=? i) = false) by (apply Nat.leb_gt; lia).
    pose proof (wfm_row _ _ _ _ H5 Hi) as Lv. pose proof (wfm_row _ _ _ _ H7 Hi) as LG.
    unfold GD53_param_inc, append_n, mu_upd. sx. rewrite E0. sx. lift1. sx. rewrite Ek. sx.
    repeat (lift1; sx).
    set (g := GD53t o (v_upd (nn o i) (vrow o i) x)
                (cp_upd (nn o i) (vrow o i) (cpi o i) (grow_ o i) x) (nn o i + 1)).
    liftD g. sx.
    destruct (D_set_ok _ i _ g HD Hi) as [Hr Hc].
    repeat (lift1; sx).
    rewrite (bind_lift _ _ _ _ Hr). sx.
    rewrite (bind_lift _ _ _ _ Hc). sx.
    eexists; split; [reflexivity|]. facts; rewrite H2; auto.
  Qed.

End Steps.
