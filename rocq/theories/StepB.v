(** * The batch update on a fresh object, free of exceptions when every row that
    is selected exists ([covers]; for instance when there are at most as many
    labels as rows).  For every arithmetic. *)
From Coq Require Import ZArith List Arith Bool Lia.
From Verif Require Import Num NumPy Base M_CH M_D M_PS GetCvi Lists Step Step2.
Import ListNotations.

Section Batch.
  Context {A : Arith}.

  Lemma for_app {X} (l1 l2 : list X) (body : X -> M A unit) o o' :
    for_ l1 body o = (o', Ok tt) -> for_ (l1 ++ l2) body o = for_ l2 body o'.
  Proof.
    revert o; induction l1 as [|x l1 IH]; intros o H; simpl in *.
    - unfold ret in H. congruence.
    - unfold bind in *. destruct (body x o) as [o1 [[]|e]]; [auto|discriminate].
  Qed.

  Lemma for_seq (body : nat -> M A unit) (st : nat -> attrs A) k :
    (forall j, j < k -> body j (st j) = (st (S j), Ok tt)) ->
    for_ (seq 0 k) body (st 0) = (st k, Ok tt).
  Proof.
    induction k as [|k IH]; intros H; [reflexivity|].
    rewrite seq_S, Nat.add_0_l.
    rewrite (for_app _ _ _ _ (st k)) by (apply IH; intros; apply H; lia).
    simpl. unfold bind. rewrite H by lia. reflexivity.
  Qed.

  (** an array of length k, filled up to position j *)
  Definition fill {X} (f : nat -> X) (z : X) (k j : nat) : list X :=
    map f (seq 0 j) ++ repeat z (k - j).
  Lemma fill_0 {X} (f : nat -> X) z k : repeat z k = fill f z k 0.
  Proof. unfold fill. simpl. now rewrite Nat.sub_0_r. Qed.
  Lemma fill_k {X} (f : nat -> X) z k : fill f z k k = map f (seq 0 k).
  Proof. unfold fill. rewrite Nat.sub_diag. simpl. apply app_nil_r. Qed.
  Lemma upd_fill {X} (f : nat -> X) z k j : j < k -> upd j (f j) (fill f z k j) = fill f z k (S j).
  Proof.
    intros H. unfold fill. replace (k - j) with (S (k - S j)) by lia.
    rewrite seq_S, map_app, Nat.add_0_l, <- app_assoc. simpl.
    rewrite <- (seq_length j 0) at 1. rewrite <- (map_length f (seq 0 j)) at 1. apply upd_app.
  Qed.

  (** the rows of [m] labelled [ix] *)
  Definition subset (m : mat A) (labels : list Z) (ix : nat) : mat A :=
    mkMat (mcols m) (map (fun i => nth i (mrows m) []) (indices_of ix labels)).
  Definition b_n (m : mat A) labels ix : nat := nrows (subset m labels ix).
  Definition b_v (m : mat A) labels ix : vec A := smean0 (subset m labels ix).
  Definition b_CP (m : mat A) labels ix : F A :=
    np_sumsq_all (sub_rows (subset m labels ix) (b_v m labels ix)).

  Lemma indices_lt ix labels i : In i (indices_of ix labels) -> i < length labels.
  Proof. unfold indices_of. intros H. apply filter_In in H. destruct H as [H _]. apply in_seq in H. lia. Qed.

  (** the positions selected for the clusters 0 .. k-1 are rows of [m] *)
  Definition covers (m : mat A) (labels : list Z) (k : nat) : Prop :=
    forall ix i, ix < k -> In i (indices_of ix labels) -> i < nrows m.
  Lemma covers_le m labels k : length labels <= nrows m -> covers m labels k.
  Proof. intros H ix i _ Hi. apply indices_lt in Hi. lia. Qed.
  Lemma subset_ok m labels k ix : covers m labels k -> ix < k ->
    take_rows m (indices_of ix labels) = Ok (subset m labels ix).
  Proof. intros H Hi. apply take_rows_ok; auto. intros i Hx. exact (H ix i Hi Hx). Qed.

  Definition D_sym (k : nat) (t : nat -> nat -> F A) : mat A :=
    tab2 k k (fun a b => fadd (if a <? b then t a b else f0) (if b <? a then t b a else f0)).
  Lemma D_sym_ok k (t : nat -> nat -> F A) :
    let D_up := tab2 k k (fun ix jx => if ix <? jx then t ix jx else f0) in
    tab2 k k (fun ix jx => fadd (entry D_up ix jx) (entry (transpose D_up) ix jx)) = D_sym k t.
  Proof.
    intros D_up. apply tab2_ext. intros a b Ha Hb.
    rewrite (entry_transpose k k) by (auto; apply wfm_tab2).
    unfold D_up. rewrite !entry_tab2 by auto. reflexivity.
  Qed.

  Lemma set_v_rows (m : mat A) : mkMat (mcols m) (mrows m) = m.
  Proof. now destruct m. Qed.

  Definition b_SEP (m : mat A) labels ix : F A :=
    fmul (f_of_nat (b_n m labels ix)) (np_sumsq (map2 fsub (b_v m labels ix) (smean0 m))).
  Definition b_S (m : mat A) labels ix : F A :=
    fdiv (b_CP m labels ix) (f_of_nat (b_n m labels ix)).
  Definition b_sigma (m : mat A) labels ix : mat A :=
    let s := subset m labels ix in
    let d := mcols m in
    if 1 <? nrows s then
      tab2 d d (fun a b =>
        fadd (fmul (fdiv f1 (f_of_Z (Z.of_nat (nrows s) - 1)))
                   (fsub (sdot (col s a) (col s b))
                         (fmul (f_of_nat (nrows s)) (fmul (nth a (smean0 s) f0) (nth b (smean0 s) f0)))))
             (entry (rCIP_delta_term d) a b))
    else rCIP_delta_term d.
  (** the terms of the matrix _D *)
  Definition b_sqd (m : mat A) labels a b : F A := sqd (b_v m labels a) (b_v m labels b).
  Definition b_gd53 (m : mat A) labels a b : F A :=
    fdiv (fadd (b_CP m labels a) (b_CP m labels b)) (f_of_nat (b_n m labels a + b_n m labels b)).
  (** the matrix _S of cSIL *)
  Definition b_sil (m : mat A) labels jx ix : F A :=
    fdiv (py_sum (map (fun x => nth x (map np_sumsq (sub_rows m (b_v m labels ix))) f0) (indices_of jx labels)))
         (f_of_nat (b_n m labels jx)).

  Record BCommon (m : mat A) (labels : list Z) (o' : attrs A) : Prop := mkBCommon {
    bc_ns : n_samples o' = nrows m;
    bc_dim : dim o' = mcols m;
    bc_setup : is_setup o' = true;
    bc_k : n_clusters o' = n_unique labels;
    bc_n : n o' = map (b_n m labels) (seq 0 (n_unique labels));
    bc_v : v o' = mkMat (mcols m) (map (b_v m labels) (seq 0 (n_unique labels)))
  }.

  Lemma sigma_b_ok m labels ix : wfm (nrows m) (mcols m) m ->
    let s := subset m labels ix in
    exists s0, msub (gram s) (mscal (f_of_nat (nrows s)) (outer (smean0 s) (smean0 s))) = Ok s0 /\
    (1 < nrows s -> madd (mscal (fdiv f1 (f_of_Z (Z.of_nat (nrows s) - 1))) s0) (rCIP_delta_term (mcols m))
      = Ok (b_sigma m labels ix)).
  Proof.
    intros H s. pose proof (smean0_length s) as L. change (mcols s) with (mcols m) in L.
    pose proof (wfm_outer (smean0 s) (smean0 s)) as Ho. rewrite L in Ho.
    assert (Hg : wfm (mcols m) (mcols m) (gram s)) by apply wfm_tab2.
    eexists. split; [apply (bc2_ok _ (mcols m) (mcols m)); auto using wfm_mscal|].
    intros Hn. unfold madd. rewrite (bc2_ok _ (mcols m) (mcols m)) by auto using wfm_mscal, wfm_tab2, wfm_delta.
    unfold b_sigma. fold s. apply Nat.ltb_lt in Hn. rewrite Hn. f_equal.
    apply tab2_ext. intros a b Ha Hb.
    rewrite (entry_mscal (mcols m) (mcols m)) by auto using wfm_tab2. rewrite entry_tab2 by auto.
    rewrite (entry_mscal (mcols m) (mcols m)) by auto. rewrite entry_outer by lia.
    unfold gram. change (mcols s) with (mcols m). rewrite entry_tab2 by auto. reflexivity.
  Qed.

  Lemma rCIP_pairs m labels k o g :
    v o = mkMat (mcols m) (map (b_v m labels) (seq 0 k)) ->
    sigma o = map (b_sigma m labels) (seq 0 k) ->
    constant o = rCIP_constant (mcols m) ->
    (forall a b, a < b -> b < k ->
       rCIP_potential (rCIP_constant (mcols m)) (map2 fsub (b_v m labels a) (b_v m labels b))
         (tab2 (mcols m) (mcols m) (fun i j => fadd (entry (b_sigma m labels a) i j) (entry (b_sigma m labels b) i j)))
       = Ok (g a b)) ->
    mapE (fun ix => mapE (fun jx => if ix <? jx then rCIP_batch_term o ix jx else Ok f0) (seq 0 k)) (seq 0 k) =
    Ok (map (fun ix => map (fun jx => if ix <? jx then g ix jx else f0) (seq 0 k)) (seq 0 k)).
  Proof.
    intros Ev Es Ec Hg. apply mapE_ok. intros a Ha. apply mapE_ok. intros b Hb. apply in_seq in Ha. apply in_seq in Hb.
    destruct (Nat.ltb_spec a b); auto. unfold rCIP_batch_term. rewrite Ev, Es, Ec.
    assert (Wv : wfm k (mcols m) (mkMat (mcols m) (map (b_v m labels) (seq 0 k)))).
    { repeat split; simpl; [now rewrite map_length, seq_length|].
      apply Forall_map, Forall_forall. intros; unfold b_v; now rewrite smean0_length. }
    rewrite (row_ok _ _ _ _ Wv) by lia. cbn [bindE].
    rewrite (row_ok _ _ _ _ Wv) by lia. cbn [bindE mrows].
    rewrite !nth_map_seq by lia.
    rewrite vsub_ok by (unfold b_v; now rewrite !smean0_length). cbn [bindE].
    rewrite (get_item_ok _ _ (zmat 0 0)) by (rewrite map_length, seq_length; lia). cbn [bindE].
    rewrite (get_item_ok _ _ (zmat 0 0)) by (rewrite map_length, seq_length; lia). cbn [bindE].
    rewrite !nth_map_seq by lia.
    assert (Ws : forall ix, wfm (mcols m) (mcols m) (b_sigma m labels ix)).
    { intros ix. unfold b_sigma. destruct (1 <? _); auto using wfm_tab2, wfm_delta. }
    unfold madd. rewrite (bc2_ok _ (mcols m) (mcols m)) by auto. cbn [bindE].
    apply Hg; lia.
  Qed.

  (** ** CH *)
  Definition CH_st (m : mat A) (labels : list Z) (k : nat) (o : attrs A) (j : nat) : attrs A :=
    set_SEP (fill (b_SEP m labels) f0 k j) (set_CP (fill (b_CP m labels) f0 k j) (set_v (mkMat (mcols m) (fill (b_v m labels) (zeros (mcols m)) k j)) (set_n (fill (b_n m labels) 0 k j) o))).
  Lemma CH_loop m labels k o : covers m labels k -> mu o = smean0 m ->
    for_ (seq 0 k) (CH_batch_body m labels) (CH_st m labels k o 0) = (CH_st m labels k o k, Ok tt).
  Proof.
    intros H Hmu. apply for_seq. intros j Hj. unfold CH_batch_body, CH_st. sx.
    rewrite (bind_lift _ _ _ _ (subset_ok m labels k j H Hj)). sx.
    fold (b_n m labels j). fold (b_v m labels j). 
    rewrite Hmu.
    rewrite (bind_lift _ (map2 fsub (b_v m labels j) (smean0 m)))
      by (apply vsub_ok; unfold b_v; now rewrite !smean0_length). sx.
    fold (b_CP m labels j). fold (b_SEP m labels j).
    rewrite !upd_fill by auto. reflexivity.
  Qed.
  Lemma CH_batch m labels : covers m labels (n_unique labels) -> exists o',
    CH_param_batch m labels init_attrs = (o', Ok tt) /\
    BCommon m labels o' /\
    CP o' = map (b_CP m labels) (seq 0 (n_unique labels)) /\
    SEP o' = map (b_SEP m labels) (seq 0 (n_unique labels)) /\
    n_array o' = true /\ G o' = zmat 0 0 /\
    mu o' = smean0 m.
  Proof.
    intros H. unfold CH_param_batch, base_setup_batch. sx.
    set (k := n_unique labels) in *.
    match goal with
    | |- exists o', (for_ ?l ?b ?s = _) /\ _ => pose (o0 := s)
    | |- exists o', (bind (for_ ?l ?b) ?kk ?s = _) /\ _ => pose (o0 := s)
    end.
    assert (Ho0 : o0 = CH_st m labels k o0 0).
    { unfold o0, CH_st. red_attrs. rewrite <- !fill_0. reflexivity. }
    pose proof (CH_loop m labels k o0 H eq_refl) as L. rewrite <- Ho0 in L.
    eexists. split; [exact L|]. unfold CH_st. rewrite !fill_k.
    repeat split; reflexivity.
  Qed.

  (** ** WB *)
  Definition WB_st (m : mat A) (labels : list Z) (k : nat) (o : attrs A) (j : nat) : attrs A :=
    set_SEP (fill (b_SEP m labels) f0 k j) (set_CP (fill (b_CP m labels) f0 k j) (set_v (mkMat (mcols m) (fill (b_v m labels) (zeros (mcols m)) k j)) (set_n (fill (b_n m labels) 0 k j) o))).
  Lemma WB_loop m labels k o : covers m labels k -> mu o = smean0 m ->
    for_ (seq 0 k) (WB_batch_body m labels) (WB_st m labels k o 0) = (WB_st m labels k o k, Ok tt).
  Proof.
    intros H Hmu. apply for_seq. intros j Hj. unfold WB_batch_body, WB_st. sx.
    rewrite (bind_lift _ _ _ _ (subset_ok m labels k j H Hj)). sx.
    fold (b_n m labels j). fold (b_v m labels j). 
    rewrite Hmu.
    rewrite (bind_lift _ (map2 fsub (b_v m labels j) (smean0 m)))
      by (apply vsub_ok; unfold b_v; now rewrite !smean0_length). sx.
    fold (b_CP m labels j). fold (b_SEP m labels j).
    rewrite !upd_fill by auto. reflexivity.
  Qed.
  Lemma WB_batch m labels : covers m labels (n_unique labels) -> exists o',
    WB_param_batch m labels init_attrs = (o', Ok tt) /\
    BCommon m labels o' /\
    CP o' = map (b_CP m labels) (seq 0 (n_unique labels)) /\
    SEP o' = map (b_SEP m labels) (seq 0 (n_unique labels)) /\
    n_array o' = true /\ G o' = zmat 0 0 /\
    mu o' = smean0 m.
  Proof.
    intros H. unfold WB_param_batch, base_setup_batch. sx.
    set (k := n_unique labels) in *.
    match goal with
    | |- exists o', (for_ ?l ?b ?s = _) /\ _ => pose (o0 := s)
    | |- exists o', (bind (for_ ?l ?b) ?kk ?s = _) /\ _ => pose (o0 := s)
    end.
    assert (Ho0 : o0 = WB_st m labels k o0 0).
    { unfold o0, WB_st. red_attrs. rewrite <- !fill_0. reflexivity. }
    pose proof (WB_loop m labels k o0 H eq_refl) as L. rewrite <- Ho0 in L.
    eexists. split; [exact L|]. unfold WB_st. rewrite !fill_k.
    repeat split; reflexivity.
  Qed.

  (** ** DB *)
  Definition DB_st (m : mat A) (labels : list Z) (k : nat) (o : attrs A) (j : nat) : attrs A :=
    set_S1 (fill (b_S m labels) f0 k j) (set_CP (fill (b_CP m labels) f0 k j) (set_v (mkMat (mcols m) (fill (b_v m labels) (zeros (mcols m)) k j)) (set_n (fill (b_n m labels) 0 k j) o))).
  Lemma DB_loop m labels k o : covers m labels k ->
    for_ (seq 0 k) (DB_batch_body m labels) (DB_st m labels k o 0) = (DB_st m labels k o k, Ok tt).
  Proof.
    intros H. apply for_seq. intros j Hj. unfold DB_batch_body, DB_st. sx.
    rewrite (bind_lift _ _ _ _ (subset_ok m labels k j H Hj)). sx.
    fold (b_n m labels j). fold (b_v m labels j). 
    fold (b_CP m labels j). fold (b_S m labels j).
    unfold modify. red_attrs.
    rewrite !upd_fill by auto. reflexivity.
  Qed.
  Lemma DB_batch m labels : covers m labels (n_unique labels) -> exists o',
    DB_param_batch m labels init_attrs = (o', Ok tt) /\
    BCommon m labels o' /\
    CP o' = map (b_CP m labels) (seq 0 (n_unique labels)) /\
    S1 o' = map (b_S m labels) (seq 0 (n_unique labels)) /\
    n_array o' = false /\ G o' = zmat (n_unique labels) (mcols m) /\ mu o' = smean0 m /\
    D o' = D_sym (n_unique labels) (b_sqd m labels).
  Proof.
    intros H. unfold DB_param_batch, base_setup_batch. sx.
    set (k := n_unique labels) in *.
    match goal with
    | |- exists o', (for_ ?l ?b ?s = _) /\ _ => pose (o0 := s)
    | |- exists o', (bind (for_ ?l ?b) ?kk ?s = _) /\ _ => pose (o0 := s)
    end.
    assert (Ho0 : o0 = DB_st m labels k o0 0).
    { unfold o0, DB_st. red_attrs. rewrite <- !fill_0. reflexivity. }
    pose proof (DB_loop m labels k o0 H) as L. rewrite <- Ho0 in L.
    rewrite (bind_ok _ _ _ _ _ L). sx.
    eexists. split; [reflexivity|]. unfold DB_st. unfold o0. red_attrs. rewrite !fill_k.
    repeat split.
    etransitivity; [|apply D_sym_ok]. apply tab2_ext. intros a b Ha Hb.
    rewrite !(entry_transpose k k) by (auto using wfm_tab2).
    rewrite !entry_tab2 by auto. unfold DB_batch_term. red_attrs.
    rewrite !nth_map_seq by lia. reflexivity.
  Qed.

  (** ** XB *)
  Definition XB_st (m : mat A) (labels : list Z) (k : nat) (o : attrs A) (j : nat) : attrs A :=
    set_CP (fill (b_CP m labels) f0 k j) (set_v (mkMat (mcols m) (fill (b_v m labels) (zeros (mcols m)) k j)) (set_n (fill (b_n m labels) 0 k j) o)).
  Lemma XB_loop m labels k o : covers m labels k ->
    for_ (seq 0 k) (XB_batch_body m labels) (XB_st m labels k o 0) = (XB_st m labels k o k, Ok tt).
  Proof.
    intros H. apply for_seq. intros j Hj. unfold XB_batch_body, XB_st. sx.
    rewrite (bind_lift _ _ _ _ (subset_ok m labels k j H Hj)). sx.
    fold (b_n m labels j). fold (b_v m labels j). 
    fold (b_CP m labels j). unfold modify. red_attrs.
    rewrite !upd_fill by auto. reflexivity.
  Qed.
  Lemma XB_batch m labels : covers m labels (n_unique labels) -> exists o',
    XB_param_batch m labels init_attrs = (o', Ok tt) /\
    BCommon m labels o' /\
    CP o' = map (b_CP m labels) (seq 0 (n_unique labels)) /\
    n_array o' = true /\ G o' = zmat 0 0 /\
    D o' = tab2 (n_unique labels) (n_unique labels) (fun a b => if a <? b then b_sqd m labels a b else f0).
  Proof.
    intros H. unfold XB_param_batch, base_setup_batch. sx.
    set (k := n_unique labels) in *.
    match goal with
    | |- exists o', (for_ ?l ?b ?s = _) /\ _ => pose (o0 := s)
    | |- exists o', (bind (for_ ?l ?b) ?kk ?s = _) /\ _ => pose (o0 := s)
    end.
    assert (Ho0 : o0 = XB_st m labels k o0 0).
    { unfold o0, XB_st. red_attrs. rewrite <- !fill_0. reflexivity. }
    pose proof (XB_loop m labels k o0 H) as L. rewrite <- Ho0 in L.
    rewrite (bind_ok _ _ _ _ _ L). sx.
    eexists. split; [reflexivity|]. unfold XB_st. unfold o0. red_attrs. rewrite !fill_k.
    repeat split.
    apply tab2_ext. intros a b Ha Hb. unfold XB_batch_term. red_attrs.
    rewrite !nth_map_seq by lia. reflexivity.
  Qed.

  (** ** GD43 *)
  Definition GD43_st (m : mat A) (labels : list Z) (k : nat) (o : attrs A) (j : nat) : attrs A :=
    set_CP (fill (b_CP m labels) f0 k j) (set_v (mkMat (mcols m) (fill (b_v m labels) (zeros (mcols m)) k j)) (set_n (fill (b_n m labels) 0 k j) o)).
  Lemma GD43_loop m labels k o : covers m labels k ->
    for_ (seq 0 k) (GD43_batch_body m labels) (GD43_st m labels k o 0) = (GD43_st m labels k o k, Ok tt).
  Proof.
    intros H. apply for_seq. intros j Hj. unfold GD43_batch_body, GD43_st. sx.
    rewrite (bind_lift _ _ _ _ (subset_ok m labels k j H Hj)). sx.
    fold (b_n m labels j). fold (b_v m labels j). 
    fold (b_CP m labels j). unfold modify. red_attrs.
    rewrite !upd_fill by auto. reflexivity.
  Qed.
  Lemma GD43_batch m labels : covers m labels (n_unique labels) -> exists o',
    GD43_param_batch m labels init_attrs = (o', Ok tt) /\
    BCommon m labels o' /\
    CP o' = map (b_CP m labels) (seq 0 (n_unique labels)) /\
    n_array o' = false /\ G o' = zmat (n_unique labels) (mcols m) /\ mu o' = smean0 m /\
    D o' = D_sym (n_unique labels) (fun a b => fsqrt (b_sqd m labels a b)).
  Proof.
    intros H. unfold GD43_param_batch, base_setup_batch. sx.
    set (k := n_unique labels) in *.
    match goal with
    | |- exists o', (for_ ?l ?b ?s = _) /\ _ => pose (o0 := s)
    | |- exists o', (bind (for_ ?l ?b) ?kk ?s = _) /\ _ => pose (o0 := s)
    end.
    assert (Ho0 : o0 = GD43_st m labels k o0 0).
    { unfold o0, GD43_st. red_attrs. rewrite <- !fill_0. reflexivity. }
    pose proof (GD43_loop m labels k o0 H) as L. rewrite <- Ho0 in L.
    rewrite (bind_ok _ _ _ _ _ L). sx.
    eexists. split; [reflexivity|]. unfold GD43_st. unfold o0. red_attrs. rewrite !fill_k.
    repeat split.
    etransitivity; [|apply D_sym_ok]. apply tab2_ext. intros a b Ha Hb.
    rewrite !(entry_transpose k k) by (auto using wfm_tab2).
    rewrite !entry_tab2 by auto. unfold GD43_batch_term. red_attrs.
    rewrite !nth_map_seq by lia. reflexivity.
  Qed.

  (** ** GD53 *)
  Definition GD53_st (m : mat A) (labels : list Z) (k : nat) (o : attrs A) (j : nat) : attrs A :=
    set_CP (fill (b_CP m labels) f0 k j) (set_v (mkMat (mcols m) (fill (b_v m labels) (zeros (mcols m)) k j)) (set_n (fill (b_n m labels) 0 k j) o)).
  Lemma GD53_loop m labels k o : covers m labels k ->
    for_ (seq 0 k) (GD53_batch_body m labels) (GD53_st m labels k o 0) = (GD53_st m labels k o k, Ok tt).
  Proof.
    intros H. apply for_seq. intros j Hj. unfold GD53_batch_body, GD53_st. sx.
    rewrite (bind_lift _ _ _ _ (subset_ok m labels k j H Hj)). sx.
    fold (b_n m labels j). fold (b_v m labels j). 
    fold (b_CP m labels j). unfold modify. red_attrs.
    rewrite !upd_fill by auto. reflexivity.
  Qed.
  Lemma GD53_batch m labels : covers m labels (n_unique labels) -> exists o',
    GD53_param_batch m labels init_attrs = (o', Ok tt) /\
    BCommon m labels o' /\
    CP o' = map (b_CP m labels) (seq 0 (n_unique labels)) /\
    n_array o' = false /\ G o' = zmat (n_unique labels) (mcols m) /\ mu o' = smean0 m /\
    D o' = D_sym (n_unique labels) (b_gd53 m labels).
  Proof.
    intros H. unfold GD53_param_batch, base_setup_batch. sx.
    set (k := n_unique labels) in *.
    match goal with
    | |- exists o', (for_ ?l ?b ?s = _) /\ _ => pose (o0 := s)
    | |- exists o', (bind (for_ ?l ?b) ?kk ?s = _) /\ _ => pose (o0 := s)
    end.
    assert (Ho0 : o0 = GD53_st m labels k o0 0).
    { unfold o0, GD53_st. red_attrs. rewrite <- !fill_0. reflexivity. }
    pose proof (GD53_loop m labels k o0 H) as L. rewrite <- Ho0 in L.
    rewrite (bind_ok _ _ _ _ _ L). sx.
    eexists. split; [reflexivity|]. unfold GD53_st. unfold o0. red_attrs. rewrite !fill_k.
    repeat split.
    etransitivity; [|apply D_sym_ok]. apply tab2_ext. intros a b Ha Hb.
    rewrite !(entry_transpose k k) by (auto using wfm_tab2).
    rewrite !entry_tab2 by auto. unfold GD53_batch_term. red_attrs.
    rewrite !nth_map_seq by lia. reflexivity.
  Qed.

  (** ** PS *)
  Definition PS_st (m : mat A) (labels : list Z) (k : nat) (o : attrs A) (j : nat) : attrs A :=
    set_v (mkMat (mcols m) (fill (b_v m labels) (zeros (mcols m)) k j)) (set_n (fill (b_n m labels) 0 k j) o).
  Lemma PS_loop m labels k o : covers m labels k ->
    for_ (seq 0 k) (PS_batch_body m labels) (PS_st m labels k o 0) = (PS_st m labels k o k, Ok tt).
  Proof.
    intros H. apply for_seq. intros j Hj. unfold PS_batch_body, PS_st. sx.
    rewrite (bind_lift _ _ _ _ (subset_ok m labels k j H Hj)). sx.
    fold (b_n m labels j). fold (b_v m labels j). 
    unfold modify. red_attrs. rewrite !upd_fill by auto. reflexivity.
  Qed.
  Lemma PS_batch m labels : covers m labels (n_unique labels) -> exists o',
    PS_param_batch m labels init_attrs = (o', Ok tt) /\
    BCommon m labels o' /\
    n_array o' = false /\
    D o' = D_sym (n_unique labels) (b_sqd m labels).
  Proof.
    intros H. unfold PS_param_batch, base_setup_batch. sx.
    set (k := n_unique labels) in *.
    match goal with
    | |- exists o', (for_ ?l ?b ?s = _) /\ _ => pose (o0 := s)
    | |- exists o', (bind (for_ ?l ?b) ?kk ?s = _) /\ _ => pose (o0 := s)
    end.
    assert (Ho0 : o0 = PS_st m labels k o0 0).
    { unfold o0, PS_st. red_attrs. rewrite <- !fill_0. reflexivity. }
    pose proof (PS_loop m labels k o0 H) as L. rewrite <- Ho0 in L.
    rewrite (bind_ok _ _ _ _ _ L). sx.
    eexists. split; [reflexivity|]. unfold PS_st. unfold o0. red_attrs. rewrite !fill_k.
    repeat split.
    etransitivity; [|apply D_sym_ok]. apply tab2_ext. intros a b Ha Hb.
    rewrite !(entry_transpose k k) by (auto using wfm_tab2).
    rewrite !entry_tab2 by auto. unfold PS_batch_term. red_attrs.
    rewrite !nth_map_seq by lia. reflexivity.
  Qed.

  (** ** rCIP *)
  Definition rCIP_st (m : mat A) (labels : list Z) (k : nat) (o : attrs A) (j : nat) : attrs A :=
    set_sigma (fill (b_sigma m labels) (zmat (mcols m) (mcols m)) k j) (set_v (mkMat (mcols m) (fill (b_v m labels) (zeros (mcols m)) k j)) (set_n (fill (b_n m labels) 0 k j) o)).
  Lemma rCIP_loop m labels k o : covers m labels k -> delta_term o = rCIP_delta_term (mcols m) -> wfm (nrows m) (mcols m) m ->
    for_ (seq 0 k) (rCIP_batch_body m labels) (rCIP_st m labels k o 0) = (rCIP_st m labels k o k, Ok tt).
  Proof.
    intros H Hmu Hw. apply for_seq. intros j Hj. unfold rCIP_batch_body, rCIP_st. sx.
    rewrite (bind_lift _ _ _ _ (subset_ok m labels k j H Hj)). sx.
    fold (b_n m labels j). fold (b_v m labels j). 
    rewrite Hmu.
    destruct (sigma_b_ok m labels j Hw) as (s0 & E1 & E2). fold (b_n m labels j) (b_v m labels j) in E1, E2.
    destruct (Nat.ltb_spec 1 (b_n m labels j)) as [Hn|Hn].
    - rewrite (bind_lift _ _ _ _ E1). sx. rewrite (bind_lift _ _ _ _ (E2 Hn)). sx.
      unfold modify. red_attrs. rewrite !upd_fill by auto. reflexivity.
    - assert (E : rCIP_delta_term (mcols m) = b_sigma m labels j).
      { unfold b_sigma. fold (b_n m labels j). destruct (Nat.ltb_spec 1 (b_n m labels j)); [lia|reflexivity]. }
      unfold modify. red_attrs. rewrite E. rewrite !upd_fill by auto. reflexivity.
  Qed.
  Lemma rCIP_batch m labels g : covers m labels (n_unique labels) -> wfm (nrows m) (mcols m) m -> mcols m <> 0 ->
    (forall a b, a < b -> b < n_unique labels ->
       rCIP_potential (rCIP_constant (mcols m)) (map2 fsub (b_v m labels a) (b_v m labels b))
         (tab2 (mcols m) (mcols m) (fun i j => fadd (entry (b_sigma m labels a) i j) (entry (b_sigma m labels b) i j)))
       = Ok (g a b)) -> exists o',
    rCIP_param_batch m labels init_attrs = (o', Ok tt) /\
    BCommon m labels o' /\
    sigma o' = map (b_sigma m labels) (seq 0 (n_unique labels)) /\
    n_array o' = false /\ delta_term o' = rCIP_delta_term (mcols m) /\
    D o' = D_sym (n_unique labels) g.
  Proof.
    intros H Hw Hd Hg. unfold rCIP_param_batch, base_setup_batch. sx.
    destruct (Nat.eqb_spec (mcols m) 0) as [|_]; [contradiction|]. sx.
    set (k := n_unique labels) in *.
    match goal with
    | |- exists o', (for_ ?l ?b ?s = _) /\ _ => pose (o0 := s)
    | |- exists o', (bind (for_ ?l ?b) ?kk ?s = _) /\ _ => pose (o0 := s)
    end.
    assert (Ho0 : o0 = rCIP_st m labels k o0 0).
    { unfold o0, rCIP_st. red_attrs. rewrite <- !fill_0. reflexivity. }
    pose proof (rCIP_loop m labels k o0 H eq_refl Hw) as L. rewrite <- Ho0 in L.
    rewrite (bind_ok _ _ _ _ _ L). sx.
    rewrite (bind_lift _ _ _ _ (rCIP_pairs m labels k (rCIP_st m labels k o0 k) g
       ltac:(unfold rCIP_st; red_attrs; now rewrite fill_k) ltac:(unfold rCIP_st; red_attrs; now rewrite fill_k) eq_refl Hg)).
    sx. eexists. split; [reflexivity|]. unfold rCIP_st. unfold o0. red_attrs. rewrite !fill_k.
    repeat split. apply D_sym_ok.
  Qed.

  (** ** cSIL *)
  Definition cSIL_st (m : mat A) (labels : list Z) (k : nat) (o : attrs A) (j : nat) : attrs A :=
    set_CP (fill (b_CP m labels) f0 k j) (set_v (mkMat (mcols m) (fill (b_v m labels) (zeros (mcols m)) k j)) (set_n (fill (b_n m labels) 0 k j) o)).
  Lemma cSIL_loop m labels k o : covers m labels k -> k <= nrows m ->
    for_ (seq 0 k) (cSIL_batch_body m labels) (cSIL_st m labels k o 0) = (cSIL_st m labels k o k, Ok tt).
  Proof.
    intros H Hmu. apply for_seq. intros j Hj. unfold cSIL_batch_body, cSIL_st. sx.
    rewrite (bind_lift _ _ _ _ (subset_ok m labels k j H Hj)). sx.
    fold (b_n m labels j). fold (b_v m labels j). 
    fold (b_CP m labels j).
    destruct (Nat.ltb_spec j (nrows m)); [|lia].
    rewrite !upd_fill by auto. reflexivity.
  Qed.
  Lemma cSIL_batch m labels : covers m labels (n_unique labels) -> n_unique labels <= nrows m -> exists o',
    cSIL_param_batch m labels init_attrs = (o', Ok tt) /\
    BCommon m labels o' /\
    CP o' = map (b_CP m labels) (seq 0 (n_unique labels)) /\
    n_array o' = true /\ G o' = zmat 0 0 /\
    S2 o' = tab2 (n_unique labels) (n_unique labels) (b_sil m labels).
  Proof.
    intros H Hk. unfold cSIL_param_batch, base_setup_batch. sx.
    set (k := n_unique labels) in *.
    match goal with
    | |- exists o', (for_ ?l ?b ?s = _) /\ _ => pose (o0 := s)
    | |- exists o', (bind (for_ ?l ?b) ?kk ?s = _) /\ _ => pose (o0 := s)
    end.
    assert (Ho0 : o0 = cSIL_st m labels k o0 0).
    { unfold o0, cSIL_st. red_attrs. rewrite <- !fill_0. reflexivity. }
    pose proof (cSIL_loop m labels k o0 H Hk) as L. rewrite <- Ho0 in L.
    rewrite (bind_ok _ _ _ _ _ L). sx.
    eexists. split; [reflexivity|]. unfold cSIL_st. unfold o0. red_attrs. rewrite !fill_k.
    repeat split.
    red_attrs. apply tab2_ext. intros a b Ha Hb. unfold cSIL_D_row. red_attrs.
    rewrite !nth_map_seq by lia. reflexivity.
  Qed.
End Batch.
