(** * One incremental update of PS, rCIP and cSIL (see Step.v). *)
From Coq Require Import ZArith List Arith Bool Lia.
From Verif Require Import Num NumPy Base M_CH M_D M_PS GetCvi Lists Step.
Import ListNotations.

Section Pure2.
  Context {A : Arith}.

  (** S[i, :] = r; S[:, i] = c *)
  Lemma set_row_col2 k (m : mat A) i r c : wfm k k m -> i < k -> length r = k -> length c = k ->
    set_row m i r = Ok (mkMat k (upd i r (mrows m))) /\
    set_col (mkMat k (upd i r (mrows m))) i c =
    Ok (tab2 k k (fun a b => if b =? i then nth a c f0 else if a =? i then nth b r f0 else entry m a b)).
  Proof.
    intros H Hi Hr Hc. split; [now apply (set_row_ok k k)|].
    pose proof (wfm_upd _ _ _ i _ H Hr) as H'.
    rewrite (set_col_ok k k _ i c H' Hi Hc). f_equal.
    pose proof (wfm_upd_col _ _ _ i _ H' Hc) as H''. cbn [mrows] in *.
    rewrite (mat_as_tab2 _ _ _ H''). apply tab2_ext. intros a b Ha Hb.
    rewrite (entry_upd_col _ _ _ _ _ _ _ H' Hc Ha Hi).
    destruct (b =? i); auto. apply entry_upd_row. destruct H as (_ & H & _); lia.
  Qed.

  (** the matrix _S of cSIL after a cluster joined / changed *)
  Definition S_app (k : nat) (e : nat -> nat -> F A) (cl rw : nat -> F A) : mat A :=
    tab2 (S k) (S k) (fun a b => if b =? k then (if a =? k then f0 else rw a)
                                 else if a =? k then cl b else e a b).
  Definition S_set (k i : nat) (e : nat -> nat -> F A) (cl rw : nat -> F A) (sii : F A) : mat A :=
    tab2 k k (fun a b => if b =? i then (if a =? i then sii else rw a)
                         else if a =? i then cl b else e a b).

  (** the entries of _S written by cSIL._param_inc *)
  Definition sil_col_new (o : attrs A) (x : vec A) (j : nat) : F A :=
    fsub (fadd (sdot x x) (np_dot (vrow o j) (vrow o j))) (np_dot x (vrow o j)).
  Definition sil_row_new (o : attrs A) (vn : vec A) (j : nat) : F A :=
    fdiv (fsub (sadd (cpi o j) (smul (f_of_nat (nn o j)) (sdot vn vn)))
               (fmul f2 (np_dot (grow_ o j) vn))) (f_of_nat (nn o j)).
  Definition sil_row (o : attrs A) (vn : vec A) (j : nat) : F A :=
    fdiv (fsub (fadd (cpi o j) (fmul (f_of_nat (nn o j)) (np_dot vn vn)))
               (fmul f2 (np_dot (grow_ o j) vn))) (f_of_nat (nn o j)).
  Lemma plain_sil_row (H : Plain A) o vn j : sil_row_new o vn j = sil_row o vn j.
  Proof. unfold sil_row_new, sil_row. now rewrite (pl_add _ H), (pl_mul _ H), (pl_dot _ H). Qed.
  Definition sil_col_old (o : attrs A) (x : vec A) (i j : nat) : F A :=
    let dx := map2 fsub x (vrow o j) in
    fdiv (fsub (fadd (fadd (cpi o i) (np_dot dx dx))
                     (fmul (f_of_nat (nn o i)) (np_dot (vrow o j) (vrow o j))))
               (fmul f2 (np_dot (map2 fadd (grow_ o i) x) (vrow o j)))) (f_of_nat (nn o i + 1)).
  Definition sil_self (o : attrs A) (x : vec A) (i : nat) : F A :=
    let vn := v_upd (nn o i) (vrow o i) x in
    let dx := map2 fsub x vn in
    fdiv (fsub (fadd (fadd (cpi o i) (np_dot dx dx)) (fmul (f_of_nat (nn o i)) (np_dot vn vn)))
               (fmul f2 (np_dot (grow_ o i) vn))) (f_of_nat (nn o i + 1)).
End Pure2.

Section Steps2.
  Context {A : Arith}.

  Ltac facts := repeat match goal with
    | |- _ /\ _ => split
    | |- Common _ _ _ _ => constructor
    | |- CommonNew _ _ _ _ => constructor
    | |- CommonOld _ _ _ _ _ => constructor
    end; red_attrs; try reflexivity; auto.
  Ltac lift1 := match goal with
    | H : n_array _ = false |- context [if n_array _ then _ else _] => rewrite H
    | |- context [bind (lift ?e) _ _] =>
        first
        [ erewrite (bind_lift (vstack _ _)) by (eapply vstack_ok; [eassumption || apply wfm_zmat|solve [lens]])
        | erewrite (bind_lift (running_mean _ _ _)) by (apply running_mean_ok; solve [lens])
        | erewrite (bind_lift (srunning_mean _ _ _)) by (apply srunning_mean_ok; solve [lens])
        | erewrite (bind_lift (sinner _ _)) by (apply sinner_ok; solve [lens])
        | erewrite (bind_lift (vsub _ _)) by (apply vsub_ok; solve [lens])
        | erewrite (bind_lift (vadd _ _)) by (apply vadd_ok; solve [lens])
        | erewrite (bind_lift (inner _ _)) by (apply inner_ok; solve [lens])
        | erewrite (bind_lift (get_item _ _)) by (apply (get_item_ok _ _ f0); solve [lens])
        | erewrite (bind_lift (get_item _ _)) by (apply (get_item_ok _ _ 0); solve [lens])
        | erewrite (bind_lift (set_item _ _ _)) by (apply set_item_ok; solve [lens])
        | erewrite (bind_lift (row _ _)) by (eapply row_ok; [eassumption|solve [lens]])
        | erewrite (bind_lift (set_row _ _ _)) by (eapply set_row_ok; [eassumption|solve [lens]|solve [lens]])
        ]
    end.

  (** ** PS *)
  Record ShapeP (d : nat) (o : attrs A) : Prop := mkShapeP {
    sp_ns : 0 < n_samples o;
    sp_dim : dim o = d;
    sp_setup : is_setup o = true;
    sp_n : length (n o) = n_clusters o;
    sp_v : wfm (n_clusters o) d (v o);
    sp_D : wfm (n_clusters o) (n_clusters o) (D o);
    sp_na : n_array o = false
  }.
  Definition PSt (o : attrs A) (vn : vec A) (j : nat) : F A := sqd vn (vrow o j).

  Lemma PS_new d x o : o = init_attrs \/ ShapeP d o -> length x = d -> exists o',
    PS_param_inc x (n_clusters o) o = (o', Ok tt) /\
    Common d x o o' /\ CommonNew d x o o' /\
    D o' = D_app (n_clusters o) (entry (D o)) (PSt o x).
  Proof.
    intros [->|[H1 H2 H3 H4 H5 H6 Hna]] Hx.
    - subst d. unfold PS_param_inc, append_n, PS_setup, base_setup. sx.
      rewrite (bind_lift _ (zmat 1 1)) by reflexivity. sx.
      repeat (lift1; sx).
      eexists; split; [reflexivity|]. facts.
    - assert (E0 : (n_samples o =? 0) = false) by (apply Nat.eqb_neq; lia).
      unfold PS_param_inc, append_n. sx. rewrite E0. sx. rewrite Nat.leb_refl. sx.
      erewrite (bind_lift (D_new_cluster _ _ _ _)).
      2:{ apply (D_new_cluster_ok _ _ _ (PSt o x)); auto.
          intros j Hj. now apply (sqdist_ok d (n_clusters o)). }
      sx. repeat (lift1; sx).
      eexists; split; [reflexivity|]. facts.
  Qed.

  Lemma PS_old d x i o : ShapeP d o -> length x = d -> i < n_clusters o -> exists o',
    PS_param_inc x i o = (o', Ok tt) /\
    Common d x o o' /\ CommonOld d x i o o' /\
    D o' = D_set (n_clusters o) i (entry (D o)) (PSt o (v_upd (nn o i) (vrow o i) x)).
  Proof.
    intros [H1 H2 H3 H4 H5 HD Hna] Hx Hi.
    assert (E0 : (n_samples o =? 0) = false) by (apply Nat.eqb_neq; lia).
    assert (Ek : (n_clusters o <=? i) = false) by (apply Nat.leb_gt; lia).
    pose proof (wfm_row _ _ _ _ H5 Hi) as Lv.
    unfold PS_param_inc, append_n. sx. rewrite E0. sx. rewrite Ek. sx.
    repeat (lift1; sx).
    set (g := PSt o (v_upd (nn o i) (vrow o i) x)).
    erewrite (bind_lift (D_old_column _ _ _)).
    2:{ apply (D_old_column_ok _ _ _ g). intros j Hj _. apply (sqdist_ok d (n_clusters o)); auto. unfold v_upd, vrow. lens. }
    sx. destruct (D_set_ok _ i _ g HD Hi) as [Hr Hc].
    repeat (lift1; sx).
    rewrite (bind_lift _ _ _ _ Hr). sx.
    rewrite (bind_lift _ _ _ _ Hc). sx.
    eexists; split; [reflexivity|]. facts.
  Qed.

  (** ** cSIL *)
  Record ShapeS (d : nat) (o : attrs A) : Prop := mkShapeS {
    ss_ns : 0 < n_samples o;
    ss_dim : dim o = d;
    ss_setup : is_setup o = true;
    ss_n : length (n o) = n_clusters o;
    ss_v : wfm (n_clusters o) d (v o);
    ss_CP : length (CP o) = n_clusters o;
    ss_G : wfm (n_clusters o) d (G o);
    ss_S : wfm (n_clusters o) (n_clusters o) (S2 o);
    ss_na : n_array o = false
  }.

  Lemma sil_row_ok d k vn (o : attrs A) j : length (n o) = k -> length (CP o) = k -> wfm k d (G o) ->
    length vn = d -> j < k -> cSIL_row o vn j = Ok (sil_row o vn j).
  Proof.
    intros H1 H2 H3 H4 Hj. unfold cSIL_row.
    rewrite (get_item_ok _ _ f0) by lia. cbn [bindE].
    rewrite (get_item_ok _ _ 0) by lia. cbn [bindE].
    rewrite inner_ok by reflexivity. cbn [bindE].
    rewrite (row_ok _ _ _ _ H3 Hj). cbn [bindE].
    rewrite inner_ok by (rewrite (wfm_row _ _ _ _ H3 Hj); auto). reflexivity.
  Qed.

  Lemma sil_row_new_ok d k vn (o : attrs A) j : length (n o) = k -> length (CP o) = k -> wfm k d (G o) ->
    length vn = d -> j < k -> cSIL_row_new o vn j = Ok (sil_row_new o vn j).
  Proof.
    intros H1 H2 H3 H4 Hj. unfold cSIL_row_new.
    rewrite (get_item_ok _ _ f0) by lia. cbn [bindE].
    rewrite (get_item_ok _ _ 0) by lia. cbn [bindE].
    rewrite sinner_ok by reflexivity. cbn [bindE].
    rewrite (row_ok _ _ _ _ H3 Hj). cbn [bindE].
    rewrite inner_ok by (rewrite (wfm_row _ _ _ _ H3 Hj); auto). reflexivity.
  Qed.

  Lemma sil_col_new_ok d k x (o : attrs A) j : wfm k d (v o) -> length x = d -> j < k ->
    cSIL_col_new o (sdot x x) x j = Ok (sil_col_new o x j).
  Proof.
    intros H Hx Hj. unfold cSIL_col_new. rewrite (row_ok _ _ _ _ H Hj). cbn [bindE].
    rewrite inner_ok by reflexivity. cbn [bindE].
    rewrite inner_ok by (rewrite (wfm_row _ _ _ _ H Hj); auto). reflexivity.
  Qed.

  Lemma sil_col_old_ok d k x (o : attrs A) i j : wfm k d (v o) -> wfm k d (G o) -> length x = d -> i < k -> j < k ->
    cSIL_col_old o x (cpi o i) (nn o i) (map2 fadd (grow_ o i) x) j = Ok (sil_col_old o x i j).
  Proof.
    intros H HG Hx Hi Hj. unfold cSIL_col_old. rewrite (row_ok _ _ _ _ H Hj). cbn [bindE].
    pose proof (wfm_row _ _ _ _ H Hj) as L. pose proof (wfm_row _ _ _ _ HG Hi) as L'.
    rewrite vsub_ok by (rewrite L; auto). cbn [bindE].
    rewrite inner_ok by reflexivity. cbn [bindE].
    rewrite inner_ok by reflexivity. cbn [bindE].
    rewrite inner_ok; [reflexivity|]. rewrite length_map2. unfold grow_. rewrite L, L', Hx. lia.
  Qed.

  Lemma cSIL_new d x o : o = init_attrs \/ ShapeS d o -> length x = d -> exists o',
    cSIL_param_inc x (n_clusters o) o = (o', Ok tt) /\
    Common d x o o' /\ CommonNew d x o o' /\
    CP o' = CP o ++ [sdot x x] /\ G o' = mkMat d (mrows (G o) ++ [x]) /\
    S2 o' = S_app (n_clusters o) (entry (S2 o)) (sil_col_new o x) (sil_row_new o x).
  Proof.
    intros [->|[H1 H2 H3 H4 H5 H6 H7 H8 Hna]] Hx.
    - subst d. unfold cSIL_param_inc, append_n, cSIL_setup, base_setup. sx.
      lift1. sx. repeat (lift1; sx).
      eexists; split; [reflexivity|]. facts.
    - assert (E0 : (n_samples o =? 0) = false) by (apply Nat.eqb_neq; lia).
      unfold cSIL_param_inc, append_n. sx. rewrite E0. sx. rewrite Nat.leb_refl. sx. lift1. sx.
      rewrite (bind_ok _ _ o o (S_app (n_clusters o) (entry (S2 o)) (sil_col_new o x) (sil_row_new o x))).
      { sx. repeat (lift1; sx). eexists; split; [reflexivity|]. facts. }
      destruct (Nat.eqb_spec (n_clusters o) 0) as [Ez|Ez].
      { rewrite Ez. reflexivity. }
      sx. rewrite (bind_lift _ _ _ _ (grow_ok _ _ H8 Ez)). sx.
      set (k := n_clusters o) in *.
      rewrite (bind_lift _ (map (fun j => (sil_col_new o x j, sil_row_new o x j)) (seq 0 k))).
      2:{ apply mapE_ok. intros j Hj. apply in_seq in Hj.
          rewrite (sil_col_new_ok d k) by (auto; lia). cbn [bindE].
          rewrite (sil_row_new_ok d k) by (auto; lia). reflexivity. }
      sx. rewrite !map_map. cbn [fst snd].
      assert (L1 : forall g : nat -> F A, length (map g (seq 0 k) ++ [f0]) = S k)
        by (intros; rewrite app_length, map_length, seq_length; simpl; lia).
      rewrite (bind_lift _ _ _ _ (set_item_ok (map (sil_col_new o x) (seq 0 k) ++ [f0]) k f0
        ltac:(rewrite (L1 _); lia))). sx.
      rewrite (bind_lift _ _ _ _ (set_item_ok (map (sil_row_new o x) (seq 0 k) ++ [f0]) k f0
        ltac:(rewrite (L1 _); lia))). sx.
      assert (L2 : forall g : nat -> F A, upd k f0 (map g (seq 0 k) ++ [f0]) = map g (seq 0 k) ++ [f0]).
      { intros g. rewrite <- (seq_length k 0) at 1. rewrite <- (map_length g (seq 0 k)).
        apply upd_app. }
      rewrite !L2.
      set (T := tab2 (S k) (S k) _).
      assert (HT : wfm (S k) (S k) T) by apply wfm_tab2.
      destruct (set_row_col2 (S k) T k _ _ HT (Nat.lt_succ_diag_r k) (L1 (sil_col_new o x)) (L1 (sil_row_new o x)))
        as [Hr Hc].
      rewrite (bind_lift _ _ _ _ Hr). sx. unfold lift. rewrite Hc. f_equal. f_equal.
      apply tab2_ext. intros a b Ha Hb.
      assert (Hn : forall (g : nat -> F A) j, j < S k ->
                 nth j (map g (seq 0 k) ++ [f0]) f0 = if j =? k then f0 else g j).
      { intros g j Hj. destruct (Nat.eqb_spec j k) as [->|Hjk].
        - rewrite app_nth2; rewrite map_length, seq_length; [|lia]. now rewrite Nat.sub_diag.
        - rewrite app_nth1 by (rewrite map_length, seq_length; lia). apply nth_map_seq. lia. }
      rewrite !Hn by auto.
      destruct (Nat.eqb_spec b k); auto. destruct (Nat.eqb_spec a k); auto.
      unfold T. rewrite entry_tab2 by lia.
      destruct (Nat.ltb_spec a k); [|lia]. destruct (Nat.ltb_spec b k); [|lia]. reflexivity.
  Qed.

  Lemma cSIL_old d x i o : ShapeS d o -> length x = d -> i < n_clusters o -> exists o',
    cSIL_param_inc x i o = (o', Ok tt) /\
    Common d x o o' /\ CommonOld d x i o o' /\
    CP o' = upd i (sadd (cpi o i) (sdot x x)) (CP o) /\
    G o' = mkMat d (upd i (map2 fadd (grow_ o i) x) (mrows (G o))) /\
    S2 o' = S_set (n_clusters o) i (entry (S2 o)) (sil_col_old o x i)
              (sil_row o (v_upd (nn o i) (vrow o i) x)) (sil_self o x i).
  Proof.
    intros [H1 H2 H3 H4 H5 H6 H7 H8 Hna] Hx Hi.
    assert (E0 : (n_samples o =? 0) = false) by (apply Nat.eqb_neq; lia).
    assert (Ek : (n_clusters o <=? i) = false) by (apply Nat.leb_gt; lia).
    pose proof (wfm_row _ _ _ _ H5 Hi) as Lv. pose proof (wfm_row _ _ _ _ H7 Hi) as LG.
    unfold cSIL_param_inc, append_n. sx. rewrite E0. sx. rewrite Ek. sx.
    set (k := n_clusters o) in *.
    do 7 (lift1; sx).
    set (cl := fun j => if j =? i then f0 else sil_col_old o x i j).
    set (rw := fun j => if j =? i then f0 else sil_row o (v_upd (nn o i) (vrow o i) x) j).
    rewrite (bind_lift _ (map (fun j => (cl j, rw j)) (seq 0 k))).
    2:{ apply mapE_ok. intros j Hj. apply in_seq in Hj. unfold cl, rw.
        destruct (Nat.eqb_spec j i); auto.
        fold (cpi o i) (nn o i) (grow_ o i) (vrow o i).
        rewrite (sil_col_old_ok d k) by (auto; lia). cbn [bindE].
        rewrite (sil_row_ok d k); [reflexivity|auto|auto|auto|unfold vrow; lens|lia]. }
    sx. repeat (lift1; sx).
    rewrite !map_map. cbn [fst snd].
    assert (L : forall (g : nat -> F A), length (map g (seq 0 k)) = k)
      by (intros; now rewrite map_length, seq_length).
    rewrite (bind_lift _ _ _ _ (set_item_ok (map cl (seq 0 k)) i _ ltac:(rewrite (L _); lia))). sx.
    rewrite (bind_lift _ _ _ _ (set_item_ok (map rw (seq 0 k)) i _ ltac:(rewrite (L _); lia))). sx.
    repeat (lift1; sx).
    match goal with |- context [set_row (S2 o) i (upd i ?s (map cl (seq 0 k)))] => set (sii := s) end.
    destruct (set_row_col2 k (S2 o) i (upd i sii (map cl (seq 0 k))) (upd i sii (map rw (seq 0 k))) H8 Hi)
      as [Hr Hc]; [now rewrite length_upd, L|now rewrite length_upd, L|].
    rewrite (bind_lift _ _ _ _ Hr). sx.
    rewrite (bind_lift _ _ _ _ Hc). sx.
    eexists; split; [reflexivity|]. facts.
    apply tab2_ext. intros a b Ha Hb.
    rewrite !nth_upd by (rewrite L; auto). rewrite !nth_map_seq by auto.
    unfold cl, rw.
    destruct (Nat.eqb_spec b i).
    - destruct (Nat.eqb_spec a i); auto.
    - destruct (Nat.eqb_spec a i); auto.
  Qed.

  (** ** rCIP *)
  Record ShapeR (d : nat) (o : attrs A) : Prop := mkShapeR {
    sr_ns : 0 < n_samples o;
    sr_dim : dim o = d;
    sr_setup : is_setup o = true;
    sr_n : length (n o) = n_clusters o;
    sr_v : wfm (n_clusters o) d (v o);
    sr_D : wfm (n_clusters o) (n_clusters o) (D o);
    sr_sig : length (sigma o) = n_clusters o;
    sr_sig' : Forall (wfm d d) (sigma o);
    sr_delta : delta_term o = rCIP_delta_term d;
    sr_npos : Forall (fun m => m <> 0) (n o);
    sr_na : n_array o = false
  }.
  Definition sig (o : attrs A) i : mat A := nth i (sigma o) (zmat 0 0).
  (** the covariance estimate of a cluster of [ni] samples after [x] joined *)
  Definition sigma_upd (d ni : nat) (vi : vec A) (si : mat A) (x : vec A) : mat A :=
    let dx := map2 fsub x vi in
    tab2 d d (fun a b =>
      fadd (fadd (fmul (fdiv (f_of_Z (Z.of_nat (ni + 1) - 2)) (f_of_Z (Z.of_nat (ni + 1) - 1)))
                       (fsub (entry si a b) (entry (rCIP_delta_term d) a b)))
                 (fmul (fdiv f1 (f_of_nat (ni + 1))) (fmul (nth a dx f0) (nth b dx f0))))
           (entry (rCIP_delta_term d) a b)).

  Lemma wfm_delta d : wfm d d (rCIP_delta_term d : mat A).
  Proof. apply wfm_tab2. Qed.

  (** attributes of the object at the moment the terms are computed *)
  Definition rc (o : attrs A) (d : nat) : attrs A := set_constant (rCIP_constant d) o.

  Lemma rCIP_first d (x : vec A) : length x = d -> d <> 0 -> exists o',
    rCIP_param_inc x 0 init_attrs = (o', Ok tt) /\
    Common d x init_attrs o' /\ CommonNew d x init_attrs o' /\
    D o' = zmat 1 1 /\ sigma o' = [rCIP_delta_term d] /\ delta_term o' = rCIP_delta_term d.
  Proof.
    intros Hx Hd. assert (E0 : (d =? 0) = false) by now apply Nat.eqb_neq.
    unfold rCIP_param_inc, append_n, rCIP_setup, base_setup. sx. rewrite Hx, E0. sx.
    rewrite (bind_lift _ (zmat 1 1)) by reflexivity. sx.
    erewrite (bind_lift (vstack _ _)) by (apply vstack_ok with (r := 0) (c := d); [apply wfm_zmat|auto]).
    sx. eexists; split; [reflexivity|]. facts.
  Qed.

  Lemma rCIP_new d x o g : ShapeR d o -> length x = d ->
    (forall j, j < n_clusters o -> rCIP_term (rc o d) x (rCIP_delta_term d) j = Ok (g j)) -> exists o',
    rCIP_param_inc x (n_clusters o) o = (o', Ok tt) /\
    Common d x o o' /\ CommonNew d x o o' /\
    D o' = D_app (n_clusters o) (entry (D o)) g /\
    sigma o' = sigma o ++ [rCIP_delta_term d] /\ delta_term o' = delta_term o.
  Proof.
    intros [H1 H2 H3 H4 H5 H6 H7 H8 H9 _ Hna] Hx Hg.
    assert (E0 : (n_samples o =? 0) = false) by (apply Nat.eqb_neq; lia).
    unfold rCIP_param_inc, append_n. sx. rewrite E0. sx. rewrite H2, Nat.leb_refl. sx. rewrite H9. sx.
    rewrite (bind_lift _ _ _ _ (D_new_cluster_ok _ _ _ g H6 Hg)).
    sx. repeat (lift1; sx).
    eexists; split; [reflexivity|]. facts.
  Qed.

  Lemma rCIP_new_raise d x o : ShapeR d o -> length x = d ->
    (exists j e, j < n_clusters o /\ rCIP_term (rc o d) x (rCIP_delta_term d) j = Err e) ->
    exists e, rCIP_param_inc x (n_clusters o) o = (rc o d, Err e).
  Proof.
    intros [H1 H2 H3 H4 H5 H6 H7 H8 H9 _ Hna] Hx (j & e & Hj & He).
    assert (E0 : (n_samples o =? 0) = false) by (apply Nat.eqb_neq; lia).
    unfold rCIP_param_inc, append_n. sx. rewrite E0. sx. rewrite H2, Nat.leb_refl. sx. rewrite H9. sx.
    assert (exists e', D_new_cluster (n_clusters o) (n_clusters o) (D o)
              (rCIP_term (rc o d) x (rCIP_delta_term d)) = Err e') as [e' He'].
    { unfold D_new_cluster. destruct (Nat.eqb_spec (n_clusters o) 0); [lia|].
      rewrite (grow_ok _ _ H6) by lia. cbn [bindE].
      destruct (mapE _ _) as [ys|e'] eqn:Em; [|cbn [bindE]; eauto].
      apply mapE_inv in Em. destruct Em as [_ Em].
      destruct (Em j) as [y Hy]; [apply in_seq; lia|]. congruence. }
    rewrite (bind_lift_err _ _ _ _ He'). eauto.
  Qed.

  Lemma sigma_ok d i x o : ShapeR d o -> length x = d -> i < n_clusters o ->
    exists s0 s1, msub (sig o i) (delta_term o) = Ok s0 /\
      madd (mscal (fdiv (f_of_Z (Z.of_nat (nn o i + 1) - 2)) (f_of_Z (Z.of_nat (nn o i + 1) - 1))) s0)
           (mscal (fdiv f1 (f_of_nat (nn o i + 1))) (outer (map2 fsub x (vrow o i)) (map2 fsub x (vrow o i)))) = Ok s1 /\
      madd s1 (delta_term o) = Ok (sigma_upd d (nn o i) (vrow o i) (sig o i) x).
  Proof.
    intros [H1 H2 H3 H4 H5 H6 H7 H8 H9 _ Hna] Hx Hi. rewrite H9.
    assert (Hs : wfm d d (sig o i)).
    { rewrite Forall_forall in H8. apply H8, nth_In. lia. }
    pose proof (wfm_row _ _ _ _ H5 Hi) as Lv. fold (vrow o i) in Lv.
    assert (Ld : length (map2 fsub x (vrow o i)) = d) by (rewrite length_map2; lia).
    pose proof (wfm_outer (map2 fsub x (vrow o i)) (map2 fsub x (vrow o i))) as Ho. rewrite Ld in Ho.
    do 2 eexists. split; [apply (bc2_ok _ d d); auto using wfm_delta|].
    split; [apply (bc2_ok _ d d); apply wfm_mscal; auto using wfm_tab2|].
    unfold madd. rewrite (bc2_ok _ d d) by auto using wfm_tab2, wfm_delta. f_equal.
    apply tab2_ext. intros a b Ha Hb. rewrite entry_tab2 by auto.
    rewrite (entry_mscal d d) by auto using wfm_tab2. rewrite entry_tab2 by auto.
    rewrite (entry_mscal d d) by auto. rewrite entry_outer by lia. reflexivity.
  Qed.

  Lemma rCIP_old d x i o g : ShapeR d o -> length x = d -> i < n_clusters o ->
    (forall j, j < n_clusters o -> j <> i ->
       rCIP_term (rc o d) (v_upd (nn o i) (vrow o i) x) (sigma_upd d (nn o i) (vrow o i) (sig o i) x) j = Ok (g j)) ->
    exists o',
    rCIP_param_inc x i o = (o', Ok tt) /\
    Common d x o o' /\ CommonOld d x i o o' /\
    D o' = D_set (n_clusters o) i (entry (D o)) g /\
    sigma o' = upd i (sigma_upd d (nn o i) (vrow o i) (sig o i) x) (sigma o) /\
    delta_term o' = delta_term o.
  Proof.
    intros HS Hx Hi Hg. destruct (sigma_ok d i x o HS Hx Hi) as (s0 & s1 & E1 & E2 & E3).
    destruct HS as [H1 H2 H3 H4 H5 H6 H7 H8 H9 Hp Hna].
    assert (E0 : (n_samples o =? 0) = false) by (apply Nat.eqb_neq; lia).
    assert (Ek : (n_clusters o <=? i) = false) by (apply Nat.leb_gt; lia).
    assert (En : (nn o i + 1 =? 1) = false).
    { apply Nat.eqb_neq. rewrite Forall_forall in Hp. specialize (Hp (nn o i)).
      assert (nn o i <> 0); [|lia]. apply Hp, nth_In. lia. }
    pose proof (wfm_row _ _ _ _ H5 Hi) as Lv.
    unfold rCIP_param_inc, append_n. sx. rewrite E0. sx. rewrite H2, Ek. sx.
    do 4 (lift1; sx). fold (nn o i). rewrite En. sx.
    rewrite (bind_lift _ _ _ _ (get_item_ok (sigma o) i (zmat 0 0) ltac:(lia))). sx.
    rewrite (bind_lift _ _ _ _ E1). sx. rewrite (bind_lift _ _ _ _ E2). sx.
    rewrite (bind_lift _ _ _ _ E3). sx.
    rewrite (bind_lift _ _ _ _ (D_old_column_ok _ _ _ _ Hg)). sx.
    destruct (D_set_ok _ i _ g H6 Hi) as [Hr Hc].
    repeat (lift1; sx).
    rewrite (bind_lift _ _ _ _ Hr). sx. rewrite (bind_lift _ _ _ _ Hc). sx.
    eexists; split; [reflexivity|]. facts.
  Qed.

  Lemma rCIP_old_raise d x i o : ShapeR d o -> length x = d -> i < n_clusters o ->
    (exists j e, j < n_clusters o /\ j <> i /\
       rCIP_term (rc o d) (v_upd (nn o i) (vrow o i) x) (sigma_upd d (nn o i) (vrow o i) (sig o i) x) j = Err e) ->
    exists e, rCIP_param_inc x i o = (rc o d, Err e).
  Proof.
    intros HS Hx Hi (j & e & Hj & Hji & He). destruct (sigma_ok d i x o HS Hx Hi) as (s0 & s1 & E1 & E2 & E3).
    destruct HS as [H1 H2 H3 H4 H5 H6 H7 H8 H9 Hp Hna].
    assert (E0 : (n_samples o =? 0) = false) by (apply Nat.eqb_neq; lia).
    assert (Ek : (n_clusters o <=? i) = false) by (apply Nat.leb_gt; lia).
    assert (En : (nn o i + 1 =? 1) = false).
    { apply Nat.eqb_neq. rewrite Forall_forall in Hp. specialize (Hp (nn o i)).
      assert (nn o i <> 0); [|lia]. apply Hp, nth_In. lia. }
    pose proof (wfm_row _ _ _ _ H5 Hi) as Lv.
    unfold rCIP_param_inc, append_n. sx. rewrite E0. sx. rewrite H2, Ek. sx.
    do 4 (lift1; sx). fold (nn o i). rewrite En. sx.
    rewrite (bind_lift _ _ _ _ (get_item_ok (sigma o) i (zmat 0 0) ltac:(lia))). sx.
    rewrite (bind_lift _ _ _ _ E1). sx. rewrite (bind_lift _ _ _ _ E2). sx.
    rewrite (bind_lift _ _ _ _ E3). sx.
    assert (exists e', D_old_column (n_clusters o) i
       (rCIP_term (rc o d) (v_upd (nn o i) (vrow o i) x) (sigma_upd d (nn o i) (vrow o i) (sig o i) x)) = Err e')
      as [e' He'].
    { unfold D_old_column. destruct (mapE _ _) as [ys|e'] eqn:Em; [|eauto].
      apply mapE_inv in Em. destruct Em as [_ Em].
      destruct (Em j) as [y Hy]; [apply in_seq; lia|].
      destruct (Nat.eqb_spec j i); [lia|congruence]. }
    rewrite (bind_lift_err _ _ _ _ He'). eauto.
  Qed.
End Steps2.
