(** * Objects that refuse every further call, for every arithmetic.

    The batch update of CH, WB, XB and cSIL makes [_n] a numpy array and leaves
    [_G] empty; after it no one-sample update can finish. *)
From Coq Require Import ZArith List Arith Bool Lia.
From Verif Require Import Num NumPy Base M_CH M_D M_PS GetCvi Lists Step Step2 StepB Hoare Stream Generic.
Import ListNotations.

Section Refuse.
  Context {A : Arith}.

  Definition stuck (o : attrs A) : Prop := n_array o = true /\ mrows (G o) = [] /\ n_samples o <> 0.
  Definition stays (o o' : attrs A) (r : E unit) : Prop :=
    stuck o' /\ (exists e, r = Err e) /\ is_setup o' = is_setup o.

  Lemma row_empty (m : mat A) i : mrows m = [] -> forall x, row m i <> Ok x.
  Proof. unfold row, get_item. intros ->. destruct i; discriminate. Qed.

  Ltac sdone H1 H2 H3 := solve
    [ exfalso; congruence
    | exfalso; match goal with E : row (G _) _ = Ok _ |- _ => exact (row_empty _ _ H2 _ E) end
    | exfalso; match goal with E : (n_samples _ =? 0) = true |- _ => exact (H3 (proj1 (Nat.eqb_eq _ _) E)) end
    | split; [split; [assumption|split; [exact H2|exact H3]]|split; [eexists; reflexivity|reflexivity]] ].

  Lemma stuck_CH x i o : stuck o -> post (CH_param_inc x i) o (stays o).
  Proof. intros (H1 & H2 & H3). unfold CH_param_inc, append_n, CH_setup, base_setup. hrun. all: sdone H1 H2 H3. Qed.
  Lemma stuck_WB x i o : stuck o -> post (WB_param_inc x i) o (stays o).
  Proof. intros (H1 & H2 & H3). unfold WB_param_inc, append_n, WB_setup, base_setup. hrun. all: sdone H1 H2 H3. Qed.
  Lemma stuck_XB x i o : stuck o -> post (XB_param_inc x i) o (stays o).
  Proof. intros (H1 & H2 & H3). unfold XB_param_inc, append_n, XB_setup, base_setup. hrun. all: sdone H1 H2 H3. Qed.
  Lemma stuck_cSIL x i o : stuck o -> post (cSIL_param_inc x i) o (stays o).
  Proof. intros (H1 & H2 & H3). unfold cSIL_param_inc, append_n, cSIL_setup, base_setup. hrun. all: sdone H1 H2 H3. Qed.

  (** the classes concerned *)
  Definition one_way (c : kind) : Prop := match c with kCH | kWB | kXB | kcSIL => True | _ => False end.

  Lemma stuck_inc c x i o : one_way c -> stuck o -> post (param_inc c x i) o (stays o).
  Proof.
    destruct c; intros [] H; [apply stuck_CH|apply stuck_WB|apply stuck_XB|apply stuck_cSIL]; exact H.
  Qed.

  Ltac sloop b := match goal with
    | |- post (bind (for_ _ _) _) ?oo _ =>
        apply post_bind; eapply post_conseq;
        [apply (post_for _ _ _ (fun o' => n_array o' = n_array oo /\ G o' = G oo /\ n_samples o' = n_samples oo));
         [repeat split; reflexivity|intros ? ? (? & ? & ?); unfold b; hrun; try (repeat split; red_attrs; congruence)]
        |intros ? [[]|] (? & ? & ?); red_attrs]
    | |- post (for_ _ _) ?oo _ =>
        eapply post_conseq;
        [apply (post_for _ _ _ (fun o' => n_array o' = n_array oo /\ G o' = G oo /\ n_samples o' = n_samples oo));
         [repeat split; reflexivity|intros ? ? (? & ? & ?); unfold b; hrun; try (repeat split; red_attrs; congruence)]
        |intros ? [[]|] (? & ? & ?); red_attrs]
    end.
  Ltac sgo b := hrun; try (sloop b; red_attrs); hrun;
    unfold stuck; red_attrs;
    repeat match goal with H : n_array ?a = _ |- context [n_array ?a] => rewrite H
                         | H : G ?a = _ |- context [G ?a] => rewrite H
                         | H : n_samples ?a = _ |- context [n_samples ?a] => rewrite H end;
    red_attrs; auto.
  (** whatever the outcome of the batch update *)
  Lemma batch_stuck c m ls o : one_way c -> nrows m <> 0 -> mrows (G o) = [] ->
    post (param_batch c m ls) o (fun o' _ => stuck o').
  Proof.
    intros Hc Hm HG. destruct c; destruct Hc; cbn [param_batch].
    - unfold CH_param_batch, base_setup_batch. sgo @CH_batch_body.
    - unfold WB_param_batch, base_setup_batch. sgo @WB_batch_body.
    - unfold XB_param_batch, base_setup_batch. sgo @XB_batch_body.
    - unfold cSIL_param_batch, base_setup_batch. sgo @cSIL_batch_body.
  Qed.

  Lemma stuck_Frame o o' : Frame o o' -> stuck o -> stuck o'.
  Proof. intros F (H1 & H2 & H3). repeat split; [rewrite (fr_na _ _ F)|rewrite (fr_G _ _ F)|rewrite (fr_ns _ _ F)]; auto. Qed.

  (** an object in this state refuses every call and stays so *)
  Lemma stuck_call c (o : obj A) data l : one_way c -> stuck (at_ o) -> is_setup (at_ o) = true ->
    exists o' e, get_cvi c o data l = (o', Err e) /\ stuck (at_ o') /\ is_setup (at_ o') = true.
  Proof.
    intros Hc Hs Hi. destruct data as [x|m|k].
    - destruct l as [l|ls].
      + unfold get_cvi, update. destruct (get_internal_label (label_map o) l) as [i lm].
        pose proof (stuck_inc c x i (at_ o) Hc Hs) as H. unfold post in H.
        destruct (param_inc c x i (at_ o)) as [a' r]. cbn [fst snd] in H. destruct H as (H1 & (e & ->) & H3).
        exists (mkObj lm a'), e. cbn [at_]. repeat split; try apply H1. congruence.
      + exists o, TypeError. auto.
    - exists o, ValueError. rewrite mat_refused by auto. auto.
    - exists o, ValueError. auto.
  Qed.
  Lemma stuck_run c (o : obj A) h : one_way c -> stuck (at_ o) -> is_setup (at_ o) = true ->
    Forall (fun r => exists e, r = Err e) (results c o h) /\
    criterion_value (at_ (after c o h)) = criterion_value (at_ o).
  Proof.
    intros Hc. unfold results, after. revert o; induction h as [|[d l] h IH]; intros o Hs Hi.
    - split; [constructor|reflexivity].
    - cbn [run]. destruct (stuck_call c o d l Hc Hs Hi) as (o1 & e & E & H1 & H2). rewrite E.
      specialize (IH o1 H1 H2). destruct (run c o1 h) as [o2 rs]. cbn [fst snd] in *. destruct IH as [I1 I2].
      split; [constructor; eauto|]. rewrite I2. eapply get_cvi_err, E.
  Qed.
  Lemma batch_call_stuck c m ls : one_way c -> nrows m <> 0 -> 1 < n_unique ls ->
    let o := fst (get_cvi c (new_obj (A := A)) (Mat m) (Labs ls)) in stuck (at_ o) /\ is_setup (at_ o) = true.
  Proof.
    intros Hc Hm Hl. unfold get_cvi, update. cbn [at_ new_obj is_setup init_attrs label_map unique_labels].
    apply Nat.ltb_lt in Hl. rewrite Hl. cbn [negb].
    pose proof (batch_stuck c m ls init_attrs Hc Hm eq_refl) as H1. pose proof (bat_all c m ls init_attrs) as H2.
    unfold post in H1, H2. destruct (param_batch c m ls init_attrs) as [a1 r]. cbn [fst snd] in *. destruct H2 as [_ H2].
    destruct r as [[]|e]; [|auto]. cbn [at_]. pose proof (ev_all c a1) as H3. unfold post in H3.
    destruct (evaluate c a1) as [a2 r2]. cbn [fst snd] in H3. destruct H3 as [F _].
    destruct r2; cbn [fst at_]; split; try (eapply stuck_Frame; eassumption); rewrite (fr_setup _ _ F); auto.
  Qed.

  (** a batch call with at least two distinct labels marks the object as set
      up, whether it raises or not: no later 2-D call is accepted *)
  Lemma batch_marks c m ls : 1 < n_unique ls ->
    is_setup (at_ (fst (get_cvi c (new_obj (A := A)) (Mat m) (Labs ls)))) = true.
  Proof.
    intros Hl. unfold get_cvi, update. cbn [at_ new_obj is_setup init_attrs label_map unique_labels].
    apply Nat.ltb_lt in Hl. rewrite Hl. cbn [negb].
    pose proof (bat_all c m ls init_attrs) as H2.
    unfold post in H2. destruct (param_batch c m ls init_attrs) as [a1 r]. cbn [fst snd] in *. destruct H2 as [_ H2].
    destruct r as [[]|e]; [|auto]. cbn [at_]. pose proof (ev_all c a1) as H3. unfold post in H3.
    destruct (evaluate c a1) as [a2 r2]. cbn [fst snd] in H3. destruct H3 as [F _].
    destruct r2; cbn [fst at_]; rewrite (fr_setup _ _ F); auto.
  Qed.
End Refuse.
