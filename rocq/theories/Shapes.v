(** * Every class keeps its arrays in shape, and evaluation then never raises.
    For every arithmetic. *)
From Coq Require Import ZArith List Arith Bool Lia.
From Verif Require Import Num NumPy Base M_CH M_D M_PS GetCvi Lists Step Step2 StepB Hoare Eval Stream.
Import ListNotations.

Section Shapes.
  Context {A : Arith}.

  Lemma Shape_frame c d (o o' : attrs A) : Frame o o' -> Shape c d o -> Shape c d o'.
  Proof.
    intros [F1 F2 F3 F4 F5 F6 F7 F8 F9 F10 F11 F12 F13 F14 F15 F16 F17].
    assert (HG : ShapeG d o -> ShapeG d o').
    { intros []. constructor; rewrite ?F1, ?F2, ?F3, ?F4, ?F5, ?F6, ?F8, ?F9, ?F10, ?F11; auto. }
    destruct c; cbn [Shape]; rewrite ?F3, ?F9, ?F12, ?F13; try tauto.
    - intros [[] H]. split; auto. constructor; rewrite ?F1, ?F2, ?F3, ?F4, ?F5, ?F9, ?F10, ?F12; auto.
    - intros []. constructor; rewrite ?F1, ?F2, ?F3, ?F4, ?F5, ?F9, ?F10, ?F12, ?F15, ?F16; auto.
    - intros []. constructor; rewrite ?F1, ?F2, ?F3, ?F4, ?F5, ?F6, ?F8, ?F9, ?F10, ?F14; auto.
  Qed.

  Lemma Shape_init c d (o : attrs A) : Shape c d o -> 0 < n_samples o /\ length (n o) = n_clusters o /\
    wfm (n_clusters o) d (v o) /\ is_setup o = true.
  Proof.
    destruct c; cbn [Shape]; intros H; repeat match goal with H : _ /\ _ |- _ => destruct H end;
      match goal with
      | H : ShapeG _ _ |- _ => destruct H; auto
      | H : ShapeP _ _ |- _ => destruct H; auto
      | H : ShapeR _ _ |- _ => destruct H; auto
      | H : ShapeS _ _ |- _ => destruct H; auto
      end.
  Qed.

  (** a new cluster *)
  Lemma shape_new c d x (o : attrs A) : o = init_attrs \/ Shape c d o -> length x = d -> inv_good (A := A) c d ->
    exists o', param_inc c x (n_clusters o) o = (o', Ok tt) /\ Shape c d o' /\
               Common d x o o' /\ CommonNew d x o o'.
  Proof.
    intros Hs Hx HI.
    assert (EG : forall o', (o = init_attrs \/ ShapeG d o) -> Common d x o o' -> CommonNew d x o o' ->
               GNew d x o o' -> mu o' = mu_upd x o -> ShapeG d o') by (intros; eapply ShapeG_new; eauto).
    assert (ED : forall o' e f, CommonNew d x o o' -> D o' = D_app (n_clusters o) e f -> wfm (n_clusters o') (n_clusters o') (D o')).
    { intros o' e f [Ck _ _] ->. rewrite Ck, Nat.add_1_r. apply wfm_tab2. }
    destruct c; cbn [Shape param_inc] in *.
    - destruct (CH_new d x o Hs Hx) as (o' & E & C & N & Gn & Mu & _). exists o'; repeat (split; auto).
    - destruct (WB_new d x o Hs Hx) as (o' & E & C & N & Gn & Mu & _). exists o'; repeat (split; auto).
    - destruct (DB_new d x o Hs Hx) as (o' & E & C & N & Gn & Mu & ED' & ES). exists o'. split; auto. split; [split; [|split]|auto].
      + apply EG; auto. tauto.
      + eapply ED; eauto.
      + rewrite ES, app_length, (cn_k _ _ _ _ N). simpl. f_equal. destruct Hs as [->|(_ & _ & H)]; auto.
    - destruct (XB_new d x o Hs Hx) as (o' & E & C & N & Gn & Mu & ED'). exists o'.
      split; auto. split; [split|auto]; [apply EG; auto; tauto|eapply ED; eauto].
    - destruct (GD43_new d x o Hs Hx) as (o' & E & C & N & Gn & Mu & ED'). exists o'.
      split; auto. split; [split|auto]; [apply EG; auto; tauto|eapply ED; eauto].
    - destruct (GD53_new d x o Hs Hx) as (o' & E & C & N & Gn & Mu & ED'). exists o'.
      split; auto. split; [split|auto]; [apply EG; auto; tauto|eapply ED; eauto].
    - assert (Hs' : o = init_attrs \/ ShapeP d o) by tauto.
      destruct (PS_new d x o Hs' Hx) as (o' & E & C & N & ED'). exists o'. split; auto.
      split; [|auto]. destruct N as [N1 N2 N3], C as [C1 C2 C3 C4 C5].
      assert (HH : length (n o) = n_clusters o /\ length (mrows (v o)) = n_clusters o /\
                   Forall (fun r => length r = d) (mrows (v o)) /\ Forall (fun m => m <> 0) (n o)).
      { destruct Hs as [->|[[S1' S2' S3' S4' (V1 & V2 & V3) S6 S7] Hp]].
        - simpl; repeat split; auto; constructor.
        - repeat split; auto. }
      destruct HH as (L1 & L2 & L3 & L4). split.
      + constructor; auto; try lia.
        * rewrite N2, app_length, N1. simpl. lia.
        * rewrite N3, N1. repeat split; cbn [mrows mcols]; [rewrite app_length; simpl; lia|]. apply Forall_app; auto.
        * rewrite ED', N1, Nat.add_1_r. apply wfm_tab2.
      + rewrite N2. apply Forall_app. split; auto.
    - destruct (HI eq_refl) as [Hd Htot].
      assert (exists o' , rCIP_param_inc x (n_clusters o) o = (o', Ok tt) /\ Common d x o o' /\ CommonNew d x o o' /\
               wfm (n_clusters o') (n_clusters o') (D o') /\ sigma o' = sigma o ++ [rCIP_delta_term d] /\
               delta_term o' = rCIP_delta_term d) as (o' & E & C & N & HD & Hsg & Hdl).
      { destruct Hs as [->|HS].
        - destruct (rCIP_first d x Hx Hd) as (o' & E & C & N & HD & Hsg & Hdl).
          exists o'. repeat (split; [solve [auto]|]). split; [|split; auto].
          rewrite HD, (cn_k _ _ _ _ N). apply wfm_zmat.
        - destruct (table (fun j g => rCIP_term (rc o d) x (rCIP_delta_term d) j = Ok g) (n_clusters o) f0) as [g Hg].
          { intros j Hj. destruct HS as [H1 H2 H3 H4 H5 H6 H7 H8 H9 Hp Hna].
            apply (rCIP_term_total d (n_clusters o)); auto using wfm_delta. }
          destruct (rCIP_new d x o g HS Hx Hg) as (o' & E & C & N & HD & Hsg & Hdl).
          exists o'. repeat (split; [solve [auto]|]). split; [eapply ED; eauto|]. split; auto.
          rewrite Hdl. apply HS. }
      exists o'. split; auto. split; [|auto]. destruct N as [N1 N2 N3], C as [C1 C2 C3 C4 C5].
      assert (HH : length (n o) = n_clusters o /\ length (mrows (v o)) = n_clusters o /\
                   Forall (fun r => length r = d) (mrows (v o)) /\ Forall (fun m => m <> 0) (n o) /\
                   length (sigma o) = n_clusters o /\ Forall (wfm d d) (sigma o)).
      { destruct Hs as [->|[H1 H2 H3 H4 (V1 & V2 & V3) H6 H7 H8 H9 Hp Hna]].
        - simpl; repeat split; auto; constructor.
        - repeat split; auto. }
      destruct HH as (L1 & L2 & L3 & L4 & L5 & L6).
      constructor; auto; try lia.
      + rewrite N2, app_length, N1. simpl. lia.
      + rewrite N3, N1. repeat split; cbn [mrows mcols]; [rewrite app_length; simpl; lia|]. apply Forall_app; auto.
      + rewrite Hsg, app_length, N1. simpl. lia.
      + rewrite Hsg. apply Forall_app. split; auto. constructor; auto using wfm_delta.
      + rewrite N2. apply Forall_app. split; auto.
    - destruct (cSIL_new d x o Hs Hx) as (o' & E & C & N & EC & EGr & ES). exists o'. split; auto.
      split; [|auto]. destruct N as [N1 N2 N3], C as [C1 C2 C3 C4 C5].
      assert (HH : length (n o) = n_clusters o /\ length (mrows (v o)) = n_clusters o /\
                   Forall (fun r => length r = d) (mrows (v o)) /\ length (CP o) = n_clusters o /\
                   length (mrows (G o)) = n_clusters o /\ Forall (fun r => length r = d) (mrows (G o))).
      { destruct Hs as [->|[H1 H2 H3 H4 (V1 & V2 & V3) H6 (W1 & W2 & W3) H8 H9]].
        - simpl; repeat split; auto; constructor.
        - repeat split; auto. }
      destruct HH as (L1 & L2 & L3 & L4 & L5 & L6).
      constructor; auto; try lia.
      + rewrite N2, app_length, N1. simpl. lia.
      + rewrite N3, N1. repeat split; cbn [mrows mcols]; [rewrite app_length; simpl; lia|]. apply Forall_app; auto.
      + rewrite EC, app_length, N1. simpl. lia.
      + rewrite EGr, N1. repeat split; cbn [mrows mcols]; [rewrite app_length; simpl; lia|]. apply Forall_app; auto.
      + rewrite ES, N1, Nat.add_1_r. apply wfm_tab2.
  Qed.

  (** a known cluster *)
  Lemma shape_old c d x i (o : attrs A) : Shape c d o -> length x = d -> i < n_clusters o -> inv_good (A := A) c d ->
    exists o', param_inc c x i o = (o', Ok tt) /\ Shape c d o' /\
               Common d x o o' /\ CommonOld d x i o o'.
  Proof.
    intros Hs Hx Hi HI.
    assert (EG : forall o', ShapeG d o -> Common d x o o' -> CommonOld d x i o o' ->
               GOld d x i o o' -> mu o' = mu_upd x o -> ShapeG d o') by (intros; eapply ShapeG_old; eauto).
    assert (ED : forall o' e f, CommonOld d x i o o' -> D o' = D_set (n_clusters o) i e f -> wfm (n_clusters o') (n_clusters o') (D o')).
    { intros o' e f [Ck _ _] ->. rewrite Ck. apply wfm_tab2. }
    assert (Hup : length (n o) = n_clusters o -> Forall (fun m => m <> 0) (n o) ->
                  Forall (fun m => m <> 0) (upd i (nn o i + 1) (n o))).
    { intros. apply Forall_upd; auto. lia. }
    destruct c; cbn [Shape param_inc] in *.
    - destruct (CH_old d x i o Hs Hx Hi) as (o' & E & C & N & Gn & Mu & _). exists o'; repeat (split; auto).
    - destruct (WB_old d x i o Hs Hx Hi) as (o' & E & C & N & Gn & Mu & _). exists o'; repeat (split; auto).
    - destruct (DB_old d x i o Hs Hx Hi) as (o' & E & C & N & Gn & Mu & ED' & ES). exists o'.
      split; auto. split; [split; [|split]|auto]; [apply EG; auto; tauto|eapply ED; eauto|].
      rewrite ES, length_upd, (co_k _ _ _ _ _ N). tauto.
    - destruct (XB_old d x i o Hs Hx Hi) as (o' & E & C & N & Gn & Mu & ED'). exists o'.
      split; auto. split; [split|auto]; [apply EG; auto; tauto|eapply ED; eauto].
    - destruct (GD43_old d x i o Hs Hx Hi) as (o' & E & C & N & Gn & Mu & ED'). exists o'.
      split; auto. split; [split|auto]; [apply EG; auto; tauto|eapply ED; eauto].
    - destruct (GD53_old d x i o Hs Hx Hi) as (o' & E & C & N & Gn & Mu & ED'). exists o'.
      split; auto. split; [split|auto]; [apply EG; auto; tauto|eapply ED; eauto].
    - destruct Hs as (HS & Hp). destruct (PS_old d x i o HS Hx Hi) as (o' & E & C & N & ED'). exists o'.
      split; auto. split; [|auto]. pose proof (ED _ _ _ N ED') as HD'. destruct N as [N1 N2 N3], C as [C1 C2 C3 C4 C5].
      destruct HS as [H1 H2 H3 H4 H5 H6 H7]. pose proof (wfm_row _ _ _ _ H5 Hi) as Lv. split.
      + constructor; auto; try lia.
        * rewrite N2, N1, length_upd. auto.
        * rewrite N3, N1. apply wfm_upd; auto. unfold v_upd, vrow. rewrite rmean_length; lia.
      + rewrite N2. auto.
    - destruct (HI eq_refl) as [Hd Htot].
      assert (Hs0 := Hs). destruct Hs0 as [H1 H2 H3 H4 H5 H6 H7 H8 H9 Hp Hna].
      pose proof (wfm_row _ _ _ _ H5 Hi) as Lv.
      assert (Lv' : length (v_upd (nn o i) (vrow o i) x) = d) by (unfold v_upd, vrow; rewrite rmean_length; lia).
      destruct (table (fun j g => rCIP_term (rc o d) (v_upd (nn o i) (vrow o i) x)
                  (sigma_upd d (nn o i) (vrow o i) (sig o i) x) j = Ok g) (n_clusters o) f0) as [g Hg].
      { intros j Hj. apply (rCIP_term_total d (n_clusters o)); auto. apply wfm_tab2. }
      destruct (rCIP_old d x i o g Hs Hx Hi) as (o' & E & C & N & HD & Hsg & Hdl); [auto|].
      exists o'. split; auto. split; [|auto]. pose proof (ED _ _ _ N HD) as HD'.
      destruct N as [N1 N2 N3], C as [C1 C2 C3 C4 C5].
      constructor; auto; try lia.
      + rewrite N2, N1, length_upd. auto.
      + rewrite N3, N1. apply wfm_upd; auto.
      + rewrite Hsg, length_upd, N1. auto.
      + rewrite Hsg. apply Forall_upd; auto. apply wfm_tab2.
      + congruence.
      + rewrite N2. auto.
    - destruct (cSIL_old d x i o Hs Hx Hi) as (o' & E & C & N & EC & EGr & ES). exists o'. split; auto.
      split; [|auto]. destruct N as [N1 N2 N3], C as [C1 C2 C3 C4 C5].
      destruct Hs as [H1 H2 H3 H4 H5 H6 H7 H8 H9].
      pose proof (wfm_row _ _ _ _ H5 Hi) as Lv. pose proof (wfm_row _ _ _ _ H7 Hi) as LG.
      constructor; auto; try lia.
      + rewrite N2, N1, length_upd. auto.
      + rewrite N3, N1. apply wfm_upd; auto. unfold v_upd, vrow. rewrite rmean_length; lia.
      + rewrite EC, length_upd, N1. auto.
      + rewrite EGr, N1. apply wfm_upd; auto. unfold grow_. lens.
      + rewrite ES, N1. apply wfm_tab2.
  Qed.

  (** the value [_evaluate] stores on a well-shaped object *)
  Definition val_of (c : kind) (o : attrs A) : F A :=
    if n_clusters o <=? 1 then f0
    else match c with
         | kCH => CH_val o | kWB => WB_val o | kDB => DB_val o | kXB => XB_val o
         | kGD43 | kGD53 => GD_val o | kPS => PS_val o | krCIP => rCIP_val o | kcSIL => cSIL_val o
         end.
  Lemma list_max_ne l : Forall (fun m => m <> 0) l -> l <> [] -> list_max l <> 0.
  Proof.
    intros H Hl. destruct l as [|a l]; [congruence|]. inversion H; subst. simpl. lia.
  Qed.
  Lemma ev_total c d (o : attrs A) : Shape c d o -> evals c o (val_of c o).
  Proof.
    intros Hs. unfold val_of. destruct (Nat.leb_spec (n_clusters o) 1) as [Hk|Hk].
    - apply few_eval. split; auto. intros ->. destruct Hs. destruct sr_D as (_ & HD & _). unfold nrows. lia.
    - destruct c; cbn [Shape] in Hs.
      + now apply CH_eval.
      + now apply WB_eval.
      + destruct Hs as (HG & HD & HS). now apply DB_eval.
      + destruct Hs as (HG & HD). now apply XB_eval.
      + destruct Hs as ([] & HD). now apply GD43_eval.
      + destruct Hs as ([] & HD). now apply GD53_eval.
      + destruct Hs as ([] & Hp). apply (PS_eval d); auto. apply list_max_ne; auto.
        destruct (n o); simpl in *; [lia|discriminate].
      + destruct Hs. now apply rCIP_eval.
      + destruct Hs. now apply cSIL_eval.
  Qed.
End Shapes.
