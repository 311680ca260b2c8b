(** * What every method does on every input, including inputs on which it raises.
    For every arithmetic. *)
From Coq Require Import ZArith List Arith Bool Lia.
From Verif Require Import Num NumPy Base M_CH M_D M_PS GetCvi Lists Step Step2 StepB.
Import ListNotations.

Section Hoare.
  Context {A : Arith}.

  Definition post {X} (m : M A X) (o : attrs A) (Q : attrs A -> E X -> Prop) : Prop :=
    Q (fst (m o)) (snd (m o)).

  Lemma post_lift {X Y} (e : E X) (k : X -> M A Y) o Q :
    (forall x, e = Ok x -> post (k x) o Q) -> (forall ex, e = Err ex -> Q o (Err ex)) ->
    post (bind (lift e) k) o Q.
  Proof. unfold post, bind, lift. destruct e; simpl; auto. Qed.
  Lemma post_bind {X Y} (m : M A X) (k : X -> M A Y) o Q :
    post m o (fun o' r => match r with Ok x => post (k x) o' Q | Err e => Q o' (Err e) end) ->
    post (bind m k) o Q.
  Proof. unfold post, bind. destruct (m o) as [o' [x|e]]; auto. Qed.
  Lemma post_lift0 {X} (e : E X) o (Q : attrs A -> E X -> Prop) : (forall x, e = Ok x -> Q o (Ok x)) -> (forall ex, e = Err ex -> Q o (Err ex)) ->
    post (lift e) o Q.
  Proof. unfold post, lift. destruct e; simpl; auto. Qed.
  Lemma post_modify f o (Q : attrs A -> E unit -> Prop) : Q (f o) (Ok tt) -> post (modify f) o Q.
  Proof. auto. Qed.
  Lemma post_ret {X} (x : X) o (Q : attrs A -> E X -> Prop) : Q o (Ok x) -> post (ret x) o Q.
  Proof. auto. Qed.
  Lemma post_raise {X} e o (Q : attrs A -> E X -> Prop) : Q o (Err e) -> post (raise e) o Q.
  Proof. auto. Qed.
  Lemma post_bget {X} (k : attrs A -> M A X) o Q : post (k o) o Q -> post (bind get k) o Q.
  Proof. auto. Qed.
  Lemma post_bmodify {X} f (k : unit -> M A X) o Q : post (k tt) (f o) Q -> post (bind (modify f) k) o Q.
  Proof. auto. Qed.
  Lemma post_bret {X Y} (x : X) (k : X -> M A Y) o Q : post (k x) o Q -> post (bind (ret x) k) o Q.
  Proof. auto. Qed.
  Lemma post_braise {X Y} e (k : X -> M A Y) o (Q : attrs A -> E Y -> Prop) : Q o (Err e) -> post (bind (raise e) k) o Q.
  Proof. auto. Qed.
  Lemma post_assoc {X Y Z} (m : M A X) (k : X -> M A Y) (h : Y -> M A Z) o Q :
    post (bind m (fun x => bind (k x) h)) o Q -> post (bind (bind m k) h) o Q.
  Proof. unfold post. now rewrite bind_assoc. Qed.
  Lemma post_conseq {X} (m : M A X) o (Q Q' : attrs A -> E X -> Prop) :
    post m o Q -> (forall o' r, Q o' r -> Q' o' r) -> post m o Q'.
  Proof. unfold post; auto. Qed.

  (** for loops: an invariant *)
  Lemma post_for {X} (l : list X) (body : X -> M A unit) o (I : attrs A -> Prop) :
    I o -> (forall x o, I o -> post (body x) o (fun o' _ => I o')) ->
    post (for_ l body) o (fun o' _ => I o').
  Proof.
    intros H Hb. revert o H; induction l as [|x l IH]; intros o H; simpl.
    - now apply post_ret.
    - apply post_bind. eapply post_conseq; [now apply Hb|]. intros o' [[]|e] Ho'; auto.
  Qed.

End Hoare.

(** run through a method, all branches *)
Ltac hstep := match goal with
  | |- post (bind get _) _ _ => apply post_bget
  | |- post (bind (modify _) _) _ _ => apply post_bmodify
  | |- post (bind (ret _) _) _ _ => apply post_bret
  | |- post (bind (raise _) _) _ _ => apply post_braise
  | |- post (bind (bind _ _) _) _ _ => apply post_assoc
  | |- post (bind (lift _) _) _ _ => apply post_lift; intros ? ?
  | |- post (lift _) _ _ => apply post_lift0; intros ? ?
  | |- post (modify _) _ _ => apply post_modify
  | |- post (ret _) _ _ => apply post_ret
  | |- post (raise _) _ _ => apply post_raise
  | |- post (bind (if ?b then _ else _) _) _ _ => destruct b eqn:?
  | |- post (if ?b then _ else _) _ _ => destruct b eqn:?
  | |- post (let x := _ in _) _ _ => cbv zeta
  | |- post (bind (let x := _ in _) _) _ _ => cbv zeta
  end.
Ltac hrun := repeat (hstep; cbv beta; red_attrs).


Section Methods.
  Context {A : Arith}.

  (** ** Incremental updates *)

  (** what [_param_inc] does to the counters, whether it raises or not *)
  Definition inc_ok (i : nat) (o o' : attrs A) (r : E unit) : Prop :=
    criterion_value o' = criterion_value o /\
    (is_setup o = true -> is_setup o' = true) /\
    (n_samples o = 0 -> is_setup o' = true) /\
    match r with Ok _ => n_samples o' = n_samples o + 1
               | Err _ => n_samples o <= n_samples o' <= n_samples o + 1 end /\
    n_clusters o <= n_clusters o' <= n_clusters o + (if n_clusters o <=? i then 1 else 0) /\
    n_array o' = n_array o.

  Ltac done_ := unfold inc_ok; red_attrs;
    repeat match goal with H : (_ <=? _) = _ |- _ => rewrite ?H; clear H end;
    repeat split; intros; auto; try lia; try discriminate;
    try match goal with
        | H : (?a =? 0) = false, H' : ?a = 0 |- _ => rewrite H' in H; simpl in H; discriminate
        end;
    try match goal with
        | H : (?a =? 0) = true |- _ => apply Nat.eqb_eq in H; try lia
        end; auto.

  Lemma inc_CH x i o : post (CH_param_inc x i) o (inc_ok i o).
  Proof. unfold CH_param_inc, append_n, CH_setup, base_setup. hrun. all: done_. Qed.
  Lemma inc_WB x i o : post (WB_param_inc x i) o (inc_ok i o).
  Proof. unfold WB_param_inc, append_n, WB_setup, base_setup. hrun. all: done_. Qed.
  Lemma inc_DB x i o : post (DB_param_inc x i) o (inc_ok i o).
  Proof. unfold DB_param_inc, append_n, DB_setup, base_setup. hrun. all: done_. Qed.
  Lemma inc_XB x i o : post (XB_param_inc x i) o (inc_ok i o).
  Proof. unfold XB_param_inc, append_n, XB_setup, base_setup. hrun. all: done_. Qed.
  Lemma inc_GD43 x i o : post (GD43_param_inc x i) o (inc_ok i o).
  Proof. unfold GD43_param_inc, append_n, GD43_setup, base_setup. hrun. all: done_. Qed.
  Lemma inc_GD53 x i o : post (GD53_param_inc x i) o (inc_ok i o).
  Proof. unfold GD53_param_inc, append_n, GD53_setup, base_setup. hrun. all: done_. Qed.
  Lemma inc_PS x i o : post (PS_param_inc x i) o (inc_ok i o).
  Proof. unfold PS_param_inc, append_n, PS_setup, base_setup. hrun. all: done_. Qed.
  Lemma inc_rCIP x i o : post (rCIP_param_inc x i) o (inc_ok i o).
  Proof. unfold rCIP_param_inc, append_n, rCIP_setup, base_setup. hrun. all: done_. Qed.
  Lemma inc_cSIL x i o : post (cSIL_param_inc x i) o (inc_ok i o).
  Proof. unfold cSIL_param_inc, append_n, cSIL_setup, base_setup. hrun. all: done_. Qed.

  Lemma inc_all c x i o : post (param_inc c x i) o (inc_ok i o).
  Proof.
    destruct c; [exact (inc_CH x i o)|exact (inc_WB x i o)|exact (inc_DB x i o)|exact (inc_XB x i o)
      |exact (inc_GD43 x i o)|exact (inc_GD53 x i o)|exact (inc_PS x i o)|exact (inc_rCIP x i o)
      |exact (inc_cSIL x i o)].
  Qed.

  (** rCIP decides from the shape of _D whether there are two clusters *)
  Lemma inc_rCIP_D x o : n_clusters o <= 1 -> nrows (D o) <= 1 -> post (rCIP_param_inc x 0) o (fun (o' : attrs A) _ => nrows (D o') <= 1).
  Proof.
    intros Hk HD.
    assert (H1 : forall (m m' : mat A) i r, nrows m <= 1 -> set_row m i r = Ok m' -> nrows m' <= 1).
    { intros m m' i r H. unfold set_row. destruct (i <? nrows m); [|discriminate].
      destruct (_ =? _); [|destruct r as [|? [|]]; try discriminate];
        intros E; inversion E; unfold nrows in *; simpl; now rewrite length_upd. }
    assert (H2 : forall (m m' : mat A) i r, nrows m <= 1 -> set_col m i r = Ok m' -> nrows m' <= 1).
    { intros m m' i r H. unfold set_col. destruct (i <? mcols m); [|discriminate].
      destruct (_ =? _); [|destruct r as [|? [|]]; try discriminate];
        intros E; inversion E; unfold nrows in *; simpl; rewrite ?length_map2, ?map_length; lia. }
    assert (H3 : forall f m, n_clusters o <= 0 -> D_new_cluster (n_clusters o) 0 (D o) f = Ok m -> nrows m <= 1).
    { intros f m H. replace (n_clusters o) with 0 by lia. rewrite D_new_cluster_0. intros E; inversion E. apply le_n. }
    unfold rCIP_param_inc, append_n, rCIP_setup, base_setup. hrun.
    all: auto.
    all: repeat match goal with H : (_ <=? _) = true |- _ => apply Nat.leb_le in H end.
    all: eauto.
  Qed.

  (** ** Batch updates *)
  Definition batch_ok (o o' : attrs A) (r : E unit) : Prop :=
    criterion_value o' = criterion_value o /\ is_setup o' = true.

  Ltac bdone := unfold batch_ok; red_attrs; auto.
  Ltac hloop b := match goal with
    | |- post (bind (for_ _ _) _) ?oo _ =>
        apply post_bind; eapply post_conseq;
        [apply (post_for _ _ _ (fun o' => criterion_value o' = criterion_value oo /\ is_setup o' = is_setup oo));
         [split; reflexivity|intros ? ? [? ?]; unfold b; hrun; try (split; red_attrs; congruence)]
        |intros ? [[]|] [? ?]; red_attrs]
    | |- post (for_ _ _) ?oo _ =>
        eapply post_conseq;
        [apply (post_for _ _ _ (fun o' => criterion_value o' = criterion_value oo /\ is_setup o' = is_setup oo));
         [split; reflexivity|intros ? ? [? ?]; unfold b; hrun; try (split; red_attrs; congruence)]
        |intros ? [[]|] [? ?]; red_attrs]
    end.
  Ltac bgo b := hrun; try (hloop b; red_attrs); hrun; unfold batch_ok; red_attrs; split; red_attrs; auto.

  Lemma bat_CH m ls o : post (CH_param_batch m ls) o (batch_ok o).
  Proof. unfold CH_param_batch, base_setup_batch. bgo @CH_batch_body. Qed.
  Lemma bat_WB m ls o : post (WB_param_batch m ls) o (batch_ok o).
  Proof. unfold WB_param_batch, base_setup_batch. bgo @WB_batch_body. Qed.
  Lemma bat_DB m ls o : post (DB_param_batch m ls) o (batch_ok o).
  Proof. unfold DB_param_batch, base_setup_batch. bgo @DB_batch_body. Qed.
  Lemma bat_XB m ls o : post (XB_param_batch m ls) o (batch_ok o).
  Proof. unfold XB_param_batch, base_setup_batch. bgo @XB_batch_body. Qed.
  Lemma bat_GD43 m ls o : post (GD43_param_batch m ls) o (batch_ok o).
  Proof. unfold GD43_param_batch, base_setup_batch. bgo @GD43_batch_body. Qed.
  Lemma bat_GD53 m ls o : post (GD53_param_batch m ls) o (batch_ok o).
  Proof. unfold GD53_param_batch, base_setup_batch. bgo @GD53_batch_body. Qed.
  Lemma bat_PS m ls o : post (PS_param_batch m ls) o (batch_ok o).
  Proof. unfold PS_param_batch, base_setup_batch. bgo @PS_batch_body. Qed.
  Lemma bat_rCIP m ls o : post (rCIP_param_batch m ls) o (batch_ok o).
  Proof. unfold rCIP_param_batch, base_setup_batch. bgo @rCIP_batch_body. Qed.
  Lemma bat_cSIL m ls o : post (cSIL_param_batch m ls) o (batch_ok o).
  Proof. unfold cSIL_param_batch, base_setup_batch. bgo @cSIL_batch_body. Qed.

  Lemma bat_all c m ls o : post (param_batch c m ls) o (batch_ok o).
  Proof.
    destruct c; [exact (bat_CH m ls o)|exact (bat_WB m ls o)|exact (bat_DB m ls o)|exact (bat_XB m ls o)
      |exact (bat_GD43 m ls o)|exact (bat_GD53 m ls o)|exact (bat_PS m ls o)|exact (bat_rCIP m ls o)
      |exact (bat_cSIL m ls o)].
  Qed.

  (** ** Evaluation *)

  (** everything a later update reads *)
  Record Frame (o o' : attrs A) : Prop := mkFrame {
    fr_dim : dim o' = dim o;
    fr_ns : n_samples o' = n_samples o;
    fr_n : n o' = n o;
    fr_na : n_array o' = n_array o;
    fr_v : v o' = v o;
    fr_CP : CP o' = CP o;
    fr_CPd : CP_deleted o' = CP_deleted o;
    fr_G : G o' = G o;
    fr_k : n_clusters o' = n_clusters o;
    fr_setup : is_setup o' = is_setup o;
    fr_mu : mu o' = mu o;
    fr_D : D o' = D o;
    fr_S1 : S1 o' = S1 o;
    fr_S2 : S2 o' = S2 o;
    fr_sigma : sigma o' = sigma o;
    fr_delta : delta_term o' = delta_term o;
    fr_cst : constant o' = constant o
  }.
  Lemma Frame_refl o : Frame o o.
  Proof. now constructor. Qed.

  Definition ev_ok (o o' : attrs A) (r : E unit) : Prop :=
    Frame o o' /\ (forall e, r = Err e -> criterion_value o' = criterion_value o).

  Ltac edone := split; [constructor; reflexivity|intros; try discriminate; reflexivity].
  Lemma ev_CH o : post CH_evaluate o (ev_ok o).
  Proof. unfold CH_evaluate. hrun. all: edone. Qed.
  Lemma ev_WB o : post WB_evaluate o (ev_ok o).
  Proof. unfold WB_evaluate. hrun. all: edone. Qed.
  Lemma ev_DB o : post DB_evaluate o (ev_ok o).
  Proof. unfold DB_evaluate. hrun. all: edone. Qed.
  Lemma ev_XB o : post XB_evaluate o (ev_ok o).
  Proof. unfold XB_evaluate. hrun. all: edone. Qed.
  Lemma ev_GD43 o : post GD43_evaluate o (ev_ok o).
  Proof. unfold GD43_evaluate. hrun. all: edone. Qed.
  Lemma ev_GD53 o : post GD53_evaluate o (ev_ok o).
  Proof. unfold GD53_evaluate. hrun. all: edone. Qed.
  Lemma ev_PS o : post PS_evaluate o (ev_ok o).
  Proof. unfold PS_evaluate. hrun. all: edone. Qed.
  Lemma ev_rCIP o : post rCIP_evaluate o (ev_ok o).
  Proof. unfold rCIP_evaluate. hrun. all: edone. Qed.
  Lemma ev_cSIL o : post cSIL_evaluate o (ev_ok o).
  Proof. unfold cSIL_evaluate. hrun. all: edone. Qed.
  Lemma ev_all c o : post (evaluate c) o (ev_ok o).
  Proof.
    destruct c; [exact (ev_CH o)|exact (ev_WB o)|exact (ev_DB o)|exact (ev_XB o)
      |exact (ev_GD43 o)|exact (ev_GD53 o)|exact (ev_PS o)|exact (ev_rCIP o)|exact (ev_cSIL o)].
  Qed.

  (** fewer than two clusters: the value is zero *)
  Definition few (c : kind) (o : attrs A) : Prop :=
    n_clusters o <= 1 /\ (c = krCIP -> nrows (D o) <= 1).
  Lemma ev_few c o : few c o ->
    snd (evaluate c o) = Ok tt /\ criterion_value (fst (evaluate c o)) = f0.
  Proof.
    intros [H H']. assert (E : (1 <? n_clusters o) = false) by (apply Nat.ltb_ge; lia).
    destruct c; cbn [evaluate];
      try (unfold CH_evaluate, WB_evaluate, DB_evaluate, XB_evaluate, GD43_evaluate, GD53_evaluate,
             PS_evaluate, cSIL_evaluate; sx; rewrite E; split; reflexivity).
    unfold rCIP_evaluate. sx. specialize (H' eq_refl). apply Nat.ltb_ge in H'. rewrite H'. split; reflexivity.
  Qed.
End Methods.
