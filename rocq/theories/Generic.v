(** * Facts about call histories that hold for every class and every arithmetic *)
From Coq Require Import ZArith List Arith Bool Lia.
From Verif Require Import Num NumPy Base M_CH M_D M_PS GetCvi Lists Step Step2 StepB Hoare Eval Stream Shapes.
Import ListNotations.

Section Generic.
  Context {A : Arith}.

  (** ** The value returned and the attribute *)
  Lemma update_cv c (o : obj A) data l :
    criterion_value (at_ (fst (update c o data l))) = criterion_value (at_ o).
  Proof.
    destruct data as [x|m|k]; cbn [update]; auto.
    - destruct l as [l|ls]; auto. destruct (get_internal_label (label_map o) l) as [i lm].
      pose proof (inc_all c x i (at_ o)) as H. unfold post in H.
      destruct (param_inc c x i (at_ o)) as [a r]. cbn [fst snd at_] in *. apply H.
    - destruct (is_setup (at_ o)); auto. destruct (negb _); auto. destruct l as [l|ls]; auto.
      pose proof (bat_all c m ls (at_ o)) as H. unfold post in H.
      destruct (param_batch c m ls (at_ o)) as [a r]. cbn [fst snd at_] in *. apply H.
  Qed.

  Lemma get_cvi_ok c (o o' : obj A) data l x :
    get_cvi c o data l = (o', Ok x) -> criterion_value (at_ o') = x.
  Proof.
    unfold get_cvi. destruct (update c o data l) as [o1 [[]|e]]; [|discriminate].
    destruct (evaluate c (at_ o1)) as [a2 [[]|e]]; [|discriminate]. intros H. inversion H. reflexivity.
  Qed.
  Lemma get_cvi_err c (o o' : obj A) data l e :
    get_cvi c o data l = (o', Err e) -> criterion_value (at_ o') = criterion_value (at_ o).
  Proof.
    unfold get_cvi. pose proof (update_cv c o data l) as H.
    destruct (update c o data l) as [o1 [[]|e1]]; cbn [fst] in H; [|intros E; inversion E; now subst].
    pose proof (ev_all c (at_ o1)) as H'. unfold post in H'.
    destruct (evaluate c (at_ o1)) as [a2 [[]|e2]]; [discriminate|]. intros E; inversion E; subst.
    cbn [fst snd at_] in *. rewrite <- H. now apply (proj2 H' e).
  Qed.

  (** ** The guard *)
  Definition guarded (o : obj A) : Prop := 0 < n_samples (at_ o) -> is_setup (at_ o) = true.

  Lemma step_guard c (o : obj A) data l : guarded o ->
    let o' := fst (get_cvi c o data l) in
    guarded o' /\ (is_setup (at_ o) = true -> is_setup (at_ o') = true) /\
    (forall x, snd (get_cvi c o data l) = Ok x -> is_setup (at_ o') = true).
  Proof.
    intros Hg o'.
    assert (HU : forall o1 r, update c o data l = (o1, r) ->
              guarded o1 /\ (is_setup (at_ o) = true -> is_setup (at_ o1) = true) /\
              (r = Ok tt -> is_setup (at_ o1) = true)).
    { intros o1 r. destruct data as [x|m|k]; cbn [update].
      - destruct l as [l|ls].
        + destruct (get_internal_label (label_map o) l) as [i lm].
          pose proof (inc_all c x i (at_ o)) as H. unfold post in H.
          destruct (param_inc c x i (at_ o)) as [a q]. cbn [fst snd at_] in *.
          intros E; inversion E; subst. destruct H as (H1 & H2 & H3 & H4 & H5 & H6).
          assert (is_setup a = true).
          { destruct (Nat.eq_dec (n_samples (at_ o)) 0); auto. apply H2, Hg. lia. }
          unfold guarded; cbn [at_]. auto.
        + intros E; inversion E; subst. repeat split; auto. discriminate.
      - destruct (is_setup (at_ o)) eqn:Es; [intros E; inversion E; subst; repeat split; auto; discriminate|].
        destruct (negb _); [intros E; inversion E; subst; repeat split; auto; discriminate|].
        destruct l as [l|ls]; [intros E; inversion E; subst; repeat split; auto; try congruence; discriminate|].
        pose proof (bat_all c m ls (at_ o)) as H. unfold post in H.
        destruct (param_batch c m ls (at_ o)) as [a q]. cbn [fst snd at_] in *.
        intros E; inversion E; subst. unfold guarded; cbn [at_]. destruct H as [_ H]. auto.
      - intros E; inversion E; subst. repeat split; auto. discriminate. }
    subst o'. unfold get_cvi. destruct (update c o data l) as [o1 r] eqn:EU.
    destruct (HU o1 r eq_refl) as (G1 & G2 & G3). destruct r as [[]|e].
    - pose proof (ev_all c (at_ o1)) as [H' _]. destruct H'.
      destruct (evaluate c (at_ o1)) as [a2 [[]|e2]]; cbn [fst snd at_] in *; unfold guarded; cbn [at_];
        rewrite fr_ns, fr_setup; repeat split; auto; discriminate.
    - cbn [fst snd]. repeat split; auto. discriminate.
  Qed.

  Lemma run_guard c (o : obj A) h : guarded o ->
    guarded (after c o h) /\ (is_setup (at_ o) = true -> is_setup (at_ (after c o h)) = true).
  Proof.
    unfold after. revert o; induction h as [|[d l] h IH]; intros o Hg; simpl; auto.
    destruct (step_guard c o d l Hg) as (H1 & H2 & _).
    destruct (get_cvi c o d l) as [o1 r]. cbn [fst] in *. destruct (IH o1 H1) as [H3 H4].
    destruct (run c o1 h); cbn [fst] in *. auto.
  Qed.
  Lemma guarded_new : guarded new_obj.
  Proof. intros H. simpl in H. lia. Qed.

  Lemma mat_refused c (o : obj A) m l : is_setup (at_ o) = true ->
    get_cvi c o (Mat m) l = (o, Err ValueError).
  Proof. intros H. unfold get_cvi, update. now rewrite H. Qed.
  Lemma few_labels_refused c (o : obj A) m l : unique_labels l <= 1 ->
    get_cvi c o (Mat m) l = (o, Err ValueError).
  Proof.
    intros H. unfold get_cvi, update. destruct (is_setup (at_ o)); auto.
    replace (1 <? unique_labels l) with false by (symmetry; apply Nat.ltb_ge; lia). reflexivity.
  Qed.

  Lemma after_cons c (o : obj A) d l h : after c o ((d, l) :: h) = after c (fst (get_cvi c o d l)) h.
  Proof. unfold after. simpl. destruct (get_cvi c o d l) as [o1 r]. simpl. now destruct (run c o1 h). Qed.
  Lemma success_setup c h1 (call : call A) h2 x :
    snd (get_cvi c (after c new_obj h1) (fst call) (snd call)) = Ok x ->
    is_setup (at_ (after c new_obj (h1 ++ call :: h2))) = true.
  Proof.
    intros H. destruct (run_guard c new_obj h1 guarded_new) as [G1 _].
    destruct call as [d l]. cbn [fst snd] in H.
    destruct (step_guard c (after c new_obj h1) d l G1) as (G2 & _ & G3).
    rewrite after_app, after_cons. apply run_guard; auto. eapply G3, H.
  Qed.

  (** a call that returns the very same object does not matter *)
  Lemma skip_call c (o : obj A) h1 d l e h2 :
    get_cvi c (after c o h1) d l = (after c o h1, Err e) ->
    results c o (h1 ++ (d, l) :: h2) = results c o h1 ++ Err e :: results c (after c o h1) h2 /\
    after c o (h1 ++ (d, l) :: h2) = after c o (h1 ++ h2).
  Proof.
    intros H. rewrite results_app, !after_app. unfold results, after. split; simpl.
    - f_equal. unfold after in H. rewrite H. now destruct (run c (fst (run c o h1)) h2).
    - unfold after in H. rewrite H. now destruct (run c (fst (run c o h1)) h2).
  Qed.

  (** ** Renaming the labels *)
  Definition rename_map (f : Z -> Z) (m : labelmap) : labelmap := map (fun p => (f (fst p), snd p)) m.
  Lemma rename_lookup f m l : (forall a b, f a = f b -> a = b) -> lm_lookup (rename_map f m) (f l) = lm_lookup m l.
  Proof.
    intros Hf. induction m as [|[a i] m IH]; auto. simpl. rewrite IH.
    destruct (Z.eqb_spec a l) as [->|Hn]; [now rewrite Z.eqb_refl|].
    destruct (Z.eqb_spec (f a) (f l)) as [E|]; auto. now apply Hf in E.
  Qed.
  Lemma rename_get f m l : (forall a b, f a = f b -> a = b) ->
    get_internal_label (rename_map f m) (f l) =
    (fst (get_internal_label m l), rename_map f (snd (get_internal_label m l))).
  Proof.
    intros Hf. unfold get_internal_label. rewrite rename_lookup by auto. destruct (lm_lookup m l); auto.
    cbn [fst snd]. unfold rename_map. now rewrite map_length, map_app.
  Qed.
  (** rename the label of every 1-D call with one label *)
  Definition rename_call (f : Z -> Z) (k : call A) : call A :=
    match k with (Vec x, Lab l) => (Vec x, Lab (f l)) | _ => k end.
  Definition rename_obj (f : Z -> Z) (o : obj A) : obj A := mkObj (rename_map f (label_map o)) (at_ o).

  Lemma rename_step c f (o : obj A) k : (forall a b, f a = f b -> a = b) ->
    let k' := rename_call f k in
    get_cvi c (rename_obj f o) (fst k') (snd k') =
    (rename_obj f (fst (get_cvi c o (fst k) (snd k))), snd (get_cvi c o (fst k) (snd k))).
  Proof.
    intros Hf. destruct k as [data l].
    assert (HU : update c (rename_obj f o) (fst (rename_call f (data, l))) (snd (rename_call f (data, l))) =
                 (rename_obj f (fst (update c o data l)), snd (update c o data l))).
    { destruct data as [x|m|k]; cbn [rename_call fst snd update]; auto.
      - destruct l as [l|ls]; auto. cbn [fst snd update]. change (label_map (rename_obj f o)) with (rename_map f (label_map o)).
        change (at_ (rename_obj f o)) with (at_ o). rewrite rename_get by auto.
        destruct (get_internal_label (label_map o) l) as [i lm]. cbn [fst snd rename_obj at_].
        destruct (param_inc c x i (at_ o)) as [a r]. reflexivity.
      - destruct l as [l|ls]; unfold rename_obj; cbn [at_ label_map].
        + destruct (is_setup (at_ o)); auto.
        + destruct (is_setup (at_ o)); auto. destruct (negb _); auto.
          destruct (param_batch c m ls (at_ o)); auto. }
    unfold get_cvi. cbv zeta. rewrite HU. cbn [fst snd]. destruct (update c o data l) as [o1 [[]|e]]; auto.
    cbn [fst snd rename_obj at_]. destruct (evaluate c (at_ o1)) as [a2 [[]|e]]; reflexivity.
  Qed.
  Lemma rename_run c f (o : obj A) h : (forall a b, f a = f b -> a = b) ->
    run c (rename_obj f o) (map (rename_call f) h) = (rename_obj f (fst (run c o h)), snd (run c o h)).
  Proof.
    intros Hf. revert o; induction h as [|k h IH]; intros o; auto.
    cbn [map run]. pose proof (rename_step c f o k Hf) as H. cbv zeta in H.
    destruct (rename_call f k) as [d' l']. destruct k as [d l]. cbn [fst snd] in H. rewrite H.
    destruct (get_cvi c o d l) as [o1 r]. cbn [fst snd]. rewrite IH.
    destruct (run c o1 h). reflexivity.
  Qed.
  Lemma rename_results c f h : (forall a b, f a = f b -> a = b) ->
    results c (new_obj (A := A)) (map (rename_call f) h) = results c new_obj h.
  Proof.
    intros Hf. unfold results. change (new_obj (A := A)) with (rename_obj f new_obj) at 1.
    now rewrite rename_run.
  Qed.

  (** ** Well-formed streams *)
  Definition wf_stream (d : nat) (s : list (vec A * Z)) : Prop := Forall (fun p => length (fst p) = d) s.
  Lemma wf_snoc d s p : wf_stream d (s ++ [p]) -> wf_stream d s.
  Proof. intros H. now apply Forall_app in H as [H _]. Qed.
  Lemma wf_last d s x l : wf_stream d (s ++ [(x, l)]) -> length x = d.
  Proof. intros H. apply Forall_app in H as [_ H]. now inversion H. Qed.

  (** the counters after the stream [s] *)
  Record Counted (d : nat) (s : list (vec A * Z)) (a : attrs A) : Prop := mkCounted {
    ct_k : n_clusters a = length (firsts s);
    ct_ns : n_samples a = length s;
    ct_n : n a = map (fun l => length (grp s l)) (firsts s)
  }.

  Lemma counts_groups {X} (s : list (X * Z)) : map (fun l => length (grp s l)) (firsts s) = map (@length X) (groups s).
  Proof. unfold groups. now rewrite map_map. Qed.
  Lemma map_upd {X Y} (f : X -> Y) i x l : map f (upd i x l) = upd i (f x) (map f l).
  Proof. revert i; induction l as [|y l IH]; intros [|i]; simpl; auto. now rewrite IH. Qed.

  Lemma counted_step c d s x l a : inv_good (A := A) c d ->
    ((s = [] /\ a = init_attrs) \/ (s <> [] /\ Shape c d a)) -> Counted d s a -> length x = d ->
    exists a1 a2, param_inc c x (index l (firsts s)) a = (a1, Ok tt) /\
      evaluate c a1 = (a2, Ok tt) /\ criterion_value a2 = val_of c a1 /\
      Shape c d a1 /\ Shape c d a2 /\ Counted d (s ++ [(x, l)]) a2.
  Proof.
    intros HI Hs [K1 K2 K3] Hx.
    assert (HF : forall a1 a2, Frame a1 a2 -> Counted d (s ++ [(x, l)]) a1 -> Counted d (s ++ [(x, l)]) a2).
    { intros a1 a2 [] []. constructor; congruence. }
    assert (HE : exists a1, param_inc c x (index l (firsts s)) a = (a1, Ok tt) /\ Shape c d a1 /\ Counted d (s ++ [(x, l)]) a1).
    { destruct (in_dec Z.eq_dec l (firsts s)) as [Hin|Hin].
      - destruct (index_In _ _ Hin) as [Hi _].
        assert (HS : Shape c d a). { destruct Hs as [[-> ->]|[_ H]]; auto. destruct Hin. }
        destruct (shape_old c d x (index l (firsts s)) a HS Hx ltac:(lia) HI) as (a1 & E & S1' & [C1 C2 C3 C4 C5] & [N1 N2 N3]).
        exists a1. split; auto. split; auto. constructor.
        + rewrite N1, K1, firsts_snoc. unfold add_label. destruct (in_dec _ _ _); [auto|contradiction].
        + rewrite C1, app_length, K2. reflexivity.
        + rewrite N2, counts_groups, groups_old by auto. rewrite map_upd, <- counts_groups, <- K3.
          f_equal. unfold nn. rewrite app_length, K3, counts_groups. simpl. f_equal.
          rewrite <- (map_nth (@length _)). reflexivity.
      - rewrite index_notIn by auto. rewrite <- K1.
        assert (HS : a = init_attrs \/ Shape c d a) by (destruct Hs as [[_ H]|[_ H]]; auto).
        destruct (shape_new c d x a HS Hx HI) as (a1 & E & S1' & [C1 C2 C3 C4 C5] & [N1 N2 N3]).
        exists a1. split; auto. split; auto. constructor.
        + rewrite N1, K1, firsts_snoc. unfold add_label. destruct (in_dec _ _ _); [contradiction|].
          now rewrite app_length.
        + rewrite C1, app_length, K2. reflexivity.
        + rewrite N2, counts_groups, groups_new by auto. now rewrite map_app, <- counts_groups, K3. }
    destruct HE as (a1 & E1 & S1' & C1).
    destruct (ev_total c d a1 S1') as (a2 & E2 & E3 & FR).
    exists a1, a2. repeat (split; [solve [auto]|]). split; [eapply Shape_frame; eauto|]. eapply HF; eauto.
  Qed.

  (** a well-formed stream runs without exception *)
  Lemma run_wf c d s : inv_good (A := A) c d -> wf_stream d s -> exists a vals,
    run c new_obj (stream s) = (mkObj (lmap (firsts s)) a, map Ok vals) /\
    ((s = [] /\ a = init_attrs) \/ (s <> [] /\ Shape c d a)) /\ Counted d s a.
  Proof.
    intros HI. induction s as [|[x l] s IH] using rev_ind; intros Hw.
    - exists init_attrs, []. repeat split; auto.
    - destruct (IH (wf_snoc _ _ _ Hw)) as (a & vals & Er & Hs & Hc).
      destruct (counted_step c d s x l a HI Hs Hc (wf_last _ _ _ _ Hw)) as (a1 & a2 & E1 & E2 & E3 & S1' & S2' & Hc').
      exists a2, (vals ++ [criterion_value a2]). split; [|split; auto].
      + rewrite stream_app, run_app, Er. cbn [fst snd stream map run]. unfold get_cvi, update.
        cbn [label_map at_ fst snd]. rewrite lmap_get, E1. cbn [at_ label_map]. rewrite E2. cbn [fst snd].
        rewrite map_app, firsts_snoc. reflexivity.
      + right. split; auto. destruct s; discriminate.
  Qed.

  (** ** One label *)
  (** at most one label seen so far, no more than one cluster *)
  Definition one_cluster (c : kind) (l : Z) (o : obj A) : Prop :=
    few c (at_ o) /\ (label_map o = [] \/ label_map o = [(l, 0)]).
  Lemma one_label_step c l (o : obj A) x : one_cluster c l o ->
    one_cluster c l (fst (get_cvi c o (Vec x) (Lab l))) /\
    (forall v, snd (get_cvi c o (Vec x) (Lab l)) = Ok v -> v = f0).
  Proof.
    intros [Hf Hm]. unfold get_cvi, update.
    assert (Hi : get_internal_label (label_map o) l = (0, [(l, 0)])).
    { unfold get_internal_label. destruct Hm as [->| ->]; simpl; auto. now rewrite Z.eqb_refl. }
    rewrite Hi. pose proof (inc_all c x 0 (at_ o)) as H. unfold post in H.
    assert (HD : c = krCIP -> nrows (D (fst (param_inc c x 0 (at_ o)))) <= 1).
    { intros ->. destruct Hf as [H1 H2]. exact (inc_rCIP_D x (at_ o) H1 (H2 eq_refl)). }
    destruct (param_inc c x 0 (at_ o)) as [a r]. cbn [fst snd at_] in *.
    destruct H as (_ & _ & _ & _ & H5 & _). destruct Hf as [Hk Hr].
    assert (Hf' : few c a).
    { split; auto. destruct (Nat.leb_spec (n_clusters (at_ o)) 0); lia. }
    destruct r as [[]|e]; cbn [fst snd label_map at_].
    - destruct (few_eval c a Hf') as (a2 & E & Ev & FR). rewrite E. cbn [fst snd].
      split; [|intros v Hv; inversion Hv; congruence]. split; auto. cbn [at_].
      destruct FR, Hf' as [F1 F2]. split; [lia|]. rewrite fr_D. auto.
    - split; [|discriminate]. split; auto.
  Qed.
  Lemma one_label c l (o : obj A) s : one_cluster c l o -> Forall (fun p => snd p = l) s ->
    Forall (fun r => forall v, r = Ok v -> v = f0) (results c o (stream s)).
  Proof.
    unfold results. revert o; induction s as [|[x l'] s IH]; intros o Ho Hs; [constructor|].
    apply Forall_cons_iff in Hs as [Hl Hs]. simpl in Hl. subst l'. cbn [stream map run fst snd].
    destruct (one_label_step c l o x Ho) as [H1 H2].
    destruct (get_cvi c o (Vec x) (Lab l)) as [o1 r]. cbn [fst snd] in *.
    specialize (IH o1 H1 Hs). change (map _ s) with (stream s) in *.
    destruct (run c o1 (stream s)) as [o2 rs]. cbn [snd] in *. now constructor.
  Qed.
  Lemma one_cluster_new c l : one_cluster c l new_obj.
  Proof. split; auto. split; simpl; auto. Qed.
End Generic.
