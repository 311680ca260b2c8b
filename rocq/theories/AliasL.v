(** * Facts about the reference model of [Alias] *)
From Coq Require Import ZArith List Arith Bool Lia.
From Verif Require Import Num NumPy Base M_CH M_D M_PS GetCvi Lists Step Step2 StepB Hoare Eval Stream Shapes Generic Alias.
Import ListNotations.

(** ** Part 1: the invariant of the statements *)
Definition good_stmt (s : stmt) : Prop :=
  match s with Fresh _ => True | Share a => a = a_mu | InPlace a => a <> a_mu end.
Lemma Forall_times {X} (P : X -> Prop) k l : Forall P l -> Forall P (times k l).
Proof. intros H. induction k; simpl; auto. apply Forall_app; auto. Qed.
Ltac goods := repeat first [ apply Forall_app; split | apply Forall_times | apply Forall_cons | apply Forall_nil ];
  try exact I; try reflexivity; try discriminate.
Lemma init_good c : Forall good_stmt (st_init c).
Proof. destruct c; repeat constructor. Qed.
Lemma path_good c p : path c p -> Forall good_stmt p.
Proof.
  intros []; apply Forall_app; split.
  - destruct c, first, new; repeat constructor; try discriminate.
  - destruct c; cbn [st_eval]; goods.
  - destruct c; cbn [st_batch]; goods.
  - destruct c; cbn [st_eval]; goods.
Qed.

Record Sep (r : refs) : Prop := mkSep {
  sep_own : forall i a n, binds r i a = Some (Own n) -> n < next r;
  sep_inj : forall i a j b n, binds r i a = Some (Own n) -> binds r j b = Some (Own n) -> i = j /\ a = b;
  sep_caller : forall i a b, binds r i a = Some (Caller b) -> a = a_mu;
  sep_writes : forall i l, In (i, l) (writes r) -> exists n, l = Own n
}.
(** a write is made to a location that, at that moment, only the writing object refers to *)
Definition private (r : refs) (i : nat) (a : aname) : Prop :=
  match binds r i a with
  | None => True
  | Some (Caller _) => False
  | Some (Own n) => forall j b, binds r j b = Some (Own n) -> j = i /\ b = a
  end.
Lemma sep_private r i a : Sep r -> a <> a_mu -> private r i a.
Proof.
  intros [S1 S2 S3 S4] Ha. unfold private. destruct (binds r i a) as [[b|n]|] eqn:E; auto.
  - apply Ha. eapply S3, E.
  - intros j b H. destruct (S2 _ _ _ _ _ H E). auto.
Qed.
Lemma exec1_sep i b r s : Sep r -> good_stmt s -> Sep (exec1 i (Caller b) r s).
Proof.
  intros [S1 S2 S3 S4] Hs. destruct s as [a|a|a]; cbn [exec1 good_stmt] in *.
  - constructor; cbn [binds next writes]; unfold rebind.
    + intros j c n. destruct (Nat.eq_dec j i), (aname_eq c a); intros H; try (apply S1 in H; lia). inversion H; lia.
    + intros j c k e n H1 H2.
      destruct (Nat.eq_dec j i), (aname_eq c a), (Nat.eq_dec k i), (aname_eq e a); subst; auto;
        try (eapply S2; eauto; fail);
        try (inversion H1; subst; apply S1 in H2; lia); try (inversion H2; subst; apply S1 in H1; lia).
    + intros j c n. destruct (Nat.eq_dec j i), (aname_eq c a); intros H; try discriminate; eapply S3, H.
    + auto.
  - subst a. constructor; cbn [binds next writes]; unfold rebind.
    + intros j c n. destruct (Nat.eq_dec j i), (aname_eq c a_mu); intros H; try discriminate; eapply S1, H.
    + intros j c k e n H1 H2.
      destruct (Nat.eq_dec j i), (aname_eq c a_mu), (Nat.eq_dec k i), (aname_eq e a_mu); subst; try discriminate; eapply S2; eauto.
    + intros j c n. destruct (Nat.eq_dec j i), (aname_eq c a_mu); intros H; auto; eapply S3, H.
    + auto.
  - destruct (binds r i a) as [l|] eqn:E; [|constructor; auto].
    constructor; cbn [binds next writes]; auto. intros j l' [H|H]; [|eauto]. inversion H; subst.
    destruct l' as [b'|n]; eauto. exfalso. apply Hs. eapply S3, E.
Qed.
Lemma exec_sep i b l : Forall good_stmt l -> forall r, Sep r -> Sep (exec i (Caller b) r l).
Proof. unfold exec. induction 1; simpl; auto using exec1_sep. Qed.
Lemma no_refs_sep : Sep no_refs.
Proof. constructor; simpl; try discriminate. intros ? ? []. Qed.
Lemma Forall_firstn {X} (P : X -> Prop) j l : Forall P l -> Forall P (firstn j l).
Proof. intros H. revert j. induction H; intros [|j]; simpl; auto. Qed.
Lemma act_sep cls r x : legal cls x -> Sep r -> Sep (act r x).
Proof.
  destruct x as [i c|i b j p]; cbn [legal act]; intros Hl HS; apply exec_sep; auto using init_good.
  apply Forall_firstn, (path_good (cls i)), Hl.
Qed.
Lemma acts_snoc xs x : acts (xs ++ [x]) = act (acts xs) x.
Proof. unfold acts. now rewrite fold_left_app. Qed.
Lemma acts_sep cls xs : Forall (legal cls) xs -> Sep (acts xs).
Proof.
  intros H. induction xs as [|x xs IH] using rev_ind; [apply no_refs_sep|].
  rewrite acts_snoc. apply Forall_app in H as [H1 H2]. inversion H2; subst. eapply act_sep; eauto.
Qed.
(** the object doing the next statement of a call: a write, if any, is private *)
Lemma next_private cls xs i b j p a : Forall (legal cls) xs -> path (cls i) p -> nth_error p j = Some (InPlace a) ->
  private (acts (xs ++ [CallOn i b j p])) i a.
Proof.
  intros H Hp Hn. apply sep_private.
  - apply (acts_sep cls). apply Forall_app; split; auto.
  - pose proof (path_good _ _ Hp) as HG. rewrite Forall_forall in HG. apply (HG (InPlace a)). eapply nth_error_In, Hn.
Qed.


(** ** Part 2 *)
Section Heap.
  Context {A : Arith}.

  (** *** What happens to _mu *)
  Definition mu_ok (c : kind) (x : vec A) (o o' : attrs A) : Prop :=
    if shares_mu c then
      if n_samples o =? 0 then mu o' = x
      else match srunning_mean (n_samples o + 1) (mu o) x with Ok r => mu o' = r | Err _ => mu o' = mu o end
    else mu o' = mu o.
  Ltac mdone := unfold mu_ok; cbn [shares_mu]; red_attrs;
    repeat match goal with H : (n_samples _ =? 0) = _ |- _ => rewrite H; clear H | H : srunning_mean _ (mu _) _ = _ |- _ => rewrite H; clear H end; try reflexivity.
  Lemma mu_inc c x i o : post (param_inc c x i) o (fun o' _ => mu_ok c x o o').
  Proof.
    destruct c; cbn [param_inc];
    unfold CH_param_inc, CH_setup, WB_param_inc, WB_setup, DB_param_inc, DB_setup, XB_param_inc, XB_setup, GD43_param_inc, GD43_setup,
      GD53_param_inc, GD53_setup, PS_param_inc, PS_setup, rCIP_param_inc, rCIP_setup, cSIL_param_inc, cSIL_setup, append_n, base_setup;
    hrun; mdone.
  Qed.
  Lemma set_mu_id (o : attrs A) m : mu o = m -> set_mu m o = o.
  Proof. intros <-. now destruct o. Qed.
  Lemma get_mu c (o : obj A) x l : mu_ok c x (at_ o) (at_ (fst (get_cvi c o (Vec x) (Lab l)))).
  Proof.
    unfold get_cvi, update. destruct (get_internal_label (label_map o) l) as [i lm].
    pose proof (mu_inc c x i (at_ o)) as H. unfold post in H.
    destruct (param_inc c x i (at_ o)) as [a [[]|e]]; cbn [fst snd at_ label_map] in *; auto.
    pose proof (ev_all c a) as [HF _]. destruct HF.
    destruct (evaluate c a) as [a2 [[]|e]]; cbn [fst at_] in *; unfold mu_ok in *; now rewrite fr_mu.
  Qed.
  (** the new object sees what the call left, whatever _mu refers to *)
  Lemma seen_call c m (h : hobj A) e k : call_of m e = Some k ->
    seen m (fst (step1 c m h e)) = fst (get_cvi c (seen m h) (fst k) (snd k)) /\
    snd (step1 c m h e) = [snd (get_cvi c (seen m h) (fst k) (snd k))].
  Proof.
    intros Hk. unfold step1. rewrite Hk. destruct k as [data l]. cbn [fst snd].
    assert (H : seen m (mkH (fst (get_cvi c (seen m h) data l)) (ref_after c m h e)) = fst (get_cvi c (seen m h) data l)).
    { assert (HI : forall o' : obj A, o' = seen m h -> seen m (mkH o' (hmu h)) = o').
      { intros o' ->. unfold seen. cbn [ho hmu]. destruct (hmu h); auto. }
      destruct e as [b x|b l0|b ls|x l0|j l0]; try discriminate Hk; inversion Hk; subst; cbn [ref_after].
      - pose proof (get_mu c (seen m h) (m b) l0) as HM. unfold mu_after, mu_ok in *.
        set (o' := fst (get_cvi c (seen m h) (Vec (m b)) (Lab l0))) in *.
        assert (HS : forall b', mu (at_ o') = m b' -> seen m (mkH o' (Some b')) = o').
        { intros b' Hb. unfold seen. cbn [ho hmu]. rewrite set_mu_id by auto. now destruct o'. }
        assert (HK : mu (at_ o') = mu (at_ (seen m h)) -> seen m (mkH o' (hmu h)) = o').
        { intros Hm. destruct (hmu h) as [b'|] eqn:Eb; [|reflexivity]. apply HS. rewrite Hm. unfold seen. now rewrite Eb. }
        destruct (shares_mu c); auto. destruct (n_samples (at_ (seen m h)) =? 0); auto.
        destruct (srunning_mean _ _ _); auto.
      - apply HI. reflexivity.
      - destruct (is_setup (at_ (seen m h))) eqn:Es; [|reflexivity]. apply HI. now rewrite mat_refused.
      - apply HI. reflexivity. }
    destruct (get_cvi c (seen m h) data l) as [o' r]. cbn [fst snd] in *. auto.
  Qed.
  Lemma step_write c m (h : hobj A) b x : step1 c m h (Write b x) = (h, []).
  Proof. reflexivity. Qed.

  (** state after some events *)
  Fixpoint play_state (c : kind) (m : memory A) (h : hobj A) (es : list (event A)) : memory A * hobj A :=
    match es with [] => (m, h) | e :: es' => play_state c (mem_after m e) (fst (step1 c m h e)) es' end.
  Definition seen_after (c : kind) (m : memory A) (h : hobj A) (es : list (event A)) : obj A :=
    seen (fst (play_state c m h es)) (snd (play_state c m h es)).

  (** *** programs whose writes are not seen *)
  (** [I] is kept by calls and says that a write is not seen *)
  Lemma play_results c (I : memory A -> hobj A -> list (event A) -> Prop) :
    (forall m h e es, I m h (e :: es) -> I (mem_after m e) (fst (step1 c m h e)) es) ->
    (forall m h b x es, I m h (Write b x :: es) -> seen (write m b x) h = seen m h) ->
    forall es m h, I m h es -> run c (seen m h) (calls_made m es) = (seen_after c m h es, play c m h es).
  Proof.
    intros Hs Hw. induction es as [|e es IH]; intros m h Hi; [reflexivity|].
    specialize (IH _ _ (Hs _ _ _ _ Hi)). unfold seen_after in *. cbn [play calls_made play_state]. destruct (call_of m e) as [k|] eqn:Ek.
    - destruct (seen_call c m h e k Ek) as [H1 H2]. rewrite H2.
      assert (Em : mem_after m e = m) by (destruct e; auto; discriminate). rewrite Em in *. rewrite H1 in IH.
      destruct k as [data l]. cbn [app fst snd run] in *.
      destruct (get_cvi c (seen m h) data l) as [o' r]. cbn [fst snd] in *. now rewrite IH.
    - destruct e; try discriminate. cbn [mem_after] in *. rewrite step_write in *. cbn [fst snd app] in *. rewrite <- IH.
      now rewrite (Hw _ _ _ _ _ Hi).
  Qed.

  Lemma step_ref c m (h : hobj A) e : hmu (fst (step1 c m h e)) = match e with Write _ _ => hmu h | _ => ref_after c m h e end.
  Proof.
    destruct e; cbn [step1 call_of]; unfold step1; cbn [call_of]; auto;
      match goal with |- context [get_cvi ?c ?o ?d ?l] => destruct (get_cvi c o d l) end; reflexivity.
  Qed.
  Lemma seen_write_none m (h : hobj A) b x : hmu h = None -> seen (write m b x) h = seen m h.
  Proof. intros E. unfold seen. now rewrite E. Qed.
  Lemma seen_write_other m (h : hobj A) b x : hmu h <> Some b -> seen (write m b x) h = seen m h.
  Proof.
    intros E. unfold seen. destruct (hmu h) as [b'|]; auto. unfold write.
    destruct (Nat.eq_dec b' b); [|reflexivity]. subst. congruence.
  Qed.

  (** classes that never share *)
  Lemma play_unshared c es m : shares_mu c = false -> play c m fresh_h es = results (A := A) c new_obj (calls_made m es).
  Proof.
    intros Hc. unfold results. change new_obj with (seen m (fresh_h (A := A))).
    rewrite (play_results c (fun _ h _ => hmu h = None)); [reflexivity| | |reflexivity].
    - intros m' h e es' H. rewrite step_ref. destruct e; cbn [ref_after]; auto; unfold mu_after; rewrite ?Hc; auto.
      now destruct (is_setup _).
    - intros m' h b x es' H. now apply seen_write_none.
  Qed.

  (** *** once a sample has been counted the reference can only go away *)
  Definition going (m : memory A) (h : hobj A) : Prop := n_samples (at_ (seen m h)) <> 0 /\ is_setup (at_ (seen m h)) = true.
  Lemma seen_ns m m' (h : hobj A) : n_samples (at_ (seen m h)) = n_samples (at_ (seen m' h)) /\ is_setup (at_ (seen m h)) = is_setup (at_ (seen m' h)).
  Proof. unfold seen. destruct (hmu h); auto. Qed.
  Lemma get_ns c (o : obj A) data l : is_setup (at_ o) = true -> n_samples (at_ o) <> 0 ->
    n_samples (at_ (fst (get_cvi c o data l))) <> 0 /\ is_setup (at_ (fst (get_cvi c o data l))) = true.
  Proof.
    intros Hs Hn. split; [|apply step_guard; auto; intros _; auto].
    destruct data as [x|x|k]; [destruct l as [l|ls]| |].
    - unfold get_cvi, update. destruct (get_internal_label (label_map o) l) as [i lm].
      pose proof (inc_all c x i (at_ o)) as H. unfold post, inc_ok in H.
      destruct (param_inc c x i (at_ o)) as [a [[]|e]]; cbn [fst snd at_ label_map] in *.
      + pose proof (ev_all c a) as [HF _]. destruct HF.
        destruct (evaluate c a) as [a2 [[]|e]]; cbn [fst at_] in *; lia.
      + lia.
    - exact Hn.
    - now rewrite mat_refused.
    - exact Hn.
  Qed.
  Lemma going_step c m (h : hobj A) e : going m h -> going (mem_after m e) (fst (step1 c m h e)).
  Proof.
    intros [H1 H2]. destruct (call_of m e) as [k|] eqn:Ek.
    - assert (Em : mem_after m e = m) by (destruct e; auto; discriminate). rewrite Em.
      unfold going. destruct (seen_call c m h e k Ek) as [-> _]. apply and_comm. destruct (get_ns c (seen m h) (fst k) (snd k) H2 H1). auto.
    - destruct e; try discriminate. cbn [mem_after]. rewrite step_write. cbn [fst].
      unfold going. now destruct (seen_ns (write m b x) m h) as [-> ->].
  Qed.
  Lemma going_ref c m (h : hobj A) e : going m h -> hmu (fst (step1 c m h e)) = None \/ hmu (fst (step1 c m h e)) = hmu h.
  Proof.
    intros [H1 H2]. rewrite step_ref. destruct e; cbn [ref_after]; auto.
    - unfold mu_after. destruct (shares_mu c); auto. apply Nat.eqb_neq in H1. rewrite H1. destruct (srunning_mean _ _ _); auto.
    - destruct (is_setup _); auto.
  Qed.
  Definition spares (b : nat) (e : event A) : Prop := match e with Write b' _ => b' <> b | _ => True end.
  (** from an object in use, no write goes to the buffer it refers to *)
  Lemma play_spared c es m h : going m h -> (forall b, hmu h = Some b -> Forall (spares b) es) ->
    run (A := A) c (seen m h) (calls_made m es) = (seen_after c m h es, play c m h es).
  Proof.
    intros Hg Hb. apply (play_results c (fun m h es => going m h /\ forall b, hmu h = Some b -> Forall (spares b) es)); auto.
    - clear. intros m h e es [Hg Hb]. split; [now apply going_step|]. intros b Eb.
      destruct (going_ref c m h e Hg) as [E|E]; [congruence|]. rewrite E in Eb. specialize (Hb b Eb). now inversion Hb.
    - clear. intros m h b x es [Hg Hb]. apply seen_write_other. intros E. specialize (Hb b E). inversion Hb; subst. now apply H1.
  Qed.
  Lemma going_state c es : forall m h, going m h -> going (fst (play_state c m h es)) (snd (play_state c m h es)).
  Proof. induction es as [|e es IH]; intros; simpl; auto. apply IH. now apply going_step. Qed.

  Lemma play_app c es1 : forall m h es2, play c m h (es1 ++ es2) =
    play c m h es1 ++ play (A := A) c (fst (play_state c m h es1)) (snd (play_state c m h es1)) es2.
  Proof. induction es1 as [|e es1 IH]; intros; simpl; auto. now rewrite IH, app_assoc. Qed.
  Lemma calls_made_app c es1 : forall m h es2, calls_made m (es1 ++ es2) =
    calls_made m es1 ++ calls_made (A := A) (fst (play_state c m h es1)) es2.
  Proof. induction es1 as [|e es1 IH]; intros; simpl; auto. rewrite (IH _ (fst (step1 c m h e))). now rewrite app_assoc. Qed.
  Definition is_write (e : event A) : Prop := match e with Write _ _ => True | _ => False end.
  Lemma writes_fresh c es : Forall is_write es -> forall m, snd (play_state c m fresh_h es) = fresh_h /\ play c m fresh_h es = [] /\ calls_made m es = [].
  Proof.
    induction 1 as [|e es He Hes IH]; intros m; simpl; auto. destruct e; try contradiction. cbn [step1 call_of fst snd app mem_after].
    unfold step1; cbn [call_of fst snd app]. apply IH.
  Qed.
  Lemma first_ok c (x : vec A) l : c <> krCIP -> n_samples (at_ (fst (get_cvi c new_obj (Vec x) (Lab l)))) <> 0 /\
    is_setup (at_ (fst (get_cvi c new_obj (Vec x) (Lab l)))) = true.
  Proof.
    intros Hc. destruct (run_wf (A := A) c (length x) [(x, l)]) as (a & vals & Er & [[? _]|[_ HS]] & _); try discriminate.
    - intros E. contradiction.
    - repeat constructor.
    - cbn [stream map run fst snd] in Er. destruct (get_cvi c new_obj (Vec x) (Lab l)) as [o r]. cbn [fst].
      inversion Er; subst. cbn [at_]. apply Shape_init in HS. split; [lia|tauto].
  Qed.

  (** the buffer of the first call is left alone *)
  Lemma play_first_spared c m pre b0 l0 es : Forall is_write pre -> Forall (spares b0) es ->
    play c m fresh_h (pre ++ Sample b0 l0 :: es) = results (A := A) c new_obj (calls_made m (pre ++ Sample b0 l0 :: es)).
  Proof.
    intros Hp He. destruct (shares_mu c) eqn:Ec; [|now apply play_unshared].
    destruct (writes_fresh c pre Hp m) as (W1 & W2 & W3).
    rewrite play_app, (calls_made_app c pre m fresh_h), W1, W2, W3. cbn [app]. generalize (fst (play_state c m fresh_h pre)). clear m W1 W2 W3. intros m.
    cbn [play calls_made call_of mem_after app].
    destruct (seen_call c m fresh_h (Sample b0 l0) _ eq_refl) as [H1 H2]. rewrite H2. cbn [fst snd] in *. change (seen m fresh_h) with (new_obj (A := A)) in *.
    unfold results. cbn [run]. destruct (first_ok c (m b0) l0) as [N1 N2]; [now intros ->|].
    pose proof (play_spared c es m (fst (step1 c m fresh_h (Sample b0 l0)))) as HP. rewrite H1 in HP.
    destruct (get_cvi c new_obj (Vec (m b0)) (Lab l0)) as [o r]. cbn [fst snd] in *.
    rewrite HP; [reflexivity| |].
    - unfold going. rewrite H1. auto.
    - intros b Eb. rewrite step_ref in Eb. cbn [ref_after] in Eb. unfold mu_after in Eb. rewrite Ec in Eb. cbn in Eb. now inversion Eb; subst.
  Qed.

  Lemma ok_mean c x i (o : attrs A) : shares_mu c = true -> n_samples o <> 0 ->
    post (param_inc c x i) o (fun _ r => r = Ok tt -> exists y, srunning_mean (n_samples o + 1) (mu o) x = Ok y).
  Proof.
    intros Hc Hn. apply Nat.eqb_neq in Hn.
    destruct c; try discriminate Hc; cbn [param_inc];
    unfold CH_param_inc, CH_setup, WB_param_inc, WB_setup, DB_param_inc, DB_setup, XB_param_inc, XB_setup, GD43_param_inc, GD43_setup,
      GD53_param_inc, GD53_setup, append_n, base_setup;
    hrun; try congruence; intros HX; try discriminate HX; eauto.
  Qed.
  Lemma ok_ref c m (h : hobj A) b l r : shares_mu c = true -> n_samples (at_ (seen m h)) <> 0 ->
    snd (step1 c m h (Sample b l)) = [Ok r] -> hmu (fst (step1 c m h (Sample b l))) = None.
  Proof.
    intros Hc Hn H. destruct (seen_call c m h (Sample b l) _ eq_refl) as [_ H2]. rewrite H2 in H. inversion H as [HH]. clear H H2.
    rewrite step_ref. cbn [ref_after]. unfold mu_after. rewrite Hc. rewrite (proj2 (Nat.eqb_neq _ _) Hn).
    cbn [fst snd] in HH. unfold get_cvi, update in HH.
    destruct (get_internal_label (label_map (seen m h)) l) as [i lm].
    pose proof (ok_mean c (m b) i (at_ (seen m h)) Hc Hn) as HM. unfold post in HM.
    destruct (param_inc c (m b) i (at_ (seen m h))) as [a [[]|e]]; [|discriminate HH].
    destruct (HM eq_refl) as [y ->]. reflexivity.
  Qed.
  (** ... until another call has returned *)
  Lemma play_first_spared_until c m pre b0 l0 mid b1 l1 post_ rs r : Forall is_write pre -> Forall (spares b0) mid ->
    results (A := A) c new_obj (calls_made m (pre ++ Sample b0 l0 :: mid ++ [Sample b1 l1])) = rs ++ [Ok r] ->
    play c m fresh_h (pre ++ Sample b0 l0 :: mid ++ Sample b1 l1 :: post_) =
    results (A := A) c new_obj (calls_made m (pre ++ Sample b0 l0 :: mid ++ Sample b1 l1 :: post_)).
  Proof.
    intros Hp He Hr. destruct (shares_mu c) eqn:Ec; [|now apply play_unshared].
    destruct (writes_fresh c pre Hp m) as (W1 & W2 & W3).
    rewrite (calls_made_app c pre m fresh_h), W3 in Hr.
    rewrite play_app, (calls_made_app c pre m fresh_h), W1, W2, W3. cbn [app] in *. revert Hr. generalize (fst (play_state c m fresh_h pre)). clear m W1 W2 W3. intros m.
    cbn [play calls_made call_of mem_after app].
    destruct (seen_call c m fresh_h (Sample b0 l0) _ eq_refl) as [H1 H2]. rewrite H2. cbn [fst snd] in *. change (seen m fresh_h) with (new_obj (A := A)) in *.
    unfold results. cbn [run]. destruct (first_ok c (m b0) l0) as [N1 N2]; [now intros ->|].
    assert (Eh : hmu (fst (step1 c m fresh_h (Sample b0 l0))) = Some b0).
    { rewrite step_ref. cbn [ref_after]. unfold mu_after. rewrite Ec. reflexivity. }
    destruct (get_cvi c new_obj (Vec (m b0)) (Lab l0)) as [o r0] eqn:Eg. cbn [fst snd] in *.
    set (h1 := fst (step1 c m fresh_h (Sample b0 l0))) in *.
    assert (Hg : going m h1) by (unfold going; rewrite H1; auto).
    rewrite play_app, !(calls_made_app c mid m h1), <- H1, !run_app.
    rewrite (play_spared c mid m h1 Hg) by (intros b Eb; rewrite Eh in Eb; now inversion Eb; subst).
    cbn [fst snd]. pose proof (going_state c mid m h1 Hg) as Hg2. unfold seen_after.
    set (m2 := fst (play_state c m h1 mid)) in *. set (h2 := snd (play_state c m h1 mid)) in *.
    cbn [play calls_made call_of mem_after app run].
    destruct (seen_call c m2 h2 (Sample b1 l1) _ eq_refl) as [G1 G2]. cbn [fst snd] in *.
    destruct (get_cvi c (seen m2 h2) (Vec (m2 b1)) (Lab l1)) as [o2 r2] eqn:Eg2. cbn [fst snd] in *. intros Hr.
    assert (r2 = Ok r).
    { rewrite app_comm_cons in Hr. apply app_inj_tail in Hr. tauto. }
    subst r2. pose proof (ok_ref c m2 h2 b1 l1 r Ec (proj1 Hg2) G2) as HN.
    pose proof (going_step c m2 h2 (Sample b1 l1) Hg2) as Hg3. cbn [mem_after] in Hg3.
    rewrite G2, <- G1. rewrite (play_spared c post_ m2 _ Hg3) by (intros b Eb; rewrite HN in Eb; discriminate).
    reflexivity.
  Qed.
  (** a program whose first call is a batch that returns *)
  Ltac nloop b := match goal with
    | |- post (bind (for_ _ _) _) ?oo _ =>
        apply post_bind; eapply post_conseq;
        [apply (post_for _ _ _ (fun o' => n_samples o' = n_samples oo));
         [reflexivity|let HH := fresh in intros ? ? HH; unfold b; hrun; exact HH]
        |intros ? [[]|] ?; red_attrs]
    | |- post (for_ _ _) ?oo _ =>
        eapply post_conseq;
        [apply (post_for _ _ _ (fun o' => n_samples o' = n_samples oo));
         [reflexivity|let HH := fresh in intros ? ? HH; unfold b; hrun; exact HH]
        |intros ? [[]|] ?; red_attrs]
    end.
  Ltac ngo b := unfold base_setup_batch; hrun; try (nloop b; red_attrs); hrun; red_attrs; auto.
  Lemma bat_ns c x ls (o : attrs A) : post (param_batch c x ls) o (fun o' _ => n_samples o' = nrows x).
  Proof.
    destruct c; cbn [param_batch].
    - unfold CH_param_batch. ngo @CH_batch_body.
    - unfold WB_param_batch. ngo @WB_batch_body.
    - unfold DB_param_batch. ngo @DB_batch_body.
    - unfold XB_param_batch. ngo @XB_batch_body.
    - unfold GD43_param_batch. ngo @GD43_batch_body.
    - unfold GD53_param_batch. ngo @GD53_batch_body.
    - unfold PS_param_batch. ngo @PS_batch_body.
    - unfold rCIP_param_batch. ngo @rCIP_batch_body.
    - unfold cSIL_param_batch. ngo @cSIL_batch_body.
  Qed.
  Lemma batch_going c (x : mat A) l r : nrows x <> 0 -> snd (get_cvi c new_obj (Mat x) l) = Ok r ->
    n_samples (at_ (fst (get_cvi c new_obj (Mat x) l))) <> 0 /\ is_setup (at_ (fst (get_cvi c new_obj (Mat x) l))) = true.
  Proof.
    intros Hx H. split; [|apply (step_guard c new_obj (Mat x) l guarded_new) with (x := r); auto].
    revert H. unfold get_cvi, update. change (is_setup (at_ (new_obj (A := A)))) with false. cbv iota.
    destruct (negb _); [discriminate|]. destruct l as [l|ls]; [discriminate|].
    pose proof (bat_ns c x ls (at_ (new_obj (A := A)))) as HB. unfold post in HB.
    destruct (param_batch c x ls (at_ new_obj)) as [a [[]|e]]; [|discriminate]. cbn [fst snd at_ label_map] in *.
    pose proof (ev_all c a) as [HF _]. destruct HF.
    destruct (evaluate c a) as [a2 [[]|e]]; cbn [fst snd at_] in *; [|discriminate]. intros _. rewrite fr_ns, HB. auto.
  Qed.
  Lemma play_batch_first c m pre x l r es : Forall is_write pre -> nrows x <> 0 ->
    snd (get_cvi c new_obj (Mat x) l) = Ok r ->
    play c m fresh_h (pre ++ Batch x l :: es) = results (A := A) c new_obj (calls_made m (pre ++ Batch x l :: es)).
  Proof.
    intros Hp Hx Hr. destruct (writes_fresh c pre Hp m) as (W1 & W2 & W3).
    rewrite play_app, (calls_made_app c pre m fresh_h), W1, W2, W3. cbn [app]. generalize (fst (play_state c m fresh_h pre)). clear m W1 W2 W3. intros m.
    cbn [play calls_made call_of mem_after app].
    destruct (seen_call c m fresh_h (Batch x l) _ eq_refl) as [H1 H2]. rewrite H2. cbn [fst snd] in *. change (seen m fresh_h) with (new_obj (A := A)) in *.
    unfold results. cbn [run]. destruct (batch_going c x l r Hx Hr) as [N1 N2].
    pose proof (play_spared c es m (fst (step1 c m fresh_h (Batch x l)))) as HP. rewrite H1 in HP.
    destruct (get_cvi c new_obj (Mat x) l) as [o r']. cbn [fst snd] in *.
    rewrite HP; [reflexivity| |].
    - unfold going. rewrite H1. auto.
    - intros b Eb. rewrite step_ref in Eb. cbn in Eb. discriminate.
  Qed.

  (** *** DB, XB, GD43 and GD53: _mu is kept but never read by anything else *)
  Definition upto (o1 o2 : attrs A) : Prop := exists m, length m = length (mu o1) /\ o2 = set_mu m o1.
  Definition lock {X} (m1 m2 : M A X) (o1 o2 : attrs A) : Prop :=
    snd (m1 o1) = snd (m2 o2) /\ upto (fst (m1 o1)) (fst (m2 o2)).
  Lemma lock_lift {X Y} (e : E X) (k1 k2 : X -> M A Y) o1 o2 : upto o1 o2 ->
    (forall x, e = Ok x -> lock (k1 x) (k2 x) o1 o2) -> lock (bind (lift e) k1) (bind (lift e) k2) o1 o2.
  Proof. intros Hu H. unfold lock, bind, lift. destruct e; [now apply H|]. split; auto. Qed.
  Lemma lock_mean {Y} k m1 m2 x (k1 k2 : vec A -> M A Y) o1 o2 : upto o1 o2 -> length m1 = length m2 ->
    (forall r1 r2, length r1 = length r2 -> lock (k1 r1) (k2 r2) o1 o2) ->
    lock (bind (lift (srunning_mean k m1 x)) k1) (bind (lift (srunning_mean k m2 x)) k2) o1 o2.
  Proof.
    intros Hu Hl H. unfold lock, bind, lift, srunning_mean, svadd, bc, sscal. rewrite !map_length, <- Hl.
    destruct (length m1 =? length x) eqn:E.
    - apply H. rewrite !length_map2, !map_length. now rewrite Hl.
    - destruct m1 as [|a [|a' m1]], m2 as [|b [|b' m2]]; try discriminate Hl; cbn [map].
      + destruct x as [|y [|]]; try (split; auto; fail); apply H; simpl; now rewrite ?map_length.
      + apply H; simpl; now rewrite ?map_length.
      + destruct x as [|y [|]]; try (split; auto; fail). apply H. simpl. rewrite !map_length. simpl in Hl. lia.
  Qed.
  Lemma lock_bget {X} (k1 k2 : attrs A -> M A X) o1 o2 : lock (k1 o1) (k2 o2) o1 o2 -> lock (bind get k1) (bind get k2) o1 o2.
  Proof. auto. Qed.
  Lemma lock_bmodify {X} f1 f2 (k1 k2 : unit -> M A X) o1 o2 : lock (k1 tt) (k2 tt) (f1 o1) (f2 o2) -> lock (bind (modify f1) k1) (bind (modify f2) k2) o1 o2.
  Proof. auto. Qed.
  Lemma lock_modify f1 f2 o1 o2 : upto (f1 o1) (f2 o2) -> lock (modify f1) (modify f2) o1 o2.
  Proof. unfold lock. auto. Qed.
  Lemma lock_raise {X} e o1 o2 : upto o1 o2 -> lock (X := X) (raise e) (raise e) o1 o2.
  Proof. unfold lock. auto. Qed.
  Lemma lock_braise {X Y} e (k1 k2 : X -> M A Y) o1 o2 : upto o1 o2 -> lock (bind (raise e) k1) (bind (raise e) k2) o1 o2.
  Proof. unfold lock. auto. Qed.
  Lemma lock_assoc {X Y Z} (m1 m2 : M A X) (k1 k2 : X -> M A Y) (h1 h2 : Y -> M A Z) o1 o2 :
    lock (bind m1 (fun x => bind (k1 x) h1)) (bind m2 (fun x => bind (k2 x) h2)) o1 o2 ->
    lock (bind (bind m1 k1) h1) (bind (bind m2 k2) h2) o1 o2.
  Proof. unfold lock. now rewrite !bind_assoc. Qed.
  Ltac uptac := match goal with |- upto _ ?b => exists (mu b); split; [red_attrs; congruence|reflexivity] end.
  Ltac lstep := match goal with
    | |- lock (bind get _) _ _ _ => apply lock_bget
    | |- lock (bind (modify _) _) _ _ _ => apply lock_bmodify
    | |- lock (bind (bind _ _) _) _ _ _ => apply lock_assoc
    | |- lock (bind (raise _) _) _ _ _ => apply lock_braise; try uptac
    | |- lock (bind (lift ?e) _) (bind (lift ?e) _) _ _ => apply lock_lift; [try uptac|intros ? _]
    | |- lock (modify _) _ _ _ => apply lock_modify; try uptac
    | |- lock (raise _) _ _ _ => apply lock_raise; try uptac
    | |- lock (bind (if ?b then _ else _) _) _ _ _ => destruct b
    | |- lock (if ?b then _ else _) _ _ _ => destruct b
    | |- lock (let x := _ in _) _ _ _ => cbv zeta
    | |- lock (bind (let x := _ in _) _) _ _ _ => cbv zeta
    | |- lock (bind (lift (srunning_mean _ _ _)) _) (bind (lift (srunning_mean _ _ _)) _) _ _ => apply lock_mean; [uptac|congruence|intros ? ? ?]
    end.
  Ltac lrun := repeat (lstep; cbv beta; red_attrs).
  Definition ignores_mu (c : kind) : Prop := c = kDB \/ c = kXB \/ c = kGD43 \/ c = kGD53.
  Lemma lock_inc c x i o m : ignores_mu c -> length m = length (mu o) -> lock (param_inc c x i) (param_inc c x i) o (set_mu m o).
  Proof.
    intros Hc Hl. destruct Hc as [-> |[-> |[-> | ->]]]; cbn [param_inc];
    unfold DB_param_inc, DB_setup, XB_param_inc, XB_setup, GD43_param_inc, GD43_setup, GD53_param_inc, GD53_setup, append_n, base_setup, DB_term, XB_term, GD43_term, GD53_term; lrun.
  Qed.
  Lemma lock_eval c o m : ignores_mu c -> length m = length (mu o) -> lock (evaluate c) (evaluate c) o (set_mu m o).
  Proof.
    intros Hc Hl. destruct Hc as [-> |[-> |[-> | ->]]]; cbn [evaluate];
    unfold DB_evaluate, XB_evaluate, GD43_evaluate, GD53_evaluate; lrun.
  Qed.
  Lemma batch_over c x ls (o : attrs A) m : ignores_mu c -> param_batch c x ls (set_mu m o) = param_batch c x ls o.
  Proof.
    intros Hc. destruct Hc as [-> |[-> |[-> | ->]]]; cbn [param_batch];
    unfold DB_param_batch, XB_param_batch, GD43_param_batch, GD53_param_batch, base_setup_batch; sx; reflexivity.
  Qed.
  Definition oupto (o1 o2 : obj A) : Prop := label_map o1 = label_map o2 /\ upto (at_ o1) (at_ o2).
  Lemma upto_refl o : upto o o.
  Proof. exists (mu o). split; auto. now destruct o. Qed.
  Lemma upto_sym o1 o2 : upto o1 o2 -> upto o2 o1.
  Proof. intros (m & Hl & ->). exists (mu o1). red_attrs. split; auto. now destruct o1. Qed.
  Lemma oupto_get c o1 o2 data l : ignores_mu c -> oupto o1 o2 ->
    oupto (fst (get_cvi c o1 data l)) (fst (get_cvi c o2 data l)) /\ snd (get_cvi c o1 data l) = snd (get_cvi c o2 data l).
  Proof.
    intros Hc Ho. destruct o1 as [lm a1], o2 as [lm2 a2]. destruct Ho as [E (m & Hl & Em)]. cbn [label_map at_] in *. subst lm2 a2.
    assert (HE : forall lm a a2, upto a a2 ->
      oupto (fst match evaluate c a with (b, Err e) => (mkObj lm b, Err e) | (b, Ok _) => (mkObj lm b, Ok (criterion_value b)) end)
            (fst match evaluate c a2 with (b, Err e) => (mkObj lm b, Err e) | (b, Ok _) => (mkObj lm b, Ok (criterion_value b)) end) /\
      snd match evaluate c a with (b, Err e) => (mkObj lm b, Err e) | (b, Ok _) => (mkObj lm b, Ok (criterion_value b)) end =
      snd match evaluate c a2 with (b, Err e) => (mkObj lm b, Err e) | (b, Ok _) => (mkObj lm b, Ok (criterion_value b)) end).
    { clear - Hc. intros lm a a2 (m & Hl & ->). destruct (lock_eval c a m) as [H1 H2]; auto.
      destruct (evaluate c a) as [b r], (evaluate c (set_mu m a)) as [b2 r2]. cbn [fst snd] in *. subst r2.
      destruct r; cbn [fst snd]; split; try (split; auto); auto. destruct H2 as (? & _ & ->). reflexivity. }
    unfold get_cvi, update. cbn [label_map at_]. destruct data as [x|x|k]; [destruct l as [l|ls]| |].
    - destruct (get_internal_label lm l) as [i lm']. destruct (lock_inc c x i a1 m Hc Hl) as [H1 H2].
      destruct (param_inc c x i a1) as [b r], (param_inc c x i (set_mu m a1)) as [b2 r2]. cbn [fst snd] in *. subst r2.
      destruct r as [[]|e]; cbn [label_map at_ fst snd]; [now apply HE|]. split; [split|]; auto.
    - cbn [fst snd]. split; [split|]; cbn [label_map at_]; auto. exists m; auto.
    - change (is_setup (set_mu m a1)) with (is_setup a1). destruct (is_setup a1); [cbn [fst snd]; split; [split|]; cbn [label_map at_]; auto; exists m; auto|].
      destruct (negb _); [cbn [fst snd]; split; [split|]; cbn [label_map at_]; auto; exists m; auto|].
      destruct l as [l|ls]; [cbn [fst snd]; split; [split|]; cbn [label_map at_]; auto; exists m; auto|].
      rewrite batch_over by auto. destruct (param_batch c x ls a1) as [b [[]|e]]; cbn [label_map at_ fst snd].
      + apply HE, upto_refl.
      + split; auto. split; auto. apply upto_refl.
    - cbn [fst snd]. split; [split|]; cbn [label_map at_]; auto. exists m; auto.
  Qed.
  Lemma oupto_write m (h : hobj A) b x o : oupto (seen m h) o -> oupto (seen (write m b x) h) o.
  Proof.
    unfold seen. destruct (hmu h) as [b'|]; auto. intros [E H]. split; auto. cbn [at_] in *.
    destruct H as (m' & Hl & ->). exists m'. red_attrs. split; [|reflexivity]. cbn [mu set_mu] in Hl. rewrite Hl.
    unfold write. destruct (Nat.eq_dec b' b); auto. subst. destruct (Nat.eqb_spec (length x) (length (m b))); auto.
  Qed.
  Lemma play_ignored c es : ignores_mu c -> forall m h o, oupto (seen m h) o -> play c m h es = results c o (calls_made m es).
  Proof.
    intros Hc. induction es as [|e es IH]; intros m h o Ho; [reflexivity|].
    cbn [play calls_made]. destruct (call_of m e) as [k|] eqn:Ek.
    - destruct (seen_call c m h e k Ek) as [H1 H2]. rewrite H2.
      assert (Em : mem_after m e = m) by (destruct e; auto; discriminate). rewrite Em.
      destruct k as [data l]. cbn [fst snd] in *. destruct (oupto_get c (seen m h) o data l Hc Ho) as [H3 H4].
      rewrite <- H1 in H3. rewrite (IH _ _ _ H3), H4. unfold results. cbn [app run].
      destruct (get_cvi c o data l) as [o2 r]. cbn [fst snd]. now destruct (run c o2 _).
    - destruct e; try discriminate. cbn [mem_after]. rewrite step_write. cbn [fst snd app]. apply IH. now apply oupto_write.
  Qed.

  (** *** several objects *)
  Definition own (i : nat) (p : nat * event A) : bool :=
    match snd p with Write _ _ => true | _ => fst p =? i end.
  Lemma map_filter_same i (rs : list (E (F A))) : map snd (filter (fun p => fst p =? i) (map (pair i) rs)) = rs.
  Proof. induction rs; simpl; auto. rewrite Nat.eqb_refl. simpl. now f_equal. Qed.
  Lemma map_filter_diff i j (rs : list (E (F A))) : j <> i -> map snd (filter (fun p => fst p =? i) (map (pair j) rs)) = [].
  Proof. intros H. induction rs; simpl; auto. now rewrite (proj2 (Nat.eqb_neq _ _) H). Qed.
  Lemma play_many_alone cls i es : forall m hs,
    map snd (filter (fun p => fst p =? i) (play_many cls m hs es)) = play (A := A) (cls i) m (hs i) (map snd (filter (own i) es)).
  Proof.
    induction es as [|[j e] es IH]; intros m hs; [reflexivity|].
    cbn [play_many]. rewrite filter_app, map_app, IH. cbn [filter own snd fst].
    assert (Hput : forall h, put hs j h i = if Nat.eq_dec i j then h else hs i) by reflexivity.
    rewrite Hput. destruct (Nat.eq_dec i j) as [->|Hn].
    - rewrite map_filter_same. destruct e; cbn [own snd fst]; rewrite ?Nat.eqb_refl; reflexivity.
    - rewrite map_filter_diff by auto. assert (Hb : (j =? i) = false) by (apply Nat.eqb_neq; auto).
      destruct e; unfold own; cbn [snd fst]; rewrite ?Hb; reflexivity.
  Qed.
End Heap.
