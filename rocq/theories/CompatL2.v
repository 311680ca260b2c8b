(** * Lemmas about iPS, iCH and iSIL of compat/v0.py. *)
From Coq Require Import String ZArith List Arith Bool Lia.
From Verif Require Import Num NumPy Lists Compat CompatL.
Import ListNotations.
Local Notation length := List.length.

Ltac sm := cbv beta delta [sbind sget smod slift sret]; cbv beta iota.
Ltac sm_in H := cbv beta delta [sbind sget smod slift sret] in H; cbv beta iota in H.

Lemma others_nil n c : n <> 0 -> others n c = [] -> n = 1 /\ c = 0%Z.
Proof.
  intros Hn H. assert (Hj : forall j, j < n -> Z.of_nat j = c).
  { intros j Hj. destruct (Z.eq_dec (Z.of_nat j) c) as [e|e]; auto.
    assert (Hi : In j (others n c)) by (now apply others_In). rewrite H in Hi. destruct Hi. }
  destruct n as [|[|n]]; [lia| |].
  - split; auto. symmetry. exact (Hj 0 ltac:(lia)).
  - pose proof (Hj 0 ltac:(lia)). pose proof (Hj 1 ltac:(lia)). lia.
Qed.
Lemma mapE_length {X Y} (f : X -> E Y) l ys : mapE f l = Ok ys -> length ys = length l.
Proof. intros H. now apply mapE_inv in H. Qed.
Lemma py_set_length {X} (l l' : list X) c x : py_set l c x = Ok l' -> length l' = length l.
Proof.
  unfold py_set. destruct (py_index _ _); simpl; intros H; [|discriminate]. injection H as <-. apply length_upd.
Qed.
Lemma py_get_nonempty {X} (l : list X) c x : py_get l c = Ok x -> l <> [].
Proof. intros H ->. rewrite py_get_nil in H. discriminate. Qed.

(** ** Hoare triples: [P] before, [Q] after a return, [R] after an exception *)
Section Tri.
  Context {S : Type}.
  Definition tri {X} (P : S -> Prop) (m : SM S X) (Q : X -> S -> Prop) (R : S -> Prop) : Prop :=
    forall s, P s -> match m s with (s', Ok x) => Q x s' | (s', Err _) => R s' end.
  Lemma tri_bind {X Y} P (m : SM S X) (k : X -> SM S Y) Q1 Q R :
    tri P m Q1 R -> (forall x, tri (Q1 x) (k x) Q R) -> tri P (sbind m k) Q R.
  Proof.
    intros H1 H2 s Hs. specialize (H1 s Hs). unfold sbind. destruct (m s) as [s1 [x|e]]; auto. apply (H2 x s1 H1).
  Qed.
  Lemma tri_mod (P Q : S -> Prop) R f : (forall s, P s -> Q (f s)) -> tri P (smod f) (fun _ => Q) R.
  Proof. intros H s Hs. simpl. auto. Qed.
  Lemma tri_lift {X} (P R : S -> Prop) (e : E X) (Q : X -> S -> Prop) :
    (forall s x, P s -> e = Ok x -> Q x s) -> (forall s e', P s -> e = Err e' -> R s) -> tri P (slift e) Q R.
  Proof. intros H1 H2 s Hs. unfold slift. destruct e; eauto. Qed.
  Lemma tri_get P R : tri P sget (fun x s => x = s /\ P s) R.
  Proof. intros s Hs. simpl. auto. Qed.
  Lemma tri_ret {X} (P : S -> Prop) (x : X) (Q : X -> S -> Prop) R : (forall s, P s -> Q x s) -> tri P (sret x) Q R.
  Proof. intros H s Hs. simpl. auto. Qed.
  Lemma tri_for {I} (P R : S -> Prop) (l : list I) body :
    (forall i, In i l -> tri P (body i) (fun _ => P) R) -> tri P (sfor l body) (fun _ => P) R.
  Proof.
    induction l as [|i l IH]; intros H; cbn [sfor].
    - now apply tri_ret.
    - eapply tri_bind; [apply H; now left|]. intros x. apply IH. intros j Hj. apply H. now right.
  Qed.
  Lemma tri_pre {X} (P P' : S -> Prop) (m : SM S X) Q R : (forall s, P s -> P' s) -> tri P' m Q R -> tri P m Q R.
  Proof. intros H1 H2 s Hs. now apply H2, H1. Qed.
  Lemma tri_post {X} (P : S -> Prop) (m : SM S X) (Q Q' : X -> S -> Prop) R : (forall x s, Q' x s -> Q x s) -> tri P m Q' R -> tri P m Q R.
  Proof. intros H1 H2 s Hs. specialize (H2 s Hs). destruct (m s) as [s' [x|e]]; auto. Qed.
  (** a constant fact in the precondition *)
  Lemma tri_const {X} (C : Prop) (P : S -> Prop) (m : SM S X) Q R : (C -> tri P m Q R) -> tri (fun s => C /\ P s) m Q R.
  Proof. intros H s [HC Hs]. now apply H. Qed.
  Lemma tri_eq {X} (P : S -> Prop) (o : S) (m : SM S X) Q R :
    (P o -> tri (fun s => s = o) m Q R) -> tri (fun s => o = s /\ P s) m Q R.
  Proof. intros H s [<- Hs]. now apply (H Hs o). Qed.
End Tri.

Section P.
  Context {A : Arith}.
  Notation F := (F A).
  Notation vec := (list F).
  Local Open Scope compat_scope.

  (** ** iPS *)
  Definition PSW (o : iPS (A := A)) : Prop :=
    length (ps_sizes o) = length (ps_centers o) /\ length (ps_PS_i o) = length (ps_centers o) /\
    (ps_output o = f0 \/ ps_output o = np_sum [f0]).
  Lemma iPS_tri gen (x : vec) c : tri PSW (iPS_update gen x c) (fun y o => PSW o /\ y = ps_output o) PSW.
  Proof.
    unfold iPS_update.
    eapply tri_bind; [apply tri_get|]. intros o. apply tri_eq. intros Ho.
    eapply (tri_bind _ _ _ (fun _ => PSW)).
    { destruct Ho as (H1 & H2 & H3). destruct (_ <=? _)%Z.
      - eapply (tri_bind _ _ _ (fun _ s => s = set_ps_centers (ps_centers o ++ [x]) o)); [apply tri_mod; now intros s ->|]. intros _.
        eapply (tri_bind _ _ _ (fun _ s => s = set_ps_sizes (ps_sizes o ++ [1]) (set_ps_centers (ps_centers o ++ [x]) o)));
          [apply tri_mod; now intros s ->|]. intros _.
        apply tri_mod. intros s ->. repeat split; cbn; rewrite ?app_length; simpl; try lia; auto.
      - assert (HP : forall s, s = o -> PSW s) by (intros s ->; repeat split; auto).
        eapply (tri_bind _ _ _ (fun _ s => s = o)); [apply tri_lift; eauto|]. intros v_c.
        eapply (tri_bind _ _ _ (fun _ s => s = o)); [apply tri_lift; eauto|]. intros n_c.
        eapply (tri_bind _ _ _ (fun _ s => s = o)); [apply tri_lift; eauto|]. intros [v' n'].
        eapply (tri_bind _ _ _ (fun l s => s = o /\ length l = length (ps_centers o)));
          [apply tri_lift; eauto using py_set_length|]. intros l1.
        intros s [-> Hl1]. sm. destruct (py_set (ps_sizes o) c n') as [l2|e] eqn:E2.
        + repeat split; cbn; auto. { apply py_set_length in E2. lia. } lia.
        + repeat split; cbn; auto; lia. }
    intros _. eapply tri_bind; [apply tri_get|]. intros o1. apply tri_eq. intros H1. clear Ho.
    eapply (tri_bind _ _ _ (fun n_c s => s = o1 /\ ps_sizes o1 <> [])).
    { apply tri_lift; [|intros s e -> _; auto]. intros s n -> Hn. split; auto. eapply py_get_nonempty; eauto. }
    intros n_c. eapply (tri_bind _ _ _ (fun _ s => PSW s /\ ps_sizes s <> [])).
    { apply tri_mod. intros s [-> Hs]. split; auto. }
    intros _. eapply tri_bind; [apply tri_get|]. intros o2. apply tri_eq. intros [H2 Hn].
    eapply (tri_bind _ _ _ (fun b s => s = o2 /\ (b = [] -> length (ps_centers o2) = 1 /\ c = 0%Z))).
    { apply tri_lift; [|intros s e -> _; auto]. intros s b -> Hb. split; auto. intros ->.
      apply mapE_length in Hb. apply others_nil.
      - destruct H2 as (<- & _). now destruct (ps_sizes o2).
      - now destruct (others _ _). }
    intros b_. eapply (tri_bind _ _ _ (fun _ => PSW)).
    2:{ intros _. eapply tri_bind; [apply tri_get|]. intros o3. apply tri_eq. intros H3. apply tri_ret. now intros s ->. }
    destruct b_ as [|b0 b_].
    - intros s [-> Hb]. destruct (Hb eq_refl) as [Hk ->]. sm. destruct H2 as (H2 & H3 & H4).
      destruct (ps_PS_i o2) as [|p [|p' l]] eqn:Ep; cbn in H3; try lia.
      cbn. repeat split; cbn; auto; lia.
    - apply tri_pre with (P' := fun s => s = o2); [now intros s [-> _]|].
      assert (HP : forall s, s = o2 -> PSW s) by (now intros s ->).
      eapply (tri_bind _ _ _ (fun _ s => s = o2)); [apply tri_lift; eauto|]. intros b.
      eapply (tri_bind _ _ _ (fun _ s => s = o2)); [apply tri_lift; eauto|]. intros t.
      intros s ->. sm. destruct H2 as (H2 & H3 & H4).
      destruct (gen _) as [g|]; [|repeat split; auto].
      destruct (py_get (ps_sizes o2) c) as [n|]; [|repeat split; auto].
      destruct (py_set (ps_PS_i o2) c _) as [l|] eqn:El; [|repeat split; auto].
      repeat split; auto. cbn. apply py_set_length in El. lia.
  Qed.
  Lemma iPS_zero gen (h : list (vec * Z)) y :
    In (Ok y) (chist_results (fun i => iPS_update gen (fst i) (snd i)) iPS_init h) -> y = f0 \/ y = np_sum [f0].
  Proof.
    apply (chist_inv _ PSW (fun y => y = f0 \/ y = np_sum [f0])).
    - intros [x c] s s' r Hs E. pose proof (iPS_tri gen x c s Hs) as H. cbn [fst snd] in E. rewrite E in H.
      destruct r as [z|e]; [|split; [auto|discriminate]]. destruct H as [HW ->]. split; auto.
      intros y0 Hy. injection Hy as <-. apply HW.
    - repeat split; auto.
  Qed.

  (** it does return, as long as the arrays have one length and np.sum takes the generator *)
  Definition PSD (d k : nat) (o : iPS (A := A)) : Prop :=
    PSW o /\ length (ps_centers o) = k /\ Forall (fun c => length c = d) (ps_centers o).
  Lemma sum_centers_ok d (cs : list vec) : Forall (fun c => length c = d) cs -> exists y, sum_centers cs = Ok y.
  Proof.
    destruct cs as [|c cs]; intros H; [now exists (np_sum [])|]. unfold sum_centers.
    replace (forallb _ _) with true; [eauto|]. symmetry. apply forallb_forall. intros b Hb.
    rewrite Forall_forall in H. apply Nat.eqb_eq. rewrite (H b Hb). symmetry. apply H. now left.
  Qed.
  Lemma iPS_returns d k (x : vec) (i : nat) o : PSD d k o -> length x = d -> i <= k ->
    exists o' y, iPS_update gen_sum_old x (Z.of_nat i) o = (o', Ok y) /\ PSD d (Nat.max k (S i)) o'.
  Proof.
    intros (HW & Hk & Hd) Hx Hi.
    pose proof (iPS_tri gen_sum_old x (Z.of_nat i) o HW) as HT.
    assert (HH : exists o' y, iPS_update gen_sum_old x (Z.of_nat i) o = (o', Ok y) /\
               length (ps_centers o') = Nat.max k (S i) /\ Forall (fun c => length c = d) (ps_centers o')).
    2:{ destruct HH as (o' & y & E & H1 & H2). rewrite E in HT. exists o', y. split; auto. split; [apply HT|auto]. }
    clear HT. destruct HW as (H1 & H2 & _). unfold iPS_update.
    assert (HR : forall k1 (o1 : iPS (A := A)), length (ps_centers o1) = k1 -> length (ps_sizes o1) = k1 -> length (ps_PS_i o1) = k1 ->
      Forall (fun c => length c = d) (ps_centers o1) -> i < k1 ->
      exists o' y, (do o <- sget ;;
    do n_c <- slift (py_get (ps_sizes o) (Z.of_nat i)) ;;
    smod (set_ps_max (Nat.max (ps_max o) n_c)) ;;
    do o <- sget ;;
    do b_ <- slift (mapE (fun j => center_dist (ps_centers o) (Z.of_nat i) (Z.of_nat j))
                      (others (length (ps_centers o)) (Z.of_nat i))) ;;
    (match b_ with
     | _ :: _ =>
         do b <- slift (np_min b_) ;;
         do t <- slift (sum_centers (ps_centers o)) ;;
         let mean := fdiv t (f_of_nat (length (ps_centers o))) in
         smod (set_ps_mean (Some mean)) ;;
         do s <- slift (gen_sum_old (map (fun cc => norm22 (map (fun y => fsub y mean) cc)) (ps_centers o))) ;;
         let Bt := fdiv s (f_of_nat (length (ps_centers o))) in
         do n_c <- slift (py_get (ps_sizes o) (Z.of_nat i)) ;;
         do l <- slift (py_set (ps_PS_i o) (Z.of_nat i)
                          (fsub (fdiv (f_of_nat n_c) (f_of_nat (ps_max o)))
                                (fexp (fdiv (fneg b) Bt)))) ;;
         smod (set_ps_PS_i l)
     | [] =>
         do l <- slift (py_set (ps_PS_i o) (Z.of_nat i) f0) ;;
         smod (set_ps_PS_i l) ;;
         do o <- sget ;;
         smod (set_ps_output (np_sum (ps_PS_i o)))
     end) ;;
    do o <- sget ;;
    sret (ps_output o)) o1 = (o', Ok y) /\ ps_centers o' = ps_centers o1).
    { intros k1 o1 E1 E2 E3 Hf Hi1. sm.
      rewrite (py_get_in (ps_sizes o1) _ 0) by lia. cbn [ps_centers set_ps_max ps_sizes ps_PS_i ps_max].
      rewrite (mapE_ok _ (fun j => cdist (ps_centers o1) i j)).
      2:{ intros j Hj. apply others_In in Hj. apply (center_dist_eq d); auto; lia. }
      destruct (map _ (others _ _)) as [|b0 bs].
      - rewrite py_set_nat by lia. eauto.
      - cbn [np_min]. destruct (sum_centers_ok d (ps_centers o1) Hf) as [t Et]. rewrite Et.
        unfold gen_sum_old. cbn [ps_centers set_ps_max set_ps_mean ps_sizes ps_PS_i ps_max].
        rewrite (py_get_in (ps_sizes o1) _ 0) by lia. rewrite py_set_nat by lia. eauto. }
    unfold sbind at 1, sget at 1. rewrite Hk.
    destruct (Z.of_nat k <=? Z.of_nat i)%Z eqn:Ek.
    - assert (i = k) by lia. subst i.
      destruct (HR (S k) (set_ps_PS_i (ps_PS_i o ++ [f0]) (set_ps_sizes (ps_sizes o ++ [1]) (set_ps_centers (ps_centers o ++ [x]) o))))
        as (o' & y & E & Ec); try (cbn; rewrite ?app_length; cbn; lia).
      { cbn. apply Forall_app. split; auto. }
      exists o', y. split; [exact E|]. rewrite Ec. cbn. rewrite app_length. cbn. split; [lia|]. apply Forall_app. split; auto.
    - assert (i < k) by lia.
      assert (Hv : length (nth i (ps_centers o) []) = d) by (rewrite Forall_forall in Hd; apply Hd, nth_In; lia).
      assert (Hf' : Forall (fun c => length c = d) (upd i (cu_v x (nth i (ps_centers o) []) (nth i (ps_sizes o) 0)) (ps_centers o))).
      { apply Forall_upd; auto. now apply length_cu_v. }
      destruct (HR k (set_ps_sizes (upd i (nth i (ps_sizes o) 0 + 1) (ps_sizes o))
          (set_ps_centers (upd i (cu_v x (nth i (ps_centers o) []) (nth i (ps_sizes o) 0)) (ps_centers o)) o)))
        as (o' & y & E & Ec); try (cbn; rewrite ?length_upd; lia); auto.
      exists o', y. split.
      + rewrite <- E. unfold sbind at 1 2. f_equal.
        sm. rewrite (py_get_nat (ps_centers o) i (nth i (ps_centers o) [])) by (apply nth_error_nth'; lia).
        rewrite (py_get_nat (ps_sizes o) i (nth i (ps_sizes o) 0)) by (apply nth_error_nth'; lia).
        rewrite (center_update_eq d) by auto. cbv iota beta. rewrite !py_set_nat by lia. reflexivity.
      + rewrite Ec. cbn. rewrite length_upd. split; [lia|auto].
  Qed.
End P.
