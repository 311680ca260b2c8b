(** * A nan spreads: lemmas for every arithmetic in which nan is absorbing. *)
From Coq Require Import ZArith List Arith Bool Lia.
From Verif Require Import Num NumPy Base M_CH M_D M_PS GetCvi Lists Step Step2 StepB Hoare Eval Stream Shapes Generic.
Import ListNotations.

(** [bad] (being a nan) is absorbing for the operations the package uses *)
Record Absorbing {A : Arith} (bad : F A -> Prop) : Prop := mkAbs {
  ab_add : forall x y, bad x \/ bad y -> bad (fadd x y);
  ab_sub : forall x y, bad x \/ bad y -> bad (fsub x y);
  ab_mul : forall x y, bad x \/ bad y -> bad (fmul x y);
  ab_div : forall x y, bad x \/ bad y -> bad (fdiv x y);
  ab_min : forall x y, bad x \/ bad y -> bad (fminimum x y);
  ab_max : forall x y, bad x \/ bad y -> bad (fmaximum x y);
  ab_neg : forall x, bad x -> bad (fneg x);
  ab_sqrt : forall x, bad x -> bad (fsqrt x);
  ab_exp : forall x, bad x -> bad (fexp x);
  ab_true : forall x, bad x -> ftrue x = true;
  ab_sum : forall l, Exists bad l -> bad (np_sum l);
  ab_dot : forall a b, Exists bad (map2 fmul a b) -> bad (np_dot a b);
  ab_sadd : forall x y, bad x \/ bad y -> bad (sadd x y);
  ab_smul : forall x y, bad x \/ bad y -> bad (smul x y);
  ab_sdiv : forall x y, bad x \/ bad y -> bad (sdiv x y);
  ab_ssum : forall l, Exists bad l -> bad (ssum l);
  ab_sdot : forall a b, Exists bad (map2 smul a b) -> bad (sdot a b)
}.

Lemma skipn_tail {X} i (l : list X) z q : skipn i l = z :: q -> skipn (S i) l = q.
Proof.
  revert l; induction i as [|i IH]; intros [|a l] H; try discriminate.
  - now inversion H.
  - exact (IH l H).
Qed.

Section Nan.
  Context {A : Arith} (bad : F A -> Prop) (HB : Absorbing bad).
  Notation vnan := (Exists bad).

  Lemma fold_bad (op : F A -> F A -> F A) : (forall x y, bad x \/ bad y -> bad (op x y)) ->
    forall l x, bad x \/ vnan l -> bad (fold_left op l x).
  Proof.
    intros Hop l. induction l as [|a l IH]; intros x [H|H]; simpl; auto; try (inversion H; fail).
    inversion H; subst; apply IH; auto.
  Qed.
  Lemma vmin_bad (l : vec A) : vnan l -> bad (vmin l).
  Proof.
    destruct l; [intros H; inversion H|]. intros H. cbn [vmin]. apply fold_bad; [apply HB|].
    inversion H; auto.
  Qed.
  Lemma vmax_bad (l : vec A) : vnan l -> bad (vmax l).
  Proof.
    destruct l; [intros H; inversion H|]. intros H. cbn [vmax]. apply fold_bad; [apply HB|].
    inversion H; auto.
  Qed.
  Lemma py_sum_bad (l : vec A) : vnan l -> bad (py_sum l).
  Proof. intros H. apply fold_bad; [apply HB|auto]. Qed.

  Lemma map2_bad (op : F A -> F A -> F A) : (forall x y, bad x \/ bad y -> bad (op x y)) ->
    forall a b, length a = length b -> vnan a \/ vnan b -> vnan (map2 op a b).
  Proof.
    intros Hop a. induction a as [|x a IH]; intros [|y b] L H; simpl in *; try lia.
    - destruct H as [H|H]; inversion H.
    - destruct H as [H|H]; inversion H; subst; auto.
  Qed.
  Lemma scal_bad c (a : vec A) : vnan a -> vnan (scal c a).
  Proof.
    intros H. unfold scal. apply Exists_exists in H as (x & Hx & Hb). apply Exists_exists.
    exists (fmul c x). split; [now apply in_map|]. apply HB; auto.
  Qed.
  Lemma sscal_bad c (a : vec A) : vnan a -> vnan (sscal c a).
  Proof.
    intros H. unfold sscal. apply Exists_exists in H as (x & Hx & Hb). apply Exists_exists.
    exists (smul c x). split; [now apply in_map|]. apply HB; auto.
  Qed.
  Lemma rmean_bad k (m x : vec A) : length m = length x -> vnan m \/ vnan x -> vnan (rmean k m x).
  Proof.
    intros L H. apply map2_bad; [apply HB|now rewrite length_scal, length_sscal|].
    destruct H; [left; now apply scal_bad|right; now apply sscal_bad].
  Qed.
  Lemma srmean_bad k (m x : vec A) : length m = length x -> vnan m \/ vnan x -> vnan (srmean k m x).
  Proof.
    intros L H. apply map2_bad; [apply HB|now rewrite !length_sscal|].
    destruct H; [left|right]; now apply sscal_bad.
  Qed.
  Lemma dot_bad (a b : vec A) : length a = length b -> vnan a \/ vnan b -> bad (np_dot a b).
  Proof. intros L H. apply HB, map2_bad; auto. apply HB. Qed.
  Lemma sdot_bad (a b : vec A) : length a = length b -> vnan a \/ vnan b -> bad (sdot a b).
  Proof. intros L H. apply HB, map2_bad; auto. apply HB. Qed.
  Lemma sq_bad (a : vec A) : vnan a -> vnan (map fsq a).
  Proof.
    intros H. apply Exists_exists in H as (x & Hx & Hb). apply Exists_exists.
    exists (fsq x). split; [now apply in_map|]. apply HB; auto.
  Qed.
  Lemma sqd_bad (a b : vec A) : length a = length b -> vnan a \/ vnan b -> bad (sqd a b).
  Proof. intros L H. apply HB, sq_bad, map2_bad; auto. apply HB. Qed.

  Lemma vnan_at (f : nat -> F A) k i : i < k -> bad (f i) -> vnan (map f (seq 0 k)).
  Proof. intros Hi H. apply Exists_exists. exists (f i). split; auto. apply in_map, in_seq. lia. Qed.
  Lemma triu_bad k e i j : i < j -> j < k -> bad (e i j) -> vnan (triu k e).
  Proof.
    intros H1 H2 H. apply Exists_exists. exists (e i j). split; auto. unfold triu.
    apply in_flat_map. exists i. split; [apply in_seq; lia|]. apply in_map, in_seq. lia.
  Qed.

  (** row and column [i0] of a square array are nan off the diagonal *)
  Definition cross (k i0 : nat) (m : mat A) : Prop :=
    forall j, j < k -> j <> i0 -> bad (entry m i0 j) /\ bad (entry m j i0).
  Lemma other k i0 : 1 < k -> exists j, j < k /\ j <> i0.
  Proof. intros H. destruct (Nat.eq_dec i0 0); [exists 1|exists 0]; lia. Qed.
  Lemma cross_triu k i0 m : 1 < k -> i0 < k -> cross k i0 m -> vnan (triu k (entry m)).
  Proof.
    intros Hk Hi H. destruct (other k i0 Hk) as (j & Hj & Hn). destruct (H j Hj Hn).
    destruct (Nat.lt_ge_cases i0 j); [apply (triu_bad k _ i0 j)|apply (triu_bad k _ j i0)]; auto; lia.
  Qed.
  Lemma cross_app_new k (e : nat -> nat -> F A) f : (forall j, j < k -> bad (f j)) -> cross (S k) k (D_app k e f).
  Proof.
    intros H j Hj Hn. unfold D_app. rewrite !entry_tab2 by lia. rewrite Nat.eqb_refl.
    destruct (Nat.eqb_spec j k); [lia|]. split; apply H; lia.
  Qed.
  Lemma cross_app_old k i0 (m : mat A) f : i0 < k -> cross k i0 m -> bad (f i0) ->
    cross (S k) i0 (D_app k (entry m) f).
  Proof.
    intros Hi H Hf j Hj Hn. unfold D_app. rewrite !entry_tab2 by lia.
    destruct (Nat.eqb_spec i0 k); [lia|]. destruct (Nat.eqb_spec j k); auto. apply H; lia.
  Qed.
  Lemma cross_set_self k i (e : nat -> nat -> F A) f : i < k -> (forall j, j < k -> j <> i -> bad (f j)) ->
    cross k i (D_set k i e f).
  Proof.
    intros Hi H j Hj Hn. unfold D_set. rewrite !entry_tab2 by lia. rewrite Nat.eqb_refl.
    destruct (Nat.eqb_spec j i); [lia|]. split; apply H; lia.
  Qed.
  Lemma cross_set_other k i i0 (m : mat A) f : i < k -> i0 < k -> i <> i0 -> cross k i0 m -> bad (f i0) ->
    cross k i0 (D_set k i (entry m) f).
  Proof.
    intros Hi Hi0 Hne H Hf j Hj Hn. unfold D_set. rewrite !entry_tab2 by lia.
    destruct (Nat.eqb_spec i0 i); [lia|]. destruct (Nat.eqb_spec j i) as [->|]; auto.
  Qed.
  (** the same for the array of cSIL *)
  Lemma scross_app_new k (e : nat -> nat -> F A) cl rw : (forall j, j < k -> bad (cl j) /\ bad (rw j)) ->
    cross (S k) k (S_app k e cl rw).
  Proof.
    intros H j Hj Hn. unfold S_app. rewrite !entry_tab2 by lia. rewrite Nat.eqb_refl.
    destruct (Nat.eqb_spec j k); [lia|]. apply H; lia.
  Qed.
  Lemma scross_app_old k i0 (m : mat A) cl rw : i0 < k -> cross k i0 m -> bad (cl i0) -> bad (rw i0) ->
    cross (S k) i0 (S_app k (entry m) cl rw).
  Proof.
    intros Hi H Hf Hr j Hj Hn. unfold S_app. rewrite !entry_tab2 by lia.
    destruct (Nat.eqb_spec i0 k); [lia|]. destruct (Nat.eqb_spec j k); auto. apply H; lia.
  Qed.
  Lemma scross_set_self k i (e : nat -> nat -> F A) cl rw z : i < k ->
    (forall j, j < k -> j <> i -> bad (cl j) /\ bad (rw j)) -> cross k i (S_set k i e cl rw z).
  Proof.
    intros Hi H j Hj Hn. unfold S_set. rewrite !entry_tab2 by lia. rewrite Nat.eqb_refl.
    destruct (Nat.eqb_spec j i); [lia|]. apply H; lia.
  Qed.
  Lemma scross_set_other k i i0 (m : mat A) cl rw z : i < k -> i0 < k -> i <> i0 -> cross k i0 m ->
    bad (cl i0) -> bad (rw i0) -> cross k i0 (S_set k i (entry m) cl rw z).
  Proof.
    intros Hi Hi0 Hne H Hf Hr j Hj Hn. unfold S_set. rewrite !entry_tab2 by lia.
    destruct (Nat.eqb_spec i0 i); [lia|]. destruct (Nat.eqb_spec j i) as [->|]; auto.
  Qed.

  (** what cluster [i0] looks like once one of its samples had a nan *)
  Definition Tainted (c : kind) (i0 : nat) (o : attrs A) : Prop :=
    let k := n_clusters o in
    i0 < k /\ vnan (vrow o i0) /\
    match c with
    | kCH | kWB => vnan (mu o)
    | kDB | kXB | kGD43 | krCIP => cross k i0 (D o)
    | kGD53 => 2 <= nn o i0 -> bad (cpi o i0) /\ cross k i0 (D o)
    | kPS => True
    | kcSIL => vnan (grow_ o i0) /\ bad (cpi o i0) /\ cross k i0 (S2 o)
    end.

  (** ** The value *)
  Lemma sep_bad d (o : attrs A) : ShapeG d o -> 0 < n_clusters o -> vnan (mu o) -> bad (py_sum (sep_of o)).
  Proof.
    intros HS Hk Hm. apply py_sum_bad. unfold sep_of. apply (vnan_at _ _ 0); auto.
    apply HB. right. apply py_sum_bad, sq_bad, map2_bad; auto; [apply HB|].
    destruct HS. unfold vrow. rewrite (wfm_row _ _ _ _ sg_v) by auto. auto.
  Qed.
  Lemma CH_bad (o : attrs A) : bad (py_sum (SEP o)) -> bad (CH_val o).
  Proof. intros H. apply HB. left. apply HB. now left. Qed.
  Lemma WB_bad (o : attrs A) : bad (py_sum (SEP o)) -> bad (WB_val o).
  Proof. intros H. apply HB. left. apply HB. now right. Qed.
  Lemma DB_bad (o : attrs A) i0 : 1 < n_clusters o -> i0 < n_clusters o -> cross (n_clusters o) i0 (D o) -> bad (DB_val o).
  Proof.
    intros Hk Hi HT. unfold DB_val. apply HB. left. apply HB. apply (vnan_at _ _ i0); auto. apply vmax_bad.
    destruct (other _ i0 Hk) as (j & Hj & Hn). destruct (HT j Hj Hn).
    apply (vnan_at _ _ j); auto. apply HB. unfold DB_low.
    destruct (Nat.ltb_spec i0 j); [left; apply HB; auto|].
    destruct (Nat.ltb_spec j i0); [right; apply HB; auto|lia].
  Qed.
  Lemma XB_bad (o : attrs A) i0 : 1 < n_clusters o -> i0 < n_clusters o -> cross (n_clusters o) i0 (D o) -> bad (XB_val o).
  Proof. intros. apply HB. right. apply HB. right. apply vmin_bad. now apply (cross_triu _ i0). Qed.
  Lemma GD_bad (o : attrs A) i0 : 1 < n_clusters o -> i0 < n_clusters o -> cross (n_clusters o) i0 (D o) -> bad (GD_val o).
  Proof. intros. apply HB. left. apply vmin_bad. now apply (cross_triu _ i0). Qed.
  Lemma rCIP_bad (o : attrs A) i0 : 1 < n_clusters o -> i0 < n_clusters o -> cross (n_clusters o) i0 (D o) -> bad (rCIP_val o).
  Proof. intros. apply HB. now apply (cross_triu _ i0). Qed.
  Lemma PS_bad d (o : attrs A) i0 : i0 < n_clusters o -> wfm (n_clusters o) d (v o) -> vnan (vrow o i0) -> bad (PS_val o).
  Proof.
    intros Hi HW Hv. unfold PS_val. apply HB. apply (vnan_at _ _ i0); auto.
    assert (Lm : length (mean0 (v o)) = d) by (rewrite mean0_length; apply HW).
    apply HB. right. apply HB. apply HB. right. unfold PS_bt. apply HB. left.
    apply py_sum_bad. apply (vnan_at _ _ i0); auto. apply dot_bad; auto. left. apply map2_bad; [apply HB| |auto].
    unfold vrow. rewrite (wfm_row _ _ _ _ HW) by auto. auto.
  Qed.
  Lemma cSIL_bad (o : attrs A) i0 j : i0 < n_clusters o -> wfm (n_clusters o) (n_clusters o) (S2 o) ->
    j < n_clusters o -> j <> i0 -> bad (entry (S2 o) j i0) -> bad (cSIL_val o).
  Proof.
    intros Hi HW Hj Hn H2. unfold cSIL_val. destruct HW as (W1 & W2 & W3).
    assert (Ha : np_any (S2 o) = true).
    { unfold np_any. apply existsb_exists. exists (nth j (mrows (S2 o)) []). split; [apply nth_In; lia|].
      apply existsb_exists. exists (entry (S2 o) j i0). split; [|now apply HB].
      unfold entry. apply nth_In. rewrite (wfm_row (n_clusters o) (n_clusters o)); auto. repeat split; auto. }
    rewrite Ha. apply HB. left. apply HB. apply (vnan_at _ _ i0); auto. apply HB. left. apply HB. left.
    apply vmin_bad. apply Exists_exists. exists (entry (S2 o) j i0). split; auto.
    assert (E : entry (S2 o) j i0 = nth j (col (S2 o) i0) f0).
    { unfold col, entry. symmetry.
      etransitivity; [apply nth_indep with (d' := nth i0 [] f0); rewrite map_length; lia|].
      exact (map_nth (fun r => nth i0 r f0) (mrows (S2 o)) [] j). }
    assert (Lc : length (col (S2 o) i0) = n_clusters o) by (unfold col; rewrite map_length; lia).
    rewrite E. unfold remove_nth. apply in_app_iff.
    rewrite <- (firstn_skipn i0 (col (S2 o) i0)) at 1 3.
    destruct (Nat.lt_ge_cases j i0) as [Hlt|Hge].
    - left. rewrite app_nth1 by (rewrite firstn_length; lia). apply nth_In. rewrite firstn_length; lia.
    - right. rewrite app_nth2 by (rewrite firstn_length; lia). rewrite firstn_length.
      replace (Nat.min i0 (length (col (S2 o) i0))) with i0 by lia.
      destruct (skipn i0 (col (S2 o) i0)) as [|z q] eqn:Eq.
      { apply (f_equal (@length _)) in Eq. rewrite skipn_length in Eq. simpl in Eq. lia. }
      replace (skipn (S i0) (col (S2 o) i0)) with q by (symmetry; eapply skipn_tail; eauto).
      destruct (j - i0) as [|m] eqn:Em; [lia|]. cbn [nth]. apply nth_In.
      apply (f_equal (@length _)) in Eq. rewrite skipn_length in Eq. simpl in Eq. lia.
  Qed.
  Lemma value_bad c d (o : attrs A) i0 : Shape c d o -> 1 < n_clusters o -> Tainted c i0 o ->
    (c = kCH \/ c = kWB -> SEP o = sep_of o) -> (c = kGD53 -> 2 <= nn o i0) -> bad (val_of c o).
  Proof.
    intros HS Hk (Hi & Hv & HT) Hsep H53. unfold val_of. destruct (Nat.leb_spec (n_clusters o) 1); [lia|].
    destruct c; cbn [Shape] in HS; cbv beta iota in HT.
    - apply CH_bad. rewrite Hsep by auto. eapply sep_bad; eauto; lia.
    - apply WB_bad. rewrite Hsep by auto. eapply sep_bad; eauto; lia.
    - now apply (DB_bad o i0).
    - now apply (XB_bad o i0).
    - now apply (GD_bad o i0).
    - apply (GD_bad o i0); auto. now apply HT, H53.
    - apply (PS_bad d o i0); auto. apply HS.
    - now apply (rCIP_bad o i0).
    - destruct HT as (_ & _ & HT). destruct (other _ i0 Hk) as (j & Hj & Hn). destruct (HT j Hj Hn) as [H1 H2].
      apply (cSIL_bad o i0 j); auto. apply HS.
  Qed.

  (** ** rCIP when no inversion raises *)
  Lemma rCIP_term_bad d k (o : attrs A) vn sn j g : wfm k d (v o) -> length vn = d -> j < k ->
    vnan vn \/ vnan (vrow o j) -> rCIP_term o vn sn j = Ok g -> bad g.
  Proof.
    intros Hv Lv Hj Hn. unfold rCIP_term. rewrite (row_ok _ _ _ _ Hv Hj). cbn [bindE].
    assert (Lj := wfm_row _ _ _ _ Hv Hj). rewrite vsub_ok by lia. cbn [bindE].
    destruct (get_item (sigma o) j) as [sj|]; [|discriminate]. cbn [bindE].
    destruct (madd sn sj) as [q|]; [|discriminate]. cbn [bindE].
    unfold rCIP_potential. destruct (linalg_inv q) as [W|]; [|discriminate]. cbn [bindE].
    destruct (vecmat _ W) as [t|]; [|discriminate]. cbn [bindE]. unfold inner.
    destruct (Nat.eqb_spec (length t) (length (map2 fsub vn (nth j (mrows (v o)) [])))) as [L|]; [|discriminate].
    cbn [bindE]. intros E. inversion E. apply HB. right. apply HB. apply dot_bad; auto. right.
    apply map2_bad; auto; [apply HB|lia].
  Qed.

  Lemma rCIP_new_ok d x (o o' : attrs A) : o = init_attrs \/ ShapeR d o -> length x = d ->
    rCIP_param_inc x (n_clusters o) o = (o', Ok tt) -> exists g,
    ShapeR d o' /\ Common d x o o' /\ CommonNew d x o o' /\ D o' = D_app (n_clusters o) (entry (D o)) g /\
    (forall j, j < n_clusters o -> rCIP_term (rc o d) x (rCIP_delta_term d) j = Ok (g j)).
  Proof.
    intros Hs Hx E0.
    assert (exists g, Common d x o o' /\ CommonNew d x o o' /\ D o' = D_app (n_clusters o) (entry (D o)) g /\
             sigma o' = sigma o ++ [rCIP_delta_term d] /\ delta_term o' = rCIP_delta_term d /\
             (forall j, j < n_clusters o -> rCIP_term (rc o d) x (rCIP_delta_term d) j = Ok (g j)))
      as (g & C & N & HD & Hsg & Hdl & Hg).
    { destruct Hs as [->|HS].
      - destruct (Nat.eq_dec d 0) as [Hd|Hd].
        { destruct x; [|simpl in Hx; lia]. discriminate E0. }
        destruct (rCIP_first d x Hx Hd) as (o1 & E & C & N & HD & Hsg & Hdl).
        change (n_clusters init_attrs) with 0 in E0. rewrite E in E0. inversion E0; subst o1.
        exists (fun _ => f0). split; auto. split; auto. split; [rewrite HD; reflexivity|].
        split; auto. split; auto. intros j Hj. simpl in Hj. lia.
      - destruct (table (fun j g => rCIP_term (rc o d) x (rCIP_delta_term d) j = Ok g) (n_clusters o) f0) as [g Hg].
        { intros j Hj. destruct (rCIP_term (rc o d) x (rCIP_delta_term d) j) as [g|e] eqn:Et; [eauto|].
          destruct (rCIP_new_raise d x o HS Hx) as [e' E']; [eauto|]. congruence. }
        destruct (rCIP_new d x o g HS Hx Hg) as (o1 & E & C & N & HD & Hsg & Hdl).
        rewrite E in E0. inversion E0; subst o1. exists g. repeat (split; auto). rewrite Hdl. apply HS. }
    exists g. split; auto. destruct N as [N1 N2 N3], C as [C1 C2 C3 C4 C5].
    assert (HH : length (n o) = n_clusters o /\ length (mrows (v o)) = n_clusters o /\
                 Forall (fun r => length r = d) (mrows (v o)) /\ Forall (fun m => m <> 0) (n o) /\
                 length (sigma o) = n_clusters o /\ Forall (wfm d d) (sigma o)).
    { destruct Hs as [->|[H1 H2 H3 H4 (V1 & V2 & V3) H6 H7 H8 H9 Hp Hna]].
      - simpl; repeat split; auto; constructor.
      - repeat split; auto. }
    destruct HH as (L1 & L2 & L3 & L4 & L5 & L6).
    constructor; auto; try lia.
    + rewrite N2, app_length, N1. simpl. lia.
    + rewrite N3, N1. repeat split; cbn [mrows mcols]; [rewrite app_length; simpl; lia|]. apply Forall_app; auto.
    + rewrite HD, N1, Nat.add_1_r. apply wfm_tab2.
    + rewrite Hsg, app_length, N1. simpl. lia.
    + rewrite Hsg. apply Forall_app. split; auto. constructor; auto using wfm_delta.
    + rewrite N2. apply Forall_app. split; auto.
  Qed.

  Lemma rCIP_old_ok d x i (o o' : attrs A) : ShapeR d o -> length x = d -> i < n_clusters o ->
    rCIP_param_inc x i o = (o', Ok tt) -> exists g,
    ShapeR d o' /\ Common d x o o' /\ CommonOld d x i o o' /\ D o' = D_set (n_clusters o) i (entry (D o)) g /\
    (forall j, j < n_clusters o -> j <> i ->
       rCIP_term (rc o d) (v_upd (nn o i) (vrow o i) x) (sigma_upd d (nn o i) (vrow o i) (sig o i) x) j = Ok (g j)).
  Proof.
    intros Hs Hx Hi E0.
    destruct (table (fun j g => j <> i -> rCIP_term (rc o d) (v_upd (nn o i) (vrow o i) x)
                (sigma_upd d (nn o i) (vrow o i) (sig o i) x) j = Ok g) (n_clusters o) f0) as [g Hg].
    { intros j Hj. destruct (Nat.eq_dec j i) as [->|Hn]; [exists f0; congruence|].
      destruct (rCIP_term (rc o d) (v_upd (nn o i) (vrow o i) x)
                (sigma_upd d (nn o i) (vrow o i) (sig o i) x) j) as [g|e] eqn:Et; [eauto|].
      destruct (rCIP_old_raise d x i o Hs Hx Hi) as [e' E']; [eauto 6|]. congruence. }
    destruct (rCIP_old d x i o g Hs Hx Hi Hg) as (o1 & E & C & N & HD & Hsg & Hdl).
    rewrite E in E0. inversion E0; subst o1. exists g. split; auto.
    destruct N as [N1 N2 N3], C as [C1 C2 C3 C4 C5].
    destruct Hs as [H1 H2 H3 H4 H5 H6 H7 H8 H9 Hp Hna].
    pose proof (wfm_row _ _ _ _ H5 Hi) as Lv.
    constructor; auto; try lia.
    + rewrite N2, N1, length_upd. auto.
    + rewrite N3, N1. apply wfm_upd; auto. unfold v_upd, vrow; rewrite rmean_length; lia.
    + rewrite HD, N1. apply wfm_tab2.
    + rewrite Hsg, length_upd, N1. auto.
    + rewrite Hsg. apply Forall_upd; auto. apply wfm_tab2.
    + congruence.
    + rewrite N2. apply Forall_upd; auto. lia.
  Qed.

  (** ** One call *)
  Lemma new_rows d x (o o' : attrs A) : length (mrows (v o)) = n_clusters o -> CommonNew d x o o' ->
    vrow o' (n_clusters o) = x /\ (forall i, i < n_clusters o -> vrow o' i = vrow o i).
  Proof.
    intros L [N1 N2 N3]. unfold vrow. rewrite N3. cbn [mrows]. split.
    - rewrite app_nth2 by lia. now rewrite L, Nat.sub_diag.
    - intros i Hi. rewrite app_nth1 by lia. reflexivity.
  Qed.
  Lemma old_rows d x i (o o' : attrs A) : length (mrows (v o)) = n_clusters o -> i < n_clusters o ->
    CommonOld d x i o o' ->
    vrow o' i = v_upd (nn o i) (vrow o i) x /\ (forall j, j <> i -> vrow o' j = vrow o j).
  Proof.
    intros L Hi [N1 N2 N3]. unfold vrow at 1 3. rewrite N3. cbn [mrows]. split.
    - rewrite nth_upd by lia. now rewrite Nat.eqb_refl.
    - intros j Hj. rewrite nth_upd by lia. destruct (Nat.eqb_spec j i); [lia|reflexivity].
  Qed.
  Lemma mu_bad d x (o : attrs A) : (n_samples o <> 0 -> length (mu o) = d) -> length x = d ->
    vnan x \/ (n_samples o <> 0 /\ vnan (mu o)) -> vnan (mu_upd x o).
  Proof.
    intros L Hx H. unfold mu_upd. destruct (Nat.eqb_spec (n_samples o) 0) as [E|E].
    - destruct H as [H|[H _]]; [auto|lia].
    - apply srmean_bad; [rewrite L; auto|]. destruct H as [H|[_ H]]; auto.
  Qed.

  Lemma tainted_new c d x (o o' : attrs A) : o = init_attrs \/ Shape c d o -> length x = d ->
    param_inc c x (n_clusters o) o = (o', Ok tt) ->
    Shape c d o' /\ CommonNew d x o o' /\ (c = kCH \/ c = kWB -> SEP o' = sep_of o') /\
    (vnan x -> Tainted c (n_clusters o) o') /\
    (forall i0, Tainted c i0 o -> Tainted c i0 o').
  Proof.
    intros Hs Hx E0.
    assert (HS' : c <> krCIP -> Shape c d o' /\ CommonNew d x o o').
    { intros Hc. destruct (shape_new c d x o Hs Hx) as (o1 & E1 & H1 & _ & H2); [intros Hq; contradiction|].
      rewrite E1 in E0. inversion E0; subst. auto. }
    assert (Lv : length (mrows (v o)) = n_clusters o).
    { destruct Hs as [->|Hs]; [reflexivity|]. destruct (Shape_init _ _ _ Hs) as (_ & _ & (_ & H & _) & _). auto. }
    assert (Lr : forall i, i < n_clusters o -> length (vrow o i) = d).
    { intros i Hi. destruct Hs as [->|Hs]; [simpl in Hi; lia|].
      destruct (Shape_init _ _ _ Hs) as (_ & _ & H & _). now apply (wfm_row (n_clusters o)). }
    assert (HT : forall P : nat -> attrs A -> Prop, CommonNew d x o o' ->
       (vnan x -> P (n_clusters o) o') ->
       (forall i0, i0 < n_clusters o -> vnan (vrow o i0) -> P i0 o -> P i0 o') ->
       (vnan x -> n_clusters o < n_clusters o' /\ vnan (vrow o' (n_clusters o)) /\ P (n_clusters o) o') /\
       (forall i0, i0 < n_clusters o /\ vnan (vrow o i0) /\ P i0 o -> i0 < n_clusters o' /\ vnan (vrow o' i0) /\ P i0 o')).
    { intros P HN H1 H2. destruct (new_rows d x o o' Lv HN) as [R1 R2]. destruct HN as [N1 _ _]. rewrite N1. split.
      - intros Hn. rewrite R1. repeat split; auto. lia.
      - intros i0 (Hi & Hv & HP). rewrite R2 by auto. repeat split; auto. lia. }
    assert (HM : mu o' = mu_upd x o -> (n_samples o <> 0 -> length (mu o) = d) ->
       (vnan x -> vnan (mu o')) /\ (0 < n_clusters o -> vnan (mu o) -> vnan (mu o'))).
    { intros -> L. split; intros; apply (mu_bad d); auto. right. split; auto.
      destruct Hs as [->|Hs]; [simpl in *; lia|]. destruct (Shape_init _ _ _ Hs). lia. }
    assert (HD : forall f, CommonNew d x o o' -> D o' = D_app (n_clusters o) (entry (D o)) f ->
       (forall j, j < n_clusters o -> vnan x \/ vnan (vrow o j) -> bad (f j)) ->
       (vnan x -> cross (n_clusters o') (n_clusters o) (D o')) /\
       (forall i0, i0 < n_clusters o -> vnan (vrow o i0) -> cross (n_clusters o) i0 (D o) -> cross (n_clusters o') i0 (D o'))).
    { intros f [N1 _ _] -> Hf. rewrite N1, Nat.add_1_r. split.
      - intros Hn. apply cross_app_new. auto.
      - intros i0 Hi Hv Hc. apply cross_app_old; auto. }
    destruct c; cbn [Shape param_inc] in *;
      try (destruct HS' as [HS' HN]; [discriminate|]; split; [exact HS'|]; split; [exact HN|]).
    - destruct (CH_new d x o Hs Hx) as (o1 & E & C & N & Gn & Mu & Sp).
      rewrite E in E0; inversion E0; subst o1. split; auto.
      destruct (HM Mu) as [M1 M2]; [destruct Hs as [->|[]]; auto; simpl; lia|].
      apply (HT (fun _ o => vnan (mu o))); auto. intros. apply M2; auto. lia.
    - destruct (WB_new d x o Hs Hx) as (o1 & E & C & N & Gn & Mu & Sp).
      rewrite E in E0; inversion E0; subst o1. split; auto.
      destruct (HM Mu) as [M1 M2]; [destruct Hs as [->|[]]; auto; simpl; lia|].
      apply (HT (fun _ o => vnan (mu o))); auto. intros. apply M2; auto. lia.
    - destruct (DB_new d x o Hs Hx) as (o1 & E & C & N & Gn & Mu & ED & _).
      rewrite E in E0; inversion E0; subst o1. split; [intros [|]; discriminate|].
      destruct (HD _ N ED) as [D1 D2]; [intros j Hj Hn; apply sqd_bad; auto; rewrite Lr; auto|].
      apply (HT (fun i o => cross (n_clusters o) i (D o))); auto.
    - destruct (XB_new d x o Hs Hx) as (o1 & E & C & N & Gn & Mu & ED).
      rewrite E in E0; inversion E0; subst o1. split; [intros [|]; discriminate|].
      destruct (HD _ N ED) as [D1 D2]; [intros j Hj Hn; apply sqd_bad; auto; rewrite Lr; auto|].
      apply (HT (fun i o => cross (n_clusters o) i (D o))); auto.
    - destruct (GD43_new d x o Hs Hx) as (o1 & E & C & N & Gn & Mu & ED).
      rewrite E in E0; inversion E0; subst o1. split; [intros [|]; discriminate|].
      destruct (HD _ N ED) as [D1 D2]; [intros j Hj Hn; apply HB, sqd_bad; auto; rewrite Lr; auto|].
      apply (HT (fun i o => cross (n_clusters o) i (D o))); auto.
    - destruct (GD53_new d x o Hs Hx) as (o1 & E & C & N & Gn & Mu & ED).
      rewrite E in E0; inversion E0; subst o1. split; [intros [|]; discriminate|].
      assert (Ln : length (n o) = n_clusters o /\ length (CP o) = n_clusters o)
        by (destruct Hs as [->|[[] _]]; auto). destruct Ln as [Ln Lc].
      destruct N as [N1 N2 N3], Gn as [G1 _].
      apply (HT (fun i o => 2 <= nn o i -> bad (cpi o i) /\ cross (n_clusters o) i (D o))); auto; unfold nn, cpi; rewrite N2, G1.
      + intros _. rewrite app_nth2, Ln, Nat.sub_diag by lia. simpl. lia.
      + intros i0 Hi _. rewrite !app_nth1 by lia. intros Hq H2. destruct (Hq H2) as [H3 H4].
        split; auto. rewrite N1, ED, Nat.add_1_r. apply cross_app_old; auto.
        unfold GD53t. apply HB. left. apply HB. right. exact H3.
    - split; [intros [|]; discriminate|].
      apply (HT (fun _ _ => True)); auto.
    - destruct (rCIP_new_ok d x o o' Hs Hx E0) as (g & HS & C & N & ED & Hg).
      split; auto. split; auto. split; [intros [|]; discriminate|].
      destruct (HD _ N ED) as [D1 D2].
      + intros j Hj Hn. destruct Hs as [->|Hs]; [simpl in Hj; lia|].
        eapply (rCIP_term_bad d (n_clusters o) (rc o d)); [apply Hs|exact Hx|exact Hj|exact Hn|now apply Hg].
      + apply (HT (fun i o => cross (n_clusters o) i (D o))); auto.
    - destruct (cSIL_new d x o Hs Hx) as (o1 & E & C & N & EC & EG & ES).
      rewrite E in E0; inversion E0; subst o1. split; [intros [|]; discriminate|].
      assert (Ln : length (mrows (G o)) = n_clusters o /\ length (CP o) = n_clusters o).
      { destruct Hs as [->|[]]; auto. split; auto. apply ss_G. }
      destruct Ln as [Lg Lc].
      apply (HT (fun i o => vnan (grow_ o i) /\ bad (cpi o i) /\ cross (n_clusters o) i (S2 o))); auto;
        unfold grow_, cpi; rewrite EG, EC, ES, (cn_k _ _ _ _ N), Nat.add_1_r; cbn [mrows].
      + intros Hn. rewrite !app_nth2, Lg, Lc, Nat.sub_diag by lia. cbn [nth]. split; auto. split.
        * apply sdot_bad; auto.
        * apply scross_app_new. intros j Hj.
          assert (HGj : length (grow_ o j) = d).
          { destruct Hs as [->|[]]; [simpl in Hj; lia|]. now apply (wfm_row (n_clusters o)). }
          split.
          -- apply HB. left. apply HB. left. apply sdot_bad; auto.
          -- apply HB. left. apply HB. right. apply HB. right. apply dot_bad; auto. congruence.
      + intros i0 Hi Hv (Hg & Hc & Hcr). rewrite !app_nth1 by lia. split; auto. split; auto.
        assert (HGj : length (grow_ o i0) = d).
        { destruct Hs as [->|[]]; [simpl in Hi; lia|]. now apply (wfm_row (n_clusters o)). }
        apply scross_app_old; auto.
        * apply HB. left. apply HB. right. apply dot_bad; auto.
        * apply HB. left. apply HB. left. apply HB. left. exact Hc.
  Qed.

  Lemma tainted_old c d x i (o o' : attrs A) : Shape c d o -> length x = d -> i < n_clusters o ->
    param_inc c x i o = (o', Ok tt) ->
    Shape c d o' /\ CommonOld d x i o o' /\ (c = kCH \/ c = kWB -> SEP o' = sep_of o') /\
    (vnan x -> Tainted c i o') /\
    (forall i0, Tainted c i0 o -> Tainted c i0 o').
  Proof.
    intros Hs Hx Hi E0.
    assert (HS' : c <> krCIP -> Shape c d o' /\ CommonOld d x i o o').
    { intros Hc. destruct (shape_old c d x i o Hs Hx Hi) as (o1 & E1 & H1 & _ & H2); [intros Hq; contradiction|].
      rewrite E1 in E0. inversion E0; subst. auto. }
    destruct (Shape_init _ _ _ Hs) as (Hns & Ln & Hv & _).
    assert (Lv : length (mrows (v o)) = n_clusters o) by apply Hv.
    assert (Lr : forall i, i < n_clusters o -> length (vrow o i) = d).
    { intros j Hj. now apply (wfm_row (n_clusters o)). }
    set (vn := v_upd (nn o i) (vrow o i) x).
    assert (Lvn : length vn = d) by (unfold vn, v_upd; rewrite rmean_length; rewrite ?Lr; auto).
    assert (Hvn : vnan x \/ vnan (vrow o i) -> vnan vn).
    { intros H. apply rmean_bad; [rewrite Lr; auto|]. tauto. }
    (* a statement about one cluster: [i] has just been hit by a nan or was tainted, or another one was tainted *)
    assert (HT : forall P : nat -> attrs A -> Prop, CommonOld d x i o o' ->
       (vnan x \/ (vnan (vrow o i) /\ P i o) -> P i o') ->
       (forall i0, i0 < n_clusters o -> i0 <> i -> vnan (vrow o i0) -> P i0 o -> P i0 o') ->
       (vnan x -> i < n_clusters o' /\ vnan (vrow o' i) /\ P i o') /\
       (forall i0, i0 < n_clusters o /\ vnan (vrow o i0) /\ P i0 o -> i0 < n_clusters o' /\ vnan (vrow o' i0) /\ P i0 o')).
    { intros P HN H1 H2. destruct (old_rows d x i o o' Lv Hi HN) as [R1 R2]. destruct HN as [N1 _ _]. rewrite N1. split.
      - intros Hn. rewrite R1. repeat split; auto.
      - intros i0 (Hi0 & Hv0 & HP). destruct (Nat.eq_dec i0 i) as [->|Hne].
        + rewrite R1. repeat split; auto.
        + rewrite R2 by auto. repeat split; auto. }
    assert (HM : mu o' = mu_upd x o -> length (mu o) = d -> vnan x \/ vnan (mu o) -> vnan (mu o')).
    { intros -> L H. apply (mu_bad d); auto. destruct H; auto. right. split; auto. lia. }
    assert (HD : forall f, CommonOld d x i o o' -> D o' = D_set (n_clusters o) i (entry (D o)) f ->
       (forall j, j < n_clusters o -> j <> i -> vnan vn \/ vnan (vrow o j) -> bad (f j)) ->
       (vnan x \/ (vnan (vrow o i) /\ cross (n_clusters o) i (D o)) -> cross (n_clusters o') i (D o')) /\
       (forall i0, i0 < n_clusters o -> i0 <> i -> vnan (vrow o i0) -> cross (n_clusters o) i0 (D o) -> cross (n_clusters o') i0 (D o'))).
    { intros f [N1 _ _] -> Hf. rewrite N1. split.
      - intros Hn. apply cross_set_self; auto. intros j Hj Hne. apply Hf; auto. left. apply Hvn. tauto.
      - intros i0 Hi0 Hne Hv0 Hc. apply cross_set_other; auto. }
    destruct c; cbn [Shape param_inc] in *;
      try (destruct HS' as [HS' HN]; [discriminate|]; split; [exact HS'|]; split; [exact HN|]).
    - destruct (CH_old d x i o Hs Hx Hi) as (o1 & E & C & N & Gn & Mu & Sp).
      rewrite E in E0; inversion E0; subst o1. split; auto.
      apply (HT (fun _ o => vnan (mu o))); auto; intros; apply HM; try apply Hs; tauto.
    - destruct (WB_old d x i o Hs Hx Hi) as (o1 & E & C & N & Gn & Mu & Sp).
      rewrite E in E0; inversion E0; subst o1. split; auto.
      apply (HT (fun _ o => vnan (mu o))); auto; intros; apply HM; try apply Hs; tauto.
    - destruct (DB_old d x i o Hs Hx Hi) as (o1 & E & C & N & Gn & Mu & ED & _).
      rewrite E in E0; inversion E0; subst o1. split; [intros [|]; discriminate|].
      destruct (HD _ N ED) as [D1 D2]; [intros j Hj Hne Hn; apply sqd_bad; auto; fold vn; rewrite Lr; auto|].
      apply (HT (fun i o => cross (n_clusters o) i (D o))); auto.
    - destruct (XB_old d x i o Hs Hx Hi) as (o1 & E & C & N & Gn & Mu & ED).
      rewrite E in E0; inversion E0; subst o1. split; [intros [|]; discriminate|].
      destruct (HD _ N ED) as [D1 D2]; [intros j Hj Hne Hn; apply sqd_bad; auto; fold vn; rewrite Lr; auto|].
      apply (HT (fun i o => cross (n_clusters o) i (D o))); auto.
    - destruct (GD43_old d x i o Hs Hx Hi) as (o1 & E & C & N & Gn & Mu & ED).
      rewrite E in E0; inversion E0; subst o1. split; [intros [|]; discriminate|].
      destruct (HD _ N ED) as [D1 D2]; [intros j Hj Hne Hn; apply HB, sqd_bad; auto; fold vn; rewrite Lr; auto|].
      apply (HT (fun i o => cross (n_clusters o) i (D o))); auto.
    - destruct (GD53_old d x i o Hs Hx Hi) as (o1 & E & C & N & Gn & Mu & ED).
      rewrite E in E0; inversion E0; subst o1. split; [intros [|]; discriminate|].
      destruct Hs as [[] _]. destruct N as [N1 N2 N3], Gn as [G1 _].
      set (cpn := cp_upd (nn o i) (vrow o i) (cpi o i) (grow_ o i) x) in *.
      assert (Hcp : vnan vn \/ vnan x -> bad cpn).
      { intros H. unfold cpn, cp_upd. fold vn. apply HB. left. apply HB. left. apply HB. right.
        apply dot_bad; auto. left. apply map2_bad; [apply HB|congruence|tauto]. }
      apply (HT (fun i o => 2 <= nn o i -> bad (cpi o i) /\ cross (n_clusters o) i (D o))); auto.
      + intros Hn _. assert (Hb : bad cpn) by (apply Hcp; left; apply Hvn; tauto).
        unfold cpi at 1. rewrite G1, nth_upd, Nat.eqb_refl by lia. split; auto.
        rewrite N1, ED. apply cross_set_self; auto. intros j Hj Hne. apply HB. left. apply HB. now left.
      + intros i0 Hi0 Hne Hv0 Hq H2. assert (H3 : 2 <= nn o i0).
        { unfold nn in H2. rewrite N2, nth_upd in H2 by lia. destruct (Nat.eqb_spec i0 i); [lia|exact H2]. }
        destruct (Hq H3) as [Hb Hc]. unfold cpi at 1. rewrite G1, nth_upd by lia.
        destruct (Nat.eqb_spec i0 i); [lia|]. split; [exact Hb|].
        rewrite N1, ED. apply cross_set_other; auto. apply HB. left. apply HB. now right.
    - split; [intros [|]; discriminate|].
      apply (HT (fun _ _ => True)); auto.
    - destruct (rCIP_old_ok d x i o o' Hs Hx Hi E0) as (g & HS & C & N & ED & Hg).
      split; auto. split; auto. split; [intros [|]; discriminate|].
      destruct (HD _ N ED) as [D1 D2].
      + intros j Hj Hne Hn.
        eapply (rCIP_term_bad d (n_clusters o) (rc o d)); [apply Hs|exact Lvn|exact Hj|exact Hn|now apply Hg].
      + apply (HT (fun i o => cross (n_clusters o) i (D o))); auto.
    - destruct (cSIL_old d x i o Hs Hx Hi) as (o1 & E & C & N & EC & EG & ES).
      rewrite E in E0; inversion E0; subst o1. split; [intros [|]; discriminate|].
      destruct Hs. assert (Lg : length (mrows (G o)) = n_clusters o) by apply ss_G.
      assert (HG : forall j, j < n_clusters o -> length (grow_ o j) = d)
        by (intros; now apply (wfm_row (n_clusters o))).
      apply (HT (fun i o => vnan (grow_ o i) /\ bad (cpi o i) /\ cross (n_clusters o) i (S2 o))); auto;
        unfold grow_ at 1 2 || unfold grow_ at 1.
      + intros Hn.
        assert (Hn' : vnan x \/ vnan (vrow o i)) by tauto. specialize (Hvn Hn').
        rewrite EG. cbn [mrows]. rewrite nth_upd, Nat.eqb_refl by lia.
        split; [apply map2_bad; [apply HB|rewrite HG; auto|destruct Hn as [|(_ & ? & _)]; auto]|].
        unfold cpi at 1. rewrite EC, nth_upd, Nat.eqb_refl by lia. split.
        * apply HB. destruct Hn as [Hn|(_ & _ & Hn & _)]; auto. right. apply sdot_bad; auto.
        * rewrite (co_k _ _ _ _ _ N), ES. apply scross_set_self; auto. intros j Hj Hne. split.
          -- apply HB. left. apply HB. left. apply HB. left. apply HB.
             destruct Hn as [Hn|(_ & _ & Hn & _)]; auto. right. apply dot_bad; auto. left.
             apply map2_bad; [apply HB|rewrite Lr; auto|auto].
          -- apply HB. left. apply HB. right. apply HB. right. apply dot_bad; auto. fold vn. rewrite HG; auto.
      + intros i0 Hi0 Hne Hv0 (Hg & Hc & Hcr).
        rewrite EG. cbn [mrows]. rewrite nth_upd by lia. destruct (Nat.eqb_spec i0 i); [lia|].
        split; [exact Hg|]. unfold cpi at 1. rewrite EC, nth_upd by lia. destruct (Nat.eqb_spec i0 i); [lia|].
        split; [exact Hc|]. rewrite (co_k _ _ _ _ _ N), ES. apply scross_set_other; auto.
        * apply HB. left. apply HB. left. apply HB. left. apply HB. right. apply dot_bad; auto. left.
          apply map2_bad; [apply HB|rewrite Lr; auto|auto].
        * apply HB. left. apply HB. left. apply HB. left. exact Hc.
  Qed.

  (** ** Streams *)
  Definition has_nan (xs : list (vec A)) : Prop := Exists vnan xs.
  (** every call so far returned *)
  Definition Good (c : kind) (d : nat) (s : list (vec A * Z)) (a : attrs A) : Prop :=
    ((s = [] /\ a = init_attrs) \/ (s <> [] /\ Shape c d a)) /\
    n_clusters a = length (firsts s) /\
    (forall l, In l (firsts s) -> nn a (index l (firsts s)) = length (grp s l)) /\
    (forall l, has_nan (grp s l) -> Tainted c (index l (firsts s)) a).

  Lemma tainted_frame c i (o o' : attrs A) : Frame o o' -> Tainted c i o -> Tainted c i o'.
  Proof.
    intros [F1 F2 F3 F4 F5 F6 F7 F8 F9 F10 F11 F12 F13 F14 F15 F16 F17]. unfold Tainted, vrow, grow_, cpi, nn.
    destruct c; rewrite ?F3, ?F4, ?F5, ?F6, ?F8, ?F9, ?F11, ?F12, ?F14; tauto.
  Qed.
  Lemma grp_In (s : list (vec A * Z)) l x : In x (grp s l) <-> In (x, l) s.
  Proof.
    unfold grp. rewrite in_map_iff. split.
    - intros ([y a] & E & H). apply filter_In in H as [H1 H2]. apply Z.eqb_eq in H2. simpl in *. now subst.
    - intros H. exists (x, l). split; auto. apply filter_In. split; auto. apply Z.eqb_refl.
  Qed.
  Lemma nan_label (s : list (vec A * Z)) l : has_nan (grp s l) -> In l (firsts s).
  Proof.
    intros H. apply Exists_exists in H as (x & Hx & _). apply grp_In in Hx.
    apply first_seen_In. apply in_map_iff. now exists (x, l).
  Qed.
  Lemma has_nan_snoc (s : list (vec A * Z)) x l l' : has_nan (grp (s ++ [(x, l)]) l') ->
    has_nan (grp s l') \/ (l' = l /\ vnan x).
  Proof.
    unfold has_nan. rewrite grp_snoc, Exists_app. intros [H|H]; auto. right.
    destruct (Z.eqb_spec l l') as [->|]; inversion H as [? ? H1|? ? H1]; subst; auto. inversion H1.
  Qed.
  Lemma index_snoc l fs q : In l fs -> index l (fs ++ q) = index l fs.
  Proof.
    induction fs as [|a fs IH]; [intros []|]. simpl. intros H. destruct (Z.eqb_spec a l); auto.
    f_equal. apply IH. destruct H; [contradiction|auto].
  Qed.
  Lemma index_last l fs : ~ In l fs -> index l (fs ++ [l]) = length fs.
  Proof.
    induction fs as [|a fs IH]; simpl; intros H; [now rewrite Z.eqb_refl|].
    destruct (Z.eqb_spec a l); [exfalso; tauto|]. f_equal. tauto.
  Qed.
  Lemma index_inj l l' fs : In l fs -> In l' fs -> index l fs = index l' fs -> l = l'.
  Proof.
    intros H H' E. destruct (index_In _ _ H) as [_ E1]. destruct (index_In _ _ H') as [_ E2]. congruence.
  Qed.

  Lemma good_step c d s x l a a1 : Good c d s a -> length x = d ->
    param_inc c x (index l (firsts s)) a = (a1, Ok tt) ->
    Good c d (s ++ [(x, l)]) a1 /\ (c = kCH \/ c = kWB -> SEP a1 = sep_of a1).
  Proof.
    intros (Hs & Hk & Hn & Ht) Hx E.
    assert (Hne : s ++ [(x, l)] <> []) by (destruct s; discriminate).
    destruct (in_dec Z.eq_dec l (firsts s)) as [Hin|Hin].
    - destruct (index_In _ _ Hin) as [Hi _]. rewrite <- Hk in Hi.
      assert (HS : Shape c d a). { destruct Hs as [[-> ->]|[_ H]]; auto. destruct Hin. }
      destruct (tainted_old c d x _ a a1 HS Hx Hi E) as (S' & [N1 N2 N3] & Sp & T1 & T2).
      destruct (Shape_init _ _ _ HS) as (_ & Ln & _ & _).
      split; auto. unfold Good. rewrite firsts_snoc. unfold add_label.
      destruct (in_dec Z.eq_dec l (firsts s)); [|contradiction].
      split; auto. split; [congruence|]. split.
      + intros l' Hl'. unfold nn. rewrite N2, nth_upd, grp_snoc, app_length by lia.
        destruct (Nat.eqb_spec (index l' (firsts s)) (index l (firsts s))) as [Ei|Ei].
        * apply index_inj in Ei; auto. subst l'. rewrite Hn, Z.eqb_refl by auto. reflexivity.
        * destruct (Z.eqb_spec l l') as [->|]; [congruence|]. cbn [length]. rewrite Nat.add_0_r. now apply Hn.
      + intros l' Hl'. apply has_nan_snoc in Hl' as [Hl'|[-> Hx']]; auto.
    - rewrite index_notIn in E by auto. rewrite <- Hk in E.
      assert (HS : a = init_attrs \/ Shape c d a) by (destruct Hs as [[_ H]|[_ H]]; auto).
      destruct (tainted_new c d x a a1 HS Hx E) as (S' & [N1 N2 N3] & Sp & T1 & T2).
      assert (Ln : length (n a) = n_clusters a).
      { destruct HS as [->|HS]; [reflexivity|]. now destruct (Shape_init _ _ _ HS) as (_ & Ln & _ & _). }
      split; auto. unfold Good. rewrite firsts_snoc. unfold add_label.
      destruct (in_dec Z.eq_dec l (firsts s)); [contradiction|].
      split; auto. split; [rewrite app_length; simpl; congruence|]. split.
      + intros l' Hl'. unfold nn. rewrite N2, grp_snoc, app_length.
        apply in_app_iff in Hl' as [Hl'|[->|[]]].
        * rewrite index_snoc by auto. destruct (index_In _ _ Hl') as [Hi _].
          rewrite app_nth1 by lia. destruct (Z.eqb_spec l l') as [->|]; [contradiction|].
          cbn [length]. rewrite Nat.add_0_r. now apply Hn.
        * rewrite index_last, Z.eqb_refl by auto. rewrite app_nth2, Ln, Hk, Nat.sub_diag by lia.
          rewrite grp_nil; [reflexivity|]. intros H. apply Hin. now apply first_seen_In.
      + intros l' Hl'. apply has_nan_snoc in Hl' as [Hl'|[-> Hx']].
        * rewrite index_snoc by (now apply nan_label). auto.
        * rewrite index_last, <- Hk by auto. auto.
  Qed.

  Lemma good_frame c d s a a' : Frame a a' -> s <> [] -> Good c d s a -> Good c d s a'.
  Proof.
    intros HF Hne (Hs & Hk & Hn & Ht). assert (HF' := HF).
    destruct HF' as [F1 F2 F3 F4 F5 F6 F7 F8 F9 F10 F11 F12 F13 F14 F15 F16 F17].
    split; [right; split; auto; destruct Hs as [[? _]|[_ Hs]]; [contradiction|]; eapply Shape_frame; eauto|].
    split; [congruence|]. split.
    - intros l Hl. unfold nn. rewrite F4 || rewrite F3 || idtac. rewrite <- (Hn l Hl). unfold nn. congruence.
    - intros l Hl. eapply tainted_frame; eauto.
  Qed.

  Lemma nan_stream c d s vs : wf_stream d s -> results c new_obj (stream s) = map Ok vs -> exists a,
    after c new_obj (stream s) = mkObj (lmap (firsts s)) a /\ Good c d s a.
  Proof.
    revert vs. induction s as [|[x l] s IH] using rev_ind; intros vs Hw Hr.
    - exists init_attrs. split; auto. split; auto. split; auto. split; [intros l []|].
      intros l H. inversion H.
    - rewrite stream_app, results_app in Hr.
      assert (exists vs1, results c new_obj (stream s) = map Ok vs1) as [vs1 Hr1].
      { exists (firstn (length (stream s)) vs). apply (f_equal (firstn (length (stream s)))) in Hr.
        rewrite <- (results_length c new_obj (stream s)) in Hr at 1.
        rewrite firstn_app, firstn_all, Nat.sub_diag, firstn_O, app_nil_r in Hr.
        rewrite Hr. now rewrite firstn_map. }
      destruct (IH vs1 (wf_snoc _ _ _ Hw) Hr1) as (a & Ea & HG).
      rewrite Ea in Hr. unfold results in Hr. cbn [stream map run fst snd] in Hr.
      rewrite stream_app, after_app, Ea. unfold after. cbn [stream map run fst snd].
      unfold get_cvi, update in *. cbn [label_map at_ fst snd] in *. rewrite lmap_get in *.
      destruct (param_inc c x (index l (firsts s)) a) as [a1 [[]|e]] eqn:E1.
      2:{ exfalso. cbn [fst snd] in Hr. fold (results c new_obj (stream s)) in Hr. rewrite Hr1 in Hr.
          apply (f_equal (@rev _)) in Hr. rewrite rev_app_distr, <- !map_rev in Hr. cbn [rev app] in Hr.
          destruct (rev vs); discriminate Hr. }
      destruct (good_step c d s x l a a1 HG (wf_last _ _ _ _ Hw) E1) as [HG1 _].
      assert (HS1 : Shape c d a1).
      { destruct HG1 as ([[H _]|[_ H]] & _); auto. destruct s; discriminate. }
      destruct (ev_total c d a1 HS1) as (a2 & E2 & E3 & HF). cbn [at_ label_map]. rewrite E2. cbn [fst snd].
      exists a2. rewrite firsts_snoc. split; auto. eapply good_frame; eauto. destruct s; discriminate.
  Qed.

  (** the last value *)
  Lemma nan_last c d s vs r l : wf_stream d s -> results c new_obj (stream s) = map Ok (vs ++ [r]) ->
    has_nan (grp s l) -> (c = kGD53 -> 2 <= length (grp s l)) -> 2 <= length (firsts s) -> bad r.
  Proof.
    intros Hw Hr Hl H53 Hk.
    destruct s as [|p s' _] using rev_ind; [destruct vs; discriminate|]. destruct p as [x l0].
    assert (Hr1 : results c new_obj (stream s') = map Ok vs).
    { rewrite stream_app, results_app, map_app in Hr.
      assert (H1 : forall o, exists q, results c o (stream [(x, l0)]) = [q]).
      { intros o. pose proof (results_length c o (stream [(x, l0)])) as L.
        destruct (results c o (stream [(x, l0)])) as [|q [|]]; try discriminate. eauto. }
      destruct (H1 (after c new_obj (stream s'))) as [q Eq]. rewrite Eq in Hr.
      now apply app_inj_tail in Hr as [H _]. }
    destruct (nan_stream c d s' vs (wf_snoc _ _ _ Hw) Hr1) as (a & Ea & HG).
    rewrite stream_app, results_app, Hr1, map_app in Hr. apply app_inv_head in Hr.
    rewrite Ea in Hr. unfold results in Hr. cbn [stream map run fst snd] in Hr.
    unfold get_cvi, update in Hr. cbn [label_map at_ fst snd] in Hr. rewrite lmap_get in Hr.
    destruct (param_inc c x (index l0 (firsts s')) a) as [a1 [[]|e]] eqn:E1; [|discriminate].
    destruct (good_step c d s' x l0 a a1 HG (wf_last _ _ _ _ Hw) E1) as [(HS1 & Hk1 & Hn1 & Ht1) Hsp].
    assert (HS : Shape c d a1) by (destruct HS1 as [[H _]|[_ H]]; auto; destruct s'; discriminate).
    destruct (ev_total c d a1 HS) as (a2 & E2 & E3 & HF). cbn [at_ label_map] in Hr. rewrite E2 in Hr. cbn [fst snd] in Hr.
    injection Hr as <-. rewrite E3.
    apply (value_bad c d a1 (index l (firsts (s' ++ [(x, l0)])))); auto.
    - lia.
    - intros Hc. rewrite Hn1; auto. now apply nan_label.
  Qed.

  (** ** One batch with labels 0, 1, ..., k-1 *)
  Lemma mean0_bad (m : mat A) r : In r (mrows m) -> length r = mcols m -> vnan r -> vnan (mean0 m).
  Proof.
    intros Hr L Hn. apply Exists_exists in Hn as (y & Hy & Hb). apply (In_nth _ _ f0) in Hy as (j & Hj & Ej).
    apply (vnan_at _ _ j); [lia|]. apply HB. left. apply HB. apply Exists_exists. exists (nth j r f0).
    split; [|congruence]. exact (in_map (fun r => nth j r f0) _ _ Hr).
  Qed.
  Lemma smean0_bad (m : mat A) r : In r (mrows m) -> length r = mcols m -> vnan r -> vnan (smean0 m).
  Proof.
    intros Hr L Hn. apply Exists_exists in Hn as (y & Hy & Hb). apply (In_nth _ _ f0) in Hy as (j & Hj & Ej).
    apply (vnan_at _ _ j); [lia|]. apply HB. left. apply HB. apply Exists_exists. exists (nth j r f0).
    split; [|congruence]. exact (in_map (fun r => nth j r f0) _ _ Hr).
  Qed.
  Lemma subset_grp (s : list (vec A * Z)) d ix :
    mrows (subset (mkMat d (map fst s)) (map snd s) ix) = grp s (Z.of_nat ix).
  Proof.
    unfold subset, grp, indices_of. cbn [mrows]. rewrite map_length.
    enough (H : forall q p, map (fun i => nth i (map fst (p ++ q)) [])
                  (filter (fun x => Z.eqb (nth x (map snd (p ++ q)) 0%Z) (Z.of_nat ix)) (seq (length p) (length q))) =
                map fst (filter (fun p => Z.eqb (snd p) (Z.of_nat ix)) q)) by exact (H s []).
    intros q. induction q as [|[x l] q IH]; intros p; auto. cbn [length seq filter].
    specialize (IH (p ++ [(x, l)])). rewrite <- app_assoc, app_length, Nat.add_1_r in IH. cbn [app] in IH.
    assert (E1 : nth (length p) (map snd (p ++ (x, l) :: q)) 0%Z = l).
    { rewrite map_app, app_nth2; rewrite map_length; [|lia]. now rewrite Nat.sub_diag. }
    assert (E2 : nth (length p) (map fst (p ++ (x, l) :: q)) [] = x).
    { rewrite map_app, app_nth2; rewrite map_length; [|lia]. now rewrite Nat.sub_diag. }
    rewrite E1. cbn [snd]. destruct (l =? Z.of_nat ix)%Z; cbn [map fst]; rewrite IH; auto. now rewrite E2.
  Qed.
  Lemma dsym_cross k t i0 : i0 < k -> (forall j, j < k -> j <> i0 -> bad (t i0 j) /\ bad (t j i0)) -> cross k i0 (D_sym k t).
  Proof.
    intros Hi H j Hj Hn. destruct (H j Hj Hn). unfold D_sym. rewrite !entry_tab2 by auto.
    destruct (Nat.ltb_spec i0 j); destruct (Nat.ltb_spec j i0); try lia; split; apply HB; auto.
  Qed.

  Definition b_pot (m : mat A) labels a b : E (F A) :=
    rCIP_potential (rCIP_constant (mcols m)) (map2 fsub (b_v m labels a) (b_v m labels b))
      (tab2 (mcols m) (mcols m) (fun i j => fadd (entry (b_sigma m labels a) i j) (entry (b_sigma m labels b) i j))).
  Lemma rCIP_pair m labels k (o : attrs A) a b :
    v o = mkMat (mcols m) (map (b_v m labels) (seq 0 k)) ->
    sigma o = map (b_sigma m labels) (seq 0 k) ->
    constant o = rCIP_constant (mcols m) -> a < k -> b < k -> rCIP_batch_term o a b = b_pot m labels a b.
  Proof.
    intros Ev Es Ec Ha Hb. unfold rCIP_batch_term. rewrite Ev, Es, Ec.
    assert (Wv : wfm k (mcols m) (mkMat (mcols m) (map (b_v m labels) (seq 0 k)))).
    { repeat split; simpl; [now rewrite map_length, seq_length|].
      apply Forall_map, Forall_forall. intros; unfold b_v; now rewrite smean0_length. }
    rewrite (row_ok _ _ _ _ Wv) by lia. cbn [bindE].
    rewrite (row_ok _ _ _ _ Wv) by lia. cbn [bindE mrows].
    rewrite !nth_map_seq by lia.
    rewrite vsub_ok by (unfold b_v; now rewrite !smean0_length). cbn [bindE].
    rewrite (get_item_ok _ _ (zmat 0 0)) by (rewrite map_length, seq_length; lia). cbn [bindE].
    rewrite (get_item_ok _ _ (zmat 0 0)) by (rewrite map_length, seq_length; lia). cbn [bindE].
    rewrite !nth_map_seq by lia.
    assert (Ws : forall ix, wfm (mcols m) (mcols m) (b_sigma m labels ix)).
    { intros ix. unfold b_sigma. destruct (1 <? _); auto using wfm_tab2, wfm_delta. }
    unfold madd. rewrite (bc2_ok _ (mcols m) (mcols m)) by auto. reflexivity.
  Qed.
  (** if the batch call returns, no inversion raised *)
  Lemma rCIP_batch_ok m labels o' : covers m labels (n_unique labels) -> wfm (nrows m) (mcols m) m ->
    rCIP_param_batch m labels init_attrs = (o', Ok tt) -> exists g,
    (forall a b, a < b -> b < n_unique labels -> b_pot m labels a b = Ok (g a b)) /\
    BCommon m labels o' /\ D o' = D_sym (n_unique labels) g.
  Proof.
    intros H Hw E0.
    assert (Hd : mcols m <> 0).
    { intros Hd. revert E0. unfold rCIP_param_batch, base_setup_batch. sx. rewrite Hd. cbn [Nat.eqb]. sx. discriminate. }
    set (g := fun a b => match b_pot m labels a b with Ok x => x | Err _ => f0 end).
    assert (Hg : forall a b, a < b -> b < n_unique labels -> b_pot m labels a b = Ok (g a b)).
    { intros a b Hab Hb. unfold g. destruct (b_pot m labels a b) as [x|e] eqn:Ep; auto. exfalso.
      revert E0. unfold rCIP_param_batch, base_setup_batch. sx.
      destruct (Nat.eqb_spec (mcols m) 0) as [|_]; [contradiction|]. sx.
      set (k := n_unique labels) in *.
      match goal with |- bind (for_ ?l ?b) ?kk ?s = _ -> _ => pose (o0 := s) end.
      assert (Ho0 : o0 = rCIP_st m labels k o0 0).
      { unfold o0, rCIP_st. red_attrs. rewrite <- !fill_0. reflexivity. }
      pose proof (rCIP_loop m labels k o0 H eq_refl Hw) as L. rewrite <- Ho0 in L.
      rewrite (bind_ok _ _ _ _ _ L). sx.
      match goal with |- bind (lift ?r) _ _ = _ -> _ => destruct r as [rows|e'] eqn:Er end; [|discriminate].
      exfalso. apply mapE_inv in Er as [_ Er]. destruct (Er a) as [ya Hya]; [apply in_seq; lia|].
      apply mapE_inv in Hya as [_ Hya]. destruct (Hya b) as [yb Hyb]; [apply in_seq; lia|].
      cbv beta in Hyb. destruct (Nat.ltb_spec a b); [|lia].
      rewrite (rCIP_pair m labels k) in Hyb; try lia; try reflexivity;
        try (unfold rCIP_st; red_attrs; now rewrite fill_k). congruence. }
    destruct (rCIP_batch m labels g H Hw Hd Hg) as (o1 & E & B & _ & _ & _ & HD).
    rewrite E in E0. inversion E0; subst. exists g. auto.
  Qed.
  Lemma pot_bad cst (df : vec A) q x : vnan df -> rCIP_potential cst df q = Ok x -> bad x.
  Proof.
    intros Hn. unfold rCIP_potential. destruct (linalg_inv q) as [W|]; [|discriminate]. cbn [bindE].
    destruct (vecmat _ W) as [t|]; [|discriminate]. cbn [bindE]. unfold inner.
    destruct (Nat.eqb_spec (length t) (length df)) as [L|]; [|discriminate].
    cbn [bindE]. intros E. inversion E. apply HB. right. apply HB. apply dot_bad; auto.
  Qed.

  Section OneBatch.
    Variables (d k : nat) (s : list (vec A * Z)).
    Hypotheses (Hw : wf_stream d s) (Hk : 2 <= k)
               (Hl : forall z, In z (map snd s) <-> (0 <= z < Z.of_nat k)%Z).
    Let m : mat A := mkMat d (map fst s).
    Let ls := map snd s.

    Lemma nb_unique : n_unique ls = k.
    Proof.
      unfold n_unique. rewrite <- (seq_length k 0), <- (map_length Z.of_nat (seq 0 k)).
      apply Permutation.Permutation_length, Permutation.NoDup_Permutation.
      - apply NoDup_nodup.
      - apply FinFun.Injective_map_NoDup; [intros a b; lia|apply seq_NoDup].
      - intros z. rewrite nodup_In, in_map_iff. unfold ls. rewrite Hl. split.
        + intros Hz. exists (Z.to_nat z). split; [lia|]. apply in_seq. lia.
        + intros (i & <- & Hi). apply in_seq in Hi. lia.
    Qed.
    Lemma nb_rows : Forall (fun r => length r = d) (map fst s).
    Proof. apply Forall_map. exact Hw. Qed.
    Lemma nb_wfm : wfm (nrows m) (mcols m) m.
    Proof. repeat split. exact nb_rows. Qed.
    Lemma nb_covers : covers m ls (n_unique ls).
    Proof. apply covers_le. unfold m, ls, nrows. cbn [mrows]. now rewrite !map_length. Qed.
    Lemma nb_ne ix : ix < k -> grp s (Z.of_nat ix) <> [].
    Proof. intros H. apply grp_ne, Hl. lia. Qed.
    Lemma nb_len ix r : In r (grp s (Z.of_nat ix)) -> length r = d.
    Proof. intros H. apply grp_In in H. unfold wf_stream in Hw. rewrite Forall_forall in Hw. exact (Hw _ H). Qed.

    Variables (i0 : nat) (Hi0 : i0 < k) (Hnan : has_nan (grp s (Z.of_nat i0))).

    Lemma nb_v : vnan (b_v m ls i0).
    Proof.
      apply Exists_exists in Hnan as (r & Hr & Hb). unfold b_v. apply (smean0_bad _ r); auto.
      - unfold m, ls. now rewrite subset_grp.
      - exact (nb_len _ _ Hr).
    Qed.
    Lemma nb_vlen ix : length (b_v m ls ix) = d.
    Proof. unfold b_v. now rewrite smean0_length. Qed.
    Lemma nb_mu : vnan (smean0 m).
    Proof.
      apply Exists_exists in Hnan as (r & Hr & Hb). apply (smean0_bad _ r); auto.
      - apply grp_In in Hr. apply in_map_iff. now exists (r, Z.of_nat i0).
      - exact (nb_len _ _ Hr).
    Qed.
    Lemma nb_row ix r : In r (grp s (Z.of_nat ix)) -> vnan (map2 fsub r (map (fun x => fmul x f1) (b_v m ls i0))).
    Proof.
      intros Hr. apply map2_bad; [apply HB|rewrite map_length, nb_vlen; now apply (nb_len ix)|]. right.
      pose proof nb_v as H. apply Exists_exists in H as (y & Hy & Hb). apply Exists_exists.
      exists (fmul y f1). split; [exact (in_map (fun x => fmul x f1) _ _ Hy)|]. apply HB; auto.
    Qed.
    Lemma nb_CP : bad (b_CP m ls i0).
    Proof.
      assert (exists r, In r (grp s (Z.of_nat i0))) as [r Hr].
      { apply Exists_exists in Hnan as (r & Hr & _). eauto. }
      unfold b_CP, np_sumsq_all. apply HB, sq_bad. pose proof (nb_row i0 r Hr) as H.
      apply Exists_exists in H as (y & Hy & Hb). apply Exists_exists. exists y. split; auto.
      apply in_concat. eexists. split; [|exact Hy]. unfold sub_rows.
      apply (in_map (fun r => map2 fsub r (map (fun x => fmul x f1) (b_v m ls i0)))).
      unfold m, ls. now rewrite subset_grp.
    Qed.
    Lemma nb_sqd : forall j, j < k -> j <> i0 -> bad (b_sqd m ls i0 j) /\ bad (b_sqd m ls j i0).
    Proof. intros j _ _. pose proof nb_v. split; apply sqd_bad; auto; now rewrite !nb_vlen. Qed.
    Lemma nb_sep : bad (py_sum (map (b_SEP m ls) (seq 0 k))).
    Proof.
      apply py_sum_bad, (vnan_at _ _ 0); [lia|]. apply HB. right. apply HB, sq_bad, map2_bad; [apply HB| |].
      - rewrite nb_vlen, smean0_length. reflexivity.
      - right. exact nb_mu.
    Qed.
    Lemma nb_sil j : j < k -> bad (b_sil m ls j i0).
    Proof.
      intros Hj. unfold b_sil. apply HB. left. apply py_sum_bad.
      pose proof (subset_grp s d j) as Hs. fold m ls in Hs. unfold subset in Hs. cbn [mrows] in Hs.
      pose proof (nb_ne j Hj) as Hne. rewrite <- Hs in Hne.
      destruct (indices_of j ls) as [|p q] eqn:Ei; [cbn [map] in Hne; congruence|]. constructor.
      assert (Hp : p < length (map fst s)).
      { assert (Hi : In p (indices_of j ls)) by (rewrite Ei; now left).
        apply indices_lt in Hi. unfold ls in Hi. rewrite map_length in *. auto. }
      assert (Hr : In (nth p (map fst s) []) (grp s (Z.of_nat j))) by (rewrite <- Hs; now left).
      unfold sub_rows. rewrite map_map. cbn [mrows m].
      rewrite nth_indep with (d' := np_sumsq (map2 fsub [] (map (fun x => fmul x f1) (b_v m ls i0))))
        by (now rewrite map_length).
      rewrite (map_nth (fun r => np_sumsq (map2 fsub r (map (fun x => fmul x f1) (b_v m ls i0)))) (map fst s) [] p).
      apply HB, sq_bad. exact (nb_row j _ Hr).
    Qed.

    Lemma batch_bad c o' r : param_batch c m ls init_attrs = (o', Ok tt) ->
      snd (evaluate c o') = Ok tt -> r = criterion_value (fst (evaluate c o')) -> bad r.
    Proof.
      intros EB EV ->. pose proof nb_unique as U. pose proof nb_covers as HC.
      assert (HE : forall x, evals c o' x -> bad x -> bad (criterion_value (fst (evaluate c o')))).
      { intros x (o2 & E2 & E3 & _) Hb. rewrite E2. cbn [fst]. congruence. }
      assert (Lk : forall X (f : nat -> X), length (map f (seq 0 k)) = k) by (intros; now rewrite map_length, seq_length).
      assert (HV : BCommon m ls o' -> wfm (n_clusters o') d (v o') /\ vnan (vrow o' i0) /\ n_clusters o' = k /\ length (n o') = k).
      { intros [B1 B2 B3 B4 B5 B6]. rewrite B4, B5, B6, U. unfold vrow. rewrite B6, U. cbn [mrows].
        rewrite nth_map_seq by auto. split; [|split; [exact nb_v|auto]].
        repeat split; cbn [mrows mcols]; auto. apply Forall_map, Forall_forall. intros. apply nb_vlen. }
      destruct c; cbn [param_batch] in EB.
      - destruct (CH_batch m ls HC) as (o1 & E & B & E1 & E2 & _). rewrite E in EB; inversion EB; subst o1.
        destruct (HV B) as (_ & _ & Hkk & _). eapply HE; [apply CH_eval; lia|]. apply CH_bad. rewrite E2, U. exact nb_sep.
      - destruct (WB_batch m ls HC) as (o1 & E & B & E1 & E2 & _). rewrite E in EB; inversion EB; subst o1.
        destruct (HV B) as (_ & _ & Hkk & _). eapply HE; [apply WB_eval; lia|]. apply WB_bad. rewrite E2, U. exact nb_sep.
      - destruct (DB_batch m ls HC) as (o1 & E & B & E1 & E2 & _ & _ & _ & E3). rewrite E in EB; inversion EB; subst o1.
        rewrite U in *. destruct (HV B) as (_ & _ & Hkk & _). eapply HE; [apply DB_eval; rewrite Hkk; auto|].
        + rewrite E3. apply wfm_tab2.
        + rewrite E2. apply Lk.
        + apply (DB_bad _ i0); rewrite Hkk; auto. rewrite E3. apply dsym_cross; auto. exact nb_sqd.
      - destruct (XB_batch m ls HC) as (o1 & E & B & E1 & _ & _ & E3). rewrite E in EB; inversion EB; subst o1.
        rewrite U in *. destruct (HV B) as (_ & _ & Hkk & _). eapply HE; [apply XB_eval; rewrite Hkk; auto|].
        + rewrite E3. apply wfm_tab2.
        + apply HB. right. apply HB. right. apply vmin_bad. rewrite Hkk, E3.
          destruct (other k i0) as (j & Hj & Hn); [lia|]. destruct (nb_sqd j Hj Hn).
          destruct (Nat.lt_ge_cases i0 j); [apply (triu_bad k _ i0 j)|apply (triu_bad k _ j i0)]; try lia;
            rewrite entry_tab2 by auto; [destruct (Nat.ltb_spec i0 j)|destruct (Nat.ltb_spec j i0)]; auto; lia.
      - destruct (GD43_batch m ls HC) as (o1 & E & B & E1 & _ & _ & _ & E3). rewrite E in EB; inversion EB; subst o1.
        rewrite U in *. destruct (HV B) as (_ & _ & Hkk & Hnn). eapply HE; [apply GD43_eval; rewrite Hkk; auto|].
        + rewrite E3. apply wfm_tab2.
        + rewrite E1. apply Lk.
        + apply (GD_bad _ i0); rewrite Hkk; auto. rewrite E3. apply dsym_cross; auto.
          intros j Hj Hn. destruct (nb_sqd j Hj Hn). split; now apply HB.
      - destruct (GD53_batch m ls HC) as (o1 & E & B & E1 & _ & _ & _ & E3). rewrite E in EB; inversion EB; subst o1.
        rewrite U in *. destruct (HV B) as (_ & _ & Hkk & Hnn). eapply HE; [apply GD53_eval; rewrite Hkk; auto|].
        + rewrite E3. apply wfm_tab2.
        + rewrite E1. apply Lk.
        + apply (GD_bad _ i0); rewrite Hkk; auto. rewrite E3. apply dsym_cross; auto.
          intros j Hj Hn. pose proof nb_CP. split; apply HB; left; apply HB; auto.
      - destruct (PS_batch m ls HC) as (o1 & E & B & _ & E3). rewrite E in EB; inversion EB; subst o1.
        rewrite U in *. destruct (HV B) as (HW & Hv & Hkk & Hnn). eapply HE; [apply (PS_eval d); auto; try lia|].
        + rewrite E3, Hkk. apply wfm_tab2.
        + apply list_max_ne; [|destruct (n o'); [simpl in Hnn; lia|discriminate]].
          rewrite (bc_n _ _ _ B), U. apply Forall_map, Forall_forall. intros ix Hix. apply in_seq in Hix.
          unfold b_n, nrows, m, ls. rewrite subset_grp. pose proof (nb_ne ix ltac:(lia)).
          destruct (grp s (Z.of_nat ix)); [congruence|discriminate].
        + apply (PS_bad d _ i0); auto. lia.
      - destruct (rCIP_batch_ok m ls o' HC nb_wfm EB) as (g & Hg & B & HD). rewrite U in *.
        destruct (HV B) as (_ & _ & Hkk & _). eapply HE; [apply rCIP_eval; rewrite Hkk; auto|].
        + rewrite HD. apply wfm_tab2.
        + assert (Hp : forall a b, a < b -> b < k -> a = i0 \/ b = i0 -> bad (g a b)).
          { intros a b Hab Hb Hor. eapply pot_bad; [|exact (Hg a b Hab Hb)]. pose proof nb_v as Hv.
            apply map2_bad; [apply HB|now rewrite !nb_vlen|]. destruct Hor; subst; auto. }
          apply (rCIP_bad _ i0); rewrite Hkk; auto. rewrite HD. intros j Hj Hn. unfold D_sym. rewrite !entry_tab2 by auto.
          destruct (Nat.ltb_spec i0 j); destruct (Nat.ltb_spec j i0); try lia; split; apply HB; auto.
      - destruct (cSIL_batch m ls HC) as (o1 & E & B & E1 & _ & _ & E3).
        { unfold n_unique. unfold nrows, m. cbn [mrows]. rewrite map_length, <- (map_length snd s).
          apply NoDup_incl_length; [apply NoDup_nodup|]. intros z. now rewrite nodup_In. }
        rewrite E in EB; inversion EB; subst o1.
        rewrite U in *. destruct (HV B) as (_ & _ & Hkk & Hnn). eapply HE; [apply cSIL_eval; rewrite Hkk; auto|].
        + rewrite E3. apply wfm_tab2.
        + destruct (other k i0) as (j & Hj & Hn); [lia|]. apply (cSIL_bad _ i0 j); rewrite ?Hkk; auto.
          * rewrite E3. apply wfm_tab2.
          * rewrite E3, entry_tab2 by auto. now apply nb_sil.
    Qed.
  End OneBatch.
End Nan.
