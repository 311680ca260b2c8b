(** * An infinite feature: lemmas for every arithmetic with infinities. *)
From Coq Require Import ZArith List Arith Bool Lia.
From Verif Require Import Num NumPy Base M_CH M_D M_PS GetCvi Lists Step Step2 StepB Hoare Eval Stream Shapes Generic Nan.
Import ListNotations.

Section Ops.
  Context {A : Arith}.
  (** one coordinate of a running mean of [k] samples *)
  Definition rm (k : nat) (m x : F A) : F A :=
    fadd (fmul (fsub f1 (fdiv f1 (f_of_nat k))) m) (fmul (fdiv f1 (f_of_nat k)) x).
End Ops.

(** [bad]: a nan; [wild]: an infinity or a nan; [same]: one of the two is a nan or
    both are the same infinity; [hot]: plus infinity or a nan; [pos]: not
    negative, or a nan *)
Record Infinite {A : Arith} (bad wild : F A -> Prop) (same : F A -> F A -> Prop) (hot pos : F A -> Prop) : Prop := mkInf {
  in_plain : Plain A;                (* data in float64 *)
  in_first : forall x, wild x -> same x x;
  in_new : forall k b x, 2 <= k -> wild x -> same x (rm k b x);
  in_stay : forall k a b x, 2 <= k -> same a b -> same a (rm k b x);
  in_both : forall k k' a b x, 2 <= k -> 2 <= k' -> same a b -> same (rm k a x) (rm k' b x);
  in_join : forall k k' a b x, 2 <= k -> 2 <= k' -> wild x -> same (rm k a x) (rm k' b x);
  in_wild : forall k m x, 2 <= k -> wild m \/ wild x -> wild (rm k m x);
  in_sub : forall a b, same a b -> bad (fsub a b);
  in_mean : forall l x, In x l -> wild x -> bad (fsub x (fdiv (np_sum l) (f_of_nat (length l))));
  in_mean1 : forall l x, In x l -> wild x -> bad (fsub x (fmul (fdiv (np_sum l) (f_of_nat (length l))) f1));
  in_meanw : forall l x, In x l -> wild x -> wild (fdiv (np_sum l) (f_of_nat (length l)));
  in_dot : forall l x, In x l -> wild x -> hot (np_dot l l);
  in_pos : forall l, pos (np_dot l l);
  in_posadd : forall a b, pos a -> pos b -> pos (fadd a b);
  in_hotadd : forall a b, pos a -> hot b -> hot (fadd a b);
  in_hotsub : forall a b, hot a -> hot (fsub a b);
  in_hotmul : forall n a, hot a -> hot (fmul (f_of_nat n) a);
  in_hotdiv : forall n a, hot a -> hot (fdiv a (f_of_nat n));
  in_hotmin : forall a b, hot a -> hot b -> hot (fminimum a b);
  in_hottrue : forall a, hot a -> ftrue a = true;
  in_sil : forall a b, hot b -> bad (fdiv (fsub b a) (fmaximum a b))
}.

Section Inf.
  Context {A : Arith} (bad : F A -> Prop) (HB : Absorbing bad).
  Context (wild : F A -> Prop) (same : F A -> F A -> Prop) (hot pos : F A -> Prop) (HI : Infinite bad wild same hot pos).
  Notation vnan := (Exists bad).
  Notation at_ j l := (nth j l f0).

  Lemma nth_rmean k (m x : vec A) j : length m = length x -> j < length x -> at_ j (rmean k m x) = rm k (at_ j m) (at_ j x).
  Proof.
    intros L H. unfold rmean. rewrite (plain_sscal (in_plain _ _ _ _ _ HI)). unfold scal, rm. rewrite (nth_map2 _ _ _ _ f0 f0) by (rewrite map_length; lia).
    f_equal.
    - rewrite (nth_indep _ f0 (fmul (fsub f1 (fdiv f1 (f_of_nat k))) f0)) by (rewrite map_length; lia). apply map_nth.
    - rewrite (nth_indep _ f0 (fmul (fdiv f1 (f_of_nat k)) f0)) by (rewrite map_length; lia). apply map_nth.
  Qed.
  Lemma nth_srmean k (m x : vec A) j : length m = length x -> j < length x -> at_ j (srmean k m x) = rm k (at_ j m) (at_ j x).
  Proof. rewrite (plain_srmean (in_plain _ _ _ _ _ HI)). apply nth_rmean. Qed.
  Lemma sub_at (a b : vec A) j : length a = length b -> j < length a -> bad (fsub (at_ j a) (at_ j b)) -> vnan (map2 fsub a b).
  Proof.
    intros L H Hb. apply Exists_exists. exists (nth j (map2 fsub a b) f0). split; [apply nth_In; rewrite length_map2; lia|].
    rewrite (nth_map2 _ _ _ _ f0 f0) by lia. exact Hb.
  Qed.
  Lemma vmin_hot (l : vec A) : l <> [] -> Forall hot l -> hot (vmin l).
  Proof.
    destruct l as [|a l]; [congruence|]. intros _ H. cbn [vmin]. inversion H; subst. revert a H2 H H3.
    induction l as [|b l IH]; intros a Ha _ Hl; cbn [fold_left]; auto. inversion Hl; subst. apply IH; auto.
    - now apply (in_hotmin _ _ _ _ _ HI).
    - constructor; auto. now apply (in_hotmin _ _ _ _ _ HI).
  Qed.

  (** what cluster [i0] looks like once coordinate [j] of one of its samples was infinite *)
  Definition Marked (c : kind) (d i0 : nat) (o : attrs A) : Prop :=
    i0 < n_clusters o /\ exists j, j < d /\ wild (at_ j (vrow o i0)) /\
    match c with
    | kCH | kWB => same (at_ j (vrow o i0)) (at_ j (mu o))
    | kDB => 2 <= nn o i0 -> bad (at_ i0 (S1 o))
    | kXB | kGD43 | kGD53 => 2 <= nn o i0 -> bad (cpi o i0)
    | kcSIL => forall a, a < n_clusters o -> a <> i0 -> hot (entry (S2 o) a i0)
    | kPS | krCIP => True
    end.

  Lemma cp_marked (ni : nat) (vi x gi : vec A) cp j : 1 <= ni -> length vi = length x -> j < length x ->
    wild (at_ j vi) \/ wild (at_ j x) -> bad (cp_upd ni vi cp gi x).
  Proof.
    intros Hn L Hj H. unfold cp_upd. cbv zeta.
    assert (Lv : length (v_upd ni vi x) = length x) by (unfold v_upd; now rewrite rmean_length).
    assert (E : at_ j (v_upd ni vi x) = rm (ni + 1) (at_ j vi) (at_ j x)) by (unfold v_upd; now apply nth_rmean).
    destruct H as [H|H].
    - apply HB. left. apply HB. right. apply HB. right. apply (dot_bad bad HB); [reflexivity|left]. apply (sub_at _ _ j); try lia.
      rewrite E. apply (in_sub _ _ _ _ _ HI), (in_stay _ _ _ _ _ HI); [lia|]. now apply (in_first _ _ _ _ _ HI).
    - apply HB. left. apply HB. left. apply HB. right. apply (dot_bad bad HB); [reflexivity|left]. apply (sub_at _ _ j); try lia.
      rewrite E. apply (in_sub _ _ _ _ _ HI), (in_new _ _ _ _ _ HI); [lia|]. exact H.
  Qed.

  (** ** The value *)
  Lemma marked_value c d (o : attrs A) i0 : Shape c d o -> 1 < n_clusters o -> Marked c d i0 o -> c <> krCIP ->
    (c = kCH \/ c = kWB -> SEP o = sep_of o) -> (c = kDB \/ c = kXB \/ c = kGD43 \/ c = kGD53 -> 2 <= nn o i0) -> bad (val_of c o).
  Proof.
    intros HS Hk (Hi & j & Hj & Hv & HT) Hc Hsep H2. unfold val_of. destruct (Nat.leb_spec (n_clusters o) 1); [lia|].
    assert (HSEP : ShapeG d o -> same (at_ j (vrow o i0)) (at_ j (mu o)) -> bad (py_sum (sep_of o))).
    { intros HG Hs. apply (py_sum_bad bad HB). unfold sep_of. apply (vnan_at _ _ _ i0); auto.
      apply HB. right. apply (py_sum_bad bad HB). apply (sq_bad bad HB). destruct HG.
      pose proof (wfm_row _ _ _ _ sg_v Hi) as Lr. apply (sub_at _ _ j); unfold vrow; try lia. now apply (in_sub _ _ _ _ _ HI). }
    assert (HCP : ShapeG d o -> bad (cpi o i0) -> vnan (CP o)).
    { intros HG Hb. apply Exists_exists. exists (cpi o i0). split; auto. unfold cpi. apply nth_In. destruct HG. lia. }
    assert (HGD : ShapeG d o -> bad (cpi o i0) -> bad (GD_val o)).
    { intros HG Hb. unfold GD_val. apply HB. right. apply HB. right. apply (vmax_bad bad HB). destruct HG.
      apply Exists_exists. exists (fdiv (cpi o i0) (f_of_nat (nn o i0))). split; [|apply HB; now left].
      replace (fdiv (cpi o i0) (f_of_nat (nn o i0))) with (nth i0 (map2 fdiv (CP o) (map f_of_nat (n o))) f0).
      - apply nth_In. rewrite length_map2, map_length. lia.
      - rewrite (nth_map2 _ _ _ _ f0 (f_of_nat 0)) by (rewrite ?map_length; lia). now rewrite map_nth. }
    destruct c; cbn [Shape] in HS; cbv beta iota in HT.
    - apply CH_bad; auto. rewrite Hsep by auto. now apply HSEP.
    - apply WB_bad; auto. rewrite Hsep by auto. now apply HSEP.
    - specialize (HT (H2 ltac:(auto))). destruct HS as (HG & HD & HS1).
      unfold DB_val. apply HB. left. apply HB. apply (vnan_at _ _ _ i0); auto. apply (vmax_bad bad HB).
      destruct (other (n_clusters o) i0) as (b & Hb & Hn); [lia|].
      apply (vnan_at _ _ _ b); auto. apply HB. unfold DB_low.
      destruct (Nat.ltb_spec i0 b); [left; apply HB; left; apply HB; auto|].
      destruct (Nat.ltb_spec b i0); [right; apply HB; left; apply HB; auto|lia].
    - specialize (HT (H2 ltac:(auto))). unfold XB_val. apply HB. left. apply (py_sum_bad bad HB). apply HCP; auto. apply HS.
    - apply HGD; [apply HS|]. apply HT, H2. auto.
    - apply HGD; [apply HS|]. apply HT, H2. auto.
    - unfold PS_val. apply HB. apply (vnan_at _ _ _ i0); auto. apply HB. right. apply HB. apply HB. right.
      unfold PS_bt. apply HB. left. apply (py_sum_bad bad HB). apply (vnan_at _ _ _ i0); auto. pose proof (sp_v _ _ (proj1 HS)) as Wv.
      assert (Lm : length (mean0 (v o)) = d) by (rewrite mean0_length; apply Wv).
      pose proof (wfm_row _ _ _ _ Wv Hi) as Lr.
      apply (dot_bad bad HB); [reflexivity|left]. unfold vrow. apply (sub_at _ _ j); try lia.
      destruct Wv as (W1 & W2 & W3). unfold mean0. rewrite W1.
      rewrite nth_map_seq by lia.
      replace (nrows (v o)) with (length (col (v o) j)) by (unfold col, nrows; now rewrite map_length).
      apply (in_mean _ _ _ _ _ HI); auto. unfold col. apply in_map_iff. exists (nth i0 (mrows (v o)) []). split; auto. apply nth_In. lia.
    - congruence.
    - destruct (ss_S _ _ HS) as (W1 & W2 & W3). unfold cSIL_val.
      destruct (other (n_clusters o) i0) as (b & Hb & Hn); [lia|].
      assert (Ha : np_any (S2 o) = true).
      { unfold np_any. apply existsb_exists. exists (nth b (mrows (S2 o)) []). split; [apply nth_In; lia|].
        apply existsb_exists. exists (entry (S2 o) b i0). split; [|apply (in_hottrue _ _ _ _ _ HI); auto].
        unfold entry. apply nth_In. rewrite (wfm_row (n_clusters o) (n_clusters o)); auto. repeat split; auto. }
      rewrite Ha. apply HB. left. apply HB. apply (vnan_at _ _ _ i0); auto. cbv zeta. apply (in_sil _ _ _ _ _ HI).
      assert (Lc : length (col (S2 o) i0) = n_clusters o) by (unfold col; rewrite map_length; lia).
      assert (E : forall a, a < n_clusters o -> nth a (col (S2 o) i0) f0 = entry (S2 o) a i0).
      { intros a Ha'. unfold col, entry. etransitivity; [apply nth_indep with (d' := nth i0 [] f0); rewrite map_length; lia|].
        exact (map_nth (fun r => nth i0 r f0) (mrows (S2 o)) [] a). }
      apply vmin_hot.
      + unfold remove_nth. intros H0. apply (f_equal (@length _)) in H0. rewrite app_length, firstn_length, skipn_length in H0. simpl in H0. lia.
      + unfold remove_nth. apply Forall_app. split; apply Forall_forall; intros y Hy; apply (In_nth _ _ f0) in Hy as (a & Ha' & <-).
        * rewrite firstn_length in Ha'. replace (nth a (firstn i0 (col (S2 o) i0)) f0) with (nth a (col (S2 o) i0) f0).
          -- rewrite E by lia. apply HT; lia.
          -- rewrite <- (firstn_skipn i0 (col (S2 o) i0)) at 1. rewrite app_nth1; auto. rewrite firstn_length. lia.
        * rewrite skipn_length in Ha'. replace (nth a (skipn (S i0) (col (S2 o) i0)) f0) with (nth (S i0 + a) (col (S2 o) i0) f0).
          -- rewrite E by lia. apply HT; lia.
          -- rewrite <- (firstn_skipn (S i0) (col (S2 o) i0)) at 1. rewrite app_nth2; rewrite firstn_length; [f_equal; lia|lia].
  Qed.

  Lemma mu_same d x (o : attrs A) j a : length (mu o) = d -> length x = d -> j < d -> 0 < n_samples o ->
    same a (at_ j (mu o)) -> same a (at_ j (mu_upd x o)).
  Proof.
    intros L Hx Hj Hn Hs. unfold mu_upd. destruct (Nat.eqb_spec (n_samples o) 0); [lia|].
    rewrite nth_srmean by lia. apply (in_stay _ _ _ _ _ HI); auto. lia.
  Qed.
  Lemma sil_row_hot (o : attrs A) vn a j : j < length vn -> wild (at_ j vn) -> pos (cpi o a) -> hot (sil_row o vn a).
  Proof.
    intros Hj Hw Hp. unfold sil_row. apply (in_hotdiv _ _ _ _ _ HI), (in_hotsub _ _ _ _ _ HI), (in_hotadd _ _ _ _ _ HI); auto.
    apply (in_hotmul _ _ _ _ _ HI). apply (in_dot _ _ _ _ _ HI _ (at_ j vn)); auto. now apply nth_In.
  Qed.

  Lemma marked_new c d x (o o' : attrs A) : o = init_attrs \/ Shape c d o -> length x = d -> c <> krCIP ->
    (c = kcSIL -> forall a, a < n_clusters o -> pos (cpi o a)) ->
    param_inc c x (n_clusters o) o = (o', Ok tt) ->
    Shape c d o' /\ CommonNew d x o o' /\ (c = kCH \/ c = kWB -> SEP o' = sep_of o') /\
    (Exists wild x -> Marked c d (n_clusters o) o') /\
    (forall i0, Marked c d i0 o -> Marked c d i0 o') /\
    (c = kcSIL -> forall a, a < n_clusters o' -> pos (cpi o' a)).
  Proof.
    intros Hs Hx Hc Hpos E0.
    assert (HS' : Shape c d o' /\ CommonNew d x o o').
    { destruct (shape_new c d x o Hs Hx) as (o1 & E1 & H1 & _ & H2); [intros Hq; contradiction|].
      rewrite E1 in E0. inversion E0; subst. auto. }
    destruct HS' as [HS' HN].
    assert (Lv : length (mrows (v o)) = n_clusters o).
    { destruct Hs as [->|Hs]; [reflexivity|]. destruct (Shape_init _ _ _ Hs) as (_ & _ & (_ & H & _) & _). auto. }
    assert (Ln : length (n o) = n_clusters o).
    { destruct Hs as [->|Hs]; [reflexivity|]. now destruct (Shape_init _ _ _ Hs) as (_ & H & _). }
    assert (Lr : forall i, i < n_clusters o -> length (vrow o i) = d).
    { intros i Hi. destruct Hs as [->|Hs]; [simpl in Hi; lia|].
      destruct (Shape_init _ _ _ Hs) as (_ & _ & H & _). now apply (wfm_row (n_clusters o)). }
    destruct (new_rows d x o o' Lv HN) as [R1 R2]. assert (HN' := HN). destruct HN' as [N1 N2 N3].
    assert (Hw : Exists wild x -> exists j, j < d /\ wild (at_ j x)).
    { intros H. apply Exists_exists in H as (y & Hy & Hb). apply (In_nth _ _ f0) in Hy as (j & Hj & <-). exists j. split; [lia|auto]. }
    assert (NN : nn o' (n_clusters o) = 1) by (unfold nn; rewrite N2, app_nth2, Ln, Nat.sub_diag by lia; reflexivity).
    assert (NO : forall i, i < n_clusters o -> nn o' i = nn o i) by (intros; unfold nn; rewrite N2, app_nth1 by lia; reflexivity).
    assert (Hns : 0 < n_clusters o -> 0 < n_samples o).
    { destruct Hs as [->|Hs]; [simpl; lia|]. now destruct (Shape_init _ _ _ Hs). }
    (* CH and WB *)
    assert (HM : (o = init_attrs \/ ShapeG d o) -> mu o' = mu_upd x o ->
       (Exists wild x -> n_clusters o < n_clusters o' /\ exists j, j < d /\ wild (at_ j (vrow o' (n_clusters o))) /\
          same (at_ j (vrow o' (n_clusters o))) (at_ j (mu o'))) /\
       (forall i0, (i0 < n_clusters o /\ exists j, j < d /\ wild (at_ j (vrow o i0)) /\ same (at_ j (vrow o i0)) (at_ j (mu o))) ->
          i0 < n_clusters o' /\ exists j, j < d /\ wild (at_ j (vrow o' i0)) /\ same (at_ j (vrow o' i0)) (at_ j (mu o')))).
    { intros HG Mu. split.
      - intros H. destruct (Hw H) as (j & Hj & Hb). split; [lia|]. exists j. rewrite R1, Mu. split; auto. split; auto.
        unfold mu_upd. destruct (Nat.eqb_spec (n_samples o) 0); [now apply (in_first _ _ _ _ _ HI)|].
        destruct HG as [->|HG]; [simpl in *; lia|]. destruct HG. rewrite nth_srmean by lia. apply (in_new _ _ _ _ _ HI); auto. lia.
      - intros i0 (Hi & j & Hj & Hb & Hq). split; [lia|]. exists j. rewrite R2, Mu by auto. split; auto. split; auto.
        destruct HG as [->|HG]; [simpl in *; lia|]. destruct HG. apply (mu_same d); auto. }
    (* the classes with a condition on the size *)
    assert (HP : forall P : nat -> attrs A -> Prop,
       (forall i, i < n_clusters o -> P i o -> P i o') ->
       (Exists wild x -> n_clusters o < n_clusters o' /\ exists j, j < d /\ wild (at_ j (vrow o' (n_clusters o))) /\ (2 <= nn o' (n_clusters o) -> P (n_clusters o) o')) /\
       (forall i0, (i0 < n_clusters o /\ exists j, j < d /\ wild (at_ j (vrow o i0)) /\ (2 <= nn o i0 -> P i0 o)) ->
          i0 < n_clusters o' /\ exists j, j < d /\ wild (at_ j (vrow o' i0)) /\ (2 <= nn o' i0 -> P i0 o'))).
    { intros P HPP. split.
      - intros H. destruct (Hw H) as (j & Hj & Hb). split; [lia|]. exists j. rewrite R1, NN. split; auto. split; auto. lia.
      - intros i0 (Hi & j & Hj & Hb & Hq). split; [lia|]. exists j. rewrite R2, NO by auto. split; auto. }
    split; [exact HS'|]. split; [exact HN|].
    destruct c; cbn [Shape param_inc Marked] in *; try congruence.
    - destruct (CH_new d x o Hs Hx) as (o1 & E & C & N & Gn & Mu & Sp). rewrite E in E0; inversion E0; subst o1. split; auto.
      destruct (HM Hs Mu). split; auto. split; auto. discriminate.
    - destruct (WB_new d x o Hs Hx) as (o1 & E & C & N & Gn & Mu & Sp). rewrite E in E0; inversion E0; subst o1. split; auto.
      destruct (HM Hs Mu). split; auto. split; auto. discriminate.
    - destruct (DB_new d x o Hs Hx) as (o1 & E & C & N & Gn & Mu & ED & ES). rewrite E in E0; inversion E0; subst o1.
      split; [intros [|]; discriminate|].
      destruct (HP (fun i o => bad (at_ i (S1 o)))) as [P1 P2]; [|split; [exact P1|split; [exact P2|discriminate]]].
      intros i Hi Hb. rewrite ES, app_nth1; auto. destruct Hs as [->|(_ & _ & Hl)]; [simpl in Hi; lia|lia].
    - destruct (XB_new d x o Hs Hx) as (o1 & E & C & N & Gn & Mu & ED). rewrite E in E0; inversion E0; subst o1.
      split; [intros [|]; discriminate|].
      destruct (HP (fun i o => bad (cpi o i))) as [P1 P2]; [|split; [exact P1|split; [exact P2|discriminate]]].
      intros i Hi Hb. unfold cpi. rewrite (gn_CP _ _ _ _ Gn), app_nth1; auto. destruct Hs as [->|([] & _)]; [simpl in Hi; lia|lia].
    - destruct (GD43_new d x o Hs Hx) as (o1 & E & C & N & Gn & Mu & ED). rewrite E in E0; inversion E0; subst o1.
      split; [intros [|]; discriminate|].
      destruct (HP (fun i o => bad (cpi o i))) as [P1 P2]; [|split; [exact P1|split; [exact P2|discriminate]]].
      intros i Hi Hb. unfold cpi. rewrite (gn_CP _ _ _ _ Gn), app_nth1; auto. destruct Hs as [->|([] & _)]; [simpl in Hi; lia|lia].
    - destruct (GD53_new d x o Hs Hx) as (o1 & E & C & N & Gn & Mu & ED). rewrite E in E0; inversion E0; subst o1.
      split; [intros [|]; discriminate|].
      destruct (HP (fun i o => bad (cpi o i))) as [P1 P2]; [|split; [exact P1|split; [exact P2|discriminate]]].
      intros i Hi Hb. unfold cpi. rewrite (gn_CP _ _ _ _ Gn), app_nth1; auto. destruct Hs as [->|([] & _)]; [simpl in Hi; lia|lia].
    - split; [intros [|]; discriminate|]. split; [|split; [|discriminate]].
      + intros H. destruct (Hw H) as (j & Hj & Hb). split; [lia|]. exists j. now rewrite R1.
      + intros i0 (Hi & j & Hj & Hb & _). split; [lia|]. exists j. now rewrite R2.
    - destruct (cSIL_new d x o Hs Hx) as (o1 & E & C & N & EC & EG & ES). rewrite E in E0; inversion E0; subst o1.
      split; [intros [|]; discriminate|].
      assert (Lc : length (CP o) = n_clusters o) by (destruct Hs as [->|[]]; auto).
      specialize (Hpos eq_refl).
      split; [|split].
      + intros H. destruct (Hw H) as (j & Hj & Hb). split; [lia|]. exists j. rewrite R1. split; auto. split; auto.
        intros a Ha Hn. rewrite ES. unfold S_app. rewrite entry_tab2 by lia. rewrite Nat.eqb_refl.
        destruct (Nat.eqb_spec a (n_clusters o)); [lia|]. rewrite (plain_sil_row (in_plain _ _ _ _ _ HI)). apply (sil_row_hot _ _ _ j); auto; [lia|]. apply Hpos. lia.
      + intros i0 (Hi & j & Hj & Hb & Hq). split; [lia|]. exists j. rewrite R2 by auto. split; auto. split; auto.
        intros a Ha Hn. rewrite ES. unfold S_app. rewrite entry_tab2 by lia.
        destruct (Nat.eqb_spec i0 (n_clusters o)); [lia|]. destruct (Nat.eqb_spec a (n_clusters o)) as [->|Hne].
        * unfold sil_col_new. rewrite (pl_dot _ (in_plain _ _ _ _ _ HI)). apply (in_hotsub _ _ _ _ _ HI), (in_hotadd _ _ _ _ _ HI); [apply (in_pos _ _ _ _ _ HI)|].
          apply (in_dot _ _ _ _ _ HI _ (at_ j (vrow o i0))); auto. apply nth_In. rewrite Lr; auto.
        * apply Hq; lia.
      + intros _ a Ha. unfold cpi. rewrite EC. destruct (Nat.eq_dec a (n_clusters o)) as [->|].
        * rewrite app_nth2, Lc, Nat.sub_diag by lia. cbn [nth]. rewrite (pl_dot _ (in_plain _ _ _ _ _ HI)). apply (in_pos _ _ _ _ _ HI).
        * rewrite app_nth1 by lia. apply Hpos. lia.
  Qed.

  Lemma marked_old c d x i (o o' : attrs A) : Shape c d o -> length x = d -> c <> krCIP -> i < n_clusters o -> 1 <= nn o i ->
    (c = kcSIL -> forall a, a < n_clusters o -> pos (cpi o a)) ->
    param_inc c x i o = (o', Ok tt) ->
    Shape c d o' /\ CommonOld d x i o o' /\ (c = kCH \/ c = kWB -> SEP o' = sep_of o') /\
    (Exists wild x -> Marked c d i o') /\
    (forall i0, Marked c d i0 o -> Marked c d i0 o') /\
    (c = kcSIL -> forall a, a < n_clusters o' -> pos (cpi o' a)).
  Proof.
    intros Hs Hx Hc Hi H1 Hpos E0.
    assert (HS' : Shape c d o' /\ CommonOld d x i o o').
    { destruct (shape_old c d x i o Hs Hx Hi) as (o1 & E1 & H2 & _ & H3); [intros Hq; contradiction|].
      rewrite E1 in E0. inversion E0; subst. auto. }
    destruct HS' as [HS' HN].
    destruct (Shape_init _ _ _ Hs) as (Hns & Ln & Hv & _).
    assert (Lv : length (mrows (v o)) = n_clusters o) by apply Hv.
    assert (Lr : forall i, i < n_clusters o -> length (vrow o i) = d).
    { intros j Hj. now apply (wfm_row (n_clusters o)). }
    destruct (old_rows d x i o o' Lv Hi HN) as [R1 R2]. assert (HN' := HN). destruct HN' as [N1 N2 N3].
    set (vn := v_upd (nn o i) (vrow o i) x) in *.
    assert (Lvn : length vn = d) by (unfold vn, v_upd; rewrite rmean_length; rewrite ?Lr; auto).
    assert (Ev : forall j, j < d -> at_ j vn = rm (nn o i + 1) (at_ j (vrow o i)) (at_ j x)).
    { intros j Hj. unfold vn, v_upd. apply nth_rmean; rewrite ?Lr; auto; lia. }
    assert (Hw : Exists wild x -> exists j, j < d /\ wild (at_ j x)).
    { intros H. apply Exists_exists in H as (y & Hy & Hb). apply (In_nth _ _ f0) in Hy as (j & Hj & <-). exists j. split; [lia|auto]. }
    assert (Wv : forall j, j < d -> wild (at_ j (vrow o i)) \/ wild (at_ j x) -> wild (at_ j vn)).
    { intros j Hj H. rewrite Ev by auto. apply (in_wild _ _ _ _ _ HI); auto. lia. }
    assert (NO : forall a, a <> i -> nn o' a = nn o a).
    { intros a Ha. unfold nn at 1. rewrite N2, nth_upd by lia. destruct (Nat.eqb_spec a i); [lia|reflexivity]. }
    assert (HM : ShapeG d o -> mu o' = mu_upd x o ->
       (Exists wild x -> i < n_clusters o' /\ exists j, j < d /\ wild (at_ j (vrow o' i)) /\ same (at_ j (vrow o' i)) (at_ j (mu o'))) /\
       (forall i0, (i0 < n_clusters o /\ exists j, j < d /\ wild (at_ j (vrow o i0)) /\ same (at_ j (vrow o i0)) (at_ j (mu o))) ->
          i0 < n_clusters o' /\ exists j, j < d /\ wild (at_ j (vrow o' i0)) /\ same (at_ j (vrow o' i0)) (at_ j (mu o')))).
    { intros [] Mu.
      assert (Em : forall j, j < d -> at_ j (mu o') = rm (n_samples o + 1) (at_ j (mu o)) (at_ j x)).
      { intros j Hj. rewrite Mu. unfold mu_upd. destruct (Nat.eqb_spec (n_samples o) 0); [lia|]. apply nth_srmean; lia. }
      split.
      - intros H. destruct (Hw H) as (j & Hj & Hb). split; [lia|]. exists j. rewrite R1. split; auto. split; [auto|].
        rewrite Ev, Em by auto. apply (in_join _ _ _ _ _ HI); auto; lia.
      - intros i0 (Hi0 & j & Hj & Hb & Hq). split; [lia|]. exists j. split; auto. destruct (Nat.eq_dec i0 i) as [->|Hne].
        + rewrite R1. split; [auto|]. rewrite Ev, Em by auto. apply (in_both _ _ _ _ _ HI); auto; lia.
        + rewrite R2, Em by auto. split; auto. apply (in_stay _ _ _ _ _ HI); auto; lia. }
    assert (HP : forall P : nat -> attrs A -> Prop,
       (forall j, j < d -> wild (at_ j (vrow o i)) \/ wild (at_ j x) -> P i o') ->
       (forall a, a < n_clusters o -> a <> i -> P a o -> P a o') ->
       (Exists wild x -> i < n_clusters o' /\ exists j, j < d /\ wild (at_ j (vrow o' i)) /\ (2 <= nn o' i -> P i o')) /\
       (forall i0, (i0 < n_clusters o /\ exists j, j < d /\ wild (at_ j (vrow o i0)) /\ (2 <= nn o i0 -> P i0 o)) ->
          i0 < n_clusters o' /\ exists j, j < d /\ wild (at_ j (vrow o' i0)) /\ (2 <= nn o' i0 -> P i0 o'))).
    { intros P HP1 HP2. split.
      - intros H. destruct (Hw H) as (j & Hj & Hb). split; [lia|]. exists j. rewrite R1. split; auto. split; [auto|]. intros _. apply (HP1 j); auto.
      - intros i0 (Hi0 & j & Hj & Hb & Hq). split; [lia|]. exists j. split; auto. destruct (Nat.eq_dec i0 i) as [->|Hne].
        + rewrite R1. split; [auto|]. intros _. apply (HP1 j); auto.
        + rewrite R2, NO by auto. split; auto. }
    assert (HCP : forall (Hl : length (CP o) = n_clusters o), CP o' = upd i (cp_upd (nn o i) (vrow o i) (cpi o i) (grow_ o i) x) (CP o) ->
       (forall j, j < d -> wild (at_ j (vrow o i)) \/ wild (at_ j x) -> bad (cpi o' i)) /\
       (forall a, a < n_clusters o -> a <> i -> bad (cpi o a) -> bad (cpi o' a))).
    { intros Hl E. split.
      - intros j Hj H. unfold cpi at 1. rewrite E, nth_upd, Nat.eqb_refl by lia. apply (cp_marked _ _ _ _ _ j); rewrite ?Lr; auto; lia.
      - intros a Ha Hne Hb. unfold cpi at 1. rewrite E, nth_upd by lia. destruct (Nat.eqb_spec a i); [lia|exact Hb]. }
    split; [exact HS'|]. split; [exact HN|].
    destruct c; cbn [Shape param_inc Marked] in *; try congruence.
    - destruct (CH_old d x i o Hs Hx Hi) as (o1 & E & C & N & Gn & Mu & Sp). rewrite E in E0; inversion E0; subst o1. split; auto.
      destruct (HM Hs Mu). split; auto. split; auto. discriminate.
    - destruct (WB_old d x i o Hs Hx Hi) as (o1 & E & C & N & Gn & Mu & Sp). rewrite E in E0; inversion E0; subst o1. split; auto.
      destruct (HM Hs Mu). split; auto. split; auto. discriminate.
    - destruct (DB_old d x i o Hs Hx Hi) as (o1 & E & C & N & Gn & Mu & ED & ES). rewrite E in E0; inversion E0; subst o1.
      split; [intros [|]; discriminate|]. destruct Hs as (HG & _ & Hl). destruct HG.
      destruct (HP (fun i o => bad (at_ i (S1 o)))) as [P1 P2]; [| |split; [exact P1|split; [exact P2|discriminate]]].
      + intros j Hj H. rewrite ES, nth_upd, Nat.eqb_refl by lia. apply HB. left. apply (cp_marked _ _ _ _ _ j); rewrite ?Lr; auto; lia.
      + intros a Ha Hne Hb. rewrite ES, nth_upd by lia. destruct (Nat.eqb_spec a i); [lia|exact Hb].
    - destruct (XB_old d x i o Hs Hx Hi) as (o1 & E & C & N & Gn & Mu & ED). rewrite E in E0; inversion E0; subst o1.
      split; [intros [|]; discriminate|]. destruct Hs as (HG & _). destruct (HCP (sg_CP _ _ HG) (go_CP _ _ _ _ _ Gn)) as [Q1 Q2].
      destruct (HP (fun i o => bad (cpi o i)) Q1 Q2) as [P1 P2]. split; [exact P1|split; [exact P2|discriminate]].
    - destruct (GD43_old d x i o Hs Hx Hi) as (o1 & E & C & N & Gn & Mu & ED). rewrite E in E0; inversion E0; subst o1.
      split; [intros [|]; discriminate|]. destruct Hs as (HG & _). destruct (HCP (sg_CP _ _ HG) (go_CP _ _ _ _ _ Gn)) as [Q1 Q2].
      destruct (HP (fun i o => bad (cpi o i)) Q1 Q2) as [P1 P2]. split; [exact P1|split; [exact P2|discriminate]].
    - destruct (GD53_old d x i o Hs Hx Hi) as (o1 & E & C & N & Gn & Mu & ED). rewrite E in E0; inversion E0; subst o1.
      split; [intros [|]; discriminate|]. destruct Hs as (HG & _). destruct (HCP (sg_CP _ _ HG) (go_CP _ _ _ _ _ Gn)) as [Q1 Q2].
      destruct (HP (fun i o => bad (cpi o i)) Q1 Q2) as [P1 P2]. split; [exact P1|split; [exact P2|discriminate]].
    - split; [intros [|]; discriminate|]. split; [|split; [|discriminate]].
      + intros H. destruct (Hw H) as (j & Hj & Hb). split; [lia|]. exists j. rewrite R1. auto.
      + intros i0 (Hi0 & j & Hj & Hb & _). split; [lia|]. exists j. split; auto. split; auto.
        destruct (Nat.eq_dec i0 i) as [->|Hne]; [rewrite R1; auto|rewrite R2; auto].
    - destruct (cSIL_old d x i o Hs Hx Hi) as (o1 & E & C & N & EC & EG & ES). rewrite E in E0; inversion E0; subst o1.
      split; [intros [|]; discriminate|]. destruct Hs. specialize (Hpos eq_refl).
      split; [|split].
      + intros H. destruct (Hw H) as (j & Hj & Hb). split; [lia|]. exists j. rewrite R1. split; auto. split; [auto|].
        intros a Ha Hn. rewrite ES. unfold S_set. rewrite entry_tab2 by lia. rewrite Nat.eqb_refl.
        destruct (Nat.eqb_spec a i); [lia|]. apply (sil_row_hot _ _ _ j); fold vn; auto; [lia|]. apply Hpos. lia.
      + intros i0 (Hi0 & j & Hj & Hb & Hq). split; [lia|]. exists j. split; auto. destruct (Nat.eq_dec i0 i) as [->|Hne].
        * rewrite R1. split; [auto|]. intros a Ha Hn. rewrite ES. unfold S_set. rewrite entry_tab2 by lia. rewrite Nat.eqb_refl.
          destruct (Nat.eqb_spec a i); [lia|]. apply (sil_row_hot _ _ _ j); fold vn; auto; [lia|]. apply Hpos. lia.
        * rewrite R2 by auto. split; auto. intros a Ha Hn. rewrite ES. unfold S_set. rewrite entry_tab2 by lia.
          destruct (Nat.eqb_spec i0 i); [lia|]. destruct (Nat.eqb_spec a i) as [->|Hna]; [|apply Hq; lia].
          unfold sil_col_old. cbv zeta.
          apply (in_hotdiv _ _ _ _ _ HI), (in_hotsub _ _ _ _ _ HI), (in_hotadd _ _ _ _ _ HI).
          -- apply (in_posadd _ _ _ _ _ HI); [now apply Hpos|apply (in_pos _ _ _ _ _ HI)].
          -- apply (in_hotmul _ _ _ _ _ HI). apply (in_dot _ _ _ _ _ HI _ (at_ j (vrow o i0))); auto. apply nth_In. rewrite Lr; auto.
      + intros _ a Ha. unfold cpi at 1. rewrite EC, nth_upd by lia. destruct (Nat.eqb_spec a i) as [->|].
        * rewrite (pl_add _ (in_plain _ _ _ _ _ HI)), (pl_dot _ (in_plain _ _ _ _ _ HI)). apply (in_posadd _ _ _ _ _ HI); [now apply Hpos|apply (in_pos _ _ _ _ _ HI)].
        * apply Hpos. lia.
  Qed.
End Inf.
