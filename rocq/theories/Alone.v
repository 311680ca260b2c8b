(** * Streams in which every sample has a label of its own.  For every arithmetic
    in which zeros behave as in [Zeros]. *)
From Coq Require Import ZArith List Arith Bool Lia.
From Verif Require Import Num NumPy Base M_CH M_D M_PS GetCvi Lists Step Step2 StepB Hoare Eval Shapes Stream Generic.
Import ListNotations.

(** [Z]: zero or nan; [N]: nan; [Q]: not negative, or nan; [I]: +inf or nan *)
Record Zeros (A : Arith) (Z N Q I : F A -> Prop) : Prop := mkZeros {
  z_add00 : fadd f0 f0 = f0 :> F A;
  z_div01 : fdiv f0 f1 = f0 :> F A;
  z_div02 : fdiv f0 f2 = f0 :> F A;
  z_mul20 : fmul f2 f0 = f0 :> F A;
  z_min00 : fminimum f0 f0 = f0 :> F A;
  z_max00 : fmaximum f0 f0 = f0 :> F A;
  z_0 : Z f0;
  z_N : N (fdiv f0 f0);
  z_add a b : Z a -> Z b -> Z (fadd a b);
  z_div a b : Z a -> Z (fdiv a b);
  z_mul a k : Z a -> Z (fmul a (f_of_nat k));
  z_max a b : Z a -> Z b -> Z (fmaximum a b);
  z_sum l : Forall Z l -> Z (np_sum l);
  z_ch b m : (0 < m)%Z -> N (fmul (fdiv b f0) (fdiv f0 (f_of_Z m)));
  q_sqrt x : Q (fsqrt x);
  q_min a b : Q a -> Q b -> Q (fminimum a b);
  q_inf a : Q a -> I (fdiv a f0)
}.

Section Alone.
  Context {A : Arith}.

  (** what the object holds of [k] clusters of one sample each *)
  Record Single (c : kind) (k : nat) (o : attrs A) : Prop := mkSingle {
    sg_k : n_clusters o = k;
    sg_ns : n_samples o = k;
    sg_n : n o = repeat 1 k;
    sg_CP : CP o = repeat f0 k;
    sg_S1 : c = kDB -> S1 o = repeat f0 k;
    sg_D43 : c = kGD43 -> forall i j, i < j -> j < k -> exists x, entry (D o) i j = fsqrt x;
    sg_D53 : c = kGD53 -> forall i j, i < j -> j < k -> entry (D o) i j = fdiv (fadd f0 f0) f2
  }.
  Definition six (c : kind) : Prop := In c [kCH; kWB; kDB; kXB; kGD43; kGD53].

  Lemma repeat_snoc {X} (x : X) k : repeat x k ++ [x] = repeat x (S k).
  Proof. induction k; simpl; auto. now rewrite IHk. Qed.
  Lemma six_inv c d : six c -> inv_good (A := A) c d.
  Proof. intros H ->. repeat (destruct H as [H|H]; [discriminate|]). destruct H. Qed.

  Lemma single_new c d k x (o : attrs A) : six c -> o = init_attrs \/ Shape c d o -> length x = d -> Single c k o ->
    exists o', param_inc c x k o = (o', Ok tt) /\ Single c (S k) o'.
  Proof.
    intros Hc Hs Hx [K1 K2 K3 K4 K5 K6 K7]. subst k. set (k := n_clusters o) in *.
    assert (B : forall o', Common d x o o' -> CommonNew d x o o' -> GNew d x o o' ->
      (c = kDB -> S1 o' = S1 o ++ [f0]) ->
      (c = kGD43 -> D o' = D_app k (entry (D o)) (GD43t o x f0 1)) ->
      (c = kGD53 -> D o' = D_app k (entry (D o)) (GD53t o x f0 1)) -> Single c (S k) o').
    { intros o' [C1 _ _ _ _] [N1 N2 _] [G1 _] HS H43 H53. constructor.
      - rewrite N1. fold k. lia.
      - rewrite C1, K2. lia.
      - rewrite N2, K3. apply repeat_snoc.
      - rewrite G1, K4. apply repeat_snoc.
      - intros E. rewrite (HS E), (K5 E). apply repeat_snoc.
      - intros E i j Hi Hj. rewrite (H43 E). unfold D_app. rewrite entry_tab2 by lia.
        destruct (Nat.eqb_spec j k) as [->|Hjk].
        + destruct (Nat.eqb_spec i k); [lia|]. unfold GD43t. eexists. reflexivity.
        + destruct (Nat.eqb_spec i k); [lia|]. apply K6; auto. lia.
      - intros E i j Hi Hj. rewrite (H53 E). unfold D_app. rewrite entry_tab2 by lia.
        destruct (Nat.eqb_spec j k) as [->|Hjk].
        + destruct (Nat.eqb_spec i k); [lia|]. unfold GD53t, cpi, nn. rewrite K3, K4.
          rewrite !nth_repeat, (nth_indep _ 0 1) by (rewrite repeat_length; lia). now rewrite nth_repeat.
        + destruct (Nat.eqb_spec i k); [lia|]. apply K7; auto. lia. }
    unfold six in Hc. repeat (destruct Hc as [<-|Hc]; [|]); [..|destruct Hc]; cbn [Shape param_inc] in *.
    - destruct (CH_new d x o Hs Hx) as (o' & E & C & Nw & Gn & _). exists o'. split; auto. apply B; auto; discriminate.
    - destruct (WB_new d x o Hs Hx) as (o' & E & C & Nw & Gn & _). exists o'. split; auto. apply B; auto; discriminate.
    - destruct (DB_new d x o Hs Hx) as (o' & E & C & Nw & Gn & _ & _ & ES). exists o'. split; auto. apply B; auto; discriminate.
    - destruct (XB_new d x o Hs Hx) as (o' & E & C & Nw & Gn & _). exists o'. split; auto. apply B; auto; discriminate.
    - destruct (GD43_new d x o Hs Hx) as (o' & E & C & Nw & Gn & _ & ED). exists o'. split; auto. apply B; auto; discriminate.
    - destruct (GD53_new d x o Hs Hx) as (o' & E & C & Nw & Gn & _ & ED). exists o'. split; auto. apply B; auto; discriminate.
  Qed.
  Lemma single_frame c k (o o' : attrs A) : Frame o o' -> Single c k o -> Single c k o'.
  Proof.
    intros [] [K1 K2 K3 K4 K5 K6 K7]. constructor; try congruence.
    - intros E. rewrite <- (K5 E). congruence.
    - intros E i j Hi Hj. destruct (K6 E i j Hi Hj) as [x Hx]. exists x. congruence.
    - intros E i j Hi Hj. rewrite <- (K7 E i j Hi Hj). congruence.
  Qed.

  (** ** Their values *)
  Context (Z N Q I : F A -> Prop) (HZ : Zeros A Z N Q I).
  Lemma sum_zeros k : py_sum (repeat f0 k : vec A) = f0.
  Proof. unfold py_sum. induction k; simpl; auto. now rewrite (z_add00 _ _ _ _ _ HZ). Qed.
  Lemma ratios_ones k : map2 fdiv (repeat f0 k : vec A) (map f_of_nat (repeat 1 k)) = repeat f0 k.
  Proof. induction k; simpl; auto. rewrite IHk. f_equal. apply (z_div01 _ _ _ _ _ HZ). Qed.
  Lemma max_zeros k : vmax (repeat f0 (S k) : vec A) = f0.
  Proof. cbn [repeat vmax]. induction k; simpl; auto. now rewrite (z_max00 _ _ _ _ _ HZ). Qed.
  Lemma vmin_all (P : F A -> Prop) (l : vec A) : (forall a b, P a -> P b -> P (fminimum a b)) -> l <> [] -> Forall P l -> P (vmin l).
  Proof.
    intros H Hl Hf. destruct l as [|x l]; [congruence|]. inversion Hf as [|? ? H1 H2]; subst. cbn [vmin]. clear Hl Hf.
    revert x H1. induction H2; intros; simpl; auto.
  Qed.
  Lemma vmax_all (P : F A -> Prop) (l : vec A) : (forall a b, P a -> P b -> P (fmaximum a b)) -> P f0 -> Forall P l -> P (vmax l).
  Proof.
    intros H H0 Hf. destruct l as [|x l]; auto. inversion Hf as [|? ? H1 H2]; subst. cbn [vmax]. clear Hf.
    revert x H1. induction H2; intros; simpl; auto.
  Qed.
  Lemma triu_all (P : F A -> Prop) k e : (forall i j, i < j -> j < k -> P (e i j)) -> Forall P (triu k e).
  Proof.
    intros H. apply Forall_forall. intros x Hx. unfold triu in Hx. apply in_flat_map in Hx as (i & Hi & Hx).
    apply in_map_iff in Hx as (j & <- & Hj). apply in_seq in Hi. apply in_seq in Hj. apply H; lia.
  Qed.

  (** the values of the six classes on clusters of one sample each *)
  Definition alone (c : kind) (x : F A) : Prop :=
    match c with
    | kWB | kDB | kXB => Z x
    | kGD43 => I x
    | kCH | kGD53 => N x
    | _ => True
    end.
  Lemma alone_val c k (o : attrs A) : six c -> 1 < k -> Single c k o -> alone c (val_of c o).
  Proof.
    intros Hc Hk [K1 K2 K3 K4 K5 K6 K7]. unfold val_of.
    destruct (Nat.leb_spec (n_clusters o) 1) as [Hl|_]; [lia|].
    assert (HG : c = kGD43 \/ c = kGD53 -> fmul f2 (vmax (map2 fdiv (CP o) (map f_of_nat (n o)))) = f0 :> F A).
    { intros _. rewrite K3, K4, ratios_ones. destruct k; [lia|]. rewrite max_zeros. apply (z_mul20 _ _ _ _ _ HZ). }
    unfold six in Hc. repeat (destruct Hc as [<-|Hc]; [|]); [..|destruct Hc]; cbn [alone].
    - unfold CH_val. rewrite K1, K2, K4, sum_zeros, Z.sub_diag. apply (z_ch _ _ _ _ _ HZ). lia.
    - unfold WB_val. rewrite K4, sum_zeros. apply (z_mul _ _ _ _ _ HZ), (z_div _ _ _ _ _ HZ), (z_0 _ _ _ _ _ HZ).
    - unfold DB_val. apply (z_div _ _ _ _ _ HZ), (z_sum _ _ _ _ _ HZ).
      assert (HL : forall i j, Z (DB_low o j i)).
      { intros i j. unfold DB_low. destruct (i <? j); [|apply (z_0 _ _ _ _ _ HZ)].
        rewrite (K5 eq_refl), !nth_repeat, (z_add00 _ _ _ _ _ HZ). apply (z_div _ _ _ _ _ HZ), (z_0 _ _ _ _ _ HZ). }
      apply Forall_map, Forall_forall. intros j _.
      apply vmax_all; [apply (z_max _ _ _ _ _ HZ)|apply (z_0 _ _ _ _ _ HZ)|].
      apply Forall_map, Forall_forall. intros i _. apply (z_add _ _ _ _ _ HZ); auto.
    - unfold XB_val. rewrite K4, sum_zeros. apply (z_div _ _ _ _ _ HZ), (z_0 _ _ _ _ _ HZ).
    - unfold GD_val. rewrite HG by auto. apply (q_inf _ _ _ _ _ HZ). rewrite K1.
      apply vmin_all; [apply (q_min _ _ _ _ _ HZ)|now apply triu_ne|].
      apply triu_all. intros i j Hi Hj. destruct (K6 eq_refl i j Hi Hj) as [x ->]. apply (q_sqrt _ _ _ _ _ HZ).
    - unfold GD_val. rewrite HG by auto. rewrite K1.
      replace (vmin (triu k (entry (D o)))) with (f0 : F A); [apply (z_N _ _ _ _ _ HZ)|]. symmetry.
      apply (vmin_all (fun x => x = f0)); [|now apply triu_ne|].
      + intros a b -> ->. apply (z_min00 _ _ _ _ _ HZ).
      + apply triu_all. intros i j Hi Hj. rewrite (K7 eq_refl i j Hi Hj), (z_add00 _ _ _ _ _ HZ). apply (z_div02 _ _ _ _ _ HZ).
  Qed.

  Lemma firsts_distinct {X} (s : list (X * BinInt.Z)) : NoDup (map snd s) -> firsts s = map snd s.
  Proof.
    induction s as [|[x l] s IH] using rev_ind; intros H; auto. rewrite map_app in H |- *. cbn [map snd] in *.
    rewrite firsts_snoc. assert (H' := H). rewrite <- (app_nil_r (map snd s ++ [l])), <- app_assoc in H'. apply NoDup_remove in H' as [H1 H2].
    rewrite app_nil_r in H1, H2. rewrite IH by auto. unfold add_label. destruct (in_dec _ _ _); [contradiction|reflexivity].
  Qed.

  Lemma run_alone c d s : six c -> wf_stream (A := A) d s -> NoDup (map snd s) -> exists a vals,
    run c new_obj (stream s) = (mkObj (lmap (firsts s)) a, map Ok vals) /\
    ((s = [] /\ a = init_attrs) \/ (s <> [] /\ Shape c d a)) /\ Single c (length s) a /\
    length vals = length s /\ (forall i, 1 <= i -> i < length s -> alone c (nth i vals f0)).
  Proof.
    intros Hc. pose proof (six_inv c d Hc) as HI.
    induction s as [|[x l] s IH] using rev_ind; intros Hw Hn.
    - exists init_attrs, []. repeat split; auto; try reflexivity; try (intros; cbn in *; lia).
    - assert (Hn' : NoDup (map snd s) /\ ~ In l (map snd s)).
      { rewrite map_app in Hn. cbn [map snd] in Hn. apply NoDup_remove in Hn. now rewrite app_nil_r in Hn. }
      destruct Hn' as [Hn1 Hn2].
      destruct (IH (wf_snoc _ _ _ Hw) Hn1) as (a & vals & Er & Hs & Hg & Hl & Hv).
      assert (HS : a = init_attrs \/ Shape c d a) by (destruct Hs as [[_ H]|[_ H]]; auto).
      pose proof (wf_last _ _ _ _ Hw) as Hx.
      assert (Ei : index l (firsts s) = length s).
      { rewrite firsts_distinct, index_notIn by auto. apply map_length. }
      destruct (single_new c d (length s) x a Hc HS Hx Hg) as (a1 & E1 & G1).
      destruct (shape_new c d x a HS Hx HI) as (a1' & E1' & S1' & _).
      rewrite (sg_k _ _ _ Hg), E1 in E1'. injection E1' as <-.
      destruct (ev_total c d a1 S1') as (a2 & E2 & E3 & FR).
      exists a2, (vals ++ [criterion_value a2]). split; [|split; [|split; [|split]]].
      + rewrite stream_app, run_app, Er. cbn [fst snd stream map run]. unfold get_cvi, update.
        cbn [label_map at_ fst snd]. rewrite lmap_get, Ei, E1. cbn [at_ label_map]. rewrite E2. cbn [fst snd].
        rewrite map_app, firsts_snoc. reflexivity.
      + right. split; [destruct s; discriminate|eapply Shape_frame; eauto].
      + rewrite app_length. cbn [length]. rewrite Nat.add_1_r. eapply single_frame; eauto.
      + rewrite !app_length. cbn [length]. lia.
      + intros i H1 H2. rewrite app_length in H2. cbn [length] in H2.
        destruct (Nat.eq_dec i (length s)) as [->|Hi].
        * rewrite app_nth2, Hl, Nat.sub_diag by lia. cbn [nth]. rewrite E3. apply (alone_val c (S (length s))); auto. lia.
        * rewrite app_nth1 by lia. apply Hv; lia.
  Qed.
End Alone.
