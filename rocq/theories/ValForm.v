(** * The values after a stream and after one batch, from the attributes cluster
    by cluster.  For every arithmetic. *)
From Coq Require Import ZArith List Arith Bool Lia.
From Verif Require Import Num NumPy Base M_CH M_D M_PS GetCvi Lists Step Step2 StepB Hoare Eval Stream Shapes Generic Nan RunForm BatchForm.
Import ListNotations.

Section ValForm.
  Context {A : Arith}.

  (** the entry of the matrix _D for two clusters *)
  Definition dterm (c : kind) (x y : cl (A := A)) : F A :=
    match c with
    | kDB | kXB => sqd (c_v x) (c_v y)
    | kGD43 => fsqrt (sqd (c_v x) (c_v y))
    | kGD53 => fdiv (fadd (c_cp x) (c_cp y)) (f_of_nat (c_n x + c_n y))
    | _ => f0
    end.
  Definition dclass (c : kind) : bool := match c with kDB | kXB | kGD43 | kGD53 => true | _ => false end.
  Definition cl_at (gs : list (list (vec A))) (i : nat) : cl := cl_of (nth i gs []).
  Definition Dform (c : kind) (gs : list (list (vec A))) (m : mat A) : Prop :=
    forall i j, i < length gs -> j < length gs -> i <> j ->
    entry m i j = dterm c (cl_at gs i) (cl_at gs j) \/ entry m i j = dterm c (cl_at gs j) (cl_at gs i).
  (** _S of DB: 0 until the cluster has a second sample *)
  Definition S_form (xs : list (vec A)) : F A :=
    if length xs =? 1 then f0 else fdiv (c_cp (cl_of xs)) (f_of_nat (length xs)).

  Record Extra (c : kind) (s : list (vec A * Z)) (a : attrs A) : Prop := mkExtra {
    ex_D : dclass c = true -> Dform c (groups s) (D a);
    ex_S : c = kDB -> S1 a = map S_form (groups s)
  }.

  Lemma d_new c d x (o : attrs A) : dclass c = true -> o = init_attrs \/ Shape c d o -> length x = d -> exists o' g,
    param_inc c x (n_clusters o) o = (o', Ok tt) /\
    D o' = D_app (n_clusters o) (entry (D o)) g /\ (c = kDB -> S1 o' = S1 o ++ [f0]) /\
    (forall j, g j = dterm c (cl_one x) (mkCl (nn o j) (vrow o j) (cpi o j) [])).
  Proof.
    intros Hc Hs Hx. destruct c; try discriminate; cbn [Shape param_inc] in *.
    - destruct (DB_new d x o Hs Hx) as (o' & E & _ & _ & _ & _ & HD & HS). exists o', (DBt o x f0 1). repeat split; auto.
    - destruct (XB_new d x o Hs Hx) as (o' & E & _ & _ & _ & _ & HD). exists o', (XBt o x f0 1). repeat split; auto; discriminate.
    - destruct (GD43_new d x o Hs Hx) as (o' & E & _ & _ & _ & _ & HD). exists o', (GD43t o x f0 1). repeat split; auto; discriminate.
    - destruct (GD53_new d x o Hs Hx) as (o' & E & _ & _ & _ & _ & HD). exists o', (GD53t o x f0 1). repeat split; auto; discriminate.
  Qed.
  Lemma d_old c d x i (o : attrs A) : dclass c = true -> Shape c d o -> length x = d -> i < n_clusters o -> exists o' g,
    let cp' := cp_upd (nn o i) (vrow o i) (cpi o i) (grow_ o i) x in
    param_inc c x i o = (o', Ok tt) /\
    D o' = D_set (n_clusters o) i (entry (D o)) g /\ (c = kDB -> S1 o' = upd i (fdiv cp' (f_of_nat (nn o i + 1))) (S1 o)) /\
    (forall j, g j = dterm c (mkCl (nn o i + 1) (v_upd (nn o i) (vrow o i) x) cp' []) (mkCl (nn o j) (vrow o j) (cpi o j) [])).
  Proof.
    intros Hc Hs Hx Hi. destruct c; try discriminate; cbn [Shape param_inc] in *.
    - destruct (DB_old d x i o Hs Hx Hi) as (o' & E & _ & _ & _ & _ & HD & HS). eexists o', _. repeat split; eauto.
    - destruct (XB_old d x i o Hs Hx Hi) as (o' & E & _ & _ & _ & _ & HD). eexists o', _. repeat split; eauto; discriminate.
    - destruct (GD43_old d x i o Hs Hx Hi) as (o' & E & _ & _ & _ & _ & HD). eexists o', _. repeat split; eauto; discriminate.
    - destruct (GD53_old d x i o Hs Hx Hi) as (o' & E & _ & _ & _ & _ & HD). eexists o', _. repeat split; eauto; discriminate.
  Qed.
  (** only size, centroid and compactness matter *)
  Lemma dterm_ext c x y x' y' : c_n x = c_n x' -> c_v x = c_v x' -> c_cp x = c_cp x' ->
    c_n y = c_n y' -> c_v y = c_v y' -> c_cp y = c_cp y' -> dterm c x y = dterm c x' y'.
  Proof. intros. destruct c; cbn [dterm]; congruence. Qed.

  Lemma dclass_g c : dclass c = true -> gclass c = true. Proof. destruct c; auto. Qed.

  Lemma extra_step c d s x l (a a1 : attrs A) : Formed c d s a -> Extra c s a -> length x = d ->
    param_inc c x (index l (firsts s)) a = (a1, Ok tt) -> Extra c (s ++ [(x, l)]) a1.
  Proof.
    intros HF [X2 X3] Hx E0. destruct HF as [Hs Hk Hn Hv Hg].
    assert (HX : forall j, j < n_clusters a -> dclass c = true -> nn a j = c_n (cl_at (groups s) j) /\
                   vrow a j = c_v (cl_at (groups s) j) /\ cpi a j = c_cp (cl_at (groups s) j)).
    { intros j Hj Hc. destruct (Hg (dclass_g c Hc)) as (_ & G2 & _). unfold cl_at. rewrite Hk in Hj. split; [|split].
      - unfold nn. rewrite Hn, cl_of_n. now apply (nth_groups (@length _)).
      - unfold vrow. rewrite Hv. now apply (nth_groups (fun xs => c_v (cl_of xs))).
      - unfold cpi. rewrite G2. now apply (nth_groups (fun xs => c_cp (cl_of xs))). }
    assert (Lg : length (groups s) = n_clusters a) by (rewrite groups_length; auto).
    destruct (in_dec Z.eq_dec l (firsts s)) as [Hin|Hin].
    - assert (HS : Shape c d a) by (destruct Hs as [[-> _]|[_ H]]; [destruct Hin|auto]).
      destruct (index_In _ _ Hin) as [Hi Hl].
      pose proof (groups_ne s _ Hi) as Hgne. rewrite <- Hk in Hi.
      assert (Hgr := groups_old s x l Hin). cbv zeta in Hgr. set (i := index l (firsts s)) in *.
      constructor.
      + intros Hc. destruct (d_old c d x i a Hc HS Hx Hi) as (o' & g & E' & HD & _ & Hgj).
        rewrite E' in E0. injection E0 as ->. rewrite Hgr. intros p q Hp Hq Hpq. rewrite length_upd in Hp, Hq.
        rewrite Lg in Hp, Hq. rewrite HD. unfold D_set. rewrite entry_tab2 by auto.
        assert (Ei : forall j, j < n_clusters a -> j <> i -> cl_at (upd i (nth i (groups s) [] ++ [x]) (groups s)) j = cl_at (groups s) j).
        { intros j Hj Hji. unfold cl_at. rewrite nth_upd by (now rewrite Lg). destruct (Nat.eqb_spec j i); [contradiction|reflexivity]. }
        assert (Eo : forall j, j < n_clusters a -> j <> i ->
                  g j = dterm c (cl_at (upd i (nth i (groups s) [] ++ [x]) (groups s)) i) (cl_at (upd i (nth i (groups s) [] ++ [x]) (groups s)) j)).
        { intros j Hj Hji. rewrite Hgj, (Ei j) by auto. destruct (HX j Hj Hc) as (Y1 & Y2 & Y3). destruct (HX i Hi Hc) as (Z1 & Z2 & Z3).
          assert (Z4 : grow_ a i = c_g (cl_at (groups s) i)).
          { destruct (Hg (dclass_g c Hc)) as (_ & _ & G3 & _). unfold grow_, cl_at. rewrite G3.
            apply (nth_groups (fun xs => c_g (cl_of xs))). now rewrite <- Hk. }
          unfold cl_at at 1. rewrite nth_upd, Nat.eqb_refl by (now rewrite Lg). rewrite cl_of_snoc by auto. fold (cl_at (groups s) i).
          apply dterm_ext; cbn [c_n c_v c_cp cl_add]; auto; rewrite ?Z1, ?Z2, ?Z3, ?Z4; auto. }
        destruct (Nat.eqb_spec q i) as [->|Hqi].
        * destruct (Nat.eqb_spec p i) as [->|Hpi]; [contradiction|]. right. now apply Eo.
        * destruct (Nat.eqb_spec p i) as [->|Hpi]; [left; now apply Eo|]. rewrite !Ei by auto.
          apply X2; auto; now rewrite Lg.
      + intros ->. destruct (d_old kDB d x i a eq_refl HS Hx Hi) as (o' & g & E' & _ & HS1 & _).
        rewrite E' in E0. injection E0 as ->. rewrite HS1, X3, Hgr, map_upd by auto. f_equal.
        destruct (HX i Hi eq_refl) as (Z1 & Z2 & Z3).
        destruct (Hg eq_refl) as (_ & _ & G3 & _).
        assert (Z4 : grow_ a i = c_g (cl_at (groups s) i)).
        { unfold grow_, cl_at. rewrite G3. apply (nth_groups (fun xs => c_g (cl_of xs))). now rewrite <- Hk. }
        unfold S_form. rewrite app_length. cbn [length].
        destruct (Nat.eqb_spec (length (nth i (groups s) []) + 1) 1) as [E|_].
        { destruct (nth i (groups s) []); [congruence|cbn [length] in E; lia]. }
        rewrite cl_of_snoc by auto. cbn [cl_add c_cp]. fold (cl_at (groups s) i). rewrite Z1, Z2, Z3, Z4. f_equal. f_equal.
        unfold cl_at. now rewrite cl_of_n.
    - assert (HS : a = init_attrs \/ Shape c d a) by (destruct Hs as [[_ H]|[_ H]]; auto).
      rewrite index_notIn in E0 by auto. rewrite <- Hk in E0.
      assert (Hgr := groups_new s x l Hin).
      constructor.
      + intros Hc. destruct (d_new c d x a Hc HS Hx) as (o' & g & E' & HD & _ & Hgj).
        rewrite E' in E0. injection E0 as ->. rewrite Hgr. intros p q Hp Hq Hpq. rewrite app_length in Hp, Hq. cbn [length] in Hp, Hq.
        rewrite Lg, Nat.add_1_r in Hp, Hq. rewrite HD. unfold D_app. rewrite entry_tab2 by auto.
        assert (Ei : forall j, j < n_clusters a -> cl_at (groups s ++ [[x]]) j = cl_at (groups s) j).
        { intros j Hj. unfold cl_at. rewrite app_nth1; auto. now rewrite Lg. }
        assert (Ek : cl_at (groups s ++ [[x]]) (n_clusters a) = cl_one x).
        { unfold cl_at. rewrite app_nth2; rewrite Lg; [|auto]. rewrite Nat.sub_diag. reflexivity. }
        assert (Eo : forall j, j < n_clusters a -> g j = dterm c (cl_at (groups s ++ [[x]]) (n_clusters a)) (cl_at (groups s ++ [[x]]) j)).
        { intros j Hj. rewrite Hgj, Ek, Ei by auto. destruct (HX j Hj Hc) as (Y1 & Y2 & Y3). apply dterm_ext; auto. }
        destruct (Nat.eqb_spec q (n_clusters a)) as [->|Hqi].
        * destruct (Nat.eqb_spec p (n_clusters a)) as [->|Hpi]; [contradiction|]. right. apply Eo. lia.
        * destruct (Nat.eqb_spec p (n_clusters a)) as [->|Hpi]; [left; apply Eo; lia|]. rewrite !Ei by lia.
          apply X2; auto; lia.
      + intros ->. destruct (d_new kDB d x a eq_refl HS Hx) as (o' & g & E' & _ & HS1 & _).
        rewrite E' in E0. injection E0 as ->. rewrite HS1, X3, Hgr, map_app by auto. reflexivity.
  Qed.

  Lemma extra_frame c s (a a' : attrs A) : Frame a a' -> Extra c s a -> Extra c s a'.
  Proof. intros HF [X2 X3]. destruct HF. constructor; rewrite ?fr_D, ?fr_S1; auto. Qed.

  Lemma extra_stream c d s vs : wf_stream d s -> results c new_obj (stream s) = map Ok vs -> exists a,
    after c new_obj (stream s) = mkObj (lmap (firsts s)) a /\ Formed c d s a /\ Extra c s a.
  Proof.
    revert vs. induction s as [|[x l] s IH] using rev_ind; intros vs Hw Hr.
    - exists init_attrs. split; auto. split; [constructor; auto|]. constructor; [|auto]. intros _ i j Hi. inversion Hi.
    - rewrite stream_app, results_app in Hr.
      assert (exists vs1, results c new_obj (stream s) = map Ok vs1) as [vs1 Hr1].
      { exists (firstn (length (stream s)) vs). apply (f_equal (firstn (length (stream s)))) in Hr.
        rewrite <- (results_length c new_obj (stream s)) in Hr at 1.
        rewrite firstn_app, firstn_all, Nat.sub_diag, firstn_O, app_nil_r in Hr.
        rewrite Hr. now rewrite firstn_map. }
      destruct (IH vs1 (wf_snoc _ _ _ Hw) Hr1) as (a & Ea & HG & HX).
      rewrite Ea in Hr. unfold results in Hr. cbn [stream map run fst snd] in Hr.
      rewrite stream_app, after_app, Ea. unfold after. cbn [stream map run fst snd].
      unfold get_cvi, update in *. cbn [label_map at_ fst snd] in *. rewrite lmap_get in *.
      destruct (param_inc c x (index l (firsts s)) a) as [a1 [[]|e]] eqn:E1.
      2:{ exfalso. cbn [fst snd] in Hr. fold (results c new_obj (stream s)) in Hr. rewrite Hr1 in Hr.
          apply (f_equal (@rev _)) in Hr. rewrite rev_app_distr, <- !map_rev in Hr. cbn [rev app] in Hr.
          destruct (rev vs); discriminate Hr. }
      pose proof (formed_step c d s x l a a1 HG (wf_last _ _ _ _ Hw) E1) as HG1.
      pose proof (extra_step c d s x l a a1 HG HX (wf_last _ _ _ _ Hw) E1) as HX1.
      assert (HS1 : Shape c d a1).
      { destruct HG1 as [[[H _]|[_ H]] _ _ _ _]; auto. destruct s; discriminate. }
      destruct (ev_total c d a1 HS1) as (a2 & E2 & E3 & HF). cbn [at_ label_map]. rewrite E2. cbn [fst].
      exists a2. rewrite firsts_snoc. split; auto. split; [|eapply extra_frame; eauto].
      eapply formed_frame; eauto. destruct s; discriminate.
  Qed.

  (** the last value of a stream *)
  Theorem value_stream c d s vs r : wf_stream d s -> results c new_obj (stream s) = map Ok (vs ++ [r]) -> exists a,
    Formed c d s a /\ Extra c s a /\ (c = kCH \/ c = kWB -> SEP a = sep_of a) /\ r = val_of c a.
  Proof.
    intros Hw Hr.
    destruct s as [|p s' _] using rev_ind; [destruct vs; discriminate|]. destruct p as [x l0].
    assert (Hr1 : results c new_obj (stream s') = map Ok vs).
    { rewrite stream_app, results_app, map_app in Hr.
      assert (H1 : forall o, exists q, results c o (stream [(x, l0)]) = [q]).
      { intros o. pose proof (results_length c o (stream [(x, l0)])) as L.
        destruct (results c o (stream [(x, l0)])) as [|q [|]]; try discriminate. eauto. }
      destruct (H1 (after c new_obj (stream s'))) as [q Eq]. rewrite Eq in Hr.
      now apply app_inj_tail in Hr as [H _]. }
    destruct (extra_stream c d s' vs (wf_snoc _ _ _ Hw) Hr1) as (a & Ea & HG & HX).
    rewrite stream_app, results_app, Hr1, map_app in Hr. apply app_inv_head in Hr.
    rewrite Ea in Hr. unfold results in Hr. cbn [stream map run fst snd] in Hr.
    unfold get_cvi, update in Hr. cbn [label_map at_ fst snd] in Hr. rewrite lmap_get in Hr.
    destruct (param_inc c x (index l0 (firsts s')) a) as [a1 [[]|e]] eqn:E1; [|discriminate].
    pose proof (formed_step c d s' x l0 a a1 HG (wf_last _ _ _ _ Hw) E1) as HG1.
    pose proof (extra_step c d s' x l0 a a1 HG HX (wf_last _ _ _ _ Hw) E1) as HX1.
    assert (HS : Shape c d a1) by (destruct HG1 as [[[H _]|[_ H]] _ _ _ _]; auto; destruct s'; discriminate).
    assert (Hsp : c = kCH \/ c = kWB -> SEP a1 = sep_of a1).
    { destruct HG as [HS0 Hk0 _ _ _]. destruct (in_dec Z.eq_dec l0 (firsts s')) as [Hin|Hin].
      - destruct (index_In _ _ Hin) as [Hi _]. rewrite <- Hk0 in Hi.
        assert (HS' : Shape c d a) by (destruct HS0 as [[-> _]|[_ H]]; auto; destruct Hin).
        destruct (tainted_old _ nobad_abs c d x _ a a1 HS' (wf_last _ _ _ _ Hw) Hi E1) as (_ & _ & Hsep & _). auto.
      - rewrite index_notIn in E1 by auto. rewrite <- Hk0 in E1.
        assert (HS' : a = init_attrs \/ Shape c d a) by (destruct HS0 as [[_ H]|[_ H]]; auto).
        destruct (tainted_new _ nobad_abs c d x a a1 HS' (wf_last _ _ _ _ Hw) E1) as (_ & _ & Hsep & _). auto. }
    destruct (ev_total c d a1 HS) as (a2 & E2 & E3 & HF). cbn [at_ label_map] in Hr. rewrite E2 in Hr. cbn [fst snd] in Hr.
    injection Hr as <-. exists a1. auto.
  Qed.

  (** ** One batch *)
  Definition bcl (d : nat) (xs : list (vec A)) : cl := mkCl (length xs) (mean_rows d xs) (cp_rows d xs) [].
  Definition bgroups (s : list (vec A * Z)) : list (list (vec A)) :=
    map (fun ix => grp s (Z.of_nat ix)) (seq 0 (n_unique (map snd s))).
  Definition sep_rows (d : nat) (s : list (vec A * Z)) (xs : list (vec A)) : F A :=
    fmul (f_of_nat (length xs)) (np_sumsq (map2 fsub (mean_rows d xs) (mean_rows d (map fst s)))).
  Definition bcl_at d (gs : list (list (vec A))) (i : nat) : cl := bcl d (nth i gs []).

  (** batch matrices are an upper triangle plus its transpose *)
  Definition plus0 (t x : F A) : Prop := x = t \/ x = fadd t f0 \/ x = fadd f0 t.
  Record BForm (c : kind) (d : nat) (s : list (vec A * Z)) (a : attrs A) : Prop := mkBForm {
    bf_ns : n_samples a = length s;
    bf_k : n_clusters a = n_unique (map snd s);
    bf_1 : 1 < n_clusters a;
    bf_n : n a = map (@length _) (bgroups s);
    bf_CP : CP a = map (cp_rows d) (bgroups s);
    bf_sep : c = kCH \/ c = kWB -> SEP a = map (sep_rows d s) (bgroups s);
    bf_D : dclass c = true -> forall i j, i < j < n_unique (map snd s) ->
      let t := dterm c (bcl_at d (bgroups s) i) (bcl_at d (bgroups s) j) in
      plus0 t (entry (D a) i j) /\ (c <> kXB -> plus0 t (entry (D a) j i));
    bf_S : c = kDB -> S1 a = map (fun xs => fdiv (cp_rows d xs) (f_of_nat (length xs))) (bgroups s)
  }.

  Lemma D_sym_plus0 k (t : nat -> nat -> F A) i j : i < j < k ->
    plus0 (t i j) (entry (D_sym k t) i j) /\ plus0 (t i j) (entry (D_sym k t) j i).
  Proof.
    intros H. unfold D_sym. rewrite !entry_tab2 by lia.
    destruct (Nat.ltb_spec i j); [|lia]. destruct (Nat.ltb_spec j i); [lia|]. unfold plus0. auto.
  Qed.

  Theorem value_batch c d (s : list (vec A * Z)) r : wf_stream d s -> gclass c = true ->
    results c new_obj [batch_of d s] = [Ok r] -> exists a, BForm c d s a /\ r = val_of c a.
  Proof.
    intros Hw Hc Hv. unfold results, batch_of in *. cbn [run fst snd] in *. unfold get_cvi, update in *.
    cbn [at_ new_obj label_map init_attrs is_setup] in *.
    destruct (1 <? unique_labels (Labs (map snd s))) eqn:EU; cbn [negb] in *; [|discriminate].
    cbn [unique_labels] in EU. apply Nat.ltb_lt in EU.
    set (m := mkMat d (map fst s)) in *. set (ls := map snd s) in *.
    destruct (param_batch c m ls init_attrs) as [o' [[]|e]] eqn:EB; [|discriminate].
    cbn [at_] in *. destruct (evaluate c o') as [o2 [[]|e]] eqn:EV; [|discriminate]. cbn [fst snd label_map] in *.
    injection Hv as <-.
    assert (HC : covers m ls (n_unique ls)).
    { apply covers_le. unfold nrows, m, ls. cbn [mrows]. now rewrite !map_length. }
    assert (Eb : forall X (f : nat -> X) (g : list (vec A) -> X), (forall ix, f ix = g (grp s (Z.of_nat ix))) ->
                   map f (seq 0 (n_unique ls)) = map g (bgroups s)).
    { intros X f g H. unfold bgroups. rewrite map_map. apply map_ext. auto. }
    assert (En : forall i, i < n_unique ls -> nth i (bgroups s) [] = grp s (Z.of_nat i)).
    { intros i Hi. exact (nth_map_seq (fun ix => grp s (Z.of_nat ix)) _ i [] Hi). }
    assert (E1 : forall o1, BCommon m ls o1 -> CP o1 = map (b_CP m ls) (seq 0 (n_unique ls)) ->
              n_samples o1 = length s /\ n_clusters o1 = n_unique ls /\ 1 < n_clusters o1 /\
              n o1 = map (@length _) (bgroups s) /\ CP o1 = map (cp_rows d) (bgroups s)).
    { intros o1 [B1 B2 B3 B4 B5 B6] BC. split; [|split; [|split; [|split]]]; auto.
      - rewrite B1. unfold m, nrows. cbn [mrows]. apply map_length.
      - now rewrite B4.
      - rewrite B5. apply Eb. intros ix. unfold b_n, m, ls. now rewrite subset_is.
      - rewrite BC. apply Eb. intros ix. unfold b_CP, b_v, cp_rows, mean_rows, m, ls. now rewrite subset_is. }
    assert (E2 : forall o1, SEP o1 = map (b_SEP m ls) (seq 0 (n_unique ls)) -> SEP o1 = map (sep_rows d s) (bgroups s)).
    { intros o1 BC. rewrite BC. apply Eb. intros ix. unfold b_SEP, b_n, b_v, sep_rows, mean_rows, m, ls. now rewrite subset_is. }
    assert (E3 : forall ix, ix < n_unique ls -> bcl_at d (bgroups s) ix = mkCl (b_n m ls ix) (b_v m ls ix) (b_CP m ls ix) []).
    { intros ix Hix. unfold bcl_at. rewrite En by auto. unfold bcl, b_CP, b_n, b_v, cp_rows, mean_rows, m, ls. now rewrite subset_is. }
    assert (Lk : forall X (f : list (vec A) -> X), length (map f (bgroups s)) = n_unique ls).
    { intros X f. unfold bgroups. now rewrite !map_length, seq_length. }
    assert (HE : forall y, evals c o' y -> criterion_value o2 = y).
    { intros y (o3 & Y1 & Y2 & _). rewrite Y1 in EV. congruence. }
    exists o'. destruct c; try discriminate; cbn [param_batch] in EB.
    - destruct (CH_batch m ls HC) as (o1 & E & B & BC & BS & _). rewrite E in EB. inversion EB; subst o1.
      destruct (E1 _ B BC) as (H1 & H2 & H3 & H4 & H5). split; [constructor; auto; discriminate|].
      unfold val_of. rewrite (proj2 (Nat.leb_gt _ _) H3). apply HE. now apply CH_eval.
    - destruct (WB_batch m ls HC) as (o1 & E & B & BC & BS & _). rewrite E in EB. inversion EB; subst o1.
      destruct (E1 _ B BC) as (H1 & H2 & H3 & H4 & H5). split; [constructor; auto; discriminate|].
      unfold val_of. rewrite (proj2 (Nat.leb_gt _ _) H3). apply HE. now apply WB_eval.
    - destruct (DB_batch m ls HC) as (o1 & E & B & BC & BS & _ & _ & _ & BD). rewrite E in EB. inversion EB; subst o1.
      destruct (E1 _ B BC) as (H1 & H2 & H3 & H4 & H5).
      assert (H6 : S1 o' = map (fun xs => fdiv (cp_rows d xs) (f_of_nat (length xs))) (bgroups s)).
      { rewrite BS. apply Eb. intros ix. unfold b_S, b_CP, b_n, b_v, cp_rows, mean_rows, m, ls. now rewrite subset_is. }
      split; [constructor; auto|].
      + intros [|]; discriminate.
      + intros _ i j Hij. rewrite BD, !E3 by (fold ls in Hij; lia). cbv zeta.
        split; [|intros _]; now apply D_sym_plus0.
      + unfold val_of. rewrite (proj2 (Nat.leb_gt _ _) H3). apply HE. apply DB_eval; auto.
        * rewrite H2, BD. apply wfm_tab2.
        * now rewrite H6, H2, Lk.
    - destruct (XB_batch m ls HC) as (o1 & E & B & BC & _ & _ & BD). rewrite E in EB. inversion EB; subst o1.
      destruct (E1 _ B BC) as (H1 & H2 & H3 & H4 & H5).
      split; [constructor; auto; try discriminate|].
      + intros [|]; discriminate.
      + intros _ i j Hij. rewrite BD, !E3 by (fold ls in Hij; lia). cbv zeta.
        fold ls in Hij. rewrite entry_tab2 by lia.
        destruct (Nat.ltb_spec i j); [|lia]. split; [now left|congruence].
      + unfold val_of. rewrite (proj2 (Nat.leb_gt _ _) H3). apply HE. apply XB_eval; auto.
        rewrite H2, BD. apply wfm_tab2.
    - destruct (GD43_batch m ls HC) as (o1 & E & B & BC & _ & _ & _ & BD). rewrite E in EB. inversion EB; subst o1.
      destruct (E1 _ B BC) as (H1 & H2 & H3 & H4 & H5).
      split; [constructor; auto; try discriminate|].
      + intros [|]; discriminate.
      + intros _ i j Hij. rewrite BD, !E3 by (fold ls in Hij; lia). cbv zeta.
        split; [|intros _]; now apply D_sym_plus0.
      + unfold val_of. rewrite (proj2 (Nat.leb_gt _ _) H3). apply HE. apply GD43_eval; auto.
        * rewrite H2, BD. apply wfm_tab2.
        * now rewrite H5, H2, Lk.
        * now rewrite H4, H2, Lk.
    - destruct (GD53_batch m ls HC) as (o1 & E & B & BC & _ & _ & _ & BD). rewrite E in EB. inversion EB; subst o1.
      destruct (E1 _ B BC) as (H1 & H2 & H3 & H4 & H5).
      split; [constructor; auto; try discriminate|].
      + intros [|]; discriminate.
      + intros _ i j Hij. rewrite BD, !E3 by (fold ls in Hij; lia). cbv zeta.
        split; [|intros _]; now apply D_sym_plus0.
      + unfold val_of. rewrite (proj2 (Nat.leb_gt _ _) H3). apply HE. apply GD53_eval; auto.
        * rewrite H2, BD. apply wfm_tab2.
        * now rewrite H5, H2, Lk.
        * now rewrite H4, H2, Lk.
  Qed.
End ValForm.
