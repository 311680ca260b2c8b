(** * The attributes after a stream, cluster by cluster.  For every arithmetic. *)
From Coq Require Import ZArith List Arith Bool Lia.
From Verif Require Import Num NumPy Base M_CH M_D M_PS GetCvi Lists Step Step2 StepB Hoare Eval Stream Shapes Generic Nan.
Import ListNotations.

Section RunForm.
  Context {A : Arith}.

  (** size, centroid, compactness and gradient of one cluster, sample by sample *)
  Record cl := mkCl { c_n : nat; c_v : vec A; c_cp : F A; c_g : vec A }.
  Definition cl_one (x : vec A) : cl := mkCl 1 x f0 (zeros (length x)).
  Definition cl_add (c : cl) (x : vec A) : cl :=
    mkCl (c_n c + 1) (v_upd (c_n c) (c_v c) x)
         (cp_upd (c_n c) (c_v c) (c_cp c) (c_g c) x) (g_upd (c_n c) (c_v c) (c_g c) x).
  Definition cl_of (xs : list (vec A)) : cl :=
    match xs with [] => mkCl 0 [] f0 [] | x :: t => fold_left cl_add t (cl_one x) end.
  Lemma cl_of_snoc xs x : xs <> [] -> cl_of (xs ++ [x]) = cl_add (cl_of xs) x.
  Proof. destruct xs as [|y t]; [congruence|]. intros _. cbn [app cl_of]. now rewrite fold_left_app. Qed.
  Lemma cl_of_n xs : c_n (cl_of xs) = length xs.
  Proof.
    induction xs as [|x xs IH] using rev_ind; auto. destruct xs as [|y t]; auto.
    rewrite cl_of_snoc, app_length by discriminate. cbn [cl_add c_n]. rewrite IH. reflexivity.
  Qed.
  Lemma cl_of_v_length d xs : xs <> [] -> Forall (fun x => length x = d) xs -> length (c_v (cl_of xs)) = d.
  Proof.
    induction xs as [|x xs IH] using rev_ind; [congruence|]. intros _ HF. apply Forall_app in HF as [HF Hx].
    inversion Hx; subst. destruct xs as [|y t]; [reflexivity|].
    rewrite cl_of_snoc by discriminate. cbn [cl_add c_v]. unfold v_upd.
    rewrite rmean_length; auto. apply IH; auto. discriminate.
  Qed.

  (** [_mu], sample by sample *)
  Definition m_add (p : nat * vec A) (x : vec A) : nat * vec A := (fst p + 1, srmean (fst p + 1) (snd p) x).
  Definition m_of (xs : list (vec A)) : nat * vec A :=
    match xs with [] => (0, []) | x :: t => fold_left m_add t (1, x) end.
  Lemma m_of_snoc xs x : xs <> [] -> m_of (xs ++ [x]) = m_add (m_of xs) x.
  Proof. destruct xs as [|y t]; [congruence|]. intros _. cbn [app m_of]. now rewrite fold_left_app. Qed.
  Lemma m_of_n xs : fst (m_of xs) = length xs.
  Proof.
    induction xs as [|x xs IH] using rev_ind; auto. destruct xs as [|y t]; auto.
    rewrite m_of_snoc, app_length by discriminate. cbn [m_add fst]. rewrite IH. reflexivity.
  Qed.
  Lemma plain_m_of (H : Plain A) xs : snd (m_of xs) = c_v (cl_of xs).
  Proof.
    induction xs as [|x xs IH] using rev_ind; auto. destruct xs as [|y t]; auto.
    rewrite m_of_snoc, cl_of_snoc by discriminate. cbn [m_add snd cl_add c_v]. unfold v_upd.
    now rewrite (plain_srmean H), m_of_n, cl_of_n, IH.
  Qed.

  (** the classes that keep compactness, gradient and the mean of all samples *)
  Definition gclass (c : kind) : bool :=
    match c with kCH | kWB | kDB | kXB | kGD43 | kGD53 => true | _ => false end.
  Lemma gclass_shape c d (o : attrs A) : gclass c = true -> Shape c d o -> ShapeG d o.
  Proof. destruct c; try discriminate; cbn [Shape]; tauto. Qed.
  Lemma g_new c d x (o : attrs A) : gclass c = true -> o = init_attrs \/ Shape c d o -> length x = d -> exists o',
    param_inc c x (n_clusters o) o = (o', Ok tt) /\ Common d x o o' /\ GNew d x o o' /\ mu o' = mu_upd x o.
  Proof.
    intros Hc Hs Hx. destruct c; try discriminate; cbn [Shape param_inc] in *.
    - destruct (CH_new d x o Hs Hx) as (o' & E & C & N & Gn & Mu & _). eauto 6.
    - destruct (WB_new d x o Hs Hx) as (o' & E & C & N & Gn & Mu & _). eauto 6.
    - destruct (DB_new d x o Hs Hx) as (o' & E & C & N & Gn & Mu & _). eauto 6.
    - destruct (XB_new d x o Hs Hx) as (o' & E & C & N & Gn & Mu & _). eauto 6.
    - destruct (GD43_new d x o Hs Hx) as (o' & E & C & N & Gn & Mu & _). eauto 6.
    - destruct (GD53_new d x o Hs Hx) as (o' & E & C & N & Gn & Mu & _). eauto 6.
  Qed.
  Lemma g_old c d x i (o : attrs A) : gclass c = true -> Shape c d o -> length x = d -> i < n_clusters o -> exists o',
    param_inc c x i o = (o', Ok tt) /\ Common d x o o' /\ GOld d x i o o' /\ mu o' = mu_upd x o.
  Proof.
    intros Hc Hs Hx Hi. destruct c; try discriminate; cbn [Shape param_inc] in *.
    - destruct (CH_old d x i o Hs Hx Hi) as (o' & E & C & N & Gn & Mu & _). eauto 6.
    - destruct (WB_old d x i o Hs Hx Hi) as (o' & E & C & N & Gn & Mu & _). eauto 6.
    - destruct (DB_old d x i o Hs Hx Hi) as (o' & E & C & N & Gn & Mu & _). eauto 6.
    - destruct (XB_old d x i o Hs Hx Hi) as (o' & E & C & N & Gn & Mu & _). eauto 6.
    - destruct (GD43_old d x i o Hs Hx Hi) as (o' & E & C & N & Gn & Mu & _). eauto 6.
    - destruct (GD53_old d x i o Hs Hx Hi) as (o' & E & C & N & Gn & Mu & _). eauto 6.
  Qed.

  (** what the attributes are after the stream [s] *)
  Record Formed (c : kind) (d : nat) (s : list (vec A * Z)) (a : attrs A) : Prop := mkFormed {
    fm_shape : (s = [] /\ a = init_attrs) \/ (s <> [] /\ Shape c d a);
    fm_k : n_clusters a = length (firsts s);
    fm_n : n a = map (@length _) (groups s);
    fm_v : mrows (v a) = map (fun xs => c_v (cl_of xs)) (groups s);
    fm_g : gclass c = true -> n_samples a = length s /\
           CP a = map (fun xs => c_cp (cl_of xs)) (groups s) /\
           mrows (G a) = map (fun xs => c_g (cl_of xs)) (groups s) /\
           (s <> [] -> mu a = snd (m_of (map fst s)))
  }.

  Lemma groups_ne (s : list (vec A * Z)) i : i < length (firsts s) -> nth i (groups s) [] <> [].
  Proof.
    intros Hi. unfold groups. rewrite nth_indep with (d' := grp s 0%Z) by now rewrite map_length.
    rewrite map_nth. apply grp_ne. apply first_seen_In. apply nth_In. exact Hi.
  Qed.
  Lemma map_upd {X Y} (f : X -> Y) i x (l : list X) : map f (upd i x l) = upd i (f x) (map f l).
  Proof. revert i; induction l as [|a l IH]; intros [|i]; simpl; auto. now rewrite IH. Qed.
  Lemma nth_groups {Y} (f : list (vec A) -> Y) s i y : i < length (firsts s) ->
    nth i (map f (groups s)) y = f (nth i (groups s) []).
  Proof.
    intros Hi. rewrite nth_indep with (d' := f []) by (rewrite map_length, groups_length; auto). apply map_nth.
  Qed.

  Lemma nobad_abs : Absorbing (A := A) (fun _ => False).
  Proof.
    constructor; try (intros; tauto); try (intros ? H; apply Exists_exists in H as (? & _ & [])).
    all: intros ? ? H; apply Exists_exists in H as (? & _ & []).
  Qed.

  Lemma formed_mu c d s x l (a a1 : attrs A) : Formed c d s a -> gclass c = true -> mu a1 = mu_upd x a ->
    mu a1 = snd (m_of (map fst (s ++ [(x, l)]))).
  Proof.
    intros [Hs Hk Hn Hv Hg] Hc Mu. destruct (Hg Hc) as (G1 & _ & _ & G4). rewrite Mu. unfold mu_upd. rewrite G1.
    destruct s as [|p s].
    - reflexivity.
    - cbn [length Nat.eqb]. rewrite map_app. cbn [map fst]. rewrite m_of_snoc by discriminate.
      cbn [m_add snd]. rewrite m_of_n, G4 by discriminate. cbn [length map]. now rewrite map_length.
  Qed.

  Lemma formed_step c d s x l (a a1 : attrs A) : Formed c d s a -> length x = d ->
    param_inc c x (index l (firsts s)) a = (a1, Ok tt) -> Formed c d (s ++ [(x, l)]) a1.
  Proof.
    intros HF Hx E0. assert (HF' := HF). destruct HF as [Hs Hk Hn Hv Hg].
    assert (Hne : s ++ [(x, l)] <> []) by (destruct s; discriminate).
    destruct (in_dec Z.eq_dec l (firsts s)) as [Hin|Hin].
    - assert (HS : Shape c d a) by (destruct Hs as [[-> _]|[_ H]]; [destruct Hin|auto]).
      destruct (index_In _ _ Hin) as [Hi Hl]. set (i := index l (firsts s)) in *.
      assert (Hi' : i < n_clusters a) by congruence.
      destruct (tainted_old _ nobad_abs c d x i a a1 HS Hx Hi' E0) as (S' & [N1 N2 N3] & _).
      assert (Ei : vrow a i = c_v (cl_of (nth i (groups s) []))).
      { unfold vrow. rewrite Hv. now apply (nth_groups (fun xs => c_v (cl_of xs))). }
      assert (En : nn a i = length (nth i (groups s) [])).
      { unfold nn. rewrite Hn. now apply (nth_groups (@length _)). }
      pose proof (groups_ne s i Hi) as Hgne.
      constructor; auto.
      + rewrite firsts_snoc. unfold add_label. destruct (in_dec Z.eq_dec l (firsts s)); [congruence|contradiction].
      + rewrite N2, groups_old by auto. fold i. rewrite map_upd, app_length, <- Hn, En. reflexivity.
      + rewrite N3, groups_old by auto. fold i. cbn [mrows]. rewrite map_upd, Hv, cl_of_snoc by auto.
        cbn [cl_add c_v]. now rewrite cl_of_n, Ei, En.
      + intros Hc. destruct (Hg Hc) as (G1 & G2 & G3 & G4).
        destruct (g_old c d x i a Hc HS Hx Hi') as (o' & E' & [C1 C2 C3 C4 C5] & [O1 O2] & Mu).
        rewrite E' in E0. injection E0 as ->. split; [rewrite C1, G1, app_length; reflexivity|].
        assert (Ec : cpi a i = c_cp (cl_of (nth i (groups s) []))).
        { unfold cpi. rewrite G2. now apply (nth_groups (fun xs => c_cp (cl_of xs))). }
        assert (Eg : grow_ a i = c_g (cl_of (nth i (groups s) []))).
        { unfold grow_. rewrite G3. now apply (nth_groups (fun xs => c_g (cl_of xs))). }
        split; [|split].
        * rewrite O1, G2, groups_old by auto. fold i. rewrite map_upd, cl_of_snoc by auto. cbn [cl_add c_cp].
          now rewrite cl_of_n, Ei, En, Ec, Eg.
        * rewrite O2. cbn [mrows]. rewrite G3, groups_old by auto. fold i. rewrite map_upd, cl_of_snoc by auto. cbn [cl_add c_g].
          now rewrite cl_of_n, Ei, En, Eg.
        * intros _. now apply (formed_mu c d s x l a a1).
    - assert (HS : a = init_attrs \/ Shape c d a) by (destruct Hs as [[_ H]|[_ H]]; auto).
      rewrite index_notIn in E0 by auto. rewrite <- Hk in E0.
      destruct (tainted_new _ nobad_abs c d x a a1 HS Hx E0) as (S' & [N1 N2 N3] & _).
      constructor; auto.
      + rewrite firsts_snoc. unfold add_label. destruct (in_dec Z.eq_dec l (firsts s)); [contradiction|].
        rewrite app_length. simpl. congruence.
      + rewrite N2, groups_new, map_app, Hn by auto. reflexivity.
      + rewrite N3, groups_new, map_app by auto. cbn [mrows]. rewrite Hv. reflexivity.
      + intros Hc. destruct (Hg Hc) as (G1 & G2 & G3 & G4).
        destruct (g_new c d x a Hc HS Hx) as (o' & E' & [C1 C2 C3 C4 C5] & [O1 O2] & Mu).
        rewrite E' in E0. injection E0 as ->. split; [rewrite C1, G1, app_length; reflexivity|].
        split; [|split].
        * rewrite O1, G2, groups_new, map_app by auto. reflexivity.
        * rewrite O2. cbn [mrows]. rewrite G3, groups_new, map_app by auto. cbn [map cl_of fold_left cl_one c_g]. now rewrite Hx.
        * intros _. now apply (formed_mu c d s x l a a1).
  Qed.

  Lemma formed_frame c d s (a a' : attrs A) : Frame a a' -> s <> [] -> Formed c d s a -> Formed c d s a'.
  Proof.
    intros HF Hne [Hs Hk Hn Hv Hg]. assert (HF' := HF).
    destruct HF' as [F1 F2 F3 F4 F5 F6 F7 F8 F9 F10 F11 F12 F13 F14 F15 F16 F17].
    constructor; rewrite ?F2, ?F3, ?F5, ?F6, ?F8, ?F9, ?F11; auto.
    right; split; auto. destruct Hs as [[? _]|[_ Hs]]; [contradiction|]. eapply Shape_frame; eauto.
  Qed.

  Theorem formed_stream c d s vs : wf_stream d s -> results c new_obj (stream s) = map Ok vs -> exists a,
    after c new_obj (stream s) = mkObj (lmap (firsts s)) a /\ Formed c d s a.
  Proof.
    revert vs. induction s as [|[x l] s IH] using rev_ind; intros vs Hw Hr.
    - exists init_attrs. split; auto. constructor; auto.
    - rewrite stream_app, results_app in Hr.
      assert (exists vs1, results c new_obj (stream s) = map Ok vs1) as [vs1 Hr1].
      { exists (firstn (length (stream s)) vs). apply (f_equal (firstn (length (stream s)))) in Hr.
        rewrite <- (results_length c new_obj (stream s)) in Hr at 1.
        rewrite firstn_app, firstn_all, Nat.sub_diag, firstn_O, app_nil_r in Hr.
        rewrite Hr. now rewrite firstn_map. }
      destruct (IH vs1 (wf_snoc _ _ _ Hw) Hr1) as (a & Ea & HG).
      rewrite Ea in Hr. unfold results in Hr. cbn [stream map run fst snd] in Hr.
      rewrite stream_app, after_app, Ea. unfold after. cbn [stream map run fst snd].
      unfold get_cvi, update in *. cbn [label_map at_ fst snd] in *. rewrite lmap_get in *.
      destruct (param_inc c x (index l (firsts s)) a) as [a1 [[]|e]] eqn:E1.
      2:{ exfalso. cbn [fst snd] in Hr. fold (results c new_obj (stream s)) in Hr. rewrite Hr1 in Hr.
          apply (f_equal (@rev _)) in Hr. rewrite rev_app_distr, <- !map_rev in Hr. cbn [rev app] in Hr.
          destruct (rev vs); discriminate Hr. }
      pose proof (formed_step c d s x l a a1 HG (wf_last _ _ _ _ Hw) E1) as HG1.
      assert (HS1 : Shape c d a1).
      { destruct HG1 as [[[H _]|[_ H]] _ _ _ _]; auto. destruct s; discriminate. }
      destruct (ev_total c d a1 HS1) as (a2 & E2 & E3 & HF). cbn [at_ label_map]. rewrite E2. cbn [fst].
      exists a2. rewrite firsts_snoc. split; auto. eapply formed_frame; eauto. destruct s; discriminate.
  Qed.
End RunForm.
