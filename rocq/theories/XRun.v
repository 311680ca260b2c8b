(** * Streams in exact arithmetic: the values returned are those of the
    specification on the partition seen so far. *)
From Coq Require Import ZArith List Arith Bool Lia Permutation.
From Verif Require Import Num NumPy Base M_CH M_D M_PS GetCvi Lists Step Step2 StepB Hoare Eval Stream Shapes Generic.
From Coq Require Import Reals Lra.
From Verif Require Import Det Spec XR SpecX RGeom XLift XEval XInc XCov.
Import ListNotations.
Local Open Scope R_scope.

Lemma kind_eq (a b : kind) : {a = b} + {a <> b}.
Proof. decide equality. Defined.

(** ** rCIP *)
Section R.
  Context (d : nat) (gs : list (list point)) (o : attrs XR).
  Hypotheses (Hd : d <> 0%nat) (Hg : good d gs) (HS : Stat0 d gs o) (Hv : wfm (n_clusters o) d (v o))
             (Hsig : Base.sigma o = map (cov_table d) gs).

  Lemma sig_x j : (j < length gs)%nat -> sig o j = cov_table d (nth j gs []).
  Proof.
    intros Hj. unfold sig. rewrite Hsig. rewrite nth_indep with (d' := cov_table d []) by (now rewrite map_length).
    apply map_nth.
  Qed.
  Lemma rterm g j : (j < length gs)%nat ->
    rCIP_term (rc o d) (fin (centroid d g)) (cov_table d g) j = Ok (Fin (potential d g (nth j gs []))).
  Proof.
    intros Hj. assert (Hj' : (j < n_clusters o)%nat) by now rewrite (s0_k _ _ _ HS).
    unfold rCIP_term. change (v (rc o d)) with (v o). change (Base.sigma (rc o d)) with (Base.sigma o).
    rewrite (row_ok _ _ _ _ Hv Hj'). cbn [bindE]. change (nth j (mrows (v o)) []) with (vrow o j).
    rewrite (vrow_x d gs o HS) by auto.
    rewrite vsub_ok by (now rewrite !fin_length, !centroid_length). cbn [bindE].
    rewrite (get_item_ok _ _ (zmat 0 0)) by (rewrite Hsig, map_length; auto). cbn [bindE].
    change (nth j (Base.sigma o) (zmat 0 0)) with (sig o j). rewrite sig_x by auto.
    unfold madd. rewrite (bc2_ok _ d d) by (unfold cov_table; apply wfm_tab2). cbn [bindE].
    apply potential_fin. auto.
  Qed.
End R.

Lemma ShapeR_intro d gs (o : attrs XR) : good d gs -> gs <> [] -> Stat0 d gs o -> v o = mkMat d (mrows (v o)) ->
  Base.sigma o = map (cov_table d) gs -> delta_term o = rCIP_delta_term d -> dim o = d -> is_setup o = true ->
  n_array o = false -> wfm (n_clusters o) (n_clusters o) (D o) -> ShapeR d o.
Proof.
  intros Hg Hne [K1 K2 K3 K4] Ev Es Ed Edim Eset Ena HD. constructor; auto.
  - rewrite K2. destruct (concat gs) eqn:E; [|simpl; lia]. exfalso. revert E. apply concat_ne; auto. apply Hg.
  - now rewrite K3, map_length.
  - rewrite Ev, K4, K1. repeat split; cbn [mrows]; [now rewrite map_length|].
    apply Forall_map, Forall_forall. intros g _. now rewrite fin_length, centroid_length.
  - now rewrite Es, map_length, K1.
  - rewrite Es. apply Forall_map, Forall_forall. intros g _. apply wfm_tab2.
  - rewrite K3. apply Forall_map. destruct Hg as [_ Hg]. eapply Forall_impl; [|exact Hg].
    intros g Hn E. now apply length_zero_iff_nil in E.
Qed.

Lemma rep_new_R d gs o x : d <> 0%nat -> good d gs -> Rep krCIP d gs o ->
  (gs = [] /\ o = init_attrs) \/ Shape krCIP d o -> length x = d ->
  exists o', param_inc krCIP (fin x) (n_clusters o) o = (o', Ok tt) /\ Shape krCIP d o' /\ Rep krCIP d (gs ++ [[x]]) o'.
Proof.
  intros Hd Hg [HS [HI1 HI2]] Hs Hx. assert (Hx' : length (fin x) = d) by now rewrite fin_length.
  cbn [param_inc Shape]. assert (Hg' := good_new d gs x Hg Hx).
  assert (Hne : gs ++ [[x]] <> []) by (destruct gs; discriminate).
  assert (exists o', rCIP_param_inc (fin x) (n_clusters o) o = (o', Ok tt) /\ Common d (fin x) o o' /\
            CommonNew d (fin x) o o' /\ Base.sigma o' = Base.sigma o ++ [rCIP_delta_term d] /\
            delta_term o' = rCIP_delta_term d /\ wfm (n_clusters o') (n_clusters o') (D o') /\
            Doff (potential d) (gs ++ [[x]]) o') as (o' & E & C & N & Es & Ed & HD & HO).
  { destruct Hs as [[Egs Eo]|HR].
    - subst gs o. destruct (rCIP_first d (fin x) Hx' Hd) as (o' & E & C & N & ED & Es & Ed).
      exists o'. split; [exact E|]. split; [exact C|]. split; [exact N|]. split; [exact Es|]. split; [exact Ed|]. split.
      + rewrite ED, (cn_k _ _ _ _ N). apply wfm_zmat.
      + intros a b Ha Hb. simpl in Ha, Hb. lia.
    - destruct (rCIP_new d (fin x) o (fun j => Fin (potential d [x] (nth j gs []))) HR Hx') as (o' & E & C & N & ED & Es & Ed).
      { intros j Hj. rewrite (delta_term_single d x Hd). rewrite <- (centroid_single d x Hx) at 1.
        apply rterm; auto; [apply HR|]. now rewrite <- (s0_k _ _ _ HS). }
      exists o'. split; [exact E|]. split; [exact C|]. split; [exact N|]. split; [exact Es|]. split; [rewrite Ed; apply HR|]. split.
      + rewrite ED, (cn_k _ _ _ _ N), Nat.add_1_r. apply wfm_tab2.
      + eapply Doff_app; eauto using potential_sym. }
  assert (S0 := Stat0_new d gs o HS x o' Hx C N).
  assert (Es' : Base.sigma o' = map (cov_table d) (gs ++ [[x]])).
  { rewrite Es, HI1, map_app. cbn [map]. now rewrite (delta_term_single d x Hd). }
  exists o'. split; auto. split; [|split; [auto|split; auto]].
  destruct C as [C1 C2 C3 C4 C5]. apply (ShapeR_intro d (gs ++ [[x]])); auto.
  now rewrite (cn_v _ _ _ _ N).
Qed.

Lemma rep_old_R d gs o i x : d <> 0%nat -> good d gs -> Rep krCIP d gs o -> Shape krCIP d o ->
  length x = d -> (i < length gs)%nat ->
  exists o', param_inc krCIP (fin x) i o = (o', Ok tt) /\ Shape krCIP d o' /\ Rep krCIP d (join i x gs) o'.
Proof.
  intros Hd Hg [HS [HI1 HI2]] HR Hx Hi. assert (Hx' : length (fin x) = d) by now rewrite fin_length.
  cbn [param_inc Shape] in *. assert (Hg' := good_join d gs i x Hg Hx Hi).
  assert (Hi' : (i < n_clusters o)%nat) by now rewrite (s0_k _ _ _ HS).
  assert (Hne : join i x gs <> []) by (intros E; apply (f_equal (@length _)) in E; rewrite join_length in E; simpl in E; lia).
  assert (Esu : sigma_upd d (nn o i) (vrow o i) (sig o i) (fin x) = cov_table d (nth i gs [] ++ [x])).
  { rewrite (sig_x d gs o HI1) by auto. rewrite (vrow_x d gs o HS), (nn_x d gs o HS) by auto.
    apply sigma_upd_fin; auto. now apply (good_nth d gs i Hg). }
  destruct (rCIP_old d (fin x) i o (fun j => Fin (potential d (nth i gs [] ++ [x]) (nth j gs []))) HR Hx' Hi')
    as (o' & E & C & N & ED & Es & Ed).
  { intros j Hj _. rewrite Esu, (v_upd_x d gs o) by auto. apply rterm; auto; [apply HR|].
    now rewrite <- (s0_k _ _ _ HS). }
  assert (S0 := Stat0_old d gs o Hg HS i x o' Hx Hi C N).
  assert (Es' : Base.sigma o' = map (cov_table d) (join i x gs)).
  { rewrite Es, Esu, HI1. unfold join. now rewrite map_upd. }
  exists o'. split; auto. split.
  - destruct C as [C1 C2 C3 C4 C5]. apply (ShapeR_intro d (join i x gs)); auto.
    + now rewrite (co_v _ _ _ _ _ N).
    + rewrite Ed. apply HR.
    + rewrite ED, (co_k _ _ _ _ _ N). apply wfm_tab2.
  - split; auto. split; auto. eapply Doff_set; eauto using potential_sym.
Qed.

(** ** Streams *)
Lemma Rep_frame c d gs (o o' : attrs XR) : Frame o o' -> Rep c d gs o -> Rep c d gs o'.
Proof.
  intros [F1 F2 F3 F4 F5 F6 F7 F8 F9 F10 F11 F12 F13 F14 F15 F16 F17] [[K1 K2 K3 K4] HI]. split.
  - constructor; congruence.
  - assert (HGP : GPart d gs o -> GPart d gs o').
    { intros [P1 P2 P3]. constructor; unfold CPs in *; try rewrite F6; try rewrite F8; try rewrite F11; auto. }
    assert (HDo : forall F, Doff F gs o -> Doff F gs o') by (intros F H a b; rewrite F12; apply H).
    destruct c; cbn [IPart] in *; auto.
    + rewrite F13. intuition auto.
    + intuition auto.
    + intuition auto.
    + intuition auto.
    + rewrite F15. intuition auto.
Qed.

Definition fin_data (s : data) : list (vec XR * Z) := map (fun p => (fin (fst p), snd p)) s.
Lemma firsts_fin s : firsts (fin_data s) = firsts s.
Proof. unfold firsts, fin_data. now rewrite map_map. Qed.
Lemma fin_data_app s t : fin_data (s ++ t) = fin_data s ++ fin_data t.
Proof. apply map_app. Qed.
Lemma fin_data_length s : length (fin_data s) = length s.
Proof. apply map_length. Qed.
Lemma good_groups d s : wf d s -> good d (groups s).
Proof.
  intros H. split; unfold groups; apply Forall_map, Forall_forall; intros l Hl.
  - apply Forall_forall. intros x Hx. unfold grp in Hx. apply in_map_iff in Hx as (p & <- & Hp).
    apply filter_In in Hp as [Hp _]. unfold wf in H. rewrite Forall_forall in H. auto.
  - apply grp_ne. now apply first_seen_In.
Qed.
Lemma wf_app d s t : wf d (s ++ t) -> wf d s /\ wf d t.
Proof. apply Forall_app. Qed.
Lemma groups_ne (s : data) : s <> [] -> groups s <> [].
Proof.
  destruct s as [|[x l] s]; [congruence|]. intros _ E. apply (f_equal (@length _)) in E. rewrite groups_length in E.
  simpl in E. assert (H : In l (firsts ((x, l) :: s))) by (apply first_seen_In; now left).
  destruct (firsts ((x, l) :: s)); [destruct H|discriminate].
Qed.

Definition Inv c d (s : data) (a : attrs XR) : Prop :=
  Rep c d (groups s) a /\ ((s = [] /\ a = init_attrs) \/ (s <> [] /\ Shape c d a)).

Lemma inc_step c d s x l a : c <> kcSIL -> (c = krCIP -> d <> 0%nat) -> wf d (s ++ [(x, l)]) -> Inv c d s a ->
  exists a1 a2, param_inc c (fin x) (index l (firsts s)) a = (a1, Ok tt) /\ evaluate c a1 = (a2, Ok tt) /\
    criterion_value a2 = XVal c d (groups (s ++ [(x, l)])) /\ Inv c d (s ++ [(x, l)]) a2.
Proof.
  intros Hc Hd Hw [HR Hs]. destruct (wf_app _ _ _ Hw) as [Hw1 Hw2].
  assert (Hx : length x = d) by (inversion Hw2; auto).
  pose proof (good_groups d s Hw1) as Hg. pose proof (good_groups d _ Hw) as Hg'.
  assert (HE : exists a1, param_inc c (fin x) (index l (firsts s)) a = (a1, Ok tt) /\ Shape c d a1 /\
                 Rep c d (groups (s ++ [(x, l)])) a1 /\ SepOk c d (groups (s ++ [(x, l)])) a1).
  { destruct (in_dec Z.eq_dec l (firsts s)) as [Hin|Hin].
    - destruct (index_In _ _ Hin) as [Hi _]. rewrite <- groups_length in Hi.
      assert (HS : Shape c d a). { destruct Hs as [[-> ->]|[_ H]]; auto. destruct Hin. }
      rewrite (groups_old s x l Hin). change (upd _ _ (groups s)) with (join (index l (firsts s)) x (groups s)).
      destruct (kind_eq c krCIP) as [->|Hr].
      + destruct (rep_old_R d (groups s) a (index l (firsts s)) x) as (a1 & E & S1' & R1); auto.
        exists a1. repeat (split; auto).
      + destruct (rep_old c d (groups s) a (index l (firsts s)) x) as (a1 & E & S1' & R1 & R2); auto. eauto.
    - rewrite index_notIn by auto. rewrite groups_new by auto.
      replace (length (firsts s)) with (n_clusters a) by (destruct HR as [HR _]; rewrite (s0_k _ _ _ HR); apply groups_length).
      destruct (kind_eq c krCIP) as [->|Hr].
      + destruct (rep_new_R d (groups s) a x) as (a1 & E & S1' & R1); auto.
        { destruct Hs as [[-> ->]|[_ H]]; auto. }
        exists a1. repeat (split; auto).
      + destruct (rep_new c d (groups s) a x) as (a1 & E & S1' & R1 & R2); eauto.
        destruct Hs as [[_ H]|[_ H]]; auto. }
  destruct HE as (a1 & E1 & Sh & R1 & Sp).
  destruct (ev_total c d a1 Sh) as (a2 & E2 & E3 & FR).
  exists a1, a2. repeat (split; [solve [auto]|]). split.
  - rewrite E3. apply val_of_XVal; auto. now apply Rep_Data.
  - split; [eapply Rep_frame; eauto|]. right. split; [destruct s; discriminate|]. eapply Shape_frame; eauto.
Qed.

Theorem inc_values c d s : c <> kcSIL -> (c = krCIP -> d <> 0%nat) -> wf d s -> exists a,
  run c new_obj (stream (fin_data s)) =
    (mkObj (lmap (firsts s)) a, map (fun i => Ok (XVal c d (groups (firstn (S i) s)))) (seq 0 (length s))) /\
  Inv c d s a.
Proof.
  intros Hc Hd. induction s as [|[x l] s IH] using rev_ind; intros Hw.
  - exists init_attrs. split; auto. split; [apply Rep_init|auto].
  - destruct (IH (proj1 (wf_app _ _ _ Hw))) as (a & Er & HI). clear IH.
    destruct (inc_step c d s x l a Hc Hd Hw HI) as (a1 & a2 & E1 & E2 & E3 & HI').
    exists a2. split; auto.
    rewrite fin_data_app, stream_app, run_app, Er. cbn [fst snd stream map run fin_data]. unfold get_cvi, update.
    cbn [label_map at_ fst snd]. rewrite lmap_get, E1. cbn [at_ label_map]. rewrite E2. cbn [fst snd].
    f_equal.
    + f_equal. now rewrite firsts_snoc.
    + rewrite app_length. cbn [length]. rewrite Nat.add_1_r, seq_S, map_app, Nat.add_0_l. f_equal.
      * apply map_ext_in. intros i Hi. apply in_seq in Hi. f_equal. f_equal. f_equal.
        rewrite firstn_app. replace (S i - length s)%nat with 0%nat by lia. now rewrite firstn_O, app_nil_r.
      * cbn [map]. rewrite E3. f_equal. f_equal. f_equal. f_equal.
        rewrite firstn_all2; auto. rewrite app_length. simpl. lia.
Qed.
