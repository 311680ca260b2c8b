(** * CH against WB, the total scatter, and degenerate data: C38, C39

    Exact arithmetic, finite features.  [observed c d s v] as in P_Bounds.v;
    the classes' values on a partition [gs] = [clusters s] with at least two
    clusters, in terms of the quantities of Spec.v. *)
From Coq Require Import ZArith List Arith Bool Lia Permutation.
From Verif Require Import Num NumPy Base GetCvi.
From Coq Require Import Reals Lra.
From Verif Require Import Det Spec XR SpecX RGeom XLift XEval XRun XPerm XBatch Obs XSil XSilEx XForm XBounds XSim XMove P_Inc P_Formula P_Bounds.
Import ListNotations.
Local Open Scope R_scope.

(** ** What the vanishing of each quantity means for the data *)
(** every sample equals its cluster's centroid *)
Definition tight (d : nat) (gs : list (list point)) : Prop :=
  forall g x, In g gs -> In x g -> x = centroid d g.
(** all centroids equal *)
Definition one_centre (d : nat) (gs : list (list point)) : Prop :=
  forall g h, In g gs -> In h gs -> centroid d g = centroid d h.
(** every cluster has one sample *)
Definition singletons (gs : list (list point)) : Prop := forall g, In g gs -> length g = 1%nat.
(** no two clusters have the same centroid *)
Definition separate (d : nat) (gs : list (list point)) : Prop := NoDup (map (centroid d) gs).
(** two clusters all of whose samples are the same point *)
Definition collapsed (d : nat) (gs : list (list point)) : Prop := exists g h, In (g, h) (pairs gs) /\
  centroid d g = centroid d h /\ (forall x, In x g \/ In x h -> x = centroid d g).

Section G.
  Context (d : nat) (gs : list (list point)).
  Hypotheses (Hg : good d gs) (Hk : (2 <= length gs)%nat).
  Lemma tight_wgss : wgss d gs = 0 <-> tight d gs.
  Proof. apply wgss_zero; auto. Qed.
  Lemma tight_mse : rmax (map (mse d) gs) = 0 <-> tight d gs.
  Proof. rewrite (maxmse_zero d gs); auto. apply tight_wgss. Qed.
  Lemma centre_bgss : bgss d gs = 0 <-> one_centre d gs.
  Proof. apply bgss_zero; auto. Qed.
  Lemma single_nk : nclus gs = nsamp gs <-> singletons gs.
  Proof. rewrite (n_eq_k d gs Hg), Forall_forall. reflexivity. Qed.
  Lemma singles_tight : singletons gs -> tight d gs.
  Proof. intros H. apply tight_wgss, singles_wgss; auto. now apply single_nk. Qed.
  Lemma collapsed_pts : coinciding_points d gs <-> collapsed d gs.
  Proof.
    unfold coinciding_points, collapsed. split; intros (g & h & Hp & Ec & H); exists g, h; split; auto; split; auto;
      destruct (pairs_In gs g h Hp) as [H1 H2].
    - destruct H as [A B]. pose proof (proj1 (mse_zero d gs Hg g H1) A) as A'. pose proof (proj1 (mse_zero d gs Hg h H2) B) as B'.
      intros x [Hx|Hx]; [now apply A'|]. rewrite Ec. now apply B'.
    - split; apply (mse_zero d gs Hg); auto. intros x Hx. rewrite <- Ec. auto.
  Qed.
  Lemma mdist_zero g h : In g gs -> In h gs -> (mdist d g h = 0 <-> forall x, In x h -> x = centroid d g).
  Proof.
    intros H1 H2. pose proof (INR_pos h (g_ne d gs Hg h H2)) as P. unfold mdist, Rdiv. split.
    - intros E x Hx. apply Rmult_integral in E as [E|E]; [|apply Rinv_neq_0_compat in E; lra].
      pose proof (rsum_map_zero (fun x => dist2 x (centroid d g)) h (fun x _ => dist2_nonneg x _) E x Hx) as E'. cbn in E'.
      apply dist2_zero; auto. rewrite centroid_length. pose proof (g_wf d gs Hg h H2) as W. unfold wfg in W. rewrite Forall_forall in W. auto.
    - intros H. rewrite (map_ext_in _ (fun _ => 0)) by (intros x Hx; now rewrite (H x Hx), dist2_refl).
      rewrite rsum_const. ring.
  Qed.
  Lemma centroid_const (c : point) (h : list point) : length c = d -> h <> [] -> (forall x, In x h -> x = c) -> centroid d h = c.
  Proof.
    intros Hc Hn H. apply (point_ext d); auto using centroid_length. intros j Hj. rewrite co_centroid by auto.
    rewrite (map_ext_in (co j) (fun _ => co j c)) by (intros x Hx; now rewrite (H x Hx)).
    rewrite rsum_const. pose proof (INR_pos h Hn). field. lra.
  Qed.
  Lemma collapsed_sil : sil_undefined d gs <-> collapsed d gs.
  Proof.
    unfold sil_undefined, collapsed. split.
    - intros (g & r & Hp & Ea & Eb). pose proof (selects_ne gs g r Hk Hp) as Hr.
      assert (Hgi : In g gs). { apply selects_In in Hp. apply (Permutation_in g (Permutation_sym Hp)). now left. }
      assert (Hb : exists h, In h r /\ mdist d g h = 0).
      { pose proof (rmin_In (map (mdist d g) r)) as Hm. rewrite Eb in Hm.
        assert (Hne : map (mdist d g) r <> []) by (destruct r; [congruence|discriminate]).
        apply Hm in Hne. apply in_map_iff in Hne as (h & E & Hh). exists h. auto. }
      destruct Hb as (h & Hh & Eh).
      assert (Hhi : In h gs). { apply selects_In in Hp. apply (Permutation_in h (Permutation_sym Hp)). now right. }
      pose proof (proj1 (mdist_zero g g Hgi Hgi) Ea) as A. pose proof (proj1 (mdist_zero g h Hgi Hhi) Eh) as B.
      assert (Ec : centroid d h = centroid d g) by (apply centroid_const; auto using centroid_length; now apply (g_ne d gs Hg)).
      destruct (selects_pairs gs g r h Hp Hh) as [P|P]; [exists g, h|exists h, g]; (split; [exact P|split; [auto|]]);
        intros x [Hx|Hx]; rewrite ?Ec; auto.
    - intros (g & h & Hp & Ec & H). destruct (pairs_In gs g h Hp) as [H1 H2].
      destruct (pairs_selects gs g h Hp) as (r & Hr & Hh). exists g, r. split; [exact Hr|]. split; [apply mdist_zero; auto|].
      apply rmin_unique; [|intros y Hy; apply in_map_iff in Hy as (z & <- & Hz); apply mdist_nonneg].
      apply in_map_iff. exists h. split; auto. apply mdist_zero; auto.
  Qed.
  Lemma tss_tight : tss d gs = 0 <-> tight d gs /\ one_centre d gs.
  Proof.
    destruct Hg as [A B]. rewrite <- (total_scatter d gs A B), <- tight_wgss, <- centre_bgss.
    pose proof (wgss_nonneg d gs). pose proof (bgss_nonneg d gs). lra.
  Qed.
  Lemma two_of : exists g h, In (g, h) (pairs gs).
  Proof. pose proof (pairs_ne gs Hk). destruct (pairs gs) as [|[g h] l]; [congruence|]. exists g, h. now left. Qed.
  (** one centre and tight: collapsed; separate: not one centre, not collapsed *)
  Lemma tight_centre_collapsed : tight d gs -> one_centre d gs -> collapsed d gs.
  Proof.
    intros T C. destruct two_of as (g & h & Hp). destruct (pairs_In gs g h Hp) as [H1 H2]. exists g, h. split; auto. split; auto.
    intros x [Hx|Hx]; [now apply T|]. rewrite (C g h) by auto. now apply T.
  Qed.
  Lemma collapsed_separate : collapsed d gs -> ~ separate d gs.
  Proof. intros (g & h & Hp & Ec & _) H. apply NoDup_pairs with (x := g) (y := h) in H; auto. Qed.

  Definition CH_table (v : xr) : Prop :=
    (~ tight d gs -> v = Fin (CH_formula d gs)) /\
    (tight d gs -> ~ one_centre d gs -> ~ singletons gs -> v = PInf) /\
    (tight d gs -> one_centre d gs \/ singletons gs -> v = NaN).
  Lemma CH_cases : CH_table (CH_ext d gs).
  Proof.
    split; [|split].
    - intros H. apply CH_form; auto. now rewrite tight_wgss.
    - intros H1 H2 H3. apply CH_inf; auto; [now apply tight_wgss|now rewrite centre_bgss|now rewrite single_nk].
    - intros H1 H2. apply CH_nan; auto; [now apply tight_wgss|]. now rewrite centre_bgss, single_nk.
  Qed.
  Definition WB_table (v : xr) : Prop :=
    (~ one_centre d gs -> v = Fin (WB_formula d gs)) /\
    (one_centre d gs -> ~ tight d gs -> v = PInf) /\
    (one_centre d gs -> tight d gs -> v = NaN).
  Lemma WB_cases : WB_table (WB_ext d gs).
  Proof.
    split; [|split].
    - intros H. apply WB_form; auto. now rewrite centre_bgss.
    - intros H1 H2. apply WB_inf; auto; [now apply centre_bgss|now rewrite tight_wgss].
    - intros H1 H2. apply WB_nan; auto; [now apply centre_bgss|now apply tight_wgss].
  Qed.
  Definition DB_table (v : xr) : Prop :=
    (separate d gs -> v = Fin (DB_formula d gs)) /\
    (~ separate d gs -> ~ collapsed d gs -> v = PInf) /\
    (collapsed d gs -> v = NaN).
  Lemma DB_cases : DB_table (DB_ext d gs).
  Proof.
    split; [|split].
    - intros H. now apply DB_form.
    - intros H1 H2. apply DB_inf; auto. now rewrite collapsed_pts.
    - intros H. apply DB_nan; auto. now apply collapsed_pts.
  Qed.
  Definition XB_table (v : xr) : Prop :=
    (separate d gs -> v = Fin (XB_formula d gs)) /\
    (~ separate d gs -> ~ tight d gs -> v = PInf) /\
    (~ separate d gs -> tight d gs -> v = NaN).
  Lemma XB_cases : XB_table (XB_ext d gs).
  Proof.
    split; [|split].
    - intros H. now apply XB_form.
    - intros H1 H2. apply XB_inf; auto. now rewrite tight_wgss.
    - intros H1 H2. apply XB_nan; auto. now apply tight_wgss.
  Qed.
  Definition GD43_table (v : xr) : Prop :=
    (~ tight d gs -> v = Fin (GD43_formula d gs)) /\
    (tight d gs -> separate d gs -> v = PInf) /\
    (tight d gs -> ~ separate d gs -> v = NaN).
  Lemma GD43_cases : GD43_table (GD43_ext d gs).
  Proof.
    split; [|split].
    - intros H. apply GD43_form; auto. now rewrite tight_mse.
    - intros H1 H2. apply GD43_inf; auto. now apply tight_mse.
    - intros H1 H2. apply GD43_nan; auto. now apply tight_mse.
  Qed.
  Definition GD53_table (v : xr) : Prop :=
    (~ tight d gs -> v = Fin (GD53_formula d gs)) /\ (tight d gs -> v = NaN).
  Lemma GD53_cases : GD53_table (GD53_ext d gs).
  Proof.
    split.
    - intros H. apply GD53_form; auto. now rewrite tight_mse.
    - intros H1. apply GD53_nan; auto. now apply tight_mse.
  Qed.
  Definition PS_table (v : xr) : Prop :=
    (~ one_centre d gs -> v = Fin (PS_formula d gs)) /\ (one_centre d gs -> v = NaN).
  Lemma PS_cases : PS_table (PS_ext d gs).
  Proof. split; intros H; [now apply PS_form|now apply PS_nan]. Qed.
  Definition rCIP_table (v : xr) : Prop := v = Fin (rCIP_formula d gs).
  Definition cSIL_table (v : xr) : Prop :=
    (~ collapsed d gs -> v = Fin (cSIL_formula d gs)) /\
    (collapsed d gs -> ~ (tight d gs /\ one_centre d gs) -> v = NaN) /\
    (tight d gs -> one_centre d gs -> v = Fin 0).
  Lemma cSIL_cases : cSIL_table (cSIL_ext d gs).
  Proof.
    split; [|split].
    - intros H. apply cSIL_form; auto. now rewrite collapsed_sil.
    - intros H1 H2. apply cSIL_nan; auto; [now rewrite tss_tight|now apply collapsed_sil].
    - intros H1 H2. apply cSIL_zero; auto. now apply tss_tight.
  Qed.
End G.

(** ** cSIL's streams: the table it keeps may have negative entries *)
Section S.
  Context {X : Type} (E : X -> X -> R) (ls : list X).
  Hypotheses (Hl : (1 <= length ls)%nat) (Hnn : forall x, In x ls -> 0 <= E x x).
  (** the table is zero *)
  Definition zero_table : Prop := forall a b, In a ls -> In b ls -> E a b = 0.
  (** a cluster whose own entry is zero, [b] the least of the others *)
  Definition own_zero (P : R -> Prop) : Prop :=
    exists x r, In (x, r) (selects ls) /\ E x x = 0 /\ P (rmin (map (fun l => E l x) r)).
  Definition stream_table (v : xr) : Prop :=
    (zero_table -> v = Fin 0) /\
    (~ zero_table -> own_zero (fun b => b = 0) -> v = NaN) /\
    (~ zero_table -> ~ own_zero (fun b => b = 0) -> own_zero (fun b => b < 0) -> v = NInf) /\
    (~ zero_table -> ~ own_zero (fun b => b = 0) -> ~ own_zero (fun b => b < 0) ->
     v = Fin (rsum (map (fun p => let a := E (fst p) (fst p) in let b := rmin (map (fun l => E l (fst p)) (snd p)) in
                                  (b - a) / Rmax a b) (selects ls)) / INR (length ls))).
  Lemma zero_table_b : forallb (fun a => forallb (fun b => if Req_EM_T (E a b) 0 then true else false) ls) ls = true <-> zero_table.
  Proof.
    unfold zero_table. rewrite forallb_forall. split.
    - intros H a b Ha Hb. specialize (H a Ha). rewrite forallb_forall in H. specialize (H b Hb). now destruct (Req_EM_T (E a b) 0).
    - intros H a Ha. apply forallb_forall. intros b Hb. destruct (Req_EM_T (E a b) 0); auto.
  Qed.
  Lemma xsum_ninf l : (forall x, In x l -> x = NInf \/ exists r, x = Fin r) -> (exists x, In x l /\ x = NInf) -> xsum l = NInf.
  Proof.
    intros H1 H2.
    assert (H3 : xsum l = NInf \/ exists r, xsum l = Fin r /\ ~ exists x, In x l /\ x = NInf).
    { clear H2. induction l as [|y l IH].
      - right. exists 0. split; auto. intros (x & [] & _).
      - rewrite xsum_cons. destruct IH as [F|(r & F & N)]; [intros; apply H1; now right| |]; rewrite F.
        + left. destruct (H1 y (or_introl eq_refl)) as [->|(q & ->)]; reflexivity.
        + destruct (H1 y (or_introl eq_refl)) as [->|(q & ->)]; [now left|right]. exists (q + r). split; auto.
          intros (x & [<-|Hx] & Ex); [discriminate|]. apply N. now exists x. }
    destruct H3 as [|(r & _ & N)]; [auto|contradiction].
  Qed.
  Lemma stream_cases : stream_table (sil_value E ls).
  Proof.
    unfold stream_table, sil_value.
    destruct (forallb _ ls) eqn:Z; [apply zero_table_b in Z|];
      [|assert (NZ : ~ zero_table) by (rewrite <- zero_table_b; congruence); clear Z].
    - split; [auto|]. split; [contradiction|]. split; contradiction.
    - assert (K : 0 < INR (length ls)) by (apply lt_0_INR; lia).
      set (f := fun p : X * list X => let a := E (fst p) (fst p) in let b := rmin (map (fun l => E l (fst p)) (snd p)) in xdiv (Fin (b - a)) (Fin (Rmax a b))).
      assert (Hin : forall x r, In (x, r) (selects ls) -> In x ls).
      { intros x r Hp. apply selects_In in Hp. apply (Permutation_in x (Permutation_sym Hp)). now left. }
      assert (Hf : forall x r, In (x, r) (selects ls) ->
        (E x x = 0 -> rmin (map (fun l => E l x) r) = 0 -> f (x, r) = NaN) /\
        (E x x = 0 -> rmin (map (fun l => E l x) r) < 0 -> f (x, r) = NInf) /\
        (~ (E x x = 0 /\ rmin (map (fun l => E l x) r) <= 0) ->
         f (x, r) = Fin ((rmin (map (fun l => E l x) r) - E x x) / Rmax (E x x) (rmin (map (fun l => E l x) r))))).
      { intros x r Hp. unfold f. cbv zeta. cbn [fst snd]. set (b := rmin _). pose proof (Hnn x (Hin x r Hp)) as Ha. repeat split.
        - intros Ea Eb. rewrite Ea, Eb. rewrite Rmax_left by lra. rewrite xdiv_zero, Rminus_0_r. apply inf_mul_zero.
        - intros Ea Hb. rewrite Ea. rewrite Rmax_left by lra. rewrite xdiv_zero, Rminus_0_r. unfold inf_mul.
          destruct (Req_EM_T b 0); [lra|]. destruct (Rlt_dec 0 b); [lra|reflexivity].
        - intros H. apply xdiv_fin. pose proof (Rmax_l (E x x) b). pose proof (Rmax_r (E x x) b).
          intros Em. apply H. lra. }
      split; [contradiction|]. split; [|split].
      + intros _ (x & r & Hp & Ea & Eb). rewrite xsum_nan; [reflexivity|]. exists NaN. split; auto. apply in_map_iff.
        exists (x, r). split; auto. now apply Hf.
      + intros _ N0 (x & r & Hp & Ea & Eb). rewrite xsum_ninf.
        * cbn [xdiv]. destruct (Req_EM_T (INR (length ls)) 0); [lra|]. rewrite inf_mul_pos by lra. reflexivity.
        * intros y Hy. apply in_map_iff in Hy as ((x' & r') & <- & Hp'). destruct (Hf x' r' Hp') as (F1 & F2 & F3).
          destruct (Req_dec (E x' x') 0) as [A|A]; [|right; eexists; apply F3; tauto].
          destruct (Rtotal_order (rmin (map (fun l => E l x') r')) 0) as [B|[B|B]].
          -- left. auto.
          -- exfalso. apply N0. now exists x', r'.
          -- right. eexists. apply F3. lra.
        * exists NInf. split; auto. apply in_map_iff. exists (x, r). split; auto. now apply Hf.
      + intros _ N0 N1.
        rewrite (map_ext_in f (fun p => Fin ((fun p => let a := E (fst p) (fst p) in let b := rmin (map (fun l => E l (fst p)) (snd p)) in (b - a) / Rmax a b) p))).
        * rewrite <- (map_map (fun p => let a := E (fst p) (fst p) in let b := rmin (map (fun l => E l (fst p)) (snd p)) in (b - a) / Rmax a b) Fin).
          rewrite xsum_fin, xdiv_fin by lra. reflexivity.
        * intros (x, r) Hp. apply Hf; auto. intros [A B]. destruct (Rle_lt_or_eq_dec _ _ B) as [B'|B'].
          -- apply N1. now exists x, r.
          -- apply N0. now exists x, r.
  Qed.
End S.

Lemma sil_stream_cases d s : wf d s -> (2 <= length (distinct s))%nat ->
  stream_table (sil_entry d s) (distinct s) (cSIL_stream_ext d s).
Proof.
  intros Hw Hk. unfold cSIL_stream_ext. destruct (Nat.leb_spec (length (distinct s)) 1); [lia|]. apply stream_cases; [lia|].
  intros l Hl. unfold sil_entry. rewrite Z.eqb_refl, Rplus_0_r. apply mdist_nonneg.
Qed.
Lemma two_firsts_single d x l y m s : wf d ((x, l) :: (y, m) :: s) -> l <> m ->
  singletons (clusters [(x, l); (y, m)]) /\ good d (clusters [(x, l); (y, m)]) /\ length (clusters [(x, l); (y, m)]) = 2%nat.
Proof.
  intros Hw Hlm. assert (E : clusters [(x, l); (y, m)] = [[x]; [y]]).
  { assert (E1 : (l =? m)%Z = false) by now apply Z.eqb_neq. assert (E2 : (m =? l)%Z = false) by (apply Z.eqb_neq; congruence).
    unfold clusters, distinct, labels, cluster. cbn [map snd fst nodup]. destruct (in_dec Z.eq_dec l [m]) as [[H|[]]|_]; [congruence|].
    cbn. now rewrite !Z.eqb_refl, E1, E2. }
  rewrite E. split; [|split]; [intros g [<-|[<-|[]]]; reflexivity| |reflexivity].
  rewrite <- E. apply clusters_good. apply (wf_firstn d _ 2) in Hw. exact Hw.
Qed.
Lemma CH_second d x l y m s : wf d ((x, l) :: (y, m) :: s) -> l <> m ->
  nth_error (stream_results kCH ((x, l) :: (y, m) :: s)) 1 = Some (Ok NaN).
Proof.
  intros Hw H. destruct (two_firsts_single d x l y m s Hw H) as (S1 & G & L).
  rewrite (stream_result_ok kCH d); auto; try discriminate; [|simpl; lia]. cbn [firstn]. do 2 f_equal.
  rewrite XVal_ext by lia. apply (CH_cases d _ G); [lia| |auto]. apply singles_tight; auto; lia.
Qed.
Lemma GD53_second d x l y m s : wf d ((x, l) :: (y, m) :: s) -> l <> m ->
  nth_error (stream_results kGD53 ((x, l) :: (y, m) :: s)) 1 = Some (Ok NaN).
Proof.
  intros Hw H. destruct (two_firsts_single d x l y m s Hw H) as (S1 & G & L).
  rewrite (stream_result_ok kGD53 d); auto; try discriminate; [|simpl; lia]. cbn [firstn]. do 2 f_equal.
  rewrite XVal_ext by lia. apply (GD53_cases d _ G); [lia|]. apply singles_tight; auto; lia.
Qed.

(** ** C38 *)
Theorem C38_CH_times_WB : forall d s a b, (2 <= length (distinct s))%nat -> a <> 0 -> b <> 0 ->
  observed kCH d s (Fin a) -> observed kWB d s (Fin b) ->
  let k := INR (length (distinct s)) in let n := INR (length s) in a * b = k * (n - k) / (k - 1).
Proof.
  intros d s a b Hk Ha Hb H1 H2 k n. pose proof (observed_wf _ _ _ _ H1) as Hw.
  pose proof (observed_XVal kCH d s _ ltac:(discriminate) ltac:(discriminate) H1) as E1.
  pose proof (observed_XVal kWB d s _ ltac:(discriminate) ltac:(discriminate) H2) as E2.
  assert (Hk' : (2 <= length (clusters s))%nat) by now rewrite distinct_clusters.
  rewrite XVal_ext in E1, E2 by auto.
  rewrite (CH_WB d (clusters s) (clusters_good d s Hw) Hk' a b) by auto. unfold nclus, nsamp, k, n.
  rewrite distinct_clusters, (Permutation_length (clusters_concat s)). unfold points. now rewrite map_length.
Qed.
Print Assumptions C38_CH_times_WB.
Theorem C38_total_scatter : forall d s, wf d s -> bgss d (clusters s) + wgss d (clusters s) = scatter d (points s).
Proof.
  intros d s Hw. destruct (clusters_good d s Hw) as [A B]. rewrite (total_scatter d _ A B). unfold tss, scatter.
  pose proof (clusters_concat s) as P. rewrite (centroid_perm d _ _ P). apply rsum_perm. now apply Permutation_map.
Qed.
Print Assumptions C38_total_scatter.
Example C38_hypotheses : (2 <= length (distinct ex_s))%nat /\ wf 2 ex_s /\
  exists a b, a <> 0 /\ b <> 0 /\ batch_observed kCH 2 ex_s (Fin a) /\ batch_observed kWB 2 ex_s (Fin b).
Proof.
  split; [cbn; lia|]. split; [apply ex_wf|].
  assert (W : wgss 2 (clusters ex_s) = 5) by (rewrite ex_clusters; unfold wgss; cbn [map]; rewrite ex_sg, ex_sh; cbn; lra).
  assert (B : bgss 2 (clusters ex_s) <> 0) by (rewrite ex_bgss; lra).
  exists (CH_formula 2 (clusters ex_s)), (WB_formula 2 (clusters ex_s)).
  assert (K : nclus (clusters ex_s) = 2) by (rewrite ex_clusters; unfold nclus; cbn; lra).
  assert (N : nsamp (clusters ex_s) = 4) by (rewrite ex_clusters; unfold nsamp; cbn; lra).
  split; [|split; [|split; (split; [apply ex_wf|split; [exists 2%nat; split; [lia|apply ex_exact]|]])]].
  - unfold CH_formula. rewrite W, K, N. intros E. apply B. field_simplify in E. lra.
  - unfold WB_formula. rewrite W, K. unfold Rdiv. apply Rmult_integral_contrapositive. split; [lra|now apply Rinv_neq_0_compat].
  - apply (C23_CH_formula 2 2); [apply ex_wf|lia|apply ex_exact|lra].
  - apply (C24_WB_formula 2 2); [apply ex_wf|lia|apply ex_exact|exact B].
Qed.

(** ** C39.  The tables above in one statement: what the classes return with at
    least two clusters.  cSIL: of batches here, of streams below. *)
Definition value_table (c : kind) (d : nat) (gs : list (list point)) (v : xr) : Prop :=
  match c with
  | kCH => CH_table d gs v | kWB => WB_table d gs v | kDB => DB_table d gs v | kXB => XB_table d gs v
  | kGD43 => GD43_table d gs v | kGD53 => GD53_table d gs v | kPS => PS_table d gs v
  | krCIP => rCIP_table d gs v | kcSIL => cSIL_table d gs v
  end.
Lemma value_cases c d gs : good d gs -> (2 <= length gs)%nat -> value_table c d gs (XVal c d gs).
Proof.
  intros Hg Hk. rewrite XVal_ext by auto. destruct c; cbn [value_table];
    auto using CH_cases, WB_cases, DB_cases, XB_cases, GD43_cases, GD53_cases, PS_cases, cSIL_cases. reflexivity.
Qed.
Theorem C39_case_analysis : forall c d s v, c <> kcSIL -> (c = krCIP -> d <> 0%nat) -> observed c d s v ->
  (2 <= length (distinct s))%nat -> value_table c d (clusters s) v.
Proof.
  intros c d s v Hc Hd Ho Hk. apply (observed_elim c d s (fun gs v => value_table c d gs v)); auto. intros; now apply value_cases.
Qed.
Print Assumptions C39_case_analysis.
Theorem C39_case_analysis_cSIL_batch : forall d s v, batch_observed kcSIL d s v -> cSIL_table d (clusters s) v.
Proof.
  intros d s v Ho. apply (batch_elim kcSIL d s (fun gs v => value_table kcSIL d gs v)); auto; [discriminate|]. intros; now apply value_cases.
Qed.
Print Assumptions C39_case_analysis_cSIL_batch.
Theorem C39_case_analysis_cSIL_streams : forall d s v, stream_observed kcSIL d s v -> (2 <= length (distinct s))%nat ->
  stream_table (sil_entry d s) (distinct s) v.
Proof.
  intros d s v Ho Hk. pose proof (proj1 Ho) as Hw. rewrite (sil_stream_observed d s v Ho). now apply sil_stream_cases.
Qed.
Print Assumptions C39_case_analysis_cSIL_streams.
(** the second sample of every stream that starts with two different labels *)
Theorem C39_second_sample : forall d x l y m s, wf d ((x, l) :: (y, m) :: s) -> l <> m ->
  nth_error (stream_results kCH ((x, l) :: (y, m) :: s)) 1 = Some (Ok NaN) /\
  nth_error (stream_results kGD53 ((x, l) :: (y, m) :: s)) 1 = Some (Ok NaN).
Proof. intros d x l y m s Hw H. split; [now apply (CH_second d)|now apply (GD53_second d)]. Qed.
Print Assumptions C39_second_sample.
(** every row of the tables is met by some data *)
Definition deg_a : data := [([0], 0%Z); ([1], 1%Z)].                            (* singletons, separate *)
Definition deg_b : data := [([0], 0%Z); ([0], 0%Z); ([1], 1%Z)].                (* tight, separate, not singletons *)
Definition deg_c : data := [([0], 0%Z); ([2], 0%Z); ([1], 1%Z)].                (* one centre, not tight *)
Definition deg_d : data := [([0], 0%Z); ([0], 1%Z)].                            (* one centre, tight *)
Definition deg_e : data := [([0], 0%Z); ([0], 1%Z); ([3], 2%Z)].                (* collapsed, two centres *)
Example C39_hypotheses :
  (singletons (clusters deg_a) /\ tight 1 (clusters deg_a) /\ separate 1 (clusters deg_a)) /\
  (tight 1 (clusters deg_b) /\ separate 1 (clusters deg_b) /\ ~ singletons (clusters deg_b) /\ ~ one_centre 1 (clusters deg_b)) /\
  (one_centre 1 (clusters deg_c) /\ ~ tight 1 (clusters deg_c) /\ ~ separate 1 (clusters deg_c) /\ ~ collapsed 1 (clusters deg_c)) /\
  (one_centre 1 (clusters deg_d) /\ tight 1 (clusters deg_d) /\ collapsed 1 (clusters deg_d)) /\
  (collapsed 1 (clusters deg_e) /\ ~ one_centre 1 (clusters deg_e)).
Proof.
  assert (C1 : forall a, centroid 1 [[a]] = [a]) by (intros; unfold centroid; cbn; f_equal; lra).
  assert (C2 : forall a b, centroid 1 [[a]; [b]] = [(a + b) / 2]) by (intros; unfold centroid; cbn; f_equal; lra).
  change (clusters deg_a) with [[[0]]; [[1]]]. change (clusters deg_b) with [[[0]; [0]]; [[1]]].
  change (clusters deg_c) with [[[0]; [2]]; [[1]]]. change (clusters deg_d) with [[[0]]; [[0]]].
  change (clusters deg_e) with [[[0]]; [[0]]; [[3]]].
  assert (D : [0] <> [1]) by (intros E; inversion E; lra).
  repeat split.
  - intros g [<-|[<-|[]]]; reflexivity.
  - intros g x [<-|[<-|[]]] [<-|[]]; now rewrite C1.
  - unfold separate. cbn [map]. rewrite !C1. repeat constructor; simpl; intuition.
  - intros g x [<-|[<-|[]]]; [intros [<-|[<-|[]]]; rewrite C2; f_equal; lra|intros [<-|[]]; now rewrite C1].
  - unfold separate. cbn [map]. rewrite C1, C2. repeat constructor; simpl; intuition. inversion H0. lra.
  - intros H. specialize (H [[0]; [0]] (or_introl eq_refl)). discriminate.
  - intros H. specialize (H [[0]; [0]] [[1]] (or_introl eq_refl) (or_intror (or_introl eq_refl))). rewrite C1, C2 in H. inversion H. lra.
  - intros g h [<-|[<-|[]]] [<-|[<-|[]]]; rewrite ?C1, ?C2; auto; f_equal; lra.
  - intros H. specialize (H [[0]; [2]] [0] (or_introl eq_refl) (or_introl eq_refl)). rewrite C2 in H. inversion H. lra.
  - unfold separate. cbn [map]. rewrite C1, C2. intros H. inversion H as [|? ? N _]; subst. apply N. left. f_equal. lra.
  - intros (g & h & [E|[]] & _ & H). inversion E; subst. specialize (H [0] (or_introl (or_introl eq_refl))). rewrite C2 in H. inversion H. lra.
  - intros g h [<-|[<-|[]]] [<-|[<-|[]]]; auto.
  - intros g x [<-|[<-|[]]] [<-|[]]; now rewrite C1.
  - exists [[0]], [[0]]. split; [now left|]. split; auto. intros x [[<-|[]]|[<-|[]]]; now rewrite C1.
  - exists [[0]], [[0]]. split; [now left|]. split; auto. intros x [[<-|[]]|[<-|[]]]; now rewrite C1.
  - intros H. specialize (H [[0]] [[3]] (or_introl eq_refl) (or_intror (or_intror (or_introl eq_refl)))). rewrite !C1 in H. inversion H. lra.
Qed.
(** the negative row of [stream_table]: sil_s2 *)
Example C39_hypotheses_streams : (2 <= length (distinct sil_s2))%nat /\ stream_observed kcSIL 1 sil_s2 NInf.
Proof.
  split; [cbn; lia|]. rewrite <- sil_s2_stream. apply sil_stream_observed_ex; [repeat constructor|discriminate].
Qed.
