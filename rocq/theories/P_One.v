(** * C81: what one more sample changes, and which label CH and WB prefer for it

    Exact arithmetic.  The compactness of the sample's cluster grows by
    n/(n+1) * |x - v|^2 (n, v: size and centroid before), nothing else does, and
    the total scatter grows by the same expression for the whole data.  So of two
    labels for the next sample CH and WB prefer the one with the smaller
    n/(n+1) * |x - v|^2, which need not be that of the nearest centroid. *)
From Coq Require Import ZArith List Arith Bool Lia Permutation.
From Verif Require Import Num NumPy Base GetCvi Lists Stream Generic.
From Coq Require Import Reals Lra.
From Verif Require Import Det Spec XR SpecX RGeom XLift XEval XRun XPerm XBatch Obs XForm XBounds P_Inc P_Formula P_Bounds P_Degenerate.
From Verif Require Import CompSpec Comp CompX P_Comp.
From Verif Require Import XSilEx XOne.
Import ListNotations.
Local Notation length := List.length.
Local Open Scope R_scope.

(** the object after the one-sample calls for the samples of [s] *)
Definition streamed (c : kind) (s : data) : obj XR :=
  after c new_obj (map (fun p => (Vec (fst p), Lab (snd p))) (as_floats s)).

Lemma streamed_parts c d s : c <> kcSIL -> (c = krCIP -> d <> 0%nat) -> wf d s -> (2 <= length (distinct s))%nat ->
  map fst (label_map (streamed c s)) = firsts s /\ Parts c d (map (cluster s) (firsts s)) (at_ (streamed c s)).
Proof.
  intros Hc Hd Hw Hl. destruct (stream_parts c d s Hc Hd Hw Hl) as [E H].
  unfold streamed. change (map _ (as_floats s)) with (stream (fin_data s)). cbv zeta in *. rewrite E. split; [|exact H].
  clear. unfold lmap. generalize 0%nat. induction (firsts s) as [|a l IH]; intros b; auto.
  cbn [List.length seq combine map fst]. f_equal. apply IH.
Qed.
Lemma firsts_clusters s : Permutation (map (cluster s) (firsts s)) (clusters s).
Proof. exact (groups_clusters s). Qed.
Lemma distinct_grows s x l : (length (distinct s) <= length (distinct (s ++ [(x, l)])))%nat.
Proof.
  apply NoDup_incl_length; [apply NoDup_nodup|]. intros z. unfold distinct. rewrite !nodup_In, labels_snoc, in_app_iff. tauto.
Qed.
Lemma wf_snoc d s (x : point) l : wf d s -> length x = d -> wf d (s ++ [(x, l)]).
Proof. intros H1 H2. apply Forall_app. split; auto. Qed.

(** The compactness, cluster by cluster: [m] is the label at position [i] of the
    object's label map. *)
Theorem C81_compactness : forall c d s (x : point) l i m,
  In c [kCH; kWB; kXB; kGD43; kGD53] -> wf d s -> length x = d -> (2 <= length (distinct s))%nat ->
  nth_error (map fst (label_map (streamed c s))) i = Some m ->
  exists r, nth_error (CP (at_ (streamed c s))) i = Some (Fin r) /\
    nth_error (CP (at_ (streamed c (s ++ [(x, l)])))) i =
      Some (Fin (if Z.eqb m l
                 then let n := INR (length (cluster s m)) in r + n / (n + 1) * dist2 x (centroid d (cluster s m))
                 else r)).
Proof.
  intros c d s x l i m Hc Hw Hx Hk Hm.
  assert (N1 : c <> kcSIL) by (intros ->; cbn in Hc; intuition discriminate).
  assert (N2 : c = krCIP -> d <> 0%nat) by (intros ->; cbn in Hc; intuition discriminate).
  destruct (streamed_parts c d s N1 N2 Hw Hk) as [E P].
  destruct (streamed_parts c d (s ++ [(x, l)]) N1 N2 (wf_snoc d s x l Hw Hx) (Nat.le_trans _ _ _ Hk (distinct_grows s x l))) as [E' P'].
  assert (G : forall t (a : attrs XR), Parts c d (map (cluster t) (firsts t)) a -> CP a = map (fun l => Fin (scatter d (cluster t l))) (firsts t)).
  { intros t a (_ & _ & _ & Q). cbn in Hc. decompose [or] Hc; try contradiction; subst c; destruct Q as [Q _]; rewrite Q; apply map_map. }
  rewrite (G _ _ P), (G _ _ P'). rewrite E in Hm. exists (scatter d (cluster s m)).
  split; [now apply map_nth_error with (f := fun l => Fin (scatter d (cluster s l)))|].
  assert (Hm' : nth_error (firsts (s ++ [(x, l)])) i = Some m).
  { rewrite firsts_snoc. unfold add_label. destruct (in_dec Z.eq_dec l (firsts s)); auto. rewrite nth_error_app1; auto.
    apply nth_error_Some. congruence. }
  refine (eq_trans (map_nth_error (fun l0 => Fin (scatter d (cluster (s ++ [(x, l)]) l0))) i _ Hm') _). do 2 f_equal.
  rewrite cluster_snoc, (Z.eqb_sym m l). destruct (Z.eqb_spec l m) as [->|]; [|now rewrite app_nil_r].
  cbv zeta. apply scatter_one_more; auto using wf_cluster.
Qed.
Print Assumptions C81_compactness.

(** A new label adds the entry 0. *)
Theorem C81_new_label : forall c d s (x : point) l,
  In c [kCH; kWB; kXB; kGD43; kGD53] -> wf d s -> length x = d -> (2 <= length (distinct s))%nat ->
  ~ In l (labels s) ->
  CP (at_ (streamed c (s ++ [(x, l)]))) = CP (at_ (streamed c s)) ++ [Fin 0].
Proof.
  intros c d s x l Hc Hw Hx Hk Hl.
  assert (N1 : c <> kcSIL) by (intros ->; cbn in Hc; intuition discriminate).
  assert (N2 : c = krCIP -> d <> 0%nat) by (intros ->; cbn in Hc; intuition discriminate).
  destruct (streamed_parts c d s N1 N2 Hw Hk) as [E P].
  destruct (streamed_parts c d (s ++ [(x, l)]) N1 N2 (wf_snoc d s x l Hw Hx) (Nat.le_trans _ _ _ Hk (distinct_grows s x l))) as [E' P'].
  assert (G : forall t (a : attrs XR), Parts c d (map (cluster t) (firsts t)) a -> CP a = map (fun l => Fin (scatter d (cluster t l))) (firsts t)).
  { intros t a (_ & _ & _ & Q). cbn in Hc. decompose [or] Hc; try contradiction; subst c; destruct Q as [Q _]; rewrite Q; apply map_map. }
  rewrite (G _ _ P), (G _ _ P'), firsts_snoc. unfold add_label.
  assert (Hf : ~ In l (firsts s)) by (unfold firsts; now rewrite first_seen_In).
  destruct (in_dec Z.eq_dec l (firsts s)); [contradiction|]. rewrite map_app. refine (f_equal2 (@app xr) _ _).
  - apply map_ext_in. intros m Hm. do 2 f_equal. rewrite cluster_snoc. destruct (Z.eqb_spec l m) as [->|]; [contradiction|apply app_nil_r].
  - cbn [map]. rewrite cluster_snoc, Z.eqb_refl, cluster_none by auto. cbn [app]. do 2 f_equal. now apply scatter_single.
Qed.
Print Assumptions C81_new_label.

(** The stored within- and between-group sums: the first never falls, and both
    together grow by N/(N+1) * |x - mu|^2, whatever the label. *)
Theorem C81_sums : forall c d s (x : point) l, c = kCH \/ c = kWB -> wf d s -> length x = d -> (2 <= length (distinct s))%nat ->
  exists w b w' b',
    WGSS (at_ (streamed c s)) = Fin w /\ BGSS (at_ (streamed c s)) = Fin b /\
    WGSS (at_ (streamed c (s ++ [(x, l)]))) = Fin w' /\ BGSS (at_ (streamed c (s ++ [(x, l)]))) = Fin b' /\
    (let n := INR (length (cluster s l)) in w' = w + n / (n + 1) * dist2 x (centroid d (cluster s l))) /\
    (let n := INR (length s) in w' + b' = w + b + n / (n + 1) * dist2 x (centroid d (points s))) /\
    w <= w'.
Proof.
  intros c d s x l Hc Hw Hx Hk.
  assert (N1 : c <> kcSIL) by (destruct Hc; subst; discriminate).
  assert (N2 : c = krCIP -> d <> 0%nat) by (destruct Hc; subst; discriminate).
  pose proof (wf_snoc d s x l Hw Hx) as Hw'.
  destruct (streamed_parts c d s N1 N2 Hw Hk) as [_ P].
  destruct (streamed_parts c d (s ++ [(x, l)]) N1 N2 Hw' (Nat.le_trans _ _ _ Hk (distinct_grows s x l))) as [_ P'].
  assert (G : forall t (a : attrs XR), Parts c d (map (cluster t) (firsts t)) a -> WGSS a = Fin (wgss d (clusters t)) /\ BGSS a = Fin (bgss d (clusters t))).
  { intros t a (_ & _ & _ & Q). rewrite <- (wgss_perm d _ _ (firsts_clusters t)), <- (bgss_perm d _ _ (firsts_clusters t)).
    destruct Hc; subst c; now destruct Q as (_ & _ & Q1 & Q2). }
  destruct (G _ _ P) as [A1 A2]. destruct (G _ _ P') as [A3 A4].
  exists (wgss d (clusters s)), (bgss d (clusters s)), (wgss d (clusters (s ++ [(x, l)]))), (bgss d (clusters (s ++ [(x, l)]))).
  do 4 (split; [assumption|]).
  pose proof (wgss_snoc d s x l Hw Hx) as E1. pose proof (total_snoc d s x l Hw Hx) as E2.
  rewrite <- !C38_total_scatter in E2 by auto. pose proof (gain_nonneg d (cluster s l) x) as E3.
  unfold gain in *. cbv zeta in *. replace (length s) with (length (points s)) by apply map_length. split; [exact E1|split]; [|lra]. lra.
Qed.
Print Assumptions C81_sums.

(** ** Which label is preferred *)
Lemma finite_CH d s r : observed kCH d s (Fin r) -> (2 <= length (distinct s))%nat ->
  0 < wgss d (clusters s) /\ r = CH_formula d (clusters s).
Proof.
  intros H Hk. pose proof (observed_wf _ _ _ _ H) as Hw. pose proof (clusters_good d s Hw) as Hg.
  pose proof (C39_case_analysis kCH d s _ ltac:(discriminate) ltac:(discriminate) H Hk) as (T1 & T2 & T3).
  assert (Hn : ~ tight d (clusters s)).
  { intros T. assert (K : (2 <= length (clusters s))%nat) by now rewrite distinct_clusters.
    pose proof (tight_wgss d (clusters s) Hg) as TW. pose proof (centre_bgss d (clusters s) Hg K) as TB. pose proof (single_nk d (clusters s) Hg) as TN.
    destruct (Req_dec (bgss d (clusters s)) 0) as [E|E]; [now apply TB in E; specialize (T3 T (or_introl E))|].
    destruct (Req_dec (nclus (clusters s)) (nsamp (clusters s))) as [E'|E']; [now apply TN in E'; specialize (T3 T (or_intror E'))|].
    specialize (T2 T). rewrite <- TB, <- TN in T2. now specialize (T2 E E'). }
  split; [|specialize (T1 Hn); congruence]. pose proof (wgss_nonneg d (clusters s)).
  rewrite <- (tight_wgss d (clusters s) Hg) in Hn. lra.
Qed.
Lemma finite_WB d s r : observed kWB d s (Fin r) -> (2 <= length (distinct s))%nat ->
  0 < bgss d (clusters s) /\ r = WB_formula d (clusters s).
Proof.
  intros H Hk. pose proof (observed_wf _ _ _ _ H) as Hw. pose proof (clusters_good d s Hw) as Hg.
  pose proof (C39_case_analysis kWB d s _ ltac:(discriminate) ltac:(discriminate) H Hk) as (T1 & T2 & T3).
  assert (Hn : ~ one_centre d (clusters s)).
  { intros T. pose proof (tight_wgss d (clusters s) Hg) as TW.
    destruct (Req_dec (wgss d (clusters s)) 0) as [E|E]; [now apply TW in E; specialize (T3 T E)|].
    rewrite TW in E. now specialize (T2 T E). }
  split; [|specialize (T1 Hn); congruence]. pose proof (bgss_nonneg d (clusters s)).
  rewrite <- (centre_bgss d (clusters s) Hg) in Hn; [lra|]. now rewrite distinct_clusters.
Qed.
Lemma inv_lt_back a b : 0 < a -> 0 < b -> / a < / b -> b < a.
Proof.
  intros Ha Hb H. rewrite <- (Rinv_inv a), <- (Rinv_inv b). apply Rinv_lt_contravar; auto.
  apply Rmult_lt_0_compat; now apply Rinv_0_lt_compat.
Qed.
Lemma nclus_distinct s : nclus (clusters s) = INR (length (distinct s)).
Proof. unfold nclus. now rewrite distinct_clusters. Qed.
Lemma nsamp_length s : nsamp (clusters s) = INR (length s).
Proof. unfold nsamp. rewrite (Permutation_length (clusters_concat s)). unfold points. now rewrite map_length. Qed.
Lemma known_more s x l : In l (labels s) -> (length (distinct (s ++ [(x, l)])) < length (s ++ [(x, l)]))%nat.
Proof.
  intros Hl. rewrite (Permutation_length (distinct_snoc s x l Hl)), app_length. cbn [length].
  assert (length (distinct s) <= length (labels s))%nat by (apply NoDup_incl_length; [apply NoDup_nodup|intros z; apply nodup_In]).
  unfold labels in H. rewrite map_length in H. lia.
Qed.

Section Choice.
  Context (d : nat) (s : data) (x : point) (l l' : Z).
  Hypotheses (Hw : wf d s) (Hx : length x = d) (Hk : (2 <= length (distinct s))%nat)
             (Hl : In l (labels s)) (Hl' : In l' (labels s)).
  Let t := s ++ [(x, l)].
  Let t' := s ++ [(x, l')].
  Lemma choice_facts : nclus (clusters t) = nclus (clusters t') /\ nsamp (clusters t) = nsamp (clusters t') /\
    1 < nclus (clusters t) < nsamp (clusters t) /\
    bgss d (clusters t) + wgss d (clusters t) = bgss d (clusters t') + wgss d (clusters t') /\
    wgss d (clusters t) - wgss d (clusters t') = gain d (cluster s l) x - gain d (cluster s l') x.
  Proof.
    rewrite !nclus_distinct, !nsamp_length. unfold t, t'.
    assert (E : length (distinct (s ++ [(x, l)])) = length (distinct s)) by now apply Permutation_length, distinct_snoc.
    assert (E' : length (distinct (s ++ [(x, l')])) = length (distinct s)) by now apply Permutation_length, distinct_snoc.
    split; [now rewrite E, E'|]. split; [now rewrite !app_length|]. split.
    { split; [|apply lt_INR; now apply known_more]. rewrite E. apply (lt_INR 1). lia. }
    split; [|rewrite (wgss_snoc d s x l Hw Hx), (wgss_snoc d s x l' Hw Hx); lra].
    rewrite (C38_total_scatter d _ (wf_snoc d s x l Hw Hx)), (C38_total_scatter d _ (wf_snoc d s x l' Hw Hx)).
    now rewrite (total_snoc d s x l Hw Hx), (total_snoc d s x l' Hw Hx).
  Qed.
End Choice.

(** The next sample [x] given a label already known: the value of CH is larger
    for the label with the smaller n/(n+1) * |x - v|^2, and only for it. *)
Theorem C81_CH_choice : forall d s (x : point) l l' r r', wf d s -> length x = d -> (2 <= length (distinct s))%nat ->
  In l (labels s) -> In l' (labels s) ->
  observed kCH d (s ++ [(x, l)]) (Fin r) -> observed kCH d (s ++ [(x, l')]) (Fin r') ->
  let cost m := let n := INR (length (cluster s m)) in n / (n + 1) * dist2 x (centroid d (cluster s m)) in
  (r' < r <-> cost l < cost l').
Proof.
  intros d s x l l' r r' Hw Hx Hk Hl Hl' H H' cost.
  pose proof (Nat.le_trans _ _ _ Hk (distinct_grows s x l)) as K. pose proof (Nat.le_trans _ _ _ Hk (distinct_grows s x l')) as K'.
  destruct (finite_CH _ _ _ H K) as [W ->]. destruct (finite_CH _ _ _ H' K') as [W' ->].
  destruct (choice_facts d s x l l' Hw Hx Hk Hl Hl') as (E1 & E2 & E3 & E4 & E5).
  change (gain d (cluster s l) x) with (cost l) in E5. change (gain d (cluster s l') x) with (cost l') in E5.
  unfold CH_formula. rewrite <- E1, <- E2. clear H H' K K'.
  set (w := wgss d (clusters (s ++ [(x, l)]))) in *. set (w' := wgss d (clusters (s ++ [(x, l')]))) in *.
  set (b := bgss d (clusters (s ++ [(x, l)]))) in *. set (b' := bgss d (clusters (s ++ [(x, l')]))) in *.
  set (k := nclus (clusters (s ++ [(x, l)]))) in *. set (n := nsamp (clusters (s ++ [(x, l)]))) in *.
  assert (B : 0 <= b) by apply bgss_nonneg. assert (B' : 0 <= b') by apply bgss_nonneg.
  replace (b' / (k - 1) / (w' / (n - k))) with (((b' + w') * / w' - 1) * ((n - k) / (k - 1))) by (field; lra).
  replace (b / (k - 1) / (w / (n - k))) with (((b' + w') * / w - 1) * ((n - k) / (k - 1))) by (replace (b' + w') with (b + w) by lra; field; lra).
  assert (C : 0 < (n - k) / (k - 1)) by (apply Rmult_lt_0_compat; [lra|apply Rinv_0_lt_compat; lra]).
  assert (T : 0 < b' + w') by lra. split; intros F.
  - apply Rmult_lt_reg_r in F; auto. assert (F' : (b' + w') * / w' < (b' + w') * / w) by lra.
    apply Rmult_lt_reg_l in F'; auto. apply inv_lt_back in F'; auto; lra.
  - apply Rmult_lt_compat_r; auto. apply Rplus_lt_compat_r. apply Rmult_lt_compat_l; auto.
    apply Rinv_lt_contravar; [now apply Rmult_lt_0_compat|lra].
Qed.
Print Assumptions C81_CH_choice.

Theorem C81_WB_choice : forall d s (x : point) l l' r r', wf d s -> length x = d -> (2 <= length (distinct s))%nat ->
  In l (labels s) -> In l' (labels s) ->
  observed kWB d (s ++ [(x, l)]) (Fin r) -> observed kWB d (s ++ [(x, l')]) (Fin r') ->
  let cost m := let n := INR (length (cluster s m)) in n / (n + 1) * dist2 x (centroid d (cluster s m)) in
  (r < r' <-> cost l < cost l').
Proof.
  intros d s x l l' r r' Hw Hx Hk Hl Hl' H H' cost.
  pose proof (Nat.le_trans _ _ _ Hk (distinct_grows s x l)) as K. pose proof (Nat.le_trans _ _ _ Hk (distinct_grows s x l')) as K'.
  destruct (finite_WB _ _ _ H K) as [B ->]. destruct (finite_WB _ _ _ H' K') as [B' ->].
  destruct (choice_facts d s x l l' Hw Hx Hk Hl Hl') as (E1 & E2 & E3 & E4 & E5).
  change (gain d (cluster s l) x) with (cost l) in E5. change (gain d (cluster s l') x) with (cost l') in E5.
  unfold WB_formula. rewrite <- E1. clear H H' K K'.
  set (w := wgss d (clusters (s ++ [(x, l)]))) in *. set (w' := wgss d (clusters (s ++ [(x, l')]))) in *.
  set (b := bgss d (clusters (s ++ [(x, l)]))) in *. set (b' := bgss d (clusters (s ++ [(x, l')]))) in *.
  set (k := nclus (clusters (s ++ [(x, l)]))) in *. set (n := nsamp (clusters (s ++ [(x, l)]))) in *.
  assert (W : 0 <= w) by apply wgss_nonneg. assert (W' : 0 <= w') by apply wgss_nonneg.
  replace (k * w' / b') with (k * ((b' + w') * / b' - 1)) by (field; lra).
  replace (k * w / b) with (k * ((b' + w') * / b - 1)) by (replace (b' + w') with (b + w) by lra; field; lra).
  assert (T : 0 < b' + w') by lra. split; intros F.
  - apply Rmult_lt_reg_l in F; [|lra]. assert (F' : (b' + w') * / b < (b' + w') * / b') by lra.
    apply Rmult_lt_reg_l in F'; auto. apply inv_lt_back in F'; auto; lra.
  - apply Rmult_lt_compat_l; [lra|]. apply Rplus_lt_compat_r. apply Rmult_lt_compat_l; auto.
    apply Rinv_lt_contravar; [now apply Rmult_lt_0_compat|lra].
Qed.
Print Assumptions C81_WB_choice.

(** With clusters of equal size: the nearest centroid. *)
Theorem C81_nearest_equal_sizes_partial : forall d s (x : point) l l' r r' q q', wf d s -> length x = d -> (2 <= length (distinct s))%nat ->
  In l (labels s) -> In l' (labels s) -> length (cluster s l) = length (cluster s l') ->
  observed kCH d (s ++ [(x, l)]) (Fin r) -> observed kCH d (s ++ [(x, l')]) (Fin r') ->
  observed kWB d (s ++ [(x, l)]) (Fin q) -> observed kWB d (s ++ [(x, l')]) (Fin q') ->
  (r' < r <-> dist2 x (centroid d (cluster s l)) < dist2 x (centroid d (cluster s l'))) /\
  (q < q' <-> dist2 x (centroid d (cluster s l)) < dist2 x (centroid d (cluster s l'))).
Proof.
  intros d s x l l' r r' q q' Hw Hx Hk Hl Hl' En H1 H2 H3 H4.
  rewrite (C81_CH_choice d s x l l' r r'), (C81_WB_choice d s x l l' q q') by auto. cbv zeta. rewrite <- En.
  set (n := INR (length (cluster s l))).
  assert (P : 0 < n / (n + 1)).
  { pose proof (INR_pos _ (cluster_some s l Hl)) as P. fold n in P. apply Rmult_lt_0_compat; auto. apply Rinv_0_lt_compat. lra. }
  split; (split; intros F; [now apply Rmult_lt_reg_l in F|now apply Rmult_lt_compat_l]).
Qed.
Print Assumptions C81_nearest_equal_sizes_partial.

(** The claim that the nearest centroid is preferred fails: -5, 5 | 25, next
    sample 12, nearer to 0 than to 25. *)
Definition near_s : data := [([-5], 0%Z); ([5], 0%Z); ([25], 1%Z)].
Theorem C81_nearest_refuted : exists d s x l l' r r' q q', wf d s /\ length x = d /\ (2 <= length (distinct s))%nat /\
  In l (labels s) /\ In l' (labels s) /\
  dist2 x (centroid d (cluster s l)) < dist2 x (centroid d (cluster s l')) /\
  observed kCH d (s ++ [(x, l)]) (Fin r) /\ observed kCH d (s ++ [(x, l')]) (Fin r') /\ r < r' /\
  observed kWB d (s ++ [(x, l)]) (Fin q) /\ observed kWB d (s ++ [(x, l')]) (Fin q') /\ q' < q.
Proof.
  assert (G : forall l : Z, (l = 0 \/ l = 1)%Z -> exact_labels (near_s ++ [([12], l)]) 2).
  { intros l Hl. apply exact_two. intros z. cbn. intuition. }
  assert (C0 : clusters (near_s ++ [([12], 0%Z)]) = [[[25]]; [[-5]; [5]; [12]]]) by reflexivity.
  assert (C1 : clusters (near_s ++ [([12], 1%Z)]) = [[[-5]; [5]]; [[25]; [12]]]) by reflexivity.
  assert (W0 : wgss 1 [[[25]]; [[-5]; [5]; [12]]] = 146) by (unfold wgss, scatter, dist2, centroid; cbn; field).
  assert (W1 : wgss 1 [[[-5]; [5]]; [[25]; [12]]] = 269 / 2) by (unfold wgss, scatter, dist2, centroid; cbn; field).
  assert (B0 : bgss 1 [[[25]]; [[-5]; [5]; [12]]] = 1323 / 4) by (unfold bgss, dist2, centroid; cbn; field).
  assert (B1 : bgss 1 [[[-5]; [5]]; [[25]; [12]]] = 1369 / 4) by (unfold bgss, dist2, centroid; cbn; field).
  assert (WF : forall l, wf 1 (near_s ++ [([12], l)])) by (intros l; repeat constructor).
  exists 1%nat, near_s, [12], 0%Z, 1%Z, (1323 / 292), (1369 / 269), (1168 / 1323), (1076 / 1369).
  split; [repeat constructor|]. split; [reflexivity|]. split; [cbn; lia|]. split; [cbn; tauto|]. split; [cbn; tauto|].
  split; [unfold dist2, centroid; cbn; lra|].
  split; [|split; [|split; [lra|split; [|split; [|lra]]]]]; left; (split; [apply WF|split; [exists 2%nat; split; [lia|apply G; tauto]|]]).
  - rewrite (C23_CH_formula 1 2); auto; [|rewrite C0, W0; lra]. apply (f_equal (fun z => Ok (Fin z : F XR))). unfold CH_formula. rewrite C0, W0, B0. unfold nclus, nsamp. cbn. field.
  - rewrite (C23_CH_formula 1 2); auto; [|rewrite C1, W1; lra]. apply (f_equal (fun z => Ok (Fin z : F XR))). unfold CH_formula. rewrite C1, W1, B1. unfold nclus, nsamp. cbn. field.
  - rewrite (C24_WB_formula 1 2); auto; [|rewrite C0, B0; lra]. apply (f_equal (fun z => Ok (Fin z : F XR))). unfold WB_formula. rewrite C0, W0, B0. unfold nclus, nsamp. cbn. field.
  - rewrite (C24_WB_formula 1 2); auto; [|rewrite C1, B1; lra]. apply (f_equal (fun z => Ok (Fin z : F XR))). unfold WB_formula. rewrite C1, W1, B1. unfold nclus, nsamp. cbn. field.
Qed.
Print Assumptions C81_nearest_refuted.

Example C81_hypotheses : wf 1 near_s /\ (2 <= length (distinct near_s))%nat /\ In 0%Z (labels near_s) /\ In 1%Z (labels near_s) /\
  CP (at_ (streamed kCH near_s)) = [Fin 50; Fin 0] /\
  CP (at_ (streamed kCH (near_s ++ [([12], 0%Z)]))) = [Fin 146; Fin 0] /\
  CP (at_ (streamed kCH (near_s ++ [([12], 1%Z)]))) = [Fin 50; Fin (169 / 2)] /\
  CP (at_ (streamed kCH (near_s ++ [([12], 2%Z)]))) = [Fin 50; Fin 0; Fin 0].
Proof.
  assert (W : wf 1 near_s) by repeat constructor.
  assert (G : forall t, wf 1 t -> (2 <= length (distinct t))%nat ->
    CP (at_ (streamed kCH t)) = map (fun l => Fin (scatter 1 (cluster t l))) (firsts t)).
  { intros t H1 H2. destruct (streamed_parts kCH 1 t ltac:(discriminate) ltac:(discriminate) H1 H2) as (_ & _ & _ & _ & Q & _).
    rewrite Q. apply map_map. }
  split; [exact W|]. split; [cbn; lia|]. split; [cbn; tauto|]. split; [cbn; tauto|].
  split; [|split; [|split]]; (rewrite G; [|first [exact W|now apply wf_snoc]|cbn; lia]);
    (match goal with |- context [firsts ?t] => let v := eval compute in (firsts t) in change (firsts t) with v end);
    cbn [map];
    (repeat match goal with |- context [cluster ?t ?l] => let v := eval cbn in (cluster t l) in change (cluster t l) with v end);
    repeat (refine (f_equal2 (@cons xr) _ _); [apply (f_equal Fin); unfold scatter, dist2, centroid; cbn; field|]); reflexivity.
Qed.
