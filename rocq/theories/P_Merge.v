(** * C82: two clusters merged into one

    Exact arithmetic.  Merging the clusters of two labels raises the within-group
    sum by n m / (n + m) * |v - w|^2 (sizes n, m, centroids v, w) and lowers the
    between-group sum by the same amount.  When that improves CH and WB is stated
    exactly; it always does when the two centroids coincide. *)
From Coq Require Import ZArith List Arith Bool Lia Permutation.
From Verif Require Import Num NumPy Base GetCvi Lists Stream Generic.
From Coq Require Import Reals Lra.
From Verif Require Import Det Spec XR SpecX RGeom XLift XEval XRun XPerm XBatch Obs XForm XBounds P_Inc P_Formula P_Bounds P_Degenerate.
From Verif Require Import CompSpec Comp CompX P_Comp XSilEx XOne P_One.
Import ListNotations.
Local Notation length := List.length.
Local Open Scope R_scope.

(** [merge a b s]: the data [s] with the label [a] instead of [b]; [ward d s a b]
    (XOne.v): n m / (n + m) * |v - w|^2 for the clusters of [a] and [b]. *)
Lemma merge_length a b s : length (merge a b s) = length s.
Proof. apply map_length. Qed.
Lemma merge_distinct a b s : a <> b -> In a (labels s) -> In b (labels s) -> (3 <= length (distinct s))%nat ->
  (2 <= length (distinct (merge a b s)))%nat.
Proof. intros Hab Ha Hb Hk. pose proof (merge_count a b s Hab Ha Hb). lia. Qed.
Lemma bgss_merge d s a b : wf d s -> a <> b -> In a (labels s) -> In b (labels s) ->
  bgss d (clusters (merge a b s)) = bgss d (clusters s) - ward d s a b.
Proof.
  intros Hw Hab Ha Hb. pose proof (C38_total_scatter d s Hw) as E1. pose proof (C38_total_scatter d _ (merge_wf a b d s Hw)) as E2.
  rewrite merge_points in E2. pose proof (wgss_merge d s a b Hw Hab Ha Hb). lra.
Qed.

Theorem C82_sums : forall c d s a b, c = kCH \/ c = kWB -> wf d s -> (3 <= length (distinct s))%nat ->
  a <> b -> In a (labels s) -> In b (labels s) ->
  let n := INR (length (cluster s a)) in let m := INR (length (cluster s b)) in
  let e := n * m / (n + m) * dist2 (centroid d (cluster s a)) (centroid d (cluster s b)) in
  exists w q,
    WGSS (at_ (streamed c s)) = Fin w /\ BGSS (at_ (streamed c s)) = Fin q /\
    WGSS (at_ (streamed c (merge a b s))) = Fin (w + e) /\ BGSS (at_ (streamed c (merge a b s))) = Fin (q - e) /\
    0 <= e /\ (e = 0 <-> centroid d (cluster s a) = centroid d (cluster s b)).
Proof.
  intros c d s a b Hc Hw Hk Hab Ha Hb n m e.
  assert (N1 : c <> kcSIL) by (destruct Hc; subst; discriminate).
  assert (N2 : c = krCIP -> d <> 0%nat) by (destruct Hc; subst; discriminate).
  destruct (streamed_parts c d s N1 N2 Hw ltac:(lia)) as [_ P].
  destruct (streamed_parts c d (merge a b s) N1 N2 (merge_wf a b d s Hw) (merge_distinct a b s Hab Ha Hb Hk)) as [_ P'].
  assert (G : forall t (o : attrs XR), Parts c d (map (cluster t) (firsts t)) o -> WGSS o = Fin (wgss d (clusters t)) /\ BGSS o = Fin (bgss d (clusters t))).
  { intros t o (_ & _ & _ & Q). rewrite <- (wgss_perm d _ _ (firsts_clusters t)), <- (bgss_perm d _ _ (firsts_clusters t)).
    destruct Hc; subst c; now destruct Q as (_ & _ & Q1 & Q2). }
  destruct (G _ _ P) as [A1 A2]. destruct (G _ _ P') as [A3 A4].
  rewrite (wgss_merge d s a b Hw Hab Ha Hb) in A3. rewrite (bgss_merge d s a b Hw Hab Ha Hb) in A4.
  exists (wgss d (clusters s)), (bgss d (clusters s)). do 4 (split; [assumption|]).
  split; [apply (ward_nonneg d s a b)|now apply (ward_zero d s a b)].
Qed.
Print Assumptions C82_sums.

Lemma Rmult_lt_iff c (Hc : 0 < c) x y : x * c < y * c <-> x < y.
Proof. split; intros H; [now apply Rmult_lt_reg_r in H|now apply Rmult_lt_compat_r]. Qed.
Section Merge.
  Context (d : nat) (s : data) (a b : Z).
  Hypotheses (Hw : wf d s) (Hk : (3 <= length (distinct s))%nat) (Hab : a <> b) (Ha : In a (labels s)) (Hb : In b (labels s)).
  Lemma merge_facts : nclus (clusters (merge a b s)) = nclus (clusters s) - 1 /\
    nsamp (clusters (merge a b s)) = nsamp (clusters s) /\ 3 <= nclus (clusters s).
  Proof.
    rewrite !nclus_distinct, !nsamp_length, merge_length, (merge_count a b s Hab Ha Hb), S_INR. split; [lra|]. split; [reflexivity|].
    rewrite <- S_INR, <- (merge_count a b s Hab Ha Hb). apply le_INR in Hk. cbn in Hk. lra.
  Qed.
End Merge.

(** Merging improves (lowers) WB exactly when the cost [e] of the merger is small
    enough: e * ((k-1) B + k W) < W B. *)
Theorem C82_WB_merge : forall d s a b r r', (3 <= length (distinct s))%nat ->
  a <> b -> In a (labels s) -> In b (labels s) ->
  observed kWB d s (Fin r) -> observed kWB d (merge a b s) (Fin r') ->
  let n := INR (length (cluster s a)) in let m := INR (length (cluster s b)) in
  let e := n * m / (n + m) * dist2 (centroid d (cluster s a)) (centroid d (cluster s b)) in
  let k := INR (length (distinct s)) in let W := wgss d (clusters s) in let B := bgss d (clusters s) in
  r = k * W / B /\ r' = (k - 1) * (W + e) / (B - e) /\
  (r' < r <-> e * ((k - 1) * B + k * W) < W * B).
Proof.
  intros d s a b r r' Hk Hab Ha Hb H H' n m e k W B. pose proof (observed_wf _ _ _ _ H) as Hw.
  destruct (finite_WB _ _ _ H ltac:(lia)) as [P ->]. destruct (finite_WB _ _ _ H' (merge_distinct a b s Hab Ha Hb Hk)) as [P' ->].
  unfold WB_formula. destruct (merge_facts s a b Hk Hab Ha Hb) as (E1 & E2 & E3). rewrite E1.
  rewrite (wgss_merge d s a b Hw Hab Ha Hb), (bgss_merge d s a b Hw Hab Ha Hb) in *.
  change (ward d s a b) with e in *. rewrite nclus_distinct in *. fold k W B in P, P', E3 |- *.
  split; [reflexivity|]. split; [reflexivity|].
  assert (X : 0 < B * (B - e)) by now apply Rmult_lt_0_compat.
  rewrite <- (Rmult_lt_iff _ X).
  replace ((k - 1) * (W + e) / (B - e) * (B * (B - e))) with ((k - 1) * (W + e) * B) by (field; lra).
  replace (k * W / B * (B * (B - e))) with (k * W * (B - e)) by (field; lra). lra.
Qed.
Print Assumptions C82_WB_merge.

(** CH, of which larger values are better. *)
Theorem C82_CH_merge : forall d s a b r r', (3 <= length (distinct s))%nat ->
  a <> b -> In a (labels s) -> In b (labels s) ->
  observed kCH d s (Fin r) -> observed kCH d (merge a b s) (Fin r') ->
  let n := INR (length (cluster s a)) in let m := INR (length (cluster s b)) in
  let e := n * m / (n + m) * dist2 (centroid d (cluster s a)) (centroid d (cluster s b)) in
  let k := INR (length (distinct s)) in let N := INR (length s) in
  let W := wgss d (clusters s) in let B := bgss d (clusters s) in
  r = B / (k - 1) / (W / (N - k)) /\ r' = (B - e) / (k - 2) / ((W + e) / (N - k + 1)) /\
  (r < r' <-> e * (W * ((N - k + 1) * (k - 1)) + B * ((N - k) * (k - 2))) < (N - 1) * (W * B)).
Proof.
  intros d s a b r r' Hk Hab Ha Hb H H' n m e k N W B. pose proof (observed_wf _ _ _ _ H) as Hw.
  destruct (finite_CH _ _ _ H ltac:(lia)) as [P ->]. destruct (finite_CH _ _ _ H' (merge_distinct a b s Hab Ha Hb Hk)) as [P' ->].
  assert (NK : nclus (clusters s) < nsamp (clusters s)).
  { pose proof (clusters_good d s Hw) as Hg. pose proof (n_ge_k d (clusters s) Hg) as Hn.
    destruct (Req_dec (nclus (clusters s)) (nsamp (clusters s))) as [E|E]; [|lra].
    pose proof (singles_wgss d (clusters s) Hg ltac:(rewrite distinct_clusters; lia) E). lra. }
  unfold CH_formula. destruct (merge_facts s a b Hk Hab Ha Hb) as (E1 & E2 & E3). rewrite E1, E2.
  rewrite (wgss_merge d s a b Hw Hab Ha Hb), (bgss_merge d s a b Hw Hab Ha Hb) in *.
  change (ward d s a b) with e in *. rewrite nclus_distinct, nsamp_length in *. fold k N W B in P, P', E3, NK |- *.
  split; [reflexivity|]. split; [f_equal; [f_equal; ring|f_equal; ring]|].
  assert (X : 0 < (W * (k - 1)) * ((W + e) * (k - 2))) by (repeat apply Rmult_lt_0_compat; lra).
  rewrite <- (Rmult_lt_iff _ X).
  replace (B / (k - 1) / (W / (N - k)) * (W * (k - 1) * ((W + e) * (k - 2)))) with (B * (N - k) * ((W + e) * (k - 2))) by (field; lra).
  replace ((B - e) / (k - 1 - 1) / ((W + e) / (N - (k - 1))) * (W * (k - 1) * ((W + e) * (k - 2))))
    with ((B - e) * (N - k + 1) * (W * (k - 1))) by (field; lra). lra.
Qed.
Print Assumptions C82_CH_merge.

(** Two clusters with the same centroid: merging them always improves both. *)
Theorem C82_same_centroid : forall d s a b r r' q q', (3 <= length (distinct s))%nat ->
  a <> b -> In a (labels s) -> In b (labels s) -> centroid d (cluster s a) = centroid d (cluster s b) ->
  observed kCH d s (Fin r) -> observed kCH d (merge a b s) (Fin r') ->
  observed kWB d s (Fin q) -> observed kWB d (merge a b s) (Fin q') ->
  let k := INR (length (distinct s)) in let N := INR (length s) in
  r' = r * ((N - k + 1) / (N - k) * ((k - 1) / (k - 2))) /\ q' = q * ((k - 1) / k) /\ r < r' /\ q' < q.
Proof.
  intros d s a b r r' q q' Hk Hab Ha Hb Ec H1 H2 H3 H4 k N.
  destruct (C82_CH_merge d s a b r r' Hk Hab Ha Hb H1 H2) as (A1 & A2 & A3).
  destruct (C82_WB_merge d s a b q q' Hk Hab Ha Hb H3 H4) as (B1 & B2 & B3). cbv zeta in *.
  assert (E0 : dist2 (centroid d (cluster s a)) (centroid d (cluster s b)) = 0) by (rewrite Ec; apply dist2_refl).
  rewrite E0, Rmult_0_r in *. fold k N in A1, A2, A3, B1, B2, B3.
  destruct (finite_CH _ _ _ H1 ltac:(lia)) as [P _]. destruct (finite_WB _ _ _ H3 ltac:(lia)) as [P' _].
  pose proof (observed_wf _ _ _ _ H1) as Hw.
  assert (NK : nclus (clusters s) < nsamp (clusters s)).
  { pose proof (clusters_good d s Hw) as Hg. pose proof (n_ge_k d (clusters s) Hg) as Hn.
    destruct (Req_dec (nclus (clusters s)) (nsamp (clusters s))) as [E|E]; [|lra].
    pose proof (singles_wgss d (clusters s) Hg ltac:(rewrite distinct_clusters; lia) E). lra. }
  rewrite nclus_distinct, nsamp_length in NK. fold k N in NK.
  assert (K3 : 3 <= k) by (apply le_INR in Hk; cbn in Hk; unfold k; lra).
  pose proof (Rmult_lt_0_compat _ _ P P') as PP.
  split; [rewrite A1, A2; field; lra|]. split; [rewrite B1, B2; field; lra|]. split.
  - apply A3. rewrite Rmult_0_l. apply Rmult_lt_0_compat; lra.
  - apply B3. rewrite Rmult_0_l. exact PP.
Qed.
Print Assumptions C82_same_centroid.

(** -1, 1 | -2, 2 | 9, 11: the first two centroids coincide. *)
Definition split_s : data := [([-1], 0%Z); ([1], 0%Z); ([-2], 1%Z); ([2], 1%Z); ([9], 2%Z); ([11], 2%Z)].
Lemma observed_CH d s : wf d s -> (2 <= length (distinct s))%nat -> wgss d (clusters s) <> 0 ->
  observed kCH d s (Fin (CH_formula d (clusters s))).
Proof.
  intros Hw Hk H. destruct (stream_observed_ex kCH d s ltac:(discriminate) Hw) as (v & Hv); [intros ->; cbn in Hk; lia|discriminate|].
  pose proof (C39_case_analysis kCH d s v ltac:(discriminate) ltac:(discriminate) (or_intror Hv) Hk) as (T & _).
  rewrite <- (tight_wgss d (clusters s) (clusters_good d s Hw)) in T. rewrite <- (T H). now right.
Qed.
Lemma observed_WB d s : wf d s -> (2 <= length (distinct s))%nat -> bgss d (clusters s) <> 0 ->
  observed kWB d s (Fin (WB_formula d (clusters s))).
Proof.
  intros Hw Hk H. destruct (stream_observed_ex kWB d s ltac:(discriminate) Hw) as (v & Hv); [intros ->; cbn in Hk; lia|discriminate|].
  pose proof (C39_case_analysis kWB d s v ltac:(discriminate) ltac:(discriminate) (or_intror Hv) Hk) as (T & _).
  rewrite <- (centre_bgss d (clusters s) (clusters_good d s Hw)) in T by now rewrite distinct_clusters. rewrite <- (T H). now right.
Qed.
Example C82_hypotheses : wf 1 split_s /\ (3 <= length (distinct split_s))%nat /\ In 0%Z (labels split_s) /\ In 1%Z (labels split_s) /\
  centroid 1 (cluster split_s 0) = centroid 1 (cluster split_s 1) /\ In 2%Z (labels split_s) /\
  observed kCH 1 split_s (Fin (50 / 3)) /\ observed kCH 1 (merge 0 1 split_s) (Fin (400 / 9)) /\
  observed kWB 1 split_s (Fin (27 / 100)) /\ observed kWB 1 (merge 0 1 split_s) (Fin (9 / 50)) /\
  ward 1 split_s 0 2 = 100.
Proof.
  assert (W : wf 1 split_s) by repeat constructor.
  assert (C : clusters split_s = [[[-1]; [1]]; [[-2]; [2]]; [[9]; [11]]]) by reflexivity.
  assert (C' : clusters (merge 0 1 split_s) = [[[-1]; [1]; [-2]; [2]]; [[9]; [11]]]) by reflexivity.
  assert (E1 : wgss 1 (clusters split_s) = 12) by (rewrite C; unfold wgss, scatter, dist2, centroid; cbn; field).
  assert (E2 : bgss 1 (clusters split_s) = 400 / 3) by (rewrite C; unfold bgss, dist2, centroid; cbn; field).
  assert (E3 : wgss 1 (clusters (merge 0 1 split_s)) = 12) by (rewrite C'; unfold wgss, scatter, dist2, centroid; cbn; field).
  assert (E4 : bgss 1 (clusters (merge 0 1 split_s)) = 400 / 3) by (rewrite C'; unfold bgss, dist2, centroid; cbn; field).
  split; [exact W|]. split; [cbn; lia|]. split; [cbn; tauto|]. split; [cbn; tauto|].
  split; [unfold centroid; cbn; f_equal; field|]. split; [cbn; tauto|].
  split; [|split; [|split; [|split]]].
  - pose proof (observed_CH 1 split_s W ltac:(cbn; lia) ltac:(lra)) as H. unfold CH_formula in H. rewrite E1, E2, C in H.
    replace (50 / 3) with (400 / 3 / (nclus [[[-1]; [1]]; [[-2]; [2]]; [[9]; [11]]] - 1) /
      (12 / (nsamp [[[-1]; [1]]; [[-2]; [2]]; [[9]; [11]]] - nclus [[[-1]; [1]]; [[-2]; [2]]; [[9]; [11]]]))); [exact H|].
    unfold nclus, nsamp. cbn. field.
  - pose proof (observed_CH 1 (merge 0 1 split_s) (merge_wf 0 1 1 _ W) ltac:(cbn; lia) ltac:(lra)) as H. unfold CH_formula in H. rewrite E3, E4, C' in H.
    replace (400 / 9) with (400 / 3 / (nclus [[[-1]; [1]; [-2]; [2]]; [[9]; [11]]] - 1) /
      (12 / (nsamp [[[-1]; [1]; [-2]; [2]]; [[9]; [11]]] - nclus [[[-1]; [1]; [-2]; [2]]; [[9]; [11]]]))); [exact H|].
    unfold nclus, nsamp. cbn. field.
  - pose proof (observed_WB 1 split_s W ltac:(cbn; lia) ltac:(lra)) as H. unfold WB_formula in H. rewrite E1, E2, C in H.
    replace (27 / 100) with (nclus [[[-1]; [1]]; [[-2]; [2]]; [[9]; [11]]] * 12 / (400 / 3)); [exact H|]. unfold nclus. cbn. field.
  - pose proof (observed_WB 1 (merge 0 1 split_s) (merge_wf 0 1 1 _ W) ltac:(cbn; lia) ltac:(lra)) as H. unfold WB_formula in H. rewrite E3, E4, C' in H.
    replace (9 / 50) with (nclus [[[-1]; [1]; [-2]; [2]]; [[9]; [11]]] * 12 / (400 / 3)); [exact H|]. unfold nclus. cbn. field.
  - unfold ward, cdist, dist2, centroid. cbn. field.
Qed.
