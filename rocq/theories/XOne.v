(** * One more sample, and two clusters merged: lemmas over plain reals *)
From Coq Require Import ZArith List Arith Bool Lia Permutation.
From Coq Require Import Reals Lra.
From Verif Require Import Det Spec RGeom.
Import ListNotations.
Local Notation length := List.length.
Local Open Scope R_scope.

(** ** Two groups of points put together *)
Lemma scatter_nil d : scatter d [] = 0.
Proof. reflexivity. Qed.
Lemma co_centroid_app d g h j : g <> [] -> h <> [] -> (j < d)%nat ->
  co j (centroid d (g ++ h)) =
  (INR (length g) * co j (centroid d g) + INR (length h) * co j (centroid d h)) / (INR (length g) + INR (length h)).
Proof.
  intros Hg Hh Hj. rewrite (co_centroid d (g ++ h)) by auto. rewrite map_app, rsum_app, app_length, plus_INR.
  now rewrite (rsum_centroid d g j Hg Hj), (rsum_centroid d h j Hh Hj).
Qed.
Lemma dist2_pooled d g h : g <> [] -> h <> [] ->
  let n := INR (length g) in let m := INR (length h) in
  dist2 (centroid d g) (centroid d (g ++ h)) = (m / (n + m)) * (m / (n + m)) * cdist d g h /\
  dist2 (centroid d h) (centroid d (g ++ h)) = (n / (n + m)) * (n / (n + m)) * cdist d g h.
Proof.
  intros Hg Hh n m. pose proof (INR_pos g Hg) as Pn. pose proof (INR_pos h Hh) as Pm. fold n in Pn. fold m in Pm.
  unfold cdist. rewrite !(dist2_coords d) by apply centroid_length. rewrite <- !rsum_map_scal.
  split; apply rsum_map_ext; intros j Hj; apply in_seq in Hj; rewrite (co_centroid_app d g h j Hg Hh) by lia;
    fold n m; field; lra.
Qed.
Lemma scatter_app d g h : wfg d g -> wfg d h -> g <> [] -> h <> [] ->
  scatter d (g ++ h) = scatter d g + scatter d h +
    INR (length g) * INR (length h) / (INR (length g) + INR (length h)) * cdist d g h.
Proof.
  intros Wg Wh Hg Hh. pose proof (total_scatter d [g; h] ltac:(repeat constructor; auto) ltac:(repeat constructor; auto)) as T.
  unfold tss, wgss, bgss in T. cbn [map concat] in T. rewrite app_nil_r in T.
  destruct (dist2_pooled d g h Hg Hh) as [E1 E2]. cbv zeta in *. rewrite E1, E2 in T. cbn [rsum fold_right] in T.
  rewrite <- T. pose proof (INR_pos g Hg). pose proof (INR_pos h Hh). field. lra.
Qed.
Lemma scatter_one_more d g (x : point) : wfg d g -> length x = d ->
  scatter d (g ++ [x]) = scatter d g + INR (length g) / (INR (length g) + 1) * dist2 x (centroid d g).
Proof.
  intros Wg Hx. destruct g as [|y g].
  - cbn [app length INR]. rewrite scatter_single, scatter_nil by auto. unfold Rdiv. ring.
  - rewrite scatter_app; auto; try discriminate; [|now constructor].
    replace (scatter d [x]) with 0 by (symmetry; exact (scatter_single d x Hx)). unfold cdist. rewrite (centroid_single d x Hx), (dist2_sym x).
    change (INR (length [x])) with 1. field. pose proof (INR_pos (y :: g) ltac:(discriminate)). lra.
Qed.

(** ** Sums over the labels *)
Lemma rsum_filter {X} (f : X -> R) p l :
  rsum (map f l) = rsum (map f (filter p l)) + rsum (map f (filter (fun x => negb (p x)) l)).
Proof. induction l as [|x l IH]; [cbn; lra|]. cbn [filter map]. destruct (p x); cbn [negb map]; rewrite !rsum_cons, IH; lra. Qed.
Lemma cluster_none s l : ~ In l (labels s) -> cluster s l = [].
Proof.
  intros H. unfold cluster. replace (filter _ s) with (@nil (point * Z)); [reflexivity|]. symmetry.
  induction s as [|p s IH]; auto. cbn [filter]. cbn [labels map In] in H.
  destruct (Z.eqb_spec (snd p) l) as [E|E]; [exfalso; apply H; now left|apply IH; intros Hi; apply H; now right].
Qed.
Lemma cluster_some s l : In l (labels s) -> cluster s l <> [].
Proof.
  intros H E. unfold labels in H. apply in_map_iff in H as (p & <- & Hp). unfold cluster in E. apply map_eq_nil in E.
  assert (Hi : In p (filter (fun q => (snd q =? snd p)%Z) s)) by (apply filter_In; split; auto; apply Z.eqb_refl).
  rewrite E in Hi. destruct Hi.
Qed.
Lemma sum_over (f : list point -> R) s ls : f [] = 0 -> NoDup ls -> incl (labels s) ls ->
  rsum (map f (clusters s)) = rsum (map (fun l => f (cluster s l)) ls).
Proof.
  intros F0 Hn Hi. unfold clusters. rewrite map_map.
  rewrite (rsum_filter (fun l => f (cluster s l)) (fun l => if in_dec Z.eq_dec l (labels s) then true else false) ls).
  rewrite (rsum_map_ext _ (fun _ => 0) (filter (fun x => negb _) ls)).
  - rewrite rsum_const, Rmult_0_r, Rplus_0_r. apply rsum_perm, Permutation_map, NoDup_Permutation.
    + apply NoDup_nodup.
    + now apply NoDup_filter.
    + intros l. unfold distinct. rewrite nodup_In, filter_In. pose proof (Hi l). destruct (in_dec Z.eq_dec l (labels s)); intuition congruence.
  - intros l Hl. apply filter_In in Hl as [_ Hl]. destruct (in_dec Z.eq_dec l (labels s)); [discriminate|]. now rewrite cluster_none.
Qed.
Lemma rsum_only (g : R) (a : Z) ls : NoDup ls -> In a ls ->
  rsum (map (fun l => if Z.eqb l a then g else 0) ls) = g.
Proof.
  intros Hn Ha. induction Hn as [|l ls Hl Hn IH]; [destruct Ha|]. cbn [map]. rewrite rsum_cons.
  destruct (Z.eqb_spec l a) as [->|Hla].
  - rewrite (rsum_map_ext _ (fun _ => 0)), rsum_const; [ring|]. intros x Hx. destruct (Z.eqb_spec x a) as [->|]; tauto.
  - rewrite IH; [ring|]. destruct Ha; [congruence|auto].
Qed.
Lemma wgss_over d s ls : NoDup ls -> incl (labels s) ls ->
  wgss d (clusters s) = rsum (map (fun l => scatter d (cluster s l)) ls).
Proof. intros. unfold wgss. apply sum_over; auto. Qed.
Lemma distinct_incl s : incl (labels s) (distinct s).
Proof. intros l. unfold distinct. now rewrite nodup_In. Qed.
Lemma wf_cluster d s l : wf d s -> wfg d (cluster s l).
Proof.
  intros H. unfold wfg. apply Forall_forall. intros x Hx. unfold cluster in Hx. apply in_map_iff in Hx as (p & <- & Hp).
  apply filter_In in Hp as [Hp _]. unfold wf in H. rewrite Forall_forall in H. auto.
Qed.
Lemma wf_points d s : wf d s -> wfg d (points s).
Proof. intros H. unfold wfg, points. apply Forall_map. exact H. Qed.

(** ** One more sample *)
(** what the scatter of the points [g] gains from one more point [x] *)
Definition gain (d : nat) (g : list point) (x : point) : R :=
  let n := INR (length g) in n / (n + 1) * dist2 x (centroid d g).
Lemma gain_nonneg d g x : 0 <= gain d g x.
Proof.
  unfold gain. pose proof (pos_INR (length g)). apply Rmult_le_pos; [|apply dist2_nonneg].
  apply Rmult_le_pos; [auto|]. apply Rlt_le, Rinv_0_lt_compat. lra.
Qed.
Lemma gain_new d s x l : ~ In l (labels s) -> gain d (cluster s l) x = 0.
Proof. intros H. unfold gain. rewrite cluster_none by auto. cbn. unfold Rdiv. ring. Qed.
Lemma cluster_snoc s (x : point) l m : cluster (s ++ [(x, l)]) m = cluster s m ++ (if Z.eqb l m then [x] else []).
Proof. unfold cluster. rewrite filter_app, map_app. cbn [filter snd]. now destruct (Z.eqb l m). Qed.
Lemma labels_snoc (s : data) x l : labels (s ++ [(x, l)]) = labels s ++ [l].
Proof. unfold labels. now rewrite map_app. Qed.
Lemma distinct_snoc s x l : In l (labels s) -> Permutation (distinct (s ++ [(x, l)])) (distinct s).
Proof.
  intros Hl. apply NoDup_Permutation; try apply NoDup_nodup. intros z. unfold distinct. rewrite !nodup_In, labels_snoc, in_app_iff.
  cbn [In]. intuition congruence.
Qed.
Lemma wgss_snoc d s (x : point) l : wf d s -> length x = d ->
  wgss d (clusters (s ++ [(x, l)])) = wgss d (clusters s) + gain d (cluster s l) x.
Proof.
  intros Hw Hx. set (ls := distinct (s ++ [(x, l)])).
  assert (Hn : NoDup ls) by apply NoDup_nodup.
  assert (Hi : incl (labels (s ++ [(x, l)])) ls) by apply distinct_incl.
  assert (Hi' : incl (labels s) ls) by (intros z Hz; apply Hi; rewrite labels_snoc; apply in_or_app; now left).
  assert (Hl : In l ls) by (apply Hi; rewrite labels_snoc; apply in_or_app; right; now left).
  rewrite (wgss_over d _ ls Hn Hi), (wgss_over d s ls Hn Hi'), <- (rsum_only (gain d (cluster s l) x) l ls Hn Hl), <- rsum_map_plus.
  apply rsum_map_ext. intros m _. rewrite cluster_snoc, (Z.eqb_sym m l). destruct (Z.eqb_spec l m) as [->|].
  - rewrite scatter_one_more by (auto using wf_cluster). reflexivity.
  - rewrite app_nil_r. lra.
Qed.

Lemma total_snoc d s (x : point) l : wf d s -> length x = d ->
  scatter d (points (s ++ [(x, l)])) = scatter d (points s) + gain d (points s) x.
Proof.
  intros Hw Hx. unfold points at 1. rewrite map_app. cbn [map fst]. apply scatter_one_more; auto. now apply wf_points.
Qed.

(** ** Two labels merged *)
Definition merge (a b : Z) (s : data) : data := map (fun p => (fst p, if Z.eqb (snd p) b then a else snd p)) s.
(** what merging the clusters of [a] and [b] costs *)
Definition ward (d : nat) (s : data) (a b : Z) : R :=
  let n := INR (length (cluster s a)) in let m := INR (length (cluster s b)) in
  n * m / (n + m) * cdist d (cluster s a) (cluster s b).
Lemma merge_points a b s : points (merge a b s) = points s.
Proof. unfold points, merge. rewrite map_map. now apply map_ext. Qed.
Lemma merge_wf a b d s : wf d s -> wf d (merge a b s).
Proof. intros H. unfold wf, merge. apply Forall_map. exact H. Qed.
Lemma merge_cluster_a a b s : a <> b -> Permutation (cluster (merge a b s) a) (cluster s a ++ cluster s b).
Proof.
  intros Hab. unfold cluster, merge. induction s as [|[x l] s IH]; [constructor|]. cbn [map filter fst snd].
  destruct (Z.eqb_spec l b) as [->|Hb].
  - rewrite Z.eqb_refl. destruct (Z.eqb_spec b a); [congruence|]. cbn [map fst]. now apply Permutation_cons_app.
  - destruct (Z.eqb_spec l a) as [->|Ha]; cbn [map fst app]; auto.
Qed.
Lemma merge_cluster_b a b s : a <> b -> cluster (merge a b s) b = [].
Proof.
  intros Hab. apply cluster_none. unfold labels, merge. rewrite map_map. cbn [snd]. intros H. apply in_map_iff in H as (p & E & _).
  destruct (Z.eqb_spec (snd p) b); congruence.
Qed.
Lemma merge_cluster_c a b c s : c <> a -> c <> b -> cluster (merge a b s) c = cluster s c.
Proof.
  intros Ha Hb. unfold cluster, merge. induction s as [|[x l] s IH]; [reflexivity|]. cbn [map filter fst snd].
  destruct (Z.eqb_spec l b) as [->|Hlb].
  - destruct (Z.eqb_spec a c); [congruence|]. destruct (Z.eqb_spec b c); [congruence|exact IH].
  - destruct (Z.eqb_spec l c); cbn [map fst]; [now f_equal|exact IH].
Qed.
Lemma merge_labels a b s z : a <> b -> In a (labels s) -> (In z (labels (merge a b s)) <-> In z (labels s) /\ z <> b).
Proof.
  intros Hab Ha. unfold labels, merge. rewrite map_map. cbn [snd]. split.
  - intros H. apply in_map_iff in H as (p & <- & Hp). destruct (Z.eqb_spec (snd p) b); split; auto; now apply in_map.
  - intros [H Hz]. apply in_map_iff in H as (p & <- & Hp). apply in_map_iff. exists p. split; auto.
    destruct (Z.eqb_spec (snd p) b); congruence.
Qed.
Lemma merge_count a b s : a <> b -> In a (labels s) -> In b (labels s) ->
  length (distinct s) = S (length (distinct (merge a b s))).
Proof.
  intros Hab Ha Hb. assert (P : Permutation (distinct s) (b :: distinct (merge a b s))).
  { apply NoDup_Permutation; try apply NoDup_nodup.
    - constructor; [|apply NoDup_nodup]. unfold distinct. rewrite nodup_In, merge_labels by auto. tauto.
    - intros z. cbn [In]. unfold distinct. rewrite !nodup_In, merge_labels by auto. destruct (Z.eq_dec b z) as [->|]; intuition congruence. }
  now rewrite (Permutation_length P).
Qed.
Lemma wgss_merge d s a b : wf d s -> a <> b -> In a (labels s) -> In b (labels s) ->
  wgss d (clusters (merge a b s)) = wgss d (clusters s) + ward d s a b.
Proof.
  intros Hw Hab Ha Hb. set (ls := distinct s).
  assert (Hn : NoDup ls) by apply NoDup_nodup.
  assert (Hi : incl (labels s) ls) by apply distinct_incl.
  assert (Hi' : incl (labels (merge a b s)) ls) by (intros z Hz; apply Hi; now apply merge_labels in Hz).
  rewrite (wgss_over d _ ls Hn Hi), (wgss_over d (merge a b s) ls Hn Hi').
  rewrite <- (rsum_only (ward d s a b) a ls Hn (Hi a Ha)).
  assert (Ea : rsum (map (fun l => if Z.eqb l a then scatter d (cluster s b) else 0) ls) = scatter d (cluster s b)) by (apply rsum_only; auto).
  assert (Eb : rsum (map (fun l => if Z.eqb l b then scatter d (cluster s b) else 0) ls) = scatter d (cluster s b)) by (apply rsum_only; auto).
  apply (Rplus_eq_reg_r (scatter d (cluster s b))). rewrite <- Eb at 1. rewrite <- Ea, <- !rsum_map_plus.
  apply rsum_map_ext. intros m _. destruct (Z.eqb_spec m a) as [->|Hma].
  - destruct (Z.eqb_spec a b); [congruence|]. rewrite (scatter_perm d _ _ (merge_cluster_a a b s Hab)).
    rewrite scatter_app by auto using wf_cluster, cluster_some. unfold ward. cbv zeta. lra.
  - destruct (Z.eqb_spec m b) as [->|Hmb]; [rewrite merge_cluster_b, scatter_nil by auto; lra|]. rewrite merge_cluster_c by auto. lra.
Qed.
Lemma ward_nonneg d s a b : 0 <= ward d s a b.
Proof.
  unfold ward. pose proof (pos_INR (length (cluster s a))) as P. pose proof (pos_INR (length (cluster s b))) as Q.
  apply Rmult_le_pos; [|apply dist2_nonneg]. destruct (Req_dec (INR (length (cluster s a)) + INR (length (cluster s b))) 0) as [E|E].
  - replace (INR (length (cluster s a))) with 0 by lra. unfold Rdiv. rewrite !Rmult_0_l. lra.
  - apply Rmult_le_pos; [now apply Rmult_le_pos|]. apply Rlt_le, Rinv_0_lt_compat. lra.
Qed.
Lemma ward_zero d s a b : In a (labels s) -> In b (labels s) ->
  (ward d s a b = 0 <-> centroid d (cluster s a) = centroid d (cluster s b)).
Proof.
  intros Ha Hb. pose proof (INR_pos _ (cluster_some s a Ha)). pose proof (INR_pos _ (cluster_some s b Hb)).
  unfold ward, cdist. rewrite <- (dist2_zero (centroid d (cluster s a))) by now rewrite !centroid_length. split.
  - intros E. apply Rmult_integral in E as [E|E]; auto. exfalso.
    assert (0 < INR (length (cluster s a)) * INR (length (cluster s b)) / (INR (length (cluster s a)) + INR (length (cluster s b)))).
    { apply Rmult_lt_0_compat; [now apply Rmult_lt_0_compat|]. apply Rinv_0_lt_compat. lra. }
    lra.
  - intros ->. ring.
Qed.
