(** * What a user observes, and the value the specification gives it.

    [observed c d s v]: the object of class [c], fresh at the start, returned
    [v] for the data [s] with [d] features, either from one batch call or from
    the last of the one-sample calls. *)
From Coq Require Import ZArith List Arith Bool Lia Permutation.
From Verif Require Import Num NumPy Base GetCvi Lists Stream Generic.
From Coq Require Import Reals Lra.
From Verif Require Import Det Spec XR SpecX RGeom XLift XEval XInc XCov XRun XPerm XBatch.
Import ListNotations.
Local Open Scope R_scope.

(** ** Vocabulary *)
(** the samples as (finite) floats *)
Definition as_floats (s : data) : list (list (F XR) * Z) := map (fun p => (map Fin (fst p), snd p)) s.
(** one batch call on a fresh object *)
Definition batch_result (c : kind) (d : nat) (s : data) : E (F XR) :=
  snd (get_cvi c new_obj (Mat (mkMat d (map fst (as_floats s)))) (Labs (labels s))).
(** the results of the calls for x, l in s: cvi.get_cvi(x, l) on a fresh object *)
Definition stream_results (c : kind) (s : data) : list (E (F XR)) :=
  results c new_obj (map (fun p => (Vec (fst p), Lab (snd p))) (as_floats s)).
Definition batch_observed c d s v : Prop :=
  wf d s /\ (exists k, (2 <= k)%nat /\ exact_labels s k) /\ batch_result c d s = Ok v.
Definition stream_observed c d s v : Prop :=
  wf d s /\ exists rs, stream_results c s = rs ++ [Ok v].
Definition observed c d s v : Prop := batch_observed c d s v \/ stream_observed c d s v.

(** ** Renaming and reordering the data *)
Lemma clusters_perm s s' : Permutation s s' ->
  exists gs, Permutation (clusters s) gs /\ Forall2 (@Permutation point) gs (clusters s').
Proof.
  intros H. exists (map (cluster s) (distinct s')). split.
  - apply Permutation_map. apply NoDup_Permutation; try apply NoDup_nodup. intros z.
    unfold distinct. rewrite !nodup_In. unfold labels. split; apply Permutation_in; now apply Permutation_map.
  - unfold clusters. induction (distinct s') as [|l ls IH]; constructor; auto.
    unfold cluster. apply Permutation_map. clear -H. induction H; simpl; auto.
    + destruct (snd x =? l)%Z; auto.
    + destruct (snd x =? l)%Z, (snd y =? l)%Z; auto. apply perm_swap.
    + etransitivity; eauto.
Qed.
Lemma XVal_data c d s s' : Permutation s s' -> XVal c d (clusters s) = XVal c d (clusters s').
Proof.
  intros H. destruct (clusters_perm s s' H) as (gs & H1 & H2).
  rewrite (XVal_perm c d _ _ H1). now apply XVal_F2.
Qed.
Definition relabel (f : Z -> Z) (s : data) : data := map (fun p => (fst p, f (snd p))) s.
Lemma relabel_cluster f s l : (forall a, In a (labels s) -> f a = f l -> a = l) ->
  cluster (relabel f s) (f l) = cluster s l.
Proof.
  intros Hf. unfold cluster, relabel, labels in *. induction s as [|[x a] s IH]; auto. cbn [map filter fst snd].
  assert (IH' : forall b, In b (map snd s) -> f b = f l -> b = l) by (intros; apply Hf; auto; now right).
  destruct (Z.eqb_spec a l) as [->|Hn].
  - rewrite Z.eqb_refl. cbn [map fst]. f_equal. auto.
  - destruct (Z.eqb_spec (f a) (f l)) as [E|]; [exfalso; apply Hn, Hf; auto; now left|auto].
Qed.
Lemma clusters_relabel f s : (forall a b, In a (labels s) -> In b (labels s) -> f a = f b -> a = b) ->
  Permutation (clusters (relabel f s)) (clusters s).
Proof.
  intros Hf. unfold clusters. transitivity (map (cluster (relabel f s)) (map f (distinct s))).
  - apply Permutation_map, NoDup_Permutation.
    + apply NoDup_nodup.
    + assert (Hd : forall a, In a (distinct s) -> In a (labels s)) by (intros a; apply nodup_In).
      assert (Hn : NoDup (distinct s)) by apply NoDup_nodup. revert Hd. induction Hn as [|x l Hx Hn IH]; intros Hd; constructor.
      * intros Hi. apply in_map_iff in Hi as (y & E & Hy). apply Hx. rewrite (Hf x y); auto; apply Hd; simpl; auto.
      * apply IH. intros a Ha. apply Hd. now right.
    + intros z. unfold distinct. rewrite nodup_In, in_map_iff. unfold labels, relabel. rewrite map_map. cbn [snd].
      split; intros H.
      * apply in_map_iff in H as (p & <- & Hp). exists (snd p). split; auto. apply nodup_In. now apply in_map.
      * destruct H as (a & <- & Ha). apply nodup_In in Ha. apply in_map_iff in Ha as (p & <- & Hp).
        apply in_map_iff. now exists p.
  - rewrite map_map. match goal with |- Permutation ?a ?b => assert (E : a = b); [|now rewrite E] end.
    apply map_ext_in. intros l Hl. apply relabel_cluster. intros a Ha. apply Hf; auto. now apply nodup_In in Hl.
Qed.
Lemma relabel_wf f d s : wf d s -> wf d (relabel f s).
Proof. intros H. unfold wf, relabel. apply Forall_map. exact H. Qed.

(** ** The observed value is that of the specification *)
Lemma batch_result_ok c d k s : wf d s -> (2 <= k)%nat -> exact_labels s k -> (c = krCIP -> d <> 0%nat) ->
  batch_result c d s = Ok (XVal c d (clusters s)).
Proof.
  intros Hw Hk He Hd. pose proof (batch_value d k s Hw Hk He c Hd) as H. unfold results, batch_of in H. cbn [run] in H.
  unfold batch_result. replace (labels s) with (map snd (fin_data s)).
  - change (map fst (as_floats s)) with (map fst (fin_data s)).
    destruct (get_cvi c new_obj (Mat (mkMat d (map fst (fin_data s)))) (Labs (map snd (fin_data s)))) as [o r].
    cbn [snd] in *. congruence.
  - unfold fin_data, labels. now rewrite map_map.
Qed.
Lemma stream_result_ok c d s i : c <> kcSIL -> (c = krCIP -> d <> 0%nat) -> wf d s -> (i < length s)%nat ->
  nth_error (stream_results c s) i = Some (Ok (XVal c d (clusters (firstn (S i) s)))).
Proof.
  intros Hc Hd Hw Hi. destruct (inc_values c d s Hc Hd Hw) as (a & E & _).
  unfold stream_results. change (map _ (as_floats s)) with (stream (fin_data s)). unfold results. rewrite E. cbn [snd].
  erewrite map_nth_error.
  2:{ rewrite (nth_error_nth' _ 0%nat) by now rewrite seq_length. now rewrite seq_nth. }
  do 2 f_equal. apply XVal_perm, groups_clusters.
Qed.
Lemma stream_results_length c s : length (stream_results c s) = length s.
Proof. unfold stream_results. rewrite results_length. unfold as_floats. now rewrite !map_length. Qed.
Lemma stream_results_prefix c s i : firstn i (stream_results c s) = stream_results c (firstn i s).
Proof.
  destruct (Nat.le_gt_cases (length s) i) as [Hi|Hi].
  { rewrite !firstn_all2; auto. now rewrite stream_results_length. }
  change (firstn i (results c new_obj (stream (fin_data s))) = results c new_obj (stream (fin_data (firstn i s)))).
  rewrite <- (firstn_skipn i s) at 1. rewrite fin_data_app, stream_app, results_app.
  assert (L : length (results c new_obj (stream (fin_data (firstn i s)))) = i).
  { rewrite results_length. unfold stream, fin_data. rewrite !map_length, firstn_length. lia. }
  rewrite firstn_app, L, Nat.sub_diag. cbn [firstn]. rewrite app_nil_r. apply firstn_all2. lia.
Qed.
Lemma stream_observed_XVal c d s v : c <> kcSIL -> (c = krCIP -> d <> 0%nat) -> stream_observed c d s v ->
  v = XVal c d (clusters s).
Proof.
  intros Hc Hd (Hw & rs & E). assert (L := stream_results_length c s). rewrite E, app_length in L. cbn [length] in L.
  assert (Hi : (length rs < length s)%nat) by (rewrite <- L; lia).
  pose proof (stream_result_ok c d s (length rs) Hc Hd Hw Hi) as H. rewrite E in H.
  rewrite nth_error_app2, Nat.sub_diag in H by lia. cbn [nth_error] in H. rewrite firstn_all2 in H by (rewrite <- L; lia). congruence.
Qed.
Lemma batch_observed_XVal c d s v : (c = krCIP -> d <> 0%nat) -> batch_observed c d s v -> v = XVal c d (clusters s).
Proof.
  intros Hd (Hw & (k & Hk & He) & E). pose proof (batch_result_ok c d k s Hw Hk He Hd). congruence.
Qed.
Lemma observed_XVal c d s v : c <> kcSIL -> (c = krCIP -> d <> 0%nat) -> observed c d s v -> v = XVal c d (clusters s).
Proof. intros Hc Hd [H|H]; [eapply batch_observed_XVal|eapply stream_observed_XVal]; eauto. Qed.

(** ** Non-vacuity: every data set has observed values *)
Lemma batch_observed_ex c d k s : wf d s -> (2 <= k)%nat -> exact_labels s k -> (c = krCIP -> d <> 0%nat) ->
  exists v, batch_observed c d s v.
Proof. intros. exists (XVal c d (clusters s)). repeat split; eauto using batch_result_ok. Qed.
Lemma stream_observed_ex c d s : c <> kcSIL -> wf d s -> s <> [] -> (c = krCIP -> d <> 0%nat) ->
  exists v, stream_observed c d s v.
Proof.
  intros Hc Hw Hs Hd. exists (XVal c d (clusters s)). split; auto. exists (firstn (length s - 1) (stream_results c s)).
  assert (0 < length s)%nat by (destruct s; [congruence|simpl; lia]).
  pose proof (stream_result_ok c d s (length s - 1) Hc Hd Hw ltac:(lia)) as H1.
  rewrite (firstn_all2 s) in H1 by lia.
  rewrite <- (firstn_skipn (length s - 1) (stream_results c s)) at 1. f_equal.
  apply nth_error_split in H1 as (l1 & l2 & E & L). rewrite E.
  assert (L2 := stream_results_length c s). rewrite E, app_length in L2. simpl in L2.
  rewrite skipn_app, L, Nat.sub_diag, skipn_all2 by lia. cbn [skipn app].
  destruct l2; auto. simpl in L2. lia.
Qed.

(** ** Facts about the clusters of a data set *)
Lemma clusters_good d s : wf d s -> good d (clusters s).
Proof.
  intros H. destruct (good_groups d s H) as [G1 G2]. split; eapply Permutation_Forall; eauto using groups_clusters.
Qed.
Lemma clusters_concat s : Permutation (concat (clusters s)) (points s).
Proof. apply concat_clusters; [apply NoDup_nodup|]. intros l Hl. now apply nodup_In. Qed.
Lemma exact_length s k : exact_labels s k -> length (clusters s) = k.
Proof.
  intros H. rewrite <- (Permutation_length (clusters_zs s k H)). unfold zs. now rewrite !map_length, seq_length.
Qed.
