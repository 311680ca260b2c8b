(** * C87: only the distances between the samples count

    Exact arithmetic, finite features.  Two data sets with the same labels, in
    spaces of any dimensions, with the squared distances of the second q times
    those of the first: the values are the same (GD43: divided by sqrt q), of
    batches in all classes but rCIP and one sample at a time in all but rCIP and
    cSIL. *)
From Coq Require Import ZArith List Arith Bool Lia Permutation.
From Verif Require Import Num NumPy Base GetCvi.
From Coq Require Import Reals Lra.
From Verif Require Import Det Spec SpecT XR SpecX RGeom XLift XEval XRun XPerm XBatch Obs XSil XSilEx XForm XBounds XSim XMove P_Inc P_Formula P_Bounds P_Move.
From Verif Require Import XIso.
Import ListNotations.
Local Open Scope R_scope.

(** ** Vocabulary *)
(** the same labels, and squared distances q times as large *)
Definition proportional (q : R) (s s' : data) : Prop :=
  labels s = labels s' /\
  forall i j x y x' y', nth_error (points s) i = Some x -> nth_error (points s) j = Some y ->
    nth_error (points s') i = Some x' -> nth_error (points s') j = Some y' -> dist2 x' y' = q * dist2 x y.
Definition same_distances : data -> data -> Prop := proportional 1.

(** ** Lemmas *)
Section Data.
  Context (d d' : nat) (q : R) (s s' : data).
  Hypotheses (Hq : 0 < q) (Hw : wf d s) (Hw' : wf d' s') (Hp : proportional q s s').
  Let SS := combine (points s) (points s').
  Lemma Hl : length s = length s'.
  Proof. destruct Hp as [E _]. unfold labels in E. rewrite <- (map_length snd s), E. apply map_length. Qed.
  Lemma SS_in z : In z SS -> exists i, nth_error (points s) i = Some (fst z) /\ nth_error (points s') i = Some (snd z).
  Proof.
    intros Hz. apply In_nth_error in Hz as (i & Hi). exists i. unfold SS in Hi. clear - Hi. revert i Hi.
    generalize (points s) (points s'). intros a. induction a as [|x a IH]; intros [|y b] [|i] Hi; cbn in *; try discriminate; try (destruct i; discriminate).
    - injection Hi as <-. auto.
    - auto.
  Qed.
  Lemma SS_len z : In z SS -> length (fst z) = d /\ length (snd z) = d'.
  Proof.
    intros Hz. unfold wf in *. rewrite Forall_forall in Hw, Hw'. destruct z as [x x']. apply in_combine_l in Hz as H1. apply in_combine_r in Hz as H2.
    apply in_map_iff in H1 as (p & <- & H1). apply in_map_iff in H2 as (p' & <- & H2). cbn. auto.
  Qed.
  Lemma SS_dist y z : In y SS -> In z SS -> dist2 (snd y) (snd z) = q * dist2 (fst y) (fst z).
  Proof.
    intros Hy Hz. destruct (SS_in y Hy) as (i & A1 & A2), (SS_in z Hz) as (j & B1 & B2). destruct Hp as [_ H]. exact (H i j _ _ _ _ A1 B1 A2 B2).
  Qed.
  Let TT := T d d' SS.
  Let DD := D d d' SS.
  Lemma sample_D x : In x (points s) -> DD x.
  Proof.
    intros Hx. apply In_nth_error in Hx as (i & Hi). assert (L : (i < length (points s'))%nat).
    { unfold points. rewrite map_length, <- Hl. rewrite <- (map_length fst). apply nth_error_Some. unfold points in Hi. congruence. }
    apply nth_error_Some in L. destruct (nth_error (points s') i) as [x'|] eqn:E; [|congruence]. exists x'.
    apply (twin_sample d d' SS SS_len (x, x')). unfold SS. clear - Hi E. revert i Hi E. generalize (points s) (points s'). intros a.
    induction a as [|u a IH]; intros [|w b] [|i] H1 H2; cbn in *; try discriminate.
    - injection H1 as ->. injection H2 as ->. now left.
    - right. eauto.
  Qed.
  Lemma image : s' = tmap TT s.
  Proof.
    assert (E : labels s = labels s') by apply Hp. pose proof Hl as L. unfold tmap.
    apply nth_ext with (d := ([], 0%Z)) (d' := (TT [], 0%Z)); [now rewrite map_length|]. intros i Hi.
    rewrite <- L in Hi. change (TT [], 0%Z) with ((fun p : point * Z => (TT (fst p), snd p)) ([], 0%Z)). rewrite map_nth.
    assert (N : nth_error s i = Some (nth i s ([], 0%Z))) by now apply nth_error_nth'.
    assert (N' : nth_error s' i = Some (nth i s' ([], 0%Z))) by (apply nth_error_nth'; lia).
    destruct (nth i s ([], 0%Z)) as [x l], (nth i s' ([], 0%Z)) as [x' l']. cbn [fst snd]. f_equal.
    - symmetry. apply (T_is d d' q SS SS_len SS_dist). apply (twin_sample d d' SS SS_len (x, x')).
      unfold SS, points. clear - N N'. revert s' i N N'. induction s as [|p t IH]; intros [|p' t'] [|i] H1 H2; cbn in *; try discriminate.
      + injection H1 as ->. injection H2 as ->. now left.
      + right. eauto.
    - apply (map_nth_error snd) in N. apply (map_nth_error snd) in N'. unfold labels in E. rewrite <- E in N'. cbn in *. congruence.
  Qed.
  Lemma clusters_D gs : gs = clusters s -> Forall (Forall DD) gs.
  Proof.
    intros ->. apply Forall_map, Forall_forall. intros l _. apply Forall_forall. intros x Hx. apply sample_D. unfold cluster in Hx.
    apply in_map_iff in Hx as (p & <- & Hf). apply filter_In in Hf as [Hf _]. now apply in_map.
  Qed.
  Lemma iso_XVal c : c <> kGD43 -> c <> krCIP -> XVal c d' (clusters s') = XVal c d (clusters s).
  Proof.
    intros H1 H2. rewrite image, tmap_clusters. destruct (le_lt_dec 2 (length (clusters s))) as [Hk|Hk].
    - apply (XIso.T_XVal d d' DD TT q Hq); auto using clusters_good.
      + intros g. apply (D_cen d d' SS).
      + intros x y. apply (T_dist d d' q SS SS_len SS_dist).
      + intros g. apply (T_cen d d' q SS SS_len SS_dist).
      + now apply clusters_D.
    - rewrite !XVal_le1; auto; [lia|rewrite map_length; lia].
  Qed.
  Lemma iso_GD43 : XVal kGD43 d' (clusters s') = xmul (Fin (/ sqrt q)) (XVal kGD43 d (clusters s)).
  Proof.
    rewrite image, tmap_clusters. destruct (le_lt_dec 2 (length (clusters s))) as [Hk|Hk].
    - rewrite !XVal_ext by (rewrite ?map_length; auto). apply (XIso.T_GD43 d d' DD TT q Hq); auto using clusters_good.
      + intros g. apply (D_cen d d' SS).
      + intros x y. apply (T_dist d d' q SS SS_len SS_dist).
      + intros g. apply (T_cen d d' q SS SS_len SS_dist).
      + now apply clusters_D.
    - rewrite !XVal_le1 by (rewrite ?map_length; lia). cbn. f_equal. ring.
  Qed.
End Data.
Lemma proportional_firstn q s s' i : proportional q s s' -> proportional q (firstn i s) (firstn i s').
Proof.
  intros [H1 H2]. split; [unfold labels in *; now rewrite <- !firstn_map, H1|].
  assert (P : forall t j z, nth_error (points (firstn i t)) j = Some z -> nth_error (points t) j = Some z).
  { intros t j z. unfold points. rewrite <- firstn_map. generalize (map fst t). clear. revert j z. induction i as [|i IH]; intros j z [|a l] H; cbn in *; try (destruct j; discriminate).
    destruct j as [|j]; cbn in *; auto. }
  intros a b x y x' y' A B A' B'. exact (H2 a b x y x' y' (P _ _ _ A) (P _ _ _ B) (P _ _ _ A') (P _ _ _ B')).
Qed.
Lemma proportional_length q s s' : proportional q s s' -> length s = length s'.
Proof. intros [E _]. unfold labels in E. rewrite <- (map_length snd s), E. apply map_length. Qed.
Lemma proportional_exact q s s' k : proportional q s s' -> exact_labels s k -> exact_labels s' k.
Proof. intros [E _] H. unfold exact_labels in *. now rewrite <- E. Qed.

(** ** Batches *)
Theorem C87_batches : forall c d d' k q s s', c <> krCIP -> c <> kGD43 -> 0 < q -> wf d s -> wf d' s' -> proportional q s s' ->
  (2 <= k)%nat -> exact_labels s k ->
  exists v, batch_result c d s = Ok v /\ batch_result c d' s' = Ok v.
Proof.
  intros c d d' k q s s' H1 H2 Hq Hw Hw' Hp Hk He. exists (XVal c d (clusters s)).
  split; [apply (batch_result_ok c d k); auto; congruence|].
  rewrite (batch_result_ok c d' k) by (auto; first [now apply (proportional_exact q s)|congruence]).
  now rewrite (iso_XVal d d' q s s' Hq Hw Hw' Hp c).
Qed.
Print Assumptions C87_batches.
Theorem C87_GD43_batches : forall d d' k q s s', 0 < q -> wf d s -> wf d' s' -> proportional q s s' -> (2 <= k)%nat -> exact_labels s k ->
  exists v, batch_result kGD43 d s = Ok v /\ batch_result kGD43 d' s' = Ok (xmul (Fin (/ sqrt q)) v).
Proof.
  intros d d' k q s s' Hq Hw Hw' Hp Hk He. exists (XVal kGD43 d (clusters s)).
  split; [apply (batch_result_ok kGD43 d k); auto; discriminate|].
  rewrite (batch_result_ok kGD43 d' k) by (auto; first [now apply (proportional_exact q s)|discriminate]).
  now rewrite (iso_GD43 d d' q s s' Hq Hw Hw' Hp).
Qed.
Print Assumptions C87_GD43_batches.

(** ** One sample at a time *)
Theorem C87_streams : forall c d d' q s s', c <> krCIP -> c <> kGD43 -> c <> kcSIL -> 0 < q -> wf d s -> wf d' s' -> proportional q s s' ->
  stream_results c s' = stream_results c s.
Proof.
  intros c d d' q s s' H1 H2 H3 Hq Hw Hw' Hp. pose proof (proportional_length q s s' Hp) as L.
  apply stream_results_ext; auto. intros i Hi. rewrite (stream_result_ok c d'), (stream_result_ok c d) by (auto; try lia; congruence).
  now rewrite (iso_XVal d d' q (firstn (S i) s) (firstn (S i) s') Hq (wf_firstn d s _ Hw) (wf_firstn d' s' _ Hw') (proportional_firstn q s s' _ Hp) c).
Qed.
Print Assumptions C87_streams.
Theorem C87_GD43_streams : forall d d' q s s', 0 < q -> wf d s -> wf d' s' -> proportional q s s' ->
  forall i v, nth_error (stream_results kGD43 s) i = Some (Ok v) ->
  nth_error (stream_results kGD43 s') i = Some (Ok (xmul (Fin (/ sqrt q)) v)).
Proof.
  intros d d' q s s' Hq Hw Hw' Hp i v H. pose proof (proportional_length q s s' Hp) as L.
  assert (Hi : (i < length s)%nat). { rewrite <- (stream_results_length kGD43). apply nth_error_Some. congruence. }
  rewrite (stream_result_ok kGD43 d) in H by (auto; discriminate). inversion H; subst v.
  rewrite (stream_result_ok kGD43 d') by (auto; try lia; discriminate).
  now rewrite (iso_GD43 d d' q (firstn (S i) s) (firstn (S i) s') Hq (wf_firstn d s _ Hw) (wf_firstn d' s' _ Hw') (proportional_firstn q s s' _ Hp)).
Qed.
Print Assumptions C87_GD43_streams.

(** with the same distances: all of them at once *)
Theorem C87_same_distances : forall c d d' s s', c <> krCIP -> wf d s -> wf d' s' -> same_distances s s' ->
  (c <> kcSIL -> stream_results c s' = stream_results c s) /\
  forall k, (2 <= k)%nat -> exact_labels s k -> exists v, batch_result c d s = Ok v /\ batch_result c d' s' = Ok v.
Proof.
  intros c d d' s s' H1 Hw Hw' Hp. destruct (kind_eq c kGD43) as [->|H2].
  - assert (I1 : forall v : xr, xmul (Fin (/ sqrt 1)) v = v).
    { intros v. rewrite sqrt_1, Rinv_1. destruct v as [r| | |]; cbn; [f_equal; ring|..]; auto; unfold inf_mul; destruct (Req_EM_T 1 0); try lra; destruct (Rlt_dec 0 1); auto; lra. }
    split.
    + intros _. pose proof (proportional_length 1 s s' Hp) as L. symmetry. apply stream_results_ext; auto. intros i Hi.
      assert (E := stream_result_ok kGD43 d s i ltac:(discriminate) ltac:(discriminate) Hw Hi).
      rewrite (C87_GD43_streams d d' 1 s s' Rlt_0_1 Hw Hw' Hp i _ E), I1. exact E.
    + intros k Hk He. destruct (C87_GD43_batches d d' k 1 s s' Rlt_0_1 Hw Hw' Hp Hk He) as (v & A & B). exists v. rewrite I1 in B. auto.
  - split.
    + intros H3. exact (C87_streams c d d' 1 s s' H1 H2 H3 Rlt_0_1 Hw Hw' Hp).
    + intros k Hk He. exact (C87_batches c d d' k 1 s s' H1 H2 Rlt_0_1 Hw Hw' Hp Hk He).
Qed.
Print Assumptions C87_same_distances.

(** a line in the plane: 0, 5 | 20, 25 and its image along (3/5, 4/5) *)
Definition ex_line : data := [([0], 0%Z); ([5], 0%Z); ([20], 1%Z); ([25], 1%Z)].
Definition ex_plane : data := [([0; 0], 0%Z); ([3; 4], 0%Z); ([12; 16], 1%Z); ([15; 20], 1%Z)].
Definition ex_plane2 : data := [([1; 1], 0%Z); ([7; 9], 0%Z); ([25; 33], 1%Z); ([31; 41], 1%Z)].
Example C87_hypotheses : wf 1 ex_line /\ wf 2 ex_plane /\ wf 2 ex_plane2 /\ same_distances ex_line ex_plane /\ proportional 4 ex_line ex_plane2 /\
  0 < 4 /\ exact_labels ex_line 2.
Proof.
  split; [repeat constructor|]. split; [repeat constructor|]. split; [repeat constructor|].
  split; [|split].
  - split; [reflexivity|]. intros i j x y x' y' A B A' B'.
    destruct i as [|[|[|[|i]]]]; cbn in A, A'; try (destruct i; discriminate); injection A as <-; injection A' as <-;
    destruct j as [|[|[|[|j]]]]; cbn in B, B'; try (destruct j; discriminate); injection B as <-; injection B' as <-; unfold dist2; cbn; lra.
  - split; [reflexivity|]. intros i j x y x' y' A B A' B'.
    destruct i as [|[|[|[|i]]]]; cbn in A, A'; try (destruct i; discriminate); injection A as <-; injection A' as <-;
    destruct j as [|[|[|[|j]]]]; cbn in B, B'; try (destruct j; discriminate); injection B as <-; injection B' as <-; unfold dist2; cbn; lra.
  - split; [lra|]. apply exact_two. intros z. cbn. intuition lia.
Qed.

(** ** The classes left out *)
Lemma constant_same_distances x s d : wf d s -> same_distances s (append_constant x s).
Proof.
  intros Hw. split.
  - unfold labels, append_constant. rewrite map_map. reflexivity.
  - unfold points, append_constant. rewrite !map_map. cbn [fst]. intros i j a b a' b' A B A' B'.
    rewrite nth_error_map in A, B, A', B'. unfold wf, data, point in *. rewrite Forall_forall in Hw.
    destruct (nth_error s i) as [p|] eqn:Ei; [|discriminate]. destruct (nth_error s j) as [r|] eqn:Ej; [|discriminate].
    apply nth_error_In in Ei. apply nth_error_In in Ej. apply Hw in Ei. apply Hw in Ej. cbn [option_map] in *.
    destruct p as [p l], r as [r l']. cbn [fst] in *. injection A as E1. injection B as E2. assert (E3 : a' = p ++ [x]) by congruence. assert (E4 : b' = r ++ [x]) by congruence. clear A' B'. subst a b a' b'. clear Hw. subst d. revert r Ej. induction p as [|u p IH]; intros [|w r] E; try discriminate.
    + unfold dist2. cbn. lra.
    + cbn [app]. rewrite !dist2_cons, IH by (cbn in E; lia). lra.
Qed.
(** rCIP depends on the number of features too, cSIL one sample at a time on the
    place of the origin *)
Theorem C87_rCIP_refuted : exists d d' s s' v w, v <> w /\ same_distances s s' /\
  batch_observed krCIP d s (Fin v) /\ batch_observed krCIP d' s' (Fin w).
Proof.
  destruct C58_rCIP_refuted as (d & s & v & w & N & A & B). exists d, (S d), s, (append_constant 0 s), v, w.
  split; auto. split; [|auto]. apply (constant_same_distances 0 s d). apply A.
Qed.
Theorem C87_cSIL_streams_refuted : exists d d' s s', same_distances s s' /\
  stream_observed kcSIL d s (Fin (/ 2)) /\ stream_observed kcSIL d' s' (Fin (3 / 4)).
Proof.
  destruct C58_cSIL_streams_refuted as (d & s & Hw & A & B). exists d, (S d), s, (append_constant 1 s).
  split; [|auto]. exact (constant_same_distances 1 s d Hw).
Qed.
Print Assumptions C87_rCIP_refuted.
Print Assumptions C87_cSIL_streams_refuted.
