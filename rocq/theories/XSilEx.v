(** * cSIL on streams: observable values and the data sets on which it goes wrong. *)
From Coq Require Import ZArith List Arith Bool Lia Permutation.
From Verif Require Import Num NumPy Base M_CH M_D M_PS GetCvi Lists Stream.
From Coq Require Import Reals Lra.
From Verif Require Import Det Spec XR SpecX RGeom XEval XRun XPerm XBatch Obs XSil.
Import ListNotations.
Local Open Scope R_scope.

Lemma sil_stream_ok d s i : wf d s -> (i < length s)%nat ->
  nth_error (stream_results kcSIL s) i = Some (Ok (cSIL_stream_ext d (firstn (S i) s))).
Proof.
  intros Hw Hi. destruct (sil_values d s Hw) as (a & E & _).
  unfold stream_results. change (map _ (as_floats s)) with (stream (fin_data s)). unfold results. rewrite E. cbn [snd].
  erewrite map_nth_error.
  2:{ rewrite (nth_error_nth' _ 0%nat) by now rewrite seq_length. now rewrite seq_nth. }
  reflexivity.
Qed.
Lemma sil_stream_observed d s v : stream_observed kcSIL d s v -> v = cSIL_stream_ext d s.
Proof.
  intros (Hw & rs & E). assert (L := stream_results_length kcSIL s). rewrite E, app_length in L. cbn [length] in L.
  assert (Hi : (length rs < length s)%nat) by (rewrite <- L; lia).
  pose proof (sil_stream_ok d s (length rs) Hw Hi) as H. rewrite E in H.
  rewrite nth_error_app2, Nat.sub_diag in H by lia. cbn [nth_error] in H. rewrite firstn_all2 in H by (rewrite <- L; lia). congruence.
Qed.
Lemma sil_stream_observed_ex d s : wf d s -> s <> [] -> stream_observed kcSIL d s (cSIL_stream_ext d s).
Proof.
  intros Hw Hs. split; auto. exists (firstn (length s - 1) (stream_results kcSIL s)).
  assert (0 < length s)%nat by (destruct s; [congruence|simpl; lia]).
  pose proof (sil_stream_ok d s (length s - 1) Hw ltac:(lia)) as H1.
  rewrite (firstn_all2 s) in H1 by lia.
  rewrite <- (firstn_skipn (length s - 1) (stream_results kcSIL s)) at 1. f_equal.
  apply nth_error_split in H1 as (l1 & l2 & E & L). rewrite E.
  assert (L2 := stream_results_length kcSIL s). rewrite E, app_length in L2. simpl in L2.
  rewrite skipn_app, L, Nat.sub_diag, skipn_all2 by lia. cbn [skipn app].
  destruct l2; auto. simpl in L2. lia.
Qed.

(** two clusters: the value from the four entries *)
Lemma sil_two E (a b : Z) aa bb ab ba : E a a = aa -> E b b = bb -> E a b = ab -> E b a = ba ->
  (aa <> 0 \/ bb <> 0) ->
  sil_value E [a; b] = xdiv (xadd (xdiv (Fin (ba - aa)) (Fin (Rmax aa ba)))
                                  (xdiv (Fin (ab - bb)) (Fin (Rmax bb ab)))) (Fin 2).
Proof.
  intros Eaa Ebb Eab Eba H. unfold sil_value. cbn [forallb selects map fst snd length INR rmin fold_right].
  rewrite Eaa, Ebb, Eab, Eba.
  replace (_ && _)%bool with false.
  - unfold xsum. cbn [fold_left]. f_equal.
    match goal with |- xadd (xadd (Fin 0) ?u) ?v = _ => destruct u, v; cbn; auto; f_equal; ring end.
  - symmetry. destruct (Req_EM_T aa 0), (Req_EM_T bb 0); try tauto; cbn; rewrite ?andb_false_r; auto.
Qed.

(** ** Data sets *)
Local Ltac entry := unfold sil_entry, mdist, inner, centroid, cluster, dist2; cbn; lra.
Local Ltac qfin := unfold xdiv; repeat match goal with |- context [Req_EM_T ?a ?b] => destruct (Req_EM_T a b); [exfalso; lra|] end.

(** two samples labelled 0, then one labelled 1 *)
Definition sil_s1 : data := [([0], 0%Z); ([2], 0%Z); ([1], 1%Z)].
Lemma sil_s1_stream : cSIL_stream_ext 1 sil_s1 = Fin (/ 2).
Proof.
  unfold cSIL_stream_ext. change (distinct sil_s1) with [0%Z; 1%Z]. cbn [length Nat.leb].
  rewrite (sil_two _ 0 1 1 0 1 1); [|entry..|lra].
  rewrite !Rmax_right by lra. qfin. cbn [xadd]. qfin. f_equal. lra.
Qed.
Local Ltac mean := unfold mdist, centroid, dist2; cbn; lra.
Lemma cSIL_two d (g h : list point) gg hh gh hg : tss d [g; h] <> 0 ->
  mdist d g g = gg -> mdist d h h = hh -> mdist d h g = gh -> mdist d g h = hg ->
  XVal kcSIL d [g; h] = xdiv (xadd (xdiv (Fin (hg - gg)) (Fin (Rmax gg hg)))
                                   (xdiv (Fin (gh - hh)) (Fin (Rmax hh gh)))) (Fin 2).
Proof.
  intros Ht <- <- <- <-. unfold XVal, cSIL_ext. cbn [length Nat.leb selects map fst snd rmin fold_right].
  destruct (Req_EM_T (tss d [g; h]) 0); [contradiction|].
  unfold xsum. cbn [fold_left]. unfold nclus. cbn [length INR]. f_equal.
  match goal with |- xadd (xadd (Fin 0) ?u) ?v = _ => destruct u, v; cbn; auto; f_equal; ring end.
Qed.
Lemma sil_s1_batch : XVal kcSIL 1 (clusters sil_s1) = Fin 0.
Proof.
  change (clusters sil_s1) with ([[[0]; [2]]; [[1]]] : list (list point)).
  rewrite (cSIL_two 1 _ _ 1 0 1 0); [|unfold tss, scatter, centroid, dist2; cbn; lra|mean..].
  rewrite Rmax_left, Rmax_right by lra. qfin. cbn [xadd]. qfin. f_equal. lra.
Qed.
(** the same samples with the one labelled 1 first *)
Definition sil_s2 : data := [([1], 1%Z); ([0], 0%Z); ([2], 0%Z)].
Lemma sil_s2_stream : cSIL_stream_ext 1 sil_s2 = NInf.
Proof.
  unfold cSIL_stream_ext. change (distinct sil_s2) with [1%Z; 0%Z]. cbn [length Nat.leb].
  rewrite (sil_two _ 1 0 0 1 0 (-1)); [|entry..|lra].
  rewrite Rmax_left, Rmax_left by lra. unfold xdiv. destruct (Req_EM_T 0 0); [|lra]. qfin.
  unfold inf_mul. destruct (Req_EM_T (-1 - 0) 0); [lra|]. destruct (Rlt_dec 0 (-1 - 0)); [lra|]. cbn [xadd].
  qfin. unfold inf_mul. destruct (Req_EM_T 2 0); [lra|]. destruct (Rlt_dec 0 2); [|lra]. reflexivity.
Qed.
(** the samples of [sil_s1] moved by -1 *)
Definition sil_s3 : data := [([-1], 0%Z); ([1], 0%Z); ([0], 1%Z)].
Lemma sil_s3_stream : cSIL_stream_ext 1 sil_s3 = Fin 0.
Proof.
  unfold cSIL_stream_ext. change (distinct sil_s3) with [0%Z; 1%Z]. cbn [length Nat.leb].
  rewrite (sil_two _ 0 1 1 0 1 0); [|entry..|lra].
  rewrite Rmax_left, Rmax_right by lra. qfin. cbn [xadd]. qfin. f_equal. lra.
Qed.
(** far below -1 *)
Definition sil_s4 : data := [([1], 1%Z); ([2], 1%Z); ([0], 0%Z); ([4], 0%Z)].
Lemma sil_s4_stream : cSIL_stream_ext 1 sil_s4 = Fin (- (71 / 16)).
Proof.
  unfold cSIL_stream_ext. change (distinct sil_s4) with [1%Z; 0%Z]. cbn [length Nat.leb].
  rewrite (sil_two _ 1 0 (1/4) 4 (1/2) (-7/4)); [|entry..|lra].
  rewrite Rmax_left, Rmax_left by lra. qfin. cbn [xadd]. qfin. f_equal. lra.
Qed.
Lemma exact_two (s : data) : (forall z, In z (labels s) <-> z = 0%Z \/ z = 1%Z) -> exact_labels s 2.
Proof. intros H z. rewrite H. change (Z.of_nat 2) with 2%Z. lia. Qed.
