(** * C77: the parts of the value kept in the object

    After a call the object keeps what the value was computed from: [_WGSS],
    [_BGSS], [_SEP], [_R], [_inter], [_intra], [_v_bar], [_beta_t], [_PS_i] and
    [_sil_coefs] ([CompSpec.v]).  They always fit the value just returned
    (every arithmetic, every object, every call), and in exact arithmetic they
    are the quantities the published formulas name. *)
From Coq Require Import ZArith List Arith Bool Lia Permutation.
From Verif Require Import Num NumPy Base GetCvi Lists Stream Generic F64 P_Calls.
From Coq Require Import Reals Lra.
From Verif Require Import Det Spec XR SpecX XEval XRun XBatch Obs P_Inc.
From Verif Require Import CompSpec Comp CompX.
Import ListNotations.
Local Notation length := List.length.
Local Open Scope R_scope.

(** Whatever the object went through before, exceptions included. *)
Theorem C77_parts_fit_the_value : forall (A : Arith) c (o o' : obj A) data label x,
  get_cvi c o data label = (o', Ok x) -> Fits c (at_ o') x.
Proof. intros A c o o' dat lab x. apply get_cvi_fits. Qed.

(** One sample at a time, after any number of samples: the clusters in the order
    of the object's label map, which holds each label of the data once. *)
Theorem C77_streams : forall c d s,
  c <> kcSIL -> (c = krCIP -> d <> 0%nat) -> wf d s -> (2 <= length (distinct s))%nat ->
  let o := after c new_obj (map (fun p => (Vec (fst p), Lab (snd p))) (as_floats s)) in
  let order := map fst (label_map o) in
  NoDup order /\ (forall l, In l order <-> In l (labels s)) /\
  Parts c d (map (cluster s) order) (at_ o).
Proof.
  intros c d s Hc Hd Hw Hl. destruct (stream_parts c d s Hc Hd Hw Hl) as [E H].
  change (map _ (as_floats s)) with (stream (fin_data s)). cbv zeta in *. rewrite E.
  assert (Eo : map fst (lmap (firsts s)) = firsts s).
  { clear. unfold lmap. generalize 0%nat. induction (firsts s) as [|a l IH]; intros b; auto.
    cbn [List.length seq combine map fst]. f_equal. apply IH. }
  rewrite Eo. split; [apply first_seen_NoDup|]. split; [intros l; apply first_seen_In|]. exact H.
Qed.

(** One batch: the clusters in the order 0, 1, ..., k-1. *)
Theorem C77_batches : forall c d k s,
  (c = krCIP -> d <> 0%nat) -> wf d s -> (2 <= k)%nat -> exact_labels s k ->
  let o := after c new_obj [(Mat (mkMat d (map fst (as_floats s))), Labs (labels s))] in
  Parts c d (map (cluster s) (map Z.of_nat (seq 0 k))) (at_ o).
Proof.
  intros c d k s Hd Hw Hk He. cbv zeta. pose proof (batch_parts c d k s Hd Hw Hk He) as H.
  unfold batch_of in H. replace (map snd (fin_data s)) with (labels s) in H by (unfold fin_data, labels; now rewrite map_map).
  exact H.
Qed.

(** cvi.MODULES (src/cvi/__init__.py:41-51) lists each class once. *)
Theorem C77_modules : NoDup kinds /\ forall c, In c kinds.
Proof.
  split.
  - repeat constructor; cbn; intuition discriminate.
  - intros []; cbn; tauto.
Qed.

Example C77_hypotheses : wf 2 ex_s /\ (2 <= length (distinct ex_s))%nat /\ exact_labels ex_s 2 /\
  wgss 2 (clusters ex_s) = 5 /\ bgss 2 (clusters ex_s) = 102.5 /\
  rmax (map (mse 2) (clusters ex_s)) = 1.25.
Proof.
  split; [apply ex_wf|]. split; [cbn; lia|]. split; [apply ex_exact|].
  change (clusters ex_s) with [[[0; 0]; [2; 1]]; [[10; 3]; [11; 5]]].
  split; [|split]; unfold wgss, bgss, mse, scatter, dist2, centroid; cbn; try lra.
  replace (_ / _) with 1.25 by lra. rewrite Rmax_left; lra.
Qed.
Example C77_values :
  let o := after kGD43 new_obj [(Mat (mkMat 2 (map fst (as_floats ex_s))), Labs (labels ex_s))] in
  intra (at_ o) = Fin 2.5 /\ CP (at_ o) = [Fin 2.5; Fin 2.5].
Proof.
  pose proof (C77_batches kGD43 2 2 ex_s ltac:(discriminate) ex_wf ltac:(lia) ex_exact) as (_ & _ & _ & H1 & H2 & _).
  cbv zeta in *. rewrite H1, H2. destruct C77_hypotheses as (_ & _ & _ & _ & _ & E).
  change (map (cluster ex_s) _) with (clusters ex_s). rewrite E. split; [f_equal; lra|].
  change (clusters ex_s) with [[[0; 0]; [2; 1]]; [[10; 3]; [11; 5]]]. cbn [map].
  repeat f_equal; unfold scatter, dist2, centroid; cbn; lra.
Qed.

Print Assumptions C77_parts_fit_the_value.
Print Assumptions C77_streams.
Print Assumptions C77_batches.
Print Assumptions C77_modules.
