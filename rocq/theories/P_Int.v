(** * C69: data of an integer dtype *)
From Coq Require Import ZArith Lia Lra SpecFloat List Arith Bool Reals.
From Flocq Require Import Core. From Flocq Require BinarySingleNaN.
From Verif Require Import Num NumPy Base GetCvi Lists Stream F64 F64o XR Rnd RndErr P_Bounds64 P_Cov64.
From Verif Require Import M_Int IntL IntR IntF.
Import ListNotations.
Local Open Scope Z_scope.

(** ** The specification *)
Definition integer_types : list inttype := [int8; int16; int32; int64; uint8; uint16; uint32].
(** rows of [d] numbers that the dtype [t] holds, between -B and B *)
Definition int_data (t : inttype) (d : nat) (B : Z) (s : list (list Z * Z)) : Prop :=
  forall x l, In (x, l) s -> length x = d /\ forall z, In z x -> it_min t <= z <= it_max t /\ - B <= z <= B.

Lemma types_ok t : In t integer_types -> int_ok t /\ it_max t <= it_max int64.
Proof.
  intros H. repeat destruct H as [<-|H]; [..|destruct H]; (split; [split; [discriminate|vm_compute; auto]|vm_compute; discriminate]).
Qed.
Lemma sumsq_le B x : (forall z, In z x -> - B <= z <= B) -> sumsq x <= Z.of_nat (length x) * (B * B).
Proof.
  unfold sumsq. induction x as [|a x IH]; intros H; [reflexivity|]. cbn [map2 fold_right length].
  pose proof (H a (or_introl eq_refl)). pose proof (IH (fun z Hz => H z (or_intror Hz))). nia.
Qed.
Lemma small_of t d B s : int_data t d B s -> small d (Z.of_nat d * (B * B)) s.
Proof.
  intros H. apply Forall_forall. intros [x l] Hx. destruct (H x l Hx) as [Hl Hz]. split; [exact Hl|]. cbn [fst]. rewrite <- Hl.
  apply sumsq_le. intros z Hz'. now destruct (Hz z Hz').
Qed.
Lemma rows_of t d B s : int_data t d B s -> rows_ok t d B (map fst s).
Proof.
  intros H. apply Forall_forall. intros x Hx. apply in_map_iff in Hx as ([x' l] & <- & Hx). cbn [fst]. destruct (H x' l Hx) as [Hl Hz].
  split; [exact Hl|]. apply Forall_forall. intros z Hz'. destruct (Hz z Hz') as [H1 H2]. split; [exact H1|lia].
Qed.

(** ** As long as the sums fit, the dtype does not matter *)
(** exact arithmetic *)
Theorem C69_streams_exact ver t c d B s : In t integer_types -> int_data t d B s -> (1 <= d)%nat -> 1 <= B ->
  2 * Z.of_nat (length s) * (Z.of_nat d * (B * B)) <= it_max t ->
  int_stream (A := XR) ver t c s = results c new_obj (stream (as_floats s)).
Proof.
  intros Ht Hs Hd HB HM. destruct (types_ok t Ht) as [Hi H64]. destruct c; try reflexivity.
  apply (cSIL_int_stream_ok ver t Hi _ (XR_exact _) (Z.le_refl _) H64 d (Z.of_nat d * (B * B))); [nia|exact (small_of _ _ _ _ Hs)|exact HM].
Qed.
Print Assumptions C69_streams_exact.
Theorem C69_batches_exact t c d B s : In t integer_types -> int_data t d B s -> 0 <= B ->
  Z.of_nat (length s) * (B * B) <= it_max t ->
  int_batch (A := XR) t c d s = results c new_obj [batch_of d (as_floats s)].
Proof.
  intros Ht Hs HB HM. destruct (types_ok t Ht) as [Hi H64]. destruct c; try reflexivity.
  apply (rCIP_int_batch_ok t Hi _ (Z.le_refl _) d (XR_gram _ d) B); [exact HB|exact (rows_of _ _ _ _ Hs)|exact HM].
Qed.
Print Assumptions C69_batches_exact.
(** binary64, whatever the order of NumPy's sums *)
Theorem C69_streams_binary64 L S ver t c d B s : any_order S -> In t integer_types -> int_data t d B s -> (1 <= d)%nat -> 1 <= B ->
  2 * Z.of_nat (length s) * (Z.of_nat d * (B * B)) <= Z.min (it_max t) (2 ^ 53) ->
  int_stream (A := F64o L S) ver t c s = results c new_obj (stream (as_floats s)).
Proof.
  intros HS Ht Hs Hd HB HM. destruct (types_ok t Ht) as [Hi H64]. destruct c; try reflexivity.
  assert (H1 : 2 * Z.of_nat (length s) * (Z.of_nat d * (B * B)) <= 2 ^ 53) by lia.
  apply (cSIL_int_stream_ok ver t Hi _ (F64_exact L S _ HS H1) ltac:(lia) ltac:(lia) d (Z.of_nat d * (B * B)));
    [nia|exact (small_of _ _ _ _ Hs)|apply Z.le_refl].
Qed.
Print Assumptions C69_streams_binary64.
Theorem C69_batches_binary64 L S t c d B s : any_order S -> In t integer_types -> int_data t d B s -> 0 <= B ->
  (c = krCIP -> positive (regular L d)) ->
  Z.of_nat (length s) * (B * B) <= Z.min (it_max t) (2 ^ 53) ->
  int_batch (A := F64o L S) t c d s = results c new_obj [batch_of d (as_floats s)].
Proof.
  intros HS Ht Hs HB HR HM. destruct (types_ok t Ht) as [Hi H64]. destruct c; try reflexivity.
  assert (H1 : Z.of_nat (length s) * (B * B) <= 2 ^ 53) by lia.
  assert (H2 : Z.of_nat (length s) * (B * B) <= it_max t) by lia.
  apply (rCIP_int_batch_ok t Hi _ H2 d (F64_gram L S _ d HS H1 (HR eq_refl)) B); [exact HB|exact (rows_of _ _ _ _ Hs)|apply Z.le_refl].
Qed.
Print Assumptions C69_batches_binary64.

(** ** Beyond that the values are wrong *)
(** two clusters of grey values in uint8: the sums of cSIL wrap around at 256, and
    the value leaves the range of silhouettes; converted first, it is 0.996... *)
Definition pixels : list (list Z * Z) := [([15], 0); ([14], 0); ([16], 0); ([1], 1); ([0], 1); ([2], 1)].
Theorem C69_cSIL_uint8_refuted L ver : exists x y : f64,
  last (int_stream (A := F64o L left_right) ver uint8 kcSIL pixels) (Err ValueError) = Ok x /\ (6 / 5 < rv x)%R /\
  last (results kcSIL new_obj (stream (as_floats (A := F64o L left_right) pixels))) (Err ValueError) = Ok y /\ (99 / 100 < rv y < 1)%R.
Proof.
  exists (S754_finite false 5525025609620756 (-52)), (S754_finite false 8974938099751194 (-53)).
  split; [destruct ver; vm_compute; reflexivity|]. split; [|split; [vm_compute; reflexivity|]].
  - unfold rv. cbn. unfold F2R. cbn [Fnum Fexp]. change (bpow radix2 (-52)) with (/ IZR (2 ^ 52))%R. change (2 ^ 52) with 4503599627370496. lra.
  - unfold rv. cbn. unfold F2R. cbn [Fnum Fexp]. change (bpow radix2 (-53)) with (/ IZR (2 ^ 53))%R. change (2 ^ 53) with 9007199254740992. lra.
Qed.
Print Assumptions C69_cSIL_uint8_refuted.
(** the widest dtype: the square of 2^32 wraps to 0 in int64, and the value is nan *)
Definition big : list (list Z * Z) := [([2 ^ 32], 0); ([0], 1)].
Theorem C69_cSIL_int64_refuted L ver :
  int_stream (A := F64o L left_right) ver int64 kcSIL big = [Ok (d_of_Z 0); Ok S754_nan] /\
  results kcSIL new_obj (stream (as_floats (A := F64o L left_right) big)) = [Ok (d_of_Z 0); Ok (d_of_Z 1)].
Proof. split; [destruct ver|]; vm_compute; reflexivity. Qed.
Print Assumptions C69_cSIL_int64_refuted.
(** with NumPy 2 a cluster of 128 samples is too large for int8: the next new
    cluster raises; with NumPy 1 and for the converted numbers the value is 1 *)
Definition crowd : list (list Z * Z) := repeat ([0], 0) 128 ++ [([5], 1)].
Theorem C69_cSIL_overflow_refuted L :
  last (int_stream (A := F64o L left_right) NumPy2 int8 kcSIL crowd) (Err ValueError) = Err OverflowError /\
  last (int_stream (A := F64o L left_right) NumPy1 int8 kcSIL crowd) (Err ValueError) = Ok (d_of_Z 1) /\
  last (results kcSIL new_obj (stream (as_floats (A := F64o L left_right) crowd))) (Err ValueError) = Ok (d_of_Z 1).
Proof. repeat split; vm_compute; reflexivity. Qed.
Print Assumptions C69_cSIL_overflow_refuted.
(** the same grey values in a batch of rCIP: a negative variance, so nan; converted
    first, they have the variance 1 and the value is a number *)
Theorem C69_rCIP_uint8_refuted :
  (forall e, int_batch (A := F64o (lib1 e) left_right) uint8 krCIP 1 pixels = [Ok S754_nan]) /\
  let L := lib1 (fun _ => d_of_Z 1) in
  results krCIP new_obj [batch_of 1 (as_floats (A := F64o L left_right) pixels)] = [Ok (S754_finite false 5081767996461440 (-54))].
Proof. split; [intros e|]; vm_compute; reflexivity. Qed.
Print Assumptions C69_rCIP_uint8_refuted.

(** ** The hypotheses hold: smaller grey values *)
Definition dark : list (list Z * Z) := [([1; 0], 0); ([0; 1], 0); ([3; 2], 1); ([2; 3], 1)].
Example C69_hypotheses : let L := lib1 (fun _ => d_of_Z 1) in
  int_data uint8 2 3 dark /\
  2 * Z.of_nat (length dark) * (Z.of_nat 2 * (3 * 3)) <= Z.min (it_max uint8) (2 ^ 53) /\
  positive (regular L 2) /\
  int_stream (A := F64o L left_right) NumPy2 uint8 kcSIL dark =
    results kcSIL new_obj (stream (as_floats (A := F64o L left_right) dark)) /\
  last (int_stream (A := F64o L left_right) NumPy2 uint8 kcSIL dark) (Err ValueError) = Ok (S754_finite false 8366981660654010 (-53)).
Proof.
  cbv zeta. split; [|split; [vm_compute; discriminate|split; [|split]]].
  - intros x l H. repeat destruct H as [[= <- <-]|H]; [..|destruct H]; (split; [reflexivity|]);
      intros z Hz; repeat destruct Hz as [<-|Hz]; try destruct Hz; vm_compute; split; split; discriminate.
  - split; [reflexivity|split; [reflexivity|]]. unfold rv. cbn. apply F2R_gt_0. reflexivity.
  - vm_compute. reflexivity.
  - vm_compute. reflexivity.
Qed.
