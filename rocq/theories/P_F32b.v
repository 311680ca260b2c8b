(** * C78, continued: where float32 data give other values than float64 data *)
From Coq Require Import ZArith Lia Lra SpecFloat List Arith Reals Permutation Bool.
From Flocq Require Import Core BinarySingleNaN.
From Verif Require Import Num NumPy Base M_CH GetCvi Lists Step StepB Hoare Eval Stream Generic RunForm BatchForm
  F64 F64o F32d Rnd RndErr RndMean RndSum RndCl Rnd32 RndMean32 RndCl32 Spec P_Round P_F32.
Import ListNotations.
Local Open Scope R_scope.
Local Notation R := Rdefinitions.R.

(** the same numbers, as float32 arrays and as float64 arrays *)
Definition f32s (L : Libm) (s : list (list Z * Z)) : list (vec (F32d L left_right left_right32) * Z) :=
  map (fun p => (dvec (fst p), snd p)) s.
Definition f64s (L : Libm) (s : list (list Z * Z)) : list (vec (F64o L left_right) * Z) :=
  map (fun p => (dvec (fst p), snd p)) s.

(** ** Three equal samples: with float32 data the centroid of 1, 1, 1 is not 1.
    So the compactness is not 0 either, and CH, GD43 are finite where float64
    data give inf, GD53 is a number where float64 data give nan, and WB, DB, XB
    are positive where float64 data give 0. *)
Definition three_ones : list (list Z * Z) := [([1], 0); ([1], 0); ([1], 0); ([3], 1)]%Z.
Lemma small_float32 z : (Z.abs z < 2 ^ 24)%Z -> is_float32 (d_of_Z z).
Proof.
  intros Hz. destruct (of_Z_ok z) as (V & Fi & E); [lia|]. split; [exact V|split; [exact Fi|]].
  exists z, 0%Z. split; [exact Hz|split; [lia|]]. rewrite E. cbn. ring.
Qed.
Lemma three_ones_float32 L : within32 4 (f32s L three_ones).
Proof.
  assert (H : forall z, (Z.abs z <= 4)%Z -> is_float32 (d_of_Z z) /\ Rabs (rv (d_of_Z z)) <= 4).
  { intros z Hz. split; [apply small_float32; lia|]. destruct (of_Z_ok z) as (_ & _ & E); [lia|].
    rewrite E, <- abs_IZR. now apply IZR_le. }
  intros x l y Hp Hy. cbn [f32s three_ones map fst snd In dvec] in Hp.
  repeat (destruct Hp as [Hp|Hp]; [apply pair_equal_spec in Hp as [<- <-]; destruct Hy as [<-|[]]; apply H; lia|]). destruct Hp.
Qed.
Theorem C78_stream_refuted (L : Libm) :
  let last c := (last (results c new_obj (stream (f32s L three_ones))) (Err ValueError),
                 last (results c new_obj (stream (f64s L three_ones))) (Err ValueError)) in
  within32 4 (f32s L three_ones) /\
  last kCH = (Ok (S754_finite false 5066549454962690 2), Ok (S754_infinity false)) /\
  last kWB = (Ok (S754_finite false 8006399536388629 (-105)), Ok (S754_zero false)) /\
  last kDB = (Ok (S754_finite false 8006399536388630 (-108)), Ok (S754_zero false)) /\
  last kXB = (Ok (S754_finite false 6004799652291472 (-108)), Ok (S754_zero false)) /\
  last kGD43 = (Ok (S754_finite false 5066549480128513 1), Ok (S754_infinity false)) /\
  last kGD53 = (Ok (S754_finite false 6755399441055744 (-54)), Ok S754_nan) /\
  map (fun r => nth 0 r S754_nan) (mrows (v (at_ (after kCH new_obj (stream (f32s L three_ones)))))) =
  [dyadic 4503599672109739 52; d_of_Z 3].
Proof.
  cbv zeta. split; [apply three_ones_float32|].
  repeat split; vm_compute; reflexivity.
Qed.
Print Assumptions C78_stream_refuted.

(** ** cSIL keeps CP in float32 in a stream: the sign of the value flips
    (5.0 10^7 instead of -5.0 10^7; a batch of the same float64 data gives
    0.97), and the squares of features from 2^64 on overflow, so that the value
    is nan where it is 1 for float64 data *)
Definition near_5000 : list (list Z * Z) := [([5001], 0); ([5002], 0); ([5004], 1); ([5005], 1)]%Z.
Definition large : list (list Z * Z) := [([2 ^ 64], 0); ([3], 1)]%Z.
Theorem C78_cSIL_refuted (L : Libm) :
  last (results kcSIL new_obj (stream (f32s L near_5000))) (Err ValueError) = Ok (dyadic 6719610080640556 27) /\
  last (results kcSIL new_obj (stream (f64s L near_5000))) (Err ValueError) = Ok (dyadic (- 6719610084371705) 27) /\
  results kcSIL new_obj [batch_of 1 (f64s L near_5000)] = [Ok (dyadic 8763761437045290 53)] /\
  results kcSIL new_obj (stream (f32s L large)) = [Ok (d_of_Z 0); Ok S754_nan] /\
  results kcSIL new_obj (stream (f64s L large)) = [Ok (d_of_Z 0); Ok (d_of_Z 1)].
Proof. repeat split; vm_compute; reflexivity. Qed.
Print Assumptions C78_cSIL_refuted.

(** ** Batches: the mean of 2^24, 1, 1 is taken in float32, where 2^24 + 1 is 2^24 *)
Definition wide : list (list Z * Z) := [([16777216], 0); ([1], 0); ([1], 0); ([3], 1); ([4], 1)]%Z.
(** two numbers, not equal *)
Definition differ (r r' : list (E f64)) : bool :=
  match r, r' with
  | [Ok x], [Ok y] => negb (SFeqb x y) && negb (dnan x) && negb (dnan y)
  | _, _ => false
  end.
Theorem C78_batch_refuted (L : Libm) (c : kind) : In c [kCH; kWB; kDB; kXB; kGD43; kcSIL] ->
  differ (results c new_obj [batch_of 1 (f32s L wide)]) (results c new_obj [batch_of 1 (f64s L wide)]) = true /\
  hd [] (mrows (v (at_ (after c new_obj [batch_of 1 (f32s L wide)])))) = [dyadic 11184811 1] /\
  hd [] (mrows (v (at_ (after c new_obj [batch_of 1 (f64s L wide)])))) = [d_of_Z 5592406].
Proof.
  cbn [In]. intros H. repeat (destruct H as [<-|H]; [split; [|split]; vm_compute; reflexivity|]).
  destruct H.
Qed.
Print Assumptions C78_batch_refuted.

(** ** Batches of at least 2^24 samples: the float32 sum of ones stops at 2^24.
    numpy adds the rows of an array of two or more columns one after the other
    (np.mean with axis=0), as [left_right32] does. *)
Lemma canon x y : valid x -> valid y -> fin x -> fin y -> rv x = rv y -> rv x <> 0 -> x = y.
Proof.
  intros Vx Vy Fx Fy E H0.
  assert (H : B x Vx = B y Vy).
  { apply B2R_inj; rewrite ?B2R_rv; auto.
    - destruct x as [s|s| |s m e]; try discriminate Fx; [exfalso; now apply H0|reflexivity].
    - rewrite E in H0. destruct y as [s|s| |s m e]; try discriminate Fy; [exfalso; now apply H0|reflexivity]. }
  apply (f_equal B2SF) in H. now rewrite !B2SF_SF2B in H.
Qed.
Definition one := d_of_Z 1.
Lemma one_ok : valid one /\ fin one /\ rv one = 1.
Proof. apply (of_Z_ok 1). lia. Qed.
Lemma fmt32_Z z : (Z.abs z < 2 ^ 24)%Z -> fmt32 (IZR z).
Proof.
  intros H. apply (generic_format_FLT radix2 (-149) 24). exists (Float radix2 z 0); auto; [|cbn; lia].
  unfold F2R. cbn. ring.
Qed.
Lemma fmt32_2_24 : fmt32 (IZR (2 ^ 24)).
Proof. change (IZR (2 ^ 24)) with (bpow radix2 24). apply fmt32_bpow. lia. Qed.
Lemma plus_one x k : (0 < k < 2 ^ 24)%Z -> valid x -> fin x -> rv x = IZR k ->
  valid (add32 x one) /\ fin (add32 x one) /\ rv (add32 x one) = IZR (k + 1).
Proof.
  intros Hk V Fi E. destruct one_ok as (V1 & F1 & E1).
  assert (T1 : forall z, (0 <= z <= 2 ^ 24)%Z -> Rabs (IZR z) <= top32).
  { intros z Hz. rewrite <- abs_IZR. apply Rle_trans with (bpow radix2 24); [|apply bpow_le; lia].
    change (bpow radix2 24) with (IZR (2 ^ 24)). apply IZR_le. lia. }
  destruct (narrow_ok x Fi) as (Vx & Fx & Ex); [apply top32_ok; rewrite E; apply T1; lia|].
  destruct (narrow_ok one F1) as (Vo & Fo & Eo); [apply top32_ok; rewrite E1; apply (T1 1%Z); lia|].
  rewrite E, (rnd32_id _ (fmt32_Z k ltac:(lia))) in Ex. rewrite E1, (rnd32_id _ (fmt32_Z 1 ltac:(lia))) in Eo.
  destruct (add_ok32 (narrow x) (narrow one) Vx Vo Fx Fo) as (V2 & F2 & E2).
  { apply top32_ok. rewrite Ex, Eo, <- plus_IZR. apply T1. lia. }
  rewrite Ex, Eo, <- plus_IZR in E2.
  assert (Hf : fmt32 (IZR (k + 1))).
  { destruct (Z.eq_dec (k + 1) (2 ^ 24)) as [->|]; [apply fmt32_2_24|apply fmt32_Z; lia]. }
  rewrite (rnd32_id _ Hf) in E2. destruct (widen_ok _ V2 F2) as (V3 & F3 & E3).
  split; [exact V3|split; [exact F3|]]. unfold add32. now rewrite E3.
Qed.
Definition cap : f64 := dyadic (2 ^ 24) 0.
Lemma cap_ok : valid cap /\ fin cap /\ rv cap = IZR (2 ^ 24).
Proof. apply (of_Z_ok (2 ^ 24)). lia. Qed.
Lemma cap_plus : add32 cap one = cap.
Proof. vm_compute. reflexivity. Qed.
Lemma ones_sum k : let z := fold_left add32 (repeat one k) one in
  valid z /\ fin z /\ rv z = IZR (Z.min (Z.of_nat k + 1) (2 ^ 24)).
Proof.
  cbv zeta. induction k as [|k IH].
  - cbn [repeat fold_left]. destruct one_ok as (V1 & F1 & E1). repeat split; auto.
  - replace (repeat one (S k)) with (repeat one k ++ [one]) by (rewrite <- repeat_cons; reflexivity).
    rewrite fold_left_app. cbn [fold_left]. destruct IH as (V & Fi & E). set (z := fold_left add32 (repeat one k) one) in *.
    destruct (Z_lt_le_dec (Z.of_nat k + 1) (2 ^ 24)) as [Hk|Hk].
    + rewrite Z.min_l in E by lia. rewrite Z.min_l by lia.
      destruct (plus_one z (Z.of_nat k + 1)) as (V' & F' & E'); auto; [lia|].
      split; [exact V'|split; [exact F'|]]. rewrite E'. f_equal. lia.
    + rewrite Z.min_r in E by lia. rewrite Z.min_r by lia. destruct cap_ok as (Vc & Fc & Ec).
      assert (z = cap) as ->.
      { apply canon; auto; [congruence|]. rewrite E. apply IZR_neq. lia. }
      rewrite cap_plus. auto.
Qed.
Lemma ones_mean n : (2 ^ 25 <= Z.of_nat n <= 2 ^ 53)%Z ->
  fin (div32 (sum32 (repeat one n)) (d_of_Z (Z.of_nat n))) /\
  0 <= rv (div32 (sum32 (repeat one n)) (d_of_Z (Z.of_nat n))) <= 1 / 2.
Proof.
  intros Hn. destruct n as [|k]; [lia|]. cbn [repeat sum32]. destruct (ones_sum k) as (V & Fi & E). cbv zeta in *.
  set (z := fold_left add32 (repeat one k) one) in *. rewrite Z.min_r in E by lia.
  destruct (of_Z_ok (Z.of_nat (S k))) as (Vn & Fn & En); [lia|].
  assert (Hp : 0 < IZR (Z.of_nat (S k))) by (apply IZR_lt; lia).
  assert (Hq : 0 <= IZR (2 ^ 24) / IZR (Z.of_nat (S k)) <= 1 / 2).
  { assert (IZR (2 ^ 25) <= IZR (Z.of_nat (S k))) by (apply IZR_le; lia).
    change (IZR (2 ^ 25)) with 33554432 in *. change (IZR (2 ^ 24)) with 16777216. split.
    - apply Rmult_le_pos; [lra|]. left. now apply Rinv_0_lt_compat.
    - apply Rmult_le_reg_r with (IZR (Z.of_nat (S k))); auto. unfold Rdiv at 1. rewrite Rmult_assoc, Rinv_l by lra. lra. }
  assert (H12 : forall e, (-149 <= e)%Z -> rnd32 (bpow radix2 e) = bpow radix2 e) by (intros; now apply rnd32_id, fmt32_bpow).
  assert (F12 : rnd (1 / 2) = 1 / 2).
  { replace (1 / 2) with (bpow radix2 (-1)) by (cbn; lra). apply rnd_id, fmt_bpow. lia. }
  assert (G12 : rnd32 (1 / 2) = 1 / 2).
  { replace (1 / 2) with (bpow radix2 (-1)) by (cbn; lra). apply H12. lia. }
  destruct (ddiv_ok z (d_of_Z (Z.of_nat (S k)))) as (Vd & Fd & Ed); auto.
  { rewrite En. lra. }
  { rewrite E, En. apply top_ok. rewrite Rabs_pos_eq by lra. pose proof one_top. lra. }
  rewrite E, En in Ed.
  assert (Hr : 0 <= rnd (IZR (2 ^ 24) / IZR (Z.of_nat (S k))) <= 1 / 2).
  { split; [rewrite <- rnd_0|rewrite <- F12]; apply rnd_le; lra. }
  assert (Z0 : rnd32 0 = 0) by (apply round_0; auto with typeclass_instances).
  unfold div32, r32. set (w := ddiv z (d_of_Z (Z.of_nat (S k)))) in *.
  destruct (narrow_ok w Fd) as (Vw & Fw & Ew).
  { apply top32_ok. rewrite Ed, Rabs_pos_eq by lra. pose proof one_top32. lra. }
  destruct (widen_ok _ Vw Fw) as (V3 & F3 & E3). split; [exact F3|]. rewrite E3, Ew, Ed.
  split; [rewrite <- Z0|rewrite <- G12]; apply rnd32_le; lra.
Qed.

(** whatever the other features and the other clusters are *)
Theorem C78_large_batches_refuted (L : Libm) (S : Sums) (c : kind) (d : nat) (s : list (vec (F32d L S left_right32) * Z)) x (i j : nat) :
  wf_stream d s -> results c new_obj [batch_of d s] = [Ok x] ->
  (i < length (nodup Z.eq_dec (map snd s)))%nat -> (j < d)%nat ->
  (forall y, In (y, Z.of_nat i) s -> nth j y S754_nan = d_of_Z 1) ->
  bpow radix2 25 <= size s (Z.of_nat i) <= bpow radix2 53 ->
  let m := nth j (nth i (mrows (v (at_ (after c new_obj [batch_of d s])))) []) S754_nan in
  fin m /\ rv m <= 1 / 2 /\ nth j (true_centroid d s (Z.of_nat i)) 0 = 1.
Proof.
  intros Hw Hr Hi Hj Hone Hsz m. destruct (formed_batch c d s x Hw Hr) as (a & Ea & _ & Hv & _).
  unfold m. rewrite Ea. cbn [at_]. rewrite Hv. rewrite nth_map_seq by exact Hi.
  rewrite size_grp in Hsz. unfold true_centroid. rewrite cluster_grp, centroid_avg by auto.
  assert (HF : Forall (fun x : list f64 => length x = d) (grp s (Z.of_nat i))).
  { apply Forall_forall. intros y Hy. unfold grp in Hy. apply in_map_iff in Hy as ([y' z] & <- & Hp).
    apply filter_In in Hp as [Hp _]. unfold wf_stream in Hw. rewrite Forall_forall in Hw. exact (Hw _ Hp). }
  assert (Ef : fcol j (grp s (Z.of_nat i)) = repeat one (length (grp s (Z.of_nat i)))).
  { unfold fcol. assert (H : forall y, In y (grp s (Z.of_nat i)) -> nth j y S754_nan = one).
    { intros y Hy. unfold grp in Hy. apply in_map_iff in Hy as ([y' z] & <- & Hp). apply filter_In in Hp as [Hp Hz].
      cbn [snd fst] in *. apply Z.eqb_eq in Hz. subst z. now apply Hone. }
    revert H. generalize (grp s (Z.of_nat i)). clear. intros l H. induction l as [|y l IH]; [reflexivity|]. cbn [map length repeat].
    f_equal; [apply H; now left|apply IH; intros; apply H; now right]. }
  pose proof (mean_rows_nth32 L S left_right32 d (grp s (Z.of_nat i)) j HF Hj) as Ev. cbn [left_right32 s_sum] in Ev.
  rewrite Ef in *. set (n := length (grp s (Z.of_nat i))) in *.
  assert (Hn : (2 ^ 25 <= Z.of_nat n <= 2 ^ 53)%Z).
  { assert (Hs' : bpow radix2 25 <= INR n <= bpow radix2 53) by exact Hsz. clear Hsz. rename Hs' into Hsz.
    change (bpow radix2 25) with (IZR (2 ^ 25)) in Hsz. change (bpow radix2 53) with (IZR (2 ^ 53)) in Hsz.
    rewrite INR_IZR_INZ in Hsz. split; apply le_IZR; lra. }
  destruct (ones_mean n Hn) as [Fi [_ Hle]].
  assert (Eone : ravg (repeat one n) = 1).
  { unfold ravg. rewrite repeat_length. destruct one_ok as (_ & _ & E1).
    assert (H : forall k, RndMean.rsum (map rv (repeat one k)) = INR k).
    { induction k as [|k IH]; [reflexivity|]. rewrite S_INR. cbn [repeat map]. rewrite E1. unfold RndMean.rsum in *. cbn [fold_right]. rewrite IH. ring. }
    rewrite H. apply Rinv_r. apply not_0_INR. lia. }
  pose proof (eq_sym Ev) as Ev'. split; [|split; [|exact (eq_trans (f_equal ravg Ef) Eone)]].
  - exact (eq_ind _ (fun z => fin z) Fi _ Ev').
  - exact (eq_ind _ (fun z => rv z <= 1 / 2) Hle _ Ev').
Qed.
Print Assumptions C78_large_batches_refuted.

(** such a batch: n samples (1, 1) labelled 0 and one sample (3, 3) labelled 1.
    The class CH keeps a centroid of at most one half for the first cluster *)
Definition many_ones (L : Libm) (n : nat) : list (vec (F32d L left_right left_right32) * Z) :=
  repeat ([d_of_Z 1; d_of_Z 1], 0%Z) n ++ [([d_of_Z 3; d_of_Z 3], 1%Z)].
Lemma many_labels L n : (0 < n)%nat -> n_unique (map snd (many_ones L n)) = 2%nat.
Proof.
  intros Hn. unfold n_unique.
  assert (H : forall k, nodup Z.eq_dec (map snd (many_ones L (S k))) = [0%Z; 1%Z]).
  { induction k as [|k IH]; [reflexivity|].
    change (map snd (many_ones L (S (S k)))) with (0%Z :: map snd (many_ones L (S k))). cbn [nodup].
    destruct (in_dec Z.eq_dec 0%Z (map snd (many_ones L (S k)))) as [_|N]; [exact IH|]. exfalso. apply N. now left. }
  destruct n as [|k]; [lia|]. now rewrite H.
Qed.
Lemma many_returns L n : (0 < n)%nat -> exists x, results kCH new_obj [batch_of 2 (many_ones L n)] = [Ok x].
Proof.
  intros Hn. unfold results, batch_of. cbn [run fst snd]. unfold get_cvi, update.
  cbn [at_ new_obj label_map init_attrs is_setup].
  set (s := many_ones L n). set (m := mkMat 2 (map fst s)). set (ls := map snd s).
  assert (U : n_unique ls = 2%nat) by now apply many_labels.
  assert (EU : (1 <? unique_labels (Labs ls)) = true).
  { apply Nat.ltb_lt. change (unique_labels (Labs ls)) with (n_unique ls). lia. }
  rewrite EU. cbn [negb]. cbn [param_batch].
  assert (HC : covers m ls (n_unique ls)).
  { apply covers_le. unfold nrows, m, ls. cbn [mrows]. now rewrite !map_length. }
  destruct (CH_batch m ls HC) as (o1 & E & Bc & _). rewrite E. cbn [at_].
  destruct (CH_eval o1) as (o2 & E2 & _).
  { destruct Bc as [B1 B2 B3 B4 B5 B6]. rewrite B4, U. lia. }
  rewrite E2. cbn [snd fst]. eexists. reflexivity.
Qed.
Example C78_large_batches_example (L : Libm) (n : nat) : Z.of_nat n = (2 ^ 26)%Z ->
  let m := nth 0 (nth 0 (mrows (v (at_ (after kCH new_obj [batch_of 2 (many_ones L n)])))) []) S754_nan in
  fin m /\ rv m <= 1 / 2 /\ nth 0 (true_centroid 2 (many_ones L n) 0) 0 = 1.
Proof.
  intros En.
  cbv zeta. assert (Hn : (0 < n)%nat) by lia. destruct (many_returns L n Hn) as [x Hx].
  assert (Hg : length (grp (many_ones L n) 0) = n).
  { unfold grp, many_ones. rewrite filter_app. cbn [filter snd]. change (Z.eqb 1 0) with false. cbv iota. rewrite app_nil_r, map_length.
    clear. induction n as [|n IH]; [reflexivity|]. cbn [repeat filter snd]. change (Z.eqb 0 0) with true. cbv iota. cbn [length]. now rewrite IH. }
  apply (C78_large_batches_refuted L left_right kCH 2 (many_ones L n) x 0 0).
  - unfold wf_stream, many_ones. apply Forall_app. split; [|repeat constructor]. apply Forall_forall. intros p Hp.
    apply repeat_spec in Hp. now subst p.
  - exact Hx.
  - change (length (nodup Z.eq_dec (map snd (many_ones L n)))) with (n_unique (map snd (many_ones L n))). rewrite many_labels by auto. lia.
  - lia.
  - intros y Hy. unfold many_ones in Hy. apply in_app_iff in Hy as [Hy|[Hy|[]]].
    + apply repeat_spec in Hy. injection Hy as ->. reflexivity.
    + discriminate.
  - assert (Es : size (many_ones L n) 0 = INR n) by (rewrite size_grp; exact (f_equal INR Hg)).
    change (Z.of_nat 0) with 0%Z. rewrite Es, INR_IZR_INZ, En.
    change (IZR (2 ^ 26)) with (bpow radix2 26). split; apply bpow_le; lia.
Qed.

(** ** A case for the theorems of P_F32.v: the streams of [three_ones] *)
Example C78_example (L : Libm) :
  usual32 4 /\ within32 4 (f32s L three_ones) /\ wf_stream 1 (f32s L three_ones) /\
  nth 0 (true_centroid 1 (f32s L three_ones) 0) 0 = 1 /\ size (f32s L three_ones) 0 = 3 /\
  rv (dyadic 4503599672109739 52) <> 1 /\
  Rabs (rv (dyadic 4503599672109739 52) - 1) <= 3 * bpow radix2 (-24) * 4 + 17 * bpow radix2 (-53) * 4 * (3 - 1).
Proof.
  assert (HU : usual32 4).
  { change 4 with (bpow radix2 2). split; apply bpow_le; lia. }
  assert (HW : wf_stream 1 (f32s L three_ones)) by (repeat constructor).
  assert (Et : nth 0 (true_centroid 1 (f32s L three_ones) 0) 0 = 1).
  { unfold true_centroid. cbn -[rv d_of_Z]. destruct (of_Z_ok 1) as (_ & _ & E1); [lia|].
    change (binary_normalize 53 1024) with (fun z e s => SpecFloat.binary_normalize 53 1024 z e s) in *. rewrite E1. field. }
  assert (Es : size (f32s L three_ones) 0 = 3) by (cbn; ring).
  split; [exact HU|]. split; [apply three_ones_float32|]. split; [exact HW|]. split; [exact Et|]. split; [exact Es|]. split.
  - assert (E : dyadic 4503599672109739 52 = S754_finite false 4503599672109739 (-52)) by (vm_compute; reflexivity).
    rewrite E. unfold rv, SF2R, F2R. cbn. lra.
  - assert (exists vs, results kCH new_obj (stream (f32s L three_ones)) = map Ok vs) as [vs Hr].
    { eexists [_; _; _; _]. vm_compute. reflexivity. }
    destruct (C78_stream_centroids L left_right left_right32 kCH 1 (f32s L three_ones) vs 4 HW Hr HU (three_ones_float32 L) ltac:(cbn; lia) 0%Z ltac:(now left))
      as (k & Ek & _ & _ & Hj).
    assert (k = 0%nat) as -> by (revert Ek; vm_compute; congruence).
    destruct (Hj 0%nat ltac:(lia)) as [_ He].
    assert (Ev : nth 0 (nth 0 (mrows (v (at_ (after kCH new_obj (stream (f32s L three_ones)))))) []) S754_nan = dyadic 4503599672109739 52)
      by (vm_compute; reflexivity).
    pose proof (eq_ind _ (fun z => Rabs (rv z - _) <= _) He _ Ev) as He'. cbv beta in He'. rewrite Et, Es in He'. exact He'.
Qed.
