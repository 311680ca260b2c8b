(** * C67: the variances that rCIP holds, in binary64 *)
From Coq Require Import ZArith Lia Lra SpecFloat List Arith Bool Reals.
From Flocq Require Import Core. From Flocq Require BinarySingleNaN.
From Verif Require Import Num NumPy Base M_PS GetCvi Lists Step Step2 StepB Stream Generic RunForm RCForm F64 F64o Rnd RndErr P_Sign Bnd BndVal P_Bounds64.
Import ListNotations.
Local Open Scope R_scope.
Local Notation R := Rdefinitions.R.

(** ** The specification *)
(** nan, +inf or a number not below [x0] *)
Definition nan_or_at_least (x0 : R) (x : f64) : Prop :=
  x = S754_nan \/ x = S754_infinity false \/ (fin x /\ x0 <= rv x).
(** the regularisation term 10 ** (-12 / dim) as the library computes it *)
Definition regular (L : Libm) (d : nat) : f64 := l_pow L (d_of_Z 10) (ddiv (SFopp (d_of_Z 12)) (d_of_Z (Z.of_nat d))).
Definition positive (x : f64) : Prop := valid x /\ fin x /\ 0 < rv x.


Section Step.
  Local Existing Instance Hprec.
  Local Existing Instance Hmax.
  Lemma positive_vp x : positive x -> vp x.
  Proof.
    intros (V & Hf & H). split; [exact V|]. destruct x as [s|s| |s m e]; try discriminate.
    - unfold rv in H. cbn in H. lra.
    - destruct s; [|reflexivity]. exfalso. unfold rv in H. cbn in H.
      assert (F2R (Float radix2 (Zneg m) e) <= 0) by (apply F2R_le_0; cbn; lia). lra.
  Qed.
  Lemma one_times x : positive x -> positive (dmul (d_of_Z 1) x) /\ rv (dmul (d_of_Z 1) x) = rv x.
  Proof.
    intros (V & Hf & H). destruct (of_Z_ok 1) as (V1 & F1 & E1); [lia|].
    assert (Er : rnd (rv (d_of_Z 1) * rv x) = rv x) by (rewrite E1, Rmult_1_l; apply rnd_id, fmt_rv, V).
    destruct (dmul_ok (d_of_Z 1) x V1 V F1 Hf) as (V2 & F2 & E2).
    { unfold no_overflow. rewrite Er. now apply fin_top. }
    rewrite Er in E2. split; [|exact E2]. split; [exact V2|]. split; [exact F2|]. now rewrite E2.
  Qed.
  (** a variance without its regularisation is not negative *)
  Lemma sub_plus x y : positive y -> valid x -> nan_or_at_least (rv y) x -> vp (dsub x y).
  Proof.
    intros Hy Vx Hx. assert (Hy' := Hy). destruct Hy as (Vy & Fy & Py). split; [now apply valid_sub|].
    destruct Hx as [->|[->|[Fx Lx]]]; [exact I|destruct y; try discriminate; reflexivity|].
    assert (Sx : positive x) by (split; [exact Vx|split; [exact Fx|lra]]).
    apply positive_vp in Sx as [_ Sx]. apply positive_vp in Hy' as [_ Sy].
    rewrite (dsub_equiv x y Vx Vy).
    pose proof (BinarySingleNaN.Bminus_correct 53 1024 _ _ BinarySingleNaN.mode_NE (B x Vx) (B y Vy)) as H. rewrite !fin_B, !B2R_rv in H.
    specialize (H Fx Fy).
    assert (Ho : Rabs (rnd (rv x - rv y)) < bpow radix2 1024).
    { apply Rle_lt_trans with (rv x).
      - rewrite Rabs_pos_eq.
        + rewrite <- (rnd_id (rv x)) at 2 by (apply fmt_rv, Vx). apply rnd_le. lra.
        + rewrite <- (rnd_id 0) by apply generic_format_0. apply rnd_le. lra.
      - pose proof (fin_top x Vx Fx) as Ht. rewrite Rabs_pos_eq in Ht by lra. exact Ht. }
    rewrite Rlt_bool_true in H by exact Ho. destruct H as (H1 & H2 & H3).
    assert (Hs : BinarySingleNaN.Bsign (BinarySingleNaN.Bminus BinarySingleNaN.mode_NE (B x Vx) (B y Vy)) = false).
    { rewrite H3. destruct (Rcompare_spec (rv x - rv y) 0) as [Hc|Hc|Hc]; [lra| |reflexivity].
      assert (Hb : BinarySingleNaN.Bsign (B x Vx) = false).
      { clear - Sx. destruct x as [s|s| |s m e]; cbn in *; auto. }
      now rewrite Hb. }
    destruct (BinarySingleNaN.Bminus BinarySingleNaN.mode_NE (B x Vx) (B y Vy)); cbn in *; auto.
  Qed.
  Lemma add_regular x y : positive y -> vp x -> valid (dadd x y) /\ nan_or_at_least (rv y) (dadd x y).
  Proof.
    intros Hy Hx. pose proof (vp_add x y Hx (positive_vp y Hy)) as [V P]. split; [exact V|].
    destruct (plus_cases _ P) as [H|[H|[H _]]]; [now left|right; now left|]. right. right. split; [exact H|].
    destruct (dadd_fin x y (proj1 Hx) (proj1 Hy) H) as (Fx & Fy & E0). rewrite E0.
    pose proof (vp_fin_pos x Hx Fx) as P0. rewrite <- (rnd_id (rv y)) at 1 by (apply fmt_rv, Hy). apply rnd_le. lra.
  Qed.
End Step.

Section Kept.
  Context (L : Libm) (S : Sums) (d : nat) (HR : positive (regular L d)).
  Local Notation A := (F64o L S).
  Definition okv (x : f64) : Prop := valid x /\ nan_or_at_least (rv (regular L d)) x.
  Definition okm (m : mat A) : Prop := forall q, (q < d)%nat -> okv (entry m q q).
  Lemma delta_entry q : (q < d)%nat -> entry (rCIP_delta_term (A := A) d) q q = dmul (d_of_Z 1) (regular L d).
  Proof. intros H. unfold rCIP_delta_term. rewrite entry_tab2 by auto. now rewrite Nat.eqb_refl. Qed.
  Lemma valid_scal (c : f64) (l : list f64) : valid c -> Forall valid l -> Forall valid (scal (A := A) c l).
  Proof.
    intros Hc H. unfold scal. apply Forall_forall. intros x Hx. apply in_map_iff in Hx as (y & <- & Hy). apply valid_mul; auto.
    rewrite Forall_forall in H. now apply H.
  Qed.
  Lemma valid_map2_add (a b : list f64) : Forall valid a -> Forall valid b -> Forall valid (map2 dadd a b).
  Proof.
    revert b; induction a as [|x a IH]; intros [|y b] Ha Hb; cbn [map2]; constructor.
    - inversion Ha; inversion Hb; subst. now apply valid_add.
    - inversion Ha; inversion Hb; subst. now apply IH.
  Qed.
  Lemma cov_kept N : Kept (A := A) d N okm (Forall valid).
  Proof.
    destruct (one_times _ HR) as [PR ER]. constructor.
    - intros q Hq. rewrite delta_entry by exact Hq. split; [apply PR|]. right. right. split; [apply PR|]. rewrite ER. lra.
    - intros m vi x _ _ _ _ Hv Hx. unfold v_upd, rmean. apply valid_map2_add.
      + apply valid_scal; auto. apply valid_sub; [apply valid_Z|]. apply valid_div; apply valid_Z.
      + apply valid_scal; auto. apply valid_div; apply valid_Z.
    - intros m vi si x _ _ Hm _ Hs Hv Hx q Hq. unfold sigma_upd. rewrite entry_tab2 by auto. rewrite delta_entry by exact Hq.
      unfold okv. rewrite <- ER.
      apply (add_regular (dadd (dmul _ (dsub _ _)) (dmul _ (dmul _ _)))); [exact PR|]. apply vp_add.
      + apply vp_mul; [apply vp_div; apply vp_Z; lia|]. apply sub_plus; [exact PR|apply Hs, Hq|]. rewrite ER. apply Hs, Hq.
      + apply vp_mul; [apply vp_div; apply vp_Z; lia|]. apply vp_sq. apply (valid_nth (map2 dsub x vi) q). now apply valid_map2_sub.
  Qed.
End Kept.

(** ** Streams: no variance falls below the regularisation term *)
Theorem C67_stream (L : Libm) (S : Sums) (d : nat) (s : list (vec (F64o L S) * Z)) (vs : list f64) :
  positive (regular L d) -> binary64_data s -> wf_stream d s ->
  results krCIP new_obj (stream s) = map Ok vs ->
  forall i q, (i < length (sigma (at_ (after krCIP new_obj (stream s)))))%nat -> (q < d)%nat ->
  nan_or_at_least (rv (regular L d)) (entry (nth i (sigma (at_ (after krCIP new_obj (stream s)))) (zmat 0 0)) q q).
Proof.
  intros HR HV Hw Hr. destruct (kept_stream d (okm L S d) (Forall valid) s vs (cov_kept L S d HR _) HV Hw Hr) as (a & Ea & _ & HP & _).
  rewrite Ea. cbn [at_]. intros i q Hi Hq. rewrite Forall_forall in HP. apply (HP _ (nth_In _ _ Hi) q Hq).
Qed.
Print Assumptions C67_stream.

(** ** Batches: the difference of two large sums cancels *)
(** a library right on arrays of one feature: the determinant of a 1 x 1 array is
    its entry, the inverse its reciprocal, and 10 ** -12 is the nearest number.
    The exponential is arbitrary. *)
Definition lib1 (e : f64 -> f64) : Libm :=
  mkLibm e (fun x _ => if SFeqb x (d_of_Z 10) then S754_finite false 4951760157141521 (-92) else x)
         (fun m => nth 0 (nth 0 m []) (d_of_Z 0))
         (fun m => Some [[ddiv (d_of_Z 1) (nth 0 (nth 0 m []) (d_of_Z 0))]]).
(** three samples near 10^8 in one cluster, one in another *)
Definition far (L : Libm) : list (vec (F64o L left_right) * Z) :=
  [(dvec [100000000], 0); (dvec [100000002], 0); (dvec [100000003], 0); (dvec [100000010], 1)]%Z.
Definition variances {L S} (a : attrs (F64o L S)) : list f64 := map (fun m => entry m 0 0) (sigma a).
Theorem C67_batch_refuted (e : f64 -> f64) :
  variances (at_ (after krCIP new_obj [batch_of 1 (far (lib1 e))])) =
    [S754_finite true 9007199254736488 (-52); regular (lib1 e) 1] /\
  rv (S754_finite true 9007199254736488 (-52)) < -1 /\
  results krCIP new_obj [batch_of 1 (far (lib1 e))] = [Ok S754_nan].
Proof.
  split; [vm_compute; reflexivity|]. split; [|vm_compute; reflexivity].
  change (rv _) with (F2R (Float radix2 (-9007199254736488) (-52))). unfold F2R. cbn [Fnum Fexp]. change (bpow radix2 (-52)) with (/ IZR (2 ^ 52)).
  change (2 ^ 52)%Z with 4503599627370496%Z. lra.
Qed.
Print Assumptions C67_batch_refuted.
(** the stream of the same samples meets the hypotheses and ends with the variance
    2.333... and a number *)
Example C67_hypotheses : let L := lib1 (fun _ => d_of_Z 1) in
  positive (regular L 1) /\ binary64_data (far L) /\ wf_stream 1 (far L) /\
  results krCIP new_obj (stream (far L)) =
    map Ok [d_of_Z 0; d_of_Z 0; d_of_Z 0; S754_finite false 4704802953505226 (-54)] /\
  variances (at_ (after krCIP new_obj (stream (far L)))) =
    [S754_finite false 5254199565267830 (-51); regular L 1].
Proof.
  cbv zeta. split; [split; [reflexivity|split; [reflexivity|]]|].
  - unfold rv. cbn. apply F2R_gt_0. reflexivity.
  - split; [repeat constructor|]. split; [repeat constructor|]. split; vm_compute; reflexivity.
Qed.
