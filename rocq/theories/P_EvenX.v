(** * C101 in exact arithmetic: PS when all clusters have the same number of samples

    [observed c d s v] as in P_Bounds.v. *)
From Coq Require Import ZArith List Arith Bool Lia Permutation.
From Verif Require Import Num NumPy Base GetCvi.
From Coq Require Import Reals Lra.
From Verif Require Import Det DetMul Spec XR SpecX RGeom XLift XEval XCov XRot XRun XPerm XBatch Obs XForm XBounds P_Bounds P_AloneX P_AloneP.
Import ListNotations.
Local Open Scope R_scope.

(** every label that occurs, occurs [q] times *)
Definition same_sizeX (q : nat) (s : data) : Prop :=
  forall l, In l (labels s) -> count_occ Z.eq_dec (labels s) l = q.
Lemma cluster_count_occ (s : data) l : length (cluster s l) = count_occ Z.eq_dec (labels s) l.
Proof.
  unfold cluster, labels. rewrite map_length. induction s as [|[x m] s IH]; auto. cbn [filter map snd count_occ].
  destruct (Z.eqb_spec m l), (Z.eq_dec m l); try congruence; cbn [length]; now rewrite IH.
Qed.

Theorem C101_exact d q s v : same_sizeX q s -> (2 <= length (distinct s))%nat -> observed kPS d s v ->
  ((forall g h, In g (clusters s) -> In h (clusters s) -> centroid d g = centroid d h) /\ v = NaN) \/
  exists r, v = Fin r /\ 0 <= r < INR (length (distinct s)) /\ (NoDup (map (centroid d) (clusters s)) -> 0 < r).
Proof.
  intros Hq Hl Ho. assert (Hw : wf d s) by (destruct Ho as [Ho|Ho]; apply Ho).
  assert (Hk : length (clusters s) = length (distinct s)) by (unfold clusters; now rewrite map_length).
  assert (HI : forall g, In g (clusters s) -> length g = q /\ (0 < q)%nat).
  { intros g Hg. unfold clusters in Hg. apply in_map_iff in Hg as (l & <- & Hi). rewrite cluster_count_occ.
    unfold distinct in Hi. apply nodup_In in Hi. pose proof (Hq l Hi) as E. split; auto.
    apply (proj1 (count_occ_In Z.eq_dec _ _)) in Hi. lia. }
  pose proof (clusters_good d s Hw) as Hg.
  destruct (C35_PS_bounds d s v Ho Hl) as [[HA HV]|[HA (r & HV & HB)]]; [left; auto|right].
  revert HV. rewrite (observed_XVal kPS d s v) by (auto; discriminate). rewrite XVal_ext by lia. unfold PS_ext.
  pose proof (beta_nonneg d (clusters s)) as BN.
  destruct (Req_EM_T (PS_beta d (clusters s)) 0) as [B|B]; [discriminate|].
  assert (BP : 0 < PS_beta d (clusters s)) by (specialize (BN ltac:(lia)); lra).
  intros HV. injection HV as HV. exists r. split; [now rewrite HV|]. rewrite <- HV in HB |- *. clear HV.
  assert (RM : rmax (map (fun g : list point => INR (length g)) (clusters s)) = INR q).
  { apply rmax_unique.
    - destruct (clusters s) as [|g gs] eqn:Eg; [cbn in Hk; lia|]. left. f_equal. apply HI. now left.
    - intros z Hz. apply in_map_iff in Hz as (g & <- & Hgi). rewrite (proj1 (HI g Hgi)). lra. }
  unfold PS_formula in *. rewrite RM in *.
  set (t := fun p : list point * list (list point) => INR (length (fst p)) / INR q - exp (- rmin (map (cdist d (fst p)) (snd p)) / PS_beta d (clusters s))) in *.
  assert (HT : forall p, In p (selects (clusters s)) -> 0 <= t p /\ (NoDup (map (centroid d) (clusters s)) -> 0 < t p)).
  { intros [g rr] Hp. pose proof (selects_ne _ g rr ltac:(rewrite Hk; exact Hl) Hp) as Hr. apply selects_In in Hp.
    destruct (HI g) as [Lg Q]; [apply (Permutation_in _ (Permutation_sym Hp)); now left|].
    pose proof (rmin_In (map (cdist d g) rr) ltac:(destruct rr; [congruence|discriminate])) as Hm.
    apply in_map_iff in Hm as (h & E & Hh).
    unfold t. cbn [fst snd]. rewrite <- E, Lg. unfold cdist.
    pose proof (dist2_pos (centroid d g) (centroid d h)) as D. assert (I : 0 < / PS_beta d (clusters s)) by (now apply Rinv_0_lt_compat).
    assert (EL : 0 < dist2 (centroid d g) (centroid d h) -> exp (- dist2 (centroid d g) (centroid d h) / PS_beta d (clusters s)) < 1).
    { intros D1. rewrite <- exp_0. apply exp_increasing. unfold Rdiv. nra. }
    assert (Q1 : INR q / INR q = 1) by (apply Rinv_r; apply not_0_INR; lia).
    rewrite Q1. split.
    - destruct D as [D|D]; [specialize (EL D); lra|]. rewrite <- D. unfold Rdiv. rewrite Ropp_0, Rmult_0_l, exp_0. lra.
    - intros HP. assert (N : centroid d g <> centroid d h).
      { intros F. apply (Permutation_NoDup (Permutation_map (centroid d) Hp)) in HP. cbn [map] in HP. inversion HP as [|? ? NI _]; subst.
        apply NI. rewrite F. now apply in_map. }
      destruct (Rle_lt_dec (dist2 (centroid d g) (centroid d h)) 0) as [Z|Z]; [|specialize (EL Z); lra].
      exfalso. apply N. apply (dist2_zero_eq d); auto; unfold centroid; now rewrite map_length, seq_length. }
  split; [split; [|apply HB]|].
  - apply rsum_nonneg, Forall_map, Forall_forall. intros p Hp. now apply HT.
  - intros HP. apply rsum_positive; [|intros p Hp; now apply HT].
    intros F. apply (f_equal (@length _)) in F. rewrite selects_length, Hk in F. cbn in F. lia.
Qed.
Print Assumptions C101_exact.
(** clusters 0, 2 | 10, 14 *)
Definition even2 : data := [([0], 0%Z); ([2], 0%Z); ([10], 1%Z); ([14], 1%Z)].
Theorem C101_exact_example : same_sizeX 2 even2 /\ length (distinct even2) = 2%nat /\ NoDup (map (centroid 1) (clusters even2)) /\
  (exists v, batch_observed kPS 1 even2 v) /\ exists v, stream_observed kPS 1 even2 v.
Proof.
  assert (Hw : wf 1 even2) by repeat constructor.
  split. { intros l Hl. cbn in Hl. assert (l = 0 \/ l = 1)%Z as [-> | ->] by lia; reflexivity. }
  split; [reflexivity|]. split.
  { unfold centroid. cbn. repeat constructor; cbn; [|tauto]. intros [F|[]]. injection F. intros. lra. }
  split.
  - apply (batch_observed_ex kPS 1 2); auto; try discriminate. intros z; cbn; lia.
  - apply stream_observed_ex; auto; discriminate.
Qed.
Print Assumptions C101_exact_example.
