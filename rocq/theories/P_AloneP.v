(** * C100: PS and rCIP when every sample is a cluster of its own (exact arithmetic)

    [observed c d s v] as in P_Bounds.v. *)
From Coq Require Import ZArith List Arith Bool Lia Permutation.
From Verif Require Import Num NumPy Base GetCvi.
From Coq Require Import Reals Lra.
From Verif Require Import Det DetMul Spec XR SpecX RGeom XLift XEval XCov XRot XRun XPerm XBatch Obs XForm XBounds P_Bounds P_AloneX.
Import ListNotations.
Local Open Scope R_scope.

(** ** A multiple of the identity *)
Lemma det_scalar n : forall c M, c <> 0 -> (forall i j, (i < n)%nat -> (j < n)%nat -> M i j = c * idm i j) -> detf n M = c ^ n.
Proof.
  induction n as [|n IH]; intros c M Hc H; [reflexivity|].
  assert (H0 : M 0%nat 0%nat = c) by (rewrite H by lia; unfold idm; cbn; ring).
  rewrite detf_schur by congruence. rewrite H0, (IH c); auto.
  intros i j Hi Hj. unfold schur. rewrite !H by lia. unfold idm. cbn [Nat.eqb]. field. lra.
Qed.
Lemma inv_scalar n m W c : c <> 0 -> (forall i j, (i < n)%nat -> (j < n)%nat -> ent m i j = c * idm i j) -> is_inverse n m W ->
  forall i j, (i < n)%nat -> (j < n)%nat -> ent W i j = / c * idm i j.
Proof.
  intros Hc H (_ & _ & HW & _) i j Hi Hj. specialize (HW i j Hi Hj). rewrite (sumn_one n i) in HW; auto.
  - rewrite H in HW by auto. unfold idm in HW |- *. rewrite Nat.eqb_refl in HW.
    apply (Rmult_eq_reg_l c); auto. rewrite <- Rmult_assoc, Rinv_r, Rmult_1_l by auto. rewrite Rmult_1_r in HW. exact HW.
  - intros k Hk N. rewrite H by auto. unfold idm. destruct (Nat.eqb_spec i k); [congruence|]. ring.
Qed.
Lemma Qmat_alone d (x y : point) i j : (i < d)%nat -> (j < d)%nat -> ent (Qmat d [x] [y]) i j = 2 * delta d * idm i j.
Proof.
  intros Hi Hj. unfold ent, Qmat. rewrite !nth_map_seq by auto. unfold regcov, covar, idm. cbn [length Nat.leb].
  destruct (i =? j)%nat; ring.
Qed.
Lemma delta_pos d : 0 < delta d.
Proof. unfold delta, Rpower. apply exp_pos. Qed.
Lemma dist2_sumn d : forall x y : point, length x = d -> length y = d ->
  dist2 x y = sumn d (fun i => (nth i x 0 - nth i y 0) * (nth i x 0 - nth i y 0)).
Proof.
  induction d as [|d IH]; intros [|a x] [|b y] Hx Hy; try discriminate; [reflexivity|].
  rewrite dist2_cons, (IH x y) by (simpl in *; lia). now rewrite sumn_first.
Qed.
Lemma mahal_alone d x y : length x = d -> length y = d -> mahal d [x] [y] = dist2 x y / (2 * delta d).
Proof.
  intros Hx Hy. pose proof (delta_pos d) as P. unfold mahal. destruct (Qmat_good d [x] [y]) as (_ & W & EW & _). rewrite EW.
  apply invR_spec in EW. rewrite Qmat_length in EW. cbv zeta. rewrite !centroid_single by auto.
  rewrite (dist2_sumn d) by auto. unfold Rdiv. rewrite <- sumn_scalr. apply sumn_ext. intros i Hi.
  pose proof (inv_scalar d (Qmat d [x] [y]) W (2 * delta d) ltac:(lra) (Qmat_alone d x y) EW) as IW.
  rewrite (sumn_one d i); auto.
  - rewrite IW by auto. unfold idm. rewrite Nat.eqb_refl. ring.
  - intros j Hj N. rewrite IW by auto. unfold idm.
    destruct (Nat.eqb_spec i j); [congruence|]. ring.
Qed.
Lemma det_alone d x y : detR (Qmat d [x] [y]) = (2 * delta d) ^ d.
Proof.
  unfold detR. rewrite Qmat_length. pose proof (delta_pos d). apply det_scalar; [lra|]. intros i j Hi Hj. now apply Qmat_alone.
Qed.
(** 10^6 / (4 pi)^(d/2) *)
Definition peak (d : nat) : R := 10 ^ 6 / Rpower (4 * PI) (INR d / 2).
Lemma potential_alone d x y : d <> 0%nat -> length x = d -> length y = d ->
  potential d [x] [y] = peak d * exp (- dist2 x y / (4 * delta d)).
Proof.
  intros Hd Hx Hy. pose proof (delta_pos d) as P. pose proof PI_RGT_0 as Q. assert (N : 0 < INR d) by (apply lt_0_INR; lia).
  unfold potential. rewrite det_alone, mahal_alone by auto. f_equal.
  - rewrite <- Rpower_pow by lra. rewrite <- !Rpower_sqrt by (unfold Rpower; apply exp_pos). rewrite !Rpower_mult.
    rewrite <- Rinv_mult. rewrite Rpower_mult_distr by lra.
    replace (2 * PI * (2 * delta d)) with (4 * PI * delta d) by ring. rewrite <- Rpower_mult_distr by lra.
    unfold delta at 1. rewrite Rpower_mult. replace (- 12 / INR d * (INR d * / 2)) with (- INR 6) by (cbn; field; lra).
    rewrite Rpower_Ropp, Rpower_pow by lra. unfold peak, Rdiv. 
    assert (0 < Rpower (4 * PI) (INR d * / 2)) by (unfold Rpower; apply exp_pos). field. lra.
  - f_equal. field. lra.
Qed.

(** ** C100, rCIP: the sum over the pairs of samples of exp(-|x-y|^2 / (4 delta)),
    delta = 10^(-12/d), times 10^6 / (4 pi)^(d/2), batches and streams; it lies
    between 0 and that number times the number of pairs. *)
Lemma rsum_le_count {X} (f : X -> R) l c : (forall x, In x l -> 0 < f x <= c) -> rsum (map f l) <= INR (length l) * c.
Proof.
  induction l as [|x l IH]; intros H; [cbn; lra|]. cbn [map]. rewrite rsum_cons. change (length (x :: l)) with (S (length l)).
  rewrite S_INR. specialize (IH (fun y Hy => H y (or_intror Hy))). pose proof (H x (or_introl eq_refl)). lra.
Qed.
Lemma rsum_positive {X} (f : X -> R) l : l <> [] -> (forall x, In x l -> 0 < f x) -> 0 < rsum (map f l).
Proof.
  intros Hn H. destruct l as [|x l]; [congruence|]. cbn [map]. rewrite rsum_cons. pose proof (H x (or_introl eq_refl)).
  assert (0 <= rsum (map f l)).
  { apply rsum_nonneg. apply Forall_map, Forall_forall. intros y Hy. apply Rlt_le, H. now right. }
  lra.
Qed.
Theorem C100_rCIP d s v : d <> 0%nat -> NoDup (labels s) -> (2 <= length s)%nat -> observed krCIP d s v ->
  v = Fin (peak d * rsum (map (fun q => exp (- dist2 (fst q) (snd q) / (4 * delta d))) (pairs (points s)))) /\
  exists r, v = Fin r /\ 0 < r <= peak d * INR (length (pairs (points s))).
Proof.
  intros Hd Hn Hl Ho. assert (Hw : wf d s) by (destruct Ho as [Ho|Ho]; apply Ho).
  assert (Ec : clusters s = map (fun x => [x]) (points s)) by (rewrite clusters_alone by auto; unfold points; now rewrite map_map).
  assert (Hk : length (clusters s) = length s) by (rewrite Ec; unfold points; now rewrite !map_length).
  assert (E : v = Fin (peak d * rsum (map (fun q => exp (- dist2 (fst q) (snd q) / (4 * delta d))) (pairs (points s))))).
  { rewrite (observed_XVal krCIP d s v) by (auto; discriminate). rewrite XVal_ext by lia. unfold rCIP_ext. f_equal.
    unfold rCIP_formula. rewrite Ec, pairs_map, map_map, <- rsum_map_scal. f_equal. apply map_ext_in. intros [x y] Hp.
    apply pairs_In in Hp as [Hx Hy]. cbn [fst snd]. unfold wf in Hw. rewrite Forall_forall in Hw. unfold points in Hx, Hy.
    apply in_map_iff in Hx as (p & <- & Hx). apply in_map_iff in Hy as (q & <- & Hy). apply potential_alone; auto. }
  split; auto. eexists. split; [exact E|].
  assert (PP : 0 < peak d). { unfold peak. apply Rdiv_lt_0_compat; [lra|unfold Rpower; apply exp_pos]. }
  assert (HB : forall q, In q (pairs (points s)) -> 0 < exp (- dist2 (fst q) (snd q) / (4 * delta d)) <= 1).
  { intros q _. split; [apply exp_pos|]. rewrite <- exp_0. pose proof (delta_pos d). pose proof (dist2_pos (fst q) (snd q)).
    assert (I : 0 < / (4 * delta d)) by (apply Rinv_0_lt_compat; lra).
    assert (K : - dist2 (fst q) (snd q) / (4 * delta d) <= 0) by (unfold Rdiv; nra).
    destruct K as [K|K]; [left; now apply exp_increasing|rewrite K; lra]. }
  split.
  - apply Rmult_lt_0_compat; auto. apply rsum_positive; [|intros q Hq; now apply HB].
    apply pairs_ne. unfold points. now rewrite map_length.
  - apply Rmult_le_compat_l; [lra|]. rewrite <- (Rmult_1_r (INR _)). now apply rsum_le_count.
Qed.
Print Assumptions C100_rCIP.

(** ** C100, PS: nan if all samples are the same, and otherwise at least 0 and less
    than the number of samples; above 0 if no two samples are the same *)
Theorem C100_PS d s v : NoDup (labels s) -> (2 <= length s)%nat -> observed kPS d s v ->
  ((forall x y, In x (points s) -> In y (points s) -> x = y) /\ v = NaN) \/
  ((exists x y, In x (points s) /\ In y (points s) /\ x <> y) /\
   exists r, v = Fin r /\ 0 <= r < INR (length s) /\ (NoDup (points s) -> 0 < r)).
Proof.
  intros Hn Hl Ho. assert (Hw : wf d s) by (destruct Ho as [Ho|Ho]; apply Ho).
  assert (Ec : clusters s = map (fun x => [x]) (points s)) by (rewrite clusters_alone by auto; unfold points; now rewrite map_map).
  assert (Hk : length (clusters s) = length s) by (rewrite Ec; unfold points; now rewrite !map_length).
  assert (HI : forall g, In g (clusters s) -> exists x, g = [x] /\ length x = d /\ In x (points s)).
  { intros g Hgi. rewrite Ec in Hgi. apply in_map_iff in Hgi as (x & <- & Hi). exists x. split; auto. split; auto.
    unfold points in Hi. apply in_map_iff in Hi as (p & <- & Hi). unfold wf in Hw. rewrite Forall_forall in Hw. auto. }
  pose proof (clusters_good d s Hw) as Hg.
  rewrite (observed_XVal kPS d s v) by (auto; discriminate). rewrite XVal_ext by lia. unfold PS_ext.
  pose proof (beta_zero d (clusters s) ltac:(lia)) as BZ. pose proof (beta_nonneg d (clusters s)) as BN.
  destruct (Req_EM_T (PS_beta d (clusters s)) 0) as [B|B].
  - left. split; auto. intros x y Hx Hy. pose proof (proj1 BZ B [x] [y]) as K.
    assert (Lx : length x = d /\ length y = d).
    { unfold points in Hx, Hy. apply in_map_iff in Hx as (p & <- & Hx). apply in_map_iff in Hy as (q & <- & Hy).
      unfold wf in Hw. rewrite Forall_forall in Hw. auto. }
    destruct Lx as [Lx Ly]. rewrite !centroid_single in K by auto. apply K; rewrite Ec; apply in_map_iff; eauto.
  - right. assert (BP : 0 < PS_beta d (clusters s)) by (specialize (BN ltac:(lia)); lra). split.
    { destruct (two_labels s Hl Hn) as (x0 & _ & l0 & _ & H0 & _).
      assert (Hx0 : In x0 (points s)) by (unfold points; apply in_map_iff; now exists (x0, l0)).
      assert (D : (exists y, In y (points s) /\ y <> x0) \/ (forall y, In y (points s) -> y = x0)).
      { clear -s. induction (points s) as [|y l IH]; [right; intros y []|]. destruct (list_eq_dec Req_EM_T y x0) as [->|N].
        - destruct IH as [(z & Hz & N)|IH]; [left; exists z; split; auto; now right|right; intros z [<-|Hz]; auto].
        - left. exists y. split; auto. now left. }
      destruct D as [(y & Hy & N)|D]; [now exists y, x0|]. exfalso. apply B, BZ. intros g h Hgi Hh.
      destruct (HI g Hgi) as (x & -> & _ & Hx). destruct (HI h Hh) as (y & -> & _ & Hy). now rewrite (D x Hx), (D y Hy). }
    eexists. split; [reflexivity|].
    assert (RM : rmax (map (fun g : list point => INR (length g)) (clusters s)) = 1).
    { apply rmax_unique.
      - destruct (clusters s) as [|g gs] eqn:Eg; [cbn in Hk; lia|]. destruct (HI g (or_introl eq_refl)) as (x & -> & _). now left.
      - intros z Hz. apply in_map_iff in Hz as (g & <- & Hgi). destruct (HI g Hgi) as (x & -> & _). cbn. lra. }
    unfold PS_formula. rewrite RM.
    set (t := fun p : list point * list (list point) => INR (length (fst p)) / 1 - exp (- rmin (map (cdist d (fst p)) (snd p)) / PS_beta d (clusters s))).
    assert (HT : forall p, In p (selects (clusters s)) -> 0 <= t p < 1 /\ (NoDup (points s) -> 0 < t p)).
    { intros [g r] Hp. pose proof (selects_ne _ g r ltac:(rewrite Hk; exact Hl) Hp) as Hr. apply selects_In in Hp.
      destruct (HI g) as (x & -> & Lx & _); [apply (Permutation_in _ (Permutation_sym Hp)); now left|].
      pose proof (rmin_In (map (cdist d [x]) r) ltac:(destruct r; [congruence|discriminate])) as Hm.
      apply in_map_iff in Hm as (h & E & Hh).
      destruct (HI h) as (y & -> & Ly & _); [apply (Permutation_in _ (Permutation_sym Hp)); now right|].
      unfold t. cbn [fst snd length]. rewrite <- E. unfold cdist. rewrite !centroid_single by auto.
      pose proof (dist2_pos x y) as D. assert (I : 0 < / PS_beta d (clusters s)) by now apply Rinv_0_lt_compat.
      pose proof (exp_pos (- dist2 x y / PS_beta d (clusters s))) as EP.
      assert (EL : 0 < dist2 x y -> exp (- dist2 x y / PS_beta d (clusters s)) < 1).
      { intros D1. rewrite <- exp_0. apply exp_increasing. unfold Rdiv. nra. }
      change (INR 1) with 1. split.
      - destruct D as [D|D]; [specialize (EL D); lra|]. rewrite <- D. unfold Rdiv. rewrite Ropp_0, Rmult_0_l, exp_0. lra.
      - intros HP. assert (N : x <> y).
        { intros ->. assert (K : NoDup (clusters s)).
          { rewrite Ec. apply FinFun.Injective_map_NoDup; auto. intros u w F. now inversion F. }
          apply (Permutation_NoDup Hp) in K. inversion K; contradiction. }
        destruct (Rle_lt_dec (dist2 x y) 0) as [Z|Z]; [exfalso; apply N; now apply (dist2_zero_eq d)|]. specialize (EL Z). lra. }
    assert (SB : forall l, (forall p, In p l -> 0 <= t p < 1) -> 0 <= rsum (map t l) <= INR (length l) /\ (l <> [] -> rsum (map t l) < INR (length l))).
    { induction l as [|p l IH]; intros H; [cbn; split; [lra|congruence]|]. cbn [map]. rewrite rsum_cons.
      change (length (p :: l)) with (S (length l)). rewrite S_INR. destruct (IH (fun q Hq => H q (or_intror Hq))) as [I1 _].
      pose proof (H p (or_introl eq_refl)). lra. }
    assert (NE : selects (clusters s) <> []).
    { intros F. apply (f_equal (@length _)) in F. rewrite selects_length, Hk in F. cbn in F. lia. }
    destruct (SB (selects (clusters s)) (fun p Hp => proj1 (HT p Hp))) as [S1 S2]. specialize (S2 NE).
    rewrite selects_length, Hk in S1, S2. split; [lra|]. intros HP. apply rsum_positive; auto. intros p Hp. now apply HT.
Qed.
Print Assumptions C100_PS.

(** three different samples of two features *)
Definition alone2 : data := [([0; 1], 2%Z); ([3; 5], 0%Z); ([7; 1], 1%Z)].
Theorem C100_example : wf 2 alone2 /\ NoDup (labels alone2) /\ NoDup (points alone2) /\ length (pairs (points alone2)) = 3%nat /\
  forall c, c <> kcSIL -> (exists v, batch_observed c 2 alone2 v) /\ exists v, stream_observed c 2 alone2 v.
Proof.
  assert (Hw : wf 2 alone2) by repeat constructor.
  split; auto. split; [repeat constructor; cbn; intuition discriminate|]. split; [|split; [reflexivity|]].
  { repeat constructor; cbn; intuition (try discriminate); match goal with H : [_; _] = [_; _] |- _ => injection H; lra end. }
  intros c Hc. split.
  - apply (batch_observed_ex c 2 3); auto. intros z; cbn; lia.
  - apply stream_observed_ex; auto. discriminate.
Qed.
Print Assumptions C100_example.
