(** * C60: how far rounding moves the stored centroids *)
From Coq Require Import ZArith Lia Lra SpecFloat List Arith Reals.
From Flocq Require Import Core.
From Verif Require Import Num NumPy Base GetCvi Lists Step Stream Generic RunForm BatchForm F64 F64o Rnd RndErr RndMean RndSum RndCl Spec.
Import ListNotations.
Local Open Scope R_scope.
Local Notation R := Rdefinitions.R.

(** ** The specification *)
(** the samples as the real numbers they stand for, and the true centroid of a
    label ([centroid] and [cluster] are in Spec.v) *)
Definition exact_data (s : list (list f64 * Z)) : Spec.data := map (fun p => (map rv (fst p), snd p)) s.
Definition true_centroid (d : nat) (s : list (list f64 * Z)) (l : Z) : Spec.point := centroid d (cluster (exact_data s) l).
Definition size (s : list (list f64 * Z)) (l : Z) : R := INR (length (cluster (exact_data s) l)).
(** every feature is a finite binary64 number of absolute value at most [b] *)
Definition within (b : R) (s : list (list f64 * Z)) : Prop :=
  forall x l y, In (x, l) s -> In y x -> valid y /\ fin y /\ Rabs (rv y) <= b.
Definition usual (b : R) : Prop := bpow radix2 (-900) <= b <= bpow radix2 900.
(** every entry of the row [r] is finite and within [e] of the entry of [t] *)
Definition row_near (d : nat) (r : list f64) (t : Spec.point) (e : R) : Prop :=
  length r = d /\ forall j, (j < d)%nat -> fin (nth j r S754_nan) /\ Rabs (rv (nth j r S754_nan) - nth j t 0) <= e.

(** ** Bridges *)
Lemma cluster_grp s l : cluster (exact_data s) l = map (map rv) (grp s l).
Proof.
  unfold cluster, exact_data, grp. induction s as [|[x z] s IH]; auto. cbn [map filter snd]. destruct (Z.eqb z l); cbn [map]; now rewrite IH.
Qed.
Lemma size_grp s l : size s l = INR (length (grp s l)).
Proof. unfold size. now rewrite cluster_grp, map_length. Qed.
Lemma centroid_avg d (xs : list (list f64)) j : (j < d)%nat -> nth j (centroid d (map (map rv) xs)) 0 = ravg (fcol j xs).
Proof.
  intros Hj. unfold centroid. rewrite nth_map_seq by auto. unfold ravg, fcol. rewrite !map_length. f_equal.
  change RndMean.rsum with Spec.rsum. rewrite !map_map. f_equal. apply map_ext. intros x. change 0 with (rv S754_nan). apply map_nth.
Qed.
Lemma within_grp b d s l : wf_stream (A := F64o (mkLibm (fun x => x) (fun x _ => x) (fun _ => S754_nan) (fun _ => None)) left_right) d s -> within b s ->
  Forall (fun x => length x = d /\ Forall (ok_in b) x) (grp s l).
Proof.
  intros Hw Hb. apply Forall_forall. intros x Hx. unfold grp in Hx. apply in_map_iff in Hx as ([x' z] & <- & Hp).
  apply filter_In in Hp as [Hp _]. unfold wf_stream in Hw. rewrite Forall_forall in Hw. split; [exact (Hw _ Hp)|].
  apply Forall_forall. intros y Hy. exact (Hb x' z y Hp Hy).
Qed.
Lemma grp_le {X} (s : list (X * Z)) l : (length (grp s l) <= length s)%nat.
Proof. unfold grp. rewrite map_length. induction s as [|p s IH]; auto. cbn [filter]. destruct (Z.eqb (snd p) l); cbn [length]; lia. Qed.

(** ** Streams: all nine classes, whatever the library and the order of sums do *)
Theorem C60_stream_centroids (L : Libm) (S : Sums) (c : kind) (d : nat) (s : list (vec (F64o L S) * Z)) vs (b : R) :
  wf_stream d s -> results c new_obj (stream s) = map Ok vs ->
  usual b -> within b s -> (Z.of_nat (length s) <= 2 ^ 48)%Z ->
  let o := after c new_obj (stream s) in
  forall l, In l (map snd s) -> exists i, lm_lookup (label_map o) l = Some i /\ (i < length (mrows (v (at_ o))))%nat /\
    row_near d (nth i (mrows (v (at_ o))) []) (true_centroid d s l) (17 * bpow radix2 (-53) * b * (size s l - 1)).
Proof.
  intros Hw Hr Hb Hwi HL o l Hl. destruct (formed_stream c d s vs Hw Hr) as (a & Ea & [_ Hk _ Hv _]).
  unfold o. rewrite Ea. cbn [label_map at_].
  assert (Hin : In l (firsts s)) by (now apply first_seen_In). destruct (index_In _ _ Hin) as [Hi Hn].
  exists (index l (firsts s)). split; [|split].
  - unfold lmap. rewrite lm_lookup_index. destruct (in_dec Z.eq_dec l (firsts s)); [reflexivity|contradiction].
  - rewrite Hv, map_length, groups_length. exact Hi.
  - rewrite Hv, (nth_groups (fun xs => c_v (cl_of xs))) by auto.
    assert (Eg : nth (index l (firsts s)) (groups s) [] = grp s l).
    { unfold groups. rewrite nth_indep with (d' := grp s 0%Z) by now rewrite map_length. rewrite map_nth. now rewrite Hn. }
    rewrite Eg. pose proof (grp_ne s l Hl) as Hne. pose proof (within_grp b d s l Hw Hwi) as HF.
    split.
    + apply (cl_of_v_length (A := F64o L S)); auto. eapply Forall_impl; [|exact HF]. simpl. tauto.
    + intros j Hj. destruct (near_cl_v L S b d (grp s l) j) as (_ & Hf & He); auto.
      { pose proof (grp_le s l). lia. }
      split; [exact Hf|]. unfold true_centroid. rewrite cluster_grp, centroid_avg, size_grp by auto. exact He.
Qed.
Print Assumptions C60_stream_centroids.

(** the mean of all samples, for the six classes that keep it *)
Theorem C60_stream_mean (L : Libm) (S : Sums) (c : kind) (d : nat) (s : list (vec (F64o L S) * Z)) vs (b : R) :
  In c [kCH; kWB; kDB; kXB; kGD43; kGD53] ->
  wf_stream d s -> s <> [] -> results c new_obj (stream s) = map Ok vs ->
  usual b -> within b s -> (Z.of_nat (length s) <= 2 ^ 48)%Z ->
  row_near d (mu (at_ (after c new_obj (stream s)))) (centroid d (points (exact_data s)))
    (17 * bpow radix2 (-53) * b * (INR (length s) - 1)).
Proof.
  intros Hc Hw Hne Hr Hb Hwi HL. destruct (formed_stream c d s vs Hw Hr) as (a & Ea & [_ _ _ _ Hg]).
  rewrite Ea. cbn [at_]. destruct Hg as (_ & _ & _ & Hm).
  { cbn [In] in Hc. repeat (destruct Hc as [<-|Hc]; [reflexivity|]). destruct Hc. }
  rewrite (Hm Hne), (plain_m_of (F64o_plain L S)).
  assert (HF : Forall (fun x => length x = d /\ Forall (ok_in b) x) (map fst s)).
  { apply Forall_map, Forall_forall. intros [x z] Hp. unfold wf_stream in Hw. rewrite Forall_forall in Hw.
    split; [exact (Hw _ Hp)|]. apply Forall_forall. intros y Hy. exact (Hwi x z y Hp Hy). }
  assert (Hn : map fst s <> []) by (destruct s; [congruence|discriminate]).
  split.
  - apply (cl_of_v_length (A := F64o L S)); auto. eapply Forall_impl; [|exact HF]. simpl. tauto.
  - intros j Hj. destruct (near_cl_v L S b d (map fst s) j) as (_ & Hf & He); auto.
    { now rewrite map_length. }
    split; [exact Hf|].
    assert (Ep : points (exact_data s) = map (map rv) (map fst s)).
    { unfold points, exact_data. rewrite !map_map. reflexivity. }
    rewrite Ep, centroid_avg by auto. rewrite map_length in He. exact He.
Qed.
Print Assumptions C60_stream_mean.

(** ** Batches: every order of the sums *)
Theorem C60_batch_centroids (L : Libm) (S : Sums) (c : kind) (d : nat) (s : list (vec (F64o L S) * Z)) x (b : R) :
  any_order S -> wf_stream d s -> results c new_obj [batch_of d s] = [Ok x] ->
  usual b -> within b s -> (Z.of_nat (length s) <= 2 ^ 48)%Z ->
  let o := after c new_obj [batch_of d s] in
  forall i, In (Z.of_nat i) (map snd s) -> (i < length (nodup Z.eq_dec (map snd s)))%nat ->
    (i < length (mrows (v (at_ o))))%nat /\
    row_near d (nth i (mrows (v (at_ o))) []) (true_centroid d s (Z.of_nat i)) (2 * bpow radix2 (-53) * b * size s (Z.of_nat i)).
Proof.
  intros [HS _] Hw Hr Hb Hwi HL o i Hl Hi. destruct (formed_batch c d s x Hw Hr) as (a & Ea & _ & Hv & _).
  unfold o. rewrite Ea. cbn [at_]. rewrite Hv, map_length, seq_length. split; [exact Hi|].
  rewrite nth_map_seq by exact Hi.
  pose proof (grp_ne s _ Hl) as Hne. pose proof (within_grp b d s (Z.of_nat i) Hw Hwi) as HF.
  pose proof (grp_le s (Z.of_nat i)) as Hle.
  unfold true_centroid. rewrite cluster_grp, size_grp.
  set (xs := grp s (Z.of_nat i)) in *.
  split; [unfold mean_rows, smean0; now rewrite map_length, seq_length|]. intros j Hj.
  rewrite centroid_avg by auto. rewrite (mean_rows_nth L S d xs j); auto.
  2:{ eapply Forall_impl; [|exact HF]. simpl. tauto. }
  assert (El : length (fcol j xs) = length xs) by (unfold fcol; apply map_length).
  destruct (near_mean b (fcol j xs) (s_sum S (fcol j xs)) Hb (HS _)) as (_ & Hf & He).
  - intros E. apply Hne. unfold fcol in E. now apply map_eq_nil in E.
  - unfold fcol. apply Forall_map. eapply Forall_impl; [|exact HF]. intros r [H1 H2].
    rewrite Forall_forall in H2. apply H2, nth_In. now rewrite H1.
  - rewrite El. apply Z.le_trans with (Z.of_nat (length s)); [apply inj_le, Hle|exact HL].
  - rewrite El in Hf, He. split; [exact Hf|exact He].
Qed.
Print Assumptions C60_batch_centroids.

(** ** The two modes agree up to 19 units of rounding per sample *)
Theorem C60_modes_agree (L : Libm) (S : Sums) (c : kind) (d : nat) (s : list (vec (F64o L S) * Z)) vs x (b : R) :
  any_order S -> wf_stream d s ->
  results c new_obj (stream s) = map Ok vs -> results c new_obj [batch_of d s] = [Ok x] ->
  usual b -> within b s -> (Z.of_nat (length s) <= 2 ^ 48)%Z ->
  let o := after c new_obj (stream s) in let o' := after c new_obj [batch_of d s] in
  forall i, In (Z.of_nat i) (map snd s) -> (i < length (nodup Z.eq_dec (map snd s)))%nat ->
  exists k, lm_lookup (label_map o) (Z.of_nat i) = Some k /\
  forall j, (j < d)%nat ->
    Rabs (rv (nth j (nth k (mrows (v (at_ o))) []) S754_nan) - rv (nth j (nth i (mrows (v (at_ o'))) []) S754_nan))
    <= 19 * bpow radix2 (-53) * b * size s (Z.of_nat i).
Proof.
  intros HS Hw Hr Hr' Hb Hwi HL o o' i Hl Hi.
  destruct (C60_stream_centroids L S c d s vs b Hw Hr Hb Hwi HL _ Hl) as (k & Ek & _ & _ & Nk).
  destruct (C60_batch_centroids L S c d s x b HS Hw Hr' Hb Hwi HL i Hl Hi) as (_ & _ & Ni).
  exists k. split; [exact Ek|]. intros j Hj. destruct (Nk j Hj) as [_ H1]. destruct (Ni j Hj) as [_ H2].
  unfold o, o'. match goal with |- Rabs (?p - ?q) <= _ => set (y := p); set (z := q) end.
  set (t := nth j (true_centroid d s (Z.of_nat i)) 0) in *.
  replace (y - z) with ((y - t) + - (z - t)) by ring. eapply Rle_trans; [apply Rabs_triang|]. rewrite Rabs_Ropp.
  assert (0 < bpow radix2 (-53) * b).
  { apply Rmult_lt_0_compat; [apply bpow_gt_0|]. destruct Hb as [Hb _]. pose proof (bpow_gt_0 radix2 (-900)). lra. }
  set (w := bpow radix2 (-53) * b) in *. set (m := size s (Z.of_nat i)) in *.
  replace (17 * bpow radix2 (-53) * b * (m - 1)) with (17 * (w * m) - 17 * w) in H1 by (unfold w; ring).
  replace (2 * bpow radix2 (-53) * b * m) with (2 * (w * m)) in H2 by (unfold w; ring).
  replace (19 * bpow radix2 (-53) * b * m) with (19 * (w * m)) by (unfold w; ring).
  change (Rabs (y - t) <= 17 * (w * m) - 17 * w) in H1. change (Rabs (z - t) <= 2 * (w * m)) in H2. lra.
Qed.
Print Assumptions C60_modes_agree.

(** ** A case: the means of 0, 0, 5 kept by the two modes differ in their last bit *)
Definition thirds (L : Libm) : list (vec (F64o L left_right) * Z) :=
  [([d_of_Z 0], 0%Z); ([d_of_Z 0], 0%Z); ([d_of_Z 5], 0%Z); ([d_of_Z 10], 1%Z)].
Lemma thirds_within L : within (bpow radix2 4) (thirds L).
Proof.
  assert (H : forall z, (Z.abs z <= 16)%Z -> valid (d_of_Z z) /\ fin (d_of_Z z) /\ Rabs (rv (d_of_Z z)) <= bpow radix2 4).
  { intros z Hz. destruct (of_Z_ok z) as (V & Fi & E); [lia|]. repeat split; auto. rewrite E, <- abs_IZR.
    change (bpow radix2 4) with 16. now apply IZR_le. }
  intros x l y Hp Hy. cbn [thirds In] in Hp.
  repeat (destruct Hp as [Hp|Hp]; [apply pair_equal_spec in Hp as [<- <-]; destruct Hy as [<-|[]]; apply H; lia|]). destruct Hp.
Qed.
Example C60_example (L : Libm) :
  let o := after kCH new_obj (stream (thirds L)) in let o' := after kCH new_obj [batch_of 1 (thirds L)] in
  usual (bpow radix2 4) /\ within (bpow radix2 4) (thirds L) /\
  mrows (v (at_ o)) = [[dyadic 7505999378950826 52]; [d_of_Z 10]] /\
  mrows (v (at_ o')) = [[dyadic 7505999378950827 52]; [d_of_Z 10]] /\
  Rabs (rv (dyadic 7505999378950826 52) - rv (dyadic 7505999378950827 52)) <= 19 * bpow radix2 (-53) * bpow radix2 4 * 3 /\
  nth 0 (true_centroid 1 (thirds L) 0) 0 = 5 / 3 /\
  Rabs (rv (dyadic 7505999378950826 52) - 5 / 3) <= 17 * bpow radix2 (-53) * bpow radix2 4 * 2.
Proof.
  assert (HU : usual (bpow radix2 4)) by (split; apply bpow_le; lia).
  assert (HR : forall c, c = kCH -> exists vs x, results c new_obj (stream (thirds L)) = map Ok vs /\
                                      results c new_obj [batch_of 1 (thirds L)] = [Ok x]).
  { intros c ->. eexists [_; _; _; _], _. split; vm_compute; reflexivity. }
  destruct (HR kCH eq_refl) as (vs & x & H1 & H2).
  assert (HW : wf_stream 1 (thirds L)) by (repeat constructor).
  assert (Ev : mrows (v (at_ (after kCH new_obj (stream (thirds L))))) = [[dyadic 7505999378950826 52]; [d_of_Z 10]]) by (vm_compute; reflexivity).
  assert (Ev' : mrows (v (at_ (after kCH new_obj [batch_of 1 (thirds L)]))) = [[dyadic 7505999378950827 52]; [d_of_Z 10]]) by (vm_compute; reflexivity).
  assert (Et : nth 0 (true_centroid 1 (thirds L) 0) 0 = 5 / 3).
  { unfold true_centroid. cbn -[rv d_of_Z]. destruct (of_Z_ok 0) as (_ & _ & E0); [lia|]. destruct (of_Z_ok 5) as (_ & _ & E5); [lia|].
    change (binary_normalize 53 1024) with (fun z e s => binary_normalize 53 1024 z e s) in *. rewrite E0, E5. field. }
  assert (Es : size (thirds L) 0 = 3) by (cbn; ring).
  split; [exact HU|]. split; [apply thirds_within|]. split; [exact Ev|]. split; [exact Ev'|]. split; [|split; [exact Et|]].
  - destruct (C60_modes_agree L left_right kCH 1 (thirds L) vs x (bpow radix2 4) left_right_order HW H1 H2 HU (thirds_within L) ltac:(cbn; lia) 0%nat ltac:(now left) ltac:(cbn; lia))
      as (k & Ek & Hj).
    assert (k = 0%nat) as -> by (revert Ek; vm_compute; congruence).
    specialize (Hj 0%nat ltac:(lia)). rewrite Ev, Ev' in Hj. cbn [nth] in Hj. change (Z.of_nat 0) with 0%Z in Hj; rewrite Es in Hj. exact Hj.
  - destruct (C60_stream_centroids L left_right kCH 1 (thirds L) vs (bpow radix2 4) HW H1 HU (thirds_within L) ltac:(cbn; lia) 0%Z ltac:(now left))
      as (k & Ek & _ & _ & Hj).
    assert (k = 0%nat) as -> by (revert Ek; vm_compute; congruence).
    destruct (Hj 0%nat ltac:(lia)) as [_ He]. rewrite Ev, Et, Es in He. cbn [nth] in He. replace (3 - 1) with 2 in He by ring. exact He.
Qed.
