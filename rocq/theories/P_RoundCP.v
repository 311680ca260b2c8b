(** * C61: how far rounding moves the stored compactness *)
From Coq Require Import ZArith Lia Lra SpecFloat List Arith Reals.
From Flocq Require Import Core.
From Verif Require Import Num NumPy Base GetCvi Lists Step Stream Generic RunForm BatchForm F64 F64o Rnd RndErr RndMean RndSum RndCl RndCP RndCP2 RndCP3 RndCP4 Spec P_Round.
Import ListNotations.
Local Open Scope R_scope.
Local Notation R := Rdefinitions.R.

(** ** The specification *)
(** the sum of the squared distances of the samples labelled [l] to their true
    centroid ([scatter] is in Spec.v, [exact_data] and [within] in P_Round.v) *)
Definition true_scatter (d : nat) (s : list (list f64 * Z)) (l : Z) : R := scatter d (cluster (exact_data s) l).
(** sizes whose squares are far from overflow and underflow *)
Definition moderate (b : R) : Prop := bpow radix2 (-400) <= b <= bpow radix2 399.
Definition keeps_CP (c : kind) : Prop := In c [kCH; kWB; kDB; kXB; kGD43; kGD53].
Lemma keeps_gclass c : keeps_CP c -> gclass c = true.
Proof. unfold keeps_CP. cbn [In]. intros H. repeat (destruct H as [<-|H]; [reflexivity|]). destruct H. Qed.
Lemma moderate_lo2 b : moderate b -> lo2 <= b <= hi2 / 2.
Proof.
  intros [H1 H2]. split; [exact H1|]. unfold hi2. change 400%Z with (399 + 1)%Z. rewrite bpow_plus. change (bpow radix2 1) with 2. lra.
Qed.

(** ** Streams *)
Theorem C61_stream_compactness (L : Libm) (S : Sums) (c : kind) (d : nat) (s : list (vec (F64o L S) * Z)) vs (b : R) :
  any_order S -> keeps_CP c -> (1 <= Z.of_nat d <= 2 ^ 20)%Z -> (Z.of_nat (length s) <= 2 ^ 24)%Z ->
  wf_stream d s -> results c new_obj (stream s) = map Ok vs -> moderate b -> within b s ->
  let o := after c new_obj (stream s) in
  forall l, In l (map snd s) -> exists i, lm_lookup (label_map o) l = Some i /\ (i < length (CP (at_ o)))%nat /\
    fin (nth i (CP (at_ o)) S754_nan) /\
    Rabs (rv (nth i (CP (at_ o)) S754_nan) - true_scatter d s l)
    <= 369 * bpow radix2 (-53) * (b * b) * (INR d * INR d * (size s l * size s l - 1)).
Proof.
  intros HS Hc Hd HL Hw Hr Hb Hwi o l Hl. destruct (formed_stream c d s vs Hw Hr) as (a & Ea & [_ Hk _ _ Hg]).
  unfold o. rewrite Ea. cbn [label_map at_]. destruct (Hg (keeps_gclass c Hc)) as (_ & HCP & _ & _).
  assert (Hin : In l (firsts s)) by (now apply first_seen_In). destruct (index_In _ _ Hin) as [Hi Hn].
  exists (index l (firsts s)). split; [|split].
  - unfold lmap. rewrite lm_lookup_index. destruct (in_dec Z.eq_dec l (firsts s)); [reflexivity|contradiction].
  - rewrite HCP, map_length, groups_length. exact Hi.
  - assert (Eg : nth (index l (firsts s)) (groups s) [] = grp s l).
    { unfold groups. rewrite nth_indep with (d' := grp s 0%Z) by now rewrite map_length. rewrite map_nth. now rewrite Hn. }
    assert (E0 : nth (index l (firsts s)) (CP a) S754_nan = c_cp (cl_of (A := F64o L S) (grp s l))).
    { rewrite HCP. refine (eq_trans (nth_groups (fun xs => c_cp (cl_of xs)) s _ S754_nan Hi) _). now rewrite Eg. }
    rewrite E0. pose proof (grp_ne s l Hl) as Hne. pose proof (within_grp b d s l Hw Hwi) as HF. pose proof (grp_le s l) as Hle.
    destruct (near_cl_cp L S HS b (moderate_lo2 b Hb) d Hd (grp s l) Hne HF ltac:(lia)) as (_ & Hf & He).
    split; [exact Hf|]. unfold true_scatter. rewrite cluster_grp, size_grp. 
    replace (369 * bpow radix2 (-53) * (b * b)) with (369 * (u * (b * b))) by (unfold u; ring). exact He.
Qed.
Print Assumptions C61_stream_compactness.

(** ** Batches *)
Theorem C61_batch_compactness (L : Libm) (S : Sums) (c : kind) (d : nat) (s : list (vec (F64o L S) * Z)) x (b : R) :
  any_order S -> keeps_CP c -> (1 <= Z.of_nat d <= 2 ^ 20)%Z -> (Z.of_nat (length s) <= 2 ^ 24)%Z ->
  wf_stream d s -> results c new_obj [batch_of d s] = [Ok x] -> moderate b -> within b s ->
  let o := after c new_obj [batch_of d s] in
  forall i, In (Z.of_nat i) (map snd s) -> (i < length (nodup Z.eq_dec (map snd s)))%nat ->
    (i < length (CP (at_ o)))%nat /\ fin (nth i (CP (at_ o)) S754_nan) /\
    Rabs (rv (nth i (CP (at_ o)) S754_nan) - true_scatter d s (Z.of_nat i))
    <= 109 * bpow radix2 (-53) * (b * b) * (INR d * INR d * (size s (Z.of_nat i) * size s (Z.of_nat i))).
Proof.
  intros HS Hc Hd HL Hw Hr Hb Hwi o i Hl Hi. destruct (formed_batch c d s x Hw Hr) as (a & Ea & _ & _ & HCP).
  specialize (HCP (keeps_gclass c Hc)). unfold o. rewrite Ea. cbn [at_]. rewrite HCP, map_length, seq_length. split; [exact Hi|].
  assert (E0 : nth i (map (fun ix => cp_rows (A := F64o L S) d (grp s (Z.of_nat ix))) (seq 0 (n_unique (map snd s)))) S754_nan =
               cp_rows (A := F64o L S) d (grp s (Z.of_nat i))).
  { exact (nth_map_seq (fun ix => cp_rows (A := F64o L S) d (grp s (Z.of_nat ix))) (n_unique (map snd s)) i S754_nan Hi). }
  rewrite E0. pose proof (grp_ne s _ Hl) as Hne. pose proof (within_grp b d s (Z.of_nat i) Hw Hwi) as HF.
  pose proof (grp_le s (Z.of_nat i)) as Hle.
  destruct (near_rows_cp L S HS b (moderate_lo2 b Hb) d Hd (grp s (Z.of_nat i)) Hne HF ltac:(lia)) as (_ & Hf & He).
  split; [exact Hf|]. unfold true_scatter. rewrite cluster_grp, size_grp.
  match goal with |- _ <= _ * (_ * (?m * ?m)) => refine (Rle_trans _ (109 * (u * (b * b)) * (INR d * m * (INR d * m))) _ He _) end.
  unfold u. right. ring.
Qed.
Print Assumptions C61_batch_compactness.

(** ** The two modes *)
Theorem C61_modes_agree (L : Libm) (S : Sums) (c : kind) (d : nat) (s : list (vec (F64o L S) * Z)) vs x (b : R) :
  any_order S -> keeps_CP c -> (1 <= Z.of_nat d <= 2 ^ 20)%Z -> (Z.of_nat (length s) <= 2 ^ 24)%Z -> wf_stream d s ->
  results c new_obj (stream s) = map Ok vs -> results c new_obj [batch_of d s] = [Ok x] -> moderate b -> within b s ->
  let o := after c new_obj (stream s) in let o' := after c new_obj [batch_of d s] in
  forall i, In (Z.of_nat i) (map snd s) -> (i < length (nodup Z.eq_dec (map snd s)))%nat ->
  exists k, lm_lookup (label_map o) (Z.of_nat i) = Some k /\
    Rabs (rv (nth k (CP (at_ o)) S754_nan) - rv (nth i (CP (at_ o')) S754_nan))
    <= 478 * bpow radix2 (-53) * (b * b) * (INR d * INR d * (size s (Z.of_nat i) * size s (Z.of_nat i))).
Proof.
  intros HS Hc Hd HL Hw Hr Hr' Hb Hwi o o' i Hl Hi.
  destruct (C61_stream_compactness L S c d s vs b HS Hc Hd HL Hw Hr Hb Hwi _ Hl) as (k & Ek & _ & _ & H1).
  destruct (C61_batch_compactness L S c d s x b HS Hc Hd HL Hw Hr' Hb Hwi i Hl Hi) as (_ & _ & H2).
  exists k. split; [exact Ek|]. unfold o, o'. match goal with |- Rabs (?p - ?q) <= _ => set (y := p); set (z := q) end.
  set (t := true_scatter d s (Z.of_nat i)) in *.
  change (Rabs (y - t) <= 369 * bpow radix2 (-53) * (b * b) * (INR d * INR d * (size s (Z.of_nat i) * size s (Z.of_nat i) - 1))) in H1.
  change (Rabs (z - t) <= 109 * bpow radix2 (-53) * (b * b) * (INR d * INR d * (size s (Z.of_nat i) * size s (Z.of_nat i)))) in H2.
  replace (y - z) with ((y - t) + - (z - t)) by ring. eapply Rle_trans; [apply Rabs_triang|]. rewrite Rabs_Ropp.
  set (m := size s (Z.of_nat i)) in *. set (W := bpow radix2 (-53) * (b * b) * (INR d * INR d)).
  assert (0 <= W).
  { unfold W. repeat apply Rmult_le_pos; try apply pos_INR; try apply bpow_ge_0; destruct Hb as [Hb _]; pose proof (bpow_gt_0 radix2 (-400)); lra. }
  replace (369 * bpow radix2 (-53) * (b * b) * (INR d * INR d * (m * m - 1))) with (369 * (W * (m * m)) - 369 * W) in H1 by (unfold W; ring).
  replace (109 * bpow radix2 (-53) * (b * b) * (INR d * INR d * (m * m))) with (109 * (W * (m * m))) in H2 by (unfold W; ring).
  replace (478 * bpow radix2 (-53) * (b * b) * (INR d * INR d * (m * m))) with (478 * (W * (m * m))) by (unfold W; ring). lra.
Qed.
Print Assumptions C61_modes_agree.

(** ** A case: the compactness of 0, 0, 5 (50/3 exactly) kept by the two modes
    differs in its last bit; both are inside the bounds *)
Example C61_example (L : Libm) :
  let o := after kCH new_obj (stream (thirds L)) in let o' := after kCH new_obj [batch_of 1 (thirds L)] in
  moderate (bpow radix2 4) /\ within (bpow radix2 4) (thirds L) /\ keeps_CP kCH /\
  CP (at_ o) = [dyadic 4691249611844267 48; S754_zero false] /\ CP (at_ o') = [dyadic 4691249611844266 48; S754_zero false] /\
  true_scatter 1 (thirds L) 0 = 50 / 3 /\
  Rabs (rv (dyadic 4691249611844267 48) - 50 / 3) <= 369 * bpow radix2 (-53) * (16 * 16) * 8 /\
  Rabs (rv (dyadic 4691249611844266 48) - 50 / 3) <= 109 * bpow radix2 (-53) * (16 * 16) * 9 /\
  true_scatter 1 (thirds L) 1 = 0.
Proof.
  assert (HU : moderate (bpow radix2 4)) by (split; apply bpow_le; lia).
  assert (HC : keeps_CP kCH) by now left.
  assert (HR : forall c, c = kCH -> exists vs x, results c new_obj (stream (thirds L)) = map Ok vs /\
                                      results c new_obj [batch_of 1 (thirds L)] = [Ok x]).
  { intros c ->. eexists [_; _; _; _], _. split; vm_compute; reflexivity. }
  destruct (HR kCH eq_refl) as (vs & x & H1 & H2).
  assert (HW : wf_stream 1 (thirds L)) by (repeat constructor).
  assert (Ev : CP (at_ (after kCH new_obj (stream (thirds L)))) = [dyadic 4691249611844267 48; S754_zero false]) by (vm_compute; reflexivity).
  assert (Ev' : CP (at_ (after kCH new_obj [batch_of 1 (thirds L)])) = [dyadic 4691249611844266 48; S754_zero false]) by (vm_compute; reflexivity).
  assert (Et : forall l, true_scatter 1 (thirds L) l = scatter 1 (map (map rv) (grp (thirds L) l))) by (intros l; unfold true_scatter; now rewrite cluster_grp).
  destruct (of_Z_ok 0) as (_ & _ & E0); [lia|]. destruct (of_Z_ok 5) as (_ & _ & E5); [lia|]. destruct (of_Z_ok 10) as (_ & _ & E10); [lia|].
  assert (T0 : true_scatter 1 (thirds L) 0 = 50 / 3).
  { rewrite Et. change (grp (thirds L) 0) with [[d_of_Z 0]; [d_of_Z 0]; [d_of_Z 5]]. cbn [map]. rewrite E0, E5.
    unfold scatter, centroid, dist2. cbn. field. }
  assert (T1 : true_scatter 1 (thirds L) 1 = 0).
  { rewrite Et. change (grp (thirds L) 1) with [[d_of_Z 10]]. cbn [map]. rewrite E10. unfold scatter, centroid, dist2. cbn. field. }
  assert (Es : size (thirds L) 0 = 3) by (cbn; ring).
  split; [exact HU|]. split; [apply thirds_within|]. split; [exact HC|]. split; [exact Ev|]. split; [exact Ev'|]. split; [exact T0|].
  split; [|split; [|exact T1]].
  - destruct (C61_stream_compactness L left_right kCH 1 (thirds L) vs (bpow radix2 4) left_right_order HC ltac:(lia) ltac:(cbn; lia) HW H1 HU (thirds_within L) 0%Z ltac:(now left))
      as (k & Ek & _ & _ & He).
    assert (k = 0%nat) as -> by (revert Ek; vm_compute; congruence).
    rewrite Ev, T0, Es in He. cbn [nth] in He. change (bpow radix2 4) with 16 in He. change (INR 1) with 1 in He.
    replace (1 * 1 * (3 * 3 - 1)) with 8 in He by ring. exact He.
  - destruct (C61_batch_compactness L left_right kCH 1 (thirds L) x (bpow radix2 4) left_right_order HC ltac:(lia) ltac:(cbn; lia) HW H2 HU (thirds_within L) 0%nat ltac:(now left) ltac:(cbn; lia))
      as (_ & _ & He).
    rewrite Ev' in He. change (Z.of_nat 0) with 0%Z in He. rewrite T0, Es in He. cbn [nth] in He. change (bpow radix2 4) with 16 in He. change (INR 1) with 1 in He.
    replace (1 * 1 * (3 * 3)) with 9 in He by ring. exact He.
Qed.
