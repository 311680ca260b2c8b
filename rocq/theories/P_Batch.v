(** * Batches with unusual labels, calls after a batch, mismatched lengths and
    failing batches: C13, C17, C41, C42.

    None of the four holds of the code as stated; each is refuted by a binary64
    run and followed by theorems that say exactly what happens instead.  The
    theorems are for every arithmetic where an [A : Arith] is quantified, and
    in exact arithmetic otherwise. *)
From Coq Require Import ZArith List Arith Bool Lia SpecFloat.
From Verif Require Import Num NumPy Base GetCvi Lists Hoare Stream Shapes Generic Refuse Mismatch F64 P_Calls.
From Coq Require Import Reals Lra.
From Verif Require Import Det Spec XR SpecX XEval XRun XPerm XBatch Obs XSilEx XCont XGap XMis P_Inc.
Import ListNotations.
Local Open Scope R_scope.

(** ** Specification vocabulary *)
(** position of [l] in a list that contains it *)
Fixpoint position (l : Z) (ls : list Z) : nat :=
  match ls with [] => 0 | a :: ls' => if Z.eq_dec a l then 0 else S (position l ls') end.
(** the same samples, labelled 0, 1, 2, ... in the order in which their labels first appear *)
Definition numbered (t : data) : data :=
  map (fun p => (fst p, Z.of_nat (position (snd p) (order_of_appearance [] (labels t))))) t.
(** every call of a history failed *)
Definition all_fail {A : Arith} (rs : list (E (F A))) : Prop := forall r, In r rs -> exists e, r = Err e.
(** the clusters labelled 0, ..., k-1 *)
Definition by_number (s : data) (k : nat) : list (list point) := map (fun i => cluster s (Z.of_nat i)) (seq 0 k).

(** ** Lemmas *)
Lemma position_index l ls : position l ls = index l ls.
Proof.
  induction ls as [|a ls IH]; auto. cbn [position index]. destruct (Z.eqb_spec a l); destruct (Z.eq_dec a l); congruence.
Qed.
Lemma numbered_renumber t : numbered t = renumber t.
Proof.
  unfold numbered, renumber, firsts. rewrite <- order_first_seen. apply map_ext. intros p. now rewrite position_index.
Qed.
Lemma by_number_zs s k : by_number s k = map (cluster s) (zs k).
Proof. unfold by_number, zs. now rewrite map_map. Qed.

Lemma c13_exact c d s k : c <> kcSIL -> (c = krCIP -> d <> 0%nat) -> wf d s -> (2 <= k)%nat -> exact_labels s k ->
  exists v, stream_observed c d s v /\ batch_result c d s = Ok v.
Proof.
  intros Hc Hd Hw Hk He. assert (Hs : s <> []). { intros ->. specialize (He 0%Z). cbn in He. lia. }
  destruct (stream_observed_ex c d s Hc Hw Hs Hd) as (v & H). exists v. split; auto.
  rewrite (stream_observed_XVal c d s v Hc Hd H). now apply (batch_result_ok c d k).
Qed.
Lemma c13_nan c d s : wf d s -> d <> 0%nat -> (2 <= length (distinct s))%nat ->
  ~ exact_labels s (length (distinct s)) ->
  (c = kPS -> exists l, In l (labels s) /\ (0 <= l < Z.of_nat (length (distinct s)))%Z) ->
  batch_result c d s = Ok (NaN : F XR).
Proof.
  intros Hw Hd Hk Hn Hp. pose proof (gap_all c d s Hw Hd Hk Hn) as H. destruct c; try exact H.
  apply (proj1 H), Hp. reflexivity.
Qed.
Lemma c13_PS d s : wf d s -> d <> 0%nat -> (2 <= length (distinct s))%nat ->
  (forall l, In l (labels s) -> ~ (0 <= l < Z.of_nat (length (distinct s)))%Z) ->
  batch_result kPS d s = Err ZeroDivisionError.
Proof.
  intros Hw Hd Hk Hn. assert (Hx : ~ exact_labels s (length (distinct s))).
  { intros He. assert (H0 : In 0%Z (labels s)) by (apply He; lia). apply (Hn _ H0). lia. }
  apply (proj2 (gap_all kPS d s Hw Hd Hk Hx)); auto.
Qed.

Lemma c17_refused (A : Arith) c (m : mat A) ls (h : list (call A)) : one_way c ->
  nrows m <> 0%nat -> (2 <= length (nodup Z.eq_dec ls))%nat ->
  let o := fst (get_cvi c new_obj (Mat m) (Labs ls)) in
  all_fail (results c o h) /\ criterion_value (at_ (after c o h)) = criterion_value (at_ o).
Proof.
  intros Hc Hm Hl o. destruct (batch_call_stuck c m ls Hc Hm Hl) as [H1 H2]. fold o in H1, H2.
  destruct (stuck_run c o h Hc H1 H2) as [H3 H4]. split; auto. rewrite Forall_forall in H3. exact H3.
Qed.
Lemma c17_merged c d k s t : resumable c -> (c = krCIP -> d <> 0%nat) -> wf d (s ++ t) -> (2 <= k)%nat -> exact_labels s k ->
  results c new_obj (batch_of d (as_floats s) :: stream (as_floats t)) =
  batch_result c d s :: map (fun i => batch_result c d (s ++ numbered (firstn (S i) t))) (seq 0 (length t)).
Proof.
  intros Hr Hd Hw Hk He. destruct (continued c d k s t Hr Hd Hw Hk He) as (a & E). unfold results.
  etransitivity; [exact (f_equal snd E)|]. cbn [snd]. destruct (wf_app _ _ _ Hw) as [Hw1 Hw2]. apply (f_equal2 (@cons _)).
  - symmetry. now apply (batch_result_ok c d k).
  - apply map_ext_in. intros i Hi. symmetry. rewrite numbered_renumber.
    apply (batch_result_ok c d (Nat.max k (length (firsts (firstn (S i) t))))); auto using merged_exact.
    + unfold wf. apply Forall_app. split; auto. unfold renumber. apply Forall_map. cbn [fst].
      rewrite <- (firstn_skipn (S i) t) in Hw2. now apply wf_app in Hw2.
    + lia.
Qed.
Lemma position_app l ls1 ls2 : In l ls1 -> position l (ls1 ++ ls2) = position l ls1.
Proof. intros H. induction ls1 as [|a ls1 IH]; [destruct H|]. cbn. destruct (Z.eq_dec a l); auto. f_equal. apply IH. destruct H; [contradiction|auto]. Qed.
Lemma position_seq i a j : (i < j)%nat -> position (Z.of_nat (a + i)) (map Z.of_nat (seq a j)) = i.
Proof.
  revert a i; induction j as [|j IH]; intros a i H; [lia|]. cbn [seq map position].
  destruct (Z.eq_dec _ _) as [E|E]; [lia|]. destruct i as [|i]; [exfalso; apply E; f_equal; lia|]. f_equal.
  replace (a + S i)%nat with (S a + i)%nat by lia. apply IH. lia.
Qed.
(** the labels of [t] first appear in the order 0, 1, 2, ... *)
Definition in_order (t : data) : Prop :=
  exists j, order_of_appearance [] (labels t) = map Z.of_nat (seq 0 j).
Lemma order_prefix : forall ls ls' seen, exists r,
  order_of_appearance seen (ls ++ ls') = order_of_appearance seen ls ++ r.
Proof.
  induction ls as [|l ls IH]; intros ls' seen; [eexists; reflexivity|]. cbn [app order_of_appearance].
  destruct (in_dec Z.eq_dec l seen); [apply IH|]. destruct (IH ls' (l :: seen)) as (r & ->). now exists r.
Qed.
Lemma order_In ls l : In l (order_of_appearance [] ls) <-> In l ls.
Proof. rewrite <- order_first_seen. apply first_seen_In. Qed.
Lemma in_order_prefix t i : in_order t -> numbered (firstn i t) = firstn i t.
Proof.
  intros (j & Hj). assert (E : exists r, order_of_appearance [] (labels t) = order_of_appearance [] (labels (firstn i t)) ++ r).
  { assert (Et : labels t = labels (firstn i t) ++ labels (skipn i t)) by (unfold labels; now rewrite <- map_app, firstn_skipn).
    rewrite Et. apply order_prefix. }
  destruct E as (r & E). unfold numbered. rewrite <- map_id. apply map_ext_in. intros [x l] Hp. cbn [fst snd]. f_equal.
  assert (Hl : In l (order_of_appearance [] (labels (firstn i t)))) by (apply order_In; now apply (in_map snd) in Hp).
  rewrite <- (position_app l _ r Hl), <- E, Hj.
  assert (Hz : In l (map Z.of_nat (seq 0 j))) by (rewrite <- Hj, E; apply in_or_app; now left).
  apply in_map_iff in Hz as (q & <- & Hq). apply in_seq in Hq. f_equal. apply (position_seq q 0). lia.
Qed.
Lemma c17_in_order c d k s t : resumable c -> (c = krCIP -> d <> 0%nat) -> wf d (s ++ t) -> (2 <= k)%nat -> exact_labels s k ->
  in_order t ->
  results c new_obj (batch_of d (as_floats s) :: stream (as_floats t)) =
  batch_result c d s :: map (fun i => batch_result c d (s ++ firstn (S i) t)) (seq 0 (length t)).
Proof.
  intros Hr Hd Hw Hk He Ho. rewrite (c17_merged c d k s t Hr Hd Hw Hk He). f_equal. apply map_ext. intros i.
  now rewrite in_order_prefix.
Qed.

Lemma c41_more c d pts ls : Forall (fun x => length x = d) pts -> d <> 0%nat -> (length pts < length ls)%nat ->
  (2 <= length (nodup Z.eq_dec ls))%nat ->
  (exists e, call_result c d pts ls = Err e) \/ call_result c d pts ls = Ok (NaN : F XR).
Proof.
  intros Hw Hd Hm Hk.
  destruct (List.Exists_dec (fun z => 0 <= z < Z.of_nat (n_unique ls))%Z (skipn (length pts) ls)) as [H|H].
  { intros z. destruct (Z_le_dec 0 z), (Z_lt_dec z (Z.of_nat (n_unique ls))); [left|right|right|right]; lia. }
  - apply Exists_exists in H. left. now apply more_raises.
  - assert (Hx : forall z, In z (skipn (length pts) ls) -> ~ in_range ls z).
    { intros z Hz Hr. apply H. apply Exists_exists. now exists z. }
    destruct (kind_eq c kcSIL) as [->|Hc].
    + destruct (Nat.lt_ge_cases (length pts) (n_unique ls)) as [L|L].
      * left. apply cSIL_raises. unfold nrows. cbn [mrows]. now rewrite map_length.
      * right. now apply (more_value kcSIL d pts ls Hw Hd Hm Hk Hx).
    + pose proof (more_value c d pts ls Hw Hd Hm Hk Hx ltac:(congruence)) as G. destruct c; try (right; exact G); try congruence.
      destruct (List.Exists_dec (fun z => 0 <= z < Z.of_nat (n_unique ls))%Z ls) as [H'|H'].
      { intros z. destruct (Z_le_dec 0 z), (Z_lt_dec z (Z.of_nat (n_unique ls))); [left|right|right|right]; lia. }
      * apply Exists_exists in H'. right. now apply (proj1 G).
      * left. exists ZeroDivisionError. apply (proj2 G). intros z Hz Hr. apply H'. apply Exists_exists. now exists z.
Qed.
Lemma c42_forever (A : Arith) c (m : mat A) ls h m' l' : (2 <= length (nodup Z.eq_dec ls))%nat ->
  let o := fst (get_cvi c new_obj (Mat m) (Labs ls)) in
  get_cvi c (after c o h) (Mat m') l' = (after c o h, Err ValueError).
Proof.
  intros Hl o. apply mat_refused. apply run_guard; [|now apply batch_marks].
  destruct (step_guard c (new_obj (A := A)) (Mat m) (Labs ls) guarded_new) as (H & _). exact H.
Qed.

(** ** C13 *)
(** labels 1 and 2 instead of 0 and 1: the batch value is nan, the incremental
    one is not *)
Theorem C13_any_labels_in_batches_refuted (L : Libm) :
  let s := fs L [([0], 1); ([2], 1); ([10], 2); ([14], 2)]%Z in
  forall c, In c [kCH; kWB; kDB; kXB; kGD43; kGD53] ->
  (exists v, results c new_obj [batch_of 1 s] = [Ok v] /\ dnan v = true) /\
  (exists a b e v, results c new_obj (stream s) = [Ok a; Ok b; Ok e; Ok v] /\ dnan v = false).
Proof.
  intros s c Hc. cbn [In] in Hc.
  repeat (destruct Hc as [<-|Hc]; [split; [eexists; split; vm_compute; reflexivity|do 4 eexists; split; vm_compute; reflexivity]|]).
  destruct Hc.
Qed.
Print Assumptions C13_any_labels_in_batches_refuted.

(** With labels 0..k-1 it holds (cSIL apart: C10). *)
Theorem C13_contiguous_labels_agree : forall c d s k, c <> kcSIL -> (c = krCIP -> d <> 0%nat) ->
  wf d s -> (2 <= k)%nat -> exact_labels s k ->
  exists v, stream_observed c d s v /\ batch_result c d s = Ok v.
Proof. exact c13_exact. Qed.
Print Assumptions C13_contiguous_labels_agree.

(** With any other set of at least two labels the batch returns nan, whatever
    the data ... *)
Theorem C13_other_labels_give_nan : forall c d s, wf d s -> d <> 0%nat -> (2 <= length (distinct s))%nat ->
  ~ exact_labels s (length (distinct s)) ->
  (c = kPS -> exists l, In l (labels s) /\ (0 <= l < Z.of_nat (length (distinct s)))%Z) ->
  batch_result c d s = Ok (NaN : F XR).
Proof. exact c13_nan. Qed.
Print Assumptions C13_other_labels_give_nan.

(** ... except that PS divides by zero when no label is in range. *)
Theorem C13_PS_without_labels_in_range_raises : forall d s, wf d s -> d <> 0%nat -> (2 <= length (distinct s))%nat ->
  (forall l, In l (labels s) -> ~ (0 <= l < Z.of_nat (length (distinct s)))%Z) ->
  batch_result kPS d s = Err ZeroDivisionError.
Proof. exact c13_PS. Qed.
Print Assumptions C13_PS_without_labels_in_range_raises.

Definition ex_gap : data := [([0], 1%Z); ([2], 1%Z); ([10], 2%Z); ([14], 2%Z)].
Example C13_hypotheses :
  wf 1 ex_gap /\ (2 <= length (distinct ex_gap))%nat /\ ~ exact_labels ex_gap (length (distinct ex_gap)) /\
  (exists l, In l (labels ex_gap) /\ (0 <= l < Z.of_nat (length (distinct ex_gap)))%Z) /\
  exact_labels (relabel (fun z => z - 1)%Z ex_gap) 2 /\
  (forall l, In l (labels (relabel (fun z => z + 7)%Z ex_gap)) -> ~ (0 <= l < 2)%Z).
Proof.
  split; [repeat constructor|]. split; [cbn; lia|]. split; [intros H; specialize (H 0%Z); cbn in H; lia|].
  split; [exists 1%Z; cbn; split; [auto|lia]|]. split; [apply exact_two; intros z; cbn; intuition|].
  intros l H. cbn in H. lia.
Qed.

(** ** C17 *)
(** DB accepts a sample after a batch, and merges a sample labelled 1 into the
    cluster that the batch labelled 0: the value is that of a batch with the
    wrong label, not of one with the right label *)
Theorem C17_refused_after_batch_refuted (L : Libm) :
  let b := [([0], 0); ([2], 0); ([10], 1); ([14], 1)]%Z in
  let run1 := results kDB new_obj [batch_of 1 (fs L b); (Vec (fv L [13]%Z), Lab 1%Z)] in
  let right := results kDB new_obj [batch_of 1 (fs L (b ++ [([13], 1)]))%Z] in
  let wrong := results kDB new_obj [batch_of 1 (fs L (b ++ [([13], 0)]))%Z] in
  exists v0 v w r, run1 = [Ok v0; Ok v] /\ right = [Ok r] /\ wrong = [Ok w] /\ v = w /\ v <> r.
Proof.
  do 4 eexists. split; [vm_compute; reflexivity|]. split; [vm_compute; reflexivity|]. split; [vm_compute; reflexivity|].
  split; [reflexivity|discriminate].
Qed.
Print Assumptions C17_refused_after_batch_refuted.

(** CH, WB, XB and cSIL do refuse: after a batch, whether it returned or
    raised, every further call of any kind raises and the value stays. *)
Theorem C17_four_classes_refuse_for_ever (A : Arith) (c : kind) (m : mat A) (ls : list Z) (h : list (call A)) :
  In c [kCH; kWB; kXB; kcSIL] -> nrows m <> 0%nat -> (2 <= length (nodup Z.eq_dec ls))%nat ->
  let o := fst (get_cvi c new_obj (Mat m) (Labs ls)) in
  all_fail (results c o h) /\ criterion_value (at_ (after c o h)) = criterion_value (at_ o).
Proof. intros Hc. apply c17_refused. cbn in Hc. intuition subst; exact I. Qed.
Print Assumptions C17_four_classes_refuse_for_ever.

(** The other five accept it.  Their values are those of batches in which the
    labels of the stream are replaced by 0, 1, 2, ... in the order of their
    first appearance. *)
Theorem C17_five_classes_continue c d k s t : In c [kDB; kGD43; kGD53; kPS; krCIP] -> (c = krCIP -> d <> 0%nat) ->
  wf d (s ++ t) -> (2 <= k)%nat -> exact_labels s k ->
  results c new_obj (batch_of d (as_floats s) :: stream (as_floats t)) =
  batch_result c d s :: map (fun i => batch_result c d (s ++ numbered (firstn (S i) t))) (seq 0 (length t)).
Proof. intros Hc. apply c17_merged. cbn in Hc. intuition subst; exact I. Qed.
Print Assumptions C17_five_classes_continue.

(** So they are right if the labels first appear in the order 0, 1, 2, ... *)
Theorem C17_five_classes_right_if_in_order c d k s t : In c [kDB; kGD43; kGD53; kPS; krCIP] -> (c = krCIP -> d <> 0%nat) ->
  wf d (s ++ t) -> (2 <= k)%nat -> exact_labels s k -> in_order t ->
  results c new_obj (batch_of d (as_floats s) :: stream (as_floats t)) =
  batch_result c d s :: map (fun i => batch_result c d (s ++ firstn (S i) t)) (seq 0 (length t)).
Proof. intros Hc. apply c17_in_order. cbn in Hc. intuition subst; exact I. Qed.
Print Assumptions C17_five_classes_right_if_in_order.

Example C17_hypotheses :
  wf 2 (ex_s ++ [([1; 1], 5%Z); ([3; 1], 0%Z); ([7; 7], 5%Z)]) /\ exact_labels ex_s 2 /\
  numbered [([1; 1], 5%Z); ([3; 1], 0%Z); ([7; 7], 5%Z)] = [([1; 1], 0%Z); ([3; 1], 1%Z); ([7; 7], 0%Z)] /\
  in_order [([1; 1], 0%Z); ([3; 1], 0%Z); ([7; 7], 1%Z); ([8; 8], 2%Z)].
Proof.
  split; [repeat constructor|]. split; [apply ex_exact|]. split; [reflexivity|]. exists 3%nat. reflexivity.
Qed.

(** ** C41 *)
(** four rows with three labels: a value comes back, and CH's is the value of
    no data set in the call's arguments *)
Theorem C41_wrong_number_of_labels_refuted (L : Libm) :
  let m : mat (F64 L) := mkMat 1 (map (fv L) [[0]; [2]; [10]; [100]]%Z) in
  forall c, In c [kCH; kWB; kDB; kXB; kGD43; kGD53; kcSIL] ->
  exists v, snd (get_cvi c new_obj (Mat m) (Labs [0; 0; 1]%Z)) = Ok v /\ dnan v = false.
Proof.
  intros m c Hc. cbn [In] in Hc.
  repeat (destruct Hc as [<-|Hc]; [eexists; split; vm_compute; reflexivity|]). destruct Hc.
Qed.
Print Assumptions C41_wrong_number_of_labels_refuted.

(** Six classes ignore the rows without labels. *)
Theorem C41_six_classes_ignore_unlabelled_rows (A : Arith) c d (rows rest : list (vec A)) (ls : list Z) :
  In c [kDB; kGD43; kGD53; kPS; krCIP; kcSIL] -> length ls = length rows ->
  snd (get_cvi c new_obj (Mat (mkMat d (rows ++ rest))) (Labs ls)) =
  snd (get_cvi c new_obj (Mat (mkMat d rows)) (Labs ls)).
Proof.
  intros Hc Hl. rewrite fewer_labels.
  - unfold top. cbn [mcols mrows]. rewrite firstn_app, Hl, Nat.sub_diag, firstn_O, app_nil_r, firstn_all2 by apply le_n. reflexivity.
  - unfold nrows. cbn [mrows]. rewrite app_length. lia.
  - cbn in Hc. intuition subst; exact I.
Qed.
Print Assumptions C41_six_classes_ignore_unlabelled_rows.

(** CH and WB measure the separation from the mean of all rows, CH and XB count
    all rows. *)
Theorem C41_CH_WB_XB_mix : forall d k s u, wf d s -> (2 <= k)%nat -> exact_labels s k ->
  let gs := by_number s k in
  let bg := rsum (map (fun g => INR (length g) * dist2 (centroid d g) (centroid d (points s ++ u))) gs) in
  let N := INR (length s + length u) in
  call_result kCH d (points s ++ u) (labels s) =
    Ok (xmul (xdiv (Fin bg) (Fin (wgss d gs))) (Fin ((N - INR k) / (INR k - 1)))) /\
  call_result kWB d (points s ++ u) (labels s) = Ok (xmul (xdiv (Fin (wgss d gs)) (Fin bg)) (Fin (INR k))) /\
  call_result kXB d (points s ++ u) (labels s) =
    Ok (xdiv (Fin (wgss d gs)) (Fin (N * rmin (map (fun p => cdist d (fst p) (snd p)) (pairs gs))))).
Proof.
  intros d k s u Hw Hk He gs bg N. unfold bg, gs. rewrite by_number_zs.
  assert (EK : nclus (map (cluster s) (zs k)) = INR k) by (unfold nclus; now rewrite b_glen).
  assert (EN : nsamp (map (cluster s) (zs k)) + INR (length u) = N).
  { unfold N. rewrite plus_INR. f_equal. unfold nsamp. rewrite (Permutation.Permutation_length (b_concat k s He)).
    unfold points. now rewrite map_length. }
  rewrite <- EK, <- EN.
  split; [|split]; [apply fewer_CH|apply fewer_WB|apply fewer_XB]; auto.
Qed.
Print Assumptions C41_CH_WB_XB_mix.

(** More labels than rows: the call raises or returns nan, never a number. *)
Theorem C41_too_many_labels : forall c d pts ls, Forall (fun x => length x = d) pts -> d <> 0%nat ->
  (length pts < length ls)%nat -> (2 <= length (nodup Z.eq_dec ls))%nat ->
  (exists e, call_result c d pts ls = Err e) \/ call_result c d pts ls = Ok (NaN : F XR).
Proof. exact c41_more. Qed.
Print Assumptions C41_too_many_labels.

(** It raises for every arithmetic if one of the extra labels is a cluster number. *)
Theorem C41_extra_label_in_range_raises (A : Arith) c (m : mat A) ls p i :
  (p < length ls)%nat -> (length (mrows m) <= p)%nat -> nth p ls 0%Z = Z.of_nat i -> (i < length (nodup Z.eq_dec ls))%nat ->
  exists e, snd (get_cvi c new_obj (Mat m) (Labs ls)) = Err e.
Proof. exact (extra_label_raises c m ls p i). Qed.
Print Assumptions C41_extra_label_in_range_raises.

Example C41_hypotheses (L : Libm) :
  wf 2 ex_s /\ exact_labels ex_s 2 /\ (length (labels ex_s) < length (points ex_s ++ [[5%R; 5%R]]))%nat /\
  (length [[1; 1]; [2; 2]]%R < length [0; 1; 7]%Z)%nat /\ (2 <= length (nodup Z.eq_dec [0; 1; 7]%Z))%nat /\
  (exists v, snd (get_cvi kCH new_obj (Mat (mkMat 1 [fv L [1]%Z; fv L [3]%Z])) (Labs [0; 1; 7]%Z)) = Ok v /\ dnan v = true) /\
  snd (get_cvi kCH new_obj (Mat (mkMat 1 [fv L [1]%Z; fv L [3]%Z])) (Labs [0; 1; 1]%Z)) = Err IndexError.
Proof.
  split; [apply ex_wf|]. split; [apply ex_exact|]. split; [cbn; lia|]. split; [cbn; lia|]. split; [cbn; lia|].
  split; [eexists; split; vm_compute; reflexivity|vm_compute; reflexivity].
Qed.

(** ** C42 *)
(** a batch with one label too many raises; the corrected batch is refused,
    although a fresh object accepts it *)
Theorem C42_failed_batch_can_be_retried_refuted (L : Libm) :
  let bad : call (F64 L) := (Mat (mkMat 1 (map (fv L) [[0]; [2]; [10]]%Z)), Labs [0; 0; 1; 1]%Z) in
  let good := batch_of 1 (fs L [([0], 0); ([2], 0); ([10], 1)]%Z) in
  forall c, In c [kCH; kWB; kDB; kXB; kGD43; kGD53; kcSIL] ->
  results c new_obj [bad; good] = [Err IndexError; Err ValueError] /\
  exists v, results c new_obj [good] = [Ok v].
Proof.
  intros bad good c Hc. cbn [In] in Hc.
  repeat (destruct Hc as [<-|Hc]; [split; [vm_compute; reflexivity|eexists; vm_compute; reflexivity]|]). destruct Hc.
Qed.
Print Assumptions C42_failed_batch_can_be_retried_refuted.

(** A batch with at least two distinct labels uses the object up, whether it
    returns or raises: every later batch is refused with ValueError, whatever
    happens in between. *)
Theorem C42_one_attempt_only (A : Arith) (c : kind) (m m' : mat A) (ls : list Z) (l' : label_arg) (h : list (call A)) :
  (2 <= length (nodup Z.eq_dec ls))%nat ->
  let o := fst (get_cvi c new_obj (Mat m) (Labs ls)) in
  get_cvi c (after c o h) (Mat m') l' = (after c o h, Err ValueError).
Proof. exact (c42_forever A c m ls h m' l'). Qed.
Print Assumptions C42_one_attempt_only.

(** A batch refused for its labels (fewer than two distinct ones) leaves no
    trace and can be retried. *)
Theorem C42_label_errors_can_be_retried (A : Arith) (c : kind) (m : mat A) (ls : list Z) (h : list (call A)) :
  (length (nodup Z.eq_dec ls) <= 1)%nat ->
  results c new_obj ((Mat m, Labs ls) :: h) = Err ValueError :: results c new_obj h.
Proof.
  intros H. unfold results. cbn [run]. rewrite (few_labels_refused c new_obj m (Labs ls) H).
  now destruct (run c new_obj h).
Qed.
Print Assumptions C42_label_errors_can_be_retried.

Example C42_hypotheses : (2 <= length (nodup Z.eq_dec [0; 0; 1; 1]%Z))%nat /\ (length (nodup Z.eq_dec [3; 3; 3]%Z) <= 1)%nat.
Proof. cbn. lia. Qed.
