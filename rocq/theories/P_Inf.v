(** * Infinite features: C76.

    False of DB, XB, GD43 and GD53 fed one sample at a time: a sample with an
    infinity that starts a cluster is not seen by the index until a second sample
    joins that cluster.  True of CH, WB, PS and cSIL, of the four others from the
    second sample of that cluster on, and of every batch; rCIP is left out.  The
    theorems are about IEEE binary64, with the sums in any order, and about exact
    arithmetic with infinities. *)
From Coq Require Import ZArith List Arith Bool Lia SpecFloat Reals.
From Verif Require Import Num NumPy Base GetCvi Lists Hoare Stream Shapes Generic F64 F64o XR P_Calls Nan P_Nan.
From Verif Require Import Inf InfB InfA.
Import ListNotations.

(** ** Specification vocabulary *)
Definition infinite_float (x : f64) : Prop := x = S754_infinity false \/ x = S754_infinity true.
Definition infinite_exact (x : xr) : Prop := x = PInf \/ x = NInf.
(** the classes that notice at once *)
Definition notices_at_once (c : kind) : Prop := c = kCH \/ c = kWB \/ c = kPS \/ c = kcSIL.
Definition needs_a_second_sample (c : kind) : Prop := c = kDB \/ c = kXB \/ c = kGD43 \/ c = kGD53.
(** some sample labelled [l] has an infinite feature *)
Definition infinity_in {A : Arith} (infinite : F A -> Prop) (s : list (vec A * Z)) (l : Z) : Prop :=
  exists x y, In (x, l) s /\ In y x /\ infinite y.

Section Link.
  Context {A : Arith} (is_nan : F A -> Prop) (HB : Absorbing is_nan).
  Context (wild : F A -> Prop) (same : F A -> F A -> Prop) (hot pos : F A -> Prop) (HI : Infinite is_nan wild same hot pos).
  Context (infinite : F A -> Prop) (HW : forall x, infinite x -> wild x).

  Lemma inf_in_grp (s : list (vec A * Z)) l : infinity_in infinite s l -> has_nan wild (grp s l).
  Proof.
    intros (x & y & Hx & Hy & Hn). apply Exists_exists. exists x. split; [now apply grp_In|].
    apply Exists_exists. eauto.
  Qed.
  Lemma c76 c d (s : list (vec A * Z)) i v l : rectangular d s -> c <> krCIP ->
    nth_error (results c new_obj (stream s)) i = Some (Ok v) ->
    infinity_in infinite (firstn (S i) s) l -> (needs_a_second_sample c -> 2 <= labelled l (firstn (S i) s)) ->
    2 <= number_of_labels (firstn (S i) s) -> is_nan v.
  Proof.
    intros Hr Hc Hv Hn H53 Hk. assert (Hr' := Hr). apply rectangular_wf in Hr.
    destruct (c18 c d s) as [vals E]; [now apply rectangular_wf|intros; contradiction|].
    rewrite E in Hv.
    assert (Hi : i < length vals).
    { rewrite <- (map_length (@Ok (F A))). apply nth_error_Some. congruence. }
    apply (inf_last is_nan HB wild same hot pos HI c d (firstn (S i) s) (firstn i vals) v l); auto.
    - unfold wf_stream in *. apply Forall_forall. intros p Hp. rewrite Forall_forall in Hr. apply Hr.
      rewrite <- (firstn_skipn (S i) s). apply in_app_iff. now left.
    - rewrite results_prefix, E, map_app, <- firstn_map. cbn [map].
      clear -Hv. revert Hv. generalize (map Ok vals : list (E (F A))). induction i as [|i IH]; intros [|r rs] Hv; try discriminate.
      + injection Hv as ->. reflexivity.
      + cbn [firstn app]. f_equal. now apply IH.
    - now apply inf_in_grp.
    - intros H. specialize (H53 H). unfold labelled in H53. unfold grp. now rewrite map_length.
    - unfold firsts. rewrite first_seen_length. exact Hk.
  Qed.
  Lemma c76_batch c d k (s : list (vec A * Z)) v l : rectangular d s -> c <> krCIP -> 2 <= k ->
    (forall z, In z (map snd s) <-> (0 <= z < Z.of_nat k)%Z) -> infinity_in infinite s l ->
    results c new_obj [batch_of d s] = [Ok v] -> is_nan v.
  Proof.
    intros Hr Hc Hk Hl Hn Hv. apply rectangular_wf in Hr. apply inf_in_grp in Hn.
    assert (Hz : (0 <= l < Z.of_nat k)%Z).
    { apply Hl. apply (proj1 (first_seen_In _ _)). now apply (nan_label wild). }
    rewrite <- (Z2Nat.id l) in Hn by lia.
    unfold results, batch_of in Hv. cbn [run fst snd] in Hv. unfold get_cvi, update in Hv.
    cbn [GetCvi.at_ new_obj label_map init_attrs is_setup] in Hv.
    destruct (negb (1 <? unique_labels (Labs (map snd s)))); [discriminate|].
    destruct (param_batch c (mkMat d (map fst s)) (map snd s) init_attrs) as [o' [[]|e]] eqn:EB; [|discriminate].
    cbn [GetCvi.at_] in Hv. destruct (evaluate c o') as [o2 [[]|e]] eqn:EV; [|discriminate]. cbn [fst snd] in Hv. injection Hv as <-.
    apply (infbatch_bad is_nan HB wild same hot pos HI d k s Hr Hk Hl (Z.to_nat l) ltac:(lia) Hn c o'); auto; now rewrite EV.
  Qed.
End Link.

Lemma infinite_wild x : infinite_float x -> d_wild x.
Proof. intros [-> | ->]; [exists false|exists true]; now left. Qed.
Lemma infinite_wild_exact x : infinite_exact x -> x_wild x.
Proof. intros [-> | ->]; [exists false|exists true]; now left. Qed.

(** ** C76: one sample at a time *)
(** [i] is the number of the call; [firstn (S i) s] are the samples seen by then *)
Theorem C76_four_classes_binary64 (L : Libm) (S : Sums) (c : kind) (d : nat) (s : list (vec (F64o L S) * Z)) (i : nat) (v : F (F64o L S)) :
  any_order S -> exp_nan L -> notices_at_once c -> rectangular d s ->
  nth_error (results c new_obj (stream s)) i = Some (Ok v) ->
  (exists l, infinity_in (A := F64o L S) infinite_float (firstn (Datatypes.S i) s) l) ->
  2 <= number_of_labels (firstn (Datatypes.S i) s) ->
  v = S754_nan.
Proof.
  intros HS HL Hc Hr Hv [l Hl] Hk.
  apply (c76 _ (F64_absorbing L S HS HL) _ _ _ _ (F64_infinite L S HS) _ infinite_wild c d s i v l Hr); auto.
  - destruct Hc as [-> | [-> | [-> | ->]]]; discriminate.
  - intros [-> | [-> | [-> | ->]]]; destruct Hc as [H|[H|[H|H]]]; discriminate H.
Qed.
Print Assumptions C76_four_classes_binary64.
Theorem C76_four_classes_exact (c : kind) (d : nat) (s : list (vec XR * Z)) (i : nat) (v : F XR) :
  notices_at_once c -> rectangular d s ->
  nth_error (results c new_obj (stream s)) i = Some (Ok v) ->
  (exists l, infinity_in (A := XR) infinite_exact (firstn (S i) s) l) ->
  2 <= number_of_labels (firstn (S i) s) ->
  v = NaN.
Proof.
  intros Hc Hr Hv [l Hl] Hk.
  apply (c76 _ XR_absorbing _ _ _ _ XR_infinite _ infinite_wild_exact c d s i v l Hr); auto.
  - destruct Hc as [-> | [-> | [-> | ->]]]; discriminate.
  - intros [-> | [-> | [-> | ->]]]; destruct Hc as [H|[H|[H|H]]]; discriminate H.
Qed.
Print Assumptions C76_four_classes_exact.

(** the other four notice when the cluster has two samples *)
Theorem C76_from_the_second_sample_binary64 (L : Libm) (S : Sums) (c : kind) (d : nat) (s : list (vec (F64o L S) * Z)) (i : nat) (v : F (F64o L S)) (l : Z) :
  any_order S -> exp_nan L -> needs_a_second_sample c -> rectangular d s ->
  nth_error (results c new_obj (stream s)) i = Some (Ok v) ->
  infinity_in (A := F64o L S) infinite_float (firstn (Datatypes.S i) s) l -> 2 <= labelled l (firstn (Datatypes.S i) s) ->
  2 <= number_of_labels (firstn (Datatypes.S i) s) ->
  v = S754_nan.
Proof.
  intros HS HL Hc Hr Hv Hl H2 Hk.
  apply (c76 _ (F64_absorbing L S HS HL) _ _ _ _ (F64_infinite L S HS) _ infinite_wild c d s i v l Hr); auto.
  destruct Hc as [-> | [-> | [-> | ->]]]; discriminate.
Qed.
Print Assumptions C76_from_the_second_sample_binary64.
Theorem C76_from_the_second_sample_exact (c : kind) (d : nat) (s : list (vec XR * Z)) (i : nat) (v : F XR) (l : Z) :
  needs_a_second_sample c -> rectangular d s ->
  nth_error (results c new_obj (stream s)) i = Some (Ok v) ->
  infinity_in (A := XR) infinite_exact (firstn (S i) s) l -> 2 <= labelled l (firstn (S i) s) ->
  2 <= number_of_labels (firstn (S i) s) ->
  v = NaN.
Proof.
  intros Hc Hr Hv Hl H2 Hk.
  apply (c76 _ XR_absorbing _ _ _ _ XR_infinite _ infinite_wild_exact c d s i v l Hr); auto.
  destruct Hc as [-> | [-> | [-> | ->]]]; discriminate.
Qed.
Print Assumptions C76_from_the_second_sample_exact.

(** the infinity arrives third, as the first sample of label 1; label 1 gets its
    second sample with the fifth call *)
Definition inf_data (L : Libm) : list (vec (F64 L) * Z) :=
  [(fv L [0], 0); (fv L [2], 0); ([S754_infinity false], 1); (fv L [5], 2); (fv L [5], 1); (fv L [1], 0)]%Z.
Example C76_hypotheses (L : Libm) :
  rectangular 1 (inf_data L) /\
  infinity_in (A := F64 L) infinite_float (firstn 3 (inf_data L)) 1%Z /\
  infinity_in (A := F64 L) infinite_float (firstn 5 (inf_data L)) 1%Z /\
  labelled 1%Z (firstn 3 (inf_data L)) = 1 /\ labelled 1%Z (firstn 5 (inf_data L)) = 2 /\
  number_of_labels (firstn 3 (inf_data L)) = 2.
Proof.
  repeat split.
  - intros x l H. simpl in H. repeat destruct H as [H|H]; inversion H; reflexivity.
  - exists [S754_infinity false], (S754_infinity false). simpl. unfold infinite_float. auto.
  - exists [S754_infinity false], (S754_infinity false). simpl. unfold infinite_float. auto.
Qed.
Example C76_values (L : Libm) (c : kind) : c = kCH \/ c = kWB \/ c = kcSIL ->
  map (fun r => match r with Ok v => dnan v | Err _ => false end) (results c new_obj (stream (inf_data L))) =
  [false; false; true; true; true; true].
Proof. intros [-> | [-> | ->]]; vm_compute; reflexivity. Qed.

(** *** DB, XB, GD43 and GD53 *)
(** with the same data: the third and the fourth values are not nan.  The third
    value is the best possible one (0) for DB and XB and for GD43 (infinity); the
    fourth, with three clusters, is an ordinary number *)
Theorem C76_refuted (L : Libm) (c : kind) : needs_a_second_sample c ->
  map (fun r => match r with Ok v => dnan v | Err _ => true end) (results c new_obj (stream (inf_data L))) =
  [false; false; false; false; true; true].
Proof. intros [-> | [-> | [-> | ->]]]; vm_compute; reflexivity. Qed.
Print Assumptions C76_refuted.
Theorem C76_refuted_values (L : Libm) :
  nth_error (results kDB new_obj (stream (inf_data L))) 2 = Some (Ok (d_of_Z 0)) /\
  nth_error (results kXB new_obj (stream (inf_data L))) 2 = Some (Ok (d_of_Z 0)) /\
  nth_error (results kGD43 new_obj (stream (inf_data L))) 2 = Some (Ok (S754_infinity false)) /\
  nth_error (results kGD53 new_obj (stream (inf_data L))) 2 = Some (Ok (ddiv (ddiv (d_of_Z 2) (d_of_Z 3)) (d_of_Z 2))) /\
  nth_error (results kDB new_obj (stream (inf_data L))) 3 = Some (Ok (ddiv (d_of_Z 1) (d_of_Z 24))) /\
  nth_error (results kXB new_obj (stream (inf_data L))) 3 = Some (Ok (ddiv (d_of_Z 1) (d_of_Z 32))) /\
  nth_error (results kGD43 new_obj (stream (inf_data L))) 3 = Some (Ok (d_of_Z 2)) /\
  nth_error (results kGD53 new_obj (stream (inf_data L))) 3 = Some (Ok (d_of_Z 0)).
Proof. repeat split; vm_compute; reflexivity. Qed.
Print Assumptions C76_refuted_values.

(** ** C76: one batch call, eight classes *)
Theorem C76_batches_binary64 (L : Libm) (S : Sums) (c : kind) (d k : nat) (s : list (vec (F64o L S) * Z)) (v : F (F64o L S)) :
  any_order S -> exp_nan L -> rectangular d s -> c <> krCIP -> 2 <= k ->
  (forall z, In z (map snd s) <-> (0 <= z < Z.of_nat k)%Z) ->
  (exists l, infinity_in (A := F64o L S) infinite_float s l) ->
  results c new_obj [batch_of d s] = [Ok v] -> v = S754_nan.
Proof.
  intros HS HL Hr Hc Hk Hl [l Hn] Hv.
  exact (c76_batch _ (F64_absorbing L S HS HL) _ _ _ _ (F64_infinite L S HS) _ infinite_wild c d k s v l Hr Hc Hk Hl Hn Hv).
Qed.
Print Assumptions C76_batches_binary64.
Theorem C76_batches_exact (c : kind) (d k : nat) (s : list (vec XR * Z)) (v : F XR) :
  rectangular d s -> c <> krCIP -> 2 <= k ->
  (forall z, In z (map snd s) <-> (0 <= z < Z.of_nat k)%Z) ->
  (exists l, infinity_in (A := XR) infinite_exact s l) ->
  results c new_obj [batch_of d s] = [Ok v] -> v = NaN.
Proof.
  intros Hr Hc Hk Hl [l Hn] Hv.
  exact (c76_batch _ XR_absorbing _ _ _ _ XR_infinite _ infinite_wild_exact c d k s v l Hr Hc Hk Hl Hn Hv).
Qed.
Print Assumptions C76_batches_exact.
(** the first four samples of the refutation, as a batch *)
Example C76_batch_hypotheses (L : Libm) :
  let s := firstn 4 (inf_data L) in
  rectangular 1 s /\ (forall z, In z (map snd s) <-> (0 <= z < Z.of_nat 3)%Z) /\
  infinity_in (A := F64 L) infinite_float s 1%Z /\
  map (fun c => map (fun r => match r with Ok v => dnan v | Err _ => false end) (results c new_obj [batch_of (A := F64 L) 1 s]))
      [kCH; kWB; kDB; kXB; kGD43; kGD53; kcSIL] = repeat [true] 7.
Proof.
  split; [|split; [|split]].
  - intros x l H. simpl in H. repeat destruct H as [H|H]; inversion H; reflexivity.
  - intros z. cbn [firstn inf_data map snd In]. split; [lia|]. intros H.
    assert (z = 0 \/ z = 1 \/ z = 2)%Z as [-> | [-> | ->]] by lia; auto.
  - exists [S754_infinity false], (S754_infinity false). simpl. unfold infinite_float. auto.
  - vm_compute. reflexivity.
Qed.
