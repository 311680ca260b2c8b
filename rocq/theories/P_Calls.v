(** * Properties of call histories, for every class and every arithmetic

    C11, C14, C15, C16, C18, C19, C20.  [A] is any arithmetic: no law of
    numbers is used, so the statements hold for IEEE floats as well. *)
From Coq Require Import ZArith List Arith Bool Lia SpecFloat.
From Verif Require Import Num NumPy Base GetCvi Lists Hoare Stream Shapes Generic F64.
Import ListNotations.

(** ** Specification vocabulary *)
Section Spec.
  Context {A : Arith}.
  (** some call of the history [h] on a fresh object returned *)
  Definition used (c : kind) (h : list (call A)) : Prop :=
    exists i x, nth_error (results c new_obj h) i = Some (Ok x).
  Definition distinct_labels (l : label_arg) : nat :=
    match l with Lab _ => 1 | Labs ls => length (nodup Z.eq_dec ls) end.
  (** calls the dispatcher must reject *)
  Inductive rejected (u : Prop) : call A -> Prop :=
  | rej_ndim k l : rejected u (Nd k, l)
  | rej_labels m l : distinct_labels l <= 1 -> rejected u (Mat m, l)
  | rej_used m l : u -> rejected u (Mat m, l).
  (** all samples have [d] features *)
  Definition rectangular (d : nat) (s : list (vec A * Z)) : Prop :=
    forall x l, In (x, l) s -> length x = d.
  (** np.linalg.inv accepts every matrix *)
  Definition inv_accepts : Prop :=
    forall m : list (vec A), exists r, np_inv m = Some r /\ length r = length m.
  (** the labels of the samples in order of first appearance *)
  Fixpoint order_of_appearance (seen : list Z) (ls : list Z) : list Z :=
    match ls with
    | [] => []
    | l :: ls' => if in_dec Z.eq_dec l seen then order_of_appearance seen ls'
                  else l :: order_of_appearance (l :: seen) ls'
    end.
End Spec.

(** ** Lemmas linking the vocabulary to the development *)
Section Link.
  Context {A : Arith}.
  Lemma results_split c (o : obj A) h i r : nth_error (results c o h) i = Some r ->
    exists h1 k h2, h = h1 ++ k :: h2 /\ length h1 = i /\ r = snd (get_cvi c (after c o h1) (fst k) (snd k)).
  Proof.
    revert o i; induction h as [|[d l] h IH]; intros o i H.
    - destruct i; discriminate.
    - unfold results in H. simpl in H. destruct (get_cvi c o d l) as [o1 r1] eqn:E.
      destruct (run c o1 h) as [o2 rs] eqn:Er. cbn [snd] in H. destruct i as [|i].
      + inversion H; subst. exists [], (d, l), h. repeat split. unfold after. simpl. now rewrite E.
      + cbn [nth_error] in H. destruct (IH o1 i) as (h1 & k & h2 & -> & <- & ->).
        { unfold results. now rewrite Er. }
        exists ((d, l) :: h1), k, h2. repeat split. rewrite after_cons, E. reflexivity.
  Qed.
  Lemma used_setup c (h : list (call A)) : used c h -> is_setup (at_ (after c new_obj h)) = true.
  Proof.
    intros (i & x & H). apply results_split in H as (h1 & k & h2 & -> & _ & H).
    eapply success_setup. symmetry; exact H.
  Qed.
  Lemma rectangular_wf d (s : list (vec A * Z)) : rectangular d s <-> wf_stream d s.
  Proof.
    unfold rectangular, wf_stream. rewrite Forall_forall. split.
    - intros H [x l] Hi. now apply (H x l).
    - intros H x l Hi. now apply (H (x, l)).
  Qed.
  Lemma order_firsts ls : forall acc seen, (forall l, In l seen <-> In l acc) ->
    fold_left add_label ls acc = acc ++ order_of_appearance seen ls.
  Proof.
    induction ls as [|l ls IH]; intros acc seen H; simpl; [now rewrite app_nil_r|].
    unfold add_label at 2. destruct (in_dec Z.eq_dec l acc) as [Hi|Hi];
      destruct (in_dec Z.eq_dec l seen) as [Hj|Hj].
    - now apply IH.
    - exfalso. apply Hj. now apply H.
    - exfalso. apply Hi. now apply H.
    - rewrite (IH (acc ++ [l]) (l :: seen)), <- app_assoc; auto.
      intros l'. rewrite in_app_iff. simpl. rewrite H. tauto.
  Qed.
  Lemma order_first_seen ls : first_seen ls = order_of_appearance [] ls.
  Proof. unfold first_seen. rewrite (order_firsts ls [] []); [reflexivity|tauto]. Qed.
  Lemma grp_count {X} (s : list (X * Z)) l : length (grp s l) = count_occ Z.eq_dec (map snd s) l.
  Proof.
    unfold grp. rewrite map_length. induction s as [|[x a] s IH]; auto. simpl.
    destruct (Z.eqb_spec a l) as [->|Hn]; destruct (Z.eq_dec _ _); simpl; congruence.
  Qed.
  Lemma c15 c (h1 h2 : list (call A)) bad : rejected (used c h1) bad ->
    results c new_obj (h1 ++ bad :: h2) =
    results c new_obj h1 ++ Err ValueError :: skipn (length h1) (results c new_obj (h1 ++ h2)).
  Proof.
    intros H. assert (E : get_cvi c (after c new_obj h1) (fst bad) (snd bad) = (after c new_obj h1, Err ValueError)).
    { inversion H; cbn [fst snd].
      - reflexivity.
      - apply few_labels_refused. destruct l; auto.
      - apply mat_refused. now apply used_setup. }
    destruct bad as [d l]. cbn [fst snd] in E. destruct (skip_call c new_obj h1 d l _ h2 E) as [HR _].
    etransitivity; [exact HR|].
    do 2 f_equal. rewrite results_app, skipn_app, results_length, Nat.sub_diag, skipn_O.
    now rewrite skipn_all2 by (rewrite results_length; lia).
  Qed.
  Lemma c18 c d (s : list (vec A * Z)) : rectangular d s -> (c = krCIP -> d <> 0 /\ inv_accepts (A := A)) ->
    exists vals, results c new_obj (stream s) = map Ok vals.
  Proof.
    intros Hr HI. apply rectangular_wf in Hr. destruct (run_wf c d s HI Hr) as (a & vals & E & _).
    exists vals. unfold results. now rewrite E.
  Qed.
  Lemma c20 c d (s : list (vec A * Z)) : rectangular d s -> (c = krCIP -> d <> 0 /\ inv_accepts (A := A)) ->
    let o := after c new_obj (stream s) in
    let ls := order_of_appearance [] (map snd s) in
    n_clusters (at_ o) = length (nodup Z.eq_dec (map snd s)) /\
    n_samples (at_ o) = length s /\
    n (at_ o) = map (count_occ Z.eq_dec (map snd s)) ls /\
    label_map o = combine ls (seq 0 (length ls)).
  Proof.
    intros Hr HI o ls. apply rectangular_wf in Hr. destruct (run_wf c d s HI Hr) as (a & vals & E & _ & [C1 C2 C3]).
    assert (Eo : o = mkObj (lmap (firsts s)) a) by (unfold o, after; now rewrite E).
    rewrite Eo. cbn [at_ label_map]. unfold ls. rewrite <- order_first_seen. repeat split; auto.
    - rewrite C1. apply first_seen_length.
    - rewrite C3. apply map_ext. intros l. apply grp_count.
  Qed.
  Lemma c14_values c (s : list (vec A * Z)) l : (forall x l', In (x, l') s -> l' = l) ->
    forall i v, nth_error (results c new_obj (stream s)) i = Some (Ok v) -> v = f0.
  Proof.
    intros H i v Hi. assert (Hs : Forall (fun p => snd p = l) s).
    { apply Forall_forall. intros [x l'] Hin. eapply H, Hin. }
    pose proof (one_label c l new_obj s (one_cluster_new c l) Hs) as HF.
    rewrite Forall_forall in HF. eapply HF; [|reflexivity]. eapply nth_error_In, Hi.
  Qed.
  Lemma c14_prefix c (s : list (vec A * Z)) l j : (forall x l', In (x, l') (firstn j s) -> l' = l) ->
    forall i v, i < j -> nth_error (results c new_obj (stream s)) i = Some (Ok v) -> v = f0.
  Proof.
    intros H i v Hij Hi. eapply (c14_values c (firstn j s) l H i). rewrite <- (firstn_skipn j s), stream_app, results_app in Hi.
    rewrite nth_error_app1 in Hi; auto.
    rewrite results_length. unfold stream. rewrite map_length.
    assert (L : i < length (results c new_obj (stream s))).
    { apply nth_error_Some. rewrite <- (firstn_skipn j s), stream_app, results_app, Hi. discriminate. }
    rewrite results_length in L. unfold stream in L. rewrite map_length in L. rewrite firstn_length. lia.
  Qed.
  Lemma c14_wf c d (s : list (vec A * Z)) l : (forall x l', In (x, l') s -> l' = l) -> rectangular d s ->
    (c = krCIP -> d <> 0 /\ inv_accepts (A := A)) ->
    results c new_obj (stream s) = repeat (Ok f0) (length s).
  Proof.
    intros H Hr HI. destruct (c18 c d s Hr HI) as [vals E].
    assert (Hv : forall i v, nth_error vals i = Some v -> v = f0).
    { intros i v Hi. apply (c14_values c s l H i). rewrite E. now apply map_nth_error. }
    assert (L : length vals = length s).
    { rewrite <- (map_length (@Ok (F A)) vals), <- E, results_length. unfold stream. apply map_length. }
    rewrite E, <- L. clear -Hv. induction vals as [|v vals IH]; auto. simpl. f_equal.
    - f_equal. now apply (Hv 0).
    - apply IH. intros i w Hi. now apply (Hv (S i)).
  Qed.
End Link.

(** ** C11 *)
(** Renaming the labels of the one-sample calls by an injective map changes no
    result of any history, whatever the calls and the arithmetic. *)
Theorem C11_label_names_are_irrelevant (A : Arith) (c : kind) (f : Z -> Z) (h : list (call A)) :
  (forall a b, f a = f b -> a = b) ->
  results c new_obj (map (rename_call f) h) = results c new_obj h.
Proof. exact (rename_results c f h). Qed.
Print Assumptions C11_label_names_are_irrelevant.

Example C11_example (L : Libm) :
  let s := fs L [([1; 2], 0); ([4; 4], 1); ([4], 5); ([4; 6], 1)]%Z in
  (forall a b, 100 - a = 100 - b -> a = b)%Z /\
  map (rename_call (fun z => 100 - z)%Z) (stream s) =
    stream (fs L [([1; 2], 100); ([4; 4], 99); ([4], 95); ([4; 6], 99)]%Z) /\
  exists a b, results kWB new_obj (stream s) = [Ok a; Ok b; Err ValueError; Err IndexError].
Proof. split; [lia|]. split; [reflexivity|]. do 2 eexists. vm_compute. reflexivity. Qed.

(** ** C14 *)
(** As long as one label has been seen a call that returns, returns zero; on
    samples of equal length every call returns; a batch with a single label is
    refused. *)
Theorem C14_zero_until_second_label (A : Arith) (c : kind) (s : list (vec A * Z)) (l : Z) (j : nat) :
  (forall x l', In (x, l') (firstn j s) -> l' = l) ->
  forall i v, i < j -> nth_error (results c new_obj (stream s)) i = Some (Ok v) -> v = f0.
Proof. exact (c14_prefix c s l j). Qed.
Print Assumptions C14_zero_until_second_label.

Theorem C14_zero_stream (A : Arith) (c : kind) (d : nat) (s : list (vec A * Z)) (l : Z) :
  (forall x l', In (x, l') s -> l' = l) -> rectangular d s ->
  (c = krCIP -> d <> 0 /\ inv_accepts (A := A)) ->
  results c new_obj (stream s) = repeat (Ok f0) (length s).
Proof. exact (c14_wf c d s l). Qed.
Print Assumptions C14_zero_stream.

Theorem C14_batch_single_label (A : Arith) (c : kind) (o : obj A) (m : mat A) (ls : list Z) :
  length (nodup Z.eq_dec ls) <= 1 -> get_cvi c o (Mat m) (Labs ls) = (o, Err ValueError).
Proof. exact (few_labels_refused c o m (Labs ls)). Qed.
Print Assumptions C14_batch_single_label.

Example C14_example (L : Libm) :
  results kCH (new_obj (A := F64 L)) (stream (fs L [([1; 2], 7); ([3; 5], 7); ([9; 9], 8)]%Z))
  = [Ok f0; Ok f0; Ok (dyadic 4575772698321946 49 : F (F64 L))] /\
  length (nodup Z.eq_dec [7; 7; 7]%Z) <= 1.
Proof. split; [vm_compute; reflexivity|simpl; lia]. Qed.

(** ** C15 *)
Theorem C15_rejected_calls_have_no_effect (A : Arith) (c : kind) (h1 h2 : list (call A)) (bad : call A) :
  rejected (used c h1) bad ->
  results c new_obj (h1 ++ bad :: h2) =
  results c new_obj h1 ++ Err ValueError :: skipn (length h1) (results c new_obj (h1 ++ h2)).
Proof. exact (c15 c h1 h2 bad). Qed.
Print Assumptions C15_rejected_calls_have_no_effect.

Example C15_example (L : Libm) : let A := F64 L in
  let h1 := stream (fs L [([1; 2], 7); ([9; 9], 8)]%Z) in
  used kWB h1 /\
  rejected (A := A) (used kWB h1) (batch_of 2 (fs L [([1; 2], 0); ([9; 9], 1)]%Z)) /\
  rejected (A := A) (used (A := A) kWB []) (batch_of 2 (fs L [([1; 2], 3); ([9; 9], 3)]%Z)) /\
  rejected (A := A) (used (A := A) kWB []) (Nd 3, Labs [1; 2]%Z).
Proof.
  intros A h1.
  assert (U : used kWB h1) by (exists 1, (S754_zero false); vm_compute; reflexivity).
  split; [exact U|]. split; [now apply rej_used|]. split; [apply rej_labels; simpl; lia|apply rej_ndim].
Qed.

(** ** C16 *)
Theorem C16_used_objects_refuse_batches (A : Arith) (c : kind) (h : list (call A)) (m : mat A) (l : label_arg) :
  used c h ->
  get_cvi c (after c new_obj h) (Mat m) l = (after c new_obj h, Err ValueError).
Proof. intros H. exact (mat_refused c _ m l (used_setup c h H)). Qed.
Print Assumptions C16_used_objects_refuse_batches.

(** the hypothesis after a batch, after a sample, and after a sample followed by failing calls *)
Example C16_example (L : Libm) : let A := F64 L in
  used (A := A) kXB [batch_of 1 (fs L [([1], 0); ([9], 1); ([8], 1)]%Z)] /\
  used (A := A) kXB [(Vec (fv L [1]%Z), Lab 4%Z); (Nd 3, Lab 1%Z); (Vec (fv L [1]%Z), Labs [1%Z])].
Proof.
  split.
  - exists 0, (dyadic 6832127434707241 61). vm_compute. reflexivity.
  - exists 0, (S754_zero false). vm_compute. reflexivity.
Qed.

(** ** C18 *)
Theorem C18_rectangular_streams_never_raise (A : Arith) (c : kind) (d : nat) (s : list (vec A * Z)) :
  rectangular d s -> (c = krCIP -> d <> 0 /\ inv_accepts (A := A)) ->
  exists vals, results c new_obj (stream s) = map Ok vals.
Proof. exact (c18 c d s). Qed.
Print Assumptions C18_rectangular_streams_never_raise.

(** includes nan, inf, negative and repeated labels *)
Example C18_example (L : Libm) :
  rectangular (A := F64 L) 2 [([S754_nan; d_of_Z 2], -3); ([S754_infinity true; d_of_Z 2], 9); (fv L [1; 1], -3)]%Z.
Proof. intros x l H. simpl in H. repeat destruct H as [H|H]; inversion H; reflexivity. Qed.

(** ** C19 *)
Theorem C19_returned_value_is_attribute (A : Arith) (c : kind) (o o' : obj A) (d : data_arg A) (l : label_arg) (v : F A) :
  get_cvi c o d l = (o', Ok v) -> criterion_value (at_ o') = v.
Proof. exact (get_cvi_ok c o o' d l v). Qed.
Print Assumptions C19_returned_value_is_attribute.

Theorem C19_failing_call_keeps_value (A : Arith) (c : kind) (o o' : obj A) (d : data_arg A) (l : label_arg) (e : exn) :
  get_cvi c o d l = (o', Err e) -> criterion_value (at_ o') = criterion_value (at_ o).
Proof. exact (get_cvi_err c o o' d l e). Qed.
Print Assumptions C19_failing_call_keeps_value.

(** a call that fails half way through [_param_inc]: the cluster counter has moved, the value has not *)
Example C19_example (L : Libm) : let A := F64 L in
  let o := after kGD43 (new_obj (A := A)) (stream (fs L [([1; 2], 0); ([3; 3], 1); ([3; 4], 1)]%Z)) in
  let p := get_cvi kGD43 o (Vec (fv L [1]%Z)) (Lab 2%Z) in
  snd p = Err ValueError /\ n_clusters (at_ (fst p)) = 3 /\
  criterion_value (at_ (fst p)) = criterion_value (at_ o) /\ criterion_value (at_ o) <> f0.
Proof. vm_compute. repeat split. discriminate. Qed.

(** ** C20 *)
Theorem C20_samples_counted_once (A : Arith) (c : kind) (d : nat) (s : list (vec A * Z)) :
  rectangular d s -> (c = krCIP -> d <> 0 /\ inv_accepts (A := A)) ->
  let o := after c new_obj (stream s) in
  let ls := order_of_appearance [] (map snd s) in
  n_clusters (at_ o) = length (nodup Z.eq_dec (map snd s)) /\
  n_samples (at_ o) = length s /\
  n (at_ o) = map (count_occ Z.eq_dec (map snd s)) ls /\
  label_map o = combine ls (seq 0 (length ls)).
Proof. exact (c20 c d s). Qed.
Print Assumptions C20_samples_counted_once.

Example C20_example (L : Libm) :
  let s := fs L [([1; 2], 5); ([4; 4], 1); ([4; 4], 5); ([4; 6], 3); ([0; 0], 5)]%Z in
  rectangular 2 s /\
  order_of_appearance [] (map snd s) = [5; 1; 3]%Z /\
  map (count_occ Z.eq_dec (map snd s)) [5; 1; 3]%Z = [3; 1; 1].
Proof.
  split; [|split; reflexivity].
  intros x l H. simpl in H. repeat destruct H as [H|H]; inversion H; reflexivity.
Qed.
