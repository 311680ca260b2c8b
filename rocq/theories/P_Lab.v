(** * C83: labels of samples need not be integers

    [M_Lab.v]: the label map and [get_cvi] for labels of any type.  Only which
    labels the dict takes for the same matters: a history gives what the history
    with the labels replaced by numbers gives.  [pysame] says it of Python's own
    numbers and strings; a nan read from an array is a new label every time. *)
From Coq Require Import ZArith QArith List Arith Bool Lia String.
From Verif Require Import Num NumPy Base GetCvi Lists Stream Generic F64 P_Calls.
From Verif Require Import M_Lab.
Import ListNotations.
Local Notation length := List.length.
Local Open Scope nat_scope.

(** the labels that occur in a history *)
Definition k_labels {A : Arith} {K} (h : list (data_arg A * k_arg K)) : list K :=
  flat_map (fun q => match snd q with KLab k => [k] | KLabs _ => [] end) h.
(** the same history with numbers for labels *)
Definition number_call {A : Arith} {K} (f : K -> Z) (q : data_arg A * k_arg K) : call A :=
  (fst q, match snd q with KLab k => Lab (f k) | KLabs ls => Labs ls end).

Section Sim.
  Context {A : Arith} {K : Type} (same : K -> K -> bool) (f : K -> Z) (ks : list K).
  Hypothesis Hf : forall a b, In a ks -> In b ks -> same a b = Z.eqb (f a) (f b).
  Definition nmap (m : list (K * nat)) : labelmap := map (fun p => (f (fst p), snd p)) m.
  Definition nobj (o : kobj A K) : obj A := mkObj (nmap (k_map o)) (k_at o).
  Definition keys_in (o : kobj A K) : Prop := incl (map fst (k_map o)) ks.

  Lemma nmap_lookup m l : incl (map fst m) ks -> In l ks -> lm_lookup (nmap m) (f l) = k_lookup same m l.
  Proof.
    intros Hm Hl. induction m as [|[k i] m IH]; [reflexivity|]. cbn [nmap map fst snd lm_lookup k_lookup].
    rewrite (Hf k l) by (auto; apply Hm; now left). destruct (Z.eqb (f k) (f l)); [reflexivity|].
    apply IH. intros z Hz. apply Hm. now right.
  Qed.
  Lemma nmap_get m l : incl (map fst m) ks -> In l ks ->
    get_internal_label (nmap m) (f l) = (fst (k_get_internal_label same m l), nmap (snd (k_get_internal_label same m l))) /\
    incl (map fst (snd (k_get_internal_label same m l))) ks.
  Proof.
    intros Hm Hl. unfold get_internal_label, k_get_internal_label. rewrite (nmap_lookup m l Hm Hl).
    destruct (k_lookup same m l); cbn [fst snd]; [auto|]. split.
    - unfold nmap. now rewrite map_app, map_length.
    - rewrite map_app. apply incl_app; [exact Hm|]. intros z [<-|[]]. exact Hl.
  Qed.
  Lemma sim_update c o d l : keys_in o -> (forall k, l = KLab k -> In k ks) ->
    update c (nobj o) d (snd (number_call f (d, l))) =
      (nobj (fst (k_update same c o d l)), snd (k_update same c o d l)) /\ keys_in (fst (k_update same c o d l)).
  Proof.
    intros Ho Hl. destruct o as [m a]. destruct d as [x|mm|n], l as [k|ls]; cbn [number_call snd fst update k_update nobj k_map k_at at_ label_map];
      try (split; [reflexivity|exact Ho]).
    - destruct (nmap_get m k Ho (Hl k eq_refl)) as [E1 E2]. rewrite E1.
      destruct (k_get_internal_label same m k) as [i m']. cbn [fst snd] in *.
      destruct (param_inc c x i a) as [a' r]. split; [reflexivity|exact E2].
    - destruct (is_setup a); split; try reflexivity; exact Ho.
    - cbn [unique_labels]. destruct (is_setup a); [split; [reflexivity|exact Ho]|].
      destruct (negb (1 <? n_unique ls)); [split; [reflexivity|exact Ho]|].
      destruct (param_batch c mm ls a) as [a' r]. split; [reflexivity|exact Ho].
  Qed.
  Lemma sim_call c o d l : keys_in o -> (forall k, l = KLab k -> In k ks) ->
    get_cvi c (nobj o) d (snd (number_call f (d, l))) =
      (nobj (fst (k_get_cvi same c o d l)), snd (k_get_cvi same c o d l)) /\ keys_in (fst (k_get_cvi same c o d l)).
  Proof.
    intros Ho Hl. destruct (sim_update c o d l Ho Hl) as [E1 E2]. unfold get_cvi, k_get_cvi. rewrite E1.
    destruct (k_update same c o d l) as [o1 [u|e]]; cbn [fst snd] in *; [|auto].
    change (at_ (nobj o1)) with (k_at o1). destruct (evaluate c (k_at o1)) as [a2 [u'|e]]; split; try reflexivity; exact E2.
  Qed.
  Lemma sim_run c h : forall o, keys_in o -> incl (k_labels h) ks ->
    run c (nobj o) (map (number_call f) h) = (nobj (fst (k_run same c o h)), snd (k_run same c o h)).
  Proof.
    induction h as [|[d l] h IH]; intros o Ho Hh; [reflexivity|].
    assert (Hl : forall k, l = KLab k -> In k ks) by (intros k ->; apply Hh; now left).
    assert (Hh' : incl (k_labels h) ks).
    { intros z Hz. apply Hh. unfold k_labels. cbn [flat_map]. apply in_or_app. now right. }
    destruct (sim_call c o d l Ho Hl) as [E1 E2]. cbn [map run k_run].
    unfold number_call in E1 |- * at 1. cbn [fst snd] in E1 |- *. rewrite E1.
    destruct (k_get_cvi same c o d l) as [o1 r]. cbn [fst snd] in *. rewrite (IH o1 E2 Hh').
    now destruct (k_run same c o1 h) as [o2 rs].
  Qed.
End Sim.

(** Any numbering that gives two labels of the history the same number exactly
    when the dict takes them for the same: same results, same attributes. *)
Theorem C83_any_labels (A : Arith) (K : Type) (same : K -> K -> bool) (f : K -> Z) (c : kind) (h : list (data_arg A * k_arg K)) :
  (forall a b, In a (k_labels h) -> In b (k_labels h) -> same a b = Z.eqb (f a) (f b)) ->
  snd (k_run same c k_new h) = results c new_obj (map (number_call f) h) /\
  k_at (fst (k_run same c k_new h)) = at_ (after c new_obj (map (number_call f) h)).
Proof.
  intros Hf. pose proof (sim_run same f (k_labels h) Hf c h k_new ltac:(intros z []) (incl_refl _)) as E.
  unfold results, after. change new_obj with (nobj f (k_new (A := A) (K := K))). rewrite E. auto.
Qed.
Print Assumptions C83_any_labels.

(** ** Such a numbering exists whenever [same] is an equivalence *)
Fixpoint position {K} (same : K -> K -> bool) (ks : list K) (l : K) : nat :=
  match ks with [] => 0 | k :: ks' => if same k l then 0 else S (position same ks' l) end.
Lemma position_same {K} (same : K -> K -> bool) ks a b :
  (forall x, same x x = true) -> (forall x y, same x y = true -> same y x = true) ->
  (forall x y z, same x y = true -> same y z = true -> same x z = true) ->
  In a ks -> In b ks -> same a b = Z.eqb (Z.of_nat (position same ks a)) (Z.of_nat (position same ks b)).
Proof.
  intros Rf Sy Tr. induction ks as [|k ks IH]; [intros []|]. intros Ha Hb. cbn [position].
  destruct (same k a) eqn:Ea, (same k b) eqn:Eb.
  - cbn. now apply Tr with k; auto.
  - replace (Z.eqb _ _) with false by (symmetry; apply Z.eqb_neq; lia). destruct (same a b) eqn:E; auto.
    rewrite (Tr k a b Ea E) in Eb. discriminate.
  - replace (Z.eqb _ _) with false by (symmetry; apply Z.eqb_neq; lia). destruct (same a b) eqn:E; auto.
    rewrite (Tr k b a Eb (Sy _ _ E)) in Ea. discriminate.
  - assert (Ha' : In a ks) by (destruct Ha as [->|]; auto; rewrite Rf in Ea; discriminate).
    assert (Hb' : In b ks) by (destruct Hb as [->|]; auto; rewrite Rf in Eb; discriminate).
    rewrite (IH Ha' Hb'), !Nat2Z.inj_succ. destruct (Z.eqb_spec (Z.of_nat (position same ks a)) (Z.of_nat (position same ks b))) as [E|E].
    + rewrite E. symmetry. apply Z.eqb_refl.
    + symmetry. apply Z.eqb_neq. lia.
Qed.

(** ** Python's labels *)
Lemma pysame_refl a : pysame a a = true.
Proof.
  destruct a; cbn; try apply Qeq_bool_iff; try reflexivity; [now destruct negative|apply Nat.eqb_refl|apply String.eqb_refl].
Qed.
Lemma pysame_sym a b : pysame a b = true -> pysame b a = true.
Proof.
  destruct a, b; cbn; auto; rewrite ?Qeq_bool_iff, ?Nat.eqb_eq, ?String.eqb_eq, ?Bool.eqb_true_iff; try (intros; now symmetry); discriminate.
Qed.
Lemma pysame_trans a b c : pysame a b = true -> pysame b c = true -> pysame a c = true.
Proof.
  destruct a, b; cbn; try discriminate; destruct c; cbn; try discriminate;
    rewrite ?Qeq_bool_iff, ?Nat.eqb_eq, ?String.eqb_eq, ?Bool.eqb_true_iff; intros; try (etransitivity; eassumption).
Qed.
(** the number of a label in a history: where a label the same as it occurs first *)
Definition number_of (ks : list pylabel) (l : pylabel) : Z := Z.of_nat (position pysame ks l).

(** Every history of calls on an object, with any Python labels: the results are
    those of integer labels, equal exactly for labels that are the same. *)
Theorem C83_python_labels (A : Arith) (c : kind) (h : list (data_arg A * k_arg pylabel)) :
  let f := number_of (k_labels h) in
  snd (k_run pysame c k_new h) = results c new_obj (map (number_call f) h) /\
  k_at (fst (k_run pysame c k_new h)) = at_ (after c new_obj (map (number_call f) h)) /\
  forall a b, In a (k_labels h) -> In b (k_labels h) -> (f a = f b <-> pysame a b = true).
Proof.
  intros f. assert (Hf : forall a b, In a (k_labels h) -> In b (k_labels h) -> pysame a b = Z.eqb (f a) (f b)).
  { intros a b Ha Hb. apply position_same; auto using pysame_refl, pysame_sym. intros x y z. apply pysame_trans. }
  destruct (C83_any_labels A pylabel pysame f c h Hf) as [E1 E2]. split; [exact E1|]. split; [exact E2|].
  intros a b Ha Hb. rewrite (Hf a b Ha Hb). symmetry. apply Z.eqb_eq.
Qed.
Print Assumptions C83_python_labels.

(** one sample at a time, with any labels *)
Definition k_stream {A : Arith} {K} (s : list (vec A * K)) : list (data_arg A * k_arg K) :=
  map (fun p => (Vec (fst p), KLab (snd p))) s.
Lemma k_stream_labels {A : Arith} {K} (s : list (vec A * K)) : k_labels (k_stream s) = map snd s.
Proof. induction s as [|p s IH]; [reflexivity|]. unfold k_labels, k_stream in *. cbn [map flat_map snd app]. now rewrite IH. Qed.
Lemma k_stream_number {A : Arith} {K} (f : K -> Z) (s : list (vec A * K)) :
  map (number_call f) (k_stream s) = stream (map (fun p => (fst p, f (snd p))) s).
Proof. unfold k_stream, stream. rewrite !map_map. reflexivity. Qed.

(** A nan that is an object of its own opens a cluster, whatever came before and
    however many nans: the sizes of the other clusters stay as they are. *)
Theorem C83_fresh_nan (A : Arith) (c : kind) (d : nat) (s : list (vec A * pylabel)) (x : vec A) (id : nat) :
  Forall (fun p => length (fst p) = d) s -> length x = d -> (c = krCIP -> d <> 0 /\ inv_accepts (A := A)) ->
  ~ In (PyNan id) (map snd s) ->
  let before := k_at (fst (k_run pysame c k_new (k_stream s))) in
  let behind := k_at (fst (k_run pysame c k_new (k_stream (s ++ [(x, PyNan id)])))) in
  n_clusters behind = S (n_clusters before) /\ n behind = n before ++ [1].
Proof.
  intros Hs Hx Hc Hid before behind. set (t := s ++ [(x, PyNan id)]) in *. set (f := number_of (k_labels (k_stream t))).
  assert (Hf : forall a b, In a (k_labels (k_stream t)) -> In b (k_labels (k_stream t)) -> pysame a b = Z.eqb (f a) (f b)).
  { intros a b Ha Hb. apply position_same; auto using pysame_refl, pysame_sym. intros u y z. apply pysame_trans. }
  assert (Hi : incl (k_labels (k_stream s)) (k_labels (k_stream t))).
  { rewrite !k_stream_labels. unfold t. rewrite map_app. intros z Hz. apply in_or_app. now left. }
  destruct (C83_any_labels A pylabel pysame f c (k_stream t) Hf) as [_ E2].
  destruct (C83_any_labels A pylabel pysame f c (k_stream s) (fun a b Ha Hb => Hf a b (Hi a Ha) (Hi b Hb))) as [_ E1].
  unfold before, behind. rewrite E1, E2, !k_stream_number. clear E1 E2 before behind.
  set (s' := map (fun p => (fst p, f (snd p))) s). set (z := f (PyNan id)).
  assert (Et : map (fun p => (fst p, f (snd p))) t = s' ++ [(x, z)]) by (unfold t, s'; rewrite map_app; reflexivity).
  rewrite Et.
  assert (R1 : rectangular d s').
  { apply rectangular_wf. unfold wf_stream, s'. apply Forall_map. exact Hs. }
  assert (R2 : rectangular d (s' ++ [(x, z)])).
  { apply rectangular_wf. apply Forall_app. split; [now apply rectangular_wf in R1|]. constructor; auto. }
  assert (Hz : ~ In z (map snd s')).
  { unfold s'. rewrite map_map. cbn [snd]. intros Hin. apply in_map_iff in Hin as (p & E & Hp).
    assert (P : pysame (snd p) (PyNan id) = true).
    { rewrite Hf; [apply Z.eqb_eq; exact E| |]; rewrite k_stream_labels; unfold t; rewrite map_app; apply in_or_app.
      - left. now apply in_map.
      - right. now left. }
    apply Hid. apply in_map_iff. exists p. split; auto. destruct (snd p); cbn in P; try discriminate. apply Nat.eqb_eq in P. now subst. }
  destruct (C20_samples_counted_once A c d s' R1 Hc) as (A1 & _ & A3 & _).
  destruct (C20_samples_counted_once A c d (s' ++ [(x, z)]) R2 Hc) as (B1 & _ & B3 & _). cbv zeta in *.
  rewrite <- order_first_seen in A3, B3. rewrite A1, B1, A3, B3. rewrite map_app. cbn [map snd].
  rewrite <- !first_seen_length, first_seen_snoc. unfold add_label.
  destruct (in_dec Z.eq_dec z (first_seen (map snd s'))) as [Hin|_]; [exfalso; exact (Hz (proj1 (first_seen_In _ _) Hin))|].
  split; [rewrite app_length; cbn; lia|]. rewrite map_app. cbn [map]. f_equal.
  - apply map_ext_in. intros y Hy. apply (proj1 (first_seen_In _ _)) in Hy. rewrite count_occ_app. cbn [count_occ].
    destruct (Z.eq_dec z y) as [->|]; [exfalso; exact (Hz Hy)|lia].
  - rewrite count_occ_app. cbn [count_occ]. destruct (Z.eq_dec z z); [|congruence].
    rewrite (proj1 (count_occ_not_In Z.eq_dec (map snd s') z) Hz). reflexivity.
Qed.
Print Assumptions C83_fresh_nan.

(** So the missing labels of a column do not name one cluster: labels 1.0, nan,
    nan, 1.0 read from an array give three clusters, in every class and whatever
    the numbers; [math.nan] passed twice, two. *)
Theorem C83_missing_labels_refuted (L : Libm) : exists (s : list (vec (F64 L) * pylabel)),
  map snd s = [PyFloat 1 0; PyNan 0; PyNan 1; PyFloat 1 0] /\
  forall c, c <> krCIP -> n (k_at (fst (k_run pysame c k_new (k_stream s)))) = [2; 1; 1] /\
  n (k_at (fst (k_run pysame c k_new (k_stream (map (fun p => (fst p, match snd p with PyNan _ => PyNan 0 | l => l end)) s))))) = [2; 2].
Proof.
  exists (combine (map (fun z => [f_of_Z (a := F64 L) z]) [0; 4; 6; 1]%Z) [PyFloat 1 0; PyNan 0; PyNan 1; PyFloat 1 0]).
  split; [reflexivity|]. intros c Hc. split.
  - destruct c; try congruence; vm_compute; reflexivity.
  - destruct c; try congruence; vm_compute; reflexivity.
Qed.
Print Assumptions C83_missing_labels_refuted.

(** 1, True and 1.0 are one label; 1/2 (m = 1, e = -1), "1", inf and a nan are others *)
Example C83_examples :
  pysame (PyInt 1) (PyBool true) = true /\ pysame (PyBool true) (PyFloat 1 0) = true /\ pysame (PyFloat 2 (-1)) (PyInt 1) = true /\
  pysame (PyFloat 1 (-1)) (PyInt 1) = false /\ pysame (PyInt 1) (PyStr "1") = false /\
  pysame (PyInf false) (PyInf false) = true /\ pysame (PyNan 0) (PyNan 0) = true /\ pysame (PyNan 0) (PyNan 1) = false.
Proof. repeat split. Qed.
Example C83_stream (L : Libm) :
  let x z := [f_of_Z (a := F64 L) z] in
  let s := [(x 0, PyStr "a"); (x 4, PyBool true); (x 6, PyFloat 1 0); (x 2, PyStr "a"); (x 9, PyInt 1)]%Z in
  map (number_of (map snd s)) (map snd s) = [0; 1; 1; 0; 1]%Z /\
  snd (k_run pysame kWB k_new (k_stream s)) = results kWB new_obj (stream (map (fun p => (fst p, number_of (map snd s) (snd p))) s)).
Proof. split; vm_compute; reflexivity. Qed.
