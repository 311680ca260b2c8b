(** * Samples of the wrong length: C21 and C22.

    Neither holds of the code as stated.  Each is refuted, and the theorems
    around the refutation say what happens to every sample of the wrong length,
    in every class and every arithmetic. *)
From Coq Require Import ZArith List Arith Bool Lia SpecFloat.
From Verif Require Import Num NumPy Base GetCvi Lists Hoare Stream Shapes Generic WrongLen F64 P_Calls.
Import ListNotations.

(** ** Specification vocabulary *)
Section Spec.
  Context {A : Arith}.
  (** the answer to the sample [x] labelled [l] presented after the stream [s] *)
  Definition answer (c : kind) (s : list (vec A * Z)) (x : vec A) (l : Z) : E (F A) :=
    snd (get_cvi c (after c new_obj (stream s)) (Vec x) (Lab l)).
  Definition is_error {X} (r : E X) : Prop := exists e, r = Err e.
  (** the results of the calls [h] presented after the stream [s] *)
  Definition then_results (c : kind) (s : list (vec A * Z)) (h : list (call A)) : list (E (F A)) :=
    skipn (length s) (results c new_obj (stream s ++ h)).
  (** the same with the sample [x] labelled [l] presented in between, its own answer left out *)
  Definition results_past (c : kind) (s : list (vec A * Z)) (x : vec A) (l : Z) (h : list (call A)) : list (E (F A)) :=
    skipn (S (length s)) (results c new_obj (stream s ++ (Vec x, Lab l) :: h)).
  (** the calls of a history that present single samples use the given labels only *)
  Definition uses_labels (ls : list Z) (h : list (call A)) : Prop :=
    forall x l, In (Vec x, Lab l) h -> In l ls.
End Spec.

Section Link.
  Context {A : Arith}.
  Lemma then_after c (s : list (vec A * Z)) h : then_results c s h = results c (after c new_obj (stream s)) h.
  Proof.
    unfold then_results. rewrite results_app, skipn_app, results_length. unfold stream at 2. rewrite map_length, Nat.sub_diag, skipn_O.
    rewrite skipn_all2; [reflexivity|]. rewrite results_length. unfold stream. rewrite map_length. lia.
  Qed.
  Lemma past_after c (s : list (vec A * Z)) x l h :
    results_past c s x l h = results c (fst (get_cvi c (after c new_obj (stream s)) (Vec x) (Lab l))) h.
  Proof.
    unfold results_past. rewrite results_app, skipn_app, results_length. unfold stream at 2. rewrite map_length.
    replace (S (length s) - length s) with 1 by lia.
    rewrite skipn_all2 by (rewrite results_length; unfold stream; rewrite map_length; lia). cbn [app].
    unfold results. cbn [run]. destruct (get_cvi c (after c new_obj (stream s)) (Vec x) (Lab l)) as [o1 r]. cbn [fst].
    now destruct (run c o1 h).
  Qed.
  Lemma c22 c d (s : list (vec A * Z)) x l : rectangular d s -> s <> [] -> (c = krCIP -> d <> 0 /\ inv_accepts (A := A)) ->
    length x <> d -> (is_error (answer c s x l) <-> ~ In l (map snd s) \/ length x <> 1).
  Proof.
    intros Hr Hs HI Hx. apply rectangular_wf in Hr. split.
    - intros [e He]. destruct (in_dec Z.eq_dec l (map snd s)) as [Hin|Hin]; auto. right. intros H1.
      destruct x as [|y [|]]; try discriminate. destruct (one_known_ok c d s y l HI Hr Hin) as [r Er].
      unfold answer in He. congruence.
    - intros H. unfold is_error, answer. apply (wrong_raises c d); auto.
  Qed.
  Lemma c21_known c d (s : list (vec A * Z)) x l h : rectangular d s -> In l (map snd s) -> (c = krCIP -> d <> 0 /\ inv_accepts (A := A)) ->
    d <> 1 -> length x <> d -> length x <> 1 ->
    answer c s x l = Err ValueError /\ results_past c s x l h = then_results c s h.
  Proof.
    intros Hr Hl HI Hd Hx Hx1. apply rectangular_wf in Hr. pose proof (known_no_trace c d s x l HI Hr Hl Hd Hx Hx1) as E.
    unfold answer. rewrite past_after, then_after, E. auto.
  Qed.
  Lemma uses_known ls (h : list (call A)) : uses_labels ls h -> Forall (known_call ls) h.
  Proof.
    intros H. apply Forall_forall. intros [[x|m|k] [l|l]] Hin; simpl; auto. now apply (H x l).
  Qed.
  Lemma c21_new c d (s : list (vec A * Z)) x l h y h2 : rectangular d s -> s <> [] -> ~ In l (map snd s) ->
    (c = krCIP -> d <> 0 /\ inv_accepts (A := A)) -> d <> 1 -> length x <> d -> length x <> 1 ->
    uses_labels (map snd s) h ->
    answer c s x l = Err ValueError /\
    results_past c s x l h = then_results c s h /\
    results_past c s x l (h ++ (Vec y, Lab l) :: h2) = then_results c s (h ++ (Vec y, Lab l) :: h2).
  Proof.
    intros Hr Hs Hl HI Hd Hx Hx1 Hh. apply rectangular_wf in Hr. apply uses_known in Hh.
    pose proof (new_only_label c d s x l HI Hr Hs Hl Hd Hx Hx1) as E.
    destruct (new_same_run c d s x l h y h2 HI Hr Hs Hl Hd Hx Hx1 Hh) as [H1 H2].
    split; [unfold answer; now rewrite E|]. rewrite !then_after. unfold results_past. split.
    - rewrite H1, skipn_app, results_length. unfold stream at 2. rewrite map_length. replace (S (length s) - length s) with 1 by lia.
      rewrite skipn_all2 by (rewrite results_length; unfold stream; rewrite map_length; lia). reflexivity.
    - rewrite H2, skipn_app, results_length. unfold stream at 2. rewrite map_length. replace (S (length s) - length s) with 1 by lia.
      rewrite skipn_all2 by (rewrite results_length; unfold stream; rewrite map_length; lia). reflexivity.
  Qed.
  Lemma c21_next c d (s : list (vec A * Z)) x l y l2 : c <> kCH -> c <> kWB -> rectangular d s -> s <> [] ->
    (c = krCIP -> d <> 0 /\ inv_accepts (A := A)) ->
    ~ In l (map snd s) -> ~ In l2 (map snd s) -> l2 <> l -> d <> 1 -> length x <> d -> length x <> 1 -> length y = d ->
    results_past c s x l [(Vec y, Lab l2)] = [Err IndexError] /\
    exists r, then_results c s [(Vec y, Lab l2)] = [Ok r].
  Proof.
    intros Hc1 Hc2 Hr Hs HI Hl Hl2 Hll Hd Hx Hx1 Hy. apply rectangular_wf in Hr.
    pose proof (next_new_raises c d s x l y l2 (conj Hc1 Hc2) HI Hr Hs Hl Hl2 Hll Hd Hx Hx1 Hy) as H.
    split.
    - unfold results_past. rewrite stream_app in H. cbn [stream map fst snd] in H. rewrite H.
      rewrite skipn_app, results_length. unfold stream at 2. rewrite map_length. replace (S (length s) - length s) with 1 by lia.
      rewrite skipn_all2 by (rewrite results_length; unfold stream; rewrite map_length; lia). reflexivity.
    - assert (Hw : wf_stream d (s ++ [(y, l2)])) by (apply Forall_app; auto).
      destruct (run_wf c d _ HI Hw) as (a & vals & Er & _).
      unfold then_results. change [(Vec y, Lab l2)] with (stream [(y, l2)]). rewrite <- stream_app. unfold results. rewrite Er.
      cbn [snd]. assert (L : length vals = length s + 1).
      { rewrite <- (map_length (@Ok (F A))). change (length (snd (mkObj (lmap (firsts (s ++ [(y, l2)]))) a, map (@Ok (F A)) vals)) = length s + 1).
        rewrite <- Er. fold (results c new_obj (stream (s ++ [(y, l2)]))). rewrite results_length. unfold stream. rewrite map_length, app_length. reflexivity. }
      rewrite skipn_map. destruct (skipn (length s) vals) as [|r [|r' q]] eqn:Eq.
      + apply (f_equal (@length _)) in Eq. rewrite skipn_length in Eq. simpl in Eq. lia.
      + exists r. reflexivity.
      + apply (f_equal (@length _)) in Eq. rewrite skipn_length in Eq. simpl in Eq. lia.
  Qed.
End Link.

(** ** C22 *)
(** After a stream of samples of length [d] (rCIP: not zero, and inversion never
    refuses) a sample of another length raises if and only if its label is new
    or its length is not one. *)
Theorem C22_wrong_length_raises_unless (A : Arith) (c : kind) (d : nat) (s : list (vec A * Z)) (x : vec A) (l : Z) :
  rectangular d s -> s <> [] -> (c = krCIP -> d <> 0 /\ inv_accepts (A := A)) -> length x <> d ->
  (is_error (answer c s x l) <-> ~ In l (map snd s) \/ length x <> 1).
Proof. exact (c22 c d s x l). Qed.
Print Assumptions C22_wrong_length_raises_unless.

(** The accepted case: one number is taken for every coordinate.  cSIL accepts
    it as well, but adds the square of the number only once to its scatter. *)
Theorem C22_one_number_is_every_coordinate (A : Arith) (c : kind) (d : nat) (s : list (vec A * Z)) (y : F A) (l : Z) :
  c <> kcSIL -> rectangular d s -> In l (map snd s) -> (c = krCIP -> d <> 0 /\ inv_accepts (A := A)) ->
  get_cvi c (after c new_obj (stream s)) (Vec [y]) (Lab l) =
  get_cvi c (after c new_obj (stream s)) (Vec (repeat y d)) (Lab l).
Proof. intros Hc Hr Hl HI. exact (one_known c d s y l HI (proj1 (rectangular_wf d s) Hr) Hl Hc). Qed.
Print Assumptions C22_one_number_is_every_coordinate.

(** The property as stated is false of every class: a sample of length 1 after
    samples of length 2 is accepted (rCIP: when inversion never refuses). *)
Theorem C22_refuted (L : Libm) (c : kind) : (c = krCIP -> inv_accepts (A := F64 L)) ->
  exists (s : list (vec (F64 L) * Z)) x l,
    rectangular 2 s /\ s <> [] /\ length x <> 2 /\ ~ is_error (answer c s x l).
Proof.
  intros HI. assert (Hr : rectangular 2 (fs L [([1; 2], 0); ([4; 4], 1)]%Z)).
  { intros x l H. simpl in H. repeat destruct H as [H|H]; inversion H; reflexivity. }
  exists (fs L [([1; 2], 0); ([4; 4], 1)]%Z), (fv L [7]%Z), 1%Z. split; [exact Hr|]. split; [discriminate|]. split; [discriminate|].
  rewrite (C22_wrong_length_raises_unless (F64 L) c 2); auto; try discriminate.
  cbn. intros [H|H]; [apply H; auto|apply H; auto].
Qed.
Print Assumptions C22_refuted.

(** the hypotheses, and the values CH returns: the short sample, and the same as the long one *)
Example C22_example (L : Libm) : let A := F64 L in
  let s := fs L [([1; 2], 0); ([4; 4], 1)]%Z in
  rectangular 2 s /\ s <> [] /\
  answer (A := A) kCH s (fv L [7]%Z) 1%Z = answer (A := A) kCH s (fv L [7; 7]%Z) 1%Z /\
  answer (A := A) kCH s (fv L [7]%Z) 5%Z = Err ValueError /\
  answer (A := A) kCH s (fv L [7; 7; 7]%Z) 1%Z = Err ValueError /\
  answer (A := A) kCH s [] 1%Z = Err ValueError.
Proof.
  split; [intros x l H; simpl in H; repeat destruct H as [H|H]; inversion H; reflexivity|].
  split; [discriminate|]. vm_compute. auto.
Qed.

(** ** C21 *)
(** A rejected sample with a label seen before leaves no trace at all: every
    history that follows returns what it would have returned without it. *)
Theorem C21_known_label_leaves_no_trace (A : Arith) (c : kind) (d : nat) (s : list (vec A * Z)) (x : vec A) (l : Z) (h : list (call A)) :
  rectangular d s -> In l (map snd s) -> (c = krCIP -> d <> 0 /\ inv_accepts (A := A)) ->
  d <> 1 -> length x <> d -> length x <> 1 ->
  answer c s x l = Err ValueError /\ results_past c s x l h = then_results c s h.
Proof. exact (c21_known c d s x l h). Qed.
Print Assumptions C21_known_label_leaves_no_trace.

(** A rejected sample with a new label leaves no trace as long as no other new
    label is used; once its own label is used with a sample that is accepted or
    not, nothing that follows can tell. *)
Theorem C21_new_label_leaves_only_its_label (A : Arith) (c : kind) (d : nat) (s : list (vec A * Z)) (x : vec A) (l : Z)
    (h : list (call A)) (y : vec A) (h2 : list (call A)) :
  rectangular d s -> s <> [] -> ~ In l (map snd s) -> (c = krCIP -> d <> 0 /\ inv_accepts (A := A)) ->
  d <> 1 -> length x <> d -> length x <> 1 -> uses_labels (map snd s) h ->
  answer c s x l = Err ValueError /\
  results_past c s x l h = then_results c s h /\
  results_past c s x l (h ++ (Vec y, Lab l) :: h2) = then_results c s (h ++ (Vec y, Lab l) :: h2).
Proof. exact (c21_new c d s x l h y h2). Qed.
Print Assumptions C21_new_label_leaves_only_its_label.

(** Another new label: seven of the nine classes now refuse a good sample. *)
Theorem C21_next_new_label_is_refused (A : Arith) (c : kind) (d : nat) (s : list (vec A * Z)) (x : vec A) (l : Z) (y : vec A) (l2 : Z) :
  c <> kCH -> c <> kWB -> rectangular d s -> s <> [] -> (c = krCIP -> d <> 0 /\ inv_accepts (A := A)) ->
  ~ In l (map snd s) -> ~ In l2 (map snd s) -> l2 <> l -> d <> 1 -> length x <> d -> length x <> 1 -> length y = d ->
  results_past c s x l [(Vec y, Lab l2)] = [Err IndexError] /\
  exists r, then_results c s [(Vec y, Lab l2)] = [Ok r].
Proof. exact (c21_next c d s x l y l2). Qed.
Print Assumptions C21_next_new_label_is_refused.

(** CH and WB accept it, but put its first two samples into two clusters: the
    answers are those to samples with two different labels. *)
Theorem C21_next_new_label_is_split (A : Arith) (c : kind) (d : nat) (s : list (vec A * Z)) (x : vec A) (l : Z) (y z : vec A) (l2 l3 : Z) :
  c = kCH \/ c = kWB -> rectangular d s -> s <> [] ->
  ~ In l (map snd s) -> ~ In l2 (map snd s) -> ~ In l3 (map snd s) -> l2 <> l -> l3 <> l2 ->
  d <> 1 -> length x <> d -> length x <> 1 -> length y = d -> length z = d ->
  results_past c s x l [(Vec y, Lab l2); (Vec z, Lab l2)] = then_results c s [(Vec y, Lab l2); (Vec z, Lab l3)].
Proof.
  intros Hc Hr Hs Hl Hl2 Hl3 Hll Hll3 Hd Hx Hx1 Hy Hz.
  pose proof (next_new_split c d s x l y z l2 l3 Hc (proj1 (rectangular_wf d s) Hr) Hs Hl Hl2 Hl3 Hll Hll3 Hd Hx Hx1 Hy Hz) as H.
  rewrite !stream_app in H. cbn [stream map fst snd] in H. unfold results_past, then_results. rewrite H.
  rewrite skipn_app, results_length. unfold stream at 2. rewrite map_length. replace (S (length s) - length s) with 1 by lia.
  rewrite skipn_all2 by (rewrite results_length; unfold stream; rewrite map_length; lia). reflexivity.
Qed.
Print Assumptions C21_next_new_label_is_split.

(** the property as stated *)
Definition leaves_no_trace (A : Arith) (c : kind) : Prop :=
  forall d (s : list (vec A * Z)) x l h, rectangular d s -> s <> [] -> is_error (answer c s x l) ->
    results_past c s x l h = then_results c s h.

Theorem C21_refuted (L : Libm) (c : kind) : (c = krCIP -> inv_accepts (A := F64 L)) -> ~ leaves_no_trace (F64 L) c.
Proof.
  intros HI H. set (s := fs L [([1; 2], 0); ([4; 4], 1)]%Z).
  assert (Hr : rectangular 2 s).
  { intros x l Hin. simpl in Hin. repeat destruct Hin as [Hin|Hin]; inversion Hin; reflexivity. }
  assert (Hs : s <> []) by discriminate.
  assert (HE : is_error (answer c s (fv L [1; 1; 1]%Z) 5%Z)).
  { apply (C22_wrong_length_raises_unless (F64 L) c 2); auto. discriminate. right. discriminate. }
  assert (Hn : forall l : Z, l <> 0%Z -> l <> 1%Z -> ~ In l (map snd s)) by (intros l H0 H1; cbn; intuition).
  destruct (kind_eq c kCH) as [->|Hc1]; [|destruct (kind_eq c kWB) as [->|Hc2]].
  - specialize (H 2 s (fv L [1; 1; 1]%Z) 5%Z [(Vec (fv L [9; 8]%Z), Lab 6%Z); (Vec (fv L [9; 9]%Z), Lab 6%Z)] Hr Hs HE).
    vm_compute in H. discriminate.
  - specialize (H 2 s (fv L [1; 1; 1]%Z) 5%Z [(Vec (fv L [9; 8]%Z), Lab 6%Z); (Vec (fv L [9; 9]%Z), Lab 6%Z)] Hr Hs HE).
    vm_compute in H. discriminate.
  - specialize (H 2 s (fv L [1; 1; 1]%Z) 5%Z [(Vec (fv L [9; 8]%Z), Lab 6%Z)] Hr Hs HE).
    destruct (C21_next_new_label_is_refused (F64 L) c 2 s (fv L [1; 1; 1]%Z) 5%Z (fv L [9; 8]%Z) 6%Z) as [H1 [r H2]]; auto;
      try discriminate; try (apply Hn; discriminate).
    congruence.
Qed.
Print Assumptions C21_refuted.

(** The two lengths the theorems above leave out do leave a trace: a longer
    sample after samples of length 1 (CH then returns a value, but another one),
    and a sample of length 1 with a new label (the next good sample of a known
    label is refused). *)
Theorem C21_length_one_refuted (L : Libm) : let A := F64 L in
  (let s := fs L [([1], 0); ([4], 1)]%Z in
   answer (A := A) kCH s (fv L [1; 9]%Z) 1%Z = Err ValueError /\
   exists a b, results_past (A := A) kCH s (fv L [1; 9]%Z) 1%Z (stream (fs L [([5], 1)]%Z)) = [Ok a] /\
               then_results (A := A) kCH s (stream (fs L [([5], 1)]%Z)) = [Ok b] /\ a <> b) /\
  (let s := fs L [([1; 2], 0); ([4; 4], 1)]%Z in
   answer (A := A) kCH s (fv L [7]%Z) 5%Z = Err ValueError /\
   results_past (A := A) kCH s (fv L [7]%Z) 5%Z (stream (fs L [([5; 5], 1)]%Z)) = [Err IndexError] /\
   exists b, then_results (A := A) kCH s (stream (fs L [([5; 5], 1)]%Z)) = [Ok b]).
Proof.
  split.
  - split; [vm_compute; reflexivity|]. do 2 eexists. split; [vm_compute; reflexivity|]. split; [vm_compute; reflexivity|]. discriminate.
  - split; [vm_compute; reflexivity|]. split; [vm_compute; reflexivity|]. eexists. vm_compute; reflexivity.
Qed.
Print Assumptions C21_length_one_refuted.

(** hypotheses of the four positive theorems *)
Example C21_example (L : Libm) : let A := F64 L in
  let s := fs L [([1; 2], 0); ([4; 4], 1)]%Z in
  rectangular 2 s /\ s <> [] /\ In 1%Z (map snd s) /\ ~ In 5%Z (map snd s) /\ ~ In 6%Z (map snd s) /\
  length (fv L [1; 1; 1]%Z) <> 2 /\ length (fv L [1; 1; 1]%Z) <> 1 /\
  uses_labels (A := A) (map snd s) [(Vec (fv L [3; 3]%Z), Lab 0%Z); (Nd 3, Lab 9%Z); (Vec (fv L [3]%Z), Lab 1%Z)].
Proof.
  split; [intros x l H; simpl in H; repeat destruct H as [H|H]; inversion H; reflexivity|].
  cbn. repeat split; try discriminate; auto; try (intuition discriminate).
  intros x l H. simpl in H. repeat destruct H as [H|H]; inversion H; simpl; auto.
Qed.
