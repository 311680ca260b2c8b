(** * C91: exceptions depend on shapes and labels, not on the numbers *)
From Coq Require Import ZArith List Bool SpecFloat Reals.
From Verif Require Import Num NumPy Base GetCvi F64 F64o XR.
From Verif Require Import Par ParL ParC.
Import ListNotations.

(** ** Specification *)
(** arrays of the same shape, with numbers of any two kinds *)
Definition same_shape {A B : Arith} (d : data_arg A) (d' : data_arg B) : Prop :=
  match d, d' with
  | Vec x, Vec y => length x = length y
  | Mat m, Mat m' => mcols m = mcols m' /\ map (@length _) (mrows m) = map (@length _) (mrows m')
  | Nd k, Nd k' => k = k'
  | _, _ => False
  end.
Definition same_but_numbers {A B : Arith} (p : call A) (q : call B) : Prop := same_shape (fst p) (fst q) /\ snd p = snd q.
(** matrix inversion never refuses and returns an array of the same shape *)
Definition inverts (A : Arith) : Prop := forall m : list (list (F A)), exists w, np_inv m = Some w /\ map (@length _) w = map (@length _) m.
Definition raised {X} (r : E X) : option exn := match r with Ok _ => None | Err e => Some e end.

(** ** Proof *)
Definition no_matter (A B : Arith) : Sorts A B :=
  let t := fun (_ : F A) (_ : F B) => True in mkSorts A B t t t t t t t t.
Lemma all_related {X Y} (l : list X) (l' : list Y) : length l = length l' -> Forall2 (fun _ _ => True) l l'.
Proof. revert l'. induction l as [|x l IH]; intros [|y l'] H; try discriminate; constructor; auto. Qed.
Lemma rows_related {X Y} (l : list (list X)) (l' : list (list Y)) : map (@length _) l = map (@length _) l' -> Forall2 (Forall2 (fun _ _ => True)) l l'.
Proof.
  revert l'. induction l as [|r l IH]; intros [|r' l'] H; try discriminate; constructor; [apply all_related; now injection H|apply IH; now injection H].
Qed.
Lemma related_rows {X Y} (l : list (list X)) (l' : list (list Y)) : Forall2 (Forall2 (fun _ _ => True)) l l' -> map (@length _) l = map (@length _) l'.
Proof. induction 1 as [|r r' l l' H _ IH]; cbn; f_equal; auto. now apply (par_length _ _ _ H). Qed.
Lemma no_matter_lawful A B c : (c = krCIP -> inverts A /\ inverts B) -> Lawful (no_matter A B) c.
Proof.
  intros HI. constructor; cbn; auto. intros Hc. destruct (HI Hc) as [I1 I2]. constructor; cbn; auto. intros m m' H.
  destruct (I1 m) as (w & -> & E), (I2 m') as (w' & -> & E'). apply rows_related. rewrite E, E'. now apply related_rows.
Qed.
Lemma same_related A B (p : call A) (q : call B) : same_but_numbers p q -> rcall (no_matter A B) p q.
Proof.
  intros [H E]. split; auto. destruct (fst p) as [x|m|k], (fst q) as [y|m'|k']; cbn in *; auto; [now apply all_related|].
  destruct H as [H1 H2]. split; auto. now apply rows_related.
Qed.

(** ** The property *)
(** Two objects of one class, any two arithmetics (exact, binary64, float32 data,
    other platforms), any histories with the same shapes and labels: they raise
    the same exceptions at the same calls and keep the same counts, labels and
    sizes. *)
Theorem C91_exceptions : forall (A B : Arith) c (h : list (call A)) (h' : list (call B)),
  (c = krCIP -> inverts A /\ inverts B) -> Forall2 same_but_numbers h h' ->
  map raised (results c new_obj h) = map raised (results c new_obj h').
Proof.
  intros A B c h h' H1 H.
  assert (HR : Forall2 (rcall (no_matter A B)) h h') by (induction H; constructor; auto; now apply same_related).
  pose proof (no_matter_lawful A B c H1) as W.
  pose proof (proj2 (par_run _ c W _ _ HR new_obj new_obj (par_new _ _ W))) as G.
  induction G as [|x y l l' Hx _ IH]; cbn; f_equal; auto. destruct x, y; cbn in *; try contradiction; congruence.
Qed.
Print Assumptions C91_exceptions.
Theorem C91_bookkeeping : forall (A B : Arith) c (h : list (call A)) (h' : list (call B)),
  (c = krCIP -> inverts A /\ inverts B) -> Forall2 same_but_numbers h h' ->
  let o := after c new_obj h in let o' := after c new_obj h' in
  label_map o = label_map o' /\ dim (at_ o) = dim (at_ o') /\ n_samples (at_ o) = n_samples (at_ o') /\
  n (at_ o) = n (at_ o') /\ n_clusters (at_ o) = n_clusters (at_ o') /\ is_setup (at_ o) = is_setup (at_ o').
Proof.
  intros A B c h h' H1 H.
  assert (HR : Forall2 (rcall (no_matter A B)) h h') by (induction H; constructor; auto; now apply same_related).
  pose proof (no_matter_lawful A B c H1) as W.
  destruct (proj1 (par_run _ c W _ _ HR new_obj new_obj (par_new _ _ W))) as [E [? ? ? ? ? ? ? ? ? ? ? ? ? ? ? ? ? ? ? ? ? ? ? ? ? ? ? ?]]. cbn. tauto.
Qed.
Print Assumptions C91_bookkeeping.

(** ** Examples *)
(** numbers that carry no information at all: what is raised can be computed with
    them and is then known for every arithmetic and every data of those shapes *)
Definition blank : Arith :=
  let u := fun _ : unit => tt in let b := fun _ _ : unit => tt in
  mkArith unit (fun _ => tt) b b b b u u u u (fun _ _ => tt) tt tt b b (fun _ _ => true) (fun _ => true) (fun _ => tt) (fun _ _ => tt)
    (fun _ => tt) (fun m => Some m) b b b (fun _ => tt) (fun _ _ => tt).
Definition ex (A : Arith) (a b c d e f : F A) : list (call A) :=
  [(Vec [a; b], Lab 0%Z); (Nd 3, Lab 0%Z); (Vec [c; d], Labs [0%Z; 1%Z]); (Vec [e; f], Lab 5%Z); (Vec [e; f; a], Lab 0%Z); (Mat (mkMat 2 [[a; b]; [c; d]]), Labs [1%Z; 1%Z]); (Vec [a; f], Lab 7%Z)].
(** any six numbers of any arithmetic: a wrong rank, a label list for one sample, a
    sample of the wrong length and a batch on a streaming object raise, the other
    calls do not *)
Theorem C91_example : forall (A : Arith) c (a b x d e f : F A), (c = krCIP -> inverts A) ->
  map raised (results c new_obj (ex A a b x d e f)) =
  [None; Some ValueError; Some TypeError; None; Some ValueError; Some ValueError; None].
Proof.
  intros A c a b x d e f Hc. rewrite (C91_exceptions A blank c _ (ex blank tt tt tt tt tt tt)).
  - destruct c; reflexivity.
  - intros Hk. split; auto. intros m. exists m. auto.
  - repeat (constructor; [repeat split; reflexivity|]). constructor.
Qed.
Print Assumptions C91_example.
