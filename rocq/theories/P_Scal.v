(** * C90: a change of unit by a power of two changes no bit

    As long as no product or quotient comes near the ends of the range of
    exponents and no sum near the upper end. *)
From Coq Require Import ZArith Reals List Bool Lia SpecFloat.
From Flocq Require Import Core BinarySingleNaN.
From Verif Require Import Num NumPy Base GetCvi F64 F64o Rnd Bnd.
From Verif Require Import Par ParL ParC Mir P_Par.
From Verif Require Import Scal ScalA.
Import ListNotations.

(** ** Specification *)
(** [2^k x] *)
Definition shift (k : Z) (x : f64) : f64 := match x with S754_finite s m e => S754_finite s m (e + k) | _ => x end.
(** what is returned for the data as they are and in the other unit, given what
    the careful arithmetic says: nothing if that gave up, the same value (for
    GD43 the value divided by [2^k]) otherwise, and the same exceptions *)
Definition unit_agrees (c : kind) (k : Z) (careful : E (option f64)) (plain other : E f64) : Prop :=
  match careful with
  | Ok (Some v) => plain = Ok v /\ exists w, other = Ok w /\ (match c with kGD43 => times (- k) v w | _ => w = v end)
  | Ok None => True
  | Err e => plain = Err e /\ other = Err e
  end.
Definition same_unit_ok (k : Z) (x : f64) : Prop := valid x /\ valid (shift k x).

(** ** Proof *)
Lemma shift_rel k x : same_unit_ok k x -> rel k x (shift k x).
Proof.
  intros [V V']. repeat split; auto. destruct x as [s|s| |s m e]; cbn -[rv]; auto.
  unfold rv. cbn [SF2R]. unfold F2R. cbn [Fnum Fexp]. rewrite bpow_plus. ring.
Qed.
Lemma Forall2_nth {X Y} (R : X -> Y -> Prop) l l' i x : Forall2 R l l' -> nth_error l i = Some x -> exists y, nth_error l' i = Some y /\ R x y.
Proof. intros H. revert i. induction H as [|a b l l' Ha _ IH]; intros [|i] E; cbn in *; try discriminate; eauto. injection E as <-. eauto. Qed.
Lemma careful_run m L T T' c k (f : f64 -> f64) (h : list (call (F64o L (order_sums T T')))) :
  c <> krCIP -> (c = kPS -> exp_valid L) -> (2 * Z.abs k <= m)%Z ->
  Forall (fun p => entries (A := F64o L (order_sums T T')) (fun x => rel k x (f x)) (fst p)) h ->
  Forall2 (rE (sV (scaled m L T T' k) c)) (results (A := Careful m L T T') c new_obj (map (there (A := F64o L (order_sums T T')) (B := Careful m L T T') Some) h))
    (results (A := F64o L (order_sums T T')) c new_obj (map (there (A := F64o L (order_sums T T')) (B := F64o L (order_sums T T')) f) h)).
Proof.
  intros H1 HE Hm Hh. pose proof (scaled_lawful m L T T' k Hm c H1 HE) as W.
  assert (HR : Forall2 (rcall (scaled m L T T' k)) (map (there (A := F64o L (order_sums T T')) (B := Careful m L T T') Some) h)
    (map (there (A := F64o L (order_sums T T')) (B := F64o L (order_sums T T')) f) h)).
  { induction Hh as [|[d l] h Hd _ IH]; cbn [map]; constructor; auto. split; auto. cbn [fst there] in *.
    assert (G : forall x : list f64, Forall (fun x => rel k x (f x)) x -> Forall2 (orel k) (map Some x) (map f x)) by (induction 1; cbn; constructor; auto).
    destruct d as [x|q|j]; cbn in *; auto. split; auto. cbn. induction Hd; cbn; constructor; auto. }
  exact (proj2 (par_run _ c W _ _ HR new_obj new_obj (par_new _ _ W))).
Qed.
Lemma there_same A (h : list (call A)) : map (there (fun x => x)) h = h.
Proof.
  induction h as [|[d l] h IH]; cbn; f_equal; auto. unfold there. cbn. f_equal. destruct d as [x|[a b]|j]; cbn; auto; repeat f_equal; [apply map_id|].
  induction b as [|x b IHb]; cbn; f_equal; auto. apply map_id.
Qed.

(** ** The property *)
(** Any history of calls (any arrays, labels and mistakes); [m] is how far the
    numbers stay from the ends of the range, [k] the change of unit. *)
Theorem C90_units : forall m k L T T' c (h : list (call (F64o L (order_sums T T')))) i r,
  c <> krCIP -> (c = kPS -> exp_valid L) -> (2 * Z.abs k <= m)%Z ->
  Forall (fun p => entries (A := F64o L (order_sums T T')) (same_unit_ok k) (fst p)) h ->
  nth_error (results (A := Careful m L T T') c new_obj (map (there (A := F64o L (order_sums T T')) (B := Careful m L T T') Some) h)) i = Some r ->
  exists p q, nth_error (results (A := F64o L (order_sums T T')) c new_obj h) i = Some p /\
    nth_error (results (A := F64o L (order_sums T T')) c new_obj (map (there (A := F64o L (order_sums T T')) (B := F64o L (order_sums T T')) (shift k)) h)) i = Some q /\
    unit_agrees c k r p q.
Proof.
  intros m k L T T' c h i r H1 HE Hm Hh Hr.
  assert (Ha : Forall (fun p => entries (A := F64o L (order_sums T T')) (fun x => rel k x (shift k x)) (fst p)) h).
  { revert Hh. apply Forall_impl. intros [d l]. destruct d as [x|q|j]; cbn; auto; [apply Forall_impl; intros; now apply shift_rel|].
    apply Forall_impl. intros x. apply Forall_impl. intros; now apply shift_rel. }
  assert (Hb : Forall (fun p => entries (A := F64o L (order_sums T T')) (fun x => rel 0 x x) (fst p)) h).
  { revert Hh. apply Forall_impl. intros [d l]. destruct d as [x|q|j]; cbn; auto; [apply Forall_impl; intros ? [? ?]; now apply rel_refl|].
    apply Forall_impl. intros x. apply Forall_impl. intros ? [? ?]; now apply rel_refl. }
  pose proof (careful_run m L T T' c k (shift k) h H1 HE Hm Ha) as Q.
  pose proof (careful_run m L T T' c 0 (fun x => x) h H1 HE ltac:(lia) Hb) as P.
  rewrite there_same in P.
  destruct (Forall2_nth _ _ _ i r Q Hr) as (q & Eq & Rq). destruct (Forall2_nth _ _ _ i r P Hr) as (p & Ep & Rp).
  exists p, q. split; [exact Ep|]. split; [exact Eq|].
  destruct r as [[v|]|e]; cbn; auto.
  - destruct p as [vp|]; [|contradiction]. destruct q as [vq|]; [|contradiction]. cbn in Rp, Rq. split.
    + f_equal. apply rel_0. destruct c; exact Rp.
    + exists vq. split; auto. destruct c; try (apply rel_0; exact Rq). apply Rq.
  - destruct p as [vp|]; [contradiction|]. destruct q as [vq|]; [contradiction|]. cbn in *. subst. auto.
Qed.
Print Assumptions C90_units.

(** ** Examples *)
(** from left to right *)
Definition lefts (k : nat) : order := left_tree (Nat.pred k).
Definition ex_s (L : Libm) : list (call (F64o L (order_sums lefts lefts))) :=
  let v x := @Vec (F64o L (order_sums lefts lefts)) x in
  [(v [tenth 1; tenth 7], Lab 0%Z); (v [tenth 3; tenth (-2)], Lab 0%Z); (Nd 3, Lab 5%Z); (v [tenth 107; tenth 2], Lab 5%Z); (v [tenth 99; tenth 3], Lab 5%Z)].
Lemma ex_unit_ok L : Forall (fun p => entries (A := F64o L (order_sums lefts lefts)) (same_unit_ok (-300)) (fst p)) (ex_s L).
Proof. unfold ex_s. repeat apply Forall_cons; try apply Forall_nil; cbn [fst entries]; repeat apply Forall_cons; try apply Forall_nil; split; vm_compute; reflexivity. Qed.
(** metres to 2^-300 metres: CH does not change and the careful arithmetic does
    not give up *)
Definition last_of {X} (l : list (E X)) : E X := last l (Err ValueError).
Definition gives_number (r : E (option f64)) : bool := match r with Ok (Some (S754_finite _ _ _)) => true | _ => false end.
Lemma C90_example L : forall c, In c [kCH; kDB; kGD43; kGD53; kWB; kXB; kcSIL] ->
  gives_number (last_of (results (A := Careful 600 L lefts lefts) c new_obj (map (there (A := F64o L (order_sums lefts lefts)) (B := Careful 600 L lefts lefts) Some) (ex_s L)))) = true.
Proof. intros c H. repeat destruct H as [<-|H]; try contradiction; vm_compute; reflexivity. Qed.
(** in units of 2^-600 the squares underflow: CH is nan *)
Lemma C90_needs_range L :
  (exists v, last_of (results (A := F64o L (order_sums lefts lefts)) kCH new_obj (ex_s L)) = Ok v /\ fin v) /\
  last_of (results (A := F64o L (order_sums lefts lefts)) kCH new_obj (map (there (A := F64o L (order_sums lefts lefts)) (B := F64o L (order_sums lefts lefts)) (shift (-600))) (ex_s L))) = Ok S754_nan.
Proof. split; [eexists; split; vm_compute; reflexivity|vm_compute; reflexivity]. Qed.
