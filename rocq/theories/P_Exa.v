(** * C92: where nothing is rounded, floating point is exact arithmetic

    The theorems about exact arithmetic (C01-C06, C10, C23-C28, ...) speak about
    binary64 and float32 whenever no operation of the run rounds. *)
From Coq Require Import ZArith Reals List Arith Bool Lia SpecFloat.
From Flocq Require Import Core.
From Verif Require Import Num NumPy Base GetCvi F64 F64o F32d XR Spec Obs P_Inc Rnd Bnd.
From Verif Require Import Par ParL ParC Mir P_Par Exa.
Import ListNotations.

(** ** Specification *)
(** [m, e] with [x = m * 2^e] *)
Definition dyadic (x : f64) : option (Z * Z) :=
  match x with
  | S754_zero _ => Some (0%Z, 0%Z)
  | S754_finite s m e => Some (if s then Z.neg m else Z.pos m, e)
  | _ => None
  end.
(** what floating point and exact arithmetic return, given what the arithmetic
    that watches for rounding says: nothing if something was rounded, was nan or
    inf or divided by zero, else the same value and the same exceptions *)
Definition exact_agrees (watched : E (option f64)) (float : E f64) (exact : E xr) : Prop :=
  match watched with
  | Ok (Some v) => float = Ok v /\ exact = Ok (Fin (rv v))
  | Ok None => True
  | Err e => float = Err e /\ exact = Err e
  end.
(** the samples as real numbers *)
Definition real_data (s : list (list f64 * Z)) : data := map (fun p => (map rv (fst p), snd p)) s.

(** ** Proof *)
Lemma dyadic_val x p : dyadic x = Some p -> val p = rv x.
Proof.
  unfold rv. destruct x as [s| | |s m e]; cbn; try discriminate; intros [= <-]; unfold val; cbn [fst snd].
  - ring.
  - unfold F2R. cbn. now destruct s.
Qed.
Lemma dyadic_true x p : dyadic x = Some p -> dtrue x = negb (zero p).
Proof. destruct x as [s| | |s m e]; cbn; try discriminate; intros [= <-]; auto. now destruct s. Qed.
Definition watch (x : f64) : option f64 := match dyadic x with Some _ => Some x | None => None end.
Section Gen.
  Context (A : Arith) (dy : F A -> option dyad) (real : F A -> Rdefinitions.R) (Hr : forall x p, dy x = Some p -> val p = real x) (Ht : forall x p, dy x = Some p -> ftrue x = negb (zero p)).
  Definition keep (x : F A) : option (F A) := match dy x with Some _ => Some x | None => None end.
  Notation XA := (Exactly A dy).
  Lemma keep_own x : rel_own A (keep x) x.
  Proof. unfold keep. destruct (dy x); cbn; auto. Qed.
  Lemma keep_xr x : rel_xr A dy (keep x) (Fin (real x)).
  Proof. unfold keep. destruct (dy x) as [p|] eqn:E; cbn; auto. exists p. split; auto. now rewrite (Hr x p). Qed.
  Lemma there_rel (B : Arith) (w : Sorts XA B) (f : F A -> F B) (h : list (call A)) : (forall x, sP w (keep x) (f x)) ->
    Forall2 (rcall w) (map (there (A := A) (B := XA) keep) h) (map (there f) h).
  Proof.
    intros H. induction h as [|[d l] h IH]; cbn [map]; constructor; auto. split; auto. cbn [fst there].
    assert (G : forall x : list (F A), Forall2 (sP w) (map (keep : F A -> F XA) x) (map f x)) by (induction x; cbn; constructor; auto).
    destruct d as [x|q|j]; cbn in *; auto. split; auto. cbn. induction (mrows q); cbn; constructor; auto.
  Qed.
  Lemma there_id (h : list (call A)) : map (there (fun x => x)) h = h.
  Proof.
    induction h as [|[d l] h IH]; cbn; f_equal; auto. unfold there. cbn. f_equal. destruct d as [x|[a b]|j]; cbn; auto; repeat f_equal; [apply map_id|].
    induction b as [|x b IHb]; cbn; f_equal; auto. apply map_id.
  Qed.
  Lemma nth_rel {X Y} (R : X -> Y -> Prop) l l' i x : Forall2 R l l' -> nth_error l i = Some x -> exists y, nth_error l' i = Some y /\ R x y.
  Proof. intros H. revert i. induction H as [|a b l l' Ha _ IH]; intros [|i] E; cbn in *; try discriminate; eauto. injection E as <-. eauto. Qed.
  Lemma exact_gen c (h : list (call A)) i r : c <> krCIP ->
    nth_error (results (A := XA) c new_obj (map (there (A := A) (B := XA) keep) h)) i = Some r ->
    exists p q, nth_error (results c new_obj h) i = Some p /\
      nth_error (results (A := XR) c new_obj (map (there (A := A) (B := XR) (fun x => Fin (real x))) h)) i = Some q /\
      match r with
      | Ok (Some v) => p = Ok v /\ q = Ok (Fin (real v))
      | Ok None => True
      | Err e => p = Err e /\ q = Err e
      end.
  Proof.
    intros H1 E.
    pose proof (own_lawful A dy c H1) as WO. pose proof (xr_lawful A dy Ht c H1) as WX.
    pose proof (proj2 (par_run _ c WO _ _ (there_rel A (own_sorts A dy) (fun x => x) h keep_own) new_obj new_obj (par_new _ _ WO))) as P.
    pose proof (proj2 (par_run _ c WX _ _ (there_rel XR (xr_sorts A dy) (fun x => Fin (real x)) h keep_xr) new_obj new_obj (par_new _ _ WX))) as Q.
    rewrite there_id in P.
    destruct (nth_rel _ _ _ i r P E) as (p & Ep & Rp). destruct (nth_rel _ _ _ i r Q E) as (q & Eq & Rq). exists p, q. split; [exact Ep|]. split; [exact Eq|].
    destruct r as [[v|]|e]; auto.
    - destruct p as [vp|]; [|contradiction]. destruct q as [vq|]; [|contradiction]. cbn in Rp, Rq.
      assert (Rp' : rel_own A (Some v) vp) by (destruct c; exact Rp). assert (Rq' : rel_xr A dy (Some v) vq) by (destruct c; exact Rq).
      cbn in Rp', Rq'. destruct Rq' as (d & Ed & ->). rewrite (Hr v d Ed). subst. auto.
    - destruct p as [vp|]; [contradiction|]. destruct q as [vq|]; [contradiction|]. cbn in *. subst. auto.
  Qed.
End Gen.

Lemma results_one A c (o : obj A) d l : results c o [(d, l)] = [snd (get_cvi c o d l)].
Proof. unfold results. cbn. now destruct (get_cvi c o d l). Qed.

(** ** The property *)
(** Any history of calls, any order of summation: [Exactly] (Exa.v) computes as
    binary64 does and gives up where a result is not exact. *)
Definition watched64 (L : Libm) (S : Sums) : Arith := Exactly (F64o L S) dyadic.
Theorem C92_exact : forall L S c (h : list (call (F64o L S))) i r, c <> krCIP ->
  nth_error (results (A := watched64 L S) c new_obj (map (there (A := F64o L S) (B := watched64 L S) watch) h)) i = Some r ->
  exists p q, nth_error (results (A := F64o L S) c new_obj h) i = Some p /\
    nth_error (results (A := XR) c new_obj (map (there (A := F64o L S) (B := XR) (fun x => Fin (rv x))) h)) i = Some q /\
    exact_agrees r p q.
Proof. intros L S c h i r H1 E. exact (exact_gen (F64o L S) dyadic rv dyadic_val dyadic_true c h i r H1 E). Qed.
Print Assumptions C92_exact.
Definition watched32 (L : Libm) (S T : Sums) : Arith := Exactly (F32d L S T) dyadic.
Theorem C92_exact_float32 : forall L S T c (h : list (call (F32d L S T))) i r, c <> krCIP ->
  nth_error (results (A := watched32 L S T) c new_obj (map (there (A := F32d L S T) (B := watched32 L S T) watch) h)) i = Some r ->
  exists p q, nth_error (results (A := F32d L S T) c new_obj h) i = Some p /\
    nth_error (results (A := XR) c new_obj (map (there (A := F32d L S T) (B := XR) (fun x => Fin (rv x))) h)) i = Some q /\
    exact_agrees r p q.
Proof. intros L S T c h i r H1 E. exact (exact_gen (F32d L S T) dyadic rv dyadic_val dyadic_true c h i r H1 E). Qed.
Print Assumptions C92_exact_float32.

(** So C01-C06 hold for binary64: if nothing was rounded in the stream and
    nothing in the batch, the two values are the same. *)
Theorem C92_stream_is_batch : forall L S c d (s : list (list f64 * Z)) i k v w,
  c <> krCIP -> c <> kcSIL -> wf d (real_data s) -> i < length s -> 2 <= k -> exact_labels (firstn (Datatypes.S i) (real_data s)) k ->
  let W := watched64 L S in
  let kept p := (map watch (fst p), snd p) in
  nth_error (results (A := W) c new_obj (stream (A := W) (map kept s))) i = Some (Ok (Some v)) ->
  nth_error (results (A := W) c new_obj [batch_of (A := W) d (map kept (firstn (Datatypes.S i) s))]) 0 = Some (Ok (Some w)) ->
  nth_error (results (A := F64o L S) c new_obj (stream (A := F64o L S) s)) i = Some (Ok v) /\
  nth_error (results (A := F64o L S) c new_obj [batch_of (A := F64o L S) d (firstn (Datatypes.S i) s)]) 0 = Some (Ok w) /\ rv v = rv w.
Proof.
  intros L S c d s i k v w H1 H2 Hw Hi Hk He W kept Es Eb.
  assert (Es' : map (there (A := F64o L S) (B := W) watch) (stream (A := F64o L S) s) = stream (A := W) (map kept s)).
  { unfold stream. rewrite !map_map. apply map_ext. intros [x l]. reflexivity. }
  assert (Eb' : map (there (A := F64o L S) (B := W) watch) [batch_of (A := F64o L S) d (firstn (Datatypes.S i) s)] = [batch_of (A := W) d (map kept (firstn (Datatypes.S i) s))]).
  { unfold batch_of, there. cbn. rewrite !map_map. reflexivity. }
  rewrite <- Es' in Es. rewrite <- Eb' in Eb.
  destruct (C92_exact L S c _ i _ H1 Es) as (p & q & Ep & Eq & Ap & Aq). subst p q.
  destruct (C92_exact L S c _ 0 _ H1 Eb) as (p & q & Ep' & Eq' & Ap & Aq). subst p q.
  split; [exact Ep|]. split; [exact Ep'|].
  assert (Hl : i < length (real_data s)) by (unfold real_data; now rewrite map_length).
  destruct (inc_eq_batch c d (real_data s) i k H2 ltac:(intros ->; contradiction) Hw Hl Hk He) as (u & U1 & U2).
  assert (G1 : map (there (A := F64o L S) (B := XR) (fun x => Fin (rv x))) (stream (A := F64o L S) s) = map (fun p => (Vec (fst p), Lab (snd p))) (as_floats (real_data s))).
  { unfold stream, as_floats, real_data. rewrite !map_map. apply map_ext. intros [x l]. unfold there, there_data. cbn. now rewrite map_map. }
  rewrite G1 in Eq. unfold stream_results in U1. rewrite U1 in Eq. injection Eq as Eq.
  assert (G2 : map (there (A := F64o L S) (B := XR) (fun x => Fin (rv x))) [batch_of (A := F64o L S) d (firstn (Datatypes.S i) s)] =
     [(Mat (mkMat (A := XR) d (map fst (as_floats (firstn (Datatypes.S i) (real_data s))))), Labs (labels (firstn (Datatypes.S i) (real_data s))))]).
  { unfold batch_of, there, there_data, real_data. cbn [map fst snd mcols mrows]. rewrite firstn_map. unfold as_floats, labels. rewrite !map_map. cbn.
    match goal with |- [(Mat (mkMat _ ?a), _)] = [(Mat (mkMat _ ?b), _)] => replace b with a; auto end. apply map_ext. intros [x l]. cbn. now rewrite map_map. }
  rewrite G2, results_one in Eq'. unfold batch_result in U2. cbn [nth_error] in Eq'. injection Eq' as Eq'. assert (Q := eq_trans (eq_sym U2) Eq'). subst u. injection Q as Q. exact Q.
Qed.
Print Assumptions C92_stream_is_batch.

(** ** Examples *)
(** (-0.25, 0), (0.25, 0) | (7.75, 0), (8.25, 0): nothing is rounded in the batches
    of six classes and in the streams of four, and the values are those of exact
    arithmetic.  (CH and WB divide by the number of samples so far, and 1/3 is
    rounded.) *)
Definition quarter (n : Z) : f64 := ddiv (d_of_Z n) (d_of_Z 4).
Definition ex_q : list (list f64 * Z) :=
  [([quarter (-1); quarter 0], 0%Z); ([quarter 1; quarter 0], 0%Z); ([quarter 31; quarter 0], 1%Z); ([quarter 33; quarter 0], 1%Z)].
Definition kept_q : list (list (option f64) * Z) := map (fun p => (map watch (fst p), snd p)) ex_q.
Definition value_of (c : kind) : f64 :=
  match c with kCH => d_of_Z 512 | kWB => ddiv (d_of_Z 1) (d_of_Z 128) | kDB => ddiv (d_of_Z 1) (d_of_Z 512) | kXB => ddiv (d_of_Z 1) (d_of_Z 1024)
  | kGD43 => d_of_Z 64 | _ => ddiv (d_of_Z 1) (d_of_Z 2) end.
Lemma C92_example_batch L : forall c, In c [kCH; kWB; kDB; kXB; kGD43; kGD53] ->
  results (A := watched64 L left_right) c new_obj [batch_of (A := watched64 L left_right) 2 kept_q] = [Ok (Some (value_of c))].
Proof. intros c H. repeat destruct H as [<-|H]; try contradiction; vm_compute; reflexivity. Qed.
Lemma C92_example_stream L : forall c, In c [kDB; kXB; kGD43; kGD53] ->
  nth_error (results (A := watched64 L left_right) c new_obj (stream (A := watched64 L left_right) kept_q)) 3 = Some (Ok (Some (value_of c))).
Proof. intros c H. repeat destruct H as [<-|H]; try contradiction; vm_compute; reflexivity. Qed.
Lemma C92_example_float32 L : forall c, In c [kCH; kWB; kDB; kXB; kGD43; kGD53] ->
  results (A := watched32 L left_right left_right) c new_obj [batch_of (A := watched32 L left_right left_right) 2 kept_q] = [Ok (Some (value_of c))].
Proof. intros c H. repeat destruct H as [<-|H]; try contradiction; vm_compute; reflexivity. Qed.
(** -1, 1 | 0, 2: nothing is rounded in the silhouette, by batch and by stream *)
Definition ex_h : list (list (option f64) * Z) :=
  map (fun p => ([watch (d_of_Z (fst p))], snd p)) [(-1, 0); (1, 0); (0, 1); (2, 1)]%Z.
Lemma C92_example_cSIL L :
  results (A := watched64 L left_right) kcSIL new_obj [batch_of (A := watched64 L left_right) 1 ex_h] = [Ok (Some (ddiv (d_of_Z 1) (d_of_Z 2)))] /\
  nth_error (results (A := watched64 L left_right) kcSIL new_obj (stream (A := watched64 L left_right) ex_h)) 3 = Some (Ok (Some (ddiv (d_of_Z 1) (d_of_Z 2)))) /\
  results (A := watched32 L left_right left_right) kcSIL new_obj [batch_of (A := watched32 L left_right left_right) 1 ex_h] = [Ok (Some (ddiv (d_of_Z 1) (d_of_Z 2)))].
Proof. repeat split; vm_compute; reflexivity. Qed.
(** so the two values agree in binary64 *)
Lemma C92_example L : forall c, In c [kDB; kXB; kGD43; kGD53] ->
  nth_error (results (A := F64o L left_right) c new_obj (stream (A := F64o L left_right) ex_q)) 3 = Some (Ok (value_of c)) /\
  nth_error (results (A := F64o L left_right) c new_obj [batch_of (A := F64o L left_right) 2 ex_q]) 0 = Some (Ok (value_of c)).
Proof.
  intros c H.
  assert (H' : In c [kCH; kWB; kDB; kXB; kGD43; kGD53]) by (cbn in *; tauto).
  assert (H1 : c <> krCIP) by (intros ->; cbn in H; intuition discriminate). assert (H2 : c <> kcSIL) by (intros ->; cbn in H; intuition discriminate).
  destruct (C92_stream_is_batch L left_right c 2 ex_q 3 2 (value_of c) (value_of c) H1 H2) as (A & B & _); auto.
  - unfold real_data, ex_q. repeat constructor.
  - intros z. change (In z [0; 0; 1; 1]%Z <-> (0 <= z < 2)%Z). cbn. lia.
  - exact (C92_example_stream L c H).
  - refine (eq_trans (f_equal (fun l => nth_error l 0) (C92_example_batch L c H')) _). reflexivity.
Qed.
