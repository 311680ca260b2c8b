(** * C94: how far floating point is from exact arithmetic

    C08 and C81 bound the rounding of the accumulators.  Here the whole run is
    accounted for, up to the returned value: an arithmetic that carries a bound
    beside every number (Ball.v) computes, for any history of calls, how far what
    binary64 (or float32 data) returns is from what exact arithmetic returns. *)
From Coq Require Import ZArith QArith Qabs Qreals Reals List Arith Bool Lia Lra SpecFloat.
From Flocq Require Import Core.
From Verif Require Import Num NumPy Base GetCvi F64 F64o F32d XR Spec Obs P_Inc Rnd Bnd.
From Verif Require Import Par ParL ParC Mir P_Par Exa P_Exa Ball.
Import ListNotations.
Local Open Scope nat_scope.

(** ** Specification *)
(** [x] as a fraction *)
Definition fraction (x : f64) : option Q :=
  match x with
  | S754_zero _ => Some 0%Q
  | S754_finite s m e =>
      let n := if s then Z.neg m else Z.pos m in
      Some (if (0 <=? e)%Z then (n * 2 ^ e)%Z # 1 else n # Z.to_pos (2 ^ (- e)))
  | _ => None
  end.
(** what floating point and exact arithmetic return, given what the arithmetic
    that keeps account says: a value and its error, or that it does not know *)
Definition within (accounted : E (option (f64 * Q))) (float : E f64) (exact : E xr) : Prop :=
  match accounted with
  | Ok (Some (v, e)) => float = Ok v /\ exists t, exact = Ok (Fin t) /\ (Rabs (rv v - t) <= Q2R e)%R
  | Ok None => True
  | Err e => float = Err e /\ exact = Err e
  end.
(** exp is right up to a relative and an absolute error where its argument is not
    positive (PS takes no other) *)
Definition exp_within (L : Libm) (eta delta : Q) : Prop := forall x p r, fraction x = Some p -> fraction (l_exp L x) = Some r -> (Q2R p <= 0)%R ->
  (Rabs (Q2R r - exp (Q2R p)) <= Q2R eta * Rabs (Q2R r) + Q2R delta)%R.
(** a number of the data: no error *)
Definition given (x : f64) : option (f64 * Q) := match fraction x with Some _ => Some (x, 0%Q) | None => None end.

(** ** Proof *)
Lemma fraction_val x p : fraction x = Some p -> Q2R p = rv x.
Proof.
  unfold rv. destruct x as [s| | |s m e]; cbn; try discriminate; intros E; apply sj in E; subst p; [apply qv_0|].
  unfold F2R. cbn [Defs.Fnum Defs.Fexp]. replace (SpecFloat.cond_Zopp s (Z.pos m)) with (if s then Z.neg m else Z.pos m) by (now destruct s).
  set (n := if s then Z.neg m else Z.pos m). destruct (0 <=? e)%Z eqn:Ee.
  - apply Z.leb_le in Ee. unfold Q2R. cbn [Qnum Qden]. rewrite mult_IZR, (IZR_Zpower radix2) by auto. field.
  - apply Z.leb_gt in Ee. unfold Q2R. cbn [Qnum Qden]. rewrite Z2Pos.id by (apply Z.pow_pos_nonneg; lia).
    replace e with (- - e)%Z at 2 by lia. rewrite bpow_opp, (IZR_Zpower radix2) by lia. reflexivity.
Qed.
Lemma fraction_true x p : fraction x = Some p -> dtrue x = negb (Qeq_bool p 0).
Proof.
  destruct x as [s| | |s m e]; cbn; try discriminate; intros E; apply sj in E; subst p; auto. destruct (Qeq_bool _ _) eqn:K; auto. exfalso.
  apply Qeq_bool_iff, Qeq_eqR in K. rewrite qv_0 in K.
  assert (V := fraction_val (S754_finite s m e) _ eq_refl). cbn in V. rewrite K in V. unfold rv in V. cbn in V. symmetry in V. apply eq_0_F2R in V. now destruct s.
Qed.
Section Gen.
  Context (A : Arith) (dq : F A -> option Q) (eta delta : Q) (real : F A -> Rdefinitions.R)
    (Hr : forall x p, dq x = Some p -> Q2R p = real x) (Ht : forall x p, dq x = Some p -> ftrue x = negb (Qeq_bool p 0)).
  Definition keepb (x : F A) : option (F A * Q) := match dq x with Some _ => Some (x, 0%Q) | None => None end.
  Notation BA := (Ball A dq eta delta).
  Lemma keepb_own x : Ball.rel_own A (keepb x) x.
  Proof. unfold keepb. destruct (dq x); cbn; auto. Qed.
  Lemma keepb_xr x : Ball.rel_xr A dq (keepb x) (Fin (real x)).
  Proof.
    unfold keepb. destruct (dq x) as [p|] eqn:E; cbn; auto. exists p, (real x). repeat split; auto.
    unfold near. rewrite (Hr x p E), qv_0, Rminus_diag_eq, Rabs_R0 by auto. apply Rle_refl.
  Qed.
  Lemma there_relb (B : Arith) (w : Sorts BA B) (f : F A -> F B) (h : list (call A)) : (forall x, sP w (keepb x) (f x)) ->
    Forall2 (rcall w) (map (there (A := A) (B := BA) keepb) h) (map (there f) h).
  Proof.
    intros H. induction h as [|[d l] h IH]; cbn [map]; constructor; auto. split; auto. cbn [fst there].
    assert (G : forall x : list (F A), Forall2 (sP w) (map (keepb : F A -> F BA) x) (map f x)) by (induction x; cbn; constructor; auto).
    destruct d as [x|q|j]; cbn in *; auto. split; auto. cbn. induction (mrows q); cbn; constructor; auto.
  Qed.
  Lemma account_gen c (h : list (call A)) i r : c <> krCIP -> (c = kPS -> exp_near A dq eta delta) ->
    nth_error (results (A := BA) c new_obj (map (there (A := A) (B := BA) keepb) h)) i = Some r ->
    exists p q, nth_error (results c new_obj h) i = Some p /\
      nth_error (results (A := XR) c new_obj (map (there (A := A) (B := XR) (fun x => Fin (real x))) h)) i = Some q /\
      match r with
      | Ok (Some (v, e)) => p = Ok v /\ exists t, q = Ok (Fin t) /\ (Rabs (real v - t) <= Q2R e)%R
      | Ok None => True
      | Err e => p = Err e /\ q = Err e
      end.
  Proof.
    intros H1 H3 E.
    pose proof (Ball.own_lawful A dq eta delta Ht c H1) as WO. pose proof (Ball.xr_lawful A dq eta delta c H1 H3) as WX.
    pose proof (proj2 (par_run _ c WO _ _ (there_relb A (Ball.own_sorts A dq eta delta) (fun x => x) h keepb_own) new_obj new_obj (par_new _ _ WO))) as P.
    pose proof (proj2 (par_run _ c WX _ _ (there_relb XR (Ball.xr_sorts A dq eta delta) (fun x => Fin (real x)) h keepb_xr) new_obj new_obj (par_new _ _ WX))) as Q.
    rewrite there_id in P.
    destruct (nth_rel _ _ _ i r P E) as (p & Ep & Rp). destruct (nth_rel _ _ _ i r Q E) as (q & Eq & Rq). exists p, q. split; [exact Ep|]. split; [exact Eq|].
    destruct r as [[[v e]|]|e]; auto.
    - destruct p as [vp|]; [|contradiction]. destruct q as [vq|]; [|contradiction]. cbn in Rp, Rq.
      assert (Rp' : Ball.rel_own A (Some (v, e)) vp) by (destruct c; exact Rp). assert (Rq' : Ball.rel_xr A dq (Some (v, e)) vq) by (destruct c; exact Rq).
      cbn in Rp', Rq'. destruct Rq' as (d & t & Ed & -> & Hn). subst. split; auto. exists t. split; auto. rewrite <- (Hr v d Ed). exact Hn.
    - destruct p as [vp|]; [contradiction|]. destruct q as [vq|]; [contradiction|]. cbn in *. subst. auto.
  Qed.
End Gen.

(** ** The property *)
(** any history of calls, any order of summation *)
Definition account64 (L : Libm) (S : Sums) (eta delta : Q) : Arith := Ball (F64o L S) fraction eta delta.
Theorem C94_account : forall L S eta delta c (h : list (call (F64o L S))) i r, c <> krCIP -> (c = kPS -> exp_within L eta delta) ->
  let B := account64 L S eta delta in
  nth_error (results (A := B) c new_obj (map (there (A := F64o L S) (B := B) given) h)) i = Some r ->
  exists p q, nth_error (results (A := F64o L S) c new_obj h) i = Some p /\
    nth_error (results (A := XR) c new_obj (map (there (A := F64o L S) (B := XR) (fun x => Fin (rv x))) h)) i = Some q /\
    within r p q.
Proof.
  intros L S eta delta c h i r H1 H3 B E.
  exact (account_gen (F64o L S) fraction eta delta rv fraction_val fraction_true c h i r H1 H3 E).
Qed.
Print Assumptions C94_account.
Definition account32 (L : Libm) (S T : Sums) (eta delta : Q) : Arith := Ball (F32d L S T) fraction eta delta.
Theorem C94_account_float32 : forall L S T eta delta c (h : list (call (F32d L S T))) i r, c <> krCIP -> (c = kPS -> exp_within L eta delta) ->
  let B := account32 L S T eta delta in
  nth_error (results (A := B) c new_obj (map (there (A := F32d L S T) (B := B) given) h)) i = Some r ->
  exists p q, nth_error (results (A := F32d L S T) c new_obj h) i = Some p /\
    nth_error (results (A := XR) c new_obj (map (there (A := F32d L S T) (B := XR) (fun x => Fin (rv x))) h)) i = Some q /\
    within r p q.
Proof.
  intros L S T eta delta c h i r H1 H3 B E.
  exact (account_gen (F32d L S T) fraction eta delta rv fraction_val fraction_true c h i r H1 H3 E).
Qed.
Print Assumptions C94_account_float32.

(** So C01-C06 hold for binary64 up to the accounted errors. *)
Theorem C94_stream_near_batch : forall L S eta delta c d (s : list (list f64 * Z)) i k v e w f,
  c <> krCIP -> c <> kcSIL -> (c = kPS -> exp_within L eta delta) ->
  wf d (real_data s) -> i < length s -> 2 <= k -> exact_labels (firstn (Datatypes.S i) (real_data s)) k ->
  let B := account64 L S eta delta in
  let giv p := (map given (fst p), snd p) in
  nth_error (results (A := B) c new_obj (stream (A := B) (map giv s))) i = Some (Ok (Some (v, e))) ->
  nth_error (results (A := B) c new_obj [batch_of (A := B) d (map giv (firstn (Datatypes.S i) s))]) 0 = Some (Ok (Some (w, f))) ->
  nth_error (results (A := F64o L S) c new_obj (stream (A := F64o L S) s)) i = Some (Ok v) /\
  nth_error (results (A := F64o L S) c new_obj [batch_of (A := F64o L S) d (firstn (Datatypes.S i) s)]) 0 = Some (Ok w) /\
  (Rabs (rv v - rv w) <= Q2R (e + f))%R.
Proof.
  intros L S eta delta c d s i k v e w f H1 H2 H3 Hw Hi Hk He B giv Es Eb.
  assert (Es' : map (there (A := F64o L S) (B := B) given) (stream (A := F64o L S) s) = stream (A := B) (map giv s)).
  { unfold stream. rewrite !map_map. apply map_ext. intros [x l]. reflexivity. }
  assert (Eb' : map (there (A := F64o L S) (B := B) given) [batch_of (A := F64o L S) d (firstn (Datatypes.S i) s)] = [batch_of (A := B) d (map giv (firstn (Datatypes.S i) s))]).
  { unfold batch_of, there. cbn. rewrite !map_map. reflexivity. }
  rewrite <- Es' in Es. rewrite <- Eb' in Eb.
  destruct (C94_account L S eta delta c _ i _ H1 H3 Es) as (p & q & Ep & Eq & Ap & t & Aq & Bq). subst p q.
  destruct (C94_account L S eta delta c _ 0 _ H1 H3 Eb) as (p & q & Ep' & Eq' & Ap & t' & Aq & Bq'). subst p q.
  split; [exact Ep|]. split; [exact Ep'|].
  assert (Hl : i < length (real_data s)) by (unfold real_data; now rewrite map_length).
  destruct (inc_eq_batch c d (real_data s) i k H2 ltac:(intros ->; contradiction) Hw Hl Hk He) as (u & U1 & U2).
  assert (G1 : map (there (A := F64o L S) (B := XR) (fun x => Fin (rv x))) (stream (A := F64o L S) s) = map (fun p => (Vec (fst p), Lab (snd p))) (as_floats (real_data s))).
  { unfold stream, as_floats, real_data. rewrite !map_map. apply map_ext. intros [x l]. unfold there, there_data. cbn. now rewrite map_map. }
  rewrite G1 in Eq. unfold stream_results in U1. rewrite U1 in Eq. injection Eq as Eq.
  assert (G2 : map (there (A := F64o L S) (B := XR) (fun x => Fin (rv x))) [batch_of (A := F64o L S) d (firstn (Datatypes.S i) s)] =
     [(Mat (mkMat (A := XR) d (map fst (as_floats (firstn (Datatypes.S i) (real_data s))))), Labs (labels (firstn (Datatypes.S i) (real_data s))))]).
  { unfold batch_of, there, there_data, real_data. cbn [map fst snd mcols mrows]. rewrite firstn_map. unfold as_floats, labels. rewrite !map_map. cbn.
    match goal with |- [(Mat (mkMat _ ?a), _)] = [(Mat (mkMat _ ?b), _)] => replace b with a; auto end. apply map_ext. intros [x l]. cbn. now rewrite map_map. }
  rewrite G2, results_one in Eq'. unfold batch_result in U2. cbn [nth_error] in Eq'. injection Eq' as Eq'. assert (Q := eq_trans (eq_sym U2) Eq'). subst u. injection Q as Q. subst t'.
  rewrite Q2R_plus. apply abs_inv in Bq, Bq'. apply Rabs_le. lra.
Qed.
Print Assumptions C94_stream_near_batch.

(** Values that differ by more than their errors differ in exact arithmetic. *)
Definition apart_by (b : Q) (r r' : option (E (option (f64 * Q)))) : bool :=
  match r, r' with
  | Some (Ok (Some (v, e))), Some (Ok (Some (w, f))) =>
      match fraction v, fraction w with Some p, Some q => Qle_bool (b + (e + f)) (Qabs (p - q)) | _, _ => false end
  | _, _ => false
  end.
Theorem C94_apart : forall L S eta delta c (h h' : list (call (F64o L S))) i i' b, c <> krCIP -> (c = kPS -> exp_within L eta delta) ->
  let B := account64 L S eta delta in
  apart_by b (nth_error (results (A := B) c new_obj (map (there (A := F64o L S) (B := B) given) h)) i)
             (nth_error (results (A := B) c new_obj (map (there (A := F64o L S) (B := B) given) h')) i') = true ->
  exists t t', nth_error (results (A := XR) c new_obj (map (there (A := F64o L S) (B := XR) (fun x => Fin (rv x))) h)) i = Some (Ok (Fin t)) /\
    nth_error (results (A := XR) c new_obj (map (there (A := F64o L S) (B := XR) (fun x => Fin (rv x))) h')) i' = Some (Ok (Fin t')) /\
    (Q2R b <= Rabs (t - t'))%R.
Proof.
  intros L S eta delta c h h' i i' b H1 H3 B H. unfold apart_by in H.
  pose proof (fun r => C94_account L S eta delta c h i r H1 H3) as K1. pose proof (fun r => C94_account L S eta delta c h' i' r H1 H3) as K2.
  fold B in K1, K2. cbv zeta in K1, K2.
  destruct (nth_error (results (A := B) c new_obj (map _ h)) i) as [[[[v e]|]|]|]; try discriminate.
  destruct (nth_error (results (A := B) c new_obj (map _ h')) i') as [[[[w f]|]|]|]; try discriminate.
  destruct (fraction v) as [p|] eqn:Ep; try discriminate. destruct (fraction w) as [q|] eqn:Eq; try discriminate.
  destruct (K1 _ eq_refl) as (? & q1 & _ & E1 & _ & t & -> & D1). destruct (K2 _ eq_refl) as (? & q2 & _ & E2 & _ & t' & -> & D2).
  exists t, t'. split; [exact E1|]. split; [exact E2|].
  apply qle_true in H. rewrite Q2R_plus, Q2R_plus, qv_abs, qv_sub, (fraction_val v p Ep), (fraction_val w q Eq) in H.
  pose proof (Rabs_triang (rv v - t) (t - t')) as T1. pose proof (Rabs_triang (rv v - t + (t - t')) (t' - rv w)) as T2.
  replace (rv v - t + (t - t') + (t' - rv w))%R with (rv v - rv w)%R in T2 by ring. rewrite (Rabs_minus_sym t' (rv w)) in T2. lra.
Qed.
Print Assumptions C94_apart.

(** ** Examples *)
(** (0.1, 0.7), (0.3, -0.2), (0.2, 0.2) | (10.7, 0.2), (9.9, 0.3), (9.8, -0.4):
    streams and batches are within 10^-11 of exact arithmetic *)
Definition ex_t : list (list f64 * Z) :=
  map (fun p => (map tenth (fst p), snd p)) [([1; 7], 0); ([3; -2], 0); ([107; 2], 1); ([99; 3], 1); ([98; -4], 1); ([2; 2], 0)]%Z.
Definition given_t : list (list (option (f64 * Q)) * Z) := map (fun p => (map given (fst p), snd p)) ex_t.
Definition error_below (b : Q) (r : option (E (option (f64 * Q)))) : bool :=
  match r with Some (Ok (Some (_, e))) => Qle_bool e b | _ => false end.
Definition six : list kind := [kCH; kWB; kDB; kXB; kGD43; kGD53].
Definition tiny : Q := 1 # 10 ^ 11.
Lemma error_below_ok b r : error_below b r = true -> exists v e, r = Some (Ok (Some (v, e))) /\ (Q2R e <= Q2R b)%R.
Proof. destruct r as [[[[v e]|]|]|]; cbn; try discriminate. intros H. exists v, e. split; auto. now apply qle_true. Qed.
Definition streamed (L : Libm) (S : Sums) (c : kind) : option (E (option (f64 * Q))) :=
  nth_error (results (A := account64 L S 0 0) c new_obj (stream (A := account64 L S 0 0) given_t)) 5.
Definition batched (L : Libm) (S : Sums) (c : kind) : option (E (option (f64 * Q))) :=
  nth_error (results (A := account64 L S 0 0) c new_obj [batch_of (A := account64 L S 0 0) 2 given_t]) 0.
Lemma C94_example_errors L : forall c, In c (kcSIL :: six) ->
  error_below tiny (streamed L left_right c) = true /\ error_below tiny (batched L left_right c) = true.
Proof. intros c H. repeat destruct H as [<-|H]; try contradiction; split; vm_compute; reflexivity. Qed.
(** float32 data: within 1/5000 *)
Lemma C94_example_float32 L : forall c, In c (kcSIL :: six) ->
  error_below (1 # 5000) (nth_error (results (A := account32 L left_right left_right 0 0) c new_obj [batch_of (A := account32 L left_right left_right 0 0) 2 given_t]) 0) = true.
Proof. intros c H. repeat destruct H as [<-|H]; try contradiction; vm_compute; reflexivity. Qed.
(** so what binary64 returns for the stream and for the batch differs by no more
    than 2 * 10^-11 *)
Lemma C94_example L : forall c, In c six -> exists v w,
  nth_error (results (A := F64o L left_right) c new_obj (stream (A := F64o L left_right) ex_t)) 5 = Some (Ok v) /\
  nth_error (results (A := F64o L left_right) c new_obj [batch_of (A := F64o L left_right) 2 ex_t]) 0 = Some (Ok w) /\
  (Rabs (rv v - rv w) <= 2 / 10 ^ 11)%R.
Proof.
  intros c H. destruct (C94_example_errors L c (or_intror H)) as [Es Eb]. apply error_below_ok in Es as (v & e & Es & He). apply error_below_ok in Eb as (w & f & Eb & Hf).
  exists v, w. destruct (C94_stream_near_batch L left_right 0 0 c 2 ex_t 5 2 v e w f) as (A & B & D); auto; try (intros ->; cbn in H; intuition discriminate).
  - unfold real_data, ex_t. repeat constructor.
  - intros z. change (In z [0; 0; 1; 1; 1; 0]%Z <-> (0 <= z < 2)%Z). cbn. lia.
  - split; [exact A|]. split; [exact B|]. rewrite Q2R_plus in D.
    assert (T : Q2R tiny = (1 / 10 ^ 11)%R) by (unfold tiny, Q2R; cbn [Qnum Qden]; replace (Z.pos (10 ^ 11)) with (10 ^ 11)%Z by reflexivity; replace (IZR (10 ^ 11)) with (10 ^ 11)%R by (rewrite pow_IZR; reflexivity); unfold Rdiv; ring).
    rewrite T in *. unfold Rdiv in *. lra.
Qed.
(** the last bits of DB do differ *)
Lemma C94_example_bits L :
  match streamed L left_right kDB, batched L left_right kDB with
  | Some (Ok (Some (v, _))), Some (Ok (Some (w, _))) => v = S754_finite false 4671901639559480 (-60) /\ w = S754_finite false 4671901639559481 (-60)
  | _, _ => False
  end.
Proof. vm_compute. auto. Qed.
(** The stream of cSIL is not its batch (C09), and this is not rounding: the
    values returned differ by more than their errors, so the exact ones differ. *)
Lemma C94_example_cSIL L : let A := F64o L left_right in let B := account64 L left_right 0 0 in
  apart_by (1 # 100000)
    (nth_error (results (A := B) kcSIL new_obj (map (there (A := A) (B := B) given) (stream (A := A) ex_t))) 5)
    (nth_error (results (A := B) kcSIL new_obj (map (there (A := A) (B := B) given) [batch_of (A := A) 2 ex_t])) 0) = true.
Proof. vm_compute. reflexivity. Qed.
Lemma C94_cSIL_not_rounding L : let A := F64o L left_right in exists t t',
  nth_error (results (A := XR) kcSIL new_obj (map (there (A := A) (B := XR) (fun x => Fin (rv x))) (stream (A := A) ex_t))) 5 = Some (Ok (Fin t)) /\
  nth_error (results (A := XR) kcSIL new_obj (map (there (A := A) (B := XR) (fun x => Fin (rv x))) [batch_of (A := A) 2 ex_t])) 0 = Some (Ok (Fin t')) /\
  (Q2R (1 # 100000) <= Rabs (t - t'))%R.
Proof.
  exact (C94_apart L left_right 0 0 kcSIL (stream (A := F64o L left_right) ex_t) [batch_of (A := F64o L left_right) 2 ex_t] 5 0 (1 # 100000)
    ltac:(discriminate) ltac:(discriminate) (C94_example_cSIL L)).
Qed.
(** PS, with an exp that is always 0: right up to 1 *)
Definition zero_exp : Libm := mkLibm (fun _ => S754_zero false) (fun x _ => x) (fun _ => S754_zero false) (fun _ => None).
Lemma zero_exp_within : exp_within zero_exp 0 1.
Proof.
  intros x p r _ E Hp. cbn in E. injection E as <-. change (0 # 1)%Q with 0%Q. rewrite qv_0, qv_1, Rabs_R0, Rmult_0_l, Rplus_0_l, Rminus_0_l, Rabs_Ropp.
  rewrite Rabs_pos_eq by (left; apply exp_pos). rewrite <- exp_0. destruct (Req_dec (Q2R p) 0) as [->|N]; [apply Rle_refl|]. left. apply exp_increasing. lra.
Qed.
Lemma C94_example_PS : let B := account64 zero_exp left_right 0 1 in
  error_below 3 (nth_error (results (A := B) kPS new_obj (stream (A := B) given_t)) 5) = true /\
  error_below 3 (nth_error (results (A := B) kPS new_obj [batch_of (A := B) 2 given_t]) 0) = true.
Proof. split; vm_compute; reflexivity. Qed.
