(** * C59: signs of the values computed in binary64 *)
From Coq Require Import ZArith List Arith Bool Lia SpecFloat Permutation.
From Verif Require Import Num NumPy Base GetCvi Lists Step StepB Stream Generic Nan Sign F64 F64o.
Import ListNotations.
Local Open Scope nat_scope.

(** ** The specification: the sign bit of a binary64 number *)
(** not a number, or the sign bit is clear: +0, a positive number or +inf *)
Definition nan_or_plus (x : f64) : Prop :=
  match x with
  | S754_nan => True
  | S754_zero s | S754_infinity s | S754_finite s _ _ => s = false
  end.

Lemma round_aux_plus m e l : nan_or_plus (binary_round_aux 53 1024 false m e l).
Proof.
  unfold binary_round_aux. destruct (shr_fexp _ _ _ _ _) as [mrs e']. destruct (shr_fexp _ _ _ _ _) as [mrs'' e''].
  destruct (shr_m mrs''); try exact I; try reflexivity. destruct (e'' <=? _)%Z; reflexivity.
Qed.
Lemma round_plus m e : nan_or_plus (binary_round 53 1024 false m e).
Proof. unfold binary_round. match goal with |- context [match ?e with _ => _ end] => destruct e end. apply round_aux_plus. Qed.
Lemma normalize_plus z e : (0 <= z)%Z -> nan_or_plus (binary_normalize 53 1024 z e false).
Proof. destruct z; intros H; [reflexivity|apply round_plus|lia]. Qed.

Lemma dadd_plus x y : nan_or_plus x -> nan_or_plus y -> nan_or_plus (dadd x y).
Proof.
  destruct x as [sx|sx| |sx mx ex], y as [sy|sy| |sy my ey]; cbn [nan_or_plus]; intros; subst; try exact I; try reflexivity.
  unfold dadd, SFadd. cbv zeta. apply normalize_plus. cbn [cond_Zopp]. lia.
Qed.
Lemma dmul_plus x y : nan_or_plus x -> nan_or_plus y -> nan_or_plus (dmul x y).
Proof.
  destruct x as [sx|sx| |sx mx ex], y as [sy|sy| |sy my ey]; cbn [nan_or_plus]; intros; subst; try exact I; try reflexivity.
  apply round_aux_plus.
Qed.
Lemma dmul_sq x : nan_or_plus (dmul x x).
Proof.
  destruct x as [sx|sx| |sx mx ex]; try exact I; try (now destruct sx).
  unfold dmul, SFmul. rewrite xorb_nilpotent. apply round_aux_plus.
Qed.
Lemma ddiv_plus x y : nan_or_plus x -> nan_or_plus y -> nan_or_plus (ddiv x y).
Proof.
  destruct x as [sx|sx| |sx mx ex], y as [sy|sy| |sy my ey]; cbn [nan_or_plus]; intros; subst; try exact I; try reflexivity.
  unfold ddiv, SFdiv. destruct (SFdiv_core_binary _ _ _ _ _ _) as [[mz ez] lz]. apply round_aux_plus.
Qed.
Lemma dsqrt_plus x : nan_or_plus x -> nan_or_plus (dsqrt x).
Proof.
  destruct x as [sx|sx| |sx mx ex]; cbn [nan_or_plus]; intros; subst; try exact I; try reflexivity.
  unfold dsqrt, SFsqrt. destruct (SFsqrt_core_binary _ _ _ _) as [[mz ez] lz]. apply round_aux_plus.
Qed.
(** a sum in any order *)
Lemma summed_plus l z : summed l z -> Forall nan_or_plus l -> nan_or_plus z.
Proof.
  induction 1 as [|x|a b l x y _ _ _ IHa _ IHb P]; intros HF; [reflexivity|now inversion HF|].
  rewrite P in HF. apply Forall_app in HF as [HA HB]. apply dadd_plus; auto.
Qed.
Lemma F64o_signed L S : any_order S -> Signed (A := F64o L S) nan_or_plus.
Proof.
  intros [HS _]. constructor; cbn [F64o F f_of_Z fadd fmul fdiv fsqrt fminimum fmaximum np_sum].
  - intros z Hz. apply normalize_plus, Hz.
  - apply dmul_sq.
  - apply dadd_plus.
  - apply dmul_plus.
  - apply ddiv_plus.
  - apply dsqrt_plus.
  - intros x y Hx Hy. unfold dmin. destruct (SFcompare x y) as [[| |]|]; auto. exact I.
  - intros x y Hx Hy. unfold dmax. destruct (SFcompare x y) as [[| |]|]; auto. exact I.
  - intros l Hl. exact (summed_plus l _ (HS l) Hl).
Qed.

(** ** C59: batches.  Whatever the numbers and the labels, with every rounding and
    every order of the sums. *)
Theorem C59_batches (L : Libm) (S : Sums) (c : kind) (d : nat) (s : list (vec (F64o L S) * Z)) (v : F (F64o L S)) :
  any_order S -> In c [kCH; kWB; kDB; kXB; kGD43; kGD53] ->
  results c new_obj [batch_of d s] = [Ok v] -> nan_or_plus v.
Proof.
  intros HS Hc Hv.
  unfold results, batch_of in Hv. cbn [run fst snd] in Hv. unfold get_cvi, update in Hv.
  cbn [at_ new_obj label_map init_attrs is_setup] in Hv.
  destruct (1 <? unique_labels (Labs (map snd s))) eqn:EU; cbn [negb] in Hv; [|discriminate].
  apply Nat.ltb_lt in EU. cbn [unique_labels] in EU.
  destruct (param_batch c (mkMat d (map fst s)) (map snd s) init_attrs) as [o' [[]|e]] eqn:EB; [|discriminate].
  cbn [at_] in Hv. destruct (evaluate c o') as [o2 [[]|e]] eqn:EV; [|discriminate]. cbn [fst snd] in Hv. injection Hv as <-.
  assert (HN : n_unique (map snd s) <= nrows (mkMat d (map fst s))).
  { unfold n_unique, nrows. cbn [mrows]. rewrite map_length, <- (map_length snd s).
    apply NoDup_incl_length; [apply NoDup_nodup|]. intros z. now rewrite nodup_In. }
  apply (batch_pos (A := F64o L S) nan_or_plus (F64o_signed L S HS) (mkMat d (map fst s)) (map snd s)) with (c := c) (o' := o'); auto.
  - apply covers_le. unfold nrows. cbn [mrows]. now rewrite !map_length.
  - now rewrite EV.
Qed.
Print Assumptions C59_batches.
(** six positive values; coinciding centres give inf or nan, never -inf *)
Definition result_is (test : f64 -> bool) (r : E f64) : bool := match r with Ok v => test v | Err _ => false end.
Definition is_plus_inf (x : f64) : bool := match x with S754_infinity false => true | _ => false end.
Example C59_example (L : Libm) :
  map (fun c => map (result_is (SFltb (d_of_Z 0)))
                  (results c new_obj [batch_of (A := F64 L) 1 [(fv L [0], 0); (fv L [2], 0); (fv L [10], 1); (fv L [14], 1)]%Z]))
      [kCH; kWB; kDB; kXB; kGD43; kGD53] = repeat [true] 6 /\
  map (fun c => map (result_is is_plus_inf)
                  (results c new_obj [batch_of (A := F64 L) 1 [(fv L [-1], 0); (fv L [1], 0); (fv L [-5], 1); (fv L [5], 1)]%Z]))
      [kWB; kDB; kXB] = repeat [true] 3.
Proof. split; vm_compute; reflexivity. Qed.

(** ** C59: streams.  The compactness that the one-sample calls update can
    become negative when squares underflow: four samples near 7.7e-147 that
    differ in their last bits, and a fifth in another cluster.  The batch calls
    on the same samples return +0 and +inf. *)
Definition tiny (L : Libm) : list (vec (F64 L) * Z) :=
  [([dyadic 6965868965267947 538], 0%Z); ([dyadic 6965868965267945 538], 0%Z);
   ([dyadic 6965868965267946 538], 0%Z); ([dyadic 6965868965267945 538], 0%Z);
   ([dyadic 1 450], 1%Z)].
Definition last_of (rs : list (E f64)) : E f64 := last rs (Err ValueError).
Theorem C59_streams_refuted (L : Libm) :
  map (fun c => result_is (fun x => SFltb x (d_of_Z 0)) (last_of (results c new_obj (stream (tiny L)))))
      [kCH; kWB; kXB; kGD43] = [true; true; true; true] /\
  map (fun c => results c new_obj [batch_of 1 (tiny L)]) [kCH; kWB; kXB; kGD43] =
  [[Ok (S754_infinity false)]; [Ok (S754_zero false)]; [Ok (S754_zero false)]; [Ok (S754_infinity false)]].
Proof. split; vm_compute; reflexivity. Qed.
Print Assumptions C59_streams_refuted.
