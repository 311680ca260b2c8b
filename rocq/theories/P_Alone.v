(** * C98: every sample a cluster of its own *)
From Coq Require Import ZArith List Arith Bool Lia SpecFloat Permutation Reals Lra.
From Verif Require Import Num NumPy Base GetCvi Lists Step StepB Stream Generic F64 F64o F32d XR P_Sign Alone.
Import ListNotations.
Local Open Scope nat_scope.

(** ** The specification: the values that a partition into single samples may have *)
Definition zero_or_nan (x : f64) : Prop := match x with S754_zero _ | S754_nan => True | _ => False end.
Definition inf_or_nan (x : f64) : Prop := x = S754_infinity false \/ x = S754_nan.
(** zero is the best value of WB, DB and XB, +inf the best value of GD43 *)
Definition trivial64 (c : kind) (x : f64) : Prop :=
  match c with
  | kWB | kDB | kXB => zero_or_nan x
  | kGD43 => inf_or_nan x
  | kCH | kGD53 => x = S754_nan
  | _ => True
  end.
Definition trivialX (c : kind) (x : xr) : Prop :=
  match c with
  | kWB | kDB | kXB => x = Fin 0 \/ x = NaN
  | kGD43 => x = PInf \/ x = NaN
  | kCH | kGD53 => x = NaN
  | _ => True
  end.

(** ** Zeros in binary64 and in the exact arithmetic *)
Definition not_minus (x : f64) : Prop :=
  match x with S754_infinity true | S754_finite true _ _ => False | _ => True end.
Lemma summed_zero l z : summed l z -> Forall zero_or_nan l -> zero_or_nan z.
Proof.
  induction 1 as [|x|a b l x y _ _ _ IHa _ IHb P]; intros HF; [exact I|now inversion HF|].
  rewrite P in HF. apply Forall_app in HF as [HA HB]. specialize (IHa HA). specialize (IHb HB).
  destruct x as [[]|?| |?], y as [[]|?| |?]; try exact I; try destruct IHa; try destruct IHb.
Qed.
Lemma zero_div a b : zero_or_nan a -> zero_or_nan (ddiv a b).
Proof. destruct a as [?|?| |?], b as [?|?| |?]; intros H; try exact I; destruct H. Qed.
Lemma zero_mul a b : zero_or_nan a -> zero_or_nan (dmul a b).
Proof. destruct a as [?|?| |?], b as [?|?| |?]; intros H; try exact I; destruct H. Qed.
Lemma over_zero b x : zero_or_nan x -> dmul (ddiv b (S754_zero false)) x = S754_nan.
Proof. destruct b as [?|?| |?], x as [?|?| |?]; intros H; try reflexivity; destruct H. Qed.
Lemma sqrt_not_minus x : not_minus (dsqrt x).
Proof.
  destruct x as [s|[]| |[] m e]; try exact I.
  pose proof (dsqrt_plus (S754_finite false m e) eq_refl) as H. destruct (dsqrt _) as [?|?| |?]; try exact I; cbn in *; now subst.
Qed.

Lemma F64o_zeros L S : any_order S -> Zeros (F64o L S) zero_or_nan (eq S754_nan) not_minus inf_or_nan.
Proof.
  intros [HS _]. constructor; try reflexivity; try exact I; cbn [F64o F f_of_Z fadd fmul fdiv fsqrt fminimum fmaximum np_sum].
  - intros [[]|?| |?] [[]|?| |?] H H'; try exact I; try destruct H; try destruct H'.
  - apply zero_div.
  - intros a k. apply zero_mul.
  - intros a b Ha Hb. unfold dmax. destruct (SFcompare a b) as [[| |]|]; auto. exact I.
  - intros l. exact (summed_zero l _ (HS l)).
  - intros b m _. symmetry. apply over_zero, zero_div. exact I.
  - apply sqrt_not_minus.
  - intros a b Ha Hb. unfold dmin. destruct (SFcompare a b) as [[| |]|]; auto. exact I.
  - intros [?|[]| |[] ? ?] H; try destruct H; try (now right); now left.
Qed.
Lemma F32d_zeros L S T : any_order S -> Zeros (F32d L S T) zero_or_nan (eq S754_nan) not_minus inf_or_nan.
Proof. intros HS. destruct (F64o_zeros L S HS). constructor; assumption. Qed.

Definition x_not_minus (x : xr) : Prop := match x with Fin r => (0 <= r)%R | NInf => False | _ => True end.
Lemma xzero_div a b : a = Fin 0 \/ a = NaN -> xdiv a b = Fin 0 \/ xdiv a b = NaN.
Proof.
  intros [->| ->]; [|now right]. destruct b as [y| | |]; cbn; auto.
  destruct (Req_EM_T y 0).
  - right. unfold inf_mul. destruct (Req_EM_T 0 0); [reflexivity|lra].
  - left. f_equal. unfold Rdiv. ring.
Qed.
Lemma xover_zero b x : x = Fin 0 \/ x = NaN -> xmul (xdiv b (Fin 0)) x = NaN.
Proof.
  assert (E : inf_mul 0 = NaN) by (unfold inf_mul; destruct (Req_EM_T 0 0); [reflexivity|lra]).
  intros [->| ->].
  - destruct b as [y| | |]; cbn; auto; destruct (Req_EM_T 0 0); try lra; cbn; rewrite ?E; auto.
    unfold inf_mul. destruct (Req_EM_T y 0); auto. destruct (Rlt_dec 0 y); cbn; now rewrite E.
  - destruct (xdiv b (Fin 0)); reflexivity.
Qed.
Lemma XR_zeros : Zeros XR (fun x => x = Fin 0 \/ x = NaN) (eq NaN) x_not_minus (fun x => x = PInf \/ x = NaN).
Proof.
  constructor; cbn [XR F f_of_Z fadd fmul fdiv fsqrt fminimum fmaximum np_sum f0 f1 f2 f_of_nat].
  - cbn. f_equal. ring.
  - cbn. destruct (Req_EM_T 1 0); [lra|]. f_equal. field.
  - cbn. destruct (Req_EM_T 2 0); [lra|]. f_equal. field.
  - cbn. f_equal. ring.
  - cbn. destruct (Rle_dec 0 0); reflexivity.
  - cbn. destruct (Rle_dec 0 0); reflexivity.
  - now left.
  - cbn. destruct (Req_EM_T 0 0); [|lra]. unfold inf_mul. destruct (Req_EM_T 0 0); [reflexivity|lra].
  - intros a b [->| ->] [->| ->]; cbn; auto. left. f_equal. ring.
  - intros. now apply xzero_div.
  - intros a k [->| ->]; cbn; auto. left. f_equal. ring.
  - intros a b [->| ->] [->| ->]; cbn; auto. destruct (Rle_dec 0 0); auto.
  - intros l Hl. unfold xsum. assert (H : forall z, z = Fin 0 \/ z = NaN -> fold_left xadd l z = Fin 0 \/ fold_left xadd l z = NaN).
    { induction Hl as [|x l Hx Hl IH]; intros z Hz; simpl; auto. apply IH.
      destruct Hx as [->| ->], Hz as [->| ->]; cbn; auto. left. f_equal. ring. }
    apply H. now left.
  - intros b m _. symmetry. apply xover_zero, xzero_div. now left.
  - intros [x| | |]; cbn; auto. destruct (Rlt_dec x 0); cbn; auto. apply sqrt_pos.
  - intros [x| | |] [y| | |]; cbn; auto; try (destruct (Rle_dec x y); cbn; auto).
  - intros [x| | |] H; cbn in *; auto; try (destruct H; fail); destruct (Req_EM_T 0 0); try lra; auto.
    unfold inf_mul. destruct (Req_EM_T x 0); auto. destruct (Rlt_dec 0 x); auto. lra.
Qed.

(** ** C98: a stream of samples with a label each.  Every call returns, and from
    the second on the value is one of the above, whatever the samples: with every
    rounding and every order of the sums, infinities and nan included. *)
Theorem C98_alone (L : Libm) (S : Sums) (c : kind) (d : nat) (s : list (vec (F64o L S) * Z)) :
  any_order S -> In c [kCH; kWB; kDB; kXB; kGD43; kGD53] ->
  Forall (fun p => length (fst p) = d) s -> NoDup (map snd s) ->
  exists vals : list f64, results c new_obj (stream s) = map Ok vals /\ length vals = length s /\
    forall i, 1 <= i -> i < length s -> trivial64 c (nth i vals S754_nan).
Proof.
  intros HS Hc Hw Hn.
  destruct (run_alone _ _ _ _ (F64o_zeros L S HS) c d s Hc Hw Hn) as (a & vals & E & _ & _ & Hl & Hv).
  exists vals. unfold results. rewrite E. repeat split; auto. intros i H1 H2.
  specialize (Hv i H1 H2). rewrite (nth_indep vals f0 S754_nan) in Hv by lia. destruct c; cbn in Hv |- *; auto.
Qed.
Print Assumptions C98_alone.
Theorem C98_alone_float32 (L : Libm) (S T : Sums) (c : kind) (d : nat) (s : list (vec (F32d L S T) * Z)) :
  any_order S -> In c [kCH; kWB; kDB; kXB; kGD43; kGD53] ->
  Forall (fun p => length (fst p) = d) s -> NoDup (map snd s) ->
  exists vals : list f64, results c new_obj (stream s) = map Ok vals /\ length vals = length s /\
    forall i, 1 <= i -> i < length s -> trivial64 c (nth i vals S754_nan).
Proof.
  intros HS Hc Hw Hn.
  destruct (run_alone _ _ _ _ (F32d_zeros L S T HS) c d s Hc Hw Hn) as (a & vals & E & _ & _ & Hl & Hv).
  exists vals. unfold results. rewrite E. repeat split; auto. intros i H1 H2.
  specialize (Hv i H1 H2). rewrite (nth_indep vals f0 S754_nan) in Hv by lia. destruct c; cbn in Hv |- *; auto.
Qed.
Print Assumptions C98_alone_float32.
Theorem C98_alone_exact (c : kind) (d : nat) (s : list (vec XR * Z)) :
  In c [kCH; kWB; kDB; kXB; kGD43; kGD53] ->
  Forall (fun p => length (fst p) = d) s -> NoDup (map snd s) ->
  exists vals : list xr, results c new_obj (stream s) = map Ok vals /\ length vals = length s /\
    forall i, 1 <= i -> i < length s -> trivialX c (nth i vals NaN).
Proof.
  intros Hc Hw Hn.
  destruct (run_alone _ _ _ _ XR_zeros c d s Hc Hw Hn) as (a & vals & E & _ & _ & Hl & Hv).
  exists vals. unfold results. rewrite E. repeat split; auto. intros i H1 H2.
  specialize (Hv i H1 H2). rewrite (nth_indep vals f0 NaN) in Hv by lia. destruct c; cbn in Hv |- *; auto.
Qed.
Print Assumptions C98_alone_exact.

(** three samples apart: zeros, +inf and nan.  When the second repeats the first,
    WB gives nan at the second sample, DB, XB and GD43 from there on. *)
Definition apart3 (L : Libm) : list (vec (F64 L) * Z) := [(fv L [3; 1], 7); (fv L [8; 2], -2); (fv L [5; 5], 0)]%Z.
Definition twice3 (L : Libm) : list (vec (F64 L) * Z) := [(fv L [3; 1], 7); (fv L [3; 1], -2); (fv L [5; 5], 0)]%Z.
Theorem C98_example (L : Libm) :
  Forall (fun p => length (fst p) = 2) (apart3 L) /\ NoDup (map snd (apart3 L)) /\
  (let z := Ok (S754_zero false) in let n := Ok S754_nan in let i := Ok (S754_infinity false) in
   map (fun c => results c new_obj (stream (apart3 L))) [kCH; kWB; kDB; kXB; kGD43; kGD53] =
   [[z; n; n]; [z; z; z]; [z; z; z]; [z; z; z]; [z; i; i]; [z; n; n]] /\
   map (fun c => results c new_obj (stream (twice3 L))) [kCH; kWB; kDB; kXB; kGD43; kGD53] =
   [[z; n; n]; [z; n; z]; [z; n; n]; [z; n; n]; [z; n; n]; [z; n; n]]).
Proof.
  split; [repeat constructor|]. split; [repeat constructor; cbn; intuition discriminate|]. split; vm_compute; reflexivity.
Qed.
Print Assumptions C98_example.
