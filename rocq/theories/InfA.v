(** * The two arithmetics with infinities: binary64 and exact. *)
From Coq Require Import ZArith List Arith Bool Lia SpecFloat Permutation Reals Lra.
From Flocq Require Import Core BinarySingleNaN.
From Verif Require Import Num NumPy F64 F64o XR Rnd Nan P_Nan.
From Verif Require Import Inf.
Import ListNotations.
#[local] Existing Instances Hprec Hmax.
Local Open Scope R_scope.

(** ** binary64 *)
Definition d_inf (s : bool) (x : f64) : Prop := x = S754_infinity s \/ x = S754_nan.
Definition d_wild (x : f64) : Prop := exists s, d_inf s x.
Definition d_same (x y : f64) : Prop := x = S754_nan \/ y = S754_nan \/ exists s, x = S754_infinity s /\ y = S754_infinity s.
Definition d_hot : f64 -> Prop := d_inf false.
(** not negative, or nan *)
Definition d_pos (x : f64) : Prop :=
  match x with S754_zero s | S754_infinity s | S754_finite s _ _ => s = false | S754_nan => True end.
(** not negative, except possibly [-0.0], or nan *)
Definition d_weak (x : f64) : Prop :=
  match x with S754_infinity s | S754_finite s _ _ => s = false | _ => True end.

Lemma round_aux_pos m e l : d_pos (SpecFloat.binary_round_aux 53 1024 false m e l).
Proof.
  unfold SpecFloat.binary_round_aux. destruct (shr_fexp _ _ _ _ _) as [r q]. destruct (shr_fexp _ _ _ _ _) as [r' q'].
  destruct (shr_m r'); cbn; auto. destruct (_ <=? _)%Z; reflexivity.
Qed.
Lemma normalize_pos m e : (0 <= m)%Z -> d_pos (SpecFloat.binary_normalize 53 1024 m e false).
Proof.
  intros Hm. destruct m as [|p|p]; [reflexivity| |lia]. unfold SpecFloat.binary_normalize, SpecFloat.binary_round.
  destruct (shl_align _ _ _). apply round_aux_pos.
Qed.
Lemma of_nat_pos n : d_pos (d_of_Z (Z.of_nat n)).
Proof. apply normalize_pos. lia. Qed.
Lemma add_pos x y : d_pos x -> d_pos y -> d_pos (dadd x y).
Proof.
  destruct x as [s|s| |s m e]; destruct y as [s'|s'| |s' m' e']; intros Hx Hy; cbn [d_pos] in Hx, Hy; subst; try exact I; try reflexivity.
  unfold dadd, SFadd. apply normalize_pos. cbn [cond_Zopp]. lia.
Qed.
Lemma sq_pos x : d_pos (dmul x x).
Proof.
  destruct x as [s|s| |s m e]; try exact I; cbn; try (destruct s; reflexivity).
  rewrite Bool.xorb_nilpotent. apply round_aux_pos.
Qed.

(** the weights of a running mean *)
Lemma big_of_Z z : (2 <= z)%Z -> valid (d_of_Z z) /\ fin (d_of_Z z) /\ 2 <= rv (d_of_Z z) \/ d_of_Z z = S754_infinity false.
Proof.
  intros Hz. unfold d_of_Z. rewrite normalize_equiv.
  pose proof (binary_normalize_correct 53 1024 _ _ mode_NE z 0 false) as H. cbv zeta in H.
  assert (E : F2R (Float radix2 z 0) = IZR z) by (unfold F2R; cbn; ring). rewrite E in H.
  destruct (Rlt_bool _ _) in H.
  - left. split; [apply valid_B2SF'|]. unfold fin. rewrite fin_B2SF, rv_B2SF. destruct H as (H1 & H2 & _). split; auto.
    rewrite H1. change 2 with (IZR 2).
    replace (IZR 2) with (round radix2 (SpecFloat.fexp 53 1024) (round_mode mode_NE) (IZR 2)).
    + apply round_le; try typeclasses eauto. now apply IZR_le.
    + apply round_generic; try typeclasses eauto. destruct (of_Z_ok 2) as (V & _ & R2); [cbn; lia|]. rewrite <- R2. now apply fmt_rv.
  - right. rewrite H. unfold binary_overflow. cbn. destruct (Rlt_bool_spec (IZR z) 0) as [Hl|_]; [|reflexivity].
    apply lt_IZR in Hl. lia.
Qed.
Lemma rnd_le x y : x <= y -> rnd x <= rnd y.
Proof. intros H. apply round_le; auto; typeclasses eauto. Qed.
Lemma rnd_0 : rnd 0 = 0.
Proof. apply round_0. typeclasses eauto. Qed.
Lemma rnd_1 : rnd 1 = 1.
Proof. destruct (of_Z_ok 1) as (V & _ & R2); [cbn; lia|]. apply round_generic; try typeclasses eauto. rewrite <- R2. now apply fmt_rv. Qed.
Lemma weak_rv x : 0 <= rv x -> d_weak x \/ x = S754_infinity true.
Proof.
  destruct x as [s|s| |s m e]; cbn; auto; [destruct s; auto|]. intros H. left. destruct s; auto. exfalso.
  unfold rv, SF2R, F2R in H. cbn in H. assert (0 < bpow radix2 e) by apply bpow_gt_0.
  assert (IZR (Z.neg m) < 0) by (apply IZR_lt; lia). nra.
Qed.
Definition weight (k : nat) : f64 := ddiv (d_of_Z 1) (d_of_Z (Z.of_nat k)).
Lemma weights k : (2 <= k)%nat -> d_weak (weight k) /\ d_weak (dsub (d_of_Z 1) (weight k)).
Proof.
  intros Hk. unfold weight. destruct (of_Z_ok 1) as (V1 & F1 & R1); [cbn; lia|].
  destruct (big_of_Z (Z.of_nat k)) as [(V & Fk & Hr)|E]; [lia| |rewrite E; split; vm_compute; auto].
  set (y := d_of_Z (Z.of_nat k)) in *. set (w := ddiv (d_of_Z 1) y).
  assert (Hi : 0 < 1 / rv y <= 1).
  { assert (0 < / rv y) by (apply Rinv_0_lt_compat; lra). unfold Rdiv. rewrite Rmult_1_l. split; auto.
    rewrite <- Rinv_1. apply Rinv_le_contravar; lra. }
  assert (Hb : 1 < bpow radix2 1024) by (change 1 with (bpow radix2 0); apply bpow_lt; lia).
  assert (Hq : 0 <= rnd (1 / rv y) <= 1).
  { pose proof (rnd_le 0 (1 / rv y)). pose proof (rnd_le (1 / rv y) 1). rewrite rnd_0 in *. rewrite rnd_1 in *. lra. }
  destruct (ddiv_ok (d_of_Z 1) y) as (Vw & Fw & Rw); auto; [lra| |].
  { unfold no_overflow. rewrite R1, Rabs_pos_eq by lra. lra. }
  fold w in Vw, Fw, Rw. rewrite R1 in Rw.
  assert (Hs : 0 <= rnd (1 - rv w) <= 1).
  { pose proof (rnd_le 0 (1 - rv w)). pose proof (rnd_le (1 - rv w) 1). rewrite rnd_0 in *. rewrite rnd_1 in *. lra. }
  destruct (dsub_ok (d_of_Z 1) w) as (Vc & Fc & Rc); auto.
  { unfold no_overflow. rewrite R1, Rabs_pos_eq by lra. lra. }
  split.
  - destruct (weak_rv w) as [H|H]; [lra|auto|]. rewrite H in Fw. discriminate.
  - destruct (weak_rv (dsub (d_of_Z 1) w)) as [H|H]; [rewrite Rc, R1; lra|auto|]. rewrite H in Fc. discriminate.
Qed.

Lemma inf_add_l s x y : d_inf s x -> d_inf s (dadd x y).
Proof. intros [-> | ->]; destruct y as [|[]| |]; destruct s; cbn; unfold d_inf; auto. Qed.
Lemma inf_add_r s x y : d_inf s y -> d_inf s (dadd x y).
Proof. intros [-> | ->]; destruct x as [|[]| |]; destruct s; cbn; unfold d_inf; auto. Qed.
Lemma inf_scale s w x : d_weak w -> d_inf s x -> d_inf s (dmul w x).
Proof. intros Hw [-> | ->]; destruct w as [s'|s'| |s' m e]; cbn in Hw |- *; subst; unfold d_inf; auto; destruct s; auto. Qed.
Lemma inf_over s x y : d_pos y -> d_inf s x -> d_inf s (ddiv x y).
Proof. intros Hw [-> | ->]; destruct y as [s'|s'| |s' m e]; cbn in Hw |- *; subst; unfold d_inf; rewrite ?Bool.xorb_false_r; auto. Qed.
Lemma nan_scaled c y : dadd (dmul c S754_nan) y = S754_nan.
Proof. destruct c; reflexivity. Qed.
Lemma inf_one s x : d_inf s x -> d_inf s (dmul x (d_of_Z 1)).
Proof. intros [-> | ->]; unfold d_inf; destruct s; auto. Qed.
Lemma inf_same s x y : d_inf s x -> d_inf s y -> d_same x y.
Proof. unfold d_same. intros [-> | ->] [-> | ->]; auto. right. right. exists s. auto. Qed.
Lemma same_sub x y : d_same x y -> dsub x y = S754_nan.
Proof. intros [-> | [-> | (s & -> & ->)]]; [reflexivity|now destruct x|destruct s; reflexivity]. Qed.
Lemma same_inf x y : d_same x y -> (x = S754_nan \/ y = S754_nan) \/ exists s, d_inf s x /\ d_inf s y.
Proof. unfold d_inf. intros [-> | [-> | (s & -> & ->)]]; auto. right. exists s. auto. Qed.
Lemma sum_inf s l z : summed l z -> Exists (d_inf s) l -> d_inf s z.
Proof.
  induction 1 as [|x|a b l x y _ _ _ IHa _ IHb P]; intros E; [inversion E|inversion E as [? ? H|? ? H]; auto; inversion H|].
  apply Exists_exists in E as (w & Hw & Hi). apply (Permutation_in _ P) in Hw. apply in_app_iff in Hw as [Hw|Hw].
  - apply inf_add_l, IHa, Exists_exists. eauto.
  - apply inf_add_r, IHb, Exists_exists. eauto.
Qed.
Lemma sum_pos l z : summed l z -> Forall d_pos l -> d_pos z.
Proof.
  induction 1 as [|x|a b l x y _ _ _ IHa _ IHb P]; intros E; [reflexivity|now inversion E|].
  apply (Permutation_Forall P), Forall_app in E as [Ea Eb]. apply add_pos; auto.
Qed.
Lemma squares l : Forall d_pos (dprods l l).
Proof. induction l; cbn [dprods]; constructor; auto using sq_pos. Qed.
Lemma squares_hot l x : In x l -> d_wild x -> Exists (d_inf false) (dprods l l).
Proof.
  induction l as [|y l IH]; [intros []|]; intros [->|H] Hw; cbn [dprods]; [left|right; auto].
  destruct Hw as [s [-> | ->]]; unfold d_inf; cbn; rewrite ?Bool.xorb_nilpotent; auto.
Qed.

Lemma F64_infinite L S : any_order S ->
  Infinite (A := F64o L S) (fun x => x = S754_nan) d_wild d_same d_hot d_pos.
Proof.
  intros [HS HD].
  assert (HM : forall s l x, In x l -> d_inf s x -> d_inf s (ddiv (s_sum S l) (d_of_Z (Z.of_nat (length l))))).
  { intros s l x Hx Hs. apply inf_over; [apply of_nat_pos|]. apply (sum_inf s l); auto. apply Exists_exists. eauto. }
  constructor; unfold rm; cbn [F64o F fadd fsub fmul fdiv fminimum fmaximum fneg fsqrt fexp ftrue np_sum np_dot f_of_nat f1 f_of_Z].
  - apply F64o_plain.
  - intros x [s Hs]. exact (inf_same s x x Hs Hs).
  - intros k b x Hk [s Hs]. destruct (weights k Hk). apply (inf_same s); auto. now apply inf_add_r, inf_scale.
  - intros k a b x Hk H. destruct (weights k Hk) as [_ Hc]. apply same_inf in H as [[-> | ->]|(s & Ha & Hb)].
    + now left.
    + right. left. apply nan_scaled.
    + apply (inf_same s); auto. now apply inf_add_l, inf_scale.
  - intros k k' a b x Hk Hk' H. destruct (weights k Hk) as [_ Hc]. destruct (weights k' Hk') as [_ Hc'].
    apply same_inf in H as [[-> | ->]|(s & Ha & Hb)].
    + left. apply nan_scaled.
    + right. left. apply nan_scaled.
    + apply (inf_same s); now apply inf_add_l, inf_scale.
  - intros k k' a b x Hk Hk' [s Hs]. destruct (weights k Hk). destruct (weights k' Hk').
    apply (inf_same s); now apply inf_add_r, inf_scale.
  - intros k m x Hk H. destruct (weights k Hk). destruct H as [[s Hs]|[s Hs]]; exists s.
    + now apply inf_add_l, inf_scale.
    + now apply inf_add_r, inf_scale.
  - exact same_sub.
  - intros l x Hx [s Hs]. apply same_sub, (inf_same s); auto. now apply (HM s l x).
  - intros l x Hx [s Hs]. apply same_sub, (inf_same s); auto. apply inf_one. now apply (HM s l x).
  - intros l x Hx [s Hs]. exists s. now apply (HM s l x).
  - intros l x Hx Hw. apply (sum_inf false (dprods l l)); auto. now apply (squares_hot l x).
  - intros l. apply (sum_pos (dprods l l)); auto. apply squares.
  - exact add_pos.
  - intros a b _ Hb. now apply inf_add_r.
  - intros a b [-> | ->]; destruct b as [|[]| |]; unfold d_hot, d_inf; cbn; auto.
  - intros n a H. apply inf_scale; auto. pose proof (of_nat_pos n). destruct (d_of_Z (Z.of_nat n)); cbn in *; auto.
  - intros n a H. apply inf_over; auto. apply of_nat_pos.
  - intros a b [-> | ->] [-> | ->]; unfold d_hot, d_inf; cbn; auto.
  - intros a [-> | ->]; reflexivity.
  - intros a b [-> | ->]; destruct a as [|[]| |[]]; reflexivity.
Qed.

(** ** Exact arithmetic *)
Definition x_inf (s : bool) (x : xr) : Prop := x = (if s then NInf else PInf) \/ x = NaN.
Definition x_wild (x : xr) : Prop := exists s, x_inf s x.
Definition x_same (x y : xr) : Prop := exists s, x_inf s x /\ x_inf s y \/ x = NaN \/ y = NaN.
Definition x_hot : xr -> Prop := x_inf false.
Definition x_pos (x : xr) : Prop := match x with Fin a => 0 <= a | NInf => False | _ => True end.

Lemma xinf_add_l s x y : x_inf s x -> x_inf s (xadd x y).
Proof. intros [-> | ->]; destruct y; destruct s; cbn; unfold x_inf; auto. Qed.
Lemma xinf_add_r s x y : x_inf s y -> x_inf s (xadd x y).
Proof. intros [-> | ->]; destruct x; destruct s; cbn; unfold x_inf; auto. Qed.
Lemma xinf_scale s w x : 0 <= w -> x_inf s x -> x_inf s (xmul (Fin w) x).
Proof.
  intros Hw [-> | ->]; [|now right]. destruct s; cbn; unfold inf_mul, x_inf; destruct (Req_EM_T w 0); cbn; auto;
    (destruct (Rlt_dec 0 w); cbn; auto; exfalso; lra).
Qed.
Lemma xinf_over s w x : 0 <= w -> x_inf s x -> x_inf s (xdiv x (Fin w)).
Proof.
  intros Hw [-> | ->]; [|now right]. destruct s; cbn; unfold inf_mul, x_inf; destruct (Req_EM_T w 0); cbn; auto;
    (destruct (Rlt_dec 0 w); cbn; auto; exfalso; lra).
Qed.
Lemma xinf_one s x : x_inf s x -> x_inf s (xmul x (Fin 1)).
Proof. intros H. replace (xmul x (Fin 1)) with (xmul (Fin 1) x) by (destruct x; cbn; auto; f_equal; ring). apply xinf_scale; auto. lra. Qed.
Lemma xsame_sub x y : x_same x y -> xsub x y = NaN.
Proof. intros (s & [([-> | ->] & [-> | ->])|[-> | ->]]); try (destruct s); try reflexivity; destruct x; reflexivity. Qed.
Lemma xinf_same s x y : x_inf s x -> x_inf s y -> x_same x y.
Proof. intros. exists s. auto. Qed.
Lemma xsum_inf s l : Exists (x_inf s) l -> x_inf s (xsum l).
Proof.
  unfold xsum. assert (H0 : forall l z, x_inf s z -> x_inf s (fold_left xadd l z)).
  { clear. induction l as [|a l IH]; intros z Hz; cbn [fold_left]; auto. apply IH. now apply xinf_add_l. }
  generalize (Fin 0). induction l as [|a l IH]; intros z E; inversion E; subst; cbn [fold_left]; auto.
  apply H0. now apply xinf_add_r.
Qed.
Lemma xadd_pos x y : x_pos x -> x_pos y -> x_pos (xadd x y).
Proof. destruct x, y; cbn; auto; lra. Qed.
Lemma xsum_pos l : Forall x_pos l -> x_pos (xsum l).
Proof.
  unfold xsum. assert (x_pos (Fin 0)) by (cbn; lra). revert H. generalize (Fin 0).
  induction l as [|a l IH]; intros z Hz H; inversion H; subst; cbn [fold_left]; auto using xadd_pos.
Qed.
Lemma xsquares l : Forall x_pos (xdot l l).
Proof. induction l as [|x l IH]; cbn [xdot]; constructor; auto. destruct x; cbn; auto. nra. Qed.
Lemma xsquares_hot l x : In x l -> x_wild x -> Exists (x_inf false) (xdot l l).
Proof.
  induction l as [|y l IH]; [intros []|]; intros [->|H] Hw; cbn [xdot]; [left|right; auto].
  destruct Hw as [s [-> | ->]]; [destruct s|]; unfold x_inf; cbn; auto.
Qed.
Lemma xweights k : (2 <= k)%nat -> exists w, 0 <= w <= 1 /\ xdiv (Fin 1) (Fin (IZR (Z.of_nat k))) = Fin w /\
  xsub (Fin 1) (xdiv (Fin 1) (Fin (IZR (Z.of_nat k)))) = Fin (1 - w).
Proof.
  intros Hk. assert (1 < IZR (Z.of_nat k)) by (apply IZR_lt; lia).
  assert (E : xdiv (Fin 1) (Fin (IZR (Z.of_nat k))) = Fin (1 / IZR (Z.of_nat k))) by (cbn; destruct (Req_EM_T _ 0); [lra|reflexivity]).
  exists (1 / IZR (Z.of_nat k)). split; [|split; [exact E|rewrite E; cbn; f_equal]].
  assert (0 < / IZR (Z.of_nat k)) by (apply Rinv_0_lt_compat; lra). unfold Rdiv. rewrite Rmult_1_l. split; [lra|].
  rewrite <- Rinv_1. apply Rinv_le_contravar; lra.
Qed.

Lemma XR_infinite : Infinite (A := XR) (fun x => x = NaN) x_wild x_same x_hot x_pos.
Proof.
  assert (HN : forall n, 0 <= IZR (Z.of_nat n)) by (intros; apply IZR_le; lia).
  assert (HM : forall s l x, In x l -> x_inf s x -> x_inf s (xdiv (xsum l) (Fin (IZR (Z.of_nat (length l)))))).
  { intros s l x Hx Hs. apply xinf_over; auto. apply xsum_inf. apply Exists_exists. eauto. }
  constructor; unfold rm; cbn [XR F fadd fsub fmul fdiv fminimum fmaximum fneg fsqrt fexp ftrue np_sum np_dot f_of_nat f1 f_of_Z].
  - exact XR_plain.
  - intros x [s Hs]. exact (xinf_same s x x Hs Hs).
  - intros k b x Hk [s Hs]. destruct (xweights k Hk) as (w & Hw & -> & ->). apply (xinf_same s); auto. apply xinf_add_r, xinf_scale; auto; lra.
  - intros k a b x Hk (s & [[Ha Hb]|[-> | ->]]); destruct (xweights k Hk) as (w & Hw & -> & ->).
    + apply (xinf_same s); auto. apply xinf_add_l, xinf_scale; auto; lra.
    + exists s. auto.
    + exists s. right. right. reflexivity.
  - intros k k' a b x Hk Hk' (s & [[Ha Hb]|[-> | ->]]); destruct (xweights k Hk) as (w & Hw & -> & ->); destruct (xweights k' Hk') as (w' & Hw' & -> & ->).
    + apply (xinf_same s); apply xinf_add_l, xinf_scale; auto; lra.
    + exists s. right. left. reflexivity.
    + exists s. right. right. reflexivity.
  - intros k k' a b x Hk Hk' [s Hs]. destruct (xweights k Hk) as (w & Hw & -> & ->). destruct (xweights k' Hk') as (w' & Hw' & -> & ->).
    apply (xinf_same s); apply xinf_add_r, xinf_scale; auto; lra.
  - intros k m x Hk H. destruct (xweights k Hk) as (w & Hw & -> & ->). destruct H as [[s Hs]|[s Hs]]; exists s.
    + apply xinf_add_l, xinf_scale; auto; lra.
    + apply xinf_add_r, xinf_scale; auto; lra.
  - exact xsame_sub.
  - intros l x Hx [s Hs]. apply xsame_sub, (xinf_same s); auto. now apply (HM s l x).
  - intros l x Hx [s Hs]. apply xsame_sub, (xinf_same s); auto. apply xinf_one. now apply (HM s l x).
  - intros l x Hx [s Hs]. exists s. now apply (HM s l x).
  - intros l x Hx Hw. apply xsum_inf. now apply (xsquares_hot l x).
  - intros l. apply xsum_pos. apply xsquares.
  - exact xadd_pos.
  - intros a b _ Hb. now apply xinf_add_r.
  - intros a b [-> | ->]; destruct b; unfold x_hot, x_inf; cbn; auto.
  - intros n a H. now apply xinf_scale.
  - intros n a H. now apply xinf_over.
  - intros a b [-> | ->] [-> | ->]; unfold x_hot, x_inf; cbn; auto.
  - intros a [-> | ->]; reflexivity.
  - intros a b [-> | ->]; destruct a; reflexivity.
Qed.
