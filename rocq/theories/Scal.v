(** * Binary64 and a change of unit by a power of two

    The careful arithmetic computes as [F64o] does but says so when a product or
    a quotient comes close to the end of the range of exponents, or a sum close
    to the upper end.  What it lets through is multiplied by a power of two when
    the data are. *)
From Coq Require Import ZArith Reals List Arith Bool Lia Lra SpecFloat Psatz.
From Flocq Require Import Core BinarySingleNaN.
From Verif Require Import Num NumPy Base GetCvi F64 F64o Rnd Bnd.
From Verif Require Import Par ParL ParC Mir.
Import ListNotations.
Local Open Scope R_scope.
#[local] Existing Instances Hprec Hmax.

(** ** [times k x y]: [y] is [2^k x] *)
Definition times (k : Z) (x y : f64) : Prop :=
  match x, y with
  | S754_zero s, S754_zero s' => s = s'
  | S754_infinity s, S754_infinity s' => s = s'
  | S754_nan, S754_nan => True
  | S754_finite _ _ _, S754_finite _ _ _ => rv y = rv x * bpow radix2 k
  | _, _ => False
  end.
Definition rel (k : Z) (x y : f64) : Prop := valid x /\ valid y /\ times k x y.

(** ** rounding *)
Lemma round_FLX_scale x k : round radix2 (FLX_exp 53) ZnearestE (x * bpow radix2 k) = round radix2 (FLX_exp 53) ZnearestE x * bpow radix2 k.
Proof.
  destruct (Req_dec x 0) as [->|Nx]; [rewrite Rmult_0_l, round_0 by typeclasses eauto; ring|].
  assert (EC : cexp radix2 (FLX_exp 53) (x * bpow radix2 k) = (cexp radix2 (FLX_exp 53) x + k)%Z).
  { unfold cexp. rewrite mag_mult_bpow by auto. unfold FLX_exp. lia. }
  unfold round, scaled_mantissa. rewrite EC. unfold F2R. cbn [Fnum Fexp].
  replace (x * bpow radix2 k * bpow radix2 (- (cexp radix2 (FLX_exp 53) x + k))) with (x * bpow radix2 (- cexp radix2 (FLX_exp 53) x)).
  - rewrite bpow_plus. ring.
  - rewrite Rmult_assoc, <- bpow_plus. do 2 f_equal. lia.
Qed.
Definition small := bpow radix2 (-1022).
Lemma rnd_FLX x : small <= Rabs x -> rnd x = round radix2 (FLX_exp 53) ZnearestE x.
Proof. intros H. apply (round_FLT_FLX radix2 (-1074) 53). exact H. Qed.
Lemma rnd_scale x k : small <= Rabs x -> small <= Rabs (x * bpow radix2 k) -> rnd (x * bpow radix2 k) = rnd x * bpow radix2 k.
Proof. intros H H'. rewrite !rnd_FLX by auto. apply round_FLX_scale. Qed.
Lemma FLX_scale x k : generic_format radix2 (FLX_exp 53) x -> generic_format radix2 (FLX_exp 53) (x * bpow radix2 k).
Proof. intros H. rewrite <- (round_generic radix2 (FLX_exp 53) ZnearestE x H), <- round_FLX_scale. apply generic_format_round; typeclasses eauto. Qed.
Definition fix_ (x : Rdefinitions.R) : Prop := generic_format radix2 (FIX_exp (-1074)) x.
Lemma fix_plus x y : fix_ x -> fix_ y -> fix_ (x + y).
Proof.
  intros Hx Hy. apply FIX_format_generic in Hx. apply FIX_format_generic in Hy. destruct Hx as [[a ea] -> Ha], Hy as [[b eb] -> Hb]. cbn in *. subst.
  apply generic_format_FIX. exists (Float radix2 (a + b) (-1074)); auto. unfold F2R. cbn. rewrite plus_IZR. ring.
Qed.
Lemma fmt_fix x : fmt x -> fix_ x.
Proof. apply (generic_format_FIX_FLT radix2 (-1074) 53). Qed.
(** rounding a sum: either both are exact or both are normal *)
Lemma rnd_scale_fix x k : fix_ x -> fix_ (x * bpow radix2 k) -> rnd (x * bpow radix2 k) = rnd x * bpow radix2 k.
Proof.
  intros Hx Hy. destruct (Rle_or_lt small (Rabs x)) as [Lx|Lx], (Rle_or_lt small (Rabs (x * bpow radix2 k))) as [Ly|Ly]; [now apply rnd_scale|..].
  all: assert (Lt : forall z, Rabs z < small -> fix_ z -> fmt z)
    by (intros z Lz Hz; apply (generic_format_FLT_FIX radix2 (-1074) 53); auto; apply Rlt_le, Rlt_trans with (1 := Lz); apply bpow_lt; lia).
  all: assert (Up : forall z, small <= Rabs z -> generic_format radix2 (FLX_exp 53) z -> fmt z)
    by (intros z Lz Hz; apply (generic_format_FLT_FLX radix2 (-1074) 53); auto).
  - assert (Fy := Lt _ Ly Hy). assert (Fx : fmt x).
    { apply Up; auto. replace x with (x * bpow radix2 k * bpow radix2 (- k)). apply FLX_scale. apply (generic_format_FLX_FLT radix2 (-1074) 53). exact Fy.
      rewrite Rmult_assoc, <- bpow_plus. replace (k + - k)%Z with 0%Z by lia. cbn. ring. }
    unfold rnd. now rewrite !round_generic by (auto; typeclasses eauto).
  - assert (Fx := Lt _ Lx Hx). assert (Fy : fmt (x * bpow radix2 k)).
    { apply Up; auto. apply FLX_scale. apply (generic_format_FLX_FLT radix2 (-1074) 53). exact Fx. }
    unfold rnd. now rewrite !round_generic by (auto; typeclasses eauto).
  - assert (Fx := Lt _ Lx Hx). assert (Fy := Lt _ Ly Hy). unfold rnd. now rewrite !round_generic by (auto; typeclasses eauto).
Qed.

(** ** the relation *)
Definition sgn (x : f64) : bool := match x with S754_zero s | S754_infinity s | S754_finite s _ _ => s | S754_nan => false end.
Lemma sgn_B x H : Bsign (B x H) = sgn x. Proof. now destruct x. Qed.
Lemma sgn_B2SF (x : binary_float 53 1024) : sgn (B2SF x) = Bsign x. Proof. now destruct x. Qed.
Lemma finite_sign s m e : (s = true -> rv (S754_finite s m e) < 0) /\ (s = false -> 0 < rv (S754_finite s m e)).
Proof. split; intros ->; [apply F2R_lt_0|apply F2R_gt_0]; cbn; lia. Qed.
Lemma rv_zero x : fin x -> rv x = 0 -> exists s, x = S754_zero s.
Proof.
  intros F E. destruct x as [s|s| |s m e]; try discriminate F; eauto. exfalso. pose proof (finite_sign s m e) as [H1 H2]. destruct s; [specialize (H1 eq_refl)|specialize (H2 eq_refl)]; lra.
Qed.
Lemma rel_fin k x y : rel k x y -> fin x -> fin y /\ rv y = rv x * bpow radix2 k /\ sgn y = sgn x.
Proof.
  intros (Vx & Vy & H) F. destruct x as [s|s| |s m e], y as [s'|s'| |s' m' e']; try discriminate F; cbn -[rv] in H; try contradiction.
  - subst. repeat split. cbn. ring.
  - repeat split; auto. cbn [sgn]. pose proof (finite_sign s m e) as [A1 A2]. pose proof (finite_sign s' m' e') as [B1 B2]. pose proof (bpow_gt_0 radix2 k).
    destruct s, s'; auto; exfalso; [specialize (A1 eq_refl); specialize (B2 eq_refl)|specialize (A2 eq_refl); specialize (B1 eq_refl)]; nra.
Qed.
Lemma fin_rel k x y : valid x -> valid y -> fin x -> fin y -> rv y = rv x * bpow radix2 k -> sgn y = sgn x -> rel k x y.
Proof.
  intros Vx Vy Fx Fy E S. repeat split; auto. pose proof (bpow_gt_0 radix2 k).
  destruct x as [s|s| |s m e], y as [s'|s'| |s' m' e']; try discriminate Fx; try discriminate Fy; cbn in S; subst; cbn -[rv]; auto; exfalso.
  - destruct (rv_zero _ Fy) as [? ?]; [|discriminate]. rewrite E. cbn. ring.
  - destruct (rv_zero _ Fx) as [? ?]; [|discriminate]. cbn [rv SF2R] in E. symmetry in E. apply Rmult_integral in E. destruct E; auto. lra.
Qed.
Lemma rel_refl x : valid x -> rel 0 x x.
Proof. intros V. repeat split; auto. destruct x; cbn -[rv]; auto. ring. Qed.
Lemma rel_0 x y : rel 0 x y -> y = x.
Proof.
  intros (Vx & Vy & H). destruct x as [s|s| |s m e], y as [s'|s'| |s' m' e']; cbn -[rv] in H; try contradiction; try congruence.
  rewrite Rmult_1_r in H. assert (E : B (S754_finite s' m' e') Vy = B (S754_finite s m e) Vx).
  { apply B2R_inj; auto. }
  apply (f_equal B2SF) in E. now rewrite !B2SF_SF2B in E.
Qed.
Lemma rel_opp k x y : rel k x y -> rel k (SFopp x) (SFopp y).
Proof.
  intros (Vx & Vy & H). repeat split; try (now apply valid_opp).
  destruct x as [s|s| |s m e], y as [s'|s'| |s' m' e']; cbn -[rv] in *; try contradiction; try congruence.
  assert (G : forall b p q, rv (S754_finite (negb b) p q) = - rv (S754_finite b p q)).
  { intros b p q. unfold rv. cbn [SF2R]. rewrite <- F2R_Zopp. f_equal. now destruct b. }
  rewrite !G, H. ring.
Qed.
Lemma valid_bound s m e : valid (S754_finite s m e) -> Rabs (rv (S754_finite s m e)) < bpow radix2 (53 + e) /\ ((-1074 < e)%Z -> bpow radix2 (52 + e) <= Rabs (rv (S754_finite s m e))).
Proof.
  intros V. unfold rv. cbn [SF2R]. rewrite <- F2R_Zabs. rewrite abs_cond_Zopp. cbn [Z.abs].
  unfold valid, valid_binary, bounded in V. apply andb_prop in V as [V _]. unfold canonical_mantissa in V. apply Zeq_bool_eq in V.
  unfold SpecFloat.fexp, SpecFloat.emin in V. 
  pose proof (Digits.Zdigits_correct radix2 (Z.pos m)) as HD. cbn [Z.abs] in HD.
  assert (ED : Digits.Zdigits radix2 (Z.pos m) = Z.pos (digits2_pos m)) by (rewrite <- Digits.Zdigits2_Zdigits; cbn; f_equal).
  rewrite ED in HD. split.
  - unfold F2R. cbn [Fnum Fexp]. rewrite bpow_plus. apply Rmult_lt_compat_r; [apply bpow_gt_0|].
    apply Rlt_le_trans with (bpow radix2 (Z.pos (digits2_pos m))).
    + rewrite <- IZR_Zpower by lia. apply IZR_lt, HD.
    + apply bpow_le. lia.
  - intros He. unfold F2R. cbn [Fnum Fexp]. rewrite bpow_plus. apply Rmult_le_compat_r; [apply bpow_ge_0|].
    replace 52%Z with (Z.pos (digits2_pos m) - 1)%Z by lia. rewrite <- IZR_Zpower by lia. apply IZR_le, HD.
Qed.

(** ** sums *)
(** what a sum of two numbers may be *)
Definition below (m : Z) (z : f64) : bool :=
  match z with S754_zero _ => true | S754_finite _ _ e => (e <=? 971 - m)%Z | _ => false end.
(** what a product or a quotient of two numbers that are not 0 may be *)
Definition inside (m : Z) (z : f64) : bool :=
  match z with S754_finite _ _ e => (m - 1074 <? e)%Z && (e <=? 971 - m)%Z | _ => false end.
Lemma below_bound m z : valid z -> below m z = true -> Rabs (rv z) < bpow radix2 (1024 - m).
Proof.
  intros V H. destruct z as [s|s| |s p e]; try discriminate H.
  - cbn. rewrite Rabs_R0. apply bpow_gt_0.
  - cbn [below] in H. apply Z.leb_le in H. destruct (valid_bound s p e V) as [H1 _]. apply Rlt_le_trans with (1 := H1). apply bpow_le. lia.
Qed.
Lemma no_overflow_scale r k m z : (Z.abs k <= m)%Z -> valid z -> below m z = true -> rv z = rnd r -> rnd (r * bpow radix2 k) = rnd r * bpow radix2 k -> no_overflow (r * bpow radix2 k).
Proof.
  intros Hk V H E ES. unfold no_overflow. rewrite ES, <- E, Rabs_mult, (Rabs_pos_eq (bpow radix2 k)) by apply bpow_ge_0.
  apply Rlt_le_trans with (bpow radix2 (1024 - m) * bpow radix2 k); [apply Rmult_lt_compat_r; [apply bpow_gt_0|now apply below_bound]|].
  rewrite <- bpow_plus. apply bpow_le. lia.
Qed.
(** the sum, if it is not infinite, with its sign *)
Lemma dadd_fin x y : valid x -> valid y -> fin x -> fin y -> fin (dadd x y) \/ no_overflow (rv x + rv y) ->
  fin (dadd x y) /\ rv (dadd x y) = rnd (rv x + rv y) /\
  sgn (dadd x y) = match Rcompare (rv x + rv y) 0 with Eq => sgn x && sgn y | Lt => true | Gt => false end.
Proof.
  intros Hx Hy Fx Fy F. unfold fin, no_overflow in *. rewrite (dadd_equiv x y Hx Hy) in *. rewrite fin_B2SF, rv_B2SF, sgn_B2SF in *.
  pose proof (Bplus_correct 53 1024 _ _ mode_NE (B x Hx) (B y Hy)) as H. rewrite !fin_B, !B2R_rv, !sgn_B in H. specialize (H Fx Fy).
  destruct (Rlt_bool_spec (Rabs (round radix2 (SpecFloat.fexp 53 1024) (round_mode mode_NE) (rv x + rv y))) (bpow radix2 1024)) as [Lt|Ge].
  - destruct H as (H1 & H2 & H3). repeat split; auto.
  - exfalso. destruct F as [F|F]; [|apply Rlt_not_le in F; apply F, Ge]. destruct H as [H _]. rewrite <- fin_B2SF, H in F. discriminate F.
Qed.
Lemma Rcompare_scale r k : Rcompare (r * bpow radix2 k) 0 = Rcompare r 0.
Proof. rewrite <- (Rmult_0_l (bpow radix2 k)) at 1. apply Rcompare_mult_r, bpow_gt_0. Qed.
Lemma rel_add m k x y x' y' : (Z.abs k <= m)%Z -> rel k x x' -> rel k y y' -> (fin x -> fin y -> below m (dadd x y) = true) -> rel k (dadd x y) (dadd x' y').
Proof.
  intros Hk Hx Hy HB. destruct (Hx) as (Vx & Vx' & Tx), (Hy) as (Vy & Vy' & Ty).
  destruct (is_finite_SF x) eqn:Fx; [destruct (is_finite_SF y) eqn:Fy|].
  - specialize (HB Fx Fy). destruct (rel_fin k x x' Hx Fx) as (Fx' & Ex & Sx), (rel_fin k y y' Hy Fy) as (Fy' & Ey & Sy).
    assert (FZ : fin (dadd x y)) by (destruct (dadd x y); try discriminate HB; reflexivity).
    destruct (dadd_fin x y Vx Vy Fx Fy (or_introl FZ)) as (_ & EZ & SZ).
    assert (ER : rv x' + rv y' = (rv x + rv y) * bpow radix2 k) by (rewrite Ex, Ey; ring).
    assert (ES : rnd ((rv x + rv y) * bpow radix2 k) = rnd (rv x + rv y) * bpow radix2 k).
    { apply rnd_scale_fix; [|rewrite <- ER]; apply fix_plus; apply fmt_fix, fmt_rv; auto. }
    assert (NO : no_overflow (rv x' + rv y')) by (rewrite ER; apply (no_overflow_scale _ k m (dadd x y)); auto using valid_add).
    destruct (dadd_fin x' y' Vx' Vy' Fx' Fy' (or_intror NO)) as (FZ' & EZ' & SZ').
    apply fin_rel; auto using valid_add.
    + now rewrite EZ', ER, ES, EZ.
    + now rewrite SZ', SZ, ER, Rcompare_scale, Sx, Sy.
  - destruct x as [s|s| |s p e], x' as [s'|s'| |s' p' e'], y as [t|t| |t q f], y' as [t'|t'| |t' q' f']; try discriminate Fx; try discriminate Fy; cbn in Tx, Ty; try contradiction; subst; repeat split; auto using valid_add.
  - destruct x as [s|s| |s p e], x' as [s'|s'| |s' p' e'], y as [t|t| |t q f], y' as [t'|t'| |t' q' f']; try discriminate Fx; cbn in Tx, Ty; try contradiction; subst; repeat split; auto using valid_add.
    all: cbn; destruct (Bool.eqb _ _); cbn; auto.
Qed.
Lemma dsub_dadd x y : dsub x y = dadd x (SFopp y).
Proof.
  destruct x as [s|s| |s p e], y as [t|t| |t q f]; try reflexivity; try (cbn; destruct s, t; reflexivity).
Qed.
Lemma rel_sub m k x y x' y' : (Z.abs k <= m)%Z -> rel k x x' -> rel k y y' -> (fin x -> fin y -> below m (dsub x y) = true) -> rel k (dsub x y) (dsub x' y').
Proof.
  intros Hk Hx Hy HB. rewrite !dsub_dadd. apply (rel_add m); auto using rel_opp. intros F1 F2. rewrite <- dsub_dadd. apply HB; auto. now destruct y.
Qed.

(** ** products, quotients, square roots *)
Definition nz (x : f64) : bool := match x with S754_finite _ _ _ => true | _ => false end.
Lemma nz_rv x : nz x = true -> rv x <> 0 /\ fin x.
Proof. intros H. destruct x as [| | |s p e]; try discriminate H. split; [|reflexivity]. pose proof (finite_sign s p e) as [A1 A2]. destruct s; [specialize (A1 eq_refl)|specialize (A2 eq_refl)]; lra. Qed.
Lemma rel_nz k x y : rel k x y -> nz y = nz x.
Proof. intros (_ & _ & H). destruct x, y; cbn in *; auto; contradiction. Qed.
(** a rounded result inside the range comes from a number that is not small *)
Lemma inside_large m z r : (0 <= m)%Z -> valid z -> inside m z = true -> rv z = rnd r -> bpow radix2 (m - 1022) <= Rabs r.
Proof.
  intros Hm V H E. destruct (Rle_or_lt (bpow radix2 (m - 1022)) (Rabs r)) as [|Lt]; auto. exfalso.
  destruct z as [s|s| |s p e]; try discriminate H. cbn [inside] in H. apply andb_prop in H as [H1 H2]. apply Z.ltb_lt in H1. apply Z.leb_le in H2.
  destruct (valid_bound s p e V) as [_ HB]. assert (G : (-1074 < e)%Z) by lia. specialize (HB G).
  assert (HF : fmt (bpow radix2 (m - 1022))) by (apply (generic_format_FLT_bpow radix2 (-1074) 53); lia).
  assert (Rabs (rnd r) <= bpow radix2 (m - 1022)) by (apply abs_round_le_generic; auto; try typeclasses eauto; now apply Rlt_le).
  rewrite <- E in H. assert (bpow radix2 (m - 1022) < bpow radix2 (52 + e)) by (apply bpow_lt; lia). lra.
Qed.
Lemma inside_below m z : inside m z = true -> below m z = true.
Proof. destruct z; cbn; try discriminate. intros H. apply andb_prop in H. apply H. Qed.
Lemma inside_scale m k z r : (Z.abs k <= m)%Z -> valid z -> inside m z = true -> rv z = rnd r -> rnd (r * bpow radix2 k) = rnd r * bpow radix2 k.
Proof.
  intros Hk V H E. assert (G := inside_large m z r ltac:(lia) V H E). apply rnd_scale; unfold small.
  - apply Rle_trans with (2 := G). apply bpow_le. lia.
  - rewrite Rabs_mult, (Rabs_pos_eq (bpow radix2 k)) by apply bpow_ge_0. apply Rle_trans with (bpow radix2 (m - 1022) * bpow radix2 k).
    + rewrite <- bpow_plus. apply bpow_le. lia.
    + apply Rmult_le_compat_r; auto. apply bpow_ge_0.
Qed.
Lemma dmul_fin x y : valid x -> valid y -> fin x -> fin y -> fin (dmul x y) \/ no_overflow (rv x * rv y) ->
  fin (dmul x y) /\ rv (dmul x y) = rnd (rv x * rv y) /\ sgn (dmul x y) = xorb (sgn x) (sgn y).
Proof.
  intros Hx Hy Fx Fy F. unfold fin, no_overflow in *. rewrite (dmul_equiv x y Hx Hy) in *. rewrite fin_B2SF, rv_B2SF, sgn_B2SF in *.
  pose proof (Bmult_correct 53 1024 _ _ mode_NE (B x Hx) (B y Hy)) as H. rewrite !fin_B, !B2R_rv, !sgn_B, Fx, Fy in H. cbn [andb] in H.
  destruct (Rlt_bool_spec (Rabs (round radix2 (SpecFloat.fexp 53 1024) (round_mode mode_NE) (rv x * rv y))) (bpow radix2 1024)) as [Lt|Ge].
  - destruct H as (H1 & H2 & H3). repeat split; auto. apply H3. destruct (Bmult _ _ _); try reflexivity; discriminate.
  - exfalso. destruct F as [F|F]; [|apply Rlt_not_le in F; apply F, Ge]. rewrite <- fin_B2SF, H in F. discriminate F.
Qed.
Lemma ddiv_fin x y : valid x -> valid y -> fin x -> rv y <> 0 -> fin (ddiv x y) \/ no_overflow (rv x / rv y) ->
  fin (ddiv x y) /\ rv (ddiv x y) = rnd (rv x / rv y) /\ sgn (ddiv x y) = xorb (sgn x) (sgn y).
Proof.
  intros Hx Hy Fx Ny F. unfold fin, no_overflow in *. rewrite (ddiv_equiv x y Hx Hy) in *. rewrite fin_B2SF, rv_B2SF, sgn_B2SF in *.
  pose proof (Bdiv_correct 53 1024 _ _ mode_NE (B x Hx) (B y Hy)) as H. rewrite !B2R_rv, !fin_B, !sgn_B, Fx in H. specialize (H Ny).
  destruct (Rlt_bool_spec (Rabs (round radix2 (SpecFloat.fexp 53 1024) (round_mode mode_NE) (rv x / rv y))) (bpow radix2 1024)) as [Lt|Ge].
  - destruct H as (H1 & H2 & H3). repeat split; auto. apply H3. destruct (Bdiv _ _ _); try reflexivity; discriminate.
  - exfalso. destruct F as [F|F]; [|apply Rlt_not_le in F; apply F, Ge]. rewrite <- fin_B2SF, H in F. discriminate F.
Qed.
Lemma inside_fin m z : inside m z = true -> fin z.
Proof. destruct z; cbn; try discriminate. reflexivity. Qed.
Lemma rel_mul m a b x y x' y' : (Z.abs (a + b) <= m)%Z -> rel a x x' -> rel b y y' -> (nz x && nz y = true -> inside m (dmul x y) = true) ->
  rel (a + b) (dmul x y) (dmul x' y').
Proof.
  intros Hk Hx Hy HB. destruct (Hx) as (Vx & Vx' & Tx), (Hy) as (Vy & Vy' & Ty).
  destruct (nz x && nz y) eqn:N.
  - specialize (HB eq_refl). apply andb_prop in N as [Nx Ny]. destruct (nz_rv x Nx) as [_ Fx], (nz_rv y Ny) as [_ Fy].
    destruct (rel_fin a x x' Hx Fx) as (Fx' & Ex & Sx), (rel_fin b y y' Hy Fy) as (Fy' & Ey & Sy).
    assert (FZ := inside_fin _ _ HB).
    destruct (dmul_fin x y Vx Vy Fx Fy (or_introl FZ)) as (_ & EZ & SZ).
    assert (ER : rv x' * rv y' = rv x * rv y * bpow radix2 (a + b)) by (rewrite Ex, Ey, bpow_plus; ring).
    assert (ES := inside_scale m (a + b) (dmul x y) (rv x * rv y) Hk (valid_mul x y Vx Vy) HB EZ).
    assert (NO : no_overflow (rv x' * rv y')) by (rewrite ER; apply (no_overflow_scale _ (a + b) m (dmul x y)); auto using valid_mul, inside_below).
    destruct (dmul_fin x' y' Vx' Vy' Fx' Fy' (or_intror NO)) as (FZ' & EZ' & SZ').
    apply fin_rel; auto using valid_mul.
    + now rewrite EZ', ER, ES, EZ.
    + now rewrite SZ', SZ, Sx, Sy.
  - repeat split; auto using valid_mul. assert (HX : fin x -> sgn x' = sgn x) by (intros F; now apply (rel_fin a x x')). assert (HY : fin y -> sgn y' = sgn y) by (intros F; now apply (rel_fin b y y')).
    destruct x as [s|s| |s p e], x' as [s'|s'| |s' p' e'], y as [t|t| |t q f], y' as [t'|t'| |t' q' f']; try discriminate N; cbn in Tx, Ty; try contradiction; cbn in HX, HY; try specialize (HX eq_refl); try specialize (HY eq_refl); subst; cbn; auto.
Qed.
Lemma rel_div m a b x y x' y' : (Z.abs (a - b) <= m)%Z -> rel a x x' -> rel b y y' -> (nz x && nz y = true -> inside m (ddiv x y) = true) ->
  rel (a - b) (ddiv x y) (ddiv x' y').
Proof.
  intros Hk Hx Hy HB. destruct (Hx) as (Vx & Vx' & Tx), (Hy) as (Vy & Vy' & Ty).
  destruct (nz x && nz y) eqn:N.
  - specialize (HB eq_refl). apply andb_prop in N as [Nx Ny]. destruct (nz_rv x Nx) as [_ Fx], (nz_rv y Ny) as [Zy Fy].
    destruct (rel_fin a x x' Hx Fx) as (Fx' & Ex & Sx), (rel_fin b y y' Hy Fy) as (Fy' & Ey & Sy).
    assert (Zy' : rv y' <> 0) by (apply nz_rv; rewrite (rel_nz b y y' Hy); auto).
    assert (FZ := inside_fin _ _ HB).
    destruct (ddiv_fin x y Vx Vy Fx Zy (or_introl FZ)) as (_ & EZ & SZ).
    assert (ER : rv x' / rv y' = rv x / rv y * bpow radix2 (a - b)).
    { rewrite Ex, Ey. unfold Zminus. rewrite bpow_plus, bpow_opp. pose proof (bpow_gt_0 radix2 b). field. split; auto. lra. }
    assert (ES := inside_scale m (a - b) (ddiv x y) (rv x / rv y) Hk (valid_div x y Vx Vy) HB EZ).
    assert (NO : no_overflow (rv x' / rv y')) by (rewrite ER; apply (no_overflow_scale _ (a - b) m (ddiv x y)); auto using valid_div, inside_below).
    destruct (ddiv_fin x' y' Vx' Vy' Fx' Zy' (or_intror NO)) as (FZ' & EZ' & SZ').
    apply fin_rel; auto using valid_div.
    + now rewrite EZ', ER, ES, EZ.
    + now rewrite SZ', SZ, Sx, Sy.
  - repeat split; auto using valid_div. assert (HX : fin x -> sgn x' = sgn x) by (intros F; now apply (rel_fin a x x')). assert (HY : fin y -> sgn y' = sgn y) by (intros F; now apply (rel_fin b y y')).
    destruct x as [s|s| |s p e], x' as [s'|s'| |s' p' e'], y as [t|t| |t q f], y' as [t'|t'| |t' q' f']; try discriminate N; cbn in Tx, Ty; try contradiction; cbn in HX, HY; try specialize (HX eq_refl); try specialize (HY eq_refl); subst; cbn; auto.
Qed.
Lemma sqrt_large x : valid x -> 0 < rv x -> small <= Rabs (sqrt (rv x)).
Proof.
  intros V P. rewrite Rabs_pos_eq by apply sqrt_pos. unfold small.
  assert (H : bpow radix2 (-1074) <= rv x).
  { pose proof (fmt_rv x V) as F. replace (-1074)%Z with (SpecFloat.emin 53 1024) by reflexivity.
    pose proof (generic_format_ge_bpow radix2 (SpecFloat.fexp 53 1024) (SpecFloat.emin 53 1024)) as G. apply G; auto. intros e. unfold SpecFloat.fexp. lia. }
  apply Rle_trans with (bpow radix2 (-537)); [apply bpow_le; lia|].
  rewrite <- (sqrt_Rsqr (bpow radix2 (-537))) by apply bpow_ge_0. apply sqrt_le_1; [apply Rle_0_sqr|lra|].
  unfold Rsqr. rewrite <- bpow_plus. exact H.
Qed.
Lemma rel_sqrt k x x' : rel (2 * k) x x' -> rel k (dsqrt x) (dsqrt x').
Proof.
  intros Hx. destruct (Hx) as (Vx & Vx' & Tx).
  destruct x as [s|s| |s p e] eqn:EX, x' as [s'|s'| |s' p' e'] eqn:EX'; cbn -[rv] in Tx; try contradiction; try (subst; repeat split; reflexivity); try (subst s'; destruct s; repeat split; reflexivity).
  destruct (rel_fin _ _ _ Hx eq_refl) as (_ & Ex & Sx). cbn [sgn] in Sx. subst s'. destruct s; [repeat split; reflexivity|].
  rewrite <- EX, <- EX' in *. assert (P : 0 < rv x) by (rewrite EX; now apply finite_sign). assert (P' : 0 < rv x') by (rewrite EX'; now apply finite_sign).
  assert (G : forall z (V : valid z), (exists p e, z = S754_finite false p e) -> fin (dsqrt z) /\ rv (dsqrt z) = rnd (sqrt (rv z)) /\ sgn (dsqrt z) = false).
  { intros z V (q & f & Ez). rewrite (dsqrt_equiv z V). unfold fin. rewrite fin_B2SF, rv_B2SF, sgn_B2SF.
    destruct (Bsqrt_correct 53 1024 _ _ mode_NE (B z V)) as (H1 & H2 & H3). rewrite B2R_rv in H1. rewrite sgn_B in H3.
    assert (F : is_finite (Bsqrt mode_NE (B z V)) = true) by (rewrite H2; subst z; reflexivity). repeat split; auto.
    rewrite H3; [now subst z|]. destruct (Bsqrt _ _); try reflexivity; discriminate F. }
  destruct (G x Vx) as (F1 & E1 & S1); [eauto|]. destruct (G x' Vx') as (F2 & E2 & S2); [eauto|].
  assert (ER : sqrt (rv x') = sqrt (rv x) * bpow radix2 k).
  { rewrite Ex. replace (2 * k)%Z with (k + k)%Z by lia. rewrite bpow_plus, sqrt_mult by (try lra; apply Rmult_le_pos; apply bpow_ge_0).
    f_equal. apply sqrt_square, bpow_ge_0. }
  apply fin_rel; auto using valid_sqrt; [|congruence]. rewrite E2, E1, ER. apply rnd_scale; [|rewrite <- ER]; apply sqrt_large; auto.
Qed.
(** ** comparisons *)
Lemma compare_fin x y : valid x -> valid y -> fin x -> fin y -> SFcompare x y = Some (Rcompare (rv x) (rv y)).
Proof.
  intros Hx Hy Fx Fy. pose proof (Bcompare_correct 53 1024 (B x Hx) (B y Hy)) as H. rewrite !fin_B, !B2R_rv in H. unfold Bcompare in H. rewrite !B2SF_SF2B in H. auto.
Qed.
Lemma rel_compare k x y x' y' : rel k x x' -> rel k y y' -> SFcompare x' y' = SFcompare x y.
Proof.
  intros Hx Hy. destruct (Hx) as (Vx & Vx' & Tx), (Hy) as (Vy & Vy' & Ty).
  destruct (is_finite_SF x) eqn:Fx; [destruct (is_finite_SF y) eqn:Fy|].
  - destruct (rel_fin k x x' Hx Fx) as (Fx' & Ex & Sx), (rel_fin k y y' Hy Fy) as (Fy' & Ey & Sy).
    rewrite !compare_fin by auto. rewrite Ex, Ey. f_equal. apply Rcompare_mult_r, bpow_gt_0.
  - assert (HX : sgn x' = sgn x) by (now apply (rel_fin k x x')).
    destruct x as [s|s| |s p e], x' as [s'|s'| |s' p' e'], y as [t|t| |t q f], y' as [t'|t'| |t' q' f']; try discriminate Fx; try discriminate Fy; cbn in Tx, Ty, HX; try contradiction; subst; reflexivity.
  - assert (HY : fin y -> sgn y' = sgn y) by (intros F; now apply (rel_fin k y y')).
    destruct x as [s|s| |s p e], x' as [s'|s'| |s' p' e'], y as [t|t| |t q f], y' as [t'|t'| |t' q' f']; try discriminate Fx; cbn in Tx, Ty, HY; try contradiction; try specialize (HY eq_refl); subst; reflexivity.
Qed.
Lemma rel_nan k : rel k S754_nan S754_nan. Proof. repeat split. Qed.
Lemma rel_min k x y x' y' : rel k x x' -> rel k y y' -> rel k (dmin x y) (dmin x' y').
Proof. intros Hx Hy. unfold dmin. rewrite (rel_compare k x y x' y' Hx Hy). destruct (SFcompare x y) as [[]|]; auto. apply rel_nan. Qed.
Lemma rel_max k x y x' y' : rel k x x' -> rel k y y' -> rel k (dmax x y) (dmax x' y').
Proof. intros Hx Hy. unfold dmax. rewrite (rel_compare k x y x' y' Hx Hy). destruct (SFcompare x y) as [[]|]; auto. apply rel_nan. Qed.
