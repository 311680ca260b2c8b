(** * The binary32 operations as rounded real operations *)
From Coq Require Import ZArith Reals Lia Lra SpecFloat Psatz.
From Flocq Require Import Core BinarySingleNaN Relative.
From Verif Require Import Num F64 F64o F32d Rnd RndErr.
Local Open Scope R_scope.

Definition valid32 (x : spec_float) : Prop := valid_binary 24 128 x = true.
Definition rnd32 (x : R) : R := round radix2 (SpecFloat.fexp 24 128) ZnearestE x.
Notation fmt32 := (generic_format radix2 (SpecFloat.fexp 24 128)).

Lemma Hprec32 : Prec_gt_0 24. Proof. reflexivity. Qed.
Lemma Hmax32 : Prec_lt_emax 24 128. Proof. reflexivity. Qed.
#[local] Existing Instance Hprec.
#[local] Existing Instance Hmax.
#[local] Existing Instance Hprec32.
#[local] Existing Instance Hmax32.
Global Instance vexp32 : Valid_exp (SpecFloat.fexp 24 128).
Proof. exact (FLT_exp_valid (-149) 24). Qed.

Lemma round_aux_equiv32 sx mx ex lx :
  SpecFloat.binary_round_aux 24 128 sx mx ex lx = binary_round_aux 24 128 mode_NE sx mx ex lx.
Proof.
  unfold SpecFloat.binary_round_aux, binary_round_aux. destruct (shr_fexp _ _ _ _ _) as [mrs e].
  now rewrite (rne_equiv sx).
Qed.
Lemma normalize_equiv32 m e z :
  SpecFloat.binary_normalize 24 128 m e z = B2SF (binary_normalize 24 128 Hprec32 Hmax32 mode_NE m e z).
Proof.
  assert (H : forall s m, SpecFloat.binary_round 24 128 s m e = binary_round 24 128 mode_NE s m e).
  { intros s p. unfold SpecFloat.binary_round, binary_round, shl_align_fexp. destruct (shl_align _ _ _). apply round_aux_equiv32. }
  destruct m; cbn -[SpecFloat.binary_round binary_round]; auto; rewrite B2SF_SF2B; apply H.
Qed.
Notation B32 := (SF2B (prec := 24) (emax := 128)).
Lemma add_equiv32 x y (Hx : valid32 x) (Hy : valid32 y) : SFadd 24 128 x y = B2SF (Bplus mode_NE (B32 x Hx) (B32 y Hy)).
Proof.
  destruct x as [sx|sx| |sx mx ex], y as [sy|sy| |sy my ey]; try reflexivity; try (now destruct sx, sy).
  apply normalize_equiv32.
Qed.
Lemma mul_equiv32 x y (Hx : valid32 x) (Hy : valid32 y) : SFmul 24 128 x y = B2SF (Bmult mode_NE (B32 x Hx) (B32 y Hy)).
Proof.
  destruct x as [sx|sx| |sx mx ex], y as [sy|sy| |sy my ey]; try reflexivity; try (now destruct sx, sy).
  cbn -[binary_round_aux SpecFloat.binary_round_aux]. rewrite B2SF_SF2B. apply round_aux_equiv32.
Qed.
Lemma B2R_rv32 x H : B2R (B32 x H) = rv x.
Proof. now destruct x. Qed.
Lemma fin_B32 x H : is_finite (B32 x H) = is_finite_SF x.
Proof. now destruct x. Qed.
Lemma rv_B2SF32 (x : binary_float 24 128) : rv (B2SF x) = B2R x.
Proof. apply SF2R_B2SF. Qed.
Lemma fin_B2SF32 (x : binary_float 24 128) : is_finite_SF (B2SF x) = is_finite x.
Proof. apply is_finite_SF_B2SF. Qed.
Lemma valid_B2SF32 (x : binary_float 24 128) : valid32 (B2SF x).
Proof. apply valid_binary_B2SF. Qed.
Lemma fmt_rv32 x : valid32 x -> fmt32 (rv x).
Proof. intros H. rewrite <- (B2R_rv32 x H). apply generic_format_B2R. Qed.
Lemma rv_lt32 x : valid32 x -> Rabs (rv x) < bpow radix2 128.
Proof. intros H. rewrite <- (B2R_rv32 x H). apply abs_B2R_lt_emax. Qed.

Definition no_overflow32 (x : R) : Prop := Rabs (rnd32 x) < bpow radix2 128.
Lemma add_ok32 x y : valid32 x -> valid32 y -> fin x -> fin y -> no_overflow32 (rv x + rv y) ->
  valid32 (SFadd 24 128 x y) /\ fin (SFadd 24 128 x y) /\ rv (SFadd 24 128 x y) = rnd32 (rv x + rv y).
Proof.
  intros Hx Hy Fx Fy Ho. rewrite (add_equiv32 x y Hx Hy). split; [apply valid_B2SF32|].
  unfold fin. rewrite fin_B2SF32, rv_B2SF32.
  pose proof (Bplus_correct 24 128 _ _ mode_NE (B32 x Hx) (B32 y Hy)) as H. rewrite !fin_B32, !B2R_rv32 in H.
  specialize (H Fx Fy). rewrite Rlt_bool_true in H by exact Ho. split; apply H.
Qed.
Lemma mul_ok32 x y : valid32 x -> valid32 y -> fin x -> fin y -> no_overflow32 (rv x * rv y) ->
  valid32 (SFmul 24 128 x y) /\ fin (SFmul 24 128 x y) /\ rv (SFmul 24 128 x y) = rnd32 (rv x * rv y).
Proof.
  intros Hx Hy Fx Fy Ho. rewrite (mul_equiv32 x y Hx Hy). split; [apply valid_B2SF32|].
  unfold fin. rewrite fin_B2SF32, rv_B2SF32.
  pose proof (Bmult_correct 24 128 _ _ mode_NE (B32 x Hx) (B32 y Hy)) as H. rewrite !fin_B32, !B2R_rv32 in H.
  rewrite Rlt_bool_true in H by exact Ho. destruct H as (H1 & H2 & _). rewrite H2, Fx, Fy. split; auto.
Qed.

(** ** The conversions *)
Lemma rv_finite s m e : rv (S754_finite s m e) = F2R (Float radix2 (cond_Zopp s (Zpos m)) e).
Proof. reflexivity. Qed.
Lemma narrow_ok x : fin x -> no_overflow32 (rv x) ->
  valid32 (narrow x) /\ fin (narrow x) /\ rv (narrow x) = rnd32 (rv x).
Proof.
  intros Fx Ho. assert (Z0 : rnd32 0 = 0) by (apply round_0; auto with typeclass_instances).
  destruct x as [s|s| |s m e]; try discriminate Fx.
  - cbn [narrow renorm]. repeat split. change (rv (S754_zero s)) with 0. now rewrite Z0.
  - rewrite rv_finite in *. cbn [narrow renorm]. rewrite normalize_equiv32.
    split; [apply valid_B2SF32|]. unfold fin. rewrite fin_B2SF32, rv_B2SF32.
    pose proof (binary_normalize_correct 24 128 _ _ mode_NE (cond_Zopp s (Zpos m)) e s) as H. cbv zeta in H.
    rewrite Rlt_bool_true in H by exact Ho. split; apply H.
Qed.
Lemma fmt_32_64 x : fmt32 x -> fmt x.
Proof.
  apply generic_inclusion_mag. intros _. change (SpecFloat.fexp 24 128) with (FLT_exp (-149) 24).
  change (SpecFloat.fexp 53 1024) with (FLT_exp (-1074) 53). unfold FLT_exp. lia.
Qed.
Lemma widen_ok y : valid32 y -> fin y -> valid (widen y) /\ fin (widen y) /\ rv (widen y) = rv y.
Proof.
  intros Vy Fy. pose proof (fmt_32_64 _ (fmt_rv32 y Vy)) as Hf. pose proof (rv_lt32 y Vy) as Hl.
  destruct y as [s|s| |s m e]; try discriminate Fy; [now repeat split|].
  rewrite rv_finite in *. cbn [widen renorm]. rewrite normalize_equiv.
  split; [apply valid_B2SF'|]. unfold fin. rewrite fin_B2SF, rv_B2SF.
  pose proof (binary_normalize_correct 53 1024 _ _ mode_NE (cond_Zopp s (Zpos m)) e s) as H. cbv zeta in H.
  rewrite (round_generic radix2 (SpecFloat.fexp 53 1024) (round_mode mode_NE) _ Hf) in H.
  rewrite Rlt_bool_true in H; [split; apply H|]. eapply Rlt_trans; [exact Hl|]. apply bpow_lt. lia.
Qed.

(** ** Errors *)
Definition u32 : R := bpow radix2 (-24).
Definition eta32 : R := bpow radix2 (-150).
Lemma u32_val : u32 = / 16777216. Proof. reflexivity. Qed.
Lemma rnd32_err x : Rabs (rnd32 x - x) <= u32 * Rabs x + eta32.
Proof.
  destruct (error_N_FLT radix2 (-149) 24 eq_refl (fun z => negb (Z.even z)) x) as (eps & et & H1 & H2 & _ & H3).
  unfold rnd32. change (SpecFloat.fexp 24 128) with (FLT_exp (-149) 24). rewrite H3.
  replace (x * (1 + eps) + et - x) with (eps * x + et) by ring.
  eapply Rle_trans; [apply Rabs_triang|]. rewrite Rabs_mult.
  apply Rplus_le_compat.
  - apply Rmult_le_compat_r; [apply Rabs_pos|]. eapply Rle_trans; [exact H1|].
    change (/ 2) with (bpow radix2 (-1)). rewrite <- bpow_plus. apply Req_le. reflexivity.
  - eapply Rle_trans; [exact H2|]. change (/ 2) with (bpow radix2 (-1)). rewrite <- bpow_plus. apply Req_le. reflexivity.
Qed.
Lemma rnd32_id x : fmt32 x -> rnd32 x = x.
Proof. apply round_generic. auto with typeclass_instances. Qed.
Lemma rnd32_le x y : x <= y -> rnd32 x <= rnd32 y.
Proof. apply round_le; auto with typeclass_instances. Qed.
Lemma fmt32_bpow e : (-149 <= e)%Z -> fmt32 (bpow radix2 e).
Proof. intros H. apply (@generic_format_FLT_bpow radix2 (-149) 24 Hprec32). exact H. Qed.
Definition top32 : R := bpow radix2 120.
Lemma top32_ok x : Rabs x <= top32 -> no_overflow32 x.
Proof.
  intros Hx. unfold no_overflow32. apply Rle_lt_trans with top32.
  - apply abs_round_le_generic; auto with typeclass_instances. apply fmt32_bpow. lia.
  - apply bpow_lt. lia.
Qed.

(** a float64 with a float32 value, close to a real *)
Definition near32 (x : f64) (r e : R) : Prop := near x r e /\ fmt32 (rv x).
Lemma near32_weaken x r e e' : near32 x r e -> e <= e' -> near32 x r e'.
Proof. intros [H1 H2] He. split; auto. now apply near_weaken with e. Qed.
Lemma near32_exact x : valid x -> fin x -> fmt32 (rv x) -> near32 x (rv x) 0.
Proof. intros. split; auto. now apply near_exact. Qed.
Lemma near32_widen (z : spec_float) s r e : valid32 z -> fin z -> rv z = rnd32 s -> Rabs (s - r) <= e ->
  near32 (widen z) r (e + u32 * (Rabs r + e) + eta32).
Proof.
  intros Vz Fz Ez Hs. destruct (widen_ok z Vz Fz) as (V & Fi & E). split; [|rewrite E; now apply fmt_rv32].
  repeat split; auto. rewrite E, Ez.
  replace (rnd32 s - r) with ((rnd32 s - s) + (s - r)) by ring. eapply Rle_trans; [apply Rabs_triang|].
  pose proof (rnd32_err s). assert (Rabs s <= Rabs r + e).
  { replace s with (r + (s - r)) by ring. eapply Rle_trans; [apply Rabs_triang|]. lra. }
  assert (u32 * Rabs s <= u32 * (Rabs r + e)) by (apply Rmult_le_compat_l; [apply bpow_ge_0|auto]). lra.
Qed.
Lemma near_r32 x r e : near x r e -> Rabs r + e <= top32 -> near32 (r32 x) r (e + u32 * (Rabs r + e) + eta32).
Proof.
  intros N Ht. pose proof (near_abs _ _ _ N). destruct N as (V & Fi & E).
  destruct (narrow_ok x Fi) as (V' & F' & E'); [apply top32_ok; lra|].
  now apply (near32_widen (narrow x) (rv x)).
Qed.
Lemma narrow32 x r e : near32 x r e -> Rabs r + e <= top32 ->
  valid32 (narrow x) /\ fin (narrow x) /\ rv (narrow x) = rv x.
Proof.
  intros [N Hf] Ht. pose proof (near_abs _ _ _ N). destruct N as (V & Fi & E).
  destruct (narrow_ok x Fi) as (V' & F' & E'); [apply top32_ok; lra|]. rewrite (rnd32_id _ Hf) in E'. auto.
Qed.
Lemma near32_add x y a b ea eb : near32 x a ea -> near32 y b eb -> Rabs a + Rabs b + ea + eb <= top32 ->
  near32 (add32 x y) (a + b) (ea + eb + u32 * (Rabs (a + b) + (ea + eb)) + eta32).
Proof.
  intros Hx Hy Ho. pose proof (near_e _ _ _ (proj1 Hx)). pose proof (near_e _ _ _ (proj1 Hy)).
  pose proof (Rabs_pos a). pose proof (Rabs_pos b).
  destruct (narrow32 x a ea Hx) as (Vx & Fx & Ex); [lra|]. destruct (narrow32 y b eb Hy) as (Vy & Fy & Ey); [lra|].
  destruct (add_ok32 (narrow x) (narrow y)) as (V & Fi & E); auto.
  { rewrite Ex, Ey. apply top32_ok. eapply Rle_trans; [apply Rabs_triang|].
    pose proof (near_abs _ _ _ (proj1 Hx)). pose proof (near_abs _ _ _ (proj1 Hy)). lra. }
  rewrite Ex, Ey in E. apply (near32_widen _ _ _ _ V Fi E).
  destruct Hx as [(_ & _ & Hx) _], Hy as [(_ & _ & Hy) _].
  replace (rv x + rv y - (a + b)) with ((rv x - a) + (rv y - b)) by ring.
  eapply Rle_trans; [apply Rabs_triang|]. lra.
Qed.
(** a float64 (converted to float32) times a float32 *)
Lemma near32_mul c x a b ea eb : near c a ea -> near32 x b eb ->
  let ea' := ea + u32 * (Rabs a + ea) + eta32 in
  Rabs a + ea <= top32 -> Rabs b + eb <= top32 -> (Rabs a + ea') * (Rabs b + eb) <= top32 ->
  let e := Rabs a * eb + Rabs b * ea' + ea' * eb in
  near32 (mul32 c x) (a * b) (e + u32 * (Rabs (a * b) + e) + eta32).
Proof.
  intros Hc Hx ea' Ha Hb Ho e. pose proof (near_abs _ _ _ Hc) as Hca.
  destruct (narrow_ok c) as (Vc & Fc & Ec); [apply Hc|apply top32_ok; lra|].
  destruct (narrow32 x b eb Hx) as (Vx & Fx & Ex); auto.
  assert (Hn : Rabs (rnd32 (rv c) - a) <= ea').
  { unfold ea'. destruct Hc as (_ & _ & Hc). pose proof (rnd32_err (rv c)).
    replace (rnd32 (rv c) - a) with ((rnd32 (rv c) - rv c) + (rv c - a)) by ring.
    eapply Rle_trans; [apply Rabs_triang|].
    assert (u32 * Rabs (rv c) <= u32 * (Rabs a + ea)) by (apply Rmult_le_compat_l; [apply bpow_ge_0|auto]). lra. }
  pose proof (near_abs _ _ _ (proj1 Hx)) as Hxa. destruct Hx as [(_ & _ & Hx) _].
  destruct (mul_ok32 (narrow c) (narrow x)) as (V & Fi & E); auto.
  { rewrite Ec, Ex. apply top32_ok. rewrite Rabs_mult. eapply Rle_trans; [|exact Ho].
    apply Rmult_le_compat; auto; try apply Rabs_pos.
    replace (rnd32 (rv c)) with (a + (rnd32 (rv c) - a)) by ring. eapply Rle_trans; [apply Rabs_triang|]. lra. }
  rewrite Ec, Ex in E. apply (near32_widen _ _ _ _ V Fi E). now apply mul_err.
Qed.
