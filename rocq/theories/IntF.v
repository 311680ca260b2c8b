(** * Integers in the two arithmetics *)
From Coq Require Import ZArith Lia Lra SpecFloat List Arith Bool Reals Permutation.
From Flocq Require Import Core BinarySingleNaN.
From Verif Require Import Num NumPy Base M_PS Lists F64 F64o XR Rnd RndErr P_Cov64.
From Verif Require Import M_Int IntL IntR.
Import ListNotations.
Local Open Scope R_scope.
Local Notation R := Rdefinitions.R.

(** ** Exact reals *)
Lemma xsum_ints zs : forall a, fold_left xadd (map (fun z => Fin (IZR z)) zs) (Fin (IZR a)) = Fin (IZR (a + total zs)).
Proof.
  unfold total. induction zs as [|z zs IH]; intros a; cbn [map fold_left fold_right]; [now rewrite Z.add_0_r|].
  cbn [xadd]. rewrite <- plus_IZR, IH. do 2 f_equal. lia.
Qed.
Lemma xdot_ints x y : xdot (map (fun z => Fin (IZR z)) x) (map (fun z => Fin (IZR z)) y) = map (fun z => Fin (IZR z)) (map2 Z.mul x y).
Proof. revert y. induction x as [|a x IH]; intros [|b y]; cbn; auto. now rewrite IH, mult_IZR. Qed.
Lemma xdot_int x y : np_dot (a := XR) (floats (A := XR) x) (floats (A := XR) y) = Fin (IZR (dot x y)).
Proof. cbn. unfold floats. cbn. rewrite xdot_ints. unfold xsum. exact (xsum_ints _ 0). Qed.
Lemma XR_exact W : ExactInt (A := XR) W.
Proof.
  constructor.
  - exact XR_plain.
  - intros a b _ _ _. cbn. now rewrite plus_IZR.
  - intros a b _ _ _ _. cbn. now rewrite mult_IZR.
  - intros x _. apply xdot_int.
Qed.
Lemma XR_gram W d : ExactGram (A := XR) W d.
Proof. split; [exact XR_plain|]. intros x y c z i j. intros. now rewrite xdot_int. Qed.

(** ** binary64 *)
(** the float [x] is the integer [z] *)
Definition isint (x : f64) (z : Z) : Prop := valid x /\ fin x /\ rv x = IZR z.
Definition minus0 : f64 := S754_zero true.
Lemma isint_of_Z z : (Z.abs z <= 2 ^ 53)%Z -> isint (d_of_Z z) z.
Proof. apply of_Z_ok. Qed.

Section Ops.
  Local Existing Instance Hprec.
  Local Existing Instance Hmax.
  Lemma isint_eq x y z : isint x z -> isint y z -> x <> minus0 -> y <> minus0 -> x = y.
  Proof.
    intros (Vx & Fx & Rx) (Vy & Fy & Ry) Nx Ny.
    assert (Z0 : forall w, fin w -> rv w = 0 -> w <> minus0 -> w = S754_zero false).
    { intros [[]|s| |s m e] Hf Hr Hn; try discriminate; try reflexivity; [now destruct Hn|]. exfalso. revert Hr. unfold rv. cbn.
      destruct s; unfold F2R; cbn [Fnum Fexp cond_Zopp]; pose proof (bpow_gt_0 radix2 e); intros Hr; apply Rmult_integral in Hr; destruct Hr as [Hr|Hr]; try lra; apply eq_IZR in Hr; lia. }
    destruct (Req_dec (rv x) 0) as [E0|E0].
    - rewrite (Z0 x), (Z0 y); auto. congruence.
    - assert (St : forall w, fin w -> rv w <> 0 -> exists s m e, w = S754_finite s m e).
      { intros [s|s| |s m e] Hf Hr; try discriminate; [now destruct Hr|]. now exists s, m, e. }
      destruct (St x Fx E0) as (s1 & m1 & e1 & E1). destruct (St y Fy ltac:(congruence)) as (s2 & m2 & e2 & E2).
      assert (HB : B x Vx = B y Vy).
      { apply B2R_inj.
        - subst x. reflexivity.
        - subst y. reflexivity.
        - rewrite !B2R_rv. congruence. }
      refine (eq_trans (eq_sym (B2SF_SF2B 53 1024 x Vx)) (eq_trans (f_equal B2SF HB) (B2SF_SF2B 53 1024 y Vy))).
  Qed.
  Lemma small_no_overflow z : (Z.abs z <= 2 ^ 53)%Z -> no_overflow (IZR z) /\ rnd (IZR z) = IZR z.
  Proof.
    intros H. destruct (of_Z_ok z H) as (V & F & E). split.
    - apply (no_overflow_le _ 53); [lia|]. rewrite <- abs_IZR. change (bpow radix2 53) with (IZR (2 ^ 53)). now apply IZR_le.
    - rewrite <- E. apply rnd_id. now apply fmt_rv.
  Qed.
  Lemma isint_add x y a b : isint x a -> isint y b -> (Z.abs (a + b) <= 2 ^ 53)%Z -> isint (dadd x y) (a + b).
  Proof.
    intros (Vx & Fx & Rx) (Vy & Fy & Ry) H. destruct (small_no_overflow _ H) as [Ho Hr]. rewrite plus_IZR in Ho, Hr.
    destruct (dadd_ok x y Vx Vy Fx Fy) as (V & F & E); [now rewrite Rx, Ry|]. split; [exact V|]. split; [exact F|].
    rewrite E, Rx, Ry, plus_IZR. exact Hr.
  Qed.
  Lemma isint_mul x y a b : isint x a -> isint y b -> (Z.abs (a * b) <= 2 ^ 53)%Z -> isint (dmul x y) (a * b).
  Proof.
    intros (Vx & Fx & Rx) (Vy & Fy & Ry) H. destruct (small_no_overflow _ H) as [Ho Hr]. rewrite mult_IZR in Ho, Hr.
    destruct (dmul_ok x y Vx Vy Fx Fy) as (V & F & E); [now rewrite Rx, Ry|]. split; [exact V|]. split; [exact F|].
    rewrite E, Rx, Ry, mult_IZR. exact Hr.
  Qed.
  (** a sum is -0 only if both operands are *)
  Lemma add_plus0 x y a b : isint x a -> isint y b -> (Z.abs (a + b) <= 2 ^ 53)%Z -> x <> minus0 -> dadd x y <> minus0.
  Proof.
    intros (Vx & Fx & Rx) (Vy & Fy & Ry) H Nx E. destruct (small_no_overflow _ H) as [Ho Hr]. rewrite plus_IZR in Ho, Hr.
    rewrite (dadd_equiv x y Vx Vy) in E.
    pose proof (Bplus_correct 53 1024 _ _ mode_NE (B x Vx) (B y Vy)) as HB. rewrite !fin_B, !B2R_rv in HB. specialize (HB Fx Fy).
    rewrite Rlt_bool_true in HB by (rewrite Rx, Ry; exact Ho). destruct HB as (H1 & H2 & H3).
    assert (E0 : B2R (Bplus mode_NE (B x Vx) (B y Vy)) = 0).
    { rewrite <- rv_B2SF, E. reflexivity. }
    assert (Es : Bsign (Bplus mode_NE (B x Vx) (B y Vy)) = true).
    { revert E. destruct (Bplus _ _ _); cbn; try discriminate. now intros [= ->]. }
    rewrite H1 in E0. rewrite Rx, Ry in E0, H3. change (round radix2 (SpecFloat.fexp 53 1024) (round_mode mode_NE) (IZR a + IZR b)) with (rnd (IZR a + IZR b)) in E0.
    rewrite Hr in E0. rewrite E0, Rcompare_Eq, Es in H3 by reflexivity. symmetry in H3. apply andb_true_iff in H3 as [Sx Sy].
    assert (Hs : forall w (V : valid w), fin w -> Bsign (B w V) = true -> rv w <= 0 /\ (rv w = 0 -> w = minus0)).
    { intros w V Fw. destruct w as [s|s| |s m e]; try discriminate; cbn; intros ->; unfold rv; cbn.
      - split; [lra|reflexivity].
      - unfold F2R; cbn [Fnum Fexp cond_Zopp]. pose proof (bpow_gt_0 radix2 e). pose proof (IZR_lt (Zneg m) 0 ltac:(lia)).
        split; [nra|]. intros Hz. exfalso. nra. }
    destruct (Hs x Vx Fx Sx) as [Lx Zx]. destruct (Hs y Vy Fy Sy) as [Ly Zy]. apply Nx, Zx. rewrite Rx in *. rewrite Ry in *. lra.
  Qed.
End Ops.

Lemma total_abs zs : (Z.abs (total zs) <= total (map Z.abs zs))%Z.
Proof. unfold total. induction zs as [|z zs IH]; cbn; lia. Qed.
Lemma total_perm a b : Permutation a b -> total a = total b.
Proof. unfold total. induction 1; cbn; lia. Qed.
Lemma total_abs_nonneg zs : (0 <= total (map Z.abs zs))%Z.
Proof. unfold total. induction zs as [|z zs IH]; cbn; lia. Qed.

Lemma summed_int l z : summed l z -> forall zs, Forall2 isint l zs -> (total (map Z.abs zs) <= 2 ^ 53)%Z ->
  isint z (total zs) /\ (Forall (fun x => x <> minus0) l -> z <> minus0).
Proof.
  induction 1 as [|x|a b l x y Ha Hb _ IHa _ IHb HP]; intros zs Hz HT.
  - inversion Hz. split; [|discriminate]. repeat split.
  - inversion Hz as [|? z' ? zs' Hi Hz' E1 E2]; subst. inversion Hz'; subst. split; [|now inversion 1].
    unfold total. cbn. now rewrite Z.add_0_r.
  - destruct (Permutation_Forall2 HP Hz) as (zs' & HP' & H2). apply Forall2_app_inv_l in H2 as (za & zb & Fa & Fb & ->).
    rewrite (total_perm _ _ (Permutation_map Z.abs HP')), map_app, total_app in HT.
    pose proof (total_abs_nonneg za). pose proof (total_abs_nonneg zb). pose proof (total_abs za). pose proof (total_abs zb).
    destruct (IHa za Fa ltac:(lia)) as [Ia Na]. destruct (IHb zb Fb ltac:(lia)) as [Ib Nb].
    rewrite (total_perm _ _ HP'), total_app. split; [apply isint_add; auto; lia|].
    intros HN. apply (Permutation_Forall HP) in HN. apply Forall_app in HN as [HN _].
    eapply add_plus0; eauto. lia.
Qed.
Lemma isint_nonzero x z : isint x z -> z <> 0%Z -> x <> minus0.
Proof. intros (_ & _ & E) Hz ->. apply Hz. unfold rv in E. cbn in E. now apply eq_IZR. Qed.
Lemma of_Z_plus0 z : (Z.abs z <= 2 ^ 53)%Z -> d_of_Z z <> minus0.
Proof. intros H. destruct (Z.eq_dec z 0) as [->|Hz]; [discriminate|]. apply (isint_nonzero _ z); auto using isint_of_Z. Qed.
Lemma isint_is x z : isint x z -> (Z.abs z <= 2 ^ 53)%Z -> x <> minus0 -> x = d_of_Z z.
Proof. intros H1 H2 H3. apply (isint_eq _ _ z); auto using isint_of_Z, of_Z_plus0. Qed.

Lemma prods_int x y : Forall (fun z => Z.abs z <= 2 ^ 53)%Z x -> Forall (fun z => Z.abs z <= 2 ^ 53)%Z y -> (abs_dot x y <= 2 ^ 53)%Z ->
  Forall2 isint (dprods (map d_of_Z x) (map d_of_Z y)) (map2 Z.mul x y).
Proof.
  unfold abs_dot. intros Hx. revert y. induction Hx as [|a x Ha Hx IH]; intros y Hy HD; [constructor|].
  destruct Hy as [|b y Hb Hy]; [constructor|]. cbn [map2 fold_right] in HD.
  assert (0 <= fold_right Z.add 0 (map2 (fun a b => Z.abs (a * b)) x y))%Z.
  { clear. revert y. induction x as [|a x IH]; intros [|b y]; cbn; try lia. specialize (IH y). lia. }
  cbn [map dprods map2]. constructor; [|apply IH; auto; lia]. apply isint_mul; auto using isint_of_Z. lia.
Qed.
Lemma abs_dot_total x y : abs_dot x y = total (map Z.abs (map2 Z.mul x y)).
Proof. unfold abs_dot, total. revert y. induction x as [|a x IH]; intros [|b y]; cbn; auto. now rewrite IH. Qed.
Lemma sumsq_abs x : abs_dot x x = sumsq x.
Proof. unfold abs_dot, sumsq. induction x as [|a x IH]; cbn; auto. rewrite IH. pose proof (Z.square_nonneg a). lia. Qed.
Lemma sumsq_bound x : Forall (fun z => z * z <= sumsq x)%Z x.
Proof.
  unfold sumsq. induction x as [|a x IH]; [constructor|]. cbn [map2 fold_right].
  assert (0 <= fold_right Z.add 0 (map2 Z.mul x x))%Z.
  { clear. induction x as [|a x IH]; cbn; [lia|]. pose proof (Z.square_nonneg a). lia. }
  pose proof (Z.square_nonneg a). constructor; [lia|]. eapply Forall_impl; [|exact IH]. cbn beta. intros z Hz. lia.
Qed.
Lemma square_plus0 a : (a * a <= 2 ^ 53)%Z -> dmul (d_of_Z a) (d_of_Z a) <> minus0.
Proof.
  intros H. destruct (Z.eq_dec a 0) as [->|Ha]; [discriminate|]. assert (Z.abs a <= 2 ^ 53)%Z by nia.
  apply (isint_nonzero _ (a * a)); [|nia]. apply isint_mul; auto using isint_of_Z. nia.
Qed.

Lemma isint_pos x a : isint x a -> (0 < a)%Z -> exists m e, x = S754_finite false m e.
Proof.
  intros (_ & Hf & E) Ha. apply IZR_lt in Ha. destruct x as [s|s| |s m e]; try discriminate; unfold rv in E; cbn in E; [lra|].
  destruct s; [|eauto]. exfalso. unfold F2R in E. cbn [Fnum Fexp] in E. pose proof (bpow_gt_0 radix2 e). pose proof (IZR_lt (Z.neg m) 0 ltac:(lia)) as Hm. change (IZR (Z.neg m) * bpow radix2 e = IZR a) in E. nra.
Qed.

Lemma F64_exact L S W : any_order S -> (W <= 2 ^ 53)%Z -> ExactInt (A := F64o L S) W.
Proof.
  intros [_ HS] HW. constructor.
  - apply F64o_plain.
  - intros a b Ha Hb Hab. cbn. apply isint_is; [apply isint_add; try apply isint_of_Z; lia|lia|].
    apply (add_plus0 _ _ a b); try apply isint_of_Z; try lia. apply of_Z_plus0. lia.
  - intros a b Ha Hb Ha' Hab. cbn. assert (Hb' : (b <= 2 ^ 53)%Z) by nia.
    apply isint_is; [apply isint_mul; try apply isint_of_Z; lia|lia|].
    destruct (Z.eq_dec b 0) as [->|Hb0].
    + destruct (isint_pos _ _ (isint_of_Z a ltac:(lia)) Ha) as (m & e & ->). discriminate.
    + apply (isint_nonzero _ (a * b)); [apply isint_mul; try apply isint_of_Z; lia|nia].
  - intros x Hx. cbn. unfold floats. cbn.
    assert (Hb : Forall (fun z => Z.abs z <= 2 ^ 53)%Z x) by (eapply Forall_impl; [|apply sumsq_bound]; cbn beta; intros z Hz; nia).
    assert (HT : (abs_dot x x <= 2 ^ 53)%Z) by (rewrite sumsq_abs; lia).
    destruct (summed_int _ _ (HS (map d_of_Z x) (map d_of_Z x)) _ (prods_int x x Hb Hb HT)) as [H1 H2].
    { rewrite <- abs_dot_total. exact HT. }
    pose proof (sumsq_nonneg x). apply isint_is; [exact H1|lia|]. apply H2.
    pose proof (sumsq_bound x) as HQ. revert HQ Hx. generalize (sumsq x). clear - HW. intros q HQ Hx.
    induction HQ as [|a x Ha _ IH]; cbn; constructor; auto. apply square_plus0. lia.
Qed.

(** ** The products of rCIP's batches *)
Lemma zero_sign g c z dl : dl <> minus0 -> dadd (dmul c (dsub (S754_zero true) z)) dl = dadd (dmul c (dsub (S754_zero g) z)) dl.
Proof.
  intros Hd. destruct g; [reflexivity|]. destruct z as [s|s| |s m e]; try reflexivity.
  assert (Ha : forall a b, dadd (S754_zero a) dl = dadd (S754_zero b) dl).
  { intros a b. destruct dl as [[]|sd| |sd md ed]; try reflexivity; [now destruct Hd|]. now destruct a, b. }
  destruct c as [sc|sc| |sc mc ec]; destruct s; cbn [dsub SFsub dmul SFmul]; try reflexivity; apply Ha.
Qed.

Lemma F64_gram L S W d : any_order S -> (W <= 2 ^ 53)%Z -> positive (regular L d) -> ExactGram (A := F64o L S) W d.
Proof.
  intros [_ HS] HW HR. split; [apply F64o_plain|]. intros x y c z i j Hl HD Hx Hy Hi Hj.
  assert (Hdl : entry (rCIP_delta_term (A := F64o L S) d) i j <> minus0).
  { unfold rCIP_delta_term. rewrite entry_tab2 by auto. change (rCIP_delta (A := F64o L S) d) with (regular L d). destruct (i =? j)%nat.
    - destruct (one_times _ HR) as [(_ & _ & Hp) _]. intros H. change (dmul (d_of_Z 1) (regular L d) = minus0) in H. rewrite H in Hp. cbn in Hp. lra.
    - destruct HR as (_ & Hf & Hp). destruct (regular L d) as [s|s| |s m e]; try discriminate; [cbn in Hp; lra|].
      destruct s; [|discriminate]. exfalso. unfold rv in Hp. cbn in Hp. unfold F2R in Hp. cbn [Fnum Fexp] in Hp.
      pose proof (bpow_gt_0 radix2 e). pose proof (IZR_lt (Z.neg m) 0 ltac:(lia)) as Hm. change (0 < IZR (Z.neg m) * bpow radix2 e) in Hp. nra. }
  assert (Hx' : Forall (fun z => Z.abs z <= 2 ^ 53)%Z x) by (eapply Forall_impl; [|exact Hx]; cbn beta; lia).
  assert (Hy' : Forall (fun z => Z.abs z <= 2 ^ 53)%Z y) by (eapply Forall_impl; [|exact Hy]; cbn beta; lia).
  destruct (summed_int _ _ (HS (map d_of_Z x) (map d_of_Z y)) _ (prods_int x y Hx' Hy' ltac:(lia))) as [H1 _].
  { rewrite <- abs_dot_total. lia. }
  pose proof (dot_abs x y) as HA. change (total (map2 Z.mul x y)) with (dot x y) in H1.
  revert Hdl. generalize (entry (rCIP_delta_term (A := F64o L S) d) i j). intros dl Hdl.
  change (dadd (dmul c (dsub (s_dot S (map d_of_Z x) (map d_of_Z y)) z)) dl = dadd (dmul c (dsub (d_of_Z (dot x y)) z)) dl).
  destruct (s_dot S (map d_of_Z x) (map d_of_Z y)) as [s|s| |s m e] eqn:Es.
  - assert (E0 : dot x y = 0%Z). { destruct H1 as (_ & _ & E0). cbn in E0. symmetry in E0. now apply eq_IZR in E0. }
    rewrite E0. change (d_of_Z 0) with (S754_zero false). destruct s; [|reflexivity]. now apply (zero_sign false).
  - destruct H1 as (_ & H & _); discriminate.
  - destruct H1 as (_ & H & _); discriminate.
  - rewrite (isint_is _ _ H1); [reflexivity|lia|discriminate].
Qed.
