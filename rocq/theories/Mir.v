(** * Changing the sign of every feature, bit for bit *)
From Coq Require Import ZArith List Bool Lia SpecFloat Reals Lra.
From Flocq Require Import Core BinarySingleNaN Plus_error.
From Verif Require Import Num NumPy Base GetCvi F64 F64o F32d Rnd Bnd P_Sign.
From Verif Require Import Par ParL ParC.
Import ListNotations.
#[local] Existing Instances Hprec Hmax.

(** ** the operations and the sign *)
Section Prec.
  Context (prec emax : Z).
  Lemma opp_aux sx m e l : SpecFloat.binary_round_aux prec emax (negb sx) m e l = SFopp (SpecFloat.binary_round_aux prec emax sx m e l).
  Proof.
    unfold SpecFloat.binary_round_aux. destruct (shr_fexp _ _ _ _ _) as [mr e']. destruct (shr_fexp _ _ (SpecFloat.round_nearest_even _ _) _ _) as [mr' e''].
    destruct (shr_m mr'); cbn; auto. destruct (_ <=? _)%Z; auto.
  Qed.
  Lemma opp_round sx m e : SpecFloat.binary_round prec emax (negb sx) m e = SFopp (SpecFloat.binary_round prec emax sx m e).
  Proof. unfold SpecFloat.binary_round. match goal with |- context [shl_align ?a ?b ?c] => destruct (shl_align a b c) end. apply opp_aux. Qed.
  Lemma opp_norm m e s s' : m <> 0%Z -> SpecFloat.binary_normalize prec emax (- m) e s' = SFopp (SpecFloat.binary_normalize prec emax m e s).
  Proof. destruct m; [congruence| |]; intros _; cbn; [apply (opp_round false)|apply (opp_round true)]. Qed.
  Lemma opp_cond s m : cond_Zopp (negb s) m = (- cond_Zopp s m)%Z.
  Proof. destruct s; cbn; lia. Qed.
End Prec.

Definition isz (x : f64) : Prop := match x with S754_zero _ => True | _ => False end.
(** opposite numbers; a zero of either sign is the opposite of a zero *)
Definition opps (x y : f64) : Prop := y = SFopp x \/ (isz x /\ isz y).
(** the same number up to the sign of zero *)
Definition same0 (x y : f64) : Prop := x = y \/ (isz x /\ isz y).
Lemma isz_opp x : isz x -> isz (SFopp x). Proof. now destruct x. Qed.
Lemma opps_zero s s' : opps (S754_zero s) (S754_zero s'). Proof. now right. Qed.
Lemma opps_opp x : opps x (SFopp x). Proof. now left. Qed.
Lemma opps_cases x y : opps x y ->
  (exists s s', x = S754_zero s /\ y = S754_zero s') \/ (~ isz x /\ y = SFopp x).
Proof.
  intros [->|[H1 H2]].
  - destruct x as [s|s| |s m e]; [left; eexists; eexists; split; reflexivity| | |]; right; split; cbn; auto.
  - left. destruct x, y; try contradiction. eauto.
Qed.
Lemma opps_SFadd p m x y x' y' : opps x y -> opps x' y' -> opps (SFadd p m x x') (SFadd p m y y').
Proof.
  intros H H'. destruct (opps_cases x y H) as [(a & a' & -> & ->)|[Nx ->]], (opps_cases x' y' H') as [(b & b' & -> & ->)|[Nx' ->]].
  - cbn. destruct (eqb a b), (eqb a' b'); apply opps_zero.
  - destruct x' as [s|s| |s k e]; cbn in *; try contradiction; now left.
  - destruct x as [s|s| |s k e]; cbn in *; try contradiction; now left.
  - destruct x as [s|s| |s k e], x' as [s'|s'| |s' k' e']; cbn [isz] in *; try (contradiction Nx; exact I); try (contradiction Nx'; exact I); try (left; reflexivity).
    + left. cbn. now destruct s, s'.
    + cbn [SFopp SFadd]. rewrite !opp_cond. match goal with |- opps (SpecFloat.binary_normalize _ _ (?u + ?w) _ _) _ => set (a := u); set (b := w) end.
      replace (- a + - b)%Z with (- (a + b))%Z by lia. destruct (Z.eq_dec (a + b) 0) as [E|E].
      * rewrite E. apply opps_zero.
      * left. now apply opp_norm.
Qed.
Lemma SFsub_add p m x y : SFsub p m x y = SFadd p m x (SFopp y).
Proof.
  destruct x as [s|s| |s k e], y as [s'|s'| |s' k' e']; cbn; auto. rewrite opp_cond. reflexivity.
Qed.
Lemma opps_opp2 x y : opps x y -> opps (SFopp x) (SFopp y).
Proof. intros [->|[H1 H2]]; [now left|right; split; now apply isz_opp]. Qed.
Lemma opps_SFsub p m x y x' y' : opps x y -> opps x' y' -> opps (SFsub p m x x') (SFsub p m y y').
Proof. intros H H'. rewrite !SFsub_add. apply opps_SFadd; auto. now apply opps_opp2. Qed.
Lemma opps_SFmul p m c x y : opps x y -> opps (SFmul p m c x) (SFmul p m c y).
Proof.
  intros H. destruct (opps_cases x y H) as [(a & a' & -> & ->)|[Nx ->]].
  - destruct c; cbn; try apply opps_zero; now left.
  - left. destruct c as [s|s| |s k e], x as [s'|s'| |s' k' e']; cbn; auto; rewrite <- ?negb_xorb_r; auto. apply opp_aux.
Qed.
Lemma SFmul_comm p m x y : SFmul p m x y = SFmul p m y x.
Proof. destruct x, y; cbn; auto; rewrite 1?xorb_comm; auto. now rewrite Pos.mul_comm, Z.add_comm. Qed.
Lemma opps_SFmul_l p m c x y : opps x y -> opps (SFmul p m x c) (SFmul p m y c).
Proof. rewrite (SFmul_comm p m x), (SFmul_comm p m y). apply opps_SFmul. Qed.
Lemma opps_SFdiv p m c x y : opps x y -> opps (SFdiv p m x c) (SFdiv p m y c).
Proof.
  intros H. destruct (opps_cases x y H) as [(a & a' & -> & ->)|[Nx ->]].
  - destruct c; cbn; try apply opps_zero; now left.
  - left. destruct c as [s|s| |s k e], x as [s'|s'| |s' k' e']; cbn; auto; rewrite <- ?negb_xorb_l; auto.
    destruct (SFdiv_core_binary _ _ _ _ _ _) as [[u w] l]. apply opp_aux.
Qed.
(** products of two opposites *)
Lemma same0_SFmul p m x y x' y' : opps x y -> opps x' y' -> same0 (SFmul p m x x') (SFmul p m y y').
Proof.
  intros H H'. destruct (opps_cases x y H) as [(a & a' & -> & ->)|[Nx ->]], (opps_cases x' y' H') as [(b & b' & -> & ->)|[Nx' ->]].
  - now right.
  - destruct x'; cbn; try (now right); now left.
  - destruct x; cbn; try (now right); now left.
  - left. destruct x as [s|s| |s k e], x' as [s'|s'| |s' k' e']; cbn; auto; now rewrite <- negb_xorb_r, <- negb_xorb_l, negb_involutive.
Qed.
Lemma sq_SFmul p m x y : opps x y -> SFmul p m x x = SFmul p m y y.
Proof.
  intros H. destruct (opps_cases x y H) as [(a & a' & -> & ->)|[Nx ->]]; [cbn; now rewrite !xorb_nilpotent|].
  destruct x as [s|s| |s k e]; cbn; auto; now rewrite !xorb_nilpotent.
Qed.
Lemma same0_SFadd p m x y x' y' : same0 x y -> same0 x' y' -> same0 (SFadd p m x x') (SFadd p m y y').
Proof.
  intros [->|[H1 H2]] [->|[H3 H4]]; try (now left).
  - destruct x' as [s| | |], y' as [s'| | |]; try contradiction. destruct y as [a| | |]; cbn; try (now left). right. destruct (eqb a s), (eqb a s'); now split.
  - destruct x as [s| | |], y as [s'| | |]; try contradiction. destruct y' as [a| | |]; cbn; try (now left). right. destruct (eqb s a), (eqb s' a); now split.
  - destruct x as [s| | |], y as [s'| | |]; try contradiction. destruct x' as [a| | |], y' as [b| | |]; try contradiction. right. cbn. destruct (eqb s a), (eqb s' b); now split.
Qed.
Lemma opps_renorm p m x y : opps x y -> opps (renorm p m x) (renorm p m y).
Proof.
  intros H. destruct (opps_cases x y H) as [(a & a' & -> & ->)|[Nx ->]]; [apply opps_zero|].
  left. destruct x as [s|s| |s k e]; cbn; auto. rewrite opp_cond. apply opp_norm. destruct s; cbn; lia.
Qed.

(** a sum is not [-0.0] unless both terms are *)
Lemma dadd_not_minus x y : valid x -> valid y -> x <> S754_zero true -> dadd x y <> S754_zero true.
Proof.
  intros Hx Hy Nx E.
  destruct (is_finite_SF x) eqn:Fx; [|destruct x as [?|s| |]; try discriminate Fx; cbn in E; destruct y as [?|[]| |]; try discriminate E; try (destruct s; discriminate E); now destruct s].
  destruct (is_finite_SF y) eqn:Fy; [|destruct x as [?|?| |], y as [?|?| |]; try discriminate Fx; try discriminate Fy; cbn in E; discriminate E].
  pose proof E as E'. rewrite (dadd_equiv x y Hx Hy) in E'.
  pose proof (Bplus_correct 53 1024 Hprec Hmax mode_NE (B x Hx) (B y Hy)) as HC.
  assert (F1 : is_finite (B x Hx) = true) by (now rewrite is_finite_SF2B).
  assert (F2 : is_finite (B y Hy) = true) by (now rewrite is_finite_SF2B).
  specialize (HC F1 F2). destruct (Rlt_bool _ _).
  - destruct HC as (HR & _ & HS). set (z := Bplus mode_NE (B x Hx) (B y Hy)) in *. clearbody z.
    assert (HZ : B2R z = 0%R) by (rewrite <- SF2R_B2SF, E'; reflexivity).
    assert (Hs : Bsign z = true) by (clear -E'; destruct z; cbn in *; congruence).
    assert (Hsum : (B2R (B x Hx) + B2R (B y Hy))%R = 0%R).
    { destruct (Req_dec (B2R (B x Hx) + B2R (B y Hy)) 0) as [|N]; auto. exfalso.
      apply (round_plus_neq_0 radix2 (SpecFloat.fexp 53 1024) ZnearestE (B2R (B x Hx)) (B2R (B y Hy))); auto; try apply generic_format_B2R.
      rewrite <- HZ. symmetry. exact HR. }
    rewrite Hs, Hsum, Rcompare_Eq in HS by reflexivity. symmetry in HS. apply andb_prop in HS. destruct HS as [S1 S2].
    assert (G : forall w (Hw : valid w), Bsign (B w Hw) = true -> is_finite (B w Hw) = true -> w = S754_zero true \/ (B2R (B w Hw) < 0)%R).
    { intros w Hw Sw Fw. pose proof (B2SF_SF2B 53 1024 w Hw) as Ew. destruct (SF2B w Hw) as [b|b| |b k e Hk]; cbn in *; try discriminate; subst b; auto.
      right. apply F2R_lt_0. cbn. lia. }
    destruct (G x Hx S1 F1) as [|G1]; [contradiction|]. destruct (G y Hy S2 F2) as [->|G2]; [|lra].
    assert (B2R (B (S754_zero true) Hy) = 0%R) by reflexivity. lra.
  - destruct HC as [HC _]. rewrite HC in E'. unfold BinarySingleNaN.binary_overflow in E'. cbn in E'. discriminate E'.
Qed.

(** ** sums in an order that depends on the number of terms only *)
Inductive order := term (i : nat) | both (a b : order).
Fixpoint in_order (add : f64 -> f64 -> f64) (t : order) (l : list f64) : f64 :=
  match t with
  | term i => nth i l (S754_zero false)
  | both a b => add (in_order add a l) (in_order add b l)
  end.
Definition ordered (add : f64 -> f64 -> f64) (prods : list f64 -> list f64 -> list f64) (S : Sums) : Prop :=
  exists T T' : nat -> order, (forall l, s_sum S l = in_order add (T (length l)) l) /\
    (forall a b, s_dot S a b = in_order add (T' (length (prods a b))) (prods a b)).
Definition fixed_order (S : Sums) : Prop := ordered dadd dprods S.
Definition fixed_order32 (T : Sums) : Prop := ordered add32 prods32 T.
(** from left to right is one *)
Fixpoint left_tree (k : nat) : order := match k with O => term 0 | S k' => both (left_tree k') (term k) end.
Lemma in_order_firstn add t l l' : (forall i, nth i l (S754_zero false) = nth i l' (S754_zero false)) -> in_order add t l = in_order add t l'.
Proof. intros H. induction t; cbn; auto. now rewrite IHt1, IHt2. Qed.
Lemma left_tree_fold add x l : in_order add (left_tree (length l)) (x :: l) = fold_left add l x.
Proof.
  induction l as [|y l IH] using rev_ind; cbn; auto. rewrite app_length, Nat.add_comm, fold_left_app. cbn [length Nat.add left_tree in_order].
  rewrite <- IH. cbn [fold_left]. f_equal.
  - assert (Hn : forall i, i <= length l -> nth i (x :: l ++ [y]) (S754_zero false) = nth i (x :: l) (S754_zero false)).
    { intros [|i] Hi; cbn; auto. rewrite app_nth1; auto. }
    assert (G : forall t, t <= length l -> in_order add (left_tree t) (x :: l ++ [y]) = in_order add (left_tree t) (x :: l)).
    { intros t. induction t as [|t IHt]; intros Ht; [reflexivity|]. cbn [left_tree in_order]. rewrite IHt, Hn by lia. reflexivity. }
    now apply G.
  - cbn. rewrite app_nth2, Nat.sub_diag by lia. reflexivity.
Qed.
Lemma left_right_fixed : fixed_order left_right.
Proof.
  exists (fun k => left_tree (Nat.pred k)), (fun k => left_tree (Nat.pred k)). assert (H : forall l, dsum l = in_order dadd (left_tree (Nat.pred (length l))) l).
  { intros [|x l]; cbn [dsum length Nat.pred]; auto. symmetry. apply left_tree_fold. }
  split; intros; apply H.
Qed.
Lemma left_right32_fixed : fixed_order32 left_right32.
Proof.
  exists (fun k => left_tree (Nat.pred k)), (fun k => left_tree (Nat.pred k)). assert (H : forall l, sum32 l = in_order add32 (left_tree (Nat.pred (length l))) l).
  { intros [|x l]; cbn [sum32 length Nat.pred]; auto. symmetry. apply left_tree_fold. }
  split; intros; apply H.
Qed.
Lemma par_in_order (R : f64 -> f64 -> Prop) add t l l' : R (S754_zero false) (S754_zero false) ->
  (forall x y x' y', R x y -> R x' y' -> R (add x x') (add y y')) -> Forall2 R l l' -> R (in_order add t l) (in_order add t l').
Proof. intros H0 Ha H. induction t; cbn; auto. now apply par_nth. Qed.
Lemma par_s_sum (R : f64 -> f64 -> Prop) add prods S l l' : ordered add prods S -> R (S754_zero false) (S754_zero false) ->
  (forall x y x' y', R x y -> R x' y' -> R (add x x') (add y y')) -> Forall2 R l l' -> R (s_sum S l) (s_sum S l').
Proof. intros (T & T' & HT & _) H0 Ha H. rewrite !HT, (par_length R l l' H). now apply par_in_order. Qed.
Lemma par_s_dot (R : f64 -> f64 -> Prop) add prods S a a' b b' : ordered add prods S -> R (S754_zero false) (S754_zero false) ->
  (forall x y x' y', R x y -> R x' y' -> R (add x x') (add y y')) -> Forall2 R (prods a b) (prods a' b') -> R (s_dot S a b) (s_dot S a' b').
Proof. intros (T & T' & _ & HT) H0 Ha H. rewrite !HT, (par_length R _ _ H). now apply par_in_order. Qed.

(** ** signs at any precision *)
Section Plus.
  Context (p m : Z).
  Lemma gplus_aux k e l : nan_or_plus (SpecFloat.binary_round_aux p m false k e l).
  Proof.
    unfold SpecFloat.binary_round_aux. destruct (shr_fexp _ _ _ _ _) as [mr e']. destruct (shr_fexp _ _ (SpecFloat.round_nearest_even _ _) _ _) as [mr' e''].
    destruct (shr_m mr'); cbn; auto. destruct (_ <=? _)%Z; cbn; auto.
  Qed.
  Lemma gplus_norm z e : (0 <= z)%Z -> nan_or_plus (SpecFloat.binary_normalize p m z e false).
  Proof.
    intros H. destruct z; cbn; auto; [|lia]. unfold SpecFloat.binary_round. match goal with |- context [shl_align ?a ?b ?c] => destruct (shl_align a b c) end. apply gplus_aux.
  Qed.
  Lemma gplus_add x y : nan_or_plus x -> nan_or_plus y -> nan_or_plus (SFadd p m x y).
  Proof. destruct x, y; cbn; intros; subst; auto; cbn; auto. apply (gplus_norm (Zpos _ + Zpos _)). lia. Qed.
  Lemma gplus_mul x y : nan_or_plus x -> nan_or_plus y -> nan_or_plus (SFmul p m x y).
  Proof. destruct x, y; cbn; intros; subst; auto; cbn; auto. apply gplus_aux. Qed.
  Lemma gplus_sq x : nan_or_plus (SFmul p m x x).
  Proof. destruct x as [[]|[]| |[]]; cbn; auto; apply gplus_aux. Qed.
  Lemma gplus_renorm x : nan_or_plus x -> nan_or_plus (renorm p m x).
  Proof. destruct x; cbn; auto. intros ->. apply (gplus_norm (Zpos _)). lia. Qed.
End Plus.
Lemma valid_norm k e s : valid (SpecFloat.binary_normalize 53 1024 k e s).
Proof. rewrite normalize_equiv. apply valid_B2SF'. Qed.
Lemma valid_widen x : valid (widen x).
Proof. destruct x; try reflexivity. apply valid_norm. Qed.

(** ** the sorts *)
Notation P_ := (fun x y : f64 => valid x /\ valid y /\ opps x y).
Notation Q_ := (fun x y : f64 => valid x /\ valid y /\ same0 x y).
Notation S_ := (fun x y : f64 => x = y /\ valid x).
Notation T_ := (fun x y : f64 => x = y /\ valid x /\ x <> S754_zero true).
Notation U_ := (fun x y : f64 => x = y /\ valid x /\ nan_or_plus x).
Definition mirrored64 (L : Libm) (S : Sums) : Sorts (F64o L S) (F64o L S) :=
  mkSorts (F64o L S) (F64o L S) S_ P_ Q_ S_ T_ U_ eq eq.
Definition mirrored32 (L : Libm) (S T : Sums) : Sorts (F32d L S T) (F32d L S T) :=
  mkSorts (F32d L S T) (F32d L S T) S_ P_ Q_ S_ T_ U_ eq eq.
Lemma valid_opp x : valid x -> valid (SFopp x). Proof. now destruct x. Qed.
Lemma P_add x y x' y' : P_ x y -> P_ x' y' -> P_ (dadd x x') (dadd y y').
Proof. intros (? & ? & ?) (? & ? & ?). repeat split; try now apply valid_add. now apply opps_SFadd. Qed.
Lemma P_sub x y x' y' : P_ x y -> P_ x' y' -> P_ (dsub x x') (dsub y y').
Proof. intros (? & ? & ?) (? & ? & ?). repeat split; try now apply valid_sub. now apply opps_SFsub. Qed.
Lemma P_mul x y x' y' : S_ x y -> P_ x' y' -> P_ (dmul x x') (dmul y y').
Proof. intros [<- ?] (? & ? & ?). repeat split; try now apply valid_mul. now apply opps_SFmul. Qed.
Lemma P_mul1 x y : P_ x y -> P_ (dmul x (d_of_Z 1)) (dmul y (d_of_Z 1)).
Proof. intros (? & ? & ?). repeat split; try (apply valid_mul; auto; apply valid_Z). now apply opps_SFmul_l. Qed.
Lemma P_div x y x' y' : P_ x y -> S_ x' y' -> P_ (ddiv x x') (ddiv y y').
Proof. intros (? & ? & ?) [<- ?]. repeat split; try now apply valid_div. now apply opps_SFdiv. Qed.
Lemma P_0 : P_ (S754_zero false) (S754_zero false). Proof. repeat split. apply opps_zero. Qed.
Lemma Q_0 : Q_ (S754_zero false) (S754_zero false). Proof. repeat split. now left. Qed.
Lemma U_0 : U_ (S754_zero false) (S754_zero false). Proof. repeat split. Qed.
Lemma S_0 : S_ (S754_zero false) (S754_zero false). Proof. repeat split. Qed.
Lemma U_sq x y : P_ x y -> U_ (dmul x x) (dmul y y).
Proof. intros (? & ? & ?). repeat split; [now apply sq_SFmul|now apply valid_mul|apply gplus_sq]. Qed.
Lemma U_add x y x' y' : U_ x y -> U_ x' y' -> U_ (dadd x x') (dadd y y').
Proof. intros (<- & ? & ?) (<- & ? & ?). repeat split; [now apply valid_add|now apply gplus_add]. Qed.
Lemma U_mul k x y : U_ x y -> U_ (dmul (d_of_Z (Z.of_nat k)) x) (dmul (d_of_Z (Z.of_nat k)) y).
Proof. intros (<- & ? & ?). repeat split; [apply valid_mul; auto; apply valid_Z|]. apply gplus_mul; auto. apply gplus_norm. lia. Qed.
Lemma Q_add x y x' y' : Q_ x y -> Q_ x' y' -> Q_ (dadd x x') (dadd y y').
Proof. intros (? & ? & ?) (? & ? & ?). repeat split; try now apply valid_add. now apply same0_SFadd. Qed.
Lemma Q_mul x y x' y' : S_ x y -> Q_ x' y' -> Q_ (dmul x x') (dmul y y').
Proof.
  intros [<- ?] (? & ? & HQ). repeat split; try now apply valid_mul. destruct HQ as [->|[Hx Hy]]; [now left|].
  destruct x' as [a| | |], y' as [b| | |]; try contradiction. destruct x; cbn; try (now left); now right.
Qed.
Lemma T_add x y x' y' : T_ x y -> Q_ x' y' -> T_ (dadd x x') (dadd y y').
Proof.
  intros (<- & Hv & Hn) (Hx' & Hy' & H). repeat split; [|now apply valid_add|now apply dadd_not_minus].
  destruct H as [->|[H1 H2]]; auto. destruct x' as [a| | |], y' as [b| | |]; try contradiction.
  destruct x as [[]| | |]; cbn; auto; try congruence. now destruct a, b.
Qed.
Lemma US_sub x y x' y' : U_ x y -> Q_ x' y' -> S_ (dsub x x') (dsub y y').
Proof.
  intros (<- & Hv & Hn) (Hx' & Hy' & H). split; [|now apply valid_sub].
  destruct H as [->|[H1 H2]]; auto. destruct x' as [a| | |], y' as [b| | |]; try contradiction.
  destruct x as [[]| | |]; cbn in *; auto; try congruence. now destruct a, b.
Qed.
Lemma Q_prods a a' b b' : Forall2 P_ a a' -> Forall2 P_ b b' -> Forall2 Q_ (dprods a b) (dprods a' b').
Proof.
  intros H. revert b b'. induction H as [|x y a a' (Vx & Vy & Ox) H IH]; intros b b' H'; cbn; auto. destruct H' as [|x' y' b b' (Vx' & Vy' & Ox') H']; auto.
  constructor; auto. repeat split; try now apply valid_mul. now apply same0_SFmul.
Qed.
Lemma U_prods a a' : Forall2 P_ a a' -> Forall2 U_ (dprods a a) (dprods a' a').
Proof. induction 1; cbn; constructor; auto. now apply U_sq. Qed.
Lemma P_add32 x y x' y' : P_ x y -> P_ x' y' -> P_ (add32 x x') (add32 y y').
Proof. intros (? & ? & ?) (? & ? & ?). repeat split; try apply valid_widen. apply opps_renorm, opps_SFadd; now apply opps_renorm. Qed.
Lemma P_mul32 x y x' y' : S_ x y -> P_ x' y' -> P_ (mul32 x x') (mul32 y y').
Proof. intros [<- ?] (? & ? & ?). repeat split; try apply valid_widen. apply opps_renorm, opps_SFmul. now apply opps_renorm. Qed.
Lemma P_div32 x y x' y' : P_ x y -> S_ x' y' -> P_ (div32 x x') (div32 y y').
Proof. intros (? & ? & ?) [<- ?]. repeat split; try apply valid_widen. apply opps_renorm, opps_renorm. now apply opps_SFdiv. Qed.
Lemma U_sq32 x y : P_ x y -> U_ (mul32 x x) (mul32 y y).
Proof.
  intros (? & ? & ?). repeat split; [|apply valid_widen|apply gplus_renorm, gplus_sq]. unfold mul32. f_equal. apply sq_SFmul. now apply opps_renorm.
Qed.
Lemma U_prods32 a a' : Forall2 P_ a a' -> Forall2 U_ (prods32 a a) (prods32 a' a').
Proof. induction 1; cbn; constructor; auto. now apply U_sq32. Qed.
Lemma U_add32 x y x' y' : U_ x y -> U_ x' y' -> U_ (add32 x x') (add32 y y').
Proof. intros (<- & ? & ?) (<- & ? & ?). repeat split; [apply valid_widen|]. apply gplus_renorm, gplus_add; now apply gplus_renorm. Qed.
Lemma U_mul32 k x y : U_ x y -> U_ (mul32 (d_of_Z (Z.of_nat k)) x) (mul32 (d_of_Z (Z.of_nat k)) y).
Proof.
  intros (<- & ? & ?). repeat split; [apply valid_widen|]. apply gplus_renorm, gplus_mul; apply gplus_renorm; auto. apply gplus_norm. lia.
Qed.

Lemma S_add x y x' y' : S_ x y -> S_ x' y' -> S_ (dadd x x') (dadd y y').
Proof. intros [<- ?] [<- ?]. split; auto. now apply valid_add. Qed.
Lemma S_sum S : fixed_order S -> forall l l', Forall2 S_ l l' -> S_ (s_sum S l) (s_sum S l').
Proof. intros HS l l' H. exact (par_s_sum S_ dadd dprods S l l' HS S_0 S_add H). Qed.
Lemma P_sum S : fixed_order S -> forall l l', Forall2 P_ l l' -> P_ (s_sum S l) (s_sum S l').
Proof. intros HS l l' H. exact (par_s_sum P_ dadd dprods S l l' HS P_0 P_add H). Qed.
Lemma U_sum S : fixed_order S -> forall l l', Forall2 U_ l l' -> U_ (s_sum S l) (s_sum S l').
Proof. intros HS l l' H. exact (par_s_sum U_ dadd dprods S l l' HS U_0 U_add H). Qed.
Lemma U_self S : fixed_order S -> forall l l', Forall2 P_ l l' -> U_ (s_dot S l l) (s_dot S l' l').
Proof. intros HS l l' H. exact (par_s_dot U_ dadd dprods S l l' l l' HS U_0 U_add (U_prods l l' H)). Qed.
Lemma Q_dot S : fixed_order S -> forall l l' k k', Forall2 P_ l l' -> Forall2 P_ k k' -> Q_ (s_dot S l k) (s_dot S l' k').
Proof. intros HS l l' k k' H H'. exact (par_s_dot Q_ dadd dprods S l l' k k' HS Q_0 Q_add (Q_prods l l' k k' H H')). Qed.
Lemma P_sum32 S : fixed_order32 S -> forall l l', Forall2 P_ l l' -> P_ (s_sum S l) (s_sum S l').
Proof. intros HS l l' H. exact (par_s_sum P_ add32 prods32 S l l' HS P_0 P_add32 H). Qed.
Lemma U_self32 S : fixed_order32 S -> forall l l', Forall2 P_ l l' -> U_ (s_dot S l l) (s_dot S l' l').
Proof. intros HS l l' H. exact (par_s_dot U_ add32 prods32 S l l' l l' HS U_0 U_add32 (U_prods32 l l' H)). Qed.

Lemma dsqrt_equiv x (Hx : valid x) : dsqrt x = B2SF (Bsqrt mode_NE (B x Hx)).
Proof.
  destruct x as [s|s| |s p e]; try reflexivity; try (now destruct s). destruct s; [reflexivity|].
  cbn -[binary_round_aux SpecFloat.binary_round_aux SFsqrt_core_binary]. rewrite B2SF_SF2B. destruct (SFsqrt_core_binary 53 1024 (Z.pos p) e) as [[mz ez] lz]. apply round_aux_equiv.
Qed.
Lemma valid_sqrt x : valid x -> valid (dsqrt x).
Proof. intros H. rewrite (dsqrt_equiv x H). apply valid_B2SF'. Qed.
Lemma same0_opp x y : same0 x y -> same0 (SFopp x) (SFopp y).
Proof. intros [->|[H1 H2]]; [now left|right; split; now apply isz_opp]. Qed.
Lemma Q_sub x y x' y' : Q_ x y -> Q_ x' y' -> Q_ (dsub x x') (dsub y y').
Proof. intros (? & ? & ?) (? & ? & ?). repeat split; try now apply valid_sub. unfold dsub. rewrite !SFsub_add. apply same0_SFadd; auto. now apply same0_opp. Qed.
Lemma Q_PPmul x y x' y' : P_ x y -> P_ x' y' -> Q_ (dmul x x') (dmul y y').
Proof. intros (? & ? & ?) (? & ? & ?). repeat split; try now apply valid_mul. now apply same0_SFmul. Qed.
Lemma SFadd_comm p m x y : SFadd p m x y = SFadd p m y x.
Proof.
  destruct x as [s|s| |s k e], y as [s'|s'| |s' k' e']; cbn; auto; try (now destruct s, s'). now rewrite Z.add_comm, (Z.min_comm e).
Qed.
Lemma T_addQ x y x' y' : Q_ x y -> T_ x' y' -> T_ (dadd x x') (dadd y y').
Proof. intros H H'. unfold dadd. rewrite !(SFadd_comm _ _ _ x'), !(SFadd_comm _ _ _ y'). now apply T_add. Qed.
Lemma same0_renorm p m x y : same0 x y -> same0 (renorm p m x) (renorm p m y).
Proof. intros [->|[H1 H2]]; [now left|]. destruct x, y; try contradiction. now right. Qed.
Lemma Q_add32 x y x' y' : Q_ x y -> Q_ x' y' -> Q_ (add32 x x') (add32 y y').
Proof. intros (? & ? & ?) (? & ? & ?). repeat split; try apply valid_widen. apply same0_renorm, same0_SFadd; now apply same0_renorm. Qed.
Lemma Q_prods32 a a' b b' : Forall2 P_ a a' -> Forall2 P_ b b' -> Forall2 Q_ (prods32 a b) (prods32 a' b').
Proof.
  intros H. revert b b'. induction H as [|x y a a' (Vx & Vy & Ox) H IH]; intros b b' H'; cbn; auto. destruct H' as [|x' y' b b' (Vx' & Vy' & Ox') H']; auto.
  constructor; auto. repeat split; try apply valid_widen. apply same0_renorm, same0_SFmul; now apply opps_renorm.
Qed.
Lemma Q_dot32 S : fixed_order32 S -> forall l l' k k', Forall2 P_ l l' -> Forall2 P_ k k' -> Q_ (s_dot S l k) (s_dot S l' k').
Proof. intros HS l l' k k' H H'. exact (par_s_dot Q_ add32 prods32 S l l' k k' HS Q_0 Q_add32 (Q_prods32 l l' k k' H H')). Qed.
Lemma P_prods a a' b b' : Forall2 P_ a a' -> Forall2 S_ b b' -> Forall2 P_ (dprods a b) (dprods a' b').
Proof.
  intros H. revert b b'. induction H as [|x y a a' (Vx & Vy & Ox) H IH]; intros b b' H'; cbn; auto. destruct H' as [|x' y' b b' [<- Vx'] H']; auto.
  constructor; auto. repeat split; try now apply valid_mul. now apply opps_SFmul_l.
Qed.
Lemma P_dot S : fixed_order S -> forall l l' k k', Forall2 P_ l l' -> Forall2 S_ k k' -> P_ (s_dot S l k) (s_dot S l' k').
Proof. intros HS l l' k k' H H'. exact (par_s_dot P_ dadd dprods S l l' k k' HS P_0 P_add (P_prods l l' k k' H H')). Qed.

(** exp returns a binary64 number *)
Definition exp_valid (L : Libm) : Prop := forall x, valid x -> valid (l_exp L x).
(** so do **, det and inv; exp does not distinguish the two zeros and a power of
    ten is not negative *)
Definition libm_valid (L : Libm) : Prop := exp_valid L /\ l_exp L (S754_zero true) = l_exp L (S754_zero false) /\
  (forall x y, valid x -> valid y -> valid (l_pow L x y)) /\ (forall y, nan_or_plus (l_pow L (d_of_Z 10) y)) /\
  (forall m, Forall (Forall valid) m -> valid (l_det L m)) /\
  (forall m w, Forall (Forall valid) m -> l_inv L m = Some w -> Forall (Forall valid) w).
Lemma T_rows (m m' : list (list f64)) : Forall2 (Forall2 T_) m m' -> m = m' /\ Forall (Forall valid) m.
Proof.
  assert (G : forall r r' : list f64, Forall2 T_ r r' -> r = r' /\ Forall valid r) by (induction 1 as [|x y r r' (<- & V & _) _ [<- IH]]; auto).
  induction 1 as [|r r' m m' H _ [<- IH]]; auto. destruct (G r r' H) as [<- ?]. auto.
Qed.
Lemma S_rows (m : list (list f64)) : Forall (Forall valid) m -> Forall2 (Forall2 S_) m m.
Proof. induction 1 as [|r m H _ IH]; constructor; auto. induction H; constructor; auto. Qed.
Lemma valid_pi : valid (S754_finite false 7074237752028440 (-51)). Proof. reflexivity. Qed.
Section Laws.
  Context (L : Libm) (S T : Sums) (c : kind) (HS : fixed_order S) (HE : c = kPS -> exp_valid L) (HR : c = krCIP -> libm_valid L).
  Ltac eqv := intros; repeat match goal with H : _ /\ _ |- _ => destruct H end; subst; repeat split; auto using valid_add, valid_sub, valid_mul, valid_div, valid_min, valid_max, valid_Z, valid_opp.
  Ltac common :=
    first [exact P_0|exact U_0|exact P_add|exact P_sub|exact P_mul|exact P_mul1|exact P_div|exact U_sq|exact U_add|exact U_mul|exact Q_mul|exact T_add|exact US_sub
      |exact (S_sum S HS)|exact (P_sum S HS)|exact (U_sum S HS)|exact (U_self S HS)|exact (Q_dot S HS)].
  Lemma not_minus x : nan_or_plus x -> x <> S754_zero true. Proof. destruct x as [[]| | |]; cbn; congruence. Qed.
  Ltac gauss sd :=
    let H := fresh in intros H; destruct (HR H) as (V1 & V2 & V3 & V4 & V5 & V6);
    constructor; cbn -[dadd dsub dmul ddiv dmin dmax dsqrt d_of_Z];
    [ let b := fresh in let d := fresh in intros b d; assert (V : valid (if b then d_of_Z 1 else d_of_Z 0) /\ nan_or_plus (if b then d_of_Z 1 else d_of_Z 0)) by (destruct b; split; reflexivity);
      repeat split; [apply valid_mul; [apply V|apply V3; [apply valid_Z|apply valid_div; [apply valid_opp|]; apply valid_Z]]|apply not_minus, gplus_mul; [apply V|apply V4]]
    | intros d; split; auto; apply valid_div; [apply valid_Z|apply valid_sqrt, V3; [apply valid_mul; [apply valid_Z|apply valid_pi]|apply valid_Z]]
    | exact Q_PPmul | exact Q_add | exact Q_sub | exact T_addQ | exact sd
    | intros m m' Hm; apply T_rows in Hm as [<- Hm]; split; auto
    | intros x y [<- Hx]; split; auto; now apply valid_sqrt
    | intros m m' Hm; apply T_rows in Hm as [<- Hm]; destruct (l_inv L m) as [w|] eqn:Ew; auto; now apply S_rows, (V6 m)
    | exact (P_dot S HS)
    | intros x y (Vx & Vy & [<-|[Zx Zy]]); [split; auto|]; destruct x as [a| | |], y as [b| | |]; try contradiction; split; auto; destruct a, b; congruence ].
  Lemma law64 : Lawful (mirrored64 L S) c.
  Proof.
    constructor; cbn -[dadd dsub dmul ddiv dmin dmax dsqrt d_of_Z]; try common; try (eqv; fail); try (intros _; left; eqv; fail).
    - intros x y (<- & Hv & Hp). repeat split; auto. destruct x as [[]| | |]; cbn in *; congruence.
    - intros x y [<- Hv]. repeat split; auto. now left.
    - intros Hk x y [<- H]. split; auto. now apply HE.
    - gauss (Q_dot S HS).
  Qed.
  Context (HT : fixed_order32 T).
  Lemma law32 : Lawful (mirrored32 L S T) c.
  Proof.
    constructor; cbn -[dadd dsub dmul ddiv dmin dmax dsqrt d_of_Z]; try common; try (eqv; fail); try (intros _; left; eqv; fail).
    all: first [exact P_add32|exact P_mul32|exact P_div32|exact U_add32|exact U_mul32|idtac].
    - intros x y (<- & Hv & Hp). repeat split; auto. destruct x as [[]| | |]; cbn in *; congruence.
    - intros x y [<- Hv]. repeat split; auto. now left.
    - intros Hk x y [<- H]. split; auto. now apply HE.
    - exact (P_sum32 T HT).
    - exact (U_self32 T HT).
    - gauss (Q_dot32 T HT).
  Qed.
End Laws.
