(** * The careful arithmetic *)
From Coq Require Import ZArith Reals List Arith Bool Lia SpecFloat.
From Flocq Require Import BinarySingleNaN.
From Verif Require Import Num NumPy Base GetCvi F64 F64o Rnd Bnd.
From Verif Require Import Par ParL ParC Mir.
From Verif Require Import Scal.
Import ListNotations.

(** sums taken in an order given for each number of terms *)
Definition order_sums (T T' : nat -> order) : Sums :=
  mkSums (fun l => in_order dadd (T (length l)) l) (fun a b => in_order dadd (T' (length (dprods a b))) (dprods a b)).
Section Careful.
  Context (m : Z) (L : Libm) (T T' : nat -> order).
  (** [None]: too close to the end of the range *)
  Definition gadd (x y : option f64) : option f64 :=
    match x, y with
    | Some a, Some b => if is_finite_SF a && is_finite_SF b && negb (below m (dadd a b)) then None else Some (dadd a b)
    | _, _ => None
    end.
  Definition gsub (x y : option f64) : option f64 :=
    match x, y with
    | Some a, Some b => if is_finite_SF a && is_finite_SF b && negb (below m (dsub a b)) then None else Some (dsub a b)
    | _, _ => None
    end.
  Definition gmul (x y : option f64) : option f64 :=
    match x, y with
    | Some a, Some b => if nz a && nz b && negb (inside m (dmul a b)) then None else Some (dmul a b)
    | _, _ => None
    end.
  Definition gdiv (x y : option f64) : option f64 :=
    match x, y with
    | Some a, Some b => if nz a && nz b && negb (inside m (ddiv a b)) then None else Some (ddiv a b)
    | _, _ => None
    end.
  Definition both_known (f : f64 -> f64 -> f64) (x y : option f64) : option f64 :=
    match x, y with Some a, Some b => Some (f a b) | _, _ => None end.
  Fixpoint gtree (t : order) (l : list (option f64)) : option f64 :=
    match t with term i => nth i l (Some (S754_zero false)) | both a b => gadd (gtree a l) (gtree b l) end.
  Fixpoint gprods (a b : list (option f64)) : list (option f64) :=
    match a, b with x :: a', y :: b' => gmul x y :: gprods a' b' | _, _ => [] end.
  Definition unsure (x : option f64) : bool := match x with None => true | Some _ => false end.
  Definition gsum (l : list (option f64)) : option f64 := if existsb unsure l then None else gtree (T (length l)) l.
  Definition gdot (a b : list (option f64)) : option f64 := gtree (T' (length (gprods a b))) (gprods a b).
  Definition Careful : Arith := {|
    F := option f64; f_of_Z := fun z => Some (d_of_Z z);
    fadd := gadd; fsub := gsub; fmul := gmul; fdiv := gdiv; fneg := option_map SFopp; fabs := option_map SFabs;
    fsqrt := option_map dsqrt; fexp := option_map (l_exp L); fpow := fun _ _ => None;
    fpi := None; finf := Some (S754_infinity false);
    fminimum := both_known dmin; fmaximum := both_known dmax; flt := fun _ _ => false; ftrue := fun x => match x with Some a => dtrue a | None => true end;
    np_sum := gsum; np_dot := gdot;
    np_det := fun _ => None; np_inv := fun _ => None;
    sadd := gadd; smul := gmul; sdiv := gdiv; ssum := gsum; sdot := gdot |}.

  (** related: nothing is said about [None] *)
  Definition orel (k : Z) (x : option f64) (y : f64) : Prop := match x with Some a => rel k a y | None => True end.
  Context (k : Z) (Hm : (2 * Z.abs k <= m)%Z).
  Lemma orel_add j x y x' y' : (Z.abs j <= m)%Z -> orel j x x' -> orel j y y' -> orel j (gadd x y) (dadd x' y').
  Proof.
    intros Hj Hx Hy. destruct x as [a|], y as [b|]; cbn; auto. destruct (_ && _ && _) eqn:E; cbn; auto. apply (rel_add m); auto.
    intros Fa Fb. unfold fin in *. rewrite Fa, Fb in E. cbn in E. now apply negb_false_iff in E.
  Qed.
  Lemma orel_sub j x y x' y' : (Z.abs j <= m)%Z -> orel j x x' -> orel j y y' -> orel j (gsub x y) (dsub x' y').
  Proof.
    intros Hj Hx Hy. destruct x as [a|], y as [b|]; cbn; auto. destruct (_ && _ && _) eqn:E; cbn; auto. apply (rel_sub m); auto.
    intros Fa Fb. unfold fin in *. rewrite Fa, Fb in E. cbn in E. now apply negb_false_iff in E.
  Qed.
  Lemma orel_mul a b c x y x' y' : c = (a + b)%Z -> (Z.abs c <= m)%Z -> orel a x x' -> orel b y y' -> orel c (gmul x y) (dmul x' y').
  Proof.
    intros -> Hj Hx Hy. destruct x as [p|], y as [q|]; cbn; auto. destruct (_ && _ && _) eqn:E; cbn; auto. apply (rel_mul m); auto.
    intros N. rewrite N in E. cbn in E. now apply negb_false_iff in E.
  Qed.
  Lemma orel_div a b c x y x' y' : c = (a - b)%Z -> (Z.abs c <= m)%Z -> orel a x x' -> orel b y y' -> orel c (gdiv x y) (ddiv x' y').
  Proof.
    intros -> Hj Hx Hy. destruct x as [p|], y as [q|]; cbn; auto. destruct (_ && _ && _) eqn:E; cbn; auto. apply (rel_div m); auto.
    intros N. rewrite N in E. cbn in E. now apply negb_false_iff in E.
  Qed.
  Lemma orel_min j x y x' y' : orel j x x' -> orel j y y' -> orel j (both_known dmin x y) (dmin x' y').
  Proof. intros Hx Hy. destruct x, y; cbn; auto. now apply rel_min. Qed.
  Lemma orel_max j x y x' y' : orel j x x' -> orel j y y' -> orel j (both_known dmax x y) (dmax x' y').
  Proof. intros Hx Hy. destruct x, y; cbn; auto. now apply rel_max. Qed.
  Lemma orel_opp j x x' : orel j x x' -> orel j (option_map SFopp x) (SFopp x').
  Proof. intros Hx. destruct x; cbn; auto. now apply rel_opp. Qed.
  Lemma orel_sqrt j x x' : orel (2 * j) x x' -> orel j (option_map dsqrt x) (dsqrt x').
  Proof. intros Hx. destruct x; cbn -[dsqrt]; auto. now apply rel_sqrt. Qed.
  Lemma orel_Z z : orel 0 (Some (d_of_Z z)) (d_of_Z z).
  Proof. apply rel_refl, valid_Z. Qed.
  Lemma rel_zero j s : rel j (S754_zero s) (S754_zero s). Proof. repeat split. Qed.
  Lemma orel_tree j t l l' : (Z.abs j <= m)%Z -> Forall2 (orel j) l l' -> orel j (gtree t l) (in_order dadd t l').
  Proof.
    intros Hj H. induction t as [i|a IHa b IHb]; cbn [gtree in_order]; [|now apply orel_add].
    revert i. induction H as [|x y l l' Hx _ IH]; intros [|i]; cbn; auto using rel_zero.
  Qed.
  Lemma Forall2_len {X Y} (R : X -> Y -> Prop) l l' : Forall2 R l l' -> length l = length l'.
  Proof. induction 1; cbn; congruence. Qed.
  Lemma orel_sum j l l' : (Z.abs j <= m)%Z -> Forall2 (orel j) l l' -> orel j (gsum l) (in_order dadd (T (length l')) l').
  Proof. intros Hj H. unfold gsum. destruct (existsb _ _); [exact I|]. rewrite (Forall2_len _ _ _ H). now apply orel_tree. Qed.
  Lemma orel_prods a b c l l' k0 k' : c = (a + b)%Z -> (Z.abs c <= m)%Z -> Forall2 (orel a) l l' -> Forall2 (orel b) k0 k' -> Forall2 (orel c) (gprods l k0) (dprods l' k').
  Proof. intros E Hc H. revert k0 k'. induction H; intros k0 k' K; cbn [gprods dprods]; [constructor|]. destruct K; constructor; auto. now apply (orel_mul a b c). Qed.
  Lemma orel_dot a b c l l' k0 k' : c = (a + b)%Z -> (Z.abs c <= m)%Z -> Forall2 (orel a) l l' -> Forall2 (orel b) k0 k' ->
    orel c (gdot l k0) (in_order dadd (T' (length (dprods l' k'))) (dprods l' k')).
  Proof. intros E Hc H K. unfold gdot. assert (G := orel_prods a b c l l' k0 k' E Hc H K). rewrite (Forall2_len _ _ _ G). now apply orel_tree. Qed.

  Definition scaled : Sorts Careful (F64o L (order_sums T T')) :=
    mkSorts Careful (F64o L (order_sums T T')) (orel 0) (orel k) (orel (2 * k)) (orel (2 * k)) (orel (2 * k)) (orel (2 * k)) (orel k) (orel (- k)).
  Lemma rel_true j x y : rel j x y -> dtrue x = dtrue y.
  Proof. intros (_ & _ & H). destruct x as [a|a| |a p e], y as [b|b| |b q f]; cbn in *; try discriminate; try contradiction; auto; intuition congruence. Qed.
  Lemma unsure_poison : poison scaled unsure.
  Proof.
    unfold poison. cbn -[gsum orel]. repeat split.
    - intros [a|] y H; [|discriminate]. intros K. now apply (rel_true (2 * k)).
    - intros [a|]; [discriminate|reflexivity].
    - intros [a|] y H; [discriminate|exact I].
    - intros [a|] [b|] H; try discriminate; reflexivity.
    - intros [a|] [b|] H; try discriminate; reflexivity.
    - intros [a|] [b|] H; try discriminate; reflexivity.
    - intros l H. unfold gsum. now rewrite H.
  Qed.
  Lemma scaled_lawful c : c <> krCIP -> (c = kPS -> exp_valid L) -> Lawful scaled c.
  Proof.
    intros HC HE.
    constructor; cbn -[gadd gsub gmul gdiv dadd dsub dmul ddiv dmin dmax dsqrt d_of_Z gsum gdot both_known orel Z.mul Z.opp]; intros; try contradiction; auto using orel_Z, orel_min, orel_max, orel_opp, orel_sqrt; try (right; right; left; exists unsure; exact unsure_poison).
    all: try (apply rel_zero).
    all: try (apply orel_add; auto; lia).
    all: try (apply orel_sub; auto; lia).
    all: try (apply orel_sum; auto; lia).
    all: try (eapply orel_mul; eauto using orel_Z; lia).
    all: try (eapply orel_div; eauto using orel_Z; lia).
    all: try (eapply orel_dot; eauto; lia).
    - destruct x as [a|]; cbn; auto. cbn in H0. apply rel_0 in H0 as E. subst y. apply rel_refl. apply HE; auto. apply H0.
  Qed.
End Careful.
