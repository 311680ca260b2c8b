(** * C96: compat/v0.py under a change of the numbers, of their sign and of the platform *)
From Coq Require Import ZArith List Arith Bool SpecFloat Reals Lia.
From Verif Require Import Num NumPy Compat CompatL F64 F64o XR Bnd Rnd P_Sign Par Mir P_Shape.
From Verif Require Import ParK.
Import ListNotations.
Local Notation length := List.length.

(** ** Specification *)
(** the objects of the compat module; iPS with a numpy whose sum accepts a
    generator and with one that does not *)
Inductive which := wXB | wPS_old | wPS_new | wCH | wGD43 | wGD53 | wSIL | wDB.
Definition is_ps w := w = wPS_old \/ w = wPS_new.
Section Spec.
  Context {A : Arith} (H : nat -> list (F A)).
  (** one object, updates with the arrays of the caller: [(r, c)] is the sample in
      array [r] with label [c].  iGD.__init__ accepts 43 and 53. *)
  Definition gd0 (t : nat) : iGD (A := A) := match iGD_init t with Ok o => o | Err _ => mkiGD 0 (mkMat 0 []) [] f0 [] [] None [] end.
  Definition of_sample {S X} (u : list (F A) -> Z -> SM S X) (p : nat * Z) : SM S X := u (H (fst p)) (snd p).
  Definition returned (w : which) (h : list (nat * Z)) : list (E (F A)) :=
    match w with
    | wXB => chist_results (of_sample iXB_update) iXB_init h
    | wPS_old => chist_results (of_sample (iPS_update gen_sum_old)) iPS_init h
    | wPS_new => chist_results (of_sample (iPS_update gen_sum_new)) iPS_init h
    | wCH => chist_results (of_sample iCH_update) iCH_init h
    | wGD43 => chist_results (of_sample iGD_update) (gd0 43) h
    | wGD53 => chist_results (of_sample iGD_update) (gd0 53) h
    | wSIL => chist_results (fun p => iSIL_update (fst p) (snd p)) (iSIL_init H) h
    | wDB => chist_results (of_sample iDB_update) iDB_init h
    end.
  (** the sizes of the clusters afterwards *)
  Definition counted (w : which) (h : list (nat * Z)) : list nat :=
    match w with
    | wXB => xb_sizes (chist_after (of_sample iXB_update) iXB_init h)
    | wPS_old => ps_sizes (chist_after (of_sample (iPS_update gen_sum_old)) iPS_init h)
    | wPS_new => ps_sizes (chist_after (of_sample (iPS_update gen_sum_new)) iPS_init h)
    | wCH => ch_sizes (chist_after (of_sample iCH_update) iCH_init h)
    | wGD43 => gd_sizes (chist_after (of_sample iGD_update) (gd0 43) h)
    | wGD53 => gd_sizes (chist_after (of_sample iGD_update) (gd0 53) h)
    | wSIL => sl_sizes (chist_after (fun p => iSIL_update (fst p) (snd p)) (iSIL_init H) h)
    | wDB => db_sizes (chist_after (of_sample iDB_update) iDB_init h)
    end.
End Spec.
(** ** maps binary64 numbers to binary64 numbers, a number that is not negative to
    such a number, and the first and second power of a zero is a zero *)
Definition pow_ok (L : Libm) : Prop := (forall x y, valid x -> valid y -> valid (l_pow L x y)) /\
  (forall p x, p = 1 \/ p = 2 -> nan_or_plus x -> nan_or_plus (l_pow L x (d_of_Z (Z.of_nat p)))) /\
  (forall p x, p = 1 \/ p = 2 -> isz x -> isz (l_pow L x (d_of_Z (Z.of_nat p)))).

(** ** Proof *)
Section Run.
  Context {A B : Arith} (s : KSorts A B) (W : KLaw s) (H : nat -> list (F A)) (H' : nat -> list (F B)) (HH : forall r, Forall2 (kP s) (H r) (H' r)).
  Lemma par_pysum l l' : Forall2 (kU s) l l' -> kU s (py_sum l) (py_sum l').
  Proof. intros Hl. unfold py_sum. apply par_fold; [apply (k_Uadd s W)|exact Hl|apply (k_U0 s W)]. Qed.
  Lemma hist_pair {S S' X Y} (RS : S -> S' -> Prop) (RX : X -> Y -> Prop) (u : nat * Z -> SM S X) (u' : nat * Z -> SM S' Y) o o' h :
    (forall r c, rSM RS RX (u (r, c)) (u' (r, c))) -> RS o o' ->
    RS (chist_after u o h) (chist_after u' o' h) /\ Forall2 (rE RX) (chist_results u o h) (chist_results u' o' h).
  Proof. intros HU Ho. apply (rs_hist RS eq RX); auto using eq_F2. intros [r c] ? <-. apply HU. Qed.
  Theorem par_compat w h : (is_ps w -> p_exp s) -> Forall2 (rE (kS s)) (returned H w h) (returned H' w h) /\ counted H w h = counted H' w h.
  Proof.
    intros HE. pose proof (k_S0 s W) as S0. pose proof (k_inf s W) as SI. destruct w; cbn [returned counted].
    - destruct (hist_pair (RXB s) (kS s) (of_sample H iXB_update) (of_sample H' iXB_update) iXB_init iXB_init h) as [G1 G2];
        [intros; now apply par_iXB|constructor; cbn; auto|]. split; [exact G2|apply (r_xb8 _ _ _ G1)].
    - destruct (hist_pair (RPS s) (kS s) (of_sample H (iPS_update gen_sum_old)) (of_sample H' (iPS_update gen_sum_old)) iPS_init iPS_init h) as [G1 G2];
        [intros; apply par_iPS; auto; [apply HE; left; reflexivity|intros l l' Hl; cbn; now apply (k_US s W), par_pysum]|constructor; cbn; auto|]. split; [exact G2|apply (r_ps6 _ _ _ G1)].
    - destruct (hist_pair (RPS s) (kS s) (of_sample H (iPS_update gen_sum_new)) (of_sample H' (iPS_update gen_sum_new)) iPS_init iPS_init h) as [G1 G2];
        [intros; apply par_iPS; auto; [apply HE; right; reflexivity|intros l l' Hl; reflexivity]|constructor; cbn; auto|]. split; [exact G2|apply (r_ps6 _ _ _ G1)].
    - destruct (hist_pair (RCH s) (kS s) (of_sample H iCH_update) (of_sample H' iCH_update) iCH_init iCH_init h) as [G1 G2];
        [intros; now apply par_iCH|constructor; cbn; auto|]. split; [exact G2|apply (r_ch10 _ _ _ G1)].
    - destruct (hist_pair (RGD s) (kS s) (of_sample H iGD_update) (of_sample H' iGD_update) (gd0 43) (gd0 43) h) as [G1 G2];
        [intros; now apply par_iGD|constructor; cbn; auto; split; cbn; auto|]. split; [exact G2|apply (r_gd6 _ _ _ G1)].
    - destruct (hist_pair (RGD s) (kS s) (of_sample H iGD_update) (of_sample H' iGD_update) (gd0 53) (gd0 53) h) as [G1 G2];
        [intros; now apply par_iGD|constructor; cbn; auto; split; cbn; auto|]. split; [exact G2|apply (r_gd6 _ _ _ G1)].
    - destruct (hist_pair (RSL s) (kS s) (fun p => iSIL_update (fst p) (snd p)) (fun p => iSIL_update (fst p) (snd p)) (iSIL_init H) (iSIL_init H') h) as [G1 G2];
        [intros; now apply par_iSIL|constructor; cbn; auto; split; cbn; auto|]. split; [exact G2|apply (r_sl6 _ _ _ G1)].
    - destruct (hist_pair (RDB s) (kS s) (of_sample H iDB_update) (of_sample H' iDB_update) iDB_init iDB_init h) as [G1 G2];
        [intros; now apply par_iDB|constructor; cbn; auto; split; cbn; auto|]. split; [exact G2|apply (r_db7 _ _ _ G1)].
  Qed.
End Run.
Definition any_sorts (A B : Arith) : KSorts A B := let t := fun (_ : F A) (_ : F B) => True in mkKSorts A B t t t t t.
Lemma any_law A B : KLaw (any_sorts A B).
Proof. constructor; cbn; auto. Qed.
Definition mirror_sorts (L : Libm) (S : Sums) : KSorts (F64o L S) (F64o L S) := mkKSorts (F64o L S) (F64o L S) P_ Q_ U_ T_ S_.
Section Mirror.
  Context (L : Libm) (S : Sums) (HS : fixed_order S) (HL : pow_ok L).
  Ltac eqv := intros; repeat match goal with H : _ /\ _ |- _ => destruct H end; subst; repeat split; auto using valid_add, valid_sub, valid_mul, valid_div, valid_min, valid_max, valid_Z, valid_opp, valid_sqrt.
  Lemma sqrt_plus x : nan_or_plus x -> nan_or_plus (dsqrt x).
  Proof. destruct x as [[]|[]| |[] m e]; cbn; auto; try discriminate. intros _. unfold dsqrt, SFsqrt. destruct (SFsqrt_core_binary _ _ _ _) as [[? ?] ?]. apply gplus_aux. Qed.
  Lemma law_mirror : KLaw (mirror_sorts L S).
  Proof.
    destruct HL as (V1 & V2 & V3).
    constructor; cbn -[dadd dsub dmul ddiv dmin dmax dsqrt d_of_Z];
      try first [exact P_0|exact U_0|exact P_add|exact P_sub|exact P_mul|exact P_div|exact U_add|exact U_mul|exact Q_mul|exact T_add|exact US_sub|exact S_add
        |exact (S_sum S HS)|exact (P_sum S HS)|exact (U_sum S HS)|exact (U_self S HS)|exact (Q_dot S HS)]; try (eqv; fail).
    - intros x y (<- & Hv & Hp). repeat split; auto. destruct x as [[]| | |]; cbn in *; congruence.
    - intros x y [<- Hv]. repeat split; auto. now left.
    - intros x y (Hx & Hy & [->|[Zx Zy]]).
      + destruct x; repeat split; auto.
      + destruct x, y; try contradiction. repeat split.
    - intros x y (<- & Hv & Hp). repeat split; [now apply valid_sqrt|now apply sqrt_plus].
    - intros p x y Hp (Hx & Hy & H). repeat split; try (apply V1; [apply valid_sqrt, valid_mul|]; auto using valid_Z).
      destruct H as [<-|[Zx Zy]]; [now left|]. right. split; apply V3; auto; destruct x as [[]| | |], y as [[]| | |]; try contradiction; exact I.
    - intros x y x' y' [<- Hx] [<- Hy]. split; [reflexivity|]. unfold py_min2. destruct (flt _ _); auto.
    - intros x y x' y' [<- Hx] [<- Hy]. split; [reflexivity|]. unfold py_max2. destruct (flt _ _); auto.
  Qed.
End Mirror.
Definition eq_sorts (L L' : Libm) (S : Sums) : KSorts (F64o L S) (F64o L' S) := let e := fun x y : f64 => x = y in mkKSorts (F64o L S) (F64o L' S) e e e e e.
Lemma F2_eq {X} (l l' : list X) : Forall2 eq l l' -> l = l'.
Proof. induction 1; congruence. Qed.
Lemma law_eq L L' S : (forall x p, p = 1 \/ p = 2 -> l_pow L x (d_of_Z (Z.of_nat p)) = l_pow L' x (d_of_Z (Z.of_nat p))) -> KLaw (eq_sorts L L' S).
Proof.
  intros HP. constructor; cbn -[dadd dsub dmul ddiv dmin dmax dsqrt d_of_Z]; intros; subst; auto;
    try (repeat match goal with H : Forall2 _ _ _ |- _ => apply F2_eq in H; subst end; reflexivity); try (apply HP; auto; fail).
Qed.

(** ** The property *)
(** Any two arithmetics, any arrays of the same lengths, any sequence of updates:
    the same updates raise the same exceptions and the cluster sizes agree. *)
Theorem C96_shapes : forall (A B : Arith) w (H : nat -> list (F A)) (H' : nat -> list (F B)) h, (forall r, length (H r) = length (H' r)) ->
  map raised (returned H w h) = map raised (returned H' w h) /\ counted H w h = counted H' w h.
Proof.
  intros A B w H H' h HH.
  destruct (par_compat (any_sorts A B) (any_law A B) H H' (fun r => all_related _ _ (HH r)) w h (fun _ _ _ _ => I)) as [G E]. split; auto.
  induction G as [|x y l l' Hx _ IH]; cbn; f_equal; auto. destruct x, y; cbn in *; try contradiction; congruence.
Qed.
Print Assumptions C96_shapes.
(** Changing the sign of all samples changes no bit of any value returned and no
    exception. *)
Theorem C96_mirror : forall L S w (H : nat -> list f64) h, fixed_order S -> pow_ok L -> (is_ps w -> exp_valid L) -> (forall r, Forall valid (H r)) ->
  returned (A := F64o L S) (fun r => map SFopp (H r)) w h = returned (A := F64o L S) H w h.
Proof.
  intros L S w H h HS HL HE HV.
  assert (HH : forall r, Forall2 (kP (mirror_sorts L S)) (H r) (map SFopp (H r))).
  { intros r. induction (HV r) as [|x l Hx _ IH]; cbn [map]; constructor; auto. repeat split; auto; [now apply valid_opp|apply opps_opp]. }
  destruct (par_compat (mirror_sorts L S) (law_mirror L S HS HL) H (fun r => map SFopp (H r)) HH w h) as [G _].
  { intros Hw x y [<- Hx]. split; [reflexivity|]. now apply HE. }
  revert G. generalize (returned (A := F64o L S) H w h) (returned (A := F64o L S) (fun r => map SFopp (H r)) w h).
  intros a b G. induction G as [|x y a b Hx _ IH]; auto. f_equal; auto. destruct x, y; cbn in *; try contradiction; try congruence.
  f_equal. symmetry. apply Hx.
Qed.
Print Assumptions C96_mirror.
(** Of the platform's functions only the first and second power matter, and exp
    for iPS: matrix routines and other powers do not. *)
Theorem C96_portable : forall L L' S w (H : nat -> list f64) h,
  (forall x p, p = 1 \/ p = 2 -> l_pow L x (d_of_Z (Z.of_nat p)) = l_pow L' x (d_of_Z (Z.of_nat p))) -> (is_ps w -> forall x, l_exp L x = l_exp L' x) ->
  returned (A := F64o L S) H w h = returned (A := F64o L' S) H w h /\ counted (A := F64o L S) H w h = counted (A := F64o L' S) H w h.
Proof.
  intros L L' S w H h HP HE.
  destruct (par_compat (eq_sorts L L' S) (law_eq L L' S HP) H H (fun r => eq_F2 _) w h) as [G E].
  { intros Hw x y Hx. cbn in Hx. subst y. exact (HE Hw x). }
  split; auto. revert G. generalize (returned (A := F64o L S) H w h) (returned (A := F64o L' S) H w h).
  intros a b G. induction G as [|x y a b Hx _ IH]; auto. f_equal; auto. destruct x, y; cbn in *; try contradiction; congruence.
Qed.
Print Assumptions C96_portable.

(** ** Examples *)
(** array 4 has length 3, the others length 2 *)
Definition lens (r : nat) : nat := match r with 4 => 3 | _ => 2 end.
Definition some {A : Arith} (v : nat -> nat -> F A) (r : nat) : list (F A) := map (v r) (seq 0 (lens r)).
Definition calls : list (nat * Z) := [(0, 0%Z); (1, 1%Z); (2, 0%Z); (3, 7%Z); (4, 1%Z); (5, 1%Z); (6, (-1)%Z)].
(** what the seven updates raise and the sizes they leave: label 7 and
    the sample of length 3 are mistakes; iPS, iCH, iGD, iSIL
    and iDB raise the other exceptions by themselves *)
Definition expected (w : which) : list (option exn) * list nat :=
  let V := Some ValueError in let I := Some IndexError in let T := Some TypeError in let U := Some AttributeError in
  match w with
  | wXB => ([None; None; None; V; V; None; None], [2; 3])
  | wPS_old => ([None; None; None; I; V; None; None], [2; 2; 2])
  | wPS_new => ([None; T; T; I; V; T; T], [2; 2; 2])
  | wCH => ([None; I; None; V; V; None; None], [1; 3])
  | wGD43 | wGD53 => ([None; None; U; V; V; U; U], [2; 3])
  | wSIL => ([V; None; None; V; V; None; None], [3; 4])
  | wDB => ([None; None; I; V; I; I; I], [1; 1])
  end.
(** any numbers [v r i] of any arithmetic *)
Theorem C96_example_shapes : forall (A : Arith) (v : nat -> nat -> F A) w,
  map raised (returned (some v) w calls) = fst (expected w) /\ counted (some v) w calls = snd (expected w).
Proof.
  intros A v w. assert (HH : forall r, length (some v r) = length (some (A := blank) (fun _ _ => tt) r)) by (intros r; unfold some; now rewrite !map_length).
  destruct (C96_shapes A blank w _ _ calls HH) as [-> ->]. destruct w; split; vm_compute; reflexivity.
Qed.
Print Assumptions C96_example_shapes.
(** a platform whose square is the rounded product *)
Definition plain_pow (e : f64 -> f64) : Libm :=
  mkLibm e (fun x y => if SFeqb y (d_of_Z 2) then dmul x x else x) (fun _ => S754_nan) (fun _ => None).
Lemma plain_pow_ok e : pow_ok (plain_pow e).
Proof.
  split; [|split]; cbn -[dmul d_of_Z].
  - intros x y Hx _. destruct (SFeqb _ _); auto. now apply valid_mul.
  - intros p x [->| ->] H; [exact H|]. apply gplus_mul; auto.
  - intros p x [->| ->] H; [exact H|]. now destruct x as [[]| | |].
Qed.
(** the samples (1, -2), (-0, 3), (5, 1/2), ... and their opposites *)
Definition pts (r : nat) : list f64 :=
  match r with
  | 0 => [d_of_Z 1; d_of_Z (-2)] | 1 => [S754_zero true; d_of_Z 3] | 2 => [d_of_Z 5; ddiv (d_of_Z 1) (d_of_Z 3)]
  | 3 => [d_of_Z (-7); d_of_Z 2] | _ => [d_of_Z 4; S754_infinity true]
  end.
Definition hist : list (nat * Z) := [(0, 0%Z); (1, 1%Z); (2, 0%Z); (3, 1%Z); (2, 2%Z); (4, 0%Z)].
Theorem C96_example_mirror :
  let A := F64o (plain_pow (fun x => x)) left_right in
  (forall w, returned (A := A) (fun r => map SFopp (pts r)) w hist = returned (A := A) pts w hist) /\
  map (fun w => nth 3 (returned (A := A) pts w hist) (Err TypeError)) [wXB; wPS_old; wCH; wSIL] =
  [Ok S754_nan; Ok (S754_zero false); Ok (S754_finite false 8171557840157821 (-55)); Ok (S754_finite true 6196006382425580 (-56))].
Proof.
  intros A. split.
  - intros w. apply C96_mirror; [apply left_right_fixed|apply plain_pow_ok|intros _ x Hx; exact Hx|].
    intros r. destruct r as [|[|[|[|r]]]]; repeat (apply Forall_cons; [vm_compute; reflexivity|]); apply Forall_nil.
  - vm_compute. reflexivity.
Qed.
Print Assumptions C96_example_mirror.
