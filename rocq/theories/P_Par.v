(** * C89: which bits of the data and of the platform matter

    Changing the sign of every feature changes no bit of any result, and the
    results of seven classes do not depend on the functions that the platform is
    free to compute as it likes; PS only depends on its exp. *)
From Coq Require Import ZArith List Bool SpecFloat.
From Verif Require Import Num NumPy Base GetCvi F64 F64o F32d Rnd Bnd.
From Verif Require Import Par ParL ParC Mir.
Import ListNotations.

(** ** Specification *)
(** the array with every entry negated ([-data] in numpy) *)
Definition neg_data {A : Arith} (opp : F A -> F A) (d : data_arg A) : data_arg A :=
  match d with
  | Vec x => Vec (map opp x)
  | Mat m => Mat (mkMat (mcols m) (map (map opp) (mrows m)))
  | Nd k => Nd k
  end.
Definition neg_call {A : Arith} (opp : F A -> F A) (p : call A) : call A := (neg_data opp (fst p), snd p).
(** the entries of the arrays are binary64 numbers *)
Definition entries {A : Arith} (ok : F A -> Prop) (d : data_arg A) : Prop :=
  match d with Vec x => Forall ok x | Mat m => Forall (Forall ok) (mrows m) | Nd _ => True end.

(** the same arrays on another platform; [f] says which number is which *)
Definition there_data {A B : Arith} (f : F A -> F B) (d : data_arg A) : data_arg B :=
  match d with
  | Vec x => Vec (map f x)
  | Mat m => Mat (mkMat (mcols m) (map (map f) (mrows m)))
  | Nd k => Nd k
  end.
Definition there {A B : Arith} (f : F A -> F B) (p : call A) : call B := (there_data f (fst p), snd p).
Definition same (x : f64) : f64 := x.

(** ** Proof *)
Lemma mirror_gen (A : Arith) (w : Sorts A A) (opp : F A -> F A) (ok : F A -> Prop) c (h : list (call A)) :
  Lawful w c -> (forall x, ok x -> sP w x (opp x)) -> (forall x y, sV w c x y -> y = x) ->
  Forall (fun p => entries ok (fst p)) h -> results c new_obj (map (neg_call opp) h) = results c new_obj h.
Proof.
  intros W Ho HV Hh.
  assert (HR : Forall2 (rcall w) h (map (neg_call opp) h)).
  { induction Hh as [|[d l] h Hd _ IH]; cbn [map]; constructor; auto. split; auto. cbn [fst neg_call] in *.
    assert (G : forall x : list (F A), Forall ok x -> Forall2 (sP w) x (map opp x)) by (induction 1; cbn; constructor; auto).
    destruct d as [x|m|k]; cbn in *; auto. split; auto. cbn. induction Hd; cbn; constructor; auto. }
  destruct (par_run w c W _ _ HR new_obj new_obj (par_new _ _ W)) as [_ H].
  revert H. generalize (results c new_obj h) (results c new_obj (map (neg_call opp) h)).
  intros a b H. induction H as [|x y a b Hx _ IH]; auto. f_equal; auto. destruct x, y; cbn in *; try contradiction; try congruence.
  f_equal. now apply HV.
Qed.
Definition same_sorts (A : Arith) (B : Arith) (e : F A -> F B -> Prop) : Sorts A B := mkSorts A B e e e e e e e e.

Lemma portable_gen (A B : Arith) (f : F A -> F B) c (h : list (call A)) (w := same_sorts A B (fun x y => y = f x)) :
  Lawful w c ->
  results c new_obj (map (there f) h) = map (fun r => match r with Ok v => Ok (f v) | Err e => Err e end) (results c new_obj h).
Proof.
  intros W.
  assert (HR : Forall2 (rcall w) h (map (there f) h)).
  { assert (G : forall x : list (F A), Forall2 (sP w) x (map f x)) by (induction x; cbn; constructor; auto; reflexivity).
    induction h as [|[d l] h IH]; cbn [map]; constructor; auto. split; auto. destruct d as [x|m|k]; cbn; auto. split; auto. cbn. induction (mrows m); cbn; constructor; auto. }
  destruct (par_run w c W _ _ HR new_obj new_obj (par_new _ _ W)) as [_ H].
  revert H. generalize (results c new_obj h) (results c new_obj (map (there f) h)).
  intros a b H. induction H as [|x y a b Hx _ IH]; cbn; auto. f_equal; auto. destruct x, y; cbn in *; try contradiction; try congruence.
  f_equal. destruct c; exact Hx.
Qed.
Lemma same_results (l : list (E f64)) : map (fun r => match r with Ok v => Ok (same v) | Err e => Err e end) l = l.
Proof. induction l as [|[v|e] l IH]; cbn; f_equal; auto. Qed.

(** ** The property *)
(** Everything the package can be asked to do with one object of any class: any
    sequence of calls with any arrays, labels and mistakes. *)
Theorem C89_mirror : forall L S c (h : list (call (F64o L S))),
  fixed_order S -> (c = kPS -> exp_valid L) -> (c = krCIP -> libm_valid L) -> Forall (fun p => entries (A := F64o L S) valid (fst p)) h ->
  results c new_obj (map (neg_call (A := F64o L S) SFopp) h) = results c new_obj h.
Proof.
  intros L S c h HS HE HL Hh. apply (mirror_gen (F64o L S) (mirrored64 L S) SFopp valid); auto.
  - now apply law64.
  - intros x Hx. repeat split; auto; [now apply valid_opp|apply opps_opp].
  - intros x y H. destruct c; cbn in H; try congruence; symmetry; apply H.
Qed.
Print Assumptions C89_mirror.
(** the same with float32 data *)
Theorem C89_mirror_float32 : forall L S T c (h : list (call (F32d L S T))),
  fixed_order S -> fixed_order32 T -> (c = kPS -> exp_valid L) -> (c = krCIP -> libm_valid L) -> Forall (fun p => entries (A := F32d L S T) valid (fst p)) h ->
  results c new_obj (map (neg_call (A := F32d L S T) SFopp) h) = results c new_obj h.
Proof.
  intros L S T c h HS HT HE HL Hh. apply (mirror_gen (F32d L S T) (mirrored32 L S T) SFopp valid); auto.
  - now apply law32.
  - intros x Hx. repeat split; auto; [now apply valid_opp|apply opps_opp].
  - intros x y H. destruct c; cbn in H; try congruence; symmetry; apply H.
Qed.
Print Assumptions C89_mirror_float32.

(** Two platforms that add in the same order but have different exp, **, det and
    inv: seven classes return the same bits, PS does if exp is the same, rCIP if
    all four are. *)
Definition same_libm (L L' : Libm) : Prop := (forall x, l_exp L x = l_exp L' x) /\ (forall x y, l_pow L x y = l_pow L' x y) /\
  (forall m, l_det L m = l_det L' m) /\ (forall m, l_inv L m = l_inv L' m).
Theorem C89_portable : forall L L' S c (h : list (call (F64o L S))),
  (c = kPS -> forall x, l_exp L x = l_exp L' x) -> (c = krCIP -> same_libm L L') ->
  results (A := F64o L' S) c new_obj (map (there (A := F64o L S) (B := F64o L' S) same) h) = results (A := F64o L S) c new_obj h.
Proof.
  intros L L' S c h HE HL.
  rewrite <- (same_results (results (A := F64o L S) c new_obj h)).
  apply (portable_gen (F64o L S) (F64o L' S) same); auto.
  assert (Hl : forall l l' : list f64, Forall2 (fun x y => y = same x) l l' -> l = l') by (induction 1; unfold same in *; congruence).
  assert (Hm : forall l l' : list (list f64), Forall2 (Forall2 (fun x y => y = same x)) l l' -> l = l') by (induction 1 as [|? ? ? ? H1]; [auto|apply Hl in H1; congruence]).
  assert (Hd : forall l : list (list f64), Forall2 (Forall2 (fun x y => y = same x)) l l) by (assert (forall l : list f64, Forall2 (fun x y => y = same x) l l) by (induction l; constructor; auto); induction l; constructor; auto).
  constructor; [..|intros Hr; destruct (HL Hr) as (V1 & V2 & V3 & V4); constructor]; try (intros l l' H; apply Hm in H; cbn; subst; rewrite <- V4; destruct (l_inv L l'); auto; apply Hd); try (intros l l' H; apply Hm in H; cbn; subst; now rewrite <- V3); cbn; unfold same in *; intros; repeat match goal with H : Forall2 _ _ _ |- _ => apply Hl in H end; subst; auto; try (symmetry; auto); try (left; intros; subst; reflexivity).
  all: now rewrite V2.
Qed.
Print Assumptions C89_portable.
Theorem C89_portable_float32 : forall L L' S T c (h : list (call (F32d L S T))),
  (c = kPS -> forall x, l_exp L x = l_exp L' x) -> (c = krCIP -> same_libm L L') ->
  results (A := F32d L' S T) c new_obj (map (there (A := F32d L S T) (B := F32d L' S T) same) h) = results (A := F32d L S T) c new_obj h.
Proof.
  intros L L' S T c h HE HL.
  rewrite <- (same_results (results (A := F32d L S T) c new_obj h)).
  apply (portable_gen (F32d L S T) (F32d L' S T) same); auto.
  assert (Hl : forall l l' : list f64, Forall2 (fun x y => y = same x) l l' -> l = l') by (induction 1; unfold same in *; congruence).
  assert (Hm : forall l l' : list (list f64), Forall2 (Forall2 (fun x y => y = same x)) l l' -> l = l') by (induction 1 as [|? ? ? ? H1]; [auto|apply Hl in H1; congruence]).
  assert (Hd : forall l : list (list f64), Forall2 (Forall2 (fun x y => y = same x)) l l) by (assert (forall l : list f64, Forall2 (fun x y => y = same x) l l) by (induction l; constructor; auto); induction l; constructor; auto).
  constructor; [..|intros Hr; destruct (HL Hr) as (V1 & V2 & V3 & V4); constructor]; try (intros l l' H; apply Hm in H; cbn; subst; rewrite <- V4; destruct (l_inv L l'); auto; apply Hd); try (intros l l' H; apply Hm in H; cbn; subst; now rewrite <- V3); cbn; unfold same in *; intros; repeat match goal with H : Forall2 _ _ _ |- _ => apply Hl in H end; subst; auto; try (symmetry; auto); try (left; intros; subst; reflexivity).
  all: now rewrite V2.
Qed.
Print Assumptions C89_portable_float32.

(** ** Examples *)
(** (0.1, 0.7), (0.3, -0.2) | (10.7, 0.2) with two wrong calls in between: the
    last call returns a number, the same for the negated data *)
Definition tenth (n : Z) : f64 := ddiv (d_of_Z n) (d_of_Z 10).
Definition ex_h (L : Libm) (S : Sums) : list (call (F64o L S)) :=
  let v x := @Vec (F64o L S) x in
  [(v [tenth 1; tenth 7], Lab 0%Z); (Nd 3, Lab 0%Z); (v [tenth 3; tenth (-2)], Lab 0%Z); (v [tenth 1; tenth 1; tenth 1], Lab 0%Z); (v [tenth 107; tenth 2], Lab 5%Z)].
Lemma ex_valid L S : Forall (fun p => entries (A := F64o L S) valid (fst p)) (ex_h L S).
Proof.
  assert (T : forall n, valid (tenth n)) by (intros n; apply valid_div; apply valid_Z).
  unfold ex_h. repeat apply Forall_cons; try apply Forall_nil; cbn [fst entries]; try exact I; repeat apply Forall_cons; try apply Forall_nil; apply T.
Qed.
Definition last_value (L : Libm) (h : list (call (F64o L left_right))) : E f64 := last (results (A := F64o L left_right) kCH new_obj h) (Err ValueError).
(** rCIP on the same calls, with rough stand-ins for exp, **, det and inv *)
Definition rough : Libm := mkLibm (fun x => dmul x x) (fun _ y => dmul y y) (fun m => nth 0 (nth 0 m []) (d_of_Z 1)) Some.
Lemma rough_valid : libm_valid rough.
Proof.
  repeat split; cbn.
  - intros x H. now apply valid_mul.
  - intros. now apply valid_mul.
  - intros. apply gplus_sq.
  - intros m H. destruct H as [|r m Hr _]; [apply (valid_Z 1)|]. destruct Hr; auto. apply (valid_Z 1).
  - intros m w H E. injection E as <-. exact H.
Qed.
Lemma ex_rCIP : last (results (A := F64o rough left_right) krCIP new_obj (map (neg_call (A := F64o rough left_right) SFopp) (ex_h rough left_right))) (Err ValueError)
    = last (results (A := F64o rough left_right) krCIP new_obj (ex_h rough left_right)) (Err ValueError)
  /\ match last (results (A := F64o rough left_right) krCIP new_obj (ex_h rough left_right)) (Err ValueError) with Ok (S754_finite _ _ _) => True | _ => False end.
Proof.
  split; [|vm_compute; exact I].
  rewrite (C89_mirror rough left_right krCIP (ex_h rough left_right)); auto using left_right_fixed, ex_valid; try discriminate. intros _. exact rough_valid.
Qed.
Lemma ex_value L : last_value L (map (neg_call (A := F64o L left_right) SFopp) (ex_h L left_right)) = last_value L (ex_h L left_right)
  /\ match last_value L (ex_h L left_right) with Ok (S754_finite _ _ _) => True | _ => False end.
Proof.
  split; [|vm_compute; exact I].
  refine (f_equal (fun l => last l (Err ValueError)) (C89_mirror L left_right kCH (ex_h L left_right) left_right_fixed _ _ (ex_valid L left_right))); discriminate.
Qed.
