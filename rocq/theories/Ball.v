(** * Runs that keep account of the rounding

    [Ball A dq]: computes as the arithmetic [A] does, with a bound for the
    distance to the result of exact arithmetic beside every number ([None]: no
    bound is known).  [dq] gives the value of a number of [A], [None] for nan and
    inf. *)
From Coq Require Import ZArith QArith Qabs Qreals Reals List Arith Bool Lia Lra SpecFloat Psatz.
From Verif Require Import Num NumPy Base GetCvi XR.
From Verif Require Import Par ParL ParC.
Import ListNotations.
Local Open Scope R_scope.

(** ** rational bounds *)
Notation qv := Q2R.
Lemma qv_abs q : qv (Qabs q) = Rabs (qv q).
Proof.
  apply Qabs_case; intros H; apply Qle_Rle in H; rewrite RMicromega.Q2R_0 in H.
  - now rewrite Rabs_pos_eq.
  - rewrite Q2R_opp. now rewrite Rabs_left1.
Qed.
Lemma qle_true a b : Qle_bool a b = true -> qv a <= qv b.
Proof. intros H. apply Qle_Rle. now apply Qle_bool_iff. Qed.
Lemma qle_false a b : Qle_bool a b = false -> qv b < qv a.
Proof.
  intros H. apply Qlt_Rlt. destruct (Qlt_le_dec b a) as [L|L]; auto. apply Qle_bool_iff in L. congruence.
Qed.
Lemma qv_0 : qv 0 = 0. Proof. apply RMicromega.Q2R_0. Qed.
Lemma qv_1 : qv 1 = 1. Proof. apply RMicromega.Q2R_1. Qed.
(** a short fraction that is not smaller *)
Definition coarse (q : Q) : Q :=
  let n := Qnum q in let d := Z.pos (Qden q) in
  if (n <=? 0)%Z then q
  else let a := Z.max 0 (Z.log2 n - 60) in let b := Z.max 0 (Z.log2 d - 60) in
       let n' := (Z.shiftr n a + 1)%Z in let d' := Z.shiftr d b in
       let k := Z.max 0 (40 + Z.log2 d' - Z.log2 n') in
       let m := (Z.shiftl n' k / d' + 1)%Z in let t := (a - b - k)%Z in
       if (0 <=? t)%Z then Z.shiftl m t # 1 else m # Z.to_pos (Z.shiftl 1 (- t)).
Lemma coarse_le q : qv q <= qv (coarse q).
Proof.
  apply Qle_Rle. unfold coarse. destruct q as [n d]. cbn [Qnum Qden]. destruct (n <=? 0)%Z eqn:E; [apply Qle_refl|]. apply Z.leb_gt in E.
  set (a := Z.max 0 _). set (b := Z.max 0 _). assert (Ha : (0 <= a)%Z) by (unfold a; lia). assert (Hb : (0 <= b)%Z) by (unfold b; lia).
  assert (Lb : (b <= Z.log2 (Z.pos d))%Z) by (unfold b; pose proof (Z.log2_nonneg (Z.pos d)); lia).
  rewrite !Z.shiftr_div_pow2 by auto. cbv zeta. set (n' := (n / 2 ^ a + 1)%Z). set (d' := (Z.pos d / 2 ^ b)%Z). set (k := Z.max 0 (40 + _ - _)). assert (Hk : (0 <= k)%Z) by (unfold k; lia).
  rewrite (Z.shiftl_mul_pow2 n' k) by auto. set (m := (n' * 2 ^ k / d' + 1)%Z).
  assert (P2 : forall z, (0 <= z)%Z -> (0 < 2 ^ z)%Z) by (intros; apply Z.pow_pos_nonneg; lia).
  assert (Pa := P2 a Ha). assert (Pb := P2 b Hb). assert (Pk := P2 k Hk).
  assert (H1 : (n <= n' * 2 ^ a)%Z). { unfold n'. pose proof (Z.div_mod n (2 ^ a)). pose proof (Z.mod_pos_bound n (2 ^ a)). nia. }
  assert (H2 : (d' * 2 ^ b <= Z.pos d)%Z). { unfold d'. pose proof (Z.mul_div_le (Z.pos d) (2 ^ b)). lia. }
  assert (H0 : (0 < d')%Z). { unfold d'. apply Z.div_str_pos. split; auto. pose proof (Z.log2_spec (Z.pos d) eq_refl) as [K _]. pose proof (Z.pow_le_mono_r 2 b (Z.log2 (Z.pos d))). lia. }
  assert (H3 : (n' * 2 ^ k <= m * d')%Z). { unfold m. pose proof (Z.div_mod (n' * 2 ^ k) d'). pose proof (Z.mod_pos_bound (n' * 2 ^ k) d'). nia. }
  assert (Hm : (0 <= m)%Z). { assert (0 < n')%Z by (unfold n'; pose proof (Z.div_pos n (2 ^ a)); lia). assert (0 < n' * 2 ^ k)%Z by (apply Z.mul_pos_pos; auto). nia. }
  clearbody n' d' m. clear E.
  assert (G : (n * (2 ^ b * 2 ^ k) <= m * 2 ^ a * Z.pos d)%Z).
  { apply Z.le_trans with (n' * 2 ^ a * (2 ^ b * 2 ^ k))%Z; [apply Z.mul_le_mono_nonneg_r; auto; apply Z.mul_nonneg_nonneg; lia|].
    replace (n' * 2 ^ a * (2 ^ b * 2 ^ k))%Z with ((n' * 2 ^ k) * (2 ^ a * 2 ^ b))%Z by ring.
    apply Z.le_trans with (m * d' * (2 ^ a * 2 ^ b))%Z; [apply Z.mul_le_mono_nonneg_r; auto; apply Z.mul_nonneg_nonneg; lia|].
    replace (m * d' * (2 ^ a * 2 ^ b))%Z with (m * 2 ^ a * (d' * 2 ^ b))%Z by ring. apply Z.mul_le_mono_nonneg_l; auto. apply Z.mul_nonneg_nonneg; lia. }
  destruct (0 <=? a - b - k)%Z eqn:Et.
  - apply Z.leb_le in Et. rewrite Z.shiftl_mul_pow2 by auto. unfold Qle. cbn [Qnum Qden]. rewrite Z.mul_1_r.
    replace (2 ^ a)%Z with (2 ^ (a - b - k) * (2 ^ b * 2 ^ k))%Z in G by (rewrite <- !Z.pow_add_r by lia; f_equal; lia).
    apply Z.mul_le_mono_pos_r with (2 ^ b * 2 ^ k)%Z; [now apply Z.mul_pos_pos|]. eapply Z.le_trans; [exact G|]. apply Z.eq_le_incl. ring.
  - apply Z.leb_gt in Et. rewrite Z.shiftl_mul_pow2, Z.mul_1_l by lia. unfold Qle. cbn [Qnum Qden]. rewrite Z2Pos.id by (apply P2; lia).
    replace (2 ^ b * 2 ^ k)%Z with (2 ^ a * 2 ^ (- (a - b - k)))%Z in G by (rewrite <- !Z.pow_add_r by lia; f_equal; lia).
    apply Z.mul_le_mono_pos_r with (2 ^ a)%Z; auto. eapply Z.le_trans; [|eapply Z.le_trans; [exact G|]]; apply Z.eq_le_incl; ring.
Qed.
(** the same fraction with common factors of two cancelled *)
Fixpoint halve (n d : positive) : positive * positive := match n, d with xO n', xO d' => halve n' d' | _, _ => (n, d) end.
Definition cancel (q : Q) : Q :=
  match Qnum q with
  | Z0 => 0%Q
  | Zpos n => let p := halve n (Qden q) in Zpos (fst p) # snd p
  | Zneg n => let p := halve n (Qden q) in Zneg (fst p) # snd p
  end.
Lemma halve_ok n : forall d, (Zpos (fst (halve n d)) * Zpos d = Zpos n * Zpos (snd (halve n d)))%Z.
Proof. induction n as [n IH|n IH|]; intros [d|d|]; cbn [halve fst snd]; auto. specialize (IH d). lia. Qed.
Lemma cancel_ok q : (cancel q == q)%Q.
Proof.
  destruct q as [[|n|n] d]; unfold cancel, Qeq; cbn [Qnum Qden fst snd]; auto; pose proof (halve_ok n d); lia.
Qed.
Definition qmax (a b : Q) : Q := if Qle_bool a b then b else a.
Definition qmin (a b : Q) : Q := if Qle_bool a b then a else b.
Lemma qv_max a b : qv (qmax a b) = Rmax (qv a) (qv b).
Proof. unfold qmax. destruct (Qle_bool a b) eqn:E; [apply qle_true in E|apply qle_false in E]; [rewrite Rmax_right|rewrite Rmax_left]; lra. Qed.
Lemma qv_min a b : qv (qmin a b) = Rmin (qv a) (qv b).
Proof. unfold qmin. destruct (Qle_bool a b) eqn:E; [apply qle_true in E|apply qle_false in E]; [rewrite Rmin_left|rewrite Rmin_right]; lra. Qed.
Lemma qv_sub a b : qv (a - b) = qv a - qv b.
Proof. unfold Qminus. rewrite Q2R_plus, Q2R_opp. reflexivity. Qed.
Lemma qv_nz q : qv q <> 0 -> ~ (q == 0)%Q.
Proof. intros H E. apply H. apply Qeq_eqR in E. now rewrite E, qv_0. Qed.
Lemma qv_div a b : qv b <> 0 -> qv (a / b) = qv a / qv b.
Proof. intros H. unfold Qdiv. rewrite Q2R_mult, Q2R_inv; auto. now apply qv_nz. Qed.

Lemma abs_inv x a : Rabs x <= a -> - a <= x <= a.
Proof. unfold Rabs. destruct (Rcase_abs x); lra. Qed.
Lemma sj {X} (a b : X) : Some a = Some b -> a = b.
Proof. congruence. Qed.

Section Ball.
  Context (A : Arith) (dq : F A -> option Q).
  (** accuracy of exp on non-positive arguments: relative and absolute *)
  Context (eta delta : Q).
  Definition ball := option (F A * Q).
  Definition mk (v : F A) (r e : Q) : ball := Some (v, coarse e).
  (** the error of a result [r] computed from [p] (error [e]) and [q] (error [f]) *)
  Definition er_add p e q f r := Some (e + f + Qabs (p + q - r))%Q.
  Definition er_sub p e q f r := Some (e + f + Qabs (p - q - r))%Q.
  Definition er_mul0 p e q f := (Qabs p * f + Qabs q * e + e * f)%Q.
  Definition er_mul p e q f r := Some (er_mul0 p e q f + Qabs (p * q - r))%Q.
  Definition er_div p e q f r :=
    if Qle_bool (Qabs q) (Qabs f) then None else Some ((Qabs p * f + Qabs q * e) / (Qabs q * (Qabs q - f)) + Qabs (p / q - r))%Q.
  Definition er_min p e q f r := Some (qmax (Qabs e) (Qabs f) + Qabs (qmin p q - r))%Q.
  Definition er_max p e q f r := Some (qmax (Qabs e) (Qabs f) + Qabs (qmax p q - r))%Q.
  Definition er_opp p e r := Some (e + Qabs (- p - r))%Q.
  Definition er_sqrt p e r :=
    if Qle_bool r 0 then (if Qle_bool (Qabs p) 0 && Qle_bool e 0 && Qle_bool (Qabs r) 0 then Some 0%Q else None)
    else if Qle_bool e p then Some ((Qabs (r * r - p) + e) / r)%Q else None.
  Definition er_exp p e r :=
    if Qle_bool p 0 && negb (Qle_bool 1 e) then
      let b := (eta * Qabs r + delta)%Q in Some (b + (Qabs r + b) * (e / (1 - e)))%Q
    else None.
  Definition b1 (er : Q -> Q -> Q -> option Q) (f : F A -> F A) (x : ball) : ball :=
    match x with
    | Some (a, e) => match dq a, dq (f a) with Some p, Some r => match er p e r with Some g => mk (f a) r g | None => None end | _, _ => None end
    | None => None
    end.
  Definition b2 (er : Q -> Q -> Q -> Q -> Q -> option Q) (f : F A -> F A -> F A) (x y : ball) : ball :=
    match x, y with
    | Some (a, e), Some (b, g) => match dq a, dq b, dq (f a b) with
                                  | Some p, Some q, Some r => match er p e q g r with Some g => mk (f a b) r g | None => None end
                                  | _, _, _ => None end
    | _, _ => None
    end.
  (** a list of numbers with their values and errors *)
  Fixpoint parts (l : list ball) : option (list (F A) * list (Q * Q)) :=
    match l with
    | [] => Some ([], [])
    | Some (a, e) :: l' => match dq a, parts l' with Some p, Some (k, ps) => Some (a :: k, (p, e) :: ps) | _, _ => None end
    | None :: _ => None
    end.
  Definition qsum (l : list Q) : Q := fold_right (fun x s => cancel (x + s)) 0%Q l.
  Definition bsum (f : list (F A) -> F A) (l : list ball) : ball :=
    match parts l with
    | Some (k, ps) => match dq (f k) with Some r => mk (f k) r (qsum (map snd ps) + Qabs (qsum (map fst ps) - r)) | None => None end
    | None => None
    end.
  Fixpoint prods (l k : list (Q * Q)) : list (Q * Q) :=
    match l, k with (p, e) :: l', (q, f) :: k' => ((p * q)%Q, er_mul0 p e q f) :: prods l' k' | _, _ => [] end.
  Definition bdot (f : list (F A) -> list (F A) -> F A) (l l' : list ball) : ball :=
    match parts l, parts l' with
    | Some (k, ps), Some (k', qs) =>
        match dq (f k k') with Some r => mk (f k k') r (qsum (map snd (prods ps qs)) + Qabs (qsum (map fst (prods ps qs)) - r)) | None => None end
    | _, _ => None
    end.
  Definition bint (z : Z) : ball := match dq (f_of_Z z) with Some r => mk (f_of_Z z) r (Qabs (inject_Z z - r)) | None => None end.
  (** certainly zero; perhaps zero *)
  Definition surely0 (x : ball) : bool := match x with Some (a, e) => match dq a with Some p => Qeq_bool p 0 && Qle_bool e 0 | None => false end | None => false end.
  Definition perhaps0 (x : ball) : bool := match x with Some (a, e) => match dq a with Some p => Qle_bool (Qabs p) (Qabs e) | None => true end | None => true end.
  Definition Ball : Arith := {|
    F := ball; f_of_Z := bint;
    fadd := b2 er_add fadd; fsub := b2 er_sub fsub; fmul := b2 er_mul fmul; fdiv := b2 er_div fdiv;
    fneg := b1 er_opp fneg; fabs := fun _ => None; fsqrt := b1 er_sqrt fsqrt; fexp := b1 er_exp fexp; fpow := fun _ _ => None;
    fpi := None; finf := None;
    fminimum := b2 er_min fminimum; fmaximum := b2 er_max fmaximum; flt := fun _ _ => false; ftrue := fun x => negb (surely0 x);
    np_sum := bsum np_sum; np_dot := bdot np_dot; np_det := fun _ => None; np_inv := fun _ => None;
    sadd := b2 er_add sadd; smul := b2 er_mul smul; sdiv := b2 er_div sdiv; ssum := bsum ssum; sdot := bdot sdot |}.

  Definition lost (x : ball) : bool := match x with None => true | Some _ => false end.
  Lemma mk_perhaps0 v r e : dq v = Some r -> qv (Qabs r) <= qv e -> perhaps0 (mk v r e) = true.
  Proof.
    intros Hd H. unfold perhaps0, mk. rewrite Hd. apply Qle_bool_iff. apply Rle_Qle. pose proof (coarse_le e). rewrite (qv_abs (coarse e)). pose proof (Rle_abs (qv (coarse e))). lra.
  Qed.
  Lemma perhaps2 (er : Q -> Q -> Q -> Q -> Q -> option Q) f x y :
    (forall p e q g r h, er p e q g r = Some h -> qv (Qabs p) <= qv (Qabs e) -> qv (Qabs q) <= qv (Qabs g) -> qv (Qabs r) <= qv h) ->
    perhaps0 x = true -> perhaps0 y = true -> perhaps0 (b2 er f x y) = true.
  Proof.
    intros H. destruct x as [[a e]|], y as [[b g]|]; auto. cbn. destruct (dq a) as [p|]; auto. destruct (dq b) as [q|]; auto. intros E1 E2. apply qle_true in E1, E2.
    destruct (dq (f a b)) as [r|] eqn:Er; auto. destruct (er p e q g r) as [h|] eqn:Eh; auto. apply mk_perhaps0; eauto.
  Qed.
  Lemma within_max p q r e g w : Rabs p <= e -> Rabs q <= g -> (w = p \/ w = q) -> Rabs r <= Rmax e g + Rabs (w - r).
  Proof.
    intros H1 H2 Hw. pose proof (Rmax_l e g). pose proof (Rmax_r e g). pose proof (Rabs_triang w (r - w)) as T. replace (w + (r - w)) with r in T by ring.
    rewrite (Rabs_minus_sym r w) in T. destruct Hw; subst; lra.
  Qed.
  Lemma lost_weak (B : Arith) (w : Sorts Ball B) : (forall x y, perhaps0 x = false -> sS w x y -> ftrue y = true) ->
    (forall x y, surely0 x = true -> sS w x y -> ftrue y = false) -> (forall x y, lost x = true -> sE w x y) -> weak w perhaps0 lost.
  Proof.
    intros H1 H0 He. unfold weak. cbn -[perhaps0 surely0]. repeat split; eauto.
    - apply negb_true_iff, not_true_iff_false. intros K. destruct x as [[a e]|]; [|discriminate]. cbn in *. destruct (dq a) as [p|]; [|discriminate].
      apply andb_prop in K as [K1 K2]. apply Qeq_bool_iff, Qeq_eqR in K1. apply qle_false in H. rewrite !qv_abs, K1, qv_0, Rabs_R0 in H. pose proof (Rabs_pos (qv e)). lra.
    - intros x y E. apply H0. now apply negb_false_iff.
    - intros x y. apply perhaps2. intros p e q g r h Eh. unfold er_min in Eh. apply sj in Eh. subst h. rewrite Q2R_plus, qv_max, !qv_abs, qv_sub, qv_min. intros E1 E2.
      apply (within_max (qv p) (qv q)); auto. unfold Rmin. destruct (Rle_dec (qv p) (qv q)); auto.
    - intros x y. apply perhaps2. intros p e q g r h Eh. unfold er_max in Eh. apply sj in Eh. subst h. rewrite Q2R_plus, qv_max, !qv_abs, qv_sub, qv_max. intros E1 E2.
      apply (within_max (qv p) (qv q)); auto. unfold Rmax. destruct (Rle_dec (qv p) (qv q)); auto.
    - intros x [[b g]|] E; [|now destruct x as [[? ?]|]]. destruct x as [[a e]|]; auto. cbn in *. destruct (dq a), (dq b); auto. destruct (dq (fdiv a b)); auto. unfold er_div. now rewrite E.
    - intros [[a e]|] [[b f]|] H; try discriminate; reflexivity.
    - intros l H. unfold bsum. replace (parts l) with (@None (list (F A) * list (Q * Q))); auto. induction l as [|[[a e]|] l IH]; cbn in *; try discriminate; auto.
      rewrite <- IH by auto. now destruct (dq a).
  Qed.

  (** ** against [A] *)
  Definition rel_own (x : ball) (y : F A) : Prop := match x with Some (a, _) => y = a | None => True end.
  Lemma own1 er f x y : rel_own x y -> rel_own (b1 er f x) (f y).
  Proof. destruct x as [[a e]|]; cbn; auto. intros ->. destruct (dq a), (dq (f a)); cbn; auto. destruct (er _ _ _); cbn; auto. Qed.
  Lemma own2 er f x y x' y' : rel_own x y -> rel_own x' y' -> rel_own (b2 er f x x') (f y y').
  Proof. destruct x as [[a e]|], x' as [[b g]|]; cbn; auto. intros -> ->. destruct (dq a), (dq b), (dq (f a b)); cbn; auto. destruct (er _ _ _ _ _); cbn; auto. Qed.
  Lemma own_parts l l' k ps : Forall2 rel_own l l' -> parts l = Some (k, ps) -> l' = k.
  Proof.
    intros H. revert k ps. induction H as [|x y l l' Hx _ IH]; cbn; intros k ps E; [congruence|]. destruct x as [[a e]|]; [|discriminate].
    destruct (dq a); [|discriminate]. destruct (parts l) as [[k0 p0]|]; [|discriminate]. injection E as <- <-. cbn in Hx. subst. f_equal. now apply (IH k0 p0).
  Qed.
  Lemma own_sum f l l' : Forall2 rel_own l l' -> rel_own (bsum f l) (f l').
  Proof.
    intros H. unfold bsum. destruct (parts l) as [[k ps]|] eqn:E; cbn; auto. rewrite (own_parts l l' k ps H E). destruct (dq (f k)); cbn; auto.
  Qed.
  Lemma own_dot f l l' k k' : Forall2 rel_own l l' -> Forall2 rel_own k k' -> rel_own (bdot f l k) (f l' k').
  Proof.
    intros H K. unfold bdot. destruct (parts l) as [[a ps]|] eqn:E; cbn; auto. destruct (parts k) as [[b qs]|] eqn:E'; cbn; auto.
    rewrite (own_parts l l' a ps H E), (own_parts k k' b qs K E'). destruct (dq (f a b)); cbn; auto.
  Qed.
  Lemma own_Z z : rel_own (bint z) (f_of_Z z).
  Proof. unfold bint. destruct (dq _); cbn; auto. Qed.
  Context (Htr : forall x p, dq x = Some p -> ftrue x = negb (Qeq_bool p 0)).
  Lemma own_not0 x y : perhaps0 x = false -> rel_own x y -> ftrue y = true.
  Proof.
    destruct x as [[a e]|]; [|discriminate]. cbn. intros E ->. destruct (dq a) as [p|] eqn:Ea; [|discriminate]. rewrite (Htr a p Ea). apply negb_true_iff, not_true_iff_false. intros K.
    apply Qeq_bool_iff, Qeq_eqR in K. apply qle_false in E. rewrite !qv_abs, K, qv_0, Rabs_R0 in E. pose proof (Rabs_pos (qv e)). lra.
  Qed.
  Lemma own_0 x y : surely0 x = true -> rel_own x y -> ftrue y = false.
  Proof.
    destruct x as [[a e]|]; [|discriminate]. cbn. intros E ->. destruct (dq a) as [p|] eqn:Ea; [|discriminate]. rewrite (Htr a p Ea). apply andb_prop in E as [-> _]. reflexivity.
  Qed.
  Definition own_sorts : Sorts Ball A := mkSorts Ball A rel_own rel_own rel_own rel_own rel_own rel_own rel_own rel_own.
  Lemma own_lawful c : c <> krCIP -> Lawful own_sorts c.
  Proof.
    intros HC.
    constructor; cbn -[rel_own]; intros; try contradiction; auto using own1, own2, own_sum, own_dot, own_Z; try exact I.
    all: try (right; right; right; exists perhaps0, lost; apply lost_weak; [apply own_not0|apply own_0|intros [[a e]|] y E; [discriminate|exact I]]).
    all: first [exact (own_Z _)|apply own2; auto; exact (own_Z _)].
  Qed.

  (** ** against exact arithmetic *)
  Definition near (t : Rdefinitions.R) (p e : Q) : Prop := Rabs (qv p - t) <= qv e.
  Definition rel_xr (x : ball) (y : xr) : Prop :=
    match x with Some (a, e) => exists p t, dq a = Some p /\ y = Fin t /\ near t p e | None => True end.
  Lemma near_pos t p e : near t p e -> 0 <= qv e.
  Proof. unfold near. intros H. pose proof (Rabs_pos (qv p - t)). lra. Qed.
  Lemma xr_mk v r e t : dq v = Some r -> near t r e -> rel_xr (mk v r e) (Fin t).
  Proof. intros Hd Hn. pose proof (coarse_le e) as Hc. cbn. exists r, t. repeat split; auto. unfold near in *. lra. Qed.
  Lemma xr1 er f (g : xr -> xr) x y :
    (forall a p e r h t, dq a = Some p -> dq (f a) = Some r -> er p e r = Some h -> near t p e -> exists u, g (Fin t) = Fin u /\ near u r h) ->
    rel_xr x y -> rel_xr (b1 er f x) (g y).
  Proof.
    intros H. destruct x as [[a e]|]; cbn; auto. intros (p & t & Ep & -> & Hn). rewrite Ep. destruct (dq (f a)) as [r|] eqn:Er; cbn; auto.
    destruct (er p e r) as [h|] eqn:Eh; cbn; auto. destruct (H a p e r h t Ep Er Eh Hn) as (u & -> & Hu). now apply (xr_mk _ r).
  Qed.
  Lemma xr2 er f (g : xr -> xr -> xr) x y x' y' :
    (forall p e q e' r h t t', er p e q e' r = Some h -> near t p e -> near t' q e' -> exists u, g (Fin t) (Fin t') = Fin u /\ near u r h) ->
    rel_xr x y -> rel_xr x' y' -> rel_xr (b2 er f x x') (g y y').
  Proof.
    intros H. destruct x as [[a e]|], x' as [[b e']|]; cbn; auto. intros (p & t & Ep & -> & Hn) (q & t' & Eq & -> & Hn'). rewrite Ep, Eq.
    destruct (dq (f a b)) as [r|] eqn:Er; cbn; auto. destruct (er p e q e' r) as [h|] eqn:Eh; cbn; auto.
    destruct (H p e q e' r h t t' Eh Hn Hn') as (u & -> & Hu). now apply (xr_mk _ r).
  Qed.
  (** |x - z| <= |x - y| + |y - z| *)
  Lemma via x y z a b : Rabs (x - y) <= a -> Rabs (y - z) <= b -> Rabs (z - x) <= a + b.
  Proof. intros. replace (z - x) with (- ((x - y) + (y - z))) by ring. rewrite Rabs_Ropp. pose proof (Rabs_triang (x - y) (y - z)). lra. Qed.
  Lemma near_add p e q f t t' : near t p e -> near t' q f -> Rabs ((t + t') - (qv p + qv q)) <= qv e + qv f.
  Proof. unfold near. intros. replace ((t + t') - (qv p + qv q)) with (- ((qv p - t) + (qv q - t'))) by ring. rewrite Rabs_Ropp. pose proof (Rabs_triang (qv p - t) (qv q - t')). lra. Qed.
  Lemma near_mul p e q f t t' : near t p e -> near t' q f -> Rabs (t * t' - qv p * qv q) <= qv (er_mul0 p e q f).
  Proof.
    unfold near. intros H H'. unfold er_mul0. rewrite !Q2R_plus, !Q2R_mult, !qv_abs.
    replace (t * t' - qv p * qv q) with (- (qv p * (qv q - t') + qv q * (qv p - t) - (qv p - t) * (qv q - t'))) by ring. rewrite Rabs_Ropp.
    pose proof (Rabs_triang (qv p * (qv q - t') + qv q * (qv p - t)) (- ((qv p - t) * (qv q - t')))) as T1.
    pose proof (Rabs_triang (qv p * (qv q - t')) (qv q * (qv p - t))) as T2. rewrite Rabs_Ropp in T1. rewrite !Rabs_mult in *. unfold Rminus in *.
    pose proof (Rabs_pos (qv p)). pose proof (Rabs_pos (qv q)). pose proof (Rabs_pos (qv p + - t)). pose proof (Rabs_pos (qv q + - t')).
    assert (Rabs (qv p) * Rabs (qv q + - t') <= Rabs (qv p) * qv f) by (apply Rmult_le_compat_l; lra).
    assert (Rabs (qv q) * Rabs (qv p + - t) <= Rabs (qv q) * qv e) by (apply Rmult_le_compat_l; lra).
    assert (Rabs (qv p + - t) * Rabs (qv q + - t') <= qv e * qv f) by (apply Rmult_le_compat; lra). lra.
  Qed.
  Lemma t_add p e q f r h t t' : er_add p e q f r = Some h -> near t p e -> near t' q f -> exists u, xadd (Fin t) (Fin t') = Fin u /\ near u r h.
  Proof.
    intros E. unfold er_add in E. apply sj in E. subst h. intros H H'. exists (t + t'). split; auto. unfold near. rewrite !Q2R_plus, qv_abs, qv_sub, Q2R_plus.
    apply (via _ (qv p + qv q)); [now apply near_add|apply Rle_refl].
  Qed.
  Lemma t_sub p e q f r h t t' : er_sub p e q f r = Some h -> near t p e -> near t' q f -> exists u, xsub (Fin t) (Fin t') = Fin u /\ near u r h.
  Proof.
    intros E. unfold er_sub in E. apply sj in E. subst h. intros H H'. exists (t - t'). split; auto. unfold near. rewrite !Q2R_plus, qv_abs, !qv_sub.
    apply (via _ (qv p - qv q)); [|apply Rle_refl]. unfold near in *. replace (t - t' - (qv p - qv q)) with ((qv q - t') - (qv p - t)) by ring.
    pose proof (Rabs_triang (qv q - t') (- (qv p - t))). rewrite Rabs_Ropp in *. unfold Rminus in *. lra.
  Qed.
  Lemma t_mul p e q f r h t t' : er_mul p e q f r = Some h -> near t p e -> near t' q f -> exists u, xmul (Fin t) (Fin t') = Fin u /\ near u r h.
  Proof.
    intros E. unfold er_mul in E. apply sj in E. subst h. intros H H'. exists (t * t'). split; auto. unfold near. rewrite !Q2R_plus, qv_abs, qv_sub, Q2R_mult.
    apply (via _ (qv p * qv q)); [|apply Rle_refl]. now apply near_mul.
  Qed.
  Lemma t_div p e q f r h t t' : er_div p e q f r = Some h -> near t p e -> near t' q f -> exists u, xdiv (Fin t) (Fin t') = Fin u /\ near u r h.
  Proof.
    unfold er_div. destruct (Qle_bool _ _) eqn:E; [discriminate|]. apply qle_false in E. rewrite !qv_abs in E. intros E0. apply sj in E0. subst h. intros H H'.
    pose proof (near_pos _ _ _ H). pose proof (near_pos _ _ _ H') as Hf. rewrite (Rabs_pos_eq (qv f)) in E by exact Hf. unfold near in *.
    assert (Hq : qv q <> 0) by (intros Z; rewrite Z, Rabs_R0 in E; lra).
    pose proof (Rabs_triang_inv (qv q) (qv q - t')) as T. replace (qv q - (qv q - t')) with t' in T by ring.
    assert (Ht : Rabs (qv q) - qv f <= Rabs t') by lra.
    assert (Nt : t' <> 0) by (intros Z; rewrite Z, Rabs_R0 in Ht; lra).
    exists (t / t'). split; [cbn; destruct (Req_EM_T _ _); [contradiction|reflexivity]|].
    assert (Hd : 0 < Rabs (qv q) * (Rabs (qv q) - qv f)) by (apply Rmult_lt_0_compat; [now apply Rabs_pos_lt|lra]).
    rewrite Q2R_plus, qv_div by (rewrite Q2R_mult, qv_sub, qv_abs; lra). rewrite (qv_abs (p / q - r)), (qv_sub (p / q)), (qv_div p q) by auto.
    rewrite Q2R_plus, !Q2R_mult, qv_sub, !qv_abs.
    apply (via _ (qv p / qv q)); [|apply Rle_refl].
    replace (t / t' - qv p / qv q) with (- ((qv p * (t' - qv q) + qv q * (qv p - t)) / (qv q * t'))) by (field; auto).
    rewrite Rabs_Ropp. unfold Rdiv. rewrite Rabs_mult, Rabs_inv, Rabs_mult.
    assert (N : Rabs (qv p * (t' - qv q) + qv q * (qv p - t)) <= Rabs (qv p) * qv f + Rabs (qv q) * qv e).
    { pose proof (Rabs_triang (qv p * (t' - qv q)) (qv q * (qv p - t))) as T2. rewrite !Rabs_mult in T2. rewrite (Rabs_minus_sym t') in T2.
      pose proof (Rmult_le_compat_l (Rabs (qv p)) _ _ (Rabs_pos _) H'). pose proof (Rmult_le_compat_l (Rabs (qv q)) _ _ (Rabs_pos _) H). lra. }
    apply Rmult_le_compat; auto using Rabs_pos.
    - left. apply Rinv_0_lt_compat. apply Rmult_lt_0_compat; now apply Rabs_pos_lt.
    - apply Rinv_le_contravar; auto. apply Rmult_le_compat_l; auto using Rabs_pos.
  Qed.
  Lemma t_opp p e r h t : er_opp p e r = Some h -> near t p e -> exists u, xneg (Fin t) = Fin u /\ near u r h.
  Proof.
    intros E. unfold er_opp in E. apply sj in E. subst h. intros H. exists (- t). split; auto. unfold near in *. rewrite Q2R_plus, qv_abs, qv_sub, Q2R_opp. apply (via _ (- qv p)); [|apply Rle_refl].
    replace (- t - - qv p) with (qv p - t) by ring. exact H.
  Qed.
  Lemma t_sqrt p e r h t : er_sqrt p e r = Some h -> near t p e -> exists u, xsqrt (Fin t) = Fin u /\ near u r h.
  Proof.
    unfold er_sqrt. intros E H. pose proof (near_pos _ _ _ H). unfold near in *. destruct (Qle_bool r 0) eqn:Er.
    - destruct (Qle_bool (Qabs p) 0) eqn:E1; [|discriminate]. destruct (Qle_bool e 0) eqn:E2; [|discriminate]. destruct (Qle_bool (Qabs r) 0) eqn:E3; [|discriminate].
      apply sj in E. subst h. apply qle_true in E1, E2, E3. rewrite qv_0, ?qv_abs in *. pose proof (Rabs_pos (qv p)). pose proof (Rabs_pos (qv r)). pose proof (Rabs_pos (qv p - t)).
      assert (Rp : qv p = 0) by (destruct (Req_dec (qv p) 0) as [|N]; auto; apply Rabs_pos_lt in N; lra).
      assert (Rr : qv r = 0) by (destruct (Req_dec (qv r) 0) as [|N]; auto; apply Rabs_pos_lt in N; lra).
      assert (Rt : t = 0) by (destruct (Req_dec (qv p - t) 0) as [|N]; [lra|apply Rabs_pos_lt in N; lra]). subst t.
      exists 0. rewrite Rr, Rminus_0_r, Rabs_R0. split; [|lra]. cbn. destruct (Rlt_dec 0 0); [lra|]. now rewrite sqrt_0.
    - destruct (Qle_bool e p) eqn:E1; [|discriminate]. apply sj in E. subst h. apply qle_false in Er. apply qle_true in E1. rewrite qv_0 in Er.
      assert (Ht : 0 <= t) by (pose proof (Rle_abs (qv p - t)); lra).
      exists (sqrt t). split; [cbn; destruct (Rlt_dec t 0); [lra|reflexivity]|].
      rewrite qv_div, Q2R_plus, qv_abs, qv_sub, Q2R_mult by lra. pose proof (sqrt_pos t) as Hs. pose proof (sqrt_sqrt t Ht) as Hss.
      assert (K : Rabs (qv r * qv r - t) <= Rabs (qv r * qv r - qv p) + qv e).
      { replace (qv r * qv r - t) with ((qv r * qv r - qv p) + (qv p - t)) by ring. pose proof (Rabs_triang (qv r * qv r - qv p) (qv p - t)). lra. }
      assert (Ed : qv r * qv r - t = (qv r - sqrt t) * (qv r + sqrt t)) by (rewrite <- Hss at 1; ring).
      rewrite Ed, Rabs_mult, (Rabs_pos_eq (qv r + sqrt t)) in K by lra. pose proof (Rabs_pos (qv r - sqrt t)).
      apply Rmult_le_reg_r with (qv r); auto. unfold Rdiv. rewrite Rmult_assoc, Rinv_l by lra. nra.
  Qed.
  Lemma t_min p e q f r h t t' : er_min p e q f r = Some h -> near t p e -> near t' q f -> exists u, xmin (Fin t) (Fin t') = Fin u /\ near u r h.
  Proof.
    intros E. unfold er_min in E. apply sj in E. subst h. intros H H'. exists (Rmin t t'). split.
    { unfold xmin, xle, Rmin. destruct (Rle_dec _ _); auto. }
    unfold near in *. pose proof (Rle_abs (qv e)). pose proof (Rle_abs (qv f)). rewrite Q2R_plus, qv_max, !qv_abs, qv_sub, qv_min. apply (via _ (Rmin (qv p) (qv q))); [|apply Rle_refl].
    pose proof (Rmax_l (Rabs (qv e)) (Rabs (qv f))). pose proof (Rmax_r (Rabs (qv e)) (Rabs (qv f))). apply Rabs_le. apply abs_inv in H, H'. unfold Rmin. destruct (Rle_dec t t'), (Rle_dec (qv p) (qv q)); lra.
  Qed.
  Lemma t_max p e q f r h t t' : er_max p e q f r = Some h -> near t p e -> near t' q f -> exists u, xmax (Fin t) (Fin t') = Fin u /\ near u r h.
  Proof.
    intros E. unfold er_max in E. apply sj in E. subst h. intros H H'. exists (Rmax t t'). split.
    { unfold xmax, xle, Rmax. destruct (Rle_dec _ _); auto. }
    unfold near in *. pose proof (Rle_abs (qv e)). pose proof (Rle_abs (qv f)). rewrite Q2R_plus, qv_max, !qv_abs, qv_sub, qv_max. apply (via _ (Rmax (qv p) (qv q))); [|apply Rle_refl].
    pose proof (Rmax_l (Rabs (qv e)) (Rabs (qv f))). pose proof (Rmax_r (Rabs (qv e)) (Rabs (qv f))). apply Rabs_le. apply abs_inv in H, H'. set (w := Rmax (Rabs (qv e)) (Rabs (qv f))) in *. unfold Rmax. destruct (Rle_dec t t'), (Rle_dec (qv p) (qv q)); lra.
  Qed.
  (** sums *)
  Lemma qv_sum l : qv (qsum l) = fold_right (fun x s => qv x + s) 0 l.
  Proof.
    induction l as [|x l IH]; [apply qv_0|]. unfold qsum in *. cbn -[cancel Qplus]. rewrite <- IH, <- Q2R_plus. apply Qeq_eqR, cancel_ok.
  Qed.
  Lemma xsum_fin ts : forall z, fold_left xadd (map Fin ts) (Fin z) = Fin (z + fold_right Rplus 0 ts).
  Proof. induction ts as [|t ts IH]; intros z; cbn; [f_equal; ring|]. rewrite IH. f_equal. ring. Qed.
  Lemma near_sum ts ps : Forall2 (fun t pe => near t (fst pe) (snd pe)) ts ps ->
    Rabs (fold_right Rplus 0 ts - qv (qsum (map fst ps))) <= qv (qsum (map snd ps)).
  Proof.
    rewrite !qv_sum. induction 1 as [|t [p e] ts ps H _ IH]; cbn; [rewrite Rminus_0_r, Rabs_R0; lra|]. cbn in H. unfold near in H.
    match goal with |- Rabs (t + ?a - (qv p + ?b)) <= _ => replace (t + a - (qv p + b)) with (- (qv p - t) + (a - b)) by ring; pose proof (Rabs_triang (- (qv p - t)) (a - b)) end.
    rewrite Rabs_Ropp in *. lra.
  Qed.
  Lemma xr_parts l l' k ps : Forall2 rel_xr l l' -> parts l = Some (k, ps) -> exists ts, l' = map Fin ts /\ Forall2 (fun t pe => near t (fst pe) (snd pe)) ts ps.
  Proof.
    intros H. revert k ps. induction H as [|x y l l' Hx _ IH]; cbn; intros k ps E; [injection E as <- <-; now exists []|].
    destruct x as [[a e]|]; [|discriminate]. cbn in Hx. destruct Hx as (p & t & Ep & -> & Hn). rewrite Ep in E. destruct (parts l) as [[k0 p0]|]; [|discriminate].
    injection E as <- <-. destruct (IH k0 p0 eq_refl) as (ts & -> & Hts). exists (t :: ts). split; auto.
  Qed.
  Lemma sum_near r s ts ps : Forall2 (fun t pe => near t (fst pe) (snd pe)) ts ps -> s = fold_right Rplus 0 ts ->
    near s r (qsum (map snd ps) + Qabs (qsum (map fst ps) - r)).
  Proof.
    intros H ->. unfold near. rewrite Q2R_plus, qv_abs, qv_sub. apply (via _ (qv (qsum (map fst ps)))); [now apply near_sum|apply Rle_refl].
  Qed.
  Lemma xr_sum f l l' : Forall2 rel_xr l l' -> rel_xr (bsum f l) (xsum l').
  Proof.
    intros H. unfold bsum. destruct (parts l) as [[k ps]|] eqn:E; cbn; auto. destruct (dq (f k)) as [r|] eqn:Er; cbn; auto.
    destruct (xr_parts l l' k ps H E) as (ts & -> & Hts). unfold xsum. rewrite xsum_fin. apply (xr_mk _ r); auto. apply (sum_near r _ ts); auto. ring.
  Qed.
  Lemma prods_near ts ps : Forall2 (fun t pe => near t (fst pe) (snd pe)) ts ps -> forall us qs, Forall2 (fun t pe => near t (fst pe) (snd pe)) us qs ->
    exists ws, xdot (map Fin ts) (map Fin us) = map Fin ws /\ Forall2 (fun t pe => near t (fst pe) (snd pe)) ws (prods ps qs).
  Proof.
    induction 1 as [|t [p e] ts ps H _ IH]; intros us qs K; [exists []; split; auto; constructor|]. destruct K as [|u [q f] us qs Hu K]; [exists []; split; auto; constructor|].
    destruct (IH us qs K) as (ws & E & Hw). exists (t * u :: ws). split; [cbn; now rewrite E|]. constructor; auto. cbn [fst snd]. unfold near. rewrite Q2R_mult.
    rewrite Rabs_minus_sym. now apply near_mul.
  Qed.
  Lemma xr_dot f l l' k k' : Forall2 rel_xr l l' -> Forall2 rel_xr k k' -> rel_xr (bdot f l k) (xsum (xdot l' k')).
  Proof.
    intros H K. unfold bdot. destruct (parts l) as [[a ps]|] eqn:E; cbn; auto. destruct (parts k) as [[b qs]|] eqn:E'; cbn; auto.
    destruct (dq (f a b)) as [r|] eqn:Er; cbn; auto. destruct (xr_parts l l' a ps H E) as (ts & -> & Hts). destruct (xr_parts k k' b qs K E') as (us & -> & Hus).
    destruct (prods_near ts ps Hts us qs Hus) as (ws & -> & Hw). unfold xsum. rewrite xsum_fin. apply (xr_mk _ r); auto. apply (sum_near r _ ws); auto. ring.
  Qed.
  Lemma xr_Z z : rel_xr (bint z) (Fin (IZR z)).
  Proof.
    unfold bint. destruct (dq _) as [r|] eqn:E; [|exact I]. apply (xr_mk _ r); auto. unfold near. rewrite qv_abs, qv_sub, Rabs_minus_sym.
    replace (qv (inject_Z z)) with (IZR z) by (unfold Q2R; cbn; field). apply Rle_refl.
  Qed.
  Definition xr_sorts : Sorts Ball XR := mkSorts Ball XR rel_xr rel_xr rel_xr rel_xr rel_xr rel_xr rel_xr rel_xr.
  Lemma xr_not0 x y : perhaps0 x = false -> rel_xr x y -> xtrue y = true.
  Proof.
    destruct x as [[a e]|]; [|discriminate]. intros E (p & t & Ep & -> & Hn). cbn in *. rewrite Ep in E. apply qle_false in E. rewrite !qv_abs in E. pose proof (near_pos _ _ _ Hn).
    unfold near in Hn. pose proof (Rle_abs (qv e)). destruct (Req_EM_T t 0) as [Z|Z]; auto. rewrite Z, Rminus_0_r in Hn. lra.
  Qed.
  Lemma xr_0 x y : surely0 x = true -> rel_xr x y -> xtrue y = false.
  Proof.
    destruct x as [[a e]|]; [|discriminate]. intros E (p & t & Ep & -> & Hn). cbn in *. rewrite Ep in E. apply andb_prop in E as [E1 E2]. apply Qeq_bool_iff, Qeq_eqR in E1. apply qle_true in E2.
    rewrite qv_0 in *. unfold near in Hn. rewrite E1 in Hn. pose proof (Rabs_pos (0 - t)). destruct (Req_EM_T t 0) as [Z|Z]; auto. exfalso. apply Z.
    destruct (Req_dec (0 - t) 0) as [|N]; [lra|apply Rabs_pos_lt in N; lra].
  Qed.
  (** exp is nearly right on non-positive arguments *)
  Definition exp_near : Prop := forall x p r, dq x = Some p -> dq (fexp x) = Some r -> qv p <= 0 -> Rabs (qv r - exp (qv p)) <= qv eta * Rabs (qv r) + qv delta.
  Lemma exp_le_inv e : 0 <= e -> e < 1 -> exp e - 1 <= e / (1 - e).
  Proof.
    intros H0 H1. assert (K : exp (- e) >= 1 - e) by (pose proof (exp_ineq1_le (- e)); lra).
    rewrite exp_Ropp in K. pose proof (exp_pos e) as P. assert (exp e <= / (1 - e)).
    { rewrite <- (Rinv_inv (exp e)). apply Rinv_le_contravar; lra. }
    replace (e / (1 - e)) with (/ (1 - e) - 1) by (field; lra). lra.
  Qed.
  Lemma t_exp a p e r h t : exp_near -> dq a = Some p -> dq (fexp a) = Some r -> er_exp p e r = Some h -> near t p e -> exists u, xexp (Fin t) = Fin u /\ near u r h.
  Proof.
    intros HX Ea Er E H. exists (exp t). split; auto. unfold er_exp in E. destruct (Qle_bool p 0) eqn:E1; [|discriminate]. destruct (Qle_bool 1 e) eqn:E2; [discriminate|].
    apply sj in E. subst h. apply qle_true in E1. apply qle_false in E2. rewrite qv_0 in E1. rewrite qv_1 in E2. pose proof (near_pos _ _ _ H) as He. unfold near in *.
    pose proof (HX a p r Ea Er E1) as HB. repeat first [rewrite Q2R_plus|rewrite Q2R_mult]. rewrite qv_div, qv_abs, qv_sub, qv_1 by (rewrite qv_sub, qv_1; lra).
    set (B := qv eta * Rabs (qv r) + qv delta) in *.
    assert (K : Rabs (exp t - exp (qv p)) <= (Rabs (qv r) + B) * (qv e / (1 - qv e))).
    { assert (P : exp (qv p) <= Rabs (qv r) + B). { pose proof (Rle_abs (qv r)). apply abs_inv in HB. lra. }
      pose proof (exp_pos (qv p)) as P0. replace t with (qv p + (t - qv p)) at 1 by ring. rewrite exp_plus.
      replace (exp (qv p) * exp (t - qv p) - exp (qv p)) with (exp (qv p) * (exp (t - qv p) - 1)) by ring. rewrite Rabs_mult, (Rabs_pos_eq (exp (qv p))) by lra.
      assert (Q1 : Rabs (exp (t - qv p) - 1) <= qv e / (1 - qv e)).
      { pose proof (exp_le_inv (qv e) He E2) as X. apply abs_inv in H. apply Rabs_le.
        assert (exp (t - qv p) <= exp (qv e)) by (destruct (Req_dec (t - qv p) (qv e)) as [->|]; [lra|left; apply exp_increasing; lra]).
        pose proof (exp_ineq1_le (t - qv p)). assert (qv e <= qv e / (1 - qv e)); [|lra].
        apply Rmult_le_reg_r with (1 - qv e); [lra|]. unfold Rdiv. rewrite Rmult_assoc, Rinv_l by lra. nra. }
      apply Rmult_le_compat; try lra; apply Rabs_pos. }
    rewrite Rplus_comm. apply (via _ (exp (qv p))); auto. rewrite Rabs_minus_sym. exact HB.
  Qed.
  Lemma xr_lawful c : c <> krCIP -> (c = kPS -> exp_near) -> Lawful xr_sorts c.
  Proof.
    intros HC HX.
    assert (HA : forall f x y x' y', rel_xr x y -> rel_xr x' y' -> rel_xr (b2 er_add f x x') (xadd y y')) by (intros; apply xr2; eauto using t_add).
    assert (HS : forall f x y x' y', rel_xr x y -> rel_xr x' y' -> rel_xr (b2 er_sub f x x') (xsub y y')) by (intros; apply xr2; eauto using t_sub).
    assert (HM : forall f x y x' y', rel_xr x y -> rel_xr x' y' -> rel_xr (b2 er_mul f x x') (xmul y y')) by (intros; apply xr2; eauto using t_mul).
    assert (HD : forall f x y x' y', rel_xr x y -> rel_xr x' y' -> rel_xr (b2 er_div f x x') (xdiv y y')) by (intros; apply xr2; eauto using t_div).
    assert (Hn : forall f x y x' y', rel_xr x y -> rel_xr x' y' -> rel_xr (b2 er_min f x x') (xmin y y')) by (intros; apply xr2; eauto using t_min).
    assert (Hx : forall f x y x' y', rel_xr x y -> rel_xr x' y' -> rel_xr (b2 er_max f x x') (xmax y y')) by (intros; apply xr2; eauto using t_max).
    constructor; cbn -[rel_xr xadd xsub xmul xdiv xmin xmax xneg xsqrt xexp xsum xdot]; intros; try contradiction; auto using xr_sum, xr_dot, xr_Z; try exact I.
    all: try exact (xr_Z _).
    all: try (apply HM; auto; exact (xr_Z _)).
    - apply xr1; auto. intros a p e r h t Ea Er Eh Hh. apply (t_exp a p e r h t); auto.
    - apply xr1; eauto using t_opp.
    - right. right. right. exists perhaps0, lost. apply lost_weak; [apply xr_not0|apply xr_0|]. intros [a|] y E; [discriminate|exact I].
    - apply xr1; eauto using t_sqrt.
  Qed.
End Ball.
