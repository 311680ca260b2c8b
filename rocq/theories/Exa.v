(** * Runs in which nothing is rounded

    [Exactly A dy]: computes as the arithmetic [A] does but says so ([None]) when
    the result of an operation is not the exact one.  [dy] gives the value of a
    number of [A], [None] for nan and inf. *)
From Coq Require Import ZArith Reals List Arith Bool Lia Lra SpecFloat.
From Flocq Require Import Core.
From Verif Require Import Num NumPy Base GetCvi F64 F64o XR.
From Verif Require Import Par ParL ParC.
Import ListNotations.
Local Open Scope R_scope.

(** ** [m * 2^e] *)
Definition dyad := (Z * Z)%type.
Definition val (p : dyad) : Rdefinitions.R := IZR (fst p) * bpow radix2 (snd p).
Definition up (m e d : Z) : Z := (m * 2 ^ (e - d))%Z.
Definition dyadd (p q : dyad) : dyad := let e := Z.min (snd p) (snd q) in ((up (fst p) (snd p) e + up (fst q) (snd q) e)%Z, e).
Definition dyopp (p : dyad) : dyad := ((- fst p)%Z, snd p).
Definition dymul (p q : dyad) : dyad := ((fst p * fst q)%Z, (snd p + snd q)%Z).
Definition dycmp (p q : dyad) : comparison := let e := Z.min (snd p) (snd q) in Z.compare (up (fst p) (snd p) e) (up (fst q) (snd q) e).
Definition dyeq (p q : dyad) : bool := match dycmp p q with Eq => true | _ => false end.
Definition dysum (l : list dyad) : dyad := fold_left dyadd l (0%Z, 0%Z).
Fixpoint dyprods (a b : list dyad) : list dyad := match a, b with x :: a', y :: b' => dymul x y :: dyprods a' b' | _, _ => [] end.

Lemma val_up m e d : (d <= e)%Z -> val (m, e) = IZR (up m e d) * bpow radix2 d.
Proof.
  intros H. unfold val, up. cbn [fst snd]. rewrite mult_IZR, Rmult_assoc. f_equal. rewrite (IZR_Zpower radix2) by lia. rewrite <- bpow_plus. f_equal. lia.
Qed.
Lemma val_add p q : val (dyadd p q) = val p + val q.
Proof.
  destruct p as [a e], q as [b f]. rewrite (val_up a e (Z.min e f)), (val_up b f (Z.min e f)) by lia. unfold dyadd, val. cbn [fst snd]. rewrite plus_IZR. ring.
Qed.
Lemma val_opp p : val (dyopp p) = - val p.
Proof. unfold dyopp, val. cbn. rewrite opp_IZR. ring. Qed.
Lemma val_mul p q : val (dymul p q) = val p * val q.
Proof. unfold dymul, val. cbn. rewrite mult_IZR, bpow_plus. ring. Qed.
Lemma val_cmp p q : dycmp p q = Rcompare (val p) (val q).
Proof.
  destruct p as [a e], q as [b f]. rewrite (val_up a e (Z.min e f)), (val_up b f (Z.min e f)) by lia. unfold dycmp. cbn [fst snd].
  rewrite Rcompare_mult_r by apply bpow_gt_0. now rewrite Rcompare_IZR.
Qed.
Lemma dyeq_val p q : dyeq p q = true -> val p = val q.
Proof. unfold dyeq. rewrite val_cmp. destruct (Rcompare_spec (val p) (val q)); auto; discriminate. Qed.
Lemma val_sum l : forall z, val (fold_left dyadd l z) = fold_left Rplus (map val l) (val z).
Proof. induction l as [|x l IH]; intros z; cbn; auto. now rewrite IH, val_add. Qed.

Section Exactly.
  Context (A : Arith) (dy : F A -> option dyad).
  Definition known1 (ok : dyad -> dyad -> bool) (f : F A -> F A) (x : option (F A)) : option (F A) :=
    match x with
    | Some a => match dy a, dy (f a) with Some p, Some r => if ok p r then Some (f a) else None | _, _ => None end
    | None => None
    end.
  Definition known2 (ok : dyad -> dyad -> dyad -> bool) (f : F A -> F A -> F A) (x y : option (F A)) : option (F A) :=
    match x, y with
    | Some a, Some b => match dy a, dy b, dy (f a b) with Some p, Some q, Some r => if ok p q r then Some (f a b) else None | _, _, _ => None end
    | _, _ => None
    end.
  Definition zero (p : dyad) : bool := Z.eqb (fst p) 0.
  (** the result [r] is the exact one *)
  Definition ok_add p q r := dyeq (dyadd p q) r.
  Definition ok_sub p q r := dyeq (dyadd p (dyopp q)) r.
  Definition ok_mul p q r := dyeq (dymul p q) r.
  Definition ok_div p q r := negb (zero q) && dyeq (dymul r q) p.
  Definition ok_opp p r := dyeq (dyopp p) r.
  Definition ok_sqrt p r := Z.leb 0 (fst r) && dyeq (dymul r r) p.
  Definition ok_min p q r := dyeq (match dycmp p q with Gt => q | _ => p end) r.
  Definition ok_max p q r := dyeq (match dycmp p q with Gt => p | _ => q end) r.
  Fixpoint knowns (l : list (option (F A))) : option (list (F A)) :=
    match l with [] => Some [] | Some a :: l' => match knowns l' with Some k => Some (a :: k) | None => None end | None :: _ => None end.
  Fixpoint dys (l : list (F A)) : option (list dyad) :=
    match l with [] => Some [] | a :: l' => match dy a, dys l' with Some p, Some k => Some (p :: k) | _, _ => None end end.
  Definition esum (f : list (F A) -> F A) (l : list (option (F A))) : option (F A) :=
    match knowns l with
    | Some k => match dys k, dy (f k) with Some ps, Some r => if dyeq (dysum ps) r then Some (f k) else None | _, _ => None end
    | None => None
    end.
  Definition edot (f : list (F A) -> list (F A) -> F A) (l l' : list (option (F A))) : option (F A) :=
    match knowns l, knowns l' with
    | Some k, Some k' => match dys k, dys k', dy (f k k') with
                         | Some ps, Some qs, Some r => if dyeq (dysum (dyprods ps qs)) r then Some (f k k') else None
                         | _, _, _ => None end
    | _, _ => None
    end.
  Definition eint (z : Z) : option (F A) := match dy (f_of_Z z) with Some r => if dyeq (z, 0%Z) r then Some (f_of_Z z) else None | None => None end.
  Definition Exactly : Arith := {|
    F := option (F A); f_of_Z := eint;
    fadd := known2 ok_add fadd; fsub := known2 ok_sub fsub; fmul := known2 ok_mul fmul; fdiv := known2 ok_div fdiv;
    fneg := known1 ok_opp fneg; fabs := fun _ => None; fsqrt := known1 ok_sqrt fsqrt; fexp := fun _ => None; fpow := fun _ _ => None;
    fpi := None; finf := None;
    fminimum := known2 ok_min fminimum; fmaximum := known2 ok_max fmaximum; flt := fun _ _ => false; ftrue := fun x => match x with Some a => ftrue a | None => true end;
    np_sum := esum np_sum; np_dot := edot np_dot; np_det := fun _ => None; np_inv := fun _ => None;
    sadd := known2 ok_add sadd; smul := known2 ok_mul smul; sdiv := known2 ok_div sdiv; ssum := esum ssum; sdot := edot sdot |}.

  (** [None] spoils what is computed from it *)
  Definition unknown (x : option (F A)) : bool := match x with None => true | Some _ => false end.
  Lemma unknown_poison (B : Arith) (w : Sorts Exactly B) : (forall x y, unknown x = false -> sS w x y -> ftrue (a := Exactly) x = ftrue y) ->
    (forall x y, unknown x = true -> sE w x y) -> poison w unknown.
  Proof.
    intros Ht He. unfold poison. cbn. repeat split; auto.
    - intros [a|]; [discriminate|reflexivity].
    - intros [a|] [b|] H; try discriminate; reflexivity.
    - intros [a|] [b|] H; try discriminate; reflexivity.
    - intros [a|] [b|] H; try discriminate; reflexivity.
    - intros l H. unfold esum. replace (knowns l) with (@None (list (F A))); auto. induction l as [|[a|] l IH]; cbn in *; try discriminate; auto. now rewrite <- IH.
  Qed.

  (** ** against [A] *)
  Definition rel_own (x : option (F A)) (y : F A) : Prop := match x with Some a => y = a | None => True end.
  (** ** against exact arithmetic *)
  Definition rel_xr (x : option (F A)) (y : xr) : Prop := match x with Some a => exists p, dy a = Some p /\ y = Fin (val p) | None => True end.

  Lemma own1 ok f x y : rel_own x y -> rel_own (known1 ok f x) (f y).
  Proof. destruct x as [a|]; cbn; auto. intros ->. destruct (dy a), (dy (f a)); cbn; auto. destruct (ok _ _); cbn; auto. Qed.
  Lemma own2 ok f x y x' y' : rel_own x y -> rel_own x' y' -> rel_own (known2 ok f x x') (f y y').
  Proof. destruct x as [a|], x' as [b|]; cbn; auto. intros -> ->. destruct (dy a), (dy b), (dy (f a b)); cbn; auto. destruct (ok _ _ _); cbn; auto. Qed.
  Lemma own_knowns l l' k : Forall2 rel_own l l' -> knowns l = Some k -> l' = k.
  Proof.
    intros H. revert k. induction H as [|x y l l' Hx _ IH]; cbn; intros k E; [congruence|]. destruct x as [a|]; [|discriminate].
    destruct (knowns l); [|discriminate]. injection E as <-. cbn in Hx. subst. f_equal. now apply IH.
  Qed.
  Lemma own_sum f l l' : Forall2 rel_own l l' -> rel_own (esum f l) (f l').
  Proof.
    intros H. unfold esum. destruct (knowns l) as [k|] eqn:E; cbn; auto. rewrite (own_knowns l l' k H E).
    destruct (dys k), (dy (f k)); cbn; auto. destruct (dyeq _ _); cbn; auto.
  Qed.
  Lemma own_dot f l l' k k' : Forall2 rel_own l l' -> Forall2 rel_own k k' -> rel_own (edot f l k) (f l' k').
  Proof.
    intros H K. unfold edot. destruct (knowns l) as [a|] eqn:E; cbn; auto. destruct (knowns k) as [b|] eqn:E'; cbn; auto.
    rewrite (own_knowns l l' a H E), (own_knowns k k' b K E').
    destruct (dys a), (dys b), (dy (f a b)); cbn; auto. destruct (dyeq _ _); cbn; auto.
  Qed.
  Lemma own_Z z : rel_own (eint z) (f_of_Z z).
  Proof. unfold eint. destruct (dy _); cbn; auto. destruct (dyeq _ _); cbn; auto. Qed.
  Definition own_sorts : Sorts Exactly A := mkSorts Exactly A rel_own rel_own rel_own rel_own rel_own rel_own rel_own rel_own.
  Lemma own_lawful c : c <> krCIP -> Lawful own_sorts c.
  Proof.
    intros HC.
    constructor; cbn -[rel_own]; intros; try contradiction; auto using own1, own2, own_sum, own_dot, own_Z; try exact I.
    all: try (right; right; left; exists unknown; apply unknown_poison; intros [a|] y E; try discriminate; [intros H'; hnf in H'; now subst|exact I]).
    all: first [exact (own_Z _)|apply own2; auto; exact (own_Z _)].
  Qed.

  Lemma xr2 ok f (g : xr -> xr -> xr) x y x' y' :
    (forall p q r, ok p q r = true -> g (Fin (val p)) (Fin (val q)) = Fin (val r)) ->
    rel_xr x y -> rel_xr x' y' -> rel_xr (known2 ok f x x') (g y y').
  Proof.
    intros H. destruct x as [a|], x' as [b|]; cbn; auto. intros (p & Ep & ->) (q & Eq & ->). rewrite Ep, Eq.
    destruct (dy (f a b)) as [r|] eqn:Er; cbn; auto. destruct (ok p q r) eqn:O; cbn; auto. exists r. split; auto.
  Qed.
  Lemma xr1 ok f (g : xr -> xr) x y :
    (forall p r, ok p r = true -> g (Fin (val p)) = Fin (val r)) -> rel_xr x y -> rel_xr (known1 ok f x) (g y).
  Proof.
    intros H. destruct x as [a|]; cbn; auto. intros (p & Ep & ->). rewrite Ep.
    destruct (dy (f a)) as [r|] eqn:Er; cbn; auto. destruct (ok p r) eqn:O; cbn; auto. exists r. split; auto.
  Qed.
  Lemma t_add p q r : ok_add p q r = true -> xadd (Fin (val p)) (Fin (val q)) = Fin (val r).
  Proof. intros H. apply dyeq_val in H. rewrite val_add in H. cbn. congruence. Qed.
  Lemma t_sub p q r : ok_sub p q r = true -> xsub (Fin (val p)) (Fin (val q)) = Fin (val r).
  Proof. intros H. apply dyeq_val in H. rewrite val_add, val_opp in H. unfold xsub. cbn. congruence. Qed.
  Lemma t_mul p q r : ok_mul p q r = true -> xmul (Fin (val p)) (Fin (val q)) = Fin (val r).
  Proof. intros H. apply dyeq_val in H. rewrite val_mul in H. cbn. congruence. Qed.
  Lemma val_nz q : zero q = false -> val q <> 0.
  Proof. unfold zero. rewrite Z.eqb_neq. intros H E. unfold val in E. apply Rmult_integral in E as [E|E]; [apply H; now apply eq_IZR|]. pose proof (bpow_gt_0 radix2 (snd q)). lra. Qed.
  Lemma t_div p q r : ok_div p q r = true -> xdiv (Fin (val p)) (Fin (val q)) = Fin (val r).
  Proof.
    intros H. apply andb_prop in H as [H1 H2]. apply negb_true_iff, val_nz in H1. apply dyeq_val in H2. rewrite val_mul in H2. cbn.
    destruct (Req_EM_T _ _); [contradiction|]. f_equal. rewrite <- H2. now field.
  Qed.
  Lemma t_opp p r : ok_opp p r = true -> xneg (Fin (val p)) = Fin (val r).
  Proof. intros H. apply dyeq_val in H. rewrite val_opp in H. cbn. congruence. Qed.
  Lemma t_sqrt p r : ok_sqrt p r = true -> xsqrt (Fin (val p)) = Fin (val r).
  Proof.
    intros H. apply andb_prop in H as [H1 H2]. apply Z.leb_le in H1. apply dyeq_val in H2. rewrite val_mul in H2. cbn.
    assert (Hr : 0 <= val r) by (apply Rmult_le_pos; [now apply IZR_le|apply bpow_ge_0]).
    rewrite <- H2. destruct (Rlt_dec _ _); [nra|]. now rewrite sqrt_square.
  Qed.
  Lemma t_min p q r : ok_min p q r = true -> xmin (Fin (val p)) (Fin (val q)) = Fin (val r).
  Proof.
    intros H. unfold ok_min in H. rewrite val_cmp in H. unfold xmin, xle.
    destruct (Rcompare_spec (val p) (val q)) as [K|K|K]; apply dyeq_val in H; destruct (Rle_dec _ _); try lra; congruence.
  Qed.
  Lemma t_max p q r : ok_max p q r = true -> xmax (Fin (val p)) (Fin (val q)) = Fin (val r).
  Proof.
    intros H. unfold ok_max in H. rewrite val_cmp in H. unfold xmax, xle.
    destruct (Rcompare_spec (val p) (val q)) as [K|K|K]; apply dyeq_val in H; destruct (Rle_dec _ _); try lra; congruence.
  Qed.
  Lemma xr_knowns l l' k ps : Forall2 rel_xr l l' -> knowns l = Some k -> dys k = Some ps -> l' = map (fun p => Fin (val p)) ps.
  Proof.
    intros H. revert k ps. induction H as [|x y l l' Hx _ IH]; cbn; intros k ps E E'; [injection E as <-; injection E' as <-; reflexivity|].
    destruct x as [a|]; [|discriminate]. destruct (knowns l) as [k0|]; [|discriminate]. injection E as <-. cbn in Hx, E'. destruct Hx as (p & Ep & ->).
    rewrite Ep in E'. destruct (dys k0) as [q|] eqn:Eq; [|discriminate]. injection E' as <-. cbn. f_equal. now apply (IH k0).
  Qed.
  Lemma xsum_fin ps : forall z, fold_left xadd (map (fun p => Fin (val p)) ps) (Fin (val z)) = Fin (val (fold_left dyadd ps z)).
  Proof. induction ps as [|p ps IH]; intros z; cbn; auto. rewrite <- val_add. apply IH. Qed.
  Lemma val_00 : val (0%Z, 0%Z) = 0. Proof. unfold val. cbn. ring. Qed.
  Lemma xsum_dy ps : xsum (map (fun p => Fin (val p)) ps) = Fin (val (dysum ps)).
  Proof. unfold xsum, dysum. rewrite <- val_00 at 1. apply xsum_fin. Qed.
  Lemma xdot_dy ps qs : xdot (map (fun p => Fin (val p)) ps) (map (fun p => Fin (val p)) qs) = map (fun p => Fin (val p)) (dyprods ps qs).
  Proof. revert qs. induction ps as [|p ps IH]; intros [|q qs]; cbn; auto. rewrite IH, val_mul. reflexivity. Qed.
  Lemma xr_sum f l l' : Forall2 rel_xr l l' -> rel_xr (esum f l) (xsum l').
  Proof.
    intros H. unfold esum. destruct (knowns l) as [k|] eqn:E; cbn; auto. destruct (dys k) as [ps|] eqn:Ed; cbn; auto.
    destruct (dy (f k)) as [r|] eqn:Er; cbn; auto. destruct (dyeq _ _) eqn:Q; cbn; auto. exists r. split; auto.
    rewrite (xr_knowns l l' k ps H E Ed), xsum_dy. now rewrite (dyeq_val _ _ Q).
  Qed.
  Lemma xr_dot f l l' k k' : Forall2 rel_xr l l' -> Forall2 rel_xr k k' -> rel_xr (edot f l k) (xsum (xdot l' k')).
  Proof.
    intros H K. unfold edot. destruct (knowns l) as [a|] eqn:E; cbn; auto. destruct (knowns k) as [b|] eqn:E'; cbn; auto.
    destruct (dys a) as [ps|] eqn:Ed; cbn; auto. destruct (dys b) as [qs|] eqn:Ed'; cbn; auto.
    destruct (dy (f a b)) as [r|] eqn:Er; cbn; auto. destruct (dyeq _ _) eqn:Q; cbn; auto. exists r. split; auto.
    rewrite (xr_knowns l l' a ps H E Ed), (xr_knowns k k' b qs K E' Ed'), xdot_dy, xsum_dy. now rewrite (dyeq_val _ _ Q).
  Qed.
  Lemma xr_Z z : rel_xr (eint z) (Fin (IZR z)).
  Proof.
    unfold eint. destruct (dy _) as [r|] eqn:E; cbn; auto. destruct (dyeq _ _) eqn:Q; cbn; auto. exists r. split; auto.
    apply dyeq_val in Q. rewrite <- Q. f_equal. unfold val. cbn. ring.
  Qed.
  Definition xr_sorts : Sorts Exactly XR := mkSorts Exactly XR rel_xr rel_xr rel_xr rel_xr rel_xr rel_xr rel_xr rel_xr.
  Context (Ht : forall x p, dy x = Some p -> ftrue x = negb (zero p)).
  Lemma xr_true x y : unknown x = false -> rel_xr x y -> ftrue (a := Exactly) x = xtrue y.
  Proof.
    destruct x as [a|]; [|discriminate]. intros _ (p & Ep & ->). cbn. rewrite (Ht a p Ep). destruct (zero p) eqn:Z; cbn.
    - unfold zero in Z. apply Z.eqb_eq in Z. destruct (Req_EM_T _ _) as [E|E]; auto. exfalso. apply E. unfold val. rewrite Z. ring.
    - apply val_nz in Z. destruct (Req_EM_T _ _); [contradiction|reflexivity].
  Qed.
  Lemma xr_lawful c : c <> krCIP -> Lawful xr_sorts c.
  Proof.
    intros HC.
    assert (HA : forall f x y x' y', rel_xr x y -> rel_xr x' y' -> rel_xr (known2 ok_add f x x') (xadd y y')) by (intros; apply xr2; auto using t_add).
    assert (HS : forall f x y x' y', rel_xr x y -> rel_xr x' y' -> rel_xr (known2 ok_sub f x x') (xsub y y')) by (intros; apply xr2; auto using t_sub).
    assert (HM : forall f x y x' y', rel_xr x y -> rel_xr x' y' -> rel_xr (known2 ok_mul f x x') (xmul y y')) by (intros; apply xr2; auto using t_mul).
    assert (HD : forall f x y x' y', rel_xr x y -> rel_xr x' y' -> rel_xr (known2 ok_div f x x') (xdiv y y')) by (intros; apply xr2; auto using t_div).
    assert (Hn : forall f x y x' y', rel_xr x y -> rel_xr x' y' -> rel_xr (known2 ok_min f x x') (xmin y y')) by (intros; apply xr2; auto using t_min).
    assert (Hx : forall f x y x' y', rel_xr x y -> rel_xr x' y' -> rel_xr (known2 ok_max f x x') (xmax y y')) by (intros; apply xr2; auto using t_max).
    constructor; cbn -[rel_xr xadd xsub xmul xdiv xmin xmax xneg xsqrt xsum xdot]; intros; try contradiction; auto using xr_sum, xr_dot, xr_Z; try exact I.
    all: try exact (xr_Z _).
    all: try (apply HM; auto; exact (xr_Z _)).
    - apply xr1; auto using t_opp.
    - right. right. left. exists unknown. apply unknown_poison; cbn -[xtrue rel_xr]; [exact xr_true|]. intros [a|] y E; [discriminate|exact I].
    - apply xr1; auto using t_sqrt.
  Qed.
End Exactly.
