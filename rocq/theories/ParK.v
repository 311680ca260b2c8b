(** * Two runs of the classes of compat/v0.py on related numbers

    As in ParL.v, with the sorts these classes need: samples and means ([kP]),
    inner products of different vectors ([kQ]), sums of squares ([kU]), the
    compactness ([kT]) and the rest ([kS]). *)
From Coq Require Import ZArith List Arith Bool Lia.
From Verif Require Import Num NumPy Compat CompatL Par.
Import ListNotations.
Local Notation length := List.length.

Record KSorts (A B : Arith) := mkKSorts {
  kP : F A -> F B -> Prop; kQ : F A -> F B -> Prop; kU : F A -> F B -> Prop; kT : F A -> F B -> Prop; kS : F A -> F B -> Prop }.
Arguments kP {A B}. Arguments kQ {A B}. Arguments kU {A B}. Arguments kT {A B}. Arguments kS {A B}.
Record KLaw {A B : Arith} (s : KSorts A B) : Prop := mkKLaw {
  k_Z : forall z, kS s (f_of_Z z) (f_of_Z z); k_P0 : kP s f0 f0; k_U0 : kU s f0 f0; k_inf : kS s finf finf;
  k_UT : forall x y, kU s x y -> kT s x y; k_TS : forall x y, kT s x y -> kS s x y; k_SQ : forall x y, kS s x y -> kQ s x y;
  k_Padd : forall x y x' y', kP s x y -> kP s x' y' -> kP s (fadd x x') (fadd y y');
  k_Psub : forall x y x' y', kP s x y -> kP s x' y' -> kP s (fsub x x') (fsub y y');
  k_Pmul : forall x y x' y', kS s x y -> kP s x' y' -> kP s (fmul x x') (fmul y y');
  k_Pdiv : forall x y x' y', kP s x y -> kS s x' y' -> kP s (fdiv x x') (fdiv y y');
  k_Psum : forall l l', Forall2 (kP s) l l' -> kP s (np_sum l) (np_sum l');
  k_self : forall l l', Forall2 (kP s) l l' -> kU s (np_dot l l) (np_dot l' l');
  k_dot : forall l l' k k', Forall2 (kP s) l l' -> Forall2 (kP s) k k' -> kQ s (np_dot l k) (np_dot l' k');
  k_abs : forall x y, kP s x y -> kU s (fabs x) (fabs y);
  k_Usum : forall l l', Forall2 (kU s) l l' -> kU s (np_sum l) (np_sum l');
  k_sqrt : forall x y, kU s x y -> kU s (fsqrt x) (fsqrt y);
  k_pow : forall p x y, p = 1 \/ p = 2 -> kU s x y -> kU s (powi x p) (powi y p);
  k_powS : forall p x y, p = 1 \/ p = 2 -> kS s x y -> kS s (powi x p) (powi y p);
  k_powQ : forall p x y, p = 1 \/ p = 2 -> kQ s x y -> kQ s (powi (fsqrt (fmul f2 x)) p) (powi (fsqrt (fmul f2 y)) p);
  k_Uadd : forall x y x' y', kU s x y -> kU s x' y' -> kU s (fadd x x') (fadd y y');
  k_Umul : forall k x y, kU s x y -> kU s (fmul (f_of_nat k) x) (fmul (f_of_nat k) y);
  k_Usub : forall x y x' y', kU s x y -> kQ s x' y' -> kS s (fsub x x') (fsub y y');
  k_Tadd : forall x y x' y', kT s x y -> kQ s x' y' -> kT s (fadd x x') (fadd y y');
  k_Qmul : forall x y x' y', kS s x y -> kQ s x' y' -> kQ s (fmul x x') (fmul y y');
  k_Sadd : forall x y x' y', kS s x y -> kS s x' y' -> kS s (fadd x x') (fadd y y');
  k_Ssub : forall x y x' y', kS s x y -> kS s x' y' -> kS s (fsub x x') (fsub y y');
  k_Smul : forall x y x' y', kS s x y -> kS s x' y' -> kS s (fmul x x') (fmul y y');
  k_Sdiv : forall x y x' y', kS s x y -> kS s x' y' -> kS s (fdiv x x') (fdiv y y');
  k_Sneg : forall x y, kS s x y -> kS s (fneg x) (fneg y);
  k_Smin : forall x y x' y', kS s x y -> kS s x' y' -> kS s (fminimum x x') (fminimum y y');
  k_Smax : forall x y x' y', kS s x y -> kS s x' y' -> kS s (fmaximum x x') (fmaximum y y');
  k_Spmin : forall x y x' y', kS s x y -> kS s x' y' -> kS s (py_min2 x x') (py_min2 y y');
  k_Spmax : forall x y x' y', kS s x y -> kS s x' y' -> kS s (py_max2 x x') (py_max2 y y');
  k_Ssum : forall l l', Forall2 (kS s) l l' -> kS s (np_sum l) (np_sum l')
}.

(** ** Statements *)
Definition rSM {S S' X Y} (RS : S -> S' -> Prop) (RX : X -> Y -> Prop) (m : SM S X) (m' : SM S' Y) : Prop :=
  forall o o', RS o o' -> RS (fst (m o)) (fst (m' o')) /\ rE RX (snd (m o)) (snd (m' o')).
Definition ropt {X Y} (R : X -> Y -> Prop) (a : option X) (b : option Y) : Prop :=
  match a, b with Some x, Some y => R x y | None, None => True | _, _ => False end.
Section SMs.
  Context {S S' : Type} (RS : S -> S' -> Prop).
  Lemma rs_ret {X Y} (RX : X -> Y -> Prop) x y : RX x y -> rSM RS RX (sret x) (sret y).
  Proof. intros H o o' Ho. split; auto. Qed.
  Lemma rs_lift {X Y} (RX : X -> Y -> Prop) x y : rE RX x y -> rSM RS RX (slift x) (slift y).
  Proof. intros H o o' Ho. split; auto. Qed.
  Lemma rs_bind {X Y X' Y'} (RX : X -> Y -> Prop) (RY : X' -> Y' -> Prop) m m' k k' :
    rSM RS RX m m' -> (forall x y, RX x y -> rSM RS RY (k x) (k' y)) -> rSM RS RY (sbind m k) (sbind m' k').
  Proof.
    intros H K o o' Ho. unfold sbind. destruct (H o o' Ho) as [H1 H2]. destruct (m o) as [o1 [x|e]], (m' o') as [o1' [y|e']]; cbn in *; try contradiction; [now apply K|]. auto.
  Qed.
  Lemma rs_get {X Y} (RY : X -> Y -> Prop) k k' : (forall o o', RS o o' -> rSM RS RY (k o) (k' o')) -> rSM RS RY (sbind sget k) (sbind sget k').
  Proof. intros K. apply (rs_bind RS); auto. intros o o' Ho. split; auto. Qed.
  Lemma rs_mod f g : (forall o o', RS o o' -> RS (f o) (g o')) -> rSM RS eq (smod f) (smod g).
  Proof. intros H o o' Ho. split; [now apply H|reflexivity]. Qed.
  Lemma rs_for {I} (l : list I) b b' : (forall i, In i l -> rSM RS eq (b i) (b' i)) -> rSM RS eq (sfor l b) (sfor l b').
  Proof. induction l as [|i l IH]; intros H; cbn; [now apply rs_ret|]. apply (rs_bind eq); [apply H; now left|]. intros _ _ _. apply IH. intros. apply H. now right. Qed.
  Lemma rs_if {X Y} (RX : X -> Y -> Prop) (b b' : bool) m m' k k' : b = b' -> rSM RS RX m m' -> rSM RS RX k k' -> rSM RS RX (if b then m else k) (if b' then m' else k').
  Proof. intros ->. now destruct b'. Qed.
  Lemma rs_hist {I J X Y} (RI : I -> J -> Prop) (RX : X -> Y -> Prop) step step' : (forall i j, RI i j -> rSM RS RX (step i) (step' j)) ->
    forall h h', Forall2 RI h h' -> forall o o', RS o o' ->
    RS (chist_after step o h) (chist_after step' o' h') /\ Forall2 (rE RX) (chist_results step o h) (chist_results step' o' h').
  Proof.
    intros H h h' Hh. unfold chist_after, chist_results. induction Hh as [|i j h h' Hi _ IH]; intros o o' Ho; cbn; auto.
    destruct (H i j Hi o o' Ho) as [H1 H2]. destruct (step i o) as [o1 r], (step' j o') as [o1' r']. cbn in *.
    destruct (IH o1 o1' H1) as [H3 H4]. destruct (chist step o1 h), (chist step' o1' h'). cbn in *. auto.
  Qed.
End SMs.
Lemma eq_F2 {X} (l : list X) : Forall2 eq l l. Proof. induction l; auto. Qed.
Lemma par_py_get {X Y} (R : X -> Y -> Prop) l l' c : Forall2 R l l' -> rE R (py_get l c) (py_get l' c).
Proof. intros H. unfold py_get. rewrite (par_length R l l' H). destruct (py_index _ c); cbn; auto. now apply par_get_item. Qed.
Lemma par_py_set {X Y} (R : X -> Y -> Prop) l l' c x y : Forall2 R l l' -> R x y -> rE (Forall2 R) (py_set l c x) (py_set l' c y).
Proof. intros H E. unfold py_set. rewrite (par_length R l l' H). destruct (py_index _ c); cbn; auto. now apply par_upd. Qed.
Lemma rE_eq {X} (a : E X) : rE eq a a. Proof. destruct a; cbn; auto. Qed.

Section K.
  Context {A B : Arith} (s : KSorts A B) (W : KLaw s).
  Notation P := (kP s). Notation Q := (kQ s). Notation U := (kU s). Notation T := (kT s). Notation S_ := (kS s).
  Notation Ps := (Forall2 P).
  Definition k_nat n : S_ (f_of_nat n) (f_of_nat n) := k_Z s W (Z.of_nat n).
  Lemma k_S0 : S_ f0 f0. Proof. apply (k_Z s W). Qed.
  Lemma k_T0 : T f0 f0. Proof. apply (k_UT s W), (k_U0 s W). Qed.
  Lemma k_US x y : U x y -> S_ x y. Proof. intros. apply (k_TS s W), (k_UT s W). auto. Qed.
  Lemma k_UQ x y : U x y -> Q x y. Proof. intros. apply (k_SQ s W), k_US. auto. Qed.
  Lemma p_vsub a b a' b' : Ps a b -> Ps a' b' -> rE Ps (vsub a a') (vsub b b').
  Proof. apply par_bc. apply (k_Psub s W). Qed.
  Lemma p_vadd a b a' b' : Ps a b -> Ps a' b' -> rE Ps (vadd a a') (vadd b b').
  Proof. apply par_bc. apply (k_Padd s W). Qed.
  Lemma p_iadd a b a' b' : Ps a b -> Ps a' b' -> rE Ps (iadd a a') (iadd b b').
  Proof.
    intros H H'. unfold iadd. apply (par_bindE Ps); [now apply p_vadd|]. intros x y Hx. rewrite (par_length P x y Hx), (par_length P a b H). destruct (_ =? _); cbn; auto.
  Qed.
  Lemma p_vdivn a b n : Ps a b -> Ps (vdivn a n) (vdivn b n).
  Proof. apply par_map. intros. apply (k_Pdiv s W); auto. apply k_nat. Qed.
  Lemma p_scal a b n : Ps a b -> Ps (scal (f_of_nat n) a) (scal (f_of_nat n) b).
  Proof. apply par_map. intros. apply (k_Pmul s W); auto. apply k_nat. Qed.
  Lemma p_inner a b a' b' : Ps a b -> Ps a' b' -> rE Q (inner a a') (inner b b').
  Proof. intros H H'. unfold inner. rewrite (par_length P a b H), (par_length P a' b' H'). destruct (_ =? _); cbn; auto. now apply (k_dot s W). Qed.
  Lemma p_norm q a b : Ps a b -> U (norm q a) (norm q b).
  Proof.
    intros H. unfold norm, norm_1, norm_2. destruct (q =? 1).
    - apply (k_Usum s W). apply (par_map P); auto. apply (k_abs s W).
    - apply (k_sqrt s W), (k_self s W). auto.
  Qed.
  Lemma p_norm22 a b : Ps a b -> U (norm22 a) (norm22 b).
  Proof. intros H. unfold norm22. apply (k_pow s W); auto. apply (p_norm 2 _ _ H). Qed.
  Definition rCP (x : F A * list (F A) * list (F A) * nat) (y : F B * list (F B) * list (F B) * nat) : Prop :=
    rpair (rpair (rpair T Ps) Ps) eq x y.
  Lemma p_CP x y v v' n g g' c c' p q : p = 1 \/ p = 2 -> Ps x y -> Ps v v' -> ropt Ps g g' -> T c c' -> rE rCP (CP_update x v n g c p q) (CP_update y v' n g' c' p q).
  Proof.
    intros Hp Hx Hv Hg Hc. unfold CP_update. rewrite (par_length P x y Hx).
    assert (HG : Ps (match g with None => zeros (length y) | Some g => g end) (match g' with None => zeros (length y) | Some g => g end)).
    { destruct g, g'; cbn in Hg; try contradiction; auto. apply par_zeros, (k_P0 s W). }
    apply (par_bindE Ps); [now apply p_vsub|intros a b Ha].
    apply (par_bindE Ps); [apply p_vadd; auto; now apply p_vdivn|intros v1 v1' Hv1].
    apply (par_bindE Ps); [now apply p_vsub|intros dv dv' Hdv].
    apply (par_bindE Ps); [now apply p_vsub|intros z z' Hz].
    apply (par_bindE Ps); [now apply p_vadd|intros g1 g1' Hg1].
    apply (par_bindE Ps); [apply p_vadd; auto; now apply p_scal|intros g2 g2' Hg2].
    apply (par_bindE Q); [now apply p_inner|intros d d' Hd].
    repeat split; cbn; auto.
    apply (k_Tadd s W); [|now apply (k_powQ s W)]. apply (k_Tadd s W); [apply (k_Tadd s W); auto|].
    - apply k_UQ, (k_pow s W); auto. now apply p_norm.
    - apply k_UQ, (k_Umul s W), (k_pow s W); auto. now apply p_norm.
  Qed.
  Lemma p_center x y v v' n : Ps x y -> Ps v v' -> rE (rpair Ps eq) (cluster_center_update x v n) (cluster_center_update y v' n).
  Proof.
    intros Hx Hv. unfold cluster_center_update.
    apply (par_bindE Ps); [now apply p_vsub|intros a b Ha].
    apply (par_bindE Ps); [apply p_vadd; auto; now apply p_vdivn|intros v1 v1' Hv1]. repeat split; auto.
  Qed.
  Lemma p_dist c c' a b : Forall2 Ps c c' -> rE U (center_dist c a b) (center_dist c' a b).
  Proof.
    intros H. unfold center_dist. apply (par_bindE Ps); [now apply par_py_get|intros]. apply (par_bindE Ps); [now apply par_py_get|intros].
    apply (par_bindE Ps); [now apply p_vsub|intros]. now apply p_norm22.
  Qed.
  Lemma p_pad (R : F A -> F B -> Prop) x y m m' : R f0 f0 -> R x y -> rmat R m m' -> rmat R (pad x m) (pad y m').
  Proof.
    intros H0 H Hm. unfold pad. rewrite (par_nrows R m m' Hm), (proj1 Hm). apply par_tab2. intros i j. destruct (_ && _); auto. now apply par_entry.
  Qed.
  Lemma p_mget (R : F A -> F B -> Prop) m m' i j : R f0 f0 -> rmat R m m' -> rE R (mget m i j) (mget m' i j).
  Proof.
    intros H0 Hm. unfold mget. rewrite (par_nrows R m m' Hm), (proj1 Hm). destruct (py_index _ i); cbn; auto. destruct (py_index _ j); cbn; auto. now apply par_entry.
  Qed.
  Lemma p_mset (R : F A -> F B -> Prop) m m' i j x y : rmat R m m' -> R x y -> rE (rmat R) (mset m i j x) (mset m' i j y).
  Proof.
    intros Hm H. unfold mset. rewrite (par_nrows R m m' Hm), (proj1 Hm). destruct (py_index _ i); cbn; auto. destruct (py_index _ j); cbn; auto.
    split; cbn; auto. apply par_upd; [apply Hm|]. apply par_upd; auto. now apply par_nthrow.
  Qed.
  Lemma p_pysum l l' : Forall2 S_ l l' -> S_ (py_sum l) (py_sum l').
  Proof. intros H. unfold py_sum. apply par_fold; auto; [apply (k_Sadd s W)|apply k_S0]. Qed.

  (** what a proof of a step does: follow the statements *)
  Ltac mod_ t := apply rs_mod; intros ? ? []; constructor; cbn; auto; t.
  Ltac md t := eapply rs_bind; [mod_ t|intros _ _ _].

  (** ** iXB *)
  Record RXB (o : iXB (A := A)) (o' : iXB (A := B)) : Prop := mkRXB {
    r_xb1 : S_ (xb_min_v o) (xb_min_v o'); r_xb2 : Forall2 S_ (xb_min_v_i o) (xb_min_v_i o'); r_xb3 : xb_N o = xb_N o';
    r_xb4 : S_ (xb_WGSS o) (xb_WGSS o'); r_xb5 : Forall2 T (xb_WGSS_i o) (xb_WGSS_i o'); r_xb6 : S_ (xb_output o) (xb_output o');
    r_xb7 : Forall2 Ps (xb_centers o) (xb_centers o'); r_xb8 : xb_sizes o = xb_sizes o'; r_xb9 : ropt Ps (xb_g o) (xb_g o') }.
  Lemma rs_sizes {S S'} (RS : S -> S' -> Prop) l l' c : l = l' -> rSM RS eq (slift (py_get (X := nat) l c)) (slift (py_get l' c)).
  Proof. intros ->. apply rs_lift, rE_eq. Qed.
  Lemma rs_sizes_set {S S'} (RS : S -> S' -> Prop) l l' c n n' : l = l' -> n = n' -> rSM RS eq (slift (py_set (X := nat) l c n)) (slift (py_set l' c n')).
  Proof. intros -> ->. apply rs_lift, rE_eq. Qed.
  Lemma rs_getR {S S' X Y} (RS : S -> S' -> Prop) (R : X -> Y -> Prop) l l' c : Forall2 R l l' -> rSM RS R (slift (py_get l c)) (slift (py_get l' c)).
  Proof. intros. apply rs_lift. now apply par_py_get. Qed.
  Lemma rs_setR {S S' X Y} (RS : S -> S' -> Prop) (R : X -> Y -> Prop) l l' c x y : Forall2 R l l' -> R x y -> rSM RS (Forall2 R) (slift (py_set l c x)) (slift (py_set l' c y)).
  Proof. intros. apply rs_lift. now apply par_py_set. Qed.
  Lemma rs_CP {S S'} (RS : S -> S' -> Prop) x y v v' n n' g g' c c' p q : p = 1 \/ p = 2 -> Ps x y -> Ps v v' -> n = n' -> ropt Ps g g' -> T c c' ->
    rSM RS rCP (slift (CP_update x v n g c p q)) (slift (CP_update y v' n' g' c' p q)).
  Proof. intros ? ? ? -> ? ?. apply rs_lift. now apply p_CP. Qed.
  Lemma rs_cc {S S'} (RS : S -> S' -> Prop) x y v v' n n' : Ps x y -> Ps v v' -> n = n' ->
    rSM RS (rpair Ps eq) (slift (cluster_center_update x v n)) (slift (cluster_center_update y v' n')).
  Proof. intros ? ? ->. apply rs_lift. now apply p_center. Qed.
  Lemma xb_place x y c : Ps x y -> rSM RXB eq (iXB_place x c) (iXB_place y c).
  Proof.
    intros Hx. unfold iXB_place.
    md ltac:(lia).
    apply rs_get. intros o o' Ho. pose proof Ho as [? ? ? ? ? ? ? Es ?].
    apply (rs_bind _ eq).
    - rewrite Es. apply rs_if; [reflexivity| |apply rs_if; [reflexivity|apply rs_lift; reflexivity|]].
      + md ltac:(now apply par_snoc).
        md ltac:(idtac).
        md ltac:(apply par_snoc; auto using k_T0).
        apply rs_mod; intros ? ? []; constructor; cbn; auto; apply par_snoc; auto. apply (k_inf s W).
      + eapply rs_bind; [apply rs_getR; eassumption|intros w w' Hw].
        md ltac:(apply (k_Ssub s W); auto; now apply (k_TS s W)).
        eapply rs_bind; [apply rs_getR; eassumption|intros v v' Hv].
        eapply rs_bind; [now apply rs_sizes|intros n n' ->].
        eapply rs_bind; [apply rs_CP; auto|]. intros [[[cp g] v1] n1] [[[cp' g'] v1'] n1'] [[[Hcp Hg] Hv1] En]. cbn in Hcp, Hg, Hv1, En. subst n1'.
        eapply rs_bind; [apply rs_setR; eassumption|intros l1 l1' Hl1].
        md ltac:(idtac).
        md ltac:(idtac).
        eapply rs_bind; [apply rs_setR; eassumption|intros l2 l2' Hl2].
        md ltac:(idtac).
        eapply rs_bind; [apply rs_sizes_set; reflexivity|intros l3 ? <-].
        apply rs_mod; intros ? ? []; constructor; cbn; auto.
    - intros _ _ _. apply rs_get. intros o1 o1' [? ? ? ? ? ? ? ? ?].
      eapply rs_bind; [apply rs_getR; eassumption|intros w w' Hw].
      apply rs_mod; intros ? ? []; constructor; cbn; auto. apply (k_Sadd s W); auto; now apply (k_TS s W).
  Qed.
  Lemma rs_dist {S S'} (RS : S -> S' -> Prop) c c' a b : Forall2 Ps c c' -> rSM RS U (slift (center_dist c a b)) (slift (center_dist c' a b)).
  Proof. intros. apply rs_lift. now apply p_dist. Qed.
  Lemma xb_value c : rSM RXB S_ (iXB_value c) (iXB_value c).
  Proof.
    unfold iXB_value. apply rs_get. intros o o' [? ? ? ? ? ? Hc ? ?]. rewrite (par_length _ _ _ Hc).
    eapply rs_bind; [apply rs_setR; [eassumption|apply (k_inf s W)]|intros l l' Hl].
    md ltac:(idtac).
    eapply rs_bind; [apply rs_for; intros j _|intros _ _ _].
    { apply rs_get. intros o1 o1' [? ? ? ? ? ? ? ? ?].
      eapply rs_bind; [apply rs_getR; eassumption|intros m m' Hm].
      eapply rs_bind; [apply rs_dist; eassumption|intros d d' Hd].
      eapply rs_bind; [apply rs_setR; [eassumption|apply (k_Smin s W); auto using k_US]|intros l1 l1' Hl1].
      mod_ ltac:(idtac). }
    apply rs_get. intros o1 o1' [? ? ? ? ? ? ? ? ?].
    eapply rs_bind; [apply rs_getR; eassumption|intros m m' Hm].
    md ltac:(apply (k_Spmin s W); auto).
    apply rs_get. intros o2 o2' [? ? EN ? ? ? ? ? ?].
    md ltac:(rewrite EN; apply (k_Sdiv s W); auto; apply (k_Sdiv s W); auto using k_nat).
    apply rs_get. intros o3 o3' []. now apply rs_ret.
  Qed.
  Lemma par_iXB x y c : Ps x y -> rSM RXB S_ (iXB_update x c) (iXB_update y c).
  Proof. intros. unfold iXB_update. eapply rs_bind; [now apply xb_place|intros _ _ _; apply xb_value]. Qed.

  (** ** iPS *)
  Record RPS (o : iPS (A := A)) (o' : iPS (A := B)) : Prop := mkRPS {
    r_ps1 : ropt P (ps_mean o) (ps_mean o'); r_ps2 : ps_max o = ps_max o'; r_ps3 : S_ (ps_output o) (ps_output o');
    r_ps4 : Forall2 S_ (ps_PS_i o) (ps_PS_i o'); r_ps5 : Forall2 Ps (ps_centers o) (ps_centers o'); r_ps6 : ps_sizes o = ps_sizes o' }.
  Lemma p_sum_centers c c' : Forall2 Ps c c' -> rE P (sum_centers c) (sum_centers c').
  Proof.
    intros H. unfold sum_centers. assert (E : forall n, forallb (fun b => length b =? n) c = forallb (fun b => length b =? n) c').
    { intros n. induction H as [|x y l l' Hx _ IH]; cbn; auto. now rewrite IH, (par_length _ _ _ Hx). }
    pose proof (par_concat P c c' H) as HC. destruct H as [|x y l l' Hx Hl]; cbn [rE].
    - apply (k_Psum s W). constructor.
    - rewrite E, (par_length _ _ _ Hx). destruct (forallb _ _); cbn [rE]; auto. now apply (k_Psum s W).
  Qed.
  Definition p_gen (g : list (F A) -> E (F A)) (g' : list (F B) -> E (F B)) : Prop := forall l l', Forall2 U l l' -> rE S_ (g l) (g' l').
  Definition p_exp : Prop := forall x y, S_ x y -> S_ (fexp x) (fexp y).
  Lemma par_iPS g g' x y c : p_exp -> p_gen g g' -> Ps x y -> rSM RPS S_ (iPS_update g x c) (iPS_update g' y c).
  Proof.
    intros HE HG Hx. unfold iPS_update. apply rs_get. intros o o' [? ? ? ? Hc Es]. rewrite (par_length _ _ _ Hc), Es.
    eapply rs_bind; [apply rs_if; [reflexivity| |]|intros _ _ _].
    { md ltac:(now apply par_snoc). md ltac:(idtac). mod_ ltac:(apply par_snoc; auto using k_S0). }
    { eapply rs_bind; [apply rs_getR; eassumption|intros v v' Hv].
      eapply rs_bind; [apply rs_sizes; reflexivity|intros n n' ->].
      eapply rs_bind; [apply rs_cc; auto|]. intros [v1 n1] [v1' n1'] [Hv1 En]. cbn in Hv1, En. subst n1'.
      eapply rs_bind; [apply rs_setR; eassumption|intros l1 l1' Hl1].
      md ltac:(idtac).
      eapply rs_bind; [apply rs_sizes_set; reflexivity|intros l2 ? <-].
      mod_ ltac:(idtac). }
    apply rs_get. intros o1 o1' [? Em1 ? ? Hc1 Es1].
    eapply rs_bind; [apply rs_sizes; auto|intros n n' ->].
    md ltac:(now rewrite Em1).
    apply rs_get. intros o2 o2' [? Em2 ? ? Hc2 Es2]. rewrite (par_length _ _ _ Hc2).
    eapply rs_bind; [apply rs_lift, (par_mapE_seq U); intros j _; now apply p_dist|intros b b' Hb].
    eapply rs_bind; [|intros _ _ _; apply rs_get; intros o3 o3' []; now apply rs_ret].
    assert (Hb' : Forall2 S_ b b') by (apply (par_mono U); auto using k_US).
    pose proof (par_min S_ b b' (k_Smin s W) Hb') as Hm. destruct Hb as [|b0 b0' bl bl' Hb0 Hbl].
    - eapply rs_bind; [apply rs_setR; [eassumption|apply k_S0]|intros l l' Hl]. md ltac:(idtac).
      apply rs_get. intros o3 o3' []. mod_ ltac:(now apply (k_Ssum s W)).
    - eapply rs_bind; [apply rs_lift; exact Hm|intros mn mn' Hmn].
      eapply rs_bind; [apply rs_lift, p_sum_centers; exact Hc2|intros t t' Ht]. cbv zeta.
      pose proof (k_Pdiv s W _ _ _ _ Ht (k_nat (length (ps_centers o2')))) as Hmean.
      md ltac:(idtac).
      eapply rs_bind; [apply rs_lift, HG|intros sm sm' Hsm].
      { apply (par_map Ps); auto. intros. apply p_norm22. apply (par_map P); auto. intros. now apply (k_Psub s W). }
      eapply rs_bind; [apply rs_sizes; auto|intros n1 n1' ->]. rewrite Em2.
      eapply rs_bind; [apply rs_setR; [eassumption|]|intros l l' Hl].
      { apply (k_Ssub s W); [apply (k_Sdiv s W); apply k_nat|]. apply HE. apply (k_Sdiv s W); [now apply (k_Sneg s W)|]. apply (k_Sdiv s W); auto using k_nat. }
      mod_ ltac:(idtac).
  Qed.

  (** ** iCH *)
  Record RCH (o : iCH (A := A)) (o' : iCH (A := B)) : Prop := mkRCH {
    r_ch1 : ch_clusters o = ch_clusters o'; r_ch2 : S_ (ch_WGSS o) (ch_WGSS o'); r_ch3 : Forall2 T (ch_WGSS_i o) (ch_WGSS_i o');
    r_ch4 : S_ (ch_BGSS o) (ch_BGSS o'); r_ch5 : Forall2 S_ (ch_BGSS_i o) (ch_BGSS_i o'); r_ch6 : S_ (ch_output o) (ch_output o');
    r_ch7 : ropt Ps (ch_center o) (ch_center o'); r_ch8 : ch_N o = ch_N o'; r_ch9 : Forall2 Ps (ch_centers o) (ch_centers o');
    r_ch10 : ch_sizes o = ch_sizes o'; r_ch11 : ropt Ps (ch_g o) (ch_g o') }.
  Lemma ch_mean x y : Ps x y -> rSM RCH eq (iCH_mean x) (iCH_mean y).
  Proof.
    intros Hx. unfold iCH_mean. md ltac:(lia). apply rs_get. intros o o' [? ? ? ? ? ? Hc EN ? ? ?]. rewrite EN.
    apply (rs_bind _ Ps); [apply rs_lift|intros t t' Ht; mod_ ltac:(now apply p_vdivn)].
    destruct (ch_center o), (ch_center o'); cbn in Hc; try contradiction.
    - apply p_vadd; auto. now apply p_scal.
    - cbn [rE]. apply (par_map P); auto. intros. apply (k_Padd s W); auto. apply (k_Pmul s W); [apply k_nat|apply (k_P0 s W)].
  Qed.
  Lemma ch_place x y c : Ps x y -> rSM RCH eq (iCH_place x c) (iCH_place y c).
  Proof.
    intros Hx. unfold iCH_place. apply rs_get. intros o o' [Ek ? ? ? ? ? ? ? ? Es ?]. rewrite Ek, Es.
    apply rs_if; [reflexivity| |apply rs_if; [reflexivity|apply rs_lift; reflexivity|]].
    - md ltac:(now apply par_snoc). md ltac:(idtac). md ltac:(apply par_snoc; auto using k_T0). mod_ ltac:(apply par_snoc; auto using k_S0).
    - eapply rs_bind; [apply rs_getR; eassumption|intros w w' Hw].
      md ltac:(apply (k_Ssub s W); auto; now apply (k_TS s W)).
      eapply rs_bind; [apply rs_getR; eassumption|intros v v' Hv].
      eapply rs_bind; [apply rs_sizes; reflexivity|intros n n' ->].
      eapply rs_bind; [apply rs_CP; auto|]. intros [[[cp g] v1] n1] [[[cp' g'] v1'] n1'] [[[Hcp Hg] Hv1] En]. cbn in Hcp, Hg, Hv1, En. subst n1'.
      eapply rs_bind; [apply rs_setR; eassumption|intros l1 l1' Hl1]. md ltac:(idtac). md ltac:(idtac).
      eapply rs_bind; [apply rs_setR; eassumption|intros l2 l2' Hl2]. md ltac:(idtac).
      eapply rs_bind; [apply rs_sizes_set; reflexivity|intros l3 ? <-]. md ltac:(idtac).
      apply rs_get. intros o1 o1' []. eapply rs_bind; [apply rs_getR; eassumption|intros w1 w1' Hw1].
      mod_ ltac:(apply (k_Sadd s W); auto; now apply (k_TS s W)).
  Qed.
  Lemma ch_value c : rSM RCH S_ (iCH_value c) (iCH_value c).
  Proof.
    unfold iCH_value. apply rs_get. intros o o' [? ? ? ? ? ? Hc ? ? Es ?].
    eapply rs_bind; [apply rs_getR; eassumption|intros b b' Hb].
    md ltac:(now apply (k_Ssub s W)).
    eapply rs_bind; [apply rs_sizes; auto|intros n n' ->].
    eapply rs_bind; [apply rs_getR; eassumption|intros v v' Hv].
    eapply rs_bind; [apply rs_lift, p_vsub; [exact Hv|]|intros d d' Hd].
    { destruct (ch_center o), (ch_center o'); cbn in Hc; try contradiction; auto. }
    eapply rs_bind; [apply rs_setR; [eassumption|apply k_US, (k_Umul s W); now apply p_norm22]|intros l l' Hl].
    md ltac:(idtac). apply rs_get. intros o1 o1' []. eapply rs_bind; [apply rs_getR; eassumption|intros b1 b1' Hb1].
    md ltac:(now apply (k_Sadd s W)). apply rs_get. intros o2 o2' [? ? ? ? ? ? ? EN Hcs ? ?]. rewrite EN, (par_length _ _ _ Hcs). cbv zeta.
    eapply rs_bind; [|intros _ _ _; apply rs_get; intros o3 o3' []; now apply rs_ret].
    mod_ ltac:(idtac). destruct (_ && _); [|apply k_S0]. apply (k_Sdiv s W); apply (k_Sdiv s W); auto using k_nat.
  Qed.
  Lemma par_iCH x y c : Ps x y -> rSM RCH S_ (iCH_update x c) (iCH_update y c).
  Proof. intros. unfold iCH_update. eapply rs_bind; [now apply ch_mean|intros _ _ _]. eapply rs_bind; [now apply ch_place|intros _ _ _; apply ch_value]. Qed.

  (** ** iGD *)
  Record RGD (o : iGD (A := A)) (o' : iGD (A := B)) : Prop := mkRGD {
    r_gd1 : gd_t o = gd_t o'; r_gd2 : rmat S_ (gd_d o) (gd_d o'); r_gd3 : Forall2 S_ (gd_D o) (gd_D o'); r_gd4 : S_ (gd_output o) (gd_output o');
    r_gd5 : Forall2 Ps (gd_centers o) (gd_centers o'); r_gd6 : gd_sizes o = gd_sizes o'; r_gd7 : ropt Ps (gd_g o) (gd_g o');
    r_gd8 : Forall2 T (gd_CP o) (gd_CP o') }.
  Lemma par_iGD x y c : Ps x y -> rSM RGD S_ (iGD_update x c) (iGD_update y c).
  Proof.
    intros Hx. unfold iGD_update. apply rs_get. intros o o' [? ? ? ? Hc Es ? ?]. rewrite (par_length _ _ _ Hc), Es.
    eapply rs_bind; [apply rs_if; [reflexivity| |apply rs_if; [reflexivity|apply rs_lift; reflexivity|]]|intros _ _ _; apply rs_get; intros ? ? []; now apply rs_ret].
    - md ltac:(now apply par_snoc). md ltac:(idtac). md ltac:(apply par_snoc; auto using k_T0).
      md ltac:(apply p_pad; auto using k_S0; apply (k_inf s W)). mod_ ltac:(apply par_snoc; auto; apply (k_Sneg s W), (k_inf s W)).
    - eapply rs_bind; [apply rs_getR; eassumption|intros v v' Hv].
      eapply rs_bind; [apply rs_sizes; reflexivity|intros n n' ->].
      eapply rs_bind; [apply rs_getR; eassumption|intros w w' Hw].
      eapply rs_bind; [apply rs_CP; auto|]. intros [[[cp g] v1] n1] [[[cp' g'] v1'] n1'] [[[Hcp Hg] Hv1] En]. cbn in Hcp, Hg, Hv1, En. subst n1'.
      eapply rs_bind; [apply rs_setR; eassumption|intros l1 l1' Hl1]. md ltac:(idtac). md ltac:(idtac).
      eapply rs_bind; [apply rs_setR; eassumption|intros l2 l2' Hl2]. md ltac:(idtac).
      eapply rs_bind; [apply rs_sizes_set; reflexivity|intros l3 ? <-]. md ltac:(idtac).
      apply rs_get. intros o1 o1' [? ? ? ? Hc1 ? ? ?]. rewrite (par_length _ _ _ Hc1).
      eapply rs_bind; [apply rs_for; intros j _|intros _ _ _].
      { apply rs_get. intros o2 o2' [Et ? ? ? ? Es2 ? ?]. rewrite Et, Es2.
        apply (rs_bind _ S_); [apply rs_lift|intros z z' Hz].
        { destruct (_ =? _); [apply (rE_mono U); [apply k_US|now apply p_dist]|].
          apply (par_bindE T); [now apply par_py_get|intros a a' Ha]. apply (par_bindE T); [now apply par_py_get|intros b b' Hb].
          apply (par_bindE eq); [apply rE_eq|intros na ? <-]. apply (par_bindE eq); [apply rE_eq|intros nb ? <-].
          cbn. apply (k_Sdiv s W); [|apply k_nat]. apply (k_Sadd s W); now apply (k_TS s W). }
        apply (rs_bind _ (rmat S_)); [apply rs_lift, p_mset; auto|intros d1 d1' Hd1]. md ltac:(idtac).
        apply (rs_bind _ S_); [apply rs_lift, p_mget; auto using k_S0|intros z1 z1' Hz1].
        apply (rs_bind _ (rmat S_)); [apply rs_lift, p_mset; auto|intros d2 d2' Hd2]. mod_ ltac:(idtac). }
      apply rs_get. intros o2 o2' [].
      eapply rs_bind; [apply rs_getR; eassumption|intros w1 w1' Hw1].
      eapply rs_bind; [apply rs_sizes; auto|intros n2 n2' ->].
      apply (rs_bind _ S_); [apply rs_lift; reflexivity|intros len len' Hlen].
      eapply rs_bind; [apply rs_setR; [eassumption|]|intros l4 l4' Hl4].
      { apply (k_Sdiv s W); auto. apply (k_Smul s W); [apply (k_Z s W)|now apply (k_TS s W)]. }
      md ltac:(idtac). apply rs_get. intros o3 o3' [? Hd3 HD3 ? ? ? ? ?].
      apply (rs_bind _ S_); [apply rs_lift, par_min; [apply (k_Smin s W)|apply par_concat, Hd3]|intros mn mn' Hmn].
      apply (rs_bind _ S_); [apply rs_lift, par_max; [apply (k_Smax s W)|exact HD3]|intros mx mx' Hmx].
      mod_ ltac:(now apply (k_Sdiv s W)).
  Qed.

  (** ** iSIL *)
  Record RSL (o : iSIL (A := A)) (o' : iSIL (A := B)) : Prop := mkRSL {
    r_sl1 : Forall2 S_ (sl_sc o) (sl_sc o'); r_sl2 : rmat S_ (sl_b o) (sl_b o'); r_sl3 : S_ (sl_output o) (sl_output o'); r_sl4 : sl_N o = sl_N o';
    r_sl5 : Forall2 Ps (sl_centers o) (sl_centers o'); r_sl6 : sl_sizes o = sl_sizes o'; r_sl7 : Forall2 U (sl_CP o) (sl_CP o');
    r_sl8 : sl_g o = sl_g o'; r_sl9 : rmat S_ (sl_sij o) (sl_sij o'); r_sl10 : forall r, Ps (sl_heap o r) (sl_heap o' r) }.
  Lemma p_sij x y i j J nj njo cp cp' vj vj' vi vi' g g' old old' : Ps x y -> U cp cp' -> Ps vj vj' -> Ps vi vi' -> Ps g g' -> S_ old old' ->
    rE S_ (s_ij_new x i j J nj njo cp vj vi g old) (s_ij_new y i j J nj njo cp' vj' vi' g' old').
  Proof.
    intros Hx Hcp Hvj Hvi Hg Ho. unfold s_ij_new.
    assert (H1 : forall n, S_ (fdiv f1 (f_of_nat n)) (fdiv f1 (f_of_nat n))) by (intros n; apply (k_Sdiv s W); apply (k_Z s W)).
    assert (H2 : forall z z', Q z z' -> Q (fmul f2 z) (fmul f2 z')) by (intros; apply (k_Qmul s W); auto; apply (k_Z s W)).
    apply (par_bindE Ps); [now apply p_vsub|intros a b Ha]. apply (par_bindE Ps); [now apply p_vsub|intros a1 b1 Ha1].
    destruct (negb _), (_ =? J)%Z; cbn [rE]; auto; (apply (par_bindE Q); [now apply p_inner|intros dt dt' Hdt]); cbn [rE];
      apply (k_Smul s W); auto; apply (k_Usub s W); auto; repeat apply (k_Uadd s W); auto using p_norm22; apply (k_Umul s W); auto using p_norm22.
  Qed.
  Lemma sl_place r c : rSM RSL eq (iSIL_place r c) (iSIL_place r c).
  Proof.
    unfold iSIL_place. apply rs_get. intros o o' [? Hb ? ? ? Es ? Eg ? Hh]. cbv zeta. rewrite Es, Eg. pose proof (Hh r) as Hx.
    eapply rs_bind; [apply rs_if; [reflexivity| |apply rs_if; [reflexivity|apply rs_lift; reflexivity|now apply rs_ret]]|intros _ _ _].
    { assert (rmat S_ (pad finf (sl_b o)) (pad finf (sl_b o'))) by (apply p_pad; auto using k_S0; apply (k_inf s W)).
      md ltac:(now apply par_snoc). md ltac:(idtac). md ltac:(apply par_snoc; auto using k_S0). md ltac:(idtac). md ltac:(apply p_pad; auto using k_S0).
      md ltac:(apply par_snoc; auto using p_norm22). mod_ ltac:(idtac). }
    md ltac:(lia). apply rs_get. intros o1 o1' [? ? ? ? ? Es1 ? ? ? ?]. rewrite Es1.
    eapply rs_bind; [apply rs_getR; eassumption|intros v v' Hv].
    eapply rs_bind; [apply rs_sizes; reflexivity|intros n n' ->].
    eapply rs_bind; [apply rs_cc; auto|]. intros [v1 n1] [v1' n1'] [Hv1 En]. cbn in Hv1, En. subst n1'.
    eapply rs_bind; [apply rs_setR; eassumption|intros l1 l1' Hl1]. md ltac:(idtac).
    eapply rs_bind; [apply rs_sizes_set; reflexivity|intros l2 ? <-]. mod_ ltac:(idtac).
  Qed.
  Lemma sl_table r c : rSM RSL eq (iSIL_table r c) (iSIL_table r c).
  Proof.
    unfold iSIL_table. apply rs_get. intros o o' [? ? ? ? ? Es ? ? ? ?]. cbv zeta. rewrite Es.
    apply rs_for. intros i _. apply rs_for. intros j _. apply rs_get. intros o1 o1' [? ? ? ? ? Es1 ? Eg1 ? Hh1]. rewrite Es1, Eg1.
    apply (rs_bind _ eq); [apply rs_lift, rE_eq|intros nj ? <-].
    apply (rs_bind _ U); [apply rs_lift; now apply par_get_item|intros cp cp' Hcp].
    apply (rs_bind _ Ps); [apply rs_lift; now apply par_get_item|intros vj vj' Hvj].
    apply (rs_bind _ Ps); [apply rs_lift; now apply par_get_item|intros vi vi' Hvi].
    apply (rs_bind _ eq); [apply rs_lift, rE_eq|intros rj ? <-].
    apply (rs_bind _ S_); [apply rs_lift, p_mget; auto using k_S0|intros old old' Hold].
    apply (rs_bind _ S_); [apply rs_lift; apply p_sij; auto|intros z z' Hz].
    apply (rs_bind _ (rmat S_)); [apply rs_lift, p_mset; auto|intros m m' Hm]. mod_ ltac:(idtac).
  Qed.
  Lemma sl_cp r c : rSM RSL eq (iSIL_cp_update r c) (iSIL_cp_update r c).
  Proof.
    unfold iSIL_cp_update. apply rs_get. intros o o' [? ? ? ? ? ? ? Eg ? Hh]. cbv zeta. rewrite Eg.
    eapply rs_bind; [apply rs_getR; eassumption|intros w w' Hw].
    eapply rs_bind; [apply rs_setR; [eassumption|apply (k_Uadd s W); auto using p_norm22]|intros l l' Hl]. md ltac:(idtac).
    eapply rs_bind; [apply rs_sizes; reflexivity|intros rg ? <-].
    apply (rs_bind _ Ps); [apply rs_lift, p_iadd; auto|intros z z' Hz].
    mod_ ltac:(idtac). intros r'. unfold heap_set. destruct (_ =? _); auto.
  Qed.
  Lemma p_sci o o' i J : RSL o o' -> rE S_ (sci o i J) (sci o' i J).
  Proof.
    intros [? ? ? ? Hc ? ? ? Hm ?]. unfold sci. rewrite (par_length _ _ _ Hc).
    apply (par_bindE (Forall2 S_)); [apply par_mapE_seq; intros; apply p_mget; auto using k_S0|intros row row' Hr].
    apply (par_bindE S_); [destruct Hr; cbn; auto; apply par_fold; auto; apply (k_Spmin s W)|intros mn mn' Hmn].
    apply (par_bindE S_); [apply p_mget; auto using k_S0|intros z z' Hz].
    apply (par_bindE S_); [destruct Hr; cbn; auto; apply par_fold; auto; apply (k_Spmax s W)|intros mx mx' Hmx].
    cbn. apply (k_Sdiv s W); [now apply (k_Ssub s W)|now apply (k_Spmax s W)].
  Qed.
  Lemma sl_value c : rSM RSL S_ (iSIL_value c) (iSIL_value c).
  Proof.
    unfold iSIL_value. apply rs_get. intros o o' Ho. pose proof (r_sl5 _ _ Ho) as Hc. rewrite (par_length _ _ _ Hc).
    apply (rs_bind _ (Forall2 S_)); [apply rs_lift, par_mapE_seq; intros; now apply p_sci|intros cs cs' Hcs].
    md ltac:(apply (k_Smul s W); [apply (k_Sdiv s W); apply (k_Z s W)|now apply p_pysum]).
    apply rs_get. intros ? ? []. now apply rs_ret.
  Qed.
  Lemma par_iSIL r c : rSM RSL S_ (iSIL_update r c) (iSIL_update r c).
  Proof.
    unfold iSIL_update. eapply rs_bind; [apply sl_place|intros _ _ _]. eapply rs_bind; [apply sl_table|intros _ _ _].
    eapply rs_bind; [apply sl_cp|intros _ _ _; apply sl_value].
  Qed.

  (** ** iDB *)
  Record RDB (o : iDB (A := A)) (o' : iDB (A := B)) : Prop := mkRDB {
    r_db1 : Forall2 S_ (db_R o) (db_R o'); r_db2 : Forall2 S_ (db_S o) (db_S o'); r_db3 : rmat S_ (db_M o) (db_M o'); r_db4 : S_ (db_output o) (db_output o');
    r_db5 : db_N o = db_N o'; r_db6 : Forall2 Ps (db_centers o) (db_centers o'); r_db7 : db_sizes o = db_sizes o'; r_db8 : ropt Ps (db_g o) (db_g o');
    r_db9 : Forall2 T (db_CP o) (db_CP o') }.
  Lemma p_last l l' : Forall2 S_ l l' -> S_ (last l f0) (last l' f0).
  Proof. induction 1 as [|x y l l' Hx Hl IH]; [apply k_S0|]. cbn. destruct Hl; auto. Qed.
  Lemma par_iDB x y c : Ps x y -> rSM RDB S_ (iDB_update x c) (iDB_update y c).
  Proof.
    intros Hx. unfold iDB_update. md ltac:(lia). apply rs_get. intros o o' [? ? ? ? ? Hc Es ? ?]. rewrite (par_length _ _ _ Hc), Es.
    eapply rs_bind; [apply rs_if; [reflexivity| |apply rs_if; [reflexivity|apply rs_lift; reflexivity|]]|intros _ _ _; apply rs_get; intros ? ? []; now apply rs_ret].
    - md ltac:(now apply par_snoc). md ltac:(idtac). md ltac:(apply par_snoc; auto using k_S0). md ltac:(apply par_snoc; auto using k_S0).
      mod_ ltac:(apply p_pad; auto using k_S0).
    - eapply rs_bind; [apply rs_getR; eassumption|intros v v' Hv].
      eapply rs_bind; [apply rs_sizes; reflexivity|intros n n' ->].
      eapply rs_bind; [apply rs_getR; eassumption|intros w w' Hw].
      eapply rs_bind; [apply rs_CP; auto|]. intros [[[cp g] v1] n1] [[[cp' g'] v1'] n1'] [[[Hcp Hg] Hv1] En]. cbn in Hcp, Hg, Hv1, En. subst n1'.
      eapply rs_bind; [apply rs_setR; eassumption|intros l1 l1' Hl1]. md ltac:(idtac). md ltac:(idtac).
      eapply rs_bind; [apply rs_setR; eassumption|intros l2 l2' Hl2]. md ltac:(idtac).
      eapply rs_bind; [apply rs_sizes_set; reflexivity|intros l3 ? <-]. md ltac:(idtac).
      eapply rs_bind; [apply rs_setR; [eassumption|]|intros l4 l4' Hl4].
      { apply (k_powS s W); auto. apply (k_Smul s W); [apply (k_Sdiv s W); apply (k_Z s W)|now apply (k_TS s W)]. }
      md ltac:(idtac). eapply rs_bind; [apply rs_setR; [eassumption|apply k_S0]|intros l5 l5' Hl5]. md ltac:(idtac).
      eapply rs_bind; [apply rs_for; intros j _|intros _ _ _].
      { apply rs_get. intros o1 o1' [? ? ? ? ? ? Es1 ? ?]. rewrite Es1, (par_length _ _ _ Hx).
        apply (rs_bind _ eq); [apply rs_lift, rE_eq|intros nj ? <-].
        eapply rs_bind; [apply rs_getR; eassumption|intros vc vc' Hvc].
        apply (rs_bind _ Ps); [apply rs_lift; now apply par_get_item|intros vj vj' Hvj].
        apply (rs_bind _ (Forall2 S_)); [apply rs_lift, par_mapE_seq; intros t _|intros ts ts' Hts].
        { apply (par_bindE P); [now apply par_get_item|intros a a' Ha]. apply (par_bindE P); [now apply par_get_item|intros b b' Hb].
          cbn. apply k_US, (k_pow s W); auto. apply (k_abs s W). now apply (k_Psub s W). }
        cbv zeta. assert (Hm : S_ (powi (if 0 <? nj then last ts f0 else f0) 1) (powi (if 0 <? nj then last ts' f0 else f0) 1)).
        { apply (k_powS s W); auto. destruct (0 <? nj); [now apply p_last|apply k_S0]. }
        apply (rs_bind _ (rmat S_)); [apply rs_lift, p_mset; auto|intros m1 m1' Hm1].
        apply (rs_bind _ (rmat S_)); [apply rs_lift, p_mset; auto|intros m2 m2' Hm2]. md ltac:(idtac).
        apply rs_if; [reflexivity| |now apply rs_ret].
        eapply rs_bind; [apply rs_getR; eassumption|intros rc rc' Hrc].
        eapply rs_bind; [apply rs_getR; eassumption|intros sc sc' Hsc].
        apply (rs_bind _ S_); [apply rs_lift; now apply par_get_item|intros sj sj' Hsj].
        eapply rs_bind; [apply rs_setR; [eassumption|]|intros l l' Hl].
        { apply (k_Spmax s W); auto. apply (k_Sdiv s W); auto. now apply (k_Sadd s W). }
        mod_ ltac:(idtac). }
      apply rs_get. intros o1 o1' [? ? ? ? ? ? Es1 ? ?]. rewrite Es1. mod_ ltac:(apply (k_Sdiv s W); [now apply (k_Ssum s W)|apply k_nat]).
  Qed.
End K.
