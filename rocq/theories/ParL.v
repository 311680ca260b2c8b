(** * Two runs of the same program on related numbers: the classes

    [Sorts]: which numbers of two arithmetics count as related, by the degree of
    the number in the data: 0 (counts, ratios), 1 (samples, means), 2 (squares),
    square roots of squares, and the degree of GD43.  The sorts of degree 2 only
    differ in how they treat the sign of zero.  [Lawful]: the operations respect
    the sorts ([LawR]: those only rCIP uses).  Then every history of calls
    respects them. *)
From Coq Require Import ZArith List Arith Bool Lia.
From Verif Require Import Num NumPy Base M_CH M_D M_PS GetCvi.
From Verif Require Import Par.
Import ListNotations.

Record Sorts (A B : Arith) := mkSorts {
  sE : F A -> F B -> Prop;   (* degree 0 *)
  sP : F A -> F B -> Prop;   (* degree 1 *)
  sQ : F A -> F B -> Prop;   (* degree 2 *)
  sS : F A -> F B -> Prop;
  sT : F A -> F B -> Prop;
  sU : F A -> F B -> Prop;   (* sums of squares *)
  sH : F A -> F B -> Prop;   (* square roots *)
  sJ : F A -> F B -> Prop    (* square roots over squares *)
}.
Arguments sE {A B}. Arguments sP {A B}. Arguments sQ {A B}. Arguments sS {A B}.
Arguments sT {A B}. Arguments sU {A B}. Arguments sH {A B}. Arguments sJ {A B}.

(** [P]: numbers about which nothing is known; they make everything computed from
    them unknown *)
Definition poison {A B : Arith} (s : Sorts A B) (P : F A -> bool) : Prop :=
  (forall x y, P x = false -> sS s x y -> ftrue x = ftrue y) /\ (forall x, P x = true -> ftrue x = true) /\
  (forall x y, P x = true -> sE s x y) /\
  (forall x y, P x || P y = true -> P (fsub x y) = true) /\ (forall x y, P x || P y = true -> P (fdiv x y) = true) /\
  (forall x y, P x || P y = true -> P (fminimum x y) = true) /\ (forall l, existsb P l = true -> P (np_sum l) = true).

(** [W]: numbers that may be zero; nothing is known ([P]) of a quotient by one *)
Definition weak {A B : Arith} (s : Sorts A B) (W P : F A -> bool) : Prop :=
  (forall x y, W x = false -> sS s x y -> ftrue x = true /\ ftrue y = true) /\ (forall x y, ftrue x = false -> sS s x y -> ftrue y = false) /\
  (forall x y, P x = true -> sE s x y) /\
  (forall x y, W x = true -> W y = true -> W (fminimum x y) = true) /\ (forall x y, W x = true -> W y = true -> W (fmaximum x y) = true) /\
  (forall x y, W y = true -> P (fdiv x y) = true) /\ (forall x y, P x = true -> P (fdiv x y) = true) /\
  (forall l, existsb P l = true -> P (np_sum l) = true).

(** the operations of rCIP: covariances are of degree 2, what is computed from
    their determinants and inverses is of degree 0 *)
Record LawR {A B : Arith} (s : Sorts A B) : Prop := mkLawR {
  r_delta : forall (b : bool) d, sT s (fmul (if b then f1 else f0) (rCIP_delta d)) (fmul (if b then f1 else f0) (rCIP_delta d));
  r_const : forall d, sE s (rCIP_constant d) (rCIP_constant d);
  r_PPmul : forall x y x' y', sP s x y -> sP s x' y' -> sQ s (fmul x x') (fmul y y');
  r_Qadd : forall x y x' y', sQ s x y -> sQ s x' y' -> sQ s (fadd x x') (fadd y y');
  r_Qsub : forall x y x' y', sQ s x y -> sQ s x' y' -> sQ s (fsub x x') (fsub y y');
  r_QTadd : forall x y x' y', sQ s x y -> sT s x' y' -> sT s (fadd x x') (fadd y y');
  r_sdot : forall l l' k k', Forall2 (sP s) l l' -> Forall2 (sP s) k k' -> sQ s (sdot l k) (sdot l' k');
  r_det : forall m m', Forall2 (Forall2 (sT s)) m m' -> sE s (np_det m) (np_det m');
  r_sqrt : forall x y, sE s x y -> sE s (fsqrt x) (fsqrt y);
  r_inv : forall m m', Forall2 (Forall2 (sT s)) m m' ->
    match np_inv m, np_inv m' with Some w, Some w' => Forall2 (Forall2 (sE s)) w w' | None, None => True | _, _ => False end;
  r_dot : forall l l' k k', Forall2 (sP s) l l' -> Forall2 (sE s) k k' -> sP s (np_dot l k) (np_dot l' k');
  r_exp : forall x y, sQ s x y -> sE s (fexp x) (fexp y)
}.

Record Lawful {A B : Arith} (s : Sorts A B) (c : kind) : Prop := mkLawful {
  l_Z : forall z, sE s (f_of_Z z) (f_of_Z z);
  l_P0 : sP s f0 f0; l_U0 : sU s f0 f0; l_H0 : sH s f0 f0; l_J0 : sJ s f0 f0;
  l_UT : forall x y, sU s x y -> sT s x y;
  l_TS : forall x y, sT s x y -> sS s x y;
  l_SQ : forall x y, sS s x y -> sQ s x y;
  (* degree 0 *)
  l_Eadd : forall x y x' y', sE s x y -> sE s x' y' -> sE s (fadd x x') (fadd y y');
  l_Esub : forall x y x' y', sE s x y -> sE s x' y' -> sE s (fsub x x') (fsub y y');
  l_Emul : forall x y x' y', sE s x y -> sE s x' y' -> sE s (fmul x x') (fmul y y');
  l_Ediv : forall x y x' y', sE s x y -> sE s x' y' -> sE s (fdiv x x') (fdiv y y');
  l_Emax : forall x y x' y', sE s x y -> sE s x' y' -> sE s (fmaximum x x') (fmaximum y y');
  l_Eexp : c = kPS -> forall x y, sE s x y -> sE s (fexp x) (fexp y);
  l_Esum : forall l l', Forall2 (sE s) l l' -> sE s (np_sum l) (np_sum l');
  (* degree 1 *)
  l_Padd : forall x y x' y', sP s x y -> sP s x' y' -> sP s (fadd x x') (fadd y y');
  l_Psub : forall x y x' y', sP s x y -> sP s x' y' -> sP s (fsub x x') (fsub y y');
  l_Psadd : forall x y x' y', sP s x y -> sP s x' y' -> sP s (sadd x x') (sadd y y');
  l_Pmul : forall x y x' y', sE s x y -> sP s x' y' -> sP s (fmul x x') (fmul y y');
  l_Pmul1 : forall x y, sP s x y -> sP s (fmul x f1) (fmul y f1);
  l_Psmul : forall x y x' y', sE s x y -> sP s x' y' -> sP s (smul x x') (smul y y');
  l_Pdiv : forall x y x' y', sP s x y -> sE s x' y' -> sP s (fdiv x x') (fdiv y y');
  l_Psdiv : forall x y x' y', sP s x y -> sE s x' y' -> sP s (sdiv x x') (sdiv y y');
  l_Psum : forall l l', Forall2 (sP s) l l' -> sP s (np_sum l) (np_sum l');
  l_Pssum : forall l l', Forall2 (sP s) l l' -> sP s (ssum l) (ssum l');
  (* degree 2 *)
  l_sq : forall x y, sP s x y -> sU s (fsq x) (fsq y);
  l_self : forall l l', Forall2 (sP s) l l' -> sU s (np_dot l l) (np_dot l' l');
  l_sself : forall l l', Forall2 (sP s) l l' -> sU s (sdot l l) (sdot l' l');
  l_dot : forall l l' k k', Forall2 (sP s) l l' -> Forall2 (sP s) k k' -> sQ s (np_dot l k) (np_dot l' k');
  l_Usum : forall l l', Forall2 (sU s) l l' -> sU s (np_sum l) (np_sum l');
  l_Uadd : forall x y x' y', sU s x y -> sU s x' y' -> sU s (fadd x x') (fadd y y');
  l_Usadd : forall x y x' y', sU s x y -> sU s x' y' -> sU s (sadd x x') (sadd y y');
  l_Umul : forall k x y, sU s x y -> sU s (fmul (f_of_nat k) x) (fmul (f_of_nat k) y);
  l_Usmul : forall k x y, sU s x y -> sU s (smul (f_of_nat k) x) (smul (f_of_nat k) y);
  l_Usub : forall x y x' y', sU s x y -> sQ s x' y' -> sS s (fsub x x') (fsub y y');
  l_Tadd : forall x y x' y', sT s x y -> sQ s x' y' -> sT s (fadd x x') (fadd y y');
  l_Qmul : forall x y x' y', sE s x y -> sQ s x' y' -> sQ s (fmul x x') (fmul y y');
  l_Sadd : forall x y x' y', sS s x y -> sS s x' y' -> sS s (fadd x x') (fadd y y');
  l_Ssub : forall x y x' y', sS s x y -> sS s x' y' -> sS s (fsub x x') (fsub y y');
  l_Smul : forall x y x' y', sE s x y -> sS s x' y' -> sS s (fmul x x') (fmul y y');
  l_Sdiv : forall x y x' y', sS s x y -> sE s x' y' -> sS s (fdiv x x') (fdiv y y');
  l_SSdiv : forall x y x' y', sS s x y -> sS s x' y' -> sE s (fdiv x x') (fdiv y y');
  l_Sneg : forall x y, sS s x y -> sS s (fneg x) (fneg y);
  l_Smin : forall x y x' y', sS s x y -> sS s x' y' -> sS s (fminimum x x') (fminimum y y');
  l_Smax : forall x y x' y', sS s x y -> sS s x' y' -> sS s (fmaximum x x') (fmaximum y y');
  l_Strue : c = kcSIL -> (forall x y, sS s x y -> ftrue x = ftrue y) \/ (forall x y, sE s x y) \/ (exists P, poison s P) \/ exists W P, weak s W P;
  (* square roots *)
  l_sqrt : forall x y, sU s x y -> sH s (fsqrt x) (fsqrt y);
  l_Hadd : forall x y x' y', sH s x y -> sH s x' y' -> sH s (fadd x x') (fadd y y');
  l_Hmin : forall x y x' y', sH s x y -> sH s x' y' -> sH s (fminimum x x') (fminimum y y');
  l_Hdiv : forall x y x' y', sH s x y -> sS s x' y' -> sJ s (fdiv x x') (fdiv y y');
  l_R : c = krCIP -> LawR s
}.

Section Run.
  Context {A B : Arith} (s : Sorts A B).
  (** the sorts of _D, _CP and criterion_value *)
  Definition sD (c : kind) := match c with kGD43 => sH s | krCIP => sE s | _ => sS s end.
  Definition sC (c : kind) := match c with kcSIL => sU s | _ => sT s end.
  Definition sV (c : kind) := match c with kGD43 => sJ s | _ => sE s end.

  (** every row has as many entries as the array has columns *)
  Definition rect {X : Arith} (m : mat X) : Prop := Forall (fun r => length r = mcols m) (mrows m).
  Record AR (c : kind) (o : attrs A) (o' : attrs B) : Prop := mkAR {
    a_dim : dim o = dim o'; a_ns : n_samples o = n_samples o'; a_n : n o = n o'; a_na : n_array o = n_array o';
    a_v : rmat (sP s) (v o) (v o'); a_CP : Forall2 (sC c) (CP o) (CP o'); a_CPd : CP_deleted o = CP_deleted o';
    a_G : rmat (sP s) (G o) (G o'); a_k : n_clusters o = n_clusters o'; a_cv : sV c (criterion_value o) (criterion_value o');
    a_set : is_setup o = is_setup o'; a_mu : Forall2 (sP s) (mu o) (mu o'); a_SEP : Forall2 (sS s) (SEP o) (SEP o');
    a_BG : sS s (BGSS o) (BGSS o'); a_WG : sS s (WGSS o) (WGSS o'); a_D : rmat (sD c) (D o) (D o');
    a_R : rmat (sE s) (R o) (R o'); a_S1 : Forall2 (sS s) (S1 o) (S1 o'); a_S2 : rmat (sS s) (S2 o) (S2 o');
    a_rect : rect (S2 o);
    a_sil : length (sil_coefs o) = length (sil_coefs o'); a_inter : sD c (inter o) (inter o'); a_intra : sS s (intra o) (intra o');
    a_vb : Forall2 (sP s) (v_bar o) (v_bar o'); a_bt : sS s (beta_t o) (beta_t o'); a_psi : Forall2 (sE s) (PS_i o) (PS_i o');
    a_sig : Forall2 (rmat (sT s)) (sigma o) (sigma o'); a_dt : rmat (sT s) (delta_term o) (delta_term o'); a_const : sE s (constant o) (constant o')
  }.
  Section C.
  Context (c : kind) (L : Lawful s c).
  Definition RM {X Y} (R : X -> Y -> Prop) (m : M A X) (m' : M B Y) : Prop := forall o o', AR c o o' ->
    AR c (fst (m o)) (fst (m' o')) /\ rE R (snd (m o)) (snd (m' o')).
  Definition ru : unit -> unit -> Prop := fun _ _ => True.
  Lemma RM_ret {X Y} (R : X -> Y -> Prop) x y : R x y -> RM R (ret x) (ret y).
  Proof. intros H o o' Ho. split; auto. Qed.
  Lemma RM_raise {X Y} (R : X -> Y -> Prop) e : RM R (raise e) (raise e).
  Proof. intros o o' Ho. split; cbn; auto. Qed.
  Lemma RM_lift {X Y} (R : X -> Y -> Prop) a b : rE R a b -> RM R (lift a) (lift b).
  Proof. intros H o o' Ho. split; auto. Qed.
  Lemma RM_bind {X Y X' Y'} (R : X -> Y -> Prop) (R' : X' -> Y' -> Prop) m m' k k' :
    RM R m m' -> (forall x y, R x y -> RM R' (k x) (k' y)) -> RM R' (bind m k) (bind m' k').
  Proof.
    intros H Hk o o' Ho. unfold bind. destruct (H o o' Ho) as [H1 H2]. destruct (m o) as [o1 [x|e]], (m' o') as [o1' [y|e']]; cbn in *; try contradiction.
    - now apply Hk.
    - split; auto.
  Qed.
  Lemma RM_get {X Y} (R : X -> Y -> Prop) k k' : (forall o o', AR c o o' -> RM R (k o) (k' o')) -> RM R (bind get k) (bind get k').
  Proof. intros H o o' Ho. cbn. now apply H. Qed.
  Lemma RM_mod f g : (forall o o', AR c o o' -> AR c (f o) (g o')) -> RM ru (modify f) (modify g).
  Proof. intros H o o' Ho. split; cbn; auto. exact I. Qed.
  Lemma RM_seq {X Y} (R : X -> Y -> Prop) m m' k k' : RM ru m m' -> RM R k k' -> RM R (m ;; k) (m' ;; k').
  Proof. intros H Hk. apply (RM_bind ru); auto. Qed.
  Lemma RM_let {X Y Z W} (R : X -> Y -> Prop) (Q : Z -> W -> Prop) a b k k' : rE Q a b ->
    (forall x y, Q x y -> RM R (k x) (k' y)) -> RM R (bind (lift a) k) (bind (lift b) k').
  Proof. intros H Hk. apply (RM_bind Q); auto. now apply RM_lift. Qed.
  Lemma RM_for {X} (l : list X) f g : (forall x, In x l -> RM ru (f x) (g x)) -> RM ru (for_ l f) (for_ l g).
  Proof. induction l as [|x l IH]; cbn; intros H; [apply RM_ret; exact I|]. apply RM_seq; auto. Qed.

  (** derived laws *)
  Lemma l_US x y : sU s x y -> sS s x y. Proof. intros. now apply (l_TS s c L), (l_UT s c L). Qed.
  Lemma l_UQ x y : sU s x y -> sQ s x y. Proof. intros. now apply (l_SQ s c L), l_US. Qed.
  Lemma l_S0 : sS s f0 f0. Proof. apply l_US, (l_U0 s c L). Qed.
  Lemma l_T0 : sT s f0 f0. Proof. apply (l_UT s c L), (l_U0 s c L). Qed.
  Lemma l_E0 : sE s f0 f0. Proof. apply (l_Z s c L). Qed.
  Lemma l_nat k : sE s (f_of_nat k) (f_of_nat k). Proof. apply (l_Z s c L). Qed.
  Lemma l_1 : sE s f1 f1. Proof. apply (l_Z s c L). Qed.
  Lemma l_2 : sE s f2 f2. Proof. apply (l_Z s c L). Qed.
  Lemma l_C0 : sC c f0 f0. Proof. pose proof l_T0. pose proof (l_U0 s c L). unfold sC. now destruct c. Qed.
  Lemma l_D0 : sD c f0 f0. Proof. pose proof l_E0. pose proof l_S0. pose proof (l_H0 s c L). unfold sD. now destruct c. Qed.
  Lemma l_V0 : sV c f0 f0. Proof. pose proof l_E0. pose proof (l_J0 s c L). unfold sV. now destruct c. Qed.
  Lemma l_CS x y : sC c x y -> sS s x y. Proof. pose proof (l_TS s c L x y). pose proof (l_US x y). unfold sC. destruct c; auto. Qed.
  Lemma l_UC x y : sU s x y -> sC c x y. Proof. pose proof (l_UT s c L x y). unfold sC. destruct c; auto. Qed.
  Lemma l_Dadd x y x' y' : sD c x y -> sD c x' y' -> sD c (fadd x x') (fadd y y').
  Proof. pose proof (l_Sadd s c L x y x' y'). pose proof (l_Hadd s c L x y x' y'). pose proof (l_Eadd s c L x y x' y'). unfold sD. destruct c; auto. Qed.
  Lemma l_Dmin x y x' y' : c <> krCIP -> sD c x y -> sD c x' y' -> sD c (fminimum x x') (fminimum y y').
  Proof. pose proof (l_Smin s c L x y x' y'). pose proof (l_Hmin s c L x y x' y'). unfold sD. destruct c; auto; congruence. Qed.
  Lemma par_py_sumsq l l' : Forall2 (sP s) l l' -> sU s (py_sumsq l) (py_sumsq l').
  Proof.
    intros H. unfold py_sumsq, py_sum. apply (par_fold (sU s)); [apply (l_Uadd s c L)| |apply (l_U0 s c L)].
    apply (par_map (sP s)); auto. apply (l_sq s c L).
  Qed.
  Lemma par_np_sumsq l l' : Forall2 (sP s) l l' -> sU s (np_sumsq l) (np_sumsq l').
  Proof. intros H. apply (l_Usum s c L). apply (par_map (sP s)); auto. apply (l_sq s c L). Qed.
  Lemma par_np_sumsq_all l l' : Forall2 (Forall2 (sP s)) l l' -> sU s (np_sumsq_all l) (np_sumsq_all l').
  Proof. intros H. apply (l_Usum s c L). apply (par_map (sP s)); [apply (l_sq s c L)|]. now apply par_concat. Qed.
  Lemma par_py_sum l l' : Forall2 (sS s) l l' -> sS s (py_sum l) (py_sum l').
  Proof. intros H. unfold py_sum. apply (par_fold (sS s)); auto; [apply (l_Sadd s c L)|apply l_S0]. Qed.
  Lemma par_py_sum_C l l' : Forall2 (sC c) l l' -> sS s (py_sum l) (py_sum l').
  Proof. intros H. apply par_py_sum. apply (par_mono (sC c)); auto. apply l_CS. Qed.
  Lemma par_vsub a b a' b' : Forall2 (sP s) a b -> Forall2 (sP s) a' b' -> rE (Forall2 (sP s)) (vsub a a') (vsub b b').
  Proof. apply par_bc. apply (l_Psub s c L). Qed.
  Lemma par_vadd a b a' b' : Forall2 (sP s) a b -> Forall2 (sP s) a' b' -> rE (Forall2 (sP s)) (vadd a a') (vadd b b').
  Proof. apply par_bc. apply (l_Padd s c L). Qed.
  Lemma par_scal x y a b : sE s x y -> Forall2 (sP s) a b -> Forall2 (sP s) (scal x a) (scal y b).
  Proof. intros Hx. apply par_map. intros. now apply (l_Pmul s c L). Qed.
  Lemma par_sscal x y a b : sE s x y -> Forall2 (sP s) a b -> Forall2 (sP s) (sscal x a) (sscal y b).
  Proof. intros Hx. apply par_map. intros. now apply (l_Psmul s c L). Qed.
  Lemma par_rm k a b x y : Forall2 (sP s) a b -> Forall2 (sP s) x y -> rE (Forall2 (sP s)) (running_mean k a x) (running_mean k b y).
  Proof.
    intros. unfold running_mean. apply par_vadd; [apply par_scal|apply par_sscal]; auto.
    - apply (l_Esub s c L); [apply l_1|]. apply (l_Ediv s c L); [apply l_1|apply l_nat].
    - apply (l_Ediv s c L); [apply l_1|apply l_nat].
  Qed.
  Lemma par_srm k a b x y : Forall2 (sP s) a b -> Forall2 (sP s) x y -> rE (Forall2 (sP s)) (srunning_mean k a x) (srunning_mean k b y).
  Proof.
    intros. unfold srunning_mean, svadd. apply (par_bc (sP s) (sP s)); [apply (l_Psadd s c L)| |]; apply par_sscal; auto.
    - apply (l_Esub s c L); [apply l_1|]. apply (l_Ediv s c L); [apply l_1|apply l_nat].
    - apply (l_Ediv s c L); [apply l_1|apply l_nat].
  Qed.
  Lemma par_inner_self a b : Forall2 (sP s) a b -> rE (sU s) (inner a a) (inner b b).
  Proof. intros H. unfold inner. rewrite !Nat.eqb_refl. cbn. now apply (l_self s c L). Qed.
  Lemma par_sinner_self a b : Forall2 (sP s) a b -> rE (sU s) (sinner a a) (sinner b b).
  Proof. intros H. unfold sinner. rewrite !Nat.eqb_refl. cbn. now apply (l_sself s c L). Qed.
  Lemma par_inner a b a' b' : Forall2 (sP s) a b -> Forall2 (sP s) a' b' -> rE (sQ s) (inner a a') (inner b b').
  Proof.
    intros H H'. unfold inner. rewrite (par_length _ a b H), (par_length _ a' b' H'). destruct (_ =? _); cbn; auto. now apply (l_dot s c L).
  Qed.
  Lemma par_sub_rows m m' a b : rmat (sP s) m m' -> Forall2 (sP s) a b -> Forall2 (Forall2 (sP s)) (sub_rows m a) (sub_rows m' b).
  Proof.
    intros [_ H] Hv. unfold sub_rows. apply (par_map (Forall2 (sP s))); auto. intros r r' Hr. apply (par_map2 (sP s) (sP s)); auto; [apply (l_Psub s c L)|].
    apply (par_map (sP s)); auto. apply (l_Pmul1 s c L).
  Qed.
  Lemma par_smean0 m m' : rmat (sP s) m m' -> Forall2 (sP s) (smean0 m) (smean0 m').
  Proof.
    intros H. unfold smean0. rewrite (par_nrows _ m m' H), (proj1 H). apply par_seq. intros j _. apply (l_Psdiv s c L); [|apply l_nat].
    apply (l_Pssum s c L). apply par_col; auto. apply (l_P0 s c L).
  Qed.
  Lemma par_mean0 m m' : rmat (sP s) m m' -> Forall2 (sP s) (mean0 m) (mean0 m').
  Proof.
    intros H. unfold mean0. rewrite (par_nrows _ m m' H), (proj1 H). apply par_seq. intros j _. apply (l_Pdiv s c L); [|apply l_nat].
    apply (l_Psum s c L). apply par_col; auto. apply (l_P0 s c L).
  Qed.
  Lemma par_sqdist x y m m' j : Forall2 (sP s) x y -> rmat (sP s) m m' -> rE (sU s) (sqdist_to x m j) (sqdist_to y m' j).
  Proof.
    intros H Hm. unfold sqdist_to. apply (par_bindE (Forall2 (sP s))); [now apply par_row|]. intros a b Hab.
    apply (par_bindE (Forall2 (sP s))); [now apply par_vsub|]. intros a' b' H'. now apply rE_ok, par_np_sumsq.
  Qed.
  Lemma par_eq_item (l l' : list nat) i : l = l' -> rE eq (get_item l i) (get_item l' i).
  Proof. intros <-. destruct (get_item l i); cbn; auto. Qed.
  Lemma par_eq_set (l l' : list nat) i x x' : l = l' -> x = x' -> rE eq (set_item l i x) (set_item l' i x').
  Proof. intros <- <-. destruct (set_item l i x); cbn; auto. Qed.
  Lemma par_D_new k i m m' f g : rmat (sD c) m m' -> (forall j, rE (sD c) (f j) (g j)) ->
    rE (rmat (sD c)) (D_new_cluster k i m f) (D_new_cluster k i m' g).
  Proof.
    intros H Hf. unfold D_new_cluster. destruct (k =? 0); [apply rE_ok, par_zmat, l_D0|].
    apply (par_bindE (rmat (sD c))); [apply par_grow; auto; apply l_D0|]. intros d d' Hd.
    apply (par_bindE (Forall2 (sD c))); [apply par_mapE_seq; auto|]. intros x y Hx.
    assert (Hc : Forall2 (sD c) (x ++ [f0]) (y ++ [f0])) by (apply par_snoc; auto; apply l_D0).
    apply (par_bindE (rmat (sD c))); [now apply par_set_row|]. intros d1 d1' Hd1. now apply par_set_col.
  Qed.
  Lemma par_D_old k i f g : (forall j, rE (sD c) (f j) (g j)) -> rE (Forall2 (sD c)) (D_old_column k i f) (D_old_column k i g).
  Proof. intros H. apply par_mapE_seq. intros j _. destruct (j =? i); auto. apply rE_ok, l_D0. Qed.
  Lemma par_D_sym k f g : (forall i j, sD c (f i j) (g i j)) ->
    rmat (sD c) (tab2 k k (fun i j => fadd (entry (tab2 k k f) i j) (entry (transpose (tab2 k k f)) i j)))
                (tab2 k k (fun i j => fadd (entry (tab2 k k g) i j) (entry (transpose (tab2 k k g)) i j))).
  Proof.
    intros H. apply par_tab2. intros i j. assert (Ht : rmat (sD c) (tab2 k k f) (tab2 k k g)) by now apply par_tab2.
    apply l_Dadd; apply par_entry; auto using l_D0. apply par_transpose; auto. apply l_D0.
  Qed.

  (** assignments *)
  Lemma st_dim x x' o o' : x = x' -> AR c o o' -> AR c (set_dim x o) (set_dim x' o').
  Proof. intros E []. now constructor. Qed.
  Lemma st_ns x x' o o' : x = x' -> AR c o o' -> AR c (set_n_samples x o) (set_n_samples x' o').
  Proof. intros E []. now constructor. Qed.
  Lemma st_n x x' o o' : x = x' -> AR c o o' -> AR c (set_n x o) (set_n x' o').
  Proof. intros E []. now constructor. Qed.
  Lemma st_na x o o' : AR c o o' -> AR c (set_n_array x o) (set_n_array x o').
  Proof. intros []. now constructor. Qed.
  Lemma st_cpd x o o' : AR c o o' -> AR c (set_CP_deleted x o) (set_CP_deleted x o').
  Proof. intros []. now constructor. Qed.
  Lemma st_k x x' o o' : x = x' -> AR c o o' -> AR c (set_n_clusters x o) (set_n_clusters x' o').
  Proof. intros E []. now constructor. Qed.
  Lemma st_set x o o' : AR c o o' -> AR c (set_is_setup x o) (set_is_setup x o').
  Proof. intros []. now constructor. Qed.
  Lemma st_v x x' o o' : rmat (sP s) x x' -> AR c o o' -> AR c (set_v x o) (set_v x' o').
  Proof. intros E []. now constructor. Qed.
  Lemma st_G x x' o o' : rmat (sP s) x x' -> AR c o o' -> AR c (set_G x o) (set_G x' o').
  Proof. intros E []. now constructor. Qed.
  Lemma st_CP x x' o o' : Forall2 (sC c) x x' -> AR c o o' -> AR c (set_CP x o) (set_CP x' o').
  Proof. intros E []. now constructor. Qed.
  Lemma st_cv x x' o o' : sV c x x' -> AR c o o' -> AR c (set_criterion_value x o) (set_criterion_value x' o').
  Proof. intros E []. now constructor. Qed.
  Lemma st_mu x x' o o' : Forall2 (sP s) x x' -> AR c o o' -> AR c (set_mu x o) (set_mu x' o').
  Proof. intros E []. now constructor. Qed.
  Lemma st_SEP x x' o o' : Forall2 (sS s) x x' -> AR c o o' -> AR c (set_SEP x o) (set_SEP x' o').
  Proof. intros E []. now constructor. Qed.
  Lemma st_BG x x' o o' : sS s x x' -> AR c o o' -> AR c (set_BGSS x o) (set_BGSS x' o').
  Proof. intros E []. now constructor. Qed.
  Lemma st_WG x x' o o' : sS s x x' -> AR c o o' -> AR c (set_WGSS x o) (set_WGSS x' o').
  Proof. intros E []. now constructor. Qed.
  Lemma st_D x x' o o' : rmat (sD c) x x' -> AR c o o' -> AR c (set_D x o) (set_D x' o').
  Proof. intros E []. now constructor. Qed.
  Lemma st_R x x' o o' : rmat (sE s) x x' -> AR c o o' -> AR c (set_R x o) (set_R x' o').
  Proof. intros E []. now constructor. Qed.
  Lemma st_S1 x x' o o' : Forall2 (sS s) x x' -> AR c o o' -> AR c (set_S1 x o) (set_S1 x' o').
  Proof. intros E []. now constructor. Qed.
  Lemma st_S2 x x' o o' : rmat (sS s) x x' -> rect x -> AR c o o' -> AR c (set_S2 x o) (set_S2 x' o').
  Proof. intros E E' []. now constructor. Qed.
  Lemma st_sil x x' o o' : length x = length x' -> AR c o o' -> AR c (set_sil_coefs x o) (set_sil_coefs x' o').
  Proof. intros E []. now constructor. Qed.
  Lemma st_inter x x' o o' : sD c x x' -> AR c o o' -> AR c (set_inter x o) (set_inter x' o').
  Proof. intros E []. now constructor. Qed.
  Lemma st_intra x x' o o' : sS s x x' -> AR c o o' -> AR c (set_intra x o) (set_intra x' o').
  Proof. intros E []. now constructor. Qed.
  Lemma st_vb x x' o o' : Forall2 (sP s) x x' -> AR c o o' -> AR c (set_v_bar x o) (set_v_bar x' o').
  Proof. intros E []. now constructor. Qed.
  Lemma st_bt x x' o o' : sS s x x' -> AR c o o' -> AR c (set_beta_t x o) (set_beta_t x' o').
  Proof. intros E []. now constructor. Qed.
  Lemma st_psi x x' o o' : Forall2 (sE s) x x' -> AR c o o' -> AR c (set_PS_i x o) (set_PS_i x' o').
  Proof. intros E []. now constructor. Qed.
  Lemma st_sig x x' o o' : Forall2 (rmat (sT s)) x x' -> AR c o o' -> AR c (set_sigma x o) (set_sigma x' o').
  Proof. intros E []. now constructor. Qed.
  Lemma st_dt x x' o o' : rmat (sT s) x x' -> AR c o o' -> AR c (set_delta_term x o) (set_delta_term x' o').
  Proof. intros E []. now constructor. Qed.
  Lemma st_const x x' o o' : sE s x x' -> AR c o o' -> AR c (set_constant x o) (set_constant x' o').
  Proof. intros E []. now constructor. Qed.
  Lemma AR_init : AR c init_attrs init_attrs.
  Proof.
    constructor; cbn; auto using l_S0, l_E0, l_V0, l_D0; try (split; cbn; auto; fail); try constructor.
  Qed.
  End C.
End Run.
