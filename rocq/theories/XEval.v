(** * Evaluation in exact arithmetic: an object whose attributes hold the exact
    statistics of a partition evaluates to the specified value. *)
From Coq Require Import ZArith List Arith Bool Lia Permutation.
From Verif Require Import Num NumPy Base M_CH M_D M_PS GetCvi Lists Step Step2 StepB Hoare Eval Stream Shapes.
From Coq Require Import Reals Lra.
From Verif Require Import Det Spec XR SpecX RGeom XLift.
Import ListNotations.
Local Open Scope R_scope.

Definition XVal (c : kind) (d : nat) (gs : list (list point)) : xr :=
  if (length gs <=? 1)%nat then Fin 0
  else match c with
       | kCH => CH_ext d gs | kWB => WB_ext d gs | kDB => DB_ext d gs | kXB => XB_ext d gs
       | kGD43 => GD43_ext d gs | kGD53 => GD53_ext d gs | kPS => PS_ext d gs
       | krCIP => rCIP_ext d gs | kcSIL => cSIL_ext d gs
       end.

(** ** Tables of pairs *)
Lemma triu_S {A : Arith} k (e : nat -> nat -> F A) :
  triu (S k) e = map (e 0%nat) (seq 1 k) ++ triu k (fun a b => e (S a) (S b)).
Proof.
  unfold triu. cbn [seq flat_map]. rewrite Nat.sub_succ, Nat.sub_0_r. f_equal.
  rewrite <- seq_shift, !flat_map_concat_map, map_map. f_equal. apply map_ext. intros i.
  rewrite Nat.sub_succ, <- (seq_shift _ (S i)), map_map. reflexivity.
Qed.
Lemma triu_pairs {A : Arith} {X} (f : X -> X -> F A) (gs : list X) z :
  triu (length gs) (fun a b => f (nth a gs z) (nth b gs z)) = map (fun p => f (fst p) (snd p)) (pairs gs).
Proof.
  induction gs as [|g gs IH]; [reflexivity|]. cbn [length pairs]. rewrite triu_S, map_app, map_map.
  cbn [nth fst snd]. rewrite IH. f_equal. rewrite <- seq_shift, map_map.
  cbn [nth]. rewrite <- (map_map (fun i => nth i gs z) (f g)), map_seq_nth. reflexivity.
Qed.
Lemma selects_seq {X Y} (f : X -> list X -> Y) (gs : list X) z :
  map (fun i => f (nth i gs z) (remove_nth i gs)) (seq 0 (length gs)) = map (fun p => f (fst p) (snd p)) (selects gs).
Proof.
  revert f; induction gs as [|g gs IH]; intros f; [reflexivity|].
  cbn [length seq map selects fst snd nth]. f_equal.
  rewrite <- seq_shift, !map_map. cbn [nth fst snd].
  exact (IH (fun x r => f x (g :: r))).
Qed.
Lemma remove_nth_map {X Y} (f : X -> Y) i l : remove_nth i (map f l) = map f (remove_nth i l).
Proof. unfold remove_nth. now rewrite map_app, firstn_map, skipn_map. Qed.
Lemma skipn_nth_cons {X} (l : list X) i z : (i < length l)%nat -> skipn i l = nth i l z :: skipn (S i) l.
Proof.
  revert i; induction l as [|a l IH]; intros [|i] H; simpl in H; try lia; [reflexivity|].
  cbn [skipn nth]. rewrite IH by lia. reflexivity.
Qed.
Lemma remove_nth_seq i k j : In j (remove_nth i (seq 0 k)) -> (j < k)%nat /\ (i < k -> j <> i)%nat.
Proof.
  unfold remove_nth. intros H. apply in_app_iff in H.
  assert (E : seq 0 k = firstn i (seq 0 k) ++ skipn i (seq 0 k)) by (symmetry; apply firstn_skipn).
  split.
  - assert (Hj : In j (seq 0 k)); [|apply in_seq in Hj; lia].
    destruct H as [H|H].
    + rewrite <- (firstn_skipn i (seq 0 k)). apply in_or_app. now left.
    + rewrite <- (firstn_skipn (S i) (seq 0 k)). apply in_or_app. now right.
  - intros Hi. pose proof (seq_NoDup k 0) as Nd.
    rewrite <- (firstn_skipn i (seq 0 k)) in Nd.
    assert (Es : skipn i (seq 0 k) = i :: skipn (S i) (seq 0 k)).
    { rewrite (skipn_nth_cons _ i 0%nat) by (rewrite seq_length; auto). now rewrite seq_nth. }
    rewrite Es in Nd. apply NoDup_remove_2 in Nd. intros ->. apply Nd. apply in_or_app. auto.
Qed.
Lemma table_perm {X Y} (z : Y) (f : X -> Y) (gs : list X) x0 j : (j < length gs)%nat ->
  Permutation (map (fun i => if (i =? j)%nat then z else f (nth i gs x0)) (seq 0 (length gs)))
              (z :: map f (remove_nth j gs)).
Proof.
  revert j; induction gs as [|g gs IH]; intros j Hj; [simpl in Hj; lia|].
  cbn [length seq map]. rewrite <- seq_shift, map_map. destruct j as [|j].
  - cbn [Nat.eqb]. apply perm_skip. unfold remove_nth. cbn [firstn app skipn nth].
    rewrite <- (map_map (fun i => nth i gs x0) f), map_seq_nth. reflexivity.
  - cbn [Nat.eqb nth]. cbn [length] in Hj. rewrite (IH j) by lia.
    unfold remove_nth. cbn [firstn app skipn map]. apply perm_swap.
Qed.

(** ** Means and sizes *)
Lemma nth_fin j x : nth j (fin x) (f0 : F XR) = Fin (co j x).
Proof. unfold fin. change (f0 : F XR) with (Fin 0). apply map_nth. Qed.
Lemma col_fin d g j : col (A := XR) (mkMat d (map fin g)) j = map (fun x => Fin (co j x)) g.
Proof. unfold col. cbn [mrows]. rewrite map_map. apply map_ext. intros x. apply nth_fin. Qed.
Lemma mean0_fin d g : g <> [] -> mean0 (A := XR) (mkMat d (map fin g)) = fin (centroid d g).
Proof.
  intros Hg. unfold mean0, centroid, fin. cbn [mcols]. rewrite map_map. apply map_ext. intros j.
  cbv beta. change (col _ j) with (col (A := XR) (mkMat d (map fin g)) j). rewrite col_fin. unfold nrows. cbn [mrows]. rewrite map_length, f_of_nat_fin, np_sum_map.
  apply fdiv_fin, Rgt_not_eq, (INR_pos g Hg).
Qed.
Lemma list_max_In l : l <> [] -> In (list_max l) l.
Proof.
  induction l as [|a l IH]; [congruence|]. intros _. cbn [list_max fold_right].
  change (fold_right Nat.max 0%nat l) with (list_max l).
  destruct l as [|b l]; [left; simpl; lia|].
  destruct (Nat.max_dec a (list_max (b :: l))) as [-> | ->]; [now left|]. right. apply IH. discriminate.
Qed.
Lemma list_max_le x l : In x l -> (x <= list_max l)%nat.
Proof.
  induction l as [|a l IH]; [intros []|]. cbn [list_max fold_right].
  change (fold_right Nat.max 0%nat l) with (list_max l). intros [->|H]; [lia|]. specialize (IH H). lia.
Qed.
Lemma rmax_INR l : INR (list_max l) = rmax (map INR l).
Proof.
  destruct l as [|a l]; [reflexivity|]. symmetry. apply rmax_unique.
  - apply in_map, list_max_In. discriminate.
  - intros y Hy. apply in_map_iff in Hy as (x & <- & Hx). apply le_INR, list_max_le, Hx.
Qed.

(** ** The statistics an evaluation reads *)
Definition good (d : nat) (gs : list (list point)) : Prop :=
  Forall (wfg d) gs /\ Forall (fun g => g <> []) gs.
Definition CPs d gs (o : attrs XR) : Prop := CP o = map (fun g => Fin (scatter d g)) gs.
Definition Doff (f : list point -> list point -> R) gs (o : attrs XR) : Prop :=
  forall a b, (a < length gs)%nat -> (b < length gs)%nat -> a <> b ->
    entry (D o) a b = Fin (f (nth a gs []) (nth b gs [])).
Definition Dup (f : list point -> list point -> R) gs (o : attrs XR) : Prop :=
  forall a b, (a < b)%nat -> (b < length gs)%nat -> entry (D o) a b = Fin (f (nth a gs []) (nth b gs [])).
Definition Stats (c : kind) d gs (o : attrs XR) : Prop :=
  match c with
  | kCH | kWB => CPs d gs o /\
      SEP o = map (fun g => Fin (INR (length g) * dist2 (centroid d g) (centroid d (concat gs)))) gs
  | kDB => S1 o = map (fun g => Fin (mse d g)) gs /\ Doff (cdist d) gs o
  | kXB => CPs d gs o /\ Dup (cdist d) gs o
  | kGD43 => CPs d gs o /\ Dup (fun g h => sqrt (cdist d g h)) gs o
  | kGD53 => CPs d gs o /\ Dup (pooled d) gs o
  | kPS => wfm (length gs) (length gs) (D o) /\ Doff (cdist d) gs o
  | krCIP => Dup (potential d) gs o
  | kcSIL => S2 o = tab2 (A := XR) (length gs) (length gs) (fun a b => Fin (mdist d (nth b gs []) (nth a gs [])))
  end.
Record Data (c : kind) d gs (o : attrs XR) : Prop := mkData {
  da_k : n_clusters o = length gs;
  da_ns : n_samples o = length (concat gs);
  da_n : n o = map (@length point) gs;
  da_v : v o = mkMat d (map (fun g => fin (centroid d g)) gs);
  da_st : Stats c d gs o
}.

Lemma Doff_Dup f gs o : Doff f gs o -> Dup f gs o.
Proof. intros H a b Ha Hb. apply H; lia. Qed.
Lemma triu_Dup f gs o k : Dup f gs o -> k = length gs ->
  triu k (entry (D o)) = fin (map (fun p => f (fst p) (snd p)) (pairs gs)).
Proof.
  intros H ->. rewrite (triu_ext (A := XR) _ _ (fun a b => Fin (f (nth a gs []) (nth b gs [])))) by (intros; apply H; auto).
  rewrite (triu_pairs (A := XR) (fun g h => Fin (f g h) : F XR) gs []). unfold fin. now rewrite map_map.
Qed.

Lemma rowD_ne {X} (gs : list X) : (1 < length gs)%nat -> forall x r, In (x, r) (selects gs) -> r <> [].
Proof. intros H x r. apply selects_ne. lia. Qed.

Section Ev.
  Variables (d : nat) (gs : list (list point)) (o : attrs XR).
  Hypotheses (Hg : good d gs) (Hk : (1 < length gs)%nat).

  Lemma nclus_pos : 1 < nclus gs.
  Proof. unfold nclus. change 1 with (INR 1). now apply lt_INR. Qed.
  Lemma len_pos g : In g gs -> 0 < INR (length g).
  Proof. intros H. destruct Hg as [_ Hn]. rewrite Forall_forall in Hn. apply INR_pos. auto. Qed.
  Lemma some_g : exists g, In g gs.
  Proof. destruct gs as [|g l]; [simpl in Hk; lia|]. exists g. now left. Qed.
  Lemma nth_gs i : (i < length gs)%nat -> In (nth i gs []) gs.
  Proof. apply nth_In. Qed.

  Lemma CH_xval : Data kCH d gs o -> CH_val o = CH_ext d gs.
  Proof.
    intros [E1 E2 E3 E4 [E5 E6]]. unfold CH_val, CH_ext. rewrite E6. unfold CPs in E5. rewrite E5, !py_sum_map, E1, E2.
    cbn [f_of_Z XR fmul fdiv]. pose proof nclus_pos as P. fold (bgss d gs) (wgss d gs). f_equal.
    rewrite !minus_IZR, <- !INR_IZR_INZ. apply xdiv_fin. unfold nclus, point in *. lra.
  Qed.
  Lemma WB_xval : Data kWB d gs o -> WB_val o = WB_ext d gs.
  Proof.
    intros [E1 E2 E3 E4 [E5 E6]]. unfold WB_val, WB_ext. rewrite E6. unfold CPs in E5. rewrite E5, !py_sum_map, E1.
    rewrite f_of_nat_fin. reflexivity.
  Qed.
  Lemma XB_xval : Data kXB d gs o -> XB_val o = XB_ext d gs.
  Proof.
    intros [E1 E2 E3 E4 [E5 E6]]. unfold XB_val, XB_ext. unfold CPs in E5. rewrite E5, !py_sum_map, E1, E2.
    rewrite (triu_Dup _ _ _ _ E6 eq_refl), vmin_fin, f_of_nat_fin. reflexivity.
  Qed.
  Lemma intra_xval : CPs d gs o -> n o = map (@length point) gs ->
    vmax (map2 fdiv (CP o) (map f_of_nat (n o))) = Fin (rmax (map (mse d) gs)).
  Proof.
    intros E5 E3. unfold CPs in E5. rewrite E5, E3, map_map, map2_same. rewrite <- (vmax_fin (map (mse d) gs)).
    f_equal. unfold fin. rewrite map_map. apply map_ext_in. intros g Hin. rewrite f_of_nat_fin.
    pose proof (len_pos g Hin). apply fdiv_fin. lra.
  Qed.
  Lemma GD43_xval : Data kGD43 d gs o -> GD_val o = GD43_ext d gs.
  Proof.
    intros [E1 E2 E3 E4 [E5 E6]]. unfold GD_val, GD43_ext. rewrite intra_xval by auto. rewrite E1.
    rewrite (triu_Dup _ _ _ _ E6 eq_refl), vmin_fin. reflexivity.
  Qed.
  Lemma GD53_xval : Data kGD53 d gs o -> GD_val o = GD53_ext d gs.
  Proof.
    intros [E1 E2 E3 E4 [E5 E6]]. unfold GD_val, GD53_ext. rewrite intra_xval by auto. rewrite E1.
    rewrite (triu_Dup _ _ _ _ E6 eq_refl), vmin_fin. reflexivity.
  Qed.
  Lemma rCIP_xval : Data krCIP d gs o -> rCIP_val o = rCIP_ext d gs.
  Proof.
    intros [E1 E2 E3 E4 E6]. unfold rCIP_val, rCIP_ext. rewrite E1.
    rewrite (triu_Dup _ _ _ _ E6 eq_refl). apply np_sum_fin.
  Qed.

  Lemma DB_xval : Data kDB d gs o -> DB_val o = DB_ext d gs.
  Proof.
    intros [E1 E2 E3 E4 [E5 E6]]. unfold DB_val, DB_ext. rewrite E1, f_of_nat_fin.
    change (@fdiv XR) with xdiv. change (@np_sum XR) with xsum. f_equal. f_equal.
    set (t := fun g h => xdiv (Fin (mse d g + mse d h)) (Fin (cdist d g h))).
    change (map (fun p => xmaxl (map (fun h => xdiv (Fin (mse d (fst p) + mse d h)) (Fin (cdist d (fst p) h))) (snd p))) (selects gs))
      with (map (fun p => xmaxl (map (t (fst p)) (snd p))) (selects gs)).
    rewrite <- (selects_seq (fun g r => xmaxl (map (t g) r)) gs []).
    apply map_ext_in. intros j Hj. apply in_seq in Hj. rewrite vmax_xmaxl.
    assert (ES : forall i, (i < length gs)%nat -> nth i (S1 o) (f0 : F XR) = Fin (mse d (nth i gs []))).
    { intros i Hi. rewrite E5. rewrite nth_indep with (d' := Fin (mse d [])) by (now rewrite map_length).
      apply (map_nth (fun g => Fin (mse d g))). }
    rewrite (xmaxl_perm _ (Fin 0 :: map (t (nth j gs [])) (remove_nth j gs))).
    - apply xmaxl_0. apply Forall_map, Forall_forall. intros h _. unfold t.
      pose proof (mse_nonneg d (nth j gs [])). pose proof (mse_nonneg d h). pose proof (cdist_nonneg d (nth j gs []) h).
      destruct (Req_dec (cdist d (nth j gs []) h) 0) as [Ez|Ez].
      + rewrite Ez, xdiv_zero. unfold inf_mul. destruct (Req_EM_T _ _); [exact I|]. destruct (Rlt_dec _ _); [exact I|lra].
      + rewrite xdiv_fin by auto. cbn. apply Rmult_le_pos; [lra|]. apply Rlt_le, Rinv_0_lt_compat. lra.
    - rewrite <- (table_perm (Fin 0) (t (nth j gs [])) gs [] j) by lia.
      match goal with |- Permutation ?u ?w => assert (E : u = w); [|now rewrite E] end.
      apply map_ext_in. intros i Hi. apply in_seq in Hi. unfold DB_low.
      change (@fadd XR) with xadd. change (@fdiv XR) with xdiv.
      destruct (Nat.ltb_spec j i) as [L1|L1], (Nat.ltb_spec i j) as [L2|L2]; try lia.
      + destruct (Nat.eqb_spec i j); [lia|]. rewrite !ES by lia. rewrite xadd_comm, f0_fin, xadd_0_l.
        rewrite E6 by lia. unfold t. cbn [xadd]. now rewrite cdist_sym.
      + destruct (Nat.eqb_spec i j); [lia|]. rewrite !ES by lia. rewrite f0_fin, xadd_0_l.
        rewrite E6 by lia. unfold t. cbn [xadd]. now rewrite Rplus_comm.
      + destruct (Nat.eqb_spec i j); [|lia]. cbn. f_equal. lra.
  Qed.

  Lemma beta_xval : Data kPS d gs o -> PS_bt o = Fin (PS_beta d gs).
  Proof.
    intros [E1 E2 E3 E4 [E5 E6]]. unfold PS_bt, PS_beta. rewrite E1, E4, f_of_nat_fin.
    rewrite <- (map_map (centroid d) fin), mean0_fin by (destruct gs; [simpl in Hk; lia|discriminate]).
    set (c := centroid d (map (centroid d) gs)).
    rewrite (map_ext_in _ (fun i => (fun g => Fin (dist2 (centroid d g) c)) (nth i gs []))).
    - rewrite <- (map_map (fun i => nth i gs []) (fun g => Fin (dist2 (centroid d g) c))), map_seq_nth.
      rewrite py_sum_map. pose proof nclus_pos. unfold nclus in *. apply fdiv_fin. lra.
    - intros i Hi. apply in_seq in Hi. unfold vrow. rewrite E4. cbn [mrows].
      rewrite nth_indep with (d' := fin (centroid d [])) by (rewrite map_length; lia).
      rewrite (map_nth (fun g => fin (centroid d g))). apply dot_sub_fin.
  Qed.
  Lemma min_row i : wfm (length gs) (length gs) (D o) -> Doff (cdist d) gs o -> (i < length gs)%nat ->
    vmin (remove_nth i (nth i (mrows (D o)) [])) = Fin (rmin (map (cdist d (nth i gs [])) (remove_nth i gs))).
  Proof.
    intros HW HD Hi. pose proof (wfm_row _ _ _ _ HW Hi) as L.
    assert (Er : nth i (mrows (D o)) [] = map (entry (D o) i) (seq 0 (length gs))).
    { unfold entry. rewrite <- L at 1. symmetry. apply map_seq_nth. }
    rewrite Er, remove_nth_map. rewrite <- vmin_fin. f_equal. unfold fin. rewrite map_map.
    assert (Eg : remove_nth i gs = map (fun j => nth j gs []) (remove_nth i (seq 0 (length gs))))
      by (now rewrite <- remove_nth_map, map_seq_nth).
    rewrite Eg, map_map. apply map_ext_in.
    intros j Hj. apply remove_nth_seq in Hj as [H1 H2]. rewrite HD by (auto; lia). reflexivity.
  Qed.
  Lemma PS_xval : Data kPS d gs o -> PS_val o = PS_ext d gs.
  Proof.
    intros HD. pose proof (beta_xval HD) as EB. destruct HD as [E1 E2 E3 E4 [E5 E6]].
    unfold PS_val, PS_ext. rewrite E1, EB, E3.
    assert (Hm : 0 < rmax (map (fun g : list point => INR (length g)) gs)).
    { destruct some_g as [g Hin]. eapply Rlt_le_trans; [apply (len_pos g Hin)|].
      apply rmax_ge. apply (in_map (fun g : list point => INR (length g))), Hin. }
    set (T := fun g r => xsub (Fin (INR (length g) / rmax (map (fun g : list point => INR (length g)) gs)))
                    (xexp (xdiv (Fin (- rmin (map (cdist d g) r))) (Fin (PS_beta d gs))))).
    assert (ET : forall i, (i < length gs)%nat ->
       fsub (fdiv (f_of_nat (nn o i)) (f_of_nat (list_max (map (@length point) gs))))
            (fexp (fdiv (fneg (vmin (remove_nth i (nth i (mrows (D o)) [])))) (Fin (PS_beta d gs)))) =
       T (nth i gs []) (remove_nth i gs)).
    { intros i Hi. rewrite min_row by auto. rewrite !f_of_nat_fin, rmax_INR, map_map.
      unfold T. cbn [fsub fdiv fexp fneg XR xneg]. f_equal.
      unfold nn. rewrite E3. rewrite nth_indep with (d' := length (@nil point)) by (rewrite map_length; lia).
      rewrite map_nth. apply xdiv_fin. lra. }
    rewrite (map_ext_in _ (fun i => T (nth i gs []) (remove_nth i gs)) (seq 0 (length gs)))
      by (intros i Hi; apply in_seq in Hi; apply ET; lia).
    rewrite (selects_seq T gs []). unfold T. clear ET T.
    destruct (Req_EM_T (PS_beta d gs) 0) as [Eb|Eb].
    - rewrite Eb. change (np_sum (a := XR)) with xsum.
      assert (Hz : forall g, In g gs -> centroid d g = centroid d (map (centroid d) gs)).
      { intros g Hin. apply dist2_zero; [now rewrite !centroid_length|].
        refine (rsum_map_zero (fun g => dist2 (centroid d g) _) gs _ _ g Hin); [intros; apply dist2_nonneg|].
        unfold PS_beta in Eb. pose proof nclus_pos. apply Rmult_integral in Eb as [Eb|Eb]; auto.
        exfalso. revert Eb. apply Rinv_neq_0_compat. lra. }
      assert (HN : forall p, In p (selects gs) ->
         xsub (Fin (INR (length (fst p)) / rmax (map (fun g : list point => INR (length g)) gs)))
              (xexp (xdiv (Fin (- rmin (map (cdist d (fst p)) (snd p)))) (Fin 0))) = NaN).
      { intros [g r] Hp. cbn [fst snd].
        assert (Hr : r <> []) by (eapply rowD_ne; eauto).
        pose proof (selects_In _ _ _ Hp) as HP.
        assert (Er : rmin (map (cdist d g) r) = 0).
        { assert (Hi : In (rmin (map (cdist d g) r)) (map (cdist d g) r)) by (apply rmin_In; destruct r; [congruence|discriminate]).
          apply in_map_iff in Hi as (h & <- & Hh). unfold cdist. rewrite (Hz g), (Hz h); [apply dist2_refl| |];
            eapply Permutation_in; try (symmetry; exact HP); simpl; auto. }
        rewrite Er, xdiv_zero, Ropp_0, inf_mul_zero. reflexivity. }
      rewrite (map_ext_in _ _ _ HN).
      destruct (selects gs) as [|p l] eqn:Es.
      { pose proof (selects_length gs). rewrite Es in *. simpl in *. lia. }
      cbn [map]. rewrite xsum_cons. reflexivity.
    - unfold PS_formula. rewrite <- np_sum_map. f_equal. apply map_ext. intros [g r]. cbn [fst snd].
      rewrite xdiv_fin by auto. reflexivity.
  Qed.

  Lemma mdist_nonneg g h : 0 <= mdist d g h.
  Proof.
    unfold mdist. destruct h as [|x h]; [unfold Rdiv; simpl; lra|].
    apply Rmult_le_pos; [apply rsum_map_nonneg; intros; apply dist2_nonneg|].
    apply Rlt_le, Rinv_0_lt_compat, INR_pos. discriminate.
  Qed.
  Lemma mdist_zero g h : In h gs -> (mdist d g h = 0 <-> forall x, In x h -> x = centroid d g).
  Proof.
    intros Hh. pose proof (len_pos h Hh) as P. destruct Hg as [Hw _]. rewrite Forall_forall in Hw.
    specialize (Hw h Hh). unfold wfg in Hw. rewrite Forall_forall in Hw. unfold mdist. split.
    - intros H x Hx. apply dist2_zero; [rewrite centroid_length; auto|].
      refine (rsum_map_zero (fun x => dist2 x (centroid d g)) h _ _ x Hx); [intros; apply dist2_nonneg|].
      apply Rmult_integral in H as [H|H]; auto. exfalso. revert H. apply Rinv_neq_0_compat. lra.
    - intros H. rewrite (rsum_map_ext _ (fun _ => 0)).
      + rewrite rsum_const. unfold Rdiv. ring.
      + intros x Hx. rewrite (H x Hx) at 1. apply dist2_refl.
  Qed.
  Lemma tss_zero : tss d gs = 0 <-> (forall g h, In g gs -> In h gs -> mdist d g h = 0).
  Proof.
    assert (Hw : wfg d (concat gs)) by (apply wfg_concat, Hg).
    assert (Hgs : gs <> []) by (destruct gs; [simpl in Hk; lia|discriminate]).
    split.
    - intros H g h Hing Hinh. unfold tss in H. pose proof (proj1 (scatter_zero d (concat gs) Hw) H) as H'. clear H. rename H' into H.
      set (C := centroid d (concat gs)) in *.
      assert (HC : forall x g, In g gs -> In x g -> x = C).
      { intros x g' H1 H2. apply H. apply in_concat. eauto. }
      assert (HD : centroid d g = C).
      { apply (point_ext d); try apply centroid_length. intros j Hj. rewrite co_centroid by auto.
        rewrite (rsum_map_ext (co j) (fun _ => co j C)) by (intros x Hx; now rewrite (HC x g Hing Hx)).
        rewrite rsum_const. pose proof (len_pos g Hing). field. lra. }
      apply mdist_zero; auto. intros x Hx. rewrite HD. eauto.
    - intros H. unfold tss. destruct some_g as [g0 Hg0].
      set (C := centroid d g0).
      assert (HC : forall x, In x (concat gs) -> x = C).
      { intros x Hx. apply in_concat in Hx as (h & Hh & Hx).
        refine (proj1 (mdist_zero g0 h Hh) _ x Hx). apply H; auto. }
      pose proof (parallel_axis d (concat gs) C) as P.
      rewrite (rsum_map_ext _ (fun _ => 0)) in P by (intros x Hx; rewrite (HC x Hx); apply dist2_refl).
      rewrite rsum_const in P. pose proof (scatter_nonneg d (concat gs)).
      pose proof (dist2_nonneg (centroid d (concat gs)) C). pose proof (pos_INR (length (concat gs))).
      assert (Hne : concat gs <> []) by (apply concat_ne; [auto|apply Hg]).
      specialize (P Hne Hw (centroid_length _ _)). nra.
  Qed.
  Lemma np_any_tab k (e : nat -> nat -> R) :
    np_any (tab2 (A := XR) k k (fun a b => Fin (e a b))) = false <-> (forall a b, (a < k)%nat -> (b < k)%nat -> e a b = 0).
  Proof.
    unfold np_any, tab2. cbn [mrows]. split.
    - intros H a b Ha Hb. destruct (Req_dec (e a b) 0) as [E|E]; auto. exfalso.
      rewrite <- not_true_iff_false in H. apply H. apply existsb_exists.
      exists (map (fun b => Fin (e a b)) (seq 0 k)). split; [apply in_map_iff; exists a; split; auto; apply in_seq; lia|].
      apply existsb_exists. exists (Fin (e a b)). split; [apply in_map_iff; exists b; split; auto; apply in_seq; lia|].
      cbn. destruct (Req_EM_T (e a b) 0); [contradiction|reflexivity].
    - intros H. apply not_true_iff_false. intros E. apply existsb_exists in E as (r & Hr & E).
      apply in_map_iff in Hr as (a & <- & Ha). apply existsb_exists in E as (x & Hx & E).
      apply in_map_iff in Hx as (b & <- & Hb). apply in_seq in Ha, Hb. cbn in E.
      rewrite H in E by lia. destruct (Req_EM_T 0 0); congruence.
  Qed.
  Lemma cSIL_xval : Data kcSIL d gs o -> cSIL_val o = cSIL_ext d gs.
  Proof.
    intros [E1 E2 E3 E4 E5]. cbn [Stats] in E5. unfold cSIL_val, cSIL_ext. rewrite E1, E5.
    destruct (np_any _) eqn:Ea.
    - destruct (Req_EM_T (tss d gs) 0) as [Et|Et].
      { exfalso. apply not_false_iff_true in Ea. apply Ea.
        apply (np_any_tab (length gs) (fun a b => mdist d (nth b gs []) (nth a gs []))).
        intros a b Ha Hb. apply (proj1 tss_zero Et); now apply nth_In. }
      rewrite f_of_nat_fin. change (@fdiv XR) with xdiv. change (@np_sum XR) with xsum. f_equal. f_equal.
      rewrite <- (selects_seq (fun g r => xdiv (Fin (rmin (map (mdist d g) r) - mdist d g g))
                   (Fin (Rmax (mdist d g g) (rmin (map (mdist d g) r))))) gs []).
      apply map_ext_in. intros i Hi. apply in_seq in Hi. rewrite entry_tab2 by lia.
      assert (Ec : vmin (remove_nth i (col (tab2 (A := XR) (length gs) (length gs)
                     (fun a b => Fin (mdist d (nth b gs []) (nth a gs [])))) i)) =
                   Fin (rmin (map (mdist d (nth i gs [])) (remove_nth i gs)))).
      { rewrite <- vmin_fin. f_equal. unfold col, tab2. cbn [mrows]. rewrite map_map.
        rewrite (map_ext_in _ (fun a => Fin (mdist d (nth i gs []) (nth a gs [])))).
        - rewrite <- (map_map (fun a => nth a gs []) (fun h => Fin (mdist d (nth i gs []) h))), map_seq_nth.
          rewrite remove_nth_map. unfold fin. now rewrite map_map.
        - intros a Ha. now rewrite nth_map_seq by lia. }
      rewrite Ec. change (@fmaximum XR) with xmax. rewrite xmax_fin. reflexivity.
    - destruct (Req_EM_T (tss d gs) 0) as [Et|Et]; [reflexivity|]. exfalso. apply Et, tss_zero.
      intros g h Hg' Hh. apply (In_nth _ _ []) in Hg' as (b & Hb & <-). apply (In_nth _ _ []) in Hh as (a & Ha & <-).
      apply (proj1 (np_any_tab (length gs) (fun a b => mdist d (nth b gs []) (nth a gs []))) Ea); auto.
  Qed.
End Ev.

Lemma val_of_XVal c d gs o : good d gs -> Data c d gs o -> val_of c o = XVal c d gs.
Proof.
  intros Hg HD. unfold val_of, XVal. rewrite (da_k _ _ _ _ HD).
  destruct (Nat.leb_spec (length gs) 1) as [Hk|Hk]; [reflexivity|].
  destruct c; auto using CH_xval, WB_xval, XB_xval, GD43_xval, GD53_xval, DB_xval, rCIP_xval, PS_xval, cSIL_xval.
Qed.
