(** * rCIP in exact arithmetic: covariances, positive definiteness, potentials. *)
From Coq Require Import ZArith List Arith Bool Lia Permutation.
From Verif Require Import Num NumPy Base M_CH M_D M_PS GetCvi Lists Step Step2 StepB Hoare Eval Stream Shapes Generic.
From Coq Require Import Reals Lra.
From Verif Require Import Det Spec XR SpecX RGeom XLift XEval XInc.
Import ListNotations.
Local Open Scope R_scope.

(** ** Cross products of deviations *)
Definition cross d (g : list point) a b : R :=
  rsum (map (fun x => (co a x - co a (centroid d g)) * (co b x - co b (centroid d g))) g).
Lemma covar_cross d g a b : covar d g a b = if (length g <=? 1)%nat then 0 else cross d g a b / (INR (length g) - 1).
Proof. reflexivity. Qed.
Lemma sum_dev d g j : g <> [] -> (j < d)%nat -> rsum (map (fun x => co j x - co j (centroid d g)) g) = 0.
Proof.
  intros Hg Hj. rewrite (rsum_map_minus (co j) (fun _ => co j (centroid d g))), rsum_const.
  rewrite co_centroid by auto. pose proof (INR_pos g Hg). field. lra.
Qed.
Lemma cross_shift d g a b u w : g <> [] -> (a < d)%nat -> (b < d)%nat ->
  rsum (map (fun x => (co a x - u) * (co b x - w)) g) =
  cross d g a b + INR (length g) * ((co a (centroid d g) - u) * (co b (centroid d g) - w)).
Proof.
  intros Hg Ha Hb. set (ca := co a (centroid d g)). set (cb := co b (centroid d g)).
  rewrite (rsum_map_ext _ (fun x => ((co a x - ca) * (co b x - cb) + (ca - u) * (co b x - cb))
                                    + ((cb - w) * (co a x - ca) + (ca - u) * (cb - w)))) by (intros; ring).
  rewrite (rsum_map_plus (fun x => (co a x - ca) * (co b x - cb) + (ca - u) * (co b x - cb))
                         (fun x => (cb - w) * (co a x - ca) + (ca - u) * (cb - w))).
  rewrite (rsum_map_plus (fun x => (co a x - ca) * (co b x - cb)) (fun x => (ca - u) * (co b x - cb))).
  rewrite (rsum_map_plus (fun x => (cb - w) * (co a x - ca)) (fun _ => (ca - u) * (cb - w))).
  rewrite (rsum_map_scal (ca - u) (fun x => co b x - cb)), (rsum_map_scal (cb - w) (fun x => co a x - ca)), rsum_const.
  assert (Sa : rsum (map (fun x => co a x - ca) g) = 0) by (apply sum_dev; auto).
  assert (Sb : rsum (map (fun x => co b x - cb) g) = 0) by (apply sum_dev; auto).
  rewrite Sa, Sb. unfold cross. fold ca cb. ring.
Qed.
Lemma cross_snoc d g x a b : g <> [] -> (a < d)%nat -> (b < d)%nat ->
  cross d (g ++ [x]) a b = cross d g a b + INR (length g) / (INR (length g) + 1) *
    ((co a x - co a (centroid d g)) * (co b x - co b (centroid d g))).
Proof.
  intros Hg Ha Hb. pose proof (INR_pos g Hg). unfold cross at 1. rewrite map_app, rsum_app. cbn [map].
  rewrite (cross_shift d g a b) by auto. rewrite !co_centroid_snoc by auto.
  rewrite rsum_cons. unfold rsum at 1. cbn [fold_right]. field. lra.
Qed.
Lemma cross_single d x a b : (a < d)%nat -> cross d [x] a b = 0.
Proof.
  intros Ha. unfold cross. cbn [map]. rewrite rsum_cons. unfold rsum. cbn [fold_right].
  rewrite co_centroid by auto. cbn [map length INR]. rewrite rsum_cons. unfold rsum. cbn [fold_right]. field.
Qed.
Lemma cross_raw d g a b : g <> [] -> (a < d)%nat -> (b < d)%nat ->
  rsum (map (fun x => co a x * co b x) g) - INR (length g) * (co a (centroid d g) * co b (centroid d g)) = cross d g a b.
Proof.
  intros Hg Ha Hb. pose proof (cross_shift d g a b 0 0 Hg Ha Hb) as E.
  rewrite (rsum_map_ext _ (fun x => co a x * co b x)) in E by (intros; ring). rewrite E. ring.
Qed.
Lemma covar_snoc d g x a b : g <> [] -> (a < d)%nat -> (b < d)%nat ->
  covar d (g ++ [x]) a b = (INR (length g) - 1) / INR (length g) * covar d g a b
    + 1 / (INR (length g) + 1) * ((co a x - co a (centroid d g)) * (co b x - co b (centroid d g))).
Proof.
  intros Hg Ha Hb. pose proof (INR_pos g Hg) as P. rewrite !covar_cross. rewrite app_length. cbn [length].
  destruct (Nat.leb_spec (length g + 1) 1) as [L|L].
  { destruct g; [congruence|simpl in L; lia]. }
  rewrite cross_snoc by auto. rewrite plus_INR. cbn [INR].
  destruct (Nat.leb_spec (length g) 1) as [L'|L'].
  - destruct g as [|y [|]]; [congruence| |simpl in L'; lia]. rewrite cross_single by auto. cbn [length INR]. field.
  - apply lt_INR in L'. cbn [INR] in L'. unfold point in *. field. repeat split; lra.
Qed.

(** ** Positive definiteness *)
Lemma sumn_rsum k f : sumn k f = rsum (map f (seq 0 k)).
Proof. reflexivity. Qed.
Lemma sumn_ext k f g : (forall i, (i < k)%nat -> f i = g i) -> sumn k f = sumn k g.
Proof. intros H. rewrite !sumn_rsum. apply rsum_map_ext. intros i Hi. apply in_seq in Hi. apply H. lia. Qed.
Lemma sumn_plus k f g : sumn k (fun i => f i + g i) = sumn k f + sumn k g.
Proof. rewrite !sumn_rsum. apply rsum_map_plus. Qed.
Lemma sumn_scal k c f : sumn k (fun i => c * f i) = c * sumn k f.
Proof. rewrite !sumn_rsum. apply rsum_map_scal. Qed.
Lemma sumn_swap k f : sumn k (fun i => sumn k (fun j => f i j)) = sumn k (fun j => sumn k (fun i => f i j)).
Proof. apply (rsum_swap f (seq 0 k) (seq 0 k)). Qed.
Lemma sumn_zero k : sumn k (fun _ => 0) = 0.
Proof. rewrite sumn_rsum, rsum_const. ring. Qed.
Lemma sumn_delta k i (t : nat -> R) : (i < k)%nat -> sumn k (fun j => if (i =? j)%nat then t j else 0) = t i.
Proof.
  intros Hi. rewrite sumn_rsum. replace k with (i + (1 + (k - i - 1)))%nat by lia.
  rewrite !seq_app, !map_app, !rsum_app. cbn [seq map Nat.add]. rewrite rsum_cons, Nat.eqb_refl.
  rewrite (rsum_map_ext _ (fun _ => 0) (seq 0 i)).
  - rewrite (rsum_map_ext _ (fun _ => 0) (seq (i + 1) _)).
    + rewrite !rsum_const. unfold rsum. cbn [fold_right]. ring.
    + intros j Hj. apply in_seq in Hj. destruct (Nat.eqb_spec i j); [lia|auto].
  - intros j Hj. apply in_seq in Hj. destruct (Nat.eqb_spec i j); [lia|auto].
Qed.
Lemma sumn_prod k f g : sumn k (fun i => sumn k (fun j => f i * g j)) = sumn k f * sumn k g.
Proof.
  rewrite (sumn_ext _ _ (fun i => sumn k g * f i)).
  - rewrite sumn_scal. ring.
  - intros i _. rewrite sumn_scal. ring.
Qed.
Definition qform k (m : nat -> nat -> R) (x : nat -> R) : R := sumn k (fun i => sumn k (fun j => x i * (m i j * x j))).
Lemma qform_ext k m m' x : (forall i j, (i < k)%nat -> (j < k)%nat -> m i j = m' i j) -> qform k m x = qform k m' x.
Proof. intros H. apply sumn_ext. intros i Hi. apply sumn_ext. intros j Hj. now rewrite H. Qed.
Lemma qform_plus k m m' x : qform k (fun i j => m i j + m' i j) x = qform k m x + qform k m' x.
Proof.
  unfold qform. rewrite <- sumn_plus. apply sumn_ext. intros i _. rewrite <- sumn_plus. apply sumn_ext. intros j _. ring.
Qed.
Lemma qform_cross {Y} k (u : Y -> nat -> R) (g : list Y) x :
  qform k (fun i j => rsum (map (fun y => u y i * u y j) g)) x =
  rsum (map (fun y => sumn k (fun i => x i * u y i) * sumn k (fun i => x i * u y i)) g).
Proof.
  induction g as [|y g IH].
  - cbn [map]. unfold qform, rsum. cbn [fold_right]. rewrite (sumn_ext _ _ (fun _ => 0)); [apply sumn_zero|].
    intros i _. rewrite (sumn_ext _ _ (fun _ => 0)); [apply sumn_zero|]. intros; ring.
  - cbn [map]. rewrite rsum_cons, <- IH, <- sumn_prod.
    rewrite (qform_ext k _ (fun i j => u y i * u y j + rsum (map (fun y => u y i * u y j) g)))
      by (intros; now rewrite rsum_cons).
    rewrite qform_plus. f_equal. unfold qform. apply sumn_ext. intros i _. apply sumn_ext. intros j _. ring.
Qed.
Lemma qform_scal k c m x : qform k (fun i j => m i j * c) x = c * qform k m x.
Proof.
  unfold qform. rewrite <- sumn_scal. apply sumn_ext. intros i _. rewrite <- sumn_scal. apply sumn_ext. intros; ring.
Qed.
Lemma qform_covar d g x : 0 <= qform d (covar d g) x.
Proof.
  destruct (Nat.leb_spec (length g) 1) as [L|L].
  - rewrite (qform_ext _ _ (fun _ _ => 0)).
    + unfold qform. rewrite (sumn_ext _ _ (fun _ => 0)); [rewrite sumn_zero; lra|].
      intros i _. rewrite (sumn_ext _ _ (fun _ => 0)); [apply sumn_zero|]. intros; ring.
    + intros i j _ _. rewrite covar_cross. destruct (Nat.leb_spec (length g) 1); [auto|lia].
  - rewrite (qform_ext _ _ (fun i j => cross d g i j * / (INR (length g) - 1))).
    + rewrite qform_scal. apply lt_INR in L. cbn [INR] in L.
      apply Rmult_le_pos; [apply Rlt_le, Rinv_0_lt_compat; lra|].
      unfold cross. rewrite (qform_cross d (fun y i => co i y - co i (centroid d g))).
      apply rsum_map_nonneg. intros y _. apply Rle_0_sqr.
    + intros i j _ _. rewrite covar_cross. destruct (Nat.leb_spec (length g) 1); [lia|auto].
Qed.
Lemma delta_pos d : 0 < delta d.
Proof. unfold delta, Rpower. apply exp_pos. Qed.
Lemma qform_delta d x : qform d (fun i j => if (i =? j)%nat then delta d else 0) x = delta d * sumn d (fun i => x i * x i).
Proof.
  unfold qform. rewrite <- sumn_scal. apply sumn_ext. intros i Hi.
  rewrite (sumn_ext _ _ (fun j => if (i =? j)%nat then x i * (delta d * x j) else 0)).
  - rewrite sumn_delta by auto. ring.
  - intros j _. destruct (Nat.eqb_spec i j); ring.
Qed.
Lemma sumsq_pos d x : (exists i, (i < d)%nat /\ x i <> 0) -> 0 < sumn d (fun i => x i * x i).
Proof.
  intros (i & Hi & Hx). assert (0 <= sumn d (fun i => x i * x i)).
  { rewrite sumn_rsum. apply rsum_map_nonneg. intros j _. apply Rle_0_sqr. }
  destruct (Req_dec (sumn d (fun i => x i * x i)) 0) as [E|E]; [|lra]. exfalso. apply Hx, Rsqr_0_uniq.
  refine (rsum_map_zero (fun i => x i * x i) (seq 0 d) _ E i _); [intros; apply Rle_0_sqr|apply in_seq; lia].
Qed.
Lemma covar_sym d g i j : covar d g i j = covar d g j i.
Proof.
  rewrite !covar_cross. destruct (length g <=? 1)%nat; auto. f_equal. unfold cross. apply rsum_map_ext. intros; ring.
Qed.
Lemma regcov_sym d g i j : regcov d g i j = regcov d g j i.
Proof. unfold regcov. now rewrite covar_sym, Nat.eqb_sym. Qed.
Lemma ent_Qmat d g h i j : (i < d)%nat -> (j < d)%nat -> ent (Qmat d g h) i j = regcov d g i j + regcov d h i j.
Proof.
  intros Hi Hj. unfold ent, Qmat.
  rewrite (nth_map_seq (fun i => map (fun j => regcov d g i j + regcov d h i j) (seq 0 d))) by auto.
  now rewrite (nth_map_seq (fun j => regcov d g i j + regcov d h i j)) by auto.
Qed.
Lemma Qmat_length d g h : length (Qmat d g h) = d.
Proof. unfold Qmat. now rewrite map_length, seq_length. Qed.
Lemma Qmat_good d g h : 0 < detR (Qmat d g h) /\
  exists W, invR (Qmat d g h) = Some W /\ length W = d /\ Forall (fun r => length r = d) W.
Proof.
  destruct (@posdef_det_inv (Qmat d g h) d (Qmat_length d g h)) as (H1 & W & H2 & H3 & H4 & _).
  - intros i j Hi Hj. rewrite !ent_Qmat by auto. now rewrite (regcov_sym d g), (regcov_sym d h).
  - intros x Hx. change (0 < qform d (ent (Qmat d g h)) x).
    rewrite (qform_ext d _ (fun i j => covar d g i j + (covar d h i j +
              ((if (i =? j)%nat then delta d else 0) + (if (i =? j)%nat then delta d else 0))))).
    + rewrite !qform_plus, qform_delta. pose proof (qform_covar d g x). pose proof (qform_covar d h x).
      pose proof (Rmult_lt_0_compat _ _ (delta_pos d) (sumsq_pos d x Hx)). lra.
    + intros i j Hi Hj. rewrite ent_Qmat by auto. unfold regcov. ring.
  - split; auto. exists W. auto.
Qed.
Lemma Qmat_sym d g h : Qmat d g h = Qmat d h g.
Proof. unfold Qmat. apply map_ext. intros i. apply map_ext. intros j. ring. Qed.
Lemma potential_sym d g h : potential d g h = potential d h g.
Proof.
  unfold potential. rewrite (Qmat_sym d h g). f_equal. f_equal. f_equal. unfold mahal. rewrite (Qmat_sym d h g). cbv zeta.
  apply sumn_ext. intros i _. apply sumn_ext. intros j _. ring.
Qed.
Lemma potential_pos d g h : 0 < potential d g h.
Proof.
  unfold potential. destruct (Qmat_good d g h) as [H _].
  repeat apply Rmult_lt_0_compat; try apply exp_pos; apply Rinv_0_lt_compat, sqrt_lt_R0; auto.
  unfold Rpower. apply exp_pos.
Qed.

(** ** The terms computed by the code *)
Lemma fins_fin l : fins (fin l) = Some l.
Proof. induction l as [|x l IH]; [reflexivity|]. cbn. unfold fin in IH. now rewrite IH. Qed.
Lemma finrows_fin m : finrows (map fin m) = Some m.
Proof. induction m as [|r m IH]; [reflexivity|]. cbn [map finrows]. now rewrite fins_fin, IH. Qed.
Lemma rdot_sumn d a b : length a = d -> length b = d -> rdot a b = sumn d (fun i => nth i a 0 * nth i b 0).
Proof.
  intros <- . unfold rdot. revert b; induction a as [|x a IH]; intros [|y b] L; simpl in L; try lia; [reflexivity|].
  cbn [map2 length]. rewrite rsum_cons, IH by lia. rewrite !sumn_rsum. cbn [seq map nth].
  rewrite rsum_cons. f_equal. rewrite <- seq_shift, map_map. reflexivity.
Qed.
Lemma cst_fin d : rCIP_constant (A := XR) d = Fin (/ sqrt (Rpower (2 * PI) (INR d))).
Proof.
  unfold rCIP_constant. rewrite f_of_nat_fin, f2_fin. change (fpi (a := XR)) with (Fin PI).
  rewrite fmul_fin. cbn [fpow XR xpow]. destruct (Rlt_dec 0 (2 * PI)) as [H|H]; [|pose proof PI_RGT_0; lra].
  assert (P : 0 < Rpower (2 * PI) (INR d)) by (unfold Rpower; apply exp_pos).
  rewrite fsqrt_fin by lra. rewrite f1_fin, fdiv_fin; [f_equal; unfold Rdiv; ring|].
  apply Rgt_not_eq, sqrt_lt_R0, P.
Qed.
Lemma delta_fin d : d <> 0%nat -> rCIP_delta (A := XR) d = Fin (delta d).
Proof.
  intros Hd. unfold rCIP_delta, delta. rewrite f_of_nat_fin. cbn [f_of_Z XR fneg xneg].
  assert (INR d <> 0) by now apply not_0_INR. rewrite fdiv_fin by auto.
  cbn [fpow XR xpow]. destruct (Rlt_dec 0 10) as [_|H']; [reflexivity|lra].
Qed.
Lemma delta_term_entry d i j : d <> 0%nat -> (i < d)%nat -> (j < d)%nat ->
  entry (rCIP_delta_term (A := XR) d) i j = Fin (if (i =? j)%nat then delta d else 0).
Proof.
  intros Hd Hi Hj. unfold rCIP_delta_term. rewrite entry_tab2 by auto. rewrite delta_fin by auto.
  destruct (i =? j)%nat; rewrite ?f1_fin, ?f0_fin, fmul_fin; f_equal; ring.
Qed.
Lemma delta_term_single d x : d <> 0%nat -> rCIP_delta_term (A := XR) d = cov_table d [x].
Proof.
  intros Hd. unfold cov_table. rewrite (mat_as_tab2 d d (rCIP_delta_term d) (wfm_delta d)). apply tab2_ext.
  intros a b Ha Hb. rewrite delta_term_entry by auto. unfold regcov. rewrite covar_cross. cbn [length Nat.leb].
  f_equal. ring.
Qed.
Lemma sigma_upd_fin d g x : d <> 0%nat -> g <> [] -> length x = d ->
  sigma_upd (A := XR) d (length g) (fin (centroid d g)) (cov_table d g) (fin x) = cov_table d (g ++ [x]).
Proof.
  intros Hd Hg Hx. pose proof (INR_pos g Hg) as P. unfold sigma_upd, cov_table. apply tab2_ext. intros a b Ha Hb.
  rewrite delta_term_entry by auto. rewrite entry_tab2 by auto.
  replace (Z.of_nat (length g + 1) - 2)%Z with (Z.of_nat (length g) - 1)%Z by lia.
  replace (Z.of_nat (length g + 1) - 1)%Z with (Z.of_nat (length g)) by lia.
  cbn [f_of_Z XR]. rewrite minus_IZR, <- !INR_IZR_INZ. rewrite f1_fin, f_of_nat_fin, plus_INR. cbn [INR].
  assert (EN : forall j, (j < d)%nat -> nth j (map2 (fsub (a := XR)) (fin x) (fin (centroid d g))) (f0 : F XR) =
                 Fin (co j x - co j (centroid d g))).
  { intros j Hj. rewrite sub_fin, nth_fin. f_equal. unfold co. apply nth_map2; rewrite ?centroid_length; lia. }
  rewrite !EN by auto. rewrite !fdiv_fin by lra. rewrite fsub_fin, !fmul_fin, !fadd_fin. f_equal.
  unfold regcov. rewrite (covar_snoc d g x) by auto. ring.
Qed.
Lemma potential_fin d g h : d <> 0%nat ->
  rCIP_potential (A := XR) (rCIP_constant d) (map2 fsub (fin (centroid d g)) (fin (centroid d h)))
    (tab2 d d (fun a b => fadd (entry (cov_table d g) a b) (entry (cov_table d h) a b)))
  = Ok (Fin (potential d g h)).
Proof.
  intros Hd. destruct (Qmat_good d g h) as (Hdet & W & HW & LW & FW).
  assert (EQ : tab2 (A := XR) d d (fun a b => fadd (entry (cov_table d g) a b) (entry (cov_table d h) a b))
               = mkMat d (map fin (Qmat d g h))).
  { unfold Qmat. rewrite map_map. unfold tab2. f_equal. apply map_ext_in. intros i Hi. apply in_seq in Hi.
    unfold fin. rewrite map_map. apply map_ext_in. intros j Hj. apply in_seq in Hj.
    unfold cov_table. rewrite !entry_tab2 by lia. reflexivity. }
  rewrite EQ. unfold rCIP_potential, linalg_inv. cbn [mrows mcols np_det np_inv XR]. unfold xdet, xinv.
  rewrite finrows_fin, HW. cbn [bindE]. change (map (map Fin) W) with (map fin W).
  rewrite sub_fin. replace (fdiv (a := XR) (f_of_Z (-1)) f2) with (Fin (-1 / 2))
    by (symmetry; cbn [f_of_Z XR]; rewrite f2_fin; apply fdiv_fin; lra).
  rewrite scal_fin. set (dv := map2 Rminus (centroid d g) (centroid d h)).
  assert (Ldv : length dv = d) by (unfold dv; rewrite length_map2, !centroid_length; lia).
  unfold vecmat, nrows. cbn [mrows mcols]. rewrite fin_length, !map_length, LW, Ldv, Nat.eqb_refl. cbn [bindE].
  set (hv := map (Rmult (-1 / 2)) dv).
  assert (Lhv : length hv = d) by (unfold hv; now rewrite map_length).
  rewrite (map_ext _ (fun j => Fin (rdot hv (map (co j) W)))).
  2:{ intros j. rewrite (col_fin d W j). rewrite <- (map_map (co j) Fin). apply np_dot_fin. }
  rewrite <- (map_map (fun j => rdot hv (map (co j) W)) Fin).
  change (map Fin (map (fun j => rdot hv (map (co j) W)) (seq 0 d))) with (fin (map (fun j => rdot hv (map (co j) W)) (seq 0 d))).
  rewrite inner_ok by (rewrite !fin_length, map_length, seq_length; lia). cbn [bindE].
  rewrite np_dot_fin, cst_fin. rewrite fsqrt_fin by lra. pose proof (sqrt_lt_R0 _ Hdet).
  rewrite f1_fin, fdiv_fin by lra. rewrite fmul_fin. cbn [fexp XR xexp]. rewrite fmul_fin. f_equal. f_equal.
  unfold potential. f_equal; [f_equal; unfold Rdiv; ring|]. f_equal.
  rewrite (rdot_sumn d) by (auto; now rewrite map_length, seq_length).
  unfold mahal. rewrite HW. cbv zeta. rewrite <- sumn_scal, <- (sumn_ext d (fun j => sumn d (fun i => - / 2 *
     ((nth i (centroid d g) 0 - nth i (centroid d h) 0) * ent W i j * (nth j (centroid d g) 0 - nth j (centroid d h) 0))))).
  - rewrite sumn_swap. apply sumn_ext. intros i Hi. apply sumn_scal.
  - intros j Hj. rewrite (nth_map_seq (fun j => rdot hv (map (co j) W))) by auto.
    rewrite (rdot_sumn d) by (auto; now rewrite map_length).
    assert (ED : forall i, (i < d)%nat -> nth i dv 0 = nth i (centroid d g) 0 - nth i (centroid d h) 0).
    { intros i Hi. unfold dv. apply nth_map2; rewrite centroid_length; auto. }
    rewrite Rmult_comm, <- sumn_scal. apply sumn_ext. intros i Hi. rewrite ED by auto.
    assert (EH : nth i hv 0 = -1 / 2 * nth i dv 0).
    { unfold hv. rewrite (nth_indep _ 0 (-1 / 2 * 0)) by (rewrite map_length; lia). apply map_nth. }
    rewrite EH, ED by auto.
    assert (EW : nth i (map (co j) W) 0 = ent W i j).
    { unfold ent. rewrite (nth_indep _ 0 (co j [])) by (rewrite map_length; exact (eq_ind_r (fun n => (i < n)%nat) Hi LW)). rewrite map_nth. reflexivity. }
    rewrite EW. field.
Qed.
