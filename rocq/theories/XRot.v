(** * Rotating and reflecting the data. *)
From Coq Require Import ZArith List Arith Bool Lia Permutation.
From Verif Require Import Num NumPy Base GetCvi.
From Coq Require Import Reals Lra.
From Verif Require Import Det DetMul Spec SpecT XR SpecX RGeom XLift XEval XInc XCov XRun XPerm XBatch Obs XForm XBounds XSim XSil XSilEx XMove.
Import ListNotations.
Local Open Scope R_scope.

Lemma rotate_tmap q s : rotate q s = tmap (mat_vec q) s. Proof. reflexivity. Qed.
Lemma dot_coords d : forall x y : list R, length x = d -> length y = d ->
  rsum (map (fun p => fst p * snd p) (combine x y)) = sumn d (fun j => co j x * co j y).
Proof.
  induction d as [|d IH]; intros [|a x] [|b y] Hx Hy; try discriminate; [reflexivity|].
  cbn [combine map]. rewrite rsum_cons, (IH x y) by (simpl in *; lia). rewrite sumn_first. reflexivity.
Qed.
Lemma invR_spec m W : invR m = Some W -> is_inverse (length m) m W.
Proof.
  unfold invR. destruct (ClassicalEpsilon.excluded_middle_informative _) as [H|H]; [|discriminate].
  intros E. inversion E. exact (proj2_sig (ClassicalEpsilon.constructive_indefinite_description _ H)).
Qed.

Lemma sumn_rsum_swap {X} d (f : X -> nat -> R) g : sumn d (fun k => rsum (map (fun x => f x k) g)) = rsum (map (fun x => sumn d (f x)) g).
Proof. symmetry. apply (rsum_swap f g (seq 0 d)). Qed.

Section Q.
  Context (d : nat) (q : list (list R)) (Hq : orthogonal d q).
  Let A := ent q.
  Let AT := fun i j => ent q j i.
  Let T := mat_vec q.
  Lemma q_len : length q = d. Proof. apply Hq. Qed.
  Lemma A_AT i j : (i < d)%nat -> (j < d)%nat -> mmul d A AT i j = idm i j.
  Proof. intros Hi Hj. destruct Hq as (_ & _ & H & _). unfold mmul, A, AT, idm. now apply H. Qed.
  Lemma AT_A i j : (i < d)%nat -> (j < d)%nat -> mmul d AT A i j = idm i j.
  Proof. intros Hi Hj. destruct Hq as (_ & _ & _ & H). unfold mmul, A, AT, idm. now apply H. Qed.
  Lemma T_len x : length (T x) = d. Proof. unfold T, mat_vec. rewrite map_length. apply q_len. Qed.
  Lemma co_T x i : length x = d -> (i < d)%nat -> co i (T x) = sumn d (fun k => A i k * co k x).
  Proof.
    intros Hx Hi. unfold T, mat_vec, co. destruct Hq as (L & F & _).
    rewrite (nth_indep _ 0 ((fun r : list R => rsum (map (fun p => fst p * snd p) (combine r x))) [])) by (rewrite map_length; lia).
    rewrite (map_nth (fun r : list R => rsum (map (fun p => fst p * snd p) (combine r x)))).
    rewrite (dot_coords d); auto. rewrite Forall_forall in F. apply F, nth_In. lia.
  Qed.
  (** the columns are orthonormal *)
  Lemma A_inner u v : sumn d (fun i => sumn d (fun k => A i k * u k) * sumn d (fun l => A i l * v l)) = sumn d (fun k => u k * v k).
  Proof.
    rewrite (sumn_ext d _ (fun i => sumn d (fun k => sumn d (fun l => u k * v l * (A i k * A i l))))).
    - rewrite sumn_swap. apply sumn_ext. intros k Hk. rewrite sumn_swap.
      rewrite (sumn_ext d _ (fun l => u k * (v l * idm k l))).
      + rewrite sumn_scal. f_equal. rewrite (Det.sumn_one d k); auto.
        * unfold idm. rewrite Nat.eqb_refl. ring.
        * intros l _ Hl. unfold idm. destruct (Nat.eqb_spec k l); [congruence|ring].
      + intros l Hl. rewrite sumn_scal. rewrite Rmult_assoc. do 2 f_equal. apply (AT_A k l Hk Hl).
    - intros i _. rewrite <- Det.sumn_scalr. apply sumn_ext. intros k _. rewrite <- sumn_scal. apply sumn_ext. intros; ring.
  Qed.
  Lemma T_inner x y : length x = d -> length y = d -> inner (T x) (T y) = inner x y.
  Proof.
    intros Hx Hy. unfold inner. rewrite !(dot_coords d) by auto using T_len. etransitivity; [|apply A_inner]. apply sumn_ext. intros i Hi.
    now rewrite !co_T.
  Qed.
  Lemma co_T_minus x y i : length x = d -> length y = d -> (i < d)%nat ->
    co i (T x) - co i (T y) = sumn d (fun k => A i k * (co k x - co k y)).
  Proof.
    intros Hx Hy Hi. rewrite !co_T by auto.
    rewrite (sumn_ext d (fun k => A i k * (co k x - co k y)) (fun k => A i k * co k x + -1 * (A i k * co k y))) by (intros; ring).
    rewrite sumn_plus, sumn_scal. ring.
  Qed.
  Lemma T_dist x y : length x = d -> length y = d -> dist2 (T x) (T y) = 1 * dist2 x y.
  Proof.
    intros Hx Hy. rewrite !(dist2_coords d) by auto using T_len. rewrite Rmult_1_l.
    change (sumn d (fun j => (co j (T x) - co j (T y)) * (co j (T x) - co j (T y))) = sumn d (fun j => (co j x - co j y) * (co j x - co j y))).
    etransitivity; [|apply A_inner]. apply sumn_ext. intros i Hi. now rewrite co_T_minus.
  Qed.
  Lemma T_cen g : wfg d g -> centroid d (map T g) = T (centroid d g).
  Proof.
    intros Hg. apply (point_ext d); [apply centroid_length|apply T_len|]. intros j Hj.
    rewrite co_T by auto using centroid_length. rewrite co_centroid by auto. rewrite map_map, map_length.
    rewrite (rsum_map_ext _ (fun x => sumn d (fun k => A j k * co k x))).
    - unfold Rdiv. transitivity (sumn d (fun k => rsum (map (fun x => A j k * co k x) g) * / INR (length g))).
      + rewrite Det.sumn_scalr. f_equal. unfold sumn. apply (rsum_swap (fun x k => A j k * co k x) g (seq 0 d)).
      + apply sumn_ext. intros k Hk. rewrite co_centroid by auto. rewrite rsum_map_scal. unfold Rdiv. ring.
    - intros x Hx. apply co_T; auto. unfold wfg in Hg. rewrite Forall_forall in Hg. auto.
  Qed.
  (** ** covariances *)
  Lemma T_covar g i j : wfg d g -> (i < d)%nat -> (j < d)%nat ->
    covar d (map T g) i j = mmul d (mmul d A (covar d g)) AT i j.
  Proof.
    intros Hg Hi Hj. rewrite covar_cross, map_length.
    rewrite (mmul_ext d (mmul d A (covar d g)) (mmul d A (fun a b => if (length g <=? 1)%nat then 0 else cross d g a b / (INR (length g) - 1))) AT AT) by
      (auto; intros; apply mmul_ext; auto; intros; apply covar_cross).
    destruct (_ <=? _)%nat.
    - unfold mmul. symmetry. apply Det.sumn_zero. intros k Hk. rewrite Det.sumn_zero by (intros; ring). ring.
    - unfold cross at 1. rewrite map_map, T_cen by auto.
      rewrite (rsum_map_ext _ (fun x => sumn d (fun k => A i k * (co k x - co k (centroid d g))) * sumn d (fun k => A j k * (co k x - co k (centroid d g))))).
      + unfold mmul. unfold Rdiv. rewrite (sumn_ext d (fun k => sumn d _ * AT k j)
          (fun k => rsum (map (fun x => sumn d (fun l => A i l * (co l x - co l (centroid d g))) * (AT k j * (co k x - co k (centroid d g)))) g) * / (INR (length g) - 1))).
        * rewrite Det.sumn_scalr. f_equal. rewrite (sumn_rsum_swap d (fun x k => sumn d (fun l => A i l * (co l x - co l (centroid d g))) * (AT k j * (co k x - co k (centroid d g)))) g).
          apply rsum_map_ext. intros x _. rewrite <- sumn_scal. reflexivity.
        * intros k Hk.
          rewrite (sumn_ext d _ (fun l => rsum (map (fun x => A i l * (co l x - co l (centroid d g)) * (co k x - co k (centroid d g))) g) * / (INR (length g) - 1))).
          -- rewrite Det.sumn_scalr. rewrite (sumn_rsum_swap d (fun x l => A i l * (co l x - co l (centroid d g)) * (co k x - co k (centroid d g))) g).
             rewrite Rmult_assoc, (Rmult_comm (/ _)), <- Rmult_assoc. f_equal. rewrite Rmult_comm, <- rsum_map_scal.
             apply rsum_map_ext. intros x _. rewrite Det.sumn_scalr. ring.
          -- intros l _. unfold cross. rewrite <- Rmult_assoc. f_equal. rewrite <- rsum_map_scal. apply rsum_map_ext. intros; ring.
      + intros x Hx. assert (length x = d) by (unfold wfg in Hg; rewrite Forall_forall in Hg; auto).
        now rewrite !co_T_minus by auto using centroid_length.
  Qed.
  Lemma mmul_plus_l M N B i j : mmul d (fun a b => M a b + N a b) B i j = mmul d M B i j + mmul d N B i j.
  Proof. unfold mmul. rewrite <- sumn_plus. apply sumn_ext. intros; ring. Qed.
  Lemma mmul_plus_r M N B i j : mmul d B (fun a b => M a b + N a b) i j = mmul d B M i j + mmul d B N i j.
  Proof. unfold mmul. rewrite <- sumn_plus. apply sumn_ext. intros; ring. Qed.
  Lemma mmul_scal_id c i j : (i < d)%nat -> (j < d)%nat -> mmul d (mmul d A (fun a b => c * idm a b)) AT i j = c * idm i j.
  Proof.
    intros Hi Hj. transitivity (c * mmul d (mmul d A idm) AT i j).
    - unfold mmul at 1 3. rewrite <- sumn_scal. apply sumn_ext. intros k Hk. rewrite <- Rmult_assoc. f_equal.
      unfold mmul. rewrite <- sumn_scal. apply sumn_ext. intros; ring.
    - f_equal. rewrite (mmul_ext d (mmul d A idm) A AT AT) by (auto; intros; now apply mmul_id_r). now apply A_AT.
  Qed.
  Lemma T_regcov g i j : wfg d g -> (i < d)%nat -> (j < d)%nat ->
    regcov d (map T g) i j = mmul d (mmul d A (regcov d g)) AT i j.
  Proof.
    intros Hg Hi Hj. unfold regcov at 1. rewrite T_covar by auto.
    replace (if (i =? j)%nat then delta d else 0) with (delta d * idm i j) by (unfold idm; destruct (_ =? _)%nat; ring).
    rewrite <- mmul_scal_id by auto. rewrite <- mmul_plus_l. apply mmul_ext; auto. intros a b Ha Hb.
    rewrite <- mmul_plus_r. apply mmul_ext; auto. intros x y _ _. unfold regcov, idm. destruct (_ =? _)%nat; ring.
  Qed.
  Lemma T_Qmat g h i j : wfg d g -> wfg d h -> (i < d)%nat -> (j < d)%nat ->
    ent (Qmat d (map T g) (map T h)) i j = mmul d (mmul d A (ent (Qmat d g h))) AT i j.
  Proof.
    intros Hg Hh Hi Hj. rewrite ent_Qmat, !T_regcov by auto. rewrite <- mmul_plus_l. apply mmul_ext; auto. intros a b Ha Hb.
    rewrite <- mmul_plus_r. apply mmul_ext; auto. intros x y Hx Hy. now rewrite ent_Qmat.
  Qed.
  Lemma T_det g h : wfg d g -> wfg d h -> detR (Qmat d (map T g) (map T h)) = detR (Qmat d g h).
  Proof.
    intros Hg Hh. unfold detR. rewrite !Qmat_length. rewrite (detf_ext d _ (mmul d (mmul d A (ent (Qmat d g h))) AT)) by (intros; now apply T_Qmat).
    rewrite !detf_mul.
    assert (E : detf d A * detf d AT = 1) by (rewrite <- detf_mul, <- (detf_id d); apply detf_ext, A_AT).
    transitivity ((detf d A * detf d AT) * detf d (ent (Qmat d g h))); [ring|]. rewrite E. ring.
  Qed.
  (** AT (A M AT) A = M *)
  Lemma sandwich M i j : (i < d)%nat -> (j < d)%nat -> mmul d (mmul d AT (mmul d (mmul d A M) AT)) A i j = M i j.
  Proof.
    intros Hi Hj. rewrite mmul_assoc.
    rewrite (mmul_ext d AT AT (mmul d (mmul d (mmul d A M) AT) A) (mmul d A M)) by
      (auto; intros a b Ha Hb; rewrite mmul_assoc, (mmul_ext d (mmul d A M) (mmul d A M) (mmul d AT A) idm) by (auto using AT_A); now apply mmul_id_r).
    rewrite <- mmul_assoc, (mmul_ext d (mmul d AT A) idm M M) by auto using AT_A. now apply mmul_id_l.
  Qed.
  (** (A M AT) (A N AT) = A (M N) AT *)
  Lemma conj_mul M N i j : (i < d)%nat -> (j < d)%nat ->
    mmul d (mmul d (mmul d A M) AT) (mmul d (mmul d A N) AT) i j = mmul d (mmul d A (mmul d M N)) AT i j.
  Proof.
    intros Hi Hj. rewrite <- mmul_assoc. apply mmul_ext; auto. intros a b Ha Hb.
    rewrite <- mmul_assoc.
    rewrite (mmul_ext d (mmul d (mmul d (mmul d A M) AT) A) (mmul d A M) N N); auto; [apply mmul_assoc|].
    intros x y Hx Hy. rewrite mmul_assoc, (mmul_ext d (mmul d A M) (mmul d A M) (mmul d AT A) idm) by (auto using AT_A). now apply mmul_id_r.
  Qed.
  Lemma conj_id M i j : (i < d)%nat -> (j < d)%nat -> (forall i j, (i < d)%nat -> (j < d)%nat -> M i j = idm i j) ->
    mmul d (mmul d A M) AT i j = idm i j.
  Proof.
    intros Hi Hj H. rewrite (mmul_ext d (mmul d A M) A AT AT) ; auto; [now apply A_AT|].
    intros a b Ha Hb. rewrite (mmul_ext d A A M idm) by auto. now apply mmul_id_r.
  Qed.
  Lemma T_inverse g h W : wfg d g -> wfg d h -> is_inverse d (Qmat d g h) W ->
    is_inverse d (Qmat d (map T g) (map T h)) (rows_of d (mmul d (mmul d A (ent W)) AT)).
  Proof.
    intros Hg Hh (LW & FW & R1 & R2).
    split; [unfold rows_of; now rewrite map_length, seq_length|]. split.
    { apply Forall_forall. intros r Hr. apply in_map_iff in Hr as (i & <- & _). now rewrite map_length, seq_length. }
    split; intros i j Hi Hj.
    - change (mmul d (ent (Qmat d (map T g) (map T h))) (ent (rows_of d (mmul d (mmul d A (ent W)) AT))) i j = idm i j).
      rewrite (mmul_ext d _ (mmul d (mmul d A (ent (Qmat d g h))) AT) _ (mmul d (mmul d A (ent W)) AT)); auto.
      + rewrite conj_mul by auto. apply conj_id; auto.
      + intros; now apply T_Qmat.
      + intros; now apply ent_rows_of.
    - change (mmul d (ent (rows_of d (mmul d (mmul d A (ent W)) AT))) (ent (Qmat d (map T g) (map T h))) i j = idm i j).
      rewrite (mmul_ext d _ (mmul d (mmul d A (ent W)) AT) _ (mmul d (mmul d A (ent (Qmat d g h))) AT)); auto.
      + rewrite conj_mul by auto. apply conj_id; auto.
      + intros; now apply ent_rows_of.
      + intros; now apply T_Qmat.
  Qed.
  Lemma bil_conj M u : sumn d (fun i => sumn d (fun j => sumn d (fun k => A i k * u k) * M i j * sumn d (fun l => A j l * u l)))
    = sumn d (fun k => sumn d (fun l => u k * mmul d (mmul d AT M) A k l * u l)).
  Proof.
    transitivity (sumn d (fun i => sumn d (fun j => sumn d (fun k => sumn d (fun l => u k * (AT k i * M i j * A j l) * u l))))).
    - apply sumn_ext. intros i _. apply sumn_ext. intros j _. rewrite <- !Det.sumn_scalr. apply sumn_ext. intros k _.
      rewrite <- sumn_scal. apply sumn_ext. intros l _. unfold AT. fold A. change (ent q i k) with (A i k). ring.
    - rewrite (sumn_ext d _ (fun i => sumn d (fun k => sumn d (fun j => sumn d (fun l => u k * (AT k i * M i j * A j l) * u l)))))
        by (intros; apply sumn_swap).
      rewrite sumn_swap. apply sumn_ext. intros k _.
      rewrite (sumn_ext d _ (fun i => sumn d (fun l => sumn d (fun j => u k * (AT k i * M i j * A j l) * u l)))) by (intros; apply sumn_swap).
      rewrite sumn_swap. apply sumn_ext. intros l _. unfold mmul.
      rewrite sumn_swap, <- sumn_scal, <- Det.sumn_scalr. apply sumn_ext. intros j _.
      rewrite <- Det.sumn_scalr, <- sumn_scal, <- Det.sumn_scalr. apply sumn_ext. intros i _. ring.
  Qed.
  Lemma T_mahal g h : wfg d g -> wfg d h -> mahal d (map T g) (map T h) = mahal d g h.
  Proof.
    intros Hg Hh. unfold mahal.
    destruct (Qmat_good d g h) as (_ & W & EW & _). destruct (Qmat_good d (map T g) (map T h)) as (_ & W' & EW' & _).
    rewrite EW, EW'. apply invR_spec in EW, EW'. rewrite Qmat_length in EW, EW'.
    rewrite (inverse_unique d _ _ _ EW' (T_inverse g h W Hg Hh EW)). cbv zeta.
    set (u := fun i => nth i (centroid d g) 0 - nth i (centroid d h) 0).
    transitivity (sumn d (fun i => sumn d (fun j => sumn d (fun k => A i k * u k) * mmul d (mmul d A (ent W)) AT i j * sumn d (fun l => A j l * u l)))).
    - apply sumn_ext. intros i Hi. apply sumn_ext. intros j Hj. rewrite ent_rows_of, !T_cen by auto.
      change (nth i (T (centroid d g)) 0) with (co i (T (centroid d g))). change (nth i (T (centroid d h)) 0) with (co i (T (centroid d h))).
      change (nth j (T (centroid d g)) 0) with (co j (T (centroid d g))). change (nth j (T (centroid d h)) 0) with (co j (T (centroid d h))).
      rewrite !co_T_minus by auto using centroid_length. reflexivity.
    - rewrite bil_conj. apply sumn_ext. intros k Hk. apply sumn_ext. intros l Hl. now rewrite sandwich.
  Qed.
  Lemma T_potential g h : wfg d g -> wfg d h -> potential d (map T g) (map T h) = potential d g h.
  Proof. intros Hg Hh. unfold potential. now rewrite T_det, T_mahal. Qed.
  Lemma rotate_XVal c gs : good d gs -> XVal c d (map (map T) gs) = XVal c d gs.
  Proof.
    intros Hg. destruct (Nat.leb_spec (length gs) 1) as [Hk|Hk].
    { unfold XVal. rewrite map_length. destruct (Nat.leb_spec (length gs) 1); [auto|lia]. }
    assert (TC : forall g, wfg d g -> g <> [] -> centroid d (map T g) = T (centroid d g)) by (intros; now apply T_cen).
    destruct (kind_eq c kGD43) as [->|H1]; [|destruct (kind_eq c krCIP) as [->|H2]].
    - unfold XVal. rewrite map_length. destruct (Nat.leb_spec (length gs) 1); [lia|].
      rewrite (T_GD43 d d T 1); auto using T_dist; try lra.
      rewrite sqrt_1, Rinv_1. destruct (GD43_ext d gs); cbn [xmul]; auto; [f_equal; ring|..]; now rewrite inf_mul_pos by lra.
    - unfold XVal. rewrite map_length. destruct (Nat.leb_spec (length gs) 1); [lia|].
      unfold rCIP_ext, rCIP_formula. f_equal. rewrite pairs_map, map_map. f_equal. apply map_ext_in. intros [g h] Hp. cbn [fst snd].
      apply pairs_In in Hp as [Hp1 Hp2]. destruct Hg as [W N]. rewrite Forall_forall in W.
      apply T_potential; auto.
    - apply (T_XVal d d T 1); auto using T_dist; try lra.
  Qed.
  (** ** cSIL's streams *)
  Lemma T_mdist' g h : wfg d g -> wfg d h -> mdist d (map T g) (map T h) = mdist d g h.
  Proof.
    intros Hg Hh. unfold mdist. rewrite T_cen, map_map, map_length by auto. f_equal. apply rsum_map_ext. intros x Hx.
    rewrite T_dist; [ring| |apply centroid_length]. unfold wfg in Hh. rewrite Forall_forall in Hh. auto.
  Qed.
  Lemma T_entry s la lb : wf d s -> sil_entry d (tmap T s) la lb = sil_entry d s la lb.
  Proof.
    intros Hw. unfold sil_entry. rewrite !tmap_cluster, T_mdist' by auto using cluster_wfg. f_equal.
    destruct (la =? lb)%Z; auto.
    assert (EF : rev (filter (fun p => (snd p =? la) || (snd p =? lb))%Z (tmap T s)) =
                 tmap T (rev (filter (fun p => (snd p =? la) || (snd p =? lb))%Z s))).
    { unfold tmap. rewrite map_rev. f_equal. clear Hw. induction s as [|[x l] s IH]; auto. cbn [map filter snd fst].
      destruct ((l =? la) || (l =? lb))%Z%bool; cbn [map]; now rewrite IH. }
    rewrite EF. clear EF.
    destruct (rev (filter (fun p => ((snd p =? la) || (snd p =? lb))%Z) s)) as [|[x l] r'] eqn:ER; [reflexivity|].
    cbn [tmap map fst snd]. destruct (l =? la)%Z; auto.
    assert (Hx : length x = d).
    { assert (K : In (x, l) (rev (filter (fun p => ((snd p =? la) || (snd p =? lb))%Z) s))) by (rewrite ER; now left).
      apply in_rev, filter_In in K as [K _]. unfold wf in Hw. rewrite Forall_forall in Hw. exact (Hw _ K). }
    rewrite map_length, T_cen by auto using cluster_wfg. now rewrite T_inner by auto using centroid_length.
  Qed.
  Lemma rotate_stream_cSIL s : wf d s -> cSIL_stream_ext d (tmap T s) = cSIL_stream_ext d s.
  Proof.
    intros Hw. unfold cSIL_stream_ext, distinct. rewrite tmap_labels. destruct (_ <=? _)%nat; auto.
    apply (sil_value_scale _ _ 1); [lra|]. intros a b. rewrite T_entry by auto. ring.
  Qed.
End Q.
