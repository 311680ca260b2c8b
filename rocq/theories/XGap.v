(** * Batch calls in exact arithmetic when some cluster number below the number
    of distinct labels carries no label: an empty cluster is created, its centre
    is nan, and nan reaches the value. *)
From Coq Require Import ZArith List Arith Bool Lia Permutation.
From Verif Require Import Num NumPy Base M_CH M_D M_PS GetCvi Lists Step Step2 StepB Hoare Eval Stream Shapes Generic.
From Coq Require Import Reals Lra.
From Verif Require Import Det Spec XR SpecX RGeom XLift XEval XInc XCov XRun XPerm XBatch Obs XForm XBounds.
Import ListNotations.
Local Open Scope R_scope.

(** ** nan propagates *)
Lemma nan_add_l a : xadd NaN a = NaN. Proof. reflexivity. Qed.
Lemma nan_add_r a : xadd a NaN = NaN. Proof. now destruct a. Qed.
Lemma nan_sub_r a : xsub a NaN = NaN. Proof. now destruct a. Qed.
Lemma nan_mul_r a : xmul a NaN = NaN. Proof. now destruct a. Qed.
Lemma nan_div_r a : xdiv a NaN = NaN. Proof. now destruct a. Qed.
Lemma nan_min_r a : xmin a NaN = NaN. Proof. now destruct a. Qed.
Lemma nan_max_r a : xmax a NaN = NaN. Proof. now destruct a. Qed.
Lemma zero_div_zero : xdiv (Fin 0) (Fin 0) = NaN.
Proof. unfold xdiv, inf_mul. destruct (Req_EM_T 0 0); [auto|lra]. Qed.
Lemma fold_nan (op : xr -> xr -> xr) (Hl : forall a, op NaN a = NaN) (Hr : forall a, op a NaN = NaN) l x :
  x = NaN \/ In NaN l -> fold_left op l x = NaN.
Proof.
  revert x. induction l as [|y l IH]; intros x [->|H]; auto; try destruct H; cbn [fold_left]; apply IH; auto.
  subst. auto.
Qed.
Lemma vmin_nan (l : vec XR) : In NaN l -> vmin (A := XR) l = NaN.
Proof.
  destruct l as [|x l]; [intros []|]. intros H. apply (fold_nan xmin); auto using nan_min_r.
Qed.
Lemma vmax_nan (l : vec XR) : In NaN l -> vmax (A := XR) l = NaN.
Proof.
  destruct l as [|x l]; [intros []|]. intros H. apply (fold_nan xmax); auto using nan_max_r.
Qed.
Lemma py_sum_nan (l : vec XR) : In NaN l -> py_sum (A := XR) l = NaN.
Proof. intros H. apply (fold_nan xadd); auto using nan_add_r. Qed.
Lemma np_sum_nan (l : vec XR) : In NaN l -> np_sum (a := XR) l = NaN.
Proof. intros H. apply (fold_nan xadd); auto using nan_add_r. Qed.

Definition nans (d : nat) : vec XR := repeat (NaN : F XR) d.
Lemma sub_nans_l d (a : vec XR) : length a = d -> map2 (fsub (a := XR)) (nans d) a = nans d.
Proof. revert a. induction d as [|d IH]; intros [|x a] H; try discriminate; auto. cbn [nans repeat map2]. f_equal. apply IH. injection H; auto. Qed.
Lemma sub_nans_r d (a : vec XR) : length a = d -> map2 (fsub (a := XR)) a (nans d) = nans d.
Proof.
  revert a. induction d as [|d IH]; intros [|x a] H; try discriminate; auto. cbn [nans repeat map2]. f_equal.
  - cbn. apply nan_sub_r.
  - apply IH. injection H; auto.
Qed.
Lemma sumsq_nans d : d <> 0%nat -> np_sumsq (A := XR) (nans d) = NaN.
Proof. intros H. destruct d; [lia|]. apply np_sum_nan. now left. Qed.
Lemma dot_nans_l d (a : vec XR) : d <> 0%nat -> length a = d -> np_dot (a := XR) (nans d) a = NaN.
Proof.
  intros H L. destruct d as [|d]; [lia|]. destruct a as [|x a]; [discriminate|]. apply np_sum_nan. now left.
Qed.
Lemma dot_nans_r d (a : vec XR) : d <> 0%nat -> length a = d -> np_dot (a := XR) a (nans d) = NaN.
Proof.
  intros H L. destruct d as [|d]; [lia|]. destruct a as [|x a]; [discriminate|]. apply np_sum_nan. left. apply nan_mul_r.
Qed.

Lemma mean0_nil d : mean0 (A := XR) (mkMat d []) = nans d.
Proof.
  unfold mean0. cbn [mcols]. unfold nans.
  assert (H : forall e a, map (fun j => fdiv (a := XR) (np_sum (col (mkMat d []) j)) (f_of_nat (nrows (mkMat (A := XR) d [])))) (seq a e)
              = repeat (NaN : F XR) e); [|apply H].
  induction e as [|e IH]; intros a; auto. cbn [seq map repeat]. rewrite IH. f_equal. apply zero_div_zero.
Qed.

(** ** Missing cluster numbers *)
Lemma indices_nil ix ls : ~ In (Z.of_nat ix) ls -> indices_of ix ls = [].
Proof.
  intros H. unfold indices_of. destruct (filter _ _) as [|i l] eqn:E; auto. exfalso.
  assert (Hi : In i (filter (fun x => (nth x ls 0 =? Z.of_nat ix)%Z) (seq 0 (length ls)))) by (rewrite E; now left).
  apply filter_In in Hi as [H1 H2]. apply in_seq in H1. apply Z.eqb_eq in H2. apply H. rewrite <- H2. apply nth_In. lia.
Qed.
Lemma in_triu (e : nat -> nat -> F XR) k i j : (i < j)%nat -> (j < k)%nat -> In (e i j) (triu k e).
Proof.
  intros H1 H2. unfold triu. apply in_flat_map. exists i. split; [apply in_seq; lia|]. apply in_map. apply in_seq. lia.
Qed.
Lemma triu_touch (e : nat -> nat -> F XR) k ix : (2 <= k)%nat -> (ix < k)%nat ->
  (forall j, (ix < j)%nat -> (j < k)%nat -> e ix j = NaN) -> (forall i, (i < ix)%nat -> e i ix = NaN) -> In NaN (triu k e).
Proof.
  intros Hk Hi H1 H2. destruct (Nat.eq_dec ix 0) as [->|Hz].
  - rewrite <- (H1 1%nat) by lia. apply in_triu; lia.
  - rewrite <- (H2 0%nat) by lia. apply in_triu; lia.
Qed.

Section Gap.
  Context (m : mat XR) (ls : list Z) (ix : nat).
  Let k := n_unique ls.
  Hypotheses (Hd : mcols m <> 0%nat) (Hc : covers m ls k) (Hk : (2 <= k)%nat) (Hi : (ix < k)%nat)
             (Hm : ~ In (Z.of_nat ix) ls).

  Lemma g_subset : subset m ls ix = mkMat (mcols m) [].
  Proof. unfold subset. now rewrite indices_nil. Qed.
  Lemma g_n : b_n m ls ix = 0%nat.
  Proof. unfold b_n. now rewrite g_subset. Qed.
  Lemma g_v : b_v m ls ix = nans (mcols m).
  Proof.
    unfold b_v. rewrite g_subset. apply mean0_nil.
  Qed.
  Lemma b_v_length j : length (b_v m ls j) = mcols m.
  Proof. unfold b_v. now rewrite smean0_length. Qed.
  Lemma g_CP : b_CP m ls ix = Fin 0.
  Proof. unfold b_CP. now rewrite g_subset. Qed.
  Lemma g_S : b_S m ls ix = NaN.
  Proof. unfold b_S. rewrite g_CP, g_n. apply zero_div_zero. Qed.
  Lemma g_SEP : b_SEP m ls ix = NaN.
  Proof.
    unfold b_SEP. rewrite g_v, sub_nans_l by apply smean0_length. rewrite sumsq_nans by auto. apply nan_mul_r.
  Qed.
  Lemma g_sqd_l j : b_sqd m ls ix j = NaN.
  Proof. unfold b_sqd, sqd. rewrite g_v, sub_nans_l by apply b_v_length. now apply sumsq_nans. Qed.
  Lemma g_sqd_r j : b_sqd m ls j ix = NaN.
  Proof. unfold b_sqd, sqd. rewrite g_v, sub_nans_r by apply b_v_length. now apply sumsq_nans. Qed.
  Lemma g_sil : b_sil m ls ix ix = NaN.
  Proof. unfold b_sil. rewrite indices_nil by auto. rewrite g_n. apply zero_div_zero. Qed.
  Lemma in_table (f : nat -> F XR) : f ix = NaN -> In NaN (map f (seq 0 k)).
  Proof. intros <-. apply in_map, in_seq. lia. Qed.
  Lemma D_sym_nan t : (forall j, t ix j = NaN) -> (forall j, t j ix = NaN) -> In NaN (triu k (entry (D_sym (A := XR) k t))).
  Proof.
    intros H1 H2. apply (triu_touch _ k ix); auto; intros j; intros; unfold D_sym; rewrite entry_tab2 by lia.
    - replace (ix <? j)%nat with true by (symmetry; apply Nat.ltb_lt; auto). rewrite H1. reflexivity.
    - replace (j <? ix)%nat with true by (symmetry; apply Nat.ltb_lt; auto). rewrite H2. reflexivity.
  Qed.
  Lemma Some_other : exists j, (j < k)%nat /\ j <> ix.
  Proof. destruct (Nat.eq_dec ix 0) as [->|]; [exists 1%nat|exists 0%nat]; lia. Qed.

  Definition gap_value (c : kind) (r : E (F XR)) : Prop :=
    match c with
    | kPS => ((exists z, In z ls /\ (0 <= z < Z.of_nat k)%Z) -> r = Ok (NaN : F XR)) /\
             ((forall z, In z ls -> ~ (0 <= z < Z.of_nat k)%Z) -> r = Err ZeroDivisionError)
    | _ => r = Ok (NaN : F XR)
    end.

  Lemma batch_call c o' : param_batch c m ls init_attrs = (o', Ok tt) ->
    snd (get_cvi c new_obj (Mat m) (Labs ls)) =
    match evaluate c o' with (a, Ok _) => Ok (criterion_value a) | (a, Err e) => Err e end.
  Proof.
    intros E. unfold get_cvi, update. cbn [new_obj at_ label_map].
    change (is_setup init_attrs) with false. cbv iota. unfold unique_labels. fold k.
    replace (1 <? k)%nat with true by (symmetry; apply Nat.ltb_lt; lia). cbn [negb]. rewrite E. cbn [at_ label_map].
    destruct (evaluate c o') as [a [u|e]]; reflexivity.
  Qed.
  Lemma batch_evals c o' x : param_batch c m ls init_attrs = (o', Ok tt) -> evals c o' x ->
    snd (get_cvi c new_obj (Mat m) (Labs ls)) = Ok x.
  Proof. intros E (o2 & E2 & E3 & _). rewrite (batch_call c o' E), E2. now rewrite E3. Qed.

  Lemma list_max_table (f : nat -> nat) n0 : list_max (map f (seq 0 n0)) = 0%nat <-> forall i, (i < n0)%nat -> f i = 0%nat.
  Proof.
    split.
    - intros H i Hin. assert (L := proj1 (List.list_max_le (map f (seq 0 n0)) 0)). rewrite H in L. specialize (L (le_n _)).
      rewrite Forall_forall in L. assert (f i <= 0)%nat; [|lia]. apply L. apply in_map, in_seq. lia.
    - intros H. assert (L := proj2 (List.list_max_le (map f (seq 0 n0)) 0)).
      assert (list_max (map f (seq 0 n0)) <= 0)%nat; [|lia]. apply L. apply Forall_map, Forall_forall.
      intros i Hin. apply in_seq in Hin. rewrite H; lia.
  Qed.
  Lemma b_n_zero i : b_n m ls i = 0%nat <-> ~ In (Z.of_nat i) ls.
  Proof.
    split.
    - intros H Hin. unfold b_n, nrows, subset in H. cbn [mrows] in H. rewrite map_length in H.
      apply (In_nth _ _ 0%Z) in Hin as (p & Hp & E).
      assert (Hx : In p (indices_of i ls)).
      { unfold indices_of. apply filter_In. split; [apply in_seq; lia|]. now apply Z.eqb_eq. }
      destruct (indices_of i ls); [destruct Hx|discriminate].
    - intros H. unfold b_n, subset, nrows. cbn [mrows]. rewrite indices_nil by auto. reflexivity.
  Qed.

  Theorem gap_batch c : c <> krCIP -> (c = kcSIL -> (k <= nrows m)%nat) ->
    gap_value c (snd (get_cvi c new_obj (Mat m) (Labs ls))).
  Proof.
    intros Hr Hs. destruct c; cbn [gap_value]; try congruence.
    - destruct (CH_batch m ls Hc) as (o' & E & B & C1 & C2 & _). fold k in C1, C2.
      rewrite (batch_evals kCH o' (CH_val o') E) by (apply CH_eval; rewrite (bc_k _ _ _ B); fold k; lia).
      f_equal. unfold CH_val. rewrite C2, py_sum_nan by (apply in_table, g_SEP). reflexivity.
    - destruct (WB_batch m ls Hc) as (o' & E & B & C1 & C2 & _). fold k in C1, C2.
      rewrite (batch_evals kWB o' (WB_val o') E) by (apply WB_eval; rewrite (bc_k _ _ _ B); fold k; lia).
      f_equal. unfold WB_val. rewrite C2, (py_sum_nan (map (b_SEP m ls) (seq 0 k))) by (apply in_table, g_SEP).
      cbn. now rewrite nan_div_r.
    - destruct (DB_batch m ls Hc) as (o' & E & B & C1 & C2 & _ & _ & _ & C3). fold k in C1, C2, C3.
      assert (K : n_clusters o' = k) by apply (bc_k _ _ _ B).
      rewrite (batch_evals kDB o' (DB_val o') E).
      2:{ apply DB_eval; rewrite K; [lia|rewrite C3; apply wfm_tab2|rewrite C2; now rewrite map_length, seq_length]. }
      f_equal. unfold DB_val. rewrite K. rewrite np_sum_nan; [reflexivity|]. apply in_table.
      destruct Some_other as (j & Hj & Hji). apply vmax_nan. apply in_map_iff. exists j. split; [|apply in_seq; lia].
      unfold DB_low. rewrite C2. destruct (Nat.ltb_spec ix j), (Nat.ltb_spec j ix); try lia.
      + rewrite !nth_map_seq by auto. rewrite g_S. reflexivity.
      + rewrite !nth_map_seq by auto. rewrite g_S. cbn. now rewrite !nan_add_r.
    - destruct (XB_batch m ls Hc) as (o' & E & B & C1 & _ & _ & C2). fold k in C1, C2.
      assert (K : n_clusters o' = k) by apply (bc_k _ _ _ B).
      rewrite (batch_evals kXB o' (XB_val o') E) by (apply XB_eval; rewrite K; [lia|rewrite C2; apply wfm_tab2]).
      f_equal. unfold XB_val. rewrite K, C2, vmin_nan.
      + cbn. now rewrite nan_div_r.
      + apply (triu_touch _ k ix); auto; intros j; intros; rewrite entry_tab2 by lia.
        * replace (ix <? j)%nat with true by (symmetry; apply Nat.ltb_lt; auto). apply g_sqd_l.
        * replace (j <? ix)%nat with true by (symmetry; apply Nat.ltb_lt; auto). apply g_sqd_r.
    - destruct (GD43_batch m ls Hc) as (o' & E & B & C1 & _ & _ & _ & C2). fold k in C1, C2.
      assert (K : n_clusters o' = k) by apply (bc_k _ _ _ B). assert (N := bc_n _ _ _ B). fold k in N.
      rewrite (batch_evals kGD43 o' (GD_val o') E).
      2:{ apply GD43_eval; rewrite ?K; [lia|rewrite C2; apply wfm_tab2|rewrite C1|rewrite N]; now rewrite map_length, seq_length. }
      f_equal. unfold GD_val. rewrite K, C2. rewrite (vmin_nan (triu k _)); [reflexivity|].
      apply D_sym_nan; intros j; [rewrite g_sqd_l|rewrite g_sqd_r]; reflexivity.
    - destruct (GD53_batch m ls Hc) as (o' & E & B & C1 & _ & _ & _ & C2). fold k in C1, C2.
      assert (K : n_clusters o' = k) by apply (bc_k _ _ _ B). assert (N := bc_n _ _ _ B). fold k in N.
      rewrite (batch_evals kGD53 o' (GD_val o') E).
      2:{ apply GD53_eval; rewrite ?K; [lia|rewrite C2; apply wfm_tab2|rewrite C1|rewrite N]; now rewrite map_length, seq_length. }
      f_equal. unfold GD_val. rewrite C1, N. rewrite (vmax_nan (map2 _ _ _)).
      + cbn. now rewrite ?nan_mul_r, ?nan_div_r.
      + rewrite map_map. rewrite <- g_S. unfold b_S.
        assert (EM : forall (l : list nat), map2 (fdiv (a := XR)) (map (b_CP m ls) l) (map (fun i => f_of_nat (b_n m ls i)) l)
                     = map (fun i => fdiv (b_CP m ls i) (f_of_nat (b_n m ls i))) l).
        { induction l as [|a l IH]; auto. cbn [map map2]. now rewrite IH. }
        rewrite EM. apply (in_map (fun i => fdiv (b_CP m ls i) (f_of_nat (b_n m ls i)))). apply in_seq. lia.
    - destruct (PS_batch m ls Hc) as (o' & E & B & _ & C2). fold k in C2.
      assert (K : n_clusters o' = k) by apply (bc_k _ _ _ B). assert (N := bc_n _ _ _ B). fold k in N.
      assert (V := bc_v _ _ _ B). fold k in V.
      assert (WV : wfm k (mcols m) (v o')).
      { rewrite V. repeat split; cbn [mrows]; [now rewrite map_length, seq_length|].
        apply Forall_map, Forall_forall. intros; apply b_v_length. }
      split.
      + intros (z & Hz & Hr1).
        assert (NM : list_max (n o') <> 0%nat).
        { rewrite N. intros Z0. apply (proj1 (list_max_table _ _)) with (i := Z.to_nat z) in Z0; [|lia].
          apply b_n_zero in Z0. apply Z0. rewrite Z2Nat.id by lia. auto. }
        rewrite (batch_evals kPS o' (PS_val o') E).
        2:{ apply (PS_eval (mcols m)); rewrite ?K; auto; [rewrite C2; apply wfm_tab2|rewrite N; now rewrite map_length, seq_length]. }
        f_equal. assert (BT : PS_bt o' = NaN).
        { unfold PS_bt. rewrite K. rewrite py_sum_nan; [reflexivity|]. apply in_table.
          unfold vrow. rewrite V. cbn [mrows]. rewrite (nth_map_seq (b_v m ls) k) by auto. rewrite g_v.
          rewrite sub_nans_l by (rewrite mean0_length; reflexivity). apply dot_nans_l; auto. apply repeat_length. }
        unfold PS_val. rewrite K. apply np_sum_nan. apply in_map_iff. exists 0%nat. split; [|apply in_seq; lia].
        rewrite BT. cbn. rewrite nan_div_r. apply nan_sub_r.
      + intros Hz. rewrite (batch_call kPS o' E). cbn [evaluate].
        assert (NM : list_max (n o') = 0%nat).
        { rewrite N. apply list_max_table. intros i Hin. apply b_n_zero. intros Hin2. apply (Hz _ Hin2). lia. }
        unfold PS_evaluate. sx. rewrite K. replace (1 <? k)%nat with true by (symmetry; apply Nat.ltb_lt; lia). sx.
        rewrite (bind_lift _ (map (fun i => np_dot (map2 fsub (vrow o' i) (mean0 (v o')))
                                                   (map2 fsub (vrow o' i) (mean0 (v o')))) (seq 0 k))).
        2:{ apply mapE_ok. intros i Hin. apply in_seq in Hin.
            rewrite (row_ok _ _ _ _ WV) by lia. cbn [bindE].
            rewrite vsub_ok by (rewrite (wfm_row _ _ _ _ WV) by lia; rewrite mean0_length; symmetry; apply WV).
            cbn [bindE]. now rewrite inner_ok. }
        sx. rewrite NM. destruct k as [|k']; [lia|]. cbn [seq mapE].
        assert (WD : wfm (S k') (S k') (D o')) by (rewrite C2; apply wfm_tab2).
        rewrite (row_ok _ _ _ _ WD) by lia. cbn [bindE].
        rewrite np_delete_ok by (rewrite (wfm_row _ _ _ _ WD) by lia; lia). cbn [bindE].
        rewrite (get_item_ok _ _ 0%nat) by (rewrite N, map_length, seq_length; lia). reflexivity.
    - assert (Hs' := Hs eq_refl). destruct (cSIL_batch m ls Hc Hs') as (o' & E & B & _ & _ & _ & C2). fold k in C2.
      assert (K : n_clusters o' = k) by apply (bc_k _ _ _ B).
      rewrite (batch_evals kcSIL o' (cSIL_val o') E) by (apply cSIL_eval; rewrite K; [lia|rewrite C2; apply wfm_tab2]).
      assert (EE : entry (S2 o') ix ix = NaN) by (rewrite C2, entry_tab2 by lia; apply g_sil).
      f_equal. unfold cSIL_val. rewrite K. replace (np_any (S2 o')) with true.
      + rewrite np_sum_nan; [reflexivity|]. apply in_table. rewrite EE. cbn. now rewrite nan_sub_r.
      + symmetry. unfold np_any. apply existsb_exists. exists (nth ix (mrows (S2 o')) []). split.
        * apply nth_In. rewrite C2. cbn [tab2 mrows]. rewrite map_length, seq_length. auto.
        * apply existsb_exists. exists NaN. split; auto. rewrite <- EE. unfold entry. apply nth_In.
          rewrite C2. cbn [tab2 mrows]. rewrite nth_map_seq by auto. rewrite map_length, seq_length. auto.
  Qed.
End Gap.

(** ** rCIP on finite data *)
Lemma delta_term_nil d : d <> 0%nat -> rCIP_delta_term (A := XR) d = cov_table d [].
Proof.
  intros Hd. unfold cov_table. rewrite (mat_as_tab2 d d (rCIP_delta_term d) (wfm_delta d)). apply tab2_ext.
  intros a b Ha Hb. rewrite delta_term_entry by auto. unfold regcov. rewrite covar_cross. cbn [length Nat.leb].
  f_equal. ring.
Qed.
Lemma potential_nan d g h : d <> 0%nat ->
  rCIP_potential (A := XR) (rCIP_constant d) (nans d)
    (tab2 d d (fun a b => fadd (entry (cov_table d g) a b) (entry (cov_table d h) a b))) = Ok (NaN : F XR).
Proof.
  intros Hd. destruct (Qmat_good d g h) as (Hdet & W & HW & LW & FW).
  assert (EQ : tab2 (A := XR) d d (fun a b => fadd (entry (cov_table d g) a b) (entry (cov_table d h) a b))
               = mkMat d (map fin (Qmat d g h))).
  { unfold Qmat. rewrite map_map. unfold tab2. f_equal. apply map_ext_in. intros i Hi. apply in_seq in Hi.
    unfold fin. rewrite map_map. apply map_ext_in. intros j Hj. apply in_seq in Hj.
    unfold cov_table. rewrite !entry_tab2 by lia. reflexivity. }
  rewrite EQ. unfold rCIP_potential, linalg_inv. cbn [mrows mcols np_det np_inv XR]. unfold xdet, xinv.
  rewrite finrows_fin, HW. cbn [bindE]. change (map (map Fin) W) with (map fin W).
  assert (Es : scal (A := XR) (fdiv (f_of_Z (-1)) f2) (nans d) = nans d).
  { unfold scal, nans. clear. induction d as [|d IH]; auto. cbn [repeat map]. rewrite IH. f_equal. apply nan_mul_r. }
  rewrite Es. unfold vecmat, nrows. cbn [mrows mcols]. unfold nans at 1. rewrite repeat_length, !map_length, LW, Nat.eqb_refl. cbn [bindE].
  assert (Ev : map (fun j => np_dot (nans d) (col (mkMat d (map fin W)) j)) (seq 0 d) = nans d).
  { unfold nans at 2. rewrite (map_ext_in _ (fun _ => NaN : F XR)).
    - clear. generalize 0%nat. induction d as [|d IH]; intros a; auto. cbn [seq map repeat]. now rewrite IH.
    - intros j Hj. apply dot_nans_l; auto. unfold col. cbn [mrows]. now rewrite !map_length. }
  rewrite Ev. rewrite inner_ok by (unfold nans; now rewrite repeat_length). cbn [bindE].
  rewrite dot_nans_l by (auto; apply repeat_length). apply (f_equal (@Ok _)). apply nan_mul_r.
Qed.

Section GapR.
  Context (d : nat) (pts : list point) (ls : list Z).
  Let m : mat XR := mkMat d (map fin pts).
  Let k := n_unique ls.
  Hypotheses (Hd : d <> 0%nat) (Hw : wfg d pts) (Hc : covers m ls k).
  Definition chosen (ix : nat) : list point := map (fun i => nth i pts []) (indices_of ix ls).
  Lemma r_subset ix : subset m ls ix = mkMat d (map fin (chosen ix)).
  Proof.
    unfold subset, chosen. cbn [m mcols mrows]. f_equal. rewrite map_map. apply map_ext. intros i. exact (map_nth fin pts [] i).
  Qed.
  Lemma r_wfg ix : (ix < k)%nat -> wfg d (chosen ix).
  Proof.
    intros Hi. unfold wfg, chosen. apply Forall_map, Forall_forall. intros i Hin. apply (Hc ix i Hi) in Hin.
    unfold wfg in Hw. rewrite Forall_forall in Hw. apply Hw, nth_In. unfold nrows, m in Hin. cbn [mrows] in Hin.
    now rewrite map_length in Hin.
  Qed.
  Lemma r_v ix : (ix < k)%nat -> chosen ix <> [] -> b_v m ls ix = fin (centroid d (chosen ix)).
  Proof. intros Hi H. unfold b_v. rewrite r_subset. apply mean0_fin; auto. Qed.
  Lemma r_v_nan ix : chosen ix = [] -> b_v m ls ix = nans d.
  Proof.
    intros H. unfold b_v. rewrite r_subset, H. apply mean0_nil.
  Qed.
  Lemma r_sigma ix : (ix < k)%nat -> b_sigma m ls ix = cov_table d (chosen ix).
  Proof.
    intros Hi. unfold b_sigma. cbv zeta. rewrite r_subset. change (mcols m) with d.
    unfold nrows. cbn [mrows]. rewrite map_length. pose proof (r_wfg ix Hi) as H1.
    set (g := chosen ix) in *.
    match goal with |- (if ?b then _ else _) = _ => destruct b eqn:L end; [apply Nat.ltb_lt in L|apply Nat.ltb_ge in L].
    - assert (H2 : g <> []) by (destruct g; [simpl in L; lia|discriminate]). pose proof (INR_pos g H2) as P.
      unfold cov_table. apply tab2_ext. intros a b Ha Hb. rewrite delta_term_entry by auto.
      change (smean0 (A := XR)) with (mean0 (A := XR)). change (sdot (a := XR)) with (np_dot (a := XR)).
      rewrite mean0_fin by auto. rewrite !nth_fin, !(col_fin d g).
      rewrite <- (map_map (co a) Fin), <- (map_map (co b) Fin).
      change (map Fin (map (co a) g)) with (fin (map (co a) g)). change (map Fin (map (co b) g)) with (fin (map (co b) g)).
      rewrite np_dot_fin, f_of_nat_fin, !fmul_fin, fsub_fin.
      cbn [f_of_Z XR]. rewrite minus_IZR, <- INR_IZR_INZ, f1_fin. apply lt_INR in L. cbn [INR] in L.
      rewrite fdiv_fin by lra. rewrite fmul_fin, fadd_fin. f_equal. unfold regcov. f_equal.
      rewrite covar_cross. replace (length g <=? 1)%nat with false.
      2:{ symmetry. apply Nat.leb_gt. apply INR_lt. exact L. }
      rewrite <- (cross_raw d g a b) by auto. unfold rdot. rewrite map2_combine.
      replace (rsum (map _ (combine (map (co a) g) (map (co b) g)))) with (rsum (map (fun x => co a x * co b x) g)).
      + unfold point, Rdiv. ring.
      + f_equal. clear. induction g as [|x g IH]; auto. cbn [map combine fst snd]. now rewrite IH.
    - destruct g as [|x [|y g]]; [now apply delta_term_nil|now apply delta_term_single|simpl in L; lia].
  Qed.
  Definition r_term (a b : nat) : F XR :=
    match chosen a, chosen b with
    | [], _ | _, [] => NaN
    | _, _ => Fin (potential d (chosen a) (chosen b))
    end.
  Lemma r_pot a b : (a < k)%nat -> (b < k)%nat ->
    rCIP_potential (rCIP_constant (mcols m)) (map2 fsub (b_v m ls a) (b_v m ls b))
         (tab2 (mcols m) (mcols m) (fun i j => fadd (entry (b_sigma m ls a) i j) (entry (b_sigma m ls b) i j)))
    = Ok (r_term a b).
  Proof.
    intros Ha Hb. change (mcols m) with d. rewrite !r_sigma by auto. unfold r_term.
    assert (LA : forall j, length (b_v m ls j) = d) by (intros; unfold b_v; now rewrite smean0_length).
    destruct (chosen a) as [|x g] eqn:Ea.
    - rewrite (r_v_nan a Ea), sub_nans_l by auto. now apply potential_nan.
    - destruct (chosen b) as [|y h] eqn:Eb.
      + rewrite (r_v_nan b Eb), sub_nans_r by auto. now apply potential_nan.
      + rewrite <- Ea, <- Eb. rewrite !r_v by (auto; congruence). now apply potential_fin.
  Qed.
  Lemma r_batch : exists o', rCIP_param_batch m ls init_attrs = (o', Ok tt) /\ BCommon m ls o' /\
     D o' = D_sym k r_term.
  Proof.
    destruct (rCIP_batch m ls r_term Hc) as (o' & E & B & C1 & _ & _ & C2); auto.
    - repeat split. cbn [m mrows mcols]. apply Forall_map. unfold wfg in Hw. eapply Forall_impl; [|exact Hw].
      intros x Hx. now rewrite fin_length.
    - intros a b Hab Hb. apply r_pot; unfold k; lia.
    - exists o'. auto.
  Qed.
  Theorem gap_batch_rCIP ix : (2 <= k)%nat -> (ix < k)%nat -> ~ In (Z.of_nat ix) ls ->
    snd (get_cvi krCIP new_obj (Mat m) (Labs ls)) = Ok (NaN : F XR).
  Proof.
    intros Hk Hi Hm. destruct r_batch as (o' & E & B & C2).
    assert (K : n_clusters o' = k) by apply (bc_k _ _ _ B).
    rewrite (batch_evals m ls ix Hd Hk Hi krCIP o' (rCIP_val o') E) by (apply rCIP_eval; rewrite K; [lia|rewrite C2; apply wfm_tab2]).
    f_equal. unfold rCIP_val. rewrite K, C2. apply np_sum_nan.
    assert (EX : chosen ix = []) by (unfold chosen; now rewrite indices_nil).
    apply (D_sym_nan m ls ix); auto; intros j; unfold r_term; rewrite EX; [reflexivity|]. now destruct (chosen j).
  Qed.
End GapR.

(** ** All classes *)
Lemma gap_exists ls : (forall i, (i < n_unique ls)%nat -> In (Z.of_nat i) ls) ->
  forall z, In z ls <-> (0 <= z < Z.of_nat (n_unique ls))%Z.
Proof.
  intros H z. split.
  - intros Hz. assert (I : incl (nodup Z.eq_dec ls) (zs (n_unique ls))).
    { apply NoDup_length_incl.
      - apply zs_NoDup.
      - unfold zs, n_unique. now rewrite map_length, seq_length.
      - intros y Hy. apply zs_In in Hy. apply nodup_In. replace y with (Z.of_nat (Z.to_nat y)) by lia. apply H. lia. }
    apply zs_In, I. now apply nodup_In.
  - intros Hz. replace z with (Z.of_nat (Z.to_nat z)) by lia. apply H. lia.
Qed.
Lemma missing_label s k : length (distinct s) = k -> ~ exact_labels s k ->
  exists ix, (ix < k)%nat /\ ~ In (Z.of_nat ix) (labels s).
Proof.
  intros Hk Hn. destruct (List.Forall_Exists_dec (fun i => In (Z.of_nat i) (labels s)) (fun i => in_dec Z.eq_dec _ _) (seq 0 k)) as [F|E].
  - exfalso. apply Hn. intros z. subst k. rewrite Forall_forall in F.
    apply (gap_exists (labels s)). intros i Hi. apply F, in_seq. unfold n_unique in Hi. unfold distinct. lia.
  - apply Exists_exists in E as (i & Hi & H). apply in_seq in Hi. exists i. split; [lia|auto].
Qed.
Theorem gap_all c d s : wf d s -> d <> 0%nat -> (2 <= length (distinct s))%nat -> ~ exact_labels s (length (distinct s)) ->
  gap_value (labels s) c (batch_result c d s).
Proof.
  intros Hw Hd Hk Hn. destruct (missing_label s _ eq_refl Hn) as (ix & Hi & Hm).
  unfold batch_result. change (map fst (as_floats s)) with (map fst (fin_data s)).
  assert (EM : map fst (fin_data s) = map fin (points s)) by (unfold fin_data, points; now rewrite !map_map).
  rewrite EM. assert (LN : nrows (mkMat d (map fin (points s)) : mat XR) = length s).
  { unfold nrows. cbn [mrows]. unfold points. now rewrite !map_length. }
  assert (HC : covers (mkMat d (map fin (points s)) : mat XR) (labels s) (n_unique (labels s))).
  { apply covers_le. rewrite LN. unfold labels. rewrite map_length. apply le_n. }
  destruct (kind_eq c krCIP) as [->|Hr].
  - cbn [gap_value]. apply (gap_batch_rCIP d (points s) (labels s) Hd) with (ix := ix); auto.
    unfold wfg, points. apply Forall_map. exact Hw.
  - apply (gap_batch (mkMat d (map fin (points s))) (labels s) ix); auto.
    intros _. rewrite LN. change (length (distinct s) <= length s)%nat.
    rewrite <- (map_length snd s). apply NoDup_incl_length; [apply NoDup_nodup|]. intros z. apply nodup_In.
Qed.
