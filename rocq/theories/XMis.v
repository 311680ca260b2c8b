(** * Batches whose numbers of rows and labels differ, in exact arithmetic. *)
From Coq Require Import ZArith List Arith Bool Lia Permutation.
From Verif Require Import Num NumPy Base M_CH M_D M_PS GetCvi Lists Step Step2 StepB Hoare Eval Stream Shapes Generic Mismatch.
From Coq Require Import Reals Lra.
From Verif Require Import Det Spec XR SpecX RGeom XLift XEval XInc XCov XRun XPerm XBatch Obs XGap.
Import ListNotations.
Local Open Scope R_scope.

(** get_cvi(data, labels) on a fresh object; [pts] are the rows of data *)
Definition call_result (c : kind) (d : nat) (pts : list point) (ls : list Z) : E (F XR) :=
  snd (get_cvi c new_obj (Mat (mkMat d (map (map Fin) pts : list (vec XR)))) (Labs ls)).
Lemma call_batch c d s : call_result c d (points s) (labels s) = batch_result c d s.
Proof. unfold call_result, batch_result, points, as_floats. now rewrite !map_map. Qed.

(** between-groups sum of squares about the mean of other points *)
Definition bgss_about (d : nat) (mu : point) (gs : list (list point)) : R :=
  rsum (map (fun g => INR (length g) * dist2 (centroid d g) mu) gs).

Section Fewer.
  Context (d k : nat) (s : data) (u : list point).
  Hypotheses (Hw : wf d s) (Hu : Forall (fun x => length x = d) u) (Hk : (2 <= k)%nat) (He : exact_labels s k).
  Let gs := map (cluster s) (zs k).
  Let M : mat XR := mkMat d (map fin (points s ++ u)).
  Let m : mat XR := mkMat d (map fst (fin_data s)).
  Let ls := labels s.

  Lemma f_ls : ls = map snd (fin_data s).
  Proof. unfold ls. symmetry. apply b_ls. Qed.
  Lemma f_len : length ls = length (points s).
  Proof. unfold ls, labels, points. now rewrite !map_length. Qed.
  Lemma f_le : (length ls <= nrows M)%nat.
  Proof. unfold nrows, M. cbn [mrows]. rewrite map_length, app_length, f_len. lia. Qed.
  Lemma f_top : top (length ls) M = m.
  Proof.
    unfold top, M, m. cbn [mcols mrows]. f_equal.
    rewrite map_app, firstn_app, f_len, map_length, Nat.sub_diag, firstn_O, app_nil_r, firstn_all2 by (rewrite map_length; lia).
    unfold fin_data, points. now rewrite !map_map.
  Qed.
  Lemma f_subset ix : subset M ls ix = subset m ls ix.
  Proof. rewrite <- (top_subset M ls f_le ix). now rewrite f_top. Qed.

  Lemma fewer_six c : labelled_rows_only c -> call_result c d (points s ++ u) ls = batch_result c d s.
  Proof.
    intros Hc. rewrite <- call_batch. unfold call_result. change (map (map Fin) (points s ++ u)) with (map fin (points s ++ u)).
    fold M. rewrite (fewer_labels M ls f_le c Hc), f_top. unfold m, fin_data, points. now rewrite !map_map.
  Qed.

  Lemma f_unique : n_unique ls = k.
  Proof. rewrite f_ls. now apply b_unique. Qed.
  Lemma f_covers : covers M ls (n_unique ls).
  Proof. apply covers_le, f_le. Qed.
  Lemma f_n i : (i < k)%nat -> b_n M ls i = length (nth i gs []).
  Proof. intros Hi. unfold b_n. rewrite f_subset. rewrite f_ls. now apply (b_n_x d k s). Qed.
  Lemma f_v i : (i < k)%nat -> b_v M ls i = fin (centroid d (nth i gs [])).
  Proof. intros Hi. unfold b_v. rewrite f_subset. rewrite f_ls. now apply (b_v_x d k s). Qed.
  Lemma f_CP i : (i < k)%nat -> b_CP M ls i = Fin (scatter d (nth i gs [])).
  Proof.
    intros Hi. unfold b_CP, b_v. rewrite f_subset. rewrite f_ls. now apply (b_CP_x d k s).
  Qed.
  Lemma f_ne : points s ++ u <> [].
  Proof. pose proof (b_ne k s Hk He) as H. destruct s; [congruence|discriminate]. Qed.
  Lemma f_mu : smean0 M = fin (centroid d (points s ++ u)).
  Proof. apply mean0_fin. apply f_ne. Qed.
  Lemma f_SEP i : (i < k)%nat -> b_SEP M ls i =
    Fin (INR (length (nth i gs [])) * dist2 (centroid d (nth i gs [])) (centroid d (points s ++ u))).
  Proof.
    intros Hi. unfold b_SEP. rewrite f_n, f_v, f_mu, f_of_nat_fin by auto.
    change (np_sumsq (map2 fsub ?a ?b)) with (sqd a b). rewrite sqd_fin. apply fmul_fin.
  Qed.
  Lemma f_CPs : map (b_CP M ls) (seq 0 k) = map (fun g => Fin (scatter d g)) gs.
  Proof. apply (b_map k s Hk (fun g => Fin (scatter d g))). apply f_CP. Qed.
  Lemma f_SEPs : map (b_SEP M ls) (seq 0 k) =
    map (fun g => Fin (INR (length g) * dist2 (centroid d g) (centroid d (points s ++ u)))) gs.
  Proof. apply (b_map k s Hk (fun g => Fin (INR (length g) * dist2 (centroid d g) (centroid d (points s ++ u))))). apply f_SEP. Qed.
  Lemma f_nrows : INR (nrows M) = nsamp gs + INR (length u).
  Proof.
    unfold nrows, M. cbn [mrows]. rewrite map_length, app_length, plus_INR. f_equal.
    unfold nsamp, gs. now rewrite (Permutation_length (b_concat k s He)).
  Qed.
  Lemma f_call c o' x : param_batch c M ls init_attrs = (o', Ok tt) -> evals c o' x ->
    call_result c d (points s ++ u) ls = Ok x.
  Proof.
    intros E (o2 & E2 & E3 & _). unfold call_result. change (map (map Fin) (points s ++ u)) with (map fin (points s ++ u)). fold M.
    unfold get_cvi, update. cbn [new_obj at_ is_setup init_attrs label_map unique_labels]. rewrite f_unique.
    replace (1 <? k)%nat with true by (symmetry; apply Nat.ltb_lt; lia). cbn [negb].
    rewrite E. cbn [at_ label_map]. rewrite E2. cbn [snd]. now rewrite E3.
  Qed.
  Lemma f_perm : Permutation (map (cluster s) (zs k)) (clusters s).
  Proof. now apply clusters_zs. Qed.

  Lemma fewer_CH : call_result kCH d (points s ++ u) ls =
    Ok (xmul (xdiv (Fin (bgss_about d (centroid d (points s ++ u)) gs)) (Fin (wgss d gs)))
             (Fin ((nsamp gs + INR (length u) - nclus gs) / (nclus gs - 1)))).
  Proof.
    destruct (CH_batch M ls f_covers) as (o' & E & B & C1 & C2 & _). rewrite f_unique in *.
    assert (K : n_clusters o' = k) by (rewrite (bc_k _ _ _ B); apply f_unique).
    rewrite (f_call kCH o' (CH_val o') E) by (apply CH_eval; rewrite K; lia). f_equal.
    unfold CH_val. rewrite (eq_trans C1 f_CPs), (eq_trans C2 f_SEPs). rewrite !py_sum_map, K, (bc_ns _ _ _ B). cbn [f_of_Z XR fmul fdiv]. f_equal.
    rewrite !minus_IZR, <- !INR_IZR_INZ, f_nrows.
    replace (nclus gs) with (INR k). 2:{ unfold nclus, gs. now rewrite b_glen. }
    apply xdiv_fin. apply (le_INR 2) in Hk. cbn in Hk. lra.
  Qed.
  Lemma fewer_WB : call_result kWB d (points s ++ u) ls =
    Ok (xmul (xdiv (Fin (wgss d gs)) (Fin (bgss_about d (centroid d (points s ++ u)) gs))) (Fin (nclus gs))).
  Proof.
    destruct (WB_batch M ls f_covers) as (o' & E & B & C1 & C2 & _). rewrite f_unique in *.
    assert (K : n_clusters o' = k) by (rewrite (bc_k _ _ _ B); apply f_unique).
    rewrite (f_call kWB o' (WB_val o') E) by (apply WB_eval; rewrite K; lia). f_equal.
    unfold WB_val. rewrite (eq_trans C1 f_CPs), (eq_trans C2 f_SEPs). rewrite !py_sum_map, K, f_of_nat_fin. unfold nclus, gs. now rewrite b_glen.
  Qed.
  Lemma fewer_XB : call_result kXB d (points s ++ u) ls =
    Ok (xdiv (Fin (wgss d gs)) (Fin ((nsamp gs + INR (length u)) * rmin (map (fun p => cdist d (fst p) (snd p)) (pairs gs))))).
  Proof.
    destruct (XB_batch M ls f_covers) as (o' & E & B & C1 & _ & _ & C2). rewrite f_unique in *.
    assert (K : n_clusters o' = k) by (rewrite (bc_k _ _ _ B); apply f_unique).
    rewrite (f_call kXB o' (XB_val o') E) by (apply XB_eval; rewrite K; [lia|rewrite C2; apply wfm_tab2]). f_equal.
    unfold XB_val. rewrite (eq_trans C1 f_CPs). rewrite !py_sum_map, K, (bc_ns _ _ _ B), f_of_nat_fin, f_nrows.
    assert (GL : length gs = k) by apply b_glen.
    assert (E6 : Dup (cdist d) gs o').
    { intros a b Ha Hb. rewrite GL in Hb. rewrite C2, entry_tab2 by lia. replace (a <? b)%nat with true by (symmetry; now apply Nat.ltb_lt).
      unfold b_sqd. rewrite !f_v by lia. apply sqd_fin. }
    rewrite <- GL, (triu_Dup _ _ _ _ E6 eq_refl), vmin_fin.
    reflexivity.
  Qed.
End Fewer.

(** ** More labels than rows *)
Lemma nth_skipn_In (i n : nat) (ls : list Z) : (n <= i)%nat -> (i < length ls)%nat -> In (nth i ls 0%Z) (skipn n ls).
Proof.
  intros H1 H2. replace (nth i ls 0%Z) with (nth (i - n) (skipn n ls) 0%Z).
  - apply nth_In. rewrite skipn_length. lia.
  - rewrite <- (firstn_skipn n ls) at 2. rewrite app_nth2; rewrite firstn_length; [f_equal; lia|lia].
Qed.
Section More.
  Context (c : kind) (d : nat) (pts : list point) (ls : list Z).
  Hypotheses (Hw : Forall (fun x => length x = d) pts) (Hd : d <> 0%nat).
  Hypotheses (Hm : (length pts < length ls)%nat) (Hk : (2 <= n_unique ls)%nat).

  Definition in_range (z : Z) : Prop := (0 <= z < Z.of_nat (n_unique ls))%Z.
  Lemma more_raises : (exists z, In z (skipn (length pts) ls) /\ in_range z) -> exists e, call_result c d pts ls = Err e.
  Proof.
    intros (z & Hz & Hr). apply (In_nth _ _ 0%Z) in Hz as (j & Hj & Ej). rewrite skipn_length in Hj.
    apply (extra_label_raises c _ ls (length pts + j) (Z.to_nat z)).
    - lia.
    - unfold nrows. cbn [mrows]. rewrite map_length. apply Nat.le_add_r.
    - rewrite Z2Nat.id by (unfold in_range in Hr; lia). rewrite <- Ej. symmetry. rewrite <- (firstn_skipn (length pts) ls) at 2.
      rewrite app_nth2; rewrite firstn_length; [f_equal; lia|lia].
    - unfold in_range in Hr. lia.
  Qed.
  Lemma more_value : (forall z, In z (skipn (length pts) ls) -> ~ in_range z) -> (c = kcSIL -> (n_unique ls <= length pts)%nat) ->
    gap_value ls c (call_result c d pts ls).
  Proof.
    intros Hx Hs. unfold call_result. change (map (map Fin) pts) with (map fin pts).
    assert (HC : covers (mkMat d (map fin pts) : mat XR) ls (n_unique ls)).
    { intros ix i Hi Hin. unfold nrows. cbn [mrows]. rewrite map_length.
      destruct (Nat.lt_ge_cases i (length pts)) as [H|H]; auto. exfalso.
      pose proof (indices_lt ix ls i Hin) as L. unfold indices_of in Hin. apply filter_In in Hin as [_ Hin]. apply Z.eqb_eq in Hin.
      apply (Hx (nth i ls 0%Z)).
      - now apply nth_skipn_In.
      - unfold in_range. rewrite Hin. lia. }
    assert (HM : exists ix, (ix < n_unique ls)%nat /\ ~ In (Z.of_nat ix) ls).
    { destruct (List.Forall_Exists_dec (fun i => In (Z.of_nat i) ls) (fun i => in_dec Z.eq_dec _ _) (seq 0 (n_unique ls))) as [F|E].
      - exfalso. rewrite Forall_forall in F. assert (H : forall i, (i < n_unique ls)%nat -> In (Z.of_nat i) ls) by (intros i Hi; apply F, in_seq; lia).
        pose proof (gap_exists ls H) as G. apply (Hx (nth (length pts) ls 0%Z)).
        + now apply nth_skipn_In.
        + unfold in_range. apply G, nth_In. lia.
      - apply Exists_exists in E as (i & Hi & H). apply in_seq in Hi. exists i. split; [lia|auto]. }
    destruct HM as (ix & Hi & Hn).
    destruct (kind_eq c krCIP) as [->|Hr].
    - cbn [gap_value]. now apply (gap_batch_rCIP d pts ls Hd) with (ix := ix).
    - apply (gap_batch (mkMat d (map fin pts)) ls ix); auto. unfold nrows. cbn [mrows]. now rewrite map_length.
  Qed.
End More.
