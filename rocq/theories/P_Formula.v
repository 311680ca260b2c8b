(** * The published formulas: C23 - C31

    For a batch labelled 0..k-1 with k >= 2 clusters a fresh object returns the
    published formula (Spec.v) of the clusters, off the data sets on which the
    formula divides by zero; the streams of the eight classes other than cSIL
    too, whatever their labels.  Exact arithmetic, finite features.  What is
    returned on the excluded data sets is C39 (P_Bounds.v). *)
From Coq Require Import ZArith List Arith Bool Lia Permutation.
From Verif Require Import Num NumPy Base GetCvi.
From Coq Require Import Reals Lra.
From Verif Require Import Det Spec XR SpecX RGeom XEval XRun XPerm XBatch Obs XForm XSilEx P_Inc.
Import ListNotations.
Local Open Scope R_scope.

(** ** Lemmas *)
Lemma distinct_clusters s : length (clusters s) = length (distinct s).
Proof. unfold clusters. now rewrite map_length. Qed.
Lemma XVal_ge2 c d gs v : (2 <= length gs)%nat ->
  match c with
  | kCH => CH_ext d gs | kWB => WB_ext d gs | kDB => DB_ext d gs | kXB => XB_ext d gs
  | kGD43 => GD43_ext d gs | kGD53 => GD53_ext d gs | kPS => PS_ext d gs
  | krCIP => rCIP_ext d gs | kcSIL => cSIL_ext d gs
  end = v -> XVal c d gs = v.
Proof. intros Hk E. unfold XVal. destruct (Nat.leb_spec (length gs) 1); [lia|]. exact E. Qed.
Lemma formula_batch c d k s v : (c = krCIP -> d <> 0%nat) -> wf d s -> (2 <= k)%nat -> exact_labels s k ->
  (good d (clusters s) -> (2 <= length (clusters s))%nat -> XVal c d (clusters s) = v) -> batch_result c d s = Ok v.
Proof.
  intros Hd Hw Hk He H. rewrite (batch_result_ok c d k) by auto. f_equal. apply H; [now apply clusters_good|].
  now rewrite (exact_length s k He).
Qed.
Lemma formula_stream c d s i v : c <> kcSIL -> (c = krCIP -> d <> 0%nat) -> wf d s -> (i < length s)%nat ->
  (2 <= length (distinct (firstn (S i) s)))%nat ->
  (good d (clusters (firstn (S i) s)) -> (2 <= length (clusters (firstn (S i) s)))%nat -> XVal c d (clusters (firstn (S i) s)) = v) ->
  nth_error (stream_results c s) i = Some (Ok v).
Proof.
  intros Hc Hd Hw Hi Hk H. rewrite (stream_result_ok c d) by auto. do 2 f_equal. apply H; [|now rewrite distinct_clusters].
  apply clusters_good. rewrite <- (firstn_skipn (S i) s) in Hw. now apply wf_app in Hw.
Qed.

(** ** C23 *)
Theorem C23_CH_formula : forall d k s, wf d s -> (2 <= k)%nat -> exact_labels s k ->
  wgss d (clusters s) <> 0 ->
  batch_result kCH d s = Ok (Fin (CH_formula d (clusters s))).
Proof.
  intros d k s W K L H.
  exact (formula_batch kCH d k s _ ltac:(discriminate) W K L (fun A B => (XVal_ge2 kCH d _ _ B (CH_form d _ A B H)))).
Qed.
Print Assumptions C23_CH_formula.
Theorem C23_CH_formula_streams : forall d s i, wf d s -> (i < length s)%nat ->
  (2 <= length (distinct (firstn (S i) s)))%nat ->
  wgss d (clusters (firstn (S i) s)) <> 0 ->
  nth_error (stream_results kCH s) i = Some (Ok (Fin (CH_formula d (clusters (firstn (S i) s))))).
Proof.
  intros d s i W I K H.
  exact (formula_stream kCH d s i _ ltac:(discriminate) ltac:(discriminate) W I K (fun A B => (XVal_ge2 kCH d _ _ B (CH_form d _ A B H)))).
Qed.
Print Assumptions C23_CH_formula_streams.

(** ** C24 *)
Theorem C24_WB_formula : forall d k s, wf d s -> (2 <= k)%nat -> exact_labels s k ->
  bgss d (clusters s) <> 0 ->
  batch_result kWB d s = Ok (Fin (WB_formula d (clusters s))).
Proof.
  intros d k s W K L H.
  exact (formula_batch kWB d k s _ ltac:(discriminate) W K L (fun A B => (XVal_ge2 kWB d _ _ B (WB_form d _ H)))).
Qed.
Print Assumptions C24_WB_formula.
Theorem C24_WB_formula_streams : forall d s i, wf d s -> (i < length s)%nat ->
  (2 <= length (distinct (firstn (S i) s)))%nat ->
  bgss d (clusters (firstn (S i) s)) <> 0 ->
  nth_error (stream_results kWB s) i = Some (Ok (Fin (WB_formula d (clusters (firstn (S i) s))))).
Proof.
  intros d s i W I K H.
  exact (formula_stream kWB d s i _ ltac:(discriminate) ltac:(discriminate) W I K (fun A B => (XVal_ge2 kWB d _ _ B (WB_form d _ H)))).
Qed.
Print Assumptions C24_WB_formula_streams.

(** ** C25 *)
Theorem C25_DB_formula : forall d k s, wf d s -> (2 <= k)%nat -> exact_labels s k ->
  NoDup (map (centroid d) (clusters s)) ->
  batch_result kDB d s = Ok (Fin (DB_formula d (clusters s))).
Proof.
  intros d k s W K L H.
  exact (formula_batch kDB d k s _ ltac:(discriminate) W K L (fun A B => (XVal_ge2 kDB d _ _ B (DB_form d _ B H)))).
Qed.
Print Assumptions C25_DB_formula.
Theorem C25_DB_formula_streams : forall d s i, wf d s -> (i < length s)%nat ->
  (2 <= length (distinct (firstn (S i) s)))%nat ->
  NoDup (map (centroid d) (clusters (firstn (S i) s))) ->
  nth_error (stream_results kDB s) i = Some (Ok (Fin (DB_formula d (clusters (firstn (S i) s))))).
Proof.
  intros d s i W I K H.
  exact (formula_stream kDB d s i _ ltac:(discriminate) ltac:(discriminate) W I K (fun A B => (XVal_ge2 kDB d _ _ B (DB_form d _ B H)))).
Qed.
Print Assumptions C25_DB_formula_streams.

(** ** C26 *)
Theorem C26_XB_formula : forall d k s, wf d s -> (2 <= k)%nat -> exact_labels s k ->
  NoDup (map (centroid d) (clusters s)) ->
  batch_result kXB d s = Ok (Fin (XB_formula d (clusters s))).
Proof.
  intros d k s W K L H.
  exact (formula_batch kXB d k s _ ltac:(discriminate) W K L (fun A B => (XVal_ge2 kXB d _ _ B (XB_form d _ A B H)))).
Qed.
Print Assumptions C26_XB_formula.
Theorem C26_XB_formula_streams : forall d s i, wf d s -> (i < length s)%nat ->
  (2 <= length (distinct (firstn (S i) s)))%nat ->
  NoDup (map (centroid d) (clusters (firstn (S i) s))) ->
  nth_error (stream_results kXB s) i = Some (Ok (Fin (XB_formula d (clusters (firstn (S i) s))))).
Proof.
  intros d s i W I K H.
  exact (formula_stream kXB d s i _ ltac:(discriminate) ltac:(discriminate) W I K (fun A B => (XVal_ge2 kXB d _ _ B (XB_form d _ A B H)))).
Qed.
Print Assumptions C26_XB_formula_streams.

(** ** C27 *)
Theorem C27_GD43_formula : forall d k s, wf d s -> (2 <= k)%nat -> exact_labels s k ->
  rmax (map (mse d) (clusters s)) <> 0 ->
  batch_result kGD43 d s = Ok (Fin (GD43_formula d (clusters s))).
Proof.
  intros d k s W K L H.
  exact (formula_batch kGD43 d k s _ ltac:(discriminate) W K L (fun A B => (XVal_ge2 kGD43 d _ _ B (GD43_form d _ H)))).
Qed.
Print Assumptions C27_GD43_formula.
Theorem C27_GD43_formula_streams : forall d s i, wf d s -> (i < length s)%nat ->
  (2 <= length (distinct (firstn (S i) s)))%nat ->
  rmax (map (mse d) (clusters (firstn (S i) s))) <> 0 ->
  nth_error (stream_results kGD43 s) i = Some (Ok (Fin (GD43_formula d (clusters (firstn (S i) s))))).
Proof.
  intros d s i W I K H.
  exact (formula_stream kGD43 d s i _ ltac:(discriminate) ltac:(discriminate) W I K (fun A B => (XVal_ge2 kGD43 d _ _ B (GD43_form d _ H)))).
Qed.
Print Assumptions C27_GD43_formula_streams.

(** ** C28 *)
Theorem C28_GD53_formula : forall d k s, wf d s -> (2 <= k)%nat -> exact_labels s k ->
  rmax (map (mse d) (clusters s)) <> 0 ->
  batch_result kGD53 d s = Ok (Fin (GD53_formula d (clusters s))).
Proof.
  intros d k s W K L H.
  exact (formula_batch kGD53 d k s _ ltac:(discriminate) W K L (fun A B => (XVal_ge2 kGD53 d _ _ B (GD53_form d _ H)))).
Qed.
Print Assumptions C28_GD53_formula.
Theorem C28_GD53_formula_streams : forall d s i, wf d s -> (i < length s)%nat ->
  (2 <= length (distinct (firstn (S i) s)))%nat ->
  rmax (map (mse d) (clusters (firstn (S i) s))) <> 0 ->
  nth_error (stream_results kGD53 s) i = Some (Ok (Fin (GD53_formula d (clusters (firstn (S i) s))))).
Proof.
  intros d s i W I K H.
  exact (formula_stream kGD53 d s i _ ltac:(discriminate) ltac:(discriminate) W I K (fun A B => (XVal_ge2 kGD53 d _ _ B (GD53_form d _ H)))).
Qed.
Print Assumptions C28_GD53_formula_streams.

(** ** C29 *)
Theorem C29_PS_formula : forall d k s, wf d s -> (2 <= k)%nat -> exact_labels s k ->
  ~ (forall g h, In g (clusters s) -> In h (clusters s) -> centroid d g = centroid d h) ->
  batch_result kPS d s = Ok (Fin (PS_formula d (clusters s))).
Proof.
  intros d k s W K L H.
  exact (formula_batch kPS d k s _ ltac:(discriminate) W K L (fun A B => (XVal_ge2 kPS d _ _ B (PS_form d _ B H)))).
Qed.
Print Assumptions C29_PS_formula.
Theorem C29_PS_formula_streams : forall d s i, wf d s -> (i < length s)%nat ->
  (2 <= length (distinct (firstn (S i) s)))%nat ->
  ~ (forall g h, In g (clusters (firstn (S i) s)) -> In h (clusters (firstn (S i) s)) -> centroid d g = centroid d h) ->
  nth_error (stream_results kPS s) i = Some (Ok (Fin (PS_formula d (clusters (firstn (S i) s))))).
Proof.
  intros d s i W I K H.
  exact (formula_stream kPS d s i _ ltac:(discriminate) ltac:(discriminate) W I K (fun A B => (XVal_ge2 kPS d _ _ B (PS_form d _ B H)))).
Qed.
Print Assumptions C29_PS_formula_streams.

(** ** C30 *)
Theorem C30_cSIL_formula : forall d k s, wf d s -> (2 <= k)%nat -> exact_labels s k ->
  (forall g others, In (g, others) (selects (clusters s)) ->
     ~ (mdist d g g = 0 /\ rmin (map (mdist d g) others) = 0)) ->
  batch_result kcSIL d s = Ok (Fin (cSIL_formula d (clusters s))).
Proof.
  intros d k s W K L H.
  exact (formula_batch kcSIL d k s _ ltac:(discriminate) W K L (fun A B => (XVal_ge2 kcSIL d _ _ B (cSIL_form d _ A B (fun U => match U with ex_intro _ g (ex_intro _ r (conj P Q)) => H g r P Q end))))).
Qed.
Print Assumptions C30_cSIL_formula.

(** ** C31 *)
Theorem C31_rCIP_formula : forall d k s, (d <> 0)%nat -> wf d s -> (2 <= k)%nat -> exact_labels s k ->
  batch_result krCIP d s = Ok (Fin (rCIP_formula d (clusters s))).
Proof.
  intros d k s Hd W K L.
  exact (formula_batch krCIP d k s _ (fun _ => Hd) W K L (fun A B => (XVal_ge2 krCIP d _ _ B eq_refl))).
Qed.
Print Assumptions C31_rCIP_formula.
Theorem C31_rCIP_formula_streams : forall d s i, (d <> 0)%nat -> wf d s -> (i < length s)%nat ->
  (2 <= length (distinct (firstn (S i) s)))%nat ->
  nth_error (stream_results krCIP s) i = Some (Ok (Fin (rCIP_formula d (clusters (firstn (S i) s))))).
Proof.
  intros d s i Hd W I K.
  exact (formula_stream krCIP d s i _ ltac:(discriminate) (fun _ => Hd) W I K (fun A B => (XVal_ge2 krCIP d _ _ B eq_refl))).
Qed.
Print Assumptions C31_rCIP_formula_streams.

(** ** The hypotheses of all nine are met by [ex_s] (P_Inc.v): two clusters of
    two samples with two features *)
Definition ex_g : list point := [[0; 0]; [2; 1]].
Definition ex_h : list point := [[10; 3]; [11; 5]].
Lemma ex_clusters : clusters ex_s = [ex_g; ex_h]. Proof. reflexivity. Qed.
Lemma ex_cg : centroid 2 ex_g = [1; / 2]. Proof. unfold centroid. cbn. f_equal; [lra|]. f_equal. lra. Qed.
Lemma ex_ch : centroid 2 ex_h = [21 / 2; 4]. Proof. unfold centroid. cbn. f_equal; [lra|]. f_equal. lra. Qed.
Lemma ex_sg : scatter 2 ex_g = 5 / 2. Proof. unfold scatter. rewrite ex_cg. unfold dist2. cbn. lra. Qed.
Lemma ex_sh : scatter 2 ex_h = 5 / 2. Proof. unfold scatter. rewrite ex_ch. unfold dist2. cbn. lra. Qed.
Lemma ex_mg : mse 2 ex_g = 5 / 4. Proof. unfold mse. rewrite ex_sg. cbn. lra. Qed.
Lemma ex_mh : mse 2 ex_h = 5 / 4. Proof. unfold mse. rewrite ex_sh. cbn. lra. Qed.
Lemma ex_bgss : bgss 2 (clusters ex_s) = 205 / 2.
Proof. rewrite ex_clusters. unfold bgss, centroid, dist2. cbn. lra. Qed.
Example C23_C31_hypotheses :
  (2 <> 0)%nat /\ wf 2 ex_s /\ (2 <= 2)%nat /\ exact_labels ex_s 2 /\
  wgss 2 (clusters ex_s) <> 0 /\ bgss 2 (clusters ex_s) <> 0 /\
  NoDup (map (centroid 2) (clusters ex_s)) /\ rmax (map (mse 2) (clusters ex_s)) <> 0 /\
  ~ (forall g h, In g (clusters ex_s) -> In h (clusters ex_s) -> centroid 2 g = centroid 2 h) /\
  (forall g others, In (g, others) (selects (clusters ex_s)) ->
     ~ (mdist 2 g g = 0 /\ rmin (map (mdist 2 g) others) = 0)).
Proof.
  split; [lia|]. split; [apply ex_wf|]. split; [lia|]. split; [apply ex_exact|].
  assert (Hne : centroid 2 ex_g <> centroid 2 ex_h) by (rewrite ex_cg, ex_ch; intros E; inversion E; lra).
  rewrite ex_bgss, ex_clusters. split; [unfold wgss; cbn [map]; rewrite ex_sg, ex_sh; cbn; lra|]. split; [lra|].
  split; [cbn [map]; constructor; [intros [E|[]]; congruence|constructor; [intros []|constructor]]|].
  split; [cbn [map rmax fold_right]; rewrite ex_mg, ex_mh, Rmax_left; lra|].
  split; [intros H; apply Hne, H; cbn; auto|].
  intros g others [E|[E|[]]] [E1 _]; inversion E; subst; change (mdist 2 ?g ?g) with (mse 2 g) in E1;
    [rewrite ex_mg in E1|rewrite ex_mh in E1]; lra.
Qed.
