(** * C73: the value that iCH of compat/v0.py returns, in exact arithmetic.

    False as stated; [C73_value] says what is returned, [C73_agree_iff] when it
    is right, [C73_refuted] gives a value that is too small and one that is too
    large. *)
From Coq Require Import ZArith List Arith Bool Lia Permutation.
From Verif Require Import Num NumPy Lists Stream Compat CompatL CompatH.
From Coq Require Import Reals Lra.
From Verif Require Import Det Spec XR SpecX RGeom XLift XEval XInc XRun CompatX CompatC.
Import ListNotations.
Local Open Scope R_scope.
Local Notation length := List.length.

(** Spec.  The clusters a caller of iCH gets (C49): a sample labelled 0 is a new
    cluster, a sample with another label joins the cluster of that number. *)
Fixpoint add_to (i : nat) (x : point) (gs : list (list point)) : list (list point) :=
  match gs, i with
  | [], _ => []
  | g :: gs, O => (g ++ [x]) :: gs
  | g :: gs, S i => g :: add_to i x gs
  end.
Definition clusters_of (s : list (point * Z)) : list (list point) :=
  fold_left (fun gs p => if (snd p =? 0)%Z then gs ++ [[fst p]] else add_to (Z.to_nat (snd p)) (fst p) gs) s [].
(** the labels that name a cluster already there, or 0 *)
Definition valid (s : list (point * Z)) : Prop :=
  forall i p, nth_error s i = Some p ->
    (snd p = 0 \/ 0 < snd p < Z.of_nat (length (clusters_of (firstn i s))))%Z.
(** the samples seen when label [l] was given last; none if it never was *)
Fixpoint seen_at (l : Z) (s : list (point * Z)) : list point :=
  match s with
  | [] => []
  | p :: s' => match seen_at l s' with
               | [] => if (snd p =? l)%Z then [fst p] else []
               | q => fst p :: q
               end
  end.
(** the contribution of cluster [j], about the mean of the samples seen then
    instead of the mean of all samples *)
Definition stale (d : nat) (s : list (point * Z)) (j : nat) : R :=
  let g := nth j (clusters_of s) [] in
  match seen_at (Z.of_nat j) s with
  | [] => 0
  | q => INR (length g) * dist2 (centroid d g) (centroid d q)
  end.
Definition stale_bgss (d : nat) (s : list (point * Z)) : R := rsum (map (stale d s) (seq 0 (length (clusters_of s)))).

Lemma add_to_join i x gs : (i < length gs)%nat -> add_to i x gs = join i x gs.
Proof.
  unfold join. revert i. induction gs as [|g gs IH]; intros i Hi; [cbn in Hi; lia|].
  destruct i as [|i]; cbn; [reflexivity|]. now rewrite IH by (cbn in Hi; lia).
Qed.
Lemma clusters_of_snoc s p : clusters_of (s ++ [p]) =
  if (snd p =? 0)%Z then clusters_of s ++ [[fst p]] else add_to (Z.to_nat (snd p)) (fst p) (clusters_of s).
Proof. unfold clusters_of. now rewrite fold_left_app. Qed.
Lemma valid_snoc s p : valid (s ++ [p]) -> valid s /\ (snd p = 0 \/ 0 < snd p < Z.of_nat (length (clusters_of s)))%Z.
Proof.
  intros H. split.
  - intros i q Hq. assert (Hi : (i < length s)%nat) by (apply nth_error_Some; congruence).
    specialize (H i q). rewrite nth_error_app1, firstn_app in H by lia.
    replace (i - length s)%nat with 0%nat in H by lia. rewrite firstn_O, app_nil_r in H. auto.
  - specialize (H (length s) p). rewrite nth_error_app2, Nat.sub_diag in H by lia. specialize (H eq_refl).
    now rewrite firstn_app, Nat.sub_diag, firstn_O, app_nil_r, firstn_all in H.
Qed.
Lemma clusters_of_built s : valid s -> clusters_of s = built s.
Proof.
  induction s as [|p s IH] using rev_ind; intros H; [reflexivity|].
  apply valid_snoc in H as [H Hp]. rewrite clusters_of_snoc, built_snoc. unfold ch_groups_step. rewrite (IH H) in *.
  destruct (Z.eqb_spec (snd p) 0) as [E|E]; [reflexivity|]. apply add_to_join. lia.
Qed.
Lemma valid_firstn i s : valid s -> valid (firstn i s).
Proof.
  intros H j p Hp. assert (Hj : (j < length (firstn i s))%nat) by (apply nth_error_Some; congruence).
  rewrite firstn_length in Hj. specialize (H j p). rewrite firstn_firstn, Nat.min_l by lia. apply H.
  rewrite <- Hp. rewrite <- (firstn_skipn i s) at 1. rewrite nth_error_app1; auto. rewrite firstn_length. lia.
Qed.
Lemma valid_accepted s : valid s -> accepted s.
Proof.
  intros H i p Hp. specialize (H i p Hp) as Hl. rewrite (clusters_of_built _ (valid_firstn i s H)), built_length in Hl. lia.
Qed.
Lemma seen_until l s : seen_at l s = map fst (until_last l s).
Proof.
  induction s as [|p s IH]; [reflexivity|]. cbn. rewrite IH. destruct (until_last l s); cbn; [|reflexivity].
  now destruct (snd p =? l)%Z.
Qed.
Lemma stale_terms d s : valid s -> map (stale d s) (seq 0 (length (clusters_of s))) = terms d s (built s).
Proof.
  intros H. unfold terms. rewrite (clusters_of_built s H). apply map_ext. intros j. unfold stale, term.
  rewrite (clusters_of_built s H), seen_until. destruct (until_last (Z.of_nat j) s); reflexivity.
Qed.
Lemma clusters_of_samples s : valid s -> Permutation (concat (clusters_of s)) (map fst s).
Proof.
  induction s as [|p s IH] using rev_ind; intros H; [reflexivity|].
  apply valid_snoc in H as [H Hp]. rewrite clusters_of_snoc, map_app. specialize (IH H).
  destruct (Z.eqb_spec (snd p) 0) as [E|E].
  - rewrite concat_app. cbn. now rewrite IH.
  - rewrite add_to_join by lia. rewrite concat_join by lia. now rewrite IH.
Qed.

(** ** What every call returns *)
Theorem C73_value (d : nat) (s : list (point * Z)) (i : nat) : wf d s -> valid s -> (i < length s)%nat ->
  let p := firstn (S i) s in let k := length (clusters_of p) in
  nth_error (chist_results ch_step iCH_init (fin_data s)) i =
  Some (Ok (if ((1 <? k) && (k <? length p))%nat
            then xdiv (Fin (stale_bgss d p / INR (k - 1))) (Fin (wgss d (clusters_of p) / INR (length p - k)))
            else Fin 0)).
Proof.
  intros Hw Hv Hi p k. pose proof (valid_firstn (S i) s Hv) as Hvp. fold p in Hvp.
  destruct (ch_stream d s Hw (valid_accepted s Hv)) as [_ H]. specialize (H i Hi). cbv zeta in H. fold p in H.
  unfold stale_bgss, k. rewrite stale_terms by exact Hvp. rewrite (clusters_of_built p Hvp). exact H.
Qed.
Print Assumptions C73_value.

(** ** When it is the index of the clusters *)
Theorem C73_agree_iff (d : nat) (s : list (point * Z)) (i : nat) : wf d s -> valid s -> (i < length s)%nat ->
  let p := firstn (S i) s in let gs := clusters_of p in
  (1 < length gs < length p)%nat -> wgss d gs <> 0 ->
  (nth_error (chist_results ch_step iCH_init (fin_data s)) i = Some (Ok (Fin (CH_formula d gs))) <->
   stale_bgss d p = bgss d gs).
Proof.
  intros Hw Hv Hi p gs [H1 H2] HW. pose proof (C73_value d s i Hw Hv Hi) as E. cbv zeta in E. fold p in E. fold gs in E.
  rewrite E. clear E. rewrite (proj2 (Nat.ltb_lt _ _) H1), (proj2 (Nat.ltb_lt _ _) H2). cbn [andb].
  assert (Ek : INR (length gs - 1) = nclus gs - 1) by (unfold nclus; rewrite minus_INR by lia; reflexivity).
  assert (En : INR (length p - length gs) = nsamp gs - nclus gs).
  { unfold nclus, nsamp. unfold gs. rewrite (Permutation_length (clusters_of_samples p (valid_firstn (S i) s Hv))), map_length.
    now rewrite minus_INR by (fold gs; lia). }
  assert (Pk : INR (length gs - 1) <> 0) by (apply not_0_INR; lia).
  assert (Pn : INR (length p - length gs) <> 0) by (apply not_0_INR; lia).
  assert (Pw : wgss d gs / INR (length p - length gs) <> 0).
  { intros E. apply HW. apply Rmult_eq_reg_r with (/ INR (length p - length gs)); [|now apply Rinv_neq_0_compat].
    rewrite Rmult_0_l. exact E. }
  cbn [xdiv]. destruct (Req_EM_T (wgss d gs / INR (length p - length gs)) 0) as [|_]; [contradiction|].
  unfold CH_formula. rewrite <- Ek, <- En. split.
  - intros [= E]. apply (f_equal (fun r => r * (wgss d gs / INR (length p - length gs)) * INR (length gs - 1))) in E.
    revert E. generalize (stale_bgss d p) (bgss d gs) (INR (length gs - 1)) (INR (length p - length gs)) (wgss d gs) Pk Pn HW.
    intros a b c e w Pc Pe Hw0 E. replace (a / c / (w / e) * (w / e) * c) with a in E by (field; auto).
    replace (b / c / (w / e) * (w / e) * c) with b in E by (field; auto). exact E.
  - intros ->. reflexivity.
Qed.
Print Assumptions C73_agree_iff.

(** ** Neither a lower nor an upper bound *)
Definition low_data : list (point * Z) := [([0], 0%Z); ([2], 0%Z); ([4], 1%Z)].
Definition high_data : list (point * Z) := [([0], 0%Z); ([2], 0%Z); ([0], 1%Z)].
Lemma low_ok : wf 1 low_data /\ valid low_data.
Proof. split; [repeat constructor|]. intros [|[|[|[|i]]]] p; cbn; intros [= <-]; cbn; lia. Qed.
Lemma high_ok : wf 1 high_data /\ valid high_data.
Proof. split; [repeat constructor|]. intros [|[|[|[|i]]]] p; cbn; intros [= <-]; cbn; lia. Qed.
Theorem C73_refuted :
  (wf 1 low_data /\ valid low_data /\
   nth_error (chist_results ch_step iCH_init (fin_data low_data)) 2 = Some (Ok (Fin (3 / 2))) /\
   CH_formula 1 (clusters_of low_data) = 3) /\
  (wf 1 high_data /\ valid high_data /\
   nth_error (chist_results ch_step iCH_init (fin_data high_data)) 2 = Some (Ok (Fin (11 / 18))) /\
   CH_formula 1 (clusters_of high_data) = 1 / 3).
Proof.
  destruct low_ok as [W1 V1]. destruct high_ok as [W2 V2].
  assert (G1 : clusters_of low_data = [[[0]]; [[2]; [4]]]) by reflexivity.
  assert (G2 : clusters_of high_data = [[[0]]; [[2]; [0]]]) by reflexivity.
  split; (split; [assumption|split; [assumption|split]]).
  - rewrite (C73_value 1 low_data 2 W1 V1) by (cbn; lia). change (firstn 3 low_data) with low_data.
    assert (ES : stale_bgss 1 low_data = 3).
    { unfold stale_bgss. rewrite G1. cbn [length seq map]. unfold stale. rewrite G1. unfold dist2, centroid. cbn. field. }
    assert (EW : wgss 1 (clusters_of low_data) = 2).
    { rewrite G1. unfold wgss, scatter, dist2, centroid. cbn. field. }
    rewrite ES, EW, G1. cbn [length low_data Nat.ltb Nat.leb andb Nat.sub]. cbn [INR xdiv].
    destruct (Req_EM_T (2 / 1) 0); [lra|]. do 3 f_equal. field.
  - rewrite G1. unfold CH_formula, nclus, nsamp, bgss, wgss, scatter, dist2, centroid. cbn. field.
  - rewrite (C73_value 1 high_data 2 W2 V2) by (cbn; lia). change (firstn 3 high_data) with high_data.
    assert (ES : stale_bgss 1 high_data = 11 / 9).
    { unfold stale_bgss. rewrite G2. cbn [length seq map]. unfold stale. rewrite G2. unfold dist2, centroid. cbn. field. }
    assert (EW : wgss 1 (clusters_of high_data) = 2).
    { rewrite G2. unfold wgss, scatter, dist2, centroid. cbn. field. }
    rewrite ES, EW, G2. cbn [length high_data Nat.ltb Nat.leb andb Nat.sub]. cbn [INR xdiv].
    destruct (Req_EM_T (2 / 1) 0); [lra|]. do 3 f_equal. field.
  - rewrite G2. unfold CH_formula, nclus, nsamp, bgss, wgss, scatter, dist2, centroid. cbn. field.
Qed.
Print Assumptions C73_refuted.

(** ** A stream on which it is right: 0 and 2 open two clusters, 1 joins the second *)
Example C73_example :
  let s := [([0], 0%Z); ([2], 0%Z); ([1], 1%Z)] : list (point * Z) in
  wf 1 s /\ valid s /\ wgss 1 (clusters_of s) = 1 / 2 /\ stale_bgss 1 s = bgss 1 (clusters_of s) /\
  nth_error (chist_results ch_step iCH_init (fin_data s)) 2 = Some (Ok (Fin 3)).
Proof.
  intros s. assert (W : wf 1 s) by repeat constructor.
  assert (V : valid s) by (intros [|[|[|[|i]]]] p; cbn; intros [= <-]; cbn; lia).
  assert (G : clusters_of s = [[[0]]; [[2]; [1]]]) by reflexivity.
  assert (EW : wgss 1 (clusters_of s) = 1 / 2).
  { rewrite G. unfold wgss, scatter, dist2, centroid. cbn. field. }
  assert (EB : stale_bgss 1 s = bgss 1 (clusters_of s)).
  { unfold stale_bgss. rewrite G. cbn [length seq map]. unfold stale. rewrite G. unfold bgss, dist2, centroid. cbn. field. }
  split; auto. split; auto. split; auto. split; auto.
  pose proof (C73_agree_iff 1 s 2 W V) as H. cbv zeta in H. change (firstn 3 s) with s in H.
  rewrite (proj2 (H ltac:(cbn; lia) ltac:(rewrite G; cbn; lia) ltac:(rewrite EW; lra)) EB).
  do 3 f_equal. rewrite G. unfold CH_formula, nclus, nsamp, bgss, wgss, scatter, dist2, centroid. cbn. field.
Qed.
