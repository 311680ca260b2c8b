(** * C70: how far rounding moves the value of cSIL for a batch *)
From Coq Require Import ZArith Lia Lra SpecFloat List Arith Reals Permutation.
From Flocq Require Import Core.
From Verif Require Import Num NumPy Base GetCvi Lists Step StepB Eval Stream Shapes Generic RunForm BatchForm ValForm PSForm F64 F64o Rnd RndErr RndMean RndSum RndCl RndCP RndCP3 RndOps RndVal RndCH RndSel RndVal2 RndRun RndRun2 RndPS RndRunPS RndSil Spec RGeom XPerm XBatch XEval P_Calls P_Round P_RoundCP P_RoundV P_RoundV2 P_Bounds64.

Import ListNotations.
Local Open Scope R_scope.
Local Notation R := Rdefinitions.R.
Local Notation within := P_Round.within.

(** ** The specification *)
(** [l] is the rounding level (P_RoundV.v), [separation] the smallest squared
    distance of two centroids (P_RoundV2.v) *)
Definition cSIL_above (l : R) (d : nat) (gs : list (list point)) : Prop := 4 * l <= separation d gs.
Definition cSIL_allowed (l : R) (d : nat) (gs : list (list point)) : R := 3 * (l / separation d gs).

Lemma cSIL_formula_perm d gs gs' : Permutation gs gs' -> cSIL_formula d gs = cSIL_formula d gs'.
Proof.
  intros P. unfold cSIL_formula. rewrite (nclus_perm _ _ P). f_equal. apply rsum_perm.
  apply (selects_perm (fun g r => let a := mdist d g g in let b := rmin (map (mdist d g) r) in (b - a) / Rmax a b)); auto.
  intros x r r' Hr. cbv zeta. now rewrite (rmin_perm _ _ (Permutation_map (mdist d x) Hr)).
Qed.
Lemma near_true L S x r e : near x r e -> e < r -> ftrue (a := F64o L S) x = true.
Proof.
  intros (_ & Fi & He) H. apply Rabs_le_inv in He. destruct x as [[]| | |]; try reflexivity; cbn in He; exfalso; lra.
Qed.

Section SilRun.
  Context (L : Libm) (S : Sums) (HS : any_order S).
  Notation A := (F64o L S).
  Context (b : R) (Hb : lo2 <= b <= hi2 / 2) (d : nat) (Hd : (1 <= Z.of_nat d <= 2 ^ 20)%Z).
  Context (s : list (list f64 * Z)) (Hw : wf_stream (A := A) d s) (Hwi : within b s) (HL : (Z.of_nat (length s) <= 2 ^ 24)%Z) (Hs : s <> []).
  Let gs := bgroups (A := A) s.
  Context (P : Permutation gs (groups s)) (Hgs : (2 <= length gs)%nat).
  Let Hok := perm_ok L S b d s Hw Hwi HL Hs gs P.
  Let Hg := proj1 (proj2 Hok).
  Let HN0 := HN L S b d s Hw Hwi HL Hs gs P.
  Let k := length gs.
  Let m := mkMat (A := A) d (map fst s).
  Let ls := map snd s.
  Lemma sil_k : n_unique ls = k.
  Proof. unfold k, gs, bgroups. rewrite map_length, seq_length. reflexivity. Qed.
  Lemma sil_G i : (i < k)%nat -> nth i gs [] = grp s (Z.of_nat i).
  Proof. intros Hi. unfold gs, bgroups. refine (nth_map_seq _ _ _ _ _). rewrite <- sil_k in Hi. exact Hi. Qed.
  Lemma sil_W i : (i < k)%nat -> at_mean d (b_v m ls i) (nth i gs []) (17 * u * b * INR (length (concat gs))).
  Proof.
    intros Hi. assert (Ii : In (nth i gs []) gs) by (apply nth_In, Hi). destruct (Hg _ Ii) as [Hne HFo].
    pose proof (gs_le L S b d s Hw Hwi HL Hs gs P _ Ii) as Hle.
    assert (Eb : b_v m ls i = mean_rows (A := A) d (nth i gs [])).
    { rewrite (sil_G i Hi). exact (f_equal (mean0 (A := A)) (subset_is (A := A) d s i)). }
    rewrite Eb. assert (El : length (concat gs) = length s) by (exact (proj1 (proj2 (proj2 Hok)))). rewrite El.
    apply (at_mean_s L S b Hb d s Hw Hwi HL Hs gs P); auto.
    pose proof (rows_mean L S HS b Hb d Hd (map (fun x => (x, 0%Z)) (nth i gs []))) as H. rewrite map_length in H.
    apply H; auto. exact (small24 _ _ Hle HL).
  Qed.
  Lemma sil_ent j i : (j < k)%nat ->
    b_sil m ls j i = ddiv (fold_left dadd (map (fun x => s_sum S (map (fun y => dmul y y) (map2 dsub x (map (fun y => dmul y (d_of_Z 1)) (b_v m ls i))))) (nth j gs [])) (d_of_Z 0)) (d_of_Z (Z.of_nat (length (nth j gs [])))).
  Proof.
    intros Hj. unfold b_sil. set (q := fun x : list f64 => s_sum S (map (fun y => dmul y y) (map2 dsub x (map (fun y => dmul y (d_of_Z 1)) (b_v m ls i))))).
    assert (En : b_n m ls j = length (nth j gs [])).
    { rewrite (sil_G j Hj). exact (f_equal (nrows (A := A)) (subset_is (A := A) d s j)). }
    rewrite En. assert (Eq : map (np_sumsq (A := A)) (sub_rows m (b_v m ls i)) = map fst (map (fun p => (q (fst p), snd p)) s)).
    { unfold sub_rows, m. cbn [mrows]. rewrite !map_map. reflexivity. }
    rewrite Eq. assert (El : ls = map snd (map (fun p => (q (fst p), snd p)) s)) by (unfold ls; rewrite map_map; reflexivity).
    assert (Ef : map fst (filter (fun p => Z.eqb (snd p) (Z.of_nat j)) (map (fun p => (q (fst p), snd p)) s)) = map q (nth j gs [])).
    { rewrite (sil_G j Hj). unfold grp. generalize s. intros t. induction t as [|[x l] t IH]; auto. cbn [map filter fst snd].
      destruct (Z.eqb l (Z.of_nat j)); cbn [map fst]; auto. now rewrite IH. }
    refine (f_equal (fun l => ddiv (fold_left dadd l (d_of_Z 0)) (d_of_Z (Z.of_nat (length (nth j gs []))))) _).
    pose proof (select_rows (map (fun p => (q (fst p), snd p)) s) (d_of_Z 0) j) as Hsel. rewrite Ef, <- El in Hsel. exact Hsel.
  Qed.
  Theorem obj_cSIL a : n_clusters a = k -> S2 a = tab2 k k (b_sil m ls) -> 4 * lam b d gs <= sepmin d gs ->
    near (cSIL_val (A := A) a) (cSIL_formula d (map exact gs)) (3 * (lam b d gs / sepmin d gs)).
  Proof.
    intros Ek E2 H4. pose proof (near_cSIL L S HS b Hb d Hd gs Hgs Hg HN0 (b_v m ls) sil_W H4) as H.
    refine (eq_ind _ (fun t => near t _ _) H _ _). unfold cSIL_val. rewrite Ek.
    assert (Ee : forall j i, (j < k)%nat -> (i < k)%nat -> entry (S2 a) j i = b_sil m ls j i) by (intros; rewrite E2; now apply entry_tab2).
    assert (Ha : np_any (S2 a) = true).
    { assert (K2 : (2 <= k)%nat) by exact Hgs. assert (K0 : (0 < length gs)%nat) by (change (0 < k)%nat; lia). assert (K1 : (1 < length gs)%nat) by (change (1 < k)%nat; lia).
      destruct (near_ent L S HS b Hb d Hd gs Hgs Hg HN0 (b_v m ls) sil_W 0%nat 1%nat K0 K1) as [Hn _].
      pose proof (md_far b d gs Hgs Hg 0%nat 1%nat K0 K1 (n_Sn 0)) as Hf.
      rewrite <- sil_ent in Hn by lia.
      unfold np_any. rewrite E2. apply existsb_exists. exists (map (b_sil m ls 1) (seq 0 k)). split.
      - unfold tab2. cbn [mrows]. apply (in_map (fun i => map (b_sil m ls i) (seq 0 k))). apply in_seq. lia.
      - apply existsb_exists. exists (b_sil m ls 1 0). split; [apply in_map, in_seq; lia|].
        eapply near_true; [exact Hn|]. destruct (lam_pre b Hb d Hd gs Hgs Hg HN0) as (_ & _ & _ & _ & _ & _ & _ & _ & L0 & _). lra. }
    rewrite Ha. change (@fdiv A) with ddiv. change (@np_sum A) with (s_sum S). unfold f_of_nat. change (@f_of_Z A) with d_of_Z. f_equal. f_equal.
    apply map_ext_in. intros i Hi. apply in_seq in Hi. cbv zeta. rewrite Ee by lia.
    assert (Ec : remove_nth i (col (S2 a) i) = map (fun j => b_sil m ls j i) (remove_nth i (seq 0 k))).
    { rewrite <- remove_nth_map. f_equal. rewrite E2. unfold col, tab2. cbn [mrows]. rewrite map_map. apply map_ext_in. intros j Hj.
      apply nth_map_seq. lia. }
    rewrite Ec. change (@fsub A) with dsub. change (@fmaximum A) with dmax.
    assert (Em : map (fun j => b_sil m ls j i) (remove_nth i (seq 0 k)) = map (fun j => ddiv (fold_left dadd (map (fun x => s_sum S (map (fun y => dmul y y) (map2 dsub x (map (fun y => dmul y (d_of_Z 1)) (b_v m ls i))))) (nth j gs [])) (d_of_Z 0)) (d_of_Z (Z.of_nat (length (nth j gs []))))) (remove_nth i (seq 0 k))).
    { apply map_ext_in. intros j Hj. apply remove_nth_seq in Hj as [Hj _]. now apply sil_ent. }
    rewrite Em, (sil_ent i i) by lia. reflexivity.
  Qed.
End SilRun.

(** ** One batch with labels 0, 1, ..., k-1 *)
Theorem C70_batch (L : Libm) (S : Sums) (d : nat) (s : list (vec (F64o L S) * Z)) r (b : R) :
  any_order S -> sized d s -> wf_stream d s -> results kcSIL new_obj [batch_of d s] = [Ok r] ->
  moderate b -> within b s ->
  let gs := true_clusters s in
  exact_labels (exact_data s) (length gs) -> (2 <= length gs)%nat -> cSIL_above (level b d s) d gs ->
  close r (cSIL_formula d gs) (cSIL_allowed (level b d s) d gs).
Proof.
  intros HS Hz Hw Hr Hb Hwi gs Hl H2 Ha.
  destruct (batch_value _ _ _ _ Hr) as (Hk & HC & o' & o2 & E1 & E2 & -> & _).
  set (m := mkMat (A := F64o L S) d (map fst s)) in *. set (ls := map snd s) in *.
  assert (Hn : (n_unique ls <= nrows m)%nat).
  { unfold nrows, m. cbn [mrows]. rewrite map_length. exact (count_le s). }
  destruct (cSIL_batch m ls HC Hn) as (o1 & E3 & HB & _ & _ & _ & HS2). cbn [param_batch] in E1. rewrite E3 in E1. injection E1 as <-.
  pose proof (bc_k _ _ _ HB) as Ek.
  destruct (cSIL_eval o1) as (o3 & E4 & E5 & _).
  { rewrite Ek. exact Hk. }
  { rewrite Ek, HS2. apply wfm_tab2. }
  rewrite E4 in E2. injection E2 as <-. rewrite E5. clear E4 E5 E3 Hr.
  destruct (exact_labels_upto s _ Hl) as [Hl' El]. assert (Hs : s <> []) by (exact (s_ne s H2)). pose proof (moderate_lo2 b Hb) as Hb'.
  pose proof (bgroups_perm L S d s Hl') as P.
  destruct (perm_ok L S b d s Hw Hwi (proj2 Hz) Hs _ P) as (G1 & G2 & G3 & G4 & G5 & G6).
  set (hs := bgroups (A := F64o L S) s) in *.
  assert (K2 : (2 <= length hs)%nat) by (exact (eq_ind_r (fun t => (2 <= t)%nat) H2 G6)).
  assert (Elv : lam b d hs = level b d s) by (unfold lam, level, u; rewrite G3; ring).
  assert (Es : sepmin d hs = separation d gs) by (exact (separation_perm d _ _ G5)).
  assert (En : n_unique ls = length hs) by (exact (sil_k L S s)).
  assert (H := obj_cSIL L S HS b Hb' d (proj1 Hz) s Hw Hwi (proj2 Hz) Hs P K2 o1).
  rewrite En in Ek, HS2. specialize (H Ek HS2). fold hs in H. rewrite Elv, Es in H.
  destruct (H Ha) as (_ & Hf & He). split; [exact Hf|].
  change (Rabs (rv (cSIL_val o1) - cSIL_formula d (clusters (exact_data s))) <= cSIL_allowed (level b d s) d gs).
  rewrite <- (cSIL_formula_perm d _ _ G5). exact He.
Qed.
Print Assumptions C70_batch.

(** For 0, 0, 5 | 10 the true value is 24/25; the batch returns it up to 2^-38. *)
Example C70_example (L : Libm) :
  let s := thirds L in let gs := true_clusters s in
  sized 1 s /\ wf_stream 1 s /\ moderate 16 /\ within 16 s /\ (2 <= length gs)%nat /\ exact_labels (exact_data s) (length gs) /\
  cSIL_above (level 16 1 s) 1 gs /\ cSIL_formula 1 gs = 24 / 25 /\ cSIL_allowed (level 16 1 s) 1 gs <= / 2 ^ 38 /\
  exists r, results kcSIL new_obj [batch_of 1 s] = [Ok r] /\ close r (24 / 25) (/ 2 ^ 38).
Proof.
  intros s gs.
  assert (Hz : sized 1 s) by (split; cbn; lia). assert (Hw : wf_stream 1 s) by (repeat constructor).
  assert (Hb : moderate 16) by (change 16 with (bpow radix2 4); split; apply bpow_le; lia).
  assert (Hwi : within 16 s) by (exact (thirds_within L)).
  assert (Eg : gs = [[[0]; [0]; [5]]; [[10]]]) by (apply thirds_clusters).
  assert (H2 : (2 <= length gs)%nat) by (rewrite Eg; cbn; lia).
  assert (Hl : exact_labels (exact_data s) (length gs)).
  { rewrite Eg. unfold exact_labels. intros x. cbn. lia. }
  assert (Ecd : cdist 1 [[0]; [0]; [5]] [[10]] = 625 / 9) by (unfold cdist, centroid, dist2; cbn; field).
  assert (Es : separation 1 gs = 625 / 9) by (rewrite Eg; unfold separation; cbn; exact Ecd).
  assert (EF : cSIL_formula 1 gs = 24 / 25).
  { rewrite Eg. unfold cSIL_formula, nclus. cbn [selects map fst snd rmin fold_right Spec.rsum length].
    assert (M1 : mdist 1 [[0]; [0]; [5]] [[0]; [0]; [5]] = 50 / 9) by (unfold mdist, centroid, dist2; cbn; field).
    assert (M2 : mdist 1 [[0]; [0]; [5]] [[10]] = 625 / 9) by (unfold mdist, centroid, dist2; cbn; field).
    assert (M3 : mdist 1 [[10]] [[0]; [0]; [5]] = 75) by (unfold mdist, centroid, dist2; cbn; field).
    assert (M4 : mdist 1 [[10]] [[10]] = 0) by (unfold mdist, centroid, dist2; cbn; field).
    rewrite M1, M2, M3, M4, !Rmax_right by lra. cbn [INR]. field. }
  assert (El : level 16 1 s = 389120 * bpow radix2 (-53)) by (unfold level; cbn [s thirds length INR]; ring).
  change (bpow radix2 (-53)) with (/ 9007199254740992) in El.
  assert (Ha : cSIL_above (level 16 1 s) 1 gs) by (unfold cSIL_above; rewrite Es, El; lra).
  assert (HA : cSIL_allowed (level 16 1 s) 1 gs <= / 2 ^ 38) by (unfold cSIL_allowed; rewrite Es, El; lra).
  repeat (split; [assumption|]).
  assert (Hr : exists r, results kcSIL new_obj [batch_of 1 s] = [Ok r]) by (eexists; vm_compute; reflexivity).
  destruct Hr as [r Hr]. exists r. split; [exact Hr|].
  destruct (C70_batch L left_right 1 s r 16 left_right_order Hz Hw Hr Hb Hwi Hl H2 Ha) as [Hf Hd].
  split; [exact Hf|]. fold gs in Hd. rewrite EF in Hd. lra.
Qed.

(** The condition is needed: for 2^52 | 2^52, 2^52+1 the true value is 1/2 and
    the batch returns 0. *)
Theorem C70_needs_separation (L : Libm) :
  let s := close_by L in let gs := true_clusters s in
  sized 1 s /\ wf_stream 1 s /\ exact_labels (exact_data s) (length gs) /\
  cSIL_formula 1 gs = 1 / 2 /\ results kcSIL new_obj [batch_of 1 s] = [Ok (d_of_Z 0)].
Proof.
  intros s gs.
  assert (Eg : gs = [[[4503599627370496]]; [[4503599627370496]; [4503599627370497]]]).
  { destruct ex_vals as (_ & _ & _ & E1 & E2). unfold gs, s, true_clusters, exact_data, close_by. cbn [map fst snd]. rewrite E1, E2. reflexivity. }
  split; [split; cbn; lia|]. split; [repeat constructor|].
  split. { rewrite Eg. unfold exact_labels. intros x. cbn. lia. }
  split; [|vm_compute; reflexivity].
  rewrite Eg. unfold cSIL_formula, nclus. cbn [selects map fst snd rmin fold_right Spec.rsum length].
  set (g := [[4503599627370496]]). set (h := [[4503599627370496]; [4503599627370497]]).
  assert (M1 : mdist 1 g g = 0) by (unfold g, h, mdist, centroid, dist2; cbn; field).
  assert (M2 : mdist 1 g h = 1 / 2) by (unfold g, h, mdist, centroid, dist2; cbn; field).
  assert (M3 : mdist 1 h g = 1 / 4) by (unfold g, h, mdist, centroid, dist2; cbn; field).
  assert (M4 : mdist 1 h h = 1 / 4) by (unfold g, h, mdist, centroid, dist2; cbn; field).
  rewrite M1, M2, M3, M4, !Rmax_right by lra. cbn [INR]. field.
Qed.
Print Assumptions C70_needs_separation.
