(** * The value of iCH (compat/v0.py) in exact arithmetic: lemmas *)
From Coq Require Import String ZArith List Arith Bool Lia Permutation.
From Verif Require Import Num NumPy Lists Stream Generic Compat CompatL CompatL2 CompatL3 CompatH.
From Coq Require Import Reals Lra.
From Verif Require Import Det Spec XR SpecX RGeom XLift XEval XInc XRun XPerm XBatch CompatX.
Import ListNotations.
Local Notation length := List.length.
Local Open Scope R_scope.
Local Open Scope compat_scope.

(** the groups iCH builds: label 0 opens one, any other label is the index of one *)
Definition ch_groups_step (gs : list (list point)) (p : point * Z) : list (list point) :=
  if (snd p =? 0)%Z then gs ++ [[fst p]] else join (Z.to_nat (snd p)) (fst p) gs.
(** the samples up to the last one labelled [l] *)
Fixpoint until_last (l : Z) (s : data) : data :=
  match s with
  | [] => []
  | p :: s' => match until_last l s' with [] => if (snd p =? l)%Z then [p] else [] | q => p :: q end
  end.
Lemma until_last_same l (s : data) x : until_last l (s ++ [(x, l)]) = s ++ [(x, l)].
Proof. induction s as [|p s IH]; cbn; [now rewrite Z.eqb_refl|]. rewrite IH. destruct s; reflexivity. Qed.
Lemma until_last_other l (s : data) x m : m <> l -> until_last l (s ++ [(x, m)]) = until_last l s.
Proof. intros H. induction s as [|p s IH]; cbn; [now rewrite (proj2 (Z.eqb_neq m l) H)|]. now rewrite IH. Qed.

(** what is stored for group [j] *)
Definition term (d : nat) (s : data) (gs : list (list point)) (j : nat) : R :=
  match until_last (Z.of_nat j) s with
  | [] => 0
  | q => INR (length (nth j gs [])) * dist2 (centroid d (nth j gs [])) (centroid d (map fst q))
  end.
Definition terms (d : nat) (s : data) (gs : list (list point)) : list R := map (term d s gs) (seq 0 (length gs)).

Lemma ch_mean_fin d (s : data) (o : iCH (A := XR)) x : length x = d -> ch_N o = length s ->
  ch_center o = match s with [] => None | _ => Some (fin (centroid d (map fst s))) end ->
  iCH_mean (fin x) o = (set_ch_center (Some (fin (centroid d (map fst s ++ [x])))) (set_ch_N (length s + 1) o), Ok tt).
Proof.
  intros Hx En Em. unfold iCH_mean. sm. cbn [ch_center ch_N set_ch_N]. rewrite En, Em.
  assert (Hn : (length s + 1 <> 0)%nat) by lia. replace (length s + 1 - 1)%nat with (length s) by lia.
  destruct s as [|p s].
  - cbn [length Nat.add map app]. rewrite f_of_nat_fin. do 3 f_equal. f_equal. rewrite centroid_single by auto.
    unfold vdivn, fin. rewrite !map_map. apply map_ext. intros y. rewrite f_of_nat_fin. replace (f0 (A := XR)) with (Fin 0) by reflexivity.
    rewrite fmul_fin, fadd_fin. change (INR 1) with 1. rewrite fdiv_fin by lra. f_equal. simpl. lra.
  - set (q := p :: s) in *. assert (Hq : map fst q <> []) by discriminate. clearbody q.
    rewrite f_of_nat_fin, scal_fin, vadd_ok by (rewrite !fin_length, map_length, centroid_length; auto). rewrite add_fin, vdivn_fin by auto.
    do 4 f_equal. apply (point_ext d); auto using centroid_length.
    { rewrite map_length, length_map2, map_length, centroid_length. lia. }
    intros j Hj. rewrite co_centroid_snoc by auto. unfold co at 1. rewrite map_length.
    rewrite (map_nth' (fun y => y / INR (length q + 1)) _ j 0) by (rewrite length_map2, map_length, centroid_length; lia).
    rewrite nth_map2 with (dx := 0) (dy := 0) by (rewrite ?map_length, ?centroid_length; lia).
    rewrite (map_nth' (Rmult (INR (length q))) _ j 0) by (rewrite centroid_length; lia).
    fold (co j x) (co j (centroid d (map fst q))). rewrite plus_INR. reflexivity.
Qed.


Lemma length_terms d s gs : length (terms d s gs) = length gs.
Proof. unfold terms. now rewrite map_length, seq_length. Qed.
Lemma rsum_upd i v l : (i < length l)%nat -> rsum (upd i v l) = rsum l - nth i l 0 + v.
Proof.
  revert i. induction l as [|a l IH]; intros i Hi; [cbn in Hi; lia|].
  destruct i as [|i]; cbn [upd rsum fold_right nth]; [lra|].
  fold (rsum (upd i v l)) (rsum l). rewrite IH by (cbn in Hi; lia). lra.
Qed.
(** what is stored while the value of the call is not computed yet: [ts] *)
Record CHP (d : nat) (n : nat) (m : point) (ts : list R) (gs : list (list point)) (o : iCH (A := XR)) : Prop := mkCHP {
  cp_0 : ch_clusters o = 0%nat;
  cp_c : ch_centers o = map (fun g => fin (centroid d g)) gs;
  cp_s : ch_sizes o = map (@length point) gs;
  cp_wi : ch_WGSS_i o = map (fun g => Fin (scatter d g)) gs;
  cp_w : ch_WGSS o = Fin (wgss d gs);
  cp_n : ch_N o = n;
  cp_m : ch_center o = Some (fin m);
  cp_gl : len_g d (ch_g o);
  cp_g : g_or d (ch_g o) = zeros d;
  cp_bi : ch_BGSS_i o = fin ts;
  cp_b : ch_BGSS o = Fin (rsum ts)
}.
Lemma ch_place_new d n m ts gs o x : CHP d n m ts gs o -> length x = d ->
  exists o', iCH_place (fin x) 0 o = (o', Ok tt) /\ CHP d n m (ts ++ [0]) (gs ++ [[x]]) o'.
Proof.
  intros [C0 C1 C2 C3 C4 C5 C6 C7 C8 C9 C10] Hx. unfold iCH_place. sm. rewrite C0. cbn [Z.of_nat Z.eqb].
  eexists. split; [reflexivity|].
  constructor; cbn [ch_clusters ch_WGSS_i ch_WGSS ch_BGSS_i ch_BGSS ch_g ch_centers ch_sizes ch_N ch_center set_ch_WGSS_i set_ch_BGSS_i set_ch_centers set_ch_sizes]; auto.
  - rewrite C1, map_app. cbn. now rewrite centroid_single by auto.
  - now rewrite C2, map_app.
  - rewrite C3, map_app. cbn [map]. now rewrite scatter_single by auto.
  - rewrite C4, wgss_snoc, scatter_single by auto. now rewrite Rplus_0_r.
  - rewrite C9. unfold fin. now rewrite map_app.
  - rewrite C10, rsum_app. cbn. f_equal. lra.
Qed.
Lemma ch_place_old d n m ts gs o x i : good d gs -> CHP d n m ts gs o -> length x = d -> (0 < i < length gs)%nat ->
  exists o', iCH_place (fin x) (Z.of_nat i) o = (o', Ok tt) /\ CHP d n m ts (join i x gs) o'.
Proof.
  intros Hg [C0 C1 C2 C3 C4 C5 C6 C7 C8 C9 C10] Hx [Hi0 Hi]. destruct (good_nth d gs i Hg Hi) as [Hw Hne].
  unfold iCH_place. sm. rewrite C0, C2, map_length.
  replace (Z.of_nat i =? Z.of_nat 0)%Z with false by (symmetry; apply Z.eqb_neq; lia).
  replace (Z.of_nat (length gs) <? Z.of_nat i)%Z with false by (symmetry; apply Z.ltb_ge; lia).
  cbn [ch_WGSS_i ch_WGSS ch_g ch_centers ch_sizes set_ch_WGSS].
  rewrite C3, C1.
  rewrite (py_get_nat (map (fun g => Fin (scatter d g)) gs : list (F XR)) i (Fin (scatter d (nth i gs [])))).
  2:{ exact (map_nth_error' (fun g => Fin (scatter d g)) gs i [] Hi). }
  rewrite (py_get_nat (map (fun g => fin (centroid d g)) gs) i (fin (centroid d (nth i gs [])))).
  2:{ exact (map_nth_error' (fun g => fin (centroid d g)) gs i [] Hi). }
  rewrite (py_get_nat (map (@length point) gs) i (length (nth i gs []))).
  2:{ exact (map_nth_error' (@length point) gs i [] Hi). }
  rewrite (CP_update_eq d) by (auto; rewrite fin_length; auto using centroid_length). cbv iota beta.
  rewrite !py_set_nat by (rewrite map_length; lia).
  cbn [ch_WGSS_i ch_WGSS ch_g ch_centers ch_sizes set_ch_WGSS set_ch_WGSS_i set_ch_g set_ch_centers set_ch_sizes].
  rewrite C8, (cu_cp_fin d), (cu_g_fin d), (cu_v_fin d) by auto.
  rewrite (py_get_nat _ i (Fin (scatter d (nth i gs [] ++ [x])) : F XR)).
  2:{ apply nth_error_upd_same. rewrite map_length; lia. }
  eexists. split; [reflexivity|].
  constructor; cbn [ch_clusters ch_WGSS_i ch_WGSS ch_BGSS_i ch_BGSS ch_g ch_centers ch_sizes ch_N ch_center set_ch_WGSS set_ch_WGSS_i set_ch_g set_ch_centers set_ch_sizes len_g g_or]; auto.
  - unfold join. now rewrite map_upd.
  - unfold join. rewrite map_upd, app_length. reflexivity.
  - unfold join. now rewrite map_upd.
  - rewrite C4. unfold join. rewrite wgss_upd by auto. reflexivity.
  - apply length_zeros.
Qed.
Definition ch_out d n (ts : list R) (gs : list (list point)) : xr :=
  if ((1 <? length gs) && (length gs <? n))%nat
  then xdiv (Fin (rsum ts / INR (length gs - 1))) (Fin (wgss d gs / INR (n - length gs))) else Fin 0.
Lemma ch_value d n m ts gs o i : CHP d n m ts gs o -> length m = d -> length ts = length gs -> (i < length gs)%nat ->
  let ts' := upd i (INR (length (nth i gs [])) * dist2 (centroid d (nth i gs [])) m) ts in
  exists o', iCH_value (Z.of_nat i) o = (o', Ok (ch_out d n ts' gs)) /\ CHP d n m ts' gs o'.
Proof.
  intros [C0 C1 C2 C3 C4 C5 C6 C7 C8 C9 C10] Hm Hts Hi ts'. unfold iCH_value. sm.
  cbn [ch_BGSS_i ch_BGSS ch_sizes ch_centers ch_center set_ch_BGSS]. rewrite C9, C2, C1, C6.
  rewrite (py_get_nat (fin ts : list (F XR)) i (Fin (nth i ts 0))).
  2:{ apply (map_nth_error' Fin ts i 0). lia. }
  rewrite (py_get_nat (map (@length point) gs) i (length (nth i gs []))).
  2:{ exact (map_nth_error' (@length point) gs i [] Hi). }
  rewrite (py_get_nat (map (fun g => fin (centroid d g)) gs) i (fin (centroid d (nth i gs [])))).
  2:{ exact (map_nth_error' (fun g => fin (centroid d g)) gs i [] Hi). }
  rewrite vsub_ok by (rewrite !fin_length, centroid_length; auto). rewrite norm22_sub, f_of_nat_fin, fmul_fin.
  rewrite py_set_nat by (rewrite fin_length; lia).
  cbn [ch_BGSS_i ch_BGSS ch_sizes ch_centers ch_center ch_WGSS ch_N set_ch_BGSS set_ch_BGSS_i].
  rewrite (py_get_nat _ i (Fin (INR (length (nth i gs [])) * dist2 (centroid d (nth i gs [])) m) : F XR)).
  2:{ apply nth_error_upd_same. rewrite fin_length; lia. }
  cbn [ch_BGSS_i ch_BGSS ch_sizes ch_centers ch_center ch_WGSS ch_N ch_output set_ch_BGSS set_ch_BGSS_i set_ch_output].
  rewrite C1, C4, C5, C10, map_length. rewrite fsub_fin, fadd_fin, !f_of_nat_fin.
  assert (E : rsum ts - nth i ts 0 + INR (length (nth i gs [])) * dist2 (centroid d (nth i gs [])) m = rsum ts').
  { unfold ts'. now rewrite rsum_upd by lia. }
  rewrite E. eexists. split.
  - f_equal. f_equal. unfold ch_out. destruct (Nat.ltb_spec 1 (length gs)) as [H1|]; [|reflexivity].
    destruct (Nat.ltb_spec (length gs) n) as [H2|]; [|reflexivity]. cbn [andb].
    rewrite !fdiv_fin by (apply not_0_INR; lia). reflexivity.
  - constructor; cbn [ch_clusters ch_BGSS_i ch_BGSS ch_sizes ch_centers ch_center ch_WGSS ch_WGSS_i ch_N ch_g ch_output set_ch_BGSS set_ch_BGSS_i set_ch_output]; auto.
    unfold ts', fin. now rewrite map_upd.
Qed.

(** ** One call *)
Lemma nth_upd_same {X} i (x : X) l z : (i < length l)%nat -> nth i (upd i x l) z = x.
Proof. intros H. rewrite nth_upd by auto. now rewrite Nat.eqb_refl. Qed.
Lemma nth_upd_other {X} i j (x : X) l z : (i < length l)%nat -> j <> i -> nth j (upd i x l) z = nth j l z.
Proof. intros Hi H. rewrite nth_upd by auto. now rewrite (proj2 (Nat.eqb_neq _ _)) by auto. Qed.
Definition built (s : data) : list (list point) := fold_left ch_groups_step s [].
(** clusters opened so far: one per sample labelled 0 *)
Definition opened (s : data) : nat := count_occ Z.eq_dec (labels s) 0%Z.
Definition accepted (s : data) : Prop :=
  forall i p, nth_error s i = Some p -> (0 <= snd p < Z.max 1 (Z.of_nat (opened (firstn i s))))%Z.
Lemma accepted_snoc s x l : accepted (s ++ [(x, l)]) -> accepted s /\ (0 <= l < Z.max 1 (Z.of_nat (opened s)))%Z.
Proof.
  intros H. split.
  - intros i p Hp. assert (Hi : (i < length s)%nat) by (apply nth_error_Some; congruence).
    specialize (H i p). rewrite nth_error_app1, firstn_app in H by lia.
    replace (i - length s)%nat with 0%nat in H by lia. rewrite firstn_O, app_nil_r in H. auto.
  - specialize (H (length s) (x, l)). rewrite nth_error_app2, Nat.sub_diag in H by lia. specialize (H eq_refl).
    now rewrite firstn_app, Nat.sub_diag, firstn_O, app_nil_r, firstn_all in H.
Qed.
Lemma built_snoc s p : built (s ++ [p]) = ch_groups_step (built s) p.
Proof. unfold built. now rewrite fold_left_app. Qed.
Lemma built_length s : length (built s) = opened s.
Proof.
  induction s as [|[x l] s IH] using rev_ind; [reflexivity|].
  rewrite built_snoc. unfold opened, labels in *. rewrite map_app, count_occ_app. cbn [map snd count_occ].
  unfold ch_groups_step. cbn [snd fst]. destruct (Z.eqb_spec l 0) as [->|Hl].
  - rewrite app_length, IH. reflexivity.
  - rewrite join_length, IH. destruct (Z.eq_dec l 0); [contradiction|lia].
Qed.
Lemma opened_firstn i s : (opened (firstn i s) <= opened s)%nat.
Proof. unfold opened. rewrite <- (firstn_skipn i s) at 2. unfold labels. rewrite map_app, count_occ_app. lia. Qed.
Lemma built_good d s : wf d s -> accepted s -> good d (built s).
Proof.
  induction s as [|[x l] s IH] using rev_ind; intros Hw Ha; [split; constructor|].
  destruct (wf_app _ _ _ Hw) as [Hw1 Hw2]. apply accepted_snoc in Ha as [Ha Hl].
  assert (Hx : length x = d) by (inversion Hw2; auto). specialize (IH Hw1 Ha).
  rewrite built_snoc. unfold ch_groups_step. cbn [fst snd]. destruct (Z.eqb_spec l 0) as [->|Hn].
  - now apply good_new.
  - apply good_join; auto. rewrite built_length. lia.
Qed.
Lemma until_last_none l (s : data) : (forall p, In p s -> snd p <> l) -> until_last l s = [].
Proof.
  induction s as [|p s IH]; intros H; [reflexivity|]. cbn. rewrite IH by (intros q Hq; apply H; now right).
  now rewrite (proj2 (Z.eqb_neq _ _) (H p (or_introl eq_refl))).
Qed.
Lemma accepted_In s p : accepted s -> In p s -> (snd p < Z.max 1 (Z.of_nat (length (built s))))%Z.
Proof.
  intros H Hp. apply In_nth_error in Hp as [i Hi]. specialize (H i p Hi). rewrite built_length.
  pose proof (opened_firstn i s). lia.
Qed.
Lemma terms_new d (s : data) x : accepted s ->
  terms d (s ++ [(x, 0%Z)]) (built s ++ [[x]]) =
  upd 0 (INR (length (nth 0 (built s ++ [[x]]) [])) * dist2 (centroid d (nth 0 (built s ++ [[x]]) [])) (centroid d (map fst s ++ [x])))
    (terms d s (built s) ++ [0]).
Proof.
  intros Ha. set (gs := built s) in *. apply nth_ext with 0 0.
  { rewrite length_upd, !length_terms, app_length, app_length, length_terms. reflexivity. }
  intros j Hj. rewrite length_terms, app_length in Hj. cbn in Hj. unfold terms at 1.
  rewrite (map_nth' _ _ j 0%nat) by (rewrite seq_length, app_length; cbn; lia). rewrite seq_nth by (rewrite app_length; cbn; lia).
  cbn [Nat.add]. destruct j as [|j].
  - rewrite nth_upd_same by (rewrite app_length, length_terms; cbn; lia). unfold term. cbn [Z.of_nat].
    rewrite until_last_same. replace (map fst s ++ [x]) with (map fst (s ++ [(x, 0%Z)])) by (now rewrite map_app). destruct s; reflexivity.
  - rewrite nth_upd_other by (rewrite ?app_length, ?length_terms; cbn; lia). unfold term. rewrite until_last_other by lia.
    destruct (Nat.eq_dec (S j) (length gs)) as [E|E].
    + rewrite until_last_none by (intros p Hp; pose proof (accepted_In s p Ha Hp); unfold gs in E; lia).
      cbv iota. rewrite E, app_nth2 by (rewrite length_terms; lia). now rewrite length_terms, Nat.sub_diag.
    + rewrite !app_nth1 by (rewrite ?length_terms; lia).
      unfold terms. rewrite (map_nth' _ _ (S j) 0%nat) by (rewrite seq_length; lia). rewrite seq_nth by lia. reflexivity.
Qed.
Lemma terms_old d (s : data) x i gs : (0 < i < length gs)%nat ->
  terms d (s ++ [(x, Z.of_nat i)]) (join i x gs) =
  upd i (INR (length (nth i (join i x gs) [])) * dist2 (centroid d (nth i (join i x gs) [])) (centroid d (map fst s ++ [x])))
    (terms d s gs).
Proof.
  intros Hi. apply nth_ext with 0 0.
  { now rewrite length_upd, !length_terms, join_length. }
  intros j Hj. rewrite length_terms, join_length in Hj. unfold terms at 1.
  rewrite (map_nth' _ _ j 0%nat) by (rewrite seq_length, join_length; lia). rewrite seq_nth by (rewrite join_length; lia).
  cbn [Nat.add]. destruct (Nat.eq_dec j i) as [->|Hn].
  - rewrite nth_upd_same by (rewrite length_terms; lia). unfold term.
    rewrite until_last_same. replace (map fst s ++ [x]) with (map fst (s ++ [(x, Z.of_nat i)])) by (now rewrite map_app). destruct s; reflexivity.
  - rewrite nth_upd_other by (rewrite ?length_terms; lia). unfold term. rewrite until_last_other by lia.
    unfold join. rewrite nth_upd_other by lia. unfold terms. rewrite (map_nth' _ _ j 0%nat) by (rewrite seq_length; lia).
    rewrite seq_nth by lia. reflexivity.
Qed.
Definition CHI d (s : data) (o : iCH (A := XR)) : Prop :=
  (s = [] /\ o = iCH_init) \/ (s <> [] /\ CHP d (length s) (centroid d (map fst s)) (terms d s (built s)) (built s) o).
Lemma ch_step_ok d (s : data) x l o : wf d (s ++ [(x, l)]) -> accepted (s ++ [(x, l)]) -> CHI d s o ->
  let s' := s ++ [(x, l)] in
  exists o', ch_step (fin x, l) o = (o', Ok (ch_out d (length s') (terms d s' (built s')) (built s'))) /\ CHI d s' o'.
Proof.
  intros Hw Ha HI s'. destruct (wf_app _ _ _ Hw) as [Hw1 Hw2]. pose proof Ha as Ha0. apply accepted_snoc in Ha as [Ha Hl].
  assert (Hx : length x = d) by (inversion Hw2; auto). pose proof (built_good d s Hw1 Ha) as Hg.
  assert (Hm : iCH_mean (fin x) o = (set_ch_center (Some (fin (centroid d (map fst s ++ [x])))) (set_ch_N (length s + 1) o), Ok tt)).
  { destruct HI as [[-> ->]|[Hne HI]]; [now apply (ch_mean_fin d [])|]. destruct HI. apply ch_mean_fin; auto. destruct s; [contradiction|auto]. }
  set (o1 := set_ch_center _ _) in Hm.
  assert (H1 : CHP d (length s + 1) (centroid d (map fst s ++ [x])) (terms d s (built s)) (built s) o1).
  { destruct HI as [[-> ->]|[Hne HI]].
    - constructor; cbn; auto.
    - destruct HI. constructor; cbn [o1 ch_clusters ch_BGSS_i ch_BGSS ch_sizes ch_centers ch_center ch_WGSS ch_WGSS_i ch_N ch_g set_ch_center set_ch_N]; auto. }
  clearbody o1. unfold ch_step, iCH_update. cbn [fst snd]. rewrite (sbind_eq _ _ _ _ _ Hm).
  assert (Lm : length (centroid d (map fst s ++ [x])) = d) by apply centroid_length.
  assert (Em : map fst s ++ [x] = map fst s') by (unfold s'; now rewrite map_app).
  assert (En : (length s + 1)%nat = length s') by (unfold s'; now rewrite app_length).
  assert (Hs' : s' <> []) by (unfold s'; now destruct s).
  unfold CHI. destruct (Z.eq_dec l 0) as [->|Hl0].
  - destruct (ch_place_new d _ _ _ _ o1 x H1 Hx) as (o2 & E2 & H2). rewrite (sbind_eq _ _ _ _ _ E2).
    destruct (ch_value d _ _ _ _ o2 0 H2 Lm) as (o3 & E3 & H3).
    + rewrite !app_length, length_terms. reflexivity.
    + rewrite app_length. cbn. lia.
    + change (Z.of_nat 0) with 0%Z in E3. rewrite <- terms_new in E3, H3 by auto.
      change (built s ++ [[x]]) with (ch_groups_step (built s) (x, 0%Z)) in E3, H3. rewrite <- !built_snoc, En in E3, H3. fold s' in E3, H3. rewrite Em in H3. fold s' in E3, H3. exists o3. split; [exact E3|right; split; [exact Hs'|exact H3]].
  - set (i := Z.to_nat l). assert (Hi : (0 < i < length (built s))%nat) by (unfold i; rewrite built_length; lia).
    assert (El : l = Z.of_nat i) by (unfold i; lia). clearbody i. subst l.
    destruct (ch_place_old d _ _ _ _ o1 x i Hg H1 Hx Hi) as (o2 & E2 & H2). rewrite (sbind_eq _ _ _ _ _ E2).
    destruct (ch_value d _ _ _ _ o2 i H2 Lm) as (o3 & E3 & H3).
    + rewrite length_terms, join_length. reflexivity.
    + rewrite join_length. lia.
    + rewrite <- terms_old in E3, H3 by auto.
      assert (Eb : join i x (built s) = built s').
      { unfold s'. rewrite built_snoc. unfold ch_groups_step. cbn [fst snd]. rewrite (proj2 (Z.eqb_neq _ _) Hl0).
        now rewrite Nat2Z.id. }
      rewrite !Eb, En in E3, H3. rewrite Em in H3. fold s' in E3, H3. exists o3. split; [exact E3|right; split; [exact Hs'|exact H3]].
Qed.
Theorem ch_stream d (s : data) : wf d s -> accepted s ->
  CHI d s (chist_after ch_step iCH_init (fin_data s)) /\
  forall i, (i < length s)%nat -> let p := firstn (S i) s in
    nth_error (chist_results ch_step iCH_init (fin_data s)) i = Some (Ok (ch_out d (length p) (terms d p (built p)) (built p))).
Proof.
  induction s as [|[x l] s IH] using rev_ind; intros Hw Ha.
  - split; [|intros i Hi; cbn in Hi; lia]. left. auto.
  - destruct (wf_app _ _ _ Hw) as [Hw1 Hw2]. destruct (accepted_snoc _ _ _ Ha) as [Ha1 _].
    destruct (IH Hw1 Ha1) as [HS HV]. clear IH.
    destruct (ch_step_ok d s x l _ Hw Ha HS) as (o' & E & H1).
    rewrite fin_data_app. cbn [fin_data map fst snd]. split.
    + rewrite chist_after_snoc, E. exact H1.
    + intros i Hi. set (p := firstn (S i) (s ++ [(x, l)])) in *. clear H1. rewrite app_length in Hi. cbn in Hi. rewrite chist_results_snoc, E. cbn [snd].
      destruct (Nat.eq_dec i (length s)) as [->|Hne].
      * unfold p. rewrite firstn_all2 by (rewrite app_length; cbn; lia).
        rewrite nth_error_app2 by (rewrite chist_results_length, fin_data_length; lia).
        now rewrite chist_results_length, fin_data_length, Nat.sub_diag.
      * assert (Ep : p = firstn (S i) s).
        { unfold p. rewrite firstn_app. replace (S i - length s)%nat with 0%nat by lia. now rewrite firstn_O, app_nil_r. }
        rewrite Ep. rewrite nth_error_app1 by (rewrite chist_results_length, fin_data_length; lia). apply HV. lia.
Qed.
