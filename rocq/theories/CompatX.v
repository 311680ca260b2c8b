(** * The classes of compat/v0.py in exact arithmetic: lemmas. *)
From Coq Require Import String ZArith List Arith Bool Lia Permutation.
From Verif Require Import Num NumPy Lists Stream Generic Compat CompatL CompatL2.
From Coq Require Import Reals Lra.
From Verif Require Import Det Spec XR SpecX RGeom XLift XEval XInc XRun XPerm XBatch.
Import ListNotations.
Local Notation length := List.length.
Local Open Scope R_scope.
Local Open Scope compat_scope.

Lemma map_nth' {X Y} (f : X -> Y) l i dx dy : (i < length l)%nat -> nth i (map f l) dy = f (nth i l dx).
Proof. intros H. rewrite nth_indep with (d' := f dx) by now rewrite map_length. apply map_nth. Qed.
Lemma map_nth_error' {X Y} (f : X -> Y) l i dx : (i < length l)%nat -> nth_error (map f l) i = Some (f (nth i l dx)).
Proof. intros H. apply map_nth_error. now apply nth_error_nth'. Qed.
Lemma nth_error_upd_same {X} (l : list X) i x : (i < length l)%nat -> nth_error (upd i x l) i = Some x.
Proof. revert i. induction l as [|a l IH]; intros [|i] H; cbn in *; auto; try lia. apply IH. lia. Qed.
Lemma sbind_eq {S X Y} (m : SM S X) (k : X -> SM S Y) s s' x : m s = (s', Ok x) -> sbind m k s = k x s'.
Proof. unfold sbind. now intros ->. Qed.
Lemma xpow2 x : 0 <= x -> xpow (Fin x) (Fin 2) = Fin (x * x).
Proof.
  intros H. cbn [xpow]. destruct (Rlt_dec 0 x) as [Hp|Hn].
  - f_equal. replace 2 with (INR 2) by (simpl; lra). rewrite Rpower_pow by auto. simpl. ring.
  - assert (x = 0) by lra. subst. destruct (Req_EM_T 0 0) as [_|]; [|lra]. destruct (Rlt_dec 0 2); [|lra]. f_equal. ring.
Qed.
Lemma rdot_nonneg a : 0 <= rdot a a.
Proof.
  unfold rdot. apply rsum_nonneg. induction a as [|x a IH]; cbn; constructor; auto. apply Rle_0_sqr.
Qed.
Lemma powi2_fin x : 0 <= x -> powi (A := XR) (Fin x) 2 = Fin (x * x).
Proof. intros H. unfold powi. rewrite f_of_nat_fin. replace (INR 2) with 2 by (simpl; lra). now apply xpow2. Qed.
Lemma norm22_fin a : norm22 (A := XR) (fin a) = Fin (rdot a a).
Proof.
  unfold norm22, norm_2. rewrite np_dot_fin, fsqrt_fin by apply rdot_nonneg. rewrite powi2_fin by apply sqrt_pos.
  f_equal. apply sqrt_def, rdot_nonneg.
Qed.
Lemma norm22_sub x y : norm22 (A := XR) (map2 fsub (fin x) (fin y)) = Fin (dist2 x y).
Proof. now rewrite sub_fin, norm22_fin, rdot_sub. Qed.
Lemma norm_sub_pow x y : powi (A := XR) (norm 2 (map2 fsub (fin x) (fin y))) 2 = Fin (dist2 x y).
Proof. apply norm22_sub. Qed.

Lemma vdivn_fin a n : (n <> 0)%nat -> vdivn (A := XR) (fin a) n = fin (map (fun y => y / INR n) a).
Proof.
  intros Hn. unfold vdivn, fin. rewrite !map_map. apply map_ext. intros y. rewrite f_of_nat_fin. apply fdiv_fin.
  now apply not_0_INR.
Qed.
Lemma cu_v_fin d g x : g <> [] -> length x = d ->
  cu_v (A := XR) (fin x) (fin (centroid d g)) (length g) = fin (centroid d (g ++ [x])).
Proof.
  intros Hg Hx. unfold cu_v. rewrite sub_fin, vdivn_fin by lia. rewrite add_fin. f_equal.
  pose proof (centroid_length d g) as Lc. pose proof (INR_pos g Hg).
  apply (point_ext d); auto using centroid_length.
  { rewrite length_map2, map_length, length_map2. lia. }
  intros j Hj. rewrite co_centroid_snoc by auto. unfold co at 1.
  rewrite nth_map2 with (dx := 0) (dy := 0) by (rewrite ?map_length, ?length_map2; lia).
  rewrite (map_nth' (fun y => y / INR (length g + 1)) _ j 0) by (rewrite length_map2; lia). rewrite nth_map2 with (dx := 0) (dy := 0) by lia.
  unfold co. rewrite plus_INR. simpl (INR 1). field. lra.
Qed.
Lemma cu_g_fin d g x : g <> [] -> length x = d ->
  cu_g (A := XR) (fin x) (fin (centroid d g)) (zeros d) (length g) = zeros d.
Proof.
  intros Hg Hx. unfold cu_g. rewrite (cu_v_fin d) by auto. rewrite zeros_fin, !sub_fin, f_of_nat_fin, scal_fin, !add_fin. f_equal.
  pose proof (centroid_length d g) as Lc. pose proof (centroid_length d (g ++ [x])) as Lc'. pose proof (INR_pos g Hg).
  apply (point_ext d).
  { rewrite !length_map2, map_length, length_map2, repeat_length. lia. }
  { apply repeat_length. }
  intros j Hj. unfold co. rewrite nth_repeat.
  rewrite nth_map2 with (dx := 0) (dy := 0) by (rewrite ?map_length, ?length_map2, ?repeat_length; lia).
  rewrite nth_map2 with (dx := 0) (dy := 0) by (rewrite ?map_length, ?length_map2, ?repeat_length; lia).
  rewrite nth_map2 with (dx := 0) (dy := 0) by lia. rewrite nth_repeat.
  rewrite (map_nth' (Rmult (INR (length g))) _ j 0) by (rewrite length_map2; lia). rewrite nth_map2 with (dx := 0) (dy := 0) by lia.
  fold (co j x) (co j (centroid d g)) (co j (centroid d (g ++ [x]))). rewrite co_centroid_snoc by auto. field. lra.
Qed.
Lemma cu_cp_fin d g x : g <> [] -> wfg d g -> length x = d ->
  cu_cp (A := XR) (fin x) (fin (centroid d g)) (zeros d) (length g) (Fin (scatter d g)) 2 2 = Fin (scatter d (g ++ [x])).
Proof.
  intros Hg Hw Hx. unfold cu_cp. rewrite (cu_v_fin d) by auto. rewrite !norm_sub_pow.
  rewrite zeros_fin, sub_fin, np_dot_fin, rdot_zero, f2_fin, fmul_fin, Rmult_0_r, fsqrt_fin by lra.
  rewrite sqrt_0, powi2_fin by lra. rewrite f_of_nat_fin, fmul_fin, !fadd_fin. f_equal.
  rewrite (scatter_snoc d g x) by auto. ring.
Qed.

(** ** Smallest element of a set of reals, +inf if it is empty *)
Definition Low (D : R -> Prop) (m : xr) : Prop :=
  (m = PInf /\ forall r, ~ D r) \/ (exists r, m = Fin r /\ D r /\ forall r', D r' -> r <= r').
Lemma Low_ext (D D' : R -> Prop) m : (forall r, D r <-> D' r) -> Low D m -> Low D' m.
Proof.
  intros H [[-> Hn]|(r & -> & Hr & Hl)]; [left; split; auto; intros r Hr; apply (Hn r), H, Hr|right].
  exists r. split; auto. split; [now apply H|]. intros r' Hr'. apply Hl, H, Hr'.
Qed.
Lemma Low_min (D D' : R -> Prop) a b : Low D a -> Low D' b -> Low (fun r => D r \/ D' r) (py_min2 (A := XR) a b).
Proof.
  intros [[-> Hn]|(r & -> & Hr & Hl)] [[-> Hn']|(r' & -> & Hr' & Hl')]; unfold py_min2; cbn.
  - left. split; auto. intros r [H|H]; firstorder.
  - right. exists r'. split; auto. split; auto. intros q [H|H]; [destruct (Hn q H)|auto].
  - right. exists r. split; auto. split; auto. intros q [H|H]; [auto|destruct (Hn' q H)].
  - destruct (Rle_dec r r') as [H|H]; cbn.
    + right. exists r. split; auto. split; auto. intros q [Hq|Hq]; auto. specialize (Hl' q Hq). lra.
    + right. exists r'. split; auto. split; auto. intros q [Hq|Hq]; auto. specialize (Hl q Hq). lra.
Qed.
Lemma Low_xmin (D : R -> Prop) a r0 : Low D a -> Low (fun r => D r \/ r = r0) (xmin a (Fin r0)).
Proof.
  intros [[-> Hn]|(r & -> & Hr & Hl)]; cbn.
  - right. exists r0. split; auto. split; auto. intros q [H| ->]; [destruct (Hn q H)|lra].
  - destruct (Rle_dec r r0) as [H|H].
    + right. exists r. split; auto. split; auto. intros q [Hq| ->]; auto.
    + right. exists r0. split; auto. split; auto. intros q [Hq| ->]; [|lra]. specialize (Hl q Hq). lra.
Qed.

(** ** iXB *)
Record XBI (d : nat) (gs : list (list point)) (n : nat) (m : xr) (o : iXB (A := XR)) : Prop := mkXBI {
  xi_c : xb_centers o = map (fun g => fin (centroid d g)) gs;
  xi_s : xb_sizes o = map (@length point) gs;
  xi_wi : xb_WGSS_i o = map (fun g => Fin (scatter d g)) gs;
  xi_w : xb_WGSS o = Fin (wgss d gs);
  xi_n : xb_N o = n;
  xi_gl : len_g d (xb_g o);
  xi_g : g_or d (xb_g o) = zeros d;
  xi_ml : length (xb_min_v_i o) = length gs;
  xi_m : xb_min_v o = m
}.
Lemma XBI_init d : XBI d [] 0 PInf iXB_init.
Proof. constructor; cbn; auto. Qed.


Lemma wgss_upd d gs i g : (i < length gs)%nat ->
  wgss d (upd i g gs) = wgss d gs - scatter d (nth i gs []) + scatter d g.
Proof.
  unfold wgss. revert i. induction gs as [|h gs IH]; intros i Hi; [cbn in Hi; lia|].
  destruct i as [|i]; cbn [upd map rsum fold_right nth]; [lra|].
  fold (rsum (map (scatter d) (upd i g gs))) (rsum (map (scatter d) gs)). rewrite IH by (cbn in Hi; lia). lra.
Qed.
Lemma wgss_snoc d gs g : wgss d (gs ++ [g]) = wgss d gs + scatter d g.
Proof. unfold wgss. rewrite map_app, rsum_app. cbn. lra. Qed.

Lemma xb_place_new d gs n m o x : XBI d gs n m o -> length x = d ->
  exists o', iXB_place (fin x) (Z.of_nat (length gs)) o = (o', Ok tt) /\ XBI d (gs ++ [[x]]) (n + 1) m o'.
Proof.
  intros [C1 C2 C3 C4 C5 C6 C7 C8 C9] Hx. unfold iXB_place. sm. cbn [xb_sizes set_xb_N].
  rewrite C2, map_length, Z.eqb_refl.
  cbn [xb_WGSS_i set_xb_min_v_i set_xb_WGSS_i set_xb_sizes set_xb_centers set_xb_N].
  rewrite (py_get_nat _ _ (f0 (A := XR))).
  2:{ rewrite C3, nth_error_app2, map_length, Nat.sub_diag by (rewrite map_length; lia). reflexivity. }
  eexists. split; [reflexivity|].
  constructor; cbn [xb_WGSS_i xb_WGSS xb_g xb_centers xb_sizes xb_N xb_min_v xb_min_v_i set_xb_N set_xb_WGSS set_xb_WGSS_i set_xb_g set_xb_centers set_xb_sizes set_xb_min_v_i]; auto.
  - rewrite C1, map_app. cbn. now rewrite centroid_single by auto.
  - now rewrite map_app.
  - rewrite C3, map_app. cbn [map]. now rewrite scatter_single by auto.
  - rewrite C4, wgss_snoc, scatter_single by auto. reflexivity.
  - rewrite !app_length, C8. reflexivity.
Qed.
Lemma xb_place_old d gs n m o x i : good d gs -> XBI d gs n m o -> length x = d -> (i < length gs)%nat ->
  exists o', iXB_place (fin x) (Z.of_nat i) o = (o', Ok tt) /\ XBI d (join i x gs) (n + 1) m o'.
Proof.
  intros Hg [C1 C2 C3 C4 C5 C6 C7 C8 C9] Hx Hi. destruct (good_nth d gs i Hg Hi) as [Hw Hne].
  unfold iXB_place. sm. cbn [xb_sizes set_xb_N]. rewrite C2, map_length.
  replace (Z.of_nat i =? Z.of_nat (length gs))%Z with false by (symmetry; apply Z.eqb_neq; lia).
  replace (Z.of_nat (length gs) <? Z.of_nat i)%Z with false by (symmetry; apply Z.ltb_ge; lia).
  cbn [xb_WGSS_i xb_WGSS xb_g xb_centers xb_sizes set_xb_N set_xb_WGSS].
  rewrite C3, C1.
  rewrite (py_get_nat (map (fun g => Fin (scatter d g)) gs : list (F XR)) i (Fin (scatter d (nth i gs [])))).
  2:{ exact (map_nth_error' (fun g => Fin (scatter d g)) gs i [] Hi). }
  rewrite (py_get_nat (map (fun g => fin (centroid d g)) gs) i (fin (centroid d (nth i gs [])))).
  2:{ exact (map_nth_error' (fun g => fin (centroid d g)) gs i [] Hi). }
  rewrite (py_get_nat (map (@length point) gs) i (length (nth i gs []))).
  2:{ exact (map_nth_error' (@length point) gs i [] Hi). }
  rewrite (CP_update_eq d) by (auto; rewrite fin_length; auto using centroid_length). cbv iota beta.
  rewrite !py_set_nat by (rewrite map_length; lia).
  cbn [xb_WGSS_i xb_WGSS xb_g xb_centers xb_sizes set_xb_N set_xb_WGSS set_xb_WGSS_i set_xb_g set_xb_centers set_xb_sizes].
  rewrite C7, (cu_cp_fin d), (cu_g_fin d), (cu_v_fin d) by auto.
  rewrite (py_get_nat _ i (Fin (scatter d (nth i gs [] ++ [x])) : F XR)).
  2:{ apply nth_error_upd_same. rewrite map_length; lia. }
  eexists. split; [reflexivity|].
  constructor; cbn [xb_WGSS_i xb_WGSS xb_g xb_centers xb_sizes xb_N xb_min_v xb_min_v_i set_xb_N set_xb_WGSS set_xb_WGSS_i set_xb_g set_xb_centers set_xb_sizes len_g g_or]; auto.
  - unfold join. now rewrite map_upd.
  - unfold join. rewrite map_upd, app_length. reflexivity.
  - unfold join. now rewrite map_upd.
  - rewrite C4. unfold join. rewrite wgss_upd by auto. reflexivity.
  - apply length_zeros.
  - now rewrite join_length.
Qed.
(** distances of the centroid of group [i] to the others *)
Definition from_group (d : nat) (gs : list (list point)) (i : nat) (l : list nat) (r : R) : Prop :=
  exists j, In j l /\ r = Spec.cdist d (nth i gs []) (nth j gs []).
Lemma xb_value d gs n m o i D : XBI d gs n m o -> (i < length gs)%nat -> Low D m -> (n <> 0)%nat ->
  exists o' m', iXB_value (Z.of_nat i) o = (o', Ok (xdiv (Fin (wgss d gs / INR n)) m')) /\ XBI d gs n m' o' /\
    Low (fun r => D r \/ from_group d gs i (others (length gs) (Z.of_nat i)) r) m'.
Proof.
  intros [C1 C2 C3 C4 C5 C6 C7 C8 C9] Hi HD Hn. unfold iXB_value.
  erewrite sbind_eq by reflexivity. rewrite py_set_nat by lia. erewrite sbind_eq by reflexivity. erewrite sbind_eq by reflexivity.
  assert (HH : forall l (a : F XR) (mi : list (F XR)), (forall j, In j l -> (j < length gs)%nat) -> length mi = length gs ->
      nth_error mi i = Some a -> forall D0, Low D0 a ->
      exists (mi' : list (F XR)) (a' : F XR), sfor l (fun j => do o <- sget ;; do m <- slift (py_get (xb_min_v_i o) (Z.of_nat i)) ;;
         do d <- slift (center_dist (xb_centers o) (Z.of_nat i) (Z.of_nat j)) ;;
         do l <- slift (py_set (xb_min_v_i o) (Z.of_nat i) (fminimum m d)) ;; smod (set_xb_min_v_i l))
        (set_xb_min_v_i mi o) = (set_xb_min_v_i mi' o, Ok tt) /\ length mi' = length gs /\ nth_error mi' i = Some a' /\
        Low (fun r => D0 r \/ from_group d gs i l r) a').
  { clear m C9 HD D. induction l as [|j l IH]; intros a mi Hl Hm Ha D0 HD0.
    - exists mi, a. split; [reflexivity|]. split; auto. split; auto. eapply Low_ext; [|exact HD0].
      intros r. split; [auto|]. intros [H|(j & [] & _)]. exact H.
    - cbn [sfor]. unfold sbind at 1. sm. cbn [xb_min_v_i xb_centers set_xb_min_v_i].
      rewrite (py_get_nat mi i a) by auto. rewrite C1.
      rewrite (center_dist_eq d).
      2:{ apply Forall_map, Forall_forall. intros g _. rewrite fin_length. apply centroid_length. }
      2, 3: rewrite map_length; auto; apply Hl; now left.
      unfold CompatL.cdist.
      rewrite (map_nth' (fun g => fin (centroid d g)) gs i []), (map_nth' (fun g => fin (centroid d g)) gs j []) by (auto; apply Hl; now left).
      rewrite norm22_sub. fold (Spec.cdist d (nth i gs []) (nth j gs [])).
      rewrite py_set_nat by lia.
      specialize (IH (xmin a (Fin (Spec.cdist d (nth i gs []) (nth j gs []))))
                     (upd i (xmin a (Fin (Spec.cdist d (nth i gs []) (nth j gs [])))) mi)).
      destruct IH with (D0 := fun r => D0 r \/ r = Spec.cdist d (nth i gs []) (nth j gs [])) as (mi' & a' & E & H1 & H2 & H3).
      + intros j' Hj'. apply Hl. now right.
      + now rewrite length_upd.
      + apply nth_error_upd_same. lia.
      + now apply Low_xmin.
      + exists mi', a'. split; [exact E|]. split; auto. split; auto. eapply Low_ext; [|exact H3].
        intros r. split.
        * intros [[H|H]|(j' & H & H')]; [auto|right; exists j; split; [now left|auto]|right; exists j'; split; [now right|auto]].
        * intros [H|(j' & [->|H] & H')]; auto. right. exists j'. auto. }
  destruct (HH (others (length gs) (Z.of_nat i)) PInf (upd i PInf (xb_min_v_i o))) with (D0 := fun _ : R => False)
    as (mi' & a' & E & H1 & H2 & H3).
  - intros j Hj. apply others_In in Hj. lia.
  - now rewrite length_upd.
  - apply nth_error_upd_same. lia.
  - left. auto.
  - clear HH. rewrite C1, map_length. erewrite sbind_eq by exact E. clear E. sm.
    cbn [xb_min_v_i xb_min_v xb_WGSS xb_N set_xb_min_v_i set_xb_min_v].
    rewrite (py_get_nat mi' i a') by auto.
    exists (set_xb_output (A := XR) (xdiv (Fin (wgss d gs / INR n)) (py_min2 (A := XR) m a')) (set_xb_min_v (py_min2 (A := XR) m a') (set_xb_min_v_i mi' o))), (py_min2 (A := XR) m a').
    cbn [xb_min_v_i xb_min_v xb_WGSS xb_N set_xb_min_v_i set_xb_min_v]. rewrite C4, C5, C9, f_of_nat_fin.
    rewrite fdiv_fin by (now apply not_0_INR). split; [reflexivity|]. split.
    + constructor; cbn [xb_WGSS_i xb_WGSS xb_g xb_centers xb_sizes xb_N xb_min_v xb_min_v_i set_xb_min_v_i set_xb_min_v set_xb_output]; auto.
    + eapply Low_ext; [|apply (Low_min D _ m a' HD H3)]. intros r. tauto.
Qed.

(** ** Streams whose labels first appear in the order 0, 1, 2, ... *)
Definition in_order (s : data) : Prop :=
  forall i p, nth_error s i = Some p -> (0 <= snd p <= Z.of_nat (length (distinct (firstn i s))))%Z.
(** a distance between two centroids at some time *)
Definition occurred (d : nat) (s : data) (r : R) : Prop :=
  exists i a b, In a (labels (firstn i s)) /\ In b (labels (firstn i s)) /\ a <> b /\
    r = Spec.cdist d (cluster (firstn i s) a) (cluster (firstn i s) b).
Definition upto (k : nat) : list Z := map Z.of_nat (seq 0 k).
Lemma upto_In k z : In z (upto k) <-> (0 <= z < Z.of_nat k)%Z.
Proof.
  unfold upto. rewrite in_map_iff. split.
  - intros (j & <- & Hj). apply in_seq in Hj. lia.
  - intros H. exists (Z.to_nat z). split; [lia|]. apply in_seq. lia.
Qed.
Lemma in_order_app s t : in_order (s ++ t) -> in_order s.
Proof.
  intros H i p Hp. assert (Hi : (i < length s)%nat) by (apply nth_error_Some; congruence).
  specialize (H i p). rewrite nth_error_app1, firstn_app in H by lia.
  replace (i - length s)%nat with 0%nat in H by lia. rewrite firstn_O, app_nil_r in H. auto.
Qed.
Lemma firsts_distinct (s : data) : length (firsts s) = length (distinct s).
Proof. apply first_seen_length. Qed.
Lemma in_order_firsts s : in_order s -> firsts s = upto (length (firsts s)).
Proof.
  induction s as [|[x l] s IH] using rev_ind; intros H; [reflexivity|].
  specialize (IH (in_order_app _ _ H)).
  specialize (H (length s) (x, l)). rewrite nth_error_app2, Nat.sub_diag in H by lia. specialize (H eq_refl).
  rewrite firstn_app, Nat.sub_diag, firstn_O, app_nil_r, firstn_all in H. cbn [snd] in H.
  rewrite <- firsts_distinct in H. rewrite firsts_snoc. unfold add_label.
  destruct (in_dec Z.eq_dec l (firsts s)) as [Hin|Hin]; [exact IH|].
  rewrite app_length. cbn [List.length]. unfold upto. rewrite Nat.add_1_r, seq_S, map_app. cbn [map]. f_equal; [exact IH|].
  f_equal. rewrite IH in Hin. rewrite upto_In in Hin. cbn. lia.
Qed.
Lemma index_upto k l : (0 <= l < Z.of_nat k)%Z -> index l (upto k) = Z.to_nat l.
Proof.
  intros H. assert (E : nth (Z.to_nat l) (upto k) 0%Z = l).
  { unfold upto. rewrite (map_nth' Z.of_nat _ _ 0%nat) by (rewrite seq_length; lia). rewrite seq_nth by lia. lia. }
  rewrite <- E at 1. apply index_nth.
  - unfold upto. apply FinFun.Injective_map_NoDup; [intros a b; lia|apply seq_NoDup].
  - unfold upto. rewrite map_length, seq_length. lia.
Qed.
Lemma nth_groups (s : data) j : in_order s -> (j < length (groups s))%nat -> nth j (groups s) [] = cluster s (Z.of_nat j).
Proof.
  intros H Hj. rewrite groups_length in Hj. unfold groups. rewrite (map_nth' (grp s) _ j 0%Z) by auto.
  rewrite (in_order_firsts s H). unfold upto. rewrite (map_nth' Z.of_nat _ j 0%nat) by (rewrite seq_length; auto).
  rewrite seq_nth by auto. reflexivity.
Qed.
Lemma in_order_labels (s : data) a : in_order s -> In a (labels s) <-> (0 <= a < Z.of_nat (length (groups s)))%Z.
Proof.
  intros H. rewrite groups_length, <- upto_In, <- (in_order_firsts s H). symmetry. apply first_seen_In.
Qed.
Lemma cluster_snoc_other (s : data) x l a : a <> l -> cluster (s ++ [(x, l)]) a = cluster s a.
Proof.
  intros H. unfold cluster. rewrite filter_app, map_app. cbn.
  destruct (Z.eqb_spec l a); [congruence|]. apply app_nil_r.
Qed.
Lemma occurred_snoc d (s : data) x l (r : R) : in_order (s ++ [(x, l)]) ->
  let gs := groups (s ++ [(x, l)]) in
  (occurred d s r \/ from_group d gs (Z.to_nat l) (others (length gs) l) r) <-> occurred d (s ++ [(x, l)]) r.
Proof.
  intros Ho gs. set (s' := s ++ [(x, l)]) in *.
  assert (Hl : (0 <= l < Z.of_nat (length gs))%Z).
  { apply (in_order_labels s' l Ho). unfold s', labels. rewrite map_app. apply in_or_app. right. now left. }
  split.
  - intros [(i & a & b & Ha & Hb & Hn & ->)|(j & Hj & ->)].
    + exists (Nat.min i (length s)), a, b.
      assert (E : firstn (Nat.min i (length s)) s' = firstn i s).
      { unfold s'. rewrite firstn_app. replace (Nat.min i (length s) - length s)%nat with 0%nat by lia.
        rewrite firstn_O, app_nil_r. destruct (Nat.le_ge_cases i (length s)).
        - now rewrite Nat.min_l by auto.
        - rewrite Nat.min_r by auto. now rewrite firstn_all, firstn_all2 by auto. }
      rewrite E. auto.
    + apply others_In in Hj. destruct Hj as [Hj1 Hj2]. exists (length s'), l, (Z.of_nat j). rewrite firstn_all.
      split; [apply (in_order_labels s' l Ho); auto|]. split; [apply (in_order_labels s' _ Ho); unfold gs in Hj1; lia|].
      split; [auto|]. unfold gs. rewrite !nth_groups by (auto; unfold gs in Hl; lia). now rewrite Z2Nat.id by lia.
  - intros (i & a & b & Ha & Hb & Hn & ->). destruct (Nat.le_gt_cases i (length s)) as [Hi|Hi].
    + left. exists i, a, b.
      assert (E : firstn i s' = firstn i s).
      { unfold s'. rewrite firstn_app. replace (i - length s)%nat with 0%nat by lia. now rewrite firstn_O, app_nil_r. }
      rewrite E in *. auto.
    + rewrite (firstn_all2 s') in * by (unfold s'; rewrite app_length; cbn; lia).
      assert (Hgr : forall c, In c (labels s') -> c <> l ->
                from_group d gs (Z.to_nat l) (others (length gs) l) (Spec.cdist d (cluster s' l) (cluster s' c))).
      { intros c Hc Hcl. apply (in_order_labels s' c Ho) in Hc. exists (Z.to_nat c). split.
        - apply others_In. unfold gs. split; lia.
        - unfold gs. rewrite !nth_groups by (auto; unfold gs in Hl; lia). now rewrite !Z2Nat.id by lia. }
      destruct (Z.eq_dec a l) as [->|Hal]; [right; apply Hgr; auto|].
      destruct (Z.eq_dec b l) as [->|Hbl]; [right; rewrite cdist_sym; apply Hgr; auto|].
      left. exists (length s), a, b. rewrite firstn_all.
      assert (forall c, In c (labels s') -> c <> l -> In c (labels s)).
      { intros c Hc Hcl. unfold s', labels in Hc. rewrite map_app in Hc. apply in_app_or in Hc as [Hc|[Hc|[]]]; [exact Hc|].
        cbn in Hc. congruence. }
      repeat split; auto. unfold s'. now rewrite !cluster_snoc_other by auto.
Qed.

Definition xb_step (p : vec XR * Z) : SM (iXB (A := XR)) (F XR) := iXB_update (fst p) (snd p).
Definition XBS d (s : data) o : Prop := exists m, XBI d (groups s) (length s) m o /\ Low (occurred d s) m.
Lemma xb_step_ok d (s : data) x l o : wf d (s ++ [(x, l)]) -> in_order (s ++ [(x, l)]) -> XBS d s o ->
  exists o' m, xb_step (fin x, l) o = (o', Ok (xdiv (Fin (wgss d (groups (s ++ [(x, l)])) / INR (length s + 1))) m)) /\
    XBI d (groups (s ++ [(x, l)])) (length s + 1) m o' /\ Low (occurred d (s ++ [(x, l)])) m.
Proof.
  intros Hw Ho (m & HI & HL). destruct (wf_app _ _ _ Hw) as [Hw1 Hw2].
  assert (Hx : length x = d) by (inversion Hw2; auto). pose proof (in_order_app _ _ Ho) as Ho1.
  pose proof (good_groups d s Hw1) as Hg.
  set (gs' := groups (s ++ [(x, l)])) in *.
  assert (HP : exists o1, iXB_place (fin x) l o = (o1, Ok tt) /\ XBI d gs' (length s + 1) m o1 /\ (0 <= l < Z.of_nat (length gs'))%Z).
  { unfold gs'. destruct (in_dec Z.eq_dec l (firsts s)) as [Hin|Hin].
    - pose proof Hin as Hin'. rewrite (in_order_firsts s Ho1) in Hin'. apply upto_In in Hin'. rewrite <- groups_length in Hin'.
      rewrite groups_old by auto. rewrite (in_order_firsts s Ho1), index_upto by (rewrite <- groups_length; lia).
      destruct (xb_place_old d (groups s) (length s) m o x (Z.to_nat l) Hg HI Hx) as (o1 & E & H1); [lia|].
      rewrite Z2Nat.id in E by lia. exists o1. split; auto. split; auto. rewrite length_upd. lia.
    - rewrite groups_new by auto.
      assert (El : l = Z.of_nat (length (groups s))).
      { specialize (Ho (length s) (x, l)). rewrite nth_error_app2, Nat.sub_diag in Ho by lia. specialize (Ho eq_refl).
        rewrite firstn_app, Nat.sub_diag, firstn_O, app_nil_r, firstn_all in Ho. cbn [snd] in Ho.
        rewrite <- firsts_distinct in Ho. rewrite groups_length.
        rewrite (in_order_firsts s Ho1), upto_In in Hin. lia. }
      destruct (xb_place_new d (groups s) (length s) m o x HI Hx) as (o1 & E & H1). rewrite <- El in E.
      exists o1. split; auto. split; auto. rewrite app_length, El. cbn. lia. }
  destruct HP as (o1 & E1 & H1 & Hl).
  destruct (xb_value d gs' (length s + 1) m o1 (Z.to_nat l) (occurred d s) H1) as (o2 & m2 & E2 & H2 & H3); auto; try lia.
  rewrite Z2Nat.id in E2, H3 by lia.
  exists o2, m2. unfold xb_step, iXB_update. cbn [fst snd]. rewrite (sbind_eq _ _ _ _ _ E1), E2. split; auto. split; auto.
  eapply Low_ext; [|exact H3]. intros r. now apply occurred_snoc.
Qed.
Theorem xb_stream d (s : data) : wf d s -> in_order s ->
  XBS d s (chist_after xb_step iXB_init (fin_data s)) /\
  forall i, (i < length s)%nat -> exists m, Low (occurred d (firstn (S i) s)) m /\
    nth_error (chist_results xb_step iXB_init (fin_data s)) i =
      Some (Ok (xdiv (Fin (wgss d (groups (firstn (S i) s)) / INR (S i))) m)).
Proof.
  induction s as [|[x l] s IH] using rev_ind; intros Hw Ho.
  - split; [|intros i Hi; cbn in Hi; lia]. exists PInf. split; [apply XBI_init|]. left. split; auto.
    intros r (i & a & b & Ha & _). rewrite firstn_nil in Ha. destruct Ha.
  - destruct (wf_app _ _ _ Hw) as [Hw1 Hw2]. destruct (IH Hw1 (in_order_app _ _ Ho)) as [HS HV]. clear IH.
    destruct (xb_step_ok d s x l _ Hw Ho HS) as (o' & m & E & H1 & H2).
    rewrite fin_data_app. cbn [fin_data map fst snd]. split.
    + rewrite chist_after_snoc, E. exists m. rewrite app_length. split; auto.
    + intros i Hi. rewrite app_length in Hi. cbn in Hi. rewrite chist_results_snoc, E. cbn [snd].
      destruct (Nat.eq_dec i (length s)) as [->|Hne].
      * exists m. rewrite firstn_all2 by (rewrite app_length; cbn; lia). split; auto.
        rewrite nth_error_app2 by (rewrite chist_results_length, fin_data_length; lia).
        rewrite chist_results_length, fin_data_length, Nat.sub_diag. cbn [nth_error]. now rewrite Nat.add_1_r.
      * destruct (HV i) as (m' & H3 & H4); [lia|]. exists m'.
        rewrite firstn_app. replace (S i - length s)%nat with 0%nat by lia. rewrite firstn_O, app_nil_r. split; auto.
        rewrite nth_error_app1; auto. rewrite chist_results_length, fin_data_length. lia.
Qed.

(** ** iXB beside the module XB *)
Lemma wgss_perm' d a b : Permutation a b -> wgss d a = wgss d b.
Proof. intros H. unfold wgss. now apply rsum_perm, Permutation_map. Qed.
Lemma pairs_clusters (s : data) g h : In (g, h) (pairs (clusters s)) ->
  exists a b, In a (labels s) /\ In b (labels s) /\ a <> b /\ g = cluster s a /\ h = cluster s b.
Proof.
  unfold clusters. rewrite pairs_map. intros H. apply in_map_iff in H as ([a b] & E & H). cbn in E. injection E as <- <-.
  pose proof (pairs_In _ _ _ H) as [Ha Hb]. exists a, b. unfold distinct in *. rewrite nodup_In in Ha, Hb.
  repeat split; auto. intros ->. assert (N := NoDup_nodup Z.eq_dec (labels s)).
  clear -H N. revert H N. generalize (nodup Z.eq_dec (labels s)). intros l. induction l as [|x l IH]; cbn; [auto|].
  intros H N. inversion N; subst. apply in_app_or in H as [H|H]; auto. apply in_map_iff in H as (y & E & Hy).
  injection E as -> ->. auto.
Qed.
Definition now (d : nat) (s : data) : R := rmin (map (fun p => Spec.cdist d (fst p) (snd p)) (pairs (clusters s))).
Lemma now_occurred d (s : data) : (2 <= length (distinct s))%nat -> occurred d s (now d s).
Proof.
  intros H. unfold now. set (l := map _ _).
  assert (Hl : l <> []).
  { unfold l. intros E. apply map_eq_nil in E. revert E. apply pairs_ne. unfold clusters. now rewrite map_length. }
  pose proof (rmin_In l Hl) as HI. unfold l in HI at 2. apply in_map_iff in HI as ([g h] & E & HI). cbn in E.
  apply pairs_clusters in HI as (a & b & Ha & Hb & Hn & -> & ->).
  exists (length s), a, b. rewrite firstn_all. auto.
Qed.
Lemma occurred_one d (s : data) r : (length (distinct s) <= 1)%nat -> ~ occurred d s r.
Proof.
  intros H (i & a & b & Ha & Hb & Hn & _).
  assert (forall z, In z (labels (firstn i s)) -> In z (distinct s)).
  { intros z Hz. apply nodup_In. unfold labels in *. rewrite <- (firstn_skipn i s), map_app. apply in_or_app. auto. }
  apply Hn. apply H0 in Ha, Hb. destruct (distinct s) as [|x [|y l]]; cbn in *; intuition congruence || lia.
Qed.
Lemma dist2_nonneg' x y : 0 <= dist2 x y.
Proof. unfold dist2. apply rsum_nonneg. induction (combine x y); cbn; constructor; auto. apply Rle_0_sqr. Qed.
Lemma occurred_nonneg d (s : data) r : occurred d s r -> 0 <= r.
Proof. intros (i & a & b & _ & _ & _ & ->). apply dist2_nonneg'. Qed.

Lemma xb_both d (s : data) i : wf d s -> in_order s -> (i < length s)%nat ->
  let p := firstn (S i) s in
  exists m, Low (occurred d p) m /\
    nth_error (chist_results xb_step iXB_init (fin_data s)) i = Some (Ok (xdiv (Fin (wgss d (clusters p) / INR (length p))) m)).
Proof.
  intros Hw Ho Hi p. destruct (xb_stream d s Hw Ho) as [_ H]. destruct (H i Hi) as (m & HL & E). exists m. split; auto.
  unfold p. rewrite firstn_length, Nat.min_l by lia.
  rewrite (wgss_perm' d _ _ (Permutation_sym (groups_clusters (firstn (S i) s)))) in *. rewrite E. reflexivity.
Qed.
Lemma xdiv_assoc a n b : n <> 0 -> 0 < n -> xdiv (Fin a) (Fin (n * b)) = xdiv (Fin (a / n)) (Fin b).
Proof.
  intros Hn Hp. cbn [xdiv]. destruct (Req_EM_T b 0) as [->|Hb].
  - destruct (Req_EM_T (n * 0) 0); [|lra]. unfold inf_mul.
    destruct (Req_EM_T a 0) as [->|Ha]; destruct (Req_EM_T (_ / n) 0) as [E|E]; auto.
    + exfalso. apply E. field. auto.
    + exfalso. apply Ha. apply (Rmult_eq_compat_r n) in E. unfold Rdiv in E. rewrite Rmult_assoc, Rinv_l, Rmult_0_l, Rmult_1_r in E; auto.
    + assert (0 < / n) by now apply Rinv_0_lt_compat.
      destruct (Rlt_dec 0 a), (Rlt_dec 0 (a / n)); auto; exfalso.
      * apply n0. now apply Rmult_lt_0_compat.
      * apply n0. replace a with (a / n * n) by (field; auto). now apply Rmult_lt_0_compat.
  - destruct (Req_EM_T (n * b) 0) as [E|E]; [apply Rmult_integral in E; tauto|]. f_equal. field. auto.
Qed.

(** ** Cluster *)
Lemma add_div_fin d g x : g <> [] -> length x = d ->
  vdivn (A := XR) (map2 fadd (map (fun y => fmul y (f_of_nat (length g))) (fin (centroid d g))) (fin x)) (length g + 1) =
  fin (centroid d (g ++ [x])).
Proof.
  intros Hg Hx.
  replace (map (fun y => fmul (a := XR) y (f_of_nat (length g))) (fin (centroid d g)))
    with (fin (map (fun y => y * INR (length g)) (centroid d g))).
  2:{ unfold fin. rewrite !map_map. apply map_ext. intros y. now rewrite f_of_nat_fin. }
  rewrite add_fin, vdivn_fin by lia. f_equal.
  pose proof (centroid_length d g) as Lc. pose proof (INR_pos g Hg).
  apply (point_ext d); auto using centroid_length.
  { rewrite map_length, length_map2, map_length. lia. }
  intros j Hj. rewrite co_centroid_snoc by auto. unfold co at 1.
  rewrite (map_nth' (fun y => y / INR (length g + 1)) _ j 0) by (rewrite length_map2, map_length; lia).
  rewrite nth_map2 with (dx := 0) (dy := 0) by (rewrite ?map_length; lia).
  rewrite (map_nth' (fun y => y * INR (length g)) _ j 0) by lia.
  unfold co. rewrite plus_INR. simpl (INR 1). field. lra.
Qed.
Lemma add_one_fin d x : length x = d ->
  vdivn (A := XR) (map (fadd (fmul f0 (f_of_nat 0))) (fin x)) 1 = fin (centroid d [x]).
Proof.
  intros Hx. replace (map (fadd (a := XR) (fmul f0 (f_of_nat 0))) (fin x)) with (fin x).
  2:{ unfold fin. rewrite map_map. apply map_ext. intros y. rewrite f_of_nat_fin.
      change (@f0 XR) with (Fin 0). rewrite fmul_fin, fadd_fin. f_equal. ring. }
  rewrite vdivn_fin by lia. f_equal. apply (point_ext d); auto using centroid_length; [now rewrite map_length|].
  intros j Hj. unfold co, centroid. rewrite (map_nth' (fun y => y / INR 1) _ j 0) by lia.
  rewrite nth_map_seq by auto. cbn. field.
Qed.
