(** * C97: negative labels in the compat module *)
From Coq Require Import String ZArith List Arith Bool Lia.
From Verif Require Import Num NumPy Lists Stream Generic Compat CompatL CompatL2 CompatH.
From Coq Require Import Reals Lra SpecFloat.
From Verif Require Import Det Spec XR SpecX RGeom XLift XEval XInc XRun XPerm XBatch CompatX F64 F64o P_Shape.
From Verif Require Import ParK P_ParK.
Import ListNotations.
Local Notation length := List.length.
Local Open Scope nat_scope.
Local Open Scope compat_scope.

(** ** An index counted from the end *)
Lemma index_neg k j : 1 <= j <= k -> py_index k (- Z.of_nat j) = Ok (k - j).
Proof.
  intros H. unfold py_index. replace ((0 <=? - Z.of_nat j) && (- Z.of_nat j <? Z.of_nat k))%Z with false by (symmetry; rewrite andb_false_iff; lia).
  replace ((- Z.of_nat k <=? - Z.of_nat j) && (- Z.of_nat j <? 0))%Z with true by (symmetry; rewrite andb_true_iff; lia). f_equal. lia.
Qed.
Lemma get_neg {X} (l : list X) k j : length l = k -> 1 <= j <= k -> py_get l (- Z.of_nat j) = py_get l (Z.of_nat (k - j)).
Proof. intros <- H. unfold py_get. now rewrite index_neg, py_index_nat by lia. Qed.
Lemma set_neg {X} (l : list X) k j x : length l = k -> 1 <= j <= k -> py_set l (- Z.of_nat j) x = py_set l (Z.of_nat (k - j)) x.
Proof. intros <- H. unfold py_set. now rewrite index_neg, py_index_nat by lia. Qed.
Lemma py_set_length {X} (l l' : list X) c x : py_set l c x = Ok l' -> length l' = length l.
Proof. unfold py_set. destruct (py_index _ _); cbn; intros E; [|discriminate]. injection E as <-. apply length_upd. Qed.
Lemma dist_neg {A : Arith} (cs : list (list (F A))) k j b : length cs = k -> 1 <= j <= k -> center_dist cs (- Z.of_nat j) b = center_dist cs (Z.of_nat (k - j)) b.
Proof. intros H1 H2. unfold center_dist. now rewrite (get_neg cs k) by auto. Qed.

(** statements that leave a part of the object as it is *)
Definition leaves {S T X} (f : S -> T) (m : SM S X) : Prop := forall o, f (fst (m o)) = f o.
Lemma l_ret {S T X} (f : S -> T) (x : X) : leaves f (sret x). Proof. intros o. reflexivity. Qed.
Lemma l_lift {S T X} (f : S -> T) (e : E X) : leaves f (slift e). Proof. intros o. reflexivity. Qed.
Lemma l_get {S T} (f : S -> T) : leaves f sget. Proof. intros o. reflexivity. Qed.
Lemma l_mod {S T} (f : S -> T) g : (forall o, f (g o) = f o) -> leaves f (smod g). Proof. intros H o. apply H. Qed.
Lemma l_bind {S T X Y} (f : S -> T) (m : SM S X) (k : X -> SM S Y) : leaves f m -> (forall x, leaves f (k x)) -> leaves f (sbind m k).
Proof. intros H K o. unfold sbind. specialize (H o). destruct (m o) as [o1 [x|e]]; cbn in *; auto. now rewrite K. Qed.
Lemma l_for {S T X} (f : S -> T) (l : list X) (b : X -> SM S unit) : (forall x, leaves f (b x)) -> leaves f (sfor l b).
Proof. intros H. induction l as [|x l IH]; cbn; [apply l_ret|]. now apply l_bind. Qed.
Ltac lv := repeat first [apply l_ret|apply l_lift|apply l_get|apply l_mod; intros; reflexivity|apply l_for; intros|apply l_bind; [|intros]].
(** after statements that agree, statements that leave a part as it is *)
Lemma agree_then {S T X Y Z'} (f : S -> T) (m m' : SM S X) (k : X -> SM S Y) (k' : X -> SM S Z') o :
  m o = m' o -> (forall x, leaves f (k x)) -> (forall x, leaves f (k' x)) -> f (fst (sbind m k o)) = f (fst (sbind m' k' o)).
Proof. intros E H H'. unfold sbind. rewrite E. destruct (m' o) as [o1 [x|e]]; auto. cbn. now rewrite H, H'. Qed.

Section Neg.
  Context {A : Arith}.
  Lemma xb_place_neg (x : list (F A)) k j o : length (xb_centers o) = k -> length (xb_sizes o) = k -> length (xb_WGSS_i o) = k -> 1 <= j <= k ->
    iXB_place x (- Z.of_nat j) o = iXB_place x (Z.of_nat (k - j)) o.
  Proof.
    intros H1 H2 H3 Hj. unfold iXB_place, sbind, sget, smod, slift. cbn [xb_sizes set_xb_N]. rewrite H2.
    replace (- Z.of_nat j =? Z.of_nat k)%Z with false by (symmetry; apply Z.eqb_neq; lia).
    replace (Z.of_nat (k - j) =? Z.of_nat k)%Z with false by (symmetry; apply Z.eqb_neq; lia).
    replace (Z.of_nat k <? - Z.of_nat j)%Z with false by (symmetry; apply Z.ltb_ge; lia).
    replace (Z.of_nat k <? Z.of_nat (k - j))%Z with false by (symmetry; apply Z.ltb_ge; lia).
    cbn [xb_WGSS_i xb_centers xb_sizes set_xb_N xb_g xb_WGSS set_xb_WGSS].
    rewrite (get_neg (xb_WGSS_i o) k), (get_neg (xb_centers o) k), (get_neg (xb_sizes o) k) by auto.
    destruct (py_get (xb_WGSS_i o) _) as [w|]; auto. destruct (py_get (xb_centers o) _) as [v|]; auto. destruct (py_get (xb_sizes o) _) as [n|]; auto.
    destruct (CP_update _ _ _ _ _ _ _) as [[[[cp g] v1] n1]|]; auto.
    rewrite (set_neg (xb_WGSS_i o) k), (set_neg (xb_centers o) k), (set_neg (xb_sizes o) k) by auto.
    destruct (py_set (xb_WGSS_i o) _ _) as [l1|] eqn:E1; auto. destruct (py_set (xb_centers o) _ _) as [l2|]; auto. destruct (py_set (xb_sizes o) _ _) as [l3|]; auto.
    cbn [xb_WGSS_i xb_WGSS set_xb_WGSS_i set_xb_g set_xb_centers set_xb_sizes set_xb_WGSS set_xb_N].
    rewrite (get_neg l1 k); auto. now rewrite (py_set_length _ _ _ _ E1).
  Qed.
  Lemma leaves_after {S T X Y} (f : S -> T) (m : SM S X) (k : X -> SM S Y) o : (forall x, leaves f (k x)) -> f (fst (sbind m k o)) = f (fst (m o)).
  Proof. intros H. unfold sbind. destruct (m o) as [o1 [x|e]]; auto. cbn. apply H. Qed.
  Lemma lift_bind {S X Y} (e : E X) (k : X -> SM S Y) o : sbind (slift e) k o = match e with Ok x => k x o | Err err => (o, Err err) end.
  Proof. unfold sbind, slift. now destruct e. Qed.
  Lemma mod_bind {S Y} (g : S -> S) (k : unit -> SM S Y) o : sbind (smod g) k o = k tt (g o).
  Proof. reflexivity. Qed.
  Lemma get_bind {S Y} (k : S -> SM S Y) o : sbind sget k o = k o o.
  Proof. reflexivity. Qed.
  (** iXB.update: number of samples, centers, sizes, compactness and sums *)
  Definition xb_part (o : iXB (A := A)) := (xb_N o, xb_centers o, xb_sizes o, xb_WGSS_i o, xb_WGSS o, xb_g o).
  Lemma xb_neg (x : list (F A)) k j o : length (xb_centers o) = k -> length (xb_sizes o) = k -> length (xb_WGSS_i o) = k -> 1 <= j <= k ->
    xb_part (fst (iXB_update x (- Z.of_nat j) o)) = xb_part (fst (iXB_update x (Z.of_nat (k - j)) o)).
  Proof. intros H1 H2 H3 Hj. unfold iXB_update. apply agree_then; [now apply xb_place_neg|intros _; unfold iXB_value; lv..]. Qed.
  Definition ps_part (o : iPS (A := A)) := (ps_centers o, ps_sizes o).
  Lemma ps_neg gen (x : list (F A)) k j o : length (ps_centers o) = k -> length (ps_sizes o) = k -> 1 <= j <= k ->
    ps_part (fst (iPS_update gen x (- Z.of_nat j) o)) = ps_part (fst (iPS_update gen x (Z.of_nat (k - j)) o)).
  Proof.
    intros H1 H2 Hj. unfold iPS_update. rewrite !get_bind. rewrite H1.
    replace (Z.of_nat k <=? - Z.of_nat j)%Z with false by (symmetry; apply Z.leb_gt; lia).
    replace (Z.of_nat k <=? Z.of_nat (k - j))%Z with false by (symmetry; apply Z.leb_gt; lia).
    apply agree_then.
    2, 3: intros _; lv; match goal with |- leaves _ (match ?b with [] => _ | _ => _ end) => destruct b end; lv.
    rewrite !lift_bind, (get_neg (ps_centers o) k) by auto. destruct (py_get (ps_centers o) _) as [v|]; auto.
    rewrite !lift_bind, (get_neg (ps_sizes o) k) by auto. destruct (py_get (ps_sizes o) _) as [n|]; auto.
    rewrite !lift_bind. destruct (cluster_center_update _ _ _) as [[v1 n1]|]; auto.
    rewrite !lift_bind, (set_neg (ps_centers o) k) by auto. destruct (py_set (ps_centers o) _ _) as [l1|]; auto.
    rewrite !mod_bind, !lift_bind, (set_neg (ps_sizes o) k) by auto. reflexivity.
  Qed.
  Definition gd_part (o : iGD (A := A)) := (gd_centers o, gd_sizes o, gd_CP o, gd_g o).
  Lemma gd_neg (x : list (F A)) k j o : length (gd_centers o) = k -> length (gd_sizes o) = k -> length (gd_CP o) = k -> 1 <= j <= k ->
    gd_part (fst (iGD_update x (- Z.of_nat j) o)) = gd_part (fst (iGD_update x (Z.of_nat (k - j)) o)).
  Proof.
    intros H1 H2 H3 Hj. unfold iGD_update. rewrite !get_bind, !leaves_after by (intros; lv). rewrite H1, H2.
    replace (- Z.of_nat j =? Z.of_nat k)%Z with false by (symmetry; apply Z.eqb_neq; lia).
    replace (Z.of_nat (k - j) =? Z.of_nat k)%Z with false by (symmetry; apply Z.eqb_neq; lia).
    replace (Z.of_nat k <? - Z.of_nat j)%Z with false by (symmetry; apply Z.ltb_ge; lia).
    replace (Z.of_nat k <? Z.of_nat (k - j))%Z with false by (symmetry; apply Z.ltb_ge; lia).
    rewrite !lift_bind, (get_neg (gd_centers o) k) by auto. destruct (py_get (gd_centers o) _) as [v|]; auto.
    rewrite !lift_bind, (get_neg (gd_sizes o) k) by auto. destruct (py_get (gd_sizes o) _) as [n|]; auto.
    rewrite !lift_bind, (get_neg (gd_CP o) k) by auto. destruct (py_get (gd_CP o) _) as [cp|]; auto.
    rewrite !lift_bind. destruct (CP_update _ _ _ _ _ _ _) as [[[[cp' g] v1] n1]|]; auto.
    rewrite !lift_bind, (set_neg (gd_CP o) k) by auto. destruct (py_set (gd_CP o) _ _) as [l1|]; auto.
    rewrite !mod_bind, !lift_bind, (set_neg (gd_centers o) k) by auto. destruct (py_set (gd_centers o) _ _) as [l2|]; auto.
    rewrite !mod_bind, !lift_bind, (set_neg (gd_sizes o) k) by auto. destruct (py_set (gd_sizes o) _ _) as [l3|]; auto.
    rewrite !mod_bind, !get_bind, !leaves_after by (intros; lv). 
    match goal with |- gd_part (fst (?m ?o1)) = gd_part (fst (?m' ?o1)) => transitivity (gd_part o1); [|symmetry] end; match goal with |- gd_part (fst (?m ?o1)) = _ => apply (ltac:(lv) : leaves gd_part m) end.
  Qed.
End Neg.

(** ** iSIL *)
Lemma upd_self {X} (l : list X) i d : upd i (nth i l d) l = l.
Proof. revert i. induction l as [|a l IH]; intros [|i]; cbn; auto. now rewrite IH. Qed.
Section NegS.
  Context {A : Arith}.
  Lemma mset_self (m m' : mat A) i j x : mget m i j = Ok x -> mset m i j x = Ok m' -> m' = m.
  Proof.
    unfold mget, mset. destruct (py_index (nrows m) i) as [p|]; cbn; [|discriminate]. destruct (py_index (mcols m) j) as [q|]; cbn; [|discriminate].
    intros E1 E2. injection E1 as <-. injection E2 as <-. unfold entry. rewrite upd_self, upd_self. now destruct m.
  Qed.
  Lemma sl_place_neg r k j (o : iSIL (A := A)) : length (sl_centers o) = k -> length (sl_sizes o) = k -> 1 <= j <= k ->
    iSIL_place r (- Z.of_nat j) o = iSIL_place r (Z.of_nat (k - j)) o.
  Proof.
    intros H1 H2 Hj. unfold iSIL_place. rewrite !get_bind, H2.
    replace (- Z.of_nat j =? Z.of_nat k)%Z with false by (symmetry; apply Z.eqb_neq; lia).
    replace (Z.of_nat (k - j) =? Z.of_nat k)%Z with false by (symmetry; apply Z.eqb_neq; lia).
    replace (Z.of_nat k <? - Z.of_nat j)%Z with false by (symmetry; apply Z.ltb_ge; lia).
    replace (Z.of_nat k <? Z.of_nat (k - j))%Z with false by (symmetry; apply Z.ltb_ge; lia).
    unfold sbind, sret, smod, sget, slift. cbn [sl_centers sl_sizes set_sl_N].
    rewrite (get_neg (sl_centers o) k), (get_neg (sl_sizes o) k) by auto.
    destruct (py_get (sl_centers o) _) as [v|]; auto. destruct (py_get (sl_sizes o) _) as [n|]; auto.
    destruct (cluster_center_update _ _ _) as [[v1 n1]|]; auto.
    rewrite (set_neg (sl_centers o) k) by auto. destruct (py_set (sl_centers o) _ _) as [l1|]; auto.
    now rewrite (set_neg (sl_sizes o) k) by auto.
  Qed.
  Definition sl_part (o : iSIL (A := A)) := (sl_N o, sl_centers o, sl_sizes o).
  Lemma table_leaves r z : leaves sl_part (iSIL_table r z).
  Proof. unfold iSIL_table. lv. Qed.
  Lemma cp_leaves r z : leaves sl_part (iSIL_cp_update r z).
  Proof. unfold iSIL_cp_update. lv. Qed.
  Lemma value_leaves z : leaves sl_part (iSIL_value z).
  Proof. unfold iSIL_value. lv. Qed.
  Lemma sl_neg r k j (o : iSIL (A := A)) : length (sl_centers o) = k -> length (sl_sizes o) = k -> 1 <= j <= k ->
    sl_part (fst (iSIL_update r (- Z.of_nat j) o)) = sl_part (fst (iSIL_update r (Z.of_nat (k - j)) o)).
  Proof.
    intros H1 H2 Hj. unfold iSIL_update. apply agree_then; [now apply sl_place_neg| |];
    intros _; apply l_bind; [apply table_leaves| |apply table_leaves|]; intros _; apply l_bind; [apply cp_leaves| |apply cp_leaves|]; intros _; apply value_leaves.
  Qed.
  (** no entry of the table is written with a new number *)
  Lemma s_new_neg x i j J nj nj' cp vj vi g (old y : F A) : (J < 0)%Z -> s_ij_new x i j J nj nj' cp vj vi g old = Ok y -> y = old.
  Proof.
    intros HJ. unfold s_ij_new. destruct (vsub x vi); [|discriminate]. destruct (vsub x vj); [|discriminate]. cbn.
    replace (Z.of_nat i =? J)%Z with false by (symmetry; apply Z.eqb_neq; lia). replace (Z.of_nat j =? J)%Z with false by (symmetry; apply Z.eqb_neq; lia).
    cbn. congruence.
  Qed.
  Lemma table_neg r z : (z < 0)%Z -> leaves (sl_sij (A := A)) (iSIL_table r z).
  Proof.
    intros Hz. unfold iSIL_table. apply l_bind; [apply l_get|]. intros o0. apply l_for. intros i. apply l_for. intros j o.
    rewrite get_bind.
    repeat (rewrite lift_bind; match goal with |- _ (fst (match ?e with Ok _ => _ | Err _ => _ end)) = _ => destruct e eqn:?; [|reflexivity] end).
    unfold smod. cbn. 
    match goal with H : s_ij_new _ _ _ _ _ _ _ _ _ _ _ = Ok _ |- _ => apply s_new_neg in H; [|exact Hz]; subst end.
    eapply mset_self; eauto.
  Qed.
  Lemma place_neg_table r z : (z < 0)%Z -> leaves (sl_sij (A := A)) (iSIL_place r z).
  Proof.
    intros Hz o. unfold iSIL_place. rewrite get_bind.
    replace (z =? Z.of_nat (length (sl_sizes o)))%Z with false by (symmetry; apply Z.eqb_neq; lia).
    replace (Z.of_nat (length (sl_sizes o)) <? z)%Z with false by (symmetry; apply Z.ltb_ge; lia).
    apply (l_bind sl_sij); [apply l_ret|]. intros _. lv; match goal with |- leaves _ (let (_, _) := ?p in _) => destruct p end; lv.
  Qed.
  Lemma table_kept r z (o : iSIL (A := A)) : (z < 0)%Z -> sl_sij (fst (iSIL_update r z o)) = sl_sij o.
  Proof.
    intros Hz. unfold iSIL_update. apply (l_bind sl_sij); [now apply place_neg_table|]. intros _. apply l_bind; [now apply table_neg|]. intros _.
    apply l_bind; [unfold iSIL_cp_update; lv|]. intros _. unfold iSIL_value. lv.
  Qed.
End NegS.

(** ** iXB in exact arithmetic *)
Lemma others_neg k j : 1 <= j -> others k (- Z.of_nat j) = seq 0 k.
Proof.
  intros Hj. unfold others. assert (H : forall l : list nat, filter (fun i => negb (Z.of_nat i =? - Z.of_nat j)%Z) l = l).
  { induction l as [|i l IH]; cbn; auto. replace (Z.of_nat i =? - Z.of_nat j)%Z with false by (symmetry; apply Z.eqb_neq; lia). cbn. now rewrite IH. }
  apply H.
Qed.
Lemma get_meant {X} (l : list X) z i x : py_index (length l) z = Ok i -> nth_error l i = Some x -> py_get l z = Ok x.
Proof. intros E H. unfold py_get. rewrite E. cbn. unfold get_item. now rewrite H. Qed.
Lemma set_meant {X} (l : list X) z i x : py_index (length l) z = Ok i -> py_set l z x = Ok (upd i x l).
Proof. intros E. unfold py_set. now rewrite E. Qed.
Lemma xb_value_at d gs n m o z i D : XBI d gs n m o -> py_index (length gs) z = Ok i -> Low D m -> n <> 0 ->
  exists o' m', iXB_value z o = (o', Ok (xdiv (Fin (wgss d gs / INR n)) m')) /\ XBI d gs n m' o' /\
    Low (fun r => D r \/ from_group d gs i (others (length gs) z) r) m'.
Proof.
  intros [C1 C2 C3 C4 C5 C6 C7 C8 C9] Hz HD Hn. pose proof (py_index_bound _ _ _ Hz) as Hi. unfold iXB_value.
  rewrite get_bind, lift_bind, (set_meant _ z i), mod_bind by now rewrite C8.
  assert (HH : forall l (a : F XR) (mi : list (F XR)), (forall j, In j l -> (j < length gs)%nat) -> length mi = length gs ->
      nth_error mi i = Some a -> forall D0, Low D0 a ->
      exists (mi' : list (F XR)) (a' : F XR), sfor l (fun j => do o <- sget ;; do m <- slift (py_get (xb_min_v_i o) z) ;;
         do d <- slift (center_dist (xb_centers o) z (Z.of_nat j)) ;;
         do l <- slift (py_set (xb_min_v_i o) z (fminimum m d)) ;; smod (set_xb_min_v_i l))
        (set_xb_min_v_i mi o) = (set_xb_min_v_i mi' o, Ok tt) /\ length mi' = length gs /\ nth_error mi' i = Some a' /\
        Low (fun r => D0 r \/ from_group d gs i l r) a').
  { clear m C9 HD D. induction l as [|j l IH]; intros a mi Hl Hm Ha D0 HD0.
    - exists mi, a. split; [reflexivity|]. split; auto. split; auto. eapply Low_ext; [|exact HD0].
      intros r. split; [auto|]. intros [H|(j & [] & _)]. exact H.
    - cbn [sfor]. unfold sbind at 1. sm. cbn [xb_min_v_i xb_centers set_xb_min_v_i].
      rewrite (get_meant mi z i a) by (auto; now rewrite Hm). rewrite C1.
      replace (center_dist (map (fun g => fin (centroid d g)) gs) z (Z.of_nat j)) with (center_dist (A := XR) (map (fun g => fin (centroid d g)) gs) (Z.of_nat i) (Z.of_nat j)).
      2:{ unfold center_dist. rewrite (get_meant (map (fun g => fin (centroid d g)) gs) z i (fin (centroid d (nth i gs [])))), (py_get_nat _ i (fin (centroid d (nth i gs [])))); auto;
            try exact (map_nth_error' (fun g => fin (centroid d g)) gs i [] Hi). now rewrite map_length. }
      rewrite (center_dist_eq d).
      2:{ apply Forall_map, Forall_forall. intros g _. rewrite fin_length. apply centroid_length. }
      2, 3: rewrite map_length; auto; apply Hl; now left.
      unfold CompatL.cdist.
      rewrite (map_nth' (fun g => fin (centroid d g)) gs i []), (map_nth' (fun g => fin (centroid d g)) gs j []) by (auto; apply Hl; now left).
      rewrite norm22_sub. fold (Spec.cdist d (nth i gs []) (nth j gs [])).
      rewrite (set_meant mi z i) by now rewrite Hm.
      specialize (IH (xmin a (Fin (Spec.cdist d (nth i gs []) (nth j gs []))))
                     (upd i (xmin a (Fin (Spec.cdist d (nth i gs []) (nth j gs [])))) mi)).
      destruct IH with (D0 := fun r => D0 r \/ r = Spec.cdist d (nth i gs []) (nth j gs [])) as (mi' & a' & E & H1 & H2 & H3).
      + intros j' Hj'. apply Hl. now right.
      + now rewrite length_upd.
      + apply nth_error_upd_same. lia.
      + now apply Low_xmin.
      + exists mi', a'. split; [exact E|]. split; auto. split; auto. eapply Low_ext; [|exact H3].
        intros r. split.
        * intros [[H|H]|(j' & H & H')]; [auto|right; exists j; split; [now left|auto]|right; exists j'; split; [now right|auto]].
        * intros [H|(j' & [->|H] & H')]; auto. right. exists j'. auto. }
  destruct (HH (others (length gs) z) PInf (upd i PInf (xb_min_v_i o))) with (D0 := fun _ : R => False)
    as (mi' & a' & E & H1 & H2 & H3).
  - intros j Hj. apply others_In in Hj. lia.
  - now rewrite length_upd.
  - apply nth_error_upd_same. lia.
  - left. auto.
  - clear HH. rewrite C1, map_length. erewrite sbind_eq by exact E. clear E. sm.
    cbn [xb_min_v_i xb_min_v xb_WGSS xb_N set_xb_min_v_i set_xb_min_v].
    rewrite (get_meant mi' z i a') by (auto; now rewrite H1).
    exists (set_xb_output (A := XR) (xdiv (Fin (wgss d gs / INR n)) (py_min2 (A := XR) m a')) (set_xb_min_v (py_min2 (A := XR) m a') (set_xb_min_v_i mi' o))), (py_min2 (A := XR) m a').
    cbn [xb_min_v_i xb_min_v xb_WGSS xb_N set_xb_min_v_i set_xb_min_v]. rewrite C4, C5, C9, f_of_nat_fin.
    rewrite fdiv_fin by (now apply not_0_INR). split; [reflexivity|]. split.
    + constructor; cbn [xb_WGSS_i xb_WGSS xb_g xb_centers xb_sizes xb_N xb_min_v xb_min_v_i set_xb_min_v_i set_xb_min_v set_xb_output]; auto.
    + eapply Low_ext; [|apply (Low_min D _ m a' HD H3)]. intros r. tauto.
Qed.
(** ** The history *)
(** the labels that do not raise ValueError: 0, ..., k and -1, ..., -k when there
    are k clusters *)
Definition allowed (ls : list Z) : Prop :=
  forall i l, nth_error ls i = Some l -> (- Z.of_nat (started (firstn i ls)) <= l <= Z.of_nat (started (firstn i ls)))%Z.
Lemma allowed_snoc ls l : allowed (ls ++ [l]) -> allowed ls /\ (- Z.of_nat (started ls) <= l <= Z.of_nat (started ls))%Z.
Proof.
  intros H. split.
  - intros i c Hc. assert (Hi : i < length ls) by (apply nth_error_Some; congruence). specialize (H i c).
    rewrite nth_error_app1, firstn_app in H by lia. replace (i - length ls) with 0 in H by lia. rewrite firstn_O, app_nil_r in H. auto.
  - specialize (H (length ls) l). rewrite nth_error_app2, Nat.sub_diag, firstn_app, Nat.sub_diag, firstn_O, app_nil_r, firstn_all in H by lia. auto.
Qed.
Definition some_negative (ls : list Z) : Prop := exists l, In l ls /\ (l < 0)%Z.
Definition XBN d (s : data) (o : iXB (A := XR)) : Prop := exists gs m (D : R -> Prop), XBI d gs (length s) m o /\ good d gs /\ length gs = started (labels s) /\
  Low D m /\ (forall r, D r -> (0 <= r)%R) /\ (some_negative (labels s) -> D 0%R).
Lemma dist2_self x : dist2 x x = 0%R.
Proof. unfold dist2, rsum. induction x as [|a x IH]; [reflexivity|]. cbn [combine map fold_right]. rewrite IH. cbn [fst snd]. ring. Qed.
Lemma xbn_step d (s : data) x l o : length x = d -> allowed (labels (s ++ [(x, l)])) -> XBN d s o ->
  exists o' w m, xb_step (fin x, l) o = (o', Ok (xdiv (Fin w) m)) /\ XBN d (s ++ [(x, l)]) o' /\ (some_negative (labels (s ++ [(x, l)])) -> m = Fin 0).
Proof.
  intros Hx Ha (gs & m & D & HI & Hg & HL & HD & Hp & Hn). unfold labels in Ha. rewrite map_app in Ha. apply allowed_snoc in Ha as [_ Hl]. cbn in Hl. fold (labels s) in Hl.
  assert (HP : exists o1 gs' i, iXB_place (fin x) l o = (o1, Ok tt) /\ XBI d gs' (length s + 1) m o1 /\ good d gs' /\
    length gs' = started (labels (s ++ [(x, l)])) /\ py_index (length gs') l = Ok i).
  { unfold labels. rewrite map_app. cbn [map snd]. fold (labels s). rewrite started_snoc.
    destruct (Z.eqb_spec l (Z.of_nat (started (labels s)))) as [El|El].
    - destruct (xb_place_new d gs (length s) m o x HI Hx) as (o1 & E & H1). rewrite HL, <- El in E. exists o1, (gs ++ [[x]]), (length gs).
      split; auto. split; auto. split; [|split]; rewrite ?app_length; cbn [length]; try lia.
      + destruct Hg as [G1 G2]. split; apply Forall_app; split; auto; repeat constructor; auto. discriminate.
      + rewrite El, HL. now rewrite py_index_nat by lia.
    - destruct (Z.ltb_spec l 0) as [Hneg|Hpos].
      + set (j := Z.to_nat (- l)). assert (Ej : l = (- Z.of_nat j)%Z) by lia. rewrite Ej. pose proof HI as [C1 C2 C3 _ _ _ _ _ _].
        rewrite (xb_place_neg _ (length gs)) by (try lia; rewrite ?C1, ?C2, ?C3; now rewrite map_length).
        destruct (xb_place_old d gs (length s) m o x (length gs - j) Hg HI Hx) as (o1 & E & H1); [lia|].
        exists o1, (join (length gs - j) x gs), (length gs - j). rewrite join_length. split; auto. split; auto. split; [apply good_join; auto; lia|]. split; auto. apply index_neg. lia.
      + destruct (xb_place_old d gs (length s) m o x (Z.to_nat l) Hg HI Hx) as (o1 & E & H1); [lia|]. rewrite Z2Nat.id in E by lia.
        exists o1, (join (Z.to_nat l) x gs), (Z.to_nat l). rewrite join_length. split; auto. split; auto. split; [apply good_join; auto; lia|]. split; auto. apply py_index_in. lia. }
  destruct HP as (o1 & gs' & i & E1 & H1 & G1 & L1 & Ei).
  destruct (xb_value_at d gs' (length s + 1) m o1 l i D H1 Ei HD) as (o2 & m2 & E2 & H2 & H3); [lia|].
  set (D' := fun r => D r \/ from_group d gs' i (others (length gs') l) r) in *.
  assert (N' : some_negative (labels (s ++ [(x, l)])) -> D' 0%R).
  { intros (c & Hc & Hc0). unfold labels in Hc. rewrite map_app in Hc. apply in_app_or in Hc as [Hc|[Hc|[]]]; [left; apply Hn; exists c; auto|].
    cbn in Hc. subst c. right. exists i. split.
    - pose proof (py_index_bound _ _ _ Ei). apply others_In. lia.
    - unfold Spec.cdist. now rewrite dist2_self. }
  assert (P' : forall r, D' r -> (0 <= r)%R) by (intros r [H|(j & _ & ->)]; auto; apply dist2_nonneg').
  exists o2, (wgss d gs' / INR (length s + 1))%R, m2. unfold xb_step, iXB_update. cbn [fst snd]. rewrite (sbind_eq _ _ _ _ _ E1), E2. split; auto. split.
  - exists gs', m2, D'. rewrite app_length. cbn [length]. auto 10.
  - intros H. apply N' in H. destruct H3 as [[_ H3]|(r & -> & Hr & Hmin)]; [destruct (H3 0%R H)|]. f_equal. specialize (Hmin 0%R H). specialize (P' r Hr). lra.
Qed.
Lemma xbn_init d : XBN d [] iXB_init.
Proof.
  exists [], PInf, (fun _ => False). split; [apply XBI_init|]. split; [split; constructor|]. split; auto. split; [left; auto|]. split; [tauto|]. intros (l & [] & _).
Qed.
Lemma xbn_run d (s : data) : wf d s -> allowed (labels s) ->
  XBN d s (chist_after xb_step iXB_init (fin_data s)) /\
  forall i, i < length s -> exists w m, nth_error (chist_results xb_step iXB_init (fin_data s)) i = Some (Ok (xdiv (Fin w) m)) /\
    (some_negative (labels (firstn (S i) s)) -> m = Fin 0).
Proof.
  induction s as [|[x l] s IH] using rev_ind; intros Hw Ha.
  - split; [apply xbn_init|cbn; lia].
  - destruct (wf_app _ _ _ Hw) as [Hw1 Hw2]. assert (Hx : length x = d) by (inversion Hw2; auto).
    assert (Ha1 : allowed (labels s)) by (unfold labels in *; rewrite map_app in Ha; now apply allowed_snoc in Ha).
    destruct (IH Hw1 Ha1) as [HS HV]. clear IH. destruct (xbn_step d s x l _ Hx Ha HS) as (o' & w & m & E & H1 & H2).
    rewrite fin_data_app. cbn [fin_data map fst snd]. split; [now rewrite chist_after_snoc, E|].
    intros i Hi. rewrite app_length in Hi. cbn in Hi. rewrite chist_results_snoc, E. cbn [snd].
    destruct (Nat.eq_dec i (length s)) as [->|Hne].
    + exists w, m. rewrite firstn_all2 by (rewrite app_length; cbn; lia). split; auto.
      rewrite nth_error_app2 by (rewrite chist_results_length, fin_data_length; lia). now rewrite chist_results_length, fin_data_length, Nat.sub_diag.
    + destruct (HV i) as (w' & m' & H3 & H4); [lia|]. exists w', m'.
      rewrite firstn_app. replace (S i - length s) with 0 by lia. rewrite firstn_O, app_nil_r. split; auto.
      rewrite nth_error_app1; auto. rewrite chist_results_length, fin_data_length. lia.
Qed.

(** ** The property *)
(** A negative label is taken as an index from the end (any arithmetic, any object
    whose lists have one entry for each of the [k] clusters): label -j puts the
    sample in cluster k - j, for iXB with all its sums. *)
Theorem C97_from_the_end : forall (A : Arith) (x : list (F A)) k j, 1 <= j <= k ->
  (forall o, length (xb_centers o) = k -> length (xb_sizes o) = k -> length (xb_WGSS_i o) = k ->
     let o1 := fst (iXB_update x (- Z.of_nat j) o) in let o2 := fst (iXB_update x (Z.of_nat (k - j)) o) in
     xb_N o1 = xb_N o2 /\ xb_centers o1 = xb_centers o2 /\ xb_sizes o1 = xb_sizes o2 /\ xb_WGSS_i o1 = xb_WGSS_i o2 /\ xb_WGSS o1 = xb_WGSS o2) /\
  (forall gen o, length (ps_centers o) = k -> length (ps_sizes o) = k ->
     let o1 := fst (iPS_update gen x (- Z.of_nat j) o) in let o2 := fst (iPS_update gen x (Z.of_nat (k - j)) o) in
     ps_centers o1 = ps_centers o2 /\ ps_sizes o1 = ps_sizes o2) /\
  (forall o, length (gd_centers o) = k -> length (gd_sizes o) = k -> length (gd_CP o) = k ->
     let o1 := fst (iGD_update x (- Z.of_nat j) o) in let o2 := fst (iGD_update x (Z.of_nat (k - j)) o) in
     gd_centers o1 = gd_centers o2 /\ gd_sizes o1 = gd_sizes o2 /\ gd_CP o1 = gd_CP o2).
Proof.
  intros A x k j Hj. split; [|split].
  - intros o H1 H2 H3. pose proof (xb_neg x k j o H1 H2 H3 Hj) as E. cbv zeta. revert E. generalize (fst (iXB_update x (- Z.of_nat j) o)) (fst (iXB_update x (Z.of_nat (k - j)) o)).
    intros o1 o2 E. unfold xb_part in E. repeat split; congruence.
  - intros gen o H1 H2. pose proof (ps_neg gen x k j o H1 H2 Hj) as E. cbv zeta. revert E. generalize (fst (iPS_update gen x (- Z.of_nat j) o)) (fst (iPS_update gen x (Z.of_nat (k - j)) o)).
    intros o1 o2 E. unfold ps_part in E. split; congruence.
  - intros o H1 H2 H3. pose proof (gd_neg x k j o H1 H2 H3 Hj) as E. cbv zeta. revert E. generalize (fst (iGD_update x (- Z.of_nat j) o)) (fst (iGD_update x (Z.of_nat (k - j)) o)).
    intros o1 o2 E. unfold gd_part in E. repeat split; congruence.
Qed.
Print Assumptions C97_from_the_end.
(** iSIL.update with label -j: the sample goes to cluster k - j, but the table of
    mean distances, which should follow it, stays as it is (any arithmetic; the call
    may raise later). *)
Theorem C97_iSIL_table_kept : forall (A : Arith) r k j (o : iSIL (A := A)), 1 <= j <= k -> length (sl_centers o) = k -> length (sl_sizes o) = k ->
  let o1 := fst (iSIL_update r (- Z.of_nat j) o) in let o2 := fst (iSIL_update r (Z.of_nat (k - j)) o) in
  sl_N o1 = sl_N o2 /\ sl_centers o1 = sl_centers o2 /\ sl_sizes o1 = sl_sizes o2 /\ sl_sij o1 = sl_sij o.
Proof.
  intros A r k j o Hj H1 H2. pose proof (sl_neg r k j o H1 H2 Hj) as E. pose proof (table_kept r (- Z.of_nat j) o ltac:(lia)) as T. cbv zeta. revert E T.
  generalize (fst (iSIL_update r (- Z.of_nat j) o)) (fst (iSIL_update r (Z.of_nat (k - j)) o)). intros o1 o2 E T. unfold sl_part in E. repeat split; congruence.
Qed.
Print Assumptions C97_iSIL_table_kept.
(** the hypotheses hold after three samples labelled 0, 1, 1, the first call raising *)
Example C97_iSIL_table_kept_hypotheses : forall (A : Arith) (v : nat -> F A),
  let o := chist_after (fun c => iSIL_update (fst c) (snd c)) (iSIL_init (fun r => [v r])) [(0, 0%Z); (1, 1%Z); (2, 1%Z)] in
  1 <= 1 <= 2 /\ length (sl_centers o) = 2 /\ length (sl_sizes o) = 2.
Proof. intros A v. split; [lia|]. split; vm_compute; reflexivity. Qed.
(** iXB takes the distance of the centre to itself for a distance between clusters:
    from the first negative label on it never returns a finite number again,
    whatever labels follow (exact arithmetic, any samples). *)
Theorem C97_iXB_spoilt : forall d (s : data) i, wf d s -> allowed (labels s) -> i < length s -> some_negative (labels (firstn (S i) s)) ->
  exists v, nth_error (chist_results xb_step iXB_init (fin_data s)) i = Some (Ok v) /\ forall r, v <> Fin r.
Proof.
  intros d s i Hw Ha Hi Hn. destruct (proj2 (xbn_run d s Hw Ha) i Hi) as (w & m & E & H). exists (xdiv (Fin w) m). split; auto.
  rewrite (H Hn). intros r. cbn [xdiv]. destruct (Req_EM_T 0 0) as [_|N]; [|now destruct N]. unfold inf_mul. repeat destruct (Rlt_dec _ _); repeat destruct (Req_EM_T _ _); congruence.
Qed.
Print Assumptions C97_iXB_spoilt.

(** ** Examples *)
(** label -1 for a sample of the usual length when there are two clusters: nothing
    raises ValueError, and only iDB leaves the sizes alone (iCH has one cluster then).  Any arithmetic, any
    numbers. *)
Definition neg_calls : list (nat * Z) := [(0, 0%Z); (1, 1%Z); (2, (-1)%Z)].
Theorem C97_refuted : forall (A : Arith) (v : nat -> nat -> F A) w,
  nth 2 (map raised (returned (some v) w neg_calls)) None = match w with wPS_new => Some TypeError | wGD43 | wGD53 => Some AttributeError | wDB => Some IndexError | _ => None end /\
  counted (some v) w neg_calls = match w with wDB => [1; 1] | wCH => [2] | wSIL => [2; 3] | _ => [1; 2] end.
Proof.
  intros A v w. assert (HH : forall r, length (some v r) = length (some (A := blank) (fun _ _ => tt) r)) by (intros r; unfold some; now rewrite !map_length).
  destruct (C96_shapes A blank w _ _ neg_calls HH) as [-> ->]. destruct w; split; vm_compute; reflexivity.
Qed.
Print Assumptions C97_refuted.
(** 0 | 1, then 3 labelled -1, then 5 labelled 0: the last two values are not finite *)
Definition neg_data : data := [([0], 0%Z); ([1], 1%Z); ([3], (-1)%Z); ([5], 0%Z)]%R.
Theorem C97_example_iXB : forall i, i = 2 \/ i = 3 ->
  exists v, nth_error (chist_results xb_step iXB_init (fin_data neg_data)) i = Some (Ok v) /\ forall r, v <> Fin r.
Proof.
  intros i Hi. apply (C97_iXB_spoilt 1).
  - repeat constructor.
  - intros n l H. destruct n as [|[|[|[|n]]]]; cbn in H; try (destruct n; discriminate); injection H as <-; vm_compute; split; discriminate.
  - cbn. lia.
  - exists (-1)%Z. destruct Hi as [->| ->]; cbn; split; auto; lia.
Qed.
Print Assumptions C97_example_iXB.
(** iSIL reads the zeros with which np.pad filled the table: binary64, 0 | 1 | 3
    labelled 1, then 5 labelled -1 *)
Theorem C97_example_iSIL : let A := F64o (plain_pow (fun x => x)) left_right in
  returned (A := A) (fun r => [d_of_Z (nth r [0; 1; 3; 5] 0)%Z]) wSIL [(0, 0%Z); (1, 1%Z); (2, 1%Z); (3, (-1)%Z)] =
  [Err ValueError; Ok S754_nan; Ok S754_nan; Ok (S754_finite false 5764607523034234 (-55))].
Proof. vm_compute. reflexivity. Qed.
Print Assumptions C97_example_iSIL.
