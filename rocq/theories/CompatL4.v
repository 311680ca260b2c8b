(** * Lemmas about iXB and class Cluster of compat/v0.py, for every arithmetic. *)
From Coq Require Import String ZArith List Arith Bool Lia.
From Verif Require Import Num NumPy Lists Compat CompatL CompatL2 CompatL3.
Import ListNotations.
Local Notation length := List.length.

Section P.
  Context {A : Arith}.
  Notation F := (F A).
  Notation vec := (list F).
  Local Open Scope compat_scope.

  (** ** iXB *)
  Definition XBW (d k : nat) (o : iXB (A := A)) : Prop :=
    length (xb_centers o) = k /\ Forall (fun c => length c = d) (xb_centers o) /\ length (xb_sizes o) = k /\
    length (xb_WGSS_i o) = k /\ length (xb_min_v_i o) = k /\ len_g d (xb_g o).
  Ltac w6 := split; [|split; [|split; [|split; [|split]]]].
  Ltac xcbn := cbn [xb_WGSS_i xb_WGSS xb_g xb_centers xb_sizes xb_N xb_min_v xb_min_v_i xb_output set_xb_N set_xb_WGSS
                    set_xb_WGSS_i set_xb_g set_xb_centers set_xb_sizes set_xb_min_v set_xb_min_v_i set_xb_output].
  Lemma XBW_init d : XBW d 0 iXB_init.
  Proof. w6; cbn; auto. Qed.
  Lemma xbw_place_new d k x o : XBW d k o -> length x = d ->
    exists o', iXB_place x (Z.of_nat k) o = (o', Ok tt) /\ XBW d (S k) o'.
  Proof.
    intros (H1 & H2 & H3 & H4 & H5 & H6) Hx. unfold iXB_place. sm. xcbn. rewrite H3, Z.eqb_refl. xcbn.
    rewrite (py_get_nat _ k f0) by (rewrite nth_error_app2, <- H4, Nat.sub_diag by lia; reflexivity).
    eexists. split; [reflexivity|]. w6; xcbn; rewrite ?app_length; cbn [List.length]; auto; try lia.
    apply Forall_app; auto.
  Qed.
  (** the increment of the within-group sum of squares of cluster [i] *)
  Definition xb_cp (d : nat) (x : vec) (i : nat) (o : iXB (A := A)) : F :=
    cu_cp x (nth i (xb_centers o) []) (g_or d (xb_g o)) (nth i (xb_sizes o) 0) (nth i (xb_WGSS_i o) f0) 2 2.
  Lemma xbw_place_old d k x o (i : nat) : XBW d k o -> length x = d -> i < k ->
    exists o', iXB_place x (Z.of_nat i) o = (o', Ok tt) /\ XBW d k o' /\ xb_N o' = xb_N o + 1 /\
      xb_WGSS o' = fadd (fsub (xb_WGSS o) (nth i (xb_WGSS_i o) f0)) (xb_cp d x i o).
  Proof.
    intros (H1 & H2 & H3 & H4 & H5 & H6) Hx Hi. unfold iXB_place. sm. xcbn. rewrite H3.
    replace (Z.of_nat i =? Z.of_nat k)%Z with false by (symmetry; apply Z.eqb_neq; lia).
    replace (Z.of_nat k <? Z.of_nat i)%Z with false by (symmetry; apply Z.ltb_ge; lia). xcbn.
    assert (Hv : length (nth i (xb_centers o) []) = d) by (rewrite Forall_forall in H2; apply H2, nth_In; lia).
    rewrite (py_get_nat (xb_WGSS_i o) i (nth i (xb_WGSS_i o) f0)) by (apply nth_error_nth'; lia).
    rewrite (py_get_nat (xb_centers o) i (nth i (xb_centers o) [])) by (apply nth_error_nth'; lia).
    rewrite (py_get_nat (xb_sizes o) i (nth i (xb_sizes o) 0)) by (apply nth_error_nth'; lia).
    rewrite (CP_update_eq d) by auto. cbv iota beta. rewrite !py_set_nat by lia. xcbn.
    rewrite (py_get_nat _ i (xb_cp d x i o)).
    2:{ rewrite nth_error_upd, Nat.eqb_refl, H4. apply Nat.ltb_lt in Hi. now rewrite Hi. }
    eexists. split; [reflexivity|]. split; [|split; reflexivity].
    w6; xcbn; rewrite ?length_upd; auto.
    - apply Forall_upd; auto. now apply length_cu_v.
    - cbn. apply length_cu_g; auto. now apply len_g_or.
  Qed.
  Lemma xbw_place_high d k x o c : XBW d k o -> (Z.of_nat k < c)%Z ->
    iXB_update x c o = (set_xb_N (xb_N o + 1) o, Err ValueError).
  Proof.
    intros (H1 & H2 & H3 & H4 & H5 & H6) Hc. unfold iXB_update, iXB_place. sm. xcbn. rewrite H3.
    replace (c =? Z.of_nat k)%Z with false by (symmetry; apply Z.eqb_neq; lia).
    replace (Z.of_nat k <? c)%Z with true by (symmetry; apply Z.ltb_lt; lia). reflexivity.
  Qed.
  Lemma xbw_value d k o (i : nat) : XBW d k o -> i < k ->
    exists o' m, iXB_value (Z.of_nat i) o = (o', Ok (fdiv (fdiv (xb_WGSS o) (f_of_nat (xb_N o))) m)) /\ XBW d k o'.
  Proof.
    intros (H1 & H2 & H3 & H4 & H5 & H6) Hi. unfold iXB_value.
    unfold sbind at 1, sget at 1. rewrite py_set_nat by lia. unfold sbind at 1, slift at 1. unfold sbind at 1, smod at 1.
    pose (P := fun s : iXB (A := A) => exists l, s = set_xb_min_v_i l o /\ length l = k).
    match goal with |- context [sbind (sfor ?l ?b) _ ?s0] => destruct (sfor_inv P l b s0) as (s1 & E1 & l1 & -> & Hl1) end.
    - intros j s Hj (l & -> & Hl). apply others_In in Hj. sm. xcbn.
      rewrite (py_get_nat l i (nth i l f0)) by (apply nth_error_nth'; lia).
      rewrite (center_dist_eq d) by (auto; lia). rewrite py_set_nat by lia.
      eexists. split; [reflexivity|]. eexists. split; [reflexivity|]. now rewrite length_upd.
    - eexists. split; [reflexivity|]. now rewrite length_upd.
    - unfold sbind at 1. rewrite E1. sm. xcbn.
      rewrite (py_get_nat l1 i (nth i l1 f0)) by (apply nth_error_nth'; lia).
      eexists. eexists. split; [reflexivity|]. w6; xcbn; auto.
  Qed.
  (** labels that are used or next are always accepted *)
  Lemma iXB_accepts d k x o (i : nat) : XBW d k o -> length x = d -> i <= k ->
    exists o' y, iXB_update x (Z.of_nat i) o = (o', Ok y) /\ XBW d (Nat.max k (S i)) o'.
  Proof.
    intros HW Hx Hi. unfold iXB_update, sbind at 1. destruct (Nat.eq_dec i k) as [->|Hne].
    - destruct (xbw_place_new d k x o HW Hx) as (o1 & -> & W1).
      destruct (xbw_value d (S k) o1 k W1) as (o2 & m & E & W2); [lia|].
      rewrite E. exists o2. eexists. split; [reflexivity|]. now replace (Nat.max k (S k)) with (S k) by lia.
    - destruct (xbw_place_old d k x o i HW Hx) as (o1 & -> & W1 & _); [lia|].
      destruct (xbw_value d k o1 i W1) as (o2 & m & E & W2); [lia|].
      rewrite E. exists o2. eexists. split; [reflexivity|]. now replace (Nat.max k (S i)) with k by lia.
  Qed.
  (** a nan square root makes the value nan *)
  Lemma iXB_bad (bad : F -> Prop) d k x o (i : nat) : XBW d k o -> length x = d -> i < k ->
    (forall a b, bad b -> bad (fadd a b)) -> (forall a b, bad a -> bad (fdiv a b)) -> bad (xb_cp d x i o) ->
    exists o' y, iXB_update x (Z.of_nat i) o = (o', Ok y) /\ bad y.
  Proof.
    intros HW Hx Hi Ba Bd Hb. unfold iXB_update, sbind at 1.
    destruct (xbw_place_old d k x o i HW Hx Hi) as (o1 & -> & W1 & HN & HS).
    destruct (xbw_value d k o1 i W1) as (o2 & m & E & W2); [lia|].
    rewrite E. exists o2. eexists. split; [reflexivity|]. rewrite HS. auto.
  Qed.

  (** ** Cluster *)
  Section Cl.
    Variable fle : F -> F -> bool.
    (** no bounding box *)
    Lemma add_wrong_dim (x : vec) i o : cl_points o <> [] -> length x <> cl_dim o ->
      add_point fle x i o = (o, Err AssertionError).
    Proof.
      intros Hp Hd. unfold add_point. sm. destruct (cl_points o); [congruence|].
      replace (cl_dim o =? length x) with false by (symmetry; apply Nat.eqb_neq; auto). reflexivity.
    Qed.
    Lemma add_first (x : vec) i : add_point fle x i (cluster_init true false) =
      (mkCluster true false 1 (Some (vdivn (map (fadd (fmul f0 (f_of_nat 0))) x) 1)) None [x]
         (match i with Some i => [i] | None => [] end) (length x), Ok tt).
    Proof. unfold add_point. sm. cbn [cl_points cl_dim set_cl_dim cluster_init]. rewrite Nat.eqb_refl. destruct i; reflexivity. Qed.
    Lemma add_next (x c : vec) i o : cl_radial o = true -> cl_box o = false -> cl_points o <> [] ->
      cl_center o = Some c -> length c = length x -> cl_dim o = length x ->
      add_point fle x i o =
        (mkCluster true false (cl_len o + 1)
           (Some (vdivn (map2 fadd (map (fun y => fmul y (f_of_nat (cl_len o))) c) x) (cl_len o + 1)))
           (cl_bb o) (cl_points o ++ [x]) (cl_indicies o ++ match i with Some i => [i] | None => [] end) (cl_dim o), Ok tt).
    Proof.
      intros Hr Hb Hp Hc Hl Hd. unfold add_point. sm. destruct (cl_points o) eqn:Ep; [congruence|].
      rewrite Hd, Nat.eqb_refl, Hr, Hc, vadd_ok by (now rewrite map_length). cbn [cl_box set_cl_center]. rewrite Hb.
      destruct o; cbn in *; subst. destruct i; rewrite ?app_nil_r; reflexivity.
    Qed.
    (** a bounding box that is an array of two or more elements *)
    Lemma add_box (x : vec) i o bb : cl_box o = true -> cl_bb o = Some bb -> 2 <= length bb ->
      exists o' e, add_point fle x i o = (o', Err e) /\ cl_box o' = true /\ cl_bb o' = Some bb /\
        cl_points o' = cl_points o /\ cl_len o' = cl_len o.
    Proof.
      intros Hb Hbb Hl.
      pose (I := fun s : cluster (A := A) => cl_box s = true /\ cl_bb s = Some bb /\ cl_points s = cl_points o /\ cl_len s = cl_len o).
      assert (HT : tri I (add_point fle x i) (fun _ _ => False) I).
      { unfold add_point. eapply tri_bind; [apply tri_get|]. intros o1. apply tri_eq. intros H1.
        eapply (tri_bind _ _ _ (fun _ => I)).
        { intros s ->. destruct (cl_points o1) eqn:E; sm; auto. }
        intros _. eapply tri_bind; [apply tri_get|]. intros o2. apply tri_eq. intros H2.
        eapply (tri_bind _ _ _ (fun _ => I)).
        { intros s ->. destruct (_ =? _); sm; auto. }
        intros _. eapply (tri_bind _ _ _ (fun _ => I)).
        { destruct (cl_radial o2); [|intros s Hs; exact Hs].
          eapply (tri_bind _ _ _ (fun _ => I)); [apply tri_lift; eauto|]. intros t.
          apply tri_mod. intros s (? & ? & ? & ?). split; auto. }
        intros _. assert (H2' := H2). destruct H2' as (-> & -> & _).
        eapply (tri_bind _ _ _ (fun _ _ => False)); [|intros _ s []].
        eapply (tri_bind _ _ _ (fun _ => I)); [apply tri_lift; eauto|]. intros mx.
        eapply (tri_bind _ _ _ (fun _ => I)). { intros s Hs. destruct (fle mx f1); sm; auto. }
        intros _. eapply (tri_bind _ _ _ (fun _ => I)); [apply tri_lift; eauto|]. intros mn.
        eapply (tri_bind _ _ _ (fun _ => I)). { intros s Hs. destruct (fle f0 mn); sm; auto. }
        intros _. destruct bb as [|b [|b' bb]]; [cbn in Hl; lia|cbn in Hl; lia|]. intros s Hs. sm. auto. }
      specialize (HT o ltac:(unfold I; auto)). unfold I in HT.
      destruct (add_point fle x i o) as [o' [[]|e]]; [destruct HT|]. exists o', e. split; [reflexivity|exact HT].
    Qed.
    (** an empty bounding box: it stays empty or becomes an array of two or more elements *)
    Lemma box_bb (x : vec) i o : cl_box o = true -> cl_bb o = None ->
      let r := add_point fle x i o in
      cl_box (fst r) = true /\
      (cl_bb (fst r) = None \/ exists bb, cl_bb (fst r) = Some bb /\ 2 <= length bb) /\
      (snd r = Ok tt -> exists bb, cl_bb (fst r) = Some bb /\ 2 <= length bb).
    Proof.
      intros Hb Hbb. cbn zeta.
      pose (I := fun s : cluster (A := A) => cl_box s = true /\ cl_bb s = None).
      pose (J := fun s : cluster (A := A) => cl_box s = true /\ exists bb, cl_bb s = Some bb /\ 2 <= length bb).
      assert (HT : tri I (add_point fle x i) (fun _ => J) I).
      { unfold add_point. eapply tri_bind; [apply tri_get|]. intros o1. apply tri_eq. intros H1.
        eapply (tri_bind _ _ _ (fun _ => I)).
        { intros s ->. destruct (cl_points o1) eqn:E; sm; auto. }
        intros _. eapply tri_bind; [apply tri_get|]. intros o2. apply tri_eq. intros H2.
        eapply (tri_bind _ _ _ (fun _ => I)).
        { intros s ->. destruct (_ =? _); sm; auto. }
        intros _. eapply (tri_bind _ _ _ (fun _ => I)).
        { destruct (cl_radial o2); [|intros s Hs; exact Hs].
          eapply (tri_bind _ _ _ (fun _ => I)); [apply tri_lift; eauto|]. intros t.
          apply tri_mod. intros s (? & ?). split; auto. }
        intros _. destruct H2 as [-> ->].
        eapply (tri_bind _ _ _ (fun _ => J)).
        - destruct x as [|y x']; [intros s Hs; sm; auto|].
          eapply (tri_bind _ _ _ (fun _ => I)); [apply tri_lift; eauto|]. intros mx.
          eapply (tri_bind _ _ _ (fun _ => I)). { intros s Hs. destruct (fle mx f1); sm; auto. }
          intros _. eapply (tri_bind _ _ _ (fun _ => I)); [apply tri_lift; eauto|]. intros mn.
          eapply (tri_bind _ _ _ (fun _ => I)). { intros s Hs. destruct (fle f0 mn); sm; auto. }
          intros _. apply tri_mod. intros s (? & ?). split; auto. eexists. split; [reflexivity|].
          rewrite app_length, map_length. cbn. lia.
        - intros _ s (Hs & bb & Hs' & HL). destruct i; sm; split; cbn; eauto. }
      specialize (HT o ltac:(unfold I; auto)). unfold I, J in HT.
      destruct (add_point fle x i o) as [o' [[]|e]]; cbn [fst snd]; destruct HT as [H1 H2]; repeat split; auto; discriminate.
    Qed.
  End Cl.
End P.
