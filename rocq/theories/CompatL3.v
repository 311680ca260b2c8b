(** * Lemmas about iCH and iSIL of compat/v0.py. *)
From Coq Require Import String ZArith List Arith Bool Lia.
From Verif Require Import Num NumPy Lists Compat CompatL CompatL2.
Import ListNotations.
Local Notation length := List.length.

Lemma py_get_idx {X} (l : list X) c p dflt : py_index (length l) c = Ok p -> py_get l c = Ok (nth p l dflt).
Proof.
  intros H. unfold py_get. rewrite H. cbn [bindE]. apply get_item_ok. eapply py_index_bound; eauto.
Qed.
Lemma py_set_idx {X} (l : list X) c p x : py_index (length l) c = Ok p -> py_set l c x = Ok (upd p x l).
Proof. intros H. unfold py_set. now rewrite H. Qed.
Lemma py_get_idx_err {X} (l : list X) c e : py_index (length l) c = Err e -> py_get l c = Err IndexError.
Proof.
  intros H. destruct (py_get l c) as [x|e'] eqn:E.
  - unfold py_get in E. rewrite H in E. discriminate.
  - apply py_get_err in E. now subst.
Qed.

Lemma filter_all {X} (f : X -> bool) l : (forall x, In x l -> f x = true) -> filter f l = l.
Proof.
  induction l as [|a l IH]; intros H; cbn; [auto|]. rewrite (H a) by now left. f_equal. apply IH. intros; apply H. now right.
Qed.

Section P.
  Context {A : Arith}.
  Notation F := (F A).
  Notation vec := (list F).
  Local Open Scope compat_scope.

  (** ** iCH *)
  Definition CHW (d k : nat) (o : iCH (A := A)) : Prop :=
    ch_clusters o = 0 /\ length (ch_centers o) = k /\ Forall (fun c => length c = d) (ch_centers o) /\
    length (ch_sizes o) = k /\ length (ch_WGSS_i o) = k /\ length (ch_BGSS_i o) = k /\ len_g d (ch_g o) /\
    len_g d (ch_center o).
  (** what every call does first (v0.py:447-450) *)
  Definition ch_mean (x : vec) (o : iCH (A := A)) : vec :=
    vdivn (match ch_center o with
           | None => map (fadd (fmul (f_of_nat (ch_N o + 1 - 1)) f0)) x
           | Some c => map2 fadd (scal (f_of_nat (ch_N o + 1 - 1)) c) x
           end) (ch_N o + 1).
  Definition ch_start (x : vec) (o : iCH (A := A)) : iCH := set_ch_center (Some (ch_mean x o)) (set_ch_N (ch_N o + 1) o).
  Lemma length_ch_mean d k x o : CHW d k o -> length x = d -> length (ch_mean x o) = d.
  Proof.
    intros (_ & _ & _ & _ & _ & _ & _ & H) Hx. unfold ch_mean, vdivn. rewrite map_length.
    destruct (ch_center o); [|now rewrite map_length]. cbn in H. rewrite length_map2, length_scal. lia.
  Qed.
  Lemma ch_start_W d k x o : CHW d k o -> length x = d -> CHW d k (ch_start x o).
  Proof.
    intros H Hx. pose proof (length_ch_mean d k x o H Hx) as Hm. destruct H as (H0 & H1 & H2 & H3 & H4 & H5 & H6 & H7).
    unfold ch_start. split; [|split; [|split; [|split; [|split; [|split; [|split]]]]]]; auto.
  Qed.
  Lemma iCH_value_ok d k c p o : CHW d k o -> py_index k c = Ok p -> (exists m, ch_center o = Some m) ->
    exists o', iCH_value c o = (o', Ok (ch_output o')) /\ CHW d k o' /\ ch_centers o' = ch_centers o /\ ch_sizes o' = ch_sizes o /\
      ch_N o' = ch_N o /\ ((k <= 1 \/ ch_N o <= k) -> ch_output o' = f0).
  Proof.
    intros (H0 & H1 & H2 & H3 & H4 & H5 & H6 & H7) Hp [m Em]. rewrite Em in H7. cbn in H7.
    pose proof (py_index_bound _ _ _ Hp) as Hb.
    assert (Hv : length (nth p (ch_centers o) []) = d) by (rewrite Forall_forall in H2; apply H2, nth_In; lia).
    unfold iCH_value. sm.
    rewrite (py_get_idx (ch_BGSS_i o) c p f0) by (now rewrite H5).
    cbn [ch_sizes ch_centers set_ch_BGSS ch_center].
    rewrite (py_get_idx (ch_sizes o) c p 0) by (now rewrite H3).
    rewrite (py_get_idx (ch_centers o) c p []) by (now rewrite H1).
    rewrite Em. rewrite vsub_ok by lia.
    rewrite (py_set_idx (ch_BGSS_i o) c p) by (now rewrite H5).
    cbn [ch_BGSS_i set_ch_BGSS_i].
    rewrite (py_get_idx _ c p f0) by (now rewrite length_upd, H5).
    eexists. split; [reflexivity|]. split; [|split; [|split; [|split]]]; try reflexivity.
    - split; [|split; [|split; [|split; [|split; [|split; [|split]]]]]]; auto.
      + cbn. now rewrite length_upd.
      + cbn. now rewrite Em.
    - intros Hk. cbn [ch_output set_ch_output ch_centers ch_N set_ch_BGSS set_ch_BGSS_i]. rewrite H1. destruct ((1 <? k) && (k <? ch_N o)) eqn:E; auto. apply andb_true_iff in E.
      destruct E as [E1 E2]. apply Nat.ltb_lt in E1, E2. lia.
  Qed.
  Lemma iCH_mean_ok d k x o : CHW d k o -> length x = d -> iCH_mean x o = (ch_start x o, Ok tt).
  Proof.
    intros (H0 & H1 & H2 & H3 & H4 & H5 & H6 & H7) Hx. unfold iCH_mean. sm.
    cbn [ch_center ch_N set_ch_N]. unfold ch_start, ch_mean. destruct (ch_center o) as [c|] eqn:Ec; cbn in H7.
    - rewrite vadd_ok by (rewrite length_scal; lia). reflexivity.
    - reflexivity.
  Qed.
  (** label 0: always a new cluster *)
  Lemma iCH_zero d k x o : CHW d k o -> length x = d ->
    exists o', iCH_update x 0 o = (o', Ok (ch_output o')) /\ CHW d (S k) o' /\ ch_centers o' = ch_centers o ++ [x] /\
      ch_sizes o' = ch_sizes o ++ [1] /\ ch_N o' = ch_N o + 1 /\ ((k = 0 \/ ch_N o <= k) -> ch_output o' = f0).
  Proof.
    intros HW Hx. unfold iCH_update. unfold sbind at 1. rewrite (iCH_mean_ok d k) by auto.
    pose proof (ch_start_W d k x o HW Hx) as (H0 & H1 & H2 & H3 & H4 & H5 & H6 & H7).
    set (o1 := ch_start x o) in *.
    assert (Eo : ch_centers o1 = ch_centers o /\ ch_sizes o1 = ch_sizes o /\ ch_N o1 = ch_N o + 1) by (repeat split).
    assert (Em : exists m, ch_center o1 = Some m) by (cbn; eauto).
    clearbody o1. destruct Eo as (<- & <- & Eo).
    unfold sbind at 1, iCH_place at 1, sbind at 1, sget at 1. rewrite H0. cbn [Z.of_nat Z.eqb].
    sm.
    match goal with |- context [iCH_value 0 ?s] => set (o2 := s) end.
    destruct (iCH_value_ok d (S k) 0 0 o2) as (o3 & E & W3 & E1 & E2 & E3 & E4).
    - unfold o2. split; [|split; [|split; [|split; [|split; [|split; [|split]]]]]]; cbn; rewrite ?app_length; cbn; auto; try lia.
      apply Forall_app; auto.
    - apply (py_index_nat (S k) 0). lia.
    - exact Em.
    - exists o3. split; [exact E|]. split; [auto|]. split; [exact E1|]. split; [exact E2|]. split; [now rewrite E3|].
      intros Hk. apply E4. cbn. destruct Hk; [left; lia|right; lia].
  Qed.
  (** any other label: an index into the clusters made by label 0 *)
  Lemma iCH_other d k x c o : CHW d k o -> length x = d -> c <> 0%Z ->
    match py_index k c with
    | Err _ => iCH_update x c o = (ch_start x o, Err (if (Z.of_nat k <? c)%Z then ValueError else IndexError))
    | Ok p => exists o', iCH_update x c o = (o', Ok (ch_output o')) /\ CHW d k o' /\
        ch_centers o' = upd p (cu_v x (nth p (ch_centers o) []) (nth p (ch_sizes o) 0)) (ch_centers o) /\
        ch_sizes o' = upd p (nth p (ch_sizes o) 0 + 1) (ch_sizes o) /\ ch_N o' = ch_N o + 1
    end.
  Proof.
    intros HW Hx Hc. unfold iCH_update. unfold sbind at 1 3. rewrite (iCH_mean_ok d k) by auto.
    pose proof (ch_start_W d k x o HW Hx) as HW1. pose proof HW1 as (H0 & H1 & H2 & H3 & H4 & H5 & H6 & H7).
    set (o1 := ch_start x o) in *.
    assert (Eo : ch_centers o1 = ch_centers o /\ ch_sizes o1 = ch_sizes o /\ ch_N o1 = ch_N o + 1) by (repeat split).
    assert (Em : exists m, ch_center o1 = Some m) by (cbn; eauto).
    clearbody o1. destruct Eo as (<- & <- & Eo).
    assert (Eq : (c =? Z.of_nat (ch_clusters o1))%Z = false) by (rewrite H0; now apply Z.eqb_neq).
    destruct (py_index k c) as [p|e] eqn:Ep.
    - pose proof (py_index_bound _ _ _ Ep) as Hp.
      assert (Hlt : (Z.of_nat k <? c)%Z = false).
      { apply Z.ltb_ge. destruct (Z.le_gt_cases (Z.of_nat k) c); [|lia]. rewrite py_index_high in Ep by auto. discriminate. }
      unfold sbind at 1, iCH_place at 1, sbind at 1, sget at 1. rewrite Eq, H3, Hlt. sm.
      assert (Hv : length (nth p (ch_centers o1) []) = d) by (rewrite Forall_forall in H2; apply H2, nth_In; lia).
      rewrite (py_get_idx (ch_WGSS_i o1) c p f0) by (now rewrite H4).
      rewrite (py_get_idx (ch_centers o1) c p []) by (now rewrite H1).
      rewrite (py_get_idx (ch_sizes o1) c p 0) by (now rewrite H3).
      rewrite (CP_update_eq d) by auto.
      rewrite (py_set_idx (ch_WGSS_i o1) c p) by (now rewrite H4).
      rewrite (py_set_idx (ch_centers o1) c p) by (now rewrite H1).
      rewrite (py_set_idx (ch_sizes o1) c p) by (now rewrite H3).
      cbn [ch_WGSS_i set_ch_WGSS_i set_ch_g set_ch_centers set_ch_sizes set_ch_WGSS].
      rewrite (py_get_idx _ c p f0) by (now rewrite length_upd, H4).
      match goal with |- context [iCH_value c ?s] => set (o2 := s) end.
      destruct (iCH_value_ok d k c p o2) as (o3 & E & W3 & E1 & E2 & E3 & E4).
      + unfold o2. split; [|split; [|split; [|split; [|split; [|split; [|split]]]]]]; cbn; rewrite ?length_upd; auto.
        * apply Forall_upd; auto. now apply length_cu_v.
        * apply length_cu_g; auto. now apply len_g_or.
      + auto.
      + exact Em.
      + exists o3. split; [exact E|]. split; [auto|]. split; [exact E1|]. split; [exact E2|]. now rewrite E3.
    - unfold sbind at 1, iCH_place at 1, sbind at 1, sget at 1. rewrite Eq, H3.
      destruct (Z.of_nat k <? c)%Z; [reflexivity|]. sm.
      rewrite (py_get_idx_err (ch_WGSS_i o1) c e) by (now rewrite H4). reflexivity.
  Qed.

  (** ** iSIL *)
  Definition SLW (d k : nat) (o : iSIL (A := A)) : Prop :=
    length (sl_centers o) = k /\ Forall (fun c => length c = d) (sl_centers o) /\ length (sl_sizes o) = k /\
    length (sl_CP o) = k /\ length (sl_g o) = k /\ wfm k k (sl_b o) /\
    (k <> 0 -> wfm (S k) (S k) (sl_sij o)) /\ (forall r, length (sl_heap o r) = d).

  (** nothing but cp_update changes the caller's arrays *)
  Definition same_heap (h : nat -> vec) (g : list nat) (o : iSIL (A := A)) : Prop := sl_heap o = h /\ sl_g o = g.
  Lemma sil_place_heap r c h g n :
    tri (fun o => same_heap h g o /\ length (sl_sizes o) = n) (iSIL_place r c)
        (fun _ => same_heap h (if (c =? Z.of_nat n)%Z then g ++ [r] else g))
        (same_heap h (if (c =? Z.of_nat n)%Z then g ++ [r] else g)).
  Proof.
    set (g' := if (c =? Z.of_nat n)%Z then g ++ [r] else g).
    unfold iSIL_place. eapply tri_bind; [apply tri_get|]. intros o. apply tri_eq. intros [[Hh Hg] Hn].
    eapply (tri_bind _ _ _ (fun _ => same_heap h g')).
    { rewrite Hn. unfold g'. destruct (c =? Z.of_nat n)%Z.
      - intros s ->. sm. split; cbn; congruence.
      - destruct (_ <? _)%Z; intros s ->; sm; now split. }
    intros _. eapply (tri_bind _ _ _ (fun _ => same_heap h g')).
    { apply tri_mod. intros s [H1 H2]. now split. }
    intros _. eapply tri_bind; [apply tri_get|]. intros o1. apply tri_eq. intros H1.
    assert (HP : forall s, s = o1 -> same_heap h g' s) by (now intros s ->).
    eapply (tri_bind _ _ _ (fun _ s => s = o1)); [apply tri_lift; eauto|]. intros v_c.
    eapply (tri_bind _ _ _ (fun _ s => s = o1)); [apply tri_lift; eauto|]. intros n_c.
    eapply (tri_bind _ _ _ (fun _ s => s = o1)); [apply tri_lift; eauto|]. intros [v' n'].
    eapply (tri_bind _ _ _ (fun _ s => s = o1)); [apply tri_lift; eauto|]. intros l1.
    intros s ->. sm. destruct (py_set (sl_sizes o1) c n'); apply H1.
  Qed.
  Lemma sil_table_heap r c h g : tri (same_heap h g) (iSIL_table r c) (fun _ => same_heap h g) (same_heap h g).
  Proof.
    unfold iSIL_table. eapply tri_bind; [apply tri_get|]. intros o0.
    apply tri_pre with (P' := same_heap h g); [now intros s [_ Hs]|]. cbv zeta.
    apply tri_for. intros i _. apply tri_for. intros j _.
    eapply tri_bind; [apply tri_get|]. intros o. apply tri_eq. intros H1.
    assert (HP : forall s, s = o -> same_heap h g s) by (now intros s ->). cbv zeta.
    do 7 (eapply (tri_bind _ _ _ (fun _ s => s = o)); [apply tri_lift; eauto|]; intros ?).
    eapply (tri_bind _ _ _ (fun _ s => s = o)); [apply tri_lift; eauto|]. intros m.
    apply tri_mod. intros s ->. exact H1.
  Qed.
  Lemma sil_cp_heap r c h g :
    tri (same_heap h g) (iSIL_cp_update r c)
      (fun _ o => sl_g o = g /\ exists rg y, py_get g c = Ok rg /\ iadd (h rg) (h r) = Ok y /\ sl_heap o = heap_set h rg y)
      (same_heap h g).
  Proof.
    unfold iSIL_cp_update. eapply tri_bind; [apply tri_get|]. intros o. apply tri_eq. intros [Hh Hg]. cbv zeta.
    assert (HP : forall s, s = o -> same_heap h g s) by (intros s ->; now split).
    eapply (tri_bind _ _ _ (fun _ s => s = o)); [apply tri_lift; eauto|]. intros cp.
    eapply (tri_bind _ _ _ (fun _ s => s = o)); [apply tri_lift; eauto|]. intros l3.
    intros s ->. sm. cbn [sl_g sl_heap set_sl_CP]. rewrite Hh, Hg.
    destruct (py_get g c) as [rg|] eqn:Eg; [|now split].
    destruct (iadd (h rg) (h r)) as [y|] eqn:Ey; [|now split].
    split; [exact Hg|]. exists rg, y. split; [reflexivity|]. split; [exact Ey|]. reflexivity.
  Qed.
  Lemma sil_value_heap c (P : iSIL (A := A) -> Prop) : (forall o y, P o -> P (set_sl_output y o)) ->
    tri P (iSIL_value c) (fun _ => P) P.
  Proof.
    intros HP. unfold iSIL_value. eapply tri_bind; [apply tri_get|]. intros o. apply tri_eq. intros Ho.
    intros s ->. sm. destruct (mapE _ _); auto.
  Qed.
  (** what a call can do to the caller's arrays and to the list g *)
  Lemma iSIL_heap r c (o o' : iSIL (A := A)) res : iSIL_update r c o = (o', res) ->
    let g' := if (c =? Z.of_nat (length (sl_sizes o)))%Z then sl_g o ++ [r] else sl_g o in
    sl_g o' = g' /\
    (sl_heap o' = sl_heap o \/
     exists rg y, py_get g' c = Ok rg /\ iadd (sl_heap o rg) (sl_heap o r) = Ok y /\ sl_heap o' = heap_set (sl_heap o) rg y).
  Proof.
    intros E g'. set (h := sl_heap o).
    pose (Q := fun o' : iSIL (A := A) => sl_g o' = g' /\ exists rg y, py_get g' c = Ok rg /\ iadd (h rg) (h r) = Ok y /\ sl_heap o' = heap_set h rg y).
    pose (R := fun o' : iSIL (A := A) => same_heap h g' o' \/ Q o').
    assert (HR : R o').
    { assert (HT : tri (fun s => same_heap h (sl_g o) s /\ length (sl_sizes s) = length (sl_sizes o)) (iSIL_update r c) (fun _ => R) R).
      { unfold iSIL_update.
        eapply (tri_bind _ _ _ (fun _ => same_heap h g')).
        { intros s Hs. pose proof (sil_place_heap r c h (sl_g o) (length (sl_sizes o)) s Hs) as H. fold g' in H.
          destruct (iSIL_place r c s) as [s' [x|e]]; [auto|left; auto]. }
        intros _. eapply (tri_bind _ _ _ (fun _ => same_heap h g')).
        { intros s Hs. pose proof (sil_table_heap r c h g' s Hs) as H.
          destruct (iSIL_table r c s) as [s' [x|e]]; [auto|left; auto]. }
        intros _. eapply (tri_bind _ _ _ (fun _ => Q)).
        { intros s Hs. pose proof (sil_cp_heap r c h g' s Hs) as H.
          destruct (iSIL_cp_update r c s) as [s' [x|e]]; [auto|left; auto]. }
        intros _ s Hs. assert (HQ : forall s y, Q s -> Q (set_sl_output y s)) by (intros s' y Hq; exact Hq).
        pose proof (sil_value_heap c Q HQ s Hs) as H. destruct (iSIL_value c s) as [s' [x|e]]; right; auto. }
      assert (HP0 : same_heap h (sl_g o) o /\ length (sl_sizes o) = length (sl_sizes o)) by (split; [now split|reflexivity]).
      specialize (HT o HP0). rewrite E in HT. destruct res; auto. }
    destruct HR as [[H1 H2]|[H1 H2]]; split; auto.
  Qed.

  (** *** calls with arrays of one length *)
  Lemma entry_pad c (m : mat A) r k i j : wfm r k m -> i < S r -> j < S k ->
    entry (pad c m) i j = if (i <? r) && (j <? k) then entry m i j else c.
  Proof.
    intros (H1 & H2 & H3) Hi Hj. unfold pad, nrows. rewrite H1, H2. unfold entry at 1, tab2. cbn [mrows].
    rewrite nth_map_seq by lia. now rewrite nth_map_seq by lia.
  Qed.
  Lemma wfm_pad2 r k c (m : mat A) : wfm r k m -> wfm (S r) (S k) (pad c m).
  Proof. intros (H1 & H2 & H3). unfold pad, nrows. rewrite H1, H2. apply wfm_tab2. Qed.
  (** shape of the attributes, [n] rows in sij *)
  Definition SLD (d k : nat) (o : iSIL (A := A)) : Prop :=
    length (sl_centers o) = k /\ Forall (fun c => length c = d) (sl_centers o) /\ length (sl_sizes o) = k /\
    length (sl_CP o) = k /\ length (sl_g o) = k /\ wfm k k (sl_b o) /\
    (forall i j, i < k -> j < k -> entry (sl_b o) i j = finf) /\
    (k <> 0 -> wfm (S k) (S k) (sl_sij o)) /\ (forall r, In r (sl_g o) -> length (sl_heap o r) = d).
  Lemma SLD_init d h : SLD d 0 (iSIL_init h).
  Proof.
    repeat split; cbn; auto; try lia; intros ? [].
  Qed.
  Lemma sil_place_new d k r o : SLD d k o -> length (sl_heap o r) = d ->
    exists o1, iSIL_place r (Z.of_nat k) o = (o1, Ok tt) /\ SLD d (S k) o1 /\ sl_heap o1 = sl_heap o /\
      sl_g o1 = sl_g o ++ [r] /\
      forall i j, i < k -> j < k -> entry (sl_sij o1) i j = finf.
  Proof.
    intros (H1 & H2 & H3 & H4 & H5 & H6 & H7 & H8 & H9) Hr. unfold iSIL_place. sm.
    rewrite H3, Z.eqb_refl.
    cbn [sl_centers sl_sizes set_sl_centers set_sl_sizes set_sl_sc set_sl_b set_sl_sij set_sl_CP set_sl_g set_sl_N].
    rewrite (py_get_nat _ k (sl_heap o r)) by (rewrite nth_error_app2, <- H1, Nat.sub_diag by lia; reflexivity).
    rewrite (py_get_nat _ k 1) by (rewrite nth_error_app2, <- H3, Nat.sub_diag by lia; reflexivity).
    rewrite (center_update_eq d) by auto. cbv iota beta.
    rewrite !py_set_nat by (rewrite app_length; cbn; lia).
    cbn [sl_centers sl_sizes set_sl_centers set_sl_sizes set_sl_sc set_sl_b set_sl_sij set_sl_CP set_sl_g set_sl_N].
    eexists. split; [reflexivity|].
    pose proof (wfm_pad k finf (sl_b o) H6) as Hp.
    split; [|split; [reflexivity|split; [reflexivity|]]].
    - split; [|split; [|split; [|split; [|split; [|split; [|split; [|split]]]]]]];
        cbn [sl_centers sl_sizes sl_CP sl_g sl_b sl_sij sl_heap set_sl_centers set_sl_sizes set_sl_sc set_sl_b set_sl_sij set_sl_CP set_sl_g set_sl_N].
      + rewrite length_upd, app_length. cbn. lia.
      + apply Forall_upd; [now apply length_cu_v|]. apply Forall_app. auto.
      + rewrite length_upd, app_length. cbn. lia.
      + rewrite app_length. cbn. lia.
      + rewrite app_length. cbn. lia.
      + exact Hp.
      + intros i j Hi Hj. rewrite (entry_pad _ _ k k) by auto. destruct (_ && _) eqn:E; auto.
        apply andb_true_iff in E. destruct E as [E1 E2]. apply Nat.ltb_lt in E1, E2. auto.
      + intros _. now apply wfm_pad2.
      + intros r' Hr'. apply in_app_or in Hr' as [Hr'|[<-|[]]]; auto.
    - intros i j Hi Hj.
      cbn [sl_sij set_sl_centers set_sl_sizes set_sl_sc set_sl_b set_sl_sij set_sl_CP set_sl_g set_sl_N].
      rewrite (entry_pad _ _ (S k) (S k)) by (auto; lia).
      replace ((i <? S k) && (j <? S k)) with true by (symmetry; apply andb_true_iff; rewrite !Nat.ltb_lt; lia).
      rewrite (entry_pad _ _ k k) by (auto; lia).
      replace ((i <? k) && (j <? k)) with true by (symmetry; apply andb_true_iff; rewrite !Nat.ltb_lt; lia). auto.
  Qed.
  Lemma sil_place_old d k r o (i : nat) : SLD d k o -> length (sl_heap o r) = d -> i < k ->
    exists o1, iSIL_place r (Z.of_nat i) o = (o1, Ok tt) /\ SLD d k o1 /\ sl_heap o1 = sl_heap o /\ sl_g o1 = sl_g o /\
      sl_sij o1 = sl_sij o.
  Proof.
    intros (H1 & H2 & H3 & H4 & H5 & H6 & H7 & H8 & H9) Hr Hi. unfold iSIL_place. sm. rewrite H3.
    replace (Z.of_nat i =? Z.of_nat k)%Z with false by (symmetry; apply Z.eqb_neq; lia).
    replace (Z.of_nat k <? Z.of_nat i)%Z with false by (symmetry; apply Z.ltb_ge; lia).
    cbn [sl_centers sl_sizes set_sl_N].
    assert (Hv : length (nth i (sl_centers o) []) = d) by (rewrite Forall_forall in H2; apply H2, nth_In; lia).
    rewrite (py_get_nat (sl_centers o) i (nth i (sl_centers o) [])) by (apply nth_error_nth'; lia).
    rewrite (py_get_nat (sl_sizes o) i (nth i (sl_sizes o) 0)) by (apply nth_error_nth'; lia).
    rewrite (center_update_eq d) by auto. cbv iota beta. rewrite !py_set_nat by lia.
    eexists. split; [reflexivity|]. split; [|repeat split].
    split; [|split; [|split; [|split; [|split; [|split; [|split; [|split]]]]]]]; cbn; rewrite ?length_upd; auto.
    apply Forall_upd; auto. now apply length_cu_v.
  Qed.
  Lemma s_ij_new_ok d (x : vec) i j J nj njo cp vj vi g old : length x = d -> length vj = d -> length vi = d -> length g = d ->
    exists y, s_ij_new x i j J nj njo cp vj vi g old = Ok y /\ (Z.of_nat i <> J -> Z.of_nat j <> J -> y = old).
  Proof.
    intros Hx Hj Hi Hg. unfold s_ij_new. rewrite !vsub_ok by lia. cbn [bindE].
    destruct (Z.of_nat i =? J)%Z eqn:Ei; cbn [negb]; destruct (Z.of_nat j =? J)%Z eqn:Ej;
      rewrite ?inner_ok by lia; cbn [bindE]; eexists; (split; [reflexivity|]); intros; auto;
      apply Z.eqb_eq in Ei || apply Z.eqb_eq in Ej; contradiction.
  Qed.
  Lemma entry_mset r k (m m' : mat A) a b x i j : wfm r k m -> a < r -> b < k ->
    mset m (Z.of_nat a) (Z.of_nat b) x = Ok m' ->
    wfm r k m' /\ entry m' i j = if (i =? a) && (j =? b) then x else entry m i j.
  Proof.
    intros Hm Ha Hb. pose proof (wfm_row r k m a Hm Ha) as Hr. destruct Hm as (H1 & H2 & H3). unfold mset, nrows.
    rewrite H1, H2, !py_index_nat by auto. cbn [bindE]. intros E. injection E as <-. split.
    - repeat split; cbn; [now rewrite length_upd|]. apply Forall_upd; auto. now rewrite length_upd.
    - unfold entry. cbn [mrows]. rewrite nth_upd by lia. destruct (i =? a) eqn:Ei; cbn [andb]; auto.
      apply Nat.eqb_eq in Ei. subst i. now rewrite nth_upd by lia.
  Qed.
  Lemma sil_table_ok d k r o (i0 : nat) : SLD d k o -> length (sl_heap o r) = d -> k <> 0 ->
    exists m, iSIL_table r (Z.of_nat i0) o = (set_sl_sij m o, Ok tt) /\ wfm (S k) (S k) m /\
      forall i j, i <> i0 -> j <> i0 -> entry m i j = entry (sl_sij o) i j.
  Proof.
    intros (H1 & H2 & H3 & H4 & H5 & H6 & H7 & H8 & H9) Hr Hk. specialize (H8 Hk).
    unfold iSIL_table. unfold sbind at 1, sget at 1. cbv zeta. rewrite H3.
    pose (P := fun s : iSIL (A := A) => exists m, s = set_sl_sij m o /\ wfm (S k) (S k) m /\
      forall i j, i <> i0 -> j <> i0 -> entry m i j = entry (sl_sij o) i j).
    match goal with |- context [sfor ?l ?b ?s0] => destruct (sfor_inv P l b s0) as (s' & E & m & -> & Hm & He) end.
    - intros i s Hi HP. apply in_seq in Hi. apply sfor_inv; auto. clear s HP.
      intros j s Hj (m & -> & Hm & He). apply in_seq in Hj. sm.
      cbn [sl_sizes sl_CP sl_centers sl_g sl_sij sl_heap set_sl_sij].
      rewrite (get_item_ok (sl_sizes o) j 0), (get_item_ok (sl_CP o) j f0), (get_item_ok (sl_centers o) j []),
        (get_item_ok (sl_centers o) i []), (get_item_ok (sl_g o) j 0) by lia.
      rewrite (mget_ok (S k)) by (auto; lia).
      rewrite Forall_forall in H2.
      destruct (s_ij_new_ok d (sl_heap o r) i j (Z.of_nat i0) (nth j (sl_sizes o) 0) (nth j (sl_sizes o) 0 - 1)
        (nth j (sl_CP o) f0) (nth j (sl_centers o) []) (nth i (sl_centers o) []) (sl_heap o (nth j (sl_g o) 0)) (entry m i j))
        as (y & Ey & Hy); auto; try (apply H2, nth_In; lia); try (apply H9, nth_In; lia).
      rewrite Ey. destruct (mset_ok (S k) m i j y Hm) as (m' & Em & Hm'); try lia. rewrite Em.
      eexists. split; [reflexivity|]. exists m'. split; [reflexivity|]. split; auto.
      intros a b Ha Hb. destruct (entry_mset (S k) (S k) m m' i j y a b Hm ltac:(lia) ltac:(lia) Em) as [_ Hent].
      rewrite Hent. destruct ((a =? i) && (b =? j)) eqn:Eab; auto. apply andb_true_iff in Eab. destruct Eab as [Ea Eb].
      apply Nat.eqb_eq in Ea, Eb. subst a b. rewrite Hy by lia. auto.
    - exists (sl_sij o). split; [now destruct o|]. split; auto.
    - exists m. split; [exact E|]. auto.
  Qed.
  Lemma sil_cp_ok d k r o (i0 : nat) : SLD d k o -> length (sl_heap o r) = d -> i0 < k ->
    exists o1, iSIL_cp_update r (Z.of_nat i0) o = (o1, Ok tt) /\ SLD d k o1 /\ sl_sij o1 = sl_sij o /\ sl_g o1 = sl_g o /\
      let rg := nth i0 (sl_g o) 0 in sl_heap o1 = heap_set (sl_heap o) rg (map2 fadd (sl_heap o rg) (sl_heap o r)).
  Proof.
    intros (H1 & H2 & H3 & H4 & H5 & H6 & H7 & H8 & H9) Hr Hi. unfold iSIL_cp_update. sm.
    assert (Hg : length (sl_heap o (nth i0 (sl_g o) 0)) = d) by (apply H9, nth_In; lia).
    rewrite (py_get_nat (sl_CP o) i0 (nth i0 (sl_CP o) f0)) by (apply nth_error_nth'; lia).
    rewrite py_set_nat by lia. cbn [sl_g sl_heap set_sl_CP].
    rewrite (py_get_nat (sl_g o) i0 (nth i0 (sl_g o) 0)) by (apply nth_error_nth'; lia).
    unfold iadd. rewrite vadd_ok by lia. cbn [bindE].
    rewrite length_map2, Hg, Hr, Nat.min_id, Nat.eqb_refl.
    eexists. split; [reflexivity|]. split; [|repeat split].
    split; [|split; [|split; [|split; [|split; [|split; [|split; [|split]]]]]]]; cbn; rewrite ?length_upd; auto.
    intros r' Hr'. unfold heap_set. destruct (r' =? _); auto. rewrite length_map2, Hg, Hr. lia.
  Qed.
  (** a table of values of [sci] *)
  Definition others_row (m : mat A) (k i i0 : nat) : vec := map (fun j => entry m i j) (others k (Z.of_nat i0)).
  Lemma sil_sci_ok d k o (i i0 : nat) : SLD d k o -> i < k -> i0 < k -> 2 <= k ->
    exists a l, others_row (sl_sij o) k i i0 = a :: l /\
      sci o i (Z.of_nat i0) = Ok (fdiv (fsub (fold_left py_min2 l a) (entry (sl_sij o) i i0))
                                   (py_max2 (entry (sl_sij o) i i0) (fold_left py_max2 l a))).
  Proof.
    intros (H1 & H2 & H3 & H4 & H5 & H6 & H7 & H8 & H9) Hi Hi0 Hk. specialize (H8 ltac:(lia)).
    unfold sci. rewrite H1.
    rewrite (mapE_ok _ (fun j => entry (sl_sij o) i j)).
    2:{ intros j Hj. apply others_In in Hj. apply (mget_ok (S k)); auto; lia. }
    cbn [bindE]. fold (others_row (sl_sij o) k i i0).
    assert (Hne : others_row (sl_sij o) k i i0 <> []).
    { unfold others_row. intros E. apply map_eq_nil in E. apply others_nil in E; lia. }
    destruct (others_row (sl_sij o) k i i0) as [|a l]; [congruence|]. exists a, l. split; auto.
    cbn [py_min py_max bindE]. rewrite (mget_ok (S k)) by (auto; lia). reflexivity.
  Qed.
  Lemma sil_value_one d o : SLD d 1 o -> iSIL_value 0 o = (o, Err ValueError).
  Proof.
    intros (H1 & _). unfold iSIL_value. sm. rewrite H1. cbn [seq mapE]. unfold sci. rewrite H1. reflexivity.
  Qed.
  (** with a single cluster every call raises *)
  Lemma iSIL_one d k r o : SLD d k o -> length (sl_heap o r) = d -> k <= 1 ->
    exists o', iSIL_update r 0 o = (o', Err ValueError) /\ SLD d 1 o' /\
      sl_g o' = (if k =? 0 then sl_g o ++ [r] else sl_g o) /\
      let rg := nth 0 (sl_g o') 0 in sl_heap o' = heap_set (sl_heap o) rg (map2 fadd (sl_heap o rg) (sl_heap o r)).
  Proof.
    intros HW Hr Hk. unfold iSIL_update.
    assert (exists o1, iSIL_place r 0 o = (o1, Ok tt) /\ SLD d 1 o1 /\ sl_heap o1 = sl_heap o /\
              sl_g o1 = (if k =? 0 then sl_g o ++ [r] else sl_g o)) as (o1 & E1 & W1 & Eh1 & Eg1).
    { destruct k as [|[|k]]; [| |lia].
      - destruct (sil_place_new d 0 r o HW Hr) as (o1 & ? & ? & ? & ? & _). exists o1. auto.
      - destruct (sil_place_old d 1 r o 0 HW Hr) as (o1 & ? & ? & ? & ? & _); [lia|]. exists o1. auto. }
    destruct (sil_table_ok d 1 r o1 0 W1 ltac:(now rewrite Eh1)) as (m & E2 & Hm & _); [lia|].
    assert (W2 : SLD d 1 (set_sl_sij m o1)).
    { destruct W1 as (H1 & H2 & H3 & H4 & H5 & H6 & H7 & H8 & H9).
      split; [|split; [|split; [|split; [|split; [|split; [|split; [|split]]]]]]]; cbn; auto. }
    destruct (sil_cp_ok d 1 r _ 0 W2 ltac:(cbn; now rewrite Eh1)) as (o3 & E3 & W3 & _ & Eg3 & Eh3); [lia|].
    exists o3. cbn [Z.of_nat] in *. unfold sbind at 1. rewrite E1. unfold sbind at 1. rewrite E2. unfold sbind at 1. rewrite E3.
    split; [now apply (sil_value_one d)|]. split; auto. split; [rewrite Eg3; exact Eg1|].
    cbv zeta. rewrite Eg3. cbn [sl_heap set_sl_sij sl_g] in *. rewrite Eh3, Eh1. reflexivity.
  Qed.
  (** a call that makes the second or a later cluster *)
  Lemma iSIL_later_new d k r o : SLD d k o -> length (sl_heap o r) = d -> 1 <= k ->
    exists o' cs s, iSIL_update r (Z.of_nat k) o = (o', Ok (fmul (fdiv f1 (f_of_nat (S k))) (py_sum cs))) /\ SLD d (S k) o' /\
      nth_error cs 0 = Some (fdiv (fsub (fold_left py_min2 (repeat finf (k - 1)) finf) s)
                                  (py_max2 s (fold_left py_max2 (repeat finf (k - 1)) finf))).
  Proof.
    intros HW Hr Hk. unfold iSIL_update.
    destruct (sil_place_new d k r o HW Hr) as (o1 & E1 & W1 & Eh1 & _ & He1).
    destruct (sil_table_ok d (S k) r o1 k W1 ltac:(now rewrite Eh1)) as (m & E2 & Hm & He2); [lia|].
    assert (W2 : SLD d (S k) (set_sl_sij m o1)).
    { destruct W1 as (H1 & H2 & H3 & H4 & H5 & H6 & H7 & H8 & H9).
      split; [|split; [|split; [|split; [|split; [|split; [|split; [|split]]]]]]]; cbn; auto. }
    destruct (sil_cp_ok d (S k) r _ k W2 ltac:(cbn; now rewrite Eh1)) as (o3 & E3 & W3 & Es3 & _); [lia|]. cbn [sl_sij set_sl_sij] in Es3.
    unfold sbind at 1. rewrite E1. unfold sbind at 1. rewrite E2. unfold sbind at 1. rewrite E3.
    unfold iSIL_value. sm. assert (Hc : length (sl_centers o3) = S k) by apply W3. rewrite Hc.
    assert (Hrow : others_row (sl_sij o3) (S k) 0 k = finf :: repeat finf (k - 1)).
    { unfold others_row. rewrite Es3. rewrite (map_ext_in _ (fun _ => finf)).
      - assert (Ho : others (S k) (Z.of_nat k) = seq 0 k).
        { unfold others. rewrite seq_S, filter_app. cbn. rewrite Z.eqb_refl. cbn. rewrite app_nil_r.
          apply filter_all. intros j Hj. apply in_seq in Hj. apply negb_true_iff, Z.eqb_neq. lia. }
        rewrite Ho. replace (finf :: repeat finf (k - 1)) with (repeat (finf (a := A)) k) by (destruct k; [lia|cbn; now rewrite Nat.sub_0_r]).
        clear. generalize 0. induction k as [|k IH]; intros n; cbn; [auto|]. now rewrite IH.
      - intros j Hj. apply others_In in Hj. rewrite He2 by lia. apply He1; lia. }
    assert (exists cs, mapE (fun i => sci o3 i (Z.of_nat k)) (seq 0 (S k)) = Ok cs) as [cs Ecs].
    { destruct (mapE _ _) as [cs|e] eqn:E; [eauto|]. exfalso.
      assert (HH : forall l, (forall i, In i l -> i < S k) -> exists cs, mapE (fun i => sci o3 i (Z.of_nat k)) l = Ok cs).
      { induction l as [|i l IH]; intros Hl; [now exists []|]. cbn [mapE].
        destruct (sil_sci_ok d (S k) o3 i k W3) as (a & l' & _ & ->); [apply Hl; now left|lia|lia|]. cbn [bindE].
        destruct IH as [cs ->]; [intros; apply Hl; now right|]. cbn [bindE]. eauto. }
      destruct (HH (seq 0 (S k))) as [cs Hcs]; [intros i Hi; apply in_seq in Hi; lia|]. congruence. }
    rewrite Ecs.
    destruct (sil_sci_ok d (S k) o3 0 k W3) as (a & l & Ea & Es); try lia. rewrite Hrow in Ea. injection Ea as <- <-.
    eexists. exists cs, (entry (sl_sij o3) 0 k). split; [reflexivity|]. split.
    - destruct W3 as (H1 & H2 & H3 & H4 & H5 & H6 & H7 & H8 & H9).
      split; [|split; [|split; [|split; [|split; [|split; [|split; [|split]]]]]]]; cbn; auto.
    - cbn [seq mapE] in Ecs. rewrite Es in Ecs. cbn [bindE] in Ecs. destruct (mapE _ _) in Ecs; cbn [bindE] in Ecs; [|discriminate].
      injection Ecs as <-. reflexivity.
  Qed.
  (** the first call with another label *)
  Lemma iSIL_first_other r c (h : nat -> list F) : c <> 0%Z ->
    exists o', iSIL_update r c (iSIL_init h) = (o', Err (if (0 <? c)%Z then ValueError else IndexError)) /\
      sl_heap (A := A) o' = h /\ sl_g o' = [].
  Proof.
    intros Hc. unfold iSIL_update, iSIL_place. sm. cbn [sl_sizes iSIL_init List.length Z.of_nat].
    apply Z.eqb_neq in Hc. rewrite Hc. destruct (0 <? c)%Z.
    - eexists. repeat split.
    - cbn [sl_centers set_sl_N iSIL_init]. rewrite py_get_nil. eexists. repeat split.
  Qed.
End P.
