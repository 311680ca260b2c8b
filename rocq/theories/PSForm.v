(** * What PS holds after a stream and after a batch: lemmas for every arithmetic *)
From Coq Require Import ZArith List Arith Bool Lia.
From Verif Require Import Num NumPy Base M_CH M_D M_PS GetCvi Lists Step Step2 StepB Hoare Eval Stream Shapes Generic Nan RunForm BatchForm ValForm.
Import ListNotations.

Section PSForm.
  Context {A : Arith}.

  (** off the diagonal [_D] holds the squared distances of the stored centroids *)
  Definition Dist (a : attrs A) : Prop := forall i j, i < n_clusters a -> j < n_clusters a -> i <> j ->
    entry (D a) i j = sqd (vrow a i) (vrow a j) \/ entry (D a) i j = sqd (vrow a j) (vrow a i).

  Lemma dist_step d s x l (a a1 : attrs A) : Formed kPS d s a -> Dist a -> length x = d ->
    param_inc kPS x (index l (firsts s)) a = (a1, Ok tt) -> Dist a1.
  Proof.
    intros HF HD Hx E0. destruct HF as [Hs Hk Hn Hv _].
    assert (Lv : length (mrows (v a)) = n_clusters a) by (rewrite Hv, map_length, groups_length; auto).
    destruct (in_dec Z.eq_dec l (firsts s)) as [Hin|Hin].
    - assert (HS : Shape kPS d a) by (destruct Hs as [[-> _]|[_ H]]; [destruct Hin|auto]).
      destruct (index_In _ _ Hin) as [Hi _]. rewrite <- Hk in Hi. set (i := index l (firsts s)) in *.
      destruct HS as [HS _]. destruct (PS_old d x i a HS Hx Hi) as (o' & E' & _ & [C1 C2 C3] & C4).
      cbn [param_inc] in E0. rewrite E' in E0. injection E0 as ->.
      assert (Er : forall j, j < n_clusters a -> vrow a1 j = if j =? i then v_upd (nn a i) (vrow a i) x else vrow a j).
      { intros j Hj. unfold vrow at 1. rewrite C3. cbn [mrows]. rewrite nth_upd by (now rewrite Lv). reflexivity. }
      intros p q Hp Hq Hpq. rewrite C1 in Hp, Hq. rewrite C4. unfold D_set. rewrite entry_tab2 by auto.
      rewrite !Er by auto. unfold PSt. destruct (Nat.eqb_spec q i) as [->|Hqi].
      + destruct (Nat.eqb_spec p i) as [->|Hpi]; [contradiction|]. now right.
      + destruct (Nat.eqb_spec p i) as [->|Hpi]; [now left|]. now apply HD.
    - assert (HS : a = init_attrs \/ ShapeP d a) by (destruct Hs as [[_ H]|[_ [H _]]]; auto).
      rewrite index_notIn in E0 by auto. rewrite <- Hk in E0.
      destruct (PS_new d x a HS Hx) as (o' & E' & _ & [C1 C2 C3] & C4).
      cbn [param_inc] in E0. rewrite E' in E0. injection E0 as ->.
      assert (Er : forall j, j < n_clusters a + 1 -> vrow a1 j = if j =? n_clusters a then x else vrow a j).
      { intros j Hj. unfold vrow at 1. rewrite C3. cbn [mrows]. destruct (Nat.eqb_spec j (n_clusters a)) as [->|Hn'].
        - rewrite app_nth2, Lv, Nat.sub_diag by (rewrite Lv; auto). reflexivity.
        - rewrite app_nth1 by (rewrite Lv; lia). reflexivity. }
      intros p q Hp Hq Hpq. rewrite C1 in Hp, Hq. rewrite C4. unfold D_app. rewrite entry_tab2 by lia.
      rewrite !Er by auto. unfold PSt. destruct (Nat.eqb_spec q (n_clusters a)) as [->|Hqi].
      + destruct (Nat.eqb_spec p (n_clusters a)) as [->|Hpi]; [contradiction|]. now right.
      + destruct (Nat.eqb_spec p (n_clusters a)) as [->|Hpi]; [now left|]. apply HD; lia.
  Qed.
  Lemma dist_frame (a a' : attrs A) : Frame a a' -> Dist a -> Dist a'.
  Proof. intros HF HD. destruct HF. unfold Dist, vrow. rewrite fr_D, fr_v, fr_k. exact HD. Qed.

  Lemma dist_stream d s vs : wf_stream d s -> results kPS new_obj (stream s) = map Ok vs -> exists a,
    after kPS new_obj (stream s) = mkObj (lmap (firsts s)) a /\ Formed kPS d s a /\ Dist a.
  Proof.
    revert vs. induction s as [|[x l] s IH] using rev_ind; intros vs Hw Hr.
    - exists init_attrs. split; auto. split; [constructor; auto|]. intros i j Hi. inversion Hi.
    - rewrite stream_app, results_app in Hr.
      assert (exists vs1, results kPS new_obj (stream s) = map Ok vs1) as [vs1 Hr1].
      { exists (firstn (length (stream s)) vs). apply (f_equal (firstn (length (stream s)))) in Hr.
        rewrite <- (results_length kPS new_obj (stream s)) in Hr at 1.
        rewrite firstn_app, firstn_all, Nat.sub_diag, firstn_O, app_nil_r in Hr.
        rewrite Hr. now rewrite firstn_map. }
      destruct (IH vs1 (wf_snoc _ _ _ Hw) Hr1) as (a & Ea & HG & HX).
      rewrite Ea in Hr. unfold results in Hr. cbn [stream map run fst snd] in Hr.
      rewrite stream_app, after_app, Ea. unfold after. cbn [stream map run fst snd].
      unfold get_cvi, update in *. cbn [label_map at_ fst snd] in *. rewrite lmap_get in *.
      destruct (param_inc kPS x (index l (firsts s)) a) as [a1 [[]|e]] eqn:E1.
      2:{ exfalso. cbn [fst snd] in Hr. fold (results kPS new_obj (stream s)) in Hr. rewrite Hr1 in Hr.
          apply (f_equal (@rev _)) in Hr. rewrite rev_app_distr, <- !map_rev in Hr. cbn [rev app] in Hr.
          destruct (rev vs); discriminate Hr. }
      pose proof (formed_step kPS d s x l a a1 HG (wf_last _ _ _ _ Hw) E1) as HG1.
      pose proof (dist_step d s x l a a1 HG HX (wf_last _ _ _ _ Hw) E1) as HX1.
      assert (HS1 : Shape kPS d a1).
      { destruct HG1 as [[[H _]|[_ H]] _ _ _ _]; auto. destruct s; discriminate. }
      destruct (ev_total kPS d a1 HS1) as (a2 & E2 & E3 & HF). cbn [at_ label_map]. rewrite E2. cbn [fst].
      exists a2. rewrite firsts_snoc. split; auto. split; [|eapply dist_frame; eauto].
      eapply formed_frame; eauto. destruct s; discriminate.
  Qed.
  (** the last value of a stream *)
  Theorem ps_stream d s vs r : wf_stream d s -> results kPS new_obj (stream s) = map Ok (vs ++ [r]) -> exists a,
    Formed kPS d s a /\ Dist a /\ r = val_of kPS a.
  Proof.
    intros Hw Hr.
    destruct s as [|p s' _] using rev_ind; [destruct vs; discriminate|]. destruct p as [x l0].
    assert (Hr1 : results kPS new_obj (stream s') = map Ok vs).
    { rewrite stream_app, results_app, map_app in Hr.
      assert (H1 : forall o, exists q, results kPS o (stream [(x, l0)]) = [q]).
      { intros o. pose proof (results_length kPS o (stream [(x, l0)])) as L.
        destruct (results kPS o (stream [(x, l0)])) as [|q [|]]; try discriminate. eauto. }
      destruct (H1 (after kPS new_obj (stream s'))) as [q Eq]. rewrite Eq in Hr.
      now apply app_inj_tail in Hr as [H _]. }
    destruct (dist_stream d s' vs (wf_snoc _ _ _ Hw) Hr1) as (a & Ea & HG & HX).
    rewrite stream_app, results_app, Hr1, map_app in Hr. apply app_inv_head in Hr.
    rewrite Ea in Hr. unfold results in Hr. cbn [stream map run fst snd] in Hr.
    unfold get_cvi, update in Hr. cbn [label_map at_ fst snd] in Hr. rewrite lmap_get in Hr.
    destruct (param_inc kPS x (index l0 (firsts s')) a) as [a1 [[]|e]] eqn:E1; [|discriminate].
    pose proof (formed_step kPS d s' x l0 a a1 HG (wf_last _ _ _ _ Hw) E1) as HG1.
    pose proof (dist_step d s' x l0 a a1 HG HX (wf_last _ _ _ _ Hw) E1) as HX1.
    assert (HS1 : Shape kPS d a1).
    { destruct HG1 as [[[H _]|[_ H]] _ _ _ _]; auto. destruct s'; discriminate. }
    destruct (ev_total kPS d a1 HS1) as (a2 & E2 & E3 & HF). cbn [at_ label_map] in Hr. rewrite E2 in Hr. cbn [fst snd] in Hr.
    exists a1. split; auto. split; auto. congruence.
  Qed.

  Lemma ps_no_sizes (o : attrs A) : 1 < n_clusters o -> list_max (n o) = 0 -> snd (PS_evaluate o) <> Ok tt.
  Proof.
    intros Hk H0. unfold PS_evaluate, bind, get, modify, lift. apply Nat.ltb_lt in Hk as Hk'. rewrite Hk', H0. cbn [Nat.eqb].
    destruct (n_clusters o) as [|k] eqn:Ek; [lia|]. red_attrs. 
    match goal with |- context [mapE ?f (seq 0 (S k))] => destruct (mapE f (seq 0 (S k))) as [sq|e] end; [|discriminate].
    red_attrs. cbn [seq mapE].
    destruct (row (D o) 0) as [d0|e]; [|discriminate]. cbn [bindE].
    destruct (np_delete d0 0) as [d|e]; [|discriminate]. cbn [bindE].
    destruct (get_item (n o) 0) as [n0|e]; discriminate.
  Qed.
  (** one batch *)
  Theorem ps_batch d (s : list (vec A * Z)) r : results kPS new_obj [batch_of d s] = [Ok r] ->
    let m := mkMat d (map fst s) in let ls := map snd s in exists a,
    BCommon m ls a /\ D a = D_sym (n_unique ls) (b_sqd m ls) /\ 1 < n_clusters a /\ r = val_of kPS a.
  Proof.
    intros Hv m ls. unfold results, batch_of in *. cbn [run fst snd] in *. unfold get_cvi, update in *.
    cbn [at_ new_obj label_map init_attrs is_setup] in *.
    destruct (1 <? unique_labels (Labs (map snd s))) eqn:EU; cbn [negb] in *; [|discriminate].
    cbn [unique_labels] in EU. apply Nat.ltb_lt in EU. fold m ls in Hv, EU.
    assert (HC : covers m ls (n_unique ls)).
    { apply covers_le. unfold nrows, m, ls. cbn [mrows]. now rewrite !map_length. }
    destruct (PS_batch m ls HC) as (o' & E' & HB & _ & HD). cbn [param_batch] in Hv. rewrite E' in Hv. cbn [at_ label_map] in Hv.
    exists o'. pose proof (bc_k _ _ _ HB) as Hk. split; [exact HB|]; split; [exact HD|]; split; [rewrite Hk; exact EU|].
    pose proof (bc_v _ _ _ HB) as Hbv. pose proof (bc_n _ _ _ HB) as Hbn.
    unfold val_of. apply Nat.ltb_lt in EU as EU'. rewrite Hk. destruct (Nat.leb_spec (n_unique ls) 1) as [H|_]; [lia|].
    cbn [evaluate] in Hv. destruct (Nat.eq_dec (list_max (n o')) 0) as [H0|H0].
    - exfalso. destruct (PS_evaluate o') as [o2 [[]|e]] eqn:E2; [|discriminate].
      apply (ps_no_sizes o'); [rewrite Hk; exact EU|exact H0|]. now rewrite E2.
    - destruct (PS_eval d o') as (o2 & E2 & E3 & _); auto.
      + rewrite Hk. exact EU.
      + rewrite HD, Hk. apply wfm_tab2.
      + rewrite Hbv, Hk. split; [reflexivity|]. split; [cbn [mrows]; now rewrite map_length, seq_length|].
        cbn [mrows]. apply Forall_forall. intros r' Hr'. apply in_map_iff in Hr' as (ix & <- & _). unfold b_v, smean0. now rewrite map_length, seq_length.
      + rewrite Hbn, Hk. now rewrite map_length, seq_length.
      + cbn [evaluate] in E2. rewrite E2 in Hv. cbn [fst snd] in Hv. congruence.
  Qed.
End PSForm.
