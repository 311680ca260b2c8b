(** * An infinite feature: streams and batches, for every arithmetic with infinities. *)
From Coq Require Import ZArith List Arith Bool Lia.
From Verif Require Import Num NumPy Base M_CH M_D M_PS GetCvi Lists Step Step2 StepB Hoare Eval Stream Shapes Generic Nan.
From Verif Require Import Inf.
Import ListNotations.

Section InfB.
  Context {A : Arith} (bad : F A -> Prop) (HB : Absorbing bad).
  Context (wild : F A -> Prop) (same : F A -> F A -> Prop) (hot pos : F A -> Prop) (HI : Infinite bad wild same hot pos).
  Notation vnan := (Exists bad).
  Notation at_ j l := (nth j l f0).
  Notation Marked := (Marked bad wild same hot).
  Notation has_inf := (has_nan wild).

  Definition GoodI (c : kind) (d : nat) (s : list (vec A * Z)) (a : attrs A) : Prop :=
    ((s = [] /\ a = init_attrs) \/ (s <> [] /\ Shape c d a)) /\
    n_clusters a = length (firsts s) /\
    (forall l, In l (firsts s) -> nn a (index l (firsts s)) = length (grp s l)) /\
    (forall l, has_inf (grp s l) -> Marked c d (index l (firsts s)) a) /\
    (c = kcSIL -> forall i, i < n_clusters a -> pos (cpi a i)).

  Lemma marked_frame c d i (o o' : attrs A) : Frame o o' -> Marked c d i o -> Marked c d i o'.
  Proof.
    intros [F1 F2 F3 F4 F5 F6 F7 F8 F9 F10 F11 F12 F13 F14 F15 F16 F17]. unfold Inf.Marked, vrow, grow_, cpi, nn.
    intros H. destruct c; rewrite ?F1, ?F2, ?F3, ?F4, ?F5, ?F6, ?F7, ?F8, ?F9, ?F10, ?F11, ?F12, ?F13, ?F14, ?F15, ?F16, ?F17; exact H.
  Qed.

  Lemma goodi_step c d s x l a a1 : GoodI c d s a -> length x = d -> c <> krCIP ->
    param_inc c x (index l (firsts s)) a = (a1, Ok tt) ->
    GoodI c d (s ++ [(x, l)]) a1 /\ (c = kCH \/ c = kWB -> SEP a1 = sep_of a1).
  Proof.
    intros (Hs & Hk & Hn & Ht & Hp) Hx Hc E.
    assert (Hne : s ++ [(x, l)] <> []) by (destruct s; discriminate).
    destruct (in_dec Z.eq_dec l (firsts s)) as [Hin|Hin].
    - destruct (index_In _ _ Hin) as [Hi _]. rewrite <- Hk in Hi.
      assert (HS : Shape c d a). { destruct Hs as [[-> ->]|[_ H]]; auto. destruct Hin. }
      assert (H1 : 1 <= nn a (index l (firsts s))).
      { rewrite Hn by auto. assert (H := grp_ne s l). unfold firsts in Hin. rewrite first_seen_In in Hin. specialize (H Hin).
        destruct (grp s l); [congruence|simpl; lia]. }
      destruct (marked_old bad HB wild same hot pos HI c d x _ a a1 HS Hx Hc Hi H1 Hp E) as (S' & [N1 N2 N3] & Sp & T1 & T2 & T3).
      destruct (Shape_init _ _ _ HS) as (_ & Ln & _ & _).
      split; auto. unfold GoodI. rewrite firsts_snoc. unfold add_label.
      destruct (in_dec Z.eq_dec l (firsts s)); [|contradiction].
      split; auto. split; [congruence|]. split; [|split; auto].
      + intros l' Hl'. unfold nn. rewrite N2, nth_upd, grp_snoc, app_length by lia.
        destruct (Nat.eqb_spec (index l' (firsts s)) (index l (firsts s))) as [Ei|Ei].
        * apply index_inj in Ei; auto. subst l'. rewrite Hn, Z.eqb_refl by auto. reflexivity.
        * destruct (Z.eqb_spec l l') as [->|]; [congruence|]. cbn [length]. rewrite Nat.add_0_r. now apply Hn.
      + intros l' Hl'. apply has_nan_snoc in Hl' as [Hl'|[-> Hx']]; auto.
    - rewrite index_notIn in E by auto. rewrite <- Hk in E.
      assert (HS : a = init_attrs \/ Shape c d a) by (destruct Hs as [[_ H]|[_ H]]; auto).
      destruct (marked_new bad wild same hot pos HI c d x a a1 HS Hx Hc Hp E) as (S' & [N1 N2 N3] & Sp & T1 & T2 & T3).
      assert (Ln : length (n a) = n_clusters a).
      { destruct HS as [->|HS]; [reflexivity|]. now destruct (Shape_init _ _ _ HS) as (_ & Ln & _ & _). }
      split; auto. unfold GoodI. rewrite firsts_snoc. unfold add_label.
      destruct (in_dec Z.eq_dec l (firsts s)); [contradiction|].
      split; auto. split; [rewrite app_length; simpl; congruence|]. split; [|split; auto].
      + intros l' Hl'. unfold nn. rewrite N2, grp_snoc, app_length.
        apply in_app_iff in Hl' as [Hl'|[->|[]]].
        * rewrite index_snoc by auto. destruct (index_In _ _ Hl') as [Hi _].
          rewrite app_nth1 by lia. destruct (Z.eqb_spec l l') as [->|]; [contradiction|].
          cbn [length]. rewrite Nat.add_0_r. now apply Hn.
        * rewrite index_last, Z.eqb_refl by auto. rewrite app_nth2, Ln, Hk, Nat.sub_diag by lia.
          rewrite grp_nil; [reflexivity|]. intros H. apply Hin. now apply first_seen_In.
      + intros l' Hl'. apply has_nan_snoc in Hl' as [Hl'|[-> Hx']].
        * rewrite index_snoc by (now apply (nan_label wild)). auto.
        * rewrite index_last, <- Hk by auto. auto.
  Qed.

  Lemma goodi_frame c d s a a' : Frame a a' -> s <> [] -> GoodI c d s a -> GoodI c d s a'.
  Proof.
    intros HF Hne (Hs & Hk & Hn & Ht & Hp). assert (HF' := HF).
    destruct HF' as [F1 F2 F3 F4 F5 F6 F7 F8 F9 F10 F11 F12 F13 F14 F15 F16 F17].
    split; [right; split; auto; destruct Hs as [[? _]|[_ Hs]]; [contradiction|]; eapply Shape_frame; eauto|].
    split; [congruence|]. split; [|split].
    - intros l Hl. rewrite <- (Hn l Hl). unfold nn. congruence.
    - intros l Hl. eapply marked_frame; eauto.
    - intros Hc i Hi. assert (E : cpi a' i = cpi a i) by (unfold cpi; congruence). rewrite E. apply Hp; auto. congruence.
  Qed.

  Lemma inf_stream c d s vs : wf_stream d s -> c <> krCIP -> results c new_obj (stream s) = map Ok vs -> exists a,
    after c new_obj (stream s) = mkObj (lmap (firsts s)) a /\ GoodI c d s a.
  Proof.
    intros Hw Hc. revert vs Hw. induction s as [|[x l] s IH] using rev_ind; intros vs Hw Hr.
    - exists init_attrs. split; auto. split; auto. split; auto. split; [intros l []|]. split.
      + intros l H. inversion H.
      + intros _ i Hi. simpl in Hi. lia.
    - rewrite stream_app, results_app in Hr.
      assert (exists vs1, results c new_obj (stream s) = map Ok vs1) as [vs1 Hr1].
      { exists (firstn (length (stream s)) vs). apply (f_equal (firstn (length (stream s)))) in Hr.
        rewrite <- (results_length c new_obj (stream s)) in Hr at 1.
        rewrite firstn_app, firstn_all, Nat.sub_diag, firstn_O, app_nil_r in Hr.
        rewrite Hr. now rewrite firstn_map. }
      destruct (IH vs1 (wf_snoc _ _ _ Hw) Hr1) as (a & Ea & HG).
      rewrite Ea in Hr. unfold results in Hr. cbn [stream map run fst snd] in Hr.
      rewrite stream_app, after_app, Ea. unfold after. cbn [stream map run fst snd].
      unfold get_cvi, update in *. cbn [label_map GetCvi.at_ fst snd] in *. rewrite lmap_get in *.
      destruct (param_inc c x (index l (firsts s)) a) as [a1 [[]|e]] eqn:E1.
      2:{ exfalso. cbn [fst snd] in Hr. fold (results c new_obj (stream s)) in Hr. rewrite Hr1 in Hr.
          apply (f_equal (@rev _)) in Hr. rewrite rev_app_distr, <- !map_rev in Hr. cbn [rev app] in Hr.
          destruct (rev vs); discriminate Hr. }
      destruct (goodi_step c d s x l a a1 HG (wf_last _ _ _ _ Hw) Hc E1) as [HG1 _].
      assert (HS1 : Shape c d a1).
      { destruct HG1 as ([[H _]|[_ H]] & _); auto. destruct s; discriminate. }
      destruct (ev_total c d a1 HS1) as (a2 & E2 & E3 & HF). cbn [GetCvi.at_ label_map]. rewrite E2. cbn [fst snd].
      exists a2. rewrite firsts_snoc. split; auto. eapply goodi_frame; eauto. destruct s; discriminate.
  Qed.

  Lemma inf_last c d s vs r l : wf_stream d s -> c <> krCIP -> results c new_obj (stream s) = map Ok (vs ++ [r]) ->
    has_inf (grp s l) -> (c = kDB \/ c = kXB \/ c = kGD43 \/ c = kGD53 -> 2 <= length (grp s l)) -> 2 <= length (firsts s) -> bad r.
  Proof.
    intros Hw Hc Hr Hl H53 Hk.
    destruct s as [|p s' _] using rev_ind; [destruct vs; discriminate|]. destruct p as [x l0].
    assert (Hr1 : results c new_obj (stream s') = map Ok vs).
    { rewrite stream_app, results_app, map_app in Hr.
      assert (H1 : forall o, exists q, results c o (stream [(x, l0)]) = [q]).
      { intros o. pose proof (results_length c o (stream [(x, l0)])) as L.
        destruct (results c o (stream [(x, l0)])) as [|q [|]]; try discriminate. eauto. }
      destruct (H1 (after c new_obj (stream s'))) as [q Eq]. rewrite Eq in Hr.
      now apply app_inj_tail in Hr as [H _]. }
    destruct (inf_stream c d s' vs (wf_snoc _ _ _ Hw) Hc Hr1) as (a & Ea & HG).
    rewrite stream_app, results_app, Hr1, map_app in Hr. apply app_inv_head in Hr.
    rewrite Ea in Hr. unfold results in Hr. cbn [stream map run fst snd] in Hr.
    unfold get_cvi, update in Hr. cbn [label_map GetCvi.at_ fst snd] in Hr. rewrite lmap_get in Hr.
    destruct (param_inc c x (index l0 (firsts s')) a) as [a1 [[]|e]] eqn:E1; [|discriminate].
    destruct (goodi_step c d s' x l0 a a1 HG (wf_last _ _ _ _ Hw) Hc E1) as [(HS1 & Hk1 & Hn1 & Ht1 & _) Hsp].
    assert (HS : Shape c d a1) by (destruct HS1 as [[H _]|[_ H]]; auto; destruct s'; discriminate).
    destruct (ev_total c d a1 HS) as (a2 & E2 & E3 & HF). cbn [GetCvi.at_ label_map] in Hr. rewrite E2 in Hr. cbn [fst snd] in Hr.
    injection Hr as <-. rewrite E3.
    apply (marked_value bad HB wild same hot pos HI c d a1 (index l (firsts (s' ++ [(x, l0)])))); auto.
    - lia.
    - intros H. rewrite Hn1; auto. now apply (nan_label wild).
  Qed.

  (** ** One batch with labels 0, 1, ..., k-1 *)
  Section OneBatch.
    Variables (d k : nat) (s : list (vec A * Z)).
    Hypotheses (Hw : wf_stream d s) (Hk : 2 <= k)
               (Hl : forall z, In z (map snd s) <-> (0 <= z < Z.of_nat k)%Z).
    Let m : mat A := mkMat d (map fst s).
    Let ls := map snd s.
    Variables (i0 : nat) (Hi0 : i0 < k) (Hinf : has_inf (grp s (Z.of_nat i0))).

    Lemma ib_some : exists r j, In r (grp s (Z.of_nat i0)) /\ j < d /\ wild (at_ j r).
    Proof.
      apply Exists_exists in Hinf as (r & Hr & Hb). apply Exists_exists in Hb as (y & Hy & Hb).
      apply (In_nth _ _ f0) in Hy as (j & Hj & <-). exists r, j. split; auto. split; auto.
      rewrite <- (nb_len d s Hw _ _ Hr). exact Hj.
    Qed.
    Lemma ib_vat j : j < d -> at_ j (b_v m ls i0) =
      fdiv (np_sum (map (fun r => at_ j r) (grp s (Z.of_nat i0)))) (f_of_nat (length (map (fun r => at_ j r) (grp s (Z.of_nat i0))))).
    Proof.
      intros Hj. unfold b_v. rewrite (plain_smean0 (in_plain _ _ _ _ _ HI)). unfold mean0. rewrite nth_map_seq by exact Hj. unfold col, nrows, m, ls. now rewrite subset_grp, map_length.
    Qed.
    Lemma ib_row r j : In r (grp s (Z.of_nat i0)) -> j < d -> wild (at_ j r) ->
      vnan (map2 fsub r (map (fun x => fmul x f1) (b_v m ls i0))).
    Proof.
      intros Hr Hj Hb. assert (Lv : length (b_v m ls i0) = d) by (unfold b_v; now rewrite smean0_length).
      assert (Lr := nb_len d s Hw _ _ Hr).
      apply (sub_at bad _ _ j); rewrite ?map_length; try lia.
      rewrite (nth_indep (map _ _) f0 (fmul f0 f1)) by (rewrite map_length; lia).
      rewrite (map_nth (fun x => fmul x f1)), ib_vat by auto. apply (in_mean1 _ _ _ _ _ HI); auto.
      apply in_map_iff. now exists r.
    Qed.
    Lemma ib_CP : bad (b_CP m ls i0).
    Proof.
      destruct ib_some as (r & j & Hr & Hj & Hb).
      unfold b_CP, np_sumsq_all. apply HB, (sq_bad bad HB). pose proof (ib_row r j Hr Hj Hb) as H.
      apply Exists_exists in H as (y & Hy & Hb'). apply Exists_exists. exists y. split; auto.
      apply in_concat. eexists. split; [|exact Hy]. unfold sub_rows.
      apply (in_map (fun r => map2 fsub r (map (fun x => fmul x f1) (b_v m ls i0)))).
      unfold m, ls. now rewrite subset_grp.
    Qed.
    Lemma ib_sil : bad (b_sil m ls i0 i0).
    Proof.
      destruct ib_some as (r & j & Hr & Hj & Hb).
      unfold b_sil. apply HB. left. apply (py_sum_bad bad HB).
      pose proof (subset_grp s d i0) as Hs. fold m ls in Hs. unfold subset in Hs. cbn [mrows] in Hs.
      rewrite <- Hs in Hr. apply in_map_iff in Hr as (p & Ep & Hp).
      apply Exists_exists. eexists. split; [apply in_map_iff; exists p; split; [reflexivity|exact Hp]|].
      assert (Hp' : p < length (map fst s)).
      { apply indices_lt in Hp. unfold ls in Hp. rewrite map_length in *. auto. }
      unfold sub_rows. rewrite map_map. cbn [mrows m].
      rewrite nth_indep with (d' := np_sumsq (map2 fsub [] (map (fun x => fmul x f1) (b_v m ls i0))))
        by (now rewrite map_length).
      rewrite (map_nth (fun r => np_sumsq (map2 fsub r (map (fun x => fmul x f1) (b_v m ls i0)))) (map fst s) [] p).
      apply HB, (sq_bad bad HB). apply (ib_row _ j); auto.
      - rewrite <- Hs. apply in_map_iff. exists p. auto.
      - cbn [mrows m] in Ep. now rewrite Ep.
    Qed.

    Lemma cSIL_diag (o : attrs A) : i0 < n_clusters o -> wfm (n_clusters o) (n_clusters o) (S2 o) ->
      bad (entry (S2 o) i0 i0) -> bad (cSIL_val o).
    Proof.
      intros Hi HW H2. unfold cSIL_val. destruct HW as (W1 & W2 & W3).
      assert (Ha : np_any (S2 o) = true).
      { unfold np_any. apply existsb_exists. exists (nth i0 (mrows (S2 o)) []). split; [apply nth_In; lia|].
        apply existsb_exists. exists (entry (S2 o) i0 i0). split; [|now apply HB].
        unfold entry. apply nth_In. rewrite (wfm_row (n_clusters o) (n_clusters o)); auto. repeat split; auto. }
      rewrite Ha. apply HB. left. apply HB. apply (vnan_at _ _ _ i0); auto. cbv zeta. apply HB. left. apply HB. now right.
    Qed.

    Lemma infbatch_bad c o' r : c <> krCIP -> param_batch c m ls init_attrs = (o', Ok tt) ->
      snd (evaluate c o') = Ok tt -> r = criterion_value (fst (evaluate c o')) -> bad r.
    Proof.
      intros Hc EB EV ->. pose proof (nb_unique k s Hk Hl) as U. fold ls in U.
      pose proof (nb_covers d s) as HC. fold m ls in HC.
      assert (HE : forall x, evals c o' x -> bad x -> bad (criterion_value (fst (evaluate c o')))).
      { intros x (o2 & E2 & E3 & _) Hb. rewrite E2. cbn [fst]. congruence. }
      assert (Lk : forall X (f : nat -> X), length (map f (seq 0 k)) = k) by (intros; now rewrite map_length, seq_length).
      pose proof ib_CP as HCP.
      assert (HSC : CP o' = map (b_CP m ls) (seq 0 k) -> bad (py_sum (CP o'))).
      { intros ->. apply (py_sum_bad bad HB). now apply (vnan_at _ _ _ i0). }
      assert (HV : BCommon m ls o' -> wfm (n_clusters o') d (v o') /\ n_clusters o' = k /\ length (n o') = k).
      { intros [B1 B2 B3 B4 B5 B6]. rewrite B4, B5, B6, U. split; [|auto].
        repeat split; cbn [mrows mcols]; auto. apply Forall_map, Forall_forall. intros. unfold b_v. now rewrite smean0_length. }
      assert (HGD : CP o' = map (b_CP m ls) (seq 0 k) -> length (n o') = k -> bad (GD_val o')).
      { intros E1 Ln. unfold GD_val. apply HB. right. apply HB. right. apply (vmax_bad bad HB).
        apply (map2_bad bad); [apply HB|rewrite E1, Lk, map_length; auto|]. left. rewrite E1. now apply (vnan_at _ _ _ i0). }
      destruct c; cbn [param_batch] in EB; try congruence.
      - destruct (CH_batch m ls HC) as (o1 & E & B & E1 & E2 & _). rewrite E in EB; inversion EB; subst o1. rewrite U in *.
        destruct (HV B) as (_ & Hkk & _). eapply HE; [apply CH_eval; lia|]. unfold CH_val. apply HB. left. apply HB. auto.
      - destruct (WB_batch m ls HC) as (o1 & E & B & E1 & E2 & _). rewrite E in EB; inversion EB; subst o1. rewrite U in *.
        destruct (HV B) as (_ & Hkk & _). eapply HE; [apply WB_eval; lia|]. unfold WB_val. apply HB. left. apply HB. auto.
      - destruct (DB_batch m ls HC) as (o1 & E & B & E1 & E2 & _ & _ & _ & E3). rewrite E in EB; inversion EB; subst o1.
        rewrite U in *. destruct (HV B) as (_ & Hkk & _). eapply HE; [apply DB_eval; rewrite Hkk; auto|].
        + rewrite E3. apply wfm_tab2.
        + rewrite E2. apply Lk.
        + assert (HT : bad (at_ i0 (S1 o'))) by (rewrite E2, nth_map_seq by auto; unfold b_S; apply HB; auto).
          unfold DB_val. rewrite Hkk. apply HB. left. apply HB. apply (vnan_at _ _ _ i0); auto. apply (vmax_bad bad HB).
          destruct (other k i0) as (b & Hb & Hn); [lia|].
          apply (vnan_at _ _ _ b); auto. apply HB. unfold DB_low.
          destruct (Nat.ltb_spec i0 b); [left; apply HB; left; apply HB; auto|].
          destruct (Nat.ltb_spec b i0); [right; apply HB; left; apply HB; auto|lia].
      - destruct (XB_batch m ls HC) as (o1 & E & B & E1 & _ & _ & E3). rewrite E in EB; inversion EB; subst o1.
        rewrite U in *. destruct (HV B) as (_ & Hkk & _). eapply HE; [apply XB_eval; rewrite Hkk; auto|].
        + rewrite E3. apply wfm_tab2.
        + unfold XB_val. apply HB. auto.
      - destruct (GD43_batch m ls HC) as (o1 & E & B & E1 & _ & _ & _ & E3). rewrite E in EB; inversion EB; subst o1.
        rewrite U in *. destruct (HV B) as (_ & Hkk & Hnn). eapply HE; [apply GD43_eval; rewrite Hkk; auto|auto].
        + rewrite E3. apply wfm_tab2.
        + rewrite E1. apply Lk.
      - destruct (GD53_batch m ls HC) as (o1 & E & B & E1 & _ & _ & _ & E3). rewrite E in EB; inversion EB; subst o1.
        rewrite U in *. destruct (HV B) as (_ & Hkk & Hnn). eapply HE; [apply GD53_eval; rewrite Hkk; auto|auto].
        + rewrite E3. apply wfm_tab2.
        + rewrite E1. apply Lk.
      - destruct (PS_batch m ls HC) as (o1 & E & B & _ & E3). rewrite E in EB; inversion EB; subst o1.
        rewrite U in *. destruct (HV B) as (HW & Hkk & Hnn). eapply HE; [apply (PS_eval d); auto; try lia|].
        + rewrite E3, Hkk. apply wfm_tab2.
        + apply list_max_ne; [|destruct (n o'); [simpl in Hnn; lia|discriminate]].
          rewrite (bc_n _ _ _ B), U. apply Forall_map, Forall_forall. intros ix Hix. apply in_seq in Hix.
          unfold b_n, nrows, m, ls. rewrite subset_grp. pose proof (nb_ne k s Hk Hl ix ltac:(lia)).
          destruct (grp s (Z.of_nat ix)); [congruence|discriminate].
        + destruct ib_some as (r & j & Hr & Hj & Hb).
          assert (Hwv : wild (at_ j (vrow o' i0))).
          { unfold vrow. rewrite (bc_v _ _ _ B). cbn [mrows]. rewrite U, nth_map_seq, ib_vat by auto.
            apply (in_meanw _ _ _ _ _ HI _ (at_ j r)); auto. apply in_map_iff. now exists r. }
          unfold PS_val. apply HB. apply (vnan_at _ _ _ i0); [lia|]. apply HB. right. apply HB. apply HB. right.
          unfold PS_bt. apply HB. left. apply (py_sum_bad bad HB). apply (vnan_at _ _ _ i0); [lia|].
          assert (Lm : length (mean0 (v o')) = d) by (rewrite mean0_length; apply HW).
          assert (Lr : length (vrow o' i0) = d) by (apply (wfm_row (n_clusters o')); auto; lia).
          apply (dot_bad bad HB); [reflexivity|left]. apply (sub_at bad _ _ j); try lia.
          destruct HW as (W1 & W2 & W3). unfold mean0. rewrite W1, nth_map_seq by lia.
          replace (nrows (v o')) with (length (col (v o') j)) by (unfold col, nrows; now rewrite map_length).
          apply (in_mean _ _ _ _ _ HI); auto. unfold col. apply in_map_iff. exists (nth i0 (mrows (v o')) []). split; auto. apply nth_In. lia.
      - destruct (cSIL_batch m ls HC) as (o1 & E & B & E1 & _ & _ & E3).
        { unfold n_unique. unfold nrows, m. cbn [mrows]. rewrite map_length, <- (map_length snd s).
          apply NoDup_incl_length; [apply NoDup_nodup|]. intros z. now rewrite nodup_In. }
        rewrite E in EB; inversion EB; subst o1.
        rewrite U in *. destruct (HV B) as (_ & Hkk & Hnn). eapply HE; [apply cSIL_eval; rewrite Hkk; auto|].
        + rewrite E3. apply wfm_tab2.
        + apply cSIL_diag; rewrite ?Hkk; auto.
          * rewrite E3. apply wfm_tab2.
          * rewrite E3, entry_tab2 by auto. exact ib_sil.
    Qed.
  End OneBatch.
End InfB.
