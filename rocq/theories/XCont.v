(** * One-sample calls after a batch call, in exact arithmetic: DB, GD43, GD53,
    PS and rCIP go on, with labels numbered afresh from 0. *)
From Coq Require Import ZArith List Arith Bool Lia Permutation.
From Verif Require Import Num NumPy Base M_CH M_D M_PS GetCvi Lists Step Step2 StepB Hoare Eval Stream Shapes Generic.
From Coq Require Import Reals Lra.
From Verif Require Import Det Spec XR SpecX RGeom XLift XEval XInc XCov XRun XPerm XBatch.
Import ListNotations.
Local Open Scope R_scope.

(** ** Appending lists of groups *)
Fixpoint zipapp {X} (a b : list (list X)) : list (list X) :=
  match a, b with
  | x :: a', y :: b' => (x ++ y) :: zipapp a' b'
  | [], _ => b
  | _, [] => a
  end.
Lemma zipapp_nil_r {X} (a : list (list X)) : zipapp a [] = a.
Proof. now destruct a. Qed.
Lemma zipapp_length {X} (a b : list (list X)) : length (zipapp a b) = Nat.max (length a) (length b).
Proof. revert b. induction a as [|x a IH]; intros [|y b]; cbn [zipapp length]; auto. rewrite IH. reflexivity. Qed.
Lemma zipapp_nth {X} (a b : list (list X)) i : nth i (zipapp a b) [] = nth i a [] ++ nth i b [].
Proof.
  revert b i. induction a as [|x a IH]; intros [|y b] [|i]; cbn [zipapp nth]; rewrite ?app_nil_r; auto.
Qed.
Lemma zipapp_old {X} (a b : list (list X)) i x : (i < length b)%nat ->
  zipapp a (upd i (nth i b [] ++ [x]) b) = upd i (nth i (zipapp a b) [] ++ [x]) (zipapp a b).
Proof.
  intros Hi. apply nth_ext with (d := []) (d' := []).
  - rewrite length_upd, !zipapp_length, length_upd. reflexivity.
  - intros j Hj. rewrite zipapp_length, length_upd in Hj. rewrite zipapp_nth.
    rewrite !nth_upd by (rewrite ?zipapp_length; lia). rewrite !zipapp_nth.
    destruct (Nat.eqb_spec j i) as [->|]; auto. now rewrite app_assoc.
Qed.
Lemma nth_snoc {X} (b : list (list X)) x j : nth j (b ++ [[x]]) [] = nth j b [] ++ (if (j =? length b)%nat then [x] else []).
Proof.
  destruct (Nat.eqb_spec j (length b)) as [->|Hn].
  - rewrite app_nth2, Nat.sub_diag by lia. rewrite (nth_overflow b) by lia. reflexivity.
  - rewrite app_nil_r. destruct (Nat.lt_ge_cases j (length b)).
    + now rewrite app_nth1.
    + rewrite app_nth2 by lia. rewrite (nth_overflow b) by lia. destruct (j - length b)%nat as [|[|]] eqn:E; auto. lia.
Qed.
Lemma zipapp_new_in {X} (a b : list (list X)) x : (length b < length a)%nat ->
  zipapp a (b ++ [[x]]) = upd (length b) (nth (length b) (zipapp a b) [] ++ [x]) (zipapp a b).
Proof.
  intros Hi. apply nth_ext with (d := []) (d' := []).
  - rewrite length_upd, !zipapp_length, app_length. cbn [length]. lia.
  - intros j Hj. rewrite zipapp_length, app_length in Hj. cbn [length] in Hj. rewrite zipapp_nth, nth_snoc.
    rewrite !nth_upd by (rewrite ?zipapp_length; lia). rewrite !zipapp_nth.
    destruct (Nat.eqb_spec j (length b)) as [->|]; [now rewrite app_assoc|now rewrite app_nil_r].
Qed.
Lemma zipapp_new_out {X} (a b : list (list X)) x : (length a <= length b)%nat ->
  zipapp a (b ++ [[x]]) = zipapp a b ++ [[x]].
Proof.
  intros Hi. apply nth_ext with (d := []) (d' := []).
  - rewrite app_length, !zipapp_length, app_length. cbn [length]. lia.
  - intros j Hj. rewrite zipapp_nth, !nth_snoc, zipapp_nth, zipapp_length.
    replace (Nat.max (length a) (length b)) with (length b) by lia. now rewrite app_assoc.
Qed.

Definition resumable (c : kind) : Prop :=
  match c with kDB | kGD43 | kGD53 | kPS | krCIP => True | _ => False end.

(** ** The state after a batch call is one that a stream could have left *)
Section B.
  Context (d k : nat) (s : data).
  Hypotheses (Hw : wf d s) (Hk : (2 <= k)%nat) (He : exact_labels s k).
  Let gs := map (cluster s) (zs k).
  Let m : mat XR := mkMat d (map fst (fin_data s)).
  Let ls := map snd (fin_data s).

  Lemma batch_rep c : resumable c -> (c = krCIP -> d <> 0%nat) ->
    exists o', param_batch c m ls init_attrs = (o', Ok tt) /\ Rep c d gs o' /\ Shape c d o'.
  Proof.
    intros Hr Hd.
    pose proof (covers_le m ls (n_unique ls) (b_le d s)) as L.
    pose proof (b_unique k s He) as U. fold ls in U.
    assert (GL : length gs = k) by apply b_glen.
    assert (S0 : forall o', BCommon m ls o' -> Stat0 d gs o').
    { intros o' [B1 B2 B3 B4 B5 B6]. rewrite U in *. constructor.
      - now rewrite B4, GL.
      - rewrite B1. unfold gs. rewrite (Permutation_length (b_concat k s He)).
        unfold m. rewrite b_nrows. unfold points. now rewrite map_length.
      - rewrite B5. apply (b_map k s Hk (fun g => length g)). intros i Hi. apply (b_n_x d k s); auto.
      - rewrite B6. cbn [mrows]. apply (b_map k s Hk (fun g => fin (centroid d g))). intros i Hi. apply (b_v_x d k s); auto. }
    assert (V1 : forall o', BCommon m ls o' -> wfm (n_clusters o') d (v o')).
    { intros o' [B1 B2 B3 B4 B5 B6]. rewrite B4, B6. repeat split; cbn [mrows]; [now rewrite map_length, seq_length|].
      apply Forall_map, Forall_forall. intros; unfold b_v; now rewrite smean0_length. }
    assert (NS : forall o', BCommon m ls o' -> (0 < n_samples o')%nat).
    { intros o' B. rewrite (bc_ns _ _ _ B). unfold m. rewrite b_nrows. destruct s; [|simpl; lia]. exfalso.
      assert (H := proj2 (He 0%Z) ltac:(lia)). destruct H. }
    assert (NL : forall o', BCommon m ls o' -> length (n o') = n_clusters o').
    { intros o' B. rewrite (bc_n _ _ _ B), (bc_k _ _ _ B). now rewrite map_length, seq_length. }
    assert (NP : forall o', BCommon m ls o' -> Forall (fun q => q <> 0%nat) (n o')).
    { intros o' B. rewrite (s0_n _ _ _ (S0 _ B)). apply Forall_map, Forall_forall. intros g Hg E.
      apply length_zero_iff_nil in E. destruct (b_good d k s Hw He) as [_ HG]. rewrite Forall_forall in HG. now apply (HG g). }
    assert (SG : forall o', BCommon m ls o' -> CP o' = map (b_CP m ls) (seq 0 (n_unique ls)) ->
              n_array o' = false -> G o' = zmat (n_unique ls) (mcols m) -> mu o' = smean0 m -> ShapeG d o' /\ GPart d gs o').
    { intros o' B C1 N G1 M1. split; constructor; try (now apply B); auto.
      - rewrite C1, (bc_k _ _ _ B). now rewrite map_length, seq_length.
      - rewrite G1, (bc_k _ _ _ B). apply wfm_zmat.
      - rewrite M1, smean0_length. reflexivity.
      - unfold CPs. rewrite C1, U. apply (b_map k s Hk (fun g => Fin (scatter d g))). intros i Hi. apply (b_CP_x d k s); auto.
      - rewrite G1, U. unfold zmat. cbn [mrows]. unfold gs, zs. rewrite !map_map.
        change (mcols m) with d. clear. generalize 0%nat. induction k as [|q IH]; intros a; auto. cbn [repeat seq map]. now rewrite (IH (S a)).
      - intros _. rewrite M1. apply (b_mu d k s); auto. }
    assert (KK : forall o', BCommon m ls o' -> n_clusters o' = k) by (intros o' [_ _ _ B4 _ _]; congruence).
    destruct c; try destruct Hr; cbn [param_batch].
    - destruct (DB_batch m ls L) as (o' & E & B & C1 & C2 & N & G1 & M1 & C3). exists o'. split; auto.
      destruct (SG o' B C1 N G1 M1) as [SG1 SG2]. rewrite U in *. split.
      + split; [auto|]. split; [auto|]. split.
        * rewrite C2. apply (b_map k s Hk (fun g => Fin (mse d g))). intros i Hi. apply (b_S_x d k s); auto.
        * eapply (Doff_sym k s); eauto using cdist_sym. intros a b Ha Hb. apply (b_sqd_x d k s); auto.
      + split; [auto|]. rewrite (KK _ B). split; [rewrite C3; apply wfm_tab2|rewrite C2; now rewrite map_length, seq_length].
    - destruct (GD43_batch m ls L) as (o' & E & B & C1 & N & G1 & M1 & C3). exists o'. split; auto.
      destruct (SG o' B C1 N G1 M1) as [SG1 SG2]. rewrite U in *. split.
      + split; [auto|]. split; [auto|].
        eapply (Doff_sym k s Hk (fun g h => sqrt (cdist d g h))); eauto using scdist_sym.
        intros a b Ha Hb. cbv beta. unfold m, ls. rewrite (b_sqd_x d k s) by auto. apply fsqrt_fin, cdist_nonneg.
      + split; [auto|]. rewrite (KK _ B), C3. apply wfm_tab2.
    - destruct (GD53_batch m ls L) as (o' & E & B & C1 & N & G1 & M1 & C3). exists o'. split; auto.
      destruct (SG o' B C1 N G1 M1) as [SG1 SG2]. rewrite U in *. split.
      + split; [auto|]. split; [auto|].
        eapply (Doff_sym k s Hk (pooled d)); eauto using pooled_sym.
        intros a b Ha Hb. apply (b_gd53_x d k s); auto.
      + split; [auto|]. rewrite (KK _ B), C3. apply wfm_tab2.
    - destruct (PS_batch m ls L) as (o' & E & B & N & C3). exists o'. split; auto. rewrite U in *. split.
      + split; [auto|]. eapply (Doff_sym k s); eauto using cdist_sym. intros a b Ha Hb. apply (b_sqd_x d k s); auto.
      + split; auto. constructor; auto; try (now apply B). rewrite (KK _ B), C3. apply wfm_tab2.
    - assert (Hd' := Hd eq_refl).
      destruct (rCIP_batch m ls (fun a b => Fin (potential d (nth a gs []) (nth b gs []))) L (b_wfm d s Hw) Hd')
        as (o' & E & B & C1 & N & DT & C2).
      { intros a b Hab Hb. rewrite U in Hb. change (mcols m) with d. unfold m, ls, gs.
        rewrite !(b_sigma_x d k s), !(b_v_x d k s) by (auto; lia). now apply potential_fin. }
      exists o'. split; auto. rewrite U in *. assert (ES : Base.sigma o' = map (cov_table d) gs).
      { rewrite C1. apply (b_map k s Hk (cov_table d)). intros i Hi. apply (b_sigma_x d k s); auto. }
      split.
      + split; [auto|]. split; auto. eapply (Doff_sym k s Hk (potential d)); eauto using potential_sym.
      + apply (ShapeR_intro d gs); auto; try (now apply B).
        * apply (b_good d k s Hw He).
        * intros E0. rewrite E0 in GL. simpl in GL. lia.
        * rewrite (bc_v _ _ _ B). reflexivity.
        * rewrite (KK _ B), C2. apply wfm_tab2.
  Qed.
End B.

(** ** Continuing *)
Section C.
  Context (c : kind) (d : nat) (gs : list (list point)).
  Hypotheses (Hr : resumable c) (Hd : c = krCIP -> d <> 0%nat) (Hg : good d gs).

  Lemma res_sil : c <> kcSIL.
  Proof. intros ->. destruct Hr. Qed.
  Lemma good_zip a b : good d a -> good d b -> good d (zipapp a b).
  Proof.
    intros [A1 A2] [B1 B2]. revert b B1 B2. induction a as [|x a IH]; intros [|y b] B1 B2; cbn [zipapp]; try (now split).
    inversion A1; inversion A2; inversion B1; inversion B2; subst. destruct (IH ltac:(auto) ltac:(auto) b) as [I1 I2]; auto.
    split; constructor; auto.
    - apply Forall_app; split; auto.
    - destruct x; [congruence|discriminate].
  Qed.
  Definition CInv (t : data) (a : attrs XR) : Prop := Rep c d (zipapp gs (groups t)) a /\ Shape c d a.

  Lemma cont_step t x l a : wf d (t ++ [(x, l)]) -> CInv t a ->
    exists a1 a2, param_inc c (fin x) (index l (firsts t)) a = (a1, Ok tt) /\ evaluate c a1 = (a2, Ok tt) /\
      criterion_value a2 = XVal c d (zipapp gs (groups (t ++ [(x, l)]))) /\ CInv (t ++ [(x, l)]) a2.
  Proof.
    intros Hwf [HR HS]. destruct (wf_app _ _ _ Hwf) as [Hw1 Hw2].
    assert (Hx : length x = d) by (inversion Hw2; auto).
    pose proof (good_zip gs (groups t) Hg (good_groups d t Hw1)) as G1.
    pose proof (good_zip gs (groups (t ++ [(x, l)])) Hg (good_groups d _ Hwf)) as G2.
    assert (HO : forall i, (i < length (zipapp gs (groups t)))%nat ->
               exists a1, param_inc c (fin x) i a = (a1, Ok tt) /\ Shape c d a1 /\
                 Rep c d (join i x (zipapp gs (groups t))) a1 /\ SepOk c d (join i x (zipapp gs (groups t))) a1).
    { intros i Hi. destruct (kind_eq c krCIP) as [->|Hr'].
      - destruct (rep_old_R d (zipapp gs (groups t)) a i x) as (a1 & E & S1' & R1); auto. exists a1. repeat (split; auto).
      - destruct (rep_old c d (zipapp gs (groups t)) a i x) as (a1 & E & S1' & R1 & R2); auto using res_sil. eauto. }
    assert (HE : exists a1, param_inc c (fin x) (index l (firsts t)) a = (a1, Ok tt) /\ Shape c d a1 /\
                 Rep c d (zipapp gs (groups (t ++ [(x, l)]))) a1 /\ SepOk c d (zipapp gs (groups (t ++ [(x, l)]))) a1).
    { destruct (in_dec Z.eq_dec l (firsts t)) as [Hin|Hin].
      - destruct (index_In _ _ Hin) as [Hi _]. rewrite <- groups_length in Hi.
        rewrite (groups_old t x l Hin). rewrite zipapp_old by auto. apply HO. rewrite zipapp_length. lia.
      - rewrite index_notIn by auto. rewrite groups_new by auto. rewrite <- groups_length.
        destruct (Nat.lt_ge_cases (length (groups t)) (length gs)) as [Hlt|Hge].
        + rewrite zipapp_new_in by auto. apply HO. rewrite zipapp_length. lia.
        + rewrite zipapp_new_out by auto.
          replace (length (groups t)) with (n_clusters a).
          2:{ destruct HR as [HR _]. rewrite (s0_k _ _ _ HR), zipapp_length. lia. }
          destruct (kind_eq c krCIP) as [->|Hr'].
          * destruct (rep_new_R d (zipapp gs (groups t)) a x) as (a1 & E & S1' & R1); auto. exists a1. repeat (split; auto).
          * destruct (rep_new c d (zipapp gs (groups t)) a x) as (a1 & E & S1' & R1 & R2); auto using res_sil. eauto. }
    destruct HE as (a1 & E1 & Sh & R1 & Sp).
    destruct (ev_total c d a1 Sh) as (a2 & E2 & E3 & FR).
    exists a1, a2. repeat (split; [solve [auto]|]). split.
    - rewrite E3. apply val_of_XVal; auto. apply Rep_Data; auto using res_sil.
    - split; [eapply Rep_frame; eauto|]. eapply Shape_frame; eauto.
  Qed.

  Theorem cont_values a0 t : wf d t -> Rep c d gs a0 -> Shape c d a0 -> exists a,
    run c (mkObj [] a0) (stream (fin_data t)) =
      (mkObj (lmap (firsts t)) a, map (fun i => Ok (XVal c d (zipapp gs (groups (firstn (S i) t))))) (seq 0 (length t))) /\
    CInv t a.
  Proof.
    intros Hwf R0 S0. revert Hwf. induction t as [|[x l] t IH] using rev_ind; intros Hwf.
    - exists a0. split; auto. split; auto. unfold groups. cbn. now rewrite zipapp_nil_r.
    - destruct (IH (proj1 (wf_app _ _ _ Hwf))) as (a & Er & HI). clear IH.
      destruct (cont_step t x l a Hwf HI) as (a1 & a2 & E1 & E2 & E3 & HI').
      exists a2. split; auto.
      rewrite fin_data_app, stream_app, run_app, Er. cbn [fst snd stream map run fin_data]. unfold get_cvi, update.
      cbn [label_map at_ fst snd]. rewrite lmap_get, E1. cbn [at_ label_map]. rewrite E2. cbn [fst snd].
      f_equal.
      + f_equal. now rewrite firsts_snoc.
      + rewrite app_length. cbn [length]. rewrite Nat.add_1_r, seq_S, map_app, Nat.add_0_l. f_equal.
        * apply map_ext_in. intros i Hi. apply in_seq in Hi. do 4 f_equal.
          rewrite firstn_app. replace (S i - length t)%nat with 0%nat by lia. now rewrite firstn_O, app_nil_r.
        * cbn [map]. rewrite E3. do 5 f_equal.
          rewrite firstn_all2; auto. rewrite app_length. simpl. lia.
  Qed.
End C.

(** ** The merged clusters as a labelled data set *)
Definition renumber (t : data) : data := map (fun p => (fst p, Z.of_nat (index (snd p) (firsts t)))) t.

Lemma renumber_cluster t i : cluster (renumber t) (Z.of_nat i) = nth i (groups t) [].
Proof.
  destruct (Nat.lt_ge_cases i (length (firsts t))) as [Hi|Hi].
  - unfold groups.
    rewrite (nth_indep _ [] (grp t 0%Z)) by now rewrite map_length.
    rewrite (map_nth (grp t) (firsts t) 0%Z i). unfold cluster, grp, renumber.
    assert (H : forall u : data, (forall p, In p u -> In (snd p) (firsts t)) ->
      map fst (filter (fun p => Z.eqb (snd p) (Z.of_nat i)) (map (fun p : point * Z => (fst p, Z.of_nat (index (snd p) (firsts t)))) u)) =
      map fst (filter (fun p => Z.eqb (snd p) (nth i (firsts t) 0%Z)) u)).
    { induction u as [|[x l] u IH]; intros Hu; auto. cbn [map filter fst snd].
      destruct (index_In l (firsts t) (Hu (x, l) (or_introl eq_refl))) as [L1 L2].
      assert (IH' := IH (fun p Hp => Hu p (or_intror Hp))).
      destruct (Z.eqb_spec (Z.of_nat (index l (firsts t))) (Z.of_nat i)) as [E|E];
      destruct (Z.eqb_spec l (nth i (firsts t) 0%Z)) as [E'|E']; cbn [map fst]; try (now f_equal); try exact IH'.
      - exfalso. apply E'. apply Nat2Z.inj in E. now rewrite <- E, L2.
      - exfalso. apply E. f_equal. rewrite E'. apply index_nth; [apply first_seen_NoDup|exact Hi]. }
    apply H. intros p Hp. apply first_seen_In. apply in_map_iff. now exists p.
  - rewrite nth_overflow by now rewrite groups_length. unfold cluster, renumber.
    assert (H : forall u : data, (forall p, In p u -> In (snd p) (firsts t)) ->
      filter (fun p : point * Z => Z.eqb (snd p) (Z.of_nat i)) (map (fun p => (fst p, Z.of_nat (index (snd p) (firsts t)))) u) = []).
    { induction u as [|[x l] u IH]; intros Hu; auto. cbn [map filter fst snd].
      destruct (index_In l (firsts t) (Hu (x, l) (or_introl eq_refl))) as [L1 L2].
      destruct (Z.eqb_spec (Z.of_nat (index l (firsts t))) (Z.of_nat i)) as [E|E]; [lia|]. apply IH. intros p Hp. apply Hu. now right. }
    rewrite H; auto. intros p Hp. apply first_seen_In. apply in_map_iff. now exists p.
Qed.

Lemma merged_exact k s t : exact_labels s k ->
  exact_labels (s ++ renumber t) (Nat.max k (length (firsts t))).
Proof.
  intros He z. unfold labels. rewrite map_app, in_app_iff. unfold labels in He. rewrite (He z). split.
  - intros [H|H]; [lia|]. unfold renumber in H. rewrite map_map in H. apply in_map_iff in H as (p & <- & Hp). cbn [snd].
    assert (Hin : In (snd p) (firsts t)) by (apply first_seen_In, in_map_iff; now exists p).
    destruct (index_In _ _ Hin). lia.
  - intros H. destruct (Z_lt_ge_dec z (Z.of_nat k)) as [Hz|Hz]; [left; lia|right].
    assert (Hi : (Z.to_nat z < length (firsts t))%nat) by lia.
    pose proof (nth_In (firsts t) 0%Z Hi) as Hn. apply (proj1 (first_seen_In _ _)) in Hn. apply in_map_iff in Hn as (p & Ep & Hp).
    unfold renumber. rewrite map_map. apply in_map_iff. exists p. split; auto. cbn [snd]. rewrite Ep.
    unfold firsts in *. rewrite index_nth; auto using first_seen_NoDup. lia.
Qed.
Lemma cluster_app s t l : cluster (s ++ t) l = cluster s l ++ cluster t l.
Proof. unfold cluster. now rewrite filter_app, map_app. Qed.
Lemma cluster_none s k i : exact_labels s k -> (k <= i)%nat -> cluster s (Z.of_nat i) = [].
Proof.
  intros He Hi. unfold cluster. assert (H : filter (fun p : point * Z => (snd p =? Z.of_nat i)%Z) s = []); [|now rewrite H].
  assert (H : forall p, In p s -> (snd p < Z.of_nat k)%Z) by (intros p Hp; apply He; now apply in_map).
  clear He. induction s as [|p s IH]; auto. cbn [filter]. destruct (Z.eqb_spec (snd p) (Z.of_nat i)) as [E|E].
  - pose proof (H p (or_introl eq_refl)). lia.
  - apply IH. intros q Hq. apply H. now right.
Qed.
Lemma merged_groups k s t : exact_labels s k ->
  zipapp (map (cluster s) (zs k)) (groups t) = map (cluster (s ++ renumber t)) (zs (Nat.max k (length (firsts t)))).
Proof.
  intros He. apply nth_ext with (d := []) (d' := []).
  - rewrite zipapp_length, groups_length. unfold zs. now rewrite !map_length, !seq_length.
  - intros i Hi. rewrite zipapp_length, groups_length, b_glen in Hi. rewrite zipapp_nth.
    rewrite (b_nth (Nat.max k (length (firsts t))) (s ++ renumber t)) by auto. rewrite cluster_app, renumber_cluster. f_equal.
    destruct (Nat.lt_ge_cases i k) as [Hk|Hk]; [now apply b_nth|]. rewrite (cluster_none s k) by auto.
    apply nth_overflow. now rewrite b_glen.
Qed.

(** a batch call on a fresh object, then a stream *)
Theorem continued c d k s t : resumable c -> (c = krCIP -> d <> 0%nat) -> wf d (s ++ t) -> (2 <= k)%nat -> exact_labels s k ->
  exists a, run c new_obj (batch_of d (fin_data s) :: stream (fin_data t)) =
    (mkObj (lmap (firsts t)) a,
     Ok (XVal c d (clusters s)) :: map (fun i => Ok (XVal c d (clusters (s ++ renumber (firstn (S i) t))))) (seq 0 (length t))).
Proof.
  intros Hr Hd Hw Hk He. destruct (wf_app _ _ _ Hw) as [Hw1 Hw2].
  destruct (batch_rep d k s Hw1 Hk He c Hr Hd) as (o' & E & R1 & S1).
  assert (Hg : good d (map (cluster s) (zs k))) by now apply b_good.
  assert (GL : length (map (cluster s) (zs k)) = k) by apply b_glen.
  destruct (ev_total c d o' S1) as (a2 & E2 & E3 & FR).
  assert (E4 : criterion_value a2 = XVal c d (clusters s)).
  { assert (EB : get_cvi c new_obj (fst (batch_of d (fin_data s))) (snd (batch_of d (fin_data s))) = (mkObj [] a2, Ok (criterion_value a2))).
    { cbn [batch_of fst snd]. unfold get_cvi, update. cbn [at_ new_obj is_setup init_attrs label_map unique_labels].
      rewrite (b_unique k s He). replace (1 <? k)%nat with true by (symmetry; apply Nat.ltb_lt; lia). cbn [negb].
      rewrite E. cbn [at_ label_map]. rewrite E2. reflexivity. }
    pose proof (batch_value d k s Hw1 Hk He c Hd) as HB. unfold results in HB. cbn [run batch_of] in HB.
    cbn [batch_of fst snd] in EB. rewrite EB in HB. cbn [snd] in HB. congruence. }
  destruct (cont_values c d (map (cluster s) (zs k)) Hr Hd Hg) with (a0 := a2) (t := t) as (a & Er & _); auto.
  { eapply Rep_frame; eauto. }
  { eapply Shape_frame; eauto. }
  exists a. cbn [run batch_of]. unfold get_cvi at 1, update at 1. cbn [at_ new_obj is_setup init_attrs label_map unique_labels].
  rewrite (b_unique k s He). replace (1 <? k)%nat with true by (symmetry; apply Nat.ltb_lt; lia). cbn [negb].
  rewrite E. cbn [at_ label_map]. rewrite E2, Er, E4. f_equal. f_equal. apply map_ext. intros i. f_equal.
  apply XVal_perm. rewrite (merged_groups k) by auto. apply clusters_zs. now apply merged_exact.
Qed.
