(** * Sums of squares after a stream and after one batch *)
From Coq Require Import ZArith Reals Lia Lra SpecFloat Psatz List Permutation.
From Flocq Require Import Core Relative.
From Verif Require Import Num NumPy Base GetCvi Lists Step StepB Stream Generic RunForm BatchForm ValForm F64 F64o Rnd RndErr RndMean RndSum RndCl RndCP RndCP2 RndCP3 RndCP4 RndOps RndVal RndCH Spec RGeom XPerm XBatch P_Round.
Import ListNotations.
Local Open Scope R_scope.
Local Notation R := Rdefinitions.R.
Local Notation nanv := S754_nan.
Local Notation rsum := RndMean.rsum.

Lemma map_nth_seq {X Y} (F : X -> Y) (l : list X) x0 : map (fun i => F (nth i l x0)) (seq 0 (length l)) = map F l.
Proof.
  induction l as [|x l IH]; [reflexivity|]. cbn [length seq map nth]. f_equal. rewrite <- seq_shift, map_map. exact IH.
Qed.
Lemma groups_concat {X} (s : list (X * Z)) : Permutation (concat (groups s)) (map fst s).
Proof.
  induction s as [|[x l] s IH] using rev_ind; [reflexivity|]. rewrite map_app. cbn [map fst].
  destruct (in_dec Z.eq_dec l (firsts s)) as [Hin|Hin].
  - rewrite (groups_old s x l Hin). destruct (index_In _ _ Hin) as [Hi _]. rewrite <- groups_length in Hi.
    rewrite <- IH. clear -Hi. revert Hi. generalize (index l (firsts s)). induction (groups s) as [|g gs IH]; intros i Hi; [cbn in Hi; lia|].
    destruct i as [|i]; cbn [upd concat nth].
    + rewrite <- !app_assoc. apply Permutation_app_head, Permutation_app_comm.
    + rewrite IH by (cbn in Hi; lia). now rewrite app_assoc.
  - rewrite (groups_new s x l Hin), concat_app. cbn [concat]. now rewrite app_nil_r, IH.
Qed.
Lemma groups_exact (s : list (list f64 * Z)) : Permutation (map exact (groups s)) (clusters (exact_data s)).
Proof.
  unfold groups, clusters. rewrite map_map. rewrite (map_ext _ (cluster (exact_data s))).
  - apply Permutation_map. unfold distinct, labels, exact_data. rewrite map_map. cbn [snd]. apply first_seen_perm.
  - intros l. unfold exact. now rewrite cluster_grp.
Qed.
Definition labels_upto (s : list (list f64 * Z)) : Prop :=
  forall z, In z (map snd s) <-> (0 <= z < Z.of_nat (length (nodup Z.eq_dec (map snd s))))%Z.
Lemma exact_labels_upto s k : exact_labels (exact_data s) k -> labels_upto s /\ length (nodup Z.eq_dec (map snd s)) = k.
Proof.
  intros H. unfold exact_labels, labels, exact_data in H. rewrite map_map in H. change (map (fun x : list f64 * Z => snd (map rv (fst x), snd x)) s) with (map snd s) in H.
  assert (E : length (nodup Z.eq_dec (map snd s)) = k).
  { rewrite <- (seq_length k 0), <- (map_length Z.of_nat (seq 0 k)).
    apply Permutation_length, NoDup_Permutation.
    - apply NoDup_nodup.
    - apply FinFun.Injective_map_NoDup; [intros a c; lia|apply seq_NoDup].
    - intros z. rewrite nodup_In, H, in_map_iff. split.
      + intros Hz. exists (Z.to_nat z). split; [lia|]. apply in_seq. lia.
      + intros (i & <- & Hi). apply in_seq in Hi. lia. }
  split; [|exact E]. unfold labels_upto. rewrite E. exact H.
Qed.

Lemma small48 (p q : nat) : (p <= q)%nat -> (Z.of_nat q <= 2 ^ 24)%Z -> (Z.of_nat p <= 2 ^ 48)%Z.
Proof. lia. Qed.
Lemma small24 (p q : nat) : (p <= q)%nat -> (Z.of_nat q <= 2 ^ 24)%Z -> (Z.of_nat p <= 2 ^ 24)%Z.
Proof. lia. Qed.

Section Run.
  Context (L : Libm) (S : Sums) (HS : any_order S).
  Notation A := (F64o L S).
  Context (b : R) (Hb : lo2 <= b <= hi2 / 2) (d : nat) (Hd : (1 <= Z.of_nat d <= 2 ^ 20)%Z).
  Context (s : list (list f64 * Z)) (Hw : wf_stream (A := A) d s) (Hwi : within b s) (HL : (Z.of_nat (length s) <= 2 ^ 24)%Z) (Hs : s <> []).

  Lemma bgroups_perm : labels_upto s -> Permutation (bgroups (A := A) s) (groups s).
  Proof.
    intros Hl. unfold bgroups, groups. rewrite <- (map_map Z.of_nat (grp s)). apply Permutation_map, NoDup_Permutation.
    - apply FinFun.Injective_map_NoDup; [intros a c; lia|apply seq_NoDup].
    - apply (Permutation_NoDup (l := nodup Z.eq_dec (map snd s))); [symmetry; apply first_seen_perm|apply NoDup_nodup].
    - intros z. rewrite in_map_iff. unfold firsts. unfold labels_upto in Hl. rewrite first_seen_In, Hl. split.
      + intros (i & <- & Hi). apply in_seq in Hi. unfold n_unique in Hi. change (vec A) with (list f64) in *. lia.
      + intros Hz. change (vec A) with (list f64) in *. exists (Z.to_nat z). split; [lia|]. apply in_seq. unfold n_unique. lia.
  Qed.
  Lemma groups_ok : groups s <> [] /\
    (forall g, In g (groups s) -> g <> [] /\ Forall (fun x => length x = d /\ Forall (ok_in b) x) g) /\
    length (concat (groups s)) = length s.
  Proof.
    split; [|split].
    - intros E. pose proof (groups_concat s) as P. rewrite E in P. apply Permutation_nil in P. destruct s; [congruence|discriminate].
    - intros g Hi. unfold groups in Hi. apply in_map_iff in Hi as (l & <- & Hl). split.
      + apply grp_ne. now apply first_seen_In.
      + apply within_grp; auto.
    - rewrite (Permutation_length (groups_concat s)). apply map_length.
  Qed.
  (** any list of groups in another order is as good *)
  Lemma perm_ok gs : Permutation gs (groups s) -> gs <> [] /\
    (forall g, In g gs -> g <> [] /\ Forall (fun x => length x = d /\ Forall (ok_in b) x) g) /\
    length (concat gs) = length s /\ Permutation (map fst s) (concat gs) /\ Permutation (map exact gs) (clusters (exact_data s)) /\
    length gs = length (clusters (exact_data s)).
  Proof.
    intros P. destruct groups_ok as (G1 & G2 & G3). split; [|split; [|split; [|split; [|split]]]].
    - intros ->. apply Permutation_nil in P. congruence.
    - intros g Hi. apply G2. now rewrite <- P.
    - rewrite <- G3. apply Permutation_length. now apply XPerm.concat_perm.
    - rewrite <- groups_concat. apply XPerm.concat_perm. now symmetry.
    - rewrite <- groups_exact. now apply Permutation_map.
    - transitivity (length (groups s)); [now apply Permutation_length|]. pose proof (Permutation_length (groups_exact s)) as E. rewrite map_length in E. exact E.
  Qed.

  Lemma all_ok : map fst s <> [] /\ Forall (fun x => length x = d /\ Forall (ok_in b) x) (map fst s) /\ length (map fst s) = length s.
  Proof.
    split; [destruct s; [congruence|discriminate]|]. split; [|apply map_length].
    apply Forall_map, Forall_forall. intros [x z] Hp. unfold wf_stream in Hw. rewrite Forall_forall in Hw.
    split; [exact (Hw _ Hp)|]. apply Forall_forall. intros y Hy. exact (Hwi x z y Hp Hy).
  Qed.

  (** ** Stored points are close to the means *)
  Lemma cl_mean xs : xs <> [] -> Forall (fun x => length x = d /\ Forall (ok_in b) x) xs -> (length xs <= length s)%nat ->
    at_mean d (c_v (cl_of (A := A) xs)) xs (17 * u * b * INR (length s)).
  Proof.
    intros Hne HF Hle. split.
    - apply (cl_of_v_length (A := A)); auto. eapply Forall_impl; [|exact HF]. simpl. tauto.
    - intros j Hj. eapply near_weaken; [apply (near_cl_v L S b d xs j (Hb_mean b Hb) Hne HF); [exact (small48 _ _ Hle HL)|exact Hj]|].
      pose proof u_pos. pose proof lo2_pos. apply Rmult_le_compat_l; [apply Rmult_le_pos; [|lra]; lra|].
      apply le_INR in Hle. match goal with |- ?p - 1 <= ?q => change (p <= q) in Hle end. lra.
  Qed.
  Lemma rows_mean xs : xs <> [] -> Forall (fun x => length x = d /\ Forall (ok_in b) x) xs -> (length xs <= length s)%nat ->
    at_mean d (mean_rows (A := A) d xs) xs (17 * u * b * INR (length s)).
  Proof.
    intros Hne HF Hle. destruct HS as [Hsum _]. split.
    - unfold mean_rows, smean0. now rewrite map_length, seq_length.
    - intros j Hj. assert (HF' : Forall (fun x => length x = d) xs) by (eapply Forall_impl; [|exact HF]; simpl; tauto).
      assert (E0 : nth j (mean_rows (A := A) d xs) nanv = ddiv (s_sum S (fcol j xs)) (d_of_Z (Z.of_nat (length xs)))) by (apply (mean_rows_nth L S d xs j); auto).
      assert (El : length (fcol j xs) = length xs) by apply fcol_length.
      refine (eq_ind_r (fun t => near t _ _) _ E0). rewrite <- El. eapply near_weaken; [apply (near_mean b (fcol j xs) (s_sum S (fcol j xs)) (Hb_mean b Hb) (Hsum _))|].
      + unfold fcol. destruct xs; [congruence|discriminate].
      + unfold fcol. apply Forall_map. eapply Forall_impl; [|exact HF]. intros r [H1 H2].
        rewrite Forall_forall in H2. apply H2, nth_In. now rewrite H1.
      + rewrite El. exact (small48 _ _ Hle HL).
      + rewrite El. apply le_INR in Hle. pose proof u_pos. pose proof lo2_pos. pose proof (pos_INR (length xs)).
        match goal with |- _ * ?p <= _ * ?q => change (p <= q) in Hle; assert (0 <= p) by apply pos_INR end.
        assert (0 <= u * b) by (apply Rmult_le_pos; lra).
        match goal with |- _ * ?p <= _ * ?q => apply Rle_trans with (17 * u * b * p); [apply Rmult_le_compat_r; lra|apply Rmult_le_compat_l; lra] end.
  Qed.

  Section Perm.
    Context (gs : list (list (list f64))) (P : Permutation gs (groups s)).
    Let N := INR (length (concat gs)).
    Lemma near_np_dist (v w : list f64) xs ys z :
      at_mean d v xs (17 * u * b * INR (length s)) -> at_mean d w ys (17 * u * b * INR (length s)) ->
      (exists g, In g gs /\ xs = g) \/ Permutation xs (concat gs) -> (exists g, In g gs /\ ys = g) \/ Permutation ys (concat gs) ->
      summed (map (fun x => dmul x x) (map2 dsub v w)) z ->
      near z (rdist2 d (fun j => ravg (fcol j xs)) (fun j => ravg (fcol j ys))) (em b d gs).
    Proof.
      intros [V1 V2] [W1 W2] Hx Hy Hz. destruct (perm_ok gs P) as (G1 & G2 & G3 & G4 & _).
      assert (HN : (Z.of_nat (length (concat gs)) <= 2 ^ 24)%Z) by (rewrite G3; exact HL).
      unfold em. apply (near_sumsq b Hb d Hd gs G1 G2 HN v w _ _ z); auto.
      - intros j Hj. split; [rewrite G3; auto|]. apply (avg_le b Hb d Hd gs G1 G2 HN); auto.
      - intros j Hj. split; [rewrite G3; auto|]. apply (avg_le b Hb d Hd gs G1 G2 HN); auto.
    Qed.
    Lemma gs_le g : In g gs -> (length g <= length s)%nat.
    Proof.
      intros H. destruct (perm_ok gs P) as (G1 & G2 & G3 & G4 & _). rewrite <- G3. clear -H.
      induction gs as [|h l IH]; [destruct H|]. cbn [concat]. rewrite app_length. destruct H as [->|H]; [lia|]. specialize (IH H). lia.
    Qed.
  End Perm.

  (** ** Streams *)
  Lemma form_CP c a : gclass c = true -> Formed (A := A) c d s a ->
    near (py_sum (A := A) (CP a)) (wgss d (map exact (groups s))) (eps b d (groups s)).
  Proof.
    intros Hc [_ Hk _ _ HG]. destruct (HG Hc) as (_ & HCP & _). rewrite HCP.
    destruct groups_ok as (G1 & G2 & G3).
    apply (near_wgss b Hb d Hd (groups s) G1 G2); [rewrite G3; exact HL|].
    intros g Hi. destruct (G2 g Hi) as [Hne HF]. pose proof (gs_le (groups s) (Permutation_refl _) g Hi) as Hle.
    eapply near_weaken; [apply (near_cl_cp L S HS b Hb d Hd g Hne HF); exact (small24 _ _ Hle HL)|].
    pose proof u_pos. pose proof lo2_pos. apply Rmult_le_compat_l; [apply Rmult_le_pos; [lra|]; apply Rmult_le_pos; [lra|]; apply Rmult_le_pos; lra|].
    apply Rmult_le_compat_l; [apply Rmult_le_pos; apply pos_INR|].
    match goal with |- ?p * ?p - 1 <= ?q * ?q => change (p * p - 1 <= p * p) end. lra.
  Qed.
  Lemma form_SEP c a : gclass c = true -> Formed (A := A) c d s a -> SEP a = sep_of a ->
    near (py_sum (A := A) (SEP a)) (bgss d (map exact (groups s))) (eps b d (groups s)).
  Proof.
    intros Hc [_ Hk Hn Hv HG] HSEP. destruct (HG Hc) as (_ & _ & _ & Hmu). rewrite HSEP.
    destruct groups_ok as (G1 & G2 & G3). destruct all_ok as (X1 & X2 & X3).
    set (z := fun g : list (list f64) => dsum (map (fun x => dmul x x) (map2 dsub (c_v (cl_of (A := A) g)) (c_v (cl_of (A := A) (map fst s)))))).
    assert (E0 : sep_of (A := A) a = map (fun g => dmul (d_of_Z (Z.of_nat (length g))) (z g)) (groups s)).
    { unfold sep_of. rewrite Hk, <- groups_length.
      rewrite <- (map_nth_seq (fun g => dmul (d_of_Z (Z.of_nat (length g))) (z g)) (groups s) []).
      apply map_ext_in. intros i Hi. apply in_seq in Hi. destruct Hi as [_ Hi]. cbn [plus] in Hi. rewrite groups_length in Hi.
      assert (E1 : nn (A := A) a i = length (nth i (groups s) [])) by (unfold nn; rewrite Hn; exact (nth_groups (A := A) (@length _) s i _ Hi)).
      assert (E2 : vrow (A := A) a i = c_v (cl_of (A := A) (nth i (groups s) []))) by (unfold vrow; rewrite Hv; exact (nth_groups (A := A) (fun xs => c_v (cl_of xs)) s i _ Hi)).
      rewrite E1, E2, (Hmu Hs), (plain_m_of (F64o_plain L S)). unfold z.
      assert (Lv : length (map2 dsub (c_v (cl_of (A := A) (nth i (groups s) []))) (c_v (cl_of (A := A) (map fst s)))) = d).
      { rewrite length_map2. assert (Hi' : In (nth i (groups s) []) (groups s)) by (apply nth_In; now rewrite groups_length).
        destruct (G2 _ Hi') as [Hne HF]. pose proof (gs_le (groups s) (Permutation_refl _) _ Hi') as Hle.
        destruct (cl_mean _ Hne HF Hle) as [L1 _].
        destruct (cl_mean (map fst s) X1 X2 (Nat.eq_le_incl _ _ (map_length fst s))) as [L2 _].
        change (F A) with f64 in *. rewrite L1, L2. lia. }
      unfold f_of_nat. change (@f_of_Z A) with d_of_Z. change (@fmul A) with dmul. apply (f_equal (dmul (d_of_Z _))).
      unfold py_sumsq, py_sum, fsq. change (@fadd A) with dadd. change (@f0 A) with (d_of_Z 0). change (@fsub A) with dsub. change (@fmul A) with dmul.
      apply psum_squares. intros E. rewrite E in Lv. cbn in Lv. lia. }
    rewrite E0. apply (near_bgss b Hb d Hd (groups s) G1 G2) with (z := z) (all := map fst s); [rewrite G3; exact HL|symmetry; apply groups_concat|].
    intros g Hi. split; [|reflexivity]. destruct (G2 g Hi) as [Hne HF]. pose proof (gs_le (groups s) (Permutation_refl _) g Hi) as Hle.
    apply (near_np_dist (groups s) (Permutation_refl _) _ _ g (map fst s) (z g) (cl_mean g Hne HF Hle) (cl_mean (map fst s) X1 X2 (Nat.eq_le_incl _ _ (map_length fst s)))).
    - eauto.
    - right. symmetry. apply groups_concat.
    - apply dsum_summed.
  Qed.

  (** ** One batch *)
  Lemma bform_CP c a : labels_upto s -> BForm (A := A) c d s a ->
    near (py_sum (A := A) (CP a)) (wgss d (map exact (bgroups (A := A) s))) (eps b d (bgroups (A := A) s)).
  Proof.
    intros Hl [_ _ _ _ HCP _ _ _]. rewrite HCP. destruct (perm_ok _ (bgroups_perm Hl)) as (G1 & G2 & G3 & _).
    apply (near_wgss b Hb d Hd (bgroups (A := A) s) G1 G2); [rewrite G3; exact HL|].
    intros g Hi. destruct (G2 g Hi) as [Hne HF]. pose proof (gs_le _ (bgroups_perm Hl) g Hi) as Hle.
    eapply near_weaken; [apply (near_rows_cp L S HS b Hb d Hd g Hne HF); exact (small24 _ _ Hle HL)|].
    pose proof u_pos. pose proof lo2_pos. assert (0 <= u * (b * b)) by (apply Rmult_le_pos; [lra|]; apply Rmult_le_pos; lra).
    match goal with |- 109 * ?t * (?p * ?q * (?p * ?q)) <= _ => replace (109 * t * (p * q * (p * q))) with (109 * t * (p * p * (q * q))) by ring end.
    apply Rmult_le_compat_r; [|lra]. apply Rmult_le_pos; apply Rmult_le_pos; apply pos_INR.
  Qed.
  Lemma bform_SEP c a : labels_upto s -> BForm (A := A) c d s a -> c = kCH \/ c = kWB ->
    near (py_sum (A := A) (SEP a)) (bgss d (map exact (bgroups (A := A) s))) (eps b d (bgroups (A := A) s)).
  Proof.
    intros Hl [_ _ _ _ _ HSEP _ _] Hc. rewrite (HSEP Hc). destruct (perm_ok _ (bgroups_perm Hl)) as (G1 & G2 & G3 & G4 & _).
    destruct all_ok as (X1 & X2 & X3). destruct HS as [Hsum Hdot].
    apply (near_bgss b Hb d Hd (bgroups (A := A) s) G1 G2) with
      (z := fun g => np_sumsq (A := A) (map2 dsub (mean_rows (A := A) d g) (mean_rows (A := A) d (map fst s)))) (all := map fst s); [rewrite G3; exact HL|exact G4|].
    intros g Hi. split; [|reflexivity]. destruct (G2 g Hi) as [Hne HF]. pose proof (gs_le _ (bgroups_perm Hl) g Hi) as Hle.
    apply (near_np_dist _ (bgroups_perm Hl) _ _ g (map fst s) _ (rows_mean g Hne HF Hle) (rows_mean (map fst s) X1 X2 (Nat.eq_le_incl _ _ (map_length fst s)))).
    - eauto.
    - right. exact G4.
    - apply Hsum.
  Qed.
End Run.
