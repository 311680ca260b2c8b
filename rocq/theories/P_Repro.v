(** * C72: two computations of the same clusters agree up to rounding

    Whatever the mode (stream or batch), the order of the samples, the names of
    the labels, the order in which numpy adds and the C library. *)
From Coq Require Import ZArith Lia Lra SpecFloat List Arith Reals Permutation.
From Flocq Require Import Core.
From Verif Require Import Num NumPy Base GetCvi Lists Stream Generic F64 F64o Rnd Spec RGeom XPerm Obs P_Round P_RoundCP P_RoundV P_RoundV2 P_RoundPS P_RoundSil.
Import ListNotations.
Local Open Scope R_scope.
Local Notation R := Rdefinitions.R.
Local Notation within := P_Round.within.

(** ** The specification *)
(** the data [t] are the data [s] in some order and with the labels renamed *)
Definition same_data (s t : list (list f64 * Z)) : Prop := exists f : Z -> Z,
  (forall l l', In l (map snd s) -> In l' (map snd s) -> f l = f l' -> l = l') /\
  Permutation (map (fun p => (fst p, f (snd p))) s) t.
(** [r] is what class [c] returns for [s] in one of the two modes, as computed
    by the library [L] with the sums [S]; batches have labels 0..k-1, and
    streams of cSIL are left out (C53) *)
Definition returned (L : Libm) (S : Sums) (c : kind) (d : nat) (s : list (list f64 * Z)) (r : f64) : Prop :=
  (c <> kcSIL /\ exists vs, results (A := F64o L S) c new_obj (stream (A := F64o L S) s) = map Ok (vs ++ [r])) \/
  (exact_labels (exact_data s) (length (true_clusters s)) /\ results (A := F64o L S) c new_obj [batch_of (A := F64o L S) d s] = [Ok r]).
(** the formula, the condition and the error of C62, C65, C68 and C70 *)
Definition the_formula (c : kind) (d : nat) (gs : list (list point)) : R :=
  match c with kCH => CH_formula d gs | kWB => WB_formula d gs | kPS => PS_formula d gs | kcSIL => cSIL_formula d gs | _ => formula_of c d gs end.
Definition resolved (c : kind) (l : R) (d : nat) (gs : list (list point)) : Prop :=
  match c with
  | kCH => 4 * l <= wgss d gs / nsamp gs
  | kWB => 4 * l <= bgss d gs / nsamp gs
  | kPS => PS_above l d gs
  | kcSIL => cSIL_above l d gs
  | _ => above c l d gs
  end.
Definition error (tau : R) (c : kind) (l : R) (d : nat) (gs : list (list point)) : R :=
  match c with
  | kCH => 2 * (l / (wgss d gs / nsamp gs)) * (CH_formula d gs + (nsamp gs - nclus gs) / (nclus gs - 1))
  | kWB => 2 * (l / (bgss d gs / nsamp gs)) * (WB_formula d gs + nclus gs)
  | kPS => PS_allowed tau l d gs
  | kcSIL => cSIL_allowed l d gs
  | _ => allowed c l d gs
  end.

(** ** The quantities depend on the clusters only *)
Definition same_clusters (gs hs : list (list point)) : Prop :=
  exists ks, Permutation gs ks /\ Forall2 (@Permutation point) ks hs.
Section Same.
  Context (d : nat) (gs hs : list (list point)) (H : same_clusters gs hs).
  Lemma same_nclus : nclus gs = nclus hs.
  Proof. destruct H as (ks & P & Q). rewrite (nclus_perm _ _ P). unfold nclus. now rewrite (F2_length _ _ _ Q). Qed.
  Lemma same_nsamp : nsamp gs = nsamp hs.
  Proof. destruct H as (ks & P & Q). rewrite (nsamp_perm _ _ P). unfold nsamp. now rewrite (Permutation_length (concat_F2 _ _ Q)). Qed.
  Lemma same_wgss : wgss d gs = wgss d hs.
  Proof. destruct H as (ks & P & Q). rewrite (wgss_perm d _ _ P). unfold wgss. f_equal. eapply map_F2; eauto. intros; now apply scatter_perm. Qed.
  Lemma same_bgss : bgss d gs = bgss d hs.
  Proof.
    destruct H as (ks & P & Q). rewrite (bgss_perm d _ _ P). unfold bgss. f_equal. rewrite (centroid_perm d _ _ (concat_F2 _ _ Q)).
    eapply map_F2; eauto. cbv beta. intros x y Z. now rewrite (Permutation_length Z), (centroid_perm d _ _ Z).
  Qed.
  Lemma same_sep : separation d gs = separation d hs.
  Proof.
    destruct H as (ks & P & Q). rewrite (separation_perm d _ _ P). unfold separation. f_equal.
    apply (pairs_F2 (@Permutation point) (cdist d)); auto using cdist_perm.
  Qed.
  Lemma same_spread : spread d gs = spread d hs.
  Proof. destruct H as (ks & P & Q). unfold spread. rewrite (maxmse_perm d _ _ P). f_equal. eapply map_F2; eauto using mse_perm. Qed.
  Lemma same_formula c : c <> krCIP -> the_formula c d gs = the_formula c d hs.
  Proof.
    intros Hc. pose proof same_nclus as En. pose proof same_nsamp as Es. pose proof same_wgss as Ew. pose proof same_bgss as Eb.
    pose proof same_sep as Ep. pose proof same_spread as Em. unfold separation in Ep. unfold spread in Em.
    destruct c; try congruence; cbn [the_formula formula_of].
    - unfold CH_formula. now rewrite Eb, Ew, En, Es.
    - unfold WB_formula. now rewrite Eb, Ew, En.
    - change (DB_formula d gs) with (formula_of kDB d gs). destruct H as (ks & P & Q).
      rewrite (formula_perm kDB d gs ks); [|unfold matrix_kind; auto|exact P]. cbn [formula_of]. unfold DB_formula.
      replace (nclus hs) with (nclus ks) by (unfold nclus; now rewrite (F2_length _ _ _ Q)). do 2 f_equal.
      apply (selects_F2 (@Permutation point) (fun x r => rmax (map (fun h => (mse d x + mse d h) / cdist d x h) r))
                                             (fun x r => rmax (map (fun h => (mse d x + mse d h) / cdist d x h) r))); auto.
      intros x y r r' Z W. f_equal. rewrite (mse_perm d _ _ Z). eapply map_F2'; eauto. cbv beta. intros p q V.
      now rewrite (mse_perm d _ _ V), (cdist_perm d _ _ _ _ Z V).
    - unfold XB_formula. now rewrite Ew, Es, Ep.
    - unfold GD43_formula. rewrite Em. f_equal. destruct H as (ks & P & Q).
      rewrite (rmin_pairs_perm (fun g h => sqrt (cdist d g h)) gs ks); auto; [|intros; now rewrite cdist_sym]. f_equal.
      apply (pairs_F2 (@Permutation point) (fun g h => sqrt (cdist d g h))); auto. intros; f_equal; auto using cdist_perm.
    - unfold GD53_formula. rewrite Em. f_equal. destruct H as (ks & P & Q).
      rewrite (rmin_pairs_perm (fun g h => (scatter d g + scatter d h) / (INR (length g) + INR (length h))) gs ks); auto.
      2: { intros. now rewrite Rplus_comm, (Rplus_comm (INR _)). } f_equal.
      apply (pairs_F2 (@Permutation point) (fun g h => (scatter d g + scatter d h) / (INR (length g) + INR (length h)))); auto.
      intros x y x' y' Z W. now rewrite (scatter_perm d _ _ Z), (scatter_perm d _ _ W), (Permutation_length Z), (Permutation_length W).
    - destruct H as (ks & P & Q). rewrite (PS_formula_perm d gs ks P). unfold PS_formula.
      assert (Ec : map (centroid d) ks = map (centroid d) hs) by (eapply map_F2; eauto using centroid_perm).
      assert (El : map (fun g : list point => INR (length g)) ks = map (fun g : list point => INR (length g)) hs).
      { eapply map_F2; eauto. cbv beta. intros x y Z. now rewrite (Permutation_length Z). }
      assert (Ebt : PS_beta d ks = PS_beta d hs).
      { unfold PS_beta. rewrite Ec. unfold nclus. rewrite (F2_length _ _ _ Q). do 2 f_equal. eapply map_F2; eauto. cbv beta. intros x y Z. now rewrite (centroid_perm d _ _ Z). }
      rewrite Ebt, El. f_equal.
      apply (selects_F2 (@Permutation point) (fun x r => INR (length x) / rmax (map (fun g => INR (length g)) hs)
                      - exp (- rmin (map (cdist d x) r) / PS_beta d hs)) (fun x r => INR (length x) / rmax (map (fun g => INR (length g)) hs)
                      - exp (- rmin (map (cdist d x) r) / PS_beta d hs))); auto.
      intros x y r r' Z W. rewrite (Permutation_length Z).
      replace (map (cdist d y) r') with (map (cdist d x) r); auto. eapply map_F2'; eauto using cdist_perm.
    - destruct H as (ks & P & Q). rewrite (cSIL_formula_perm d gs ks P). unfold cSIL_formula.
      unfold nclus. rewrite (F2_length _ _ _ Q). do 2 f_equal.
      apply (selects_F2 (@Permutation point) (fun x r => let a := mdist d x x in let b := rmin (map (mdist d x) r) in (b - a) / Rmax a b)
                      (fun x r => let a := mdist d x x in let b := rmin (map (mdist d x) r) in (b - a) / Rmax a b)); auto.
      intros x y r r' Z W. cbv zeta. rewrite (mdist_perm d _ _ _ _ Z Z).
      replace (map (mdist d y) r') with (map (mdist d x) r); auto. eapply map_F2'; eauto using mdist_perm.
  Qed.
  Lemma same_resolved c l : resolved c l d gs -> resolved c l d hs.
  Proof.
    unfold resolved, PS_above, cSIL_above, above. rewrite same_wgss, same_bgss, same_nsamp, same_nclus, same_sep, same_spread. auto.
  Qed.
  Lemma same_error tau c l : c <> krCIP -> error tau c l d gs = error tau c l d hs.
  Proof.
    intros Hc. unfold error, PS_allowed, cSIL_allowed, allowed. rewrite same_wgss, same_bgss, same_nsamp, same_nclus, same_sep, same_spread.
    pose proof (same_formula c Hc) as EF. destruct c; cbn [the_formula formula_of] in EF; rewrite ?EF; auto; congruence.
  Qed.
End Same.
Lemma exact_rename (f : Z -> Z) (s : list (list f64 * Z)) : exact_data (map (fun p => (fst p, f (snd p))) s) = relabel f (exact_data s).
Proof. unfold exact_data, relabel. rewrite !map_map. reflexivity. Qed.
Lemma exact_labels_of (s : list (list f64 * Z)) : labels (exact_data s) = map snd s.
Proof. unfold labels, exact_data. now rewrite map_map. Qed.
Lemma same_data_clusters s t : same_data s t -> same_clusters (true_clusters s) (true_clusters t).
Proof.
  intros (f & Hf & P). destruct (clusters_perm (relabel f (exact_data s)) (exact_data t)) as (ks & P1 & P2).
  { rewrite <- exact_rename. now apply Permutation_map. }
  exists ks. split; auto. transitivity (clusters (relabel f (exact_data s))); auto. symmetry. apply clusters_relabel. now rewrite exact_labels_of.
Qed.
Lemma same_data_length s t : same_data s t -> length s = length t.
Proof. intros (f & _ & P). apply Permutation_length in P. now rewrite map_length in P. Qed.

(** ** One computation *)
Lemma nsamp_true s : nsamp (true_clusters s) = INR (length s).
Proof.
  unfold nsamp, true_clusters. f_equal. rewrite (Permutation_length (clusters_concat _)). unfold points, exact_data. now rewrite !map_length.
Qed.
Lemma one_run L S c d s r b tau : any_order S -> c <> krCIP -> (c = kPS -> 0 <= tau <= 1 /\ exp_within tau L) ->
  sized d s -> wf_stream (A := F64o L S) d s -> moderate b -> within b s -> (2 <= length (true_clusters s))%nat ->
  resolved c (level b d s) d (true_clusters s) -> returned L S c d s r ->
  close r (the_formula c d (true_clusters s)) (error tau c (level b d s) d (true_clusters s)).
Proof.
  intros HS Hc Ht Hz Hw Hb Hwi H2 Ha Hr. destruct c; try congruence; cbn [resolved error the_formula] in *; rewrite ?nsamp_true in *.
  - destruct Hr as [[_ [vs Hr]]|[Hl Hr]]; [exact (C62_stream_CH L S d s vs r b HS Hz Hw Hr Hb Hwi H2 Ha)|exact (C62_batch_CH L S d s r b HS Hz Hw Hr Hb Hwi Hl H2 Ha)].
  - destruct Hr as [[_ [vs Hr]]|[Hl Hr]]; [exact (C62_stream_WB L S d s vs r b HS Hz Hw Hr Hb Hwi H2 Ha)|exact (C62_batch_WB L S d s r b HS Hz Hw Hr Hb Hwi Hl H2 Ha)].
  - assert (M : matrix_kind kDB) by (unfold matrix_kind; auto).
    destruct Hr as [[_ [vs Hr]]|[Hl Hr]]; [exact (C65_stream L S kDB d s vs r b HS M Hz Hw Hr Hb Hwi H2 Ha)|exact (C65_batch L S kDB d s r b HS M Hz Hw Hr Hb Hwi Hl H2 Ha)].
  - assert (M : matrix_kind kXB) by (unfold matrix_kind; auto).
    destruct Hr as [[_ [vs Hr]]|[Hl Hr]]; [exact (C65_stream L S kXB d s vs r b HS M Hz Hw Hr Hb Hwi H2 Ha)|exact (C65_batch L S kXB d s r b HS M Hz Hw Hr Hb Hwi Hl H2 Ha)].
  - assert (M : matrix_kind kGD43) by (unfold matrix_kind; auto).
    destruct Hr as [[_ [vs Hr]]|[Hl Hr]]; [exact (C65_stream L S kGD43 d s vs r b HS M Hz Hw Hr Hb Hwi H2 Ha)|exact (C65_batch L S kGD43 d s r b HS M Hz Hw Hr Hb Hwi Hl H2 Ha)].
  - assert (M : matrix_kind kGD53) by (unfold matrix_kind; auto).
    destruct Hr as [[_ [vs Hr]]|[Hl Hr]]; [exact (C65_stream L S kGD53 d s vs r b HS M Hz Hw Hr Hb Hwi H2 Ha)|exact (C65_batch L S kGD53 d s r b HS M Hz Hw Hr Hb Hwi Hl H2 Ha)].
  - destruct (Ht eq_refl) as [T1 T2].
    destruct Hr as [[_ [vs Hr]]|[Hl Hr]]; [exact (C68_stream L S d s vs r b tau HS T1 T2 Hz Hw Hr Hb Hwi H2 Ha)|exact (C68_batch L S d s r b tau HS T1 T2 Hz Hw Hr Hb Hwi Hl H2 Ha)].
  - destruct Hr as [[C _]|[Hl Hr]]; [congruence|exact (C70_batch L S d s r b HS Hz Hw Hr Hb Hwi Hl H2 Ha)].
Qed.

(** ** C72 *)
Theorem C72_reproducible (L L' : Libm) (S S' : Sums) (c : kind) (d : nat) (s t : list (list f64 * Z)) (r r' : f64) (b tau : R) :
  any_order S -> any_order S' -> c <> krCIP ->
  (c = kPS -> 0 <= tau <= 1 /\ exp_within tau L /\ exp_within tau L') ->
  sized d s -> wf_stream (A := F64o L S) d s -> moderate b -> within b s -> (2 <= length (true_clusters s))%nat ->
  resolved c (level b d s) d (true_clusters s) ->
  same_data s t -> returned L S c d s r -> returned L' S' c d t r' ->
  fin r /\ fin r' /\ Rabs (rv r - rv r') <= 2 * error tau c (level b d s) d (true_clusters s).
Proof.
  intros HS HS' Hc Ht Hz Hw Hb Hwi H2 Ha Hst Hr Hr'.
  pose proof (same_data_clusters s t Hst) as HC. pose proof (same_data_length s t Hst) as HL.
  assert (El : level b d t = level b d s) by (unfold level; now rewrite HL).
  assert (Hp : forall x l, In (x, l) t -> exists l', In (x, l') s).
  { intros x l Hi. destruct Hst as (f & _ & P). apply Permutation_sym in P. apply (Permutation_in _ P) in Hi.
    apply in_map_iff in Hi as ([x' l'] & E & Hi). injection E as -> _. now exists l'. }
  assert (C1 := one_run L S c d s r b tau HS Hc ltac:(intros E; destruct (Ht E); tauto) Hz Hw Hb Hwi H2 Ha Hr).
  assert (C2 : close r' (the_formula c d (true_clusters t)) (error tau c (level b d t) d (true_clusters t))).
  { apply (one_run L' S'); auto.
    - intros E; destruct (Ht E); tauto.
    - unfold sized in *. now rewrite <- HL.
    - unfold wf_stream in *. rewrite Forall_forall in *. intros [x l] Hi. destruct (Hp x l Hi) as [l' Hi']. exact (Hw _ Hi').
    - intros x l y Hi Hy. destruct (Hp x l Hi) as [l' Hi']. exact (Hwi x l' y Hi' Hy).
    - destruct HC as (ks & P & Q). rewrite <- (F2_length _ _ _ Q), <- (Permutation_length P). exact H2.
    - rewrite El. now apply (same_resolved d _ _ HC). }
  rewrite El, <- (same_formula d _ _ HC c Hc), <- (same_error d _ _ HC tau c _ Hc) in C2.
  split; [apply C1|]. split; [apply C2|]. exact (close_two _ _ _ _ C1 C2).
Qed.
Print Assumptions C72_reproducible.

(** For 0, 0, 5 | 10 as a stream and for the batch 10 | 5, 0, 0 with the labels
    exchanged XB returns two numbers that differ, by less than 2^-29. *)
Definition thirds_again : list (list f64 * Z) := [([d_of_Z 10], 0%Z); ([d_of_Z 5], 1%Z); ([d_of_Z 0], 1%Z); ([d_of_Z 0], 1%Z)].
Example C72_example (L : Libm) : let s := thirds L in
  sized 1 s /\ wf_stream 1 s /\ moderate 16 /\ within 16 s /\ (2 <= length (true_clusters s))%nat /\
  resolved kXB (level 16 1 s) 1 (true_clusters s) /\ same_data s thirds_again /\
  2 * error 0 kXB (level 16 1 s) 1 (true_clusters s) <= bpow radix2 (-29) /\
  exists r r', returned L left_right kXB 1 s r /\ returned L left_right kXB 1 thirds_again r' /\ rv r <> rv r'.
Proof.
  intros s. destruct (C65_example L) as (Hz & Hw & Hb & Hwi & H2 & Hl & Ha & _ & _ & _ & _ & He & _).
  assert (M : matrix_kind kXB) by (unfold matrix_kind; auto).
  repeat (split; [assumption|]). split; [exact (Ha _ M)|]. split; [|split].
  - exists (fun z => 1 - z)%Z. split; [intros; lia|]. cbn.
    match goal with |- Permutation ?l _ => exact (Permutation_rev l) end.
  - specialize (He _ M). unfold s. cbn [error]. change (bpow radix2 (-29)) with (/ 536870912). change (bpow radix2 (-30)) with (/ 1073741824) in He.
    revert He. match goal with |- ?x <= _ -> _ => generalize x end. intros. lra.
  - eexists _, _. split; [left; split; [discriminate|]; exists [d_of_Z 0; d_of_Z 0; d_of_Z 0]; vm_compute; reflexivity|]. split.
    + right. split; [|vm_compute; reflexivity].
      unfold exact_labels. intros z. rewrite exact_labels_of. unfold true_clusters, clusters, distinct. rewrite map_length, exact_labels_of. cbn. lia.
    + unfold rv; cbn; unfold F2R; cbn; lra.
Qed.
