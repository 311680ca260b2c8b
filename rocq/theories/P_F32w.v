(** * C80: float32 data, the values of XB, DB, GD43 and GD53

    The counterpart of C65 for float32 samples.  In a stream the rounding level
    does not grow with the number of samples (up to 2^20 of them), because the
    running mean of [param_inc] stays within four units of the last place; in a
    batch NumPy's float32 sum can lose one unit per sample. *)
From Coq Require Import ZArith Lia Lra SpecFloat List Arith Reals Permutation.
From Flocq Require Import Core.
From Verif Require Import Num NumPy Base GetCvi Lists Step Eval Stream Shapes Generic RunForm BatchForm ValForm F64 F64o F32d Rnd RndErr RndMean RndSum RndCl RndCP RndCP3 RndOps RndVal RndCH RndSel RndVal2 RndVal2E RndRun RndRun2 RndValE
  Rnd32 RndMean32 RndCl32 RndCP32 RndRun32 RndRun32b Spec RGeom XPerm P_Round P_RoundCP P_RoundV P_RoundV2 P_F32 P_F32b P_F32v.
Import ListNotations.
Local Open Scope R_scope.
Local Notation R := Rdefinitions.R.

(** ** The specification *)
(** [formula_of], [above], [allowed] and [matrix_kind] are in P_RoundV2.v,
    [moderate32] in P_F32v.v, [within32] in P_F32.v *)
(** the rounding level after a stream *)
Definition level32_stream (b : R) (d : nat) : R := 105 * bpow radix2 (-24) * (b * b) * (INR d * INR d).
(** the rounding level after one batch *)
Definition level32_batch (b : R) (d : nat) (s : list (list f64 * Z)) : R :=
  63 * bpow radix2 (-24) * (b * b) * (INR d * INR d) * INR (length s).

Section Common.
  Context (L : Libm) (S T : Sums) (HS : any_order S).
  Notation A := (F32d L S T).
  Context (d : nat) (Hd : (1 <= Z.of_nat d <= 2 ^ 20)%Z) (s : list (list f64 * Z)) (HL : (Z.of_nat (length s) <= 2 ^ 24)%Z)
          (b : R) (Hw : wf_stream (A := A) d s)
          (Hb : moderate32 b) (Hwi : within32 b s) (H2 : (2 <= length (true_clusters s))%nat).
  Context (ev : R) (Hev : 1000 * u * b * INR (length s) <= ev <= b / 8).
  Let Hb' := moderate32_ok b Hb.
  Lemma lam_le_Y c gs (P : Permutation gs (groups s)) : matrix_kind c -> above c (lam32 b d ev) d (map exact gs) -> lam32 b d ev <= INR d * (b * b).
  Proof.
    intros Hc Ha. destruct (perm_ok L S b d s Hw (within32_within b s Hwi) HL (s_ne s H2) gs P) as (G1 & G2 & G3 & G4 & G5 & G6).
    assert (K2 : (2 <= length gs)%nat) by (rewrite G6; exact H2).
    assert (HN : (Z.of_nat (length (concat gs)) <= 2 ^ 24)%Z) by (rewrite G3; exact HL).
    pose proof (delta_range b (Hb2 b Hb') d Hd gs K2 G2 HN) as E1. pose proof (mmax_range b (Hb2 b Hb') d Hd gs K2 G2 HN) as [_ E2].
    change (sepmin d gs) with (separation d (map exact gs)) in E1. change (mmax d gs) with (spread d (map exact gs)) in E2.
    destruct Hc as [->|[->|[->| ->]]]; cbn [above] in Ha; lra.
  Qed.
  Lemma common32 c a f gs (P : Permutation gs (groups s)) : matrix_kind c -> holds32 L S T b d s gs ev a f -> entries32 L S T b d gs ev c a ->
    (c = kDB -> exists h, S1 a = map h gs /\ forall g, In g gs -> near (h g) (mse d (exact g)) (749 / 760 * lam32 b d ev)) ->
    above c (lam32 b d ev) d (true_clusters s) ->
    close (val_of (A := A) c a) (formula_of c d (true_clusters s)) (allowed c (lam32 b d ev) d (true_clusters s)).
  Proof.
    intros Hc Ho He HDB Ha. pose proof (s_ne s H2) as Hs.
    destruct (perm_ok L S b d s Hw (within32_within b s Hwi) HL Hs gs P) as (G1 & G2 & G3 & G4 & G5 & G6).
    assert (K2 : (2 <= length gs)%nat) by (rewrite G6; exact H2). fold (true_clusters s) in G5.
    rewrite <- (formula_perm c d _ _ Hc G5), <- (allowed_perm c _ d _ _ Hc G5). apply (above_perm c _ d _ _ (Permutation_sym G5)) in Ha.
    pose proof (lam_le_Y c gs P Hc Ha) as HY.
    enough (H : near (val_of (A := A) c a) (formula_of c d (map exact gs)) (allowed c (lam32 b d ev) d (map exact gs))).
    { destruct H as (_ & Hf & H). split; auto. }
    destruct Hc as [->|[->|[->| ->]]]; cbn [formula_of allowed above] in *.
    - exact (obj_XB32 L S T b Hb' d Hd s Hw Hwi HL Hs gs P K2 ev Hev HY a f Ho He Ha).
    - destruct (HDB eq_refl) as (h & E1 & Hh). exact (obj_DB32 L S T HS b Hb' d Hd s Hw Hwi HL Hs gs P K2 ev Hev HY a f h Ho He E1 Hh Ha).
    - destruct Ha as [Ha Ha']. exact (obj_GD4332 L S T b Hb' d Hd s Hw Hwi HL Hs gs P K2 ev Hev HY a f Ho He Ha Ha').
    - exact (obj_GD5332 L S T b Hb' d Hd s Hw Hwi HL Hs gs P K2 ev Hev HY a f Ho He Ha).
  Qed.
End Common.

Lemma lam_stream b d : lam32 b d (ev_s b) = level32_stream b d.
Proof. unfold lam32, ev_s, level32_stream, u32. ring. Qed.
Lemma lam_batch b d s : lam32 b d (ev_b b s) = level32_batch b d s.
Proof. unfold lam32, ev_b, level32_batch, u32. ring. Qed.

(** ** Streams *)
Theorem C80_stream (L : Libm) (S T : Sums) (c : kind) (d : nat) (s : list (vec (F32d L S T) * Z)) vs r (b : R) :
  any_order S -> matrix_kind c -> (1 <= Z.of_nat d <= 2 ^ 20)%Z -> (Z.of_nat (length s) <= 2 ^ 20)%Z ->
  wf_stream d s -> results c new_obj (stream s) = map Ok (vs ++ [r]) -> moderate32 b -> within32 b s ->
  let gs := true_clusters s in
  (2 <= length gs)%nat -> above c (level32_stream b d) d gs ->
  close r (formula_of c d gs) (allowed c (level32_stream b d) d gs).
Proof.
  intros HS Hc Hd HL Hw Hr Hb Hwi gs H2 Ha. destruct (matrix_class c Hc) as [Hgc Hdc].
  destruct (value_stream c d s vs r Hw Hr) as (a & HF & HX & _ & ->).
  assert (Hs : s <> []) by (exact (s_ne s H2)). pose proof (moderate32_ok b Hb) as Hb'.
  assert (HL' : (Z.of_nat (length s) <= 2 ^ 24)%Z) by (eapply Z.le_trans; [exact HL|lia]).
  assert (K2 : (2 <= length (groups s))%nat) by (rewrite groups_length; exact (eq_ind_r (fun t => (2 <= t)%nat) H2 (two_groups s))).
  destruct (perm_ok L S b d s Hw (within32_within b s Hwi) HL' Hs (groups s) (Permutation_refl _)) as (G1 & G2 & G3 & G4 & G5 & G6).
  pose proof (ev_s_ok L S T b Hb' d s Hw Hwi Hs HL) as Hev. rewrite <- lam_stream in *.
  pose proof (fun g => stores_stream32 L S T HS b Hb' d Hd s Hw Hwi Hs (groups s) (Permutation_refl _) g HL) as HSt.
  assert (Ha' : above c (lam32 b d (ev_s b)) d (map exact (groups s))) by (exact (above_perm c _ d _ _ (Permutation_sym G5) Ha)).
  pose proof (lam_le_Y L S T d Hd s HL' b Hw Hb Hwi H2 (ev_s b) c (groups s) (Permutation_refl _) Hc Ha') as HY.
  apply (common32 L S T HS d Hd s HL' b Hw Hb Hwi H2 (ev_s b) Hev c a _ (groups s) (Permutation_refl _) Hc
           (holds_stream32 L S T b Hb' d Hd s Hw Hwi HL' Hs (groups s) (Permutation_refl _) (ev_s b) Hev eq_refl HSt c a Hgc HF)); auto.
  - apply (entries_stream32 L S T HS b Hb' d Hd s Hw Hwi HL' Hs (groups s) (Permutation_refl _) K2 (ev_s b) Hev HY eq_refl HSt c a Hdc); auto.
    intros ->. apply Ha'.
  - intros ->. exists (S_form (A := F32d L S T)). split; [exact (S_stream32 L S T s _ eq_refl a HX)|]. intros g Hi.
    exact (near_S_form32 L S T b Hb' d Hd s Hw Hwi HL' Hs (groups s) (Permutation_refl _) K2 (ev_s b) Hev HY HSt g Hi).
Qed.
Print Assumptions C80_stream.

(** ** One batch with labels 0, 1, ..., k-1 *)
Theorem C80_batch (L : Libm) (S T : Sums) (c : kind) (d : nat) (s : list (vec (F32d L S T) * Z)) r (b : R) :
  any_order S -> any_order32 T -> matrix_kind c -> (1 <= Z.of_nat d <= 2 ^ 20)%Z -> (Z.of_nat (length s) <= 2 ^ 19)%Z ->
  wf_stream d s -> results c new_obj [batch_of d s] = [Ok r] -> moderate32 b -> within32 b s ->
  let gs := true_clusters s in
  exact_labels (exact_data s) (length gs) -> (2 <= length gs)%nat -> above c (level32_batch b d s) d gs ->
  close r (formula_of c d gs) (allowed c (level32_batch b d s) d gs).
Proof.
  intros HS HT Hc Hd HL Hw Hr Hb Hwi gs Hl H2 Ha. destruct (matrix_class c Hc) as [Hgc Hdc].
  destruct (value_batch c d s r Hw Hgc Hr) as (a & HF & ->). destruct (exact_labels_upto s _ Hl) as [Hl' El].
  assert (Hs : s <> []) by (exact (s_ne s H2)). pose proof (moderate32_ok b Hb) as Hb'.
  assert (HL' : (Z.of_nat (length s) <= 2 ^ 24)%Z) by (eapply Z.le_trans; [exact HL|lia]).
  pose proof (bgroups_perm32 L S T d s Hl') as P.
  destruct (perm_ok L S b d s Hw (within32_within b s Hwi) HL' Hs _ P) as (G1 & G2 & G3 & G4 & G5 & G6).
  assert (K2 : (2 <= length (bgroups (A := F32d L S T) s))%nat) by (exact (eq_ind_r (fun t => (2 <= t)%nat) H2 G6)).
  pose proof (ev_b_ok L S T b Hb' d s Hw Hwi Hs HL) as Hev. rewrite <- lam_batch in *.
  pose proof (fun g => stores_batch32 L S T HS b Hb' d Hd s Hw Hwi Hs _ P g HT HL) as HBt.
  assert (Ha' : above c (lam32 b d (ev_b b s)) d (map exact (bgroups (A := F32d L S T) s))) by (exact (above_perm c _ d _ _ (Permutation_sym G5) Ha)).
  pose proof (lam_le_Y L S T d Hd s HL' b Hw Hb Hwi H2 (ev_b b s) c _ P Hc Ha') as HY.
  apply (common32 L S T HS d Hd s HL' b Hw Hb Hwi H2 (ev_b b s) Hev c a _ _ P Hc
           (holds_batch32 L S T b Hb' d Hd s Hw Hwi HL' Hs _ P (ev_b b s) Hev eq_refl HBt c a HF)); auto.
  - apply (entries_batch32 L S T HS b Hb' d Hd s Hw Hwi HL' Hs _ P K2 (ev_b b s) Hev HY eq_refl HBt c a Hdc); auto.
    intros ->. apply Ha'.
  - intros ->. eexists. split; [exact (S_batch32 L S T d s _ eq_refl a HF)|]. intros g Hi.
    exact (near_S_batch32 L S T b Hb' d Hd s Hw Hwi HL' Hs _ P K2 (ev_b b s) Hev HY HBt g Hi).
Qed.
Print Assumptions C80_batch.

(** ** The two modes *)
Theorem C80_modes_agree (L : Libm) (S T : Sums) (c : kind) (d : nat) (s : list (vec (F32d L S T) * Z)) vs r r' (b : R) :
  any_order S -> any_order32 T -> matrix_kind c -> (1 <= Z.of_nat d <= 2 ^ 20)%Z -> (Z.of_nat (length s) <= 2 ^ 19)%Z ->
  wf_stream d s -> moderate32 b -> within32 b s ->
  let gs := true_clusters s in
  exact_labels (exact_data s) (length gs) -> (2 <= length gs)%nat ->
  above c (level32_stream b d) d gs -> above c (level32_batch b d s) d gs ->
  results c new_obj (stream s) = map Ok (vs ++ [r]) -> results c new_obj [batch_of d s] = [Ok r'] ->
  Rabs (rv r - rv r') <= allowed c (level32_stream b d) d gs + allowed c (level32_batch b d s) d gs.
Proof.
  intros HS HT Hc Hd HL Hw Hb Hwi gs Hl H2 Ha Ha' H H'.
  destruct (C80_stream L S T c d s vs r b HS Hc Hd ltac:(eapply Z.le_trans; [exact HL|lia]) Hw H Hb Hwi H2 Ha) as [_ E].
  destruct (C80_batch L S T c d s r' b HS HT Hc Hd HL Hw H' Hb Hwi Hl H2 Ha') as [_ E']. fold gs in E, E'.
  replace (rv r - rv r') with ((rv r - formula_of c d gs) + - (rv r' - formula_of c d gs)) by ring.
  eapply Rle_trans; [apply Rabs_triang|]. rewrite Rabs_Ropp. lra.
Qed.
Print Assumptions C80_modes_agree.

(** ** Cases *)
Local Arguments scatter : simpl never.
Local Arguments cdist : simpl never.
Local Arguments mse : simpl never.
(** For 0, 0, 5 | 10 as float32 the modes differ for XB and DB; none of the four
    numbers is the true value 3/50 or 2/25, all are within the bound. *)
Example C80_example (L : Libm) :
  let s := f32s L thirds32 in let gs := true_clusters s in
  (Z.of_nat (length s) <= 2 ^ 19)%Z /\ wf_stream 1 s /\ moderate32 16 /\ within32 16 s /\ (2 <= length gs)%nat /\ exact_labels (exact_data s) (length gs) /\
  (forall c, matrix_kind c -> above c (level32_stream 16 1) 1 gs /\ above c (level32_batch 16 1 s) 1 gs) /\
  XB_formula 1 gs = 3 / 50 /\ DB_formula 1 gs = 2 / 25 /\ GD43_formula 1 gs = 3 / 4 /\ GD53_formula 1 gs = 3 / 8 /\
  (forall c, matrix_kind c -> allowed c (level32_stream 16 1) 1 gs <= / 500 /\ allowed c (level32_batch 16 1 s) 1 gs <= / 400) /\
  (exists vs r r', results kXB new_obj (stream s) = map Ok (vs ++ [r]) /\ results kXB new_obj [batch_of 1 s] = [Ok r'] /\
     rv r' < 3 / 50 < rv r /\ bpow radix2 (-31) <= rv r - rv r') /\
  (exists vs r r', results kDB new_obj (stream s) = map Ok (vs ++ [r]) /\ results kDB new_obj [batch_of 1 s] = [Ok r'] /\
     rv r' < 2 / 25 < rv r /\ bpow radix2 (-31) <= rv r - rv r').
Proof.
  intros s gs.
  assert (Hw : wf_stream 1 s) by (repeat constructor).
  assert (Hb : moderate32 16) by (change 16 with (bpow radix2 4); split; apply bpow_le; lia).
  assert (Hwi : within32 16 s) by (exact (thirds32_within L)).
  assert (Eg : gs = [[[0]; [0]; [5]]; [[10]]]).
  { destruct ex_vals as (E0 & E5 & E10 & _). unfold gs, true_clusters, exact_data, s, f32s, thirds32, dvec. cbn [map fst snd]. rewrite E0, E5, E10. reflexivity. }
  assert (H2 : (2 <= length gs)%nat) by (rewrite Eg; cbn; lia).
  assert (Hl : exact_labels (exact_data s) (length gs)).
  { rewrite Eg. unfold exact_labels. intros x. cbn. lia. }
  assert (Esc : scatter 1 [[0]; [0]; [5]] = 50 / 3) by (unfold scatter, centroid, dist2; cbn; field).
  assert (Esc' : scatter 1 [[10]] = 0) by (unfold scatter, centroid, dist2; cbn; field).
  assert (Ecd : cdist 1 [[0]; [0]; [5]] [[10]] = 625 / 9) by (unfold cdist, centroid, dist2; cbn; field).
  assert (Em : mse 1 [[0]; [0]; [5]] = 50 / 9) by (unfold mse; rewrite Esc; cbn; field).
  assert (Em' : mse 1 [[10]] = 0) by (unfold mse; rewrite Esc'; cbn; field).
  assert (Es : separation 1 gs = 625 / 9) by (rewrite Eg; unfold separation; cbn; exact Ecd).
  assert (Ep : spread 1 gs = 50 / 9).
  { rewrite Eg. unfold spread. cbn [map rmax fold_right]. rewrite Em, Em'. unfold Rmax; repeat destruct Rle_dec; lra. }
  assert (E1 : XB_formula 1 gs = 3 / 50).
  { unfold XB_formula. fold (separation 1 gs). rewrite Es, Eg. unfold wgss, nsamp. cbn. rewrite Esc, Esc'. field. }
  assert (E2 : DB_formula 1 gs = 2 / 25).
  { rewrite Eg. unfold DB_formula, nclus. cbn. rewrite (cdist_sym 1 [[10]]), Ecd, Em, Em'. field. }
  assert (E3 : GD43_formula 1 gs = 3 / 4).
  { unfold GD43_formula. fold (spread 1 gs). rewrite Ep, Eg. cbn. rewrite Ecd.
    replace (625 / 9) with (25 / 3 * (25 / 3)) by field. rewrite sqrt_square by lra. field. }
  assert (E4 : GD53_formula 1 gs = 3 / 8).
  { unfold GD53_formula. fold (spread 1 gs). rewrite Ep, Eg. cbn. rewrite Esc, Esc'. field. }
  assert (El : level32_stream 16 1 = 26880 * bpow radix2 (-24)) by (unfold level32_stream; cbn [INR]; ring).
  assert (El' : level32_batch 16 1 s = 64512 * bpow radix2 (-24)) by (unfold level32_batch; cbn [s f32s thirds32 map length INR]; ring).
  change (bpow radix2 (-24)) with (/ 16777216) in El, El'.
  split; [cbn; lia|]. repeat (split; [assumption|]). split.
  { intros c [->|[->|[->| ->]]]; cbn [above]; rewrite ?Es, ?Ep, El, El'; lra. }
  repeat (split; [assumption|]). split.
  { intros c [->|[->|[->| ->]]]; cbn [allowed]; rewrite ?E1, ?E2, ?E3, ?E4, ?Es, ?Ep, El, El'; lra. }
  change (bpow radix2 (-31)) with (/ 2147483648). split.
  - eexists [_; _; _], _, _. split; [vm_compute; reflexivity|]. split; [vm_compute; reflexivity|].
    unfold rv. cbn. unfold F2R. cbn. lra.
  - eexists [_; _; _], _, _. split; [vm_compute; reflexivity|]. split; [vm_compute; reflexivity|].
    unfold rv. cbn. unfold F2R. cbn. lra.
Qed.

(** The conditions are needed.  For 2^23 | 2^23, 2^23+1 as float32 the sum of
    the second cluster is rounded in a batch, the two centroids coincide, XB and
    DB are infinite and GD43 is 0.  The stream of the same samples, and both
    modes with float64 samples, return 2/3 (rounded), 1 and 1. *)
Definition next23 : list (list Z * Z) := [([2 ^ 23], 0); ([2 ^ 23], 1); ([2 ^ 23 + 1], 1)]%Z.
Definition lastv {X} (l : list (E X)) : E X := last l (Err ValueError).
Theorem C80_needs_separation (L : Libm) :
  let s := f32s L next23 in let t := f64s L next23 in let gs := true_clusters s in
  let two_thirds := dyadic 6004799503160661 53 in let one := d_of_Z 1 in
  wf_stream 1 s /\ within32 (bpow radix2 24) s /\ moderate32 (bpow radix2 24) /\ exact_labels (exact_data s) (length gs) /\
  XB_formula 1 gs = 2 / 3 /\ DB_formula 1 gs = 1 /\ GD43_formula 1 gs = 1 /\
  (forall c r, (c = kXB /\ r = two_thirds) \/ (c = kDB /\ r = one) \/ (c = kGD43 /\ r = one) ->
     lastv (results c new_obj (stream s)) = Ok r /\ lastv (results c new_obj (stream t)) = Ok r /\ results c new_obj [batch_of 1 t] = [Ok r]) /\
  (forall c, c = kXB \/ c = kDB -> results c new_obj [batch_of 1 s] = [Ok (S754_infinity false)]) /\
  results kGD43 new_obj [batch_of 1 s] = [Ok (S754_zero false)].
Proof.
  intros s t gs two_thirds one.
  assert (E1 : rv (d_of_Z (2 ^ 23)) = 8388608) by (destruct (of_Z_ok (2 ^ 23)) as (_ & _ & E); [lia|exact E]).
  assert (E2 : rv (d_of_Z (2 ^ 23 + 1)) = 8388609) by (destruct (of_Z_ok (2 ^ 23 + 1)) as (_ & _ & E); [lia|exact E]).
  assert (Eg : gs = [[[8388608]]; [[8388608]; [8388609]]]).
  { unfold gs, s, true_clusters, exact_data, f32s, next23, dvec. cbn [map fst snd]. rewrite E1, E2. reflexivity. }
  split; [repeat constructor|]. split.
  { assert (H : forall z, (Z.abs z < 2 ^ 24)%Z -> is_float32 (d_of_Z z) /\ Rabs (rv (d_of_Z z)) <= bpow radix2 24).
    { intros z Hz. split; [apply small_float32; lia|]. destruct (of_Z_ok z) as (_ & _ & Ez); [lia|].
      rewrite Ez, <- abs_IZR. change (bpow radix2 24) with (IZR (2 ^ 24)). apply IZR_le. lia. }
    intros x l y Hp Hy. cbn [s f32s next23 map fst snd In dvec] in Hp.
    repeat (destruct Hp as [Hp|Hp]; [apply pair_equal_spec in Hp as [<- <-]; destruct Hy as [<-|[]]; apply H; lia|]). destruct Hp. }
  split; [split; apply bpow_le; lia|].
  split. { rewrite Eg. unfold exact_labels. intros x. cbn. lia. }
  assert (Esc : scatter 1 [[8388608]; [8388609]] = 1 / 2) by (unfold scatter, centroid, dist2; cbn; field).
  assert (Esc' : scatter 1 [[8388608]] = 0) by (unfold scatter, centroid, dist2; cbn; field).
  assert (Ecd : cdist 1 [[8388608]] [[8388608]; [8388609]] = 1 / 4) by (unfold cdist, centroid, dist2; cbn; field).
  assert (Em : mse 1 [[8388608]; [8388609]] = 1 / 4) by (unfold mse; rewrite Esc; cbn; field).
  assert (Em' : mse 1 [[8388608]] = 0) by (unfold mse; rewrite Esc'; cbn; field).
  split. { rewrite Eg. unfold XB_formula, wgss, nsamp. cbn. rewrite Ecd, Esc, Esc'. field. }
  split. { rewrite Eg. unfold DB_formula, nclus. cbn. rewrite (cdist_sym 1 [[8388608]; [8388609]]), Ecd, Em, Em'. field. }
  split.
  { rewrite Eg. unfold GD43_formula. cbn. rewrite Ecd, Em, Em'. replace (Rmax _ _) with (1 / 4) by (unfold Rmax; repeat destruct Rle_dec; lra).
    replace (1 / 4) with (1 / 2 * (1 / 2)) by field. rewrite sqrt_square by lra. field. }
  split. { intros c r [[-> ->]|[[-> ->]|[-> ->]]]; (split; [vm_compute; reflexivity|split; vm_compute; reflexivity]). }
  split; [intros c [->| ->]; vm_compute; reflexivity|]. vm_compute. reflexivity.
Qed.
Print Assumptions C80_needs_separation.
