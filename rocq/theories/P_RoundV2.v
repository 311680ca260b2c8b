(** * C65: how far rounding moves the values of XB, DB, GD43 and GD53 *)
From Coq Require Import ZArith Lia Lra SpecFloat List Arith Reals Permutation.
From Flocq Require Import Core.
From Verif Require Import Num NumPy Base GetCvi Lists Step Eval Stream Shapes Generic RunForm BatchForm ValForm F64 F64o Rnd RndErr RndMean RndSum RndCl RndCP RndCP3 RndOps RndVal RndCH RndSel RndVal2 RndRun RndRun2 Spec RGeom XPerm P_Round P_RoundCP P_RoundV.
Import ListNotations.
Local Open Scope R_scope.
Local Notation R := Rdefinitions.R.

(** ** The specification *)
(** smallest squared distance of two centroids, largest mean squared distance
    of a cluster to its centroid *)
Definition separation (d : nat) (gs : list (list point)) : R := rmin (map (fun p => cdist d (fst p) (snd p)) (pairs gs)).
Definition spread (d : nat) (gs : list (list point)) : R := rmax (map (mse d) gs).
(** the published formula (Spec.v) *)
Definition formula_of (c : kind) : nat -> list (list point) -> R :=
  match c with kXB => XB_formula | kDB => DB_formula | kGD43 => GD43_formula | kGD53 => GD53_formula | _ => fun _ _ => 0 end.
(** the divisors are well above the rounding level [l] *)
Definition above (c : kind) (l : R) (d : nat) (gs : list (list point)) : Prop :=
  match c with
  | kXB | kDB => 4 * l <= separation d gs
  | kGD43 => 4 * l <= separation d gs /\ 4 * l <= spread d gs
  | _ => 4 * l <= spread d gs
  end.
(** the error allowed *)
Definition allowed (c : kind) (l : R) (d : nat) (gs : list (list point)) : R :=
  match c with
  | kXB => 2 * (l / separation d gs) * (1 + XB_formula d gs)
  | kDB => l / separation d gs * (3 + DB_formula d gs)
  | kGD43 => 2 * (l / separation d gs + l / spread d gs) * GD43_formula d gs
  | _ => 2 * (l / spread d gs) * (1 + GD53_formula d gs)
  end.
Definition matrix_kind (c : kind) : Prop := c = kXB \/ c = kDB \/ c = kGD43 \/ c = kGD53.

(** ** From one order of the clusters to another *)
Lemma separation_perm d gs gs' : Permutation gs gs' -> separation d gs = separation d gs'.
Proof. intros P. exact (rmin_pairs_perm (cdist d) _ _ (cdist_sym d) P). Qed.
Lemma formula_perm c d gs gs' : matrix_kind c -> Permutation gs gs' -> formula_of c d gs = formula_of c d gs'.
Proof.
  intros Hc P. destruct Hc as [->|[->|[->| ->]]]; cbn [formula_of].
  - unfold XB_formula. now rewrite (wgss_perm d _ _ P), (nsamp_perm _ _ P), (rmin_pairs_perm (cdist d) _ _ (cdist_sym d) P).
  - unfold DB_formula. rewrite (nclus_perm _ _ P). f_equal. apply rsum_perm.
    apply (selects_perm (fun x r => rmax (map (fun h => (mse d x + mse d h) / cdist d x h) r))); auto.
    intros x r r' Hr. now apply rmax_perm, Permutation_map.
  - unfold GD43_formula. rewrite (maxmse_perm d _ _ P).
    rewrite (rmin_pairs_perm (fun g h => sqrt (cdist d g h)) gs gs'); auto. intros; now rewrite cdist_sym.
  - unfold GD53_formula. rewrite (maxmse_perm d _ _ P).
    rewrite (rmin_pairs_perm (fun g h => (scatter d g + scatter d h) / (INR (length g) + INR (length h))) gs gs'); auto.
    intros. now rewrite Rplus_comm, (Rplus_comm (INR _)).
Qed.
Lemma allowed_perm c l d gs gs' : matrix_kind c -> Permutation gs gs' -> allowed c l d gs = allowed c l d gs'.
Proof.
  intros Hc P. pose proof (formula_perm c d gs gs' Hc P) as EF. pose proof (separation_perm d gs gs' P) as ES.
  assert (EM : spread d gs = spread d gs') by (exact (maxmse_perm d _ _ P)).
  destruct Hc as [->|[->|[->| ->]]]; cbn [formula_of] in EF; cbn [allowed]; now rewrite ?ES, ?EM, EF.
Qed.
Lemma above_perm c l d gs gs' : Permutation gs gs' -> above c l d gs -> above c l d gs'.
Proof.
  intros P. unfold above. assert (EM : spread d gs = spread d gs') by (exact (maxmse_perm d _ _ P)).
  rewrite (separation_perm d gs gs' P), EM. auto.
Qed.
Lemma matrix_class c : matrix_kind c -> gclass c = true /\ dclass c = true.
Proof. intros [->|[->|[->| ->]]]; auto. Qed.

Section Common.
  Context (L : Libm) (S : Sums) (HS : any_order S).
  Notation A := (F64o L S).
  Context (d : nat) (s : list (list f64 * Z)) (b : R) (Hz : sized d s) (Hw : wf_stream (A := A) d s)
          (Hb : moderate b) (Hwi : within b s) (H2 : (2 <= length (true_clusters s))%nat).
  Lemma lam_level gs : length (concat gs) = length s -> lam b d gs = level b d s.
  Proof. intros E. unfold lam, level, u. rewrite E. ring. Qed.
  Lemma common c a f gs (P : Permutation gs (groups s)) : matrix_kind c -> holds L S b d s gs a f -> entries L S b d gs c a ->
    (c = kDB -> exists h, S1 a = map h gs /\ forall g, In g gs -> near (h g) (mse d (exact g)) (749 / 760 * lam b d gs)) ->
    above c (level b d s) d (true_clusters s) ->
    close (val_of (A := A) c a) (formula_of c d (true_clusters s)) (allowed c (level b d s) d (true_clusters s)).
  Proof.
    intros Hc Ho He HDB Ha. destruct (perm_ok L S b d s Hw Hwi (proj2 Hz) (s_ne s H2) gs P) as (G1 & G2 & G3 & G4 & G5 & G6).
    assert (K2 : (2 <= length gs)%nat) by (rewrite G6; exact H2). fold (true_clusters s) in G5.
    rewrite <- (formula_perm c d _ _ Hc G5), <- (allowed_perm c _ d _ _ Hc G5). apply (above_perm c _ d _ _ (Permutation_sym G5)) in Ha.
    rewrite <- (lam_level gs G3) in *. pose proof (moderate_lo2 b Hb) as Hb'. destruct Hz as [Hd HL]. pose proof (s_ne s H2) as Hs.
    enough (H : near (val_of (A := A) c a) (formula_of c d (map exact gs)) (allowed c (lam b d gs) d (map exact gs))).
    { destruct H as (_ & Hf & H). split; auto. }
    destruct Hc as [->|[->|[->| ->]]]; cbn [formula_of allowed above] in *.
    - exact (obj_XB L S b Hb' d Hd s Hw Hwi HL Hs gs P K2 a f Ho He Ha).
    - destruct (HDB eq_refl) as (h & E1 & Hh). exact (obj_DB L S HS b Hb' d Hd s Hw Hwi HL Hs gs P K2 a f h Ho He E1 Hh Ha).
    - destruct Ha as [Ha Ha']. exact (obj_GD43 L S b Hb' d Hd s Hw Hwi HL Hs gs P K2 a f Ho He Ha Ha').
    - exact (obj_GD53 L S b Hb' d Hd s Hw Hwi HL Hs gs P K2 a f Ho He Ha).
  Qed.
End Common.

(** ** Streams *)
Theorem C65_stream (L : Libm) (S : Sums) (c : kind) (d : nat) (s : list (vec (F64o L S) * Z)) vs r (b : R) :
  any_order S -> matrix_kind c -> sized d s -> wf_stream d s -> results c new_obj (stream s) = map Ok (vs ++ [r]) -> moderate b -> within b s ->
  let gs := true_clusters s in
  (2 <= length gs)%nat -> above c (level b d s) d gs ->
  close r (formula_of c d gs) (allowed c (level b d s) d gs).
Proof.
  intros HS Hc Hz Hw Hr Hb Hwi gs H2 Ha. destruct (matrix_class c Hc) as [Hgc Hdc].
  destruct (value_stream c d s vs r Hw Hr) as (a & HF & HX & _ & ->).
  assert (Hs : s <> []) by (exact (s_ne s H2)). pose proof (moderate_lo2 b Hb) as Hb'.
  assert (K2 : (2 <= length (groups s))%nat) by (rewrite groups_length; exact (eq_ind_r (fun t => (2 <= t)%nat) H2 (two_groups s))).
  destruct (perm_ok L S b d s Hw Hwi (proj2 Hz) Hs (groups s) (Permutation_refl _)) as (G1 & G2 & G3 & G4 & G5 & G6).
  apply (common L S HS d s b Hz Hw Hb Hwi H2 c a _ (groups s) (Permutation_refl _) Hc
           (holds_stream L S HS b Hb' d (proj1 Hz) s Hw Hwi (proj2 Hz) Hs (groups s) (Permutation_refl _) eq_refl c a Hgc HF)); auto.
  - apply (entries_stream L S HS b Hb' d (proj1 Hz) s Hw Hwi (proj2 Hz) Hs (groups s) (Permutation_refl _) K2 eq_refl c a Hdc); auto.
    intros ->. rewrite (lam_level d s b _ G3). apply (above_perm kGD43 _ d _ _ (Permutation_sym G5)) in Ha. apply Ha.
  - intros ->. exists (S_form (A := F64o L S)). split; [exact (S_stream L S s _ eq_refl a HX)|]. intros g Hi.
    exact (near_S_form L S HS b Hb' d (proj1 Hz) s Hw Hwi (proj2 Hz) Hs (groups s) (Permutation_refl _) K2 g Hi).
Qed.
Print Assumptions C65_stream.

(** ** One batch with labels 0, 1, ..., k-1 *)
Theorem C65_batch (L : Libm) (S : Sums) (c : kind) (d : nat) (s : list (vec (F64o L S) * Z)) r (b : R) :
  any_order S -> matrix_kind c -> sized d s -> wf_stream d s -> results c new_obj [batch_of d s] = [Ok r] -> moderate b -> within b s ->
  let gs := true_clusters s in
  exact_labels (exact_data s) (length gs) -> (2 <= length gs)%nat -> above c (level b d s) d gs ->
  close r (formula_of c d gs) (allowed c (level b d s) d gs).
Proof.
  intros HS Hc Hz Hw Hr Hb Hwi gs Hl H2 Ha. destruct (matrix_class c Hc) as [Hgc Hdc].
  destruct (value_batch c d s r Hw Hgc Hr) as (a & HF & ->). destruct (exact_labels_upto s _ Hl) as [Hl' El].
  assert (Hs : s <> []) by (exact (s_ne s H2)). pose proof (moderate_lo2 b Hb) as Hb'.
  pose proof (bgroups_perm L S d s Hl') as P. 
  destruct (perm_ok L S b d s Hw Hwi (proj2 Hz) Hs _ P) as (G1 & G2 & G3 & G4 & G5 & G6).
  assert (K2 : (2 <= length (bgroups (A := F64o L S) s))%nat) by (exact (eq_ind_r (fun t => (2 <= t)%nat) H2 G6)).
  apply (common L S HS d s b Hz Hw Hb Hwi H2 c a _ _ P Hc
           (holds_batch L S HS b Hb' d (proj1 Hz) s Hw Hwi (proj2 Hz) Hs _ P eq_refl c a HF)); auto.
  - apply (entries_batch L S HS b Hb' d (proj1 Hz) s Hw Hwi (proj2 Hz) Hs _ P K2 eq_refl c a Hdc); auto.
    intros ->. rewrite (lam_level d s b _ G3). apply (above_perm kGD43 _ d _ _ (Permutation_sym G5)) in Ha. apply Ha.
  - intros ->. eexists. split; [exact (S_batch L S d s _ eq_refl a HF)|]. intros g Hi.
    exact (near_S_batch L S HS b Hb' d (proj1 Hz) s Hw Hwi (proj2 Hz) Hs _ P K2 g Hi).
Qed.
Print Assumptions C65_batch.

(** ** The two modes *)
Theorem C65_modes_agree (L : Libm) (S : Sums) (c : kind) (d : nat) (s : list (vec (F64o L S) * Z)) vs r r' (b : R) :
  any_order S -> matrix_kind c -> sized d s -> wf_stream d s -> moderate b -> within b s ->
  let gs := true_clusters s in
  exact_labels (exact_data s) (length gs) -> (2 <= length gs)%nat -> above c (level b d s) d gs ->
  results c new_obj (stream s) = map Ok (vs ++ [r]) -> results c new_obj [batch_of d s] = [Ok r'] ->
  Rabs (rv r - rv r') <= 2 * allowed c (level b d s) d gs.
Proof.
  intros HS Hc Hz Hw Hb Hwi gs Hl H2 Ha H H'.
  exact (close_two _ _ _ _ (C65_stream L S c d s vs r b HS Hc Hz Hw H Hb Hwi H2 Ha) (C65_batch L S c d s r' b HS Hc Hz Hw H' Hb Hwi Hl H2 Ha)).
Qed.
Print Assumptions C65_modes_agree.

(** ** Cases *)
Local Arguments scatter : simpl never.
Local Arguments cdist : simpl never.
Local Arguments mse : simpl never.
(** For 0, 0, 5 | 10 the two modes return different numbers for XB and for DB.
    None of the four is the true value 3/50 or 2/25, all are within the bound. *)
Example C65_example (L : Libm) :
  let s := thirds L in let gs := true_clusters s in
  sized 1 s /\ wf_stream 1 s /\ moderate 16 /\ within 16 s /\ (2 <= length gs)%nat /\ exact_labels (exact_data s) (length gs) /\
  (forall c, matrix_kind c -> above c (level 16 1 s) 1 gs) /\
  XB_formula 1 gs = 3 / 50 /\ DB_formula 1 gs = 2 / 25 /\ GD43_formula 1 gs = 3 / 4 /\ GD53_formula 1 gs = 3 / 8 /\
  (forall c, matrix_kind c -> allowed c (level 16 1 s) 1 gs <= bpow radix2 (-30)) /\
  (exists vs r r', results kXB new_obj (stream s) = map Ok (vs ++ [r]) /\ results kXB new_obj [batch_of 1 s] = [Ok r'] /\
     3 / 50 <> rv r' /\ rv r' < rv r) /\
  (exists vs r r', results kDB new_obj (stream s) = map Ok (vs ++ [r]) /\ results kDB new_obj [batch_of 1 s] = [Ok r'] /\
     2 / 25 <> rv r' /\ rv r' < rv r).
Proof.
  intros s gs.
  assert (Hz : sized 1 s) by (split; cbn; lia). assert (Hw : wf_stream 1 s) by (repeat constructor).
  assert (Hb : moderate 16) by (change 16 with (bpow radix2 4); split; apply bpow_le; lia).
  assert (Hwi : within 16 s) by (exact (thirds_within L)).
  assert (Eg : gs = [[[0]; [0]; [5]]; [[10]]]) by (apply thirds_clusters).
  assert (H2 : (2 <= length gs)%nat) by (rewrite Eg; cbn; lia).
  assert (Hl : exact_labels (exact_data s) (length gs)).
  { rewrite Eg. unfold exact_labels. intros x. cbn. lia. }
  assert (Esc : scatter 1 [[0]; [0]; [5]] = 50 / 3) by (unfold scatter, centroid, dist2; cbn; field).
  assert (Esc' : scatter 1 [[10]] = 0) by (unfold scatter, centroid, dist2; cbn; field).
  assert (Ecd : cdist 1 [[0]; [0]; [5]] [[10]] = 625 / 9) by (unfold cdist, centroid, dist2; cbn; field).
  assert (Em : mse 1 [[0]; [0]; [5]] = 50 / 9) by (unfold mse; rewrite Esc; cbn; field).
  assert (Em' : mse 1 [[10]] = 0) by (unfold mse; rewrite Esc'; cbn; field).
  assert (Es : separation 1 gs = 625 / 9) by (rewrite Eg; unfold separation; cbn; exact Ecd).
  assert (Ep : spread 1 gs = 50 / 9).
  { rewrite Eg. unfold spread. cbn [map rmax fold_right]. rewrite Em, Em'. unfold Rmax; repeat destruct Rle_dec; lra. }
  assert (E1 : XB_formula 1 gs = 3 / 50).
  { unfold XB_formula. fold (separation 1 gs). rewrite Es, Eg. unfold wgss, nsamp. cbn. rewrite Esc, Esc'. field. }
  assert (E2 : DB_formula 1 gs = 2 / 25).
  { rewrite Eg. unfold DB_formula, nclus. cbn. rewrite (cdist_sym 1 [[10]]), Ecd, Em, Em'. field. }
  assert (E3 : GD43_formula 1 gs = 3 / 4).
  { unfold GD43_formula. fold (spread 1 gs). rewrite Ep, Eg. cbn. rewrite Ecd.
    replace (625 / 9) with (25 / 3 * (25 / 3)) by field. rewrite sqrt_square by lra. field. }
  assert (E4 : GD53_formula 1 gs = 3 / 8).
  { unfold GD53_formula. fold (spread 1 gs). rewrite Ep, Eg. cbn. rewrite Esc, Esc'. field. }
  assert (El : level 16 1 s = 389120 * bpow radix2 (-53)) by (unfold level; cbn [s thirds length INR]; ring).
  change (bpow radix2 (-53)) with (/ 9007199254740992) in El.
  repeat (split; [assumption|]). split.
  { intros c [->|[->|[->| ->]]]; cbn [above]; rewrite ?Es, ?Ep, El; lra. }
  repeat (split; [assumption|]). split.
  { change (bpow radix2 (-30)) with (/ 1073741824). intros c [->|[->|[->| ->]]]; cbn [allowed]; rewrite ?E1, ?E2, ?E3, ?E4, ?Es, ?Ep, El; lra. }
  split.
  - eexists [_; _; _], _, _. split; [vm_compute; reflexivity|]. split; [vm_compute; reflexivity|].
    unfold rv. cbn. unfold F2R. cbn. lra.
  - eexists [_; _; _], _, _. split; [vm_compute; reflexivity|]. split; [vm_compute; reflexivity|].
    unfold rv. cbn. unfold F2R. cbn. lra.
Qed.

(** The conditions are needed: for 2^52 | 2^52, 2^52+1 the mean of the second
    cluster is rounded to 2^52, the two centroids coincide, XB and DB are
    infinite in both modes and GD43 is 0, while the true values are 2/3, 1
    and 1. *)
Definition close_by (L : Libm) : list (vec (F64o L left_right) * Z) :=
  [([d_of_Z (2 ^ 52)], 0%Z); ([d_of_Z (2 ^ 52)], 1%Z); ([d_of_Z (2 ^ 52 + 1)], 1%Z)].
Theorem C65_needs_separation (L : Libm) :
  let s := close_by L in let gs := true_clusters s in
  sized 1 s /\ wf_stream 1 s /\ within (bpow radix2 53) s /\ exact_labels (exact_data s) (length gs) /\
  XB_formula 1 gs = 2 / 3 /\ DB_formula 1 gs = 1 /\ GD43_formula 1 gs = 1 /\
  (forall c, c = kXB \/ c = kDB -> exists vs, results c new_obj (stream s) = map Ok (vs ++ [S754_infinity false]) /\
     results c new_obj [batch_of 1 s] = [Ok (S754_infinity false)]) /\
  (exists vs, results kGD43 new_obj (stream s) = map Ok (vs ++ [S754_zero false])) /\
  results kGD43 new_obj [batch_of 1 s] = [Ok (S754_zero false)].
Proof.
  intros s gs. 
  assert (Eg : gs = [[[4503599627370496]]; [[4503599627370496]; [4503599627370497]]]).
  { destruct ex_vals as (_ & _ & _ & E1 & E2). unfold gs, s, true_clusters, exact_data, close_by. cbn [map fst snd]. rewrite E1, E2. reflexivity. }
  split; [split; cbn; lia|]. split; [repeat constructor|]. split.
  { assert (H : forall z, (Z.abs z <= 2 ^ 53)%Z -> valid (d_of_Z z) /\ fin (d_of_Z z) /\ Rabs (rv (d_of_Z z)) <= bpow radix2 53).
    { intros z Hz. destruct (of_Z_ok z) as (V & Fi & Ez); [lia|]. repeat split; auto. rewrite Ez, <- abs_IZR.
      change (bpow radix2 53) with (IZR (2 ^ 53)). now apply IZR_le. }
    intros x l y Hp Hy. unfold s, close_by in Hp. cbn [In] in Hp.
    repeat (destruct Hp as [Hp|Hp]; [apply pair_equal_spec in Hp as [<- <-]; destruct Hy as [<-|[]]; apply H; lia|]). destruct Hp. }
  split. { rewrite Eg. unfold exact_labels. intros x. cbn. lia. }
  assert (Esc : scatter 1 [[4503599627370496]; [4503599627370497]] = 1 / 2) by (unfold scatter, centroid, dist2; cbn; field).
  assert (Esc' : scatter 1 [[4503599627370496]] = 0) by (unfold scatter, centroid, dist2; cbn; field).
  assert (Ecd : cdist 1 [[4503599627370496]] [[4503599627370496]; [4503599627370497]] = 1 / 4) by (unfold cdist, centroid, dist2; cbn; field).
  assert (Em : mse 1 [[4503599627370496]; [4503599627370497]] = 1 / 4) by (unfold mse; rewrite Esc; cbn; field).
  assert (Em' : mse 1 [[4503599627370496]] = 0) by (unfold mse; rewrite Esc'; cbn; field).
  split. { rewrite Eg. unfold XB_formula, wgss, nsamp. cbn. rewrite Ecd, Esc, Esc'. field. }
  split. { rewrite Eg. unfold DB_formula, nclus. cbn. rewrite (cdist_sym 1 [[4503599627370496]; [4503599627370497]]), Ecd, Em, Em'. field. }
  split.
  { rewrite Eg. unfold GD43_formula. cbn. rewrite Ecd, Em, Em'. replace (Rmax _ _) with (1 / 4) by (unfold Rmax; repeat destruct Rle_dec; lra).
    replace (1 / 4) with (1 / 2 * (1 / 2)) by field. rewrite sqrt_square by lra. field. }
  split. { intros c [->| ->]; (eexists [_; _]; split; [vm_compute; reflexivity|vm_compute; reflexivity]). }
  split; [eexists [_; _]|]; vm_compute; reflexivity.
Qed.
Print Assumptions C65_needs_separation.
