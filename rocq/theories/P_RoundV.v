(** * C62: how far rounding moves the values of CH and WB *)
From Coq Require Import ZArith Lia Lra SpecFloat List Arith Reals Permutation.
From Flocq Require Import Core.
From Verif Require Import Num NumPy Base GetCvi Lists Step Eval Stream Shapes Generic RunForm BatchForm ValForm F64 F64o Rnd RndErr RndMean RndSum RndCl RndCP RndCP3 RndOps RndVal RndCH RndRun Spec XPerm P_Round P_RoundCP.
Import ListNotations.
Local Open Scope R_scope.
Local Notation R := Rdefinitions.R.

(** ** The specification *)
(** The values are compared with the published formulas ([CH_formula],
    [WB_formula] in Spec.v) of the true clusters of the samples. *)
Definition true_clusters (s : list (list f64 * Z)) : list (list Spec.point) := clusters (exact_data s).
(** The rounding level of a data set: features of size [b], [d] of them, and
    [length s] samples.  A mean squared distance is known up to this much. *)
Definition level (b : R) (d : nat) (s : list (list f64 * Z)) : R :=
  380 * bpow radix2 (-53) * (b * b) * (INR d * INR d) * INR (length s).
(** [r] is finite and within [e] of [t] *)
Definition close (r : f64) (t e : R) : Prop := fin r /\ Rabs (rv r - t) <= e.
(** the sizes for which the bounds are proved *)
Definition sized (d : nat) (s : list (list f64 * Z)) : Prop :=
  (1 <= Z.of_nat d <= 2 ^ 20)%Z /\ (Z.of_nat (length s) <= 2 ^ 24)%Z.

(** ** From one order of the clusters to another *)
Lemma CH_formula_perm d gs gs' : Permutation gs gs' -> CH_formula d gs = CH_formula d gs'.
Proof. intros P. unfold CH_formula. now rewrite (bgss_perm d _ _ P), (wgss_perm d _ _ P), (nclus_perm _ _ P), (nsamp_perm _ _ P). Qed.
Lemma WB_formula_perm d gs gs' : Permutation gs gs' -> WB_formula d gs = WB_formula d gs'.
Proof. intros P. unfold WB_formula. now rewrite (bgss_perm d _ _ P), (wgss_perm d _ _ P), (nclus_perm _ _ P). Qed.

Section Common.
  Context (L : Libm) (S : Sums) (HS : any_order S).
  Notation A := (F64o L S).
  Context (d : nat) (s : list (list f64 * Z)) (b : R) (Hz : sized d s) (Hw : wf_stream (A := A) d s)
          (Hb : moderate b) (Hwi : within b s) (H2 : (2 <= length (true_clusters s))%nat).
  Let gs0 := true_clusters s.
  Let n := length s.

  Lemma s_ne : s <> [].
  Proof. intros E. revert H2. rewrite E. cbn. lia. Qed.
  Lemma eps_level gs : length (concat gs) = length s -> eps b d gs = level b d s * INR n.
  Proof. intros E. unfold eps, level, n, u. rewrite E. ring. Qed.
  Lemma n_pos : 0 < INR n.
  Proof. apply (lt_INR 0). unfold n. pose proof s_ne. destruct s; [congruence|cbn; lia]. Qed.

  Lemma common_CH gs X Y : Permutation gs (groups s) ->
    near X (bgss d (map exact gs)) (eps b d gs) -> near Y (wgss d (map exact gs)) (eps b d gs) ->
    4 * level b d s <= wgss d gs0 / INR n ->
    close (dmul (ddiv X Y) (ddiv (d_of_Z (Z.of_nat n - Z.of_nat (length gs))) (d_of_Z (Z.of_nat (length gs) - 1))))
      (CH_formula d gs0) (2 * (level b d s / (wgss d gs0 / INR n)) * (CH_formula d gs0 + (INR n - nclus gs0) / (nclus gs0 - 1))).
  Proof.
    intros P HX HY H4. destruct (perm_ok L S b d s Hw Hwi (proj2 Hz) s_ne gs P) as (G1 & G2 & G3 & G4 & G5 & G6).
    pose proof n_pos as N0. destruct Hz as [Hd HL].
    assert (EW : wgss d (map exact gs) = wgss d gs0) by (now apply wgss_perm).
    assert (H4' : 4 * eps b d gs <= wgss d (map exact gs)).
    { rewrite (eps_level gs G3), EW. apply (Rmult_le_compat_r (INR n)) in H4; [|lra].
      replace (wgss d gs0 / INR n * INR n) with (wgss d gs0) in H4 by (field; lra). lra. }
    assert (HN : (Z.of_nat (length (concat gs)) <= 2 ^ 24)%Z) by (rewrite G3; exact HL).
    destruct (near_CH b (moderate_lo2 b Hb) d Hd gs ltac:(rewrite G6; exact H2) G2 HN X Y HX HY H4') as (_ & Hf & He).
    rewrite G3 in Hf, He. split; [exact Hf|]. eapply Rle_trans; [|eapply Rle_trans; [exact He|]].
    - pose proof (CH_formula_perm d _ _ G5) as EF. change (clusters (exact_data s)) with gs0 in EF. rewrite EF. apply Rle_refl.
    - pose proof (CH_formula_perm d _ _ G5) as EF. change (clusters (exact_data s)) with gs0 in EF. rewrite EF, EW, (eps_level gs G3). right. unfold nclus. rewrite G6. change (clusters (exact_data s)) with gs0.
      assert (W0 : 0 < wgss d gs0).
      { rewrite <- EW. destruct (rho_ok b (moderate_lo2 b Hb) d Hd gs ltac:(rewrite G6; exact H2) G2 HN (wgss d (map exact gs)) 0 H4') as (_ & W0 & _); auto.
        - apply (wgss_range b (moderate_lo2 b Hb) d Hd gs G1 G2 HN).
        - pose proof (wgss_range b (moderate_lo2 b Hb) d Hd gs G1 G2 HN). lra. }
      replace (level b d s / (wgss d gs0 / INR n)) with (level b d s * INR n / wgss d gs0) by (field; lra). reflexivity.
  Qed.
  Lemma common_WB gs X Y : Permutation gs (groups s) ->
    near X (bgss d (map exact gs)) (eps b d gs) -> near Y (wgss d (map exact gs)) (eps b d gs) ->
    4 * level b d s <= bgss d gs0 / INR n ->
    close (dmul (ddiv Y X) (d_of_Z (Z.of_nat (length gs))))
      (WB_formula d gs0) (2 * (level b d s / (bgss d gs0 / INR n)) * (WB_formula d gs0 + nclus gs0)).
  Proof.
    intros P HX HY H4. destruct (perm_ok L S b d s Hw Hwi (proj2 Hz) s_ne gs P) as (G1 & G2 & G3 & G4 & G5 & G6).
    pose proof n_pos as N0. destruct Hz as [Hd HL].
    assert (EW : bgss d (map exact gs) = bgss d gs0) by (now apply bgss_perm).
    assert (H4' : 4 * eps b d gs <= bgss d (map exact gs)).
    { rewrite (eps_level gs G3), EW. apply (Rmult_le_compat_r (INR n)) in H4; [|lra].
      replace (bgss d gs0 / INR n * INR n) with (bgss d gs0) in H4 by (field; lra). lra. }
    assert (HN : (Z.of_nat (length (concat gs)) <= 2 ^ 24)%Z) by (rewrite G3; exact HL).
    destruct (near_WB b (moderate_lo2 b Hb) d Hd gs ltac:(rewrite G6; exact H2) G2 HN X Y HX HY H4') as (_ & Hf & He).
    split; [exact Hf|]. eapply Rle_trans; [|eapply Rle_trans; [exact He|]].
    - pose proof (WB_formula_perm d _ _ G5) as EF. change (clusters (exact_data s)) with gs0 in EF. rewrite EF. apply Rle_refl.
    - pose proof (WB_formula_perm d _ _ G5) as EF. change (clusters (exact_data s)) with gs0 in EF. rewrite EF, EW, (eps_level gs G3). right. unfold nclus. rewrite G6. change (clusters (exact_data s)) with gs0.
      assert (W0 : 0 < bgss d gs0).
      { rewrite <- EW. destruct (rho_ok b (moderate_lo2 b Hb) d Hd gs ltac:(rewrite G6; exact H2) G2 HN (bgss d (map exact gs)) 0 H4') as (_ & W0 & _); auto.
        - apply (bgss_range b (moderate_lo2 b Hb) d Hd gs G1 G2 HN).
        - pose proof (bgss_range b (moderate_lo2 b Hb) d Hd gs G1 G2 HN). lra. }
      replace (level b d s / (bgss d gs0 / INR n)) with (level b d s * INR n / bgss d gs0) by (field; lra). reflexivity.
  Qed.
End Common.

(** ** Streams *)
Lemma two_groups (s : list (list f64 * Z)) : length (firsts s) = length (true_clusters s).
Proof.
  rewrite <- groups_length. transitivity (length (map exact (groups s))); [symmetry; apply map_length|].
  apply (Permutation_length (groups_exact s)).
Qed.

Theorem C62_stream_CH (L : Libm) (S : Sums) (d : nat) (s : list (vec (F64o L S) * Z)) vs r (b : R) :
  any_order S -> sized d s -> wf_stream d s -> results kCH new_obj (stream s) = map Ok (vs ++ [r]) -> moderate b -> within b s ->
  let gs := true_clusters s in let N := INR (length s) in let k := nclus gs in
  (2 <= length gs)%nat -> 4 * level b d s <= wgss d gs / N ->
  close r (CH_formula d gs) (2 * (level b d s / (wgss d gs / N)) * (CH_formula d gs + (N - k) / (k - 1))).
Proof.
  intros HS Hz Hw Hr Hb Hwi gs N k H2 H4.
  destruct (value_stream kCH d s vs r Hw Hr) as (a & HF & _ & HSEP & ->). specialize (HSEP (or_introl eq_refl)).
  assert (Hs : s <> []) by (exact (s_ne s H2)).
  assert (Ek : n_clusters a = length (groups s)) by (rewrite groups_length; apply HF).
  assert (En : n_samples a = length s) by (now apply HF).
  assert (K2 : (2 <= length (groups s))%nat) by (rewrite groups_length; exact (eq_ind_r (fun t => (2 <= t)%nat) H2 (two_groups s))).
  unfold val_of. destruct (Nat.leb_spec (n_clusters a) 1) as [H|_]; [rewrite Ek in H; lia|].
  unfold CH_val. rewrite En, Ek.
  apply (common_CH L S d s b Hz Hw Hb Hwi H2 (groups s) _ _ (Permutation_refl _)); auto.
  - apply (form_SEP L S b (moderate_lo2 b Hb) d (proj1 Hz) s Hw Hwi (proj2 Hz) Hs kCH a eq_refl HF HSEP).
  - apply (form_CP L S HS b (moderate_lo2 b Hb) d (proj1 Hz) s Hw Hwi (proj2 Hz) Hs kCH a eq_refl HF).
Qed.
Print Assumptions C62_stream_CH.
Theorem C62_stream_WB (L : Libm) (S : Sums) (d : nat) (s : list (vec (F64o L S) * Z)) vs r (b : R) :
  any_order S -> sized d s -> wf_stream d s -> results kWB new_obj (stream s) = map Ok (vs ++ [r]) -> moderate b -> within b s ->
  let gs := true_clusters s in let N := INR (length s) in
  (2 <= length gs)%nat -> 4 * level b d s <= bgss d gs / N ->
  close r (WB_formula d gs) (2 * (level b d s / (bgss d gs / N)) * (WB_formula d gs + nclus gs)).
Proof.
  intros HS Hz Hw Hr Hb Hwi gs N H2 H4.
  destruct (value_stream kWB d s vs r Hw Hr) as (a & HF & _ & HSEP & ->). specialize (HSEP (or_intror eq_refl)).
  assert (Hs : s <> []) by (exact (s_ne s H2)).
  assert (Ek : n_clusters a = length (groups s)) by (rewrite groups_length; apply HF).
  assert (K2 : (2 <= length (groups s))%nat) by (rewrite groups_length; exact (eq_ind_r (fun t => (2 <= t)%nat) H2 (two_groups s))).
  unfold val_of. destruct (Nat.leb_spec (n_clusters a) 1) as [H|_]; [rewrite Ek in H; lia|].
  unfold WB_val. rewrite Ek.
  apply (common_WB L S d s b Hz Hw Hb Hwi H2 (groups s) _ _ (Permutation_refl _)); auto.
  - apply (form_SEP L S b (moderate_lo2 b Hb) d (proj1 Hz) s Hw Hwi (proj2 Hz) Hs kWB a eq_refl HF HSEP).
  - apply (form_CP L S HS b (moderate_lo2 b Hb) d (proj1 Hz) s Hw Hwi (proj2 Hz) Hs kWB a eq_refl HF).
Qed.
Print Assumptions C62_stream_WB.

(** ** One batch with labels 0, 1, ..., k-1 *)
Lemma bgroups_length L S (s : list (list f64 * Z)) : labels_upto s -> length (bgroups (A := F64o L S) s) = length (nodup Z.eq_dec (map snd s)).
Proof. intros _. unfold bgroups, n_unique. now rewrite map_length, seq_length. Qed.
Theorem C62_batch_CH (L : Libm) (S : Sums) (d : nat) (s : list (vec (F64o L S) * Z)) r (b : R) :
  any_order S -> sized d s -> wf_stream d s -> results kCH new_obj [batch_of d s] = [Ok r] -> moderate b -> within b s ->
  let gs := true_clusters s in let N := INR (length s) in let k := nclus gs in
  exact_labels (exact_data s) (length gs) -> (2 <= length gs)%nat -> 4 * level b d s <= wgss d gs / N ->
  close r (CH_formula d gs) (2 * (level b d s / (wgss d gs / N)) * (CH_formula d gs + (N - k) / (k - 1))).
Proof.
  intros HS Hz Hw Hr Hb Hwi gs N k Hl H2 H4.
  destruct (value_batch kCH d s r Hw eq_refl Hr) as (a & HF & ->). destruct (exact_labels_upto s _ Hl) as [Hl' El].
  assert (Hs : s <> []) by (exact (s_ne s H2)).
  pose proof (bf_k _ _ _ _ HF) as Ek. pose proof (bf_ns _ _ _ _ HF) as En. pose proof (bf_1 _ _ _ _ HF) as K1.
  assert (Ek' : n_clusters a = length (bgroups (A := F64o L S) s)) by (rewrite Ek; symmetry; now apply bgroups_length).
  unfold val_of. destruct (Nat.leb_spec (n_clusters a) 1) as [H|_]; [lia|].
  unfold CH_val. rewrite En, Ek'.
  apply (common_CH L S d s b Hz Hw Hb Hwi H2 (bgroups (A := F64o L S) s) _ _ (bgroups_perm L S d s Hl')); auto.
  - apply (bform_SEP L S HS b (moderate_lo2 b Hb) d (proj1 Hz) s Hw Hwi (proj2 Hz) Hs kCH a Hl' HF). now left.
  - apply (bform_CP L S HS b (moderate_lo2 b Hb) d (proj1 Hz) s Hw Hwi (proj2 Hz) Hs kCH a Hl' HF).
Qed.
Print Assumptions C62_batch_CH.
Theorem C62_batch_WB (L : Libm) (S : Sums) (d : nat) (s : list (vec (F64o L S) * Z)) r (b : R) :
  any_order S -> sized d s -> wf_stream d s -> results kWB new_obj [batch_of d s] = [Ok r] -> moderate b -> within b s ->
  let gs := true_clusters s in let N := INR (length s) in
  exact_labels (exact_data s) (length gs) -> (2 <= length gs)%nat -> 4 * level b d s <= bgss d gs / N ->
  close r (WB_formula d gs) (2 * (level b d s / (bgss d gs / N)) * (WB_formula d gs + nclus gs)).
Proof.
  intros HS Hz Hw Hr Hb Hwi gs N Hl H2 H4.
  destruct (value_batch kWB d s r Hw eq_refl Hr) as (a & HF & ->). destruct (exact_labels_upto s _ Hl) as [Hl' El].
  assert (Hs : s <> []) by (exact (s_ne s H2)).
  pose proof (bf_k _ _ _ _ HF) as Ek. pose proof (bf_ns _ _ _ _ HF) as En. pose proof (bf_1 _ _ _ _ HF) as K1.
  assert (Ek' : n_clusters a = length (bgroups (A := F64o L S) s)) by (rewrite Ek; symmetry; now apply bgroups_length).
  unfold val_of. destruct (Nat.leb_spec (n_clusters a) 1) as [H|_]; [lia|].
  unfold WB_val. rewrite Ek'.
  apply (common_WB L S d s b Hz Hw Hb Hwi H2 (bgroups (A := F64o L S) s) _ _ (bgroups_perm L S d s Hl')); auto.
  - apply (bform_SEP L S HS b (moderate_lo2 b Hb) d (proj1 Hz) s Hw Hwi (proj2 Hz) Hs kWB a Hl' HF). now right.
  - apply (bform_CP L S HS b (moderate_lo2 b Hb) d (proj1 Hz) s Hw Hwi (proj2 Hz) Hs kWB a Hl' HF).
Qed.
Print Assumptions C62_batch_WB.

(** ** The two modes *)
Lemma close_two r r' t e : close r t e -> close r' t e -> Rabs (rv r - rv r') <= 2 * e.
Proof.
  intros [_ H] [_ H']. apply Rabs_le_inv in H. apply Rabs_le_inv in H'. apply Rabs_le. lra.
Qed.
Theorem C62_modes_agree (L : Libm) (S : Sums) (d : nat) (s : list (vec (F64o L S) * Z)) vs r r' (b : R) :
  any_order S -> sized d s -> wf_stream d s -> moderate b -> within b s ->
  let gs := true_clusters s in let N := INR (length s) in let k := nclus gs in
  exact_labels (exact_data s) (length gs) -> (2 <= length gs)%nat ->
  (results kCH new_obj (stream s) = map Ok (vs ++ [r]) -> results kCH new_obj [batch_of d s] = [Ok r'] ->
   4 * level b d s <= wgss d gs / N ->
   Rabs (rv r - rv r') <= 4 * (level b d s / (wgss d gs / N)) * (CH_formula d gs + (N - k) / (k - 1))) /\
  (results kWB new_obj (stream s) = map Ok (vs ++ [r]) -> results kWB new_obj [batch_of d s] = [Ok r'] ->
   4 * level b d s <= bgss d gs / N ->
   Rabs (rv r - rv r') <= 4 * (level b d s / (bgss d gs / N)) * (WB_formula d gs + k)).
Proof.
  intros HS Hz Hw Hb Hwi gs N k Hl H2. split; intros H H' H4.
  - pose proof (close_two _ _ _ _ (C62_stream_CH L S d s vs r b HS Hz Hw H Hb Hwi H2 H4) (C62_batch_CH L S d s r' b HS Hz Hw H' Hb Hwi Hl H2 H4)) as T.
    fold gs N k in T. lra.
  - pose proof (close_two _ _ _ _ (C62_stream_WB L S d s vs r b HS Hz Hw H Hb Hwi H2 H4) (C62_batch_WB L S d s r' b HS Hz Hw H' Hb Hwi Hl H2 H4)) as T.
    fold gs N k in T. lra.
Qed.
Print Assumptions C62_modes_agree.

(** ** Cases *)
Lemma ex_vals : rv (d_of_Z 0) = 0 /\ rv (d_of_Z 5) = 5 /\ rv (d_of_Z 10) = 10 /\ rv (d_of_Z (2 ^ 52)) = 4503599627370496 /\ rv (d_of_Z (2 ^ 52 + 1)) = 4503599627370497.
Proof. repeat split; match goal with |- rv (d_of_Z ?z) = _ => destruct (of_Z_ok z) as (_ & _ & Hz); [lia|]; exact Hz end. Qed.
Lemma thirds_clusters L : true_clusters (thirds L) = [[[0]; [0]; [5]]; [[10]]].
Proof.
  destruct ex_vals as (E0 & E5 & E10 & _). unfold true_clusters, exact_data, thirds. cbn [map fst snd]. rewrite E0, E5, E10. reflexivity.
Qed.
(** Three samples whose within-cluster scatter is lost in the rounding *)
Definition crowded (L : Libm) : list (vec (F64o L left_right) * Z) :=
  [([d_of_Z 0], 0%Z); ([d_of_Z (2 ^ 52)], 1%Z); ([d_of_Z (2 ^ 52 + 1)], 1%Z)].
Lemma crowded_clusters L : true_clusters (crowded L) = [[[0]]; [[4503599627370496]; [4503599627370497]]].
Proof.
  destruct ex_vals as (E0 & _ & _ & E1 & E2). unfold true_clusters, exact_data, crowded. cbn [map fst snd]. rewrite E0, E1, E2. reflexivity.
Qed.

(** The value of WB for 0, 0, 5 | 10 is 16/25.  Both modes return a number
    which is not 16/25 but within the bound. *)
Example C62_example (L : Libm) :
  let s := thirds L in let gs := true_clusters s in let r := dyadic 5764607523034235 53 in
  sized 1 s /\ wf_stream 1 s /\ moderate 16 /\ within 16 s /\ (2 <= length gs)%nat /\ exact_labels (exact_data s) (length gs) /\
  (exists vs, results kWB new_obj (stream s) = map Ok (vs ++ [r])) /\ results kWB new_obj [batch_of 1 s] = [Ok r] /\
  4 * level 16 1 s <= bgss 1 gs / 4 /\ WB_formula 1 gs = 16 / 25 /\ rv r <> 16 / 25 /\
  Rabs (rv r - 16 / 25) <= bpow radix2 (-35).
Proof.
  intros s gs r.
  assert (Hz : sized 1 s) by (split; cbn; lia). assert (Hw : wf_stream 1 s) by (repeat constructor).
  assert (Hb : moderate 16) by (change 16 with (bpow radix2 4); split; apply bpow_le; lia).
  assert (Hwi : within 16 s) by (exact (thirds_within L)).
  assert (Eg : gs = [[[0]; [0]; [5]]; [[10]]]) by (apply thirds_clusters).
  assert (H2 : (2 <= length gs)%nat) by (rewrite Eg; cbn; lia).
  assert (Hl : exact_labels (exact_data s) (length gs)).
  { rewrite Eg. unfold exact_labels. intros x. cbn. lia. }
  assert (Hr : exists vs, results kWB new_obj (stream s) = map Ok (vs ++ [r])) by (eexists [_; _; _]; vm_compute; reflexivity).
  assert (Hr' : results kWB new_obj [batch_of 1 s] = [Ok r]) by (vm_compute; reflexivity).
  assert (Ew : wgss 1 gs = 50 / 3) by (rewrite Eg; unfold wgss, scatter, centroid, dist2; cbn; field).
  assert (Eb : bgss 1 gs = 625 / 12) by (rewrite Eg; unfold bgss, scatter, centroid, dist2; cbn; field).
  assert (Ef : WB_formula 1 gs = 16 / 25) by (unfold WB_formula; rewrite Ew, Eb, Eg; cbn; field).
  assert (El : level 16 1 s = 389120 * bpow radix2 (-53)) by (unfold level; cbn [s thirds length INR]; ring).
  assert (E53 : bpow radix2 (-53) = / 9007199254740992) by reflexivity.
  assert (H4 : 4 * level 16 1 s <= bgss 1 gs / 4) by (rewrite El, Eb, E53; lra).
  assert (Er : rv r = 5764607523034235 / 9007199254740992).
  { unfold r, rv. cbn. unfold F2R. cbn. lra. }
  repeat (split; [assumption|]). split; [rewrite Er; lra|].
  destruct (C62_batch_WB L left_right 1 s r 16 left_right_order Hz Hw Hr' Hb Hwi Hl H2) as [_ He]; fold gs.
  { replace (INR (length s)) with 4 by (cbn; ring). exact H4. }
  fold gs in He. rewrite Ef in He. eapply Rle_trans; [exact He|]. replace (INR (length s)) with 4 by (cbn; ring). rewrite Eb, El, E53, Eg.
  change (bpow radix2 (-35)) with (/ 34359738368). unfold nclus. cbn [length INR]. lra.
Qed.
(** The condition on the scatter is needed: for the samples 0 | 2^52, 2^52+1
    the mean of the second cluster is rounded to 2^52, and both modes return
    about half of CH. *)
Theorem C62_needs_scatter (L : Libm) :
  let s := crowded L in let gs := true_clusters s in
  sized 1 s /\ wf_stream 1 s /\ within (bpow radix2 53) s /\ wgss 1 gs = 1 / 2 /\
  exists vs r r', results kCH new_obj (stream s) = map Ok (vs ++ [r]) /\ results kCH new_obj [batch_of 1 s] = [Ok r'] /\
  fin r /\ fin r' /\ 0 < rv r < 51 / 100 * CH_formula 1 gs /\ 0 < rv r' < 51 / 100 * CH_formula 1 gs.
Proof.
  intros s gs. assert (Eg : gs = [[[0]]; [[4503599627370496]; [4503599627370497]]]) by (apply crowded_clusters).
  assert (Ew : wgss 1 gs = 1 / 2) by (rewrite Eg; unfold wgss, scatter, centroid, dist2; cbn; field).
  assert (Eb : bgss 1 gs = 2 / 3 * (4503599627370496 + / 2) * (4503599627370496 + / 2)) by (rewrite Eg; unfold bgss, scatter, centroid, dist2; cbn; field).
  split; [split; cbn; lia|]. split; [repeat constructor|]. split.
  { assert (H : forall z, (Z.abs z <= 2 ^ 53)%Z -> valid (d_of_Z z) /\ fin (d_of_Z z) /\ Rabs (rv (d_of_Z z)) <= bpow radix2 53).
    { intros z Hz. destruct (of_Z_ok z) as (V & Fi & Ez); [lia|]. repeat split; auto. rewrite Ez, <- abs_IZR.
      change (bpow radix2 53) with (IZR (2 ^ 53)). now apply IZR_le. }
    intros x l y Hp Hy. unfold s, crowded in Hp. cbn [In] in Hp.
    repeat (destruct Hp as [Hp|Hp]; [apply pair_equal_spec in Hp as [<- <-]; destruct Hy as [<-|[]]; apply H; lia|]). destruct Hp. }
  split; [exact Ew|].
  eexists [_; _], (S754_finite false 6004799503160661 51), (S754_finite false 6004799503160662 51).
  split; [vm_compute; reflexivity|]. split; [vm_compute; reflexivity|]. split; [reflexivity|]. split; [reflexivity|].
  assert (Ef : CH_formula 1 gs = 4 / 3 * (4503599627370496 + / 2) * (4503599627370496 + / 2)).
  { unfold CH_formula. rewrite Ew, Eb, Eg. unfold nclus, nsamp. cbn. field. }
  rewrite Ef. unfold rv. cbn. unfold F2R. cbn. lra.
Qed.
Print Assumptions C62_needs_scatter.
