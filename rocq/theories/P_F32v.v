(** * C79: float32 data, the compactness and the values of CH and WB

    With float32 samples a stream still keeps the compactness of the clusters
    almost as well as with float64 samples (the arrays behind it are float64).
    The values of CH and WB are within an explicit bound, of the size of the
    float32 rounding, of the published formulas, in streams and in batches. *)
From Coq Require Import ZArith Lia Lra SpecFloat List Arith Reals Permutation.
From Flocq Require Import Core.
From Verif Require Import Num NumPy Base GetCvi Lists Step Eval Stream Shapes Generic RunForm BatchForm ValForm F64 F64o F32d Rnd RndErr RndMean RndSum RndCl RndCP RndCP3 RndOps RndVal RndCH RndRun RndValE
  Rnd32 RndMean32 RndCl32 RndCP32 RndRun32 Spec XPerm P_Round P_RoundCP P_RoundV P_F32 P_F32b.
Import ListNotations.
Local Open Scope R_scope.
Local Notation R := Rdefinitions.R.

(** ** The specification *)
(** [true_scatter], [keeps_CP] are in P_RoundCP.v, [within32] in P_F32.v,
    [true_clusters] and [close] in P_RoundV.v *)
Definition moderate32 (b : R) : Prop := bpow radix2 (-80) <= b <= bpow radix2 89.
(** the rounding level of float32 data *)
Definition level32 (b : R) (d : nat) (s : list (list f64 * Z)) : R :=
  81 * bpow radix2 (-24) * (b * b) * (INR d * INR d) * INR (length s).
Definition sized32 (d : nat) (s : list (list f64 * Z)) : Prop :=
  (1 <= Z.of_nat d <= 2 ^ 20)%Z /\ (Z.of_nat (length s) <= 2 ^ 17)%Z.

Lemma moderate32_ok b : moderate32 b -> low32 <= b <= high32 / 2.
Proof.
  intros [H1 H2]. split; [exact H1|]. unfold high32. change 90%Z with (89 + 1)%Z. rewrite bpow_plus. change (bpow radix2 1) with 2. lra.
Qed.

(** ** Streams: the compactness *)
Theorem C79_stream_compactness (L : Libm) (S T : Sums) (c : kind) (d : nat) (s : list (vec (F32d L S T) * Z)) vs (b : R) :
  any_order S -> keeps_CP c -> (1 <= Z.of_nat d <= 2 ^ 20)%Z -> (Z.of_nat (length s) <= 2 ^ 20)%Z ->
  wf_stream d s -> results c new_obj (stream s) = map Ok vs -> moderate32 b -> within32 b s ->
  let o := after c new_obj (stream s) in
  forall l, In l (map snd s) -> exists i, lm_lookup (label_map o) l = Some i /\ (i < length (CP (at_ o)))%nat /\
    close (nth i (CP (at_ o)) S754_nan) (true_scatter d s l)
      (880 * bpow radix2 (-53) * (b * b) * (INR d * INR d * (size s l * size s l))).
Proof.
  intros HS Hc Hd HL Hw Hr Hb Hwi o l Hl. destruct (formed_stream c d s vs Hw Hr) as (a & Ea & [_ Hk _ _ Hg]).
  unfold o. rewrite Ea. cbn [label_map at_]. destruct (Hg (keeps_gclass c Hc)) as (_ & HCP & _ & _).
  assert (Hin : In l (firsts s)) by (now apply first_seen_In). destruct (index_In _ _ Hin) as [Hi Hn].
  exists (index l (firsts s)). split; [|split].
  - unfold lmap. rewrite lm_lookup_index. destruct (in_dec Z.eq_dec l (firsts s)); [reflexivity|contradiction].
  - rewrite HCP, map_length, groups_length. exact Hi.
  - assert (Eg : nth (index l (firsts s)) (groups s) [] = grp s l).
    { unfold groups. rewrite nth_indep with (d' := grp s 0%Z) by now rewrite map_length. rewrite map_nth. now rewrite Hn. }
    assert (E0 : nth (index l (firsts s)) (CP a) S754_nan = c_cp (cl_of (A := F32d L S T) (grp s l))).
    { rewrite HCP. refine (eq_trans (nth_groups (fun xs => c_cp (cl_of xs)) s _ S754_nan Hi) _). now rewrite Eg. }
    rewrite E0. pose proof (grp_ne s l Hl) as Hne. pose proof (within_grp32 b d s l Hw Hwi) as HF. pose proof (grp_le s l) as Hle.
    destruct (near_cl_cp32 L S T HS b (moderate32_ok b Hb) d Hd (grp s l) Hne HF ltac:(eapply Z.le_trans; [apply inj_le, Hle|exact HL])) as (_ & Hf & He).
    split; [exact Hf|]. unfold true_scatter. rewrite cluster_grp, size_grp.
    replace (880 * bpow radix2 (-53) * (b * b)) with (880 * (u * (b * b))) by (unfold u; ring). exact He.
Qed.
Print Assumptions C79_stream_compactness.

(** ** Batches: here the float32 mean enters, and the bound has a term with the
    cube of the size *)
Theorem C79_batch_compactness (L : Libm) (S T : Sums) (c : kind) (d : nat) (s : list (vec (F32d L S T) * Z)) x (b : R) :
  any_order S -> any_order32 T -> keeps_CP c -> (1 <= Z.of_nat d <= 2 ^ 20)%Z -> (Z.of_nat (length s) <= 2 ^ 19)%Z ->
  wf_stream d s -> results c new_obj [batch_of d s] = [Ok x] -> moderate32 b -> within32 b s ->
  let o := after c new_obj [batch_of d s] in
  forall i, In (Z.of_nat i) (map snd s) -> (i < length (nodup Z.eq_dec (map snd s)))%nat ->
    let n := size s (Z.of_nat i) in
    (i < length (CP (at_ o)))%nat /\
    close (nth i (CP (at_ o)) S754_nan) (true_scatter d s (Z.of_nat i))
      (bpow radix2 (-53) * (b * b) * (108 * (INR d * n * (INR d * n)) + 128 * (INR d * n * (n * n)))).
Proof.
  intros HS HT Hc Hd HL Hw Hr Hb Hwi o i Hl Hi n. destruct (formed_batch c d s x Hw Hr) as (a & Ea & _ & _ & HCP).
  specialize (HCP (keeps_gclass c Hc)). unfold o. rewrite Ea. cbn [at_]. rewrite HCP, map_length, seq_length. split; [exact Hi|].
  assert (E0 : nth i (map (fun ix => cp_rows (A := F32d L S T) d (grp s (Z.of_nat ix))) (seq 0 (n_unique (map snd s)))) S754_nan =
               cp_rows (A := F32d L S T) d (grp s (Z.of_nat i))).
  { exact (nth_map_seq (fun ix => cp_rows (A := F32d L S T) d (grp s (Z.of_nat ix))) (n_unique (map snd s)) i S754_nan Hi). }
  rewrite E0. pose proof (grp_ne s _ Hl) as Hne. pose proof (within_grp32 b d s (Z.of_nat i) Hw Hwi) as HF.
  pose proof (grp_le s (Z.of_nat i)) as Hle.
  destruct (near_rows_cp32 L S T HS b (moderate32_ok b Hb) d Hd (grp s (Z.of_nat i)) Hne HF HT ltac:(eapply Z.le_trans; [apply inj_le, Hle|exact HL])) as (_ & Hf & He).
  split; [exact Hf|]. unfold true_scatter, n. rewrite cluster_grp, size_grp.
  eapply Rle_trans; [exact He|]. right.
  assert (G : forall m, 108 * (u * (b * b)) * (INR d * m * (INR d * m)) + 128 * (u * (b * b)) * (INR d * m * (m * m)) =
                        bpow radix2 (-53) * (b * b) * (108 * (INR d * m * (INR d * m)) + 128 * (INR d * m * (m * m)))) by (intros m; unfold u; ring).
  exact (G _).
Qed.
Print Assumptions C79_batch_compactness.

(** ** The values *)
Section Common.
  Context (L : Libm) (S T : Sums) (HS : any_order S).
  Notation A := (F32d L S T).
  Context (d : nat) (s : list (list f64 * Z)) (b : R) (Hz : sized32 d s) (Hw : wf_stream (A := A) d s)
          (Hb : moderate32 b) (Hwi : within32 b s) (H2 : (2 <= length (true_clusters s))%nat).
  Let gs0 := true_clusters s.
  Let n := length s.
  Let Hb32 := moderate32_ok b Hb.
  Let e gs := epsE b d gs (ev32 b s).

  Lemma n_pos32 : 0 < INR n.
  Proof. apply (lt_INR 0). unfold n. pose proof (s_ne s H2). destruct s; [congruence|cbn; lia]. Qed.
  Lemma eps_level32 gs : length (concat gs) = length s -> e gs = level32 b d s * INR n.
  Proof. intros E. unfold e, epsE, ev32, level32, n, u32. rewrite E. ring. Qed.

  Lemma common_CH32 gs X Y : Permutation gs (groups s) ->
    near X (bgss d (map exact gs)) (e gs) -> near Y (wgss d (map exact gs)) (e gs) ->
    4 * level32 b d s <= wgss d gs0 / INR n ->
    close (dmul (ddiv X Y) (ddiv (d_of_Z (Z.of_nat n - Z.of_nat (length gs))) (d_of_Z (Z.of_nat (length gs) - 1))))
      (CH_formula d gs0) (2 * (level32 b d s / (wgss d gs0 / INR n)) * (CH_formula d gs0 + (INR n - nclus gs0) / (nclus gs0 - 1))).
  Proof.
    intros P HX HY H4. pose proof (s_ne s H2) as Hs. destruct Hz as [Hd HL].
    destruct (perm_ok32 L S T b d s Hw Hwi HL Hs gs P) as (G1 & G2 & G3 & G4 & G5 & G6).
    pose proof n_pos32 as N0. pose proof (Hb2 b Hb32) as HB.
    assert (EW : wgss d (map exact gs) = wgss d gs0) by (now apply wgss_perm).
    assert (H4' : 4 * e gs <= wgss d (map exact gs)).
    { rewrite (eps_level32 gs G3), EW. apply (Rmult_le_compat_r (INR n)) in H4; [|lra].
      replace (wgss d gs0 / INR n * INR n) with (wgss d gs0) in H4 by (field; lra). lra. }
    assert (HN : (Z.of_nat (length (concat gs)) <= 2 ^ 24)%Z) by (rewrite G3; exact (up17 _ (2 ^ 24) HL ltac:(lia))).
    pose proof (ev_ok L S T b Hb32 d s Hw Hwi HL Hs _ G3) as He0.
    assert (K2 : (2 <= length gs)%nat) by (rewrite G6; exact H2).
    destruct (near_CHE b HB d Hd gs K2 G2 HN (ev32 b s) He0 X Y HX HY H4') as (_ & Hf & He).
    rewrite G3 in Hf, He. split; [exact Hf|]. eapply Rle_trans; [|eapply Rle_trans; [exact He|]].
    - pose proof (CH_formula_perm d _ _ G5) as EF. change (clusters (exact_data s)) with gs0 in EF. rewrite EF. apply Rle_refl.
    - pose proof (CH_formula_perm d _ _ G5) as EF. change (clusters (exact_data s)) with gs0 in EF. fold (e gs). rewrite EF, EW, (eps_level32 gs G3). right. unfold nclus. rewrite G6. change (clusters (exact_data s)) with gs0.
      assert (W0 : 0 < wgss d gs0).
      { rewrite <- EW. destruct (rho_okE b HB d Hd gs K2 G2 HN (ev32 b s) He0 (wgss d (map exact gs)) 0 H4') as (_ & W0 & _); auto.
        - apply (wgss_range b HB d Hd gs G1 G2 HN).
        - pose proof (wgss_range b HB d Hd gs G1 G2 HN). lra. }
      replace (level32 b d s / (wgss d gs0 / INR n)) with (level32 b d s * INR n / wgss d gs0) by (field; lra). reflexivity.
  Qed.
  Lemma common_WB32 gs X Y : Permutation gs (groups s) ->
    near X (bgss d (map exact gs)) (e gs) -> near Y (wgss d (map exact gs)) (e gs) ->
    4 * level32 b d s <= bgss d gs0 / INR n ->
    close (dmul (ddiv Y X) (d_of_Z (Z.of_nat (length gs))))
      (WB_formula d gs0) (2 * (level32 b d s / (bgss d gs0 / INR n)) * (WB_formula d gs0 + nclus gs0)).
  Proof.
    intros P HX HY H4. pose proof (s_ne s H2) as Hs. destruct Hz as [Hd HL].
    destruct (perm_ok32 L S T b d s Hw Hwi HL Hs gs P) as (G1 & G2 & G3 & G4 & G5 & G6).
    pose proof n_pos32 as N0. pose proof (Hb2 b Hb32) as HB.
    assert (EW : bgss d (map exact gs) = bgss d gs0) by (now apply bgss_perm).
    assert (H4' : 4 * e gs <= bgss d (map exact gs)).
    { rewrite (eps_level32 gs G3), EW. apply (Rmult_le_compat_r (INR n)) in H4; [|lra].
      replace (bgss d gs0 / INR n * INR n) with (bgss d gs0) in H4 by (field; lra). lra. }
    assert (HN : (Z.of_nat (length (concat gs)) <= 2 ^ 24)%Z) by (rewrite G3; exact (up17 _ (2 ^ 24) HL ltac:(lia))).
    pose proof (ev_ok L S T b Hb32 d s Hw Hwi HL Hs _ G3) as He0.
    assert (K2 : (2 <= length gs)%nat) by (rewrite G6; exact H2).
    destruct (near_WBE b HB d Hd gs K2 G2 HN (ev32 b s) He0 X Y HX HY H4') as (_ & Hf & He).
    split; [exact Hf|]. eapply Rle_trans; [|eapply Rle_trans; [exact He|]].
    - pose proof (WB_formula_perm d _ _ G5) as EF. change (clusters (exact_data s)) with gs0 in EF. rewrite EF. apply Rle_refl.
    - pose proof (WB_formula_perm d _ _ G5) as EF. change (clusters (exact_data s)) with gs0 in EF. fold (e gs). rewrite EF, EW, (eps_level32 gs G3). right. unfold nclus. rewrite G6. change (clusters (exact_data s)) with gs0.
      assert (W0 : 0 < bgss d gs0).
      { rewrite <- EW. destruct (rho_okE b HB d Hd gs K2 G2 HN (ev32 b s) He0 (bgss d (map exact gs)) 0 H4') as (_ & W0 & _); auto.
        - apply (bgss_range b HB d Hd gs G1 G2 HN).
        - pose proof (bgss_range b HB d Hd gs G1 G2 HN). lra. }
      replace (level32 b d s / (bgss d gs0 / INR n)) with (level32 b d s * INR n / bgss d gs0) by (field; lra). reflexivity.
  Qed.
End Common.

Theorem C79_stream_CH (L : Libm) (S T : Sums) (d : nat) (s : list (vec (F32d L S T) * Z)) vs r (b : R) :
  any_order S -> sized32 d s -> wf_stream d s -> results kCH new_obj (stream s) = map Ok (vs ++ [r]) -> moderate32 b -> within32 b s ->
  let gs := true_clusters s in let N := INR (length s) in let k := nclus gs in
  (2 <= length gs)%nat -> 4 * level32 b d s <= wgss d gs / N ->
  close r (CH_formula d gs) (2 * (level32 b d s / (wgss d gs / N)) * (CH_formula d gs + (N - k) / (k - 1))).
Proof.
  intros HS Hz Hw Hr Hb Hwi gs N k H2 H4.
  destruct (value_stream kCH d s vs r Hw Hr) as (a & HF & _ & HSEP & ->). specialize (HSEP (or_introl eq_refl)).
  assert (Hs : s <> []) by (exact (s_ne s H2)).
  assert (Ek : n_clusters a = length (groups s)) by (rewrite groups_length; apply HF).
  assert (En : n_samples a = length s) by (now apply HF).
  assert (K2 : (2 <= length (groups s))%nat) by (rewrite groups_length; exact (eq_ind_r (fun t => (2 <= t)%nat) H2 (two_groups s))).
  unfold val_of. destruct (Nat.leb_spec (n_clusters a) 1) as [H|_]; [rewrite Ek in H; lia|].
  unfold CH_val. rewrite En, Ek. pose proof (moderate32_ok b Hb) as Hb'.
  apply (common_CH32 L S T d s b Hz Hw Hb Hwi H2 (groups s) _ _ (Permutation_refl _)); auto.
  - apply (form_SEP32 L S T b Hb' d (proj1 Hz) s Hw Hwi (proj2 Hz) Hs kCH a eq_refl HF HSEP).
  - apply (form_CP32 L S T HS b Hb' d (proj1 Hz) s Hw Hwi (proj2 Hz) Hs kCH a eq_refl HF).
Qed.
Print Assumptions C79_stream_CH.
Theorem C79_stream_WB (L : Libm) (S T : Sums) (d : nat) (s : list (vec (F32d L S T) * Z)) vs r (b : R) :
  any_order S -> sized32 d s -> wf_stream d s -> results kWB new_obj (stream s) = map Ok (vs ++ [r]) -> moderate32 b -> within32 b s ->
  let gs := true_clusters s in let N := INR (length s) in
  (2 <= length gs)%nat -> 4 * level32 b d s <= bgss d gs / N ->
  close r (WB_formula d gs) (2 * (level32 b d s / (bgss d gs / N)) * (WB_formula d gs + nclus gs)).
Proof.
  intros HS Hz Hw Hr Hb Hwi gs N H2 H4.
  destruct (value_stream kWB d s vs r Hw Hr) as (a & HF & _ & HSEP & ->). specialize (HSEP (or_intror eq_refl)).
  assert (Hs : s <> []) by (exact (s_ne s H2)).
  assert (Ek : n_clusters a = length (groups s)) by (rewrite groups_length; apply HF).
  assert (K2 : (2 <= length (groups s))%nat) by (rewrite groups_length; exact (eq_ind_r (fun t => (2 <= t)%nat) H2 (two_groups s))).
  unfold val_of. destruct (Nat.leb_spec (n_clusters a) 1) as [H|_]; [rewrite Ek in H; lia|].
  unfold WB_val. rewrite Ek. pose proof (moderate32_ok b Hb) as Hb'.
  apply (common_WB32 L S T d s b Hz Hw Hb Hwi H2 (groups s) _ _ (Permutation_refl _)); auto.
  - apply (form_SEP32 L S T b Hb' d (proj1 Hz) s Hw Hwi (proj2 Hz) Hs kWB a eq_refl HF HSEP).
  - apply (form_CP32 L S T HS b Hb' d (proj1 Hz) s Hw Hwi (proj2 Hz) Hs kWB a eq_refl HF).
Qed.
Print Assumptions C79_stream_WB.

Theorem C79_batch_CH (L : Libm) (S T : Sums) (d : nat) (s : list (vec (F32d L S T) * Z)) r (b : R) :
  any_order S -> any_order32 T -> sized32 d s -> wf_stream d s -> results kCH new_obj [batch_of d s] = [Ok r] -> moderate32 b -> within32 b s ->
  let gs := true_clusters s in let N := INR (length s) in let k := nclus gs in
  exact_labels (exact_data s) (length gs) -> (2 <= length gs)%nat -> 4 * level32 b d s <= wgss d gs / N ->
  close r (CH_formula d gs) (2 * (level32 b d s / (wgss d gs / N)) * (CH_formula d gs + (N - k) / (k - 1))).
Proof.
  intros HS HT Hz Hw Hr Hb Hwi gs N k Hl H2 H4.
  destruct (value_batch kCH d s r Hw eq_refl Hr) as (a & HF & ->). destruct (exact_labels_upto s _ Hl) as [Hl' El].
  assert (Hs : s <> []) by (exact (s_ne s H2)).
  pose proof (bf_k _ _ _ _ HF) as Ek. pose proof (bf_ns _ _ _ _ HF) as En. pose proof (bf_1 _ _ _ _ HF) as K1.
  assert (Ek' : n_clusters a = length (bgroups (A := F32d L S T) s)) by (rewrite Ek; symmetry; exact (bgroups_length L S s Hl')).
  unfold val_of. destruct (Nat.leb_spec (n_clusters a) 1) as [H|_]; [lia|].
  unfold CH_val. rewrite En, Ek'. pose proof (moderate32_ok b Hb) as Hb'.
  apply (common_CH32 L S T d s b Hz Hw Hb Hwi H2 (bgroups (A := F32d L S T) s) _ _ (bgroups_perm32 L S T d s Hl')); auto.
  - apply (bform_SEP32 L S T HS b Hb' d (proj1 Hz) s Hw Hwi (proj2 Hz) Hs kCH a HT Hl' HF). now left.
  - apply (bform_CP32 L S T HS b Hb' d (proj1 Hz) s Hw Hwi (proj2 Hz) Hs kCH a HT Hl' HF).
Qed.
Print Assumptions C79_batch_CH.
Theorem C79_batch_WB (L : Libm) (S T : Sums) (d : nat) (s : list (vec (F32d L S T) * Z)) r (b : R) :
  any_order S -> any_order32 T -> sized32 d s -> wf_stream d s -> results kWB new_obj [batch_of d s] = [Ok r] -> moderate32 b -> within32 b s ->
  let gs := true_clusters s in let N := INR (length s) in
  exact_labels (exact_data s) (length gs) -> (2 <= length gs)%nat -> 4 * level32 b d s <= bgss d gs / N ->
  close r (WB_formula d gs) (2 * (level32 b d s / (bgss d gs / N)) * (WB_formula d gs + nclus gs)).
Proof.
  intros HS HT Hz Hw Hr Hb Hwi gs N Hl H2 H4.
  destruct (value_batch kWB d s r Hw eq_refl Hr) as (a & HF & ->). destruct (exact_labels_upto s _ Hl) as [Hl' El].
  assert (Hs : s <> []) by (exact (s_ne s H2)).
  pose proof (bf_k _ _ _ _ HF) as Ek. pose proof (bf_ns _ _ _ _ HF) as En. pose proof (bf_1 _ _ _ _ HF) as K1.
  assert (Ek' : n_clusters a = length (bgroups (A := F32d L S T) s)) by (rewrite Ek; symmetry; exact (bgroups_length L S s Hl')).
  unfold val_of. destruct (Nat.leb_spec (n_clusters a) 1) as [H|_]; [lia|].
  unfold WB_val. rewrite Ek'. pose proof (moderate32_ok b Hb) as Hb'.
  apply (common_WB32 L S T d s b Hz Hw Hb Hwi H2 (bgroups (A := F32d L S T) s) _ _ (bgroups_perm32 L S T d s Hl')); auto.
  - apply (bform_SEP32 L S T HS b Hb' d (proj1 Hz) s Hw Hwi (proj2 Hz) Hs kWB a HT Hl' HF). now right.
  - apply (bform_CP32 L S T HS b Hb' d (proj1 Hz) s Hw Hwi (proj2 Hz) Hs kWB a HT Hl' HF).
Qed.
Print Assumptions C79_batch_WB.
(** ** A case: 0, 0, 5 | 10 as float32.  The compactness of the first cluster
    (50/3) is kept to the last bits of float64; the values of WB (16/25) of both
    modes are wrong by more than 2^-28 and within the bound. *)
Definition thirds32 : list (list Z * Z) := [([0], 0); ([0], 0); ([5], 0); ([10], 1)]%Z.
Lemma thirds32_within L : within32 16 (f32s L thirds32).
Proof.
  assert (H : forall z, (Z.abs z <= 16)%Z -> is_float32 (d_of_Z z) /\ Rabs (rv (d_of_Z z)) <= 16).
  { intros z Hz. split; [apply small_float32; lia|]. destruct (of_Z_ok z) as (_ & _ & E); [lia|].
    rewrite E, <- abs_IZR. now apply IZR_le. }
  intros x l y Hp Hy. cbn [f32s thirds32 map fst snd In dvec] in Hp.
  repeat (destruct Hp as [Hp|Hp]; [apply pair_equal_spec in Hp as [<- <-]; destruct Hy as [<-|[]]; apply H; lia|]). destruct Hp.
Qed.
Example C79_example (L : Libm) :
  let s := f32s L thirds32 in let gs := true_clusters s in
  let r := dyadic 5764607632985404 53 in let r' := dyadic 5764607468058655 53 in
  sized32 1 s /\ wf_stream 1 s /\ moderate32 16 /\ within32 16 s /\ (2 <= length gs)%nat /\ exact_labels (exact_data s) (length gs) /\
  (exists vs, results kWB new_obj (stream s) = map Ok (vs ++ [r])) /\ results kWB new_obj [batch_of 1 s] = [Ok r'] /\
  4 * level32 16 1 s <= bgss 1 gs / 4 /\ 4 * level32 16 1 s <= wgss 1 gs / 4 /\ WB_formula 1 gs = 16 / 25 /\
  (bpow radix2 (-28) <= Rabs (rv r - 16 / 25) <= / 400) /\ (bpow radix2 (-28) <= Rabs (rv r' - 16 / 25) <= / 400) /\
  CP (at_ (after kWB new_obj (stream s))) = [dyadic 4691249611844272 48; S754_zero false] /\
  Rabs (rv (dyadic 4691249611844272 48) - 50 / 3) <= bpow radix2 (-45) /\ true_scatter 1 s 0 = 50 / 3.
Proof.
  intros s gs r r'.
  assert (Hz : sized32 1 s) by (split; cbn; lia). assert (Hw : wf_stream 1 s) by (repeat constructor).
  assert (Hb : moderate32 16) by (change 16 with (bpow radix2 4); split; apply bpow_le; lia).
  assert (Hwi : within32 16 s) by (exact (thirds32_within L)).
  assert (Eg : gs = [[[0]; [0]; [5]]; [[10]]]).
  { destruct ex_vals as (E0 & E5 & E10 & _). unfold gs, true_clusters, exact_data, s, f32s, thirds32, dvec. cbn [map fst snd]. rewrite E0, E5, E10. reflexivity. }
  assert (H2 : (2 <= length gs)%nat) by (rewrite Eg; cbn; lia).
  assert (Hl : exact_labels (exact_data s) (length gs)).
  { rewrite Eg. unfold exact_labels. intros x. cbn. lia. }
  assert (Hr : exists vs, results kWB new_obj (stream s) = map Ok (vs ++ [r])) by (eexists [_; _; _]; vm_compute; reflexivity).
  assert (Hr' : results kWB new_obj [batch_of 1 s] = [Ok r']) by (vm_compute; reflexivity).
  assert (Ew : wgss 1 gs = 50 / 3) by (rewrite Eg; unfold wgss, scatter, centroid, dist2; cbn; field).
  assert (Eb : bgss 1 gs = 625 / 12) by (rewrite Eg; unfold bgss, scatter, centroid, dist2; cbn; field).
  assert (Ef : WB_formula 1 gs = 16 / 25) by (unfold WB_formula; rewrite Ew, Eb, Eg; cbn; field).
  assert (El : level32 16 1 s = 82944 * bpow radix2 (-24)) by (unfold level32; cbn [s f32s thirds32 map length INR]; ring).
  assert (E24 : bpow radix2 (-24) = / 16777216) by reflexivity.
  assert (E28 : bpow radix2 (-28) = / 268435456) by reflexivity.
  assert (H4 : 4 * level32 16 1 s <= bgss 1 gs / 4) by (rewrite El, Eb, E24; lra).
  assert (H5 : 4 * level32 16 1 s <= wgss 1 gs / 4) by (rewrite El, Ew, E24; lra).
  assert (Er : rv r = 5764607632985404 / 9007199254740992) by (unfold r, rv; cbn; unfold F2R; cbn; lra).
  assert (Er' : rv r' = 5764607468058655 / 9007199254740992) by (unfold r', rv; cbn; unfold F2R; cbn; lra).
  assert (N4 : INR (length s) = 4) by (cbn; ring).
  split; [exact Hz|]. split; [exact Hw|]. split; [exact Hb|]. split; [exact Hwi|]. split; [exact H2|]. split; [exact Hl|]. split; [exact Hr|]. split; [exact Hr'|].
  split; [exact H4|]. split; [exact H5|]. split; [exact Ef|]. split; [|split; [|split; [|split]]].
  - split; [rewrite Er, E28, Rabs_pos_eq; lra|]. destruct Hr as [vs Hr].
    destruct (C79_stream_WB L left_right left_right32 1 s vs r 16 left_right_order Hz Hw Hr Hb Hwi H2) as [_ He]; fold gs.
    { rewrite N4. exact H4. }
    fold gs in He. rewrite Ef in He. eapply Rle_trans; [exact He|]. rewrite N4, Eb, El, E24, Eg. unfold nclus. cbn [length INR]. lra.
  - split; [rewrite Er', E28, Rabs_left; lra|].
    destruct (C79_batch_WB L left_right left_right32 1 s r' 16 left_right_order left_right32_order Hz Hw Hr' Hb Hwi Hl H2) as [_ He]; fold gs.
    { rewrite N4. exact H4. }
    fold gs in He. rewrite Ef in He. eapply Rle_trans; [exact He|]. rewrite N4, Eb, El, E24, Eg. unfold nclus. cbn [length INR]. lra.
  - vm_compute. reflexivity.
  - assert (E : rv (dyadic 4691249611844272 48) = 4691249611844272 / 281474976710656) by (unfold rv; cbn; unfold F2R; cbn; lra).
    rewrite E. change (bpow radix2 (-45)) with (/ 35184372088832). rewrite Rabs_pos_eq; lra.
  - destruct ex_vals as (E0 & E5 & _). unfold true_scatter. rewrite cluster_grp. change (grp s 0) with [[d_of_Z 0]; [d_of_Z 0]; [d_of_Z 5]]. cbn [map]. rewrite E0, E5.
    unfold scatter, centroid, dist2. cbn. field.
Qed.
