(** * C99 in exact arithmetic: cSIL when every sample is a cluster of its own

    Streams as well as batches.  [observed c d s v] as in P_Bounds.v. *)
From Coq Require Import ZArith List Arith Bool Lia Permutation.
From Verif Require Import Num NumPy Base GetCvi.
From Coq Require Import Reals Lra.
From Verif Require Import Det Spec XR SpecX RGeom XLift XEval XInc XRun XPerm XBatch Obs XSil XSilEx XForm XBounds P_Bounds P_Degenerate.
Import ListNotations.
Local Open Scope R_scope.

(** ** Inner products *)
Lemma rdot_pos a : 0 <= rdot a a.
Proof. unfold rdot. apply rsum_nonneg. induction a as [|x a IH]; cbn; constructor; auto. apply Rle_0_sqr. Qed.
Lemma dist2_pos x y : 0 <= dist2 x y.
Proof. unfold dist2. apply rsum_nonneg. apply Forall_forall. intros z Hz. apply in_map_iff in Hz as (p & <- & _). apply Rle_0_sqr. Qed.
Lemma dist2_zero_eq d x y : length x = d -> length y = d -> dist2 x y <= 0 -> x = y.
Proof.
  intros <-. revert y; induction x as [|a x IH]; intros [|b y] L H; simpl in L; try lia; auto.
  rewrite dist2_cons in H. pose proof (dist2_pos x y). pose proof (Rle_0_sqr (a - b)) as K. unfold Rsqr in K.
  f_equal; [|apply IH; lia || lra].
  assert (Z : (a - b) * (a - b) = 0) by lra. apply Rmult_integral in Z as [Z|Z]; lra.
Qed.

(** ** Clusters of one sample *)
Lemma cluster_alone (s : data) x l : NoDup (labels s) -> In (x, l) s -> cluster s l = [x].
Proof.
  unfold labels, cluster. induction s as [|[y m] s IH]; intros Hn Hi; [destruct Hi|].
  cbn [map snd] in Hn. inversion Hn as [|? ? N1 N2]; subst. cbn [filter snd]. destruct Hi as [E|Hi].
  - inversion E; subst. rewrite Z.eqb_refl. cbn [map fst]. f_equal.
    assert (F : filter (fun p : point * Z => Z.eqb (snd p) l) s = []).
    { clear -N1. induction s as [|[z n] s IH]; auto. cbn [filter snd]. cbn in N1.
      destruct (Z.eqb_spec n l) as [->|_]; [tauto|]. apply IH. tauto. }
    now rewrite F.
  - destruct (Z.eqb_spec m l) as [->|_]; [|now apply IH]. exfalso. apply N1. apply in_map_iff. now exists (x, l).
Qed.
Lemma mdist_alone d x y : length x = d -> length y = d -> mdist d [y] [x] = dist2 x y.
Proof.
  intros Hx Hy. unfold mdist. rewrite centroid_single by auto. cbn [map length]. rewrite rsum_cons. cbn. lra.
Qed.
Lemma dist2_same x : dist2 x x = 0.
Proof.
  induction x as [|a x IH]; [reflexivity|]. rewrite dist2_cons, IH. ring.
Qed.
Section Alone.
  Context (d : nat) (s : data) (Hw : wf d s) (Hn : NoDup (labels s)).
  Lemma lab_sample l : In l (distinct s) -> exists x, In (x, l) s /\ length x = d.
  Proof.
    intros H. apply nodup_In in H. unfold labels in H. apply in_map_iff in H as ([x m] & <- & Hi). exists x. split; auto.
    unfold wf in Hw. rewrite Forall_forall in Hw. now apply (Hw (x, m)).
  Qed.
  (** the entry for two samples is their squared distance or |x|^2 + |y|^2 - x.y *)
  Lemma entry_alone x y la lb : In (x, la) s -> In (y, lb) s -> la <> lb ->
    sil_entry d s la lb = dist2 x y \/ sil_entry d s la lb = dist2 x y + rdot x y.
  Proof.
    intros Hx Hy N. unfold wf in Hw. rewrite Forall_forall in Hw.
    pose proof (Hw _ Hx) as Lx. pose proof (Hw _ Hy) as Ly. cbn in Lx, Ly.
    unfold sil_entry. rewrite (cluster_alone s x la), (cluster_alone s y lb), mdist_alone by auto.
    destruct (Z.eqb_spec la lb); [contradiction|].
    destruct (rev (filter _ s)) as [|[z l] r] eqn:E; [left; lra|].
    destruct (Z.eqb_spec l la) as [->|_]; [|left; lra]. right.
    assert (Hz : In (z, la) s).
    { assert (K : In (z, la) (rev (filter (fun p : point * Z => Z.eqb (snd p) la || Z.eqb (snd p) lb)%bool s))) by (rewrite E; now left).
      apply in_rev, filter_In in K. tauto. }
    assert (z = x).
    { pose proof (cluster_alone s x la Hn Hx) as C1. rewrite (cluster_alone s z la Hn Hz) in C1. now inversion C1. }
    subst z. cbn [length Nat.eqb]. rewrite centroid_single, inner_rdot by auto. lra.
  Qed.
  Lemma entry_diag l : In l (distinct s) -> sil_entry d s l l = 0.
  Proof.
    intros H. destruct (lab_sample l H) as (x & Hx & Lx). unfold sil_entry.
    rewrite (cluster_alone s x l), mdist_alone, Z.eqb_refl, dist2_same by auto. lra.
  Qed.
  Lemma entry_pos x y la lb : In (x, la) s -> In (y, lb) s -> la <> lb ->
    0 <= sil_entry d s la lb /\ (sil_entry d s la lb = 0 -> x = y).
  Proof.
    intros Hx Hy N. pose proof Hw as Hw'. unfold wf in Hw'. rewrite Forall_forall in Hw'.
    pose proof (Hw' _ Hx) as Lx. pose proof (Hw' _ Hy) as Ly. cbn in Lx, Ly.
    pose proof (dist2_pos x y) as D. pose proof (dist2_rdot d x y Lx Ly) as R. pose proof (rdot_pos x). pose proof (rdot_pos y).
    destruct (entry_alone x y la lb Hx Hy N) as [-> | ->]; (split; [lra|intros Z; apply (dist2_zero_eq d); auto; lra]).
  Qed.
  Lemma least_pos l r : (2 <= length (distinct s))%nat -> In (l, r) (selects (distinct s)) ->
    exists x y m, In (x, l) s /\ In (y, m) s /\ l <> m /\ rmin (map (fun k => sil_entry d s k l) r) = sil_entry d s m l.
  Proof.
    intros Hk Hp. pose proof (selects_ne _ l r Hk Hp) as Hr. apply selects_In in Hp.
    assert (Hl : In l (distinct s)) by (apply (Permutation_in l (Permutation_sym Hp)); now left).
    destruct (lab_sample l Hl) as (x & Hx & _).
    pose proof (rmin_In (map (fun k => sil_entry d s k l) r) ltac:(destruct r; [congruence|discriminate])) as Hm.
      apply in_map_iff in Hm as (m & E & Hm).
    assert (Hmd : In m (distinct s)) by (apply (Permutation_in m (Permutation_sym Hp)); now right).
    destruct (lab_sample m Hmd) as (y & Hy & _); exists x, y, m; repeat split; auto.
    intros ->. assert (K : NoDup (m :: r)) by (apply (Permutation_NoDup Hp), NoDup_nodup). inversion K; contradiction.
  Qed.
End Alone.

(** ** Means of ones *)
Definition one_or_nanX (v : xr) : Prop := v = Fin 1 \/ v = NaN.
Lemma ratio_zero b : 0 <= b -> one_or_nanX (xdiv (Fin (b - 0)) (Fin (Rmax 0 b))) /\ (b <> 0 -> xdiv (Fin (b - 0)) (Fin (Rmax 0 b)) = Fin 1).
Proof.
  intros H. rewrite Rmax_right, Rminus_0_r by auto. destruct (Req_EM_T b 0) as [->|N].
  - split; [right|contradiction]. rewrite xdiv_zero. apply inf_mul_zero.
  - assert (E : xdiv (Fin b) (Fin b) = Fin 1) by (rewrite xdiv_fin by auto; f_equal; now field). split; [left|]; auto.
Qed.
Lemma xsum_ones l : Forall one_or_nanX l -> xsum l = Fin (INR (length l)) \/ xsum l = NaN.
Proof.
  induction 1 as [|x l Hx _ IH]; [now left|]. rewrite xsum_cons. destruct Hx as [-> | ->]; [|now right].
  destruct IH as [-> | ->]; [left|now right]. cbn [xadd]. f_equal. change (length (Fin 1 :: l)) with (S (length l)). rewrite S_INR. lra.
Qed.
Lemma mean_ones l k : Forall one_or_nanX l -> length l = k -> (0 < k)%nat ->
  one_or_nanX (xdiv (xsum l) (Fin (INR k))) /\ (Forall (eq (Fin 1)) l -> xdiv (xsum l) (Fin (INR k)) = Fin 1).
Proof.
  intros H <- Hk. assert (K : INR (length l) <> 0) by (apply not_0_INR; lia). split.
  - destruct (xsum_ones l H) as [-> | ->]; [left|now right]. rewrite xdiv_fin by auto. f_equal. now field.
  - intros H1. assert (E : l = map Fin (repeat 1 (length l))).
    { clear -H1. induction H1 as [|x l <- _ IH]; auto. cbn. now f_equal. }
    rewrite E at 1. rewrite xsum_fin, xdiv_fin by auto. f_equal.
    assert (R : forall m, rsum (repeat 1 m) = INR m).
    { induction m as [|m IHm]; auto. cbn [repeat]. rewrite rsum_cons, IHm, S_INR. lra. }
    rewrite R. now field.
Qed.
(** the silhouette of a table with zero diagonal and no negative entry *)
Lemma sil_alone {X} (a b : X * list X -> R) (ls : list X) : (0 < length ls)%nat ->
  (forall p, In p (selects ls) -> a p = 0 /\ 0 <= b p) ->
  let v := xdiv (xsum (map (fun p => xdiv (Fin (b p - a p)) (Fin (Rmax (a p) (b p)))) (selects ls))) (Fin (INR (length ls))) in
  one_or_nanX v /\ ((forall p, In p (selects ls) -> b p <> 0) -> v = Fin 1).
Proof.
  intros Hl H v. destruct (mean_ones (map (fun p => xdiv (Fin (b p - a p)) (Fin (Rmax (a p) (b p)))) (selects ls)) (length ls)) as [M1 M2]; auto.
  - apply Forall_map, Forall_forall. intros p Hp. destruct (H p Hp) as [-> Hb]. now apply ratio_zero.
  - now rewrite map_length, selects_length.
  - split; auto. intros Hb. apply M2. apply Forall_map, Forall_forall. intros p Hp. destruct (H p Hp) as [-> Hp0].
    symmetry. apply ratio_zero; auto.
Qed.

(** ** Streams *)
Lemma distinct_alone s : NoDup (labels s) -> distinct s = labels s.
Proof. intros H. now apply nodup_fixed_point. Qed.
Lemma two_labels (s : data) : (2 <= length s)%nat -> NoDup (labels s) ->
  exists x y la lb, In (x, la) s /\ In (y, lb) s /\ la <> lb.
Proof.
  destruct s as [|[x la] [|[y lb] s]]; cbn; intros H Hn; try lia. exists x, y, la, lb. repeat split; auto.
  inversion Hn as [|? ? N _]; subst. intros ->. apply N. now left.
Qed.
Lemma same_label (s : data) x y la lb : NoDup (points s) -> In (x, la) s -> In (y, lb) s -> la <> lb -> x <> y.
Proof.
  unfold points. induction s as [|[z m] s IH]; intros Hn Hx Hy N; [destruct Hx|]. cbn in Hn. inversion Hn as [|? ? N1 N2]; subst.
  destruct Hx as [E|Hx], Hy as [E'|Hy]; try (inversion E; subst); try (inversion E'; subst); try contradiction; auto.
  - intros Exy. apply N1. apply in_map_iff. exists (y, lb). split; [now rewrite Exy|auto].
  - intros Exy. apply N1. apply in_map_iff. exists (x, la). split; [now rewrite Exy|auto].
Qed.
Lemma stream_alone d s : wf d s -> NoDup (labels s) -> (2 <= length s)%nat ->
  (one_or_nanX (cSIL_stream_ext d s) \/ cSIL_stream_ext d s = Fin 0) /\ (NoDup (points s) -> cSIL_stream_ext d s = Fin 1).
Proof.
  intros Hw Hn Hl. assert (Hk : length (distinct s) = length s) by (rewrite distinct_alone by auto; unfold labels; apply map_length).
  unfold cSIL_stream_ext. rewrite Hk. destruct (Nat.leb_spec (length s) 1); [lia|]. unfold sil_value.
  destruct (sil_alone (fun p => sil_entry d s (fst p) (fst p)) (fun p => rmin (map (fun l => sil_entry d s l (fst p)) (snd p))) (distinct s)) as [V1 V2]; [lia| |].
  { intros [l r] Hp. cbn [fst snd]. destruct (least_pos d s Hw l r) as (x & y & m & Hx & Hy & N & ->); [lia|auto|]. split.
    - apply entry_diag; auto. apply nodup_In. unfold labels. apply in_map_iff. now exists (x, l).
    - apply (entry_pos d s Hw Hn y x m l); auto. }
  destruct (forallb _ (distinct s)) eqn:Z.
  - split; [now right|]. intros HP. exfalso. destruct (two_labels s Hl Hn) as (x & y & la & lb & Hx & Hy & N).
    rewrite forallb_forall in Z. assert (Ha : In la (distinct s)) by (apply nodup_In; unfold labels; apply in_map_iff; now exists (x, la)).
    assert (Hb : In lb (distinct s)) by (apply nodup_In; unfold labels; apply in_map_iff; now exists (y, lb)).
    specialize (Z la Ha). rewrite forallb_forall in Z. specialize (Z lb Hb). destruct (Req_EM_T _ 0) as [E|]; [|discriminate].
    apply (same_label s x y la lb HP Hx Hy N). now apply (entry_pos d s Hw Hn x y la lb).
  - split; [now left|]. intros HP. apply V2. intros [l r] Hp. cbn [fst snd].
    destruct (least_pos d s Hw l r) as (x & y & m & Hx & Hy & N & ->); [lia|auto|]. intros E.
    apply (same_label s y x m l HP Hy Hx); auto. exact (proj2 (entry_pos d s Hw Hn y x m l Hy Hx (fun F => N (eq_sym F))) E).
Qed.

(** ** Batches *)
Lemma clusters_alone s : NoDup (labels s) -> clusters s = map (fun p => [fst p]) s.
Proof.
  intros Hn. unfold clusters. rewrite distinct_alone by auto. unfold labels at 1. rewrite map_map. apply map_ext_in.
  intros [x l] Hi. now apply cluster_alone.
Qed.
Lemma batch_value_alone d s : wf d s -> NoDup (labels s) -> (2 <= length s)%nat -> good d (clusters s) ->
  (one_or_nanX (cSIL_ext d (clusters s)) \/ cSIL_ext d (clusters s) = Fin 0) /\ (NoDup (points s) -> cSIL_ext d (clusters s) = Fin 1).
Proof.
  intros Hw Hn Hl Hg. pose proof (clusters_alone s Hn) as Ec. assert (Hk : length (clusters s) = length s) by (rewrite Ec; apply map_length).
  assert (HI : forall g, In g (clusters s) -> exists x, g = [x] /\ length x = d /\ In x (points s)).
  { intros g Hgi. rewrite Ec in Hgi. apply in_map_iff in Hgi as ([x l] & <- & Hi). exists x. unfold wf in Hw. rewrite Forall_forall in Hw.
    repeat split; auto. apply (Hw _ Hi). unfold points. apply in_map_iff. now exists (x, l). }
  assert (HL : forall p, In p (selects (clusters s)) -> exists x y, length x = d /\ length y = d /\
     mdist d (fst p) (fst p) = 0 /\ rmin (map (mdist d (fst p)) (snd p)) = dist2 y x /\ (NoDup (points s) -> x <> y)).
  { intros [g r] Hp. cbn [fst snd]. pose proof (selects_ne _ g r ltac:(rewrite Hk; exact Hl) Hp) as Hr. apply selects_In in Hp.
    destruct (HI g) as (x & -> & Lx & _); [apply (Permutation_in _ (Permutation_sym Hp)); now left|].
    pose proof (rmin_In (map (mdist d [x]) r) ltac:(destruct r; [congruence|discriminate])) as Hm.
    apply in_map_iff in Hm as (h & E & Hh).
    destruct (HI h) as (y & -> & Ly & _); [apply (Permutation_in _ (Permutation_sym Hp)); now right|].
    exists x, y. rewrite <- E, !mdist_alone, dist2_same by auto. repeat split; auto.
    intros HP ->. assert (K : NoDup (clusters s)).
    { rewrite Ec, <- (map_map fst (fun z : point => [z])). apply FinFun.Injective_map_NoDup; auto. intros u w F. now inversion F. }
    apply (Permutation_NoDup Hp) in K. inversion K; contradiction. }
  unfold cSIL_ext.
  destruct (sil_alone (fun p => mdist d (fst p) (fst p)) (fun p => rmin (map (mdist d (fst p)) (snd p))) (clusters s)) as [V1 V2]; [lia| |].
  { intros p Hp. destruct (HL p Hp) as (x & y & _ & _ & E1 & E2 & _). split; auto. rewrite E2. apply dist2_pos. }
  destruct (Req_EM_T (tss d (clusters s)) 0) as [T|T].
  - split; [now right|]. intros HP. exfalso. pose proof (proj1 (tss_zero d (clusters s) Hg ltac:(rewrite Hk; exact Hl)) T) as Z.
    destruct (two_labels s Hl Hn) as (x & y & la & lb & Hx & Hy & N). apply (same_label s x y la lb HP Hx Hy N).
    unfold wf in Hw. rewrite Forall_forall in Hw. pose proof (Hw _ Hx) as Lx. pose proof (Hw _ Hy) as Ly. cbn in Lx, Ly.
    apply (dist2_zero_eq d); auto. rewrite <- (mdist_alone d x y) by auto. rewrite Z; [lra| |]; rewrite Ec; apply in_map_iff; [now exists (y, lb)|now exists (x, la)].
  - split; [now left|]. intros HP. apply V2. intros p Hp. destruct (HL p Hp) as (x & y & Lx & Ly & _ & -> & N). intros E.
    apply N; auto. symmetry. apply (dist2_zero_eq d); auto. lra.
Qed.

(** ** C99 in exact arithmetic: 1 if no two samples are the same, and otherwise 1,
    nan, or 0, of streams and batches alike.  (The factor 2 missing
    from cSIL.py:88 leaves |x|^2 + |y|^2 - x.y, positive unless x and y are 0.) *)
Theorem C99_exact d s v : NoDup (labels s) -> (2 <= length s)%nat -> observed kcSIL d s v ->
  (v = Fin 1 \/ v = NaN \/ v = Fin 0) /\ (NoDup (points s) -> v = Fin 1).
Proof.
  intros Hn Hl [Ho|Ho].
  - pose proof Ho as (Hw & (k & Hk & He) & _).
    pose proof (batch_elim kcSIL d s (fun gs v => v = cSIL_ext d gs) v ltac:(discriminate)
      (fun gs _ Hg => XVal_ext kcSIL d gs Hg) Ho) as E. cbv beta in E. subst v.
    destruct (batch_value_alone d s Hw Hn Hl (clusters_good d s Hw)) as [[[V|V]|V] W]; auto.
  - rewrite (sil_stream_observed d s v Ho). destruct (stream_alone d s (proj1 Ho) Hn Hl) as [[[V|V]|V] W]; auto.
Qed.
Print Assumptions C99_exact.
(** the streams and batches of three different samples, and of two that are the same *)
Definition alone_s (x y z : R) : data := [([x], 2%Z); ([y], 0%Z); ([z], 1%Z)].
Theorem C99_exact_example : NoDup (labels (alone_s 0 3 10)) /\ NoDup (points (alone_s 0 3 10)) /\
  stream_observed kcSIL 1 (alone_s 0 3 10) (Fin 1) /\ batch_observed kcSIL 1 (alone_s 0 3 10) (Fin 1) /\
  exists v, stream_observed kcSIL 1 (alone_s 0 3 3) v.
Proof.
  assert (H1 : forall x y z, NoDup (labels (alone_s x y z))) by (intros; repeat constructor; cbn; intuition discriminate).
  assert (H2 : NoDup (points (alone_s 0 3 10))).
  { repeat constructor; cbn; intuition (try discriminate); match goal with H : [_] = [_] |- _ => injection H; lra end. }
  assert (Hw : forall x y z, wf 1 (alone_s x y z)) by (intros; repeat constructor).
  split; auto. split; auto. split; [|split].
  - rewrite <- (proj2 (stream_alone 1 (alone_s 0 3 10) (Hw _ _ _) (H1 _ _ _) ltac:(cbn; lia)) H2).
    apply sil_stream_observed_ex; auto. discriminate.
  - assert (He : exact_labels (alone_s 0 3 10) 3) by (intros z; cbn; lia).
    destruct (batch_observed_ex kcSIL 1 3 (alone_s 0 3 10)) as (v & Hv); auto.
    now rewrite <- (proj2 (C99_exact 1 _ v (H1 _ _ _) ltac:(cbn; lia) (or_introl Hv)) H2).
  - eexists. apply sil_stream_observed_ex; auto. discriminate.
Qed.
Print Assumptions C99_exact_example.
