(** * Translating and rescaling the data. *)
From Coq Require Import ZArith List Arith Bool Lia Permutation.
From Verif Require Import Num NumPy Base GetCvi.
From Coq Require Import Reals Lra.
From Verif Require Import Det Spec XR SpecX RGeom XLift XEval XInc XCov XRun XPerm XBatch Obs XForm XBounds XSim XSil XSilEx.
Import ListNotations.
Local Open Scope R_scope.

Definition tmap (T : point -> point) (s : data) : data := map (fun p => (T (fst p), snd p)) s.
Definition shift (t x : point) : point := map (fun q => fst q + snd q) (combine x t).
Definition scale (c : R) (x : point) : point := map (Rmult c) x.
Lemma translate_tmap t s : translate t s = tmap (shift t) s. Proof. reflexivity. Qed.
Lemma rescale_tmap c s : rescale c s = tmap (scale c) s. Proof. reflexivity. Qed.
Lemma tmap_labels T s : labels (tmap T s) = labels s.
Proof. unfold labels, tmap. now rewrite map_map. Qed.
Lemma tmap_cluster T s l : cluster (tmap T s) l = map T (cluster s l).
Proof.
  unfold cluster, tmap. induction s as [|[x a] s IH]; auto. cbn [map filter fst snd]. destruct (a =? l)%Z; auto.
  cbn [map fst]. now rewrite IH.
Qed.
Lemma tmap_clusters T s : clusters (tmap T s) = map (map T) (clusters s).
Proof. unfold clusters, distinct. rewrite tmap_labels, map_map. apply map_ext. intros l. apply tmap_cluster. Qed.
Lemma tmap_wf T d s : (forall x, length x = d -> length (T x) = d) -> wf d s -> wf d (tmap T s).
Proof. intros H Hw. unfold wf, tmap. apply Forall_map. eapply Forall_impl; [|exact Hw]. intros [x l]. cbn. apply H. Qed.
Lemma tmap_firstn T s i : firstn i (tmap T s) = tmap T (firstn i s).
Proof. unfold tmap. apply firstn_map. Qed.
Lemma tmap_exact T s k : exact_labels s k -> exact_labels (tmap T s) k.
Proof. unfold exact_labels. now rewrite tmap_labels. Qed.

(** ** Translations *)
Lemma co_shift d t x j : length x = d -> length t = d -> (j < d)%nat -> co j (shift t x) = co j x + co j t.
Proof.
  intros Hx Ht Hj. unfold shift, co. rewrite nth_indep with (d' := (fun q : R * R => fst q + snd q) (0, 0)).
  - rewrite (map_nth (fun q : R * R => fst q + snd q)), combine_nth by (unfold point in *; lia). reflexivity.
  - rewrite map_length, combine_length. lia.
Qed.
Lemma shift_length d t x : length t = d -> length x = d -> length (shift t x) = d.
Proof. intros. unfold shift. rewrite map_length, combine_length. lia. Qed.
Lemma shift_dist d t x y : length t = d -> length x = d -> length y = d -> dist2 (shift t x) (shift t y) = 1 * dist2 x y.
Proof.
  intros Ht Hx Hy. rewrite !(dist2_coords d) by auto using shift_length. rewrite Rmult_1_l. apply rsum_map_ext. intros j Hj.
  apply in_seq in Hj. rewrite !(co_shift d) by (auto; lia). ring.
Qed.
Lemma shift_centroid d t g : length t = d -> wfg d g -> g <> [] -> centroid d (map (shift t) g) = shift t (centroid d g).
Proof.
  intros Ht Hg Hn. apply (point_ext d); [apply centroid_length|apply shift_length; auto using centroid_length|].
  intros j Hj. rewrite (co_shift d) by auto using centroid_length. rewrite !co_centroid by auto. rewrite map_map, map_length.
  rewrite (rsum_map_ext _ (fun x => co j x + co j t)).
  - rewrite rsum_map_plus, rsum_const. pose proof (INR_pos g Hn). field. lra.
  - intros x Hx. apply (co_shift d); auto. unfold wfg in Hg. rewrite Forall_forall in Hg. auto.
Qed.
Lemma shift_regcov d t g i j : length t = d -> wfg d g -> g <> [] -> (i < d)%nat -> (j < d)%nat ->
  regcov d (map (shift t) g) i j = regcov d g i j.
Proof.
  intros Ht Hg Hn Hi Hj. unfold regcov, covar. rewrite map_length. f_equal. destruct (_ <=? _)%nat; auto. f_equal.
  rewrite map_map. apply rsum_map_ext. intros x Hx. rewrite shift_centroid by auto.
  assert (Lx : length x = d) by (unfold wfg in Hg; rewrite Forall_forall in Hg; auto).
  change (nth i (shift t x) 0) with (co i (shift t x)). change (nth j (shift t x) 0) with (co j (shift t x)).
  change (nth i (shift t (centroid d g)) 0) with (co i (shift t (centroid d g))).
  change (nth j (shift t (centroid d g)) 0) with (co j (shift t (centroid d g))).
  rewrite !(co_shift d) by auto using centroid_length. unfold co. ring.
Qed.
Lemma shift_potential d t g h : length t = d -> wfg d g -> g <> [] -> wfg d h -> h <> [] ->
  potential d (map (shift t) g) (map (shift t) h) = potential d g h.
Proof.
  intros Ht Hg Hgn Hh Hhn. unfold potential, mahal.
  assert (EQ : Qmat d (map (shift t) g) (map (shift t) h) = Qmat d g h).
  { unfold Qmat. apply map_ext_in. intros i Hi. apply map_ext_in. intros j Hj. apply in_seq in Hi, Hj.
    rewrite !shift_regcov by (auto; lia). reflexivity. }
  rewrite EQ. do 3 f_equal. apply sumn_ext. intros i Hi. apply sumn_ext. intros j Hj.
  rewrite !shift_centroid by auto.
  change (nth i (shift t (centroid d g)) 0) with (co i (shift t (centroid d g))).
  change (nth j (shift t (centroid d g)) 0) with (co j (shift t (centroid d g))).
  change (nth i (shift t (centroid d h)) 0) with (co i (shift t (centroid d h))).
  change (nth j (shift t (centroid d h)) 0) with (co j (shift t (centroid d h))).
  rewrite !(co_shift d) by auto using centroid_length. unfold co. ring.
Qed.
Lemma translate_XVal c d t gs : length t = d -> good d gs -> XVal c d (map (map (shift t)) gs) = XVal c d gs.
Proof.
  intros Ht Hg. destruct (Nat.leb_spec (length gs) 1) as [Hk|Hk].
  { unfold XVal. rewrite map_length. destruct (Nat.leb_spec (length gs) 1); [auto|lia]. }
  destruct (kind_eq c kGD43) as [->|H1]; [|destruct (kind_eq c krCIP) as [->|H2]].
  - unfold XVal. rewrite map_length. destruct (Nat.leb_spec (length gs) 1); [lia|].
    rewrite (T_GD43 d d (shift t) 1); eauto using shift_length, shift_dist, shift_centroid; try lra.
    rewrite sqrt_1, Rinv_1. destruct (GD43_ext d gs); cbn [xmul]; auto; [f_equal; ring|..]; now rewrite inf_mul_pos by lra.
  - unfold XVal. rewrite map_length. destruct (Nat.leb_spec (length gs) 1); [lia|].
    unfold rCIP_ext, rCIP_formula. f_equal. rewrite pairs_map, map_map. f_equal. apply map_ext_in. intros [g h] Hp. cbn [fst snd].
    apply pairs_In in Hp as [A B]. destruct Hg as [W N]. rewrite Forall_forall in W, N.
    apply shift_potential; auto.
  - apply (T_XVal d d (shift t) 1); eauto using shift_length, shift_dist, shift_centroid; try lra.
Qed.

(** ** Changes of units *)
Lemma co_scale c x j : co j (scale c x) = c * co j x.
Proof. unfold co, scale. rewrite <- (Rmult_0_r c) at 1. apply (map_nth (Rmult c)). Qed.
Lemma scale_length c d x : length x = d -> length (scale c x) = d.
Proof. intros. unfold scale. now rewrite map_length. Qed.
Lemma scale_dist c d x y : length x = d -> length y = d -> dist2 (scale c x) (scale c y) = (c * c) * dist2 x y.
Proof.
  intros Hx Hy. rewrite !(dist2_coords d) by auto using scale_length. rewrite <- rsum_map_scal. apply rsum_map_ext. intros j Hj.
  rewrite !co_scale. ring.
Qed.
Lemma scale_centroid c d g : centroid d (map (scale c) g) = scale c (centroid d g).
Proof.
  apply (point_ext d); [apply centroid_length|apply scale_length, centroid_length|].
  intros j Hj. rewrite co_scale, !co_centroid by auto. rewrite map_map, map_length.
  rewrite (rsum_map_ext _ (fun x => c * co j x)); [|intros; apply co_scale].
  rewrite rsum_map_scal. unfold Rdiv. ring.
Qed.
Lemma sq_pos c : c <> 0 -> 0 < c * c.
Proof. intros H. pose proof (Rsqr_pos_lt c H) as P. exact P. Qed.
Lemma sqrt_sq c : sqrt (c * c) = Rabs c.
Proof. apply sqrt_Rsqr_abs. Qed.
Lemma rescale_XVal k c d gs : c <> 0 -> good d gs -> k <> kGD43 -> k <> krCIP -> XVal k d (map (map (scale c)) gs) = XVal k d gs.
Proof.
  intros Hc Hg H1 H2. destruct (Nat.leb_spec (length gs) 1) as [Hk|Hk].
  { unfold XVal. rewrite map_length. destruct (Nat.leb_spec (length gs) 1); [auto|lia]. }
  apply (T_XVal d d (scale c) (c * c)); eauto using scale_dist, scale_centroid, sq_pos.
Qed.
Lemma rescale_GD43 c d gs : c <> 0 -> good d gs ->
  XVal kGD43 d (map (map (scale c)) gs) = xmul (Fin (/ Rabs c)) (XVal kGD43 d gs).
Proof.
  intros Hc Hg. unfold XVal. rewrite map_length. destruct (Nat.leb_spec (length gs) 1) as [Hk|Hk].
  { cbn [xmul]. f_equal. ring. }
  rewrite <- sqrt_sq. apply (T_GD43 d d (scale c) (c * c)); eauto using scale_dist, scale_centroid, sq_pos.
Qed.

(** ** cSIL's streams *)
Lemma inner_scale c x y : inner (scale c x) (scale c y) = c * c * inner x y.
Proof.
  unfold inner, scale. revert y; induction x as [|a x IH]; intros [|b y]; cbn [combine map]; try (cbn; ring).
  rewrite !rsum_cons, IH. cbn. ring.
Qed.
Lemma cluster_wfg d s l : wf d s -> wfg d (cluster s l).
Proof.
  intros Hw. unfold cluster, wfg. apply Forall_map, Forall_forall. intros p Hp. apply filter_In in Hp as [Hp _].
  unfold wf in Hw. rewrite Forall_forall in Hw. auto.
Qed.
Lemma cluster_ne_In s l : In l (distinct s) -> cluster s l <> [].
Proof.
  intros H E. unfold distinct in H. apply nodup_In in H. unfold labels in H. apply in_map_iff in H as (p & <- & Hp).
  assert (K : In (fst p) (cluster s (snd p))).
  { unfold cluster. apply in_map, filter_In. split; auto. apply Z.eqb_refl. }
  rewrite E in K. destruct K.
Qed.
Lemma scale_mdist c d g h : wfg d g -> wfg d h -> mdist d (map (scale c) g) (map (scale c) h) = c * c * mdist d g h.
Proof.
  intros Hg Hh. unfold mdist. rewrite scale_centroid, map_map, map_length.
  rewrite (rsum_map_ext _ (fun x => c * c * dist2 x (centroid d g))).
  - rewrite rsum_map_scal. unfold Rdiv. ring.
  - intros x Hx. apply (scale_dist c d); [|apply centroid_length]. unfold wfg in Hh. rewrite Forall_forall in Hh. auto.
Qed.
Lemma scale_entry c d s la lb : wf d s -> sil_entry d (tmap (scale c) s) la lb = c * c * sil_entry d s la lb.
Proof.
  intros Hw. unfold sil_entry. rewrite !tmap_cluster, scale_mdist by auto using cluster_wfg. rewrite Rmult_plus_distr_l. f_equal.
  destruct (la =? lb)%Z; [ring|].
  assert (EF : rev (filter (fun p => (snd p =? la) || (snd p =? lb))%Z (tmap (scale c) s)) =
               tmap (scale c) (rev (filter (fun p => (snd p =? la) || (snd p =? lb))%Z s))).
  { unfold tmap. rewrite map_rev. f_equal. clear Hw. induction s as [|[x l] s IH]; auto. cbn [map filter snd fst].
    destruct ((l =? la) || (l =? lb))%Z%bool; cbn [map]; now rewrite IH. }
  rewrite EF. clear EF. match goal with |- context [tmap (scale c) ?r] => destruct r as [|[x l] r'] eqn:ER end.
  { cbn [tmap map]. ring. }
  cbn [tmap map fst snd]. destruct (l =? la)%Z; [|ring].
  rewrite map_length, scale_centroid, inner_scale. ring.
Qed.
Lemma sil_value_scale {X} (E E' : X -> X -> R) q ls : 0 < q -> (forall a b, E' a b = q * E a b) -> sil_value E' ls = sil_value E ls.
Proof.
  intros Hq H. unfold sil_value.
  replace (forallb (fun a => forallb (fun b => if Req_EM_T (E' a b) 0 then true else false) ls) ls)
     with (forallb (fun a => forallb (fun b => if Req_EM_T (E a b) 0 then true else false) ls) ls).
  - destruct (forallb _ ls); auto. do 2 f_equal. apply map_ext. intros [x r]. cbv zeta. cbn [fst snd]. rewrite H.
    replace (map (fun l => E' l x) r) with (map (Rmult q) (map (fun l => E l x) r)).
    + rewrite rmin_scale, Rmax_scale, <- Rmult_minus_distr_l by auto. symmetry. now rewrite xdiv_scale.
    + rewrite map_map. apply map_ext. intros; now rewrite H.
  - assert (HE : forall a b, (if Req_EM_T (E' a b) 0 then true else false) = (if Req_EM_T (E a b) 0 then true else false)).
    { intros a b. rewrite H. destruct (Req_EM_T (q * E a b) 0) as [K|K], (Req_EM_T (E a b) 0) as [K'|K']; auto; exfalso.
      - apply Rmult_integral in K. destruct K; lra.
      - apply K. rewrite K'. ring. }
    assert (HF : forall (f f' : X -> bool) l, (forall a, f a = f' a) -> forallb f l = forallb f' l).
    { intros f f' l Hf. induction l as [|a l IH]; simpl; auto. now rewrite Hf, IH. }
    apply HF. intros a. apply HF. intros b. now rewrite HE.
Qed.
Lemma rescale_stream_cSIL c d s : c <> 0 -> wf d s -> cSIL_stream_ext d (tmap (scale c) s) = cSIL_stream_ext d s.
Proof.
  intros Hc Hw. unfold cSIL_stream_ext, distinct. rewrite tmap_labels. destruct (_ <=? _)%nat; auto.
  apply (sil_value_scale _ _ (c * c)); auto using sq_pos. intros a b. now apply scale_entry.
Qed.
