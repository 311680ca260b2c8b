(** * Giving every sample several times; appending a constant feature. *)
From Coq Require Import ZArith List Arith Bool Lia Permutation.
From Verif Require Import Num NumPy Base GetCvi.
From Coq Require Import Reals Lra.
From Verif Require Import Det Spec SpecT XR SpecX RGeom XLift XEval XInc XCov XRun XPerm XBatch Obs XForm XBounds XSim XSil XSilEx XMove.
Import ListNotations.
Local Open Scope R_scope.

Definition rep {X} (m : nat) (g : list X) : list X := flat_map (fun x => repeat x m) g.
Lemma map_repeat {X Y} (f : X -> Y) x m : map f (repeat x m) = repeat (f x) m.
Proof. induction m; simpl; congruence. Qed.
Lemma map_rep {X Y} (f : X -> Y) m g : map f (rep m g) = rep m (map f g).
Proof. unfold rep. induction g as [|x g IH]; auto. cbn [flat_map map]. now rewrite map_app, map_repeat, IH. Qed.
Lemma rep_length {X} m (g : list X) : length (rep m g) = (m * length g)%nat.
Proof. unfold rep. induction g as [|x g IH]; [cbn; lia|]. cbn [flat_map length]. rewrite app_length, repeat_length, IH. lia. Qed.
Lemma rsum_repeat x m : rsum (repeat x m) = INR m * x.
Proof. induction m as [|m IH]; [cbn; ring|]. cbn [repeat]. rewrite rsum_cons, IH, S_INR. ring. Qed.
Lemma rsum_rep m l : rsum (rep m l) = INR m * rsum l.
Proof. unfold rep. induction l as [|x l IH]; [cbn; ring|]. cbn [flat_map]. rewrite rsum_app, rsum_repeat, IH, rsum_cons. ring. Qed.
Lemma rep_app {X} m (a b : list X) : rep m (a ++ b) = rep m a ++ rep m b.
Proof. unfold rep. now rewrite flat_map_app. Qed.
Lemma rep_concat {X} m (gs : list (list X)) : concat (map (rep m) gs) = rep m (concat gs).
Proof. induction gs as [|g gs IH]; auto. cbn [map concat]. now rewrite rep_app, IH. Qed.
Lemma repeated_rep m s : repeated m s = rep m s. Proof. reflexivity. Qed.
Lemma rep_In {X} m (g : list X) x : (0 < m)%nat -> In x (rep m g) <-> In x g.
Proof.
  intros Hm. unfold rep. rewrite in_flat_map. split.
  - intros (y & Hy & Hr). now apply repeat_spec in Hr as ->.
  - intros H. exists x. split; auto. destruct m; [lia|]. now left.
Qed.
Lemma rep_labels m s : labels (repeated m s) = rep m (labels s).
Proof. unfold labels. rewrite repeated_rep. apply map_rep. Qed.
Lemma nodup_rep m ls : (0 < m)%nat -> nodup Z.eq_dec (rep m ls) = nodup Z.eq_dec ls.
Proof.
  intros Hm. induction ls as [|a ls IH]; auto. unfold rep in *. cbn [flat_map].
  assert (H : forall k l, nodup Z.eq_dec (repeat a (S k) ++ l) = if in_dec Z.eq_dec a l then nodup Z.eq_dec l else a :: nodup Z.eq_dec l).
  { induction k as [|k IHk]; intros l; [reflexivity|]. cbn [repeat app nodup] in IHk |- *. rewrite IHk.
    destruct (in_dec Z.eq_dec a (a :: repeat a k ++ l)) as [_|N]; [reflexivity|exfalso; apply N; now left]. }
  destruct m as [|m]; [lia|]. rewrite H, IH. cbn [nodup].
  destruct (in_dec Z.eq_dec a (flat_map _ ls)) as [I|I], (in_dec Z.eq_dec a ls) as [J|J]; auto; exfalso.
  - apply J. apply (rep_In (S m)); auto.
  - apply I. now apply (rep_In (S m)).
Qed.
Lemma rep_cluster m s l : cluster (repeated m s) l = rep m (cluster s l).
Proof.
  rewrite repeated_rep. unfold cluster. rewrite <- map_rep. f_equal. unfold rep. induction s as [|[x a] s IH]; auto.
  cbn [flat_map filter snd]. rewrite filter_app, IH. destruct (a =? l)%Z eqn:E; cbn [flat_map].
  - f_equal. clear IH. induction m as [|m IHm]; auto. cbn [repeat filter snd]. now rewrite E, IHm.
  - replace (filter _ (repeat (x, a) m)) with (@nil (point * Z)); auto. clear IH. induction m as [|m IHm]; auto. cbn [repeat filter snd]. now rewrite E.
Qed.
Lemma rep_clusters m s : (0 < m)%nat -> clusters (repeated m s) = map (rep m) (clusters s).
Proof.
  intros Hm. unfold clusters, distinct. rewrite rep_labels, nodup_rep, map_map by auto. apply map_ext. intros l. apply rep_cluster.
Qed.
Lemma rep_wf m d s : wf d s -> wf d (repeated m s).
Proof.
  intros H. unfold wf in *. rewrite Forall_forall in *. intros p Hp. unfold repeated in Hp. apply in_flat_map in Hp as (y & Hy & Hr).
  apply repeat_spec in Hr as ->. auto.
Qed.
Lemma rep_exact m s k : (0 < m)%nat -> exact_labels s k -> exact_labels (repeated m s) k.
Proof. intros Hm H z. rewrite rep_labels, rep_In by auto. apply H. Qed.
Lemma rep_firstn {X} m (s : list X) i : firstn (m * i) (rep m s) = rep m (firstn i s).
Proof.
  revert i; induction s as [|x s IH]; intros i; [unfold rep; now rewrite firstn_nil, firstn_nil|]. destruct i as [|i]; [now rewrite Nat.mul_0_r|].
  unfold rep in *. cbn [flat_map firstn]. rewrite Nat.mul_succ_r, Nat.add_comm, <- IH.
  rewrite <- (repeat_length x m) at 1. apply firstn_app_2.
Qed.

Section M.
  Context (d m : nat) (Hm : (0 < m)%nat).
  Let RG := @rep point m.
  Lemma INRm : 0 < INR m. Proof. apply lt_0_INR. lia. Qed.
  Lemma rep_centroid g : g <> [] -> centroid d (RG g) = centroid d g.
  Proof.
    intros Hn. apply (point_ext d); auto using centroid_length. intros j Hj. rewrite !co_centroid by auto.
    unfold RG. rewrite map_rep, rsum_rep, rep_length, mult_INR. pose proof (INR_pos g Hn). pose proof INRm. field. split; lra.
  Qed.
  Lemma rep_ne g : g <> [] -> RG g <> [].
  Proof. intros Hn E. apply (f_equal (@length _)) in E. unfold RG in E. rewrite rep_length in E. destruct g; [congruence|]. simpl in E. lia. Qed.
  Lemma rep_scatter g : g <> [] -> scatter d (RG g) = INR m * scatter d g.
  Proof. intros Hn. unfold scatter. rewrite rep_centroid by auto. unfold RG. now rewrite map_rep, rsum_rep. Qed.
  Lemma rep_mse g : g <> [] -> mse d (RG g) = mse d g.
  Proof.
    intros Hn. unfold mse. rewrite rep_scatter by auto. unfold RG. rewrite rep_length, mult_INR.
    pose proof (INR_pos g Hn). pose proof INRm. field. split; lra.
  Qed.
  Lemma rep_cdist g h : g <> [] -> h <> [] -> cdist d (RG g) (RG h) = cdist d g h.
  Proof. intros. unfold cdist. now rewrite !rep_centroid. Qed.
  Lemma rep_mdist g h : g <> [] -> h <> [] -> mdist d (RG g) (RG h) = mdist d g h.
  Proof.
    intros Hg Hh. unfold mdist. rewrite rep_centroid by auto. unfold RG. rewrite map_rep, rsum_rep, rep_length, mult_INR.
    pose proof (INR_pos h Hh). pose proof INRm. field. split; lra.
  Qed.
  Lemma rep_pooled g h : g <> [] -> h <> [] -> pooled d (RG g) (RG h) = pooled d g h.
  Proof.
    intros Hg Hh. unfold pooled. rewrite !rep_scatter by auto. unfold RG. rewrite !rep_length, !mult_INR.
    pose proof (INR_pos h Hh). pose proof (INR_pos g Hg). pose proof INRm. unfold point in *.
    rewrite <- !Rmult_plus_distr_l. field. split; lra.
  Qed.
  Context (gs : list (list point)) (Hg : good d gs) (Hk : (2 <= length gs)%nat).
  Lemma rgn g : In g gs -> g <> []. Proof. apply (g_ne d gs Hg). Qed.
  Lemma rep_nclus : nclus (map RG gs) = nclus gs. Proof. unfold nclus. now rewrite map_length. Qed.
  Lemma rep_nsamp : nsamp (map RG gs) = INR m * nsamp gs.
  Proof. unfold nsamp, RG. rewrite rep_concat, rep_length, mult_INR. reflexivity. Qed.
  Lemma rcn : concat gs <> []. Proof. apply concat_ne; [now apply (gs_ne d gs Hg Hk)|apply Hg]. Qed.
  Lemma rep_wgss : wgss d (map RG gs) = INR m * wgss d gs.
  Proof. unfold wgss. rewrite map_map, <- rsum_map_scal. apply rsum_map_ext. intros g H. apply rep_scatter. now apply rgn. Qed.
  Lemma rep_bgss : bgss d (map RG gs) = INR m * bgss d gs.
  Proof.
    unfold bgss. rewrite map_map, <- rsum_map_scal. apply rsum_map_ext. intros g H. unfold RG. rewrite rep_concat. fold RG.
    rewrite !rep_centroid by auto using rcn, rgn. unfold RG. rewrite rep_length, mult_INR. ring.
  Qed.
  Lemma rep_tss : tss d (map RG gs) = INR m * tss d gs.
  Proof. unfold tss, RG. rewrite rep_concat. apply rep_scatter, rcn. Qed.
  Lemma rep_mses : map (mse d) (map RG gs) = map (mse d) gs.
  Proof. rewrite map_map. apply map_ext_in. intros g H. apply rep_mse. now apply rgn. Qed.
  Lemma rep_pairs (f : list point -> list point -> R) : (forall g h, g <> [] -> h <> [] -> f (RG g) (RG h) = f g h) ->
    map (fun p => f (fst p) (snd p)) (pairs (map RG gs)) = map (fun p => f (fst p) (snd p)) (pairs gs).
  Proof.
    intros H. rewrite pairs_map, map_map. apply map_ext_in. intros [g h] Hp. cbn [fst snd]. apply pairs_In in Hp as [? ?]. auto using rgn.
  Qed.
  Lemma rep_beta : PS_beta d (map RG gs) = PS_beta d gs.
  Proof.
    unfold PS_beta. rewrite rep_nclus. replace (map (centroid d) (map RG gs)) with (map (centroid d) gs).
    - f_equal. rewrite map_map. apply rsum_map_ext. intros g H. now rewrite rep_centroid by auto using rgn.
    - rewrite map_map. apply map_ext_in. intros g H. symmetry. apply rep_centroid. now apply rgn.
  Qed.
  Lemma rep_XVal c : c <> kCH -> c <> krCIP -> XVal c d (map RG gs) = XVal c d gs.
  Proof.
    intros H1 H2. pose proof INRm as P. unfold XVal. rewrite map_length. destruct (_ <=? _)%nat; auto.
    assert (Sel : forall g r, In (g, r) (selects gs) -> g <> [] /\ forall h, In h r -> h <> []).
    { intros g r Hp. destruct (sel_in gs g r Hp) as [S1 S2]. split; auto using rgn. }
    destruct c; try congruence.
    - unfold WB_ext. now rewrite rep_bgss, rep_wgss, rep_nclus, xdiv_scale.
    - unfold DB_ext. rewrite rep_nclus, selects_map, map_map. do 2 f_equal. apply map_ext_in. intros [g r] Hp. cbn [fst snd].
      f_equal. rewrite map_map. destruct (Sel g r Hp) as [S1 S2]. apply map_ext_in. intros h Hh.
      now rewrite !rep_mse, rep_cdist by auto.
    - unfold XB_ext. rewrite rep_wgss, rep_nsamp, (rep_pairs (cdist d)) by auto using rep_cdist. rewrite Rmult_assoc. now apply xdiv_scale.
    - unfold GD43_ext. rewrite rep_mses, (rep_pairs (fun g h => sqrt (cdist d g h))); [reflexivity|]. intros; now rewrite rep_cdist.
    - unfold GD53_ext. rewrite rep_mses, (rep_pairs (pooled d)); [reflexivity|]. intros; now apply rep_pooled.
    - unfold PS_ext. rewrite rep_beta. destruct (Req_EM_T _ 0); auto. f_equal.
      unfold PS_formula. rewrite rep_beta, selects_map, !map_map. f_equal. apply map_ext_in. intros [g r] Hp. cbn [fst snd].
      destruct (Sel g r Hp) as [S1 S2]. f_equal.
      + rewrite (map_ext (fun x => INR (length (RG x))) (fun x => INR m * INR (length x))) by (intros x; unfold RG; now rewrite rep_length, mult_INR).
        rewrite <- (map_map (fun x : list point => INR (length x)) (Rmult (INR m))), rmax_scale by auto. unfold RG. rewrite rep_length, mult_INR.
        assert (0 < rmax (map (fun x : list point => INR (length x)) gs)).
        { pose proof (INR_pos g S1) as Pg. destruct (sel_in gs g r Hp) as [S3 _].
          assert (INR (length g) <= rmax (map (fun x : list point => INR (length x)) gs)) by (apply rmax_ge, in_map_iff; now exists g).
          unfold point in *. lra. }
        unfold point in *. field. split; lra.
      + do 2 f_equal. f_equal. f_equal. rewrite map_map. apply map_ext_in. intros h Hh. now apply rep_cdist; auto.
    - unfold cSIL_ext. rewrite rep_tss, rep_nclus.
      assert (Eq : INR m * tss d gs = 0 <-> tss d gs = 0).
      { split; intros E; [apply Rmult_integral in E; destruct E; lra|rewrite E; ring]. }
      destruct (Req_EM_T (INR m * tss d gs) 0) as [E|E], (Req_EM_T (tss d gs) 0) as [E'|E']; auto; try tauto.
      do 2 f_equal. rewrite selects_map, map_map. apply map_ext_in. intros [g r] Hp. cbv zeta. cbn [fst snd].
      destruct (Sel g r Hp) as [S1 S2]. rewrite rep_mdist by auto.
      replace (map (mdist d (RG g)) (map RG r)) with (map (mdist d g) r); auto.
      rewrite map_map. apply map_ext_in. intros h Hh. symmetry. now apply rep_mdist; auto.
  Qed.
  Lemma rep_CH : nsamp gs <> nclus gs ->
    CH_ext d (map RG gs) = xmul (CH_ext d gs) (Fin ((INR m * nsamp gs - nclus gs) / (nsamp gs - nclus gs))).
  Proof.
    intros Hn. pose proof INRm as P. unfold CH_ext. rewrite rep_bgss, rep_wgss, rep_nclus, rep_nsamp, xdiv_scale by auto.
    pose proof (k_gt gs Hk) as K. pose proof (n_ge_k d gs Hg) as NK.
    assert (M1 : 1 <= INR m) by (apply (le_INR 1); lia).
    assert (P1 : 0 < nsamp gs - nclus gs) by lra.
    assert (P2 : 0 < INR m * nsamp gs - nclus gs).
    { assert (1 * nsamp gs <= INR m * nsamp gs) by (apply Rmult_le_compat_r; lra). lra. }
    assert (Q1 : 0 < (nsamp gs - nclus gs) / (nclus gs - 1)) by (apply Rdiv_lt_0_compat; lra).
    assert (Q2 : 0 < (INR m * nsamp gs - nclus gs) / (nclus gs - 1)) by (apply Rdiv_lt_0_compat; lra).
    assert (Q3 : 0 < (INR m * nsamp gs - nclus gs) / (nsamp gs - nclus gs)) by (apply Rdiv_lt_0_compat; lra).
    destruct (xdiv (Fin (bgss d gs)) (Fin (wgss d gs))); cbn [xmul]; auto.
    - f_equal. field. split; lra.
    - rewrite !inf_mul_pos by auto. cbn [xmul]. now rewrite inf_mul_pos by auto.
    - rewrite !inf_mul_pos by auto. cbn [xmul xneg]. now rewrite inf_mul_pos by auto.
  Qed.
End M.

(** ** A constant feature *)
Lemma app_dist c : forall x y : point, length x = length y -> dist2 (x ++ [c]) (y ++ [c]) = dist2 x y.
Proof.
  induction x as [|a x IH]; intros [|b y] H; try discriminate.
  - unfold dist2. cbn. ring.
  - cbn [app]. rewrite !dist2_cons, IH; auto.
Qed.
Section C.
  Context (d : nat) (c : R).
  Definition addc (x : point) : point := x ++ [c].
  Lemma append_tmap s : append_constant c s = tmap addc s. Proof. reflexivity. Qed.
  Lemma addc_len x : length x = d -> length (addc x) = S d.
  Proof. intros. unfold addc. rewrite app_length. cbn. lia. Qed.
  Lemma co_addc x j : length x = d -> (j < S d)%nat -> co j (addc x) = if (j <? d)%nat then co j x else c.
  Proof.
    intros Hx Hj. unfold co, addc. destruct (Nat.ltb_spec j d); [now rewrite app_nth1 by lia|].
    replace j with d by lia. rewrite <- Hx. apply nth_middle.
  Qed.
  Lemma addc_dist x y : length x = d -> length y = d -> dist2 (addc x) (addc y) = 1 * dist2 x y.
  Proof. intros Hx Hy. unfold addc. rewrite app_dist by congruence. ring. Qed.
  Lemma addc_cen g : wfg d g -> g <> [] -> centroid (S d) (map addc g) = addc (centroid d g).
  Proof.
    intros Hg Hn. apply (point_ext (S d)); [apply centroid_length|apply addc_len, centroid_length|]. intros j Hj.
    rewrite co_addc by auto using centroid_length. rewrite co_centroid by auto. rewrite map_map, map_length.
    rewrite (rsum_map_ext _ (fun x => if (j <? d)%nat then co j x else c)).
    - destruct (Nat.ltb_spec j d).
      + now rewrite co_centroid.
      + rewrite rsum_const. pose proof (INR_pos g Hn). field. lra.
    - intros x Hx. apply co_addc; auto. unfold wfg in Hg. rewrite Forall_forall in Hg. auto.
  Qed.
  Lemma append_XVal k gs : k <> krCIP -> good d gs -> XVal k (S d) (map (map addc) gs) = XVal k d gs.
  Proof.
    intros H2 Hg. destruct (Nat.leb_spec (length gs) 1) as [Hk|Hk].
    { unfold XVal. rewrite map_length. destruct (Nat.leb_spec (length gs) 1); [auto|lia]. }
    destruct (kind_eq k kGD43) as [->|H1].
    - unfold XVal. rewrite map_length. destruct (Nat.leb_spec (length gs) 1); [lia|].
      rewrite (T_GD43 d (S d) addc 1); auto using addc_dist, addc_cen; try lra.
      rewrite sqrt_1, Rinv_1. destruct (GD43_ext d gs); cbn [xmul]; auto; [f_equal; ring|..]; now rewrite inf_mul_pos by lra.
    - apply (T_XVal d (S d) addc 1); auto using addc_dist, addc_cen; try lra.
  Qed.
  (** cSIL's streams: the inner products change by c * c *)
  Lemma addc_mdist g h : wfg d g -> g <> [] -> wfg d h -> mdist (S d) (map addc g) (map addc h) = mdist d g h.
  Proof.
    intros Hg Hn Hh. unfold mdist. rewrite addc_cen, map_map, map_length by auto. f_equal. apply rsum_map_ext. intros x Hx.
    rewrite addc_dist; [ring| |apply centroid_length]. unfold wfg in Hh. rewrite Forall_forall in Hh. auto.
  Qed.
End C.
Lemma addc_inner0 : forall x y, inner (addc 0 x) (addc 0 y) = inner x y \/ length x <> length y.
Proof.
  induction x as [|a x IH]; intros [|b y]; try (right; discriminate).
  - left. unfold inner, addc. cbn. ring.
  - destruct (IH y) as [E|E]; [left|right; simpl; lia]. unfold inner, addc in *. cbn [app combine map]. now rewrite !rsum_cons, E.
Qed.
Lemma addc_entry0 d s la lb : wf d s -> In lb (labels s) -> sil_entry (S d) (tmap (addc 0) s) la lb = sil_entry d s la lb.
Proof.
  intros Hw Hb. assert (Nb : cluster s lb <> []) by (apply cluster_ne_In; unfold distinct; now apply nodup_In).
  unfold sil_entry. rewrite !tmap_cluster, addc_mdist by auto using cluster_wfg. f_equal.
  destruct (la =? lb)%Z; auto.
  assert (EF : rev (filter (fun p => (snd p =? la) || (snd p =? lb))%Z (tmap (addc 0) s)) =
               tmap (addc 0) (rev (filter (fun p => (snd p =? la) || (snd p =? lb))%Z s))).
  { unfold tmap. rewrite map_rev. f_equal. clear. induction s as [|[x l] s IH]; auto. cbn [map filter snd fst].
    destruct ((l =? la) || (l =? lb))%Z%bool; cbn [map]; now rewrite IH. }
  rewrite EF. clear EF.
  destruct (rev (filter (fun p => ((snd p =? la) || (snd p =? lb))%Z) s)) as [|[x l] r'] eqn:ER; [reflexivity|].
  cbn [tmap map fst snd]. destruct (l =? la)%Z; auto.
  assert (Hx : length x = d).
  { assert (K : In (x, l) (rev (filter (fun p => ((snd p =? la) || (snd p =? lb))%Z) s))) by (rewrite ER; now left).
    apply in_rev, filter_In in K as [K _]. unfold wf in Hw. rewrite Forall_forall in Hw. exact (Hw _ K). }
  rewrite map_length, addc_cen by auto using cluster_wfg. f_equal.
  destruct (addc_inner0 x (centroid d (cluster s lb))) as [E|E]; auto. rewrite centroid_length in E. contradiction.
Qed.
