(** * C85: small errors of the data

    Exact arithmetic.  [s'] has the labels of [s] and every feature of every
    sample differs by at most [e].  [S] bounds the differences of the values of a
    feature in [s]. *)
From Coq Require Import ZArith List Arith Bool Lia Permutation.
From Verif Require Import Num NumPy Base GetCvi.
From Coq Require Import Reals Lra.
From Verif Require Import Det Spec XR SpecX RGeom XLift XEval XRun XPerm XBatch Obs XForm XBounds P_Inc P_Formula P_Bounds P_Degenerate XSilEx XOne.
From Verif Require Import P_Two.
From Verif Require Import XPert.
Import ListNotations.
Local Notation length := List.length.
Local Open Scope R_scope.

(** ** Statement *)
Definition near (d : nat) (e : R) (s s' : data) : Prop :=
  Forall2 (fun p q => snd p = snd q /\ forall j, (j < d)%nat -> Rabs (nth j (fst p) 0 - nth j (fst q) 0) <= e) s s'.
Definition spread (d : nat) (S : R) (s : data) : Prop :=
  forall x y, In x (points s) -> In y (points s) -> forall j, (j < d)%nat -> Rabs (nth j x 0 - nth j y 0) <= S.
(** the most a squared distance can change *)
Definition slack (d : nat) (S e : R) : R := 4 * e * (S + e) * INR d.

(** what the change is compared with: [smallest l q] when [q] is at least twice [l] *)
Definition smallest (l q : R) : Prop := 0 < q /\ 2 * l <= q.
(** smallest squared distance of two centroids; largest mean squared distance to the own centroid *)
Definition mindist d gs : R := rmin (map (fun p => cdist d (fst p) (snd p)) (pairs gs)).
Definition maxmse d gs : R := rmax (map (mse d) gs).
(** the sum over the groups of the smallest squared distance to another centroid, over beta *)
Definition apart_sum d gs : R := rsum (map (fun p => rmin (map (cdist d (fst p)) (snd p)) / PS_beta d gs) (selects gs)).
Definition sil_scale d gs : R :=
  rmin (map (fun p => Rmax (mdist d (fst p) (fst p)) (rmin (map (mdist d (fst p)) (snd p)))) (selects gs)).

Definition steady (c : kind) (d : nat) (l : R) (gs : list (list point)) : Prop :=
  match c with
  | kCH => smallest l (wgss d gs / nsamp gs)
  | kWB => smallest l (bgss d gs / nsamp gs)
  | kXB | kDB => smallest l (mindist d gs)
  | kGD43 => smallest l (mindist d gs) /\ smallest l (maxmse d gs)
  | kGD53 => smallest l (maxmse d gs)
  | kPS => smallest l (PS_beta d gs)
  | kcSIL => smallest l (sil_scale d gs)
  | krCIP => False
  end.
Definition change (c : kind) (d : nat) (l : R) (gs : list (list point)) (x : R) : R :=
  match c with
  | kCH => 2 * l / (wgss d gs / nsamp gs) * (x + (nsamp gs - nclus gs) / (nclus gs - 1))
  | kWB => 2 * l / (bgss d gs / nsamp gs) * (x + nclus gs)
  | kXB => 2 * l / mindist d gs * (1 + x)
  | kDB => 2 * l / mindist d gs * (2 + x)
  | kGD43 => 2 * (l / mindist d gs + l / maxmse d gs) * x
  | kGD53 => l / maxmse d gs * (1 + 2 * x)
  | kPS => 2 * l / PS_beta d gs * (nclus gs + apart_sum d gs)
  | kcSIL => 6 * l / sil_scale d gs
  | krCIP => 0
  end.



(** ** Proof *)
Lemma zip_data d e s s' : near d e s s' -> wf d s -> wf d s' -> exists z : list ((point * point) * Z),
  s = map (fun q => (fst (fst q), snd q)) z /\ s' = map (fun q => (snd (fst q), snd q)) z /\
  Forall (fun q => length (fst (fst q)) = d /\ length (snd (fst q)) = d /\ forall j, (j < d)%nat -> Rabs (nth j (fst (fst q)) 0 - nth j (snd (fst q)) 0) <= e) z.
Proof.
  induction 1 as [|[x l] [y m] s s' [E H] _ IH]; intros W W'; [exists []; repeat split; constructor|].
  inversion W; subst. inversion W'; subst. destruct IH as (z & -> & -> & Hz); auto. exists (((x, y), l) :: z). cbn in *. subst m.
  split; [reflexivity|]. split; [reflexivity|]. constructor; auto.
Qed.
Definition zc (z : list ((point * point) * Z)) (l : Z) : list (point * point) := map fst (filter (fun q => Z.eqb (snd q) l) z).
Lemma zc_fst z l : cluster (map (fun q => (fst (fst q), snd q)) z) l = map fst (zc z l).
Proof. unfold cluster, zc. induction z as [|q z IH]; auto. cbn. destruct (Z.eqb (snd q) l); cbn; now rewrite IH. Qed.
Lemma zc_snd z l : cluster (map (fun q => (snd (fst q), snd q)) z) l = map snd (zc z l).
Proof. unfold cluster, zc. induction z as [|q z IH]; auto. cbn. destruct (Z.eqb (snd q) l); cbn; now rewrite IH. Qed.

Definition formula (c : kind) (d : nat) (gs : list (list point)) : R := match c with
    | kCH => CH_formula d gs | kWB => WB_formula d gs | kDB => DB_formula d gs | kXB => XB_formula d gs | kGD43 => GD43_formula d gs
    | kGD53 => GD53_formula d gs | kPS => PS_formula d gs | kcSIL => cSIL_formula d gs | krCIP => 0 end.
Definition posit (c : kind) (d : nat) (gs : list (list point)) : Prop :=
  match c with
  | kCH => 0 < wgss d gs
  | kWB => 0 < bgss d gs
  | kXB | kDB => 0 < mindist d gs
  | kGD43 | kGD53 => 0 < maxmse d gs
  | kPS => 0 < PS_beta d gs
  | kcSIL => 0 < sil_scale d gs
  | krCIP => False
  end.
Lemma posit_fin c d gs : good d gs -> (2 <= length gs)%nat -> posit c d gs -> XVal c d gs = Fin (formula c d gs).
Proof.
  intros Hg Hk H. rewrite XVal_ext by auto. pose proof Hg as [G1 G2].
  assert (NDP : 0 < mindist d gs -> NoDup (map (centroid d) gs)) by (intros K; now apply mindist_pos).
  destruct c; cbn [posit formula] in *; try contradiction.
  - apply CH_form; auto. lra.
  - apply WB_form; auto. lra.
  - apply DB_form; auto.
  - apply XB_form; auto.
  - apply GD43_form. unfold maxmse in H. lra.
  - apply GD53_form. unfold maxmse in H. lra.
  - apply PS_form; auto. intros K. apply (beta_zero d gs) in K; auto. lra.
  - apply cSIL_form; auto. intros (g & r & Hin & E1 & E2).
    assert (K : sil_scale d gs <= Rmax (mdist d g g) (rmin (map (mdist d g) r))) by (apply rmin_le; apply in_map_iff; exists (g, r); auto).
    rewrite E1, E2, Rmax_left in K by lra. lra.
Qed.

Section Core.
  Context (d : nat) (e S : R) (lo : nat -> R) (He : 0 <= e) (HS : 0 <= S) (ls : list Z) (zl : Z -> list (point * point)).
  Context (Hne : forall l, In l ls -> zl l <> []) (Hz : forall l, In l ls -> Forall (nearp d e S lo) (zl l)) (Hls : (2 <= length ls)%nat).
  Let gs := map (fun l => map fst (zl l)) ls.
  Let gs' := map (fun l => map snd (zl l)) ls.
  Lemma core c : good d gs -> good d gs' -> steady c d (slack d S e) gs ->
    posit c d gs /\ posit c d gs' /\ Rabs (formula c d gs - formula c d gs') <= change c d (slack d S e) gs (formula c d gs).
  Proof.
    intros Hg Hg' H. pose proof (nsamp_pos d e S lo ls zl Hne Hz Hls) as NP. fold gs in NP.
    assert (W1 : forall x, 0 < x / nsamp gs -> 0 < x).
    { intros x Hx. apply (Rmult_lt_reg_r (/ nsamp gs)); [now apply Rinv_0_lt_compat|]. now rewrite Rmult_0_l. }
    assert (LG : (2 <= length gs)%nat) by (unfold gs; now rewrite map_length).
    assert (LG' : (2 <= length gs')%nat) by (unfold gs'; now rewrite map_length).
    assert (KC : nclus gs' = nclus gs) by (unfold nclus, gs, gs'; now rewrite !map_length).
    assert (KN : nsamp gs' = nsamp gs) by apply nsamp_same.
    assert (K2 : 2 <= nclus gs) by (unfold nclus; apply (le_INR 2); auto).
    assert (KL : nclus gs <= nsamp gs) by (destruct Hg as [Hg1 Hg2]; now apply (n_ge_k d)).
    destruct c; cbn [steady posit formula change] in *; try contradiction.
    - destruct H as [H1 H2]. pose proof (W1 _ H1) as W0. destruct (pert_BW d e S lo ls zl Hne Hz Hls H1 H2) as [P1 P2]. fold gs gs' in P1, P2.
      repeat split; auto.
      assert (E : forall g, good d g -> (2 <= length g)%nat -> 0 < wgss d g -> CH_formula d g = bgss d g / wgss d g * ((nsamp g - nclus g) / (nclus g - 1))).
      { intros g Gg Lg Wg. assert (E : CH_ext d g = Fin (CH_formula d g)) by (apply CH_form; auto; lra).
        unfold CH_ext in E. cbn [xdiv] in E. destruct (Req_EM_T (wgss d g) 0); [lra|]. cbn in E. injection E as <-. reflexivity. }
      rewrite !E by auto. rewrite KC, KN. set (q := (nsamp gs - nclus gs) / (nclus gs - 1)).
      assert (Q0 : 0 <= q) by (apply nn_quot; lra). rewrite <- Rmult_minus_distr_r, Rabs_mult, (Rabs_right q) by lra.
      eapply Rle_trans; [apply Rmult_le_compat_r; [lra|exact P2]|]. unfold level, slack. right. ring.
    - destruct H as [H1 H2]. pose proof (W1 _ H1) as W0. destruct (pert_WB d e S lo ls zl Hne Hz Hls H1 H2) as [P1 P2]. fold gs gs' in P1, P2.
      repeat split; auto. unfold WB_formula. rewrite KC. rewrite !(Rmult_comm (nclus gs)). unfold Rdiv at 1 2. rewrite !(Rmult_assoc _ (nclus gs)), !(Rmult_comm (nclus gs)), <- !Rmult_assoc.
      rewrite <- Rmult_minus_distr_r, Rabs_mult, (Rabs_right (nclus gs)) by lra. eapply Rle_trans; [apply Rmult_le_compat_r; [lra|exact P2]|].
      unfold level, slack, Rdiv. right. ring.
    - destruct H as [H1 H2]. destruct (pert_XB d e S lo ls zl Hne Hz Hls H1 H2) as [P1 _]. repeat split; auto. exact (pert_DB d e S lo He HS ls zl Hne Hz Hls H1 H2).
    - destruct H as [H1 H2]. destruct (pert_XB d e S lo ls zl Hne Hz Hls H1 H2) as [P1 P2]. repeat split; auto.
    - destruct H as [[H1 H2] [H3 H4]]. destruct (pert_GD43 d e S lo He HS ls zl Hne Hz Hls H1 H2 H3 H4) as [P1 P2]. repeat split; auto.
    - destruct H as [H1 H2]. destruct (pert_GD53 d e S lo He HS ls zl Hne Hz Hls H1 H2) as [P1 P2]. repeat split; auto.
    - destruct H as [H1 H2]. destruct (pert_PS d e S lo ls zl Hne Hz Hls H1 H2) as [P1 P2]. repeat split; auto.
    - destruct H as [H1 H2]. destruct (pert_cSIL d e S lo He HS ls zl Hne Hz Hls H1 H2) as [P1 P2]. repeat split; auto.
  Qed.
End Core.

Lemma zip_env d e S s s' : near d e s s' -> spread d S s -> wf d s -> wf d s' -> s <> [] ->
  exists lo (zl : Z -> list (point * point)),
    clusters s = map (fun l => map fst (zl l)) (distinct s) /\ clusters s' = map (fun l => map snd (zl l)) (distinct s) /\
    (forall l, In l (distinct s) -> zl l <> []) /\ (forall l, In l (distinct s) -> Forall (nearp d e S lo) (zl l)).
Proof.
  intros Hn Hs W W' Sne. destruct (zip_data d e s s' Hn W W') as (z & Es & Es' & Hz).
  assert (ED : distinct s' = distinct s) by (unfold distinct, labels; rewrite Es, Es', !map_map; reflexivity).
  assert (EC : clusters s = map (fun l => map fst (zc z l)) (distinct s)) by (unfold clusters; apply map_ext; intros l; rewrite Es; apply zc_fst).
  assert (EC' : clusters s' = map (fun l => map snd (zc z l)) (distinct s)) by (unfold clusters; rewrite ED; apply map_ext; intros l; rewrite Es'; apply zc_snd).
  destruct s as [|[x0 l0] s0] eqn:Es0; [congruence|]. rewrite <- Es0 in *.
  assert (Hx0 : In x0 (points s)) by (rewrite Es0; now left).
  (* a box around the samples *)
  set (lo := fun j => rmin (map (co j) (points s))).
  assert (Hlo : forall x j, In x (points s) -> (j < d)%nat -> lo j <= co j x <= lo j + S).
  { intros x j Hx Hj. unfold lo. split; [now apply rmin_le, in_map|].
    destruct (proj1 (in_map_iff (co j) (points s) (rmin (map (co j) (points s))))) as (y & Ey & Hy); [apply rmin_In; intros E; apply map_eq_nil in E; rewrite E in Hx0; destruct Hx0|].
    rewrite <- Ey. pose proof (Hs x y Hx Hy j Hj) as K. apply abs_le in K. unfold co. lra. }
  exists lo, (zc z). split; [exact EC|]. split; [exact EC'|]. split.
  - intros l Hl E. apply (cluster_some s l); [unfold distinct in Hl; now apply nodup_In in Hl|]. rewrite Es, zc_fst, E. reflexivity.
  - intros l Hl. apply Forall_forall. intros q Hq. unfold zc in Hq. apply in_map_iff in Hq as (r & <- & Hr). apply filter_In in Hr as [Hr _].
    rewrite Forall_forall in Hz. destruct (Hz r Hr) as (A1 & A2 & A3). repeat split; auto; try apply A3; auto; apply Hlo; auto;
      rewrite Es; unfold points; rewrite map_map; apply in_map_iff; exists r; auto.
Qed.
Lemma some_data (s : data) : (2 <= length (distinct s))%nat -> s <> [].
Proof. intros H ->. cbn in H. lia. Qed.
Lemma small_changes c d e S s s' : 0 <= e -> 0 <= S -> near d e s s' -> spread d S s -> wf d s -> wf d s' -> (2 <= length (distinct s))%nat ->
  steady c d (slack d S e) (clusters s) ->
  exists x x', XVal c d (clusters s) = Fin x /\ XVal c d (clusters s') = Fin x' /\ Rabs (x - x') <= change c d (slack d S e) (clusters s) x.
Proof.
  intros He HS Hn Hs W W' Hk H. destruct (zip_env d e S s s' Hn Hs W W' (some_data s Hk)) as (lo & zl & EC & EC' & N & Z).
  pose proof (clusters_good d s W) as G. pose proof (clusters_good d s' W') as G'. rewrite EC in *. rewrite EC' in *.
  destruct (core d e S lo He HS (distinct s) zl N Z Hk c G G' H) as (P1 & P2 & P3).
  eexists. eexists. split; [apply posit_fin; auto; now rewrite map_length|]. split; [apply posit_fin; auto; now rewrite map_length|]. exact P3.
Qed.
(** GD43 when two centroids coincide *)
Lemma small_changes_zero d e S s s' : 0 <= e -> 0 <= S -> near d e s s' -> spread d S s -> wf d s -> wf d s' -> (2 <= length (distinct s))%nat ->
  smallest (slack d S e) (maxmse d (clusters s)) -> mindist d (clusters s) = 0 ->
  exists x', XVal kGD43 d (clusters s') = Fin x' /\ 0 <= x' <= sqrt (slack d S e) / maxmse d (clusters s).
Proof.
  intros He HS Hn Hs W W' Hk [H1 H2] H0. destruct (zip_env d e S s s' Hn Hs W W' (some_data s Hk)) as (lo & zl & EC & EC' & N & Z).
  pose proof (clusters_good d s W) as G. pose proof (clusters_good d s' W') as G'. rewrite EC in *. rewrite EC' in *.
  destruct (pert_GD53 d e S lo He HS (distinct s) zl N Z Hk H1 H2) as [P1 _].
  pose proof (near_mind d e S lo (distinct s) zl N Z Hk) as ND. pose proof (near_maxm d e S lo He HS (distinct s) zl N Z Hk) as NM.
  set (gs := map (fun l => map fst (zl l)) (distinct s)) in *. set (gs' := map (fun l => map snd (zl l)) (distinct s)) in *.
  assert (LG' : (2 <= length gs')%nat) by (unfold gs'; now rewrite map_length).
  exists (GD43_formula d gs'). split; [apply (posit_fin kGD43); auto|].
  assert (E : GD43_formula d gs' = sqrt (mind d gs') / (2 * maxm d gs')).
  { unfold GD43_formula. rewrite (rmin_sqrt' (fun p => cdist d (fst p) (snd p))); [reflexivity|now apply pairs_ne]. }
  rewrite E. change (mindist d gs) with (mind d gs) in H0. change (level d e S) with (slack d S e) in *.
  rewrite H0 in ND. apply abs_le in ND. apply abs_le in NM. change (maxmse d gs) with (maxm d gs) in *.
  split; [apply nn_quot; [apply sqrt_pos|lra]|]. unfold Rdiv. apply Rmult_le_compat; [apply sqrt_pos|apply Rlt_le, Rinv_0_lt_compat; lra|apply sqrt_le_1_alt; lra|].
  apply Rinv_le_contravar; lra.
Qed.

Theorem C85_small_changes : forall c d e S s s' v v', c <> kcSIL -> c <> krCIP -> 0 <= e -> 0 <= S ->
  near d e s s' -> spread d S s -> (2 <= length (distinct s))%nat ->
  observed c d s v -> observed c d s' v' -> steady c d (slack d S e) (clusters s) ->
  exists x x', v = Fin x /\ v' = Fin x' /\ Rabs (x - x') <= change c d (slack d S e) (clusters s) x.
Proof.
  intros c d e S s s' v v' Hc Hr He HS Hn Hs Hk Ho Ho' H.
  rewrite (observed_XVal c d s v Hc ltac:(intros; congruence) Ho), (observed_XVal c d s' v' Hc ltac:(intros; congruence) Ho').
  apply (small_changes c d e S); eauto using observed_wf.
Qed.
Print Assumptions C85_small_changes.

Theorem C85_small_changes_cSIL_batch : forall d e S s s' v v', 0 <= e -> 0 <= S ->
  near d e s s' -> spread d S s -> 
  batch_observed kcSIL d s v -> batch_observed kcSIL d s' v' -> steady kcSIL d (slack d S e) (clusters s) ->
  exists x x', v = Fin x /\ v' = Fin x' /\ Rabs (x - x') <= change kcSIL d (slack d S e) (clusters s) x.
Proof.
  intros d e S s s' v v' He HS Hn Hs Ho Ho' H.
  rewrite (batch_observed_XVal kcSIL d s v ltac:(discriminate) Ho), (batch_observed_XVal kcSIL d s' v' ltac:(discriminate) Ho').
  destruct Ho as (W & (k & Hk & Hl) & _). destruct Ho' as (W' & _).
  apply (small_changes kcSIL d e S); auto. now rewrite <- distinct_clusters, (exact_length s k Hl).
Qed.
Print Assumptions C85_small_changes_cSIL_batch.

(** ** Continuity *)
Lemma change_linear c d l gs x : change c d l gs x = l * change c d 1 gs x.
Proof. destruct c; cbn [change]; unfold Rdiv; ring. Qed.
Lemma spread_ex d s : exists S, 0 <= S /\ spread d S s.
Proof.
  set (M := rsum (map (fun x : point => rsum (map (fun j => Rabs (nth j x 0)) (seq 0 d))) (points s))).
  assert (B : forall x j, In x (points s) -> (j < d)%nat -> Rabs (nth j x 0) <= M).
  { assert (G : forall {Y} (f : Y -> R) l y, (forall z, 0 <= f z) -> In y l -> f y <= rsum (map f l)).
    { intros Y f l y Hf. induction l as [|z l IH]; [intros []|]. intros [->|Hy]; cbn [map]; rewrite rsum_cons.
      - pose proof (rsum_map_nonneg f l (fun z _ => Hf z)). lra.
      - pose proof (IH Hy). pose proof (Hf z). lra. }
    intros x j Hx Hj. eapply Rle_trans; [apply (G nat (fun j => Rabs (nth j x 0)) (seq 0 d) j)|]; [intros; apply Rabs_pos|apply in_seq; lia|].
    apply (G point (fun x : point => rsum (map (fun j => Rabs (nth j x 0)) (seq 0 d)))); auto. intros z. apply rsum_map_nonneg. intros; apply Rabs_pos. }
  exists (2 * Rabs M). split; [pose proof (Rabs_pos M); lra|]. intros x y Hx Hy j Hj. pose proof (B x j Hx Hj). pose proof (B y j Hy Hj). pose proof (Rle_abs M).
  eapply Rle_trans; [apply Rabs_triang|]. rewrite Rabs_Ropp. lra.
Qed.
(** every slack below a given one is reached *)
Lemma slack_small d S l : 0 <= S -> 0 < l -> exists e, 0 < e /\ 0 <= slack d S e <= l.
Proof.
  intros HS Hl. pose proof (pos_INR d) as D0. set (q := 4 * (S + 1) * (INR d + 1)). assert (Q : 0 < q) by (unfold q; repeat apply Rmult_lt_0_compat; lra).
  exists (Rmin 1 (l / q)). assert (0 < l / q) by (apply Rdiv_lt_0_compat; auto). set (e := Rmin 1 (l / q)).
  assert (E : 0 < e) by (unfold e; apply Rmin_glb_lt; lra). assert (E1 : e <= 1) by apply Rmin_l. assert (E2 : e <= l / q) by apply Rmin_r.
  split; auto. unfold slack. split; [repeat apply Rmult_le_pos; lra|]. apply Rle_trans with (e * q).
  - unfold q. replace (4 * e * (S + e) * INR d) with (e * (4 * (S + e) * INR d)) by ring. apply Rmult_le_compat_l; [lra|].
    apply Rmult_le_compat; try lra. 
  - apply Rle_trans with (l / q * q); [apply Rmult_le_compat_r; lra|]. right. field. lra.
Qed.
Definition inner c d gs : Prop := posit c d gs /\ (c = kGD43 -> 0 < mindist d gs).
Lemma inner_steady c d gs : c <> krCIP -> good d gs -> (2 <= length gs)%nat -> inner c d gs -> exists q, 0 < q /\ forall l, l <= q -> steady c d l gs.
Proof.
  intros Hc Hg Hk [H HD]. pose proof (n_pos d gs Hg Hk) as NP.
  assert (G : forall q, 0 < q -> exists r, 0 < r /\ forall l, l <= r -> smallest l q) by (intros q Hq; exists (q / 2); split; [lra|]; intros l Hl; split; lra).
  destruct c; cbn [steady posit] in *; try congruence; try (apply G; auto; fail).
  - apply G. now apply Rdiv_lt_0_compat.
  - apply G. now apply Rdiv_lt_0_compat.
  - destruct (G _ H) as (r1 & R1 & K1). destruct (G _ (HD eq_refl)) as (r2 & R2 & K2). exists (Rmin r1 r2). split; [now apply Rmin_glb_lt|].
    intros l Hl. pose proof (Rmin_l r1 r2). pose proof (Rmin_r r1 r2). split; [apply K2|apply K1]; lra.
Qed.
Lemma continuous c d s x : c <> krCIP -> wf d s -> (2 <= length (distinct s))%nat -> inner c d (clusters s) -> XVal c d (clusters s) = Fin x ->
  forall eta, 0 < eta -> exists delta, 0 < delta /\ forall s', near d delta s s' -> wf d s' ->
    exists x', XVal c d (clusters s') = Fin x' /\ Rabs (x - x') <= eta.
Proof.
  intros Hc W Hk H Hx eta He. pose proof (clusters_good d s W) as G. assert (Hk' : (2 <= length (clusters s))%nat) by now rewrite distinct_clusters.
  destruct (inner_steady c d (clusters s) Hc G Hk' H) as (q & Q0 & HQ). destruct (spread_ex d s) as (S & HS & Hsp).
  set (K := Rabs (change c d 1 (clusters s) x)). assert (K0 : 0 <= K) by apply Rabs_pos.
  set (l0 := Rmin q (eta / (K + 1))). assert (E0 : 0 < eta / (K + 1)) by (apply Rdiv_lt_0_compat; lra).
  assert (L0 : 0 < l0) by (apply Rmin_glb_lt; auto). destruct (slack_small d S l0 HS L0) as (e & Ee & Es1 & Es2).
  exists e. split; auto. intros s' Hn W'.
  assert (L1 : l0 <= q) by apply Rmin_l. assert (L2 : l0 <= eta / (K + 1)) by apply Rmin_r.
  destruct (small_changes c d e S s s' ltac:(lra) HS Hn Hsp W W' Hk (HQ (slack d S e) ltac:(lra))) as (y & x' & E1 & E2 & E3).
  rewrite Hx in E1. injection E1 as <-. exists x'. split; auto. eapply Rle_trans; [exact E3|]. rewrite change_linear.
  apply Rle_trans with (eta / (K + 1) * (K + 1)); [|right; field; lra].
  apply Rle_trans with (slack d S e * K); [apply Rmult_le_compat_l; [lra|apply Rle_abs]|]. apply Rmult_le_compat; try lra.
Qed.

Lemma fin_posit c d gs x : c <> krCIP -> (c = kcSIL -> ~ (tight d gs /\ one_centre d gs)) -> good d gs -> (2 <= length gs)%nat ->
  XVal c d gs = Fin x -> posit c d gs.
Proof.
  intros Hc Hs Hg Hk H. rewrite XVal_ext in H by auto.
  pose proof (tight_wgss d gs Hg) as TW. pose proof (tight_mse d gs Hg Hk) as TM. pose proof (centre_bgss d gs Hg Hk) as CB.
  destruct c; cbn [posit]; try congruence.
  - destruct (CH_cases d gs Hg Hk) as (_ & T2 & T3). destruct (Rle_lt_or_eq_dec _ _ (wgss_nonneg d gs)) as [K|K]; auto. exfalso.
    assert (T : tight d gs) by (apply TW; auto). destruct (Classical_Prop.classic (one_centre d gs \/ singletons gs)) as [O|O];
      [specialize (T3 T O)|specialize (T2 T ltac:(tauto) ltac:(tauto))]; congruence.
  - destruct (WB_cases d gs Hg Hk) as (_ & T2 & T3). destruct (Rle_lt_or_eq_dec _ _ (bgss_nonneg d gs)) as [K|K]; auto. exfalso.
    assert (T : one_centre d gs) by (apply CB; auto). destruct (Classical_Prop.classic (tight d gs)) as [O|O];
      [specialize (T3 T O)|specialize (T2 T O)]; congruence.
  - destruct (DB_cases d gs Hg Hk) as (_ & T2 & T3). apply mindist_pos; auto. destruct (Classical_Prop.classic (separate d gs)) as [O|O]; auto. exfalso.
    destruct (Classical_Prop.classic (collapsed d gs)) as [O'|O']; [specialize (T3 O')|specialize (T2 O O')]; congruence.
  - destruct (XB_cases d gs Hg Hk) as (_ & T2 & T3). apply mindist_pos; auto. destruct (Classical_Prop.classic (separate d gs)) as [O|O]; auto. exfalso.
    destruct (Classical_Prop.classic (tight d gs)) as [O'|O']; [specialize (T3 O O')|specialize (T2 O O')]; congruence.
  - destruct (GD43_cases d gs Hg Hk) as (_ & T2 & T3). destruct (Rle_lt_or_eq_dec _ _ (maxm_nn d gs)) as [K|K]; auto. exfalso.
    assert (T : tight d gs) by (apply TM; auto). destruct (Classical_Prop.classic (separate d gs)) as [O|O];
      [specialize (T2 T O)|specialize (T3 T O)]; congruence.
  - destruct (GD53_cases d gs Hg Hk) as (_ & T2). destruct (Rle_lt_or_eq_dec _ _ (maxm_nn d gs)) as [K|K]; auto. exfalso.
    assert (T : tight d gs) by (apply TM; auto). specialize (T2 T). congruence.
  - destruct (PS_cases d gs Hk) as (_ & T2).
    assert (B0 : 0 <= PS_beta d gs). { unfold PS_beta. apply nn_quot; [|pose proof (k_gt gs Hk); lra]. apply rsum_map_nonneg. intros; apply dist2_nonneg. }
    destruct (Rle_lt_or_eq_dec _ _ B0) as [K|K]; auto. exfalso.
    assert (T : one_centre d gs) by (exact (proj1 (beta_zero d gs Hk) (eq_sym K))). specialize (T2 T). congruence.
  - destruct (cSIL_cases d gs Hg Hk) as (_ & T2 & _).
    assert (C : ~ collapsed d gs) by (intros C; specialize (T2 C (Hs eq_refl)); congruence).
    apply rmin_pos.
    + intros E. apply map_eq_nil in E. apply (f_equal (@List.length _)) in E. rewrite selects_length in E. cbn in E. lia.
    + apply Forall_forall. intros y Hy. apply in_map_iff in Hy as ([g r] & <- & Hin). cbn [fst snd].
      pose proof (mdist_nn d g g) as A1. pose proof (sil_b_nonneg d g r) as A2.
      destruct (Rle_lt_or_eq_dec _ _ A1) as [K|K]; [eapply Rlt_le_trans; [exact K|apply Rmax_l]|].
      destruct (Rle_lt_or_eq_dec _ _ A2) as [K'|K']; [eapply Rlt_le_trans; [exact K'|apply Rmax_r]|].
      exfalso. apply C, collapsed_sil; auto. exists g, r. auto.
Qed.

(** a finite value changes as little as wanted when the data change little enough *)
Theorem C85_continuous : forall c d s x, c <> kcSIL -> c <> krCIP -> (2 <= length (distinct s))%nat -> observed c d s (Fin x) ->
  forall eta, 0 < eta -> exists delta, 0 < delta /\ forall s' v', near d delta s s' -> observed c d s' v' ->
    exists x', v' = Fin x' /\ Rabs (x - x') <= eta.
Proof.
  intros c d s x Hc Hr Hk Ho eta He. pose proof (observed_wf _ _ _ _ Ho) as W. pose proof (clusters_good d s W) as G.
  assert (Hk' : (2 <= length (clusters s))%nat) by now rewrite distinct_clusters.
  pose proof (observed_XVal c d s _ Hc ltac:(intros; congruence) Ho) as E. symmetry in E.
  pose proof (fin_posit c d _ x Hr ltac:(intros; congruence) G Hk' E) as P.
  assert (L : (exists delta, 0 < delta /\ forall s', near d delta s s' -> wf d s' -> exists x', XVal c d (clusters s') = Fin x' /\ Rabs (x - x') <= eta)).
  { destruct (Classical_Prop.classic (c = kGD43 /\ mindist d (clusters s) = 0)) as [[-> D0]|N].
    - cbn [posit] in P. destruct (spread_ex d s) as (S & HS & Hsp). set (m := maxmse d (clusters s)) in *.
      assert (Q1 : 0 < eta * m) by (apply Rmult_lt_0_compat; auto). assert (Q : 0 < Rmin (m / 2) ((eta * m) * (eta * m))).
      { apply Rmin_glb_lt; [lra|]. now apply Rmult_lt_0_compat. }
      destruct (slack_small d S _ HS Q) as (e & Ee & Es1 & Es2). exists e. split; auto. intros s' Hn W'.
      pose proof (Rmin_l (m / 2) ((eta * m) * (eta * m))). pose proof (Rmin_r (m / 2) ((eta * m) * (eta * m))).
      destruct (small_changes_zero d e S s s' ltac:(lra) HS Hn Hsp W W' Hk) as (x' & E' & X1 & X2); auto.
      { split; fold m; lra. }
      exists x'. split; auto. assert (X0 : x = 0).
      { rewrite (posit_fin kGD43 d _ G Hk' P) in E. injection E as <-. unfold formula, GD43_formula.
        rewrite (rmin_sqrt' (fun p => cdist d (fst p) (snd p))); [|now apply pairs_ne]. fold (mindist d (clusters s)). rewrite D0, sqrt_0. unfold Rdiv. ring. }
      rewrite X0. apply abs_le. fold m in X2. assert (sqrt (slack d S e) / m <= eta).
      { apply (Rmult_le_reg_r m); auto. unfold Rdiv. rewrite Rmult_assoc, Rinv_l, Rmult_1_r by lra.
        rewrite <- (sqrt_square (eta * m)) by lra. apply sqrt_le_1_alt. lra. }
      lra.
    - apply (continuous c d s x); auto. split; auto. intros ->. pose proof (mind_nn d (clusters s)) as K. destruct (Rle_lt_or_eq_dec _ _ K); auto.
      exfalso. apply N. auto. }
  destruct L as (delta & D0 & L). exists delta. split; auto. intros s' v' Hn Ho'. pose proof (observed_wf _ _ _ _ Ho') as W'.
  rewrite (observed_XVal c d s' v' Hc ltac:(intros; congruence) Ho'). auto.
Qed.
Print Assumptions C85_continuous.

Theorem C85_continuous_cSIL_batch : forall d s x, batch_observed kcSIL d s (Fin x) -> (exists a b, In a (points s) /\ In b (points s) /\ a <> b) ->
  forall eta, 0 < eta -> exists delta, 0 < delta /\ forall s' v', near d delta s s' -> batch_observed kcSIL d s' v' ->
    exists x', v' = Fin x' /\ Rabs (x - x') <= eta.
Proof.
  intros d s x Ho (a & b & Ha & Hb & Hab) eta He. pose proof (batch_observed_XVal kcSIL d s _ ltac:(discriminate) Ho) as E. symmetry in E.
  destruct Ho as (W & (k & Hk & Hl) & _). pose proof (clusters_good d s W) as G.
  assert (Hk' : (2 <= length (clusters s))%nat) by now rewrite (exact_length s k Hl). assert (Hd : (2 <= length (distinct s))%nat) by now rewrite <- distinct_clusters.
  assert (N : ~ (tight d (clusters s) /\ one_centre d (clusters s))).
  { intros [T O]. apply Hab. assert (K : forall p, In p (points s) -> exists g, In g (clusters s) /\ In p g).
    { intros p Hp. apply in_map_iff in Hp as ([q l] & <- & Hq). exists (cluster s l). split.
      - apply in_map_iff. exists l. split; auto. unfold distinct. rewrite nodup_In. apply in_map_iff. exists (q, l). auto.
      - unfold cluster. apply in_map_iff. exists (q, l). split; auto. apply filter_In. split; auto. cbn. apply Z.eqb_refl. }
    destruct (K a Ha) as (g & Hg & Hag). destruct (K b Hb) as (h & Hh & Hbh). now rewrite (T g a Hg Hag), (T h b Hh Hbh), (O g h Hg Hh). }
  destruct (continuous kcSIL d s x ltac:(discriminate) W Hd) with (eta := eta) as (delta & D0 & L); auto.
  { split; [|discriminate]. apply (fin_posit kcSIL d _ x); auto. discriminate. }
  exists delta. split; auto. intros s' v' Hn Ho'. rewrite (batch_observed_XVal kcSIL d s' v' ltac:(discriminate) Ho'). apply L; auto. apply Ho'.
Qed.
Print Assumptions C85_continuous_cSIL_batch.

(** all samples equal: cSIL is 0, and jumps *)
Definition equal_s : data := [([0], 0%Z); ([0], 1%Z)].
Definition jump_s (t : R) : data := [([0], 0%Z); ([t], 1%Z)].
Lemma batch_is c d k s v : (c = krCIP -> d <> 0%nat) -> wf d s -> (2 <= k)%nat -> exact_labels s k -> XVal c d (clusters s) = v -> batch_observed c d s v.
Proof.
  intros Hd Hw Hk Hl E. destruct (batch_observed_ex c d k s Hw Hk Hl Hd) as [w Hv]. now rewrite <- E, <- (batch_observed_XVal c d s w Hd Hv).
Qed.
Lemma jump_labels t : exact_labels (jump_s t) 2.
Proof. intros z. cbn. lia. Qed.
Theorem C85_cSIL_jump : batch_observed kcSIL 1 equal_s (Fin 0) /\
  forall delta, 0 < delta -> near 1 delta equal_s (jump_s delta) /\ batch_observed kcSIL 1 (jump_s delta) (Fin 1).
Proof.
  assert (W : forall t, wf 1 (jump_s t)) by (intros; repeat constructor).
  assert (C : forall t, clusters (jump_s t) = [[[0]]; [[t]]]) by reflexivity.
  split.
  - apply (batch_is kcSIL 1 2); try discriminate; auto using (W 0). { apply (jump_labels 0). }
    rewrite XVal_ext by (cbn; lia). unfold cSIL_ext. destruct (Req_EM_T _ 0) as [|N]; auto. exfalso. apply N.
    unfold tss. cbn. unfold scatter, dist2, centroid. cbn. field.
  - intros delta Hd. split.
    + unfold near, equal_s, jump_s. repeat (apply Forall2_cons || apply Forall2_nil); (split; [reflexivity|]; intros [|j] Hj; [|lia]; cbn; apply abs_le; lra).
    + apply (batch_is kcSIL 1 2); try discriminate; auto using (W delta), jump_labels.
      rewrite C. assert (G : good 1 [[[0]]; [[delta]]]) by (rewrite <- C; now apply clusters_good).
      assert (M : forall x y, mdist 1 [[x]] [[y]] = (y - x) * (y - x)) by (intros; unfold mdist, dist2, centroid; cbn; field).
      assert (D2 : 0 < delta * delta) by now apply Rmult_lt_0_compat.
      rewrite (posit_fin kcSIL); auto; [|cbn [posit]].
      * f_equal. unfold formula, cSIL_formula, nclus. cbn [selects map fst snd rmin rmax fold_right rsum length].
        rewrite !M. rewrite !Rmax_right by nra. cbn. field. lra.
      * unfold sil_scale. cbn [selects map fst snd rmin fold_right]. rewrite !M. rewrite !Rmax_right by nra. apply Rmin_glb_lt; nra.
Qed.
Print Assumptions C85_cSIL_jump.

(** 0, 2 | 10, 12 and 0, 2 | 10, 12.01 *)
Definition moved_a : data := [([0], 0%Z); ([2], 0%Z); ([10], 1%Z); ([12 + / 100], 1%Z)].
Example C85_hypotheses : near 1 (/ 100) two_a moved_a /\ spread 1 12 two_a /\ wf 1 moved_a /\ exact_labels two_a 2 /\
  slack 1 12 (/ 100) <= 1 / 2 /\
  forall c, c <> krCIP -> steady c 1 (slack 1 12 (/ 100)) (clusters two_a).
Proof.
  assert (SL : slack 1 12 (/ 100) <= 1 / 2) by (unfold slack; cbn; lra).
  split; [|split; [|split; [repeat constructor|split; [intros z; cbn; lia|split; [exact SL|]]]]].
  - unfold near, two_a, moved_a. repeat (apply Forall2_cons || apply Forall2_nil); (split; [reflexivity|]; intros [|j] Hj; [|lia]; cbn; apply abs_le; lra).
  - intros x y Hx Hy j Hj. destruct j; [|lia]. cbn in Hx, Hy. decompose [or] Hx; decompose [or] Hy; subst; try contradiction; cbn; apply abs_le; lra.
  - assert (Ca : clusters two_a = [[[0]; [2]]; [[10]; [12]]]) by reflexivity. rewrite Ca.
    assert (W1 : scatter 1 [[0]; [2]] = 2) by (unfold scatter, dist2, centroid; cbn; field).
    assert (W2 : scatter 1 [[10]; [12]] = 2) by (unfold scatter, dist2, centroid; cbn; field).
    assert (D1 : cdist 1 [[0]; [2]] [[10]; [12]] = 100) by (unfold cdist, dist2, centroid; cbn; field).
    assert (B1 : bgss 1 [[[0]; [2]]; [[10]; [12]]] = 100) by (unfold bgss, dist2, centroid; cbn; field).
    assert (P1 : PS_beta 1 [[[0]; [2]]; [[10]; [12]]] = 25) by (rewrite two_beta, D1; lra).
    assert (M1 : mdist 1 [[0]; [2]] [[10]; [12]] = 101) by (unfold mdist, dist2, centroid; cbn; field).
    assert (M2 : mdist 1 [[10]; [12]] [[0]; [2]] = 101) by (unfold mdist, dist2, centroid; cbn; field).
    assert (M3 : mdist 1 [[0]; [2]] [[0]; [2]] = 1) by (unfold mdist, dist2, centroid; cbn; field).
    assert (M4 : mdist 1 [[10]; [12]] [[10]; [12]] = 1) by (unfold mdist, dist2, centroid; cbn; field).
    assert (MD : mindist 1 [[[0]; [2]]; [[10]; [12]]] = 100) by (unfold mindist; cbn [pairs map app fst snd rmin fold_right]; exact D1).
    assert (MM : maxmse 1 [[[0]; [2]]; [[10]; [12]]] = 1) by (unfold maxmse, mse; cbn [map rmax fold_right]; rewrite W1, W2; cbn; rewrite Rmax_left; lra).
    assert (SS : sil_scale 1 [[[0]; [2]]; [[10]; [12]]] = 101).
    { unfold sil_scale. cbn [selects map fst snd rmin fold_right]. rewrite M1, M2, M3, M4, !Rmax_right by lra. apply Rmin_left. lra. }
    assert (WG : wgss 1 [[[0]; [2]]; [[10]; [12]]] / nsamp [[[0]; [2]]; [[10]; [12]]] = 1) by (unfold wgss, nsamp; cbn [map rsum fold_right]; rewrite W1, W2; cbn; field).
    intros c Hc. destruct c; try congruence; cbn [steady]; rewrite ?WG, ?MD, ?MM, ?SS, ?P1, ?B1; unfold smallest, nsamp; cbn; lra.
Qed.
