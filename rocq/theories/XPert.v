(** * Two data sets whose samples differ little: lemmas over plain reals *)
From Coq Require Import ZArith List Arith Bool Lia Permutation.
From Coq Require Import Reals Lra Psatz.
From Verif Require Import Det Spec RGeom XForm.
Import ListNotations.
Local Notation length := List.length.
Local Open Scope R_scope.

(** ** Numbers *)
Lemma abs_le x e : Rabs x <= e <-> - e <= x <= e.
Proof. unfold Rabs. destruct (Rcase_abs x); lra. Qed.
Lemma rsum_close {X} (f g : X -> R) (b : X -> R) l : (forall x, In x l -> Rabs (f x - g x) <= b x) ->
  Rabs (rsum (map f l) - rsum (map g l)) <= rsum (map b l).
Proof.
  intros H. rewrite <- rsum_map_minus. apply abs_le. split.
  - replace (- rsum (map b l)) with (rsum (map (fun x => (-1) * b x) l)) by (rewrite rsum_map_scal; lra).
    apply rsum_map_le. intros x Hx. apply H, abs_le in Hx. lra.
  - apply rsum_map_le. intros x Hx. apply H, abs_le in Hx. lra.
Qed.
Lemma mean_close {X} (f g : X -> R) e l : l <> [] -> (forall x, In x l -> Rabs (f x - g x) <= e) ->
  Rabs (rsum (map f l) / INR (length l) - rsum (map g l) / INR (length l)) <= e.
Proof.
  intros Hl H. pose proof (INR_pos l Hl) as P. pose proof (rsum_close f g (fun _ => e) l H) as K. rewrite rsum_const in K.
  unfold Rdiv. rewrite <- Rmult_minus_distr_r, Rabs_mult, (Rabs_right (/ _)) by (apply Rle_ge, Rlt_le, Rinv_0_lt_compat, P).
  apply (Rmult_le_reg_r (INR (length l))); auto. rewrite Rmult_assoc, Rinv_l by lra. lra.
Qed.
Lemma rmin_close {X} (f g : X -> R) e l : l <> [] -> (forall x, In x l -> Rabs (f x - g x) <= e) ->
  Rabs (rmin (map f l) - rmin (map g l)) <= e.
Proof.
  intros Hl H. assert (K : forall f : X -> R, exists x, In x l /\ rmin (map f l) = f x).
  { intros h. destruct (proj1 (in_map_iff h l (rmin (map h l)))) as (x & E & Hx); [apply rmin_In; destruct l; [congruence|discriminate]|eauto]. }
  destruct (K f) as (x & Hx & Ex). destruct (K g) as (y & Hy & Ey).
  assert (rmin (map f l) <= f y) by now apply rmin_le, in_map. assert (rmin (map g l) <= g x) by now apply rmin_le, in_map.
  apply H, abs_le in Hx. apply H, abs_le in Hy. apply abs_le. lra.
Qed.
(** each entry within [e + c * entry] *)
Lemma rmax_close {X} (f g : X -> R) e c l : 0 <= e -> 0 <= c -> l <> [] -> (forall x, In x l -> Rabs (f x - g x) <= e + c * f x) ->
  Rabs (rmax (map f l) - rmax (map g l)) <= e + c * rmax (map f l).
Proof.
  intros He Hc Hl H. assert (K : forall f : X -> R, exists x, In x l /\ rmax (map f l) = f x).
  { intros h. destruct (proj1 (in_map_iff h l (rmax (map h l)))) as (x & E & Hx); [apply rmax_In; destruct l; [congruence|discriminate]|eauto]. }
  destruct (K f) as (x & Hx & Ex). destruct (K g) as (y & Hy & Ey).
  assert (A1 : f y <= rmax (map f l)) by now apply rmax_ge, in_map. assert (A2 : g x <= rmax (map g l)) by now apply rmax_ge, in_map.
  apply H, abs_le in Hx. apply H, abs_le in Hy. pose proof (Rmult_le_compat_l c _ _ Hc A1). rewrite Ex in *. apply abs_le. lra.
Qed.
Lemma quot_close a a' c c' p q : Rabs (a - a') <= p -> Rabs (c - c') <= q -> 0 < c -> 2 * q <= c ->
  0 < c' /\ Rabs (a / c - a' / c') <= 2 / c * (p + Rabs (a / c) * q).
Proof.
  intros Ha Hc Hp Hq. pose proof (proj1 (abs_le _ _) Hc) as Hc'. assert (Q : 0 <= q) by (eapply Rle_trans; [apply Rabs_pos|exact Hc]).
  assert (P : 0 <= p) by (eapply Rle_trans; [apply Rabs_pos|exact Ha]). assert (C' : c / 2 <= c') by lra. assert (0 < c') by lra. split; auto.
  replace (a / c - a' / c') with (((a - a') + a / c * (c' - c)) * / c') by (field; lra).
  rewrite Rabs_mult, (Rabs_right (/ c')) by (apply Rle_ge, Rlt_le, Rinv_0_lt_compat; auto).
  rewrite (Rmult_comm (2 / c)). apply Rmult_le_compat; try apply Rabs_pos.
  - apply Rlt_le, Rinv_0_lt_compat; auto.
  - eapply Rle_trans; [apply Rabs_triang|]. apply Rplus_le_compat; auto. rewrite Rabs_mult. apply Rmult_le_compat_l; [apply Rabs_pos|].
    now rewrite Rabs_minus_sym.
  - replace (2 / c) with (/ (c / 2)) by (field; lra). apply Rinv_le_contravar; lra.
Qed.
Lemma max_close a a' b b' e : Rabs (a - a') <= e -> Rabs (b - b') <= e -> Rabs (Rmax a b - Rmax a' b') <= e.
Proof.
  intros H1 H2. apply abs_le in H1. apply abs_le in H2. apply abs_le.
  unfold Rmax. destruct (Rle_dec a b), (Rle_dec a' b'); lra.
Qed.
Lemma sqrt_close a b e : 0 < a -> 0 <= b -> Rabs (a - b) <= e -> Rabs (sqrt a - sqrt b) <= e / sqrt a.
Proof.
  intros Ha Hb H. pose proof (sqrt_lt_R0 a Ha) as Sa. pose proof (sqrt_pos b) as Sb.
  apply (Rmult_le_reg_r (sqrt a)); auto. unfold Rdiv. rewrite Rmult_assoc, Rinv_l, Rmult_1_r by lra.
  eapply Rle_trans; [|exact H]. rewrite <- (sqrt_sqrt a) at 3 by lra. rewrite <- (sqrt_sqrt b) at 2 by lra.
  replace (sqrt a * sqrt a - sqrt b * sqrt b) with ((sqrt a - sqrt b) * (sqrt a + sqrt b)) by ring.
  rewrite Rabs_mult. apply Rmult_le_compat_l; [apply Rabs_pos|]. rewrite Rabs_right; lra.
Qed.
Lemma exp_close u v : 0 <= u -> 0 <= v -> Rabs (exp (- u) - exp (- v)) <= Rabs (u - v).
Proof.
  assert (K : forall u v, 0 <= u <= v -> exp (- u) - exp (- v) <= v - u /\ exp (- v) <= exp (- u)).
  { intros a b [A B]. split.
    - replace (exp (- b)) with (exp (- a) * exp (- (b - a))) by (rewrite <- exp_plus; f_equal; ring).
      assert (E1 : exp (- a) <= 1). { rewrite <- exp_0. destruct (Req_dec a 0) as [->|]; [right; f_equal; ring|]. left. apply exp_increasing. lra. }
      assert (E2 : 1 - (b - a) <= exp (- (b - a))). { pose proof (exp_ineq1_le (- (b - a))). lra. }
      pose proof (exp_pos (- a)). assert (0 <= 1 - exp (- (b - a))).
      { assert (exp (- (b - a)) <= 1); [|lra]. rewrite <- exp_0. destruct (Req_dec a b) as [->|]; [right; f_equal; ring|]. left. apply exp_increasing. lra. }
      replace (exp (- a) - exp (- a) * exp (- (b - a))) with (exp (- a) * (1 - exp (- (b - a)))) by ring.
      apply Rle_trans with (1 * (1 - exp (- (b - a)))); [apply Rmult_le_compat_r; auto|lra].
    - destruct (Req_dec a b) as [->|]; [lra|]. left. apply exp_increasing. lra. }
  intros A B. destruct (Rle_dec u v) as [H|H].
  - destruct (K u v ltac:(lra)). rewrite (Rabs_minus_sym u v), (Rabs_right (v - u)) by lra. apply abs_le. lra.
  - destruct (K v u ltac:(lra)). rewrite (Rabs_right (u - v)) by lra. apply abs_le. lra.
Qed.

(** ** Points *)
Section Near.
  Context (d : nat) (e S : R) (lo : nat -> R).
  (** [level]: the change of a squared distance *)
  Definition level : R := 4 * e * (S + e) * INR d.
  Hypotheses (He : 0 <= e) (HS : 0 <= S).
  (** the second point is within [e] of the first, which is in the box *)
  Definition nearp (p : point * point) : Prop := length (fst p) = d /\ length (snd p) = d /\
    forall j, (j < d)%nat -> Rabs (co j (fst p) - co j (snd p)) <= e /\ lo j <= co j (fst p) <= lo j + S.
  Lemma level_nonneg : 0 <= level.
  Proof. unfold level. pose proof (pos_INR d). repeat apply Rmult_le_pos; lra. Qed.

  Lemma near_dist2 p q : nearp p -> nearp q -> Rabs (dist2 (fst p) (fst q) - dist2 (snd p) (snd q)) <= level.
  Proof.
    intros (P1 & P2 & P3) (Q1 & Q2 & Q3). rewrite !(dist2_coords d) by assumption.
    eapply Rle_trans; [apply rsum_close with (b := fun _ => 4 * e * (S + e))|rewrite rsum_const, seq_length; unfold level; right; ring].
    intros j Hj. apply in_seq in Hj. destruct (P3 j ltac:(lia)) as [A1 A2]. destruct (Q3 j ltac:(lia)) as [B1 B2].
    apply abs_le in A1. apply abs_le in B1.
    set (a := co j (fst p) - co j (fst q)). set (b := co j (snd p) - co j (snd q)).
    replace (a * a - b * b) with ((a - b) * (a + b)) by ring. rewrite Rabs_mult.
    replace (4 * e * (S + e)) with ((2 * e) * (2 * (S + e))) by ring.
    apply Rmult_le_compat; try apply Rabs_pos; apply abs_le; unfold a, b; lra.
  Qed.
  Lemma near_centroid zs : zs <> [] -> Forall nearp zs -> nearp (centroid d (map fst zs), centroid d (map snd zs)).
  Proof.
    intros Hz H. rewrite Forall_forall in H. split; [apply centroid_length|]. split; [apply centroid_length|]. intros j Hj. cbn [fst snd].
    rewrite !co_centroid, !map_map, !map_length by assumption. split.
    - apply mean_close; auto. intros x Hx. apply H in Hx as (_ & _ & Hx). apply (Hx j Hj).
    - pose proof (INR_pos zs Hz) as P.
      assert (K1 : lo j * INR (length zs) <= rsum (map (fun x => co j (fst x)) zs)).
      { rewrite Rmult_comm, <- rsum_const. apply rsum_map_le. intros x Hx. apply H in Hx as (_ & _ & Hx). apply (Hx j Hj). }
      assert (K2 : rsum (map (fun x => co j (fst x)) zs) <= (lo j + S) * INR (length zs)).
      { rewrite (Rmult_comm (lo j + S)), <- rsum_const. apply rsum_map_le. intros x Hx. apply H in Hx as (_ & _ & Hx). apply (Hx j Hj). }
      split; apply (Rmult_le_reg_r (INR (length zs))); auto; unfold Rdiv; rewrite Rmult_assoc, Rinv_l, Rmult_1_r by lra; auto.
  Qed.
  (** mean squared distance of the points [zs] to a point *)
  Lemma near_mean zs p : zs <> [] -> Forall nearp zs -> nearp p ->
    Rabs (rsum (map (fun x => dist2 x (fst p)) (map fst zs)) / INR (length (map fst zs)) -
          rsum (map (fun x => dist2 x (snd p)) (map snd zs)) / INR (length (map snd zs))) <= level.
  Proof.
    intros Hz H Hp. rewrite !map_map, !map_length. apply (mean_close (fun z => dist2 (fst z) (fst p)) (fun z => dist2 (snd z) (snd p))); auto.
    intros z Hin. apply near_dist2; auto. rewrite Forall_forall in H. auto.
  Qed.

  (** ** Partitions: the groups [zc l] for [l] in [ls] *)
  Context {X : Type} (ls : list X) (zc : X -> list (point * point)).
  Hypotheses (Hne : forall l, In l ls -> zc l <> []) (Hz : forall l, In l ls -> Forall nearp (zc l)) (Hls : (2 <= length ls)%nat).
  Let f l := map fst (zc l).
  Let f' l := map snd (zc l).
  Lemma near_ctr l : In l ls -> nearp (centroid d (f l), centroid d (f' l)).
  Proof. intros H. apply near_centroid; auto. Qed.
  Lemma near_cdist l m : In l ls -> In m ls -> Rabs (cdist d (f l) (f m) - cdist d (f' l) (f' m)) <= level.
  Proof. intros H K. exact (near_dist2 _ _ (near_ctr l H) (near_ctr m K)). Qed.
  Lemma near_mdist l m : In l ls -> In m ls -> Rabs (mdist d (f l) (f m) - mdist d (f' l) (f' m)) <= level.
  Proof. intros H K. exact (near_mean (zc m) _ (Hne m K) (Hz m K) (near_ctr l H)). Qed.
  Lemma near_mse l : In l ls -> Rabs (mse d (f l) - mse d (f' l)) <= level.
  Proof. intros H. exact (near_mdist l l H H). Qed.
  Lemma near_length l : length (f l) = length (f' l).
  Proof. unfold f, f'. now rewrite !map_length. Qed.
  Lemma f_pos l : In l ls -> 0 < INR (length (f l)).
  Proof. intros H. apply INR_pos. unfold f. intros E. apply (Hne l H). now apply map_eq_nil in E. Qed.
  Lemma near_scatter l : In l ls -> Rabs (scatter d (f l) - scatter d (f' l)) <= INR (length (f l)) * level.
  Proof.
    intros H. pose proof (near_mse l H) as K. pose proof (f_pos l H) as P. unfold mse in K. rewrite <- near_length in K.
    replace (scatter d (f l) - scatter d (f' l)) with (INR (length (f l)) * (scatter d (f l) / INR (length (f l)) - scatter d (f' l) / INR (length (f l)))) by (field; lra).
    rewrite Rabs_mult, Rabs_right by lra. apply Rmult_le_compat_l; lra.
  Qed.
  Lemma nsamp_sum : nsamp (map f ls) = rsum (map (fun l => INR (length (f l))) ls).
  Proof.
    clear. unfold nsamp. induction ls as [|l r IH]; [reflexivity|]. cbn [map concat]. rewrite app_length, plus_INR, IH. reflexivity.
  Qed.
  Lemma nsamp_same : nsamp (map f' ls) = nsamp (map f ls).
  Proof.
    clear. unfold nsamp. f_equal. induction ls as [|l r IH]; [reflexivity|]. cbn [map concat]. now rewrite !app_length, IH, near_length.
  Qed.
  Lemma ls_ne : ls <> [].
  Proof. destruct ls; [cbn in Hls; lia|discriminate]. Qed.
  Lemma nsamp_pos : 0 < nsamp (map f ls).
  Proof.
    rewrite nsamp_sum. apply rsum_pos.
    - apply Forall_forall. intros x Hx. apply in_map_iff in Hx as (l & <- & Hl). now apply f_pos.
    - intros E. apply map_eq_nil in E. now apply ls_ne.
  Qed.
  Lemma over_N A A' : Rabs (A - A') <= rsum (map (fun l => INR (length (f l)) * level) ls) ->
    Rabs (A / nsamp (map f ls) - A' / nsamp (map f ls)) <= level.
  Proof.
    intros H. pose proof nsamp_pos as P. unfold Rdiv. rewrite <- Rmult_minus_distr_r, Rabs_mult, (Rabs_right (/ _)) by (apply Rle_ge, Rlt_le, Rinv_0_lt_compat, P).
    apply (Rmult_le_reg_r (nsamp (map f ls))); auto. rewrite Rmult_assoc, Rinv_l, Rmult_1_r by lra. rewrite nsamp_sum, (Rmult_comm level), <- Rmult_1_r at 1.
    rewrite Rmult_1_r. eapply Rle_trans; [exact H|]. right. rewrite (Rmult_comm _ level), <- rsum_map_scal. apply rsum_map_ext. intros; ring.
  Qed.
  Lemma near_wgss : Rabs (wgss d (map f ls) / nsamp (map f ls) - wgss d (map f' ls) / nsamp (map f ls)) <= level.
  Proof. apply over_N. unfold wgss. rewrite !map_map. apply rsum_close. intros l Hl. now apply near_scatter. Qed.
  Lemma near_centre : nearp (centroid d (concat (map f ls)), centroid d (concat (map f' ls))).
  Proof.
    replace (concat (map f ls)) with (map fst (concat (map zc ls))) by (rewrite concat_map, map_map; reflexivity).
    replace (concat (map f' ls)) with (map snd (concat (map zc ls))) by (rewrite concat_map, map_map; reflexivity).
    apply near_centroid.
    - apply concat_ne; [intros E; apply map_eq_nil in E; now apply ls_ne|]. apply Forall_forall. intros x Hx. apply in_map_iff in Hx as (l & <- & Hl). auto.
    - apply Forall_forall. intros x Hx. apply in_concat in Hx as (g & Hg & Hx). apply in_map_iff in Hg as (l & <- & Hl).
      pose proof (Hz l Hl) as K. rewrite Forall_forall in K. auto.
  Qed.
  Lemma near_bgss : Rabs (bgss d (map f ls) / nsamp (map f ls) - bgss d (map f' ls) / nsamp (map f ls)) <= level.
  Proof.
    apply over_N. unfold bgss. rewrite !map_map. apply rsum_close. intros l Hl. rewrite <- near_length, <- Rmult_minus_distr_l, Rabs_mult, Rabs_right by (apply Rle_ge, pos_INR).
    apply Rmult_le_compat_l; [apply pos_INR|]. exact (near_dist2 _ _ (near_ctr l Hl) near_centre).
  Qed.
  Lemma near_beta : Rabs (PS_beta d (map f ls) - PS_beta d (map f' ls)) <= level.
  Proof.
    unfold PS_beta, nclus. rewrite !map_map, !map_length. set (zs := map (fun l => (centroid d (f l), centroid d (f' l))) ls).
    assert (Z1 : zs <> []) by (intros E; apply map_eq_nil in E; now apply ls_ne).
    assert (Z2 : Forall nearp zs). { apply Forall_forall. intros x Hx. apply in_map_iff in Hx as (l & <- & Hl). now apply near_ctr. }
    pose proof (near_mean zs _ Z1 Z2 (near_centroid zs Z1 Z2)) as K. unfold zs in K. cbn [fst snd] in K. rewrite !map_map, !map_length in K. cbn [fst snd] in K. exact K.
  Qed.

  Definition mind (g : list (list point)) : R := rmin (map (fun p => cdist d (fst p) (snd p)) (pairs g)).
  Definition maxm (g : list (list point)) : R := rmax (map (mse d) g).
  Lemma prs_ne : pairs ls <> [].
  Proof. now apply pairs_ne. Qed.
  Lemma near_mind : Rabs (mind (map f ls) - mind (map f' ls)) <= level.
  Proof.
    unfold mind. rewrite !pairs_map, !map_map. cbn [fst snd]. apply rmin_close; [apply prs_ne|]. intros [l m] H. apply pairs_In in H as [H1 H2]. now apply near_cdist.
  Qed.
  Lemma near_maxm : Rabs (maxm (map f ls) - maxm (map f' ls)) <= level.
  Proof.
    unfold maxm. rewrite !map_map. replace level with (level + 0 * rmax (map (fun l => mse d (f l)) ls)) by ring.
    apply rmax_close; [apply level_nonneg|lra|apply ls_ne|]. intros l Hl. rewrite Rmult_0_l, Rplus_0_r. now apply near_mse.
  Qed.
  Lemma near_pooled l m : In l ls -> In m ls ->
    Rabs ((scatter d (f l) + scatter d (f m)) / (INR (length (f l)) + INR (length (f m))) -
          (scatter d (f' l) + scatter d (f' m)) / (INR (length (f' l)) + INR (length (f' m)))) <= level.
  Proof.
    intros Hl Hm. rewrite <- !near_length. pose proof (f_pos l Hl) as P. pose proof (f_pos m Hm) as Q.
    pose proof (near_scatter l Hl) as A. pose proof (near_scatter m Hm) as B. apply abs_le in A. apply abs_le in B.
    set (N := INR (length (f l)) + INR (length (f m))) in *. assert (0 < N) by (unfold N; lra).
    unfold Rdiv. rewrite <- Rmult_minus_distr_r, Rabs_mult, (Rabs_right (/ _)) by (apply Rle_ge, Rlt_le, Rinv_0_lt_compat; auto).
    apply (Rmult_le_reg_r N); auto. rewrite Rmult_assoc, Rinv_l, Rmult_1_r by lra. apply abs_le. unfold N. rewrite Rmult_plus_distr_l, !(Rmult_comm level). lra.
  Qed.
  Definition minp (g : list (list point)) : R := rmin (map (fun p => (scatter d (fst p) + scatter d (snd p)) / (INR (length (fst p)) + INR (length (snd p)))) (pairs g)).
  Lemma near_minp : Rabs (minp (map f ls) - minp (map f' ls)) <= level.
  Proof.
    unfold minp. rewrite !pairs_map, !map_map. cbn [fst snd]. apply rmin_close; [apply prs_ne|]. intros [l m] H. apply pairs_In in H as [H1 H2]. now apply near_pooled.
  Qed.

  (** ** The values *)
  Lemma pert_XB : let D := mind (map f ls) in 0 < D -> 2 * level <= D ->
    0 < mind (map f' ls) /\ Rabs (XB_formula d (map f ls) - XB_formula d (map f' ls)) <= 2 * level / D * (1 + XB_formula d (map f ls)).
  Proof.
    intros D HD H2. pose proof nsamp_pos as P. destruct (quot_close _ _ _ _ _ _ near_wgss near_mind HD H2) as [H0 H1]. split; auto.
    assert (E1 : wgss d (map f ls) / nsamp (map f ls) / D = XB_formula d (map f ls)) by (unfold XB_formula; fold (mind (map f ls)); fold D; field; lra).
    assert (E2 : wgss d (map f' ls) / nsamp (map f ls) / mind (map f' ls) = XB_formula d (map f' ls)).
    { unfold XB_formula. fold (mind (map f' ls)). rewrite nsamp_same. field. lra. }
    fold D in H1. rewrite E1, E2 in H1. assert (X0 : 0 <= XB_formula d (map f ls)).
    { rewrite <- E1. pose proof (wgss_nonneg d (map f ls)). unfold Rdiv. repeat apply Rmult_le_pos; auto; apply Rlt_le, Rinv_0_lt_compat; auto. }
    rewrite (Rabs_right (XB_formula d (map f ls))) in H1 by lra. eapply Rle_trans; [exact H1|]. right. field. lra.
  Qed.
  Lemma nn_quot a b : 0 <= a -> 0 < b -> 0 <= a / b.
  Proof. intros H K. unfold Rdiv. apply Rmult_le_pos; auto. now apply Rlt_le, Rinv_0_lt_compat. Qed.
  (** the quotient of two sums of squares *)
  Lemma pert_ratio A A' B B' : 0 <= A ->
    Rabs (A / nsamp (map f ls) - A' / nsamp (map f ls)) <= level -> Rabs (B / nsamp (map f ls) - B' / nsamp (map f ls)) <= level ->
    0 < B / nsamp (map f ls) -> 2 * level <= B / nsamp (map f ls) ->
    0 < B' /\ Rabs (A / B - A' / B') <= 2 * level / (B / nsamp (map f ls)) * (1 + A / B).
  Proof.
    intros HA H H' HB H2. pose proof nsamp_pos as P. destruct (quot_close _ _ _ _ _ _ H H' HB H2) as [H0 H1].
    assert (W1 : forall x, 0 < x / nsamp (map f ls) -> 0 < x).
    { intros x Hx. apply (Rmult_lt_reg_r (/ nsamp (map f ls))); [now apply Rinv_0_lt_compat|]. now rewrite Rmult_0_l. }
    apply W1 in H0. apply W1 in HB. split; auto.
    replace (A / nsamp (map f ls) / (B / nsamp (map f ls))) with (A / B) in H1 by (field; lra).
    replace (A' / nsamp (map f ls) / (B' / nsamp (map f ls))) with (A' / B') in H1 by (field; lra).
    rewrite (Rabs_right (A / B)) in H1 by (apply Rle_ge, nn_quot; auto). eapply Rle_trans; [exact H1|]. right. field. lra.
  Qed.
  Lemma pert_BW : let w := wgss d (map f ls) / nsamp (map f ls) in 0 < w -> 2 * level <= w ->
    0 < wgss d (map f' ls) /\ Rabs (bgss d (map f ls) / wgss d (map f ls) - bgss d (map f' ls) / wgss d (map f' ls)) <= 2 * level / w * (1 + bgss d (map f ls) / wgss d (map f ls)).
  Proof. intros w. apply pert_ratio; auto using near_bgss, near_wgss, bgss_nonneg. Qed.
  Lemma pert_WB : let b := bgss d (map f ls) / nsamp (map f ls) in 0 < b -> 2 * level <= b ->
    0 < bgss d (map f' ls) /\ Rabs (wgss d (map f ls) / bgss d (map f ls) - wgss d (map f' ls) / bgss d (map f' ls)) <= 2 * level / b * (1 + wgss d (map f ls) / bgss d (map f ls)).
  Proof. intros w. apply pert_ratio; auto using near_bgss, near_wgss, wgss_nonneg. Qed.
  Lemma maxm_nn g : 0 <= maxm g.
  Proof. apply rmax_nonneg, Forall_forall. intros x Hx. apply in_map_iff in Hx as (y & <- & _). apply mse_nonneg. Qed.
  Lemma mind_nn g : 0 <= mind g.
  Proof. apply rmin_nonneg, Forall_forall. intros x Hx. apply in_map_iff in Hx as (y & <- & _). apply cdist_nonneg. Qed.
  Lemma minp_nn g : 0 <= minp g.
  Proof.
    apply rmin_nonneg, Forall_forall. intros x Hx. apply in_map_iff in Hx as (y & <- & _). pose proof (scatter_nonneg d (fst y)). pose proof (scatter_nonneg d (snd y)).
    pose proof (pos_INR (length (fst y))). pose proof (pos_INR (length (snd y))).
    destruct (Req_dec (INR (length (fst y)) + INR (length (snd y))) 0) as [->|].
    - unfold Rdiv. rewrite Rinv_0. lra.
    - apply nn_quot; lra.
  Qed.
  Lemma pert_GD53 : let m := maxm (map f ls) in 0 < m -> 2 * level <= m ->
    0 < maxm (map f' ls) /\ Rabs (GD53_formula d (map f ls) - GD53_formula d (map f' ls)) <= level / m * (1 + 2 * GD53_formula d (map f ls)).
  Proof.
    intros m Hm H2. destruct (quot_close _ _ _ _ _ _ near_minp near_maxm Hm H2) as [H0 H1]. split; auto. fold m in H1.
    assert (E1 : forall g, 0 < maxm g -> GD53_formula d g = / 2 * (minp g / maxm g)). { intros g Hg. unfold GD53_formula. fold (maxm g) (minp g). field. lra. }
    rewrite !E1 by auto. rewrite <- Rmult_minus_distr_l, Rabs_mult, Rabs_right by lra. fold m.
    rewrite (Rabs_right (minp (map f ls) / m)) in H1 by (apply Rle_ge, nn_quot; auto using minp_nn).
    eapply Rle_trans; [apply Rmult_le_compat_l; [lra|exact H1]|]. right. field. lra.
  Qed.
  Lemma rmin_sqrt' {Y} (r : Y -> R) xs : xs <> [] -> rmin (map (fun x => sqrt (r x)) xs) = sqrt (rmin (map r xs)).
  Proof.
    intros Hx. apply rmin_unique.
    - destruct (proj1 (in_map_iff r xs (rmin (map r xs)))) as (x & E & Hin); [apply rmin_In; destruct xs; [congruence|discriminate]|].
      apply in_map_iff. exists x. now rewrite E.
    - intros y Hy. apply in_map_iff in Hy as (x & <- & Hin). apply sqrt_le_1_alt. now apply rmin_le, in_map.
  Qed.
  Lemma pert_GD43 : let D := mind (map f ls) in let m := maxm (map f ls) in 0 < D -> 2 * level <= D -> 0 < m -> 2 * level <= m ->
    0 < maxm (map f' ls) /\ Rabs (GD43_formula d (map f ls) - GD43_formula d (map f' ls)) <= 2 * (level / D + level / m) * GD43_formula d (map f ls).
  Proof.
    intros D m HD HD2 Hm H2. assert (S1 : Rabs (sqrt D - sqrt (mind (map f' ls))) <= level / sqrt D) by (apply sqrt_close; auto using mind_nn, near_mind).
    destruct (quot_close _ _ _ _ _ _ S1 near_maxm Hm H2) as [H0 H1]. split; auto. fold m in H1. pose proof (sqrt_lt_R0 D HD) as SD.
    assert (E1 : forall g, (2 <= length g)%nat -> 0 < maxm g -> GD43_formula d g = / 2 * (sqrt (mind g) / maxm g)).
    { intros g Hl Hg. unfold GD43_formula. fold (maxm g). rewrite (rmin_sqrt' (fun p => cdist d (fst p) (snd p))); [fold (mind g); field; lra|now apply pairs_ne]. }
    rewrite !E1 by (rewrite ?map_length; auto). rewrite <- Rmult_minus_distr_l, Rabs_mult, (Rabs_right (/ 2)) by lra. fold m D.
    rewrite (Rabs_right (sqrt D / m)) in H1 by (apply Rle_ge, nn_quot; lra).
    eapply Rle_trans; [apply Rmult_le_compat_l; [lra|exact H1]|]. right.
    replace (2 * (level / D + level / m) * (/ 2 * (sqrt D / m))) with (level / (sqrt D * sqrt D) * sqrt D / m + level / m * (sqrt D / m)) by (rewrite sqrt_sqrt by lra; field; lra).
    field. lra.
  Qed.
  Lemma sel_In l r : In (l, r) (selects ls) -> In l ls /\ r <> [] /\ forall m, In m r -> In m ls.
  Proof.
    intros H. pose proof (selects_In _ _ _ H) as P. pose proof (selects_ne _ _ _ Hls H). repeat split; auto.
    - apply (Permutation_in _ (Permutation_sym P)). now left.
    - intros m Hm. apply (Permutation_in _ (Permutation_sym P)). now right.
  Qed.
  Lemma mind_le l r m : In (l, r) (selects ls) -> In m r -> mind (map f ls) <= cdist d (f l) (f m).
  Proof.
    intros H Hm. unfold mind. rewrite pairs_map, map_map. cbn [fst snd].
    destruct (selects_pairs _ _ _ _ H Hm) as [K|K].
    - apply rmin_le. apply in_map_iff. exists (l, m). auto.
    - rewrite cdist_sym. apply rmin_le. apply in_map_iff. exists (m, l). auto.
  Qed.
  Lemma nclus_pos : 0 < nclus (map f ls).
  Proof. unfold nclus. rewrite map_length. apply INR_pos, ls_ne. Qed.
  Lemma nclus_same : nclus (map f' ls) = nclus (map f ls).
  Proof. unfold nclus. now rewrite !map_length. Qed.
  Lemma pert_DB : let D := mind (map f ls) in 0 < D -> 2 * level <= D ->
    Rabs (DB_formula d (map f ls) - DB_formula d (map f' ls)) <= 2 * level / D * (2 + DB_formula d (map f ls)).
  Proof.
    intros D HD H2. pose proof nclus_pos as P. unfold DB_formula. rewrite nclus_same, !selects_map, !map_map. cbn [fst snd].
    set (F := fun p : X * list X => rmax (map (fun h => (mse d (f (fst p)) + mse d h) / cdist d (f (fst p)) h) (map f (snd p)))).
    set (F' := fun p : X * list X => rmax (map (fun h => (mse d (f' (fst p)) + mse d h) / cdist d (f' (fst p)) h) (map f' (snd p)))).
    pose proof level_nonneg as LN. assert (LD : 0 <= level / D) by (apply nn_quot; auto).
    assert (K : forall p, In p (selects ls) -> Rabs (F p - F' p) <= 4 * (level / D) + 2 * (level / D) * F p).
    { intros [l r] Hp. destruct (sel_In _ _ Hp) as (Hl & Hr & Hm). unfold F, F'. cbn [fst snd]. rewrite !map_map. apply rmax_close; auto; try lra.
      intros m Hin. pose proof (Hm m Hin) as Hml. pose proof (mind_le _ _ _ Hp Hin) as Hle. fold D in Hle.
      pose proof (near_cdist l m Hl Hml) as A. pose proof (near_mse l Hl) as B1. pose proof (near_mse m Hml) as B2. apply abs_le in B1. apply abs_le in B2.
      assert (B : Rabs ((mse d (f l) + mse d (f m)) - (mse d (f' l) + mse d (f' m))) <= 2 * level) by (apply abs_le; lra).
      destruct (quot_close _ _ _ _ _ _ B A ltac:(lra) ltac:(lra)) as [_ Q].
      pose proof (mse_nonneg d (f l)). pose proof (mse_nonneg d (f m)).
      set (r0 := (mse d (f l) + mse d (f m)) / cdist d (f l) (f m)) in *.
      assert (R0 : 0 <= r0) by (apply nn_quot; lra). rewrite (Rabs_right r0) in Q by lra. eapply Rle_trans; [exact Q|].
      replace (4 * (level / D) + 2 * (level / D) * r0) with (2 / D * (2 * level + r0 * level)) by (field; lra).
      apply Rmult_le_compat_r; [pose proof (Rmult_le_pos _ _ R0 LN); lra|]. unfold Rdiv. apply Rmult_le_compat_l; [lra|]. apply Rinv_le_contravar; lra. }
    assert (Q := rsum_close F F' (fun p => 4 * (level / D) + 2 * (level / D) * F p) _ K).
    rewrite rsum_map_plus, (rsum_map_scal (2 * (level / D)) F), rsum_const, selects_length in Q.
    assert (EK : INR (length ls) = nclus (map f ls)) by (unfold nclus; now rewrite map_length). rewrite EK in Q. set (k := nclus (map f ls)) in *.
    set (a := rsum (map F (selects ls))) in *. set (a' := rsum (map F' (selects ls))) in *. change (Rabs (a / k - a' / k) <= 2 * level / D * (2 + a / k)).
    unfold Rdiv. rewrite <- Rmult_minus_distr_r, Rabs_mult, (Rabs_right (/ k)) by (apply Rle_ge, Rlt_le, Rinv_0_lt_compat, P).
    apply (Rmult_le_reg_r k); auto. rewrite Rmult_assoc, Rinv_l, Rmult_1_r by lra. eapply Rle_trans; [exact Q|]. right. field. lra.
  Qed.
  Lemma neg_div x y : - x / y = - (x / y).
  Proof. unfold Rdiv. ring. Qed.
  (** [sep]: the smallest squared distance of the centroid of a group to the others, over beta *)
  Definition rel_dist (g : list (list point)) : list R := map (fun p => rmin (map (cdist d (fst p)) (snd p)) / PS_beta d g) (selects g).
  Lemma pert_PS : let b := PS_beta d (map f ls) in 0 < b -> 2 * level <= b ->
    0 < PS_beta d (map f' ls) /\
    Rabs (PS_formula d (map f ls) - PS_formula d (map f' ls)) <= 2 * level / b * (nclus (map f ls) + rsum (rel_dist (map f ls))).
  Proof.
    intros b Hb H2. pose proof (quot_close 0 0 _ _ 0 _ ltac:(rewrite Rminus_0_r, Rabs_R0; lra) near_beta Hb H2) as [B1 _]. split; auto.
    unfold PS_formula, rel_dist. rewrite !selects_map, !map_map. cbn [fst snd]. fold b.
    assert (EK : nclus (map f ls) = INR (length (selects ls))) by (unfold nclus; now rewrite map_length, selects_length). rewrite EK.
    rewrite (map_ext (fun x => INR (length (f' x))) (fun x => INR (length (f x)))) by (intros; now rewrite near_length).
    set (u := fun p : X * list X => rmin (map (cdist d (f (fst p))) (map f (snd p))) / b).
    eapply Rle_trans; [apply rsum_close with (b := fun p => 2 * level / b * (1 + u p))|].
    - intros [l r] Hp. destruct (sel_In _ _ Hp) as (Hl & Hr & Hm). cbn [fst snd]. rewrite <- near_length.
      set (z := INR (length (f l)) / _). set (A := rmin (map (cdist d (f l)) (map f r))). set (A' := rmin (map (cdist d (f' l)) (map f' r))).
      assert (AA : Rabs (A - A') <= level). { unfold A, A'. rewrite !map_map. apply rmin_close; auto. intros m Hin. apply near_cdist; auto. }
      assert (nnA : forall g hs, 0 <= rmin (map (cdist d g) hs)). { intros g hs. apply rmin_nonneg, Forall_forall. intros x Hx. apply in_map_iff in Hx as (y & <- & _). apply cdist_nonneg. }
      destruct (quot_close _ _ _ _ _ _ AA near_beta Hb H2) as [_ Q]. fold b in Q.
      assert (U0 : 0 <= A / b) by (apply nn_quot; auto; apply nnA). assert (U1 : 0 <= A' / PS_beta d (map f' ls)) by (apply nn_quot; auto; apply nnA).
      rewrite (Rabs_right (A / b)) in Q by lra. change (u (l, r)) with (A / b).
      pose proof (exp_close _ _ U0 U1) as E. rewrite !neg_div.
      replace (z - exp (- (A / b)) - (z - exp (- (A' / PS_beta d (map f' ls))))) with (- (exp (- (A / b)) - exp (- (A' / PS_beta d (map f' ls))))) by ring.
      rewrite Rabs_Ropp. eapply Rle_trans; [exact E|]. eapply Rle_trans; [exact Q|]. right. field. lra.
    - right. rewrite rsum_map_scal, rsum_map_plus, rsum_const. f_equal. f_equal. ring.
  Qed.
  (** the smallest over the groups of the larger of the two numbers the silhouette of a group divides by *)
  Definition sil_den (g : list (list point)) : R := rmin (map (fun p => Rmax (mdist d (fst p) (fst p)) (rmin (map (mdist d (fst p)) (snd p)))) (selects g)).
  Lemma pert_cSIL : let m := sil_den (map f ls) in 0 < m -> 2 * level <= m ->
    0 < sil_den (map f' ls) /\ Rabs (cSIL_formula d (map f ls) - cSIL_formula d (map f' ls)) <= 6 * level / m.
  Proof.
    intros m Hm H2. pose proof nclus_pos as P. pose proof level_nonneg as LN.
    assert (SN : selects ls <> []). { intros E. apply (f_equal (@length _)) in E. rewrite selects_length in E. cbn in E. lia. }
    set (a := fun p : X * list X => mdist d (f (fst p)) (f (fst p))). set (b := fun p : X * list X => rmin (map (mdist d (f (fst p))) (map f (snd p)))).
    set (a' := fun p : X * list X => mdist d (f' (fst p)) (f' (fst p))). set (b' := fun p : X * list X => rmin (map (mdist d (f' (fst p))) (map f' (snd p)))).
    assert (KA : forall p, In p (selects ls) -> Rabs (a p - a' p) <= level). { intros [l r] Hp. destruct (sel_In _ _ Hp) as (Hl & Hr & Hi). unfold a, a'. cbn [fst]. exact (near_mdist l l Hl Hl). }
    assert (KB : forall p, In p (selects ls) -> Rabs (b p - b' p) <= level).
    { intros [l r] Hp. destruct (sel_In _ _ Hp) as (Hl & Hr & Hi). unfold b, b'. cbn [fst snd]. rewrite !map_map. apply rmin_close; auto. intros x Hx. apply near_mdist; auto. }
    assert (KM : forall p, In p (selects ls) -> Rabs (Rmax (a p) (b p) - Rmax (a' p) (b' p)) <= level) by (intros p Hp; apply max_close; auto).
    assert (ES : sil_den (map f ls) = rmin (map (fun p => Rmax (a p) (b p)) (selects ls))) by (unfold sil_den; now rewrite selects_map, map_map).
    assert (ES' : sil_den (map f' ls) = rmin (map (fun p => Rmax (a' p) (b' p)) (selects ls))) by (unfold sil_den; now rewrite selects_map, map_map).
    assert (SL : forall p, In p (selects ls) -> m <= Rmax (a p) (b p)). { intros p Hp. unfold m. rewrite ES. apply rmin_le. apply in_map_iff. eauto. }
    split.
    - pose proof (rmin_close _ _ level _ SN KM) as Q. rewrite <- ES, <- ES' in Q. fold m in Q. apply abs_le in Q. lra.
    - unfold cSIL_formula. rewrite nclus_same, !selects_map, !map_map. cbn [fst snd].
      assert (nnm : forall g h, 0 <= mdist d g h).
      { intros g h. unfold mdist. destruct h as [|x h]; [cbn; unfold Rdiv; lra|]. apply nn_quot; [|apply INR_pos; discriminate].
        apply rsum_map_nonneg. intros; apply dist2_nonneg. }
      pose proof (mean_close (fun p => (b p - a p) / Rmax (a p) (b p)) (fun p => (b' p - a' p) / Rmax (a' p) (b' p)) (6 * level / m) (selects ls) SN) as Q.
      rewrite selects_length in Q. unfold nclus. rewrite map_length. apply Q. intros p Hp.
      pose proof (KA p Hp) as A. pose proof (KB p Hp) as B. pose proof (KM p Hp) as C. pose proof (SL p Hp) as L0. apply abs_le in A. apply abs_le in B.
      assert (AB : Rabs ((b p - a p) - (b' p - a' p)) <= 2 * level) by (apply abs_le; lra).
      destruct (quot_close _ _ _ _ _ _ AB C ltac:(lra) ltac:(lra)) as [_ K].
      assert (A0 : 0 <= a p) by exact (nnm _ _). assert (B0 : 0 <= b p). { apply rmin_nonneg, Forall_forall. intros x Hx. apply in_map_iff in Hx as (y & <- & _). apply nnm. }
      assert (V : Rabs ((b p - a p) / Rmax (a p) (b p)) <= 1).
      { unfold Rdiv. rewrite Rabs_mult, (Rabs_right (/ _)) by (apply Rle_ge, Rlt_le, Rinv_0_lt_compat; lra).
        apply (Rmult_le_reg_r (Rmax (a p) (b p))); [lra|]. rewrite Rmult_assoc, Rinv_l, Rmult_1_r, Rmult_1_l by lra. apply abs_le.
        pose proof (Rmax_l (a p) (b p)). pose proof (Rmax_r (a p) (b p)). lra. }
      eapply Rle_trans; [exact K|]. apply Rle_trans with (2 / Rmax (a p) (b p) * (3 * level)).
      + apply Rmult_le_compat_l; [apply nn_quot; lra|]. pose proof (Rmult_le_compat_r level _ _ LN V) as V'. rewrite Rmult_1_l in V'. lra.
      + replace (6 * level / m) with (2 / m * (3 * level)) by (field; lra). apply Rmult_le_compat_r; [lra|]. unfold Rdiv. apply Rmult_le_compat_l; [lra|]. apply Rinv_le_contravar; lra.
  Qed.
End Near.
