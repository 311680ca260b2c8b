(** * The values of the specification do not depend on the order of the clusters
    nor on the order of the samples within a cluster. *)
From Coq Require Import ZArith List Arith Bool Lia Permutation.
From Verif Require Import GetCvi.
From Coq Require Import Reals Lra.
From Verif Require Import Det Spec XR SpecX RGeom XLift XEval XCov.
Import ListNotations.
Local Open Scope R_scope.

(** ** Order of the clusters *)
Lemma wgss_perm d gs gs' : Permutation gs gs' -> wgss d gs = wgss d gs'.
Proof. intros H. now apply rsum_perm, Permutation_map. Qed.
Lemma concat_perm {X} (a b : list (list X)) : Permutation a b -> Permutation (concat a) (concat b).
Proof.
  induction 1; simpl; auto.
  - now apply Permutation_app_head.
  - rewrite !app_assoc. apply Permutation_app_tail, Permutation_app_comm.
  - etransitivity; eauto.
Qed.
Lemma bgss_perm d gs gs' : Permutation gs gs' -> bgss d gs = bgss d gs'.
Proof.
  intros H. unfold bgss. rewrite (centroid_perm d _ _ (concat_perm _ _ H)). now apply rsum_perm, Permutation_map.
Qed.
Lemma tss_perm d gs gs' : Permutation gs gs' -> tss d gs = tss d gs'.
Proof. intros H. now apply scatter_perm, concat_perm. Qed.
Lemma nclus_perm gs gs' : Permutation gs gs' -> nclus gs = nclus gs'.
Proof. intros H. unfold nclus. now rewrite (Permutation_length H). Qed.
Lemma nsamp_perm gs gs' : Permutation gs gs' -> nsamp gs = nsamp gs'.
Proof. intros H. unfold nsamp. now rewrite (Permutation_length (concat_perm _ _ H)). Qed.
Lemma maxmse_perm d gs gs' : Permutation gs gs' -> rmax (map (mse d) gs) = rmax (map (mse d) gs').
Proof. intros H. now apply rmax_perm, Permutation_map. Qed.
Lemma beta_perm d gs gs' : Permutation gs gs' -> PS_beta d gs = PS_beta d gs'.
Proof.
  intros H. unfold PS_beta. rewrite (nclus_perm _ _ H). f_equal.
  rewrite (centroid_perm d _ _ (Permutation_map (centroid d) H)). now apply rsum_perm, Permutation_map.
Qed.
Lemma rmin_pairs_perm (f : list point -> list point -> R) gs gs' : (forall g h, f g h = f h g) -> Permutation gs gs' ->
  rmin (map (fun p => f (fst p) (snd p)) (pairs gs)) = rmin (map (fun p => f (fst p) (snd p)) (pairs gs')).
Proof. intros Hf H. apply rmin_perm, pairs_perm; auto. Qed.

Lemma XVal_perm c d gs gs' : Permutation gs gs' -> XVal c d gs = XVal c d gs'.
Proof.
  intros H. unfold XVal. rewrite (Permutation_length H). destruct (_ <=? _)%nat; auto. destruct c.
  - unfold CH_ext. now rewrite (bgss_perm d _ _ H), (wgss_perm d _ _ H), (nclus_perm _ _ H), (nsamp_perm _ _ H).
  - unfold WB_ext. now rewrite (bgss_perm d _ _ H), (wgss_perm d _ _ H), (nclus_perm _ _ H).
  - unfold DB_ext. rewrite (nclus_perm _ _ H). f_equal. apply xsum_perm.
    apply (selects_perm (fun x r => xmaxl (map (fun h => xdiv (Fin (mse d x + mse d h)) (Fin (cdist d x h))) r))); auto.
    intros x r r' Hr. now apply xmaxl_perm, Permutation_map.
  - unfold XB_ext. rewrite (wgss_perm d _ _ H), (nsamp_perm _ _ H).
    rewrite (rmin_pairs_perm (cdist d) _ _ (cdist_sym d) H). reflexivity.
  - unfold GD43_ext. rewrite (maxmse_perm d _ _ H).
    rewrite (rmin_pairs_perm (fun g h => sqrt (cdist d g h)) gs gs'); auto. intros; now rewrite cdist_sym.
  - unfold GD53_ext. rewrite (maxmse_perm d _ _ H).
    rewrite (rmin_pairs_perm (pooled d) gs gs'); auto. intros; unfold pooled. now rewrite Rplus_comm, (Rplus_comm (INR _)).
  - unfold PS_ext. rewrite (beta_perm d _ _ H). destruct (Req_EM_T _ _); auto. f_equal. unfold PS_formula.
    rewrite (beta_perm d _ _ H), (rmax_perm _ _ (Permutation_map (fun g => INR (length g)) H)). apply rsum_perm.
    apply (selects_perm (fun x r => INR (length x) / rmax (map (fun g => INR (length g)) gs')
                      - exp (- rmin (map (cdist d x) r) / PS_beta d gs'))); auto.
    intros x r r' Hr. now rewrite (rmin_perm _ _ (Permutation_map (cdist d x) Hr)).
  - unfold rCIP_ext, rCIP_formula. f_equal. apply rsum_perm, pairs_perm; auto. intros. apply potential_sym.
  - unfold cSIL_ext. rewrite (tss_perm d _ _ H), (nclus_perm _ _ H). destruct (Req_EM_T _ _); auto. f_equal. apply xsum_perm.
    apply (selects_perm (fun x r => let a := mdist d x x in let b := rmin (map (mdist d x) r) in
                                   xdiv (Fin (b - a)) (Fin (Rmax a b)))); auto.
    intros x r r' Hr. now rewrite (rmin_perm _ _ (Permutation_map (mdist d x) Hr)).
Qed.

(** ** Order of the samples within the clusters *)
Section F2.
  Context {X : Type} (Q : X -> X -> Prop).
  Lemma map_F2 {Y} (f : X -> Y) a b : (forall x y, Q x y -> f x = f y) -> Forall2 Q a b -> map f a = map f b.
  Proof. intros Hf. induction 1; simpl; auto. f_equal; auto. Qed.
  Lemma map_F2' {Y} (f f' : X -> Y) a b : (forall x y, Q x y -> f x = f' y) -> Forall2 Q a b -> map f a = map f' b.
  Proof. intros Hf. induction 1; simpl; auto. f_equal; auto. Qed.
  Lemma pairs_F2 {Y} (f : X -> X -> Y) a b : (forall x y x' y', Q x x' -> Q y y' -> f x y = f x' y') -> Forall2 Q a b ->
    map (fun p => f (fst p) (snd p)) (pairs a) = map (fun p => f (fst p) (snd p)) (pairs b).
  Proof.
    intros Hf. induction 1 as [|x y a b Hxy H IH]; auto. cbn [pairs]. rewrite !map_app, !map_map. cbn [fst snd].
    f_equal; auto. clear IH. induction H; simpl; auto. f_equal; auto.
  Qed.
  Lemma selects_F2 {Y} (f f' : X -> list X -> Y) a b :
    (forall x y r r', Q x y -> Forall2 Q r r' -> f x r = f' y r') -> Forall2 Q a b ->
    map (fun p => f (fst p) (snd p)) (selects a) = map (fun p => f' (fst p) (snd p)) (selects b).
  Proof.
    intros Hf H. revert f f' Hf. induction H as [|x y a b Hxy H IH]; intros f f' Hf; auto.
    cbn [selects map fst snd]. rewrite !map_map. cbn [fst snd]. f_equal; auto.
    apply (IH (fun z r => f z (x :: r)) (fun z r => f' z (y :: r))). intros; apply Hf; auto.
  Qed.
End F2.

Lemma mse_perm d g h : Permutation g h -> mse d g = mse d h.
Proof. intros H. unfold mse. now rewrite (scatter_perm d _ _ H), (Permutation_length H). Qed.
Lemma cdist_perm d g h g' h' : Permutation g g' -> Permutation h h' -> cdist d g h = cdist d g' h'.
Proof. intros H K. unfold cdist. now rewrite (centroid_perm d _ _ H), (centroid_perm d _ _ K). Qed.
Lemma mdist_perm d g h g' h' : Permutation g g' -> Permutation h h' -> mdist d g h = mdist d g' h'.
Proof.
  intros H K. unfold mdist. rewrite (centroid_perm d _ _ H), (Permutation_length K). f_equal.
  now apply rsum_perm, Permutation_map.
Qed.
Lemma regcov_perm d g h i j : Permutation g h -> regcov d g i j = regcov d h i j.
Proof.
  intros H. unfold regcov, covar. rewrite (Permutation_length H), (centroid_perm d _ _ H). f_equal.
  destruct (_ <=? _)%nat; auto. f_equal. now apply rsum_perm, Permutation_map.
Qed.
Lemma potential_perm d g h g' h' : Permutation g g' -> Permutation h h' -> potential d g h = potential d g' h'.
Proof.
  intros H K. assert (E : Qmat d g h = Qmat d g' h').
  { unfold Qmat. apply map_ext. intros i. apply map_ext. intros j.
    now rewrite (regcov_perm d g g' i j H), (regcov_perm d h h' i j K). }
  unfold potential, mahal. now rewrite E, (centroid_perm d _ _ H), (centroid_perm d _ _ K).
Qed.
Lemma pooled_perm d g h g' h' : Permutation g g' -> Permutation h h' -> pooled d g h = pooled d g' h'.
Proof.
  intros H K. unfold pooled. now rewrite (scatter_perm d _ _ H), (scatter_perm d _ _ K), (Permutation_length H), (Permutation_length K).
Qed.

Lemma concat_F2 (gs gs' : list (list point)) : Forall2 (@Permutation point) gs gs' -> Permutation (concat gs) (concat gs').
Proof. induction 1; simpl; auto. now apply Permutation_app. Qed.
Lemma F2_length {X Y} (Q : X -> Y -> Prop) a b : Forall2 Q a b -> length a = length b.
Proof. induction 1; simpl; auto. Qed.

Lemma XVal_F2 c d gs gs' : Forall2 (@Permutation point) gs gs' -> XVal c d gs = XVal c d gs'.
Proof.
  intros H. assert (L := F2_length _ _ _ H). assert (K := concat_F2 _ _ H).
  assert (En : nclus gs = nclus gs') by (unfold nclus; now rewrite L).
  assert (Es : nsamp gs = nsamp gs') by (unfold nsamp; now rewrite (Permutation_length K)).
  assert (Ew : wgss d gs = wgss d gs').
  { unfold wgss. f_equal. eapply map_F2; eauto. intros; now apply scatter_perm. }
  assert (Eb : bgss d gs = bgss d gs').
  { unfold bgss. f_equal. rewrite (centroid_perm d _ _ K). eapply map_F2; eauto. cbv beta. intros x y P.
    now rewrite (Permutation_length P), (centroid_perm d _ _ P). }
  assert (Et : tss d gs = tss d gs') by now apply scatter_perm.
  assert (Em : map (mse d) gs = map (mse d) gs') by (eapply map_F2; eauto using mse_perm).
  assert (Ec : map (centroid d) gs = map (centroid d) gs') by (eapply map_F2; eauto using centroid_perm).
  assert (El : map (fun g : list point => INR (length g)) gs = map (fun g : list point => INR (length g)) gs').
  { eapply map_F2; eauto. cbv beta. intros x y P. now rewrite (Permutation_length P). }
  assert (Ebt : PS_beta d gs = PS_beta d gs').
  { unfold PS_beta. rewrite En, Ec. do 2 f_equal. eapply map_F2; eauto. cbv beta. intros x y P. now rewrite (centroid_perm d _ _ P). }
  unfold XVal. rewrite L. destruct (_ <=? _)%nat; auto. destruct c.
  - unfold CH_ext. now rewrite Eb, Ew, En, Es.
  - unfold WB_ext. now rewrite Eb, Ew, En.
  - unfold DB_ext. rewrite En. do 2 f_equal.
    apply (selects_F2 (@Permutation point) (fun x r => xmaxl (map (fun h => xdiv (Fin (mse d x + mse d h)) (Fin (cdist d x h))) r))
                                           (fun x r => xmaxl (map (fun h => xdiv (Fin (mse d x + mse d h)) (Fin (cdist d x h))) r))); auto.
    intros x y r r' P Q. f_equal. rewrite (mse_perm d _ _ P). eapply map_F2'; eauto. cbv beta. intros u w Z.
    now rewrite (mse_perm d _ _ Z), (cdist_perm d _ _ _ _ P Z).
  - unfold XB_ext. rewrite Ew, Es. do 4 f_equal. apply (pairs_F2 (@Permutation point) (cdist d)); auto using cdist_perm.
  - unfold GD43_ext. rewrite Em. do 3 f_equal. apply (pairs_F2 (@Permutation point) (fun g h => sqrt (cdist d g h))); auto.
    intros; f_equal; auto using cdist_perm.
  - unfold GD53_ext. rewrite Em. do 3 f_equal. apply (pairs_F2 (@Permutation point) (pooled d)); auto using pooled_perm.
  - unfold PS_ext. rewrite Ebt. destruct (Req_EM_T _ _); auto. f_equal. unfold PS_formula. rewrite Ebt, El. f_equal.
    apply (selects_F2 (@Permutation point) (fun x r => INR (length x) / rmax (map (fun g => INR (length g)) gs')
                      - exp (- rmin (map (cdist d x) r) / PS_beta d gs')) (fun x r => INR (length x) / rmax (map (fun g => INR (length g)) gs')
                      - exp (- rmin (map (cdist d x) r) / PS_beta d gs'))); auto.
    intros x y r r' P Q. rewrite (Permutation_length P).
    replace (map (cdist d y) r') with (map (cdist d x) r); auto. eapply map_F2'; eauto using cdist_perm.
  - unfold rCIP_ext, rCIP_formula. do 2 f_equal. apply (pairs_F2 (@Permutation point) (potential d)); auto using potential_perm.
  - unfold cSIL_ext. rewrite Et, En. destruct (Req_EM_T _ _); auto. do 2 f_equal.
    apply (selects_F2 (@Permutation point) (fun x r => let a := mdist d x x in let b := rmin (map (mdist d x) r) in
                                   xdiv (Fin (b - a)) (Fin (Rmax a b)))
                      (fun x r => let a := mdist d x x in let b := rmin (map (mdist d x) r) in
                                   xdiv (Fin (b - a)) (Fin (Rmax a b)))); auto.
    intros x y r r' P Q. cbv zeta. rewrite (mdist_perm d _ _ _ _ P P).
    replace (map (mdist d y) r') with (map (mdist d x) r); auto. eapply map_F2'; eauto using mdist_perm.
Qed.
