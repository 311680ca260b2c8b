(** * Plain facts about sums, centroids and scatters over the reals *)
From Coq Require Import ZArith Reals List Arith Bool Lra Lia Permutation.
From Verif Require Import Num Lists Det Spec.
Import ListNotations.
Local Open Scope R_scope.

(** ** Sums *)
Lemma rsum_app a b : rsum (a ++ b) = rsum a + rsum b.
Proof. induction a; simpl; [lra|]. unfold rsum in *. simpl. rewrite IHa. lra. Qed.
Lemma rsum_cons x l : rsum (x :: l) = x + rsum l.
Proof. reflexivity. Qed.
Lemma rsum_perm a b : Permutation a b -> rsum a = rsum b.
Proof. induction 1; rewrite ?rsum_cons in *; auto; try lra. Qed.
Lemma rsum_map_ext {X} (f g : X -> R) l : (forall x, In x l -> f x = g x) -> rsum (map f l) = rsum (map g l).
Proof. intros H. f_equal. now apply map_ext_in. Qed.
Lemma rsum_map_plus {X} (f g : X -> R) l : rsum (map (fun x => f x + g x) l) = rsum (map f l) + rsum (map g l).
Proof. induction l; [cbn; lra|]. cbn [map]. rewrite !rsum_cons, IHl. lra. Qed.
Lemma rsum_map_scal {X} c (f : X -> R) l : rsum (map (fun x => c * f x) l) = c * rsum (map f l).
Proof. induction l; [cbn; lra|]. cbn [map]. rewrite !rsum_cons, IHl. lra. Qed.
Lemma rsum_map_minus {X} (f g : X -> R) l : rsum (map (fun x => f x - g x) l) = rsum (map f l) - rsum (map g l).
Proof. induction l; [cbn; lra|]. cbn [map]. rewrite !rsum_cons, IHl. lra. Qed.
Lemma rsum_const {X} c (l : list X) : rsum (map (fun _ => c) l) = INR (length l) * c.
Proof.
  induction l as [|x l IH]; [cbn; lra|]. cbn [map length]. rewrite rsum_cons, IH, S_INR. lra.
Qed.
Lemma rsum_swap {X Y} (f : X -> Y -> R) (a : list X) (b : list Y) :
  rsum (map (fun x => rsum (map (f x) b)) a) = rsum (map (fun y => rsum (map (fun x => f x y) a)) b).
Proof.
  induction a as [|x a IH]; cbn [map].
  - rewrite rsum_const. cbn. lra.
  - rewrite rsum_cons, IH, <- rsum_map_plus. reflexivity.
Qed.
Lemma rsum_nonneg l : Forall (fun x => 0 <= x) l -> 0 <= rsum l.
Proof. induction 1; [cbn; lra|]. rewrite rsum_cons. lra. Qed.
Lemma rsum_map_nonneg {X} (f : X -> R) l : (forall x, In x l -> 0 <= f x) -> 0 <= rsum (map f l).
Proof. intros H. apply rsum_nonneg. apply Forall_map, Forall_forall. auto. Qed.
Lemma rsum_zero l : Forall (fun x => 0 <= x) l -> rsum l = 0 -> Forall (fun x => x = 0) l.
Proof.
  induction 1 as [|x l Hx Hl IH]; [constructor|]. rewrite rsum_cons. intros H.
  pose proof (rsum_nonneg l Hl). constructor; [lra|]. apply IH. lra.
Qed.
Lemma rsum_map_zero {X} (f : X -> R) l : (forall x, In x l -> 0 <= f x) -> rsum (map f l) = 0 ->
  forall x, In x l -> f x = 0.
Proof.
  intros H H0 x Hx. assert (HF : Forall (fun y => y = 0) (map f l)).
  { apply rsum_zero; auto. apply Forall_map, Forall_forall. auto. }
  rewrite Forall_map, Forall_forall in HF. auto.
Qed.
Lemma rsum_pos l : Forall (fun x => 0 < x) l -> l <> [] -> 0 < rsum l.
Proof.
  intros H Hl. destruct H as [|x l Hx H]; [congruence|]. rewrite rsum_cons.
  assert (0 <= rsum l) by (apply rsum_nonneg; eapply Forall_impl; [|exact H]; intros; simpl in *; lra). lra.
Qed.
Lemma rsum_map_le {X} (f g : X -> R) l : (forall x, In x l -> f x <= g x) -> rsum (map f l) <= rsum (map g l).
Proof.
  induction l as [|x l IH]; intros H; [cbn; lra|]. cbn [map]. rewrite !rsum_cons.
  pose proof (H x (or_introl eq_refl)). assert (rsum (map f l) <= rsum (map g l)) by (apply IH; intros; apply H; now right). lra.
Qed.
Lemma rsum_concat {X} (f : X -> R) (ll : list (list X)) :
  rsum (map f (concat ll)) = rsum (map (fun l => rsum (map f l)) ll).
Proof. induction ll as [|l ll IH]; auto. cbn [concat map]. now rewrite map_app, rsum_app, IH, rsum_cons. Qed.

(** ** Minima and maxima *)
Lemma rmin_le l x : In x l -> rmin l <= x.
Proof.
  destruct l as [|y l]; [intros []|]. cbn [rmin]. revert x. induction l as [|z l IH]; intros x H; simpl in *.
  - destruct H as [->|[]]. lra.
  - destruct H as [->|[->|H]].
    + eapply Rle_trans; [apply Rmin_r|]. apply IH. now left.
    + apply Rmin_l.
    + eapply Rle_trans; [apply Rmin_r|]. apply IH. now right.
Qed.
Lemma rmin_In l : l <> [] -> In (rmin l) l.
Proof.
  destruct l as [|y l]; [congruence|]. intros _. cbn [rmin]. induction l as [|z l IH]; simpl; auto.
  unfold Rmin. destruct (Rle_dec _ _); simpl in *; tauto.
Qed.
Lemma rmin_unique l x : In x l -> (forall y, In y l -> x <= y) -> rmin l = x.
Proof.
  intros Hx H. assert (l <> []) by (destruct l; [destruct Hx|discriminate]).
  apply Rle_antisym; [now apply rmin_le|]. apply H. now apply rmin_In.
Qed.
Lemma rmax_ge l x : In x l -> x <= rmax l.
Proof.
  destruct l as [|y l]; [intros []|]. cbn [rmax]. revert x. induction l as [|z l IH]; intros x H; simpl in *.
  - destruct H as [->|[]]. lra.
  - destruct H as [->|[->|H]].
    + eapply Rle_trans; [|apply Rmax_r]. apply IH. now left.
    + apply Rmax_l.
    + eapply Rle_trans; [|apply Rmax_r]. apply IH. now right.
Qed.
Lemma rmax_In l : l <> [] -> In (rmax l) l.
Proof.
  destruct l as [|y l]; [congruence|]. intros _. cbn [rmax]. induction l as [|z l IH]; simpl; auto.
  unfold Rmax. destruct (Rle_dec _ _); simpl in *; tauto.
Qed.
Lemma rmax_unique l x : In x l -> (forall y, In y l -> y <= x) -> rmax l = x.
Proof.
  intros Hx H. assert (l <> []) by (destruct l; [destruct Hx|discriminate]).
  apply Rle_antisym; [|now apply rmax_ge]. apply H. now apply rmax_In.
Qed.
Lemma rmin_perm a b : Permutation a b -> rmin a = rmin b.
Proof.
  intros H. destruct a as [|x a]; [apply Permutation_nil in H; now subst|].
  apply rmin_unique.
  - eapply Permutation_in; [symmetry; exact H|]. apply rmin_In. intros ->. symmetry in H. now apply Permutation_nil in H.
  - intros y Hy. apply rmin_le. eapply Permutation_in; eauto.
Qed.
Lemma rmax_perm a b : Permutation a b -> rmax a = rmax b.
Proof.
  intros H. destruct a as [|x a]; [apply Permutation_nil in H; now subst|].
  apply rmax_unique.
  - eapply Permutation_in; [symmetry; exact H|]. apply rmax_In. intros ->. symmetry in H. now apply Permutation_nil in H.
  - intros y Hy. apply rmax_ge. eapply Permutation_in; eauto.
Qed.
Lemma rmin_nonneg l : Forall (fun x => 0 <= x) l -> 0 <= rmin l.
Proof.
  intros H. destruct l as [|x l]; [cbn; lra|]. rewrite Forall_forall in H. apply H, rmin_In. discriminate.
Qed.
Lemma rmax_nonneg l : Forall (fun x => 0 <= x) l -> 0 <= rmax l.
Proof.
  intros H. destruct l as [|x l]; [cbn; lra|]. rewrite Forall_forall in H. apply H, rmax_In. discriminate.
Qed.
Lemma rmin_pos l : l <> [] -> (0 < rmin l <-> Forall (fun x => 0 < x) l).
Proof.
  intros Hl. rewrite Forall_forall. split.
  - intros H x Hx. pose proof (rmin_le l x Hx). lra.
  - intros H. apply H. now apply rmin_In.
Qed.
Lemma rmax_zero l : Forall (fun x => 0 <= x) l -> rmax l = 0 -> Forall (fun x => x = 0) l.
Proof.
  rewrite !Forall_forall. intros H H0 x Hx. pose proof (H x Hx). pose proof (rmax_ge l x Hx). lra.
Qed.

(** ** Pairs and selections *)
Lemma pairs_perm {X} (a b : list X) (f : X * X -> R) : (forall x y, f (x, y) = f (y, x)) ->
  Permutation a b -> Permutation (map f (pairs a)) (map f (pairs b)).
Proof.
  intros Hf. induction 1; cbn [pairs]; rewrite ?map_app; auto.
  - apply Permutation_app; auto. rewrite !map_map. now apply Permutation_map.
  - cbn [map app]. rewrite ?map_app. cbn [map app]. rewrite ?map_app, !map_map, (Hf y x). apply perm_skip.
    rewrite !app_assoc. apply Permutation_app_tail, Permutation_app_comm.
  - etransitivity; eauto.
Qed.
Lemma selects_perm {X Y} (f : X -> list X -> Y) (a b : list X) :
  (forall x r r', Permutation r r' -> f x r = f x r') -> Permutation a b ->
  Permutation (map (fun p => f (fst p) (snd p)) (selects a)) (map (fun p => f (fst p) (snd p)) (selects b)).
Proof.
  intros Hf H. revert f Hf. induction H as [|x a b Hab IH|x y a|a b c H1 IH1 H2 IH2]; intros f Hf.
  - constructor.
  - cbn [selects map fst snd]. rewrite (Hf x a b Hab). apply perm_skip. rewrite !map_map. cbn [fst snd].
    apply (IH (fun y r => f y (x :: r))). intros. apply Hf. now apply perm_skip.
  - cbn [selects map fst snd]. rewrite !map_map. cbn [fst snd].
    etransitivity; [apply perm_swap|]. do 2 apply perm_skip.
    match goal with |- Permutation ?u ?v => assert (E : u = v); [|now rewrite E] end.
    apply map_ext. intros [z r]. cbn [fst snd]. apply Hf. apply perm_swap.
  - etransitivity; [apply IH1|apply IH2]; auto.
Qed.
Lemma selects_In {X} (l : list X) x r : In (x, r) (selects l) -> Permutation l (x :: r).
Proof.
  revert x r; induction l as [|y l IH]; intros x r; [intros []|]. cbn [selects]. intros [H|H].
  - inversion H; auto.
  - apply in_map_iff in H as ([z q] & E & H). cbn [fst snd] in E. inversion E; subst.
    rewrite (IH _ _ H). apply perm_swap.
Qed.
Lemma pairs_In {X} (l : list X) x y : In (x, y) (pairs l) -> In x l /\ In y l.
Proof.
  induction l as [|z l IH]; [intros []|]. cbn [pairs]. rewrite in_app_iff, in_map_iff.
  intros [(w & E & H)|H]; [inversion E; subst; simpl; auto|]. destruct (IH H). simpl; auto.
Qed.
Lemma pairs_ne {X} (l : list X) : (2 <= length l)%nat -> pairs l <> [].
Proof. destruct l as [|x [|y l]]; simpl; intros; try lia. discriminate. Qed.
Lemma selects_length {X} (l : list X) : length (selects l) = length l.
Proof. induction l; simpl; auto. now rewrite map_length, IHl. Qed.
Lemma selects_ne {X} (l : list X) x r : (2 <= length l)%nat -> In (x, r) (selects l) -> r <> [].
Proof.
  intros Hl H. apply selects_In, Permutation_length in H. simpl in H. destruct r; simpl in *; [lia|discriminate].
Qed.
Lemma selects_fst {X} (l : list X) : map fst (selects l) = l.
Proof. induction l as [|x l IH]; auto. cbn [selects map fst]. f_equal. rewrite map_map. cbn [fst]. exact IH. Qed.
Lemma selects_map {X Y} (f : X -> Y) l : selects (map f l) = map (fun p => (f (fst p), map f (snd p))) (selects l).
Proof.
  induction l as [|x l IH]; auto. cbn [selects map fst snd]. f_equal. rewrite IH, !map_map. reflexivity.
Qed.
Lemma pairs_map {X Y} (f : X -> Y) l : pairs (map f l) = map (fun p => (f (fst p), f (snd p))) (pairs l).
Proof. induction l as [|x l IH]; auto. cbn [pairs map]. rewrite map_app, IH, !map_map. reflexivity. Qed.

(** ** Points *)
Definition co (j : nat) (x : point) : R := nth j x 0.
Lemma dist2_cons a x b y : dist2 (a :: x) (b :: y) = (a - b) * (a - b) + dist2 x y.
Proof. reflexivity. Qed.
Lemma dist2_coords d x y : length x = d -> length y = d ->
  dist2 x y = rsum (map (fun j => (co j x - co j y) * (co j x - co j y)) (seq 0 d)).
Proof.
  revert x y; induction d as [|d IH]; intros [|a x] [|b y] Hx Hy; try discriminate; [reflexivity|].
  rewrite dist2_cons, (IH x y) by (simpl in *; lia). cbn [seq map]. rewrite rsum_cons. f_equal.
  rewrite <- seq_shift, map_map. reflexivity.
Qed.
Lemma dist2_sym x y : dist2 x y = dist2 y x.
Proof.
  revert y; induction x as [|a x IH]; intros [|b y]; auto. rewrite !dist2_cons, IH. lra.
Qed.
Lemma dist2_nonneg x y : 0 <= dist2 x y.
Proof.
  revert y; induction x as [|a x IH]; intros [|b y]; try (cbn; lra). rewrite dist2_cons.
  specialize (IH y). pose proof (Rle_0_sqr (a - b)) as Q. unfold Rsqr in Q. lra.
Qed.
Lemma dist2_refl x : dist2 x x = 0.
Proof. induction x as [|a x IH]; [reflexivity|]. rewrite dist2_cons, IH. lra. Qed.
Lemma dist2_zero x y : length x = length y -> (dist2 x y = 0 <-> x = y).
Proof.
  revert y; induction x as [|a x IH]; intros [|b y] H; try discriminate; [split; reflexivity|].
  rewrite dist2_cons. pose proof (dist2_nonneg x y). split.
  - intros E. pose proof (Rle_0_sqr (a - b)) as Q. unfold Rsqr in Q.
    assert (a - b = 0) by (apply Rsqr_0_uniq; unfold Rsqr; lra). assert (dist2 x y = 0) by lra.
    f_equal; [lra|]. apply IH; auto.
  - intros E. inversion E; subst. rewrite dist2_refl. lra.
Qed.
Lemma dist2_pos x y : length x = length y -> x <> y -> 0 < dist2 x y.
Proof.
  intros L H. destruct (Req_dec (dist2 x y) 0) as [E|E]; [now apply dist2_zero in E|].
  pose proof (dist2_nonneg x y). lra.
Qed.

Definition wfg (d : nat) (g : list point) : Prop := Forall (fun x => length x = d) g.
Lemma centroid_length d g : length (centroid d g) = d.
Proof. unfold centroid. now rewrite map_length, seq_length. Qed.
Lemma co_centroid d g j : (j < d)%nat -> co j (centroid d g) = rsum (map (co j) g) / INR (length g).
Proof.
  intros H. unfold co, centroid. now rewrite nth_map_seq by auto.
Qed.
Lemma point_ext d (x y : point) : length x = d -> length y = d ->
  (forall j, (j < d)%nat -> co j x = co j y) -> x = y.
Proof. intros Hx Hy H. apply nth_ext with (d := 0) (d' := 0); [congruence|]. intros. apply H. lia. Qed.
Lemma centroid_perm d g h : Permutation g h -> centroid d g = centroid d h.
Proof.
  intros H. apply (point_ext d); auto using centroid_length. intros j Hj. rewrite !co_centroid by auto.
  rewrite (Permutation_length H). f_equal. apply rsum_perm. now apply Permutation_map.
Qed.
Lemma centroid_single d (x : point) : length x = d -> centroid d [x] = x.
Proof.
  intros H. apply (point_ext d); auto using centroid_length. intros j Hj. rewrite co_centroid by auto.
  cbn. field.
Qed.
Lemma INR_pos {X} (g : list X) : g <> [] -> 0 < INR (length g).
Proof. destruct g; [congruence|]. intros _. apply lt_0_INR. simpl. lia. Qed.
Lemma rsum_centroid d g j : g <> [] -> (j < d)%nat -> rsum (map (co j) g) = INR (length g) * co j (centroid d g).
Proof. intros Hg Hj. rewrite co_centroid by auto. pose proof (INR_pos g Hg). field. lra. Qed.

(** the parallel axis identity *)
Lemma parallel_axis d g y : g <> [] -> wfg d g -> length y = d ->
  rsum (map (fun x => dist2 x y) g) = scatter d g + INR (length g) * dist2 (centroid d g) y.
Proof.
  intros Hg Hw Hy. unfold scatter. set (c := centroid d g).
  assert (Lc : length c = d) by apply centroid_length.
  assert (E : forall z, length z = d -> rsum (map (fun x => dist2 x z) g) =
     rsum (map (fun j => rsum (map (fun x => (co j x - co j z) * (co j x - co j z)) g)) (seq 0 d))).
  { intros z Hz. rewrite <- rsum_swap. apply rsum_map_ext. intros x Hx. apply dist2_coords; auto.
    unfold wfg in Hw. rewrite Forall_forall in Hw. auto. }
  rewrite (E y), (E c) by auto. rewrite (dist2_coords d c y) by auto.
  rewrite <- rsum_map_scal, <- rsum_map_plus. apply rsum_map_ext. intros j Hj. apply in_seq in Hj.
  pose proof (rsum_centroid d g j Hg ltac:(lia)) as HS. fold c in HS.
  rewrite (rsum_map_ext (fun x => (co j x - co j y) * (co j x - co j y))
     (fun x => ((co j x - co j c) * (co j x - co j c) + (co j c - co j y) * (co j c - co j y))
               + (2 * (co j c - co j y)) * (co j x - co j c))) by (intros; ring).
  assert (Z : rsum (map (fun x => co j x - co j c) g) = 0).
  { rewrite (rsum_map_minus (co j) (fun _ => co j c)), rsum_const, HS. ring. }
  rewrite rsum_map_plus, (rsum_map_scal (2 * (co j c - co j y)) (fun x => co j x - co j c)), Z.
  rewrite rsum_map_plus, rsum_const. ring.
Qed.

Lemma scatter_nonneg d g : 0 <= scatter d g.
Proof. apply rsum_map_nonneg. intros. apply dist2_nonneg. Qed.
Lemma scatter_single d x : length x = d -> scatter d [x] = 0.
Proof. intros H. unfold scatter. rewrite centroid_single by auto. cbn. rewrite dist2_refl. lra. Qed.
Lemma scatter_perm d g h : Permutation g h -> scatter d g = scatter d h.
Proof.
  intros H. unfold scatter. rewrite (centroid_perm d g h H). apply rsum_perm. now apply Permutation_map.
Qed.
Lemma scatter_zero d g : wfg d g -> (scatter d g = 0 <-> (forall x, In x g -> x = centroid d g)).
Proof.
  intros Hw. unfold wfg in Hw. rewrite Forall_forall in Hw. split.
  - intros H x Hx. apply dist2_zero; [rewrite centroid_length; auto|].
    apply (rsum_map_zero (fun x => dist2 x (centroid d g)) g); auto. intros. apply dist2_nonneg.
  - intros H. unfold scatter. rewrite (rsum_map_ext _ (fun _ => 0)).
    + rewrite rsum_const. ring.
    + intros x Hx. rewrite (H x Hx) at 1. apply dist2_refl.
Qed.

(** one more point *)
Lemma co_centroid_snoc d g x j : g <> [] -> (j < d)%nat ->
  co j (centroid d (g ++ [x])) = (INR (length g) * co j (centroid d g) + co j x) / (INR (length g) + 1).
Proof.
  intros Hg Hj. rewrite co_centroid by auto. rewrite map_app, rsum_app, app_length. cbn [map length].
  rewrite plus_INR. rewrite (rsum_centroid d g j Hg Hj). cbn [rsum fold_right]. f_equal; simpl; lra.
Qed.
Lemma scatter_snoc d g x : g <> [] -> wfg d g -> length x = d ->
  let c := centroid d (g ++ [x]) in
  scatter d (g ++ [x]) = scatter d g + dist2 x c + INR (length g) * dist2 (centroid d g) c.
Proof.
  intros Hg Hw Hx c. unfold scatter at 1. fold c. rewrite map_app, rsum_app.
  rewrite (parallel_axis d g c) by (auto; apply centroid_length). cbn. lra.
Qed.

(** ** Total scatter *)
Lemma wfg_concat d gs : Forall (wfg d) gs -> wfg d (concat gs).
Proof.
  intros H. unfold wfg. apply Forall_forall. intros x Hx. apply in_concat in Hx as (g & Hg & Hx).
  rewrite Forall_forall in H. specialize (H g Hg). unfold wfg in H. rewrite Forall_forall in H. auto.
Qed.
Lemma concat_ne {X} (gs : list (list X)) : gs <> [] -> Forall (fun g => g <> []) gs -> concat gs <> [].
Proof.
  destruct gs as [|g gs]; [congruence|]. intros _ H. apply Forall_cons_iff in H as [H _].
  destruct g; [congruence|discriminate].
Qed.
Lemma total_scatter d gs : Forall (wfg d) gs -> Forall (fun g => g <> []) gs ->
  bgss d gs + wgss d gs = tss d gs.
Proof.
  intros Hw Hn. unfold tss, scatter. set (c := centroid d (concat gs)).
  rewrite rsum_concat. unfold bgss, wgss. fold c. rewrite <- rsum_map_plus. apply rsum_map_ext.
  intros g Hg. rewrite Forall_forall in Hw, Hn.
  rewrite (parallel_axis d g c); auto; [ring|apply centroid_length].
Qed.
Lemma wgss_nonneg d gs : 0 <= wgss d gs.
Proof. apply rsum_map_nonneg. intros. apply scatter_nonneg. Qed.
Lemma bgss_nonneg d gs : 0 <= bgss d gs.
Proof. apply rsum_map_nonneg. intros. apply Rmult_le_pos; [apply pos_INR|apply dist2_nonneg]. Qed.
Lemma mse_nonneg d g : 0 <= mse d g.
Proof.
  unfold mse. destruct g as [|x g]; [unfold scatter; simpl; unfold Rdiv; rewrite Rmult_0_l; lra|].
  apply Rmult_le_pos; [apply scatter_nonneg|]. apply Rlt_le, Rinv_0_lt_compat, INR_pos. discriminate.
Qed.
Lemma cdist_nonneg d g h : 0 <= cdist d g h.
Proof. apply dist2_nonneg. Qed.
Lemma cdist_sym d g h : cdist d g h = cdist d h g.
Proof. apply dist2_sym. Qed.
