(** * Determinant and inverse of square arrays of reals.

    [np.linalg.det] and [np.linalg.inv] are interpreted, on arrays of real
    numbers, by the determinant (Laplace's expansion along the first column)
    and by the two-sided inverse, if there is one.  The facts proved here are
    those used about positive definite arrays. *)
From Coq Require Import Reals Lra Lia List Arith Bool ClassicalEpsilon.
Import ListNotations.
Local Open Scope R_scope.

(** entry (i, j) of a list of rows; 0 outside *)
Definition ent (m : list (list R)) (i j : nat) : R := nth j (nth i m nil) 0.
Definition sumn (n : nat) (f : nat -> R) : R := fold_right Rplus 0 (map f (seq 0 n)).

(** rows other than the [i]-th *)
Definition skip (i r : nat) : nat := if r <? i then r else S r.
Fixpoint detf (n : nat) (M : nat -> nat -> R) : R :=
  match n with
  | O => 1
  | S n' => sumn n (fun i => (if Nat.even i then 1 else -1) * M i 0%nat * detf n' (fun r c => M (skip i r) (S c)))
  end.
(** np.linalg.det *)
Definition detR (m : list (list R)) : R := detf (length m) (ent m).

(** [W] is the inverse of the n x n array [m] *)
Definition is_inverse (n : nat) (m W : list (list R)) : Prop :=
  length W = n /\ Forall (fun r => length r = n) W /\
  (forall i j, (i < n)%nat -> (j < n)%nat -> sumn n (fun k => ent m i k * ent W k j) = if i =? j then 1 else 0) /\
  (forall i j, (i < n)%nat -> (j < n)%nat -> sumn n (fun k => ent W i k * ent m k j) = if i =? j then 1 else 0).
(** np.linalg.inv; None when the array is singular *)
Definition invR (m : list (list R)) : option (list (list R)) :=
  match excluded_middle_informative (exists W, is_inverse (length m) m W) with
  | left H => Some (proj1_sig (constructive_indefinite_description _ H))
  | right _ => None
  end.

(** ** sums *)
Lemma sumn_ext n f g : (forall i, (i < n)%nat -> f i = g i) -> sumn n f = sumn n g.
Proof. intros H. unfold sumn. f_equal. apply map_ext_in. intros i Hi. apply in_seq in Hi. apply H. lia. Qed.
Lemma fold_plus l f g : fold_right Rplus 0 (map (fun i : nat => f i + g i) l) = fold_right Rplus 0 (map f l) + fold_right Rplus 0 (map g l).
Proof. induction l; simpl; lra. Qed.
Lemma sumn_plus n f g : sumn n (fun i => f i + g i) = sumn n f + sumn n g.
Proof. apply fold_plus. Qed.
Lemma sumn_scal n c f : sumn n (fun i => c * f i) = c * sumn n f.
Proof. unfold sumn. induction (seq 0 n); simpl; lra. Qed.
Lemma sumn_scalr n c f : sumn n (fun i => f i * c) = sumn n f * c.
Proof. rewrite Rmult_comm, <- sumn_scal. apply sumn_ext. intros; ring. Qed.
Lemma sumn_first n f : sumn (S n) f = f 0%nat + sumn n (fun i => f (S i)).
Proof. unfold sumn. cbn [seq map fold_right]. now rewrite <- seq_shift, map_map. Qed.
Lemma sumn_last n f : sumn (S n) f = sumn n f + f n.
Proof.
  unfold sumn. rewrite seq_S, map_app, fold_right_app. simpl. generalize (f n + 0) (Rplus_0_r (f n)). intros x <-. clear.
  induction (seq 0 n); simpl; lra.
Qed.
Lemma sumn_zero n f : (forall i, (i < n)%nat -> f i = 0) -> sumn n f = 0.
Proof. induction n; intros H; [reflexivity|]. rewrite sumn_last, IHn, H by auto with arith. ring. Qed.
Lemma sumn_one n p f : (p < n)%nat -> (forall i, (i < n)%nat -> i <> p -> f i = 0) -> sumn n f = f p.
Proof.
  induction n; intros Hp H; [lia|]. rewrite sumn_last. destruct (Nat.eq_dec p n) as [->|Hn].
  - rewrite sumn_zero; [ring|]. intros i Hi. apply H; lia.
  - rewrite (H n), IHn by (try lia; intros; apply H; lia). ring.
Qed.
Lemma sumn_two n p f : (S p < n)%nat -> (forall i, (i < n)%nat -> i <> p -> i <> S p -> f i = 0) -> sumn n f = f p + f (S p).
Proof.
  induction n; intros Hp H; [lia|]. rewrite sumn_last. destruct (Nat.eq_dec n (S p)) as [->|Hn].
  - rewrite (sumn_one (S p) p); [reflexivity|lia|]. intros i Hi Hi'. apply H; lia.
  - rewrite (H n), IHn by (try lia; intros; apply H; lia). ring.
Qed.
Lemma sumn_swap n m (f : nat -> nat -> R) : sumn n (fun i => sumn m (f i)) = sumn m (fun j => sumn n (fun i => f i j)).
Proof.
  induction n; [symmetry; now apply sumn_zero|]. rewrite sumn_last, IHn, <- sumn_plus.
  apply sumn_ext. intros. now rewrite sumn_last.
Qed.

(** ** determinant *)
Lemma detf_ext n : forall M N, (forall i j, (i < n)%nat -> (j < n)%nat -> M i j = N i j) -> detf n M = detf n N.
Proof.
  induction n as [|n IH]; intros M N H; [reflexivity|]. cbn [detf]. apply sumn_ext. intros i Hi.
  rewrite H by lia. f_equal. apply IH. intros r c Hr Hc. apply H; [|lia]. unfold skip. destruct (Nat.ltb_spec r i); lia.
Qed.
Lemma skip_lt i r n : (r < n)%nat -> (skip i r < S n)%nat.
Proof. unfold skip. destruct (Nat.ltb_spec r i); lia. Qed.
Lemma skip_ne i r : skip i r <> i.
Proof. unfold skip. destruct (Nat.ltb_spec r i); lia. Qed.
Lemma skip_inj i r s : skip i r = skip i s -> r = s.
Proof. unfold skip. destruct (Nat.ltb_spec r i), (Nat.ltb_spec s i); lia. Qed.
(** the row [p] of the array is the row [p'] of the minor *)
Lemma skip_onto i p n : i <> p -> (p < S n)%nat -> (i < S n)%nat -> exists p', (p' < n)%nat /\ skip i p' = p.
Proof.
  intros H Hp Hi. unfold skip. destruct (Nat.lt_ge_cases p i).
  - exists p. split; [lia|]. destruct (Nat.ltb_spec p i); lia.
  - exists (p - 1)%nat. split; [lia|]. destruct (Nat.ltb_spec (p - 1) i); lia.
Qed.
(** replacing a row *)
Definition setr (M : nat -> nat -> R) (p : nat) (v : nat -> R) : nat -> nat -> R := fun i j => if i =? p then v j else M i j.
Lemma setr_minor M p v i p' n : skip i p' = p -> 
  detf n (fun r c => setr M p v (skip i r) (S c)) = detf n (setr (fun r c => M (skip i r) (S c)) p' (fun c => v (S c))).
Proof.
  intros E. apply detf_ext. intros r c _ _. unfold setr. destruct (Nat.eqb_spec (skip i r) p) as [E1|E1], (Nat.eqb_spec r p') as [E2|E2]; auto.
  - exfalso. apply E2, (skip_inj i). congruence.
  - exfalso. apply E1. congruence.
Qed.
Lemma detf_linear n : forall M p a u v, (p < n)%nat ->
  detf n (setr M p (fun j => u j + a * v j)) = detf n (setr M p u) + a * detf n (setr M p v).
Proof.
  induction n as [|n IH]; intros M p a u v Hp; [lia|]. cbn [detf]. rewrite <- sumn_scal, <- sumn_plus. apply sumn_ext. intros i Hi.
  destruct (Nat.eq_dec i p) as [->|Hip].
  - assert (E : forall w, setr M p w p 0%nat = w 0%nat) by (intros; unfold setr; now rewrite Nat.eqb_refl). rewrite !E.
    assert (D : forall w, detf n (fun r c => setr M p w (skip p r) (S c)) = detf n (fun r c => M (skip p r) (S c))).
    { intros w. apply detf_ext. intros r c _ _. unfold setr. destruct (Nat.eqb_spec (skip p r) p) as [E'|]; auto. now apply skip_ne in E'. }
    rewrite !D. ring.
  - assert (E : forall w, setr M p w i 0%nat = M i 0%nat) by (intros; unfold setr; destruct (Nat.eqb_spec i p); congruence). rewrite !E.
    destruct (skip_onto i p n Hip Hp Hi) as (p' & Hp' & Es). rewrite !(setr_minor M p _ i p' n Es), IH by auto. ring.
Qed.
Lemma setr_same n M p : detf n (setr M p (M p)) = detf n M.
Proof. apply detf_ext. intros i j _ _. unfold setr. destruct (Nat.eqb_spec i p); congruence. Qed.
(** two adjacent equal rows *)
Lemma even_S_sign p : (if Nat.even (S p) then 1 else -1) = - (if Nat.even p then 1 else -1).
Proof. rewrite Nat.even_succ, <- Nat.negb_even. destruct (Nat.even p); simpl; ring. Qed.
Lemma detf_adj n : forall M p, (S p < n)%nat -> (forall j, M p j = M (S p) j) -> detf n M = 0.
Proof.
  induction n as [|n IH]; intros M p Hp E; [lia|]. cbn [detf]. rewrite (sumn_two _ p).
  - rewrite even_S_sign, <- E.
    rewrite (detf_ext n (fun r c => M (skip p r) (S c)) (fun r c => M (skip (S p) r) (S c))); [ring|].
    intros r c _ _. unfold skip. destruct (Nat.ltb_spec r p), (Nat.ltb_spec r (S p)); try lia; auto.
    replace r with p by lia. now rewrite E.
  - lia.
  - intros i Hi H1 H2. destruct (Nat.lt_ge_cases i p).
    + rewrite (IH _ (p - 1)%nat); [ring|lia|]. intros j. unfold skip. destruct (Nat.ltb_spec (p - 1) i), (Nat.ltb_spec (S (p - 1)) i); try lia.
      replace (S (p - 1)) with p by lia. apply E.
    + rewrite (IH _ p); [ring|lia|]. intros j. unfold skip. destruct (Nat.ltb_spec p i), (Nat.ltb_spec (S p) i); try lia. apply E.
Qed.
(** exchanging two adjacent rows *)
Definition swapr (M : nat -> nat -> R) (p : nat) : nat -> nat -> R := setr (setr M p (M (S p))) (S p) (M p).
Lemma detf_swap n M p : (S p < n)%nat -> detf n (swapr M p) = - detf n M.
Proof.
  intros Hp. set (u := M p). set (v := M (S p)).
  assert (Z : forall w, detf n (setr (setr M p w) (S p) w) = 0).
  { intros w. apply (detf_adj n _ p Hp). intros j. unfold setr. rewrite Nat.eqb_refl.
    destruct (Nat.eqb_spec p (S p)); [lia|]. now rewrite Nat.eqb_refl. }
  assert (C : forall a b, detf n (setr (setr M p a) (S p) b) = detf n (setr (setr M (S p) b) p a)).
  { intros a b. apply detf_ext. intros i j _ _. unfold setr. destruct (Nat.eqb_spec i (S p)), (Nat.eqb_spec i p); auto; lia. }
  pose proof (Z (fun j => u j + 1 * v j)) as H.
  rewrite detf_linear in H by lia. rewrite !C in H. rewrite !detf_linear in H by lia. rewrite <- !C in H. rewrite !Z in H.
  assert (E1 : detf n (setr (setr M p u) (S p) v) = detf n M).
  { apply detf_ext. intros i j _ _. unfold setr, u, v. destruct (Nat.eqb_spec i (S p)), (Nat.eqb_spec i p); congruence. }
  rewrite E1 in H. unfold swapr. fold u v. lra.
Qed.
Lemma detf_equal n : forall k M p, (S (p + k) < n)%nat -> (forall j, M p j = M (S (p + k))%nat j) -> detf n M = 0.
Proof.
  induction k as [|k IH]; intros M p Hn E.
  - rewrite Nat.add_0_r in E. apply (detf_adj n M p); auto. lia.
  - rewrite Nat.add_succ_r in *. assert (H : detf n (swapr M (S (p + k))) = 0).
    { apply (IH _ p); [lia|]. intros j. unfold swapr, setr.
      destruct (Nat.eqb_spec p (S (S (p + k)))); [lia|]. destruct (Nat.eqb_spec p (S (p + k))); [lia|].
      destruct (Nat.eqb_spec (S (p + k)) (S (S (p + k)))); [lia|]. now rewrite Nat.eqb_refl. }
    rewrite detf_swap in H by lia. lra.
Qed.
(** adding a multiple of the first row to another *)
Lemma detf_addrow n M p a : (0 < p < n)%nat -> detf n (setr M p (fun j => M p j + a * M 0%nat j)) = detf n M.
Proof.
  intros Hp. rewrite detf_linear by lia. rewrite setr_same, (detf_equal n (p - 1) (setr M p (M 0%nat)) 0); [ring|lia|].
  intros j. replace (S (0 + (p - 1))) with p by lia. unfold setr. rewrite Nat.eqb_refl. destruct (Nat.eqb_spec 0 p); auto.
Qed.
Fixpoint elim (M : nat -> nat -> R) (a : nat -> R) (k : nat) : nat -> nat -> R :=
  match k with
  | O => M
  | S k' => setr (elim M a k') k (fun j => M k j + a k * M 0%nat j)
  end.
Lemma elim_row M a k i j : elim M a k i j = if (1 <=? i) && (i <=? k) then M i j + a i * M 0%nat j else M i j.
Proof.
  revert i; induction k as [|k IH]; intros i; cbn [elim].
  - destruct (Nat.leb_spec 1 i), (Nat.leb_spec i 0); simpl; auto; lia.
  - unfold setr. destruct (Nat.eqb_spec i (S k)) as [->|Hi].
    + destruct (Nat.leb_spec 1 (S k)), (Nat.leb_spec (S k) (S k)); simpl; auto; lia.
    + rewrite IH. destruct (Nat.leb_spec 1 i), (Nat.leb_spec i k), (Nat.leb_spec i (S k)); simpl; auto; lia.
Qed.
Lemma detf_elim n M a k : (k < n)%nat -> detf n (elim M a k) = detf n M.
Proof.
  induction k as [|k IH]; intros Hk; [reflexivity|]. cbn [elim]. rewrite <- (IH ltac:(lia)).
  rewrite <- (detf_addrow n (elim M a k) (S k) (a (S k))) by lia. apply detf_ext. intros i j _ _. unfold setr.
  destruct (Nat.eqb_spec i (S k)); auto. rewrite !elim_row. destruct (Nat.leb_spec 1 (S k)), (Nat.leb_spec (S k) k); simpl; auto; lia.
Qed.
(** Schur complement *)
Definition schur (M : nat -> nat -> R) : nat -> nat -> R := fun i j => M (S i) (S j) - M (S i) 0%nat / M 0%nat 0%nat * M 0%nat (S j).
Lemma detf_schur n M : M 0%nat 0%nat <> 0 -> detf (S n) M = M 0%nat 0%nat * detf n (schur M).
Proof.
  intros H. rewrite <- (detf_elim (S n) M (fun i => - (M i 0%nat / M 0%nat 0%nat)) n) by lia. cbn [detf].
  rewrite (sumn_one _ 0).
  - rewrite elim_row. cbn [Nat.leb andb Nat.even]. rewrite Rmult_1_l. f_equal. apply detf_ext. intros i j Hi Hj.
    unfold skip. destruct (Nat.ltb_spec i 0); [lia|]. rewrite elim_row.
    destruct (Nat.leb_spec 1 (S i)), (Nat.leb_spec (S i) n); simpl; try lia. unfold schur. ring.
  - lia.
  - intros i Hi H0. rewrite elim_row. destruct (Nat.leb_spec 1 i), (Nat.leb_spec i n); simpl; try lia. field. auto.
Qed.

(** ** positive definite arrays *)
Definition qform n (M : nat -> nat -> R) (x : nat -> R) : R := sumn n (fun i => sumn n (fun j => x i * (M i j * x j))).
Definition symm n (M : nat -> nat -> R) : Prop := forall i j, (i < n)%nat -> (j < n)%nat -> M i j = M j i.
Definition pdef n (M : nat -> nat -> R) : Prop := forall x, (exists i, (i < n)%nat /\ x i <> 0) -> 0 < qform n M x.
Lemma qform_first n M x : symm (S n) M -> qform (S n) M x =
  M 0%nat 0%nat * x 0%nat * x 0%nat + 2 * x 0%nat * sumn n (fun j => M 0%nat (S j) * x (S j)) + qform n (fun i j => M (S i) (S j)) (fun i => x (S i)).
Proof.
  intros Hs. unfold qform. rewrite sumn_first, sumn_first.
  rewrite (sumn_ext n (fun i => sumn (S n) (fun j => x (S i) * (M (S i) j * x j)))
    (fun i => x 0%nat * (M 0%nat (S i) * x (S i)) + sumn n (fun j => x (S i) * (M (S i) (S j) * x (S j))))).
  - rewrite sumn_plus, !sumn_scal. ring.
  - intros i Hi. rewrite sumn_first. rewrite (Hs (S i) 0%nat) by lia. ring.
Qed.
Lemma qform_schur n M x : M 0%nat 0%nat <> 0 -> symm (S n) M -> qform n (schur M) x =
  qform n (fun i j => M (S i) (S j)) x - sumn n (fun j => M 0%nat (S j) * x j) * sumn n (fun j => M 0%nat (S j) * x j) / M 0%nat 0%nat.
Proof.
  intros Ha Hs. unfold qform.
  rewrite (sumn_ext n (fun i => sumn n (fun j => x i * (schur M i j * x j)))
    (fun i => sumn n (fun j => x i * (M (S i) (S j) * x j)) + (- / M 0%nat 0%nat * sumn n (fun j => M 0%nat (S j) * x j)) * (M 0%nat (S i) * x i))).
  - rewrite sumn_plus, sumn_scal. field. auto.
  - intros i Hi. rewrite <- (Rmult_comm (M 0%nat (S i) * x i)), <- Rmult_assoc, <- sumn_scal, <- sumn_plus. apply sumn_ext. intros j Hj.
    unfold schur. rewrite (Hs (S i) 0%nat) by lia. field. auto.
Qed.
Lemma pdef_pivot n M : pdef (S n) M -> 0 < M 0%nat 0%nat.
Proof.
  intros H. specialize (H (fun i => if i =? 0 then 1 else 0)). unfold qform in H. rewrite (sumn_one _ 0) in H.
  - rewrite (sumn_one _ 0) in H.
    + cbn [Nat.eqb] in H. rewrite Rmult_1_l, Rmult_1_r in H. apply H. exists 0%nat. split; [lia|]. simpl. lra.
    + lia.
    + intros i Hi H0. destruct (Nat.eqb_spec i 0); [lia|]. ring.
  - lia.
  - intros i Hi H0. apply sumn_zero. intros j Hj. destruct (Nat.eqb_spec i 0); [lia|]. ring.
Qed.
Lemma symm_schur n M : symm (S n) M -> symm n (schur M).
Proof. intros Hs i j Hi Hj. unfold schur. rewrite (Hs (S i) (S j)), (Hs (S i) 0%nat), (Hs 0%nat (S j)) by lia. unfold Rdiv. ring. Qed.
Lemma pdef_schur n M : symm (S n) M -> pdef (S n) M -> pdef n (schur M).
Proof.
  intros Hs H x (i & Hi & Hx). pose proof (pdef_pivot n M H) as Ha.
  rewrite qform_schur by (auto; lra). set (a := M 0%nat 0%nat) in *. set (t := sumn n (fun j => M 0%nat (S j) * x j)).
  specialize (H (fun i => match i with O => - (t / a) | S i => x i end) (ex_intro _ (S i) (conj (proj1 (Nat.succ_lt_mono i n) Hi) Hx))).
  rewrite qform_first in H by auto. fold a in H. fold t in H.
  enough (0 < qform n (fun i j => M (S i) (S j)) x + - (t * t / a)) by lra.
  replace (- (t * t / a)) with (a * - (t / a) * - (t / a) + 2 * - (t / a) * t) by (field; lra). change (fun i0 => x i0) with x in H. lra.
Qed.
Lemma pdef_det n : forall M, symm n M -> pdef n M -> 0 < detf n M.
Proof.
  induction n as [|n IH]; intros M Hs H; [cbn; lra|]. pose proof (pdef_pivot n M H) as Ha. rewrite detf_schur by lra.
  apply Rmult_lt_0_compat; auto. apply IH; [now apply symm_schur|now apply pdef_schur].
Qed.
(** M x = y has a solution *)
Lemma pdef_solve n : forall M y, symm n M -> pdef n M -> exists x, forall i, (i < n)%nat -> sumn n (fun j => M i j * x j) = y i.
Proof.
  induction n as [|n IH]; intros M y Hs H; [exists (fun _ => 0); intros; lia|]. pose proof (pdef_pivot n M H) as Ha.
  destruct (IH (schur M) (fun i => y (S i) - M (S i) 0%nat / M 0%nat 0%nat * y 0%nat) (symm_schur n M Hs) (pdef_schur n M Hs H)) as (x & Hx).
  exists (fun i => match i with O => (y 0%nat - sumn n (fun j => M 0%nat (S j) * x j)) / M 0%nat 0%nat | S i => x i end).
  intros [|i] Hi; rewrite sumn_first.
  - field. lra.
  - specialize (Hx i ltac:(lia)).
    rewrite (sumn_ext n (fun j => schur M i j * x j) (fun j => M (S i) (S j) * x j + (- (M (S i) 0%nat / M 0%nat 0%nat)) * (M 0%nat (S j) * x j))) in Hx
      by (intros; unfold schur; ring).
    rewrite sumn_plus, sumn_scal in Hx.
    replace (sumn n (fun i0 => M (S i) (S i0) * x i0)) with
      (y (S i) - M (S i) 0%nat / M 0%nat 0%nat * y 0%nat + M (S i) 0%nat / M 0%nat 0%nat * sumn n (fun j => M 0%nat (S j) * x j)) by lra.
    field. lra.
Qed.
Lemma pdef_injective n M x : pdef n M -> (forall i, (i < n)%nat -> sumn n (fun j => M i j * x j) = 0) -> forall i, (i < n)%nat -> x i = 0.
Proof.
  intros H Hx i Hi. destruct (Req_dec (x i) 0) as [|E]; auto. exfalso. specialize (H x (ex_intro _ i (conj Hi E))).
  unfold qform in H. rewrite sumn_zero in H; [lra|]. intros j Hj. rewrite sumn_scal, Hx by auto. ring.
Qed.
Definition rows_of n (W : nat -> nat -> R) : list (list R) := map (fun i => map (W i) (seq 0 n)) (seq 0 n).
Lemma nth_map_seq {X} (f : nat -> X) n i z : (i < n)%nat -> nth i (map f (seq 0 n)) z = f i.
Proof. intros H. rewrite (nth_indep _ _ (f 0%nat)) by now rewrite map_length, seq_length. now rewrite map_nth, seq_nth. Qed.
Lemma ent_rows_of n W i j : (i < n)%nat -> (j < n)%nat -> ent (rows_of n W) i j = W i j.
Proof. intros Hi Hj. unfold ent, rows_of. rewrite nth_map_seq by auto. now rewrite nth_map_seq. Qed.
Lemma pdef_columns n M : symm n M -> pdef n M -> forall k, (k <= n)%nat ->
  exists W, forall i j, (i < n)%nat -> (j < k)%nat -> sumn n (fun l => M i l * W l j) = if i =? j then 1 else 0.
Proof.
  intros Hs H. induction k as [|k IH]; intros Hk; [exists (fun _ _ => 0); intros; lia|].
  destruct (IH ltac:(lia)) as (W & HW). destruct (pdef_solve n M (fun i => if i =? k then 1 else 0) Hs H) as (x & Hx).
  exists (fun l j => if j =? k then x l else W l j). intros i j Hi Hj. destruct (Nat.eqb_spec j k) as [->|Hjk].
  - now apply Hx.
  - apply HW; lia.
Qed.
Lemma pdef_inverse n m : symm n (ent m) -> pdef n (ent m) -> exists W, is_inverse n m W.
Proof.
  intros Hs H. destruct (pdef_columns n (ent m) Hs H n (le_n n)) as (W & HW). exists (rows_of n W).
  split; [unfold rows_of; now rewrite map_length, seq_length|]. split.
  { apply Forall_forall. intros r Hr. apply in_map_iff in Hr as (i & <- & _). now rewrite map_length, seq_length. }
  assert (HR : forall i j, (i < n)%nat -> (j < n)%nat -> sumn n (fun k => ent m i k * ent (rows_of n W) k j) = if i =? j then 1 else 0).
  { intros i j Hi Hj. rewrite <- (HW i j Hi Hj). apply sumn_ext. intros k Hk. now rewrite ent_rows_of. }
  split; [exact HR|]. intros i j Hi Hj.
  enough (E : sumn n (fun k => ent (rows_of n W) i k * ent m k j) - (if i =? j then 1 else 0) = 0) by lra.
  apply (pdef_injective n (ent m) (fun i => sumn n (fun k => ent (rows_of n W) i k * ent m k j) - (if i =? j then 1 else 0)) H); auto.
  intros p Hp.
  rewrite (sumn_ext n _ (fun q => ent m p q * sumn n (fun k => ent (rows_of n W) q k * ent m k j) + - 1 * (ent m p q * (if q =? j then 1 else 0)))) by (intros; ring).
  rewrite sumn_plus, sumn_scal.
  rewrite (sumn_one n j (fun q => ent m p q * (if q =? j then 1 else 0)) Hj) by (intros q _ Hq; destruct (Nat.eqb_spec q j); [congruence|ring]).
  rewrite Nat.eqb_refl.
  rewrite (sumn_ext n _ (fun q => sumn n (fun k => ent m p q * ent (rows_of n W) q k * ent m k j)))
    by (intros; rewrite <- sumn_scal; apply sumn_ext; intros; ring).
  rewrite sumn_swap.
  rewrite (sumn_ext n _ (fun k => (if p =? k then 1 else 0) * ent m k j)) by (intros k Hk; rewrite sumn_scalr, HR; auto).
  rewrite (sumn_one n p) by first [assumption | intros q _ Hq; destruct (Nat.eqb_spec p q); [congruence|ring]]. rewrite Nat.eqb_refl. ring.
Qed.

(** A symmetric positive definite array has a positive determinant and
    [np.linalg.inv] returns its two-sided inverse. *)
Lemma posdef_det_inv (m : list (list R)) n : length m = n ->
  (forall i j, (i < n)%nat -> (j < n)%nat -> ent m i j = ent m j i) ->
  (forall x : nat -> R, (exists i, (i < n)%nat /\ x i <> 0) ->
     0 < sumn n (fun i => sumn n (fun j => x i * (ent m i j * x j)))) ->
  0 < detR m /\
  exists W, invR m = Some W /\ length W = n /\ Forall (fun r => length r = n) W /\
    (forall i j, (i < n)%nat -> (j < n)%nat ->
       sumn n (fun k => ent m i k * ent W k j) = if i =? j then 1 else 0) /\
    (forall i j, (i < n)%nat -> (j < n)%nat ->
       sumn n (fun k => ent W i k * ent m k j) = if i =? j then 1 else 0).
Proof.
  intros Hn Hs Hp. subst n. split; [now apply pdef_det|]. unfold invR.
  destruct (excluded_middle_informative (exists W, is_inverse (length m) m W)) as [H|H]; [|exfalso; apply H; now apply pdef_inverse].
  exists (proj1_sig (constructive_indefinite_description _ H)). split; [reflexivity|].
  exact (proj2_sig (constructive_indefinite_description _ H)).
Qed.
(** the inverse is the only one, so [invR] does not depend on the choice *)
Lemma inverse_unique n m V W : is_inverse n m V -> is_inverse n m W -> V = W.
Proof.
  intros (LV & FV & RV & _) (LW & FW & _ & HW).
  assert (E : forall i j, (i < n)%nat -> (j < n)%nat -> ent V i j = ent W i j).
  { intros i j Hi Hj.
    transitivity (sumn n (fun k => (if i =? k then 1 else 0) * ent V k j)).
    { rewrite (sumn_one n i) by first [assumption | intros q _ Hq; destruct (Nat.eqb_spec i q); [congruence|ring]]. rewrite Nat.eqb_refl. ring. }
    rewrite (sumn_ext n _ (fun k => sumn n (fun l => ent W i l * ent m l k * ent V k j))) by (intros k Hk; rewrite sumn_scalr, HW; auto).
    rewrite sumn_swap.
    rewrite (sumn_ext n _ (fun l => ent W i l * (if l =? j then 1 else 0))).
    - rewrite (sumn_one n j) by first [assumption | intros q _ Hq; destruct (Nat.eqb_spec q j); [congruence|ring]]. rewrite Nat.eqb_refl. ring.
    - intros l Hl. rewrite <- (RV l j Hl Hj), <- sumn_scal. apply sumn_ext. intros; ring. }
  apply (nth_ext V W [] []); [congruence|]. intros i Hi. rewrite Forall_forall in FV, FW.
  assert (L1 : length (nth i V []) = n) by (apply FV, nth_In; auto).
  assert (L2 : length (nth i W []) = n) by (apply FW, nth_In; congruence).
  apply (nth_ext _ _ 0 0); [congruence|]. intros j Hj. apply E; congruence.
Qed.
(** the definition on 2 x 2 arrays *)
Example detR_2 : forall a b c d, detR [[a; b]; [c; d]] = a * d - b * c.
Proof. intros. unfold detR, ent, sumn, skip. cbn. unfold sumn. cbn. ring. Qed.
