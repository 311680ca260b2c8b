(** * The determinant of a product of square arrays. *)
From Coq Require Import Reals Lra Lia List Arith Bool Permutation.
From Verif Require Import Det.
Import ListNotations.
Local Open Scope R_scope.

Definition mmul (n : nat) (A B : nat -> nat -> R) : nat -> nat -> R := fun i j => sumn n (fun k => A i k * B k j).
Definition idm : nat -> nat -> R := fun i j => if (i =? j)%nat then 1 else 0.

(** ** A function of the rows that is linear in each row and zero when two
    adjacent rows are equal is determined by its value at the identity *)
Section Alt.
  Context (n : nat) (G : (nat -> nat -> R) -> R).
  Hypothesis G_ext : forall M N, (forall i j, (i < n)%nat -> (j < n)%nat -> M i j = N i j) -> G M = G N.
  Hypothesis G_lin : forall M p a u v, (p < n)%nat ->
    G (setr M p (fun j => u j + a * v j)) = G (setr M p u) + a * G (setr M p v).
  Hypothesis G_adj : forall M p, (S p < n)%nat -> (forall j, (j < n)%nat -> M p j = M (S p) j) -> G M = 0.
  Hypothesis G_id : G idm = 0.

  Lemma G_swap M p : (S p < n)%nat -> G (swapr M p) = - G M.
  Proof.
    intros Hp. set (u := M p). set (v := M (S p)).
    assert (Z : forall w, G (setr (setr M p w) (S p) w) = 0).
    { intros w. apply (G_adj _ p Hp). intros j _. unfold setr. rewrite Nat.eqb_refl.
      destruct (Nat.eqb_spec p (S p)); [lia|]. now rewrite Nat.eqb_refl. }
    assert (C : forall a b, G (setr (setr M p a) (S p) b) = G (setr (setr M (S p) b) p a)).
    { intros a b. apply G_ext. intros i j _ _. unfold setr. destruct (Nat.eqb_spec i (S p)), (Nat.eqb_spec i p); auto; lia. }
    pose proof (Z (fun j => u j + 1 * v j)) as H.
    rewrite G_lin in H by lia. rewrite !C in H. rewrite !G_lin in H by lia. rewrite <- !C in H. rewrite !Z in H.
    assert (E1 : G (setr (setr M p u) (S p) v) = G M).
    { apply G_ext. intros i j _ _. unfold setr, u, v. destruct (Nat.eqb_spec i (S p)), (Nat.eqb_spec i p); congruence. }
    rewrite E1 in H. unfold swapr. fold u v. lra.
  Qed.
  (** rows of the identity, in any order and with repetitions *)
  Definition brow (l : list nat) : nat -> nat -> R := fun i j => if (nth i l n =? j)%nat then 1 else 0.
  Lemma brow_swap a x y b : length (a ++ x :: y :: b) = n -> G (brow (a ++ x :: y :: b)) = - G (brow (a ++ y :: x :: b)).
  Proof.
    intros L. rewrite app_length in L. cbn [length] in L. rewrite <- (G_swap _ (length a)) by lia.
    apply G_ext. intros i j Hi Hj. unfold swapr, setr, brow.
    destruct (Nat.eqb_spec i (S (length a))) as [->|H1]; [|destruct (Nat.eqb_spec i (length a)) as [->|H2]].
    - replace (nth (S (length a)) (a ++ x :: y :: b) n) with y by (rewrite app_nth2 by lia; replace (S (length a) - length a)%nat with 1%nat by lia; reflexivity).
      rewrite nth_middle. reflexivity.
    - rewrite nth_middle.
      replace (nth (S (length a)) (a ++ y :: x :: b) n) with x by (rewrite app_nth2 by lia; replace (S (length a) - length a)%nat with 1%nat by lia; reflexivity).
      reflexivity.
    - destruct (Nat.lt_ge_cases i (length a)); [now rewrite !app_nth1 by auto|].
      rewrite !app_nth2 by lia. replace (i - length a)%nat with (S (S (i - length a - 2))) by lia. reflexivity.
  Qed.
  Lemma brow_perm l l' : Permutation l l' -> forall a, length (a ++ l) = n -> G (brow (a ++ l)) = 0 <-> G (brow (a ++ l')) = 0.
  Proof.
    induction 1 as [|x l l' P IH|x y l|l l1 l2 P1 IH1 P2 IH2]; intros a L; [reflexivity|..].
    - specialize (IH (a ++ [x])). rewrite <- !app_assoc in IH. cbn [app] in IH. auto.
    - rewrite brow_swap by auto. split; intros; lra.
    - rewrite (IH1 a L). apply IH2. rewrite app_length in *. now rewrite <- (Permutation_length P1).
  Qed.
  Lemma brow_zero l : length l = n -> (forall x, In x l -> (x < n)%nat) -> G (brow l) = 0.
  Proof.
    intros L H. destruct (ListDec.NoDup_dec Nat.eq_dec l) as [N|N].
    - assert (P : Permutation l (seq 0 n)).
      { apply NoDup_Permutation_bis; auto; [rewrite seq_length; lia|]. intros x Hx. apply in_seq. specialize (H x Hx). lia. }
      apply (brow_perm _ _ P []); auto. cbn [app]. rewrite <- G_id. apply G_ext. intros i j Hi Hj. unfold brow, idm.
      now rewrite seq_nth.
    - assert (D : exists x m, Permutation l (x :: x :: m)).
      { clear L H. induction l as [|x l IH]; [exfalso; apply N; constructor|].
        destruct (in_dec Nat.eq_dec x l) as [I|I].
        - apply in_split in I as (a & b & ->). exists x, (a ++ b). constructor. symmetry. apply Permutation_middle.
        - destruct IH as (y & m & P); [intros K; apply N; now constructor|]. exists y, (x :: m).
          eapply Permutation_trans; [constructor; exact P|]. eapply Permutation_trans; [apply perm_swap|]. constructor. apply perm_swap. }
      destruct D as (x & m & P). apply (brow_perm _ _ P []); auto. cbn [app].
      pose proof (Permutation_length P) as PL. cbn [length] in PL.
      apply (G_adj _ 0); [lia|]. reflexivity.
  Qed.
  Lemma G_zero M : G M = 0.
  Proof.
    assert (K : forall k, (k <= n)%nat -> forall M,
      (forall i, (k <= i < n)%nat -> exists c, (c < n)%nat /\ forall j, (j < n)%nat -> M i j = if (c =? j)%nat then 1 else 0) -> G M = 0).
    { induction k as [|k IH]; intros Hk M0 H.
      - assert (HL : forall m, (m <= n)%nat -> exists l, length l = m /\ (forall x, In x l -> (x < n)%nat) /\
                     forall i j, (i < m)%nat -> (j < n)%nat -> M0 i j = brow l i j).
        { induction m as [|m IHm]; intros Hm; [exists []; split; [auto|split; [intros x []|intros; lia]]|].
          destruct (IHm ltac:(lia)) as (l & L & B & HM). destruct (H m ltac:(lia)) as (c & Hc & Ec).
          exists (l ++ [c]). split; [rewrite app_length; cbn; lia|]. split.
          - intros x Hx. apply in_app_or in Hx as [Hx|[<-|[]]]; auto.
          - intros i j Hi Hj. unfold brow. destruct (Nat.eq_dec i m) as [->|Hn].
            + rewrite <- L, nth_middle, L. auto.
            + rewrite app_nth1 by lia. apply HM; lia. }
        destruct (HL n (le_n n)) as (l & L & B & HM). rewrite (G_ext M0 (brow l)) by auto. now apply brow_zero.
      - assert (S : forall m, (m <= n)%nat -> G (setr M0 k (fun j => sumn m (fun c => M0 k c * idm c j))) = 0).
        { induction m as [|m IHm]; intros Hm.
          - pose proof (G_lin M0 k 1 (fun _ => 0) (fun _ => 0) ltac:(lia)) as E. cbv beta in E.
            rewrite (G_ext (setr M0 k (fun _ => 0 + 1 * 0)) (setr M0 k (fun _ => 0))) in E
              by (intros; unfold setr; destruct (_ =? _)%nat; ring).
            rewrite (G_ext _ (setr M0 k (fun _ => 0))) by reflexivity. lra.
          - rewrite (G_ext _ (setr M0 k (fun j => sumn m (fun c => M0 k c * idm c j) + M0 k m * idm m j)))
              by (intros; unfold setr; destruct (_ =? _)%nat; [apply sumn_last|auto]).
            rewrite G_lin, IHm by lia. rewrite (IH ltac:(lia)); [ring|]. intros i Hi. unfold setr.
            destruct (Nat.eqb_spec i k) as [->|Hn]; [exists m; split; [lia|reflexivity]|apply H; lia]. }
        rewrite <- (S n (le_n n)). apply G_ext. intros i j Hi Hj. unfold setr. destruct (Nat.eqb_spec i k) as [->|]; auto.
        rewrite (sumn_one n j) by first [assumption | intros q _ Hq; unfold idm; destruct (Nat.eqb_spec q j); [congruence|ring]].
        unfold idm. rewrite Nat.eqb_refl. ring. }
    apply (K n (le_n n)). intros; lia.
  Qed.
End Alt.

Lemma mmul_setr n M B p v i j : mmul n (setr M p v) B i j = setr (mmul n M B) p (fun j => sumn n (fun k => v k * B k j)) i j.
Proof. unfold mmul, setr. destruct (i =? p)%nat; auto. Qed.
Lemma detf_id n : detf n idm = 1.
Proof.
  induction n as [|n IH]; [reflexivity|]. cbn [detf]. rewrite (sumn_one _ 0).
  - unfold idm at 1. cbn [Nat.even Nat.eqb]. rewrite (detf_ext n _ idm), IH; [ring|].
    intros r c _ _. unfold skip, idm. destruct (Nat.ltb_spec r 0); [lia|]. reflexivity.
  - lia.
  - intros i Hi H0. unfold idm at 1. destruct (Nat.eqb_spec i 0); [lia|]. ring.
Qed.
Lemma mmul_id_l n B i j : (i < n)%nat -> mmul n idm B i j = B i j.
Proof.
  intros Hi. unfold mmul. rewrite (sumn_one n i) by first [assumption | intros q _ Hq; unfold idm; destruct (Nat.eqb_spec i q); [congruence|ring]].
  unfold idm. rewrite Nat.eqb_refl. ring.
Qed.
Lemma mmul_id_r n A i j : (j < n)%nat -> mmul n A idm i j = A i j.
Proof.
  intros Hj. unfold mmul. rewrite (sumn_one n j) by first [assumption | intros q _ Hq; unfold idm; destruct (Nat.eqb_spec q j); [congruence|ring]].
  unfold idm. rewrite Nat.eqb_refl. ring.
Qed.
Lemma mmul_assoc n A B C i j : mmul n (mmul n A B) C i j = mmul n A (mmul n B C) i j.
Proof.
  unfold mmul. rewrite (sumn_ext n _ (fun k => sumn n (fun l => A i l * B l k * C k j))) by (intros; now rewrite <- sumn_scalr).
  rewrite sumn_swap. apply sumn_ext. intros l _. rewrite <- sumn_scal. apply sumn_ext. intros; ring.
Qed.
Lemma mmul_ext n A A' B B' i j : (i < n)%nat -> (j < n)%nat ->
  (forall i j, (i < n)%nat -> (j < n)%nat -> A i j = A' i j) -> (forall i j, (i < n)%nat -> (j < n)%nat -> B i j = B' i j) ->
  mmul n A B i j = mmul n A' B' i j.
Proof. intros Hi Hj HA HB. unfold mmul. apply sumn_ext. intros k Hk. now rewrite HA, HB. Qed.
Theorem detf_mul n A B : detf n (mmul n A B) = detf n A * detf n B.
Proof.
  enough (H : detf n (mmul n A B) - detf n A * detf n B = 0) by lra.
  apply (G_zero n (fun M => detf n (mmul n M B) - detf n M * detf n B)).
  - intros M N H. f_equal; [|now rewrite (detf_ext n M N)]. apply detf_ext. intros i j Hi Hj. apply mmul_ext; auto.
  - intros M p a u v Hp.
    assert (E : forall w, detf n (mmul n (setr M p w) B) = detf n (setr (mmul n M B) p (fun j => sumn n (fun k => w k * B k j)))).
    { intros w. apply detf_ext. intros. apply mmul_setr. }
    rewrite !E. rewrite detf_linear by auto.
    rewrite (detf_ext n (setr (mmul n M B) p (fun j => sumn n (fun k => (u k + a * v k) * B k j)))
              (setr (mmul n M B) p (fun j => sumn n (fun k => u k * B k j) + a * sumn n (fun k => v k * B k j)))).
    + rewrite detf_linear by auto. ring.
    + intros i j _ _. unfold setr. destruct (_ =? _)%nat; auto. rewrite <- sumn_scal, <- sumn_plus. apply sumn_ext. intros; ring.
  - intros M p Hp H.
    rewrite (detf_adj n (mmul n M B) p Hp), (detf_ext n M (setr M (S p) (M p))), (detf_adj n (setr M (S p) (M p)) p Hp); [ring|..].
    + intros j. unfold setr. rewrite Nat.eqb_refl. destruct (Nat.eqb_spec p (S p)); [lia|auto].
    + intros i j Hi Hj. unfold setr. destruct (Nat.eqb_spec i (S p)) as [->|]; auto. now rewrite H.
    + intros j. unfold mmul. apply sumn_ext. intros k Hk. now rewrite H.
  - rewrite detf_id, (detf_ext n (mmul n idm B) B); [ring|]. intros. now apply mmul_id_l.
Qed.
