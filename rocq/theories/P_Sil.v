(** * C95: what the compat class iSIL holds of a cluster *)
From Coq Require Import ZArith List Arith Bool Lia.
From Verif Require Import Num NumPy Lists Compat CompatL CompatL2 CompatL3 CompatL4 CompatH.
From Coq Require Import Reals Lra.
From Verif Require Import Det Spec XR SpecX RGeom XLift XEval XInc XRun XPerm XBatch XSil CompatX P_Compat P_Compat2.
Import ListNotations.
Local Notation length := List.length.
Local Open Scope nat_scope.

(** ** The account of a cluster *)
(** number, center, sum of squared norms and sum of the samples of a cluster *)
Record account (A : Arith) := mkaccount { a_size : nat; a_center : list (F A); a_CP : F A; a_g : list (F A) }.
Arguments mkaccount {A}. Arguments a_size {A}. Arguments a_center {A}. Arguments a_CP {A}. Arguments a_g {A}.
Section S.
  Context {A : Arith}.
  (** of one sample *)
  Definition one_sample (x : list (F A)) : account A := mkaccount 1 x (norm22 x) x.
  (** one sample more: the mean moves by the difference over the new number *)
  Definition one_more (a : account A) (x : list (F A)) : account A :=
    mkaccount (a_size a + 1)
      (map2 fadd (a_center a) (map (fun y => fdiv y (f_of_nat (a_size a + 1))) (map2 fsub x (a_center a))))
      (fadd (a_CP a) (norm22 x)) (map2 fadd (a_g a) x).
  (** of the samples of a cluster, each once *)
  Definition right_account (xs : list (list (F A))) : account A :=
    match xs with [] => mkaccount 0 [] f0 [] | x :: xs' => fold_left one_more xs' (one_sample x) end.
  (** what the object holds of cluster [j] *)
  Definition held (o : iSIL (A := A)) (j : nat) : account A :=
    mkaccount (nth j (sl_sizes o) 0) (nth j (sl_centers o) []) (nth j (sl_CP o) f0) (sl_heap o (nth j (sl_g o) 0)).
  (** a call with array number [fst p] and label [snd p] *)
  Definition call (p : nat * Z) : SM (iSIL (A := A)) (F A) := iSIL_update (fst p) (snd p).
  (** labels from 0 to the next unused number, and every sample in an array of its own *)
  Definition proper (h : list (nat * Z)) : Prop :=
    NoDup (map fst h) /\
    forall p r l q, h = p ++ (r, l) :: q -> (0 <= l <= Z.of_nat (started (map snd p)))%Z.
  (** the samples of cluster [j], in order of arrival *)
  Definition of_cluster (m : nat -> list (F A)) (h : list (nat * Z)) (j : nat) : list (list (F A)) :=
    map (fun p => m (fst p)) (filter (fun p => (snd p =? Z.of_nat j)%Z) h).
  (** the first one twice *)
  Definition doubled (xs : list (list (F A))) : list (list (F A)) := match xs with [] => [] | x :: _ => x :: xs end.

  (** ** One call *)
  Lemma place_new d k r (o : iSIL (A := A)) : SLD d k o -> length (sl_heap o r) = d ->
    exists o1, iSIL_place r (Z.of_nat k) o = (o1, Ok tt) /\
      sl_sizes o1 = upd k (1 + 1) (sl_sizes o ++ [1]) /\ sl_centers o1 = upd k (cu_v (sl_heap o r) (sl_heap o r) 1) (sl_centers o ++ [sl_heap o r]) /\
      sl_CP o1 = sl_CP o ++ [norm22 (sl_heap o r)].
  Proof.
    intros (H1 & H2 & H3 & H4 & H5 & H6 & H7 & H8 & H9) Hr. unfold iSIL_place. sm.
    rewrite H3, Z.eqb_refl.
    cbn [sl_centers sl_sizes set_sl_centers set_sl_sizes set_sl_sc set_sl_b set_sl_sij set_sl_CP set_sl_g set_sl_N].
    rewrite (py_get_nat _ k (sl_heap o r)) by (rewrite nth_error_app2, <- H1, Nat.sub_diag by lia; reflexivity).
    rewrite (py_get_nat _ k 1) by (rewrite nth_error_app2, <- H3, Nat.sub_diag by lia; reflexivity).
    rewrite (center_update_eq d) by auto. cbv iota beta.
    rewrite !py_set_nat by (rewrite app_length; cbn; lia).
    eexists. split; [reflexivity|]. repeat split.
  Qed.
  Lemma place_old d k r (o : iSIL (A := A)) (i : nat) : SLD d k o -> length (sl_heap o r) = d -> i < k ->
    exists o1, iSIL_place r (Z.of_nat i) o = (o1, Ok tt) /\
      sl_sizes o1 = upd i (nth i (sl_sizes o) 0 + 1) (sl_sizes o) /\
      sl_centers o1 = upd i (cu_v (sl_heap o r) (nth i (sl_centers o) []) (nth i (sl_sizes o) 0)) (sl_centers o) /\
      sl_CP o1 = sl_CP o.
  Proof.
    intros (H1 & H2 & H3 & H4 & H5 & H6 & H7 & H8 & H9) Hr Hi. unfold iSIL_place. sm. rewrite H3.
    replace (Z.of_nat i =? Z.of_nat k)%Z with false by (symmetry; apply Z.eqb_neq; lia).
    replace (Z.of_nat k <? Z.of_nat i)%Z with false by (symmetry; apply Z.ltb_ge; lia).
    cbn [sl_centers sl_sizes set_sl_N].
    assert (Hv : length (nth i (sl_centers o) []) = d) by (rewrite Forall_forall in H2; apply H2, nth_In; lia).
    rewrite (py_get_nat (sl_centers o) i (nth i (sl_centers o) [])) by (apply nth_error_nth'; lia).
    rewrite (py_get_nat (sl_sizes o) i (nth i (sl_sizes o) 0)) by (apply nth_error_nth'; lia).
    rewrite (center_update_eq d) by auto. cbv iota beta. rewrite !py_set_nat by lia.
    eexists. split; [reflexivity|]. repeat split.
  Qed.
  Lemma cp_eq d k r (o : iSIL (A := A)) (i : nat) : SLD d k o -> length (sl_heap o r) = d -> i < k ->
    exists o1, iSIL_cp_update r (Z.of_nat i) o = (o1, Ok tt) /\ sl_sizes o1 = sl_sizes o /\ sl_centers o1 = sl_centers o /\
      sl_CP o1 = upd i (fadd (nth i (sl_CP o) f0) (norm22 (sl_heap o r))) (sl_CP o).
  Proof.
    intros (H1 & H2 & H3 & H4 & H5 & H6 & H7 & H8 & H9) Hr Hi. unfold iSIL_cp_update. sm.
    assert (Hg : length (sl_heap o (nth i (sl_g o) 0)) = d) by (apply H9, nth_In; lia).
    rewrite (py_get_nat (sl_CP o) i (nth i (sl_CP o) f0)) by (apply nth_error_nth'; lia).
    rewrite py_set_nat by lia. cbn [sl_g sl_heap set_sl_CP].
    rewrite (py_get_nat (sl_g o) i (nth i (sl_g o) 0)) by (apply nth_error_nth'; lia).
    unfold iadd. rewrite vadd_ok by lia. cbn [bindE].
    rewrite length_map2, Hg, Hr, Nat.min_id, Nat.eqb_refl.
    eexists. split; [reflexivity|]. repeat split.
  Qed.
  (** after the table, whether or not the value can be computed *)
  Lemma rest_eq d k r (o : iSIL (A := A)) (i : nat) : SLD d k o -> length (sl_heap o r) = d -> i < k ->
    let o' := fst (sbind (iSIL_table r (Z.of_nat i)) (fun _ => sbind (iSIL_cp_update r (Z.of_nat i)) (fun _ => iSIL_value (Z.of_nat i))) o) in
    sl_sizes o' = sl_sizes o /\ sl_centers o' = sl_centers o /\ sl_g o' = sl_g o /\
    sl_CP o' = upd i (fadd (nth i (sl_CP o) f0) (norm22 (sl_heap o r))) (sl_CP o) /\
    sl_heap o' = heap_set (sl_heap o) (nth i (sl_g o) 0) (map2 fadd (sl_heap o (nth i (sl_g o) 0)) (sl_heap o r)) /\ SLD d k o'.
  Proof.
    intros W Hr Hi. destruct (sil_table_ok d k r o i W Hr) as (m & E2 & Hm & _); [lia|].
    assert (W2 : SLD d k (set_sl_sij m o)).
    { destruct W as (H1 & H2 & H3 & H4 & H5 & H6 & H7 & H8 & H9).
      split; [|split; [|split; [|split; [|split; [|split; [|split; [|split]]]]]]]; cbn; auto. }
    destruct (sil_cp_ok d k r _ i W2 Hr Hi) as (o3 & E3 & W3 & _ & Eg3 & Eh3).
    destruct (cp_eq d k r _ i W2 Hr Hi) as (o3' & E3' & S3 & C3 & P3). rewrite E3 in E3'. injection E3' as <-.
    cbv zeta. set (o' := fst _).
    assert (Eo : o' = fst (iSIL_value (Z.of_nat i) o3)) by (unfold o'; unfold sbind at 1; rewrite E2; unfold sbind at 1; now rewrite E3).
    clearbody o'. subst o'.
    pose (P := fun s : iSIL (A := A) => sl_sizes s = sl_sizes o3 /\ sl_centers s = sl_centers o3 /\ sl_g s = sl_g o3 /\ sl_CP s = sl_CP o3 /\ sl_heap s = sl_heap o3 /\ SLD d k s).
    assert (H : P (fst (iSIL_value (Z.of_nat i) o3))).
    { assert (HT : tri P (iSIL_value (Z.of_nat i)) (fun _ => P) P).
      { apply sil_value_heap. intros s y (Q1 & Q2 & Q3 & Q4 & Q5 & J1 & J2 & J3 & J4 & J5 & J6 & J7 & J8 & J9). unfold P. cbn. do 5 (split; auto).
        split; [|split; [|split; [|split; [|split; [|split; [|split; [|split]]]]]]]; cbn; auto. }
      assert (P o3) as H0 by (unfold P; do 5 (split; auto)). specialize (HT o3 H0). destruct (iSIL_value _ o3) as [s [y|e]]; exact HT. }
    destruct H as (Q1 & Q2 & Q3 & Q4 & Q5 & Q6). rewrite Q1, Q2, Q3, Q4, Q5.
    split; [exact S3|]. split; [exact C3|]. split; [exact Eg3|]. split; [exact P3|]. split; [exact Eh3|exact Q6].
  Qed.
  (** a call with a new label, and one with an old label *)
  Lemma nth_snoc_same {X} (l : list X) x z k : length l = k -> nth k (l ++ [x]) z = x.
  Proof. intros <-. rewrite app_nth2, Nat.sub_diag by lia. reflexivity. Qed.
  Lemma step_eq d k r (o : iSIL (A := A)) (i : nat) : SLD d k o -> length (sl_heap o r) = d -> i <= k -> ~ In r (sl_g o) -> NoDup (sl_g o) ->
    let o' := fst (iSIL_update r (Z.of_nat i) o) in
    SLD d (if i =? k then S k else k) o' /\
    sl_g o' = (if i =? k then sl_g o ++ [r] else sl_g o) /\
    held o' i = (if i =? k then one_more (one_sample (sl_heap o r)) (sl_heap o r) else one_more (held o i) (sl_heap o r)) /\
    (forall j, j < k -> j <> i -> held o' j = held o j) /\
    (forall r', ~ In r' (sl_g o') -> sl_heap o' r' = sl_heap o r').
  Proof.
    intros W Hr Hi Hin Hnd. cbv zeta. unfold iSIL_update. pose proof W as (H1 & H2 & H3 & H4 & H5 & _).
    destruct (Nat.eqb_spec i k) as [->|Hne].
    - destruct (sil_place_new d k r o W Hr) as (o1 & E1 & W1 & Eh1 & Eg1 & _).
      destruct (place_new d k r o W Hr) as (o1' & E1' & S1 & C1 & P1). rewrite E1 in E1'. injection E1' as <-.
      set (o' := fst _). match goal with o' := fst (sbind _ ?K o) |- _ => assert (Eo : o' = fst (K tt o1)) by (unfold o'; unfold sbind at 1; now rewrite E1) end.
      clearbody o'. subst o'.
      destruct (rest_eq d (S k) r o1 k W1 ltac:(now rewrite Eh1) ltac:(lia)) as (S2 & C2 & G2 & P2 & M2 & W2).
      set (o' := fst _) in *. rewrite Eg1 in G2, M2. rewrite Eh1 in M2, P2. rewrite P1 in P2. rewrite S1 in S2. rewrite C1 in C2.
      rewrite !nth_snoc_same in M2 by auto. rewrite nth_snoc_same in P2 by auto.
      split; [exact W2|]. split; [exact G2|]. split; [|split].
      + unfold held, one_more, one_sample. cbn [a_size a_center a_CP a_g]. rewrite S2, C2, P2, M2, G2.
        rewrite !nth_upd by (rewrite app_length; cbn; lia). rewrite Nat.eqb_refl. rewrite (nth_snoc_same (sl_g o)) by auto.
        unfold heap_set. rewrite Nat.eqb_refl. reflexivity.
      + intros j Hj _. unfold held. rewrite S2, C2, P2, M2, G2, !nth_upd by (rewrite app_length; cbn; lia).
        replace (j =? k) with false by (symmetry; apply Nat.eqb_neq; lia). rewrite !app_nth1 by lia.
        unfold heap_set. replace (_ =? r) with false; [reflexivity|]. symmetry. apply Nat.eqb_neq. intros E. apply Hin. rewrite <- E. apply nth_In. lia.
      + intros r' Hr'. rewrite M2. unfold heap_set. rewrite (proj2 (Nat.eqb_neq r' r)); [reflexivity|]. intros ->. apply Hr'. rewrite G2. apply in_or_app. right. now left.
    - assert (Hik : i < k) by lia. destruct (sil_place_old d k r o i W Hr Hik) as (o1 & E1 & W1 & Eh1 & Eg1 & _).
      destruct (place_old d k r o i W Hr Hik) as (o1' & E1' & S1 & C1 & P1). rewrite E1 in E1'. injection E1' as <-.
      set (o' := fst _). match goal with o' := fst (sbind _ ?K o) |- _ => assert (Eo : o' = fst (K tt o1)) by (unfold o'; unfold sbind at 1; now rewrite E1) end.
      clearbody o'. subst o'.
      destruct (rest_eq d k r o1 i W1 ltac:(now rewrite Eh1) ltac:(lia)) as (S2 & C2 & G2 & P2 & M2 & W2).
      set (o' := fst _) in *. rewrite Eg1 in G2, M2. rewrite Eh1 in M2, P2. rewrite P1 in P2. rewrite S1 in S2. rewrite C1 in C2.
      split; [exact W2|]. split; [exact G2|]. split; [|split].
      + unfold held, one_more. cbn [a_size a_center a_CP a_g]. rewrite S2, C2, P2, M2, G2.
        rewrite !nth_upd by lia. rewrite Nat.eqb_refl. unfold heap_set. rewrite Nat.eqb_refl. reflexivity.
      + intros j Hj Hji. unfold held. rewrite S2, C2, P2, M2, G2, !nth_upd by lia.
        rewrite (proj2 (Nat.eqb_neq j i)) by auto. unfold heap_set. rewrite (proj2 (Nat.eqb_neq _ _)); [reflexivity|].
        intros E. apply Hji. eapply NoDup_nth; [exact Hnd|lia|lia|exact E].
      + intros r' Hr'. rewrite M2. unfold heap_set. rewrite (proj2 (Nat.eqb_neq _ _)); [reflexivity|]. intros ->. apply Hr'. rewrite G2. apply nth_In. lia.
  Qed.

  Lemma proper_snoc h r l : proper (h ++ [(r, l)]) -> proper h /\ ~ In r (map fst h) /\ (0 <= l <= Z.of_nat (started (map snd h)))%Z.
  Proof.
    intros [H1 H2]. rewrite map_app in H1. cbn in H1. apply NoDup_remove in H1. rewrite app_nil_r in H1. destruct H1 as [H1 H3].
    split; [split; [exact H1|]|split; [exact H3|]].
    - intros p r' l' q ->. apply (H2 p r' l' (q ++ [(r, l)])). now rewrite <- app_assoc.
    - apply (H2 h r l []). reflexivity.
  Qed.
  Lemma of_snoc (m : nat -> list (F A)) h r l j : of_cluster m (h ++ [(r, l)]) j = of_cluster m h j ++ (if (l =? Z.of_nat j)%Z then [m r] else []).
  Proof. unfold of_cluster. rewrite filter_app, map_app. cbn [filter snd]. now destruct (l =? _)%Z. Qed.
  Lemma right_snoc (xs : list (list (F A))) x : xs <> [] -> right_account (xs ++ [x]) = one_more (right_account xs) x.
  Proof. destruct xs as [|y xs]; [congruence|]. intros _. cbn. now rewrite fold_left_app. Qed.
  Lemma doubled_snoc (xs : list (list (F A))) x : xs <> [] -> doubled (xs ++ [x]) = doubled xs ++ [x].
  Proof. destruct xs; [congruence|reflexivity]. Qed.
  (** the invariant *)
  Lemma account_history d (m : nat -> list (F A)) h : (forall r, length (m r) = d) -> proper h ->
    let o := chist_after call (iSIL_init m) h in let k := started (map snd h) in
    SLD d k o /\ NoDup (sl_g o) /\ (forall r, In r (sl_g o) -> In r (map fst h)) /\
    (forall r, ~ In r (sl_g o) -> sl_heap o r = m r) /\
    (forall j, of_cluster m h j <> [] <-> j < k) /\
    (forall j, j < k -> held o j = right_account (doubled (of_cluster m h j))).
  Proof.
    intros Hm. induction h as [|[r l] h IH] using rev_ind; intros Hp; cbv zeta.
    - cbn. split; [apply SLD_init|]. split; [constructor|]. split; [tauto|]. split; [auto|]. split; [|lia]. intros j. cbn. split; [congruence|lia].
    - apply proper_snoc in Hp as (Hp & Hr & Hl). destruct (IH Hp) as (W & Nd & Hin & Hh & Ho & Ha). clear IH.
      rewrite chist_after_snoc, (map_app snd). cbn [map snd]. rewrite !started_snoc.
      set (o := chist_after call (iSIL_init m) h) in *. set (k := started (map snd h)) in *.
      assert (Hrg : ~ In r (sl_g o)) by (intros H; apply Hr, Hin, H).
      assert (Hlen : length (sl_heap o r) = d) by (rewrite Hh; auto).
      unfold call. cbn [fst snd]. set (i := Z.to_nat l). assert (El : l = Z.of_nat i) by (unfold i; lia). clearbody i. subst l.
      destruct (step_eq d k r o i W Hlen ltac:(lia) Hrg Nd) as (W' & G' & A1 & A2 & M').
      set (o' := fst (iSIL_update r (Z.of_nat i) o)) in *. rewrite (Hh r Hrg) in A1.
      assert (Eb : (Z.of_nat i =? Z.of_nat k)%Z = (i =? k)) by (destruct (Nat.eqb_spec i k); [subst; apply Z.eqb_refl|apply Z.eqb_neq; lia]).
      rewrite Eb.
      split; [exact W'|]. split; [|split; [|split; [|split]]].
      + rewrite G'. destruct (i =? k); auto.
        clear - Nd Hrg. induction (sl_g o) as [|a g IHg]; cbn; [constructor; [tauto|constructor]|].
        inversion Nd; subst. constructor; [|apply IHg; auto; intros H; apply Hrg; now right].
        rewrite in_app_iff. cbn. intros [H|[H|[]]]; [tauto|]. apply Hrg. left. auto.
      + intros r' H. rewrite map_app. apply in_or_app. rewrite G' in H. destruct (i =? k); [apply in_app_or in H as [H|[->|[]]]|]; auto. right. now left.
      + intros r' H. rewrite M' by auto. apply Hh. intros H'. apply H. rewrite G'. destruct (i =? k); auto. apply in_or_app. auto.
      + intros j. rewrite of_snoc. destruct (Z.eqb_spec (Z.of_nat i) (Z.of_nat j)) as [E|E].
        * assert (j = i) as -> by lia. split; [intros _|intros _; destruct (of_cluster m h i); discriminate]. destruct (Nat.eqb_spec i k); lia.
        * rewrite app_nil_r, (Ho j). destruct (Nat.eqb_spec i k); lia.
      + intros j Hj. rewrite of_snoc. destruct (Z.eqb_spec (Z.of_nat i) (Z.of_nat j)) as [E|E].
        * assert (j = i) as -> by lia. rewrite A1. destruct (Nat.eqb_spec i k) as [->|Hne].
          -- assert (En : of_cluster m h k = []) by (destruct (of_cluster m h k) eqn:Ec; auto; exfalso; assert (k < k) by (apply Ho; congruence); lia).
             rewrite En. reflexivity.
          -- assert (i < k) by lia. assert (of_cluster m h i <> []) by (apply Ho; lia). rewrite Ha, doubled_snoc, right_snoc; auto.
             destruct (of_cluster m h i); [congruence|discriminate].
        * rewrite app_nil_r. assert (j < k) by (destruct (Nat.eqb_spec i k); lia). rewrite A2 by lia. auto.
  Qed.
End S.

(** ** The theorems *)
(** In every arithmetic: what the object holds of a cluster is the account of the
    samples of that cluster with the first one taken twice (v0.py:849-865 enter
    it, and :870-876 and :894 enter it again).  Calls that raise, such as those
    before there are two clusters, are included. *)
Theorem C95_first_twice (A : Arith) (d : nat) (m : nat -> list (F A)) (h : list (nat * Z)) (j : nat) :
  (forall r, length (m r) = d) -> proper h -> j < started (map snd h) ->
  let xs := of_cluster m h j in
  xs <> [] /\ held (chist_after call (iSIL_init m) h) j = right_account (doubled xs).
Proof.
  intros Hm Hp Hj xs. destruct (account_history d m h Hm Hp) as (_ & _ & _ & _ & Ho & Ha). split; [now apply Ho|]. now apply Ha.
Qed.
Print Assumptions C95_first_twice.

(** In exact arithmetic these are the number, the mean, the sum of the squared
    norms and the sum of the samples, the first one taken twice. *)
Lemma right_account_exact d (ys : list point) : ys <> [] -> rows d ys ->
  right_account (A := XR) (map (map Fin) ys) = mkaccount (A := XR) (length ys) (map Fin (centroid d ys)) (Fin (norms ys)) (map Fin (sums d ys)).
Proof.
  induction ys as [|x ys IH] using rev_ind; [congruence|]. intros _ Hr. apply Forall_app in Hr as [Hr Hx]. apply Forall_inv in Hx.
  destruct ys as [|y ys].
  - cbn [app map right_account fold_left length]. unfold one_sample. change (map Fin x) with (fin x). rewrite norm22_fin. f_equal.
    + unfold centroid. cbn [map length INR]. change (map Fin) with fin. f_equal. rewrite <- (map_seq_nth x 0%R) at 1. rewrite Hx. apply map_ext. intros a. unfold rsum. cbn. field.
    + rewrite norms_sumsq. unfold sumsq. cbn. f_equal. unfold rsum. cbn. lra.
    + unfold sums. cbn [map]. change (map Fin) with fin. f_equal. rewrite <- (map_seq_nth x 0%R) at 1. rewrite Hx. apply map_ext. intros a. unfold rsum. cbn. ring.
  - set (zs := y :: ys) in *. rewrite map_app. etransitivity; [apply (right_snoc (A := XR) (map (map Fin) zs) (map Fin x)); discriminate|].
    rewrite IH by (auto; discriminate).
    unfold one_more. cbn [a_size a_center a_CP a_g]. change (map Fin) with fin.
    f_equal.
    + rewrite app_length. reflexivity.
    + apply (cu_v_fin d zs x); auto. discriminate.
    + rewrite norm22_fin, !norms_sumsq. unfold sumsq. rewrite map_app, rsum_app. cbn [map]. rewrite rsum_cons. change (rsum []) with 0%R. rewrite Rplus_0_r. reflexivity.
    + rewrite add_fin. f_equal. unfold sums. rewrite <- (map_seq_nth x 0%R) at 1. rewrite Hx. clear.
      induction (seq 0 d) as [|a l IH]; cbn [map map2]; auto. f_equal; auto. rewrite map_app, rsum_app. cbn [map]. rewrite rsum_cons. change (rsum []) with 0%R. now rewrite Rplus_0_r.
Qed.
Theorem C95_exact (d : nat) (m : nat -> point) (h : list (nat * Z)) (j : nat) :
  (forall r, length (m r) = d) -> proper h -> j < started (map snd h) ->
  let ys := map (fun p => m (fst p)) (filter (fun p => (snd p =? Z.of_nat j)%Z) h) in
  let zs := hd [] ys :: ys in
  let o := chist_after call (iSIL_init (A := XR) (fun r => map Fin (m r))) h in
  nth j (sl_sizes o) 0 = length ys + 1 /\ nth j (sl_centers o) [] = map Fin (centroid d zs) /\
  nth j (sl_CP o) f0 = Fin (norms zs) /\ sl_heap o (nth j (sl_g o) 0) = map Fin (sums d zs).
Proof.
  intros Hm Hp Hj ys zs o. destruct (C95_first_twice XR d (fun r => map Fin (m r)) h j) as [Hn E]; auto.
  { intros r. now rewrite map_length. }
  cbv zeta in E, Hn. assert (Ey : of_cluster (A := XR) (fun r => map Fin (m r)) h j = map (map Fin) ys) by (unfold of_cluster, ys; now rewrite map_map).
  rewrite Ey in E, Hn. assert (Hy : ys <> []) by (destruct ys; [cbn in Hn; congruence|discriminate]).
  assert (Ed : doubled (A := XR) (map (map Fin) ys) = map (map Fin) zs) by (unfold zs; destruct ys; [congruence|reflexivity]).
  rewrite Ed, (right_account_exact d) in E.
  - unfold held in E. fold o in E. assert (E1 := f_equal a_size E). assert (E2 := f_equal a_center E). assert (E3 := f_equal a_CP E). assert (E4 := f_equal a_g E).
    cbn [a_size a_center a_CP a_g] in *. unfold zs in E1. cbn [length] in E1. repeat split; auto. rewrite E1. lia.
  - discriminate.
  - assert (rows d ys) as Hr by (unfold rows, ys; apply Forall_map, Forall_forall; intros; apply Hm). constructor; auto. destruct ys; [congruence|]. now inversion Hr.
Qed.
Print Assumptions C95_exact.

(** So the account is not the right one: with 0 | 3 in cluster 0 and 1 in cluster
    1 the object holds 3 samples of mean 1 and 2 samples with sum 2. *)
Definition ex_m (r : nat) : point := nth r [[0]; [3]; [1]]%R [0]%R.
Definition ex_h : list (nat * Z) := [(0, 0%Z); (2, 1%Z); (1, 0%Z)].
Lemma ex_proper : proper ex_h.
Proof.
  split; [repeat constructor; cbn; intuition discriminate|].
  intros p r l q E. unfold ex_h in E. destruct p as [|p0 [|p1 [|p2 p]]]; injection E as; subst; cbn; try lia. destruct p; discriminate.
Qed.
Theorem C95_refuted : exists (m : nat -> point) (h : list (nat * Z)), proper h /\
  let o := chist_after call (iSIL_init (A := XR) (fun r => map Fin (m r))) h in
  map (fun p => m (fst p)) (filter (fun p => (snd p =? 0)%Z) h) = [[0]; [3]]%R /\ sl_sizes o = [3; 2] /\ nth 0 (sl_centers o) [] = [Fin 1] /\
  map (fun p => m (fst p)) (filter (fun p => (snd p =? 1)%Z) h) = [[1]]%R /\ sl_heap o (nth 1 (sl_g o) 0) = [Fin 2] /\ nth 1 (sl_CP o) f0 = Fin 2.
Proof.
  exists ex_m, ex_h. split; [exact ex_proper|]. intros o.
  assert (Hm : forall r, length (ex_m r) = 1) by (intros [|[|[|[|r]]]]; reflexivity).
  assert (Hs : started (map snd ex_h) = 2) by reflexivity.
  destruct (C95_exact 1 ex_m ex_h 0 Hm ex_proper) as (E1 & E2 & _ & _); [rewrite Hs; lia|].
  destruct (C95_exact 1 ex_m ex_h 1 Hm ex_proper) as (F1 & _ & F3 & F4); [rewrite Hs; lia|].
  destruct (account_history (A := XR) 1 (fun r => map Fin (ex_m r)) ex_h) as ((_ & _ & L & _) & _); [intros r; rewrite map_length; apply Hm|exact ex_proper|].
  fold o in E1, E2, F1, F3, F4, L. rewrite Hs in L. clearbody o.
  split; [reflexivity|]. split.
  { destruct (sl_sizes o) as [|a [|b [|c l]]]; try discriminate. cbn in E1, F1. now subst. }
  split; [rewrite E2; unfold centroid; cbn; do 2 f_equal; unfold rsum; cbn; lra|].
  split; [reflexivity|]. split; [rewrite F4; unfold sums; cbn; do 2 f_equal; unfold rsum; cbn; lra|].
  rewrite F3. unfold norms. cbn. f_equal. unfold rsum. cbn. lra.
Qed.
Print Assumptions C95_refuted.
