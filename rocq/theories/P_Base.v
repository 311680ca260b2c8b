(** * The exported base class and label map: C54, C55 *)
From Coq Require Import ZArith List Arith Bool Lia.
From Verif Require Import Num NumPy Base GetCvi Lists Hoare Stream Generic BaseCls.
Import ListNotations.

(** ** C54: an object of the base class CVI *)
(** every call raises and nothing is ever stored *)
Theorem C54_base_class_refuses (A : Arith) (h : list (call A)) :
  fst (base_run new_obj h) = new_obj /\ Forall (fun r => exists e, r = Err e) (snd (base_run new_obj h)).
Proof.
  induction h as [|[d l] h IH]; [split; [reflexivity|constructor]|]. cbn [base_run].
  assert (E : exists e, base_get_cvi (A := A) new_obj d l = (new_obj, Err e)).
  { unfold base_get_cvi. destruct d; eauto. cbn [at_ new_obj init_attrs is_setup]. destruct (negb _); eauto. }
  destruct E as [e ->]. destruct (base_run new_obj h) as [o rs]. cbn [fst snd] in *. destruct IH. split; eauto.
Qed.
Print Assumptions C54_base_class_refuses.
(** a sample, and a batch with two labels or more, get NotImplementedError; the
    rest gets ValueError *)
Theorem C54_which_exception (A : Arith) (d : data_arg A) (l : label_arg) :
  snd (base_get_cvi new_obj d l) =
  Err match d with
      | Vec _ => NotImplementedError
      | Mat _ => match l with
                 | Labs ls => if 2 <=? length (nodup Z.eq_dec ls) then NotImplementedError else ValueError
                 | Lab _ => ValueError
                 end
      | Nd _ => ValueError
      end.
Proof.
  destruct d; try reflexivity. destruct l as [l|ls]; [reflexivity|].
  unfold base_get_cvi. cbn [at_ new_obj init_attrs is_setup unique_labels]. unfold n_unique.
  destruct (Nat.ltb_spec 1 (length (nodup Z.eq_dec ls))), (Nat.leb_spec 2 (length (nodup Z.eq_dec ls))); try lia; reflexivity.
Qed.
Print Assumptions C54_which_exception.
Example C54_case (A : Arith) : map (fun r => match r with Ok _ => None | Err e => Some e end)
    (snd (base_run (A := A) new_obj [(Vec [f1], Lab 0%Z); (Mat (mkMat 1 [[f1]; [f0]]), Labs [0%Z; 1%Z]); (Mat (mkMat 1 [[f1]]), Labs [0%Z])]))
  = [Some NotImplementedError; Some NotImplementedError; Some ValueError].
Proof. reflexivity. Qed.

(** ** C55: LabelMap numbers labels 0, 1, 2, ... in order of first appearance *)
(** position of the first call with label [l] *)
Fixpoint first_call (l : Z) (ls : list Z) : nat :=
  match ls with [] => 0 | a :: ls' => if Z.eqb a l then 0 else S (first_call l ls') end.
(** number of different labels in [ls] *)
Definition different (ls : list Z) : nat := length (nodup Z.eq_dec ls).
Lemma add_label_index l fs a : In l fs -> index l (add_label fs a) = index l fs.
Proof.
  unfold add_label. destruct (in_dec Z.eq_dec a fs); auto. clear. intros H. induction fs as [|b fs IH]; [destruct H|].
  cbn. destruct (Z.eqb_spec b l); auto. destruct H; [contradiction|]. now rewrite IH.
Qed.
Lemma add_labels_index l ls fs : In l fs -> index l (fold_left add_label ls fs) = index l fs /\ In l (fold_left add_label ls fs).
Proof.
  revert fs; induction ls as [|a ls IH]; intros fs H; [auto|]. cbn [fold_left].
  assert (In l (add_label fs a)) by (unfold add_label; destruct (in_dec _ _ _); auto; apply in_or_app; auto).
  destruct (IH _ H0) as [H1 H2]. split; auto. rewrite H1. now apply add_label_index.
Qed.
Lemma map_run_lmap ls fs : map_run (lmap fs) ls =
  (lmap (fold_left add_label ls fs), map (fun l => index l (fold_left add_label ls fs)) ls).
Proof.
  revert fs; induction ls as [|a ls IH]; intros fs; [reflexivity|]. cbn [map_run fold_left map].
  rewrite lmap_get, IH. f_equal. f_equal. symmetry.
  assert (Ha : In a (add_label fs a)) by (unfold add_label; destruct (in_dec _ _ _); auto; apply in_or_app; right; now left).
  rewrite (proj1 (add_labels_index a ls _ Ha)). unfold add_label. destruct (in_dec Z.eq_dec a fs) as [H|H]; auto.
  rewrite (index_notIn a fs H). clear -H. induction fs as [|b fs IH]; cbn; [now rewrite Z.eqb_refl|].
  destruct (Z.eqb_spec b a) as [->|]; [exfalso; apply H; now left|]. rewrite IH; auto. intros HH; apply H; now right.
Qed.
Lemma first_call_split l ls : In l ls -> exists ls2, ls = firstn (first_call l ls) ls ++ l :: ls2 /\ ~ In l (firstn (first_call l ls) ls).
Proof.
  induction ls as [|a ls IH]; [intros []|]. intros H. cbn [first_call]. destruct (Z.eqb_spec a l) as [->|Hn].
  - exists ls. cbn. auto.
  - destruct H as [H|H]; [contradiction|]. destruct (IH H) as (ls2 & E & Hx). exists ls2. cbn [firstn]. split.
    + cbn [app]. f_equal. exact E.
    + intros [|]; auto.
Qed.
Lemma index_first_seen l ls : In l ls -> index l (first_seen ls) = different (firstn (first_call l ls) ls).
Proof.
  intros H. destruct (first_call_split l ls H) as (ls2 & E & Hx). set (ls1 := firstn _ _) in *.
  rewrite E. unfold first_seen. rewrite fold_left_app. cbn [fold_left]. change (fold_left add_label ls1 []) with (first_seen ls1).
  assert (Hf : ~ In l (first_seen ls1)) by (now rewrite first_seen_In).
  assert (Ha : In l (add_label (first_seen ls1) l)).
  { unfold add_label. destruct (in_dec _ _ _); auto. apply in_or_app; right; now left. }
  rewrite (proj1 (add_labels_index l ls2 _ Ha)). unfold add_label. destruct (in_dec _ _ _); [contradiction|].
  unfold different. rewrite <- first_seen_length. clear -Hf. induction (first_seen ls1) as [|b fs IH]; cbn; [now rewrite Z.eqb_refl|].
  destruct (Z.eqb_spec b l) as [->|]; [exfalso; apply Hf; now left|]. rewrite IH; auto. intros HH; apply Hf; now right.
Qed.

(** the number of a label is the number of different labels before its first call *)
Theorem C55_numbers (ls : list Z) (i : nat) (l : Z) : nth_error ls i = Some l ->
  nth_error (snd (map_run [] ls)) i = Some (different (firstn (first_call l ls) ls)).
Proof.
  intros H. change ([] : labelmap) with (lmap []). rewrite map_run_lmap. cbn [snd].
  rewrite (map_nth_error _ _ _ H). f_equal. apply index_first_seen. eapply nth_error_In; eauto.
Qed.
Print Assumptions C55_numbers.
(** so two calls get the same number exactly when they have the same label *)
Theorem C55_same_number_iff (ls : list Z) (i j : nat) (a b : Z) :
  nth_error ls i = Some a -> nth_error ls j = Some b ->
  (nth_error (snd (map_run [] ls)) i = nth_error (snd (map_run [] ls)) j <-> a = b).
Proof.
  intros Ha Hb. change ([] : labelmap) with (lmap []). rewrite map_run_lmap. cbn [snd].
  rewrite (map_nth_error _ _ _ Ha), (map_nth_error _ _ _ Hb). split; [|now intros ->].
  intros [= E]. change (fold_left add_label ls []) with (first_seen ls) in E.
  apply nth_error_In in Ha, Hb. rewrite <- first_seen_In in Ha, Hb.
  rewrite <- (proj2 (index_In a _ Ha)), <- (proj2 (index_In b _ Hb)). now rewrite E.
Qed.
Print Assumptions C55_same_number_iff.
(** and the numbers given out are exactly those below the number of different labels *)
Theorem C55_consecutive (ls : list Z) (n : nat) : In n (snd (map_run [] ls)) <-> n < different ls.
Proof.
  change ([] : labelmap) with (lmap []). rewrite map_run_lmap. cbn [snd].
  change (fold_left add_label ls []) with (first_seen ls). unfold different. rewrite <- first_seen_length. split.
  - intros H. apply in_map_iff in H as (l & <- & Hl). apply index_In. now apply first_seen_In.
  - intros H. apply in_map_iff. exists (nth n (first_seen ls) 0%Z). split.
    + apply index_nth; auto using first_seen_NoDup.
    + apply first_seen_In, nth_In, H.
Qed.
Print Assumptions C55_consecutive.
Example C55_case : snd (map_run [] [7; -3; 7; 0; -3]%Z) = [0; 1; 0; 2; 1] /\
  different (firstn (first_call 0 [7; -3; 7; 0; -3]%Z) [7; -3; 7; 0; -3]%Z) = 2 /\ different [7; -3; 7; 0; -3]%Z = 3.
Proof. repeat split. Qed.
