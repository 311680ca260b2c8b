(** * Two runs of the same program on related numbers: arrays

    [A] and [B] are two arithmetics.  If the entries of two arrays are related
    one by one, so are the results of the array operations. *)
From Coq Require Import ZArith List Arith Bool Lia.
From Verif Require Import Num NumPy.
Import ListNotations.

(** related results: both numbers, related, or the same exception *)
Definition rE {X Y} (R : X -> Y -> Prop) (a : E X) (b : E Y) : Prop :=
  match a, b with Ok x, Ok y => R x y | Err e, Err e' => e = e' | _, _ => False end.
Definition rpair {X Y X' Y'} (R : X -> Y -> Prop) (R' : X' -> Y' -> Prop) (p : X * X') (q : Y * Y') : Prop :=
  R (fst p) (fst q) /\ R' (snd p) (snd q).

Section Lists.
  Context {X Y : Type} (R : X -> Y -> Prop).
  Lemma rE_ok x y : R x y -> rE R (Ok x) (Ok y). Proof. auto. Qed.
  Lemma rE_mono (R' : X -> Y -> Prop) a b : (forall x y, R x y -> R' x y) -> rE R a b -> rE R' a b.
  Proof. destruct a, b; cbn; auto. Qed.
  Lemma par_length a b : Forall2 R a b -> length a = length b.
  Proof. induction 1; cbn; auto. Qed.
  Lemma par_nth_error a b i : Forall2 R a b ->
    match nth_error a i, nth_error b i with Some x, Some y => R x y | None, None => True | _, _ => False end.
  Proof. intros H. revert i. induction H; intros [|i]; cbn; auto. apply IHForall2. Qed.
  Lemma par_get_item a b i : Forall2 R a b -> rE R (get_item a i) (get_item b i).
  Proof. intros H. unfold get_item. pose proof (par_nth_error a b i H). destruct (nth_error a i), (nth_error b i); cbn; auto; contradiction. Qed.
  Lemma par_nth a b i x y : Forall2 R a b -> R x y -> R (nth i a x) (nth i b y).
  Proof. intros H E. revert i. induction H; intros [|i]; cbn; auto. Qed.
  Lemma par_upd a b i x y : Forall2 R a b -> R x y -> Forall2 R (upd i x a) (upd i y b).
  Proof. intros H E. revert i. induction H; intros [|i]; cbn; auto. Qed.
  Lemma par_set_item a b i x y : Forall2 R a b -> R x y -> rE (Forall2 R) (set_item a i x) (set_item b i y).
  Proof. intros H E. unfold set_item. rewrite (par_length a b H). destruct (i <? length b); cbn; auto. now apply par_upd. Qed.
  Lemma par_app a b a' b' : Forall2 R a b -> Forall2 R a' b' -> Forall2 R (a ++ a') (b ++ b').
  Proof. induction 1; cbn; auto. Qed.
  Lemma par_snoc a b x y : Forall2 R a b -> R x y -> Forall2 R (a ++ [x]) (b ++ [y]).
  Proof. intros. apply par_app; auto. Qed.
  Lemma par_firstn a b i : Forall2 R a b -> Forall2 R (firstn i a) (firstn i b).
  Proof. intros H. revert i. induction H; intros [|i]; cbn; auto. Qed.
  Lemma par_skipn a b i : Forall2 R a b -> Forall2 R (skipn i a) (skipn i b).
  Proof. intros H. revert i. induction H; intros [|i]; cbn; auto. Qed.
  Lemma par_delete a b i : Forall2 R a b -> rE (Forall2 R) (np_delete a i) (np_delete b i).
  Proof.
    intros H. unfold np_delete. rewrite (par_length a b H). destruct (i <? length b); cbn; auto.
    apply par_app; [now apply par_firstn|now apply par_skipn].
  Qed.
  Lemma par_repeat x y k : R x y -> Forall2 R (repeat x k) (repeat y k).
  Proof. intros H. induction k; cbn; auto. Qed.
  Lemma par_mono (R' : X -> Y -> Prop) a b : (forall x y, R x y -> R' x y) -> Forall2 R a b -> Forall2 R' a b.
  Proof. induction 2; auto. Qed.
  Lemma par_fold (f : X -> X -> X) (g : Y -> Y -> Y) a b : (forall x y x' y', R x y -> R x' y' -> R (f x x') (g y y')) ->
    Forall2 R a b -> forall x y, R x y -> R (fold_left f a x) (fold_left g b y).
  Proof. intros Hf. induction 1; cbn; auto. Qed.
  Lemma par_concat a b : Forall2 (Forall2 R) a b -> Forall2 R (concat a) (concat b).
  Proof. induction 1; cbn; auto. now apply par_app. Qed.
  Lemma par_seq (f : nat -> X) (g : nat -> Y) l : (forall i, In i l -> R (f i) (g i)) -> Forall2 R (map f l) (map g l).
  Proof. induction l; cbn; auto. Qed.
  Lemma par_mapE_seq {I} (f : I -> E X) (g : I -> E Y) l : (forall i, In i l -> rE R (f i) (g i)) -> rE (Forall2 R) (mapE f l) (mapE g l).
  Proof.
    induction l as [|i l IH]; cbn; intros H; auto. pose proof (H i (or_introl eq_refl)). destruct (f i), (g i); cbn in *; auto; try contradiction.
    pose proof (IH (fun j Hj => H j (or_intror Hj))). destruct (mapE f l), (mapE g l); cbn in *; auto; contradiction.
  Qed.
  Lemma par_flat_map (f : nat -> list X) (g : nat -> list Y) l : (forall i, In i l -> Forall2 R (f i) (g i)) -> Forall2 R (flat_map f l) (flat_map g l).
  Proof. induction l; cbn; auto. intros H. apply par_app; auto. Qed.
End Lists.
Lemma par_map {X Y X' Y'} (R : X -> Y -> Prop) (R' : X' -> Y' -> Prop) f g a b :
  (forall x y, R x y -> R' (f x) (g y)) -> Forall2 R a b -> Forall2 R' (map f a) (map g b).
Proof. induction 2; cbn; auto. Qed.
Lemma par_map2 {X Y X' Y' X'' Y''} (R : X -> Y -> Prop) (R' : X' -> Y' -> Prop) (R'' : X'' -> Y'' -> Prop) f g a b a' b' :
  (forall x y x' y', R x y -> R' x' y' -> R'' (f x x') (g y y')) -> Forall2 R a b -> Forall2 R' a' b' ->
  Forall2 R'' (map2 f a a') (map2 g b b').
Proof. intros Hf H. revert a' b'. induction H; intros a' b' H'; cbn; auto. destruct H'; cbn; auto. Qed.
Lemma par_bindE {X Y X' Y'} (R : X -> Y -> Prop) (R' : X' -> Y' -> Prop) a b f g :
  rE R a b -> (forall x y, R x y -> rE R' (f x) (g y)) -> rE R' (bindE a f) (bindE b g).
Proof. destruct a, b; cbn; auto; contradiction. Qed.
Lemma par_fst {X Y X' Y'} (R : X -> Y -> Prop) (R' : X' -> Y' -> Prop) l l' : Forall2 (rpair R R') l l' -> Forall2 R (map fst l) (map fst l').
Proof. apply par_map. now intros x y []. Qed.
Lemma par_snd {X Y X' Y'} (R : X -> Y -> Prop) (R' : X' -> Y' -> Prop) l l' : Forall2 (rpair R R') l l' -> Forall2 R' (map snd l) (map snd l').
Proof. apply par_map. now intros x y []. Qed.

Section Arrays.
  Context {A B : Arith}.
  Notation rel := (F A -> F B -> Prop).
  Definition rmat (R : rel) (m : mat A) (m' : mat B) : Prop := mcols m = mcols m' /\ Forall2 (Forall2 R) (mrows m) (mrows m').
  Section One.
    Context (R : rel) (R0 : R f0 f0).
    Lemma par_zeros k : Forall2 R (zeros k) (zeros k). Proof. now apply par_repeat. Qed.
    Lemma par_zmat r c : rmat R (zmat r c) (zmat r c). Proof. split; auto. apply par_repeat, par_zeros. Qed.
    Lemma par_nrows m m' : rmat R m m' -> nrows m = nrows m'. Proof. intros [_ H]. now apply par_length in H. Qed.
    Lemma par_vstack m m' r r' : rmat R m m' -> Forall2 R r r' -> rE (rmat R) (vstack m r) (vstack m' r').
    Proof.
      intros [H1 H2] Hr. unfold vstack. rewrite (par_length R r r' Hr), H1. destruct (length r' =? mcols m'); cbn; auto. split; cbn; auto.
      now apply par_app; auto.
    Qed.
    Lemma par_row m m' i : rmat R m m' -> rE (Forall2 R) (row m i) (row m' i).
    Proof. intros [_ H]. now apply par_get_item. Qed.
    Lemma par_nthrow m m' i : rmat R m m' -> Forall2 R (nth i (mrows m) []) (nth i (mrows m') []).
    Proof. intros [_ H]. apply par_nth; auto. Qed.
    Lemma par_entry m m' i j : rmat R m m' -> R (entry m i j) (entry m' i j).
    Proof. intros H. unfold entry. apply par_nth; auto. now apply par_nthrow. Qed.
    Lemma par_get2 m m' i j : rmat R m m' -> rE R (get2 m i j) (get2 m' i j).
    Proof. intros H. unfold get2. rewrite (par_nrows m m' H), (proj1 H). destruct (_ && _); cbn; auto. now apply par_entry. Qed.
    Lemma par_set_row m m' i r r' : rmat R m m' -> Forall2 R r r' -> rE (rmat R) (set_row m i r) (set_row m' i r').
    Proof.
      intros H Hr. unfold set_row. rewrite (par_nrows m m' H), (par_length R r r' Hr), (proj1 H). destruct (i <? nrows m'); cbn; auto.
      destruct (length r' =? mcols m'); cbn; [split; cbn; [auto|apply par_upd; [apply H|auto]]|].
      destruct Hr as [|x y l l' Hx Hl]; cbn; auto. destruct Hl; cbn; auto. split; cbn; [auto|]. rewrite ?(proj1 H). apply par_upd; [apply H|]. now apply par_repeat.
    Qed.
    Lemma par_set_col m m' i r r' : rmat R m m' -> Forall2 R r r' -> rE (rmat R) (set_col m i r) (set_col m' i r').
    Proof.
      intros H Hr. unfold set_col. rewrite (par_nrows m m' H), (par_length R r r' Hr), (proj1 H). destruct (i <? mcols m'); cbn; auto.
      destruct (length r' =? nrows m'); cbn.
      - split; cbn; [auto|]. apply (par_map2 R (Forall2 R)); auto; [|apply H]. intros. now apply par_upd.
      - destruct Hr as [|x y l l' Hx Hl]; cbn; auto. destruct Hl; cbn; auto. split; cbn; [auto|]. apply (par_map (Forall2 R)); [|apply H]. intros. now apply par_upd.
    Qed.
    Lemma par_col m m' j : rmat R m m' -> Forall2 R (col m j) (col m' j).
    Proof. intros [_ H]. unfold col. apply (par_map (Forall2 R)); auto. intros. now apply par_nth. Qed.
    Lemma par_get_col m m' j : rmat R m m' -> rE (Forall2 R) (get_col m j) (get_col m' j).
    Proof. intros H. unfold get_col. rewrite (proj1 H). destruct (j <? mcols m'); cbn; auto. now apply par_col. Qed.
    Lemma par_transpose m m' : rmat R m m' -> rmat R (transpose m) (transpose m').
    Proof. intros H. split; cbn; [now apply par_nrows|]. rewrite (proj1 H). apply par_seq. intros. now apply par_col. Qed.
    Lemma par_tab2 r c f g : (forall i j, R (f i j) (g i j)) -> rmat R (tab2 r c f) (tab2 r c g).
    Proof. intros H. split; cbn; auto. apply par_seq. intros. apply par_seq. auto. Qed.
    Lemma par_grow k m m' : rmat R m m' -> rE (rmat R) (grow k m) (grow k m').
    Proof.
      intros H. unfold grow. rewrite (par_nrows m m' H), (proj1 H). destruct (_ && _); cbn [rE]; auto. apply par_tab2. intros i j.
      destruct (_ && _); auto. now apply par_entry.
    Qed.
    Lemma par_take m m' idx : rmat R m m' -> rE (rmat R) (take_rows m idx) (take_rows m' idx).
    Proof.
      intros H. unfold take_rows. apply (par_bindE (Forall2 (Forall2 R))).
      - apply par_mapE_seq. intros. now apply par_row.
      - intros rs rs' Hr. split; auto. apply H.
    Qed.
    Lemma par_triu m m' : rmat R m m' -> Forall2 R (triu_values m) (triu_values m').
    Proof. intros H. unfold triu_values. rewrite (par_nrows m m' H), (proj1 H). apply par_flat_map. intros. apply par_seq. intros. now apply par_entry. Qed.
    Lemma par_triu_mask k m m' : rmat R m m' -> rE (Forall2 R) (triu_mask_values k m) (triu_mask_values k m').
    Proof. intros H. unfold triu_mask_values. rewrite (par_nrows m m' H), (proj1 H). destruct (_ && _); cbn; auto. now apply par_triu. Qed.
    Lemma par_triu_indices m m' : rmat R m m' -> rE (Forall2 R) (triu_indices_values m) (triu_indices_values m').
    Proof.
      intros H. unfold triu_indices_values. rewrite (par_nrows m m' H), (proj1 H). destruct (_ <? _); cbn [rE]; auto.
      apply par_flat_map. intros. apply par_seq. intros. now apply par_entry.
    Qed.
    Lemma par_min l l' : (forall x y x' y', R x y -> R x' y' -> R (fminimum x x') (fminimum y y')) -> Forall2 R l l' -> rE R (np_min l) (np_min l').
    Proof. intros Hm H. destruct H; cbn; auto. now apply par_fold. Qed.
    Lemma par_max l l' : (forall x y x' y', R x y -> R x' y' -> R (fmaximum x x') (fmaximum y y')) -> Forall2 R l l' -> rE R (np_max l) (np_max l').
    Proof. intros Hm H. destruct H; cbn; auto. now apply par_fold. Qed.
    Lemma par_any m m' : (forall x y, R x y -> ftrue x = ftrue y) -> rmat R m m' -> np_any m = np_any m'.
    Proof.
      intros Ht [_ H]. unfold np_any. induction H as [|r r' l l' Hr Hl IH]; cbn; auto. rewrite IH. f_equal.
      clear -Ht Hr. induction Hr; cbn; auto. now rewrite (Ht _ _ H), IHHr.
    Qed.
  End One.
  Lemma par_mat_mono (R R' : rel) m m' : (forall x y, R x y -> R' x y) -> rmat R m m' -> rmat R' m m'.
  Proof. intros H [H1 H2]. split; auto. apply (par_mono (Forall2 R)); auto. intros. now apply (par_mono R). Qed.
  Lemma par_bc (R R' R'' : rel) f g a b a' b' : (forall x y x' y', R x y -> R' x' y' -> R'' (f x x') (g y y')) ->
    Forall2 R a b -> Forall2 R' a' b' -> rE (Forall2 R'') (bc f a a') (bc g b b').
  Proof.
    intros Hf H H'. unfold bc. rewrite (par_length R a b H), (par_length R' a' b' H'). destruct (length b =? length b'); cbn.
    - now apply (par_map2 R R').
    - assert (H0 : Forall2 R'' (map (fun x => f x (nth 0 a' f0)) a) (map (fun x => g x (nth 0 b' f0)) b) \/ a' = [] /\ b' = []).
      { destruct H' as [|x' y' l' k' Hx' Hl']; [right; auto|left]. cbn [nth]. apply (par_map R); auto. }
      destruct H as [|x y l k Hx Hl]; cbn.
      + destruct H' as [|x' y' l' k' Hx' Hl']; cbn; auto. destruct Hl'; cbn; auto.
      + destruct Hl as [|x2 y2 l2 k2 Hx2 Hl2].
        * cbn. apply (par_map R'); auto.
        * destruct H' as [|x' y' l' k' Hx' Hl']; cbn; auto. destruct Hl'; cbn; auto.
          constructor; auto. constructor; auto. apply (par_map R); auto.
  Qed.
  Lemma par_bc2 (R R' R'' : rel) f g a b a' b' : R f0 f0 -> R' f0 f0 -> (forall x y x' y', R x y -> R' x' y' -> R'' (f x x') (g y y')) ->
    rmat R a b -> rmat R' a' b' -> rE (rmat R'') (bc2 f a a') (bc2 g b b').
  Proof.
    intros H0 H0' Hf H H'. unfold bc2. rewrite (par_nrows R a b H), (par_nrows R' a' b' H'), (proj1 H), (proj1 H'). destruct (_ && _); cbn [rE]; auto.
    apply par_tab2. intros i j. apply Hf; now apply par_entry.
  Qed.
  Lemma par_mscal (R R' R'' : rel) x y m m' : (forall x y x' y', R x y -> R' x' y' -> R'' (fmul x x') (fmul y y')) ->
    R x y -> rmat R' m m' -> rmat R'' (mscal x m) (mscal y m').
  Proof. intros Hf Hx [H1 H2]. split; cbn; auto. apply (par_map (Forall2 R')); auto. intros. apply (par_map R'); auto. Qed.
  Lemma par_outer (R R' R'' : rel) a b a' b' : (forall x y x' y', R x y -> R' x' y' -> R'' (fmul x x') (fmul y y')) ->
    Forall2 R a b -> Forall2 R' a' b' -> rmat R'' (outer a a') (outer b b').
  Proof. intros Hf H H'. split; cbn; [now apply (par_length R')|]. apply (par_map R); auto. intros. apply (par_map R'); auto. Qed.
  Lemma par_gram (R R' : rel) m m' : R f0 f0 -> (forall a b a' b', Forall2 R a b -> Forall2 R a' b' -> R' (sdot a a') (sdot b b')) ->
    rmat R m m' -> rmat R' (gram m) (gram m').
  Proof. intros H0 Hf H. unfold gram. rewrite (proj1 H). apply par_tab2. intros i j. apply Hf; now apply par_col. Qed.
  Lemma par_vecmat (R R' R'' : rel) a b m m' : R' f0 f0 -> (forall a b a' b', Forall2 R a b -> Forall2 R' a' b' -> R'' (np_dot a a') (np_dot b b')) ->
    Forall2 R a b -> rmat R' m m' -> rE (Forall2 R'') (vecmat a m) (vecmat b m').
  Proof.
    intros H0 Hf H Hm. unfold vecmat. rewrite (par_length R a b H), (par_nrows R' m m' Hm), (proj1 Hm). destruct (_ =? _); cbn [rE]; auto.
    apply par_seq. intros. apply Hf; auto. now apply par_col.
  Qed.
End Arrays.
