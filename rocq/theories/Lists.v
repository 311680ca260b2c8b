(** * Facts about the list and array operations of NumPy.v (no laws on floats). *)
From Coq Require Import ZArith List Arith Bool Lia Permutation.
From Verif Require Import Num NumPy.
Import ListNotations.

Lemma length_upd {X} i (x : X) l : length (upd i x l) = length l.
Proof. revert i; induction l as [|y l IH]; intros [|i]; simpl; auto. Qed.

Lemma nth_error_upd {X} i (x : X) l j :
  nth_error (upd i x l) j =
  if (j =? i) && (i <? length l) then Some x else nth_error l j.
Proof.
  revert i j; induction l as [|y l IH]; intros i j; simpl.
  - destruct i; simpl; rewrite andb_false_r; reflexivity.
  - destruct i as [|i]; destruct j as [|j]; simpl; auto.
    rewrite IH. reflexivity.
Qed.

Lemma nth_upd {X} i (x : X) l j d :
  i < length l -> nth j (upd i x l) d = if j =? i then x else nth j l d.
Proof.
  revert i j; induction l as [|y l IH]; intros i j H; simpl in *; [lia|].
  destruct i as [|i]; destruct j as [|j]; simpl; auto.
  apply IH; lia.
Qed.

Lemma upd_app {X} (l1 l2 : list X) x y :
  upd (length l1) x (l1 ++ y :: l2) = l1 ++ x :: l2.
Proof. induction l1; simpl; congruence. Qed.

Lemma upd_oob {X} i (x : X) l : length l <= i -> upd i x l = l.
Proof. revert i; induction l; intros [|i] H; simpl in *; auto; [lia|]. f_equal; apply IHl; lia. Qed.

Lemma upd_map_seq {X} (f g : nat -> X) i k :
  (forall a, a < k -> a <> i -> g a = f a) -> i < k ->
  upd i (g i) (map f (seq 0 k)) = map g (seq 0 k).
Proof.
  intros H Hi. apply nth_ext with (d := g i) (d' := g i).
  - now rewrite length_upd, !map_length.
  - intros j Hj. rewrite length_upd, map_length, seq_length in Hj.
    rewrite nth_upd by (rewrite map_length, seq_length; lia).
    rewrite nth_indep with (d' := g 0) (l := map g _) by (rewrite map_length, seq_length; lia).
    rewrite map_nth, seq_nth by lia; simpl.
    destruct (j =? i) eqn:E; [apply Nat.eqb_eq in E; now subst|].
    apply Nat.eqb_neq in E.
    rewrite nth_indep with (d' := f 0) by (rewrite map_length, seq_length; lia).
    rewrite map_nth, seq_nth by lia; simpl. symmetry; auto.
Qed.

Lemma get_item_ok {X} (l : list X) i d : i < length l -> get_item l i = Ok (nth i l d).
Proof.
  intros H. unfold get_item. now rewrite (nth_error_nth' l d H).
Qed.

Lemma get_item_err {X} (l : list X) i : length l <= i -> get_item l i = Err IndexError.
Proof. intros H. unfold get_item. apply nth_error_None in H. now rewrite H. Qed.

Lemma set_item_ok {X} (l : list X) i x : i < length l -> set_item l i x = Ok (upd i x l).
Proof. intros H. unfold set_item. apply Nat.ltb_lt in H. now rewrite H. Qed.

Lemma mapE_ok {X Y} (f : X -> E Y) (g : X -> Y) l :
  (forall x, In x l -> f x = Ok (g x)) -> mapE f l = Ok (map g l).
Proof.
  induction l as [|x l IH]; intros H; simpl; auto.
  rewrite H by (left; reflexivity). simpl.
  rewrite IH by (intros; apply H; right; auto). reflexivity.
Qed.

Lemma mapE_inv {X Y} (f : X -> E Y) l ys :
  mapE f l = Ok ys -> length ys = length l /\ forall x, In x l -> exists y, f x = Ok y.
Proof.
  revert ys; induction l as [|x l IH]; intros ys H; simpl in H.
  - inversion H; subst; split; auto. intros x [].
  - destruct (f x) eqn:E; simpl in H; [|discriminate].
    destruct (mapE f l) eqn:E'; simpl in H; [|discriminate].
    inversion H; subst. destruct (IH _ eq_refl) as [H1 H2]. split; simpl; auto.
    intros z [<-|Hz]; eauto.
Qed.

Lemma mapE_ext {X Y} (f g : X -> E Y) l :
  (forall x, In x l -> f x = g x) -> mapE f l = mapE g l.
Proof.
  induction l as [|x l IH]; intros H; simpl; auto.
  rewrite H by (left; auto). rewrite IH by (intros; apply H; right; auto). reflexivity.
Qed.

Lemma length_map2 {X Y Z} (f : X -> Y -> Z) a b :
  length (map2 f a b) = Nat.min (length a) (length b).
Proof. revert b; induction a; intros [|y b]; simpl; auto. Qed.

Lemma map2_map {X Y Z U V} (f : X -> Y -> Z) (g : U -> X) (h : V -> Y) a b :
  map2 f (map g a) (map h b) = map2 (fun x y => f (g x) (h y)) a b.
Proof. revert b; induction a; intros [|y b]; simpl; auto. now rewrite IHa. Qed.

Lemma map2_same {X Y Z U} (f : X -> Y -> Z) (g : U -> X) (h : U -> Y) l :
  map2 f (map g l) (map h l) = map (fun u => f (g u) (h u)) l.
Proof. induction l; simpl; congruence. Qed.

Lemma map_map2 {X Y Z W} (f : X -> Y -> Z) (g : Z -> W) a b :
  map g (map2 f a b) = map2 (fun x y => g (f x y)) a b.
Proof. revert b; induction a; intros [|y b]; simpl; auto. now rewrite IHa. Qed.

Lemma nth_map2 {X Y Z} (f : X -> Y -> Z) a b i dx dy dz :
  i < length a -> i < length b ->
  nth i (map2 f a b) dz = f (nth i a dx) (nth i b dy).
Proof.
  revert b i; induction a; intros [|y b] [|i] H1 H2; simpl in *; auto; try lia.
  apply IHa; lia.
Qed.

Lemma map_seq_nth {X} (l : list X) d : map (fun i => nth i l d) (seq 0 (length l)) = l.
Proof.
  apply nth_ext with (d := d) (d' := d).
  - now rewrite map_length, seq_length.
  - intros i H. rewrite map_length, seq_length in H.
    rewrite nth_indep with (d' := nth 0 l d) by (rewrite map_length, seq_length; lia).
    rewrite (map_nth (fun i => nth i l d)). now rewrite seq_nth.
Qed.

Lemma map_as_seq {X Y} (f : X -> Y) (l : list X) d :
  map f l = map (fun i => f (nth i l d)) (seq 0 (length l)).
Proof. rewrite <- (map_seq_nth l d) at 1. now rewrite map_map. Qed.

Lemma nth_map_seq {X} (f : nat -> X) k i d : i < k -> nth i (map f (seq 0 k)) d = f i.
Proof.
  intros H. rewrite nth_indep with (d' := f 0) by (rewrite map_length, seq_length; lia).
  now rewrite map_nth, seq_nth.
Qed.

Lemma list_eq_seq {X} (l : list X) (f : nat -> X) k d :
  length l = k -> (forall i, i < k -> nth i l d = f i) -> l = map f (seq 0 k).
Proof.
  intros H1 H2. rewrite <- (map_seq_nth l d), H1. apply map_ext_in.
  intros i Hi. apply in_seq in Hi. apply H2; lia.
Qed.

(** ** Arrays *)

Section Arrays.
  Context {A : Arith}.

  Lemma bc_ok op (a b : vec A) : length a = length b -> bc op a b = Ok (map2 op a b).
  Proof. intros H. unfold bc. now rewrite H, Nat.eqb_refl. Qed.

  Lemma vsub_ok (a b : vec A) : length a = length b -> vsub a b = Ok (map2 fsub a b).
  Proof. apply bc_ok. Qed.
  Lemma vadd_ok (a b : vec A) : length a = length b -> vadd a b = Ok (map2 fadd a b).
  Proof. apply bc_ok. Qed.
  Lemma inner_ok (a b : vec A) : length a = length b -> inner a b = Ok (np_dot a b).
  Proof. intros H. unfold inner. now rewrite H, Nat.eqb_refl. Qed.
  Lemma length_scal (c : F A) a : length (scal c a) = length a.
  Proof. apply map_length. Qed.
  Lemma svadd_ok (a b : vec A) : length a = length b -> svadd a b = Ok (map2 sadd a b).
  Proof. apply bc_ok. Qed.
  Lemma sinner_ok (a b : vec A) : length a = length b -> sinner a b = Ok (sdot a b).
  Proof. intros H. unfold sinner. now rewrite H, Nat.eqb_refl. Qed.
  Lemma length_sscal (c : F A) a : length (sscal c a) = length a.
  Proof. apply map_length. Qed.
  Lemma length_zeros k : length (zeros k : vec A) = k.
  Proof. apply repeat_length. Qed.

  (** a rectangular array with r rows and c columns *)
  Definition wfm (r c : nat) (m : mat A) : Prop :=
    mcols m = c /\ length (mrows m) = r /\ Forall (fun x => length x = c) (mrows m).

  Lemma wfm_zmat r c : wfm r c (zmat r c).
  Proof.
    repeat split; simpl; [apply repeat_length|].
    apply Forall_forall. intros x H. apply repeat_spec in H. subst. apply length_zeros.
  Qed.

  Lemma wfm_tab2 r c f : wfm r c (tab2 r c f).
  Proof.
    repeat split; simpl; [now rewrite map_length, seq_length|].
    apply Forall_forall. intros x H. apply in_map_iff in H. destruct H as [i [<- _]].
    now rewrite map_length, seq_length.
  Qed.

  Lemma wfm_row r c m i : wfm r c m -> i < r -> length (nth i (mrows m) []) = c.
  Proof.
    intros (H1 & H2 & H3) Hi. rewrite Forall_forall in H3. apply H3, nth_In. lia.
  Qed.

  Lemma row_ok r c (m : mat A) i : wfm r c m -> i < r -> row m i = Ok (nth i (mrows m) []).
  Proof. intros (_ & H & _) Hi. apply get_item_ok. lia. Qed.

  Lemma get2_ok r c (m : mat A) i j : wfm r c m -> i < r -> j < c -> get2 m i j = Ok (entry m i j).
  Proof.
    intros (H1 & H2 & _) Hi Hj. unfold get2, nrows. rewrite H1, H2.
    apply Nat.ltb_lt in Hi. apply Nat.ltb_lt in Hj. now rewrite Hi, Hj.
  Qed.

  Lemma wfm_snoc r c m x : wfm r c m -> length x = c -> wfm (S r) c (mkMat c (mrows m ++ [x])).
  Proof.
    intros (H1 & H2 & H3) Hx. repeat split; simpl.
    - rewrite app_length; simpl; lia.
    - apply Forall_app; split; auto.
  Qed.

  Lemma Forall_upd {X} (P : X -> Prop) i x l : Forall P l -> P x -> Forall P (upd i x l).
  Proof.
    intros H Hx. revert i; induction H; intros [|i]; simpl; auto.
  Qed.

  Lemma wfm_upd r c m i x : wfm r c m -> length x = c -> wfm r c (mkMat c (upd i x (mrows m))).
  Proof.
    intros (H1 & H2 & H3) Hx. repeat split; simpl.
    - now rewrite length_upd.
    - now apply Forall_upd.
  Qed.

  Lemma vstack_ok r c m x : wfm r c m -> length x = c -> vstack m x = Ok (mkMat c (mrows m ++ [x])).
  Proof. intros (H1 & _) Hx. unfold vstack. now rewrite H1, Hx, Nat.eqb_refl. Qed.

  Lemma set_row_ok r c m i x : wfm r c m -> i < r -> length x = c ->
    set_row m i x = Ok (mkMat c (upd i x (mrows m))).
  Proof.
    intros (H1 & H2 & _) Hi Hx. unfold set_row, nrows. apply Nat.ltb_lt in Hi.
    now rewrite H2, Hi, H1, Hx, Nat.eqb_refl.
  Qed.

  Lemma set_col_ok r c m j x : wfm r c m -> j < c -> length x = r ->
    set_col m j x = Ok (mkMat c (map2 (upd j) x (mrows m))).
  Proof.
    intros (H1 & H2 & _) Hj Hx. unfold set_col, nrows. apply Nat.ltb_lt in Hj.
    now rewrite H1, Hj, H2, Hx, Nat.eqb_refl.
  Qed.

  Lemma tab2_ext r c f g :
    (forall i j, i < r -> j < c -> f i j = g i j) -> tab2 r c f = tab2 r c g :> mat A.
  Proof.
    intros H. unfold tab2. f_equal. apply map_ext_in. intros i Hi. apply in_seq in Hi.
    apply map_ext_in. intros j Hj. apply in_seq in Hj. apply H; lia.
  Qed.

  Lemma entry_tab2 r c f i j : i < r -> j < c -> entry (tab2 r c f : mat A) i j = f i j.
  Proof.
    intros Hi Hj. unfold entry, tab2; simpl. rewrite nth_map_seq by lia.
    now rewrite nth_map_seq by lia.
  Qed.

  Lemma mat_as_tab2 r c m : wfm r c m -> m = tab2 r c (entry m) :> mat A.
  Proof.
    intros H. pose proof H as (H1 & H2 & H3). destruct m as [mc rows]; simpl in *. subst mc.
    unfold tab2. f_equal. apply list_eq_seq with (d := []); auto.
    intros i Hi. apply list_eq_seq with (d := f0); auto.
    rewrite Forall_forall in H3. apply H3, nth_In. lia.
  Qed.

  Lemma mat_ext r c (m m' : mat A) : wfm r c m -> wfm r c m' ->
    (forall i j, i < r -> j < c -> entry m i j = entry m' i j) -> m = m'.
  Proof.
    intros H H' He. rewrite (mat_as_tab2 _ _ _ H), (mat_as_tab2 _ _ _ H').
    now apply tab2_ext.
  Qed.

  Lemma entry_upd_row c (m : mat A) i x a b : i < length (mrows m) ->
    entry (mkMat c (upd i x (mrows m))) a b = if a =? i then nth b x f0 else entry m a b.
  Proof.
    intros Hi. unfold entry; simpl. rewrite nth_upd by auto. now destruct (a =? i).
  Qed.

  Lemma wfm_upd_col r c m j x : wfm r c m -> length x = r ->
    wfm r c (mkMat c (map2 (upd j) x (mrows m))).
  Proof.
    intros (H1 & H2 & H3) Hx. repeat split; simpl.
    - rewrite length_map2. lia.
    - clear - H3. revert x; induction H3 as [|y l Hy H3 IH]; intros [|a x]; simpl; constructor; auto.
      now rewrite length_upd.
  Qed.

  Lemma entry_upd_col r c (m : mat A) j x a b : wfm r c m -> length x = r ->
    a < r -> j < c -> entry (mkMat c (map2 (upd j) x (mrows m))) a b =
                      if b =? j then nth a x f0 else entry m a b.
  Proof.
    intros H Hx Ha Hj. unfold entry; simpl. pose proof H as (H1 & H2 & H3).
    rewrite (nth_map2 _ _ _ _ f0 []); [|lia|lia].
    rewrite nth_upd by (rewrite (wfm_row _ _ _ _ H Ha); auto). reflexivity.
  Qed.

  (** D[i, :] = x; D[:, i] = x *)
  Lemma set_row_col k (m : mat A) i x : wfm k k m -> i < k -> length x = k ->
    mkMat k (map2 (upd i) x (upd i x (mrows m))) =
    tab2 k k (fun a b => if b =? i then nth a x f0 else if a =? i then nth b x f0 else entry m a b).
  Proof.
    intros H Hi Hx. pose proof (wfm_upd _ _ _ i _ H Hx) as H'.
    pose proof (wfm_upd_col _ _ _ i _ H' Hx) as H''. simpl in H''.
    rewrite (mat_as_tab2 _ _ _ H''). apply tab2_ext. intros a b Ha Hb.
    rewrite (entry_upd_col _ _ _ _ _ _ _ H' Hx Ha Hi).
    destruct (b =? i); auto. apply entry_upd_row. destruct H as (_ & H & _); lia.
  Qed.

  Lemma grow_ok k (m : mat A) : wfm k k m -> k <> 0 ->
    grow k m = Ok (tab2 (S k) (S k) (fun i j => if (i <? k) && (j <? k) then entry m i j else f0)).
  Proof.
    intros (H1 & H2 & _) Hk. unfold grow, nrows. rewrite H1, H2, Nat.eqb_refl. simpl.
    f_equal. apply tab2_ext. intros i j Hi Hj.
    destruct (Nat.ltb_spec i k); simpl; auto. destruct (Nat.ltb_spec j k); simpl; auto.
    destruct (Nat.eqb_spec k 1); auto. f_equal; lia.
  Qed.

  Lemma bc2_ok op r c (m m' : mat A) : wfm r c m -> wfm r c m' ->
    bc2 op m m' = Ok (tab2 r c (fun i j => op (entry m i j) (entry m' i j))).
  Proof.
    intros (H1 & H2 & _) (H3 & H4 & _). unfold bc2, nrows. rewrite H1, H2, H3, H4, !Nat.eqb_refl.
    simpl. replace (if r =? 1 then r else r) with r by now destruct (r =? 1).
    replace (if c =? 1 then c else c) with c by now destruct (c =? 1).
    f_equal. apply tab2_ext. intros i j Hi Hj.
    replace (if r =? 1 then 0 else i) with i by (destruct (Nat.eqb_spec r 1); lia).
    replace (if c =? 1 then 0 else j) with j by (destruct (Nat.eqb_spec c 1); lia).
    reflexivity.
  Qed.

  Lemma wfm_mscal r c (a : F A) m : wfm r c m -> wfm r c (mscal a m).
  Proof.
    intros (H1 & H2 & H3). repeat split; simpl; auto; [now rewrite map_length|].
    apply Forall_map. eapply Forall_impl; [|exact H3]. intros x Hx. simpl in *. now rewrite map_length.
  Qed.

  Lemma entry_mscal r c (a : F A) m i j : wfm r c m -> i < r -> j < c ->
    entry (mscal a m) i j = fmul a (entry m i j).
  Proof.
    intros H Hi Hj. pose proof H as (H1 & H2 & H3). unfold entry, mscal; simpl.
    rewrite nth_indep with (d' := map (fmul a) []) by (rewrite map_length; lia).
    rewrite map_nth. rewrite nth_indep with (d' := fmul a f0)
      by (rewrite map_length, (wfm_row _ _ _ _ H Hi); lia).
    now rewrite map_nth.
  Qed.

  Lemma wfm_outer (a b : vec A) : wfm (length a) (length b) (outer a b).
  Proof.
    repeat split; simpl; [now rewrite map_length|]. apply Forall_map.
    apply Forall_forall. intros; now rewrite map_length.
  Qed.

  Lemma entry_outer (a b : vec A) i j : i < length a -> j < length b ->
    entry (outer a b) i j = fmul (nth i a f0) (nth j b f0).
  Proof.
    intros Hi Hj. unfold entry, outer; simpl.
    rewrite nth_indep with (d' := map (fmul f0) b) by (rewrite map_length; lia).
    rewrite (map_nth (fun x => map (fmul x) b)).
    rewrite nth_indep with (d' := fmul (nth i a f0) f0) by (rewrite map_length; lia).
    now rewrite map_nth.
  Qed.

  Lemma wfm_transpose r c m : wfm r c m -> wfm c r (transpose m).
  Proof.
    intros (H1 & H2 & H3). repeat split; simpl; auto.
    - now rewrite map_length, seq_length.
    - apply Forall_map, Forall_forall. intros. unfold col. now rewrite map_length.
  Qed.

  Lemma entry_transpose r c m i j : wfm r c m -> i < c -> j < r ->
    entry (transpose m) i j = entry m j i.
  Proof.
    intros (H1 & H2 & H3) Hi Hj. unfold entry, transpose; simpl. rewrite H1.
    rewrite nth_map_seq by lia. unfold col.
    rewrite nth_indep with (d' := nth i [] f0) by (rewrite map_length; lia).
    now rewrite (map_nth (fun r0 => nth i r0 f0)).
  Qed.

  Lemma take_rows_ok c (m : mat A) idx : (forall i, In i idx -> i < length (mrows m)) -> mcols m = c ->
    take_rows m idx = Ok (mkMat c (map (fun i => nth i (mrows m) []) idx)).
  Proof.
    intros H <-. unfold take_rows. rewrite (mapE_ok _ (fun i => nth i (mrows m) [])); auto.
    intros i Hi. apply get_item_ok. auto.
  Qed.

  Lemma mean0_length (m : mat A) : length (mean0 m : vec A) = mcols m.
  Proof. unfold mean0. now rewrite map_length, seq_length. Qed.
  Lemma smean0_length (m : mat A) : length (smean0 m : vec A) = mcols m.
  Proof. unfold smean0. now rewrite map_length, seq_length. Qed.

  (** *** data in float64 *)
  Lemma plain_sscal (H : Plain A) c a : sscal c a = scal c a :> vec A.
  Proof. unfold sscal, scal. now rewrite (pl_mul _ H). Qed.
  Lemma plain_svadd (H : Plain A) a b : svadd a b = vadd a b :> E (vec A).
  Proof. unfold svadd, vadd. now rewrite (pl_add _ H). Qed.
  Lemma plain_sinner (H : Plain A) a b : sinner a b = inner a b :> E (F A).
  Proof. unfold sinner, inner. now rewrite (pl_dot _ H). Qed.
  Lemma plain_smean0 (H : Plain A) m : smean0 m = mean0 m :> vec A.
  Proof. unfold smean0, mean0. now rewrite (pl_div _ H), (pl_sum _ H). Qed.
End Arrays.
