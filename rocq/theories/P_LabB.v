(** * C86: what a batch looks at in the labels

    Only the number of distinct labels and which rows carry 0, ..., k-1.  So label
    arrays of other dtypes do what arrays of ints with the same two answers do
    ([M_LabB.v]): bools and integral floats serve as ints, strings and other
    floats give clusters without samples. *)
From Coq Require Import Reals ZArith QArith List Arith Bool Lia String.
From Verif Require Import Num NumPy Base GetCvi Lists Stream Generic F64 Spec XR Obs P_Batch.
From Verif Require Import M_CH M_D M_PS M_Lab P_Lab.
From Verif Require Import M_LabB.
Import ListNotations.
Local Notation length := List.length.
Local Open Scope nat_scope.

(** ** Lemmas: the model *)
Lemma filter_bound (p : nat -> bool) n : forall N, n <= N ->
  filter p (seq 0 n) = filter (fun x => (x <? n) && p x) (seq 0 N).
Proof.
  intros N H. replace N with (n + (N - n)) by lia. rewrite seq_app, filter_app.
  replace (filter _ (seq (0 + n) (N - n))) with (@nil nat).
  - rewrite app_nil_r. apply filter_ext_in. intros x Hx. apply in_seq in Hx.
    rewrite (proj2 (Nat.ltb_lt x n)) by lia. reflexivity.
  - symmetry. assert (G : forall l, (forall x, In x l -> (x <? n) && p x = false) -> filter (fun x => (x <? n) && p x) l = []).
    { induction l as [|y l IH]; intros Hl; [reflexivity|]. cbn [filter]. rewrite (Hl y (or_introl eq_refl)). apply IH. intros x Hx. apply Hl. now right. }
    apply G. intros x Hx. apply in_seq in Hx. rewrite (proj2 (Nat.ltb_ge x n)) by lia. reflexivity.
Qed.
Lemma filter_seq_same (p q : nat -> bool) n m :
  (forall x, (x <? n) && p x = (x <? m) && q x) -> filter p (seq 0 n) = filter q (seq 0 m).
Proof.
  intros H. rewrite (filter_bound p n (Nat.max n m)), (filter_bound q m (Nat.max n m)) by lia.
  apply filter_ext. exact H.
Qed.
(** the rows carrying the number ix *)
Definition same_rows (k : nat) (ls ls' : list Z) : Prop :=
  forall ix x, ix < k -> (nth_error ls x = Some (Z.of_nat ix) <-> nth_error ls' x = Some (Z.of_nat ix)).
Lemma nth_is (ls : list Z) x z : (x <? length ls) && Z.eqb (nth x ls 0%Z) z = true <-> nth_error ls x = Some z.
Proof.
  rewrite andb_true_iff, Nat.ltb_lt, Z.eqb_eq. split.
  - intros [H <-]. now apply nth_error_nth'.
  - intros H. split; [apply nth_error_Some; congruence|]. now apply nth_error_nth.
Qed.
Lemma same_indices k ls ls' : same_rows k ls ls' -> forall ix, ix < k -> indices_of ix ls = indices_of ix ls'.
Proof.
  intros H ix Hi. unfold indices_of. apply filter_seq_same. intros x.
  pose proof (nth_is ls x (Z.of_nat ix)) as E1. pose proof (nth_is ls' x (Z.of_nat ix)) as E2.
  specialize (H ix x Hi). apply eq_true_iff_eq. rewrite E1, E2. exact H.
Qed.

Section Same.
  Context {A : Arith} (m : mat A) (ls ls' : list Z).
  Hypothesis Hk : n_unique ls = n_unique ls'.
  Hypothesis Hi : forall ix, ix < n_unique ls -> indices_of ix ls = indices_of ix ls'.
  Lemma for_same (f g : nat -> M A unit) l : (forall ix, In ix l -> f ix = g ix) -> for_ l f = for_ l g.
  Proof.
    induction l as [|i l IH]; intros H; [reflexivity|]. cbn [for_]. rewrite (H i (or_introl eq_refl)), IH; auto.
    intros ix Hx. apply H. now right.
  Qed.
  Lemma bind_ext {X Y} (p : M A X) (f g : X -> M A Y) s : (forall x s', f x s' = g x s') -> bind p f s = bind p g s.
  Proof. intros H. unfold bind. destruct (p s) as [s' [x|e]]; auto. Qed.
  Lemma bodies : forall ix, In ix (seq 0 (n_unique ls)) ->
    CH_batch_body m ls ix = CH_batch_body m ls' ix /\ WB_batch_body m ls ix = WB_batch_body m ls' ix /\
    DB_batch_body m ls ix = DB_batch_body m ls' ix /\ XB_batch_body m ls ix = XB_batch_body m ls' ix /\
    GD43_batch_body m ls ix = GD43_batch_body m ls' ix /\ GD53_batch_body m ls ix = GD53_batch_body m ls' ix /\
    PS_batch_body m ls ix = PS_batch_body m ls' ix /\ rCIP_batch_body m ls ix = rCIP_batch_body m ls' ix /\
    cSIL_batch_body m ls ix = cSIL_batch_body m ls' ix.
  Proof.
    intros ix Hx. apply in_seq in Hx. pose proof (Hi ix ltac:(lia)) as E.
    unfold CH_batch_body, WB_batch_body, DB_batch_body, XB_batch_body, GD43_batch_body, GD53_batch_body, PS_batch_body, rCIP_batch_body, cSIL_batch_body.
    rewrite E. repeat split.
  Qed.
  Lemma param_same c a : param_batch c m ls a = param_batch c m ls' a.
  Proof.
    destruct c; cbn [param_batch].
    - unfold CH_param_batch. rewrite <- Hk.
      rewrite (for_same (CH_batch_body m ls) (CH_batch_body m ls')) by (intros ix Hx; apply (bodies ix Hx)). reflexivity.
    - unfold WB_param_batch. rewrite <- Hk.
      rewrite (for_same (WB_batch_body m ls) (WB_batch_body m ls')) by (intros ix Hx; apply (bodies ix Hx)). reflexivity.
    - unfold DB_param_batch. rewrite <- Hk.
      rewrite (for_same (DB_batch_body m ls) (DB_batch_body m ls')) by (intros ix Hx; apply (bodies ix Hx)). reflexivity.
    - unfold XB_param_batch. rewrite <- Hk.
      rewrite (for_same (XB_batch_body m ls) (XB_batch_body m ls')) by (intros ix Hx; apply (bodies ix Hx)). reflexivity.
    - unfold GD43_param_batch. rewrite <- Hk.
      rewrite (for_same (GD43_batch_body m ls) (GD43_batch_body m ls')) by (intros ix Hx; apply (bodies ix Hx)). reflexivity.
    - unfold GD53_param_batch. rewrite <- Hk.
      rewrite (for_same (GD53_batch_body m ls) (GD53_batch_body m ls')) by (intros ix Hx; apply (bodies ix Hx)). reflexivity.
    - unfold PS_param_batch. rewrite <- Hk.
      rewrite (for_same (PS_batch_body m ls) (PS_batch_body m ls')) by (intros ix Hx; apply (bodies ix Hx)). reflexivity.
    - unfold rCIP_param_batch. rewrite <- Hk.
      rewrite (for_same (rCIP_batch_body m ls) (rCIP_batch_body m ls')) by (intros ix Hx; apply (bodies ix Hx)). reflexivity.
    - unfold cSIL_param_batch. rewrite <- Hk.
      rewrite (for_same (cSIL_batch_body m ls) (cSIL_batch_body m ls')) by (intros ix Hx; apply (bodies ix Hx)).
      repeat (apply bind_ext; intros ? ?). unfold tab2. do 3 f_equal. apply map_ext_in. intros jx Hj. apply map_ext_in. intros ix _.
      apply in_seq in Hj. rewrite (Hi jx) by lia. reflexivity.
  Qed.
End Same.

(** ** The integer arrays: two answers decide everything *)
Theorem C86_only_two_things (A : Arith) (c : kind) (o : obj A) (m : mat A) (ls ls' : list Z) :
  length (nodup Z.eq_dec ls) = length (nodup Z.eq_dec ls') ->
  (forall x ix, ix < length (nodup Z.eq_dec ls) ->
     (nth_error ls x = Some (Z.of_nat ix) <-> nth_error ls' x = Some (Z.of_nat ix))) ->
  get_cvi c o (Mat m) (Labs ls) = get_cvi c o (Mat m) (Labs ls').
Proof.
  intros Hk Hx. assert (Hi : forall ix, ix < n_unique ls -> indices_of ix ls = indices_of ix ls').
  { apply same_indices. intros ix x Hi. now apply Hx. }
  unfold get_cvi. assert (E : update c o (Mat m) (Labs ls) = update c o (Mat m) (Labs ls')); [|now rewrite E].
  cbn [update unique_labels]. fold (n_unique ls) in Hk. fold (n_unique ls') in Hk.
  change (n_unique ls = n_unique ls') in Hk. rewrite (param_same m ls ls' Hk Hi). now rewrite Hk.
Qed.
Print Assumptions C86_only_two_things.

(** ** Arrays of other dtypes *)
(** [distinct_count] counts the labels that are pairwise not the same *)
Lemma distinct_count_spec ls : exists r, length r = distinct_count ls /\ incl r ls /\
  (forall l, In l ls -> exists q, In q r /\ pysame l q = true) /\
  ForallOrdPairs (fun p q => pysame p q = false) r.
Proof.
  induction ls as [|l ls (r & H1 & H2 & H3 & H4)].
  - exists []. repeat split; try (intros z []). constructor.
  - cbn [distinct_count]. destruct (existsb (pysame l) ls) eqn:E.
    + exists r. repeat split; auto.
      * intros z Hz. right. auto.
      * intros z [<-|Hz]; auto. apply existsb_exists in E as (q & Hq & Eq). destruct (H3 q Hq) as (q' & Hq' & Eq').
        exists q'. split; auto. exact (pysame_trans _ _ _ Eq Eq').
    + exists (l :: r). repeat split; cbn [length]; auto.
      * intros z [<-|Hz]; [now left|right; auto].
      * intros z [<-|Hz]; [exists l; split; [now left|apply pysame_refl]|]. destruct (H3 z Hz) as (q & Hq & Eq). exists q. split; [now right|auto].
      * constructor; auto. apply Forall_forall. intros q Hq. destruct (pysame l q) eqn:Eq; auto.
        rewrite (proj2 (existsb_exists (pysame l) ls) (ex_intro _ q (conj (H2 q Hq) Eq))) in E. discriminate.
Qed.
Lemma is_number_unique l i j : is_number l i = true -> is_number l j = true -> i = j.
Proof.
  unfold is_number. intros H1 H2. pose proof (pysame_trans _ _ _ (pysame_sym _ _ H1) H2) as H. cbn in H.
  apply Qeq_bool_iff in H. unfold inject_Z, Qeq in H. cbn in H. lia.
Qed.
Lemma find_number l k i : i < k -> is_number l i = true -> find (is_number l) (seq 0 k) = Some i.
Proof.
  intros Hi H. destruct (find (is_number l) (seq 0 k)) as [j|] eqn:E.
  - apply find_some in E as [_ E]. f_equal. exact (is_number_unique l j i E H).
  - pose proof (find_none _ _ E i ltac:(apply in_seq; lia)). congruence.
Qed.
Lemma is_number_same a b i : pysame a b = true -> is_number a i = true -> is_number b i = true.
Proof. unfold is_number. intros H1 H2. exact (pysame_trans _ _ _ (pysame_sym _ _ H1) H2). Qed.
Lemma place_position ls l : place ls l = P_Lab.position pysame ls l.
Proof. induction ls as [|k ls IH]; cbn; [reflexivity|]. now rewrite IH. Qed.

Lemma int_for_number ls l ix : ix < distinct_count ls -> Z.eqb (int_for ls l) (Z.of_nat ix) = is_number l ix.
Proof.
  intros Hx. unfold int_for. destruct (is_number l ix) eqn:E.
  - rewrite (find_number l _ ix Hx E). apply Z.eqb_refl.
  - destruct (find (is_number l) (seq 0 (distinct_count ls))) as [j|] eqn:F.
    + apply find_some in F as [_ F]. apply Z.eqb_neq. intros G. apply Nat2Z.inj in G. subst. congruence.
    + apply Z.eqb_neq. lia.
Qed.
Lemma int_for_same ls a b : In a ls -> In b ls -> pysame a b = Z.eqb (int_for ls a) (int_for ls b).
Proof.
  intros Ha Hb. unfold int_for. set (k := distinct_count ls).
  destruct (find (is_number a) (seq 0 k)) as [i|] eqn:Fa, (find (is_number b) (seq 0 k)) as [j|] eqn:Fb.
  - apply find_some in Fa as [_ Fa]. apply find_some in Fb as [_ Fb]. destruct (Z.eqb_spec (Z.of_nat i) (Z.of_nat j)) as [E|E].
    + apply Nat2Z.inj in E. subst j. exact (pysame_trans _ _ _ Fa (pysame_sym _ _ Fb)).
    + destruct (pysame a b) eqn:G; auto. exfalso. apply E. f_equal. apply (is_number_unique b); auto. exact (is_number_same _ _ _ G Fa).
  - apply find_some in Fa as [Hi Fa]. apply in_seq in Hi. replace (Z.eqb _ _) with false by (symmetry; apply Z.eqb_neq; lia).
    destruct (pysame a b) eqn:G; auto. pose proof (find_none _ _ Fb i ltac:(apply in_seq; lia)) as N.
    rewrite (is_number_same _ _ _ G Fa) in N. discriminate.
  - apply find_some in Fb as [Hi Fb]. apply in_seq in Hi. replace (Z.eqb _ _) with false by (symmetry; apply Z.eqb_neq; lia).
    destruct (pysame a b) eqn:G; auto. pose proof (find_none _ _ Fa j ltac:(apply in_seq; lia)) as N.
    rewrite (is_number_same _ _ _ (pysame_sym _ _ G) Fb) in N. discriminate.
  - rewrite (position_same pysame ls a b pysame_refl pysame_sym pysame_trans Ha Hb), <- !place_position.
    destruct (Z.eqb_spec (Z.of_nat (place ls a)) (Z.of_nat (place ls b))) as [E|E].
    + symmetry. apply Z.eqb_eq. lia.
    + symmetry. apply Z.eqb_neq. lia.
Qed.
Lemma count_map (f : pylabel -> Z) ls : (forall a b, In a ls -> In b ls -> pysame a b = Z.eqb (f a) (f b)) ->
  length (nodup Z.eq_dec (map f ls)) = distinct_count ls.
Proof.
  induction ls as [|l ls IH]; intros H; [reflexivity|]. cbn [map nodup distinct_count].
  assert (IH' := IH (fun a b Ha Hb => H a b (or_intror Ha) (or_intror Hb))).
  destruct (in_dec Z.eq_dec (f l) (map f ls)) as [Hin|Hin], (existsb (pysame l) ls) eqn:E; cbn [length]; try lia.
  - apply in_map_iff in Hin as (q & Eq & Hq). exfalso.
    assert (T : existsb (pysame l) ls = true); [|congruence]. apply existsb_exists. exists q. split; auto.
    rewrite H; [apply Z.eqb_eq; auto|now left|now right].
  - exfalso. apply existsb_exists in E as (q & Hq & Eq). apply Hin. apply in_map_iff. exists q. split; auto.
    rewrite H in Eq; [apply Z.eqb_eq in Eq; auto|now left|now right].
Qed.
Lemma as_ints_count ls : length (nodup Z.eq_dec (as_ints ls)) = distinct_count ls.
Proof. apply count_map. intros a b. apply int_for_same. Qed.
Lemma as_ints_rows ls x ix : ix < distinct_count ls ->
  (nth_error (as_ints ls) x = Some (Z.of_nat ix) <-> exists l, nth_error ls x = Some l /\ is_number l ix = true).
Proof.
  intros Hx. unfold as_ints. rewrite nth_error_map. destruct (nth_error ls x) as [l|]; cbn [option_map].
  - split.
    + intros [= E]. exists l. split; auto. rewrite <- (int_for_number ls l ix Hx). now apply Z.eqb_eq.
    + intros (q & [= ->] & E). f_equal. apply Z.eqb_eq. now rewrite int_for_number.
  - split; [discriminate|]. intros (q & E & _). discriminate.
Qed.

(** Any array of ints with as many distinct entries and with 0, ..., k-1 in the
    same rows does what the array of labels does. *)
Theorem C86_arrays (A : Arith) (c : kind) (o : obj A) (m : mat A) (a : label_array) (zs : list Z) :
  length (nodup Z.eq_dec zs) = distinct_count (elements a) ->
  (forall x ix, ix < distinct_count (elements a) ->
     (nth_error zs x = Some (Z.of_nat ix) <->
      exists l, nth_error (elements a) x = Some l /\ pysame l (PyInt (Z.of_nat ix)) = true)) ->
  array_get_cvi c o m a = get_cvi c o (Mat m) (Labs zs).
Proof.
  intros H1 H2. unfold array_get_cvi. apply C86_only_two_things; rewrite as_ints_count; [congruence|].
  intros x ix Hx. rewrite (as_ints_rows _ x ix Hx), (H2 x ix Hx). reflexivity.
Qed.
Print Assumptions C86_arrays.

(** Arrays whose entries are pairwise the same number, string, nan: the same
    results.  In particular 0.0, 1.0, ... and False, True serve as 0, 1, ... *)
Lemma count_same ls ls' : Forall2 (fun a b => pysame a b = true) ls ls' -> distinct_count ls = distinct_count ls'.
Proof.
  induction 1 as [|a b ls ls' Hab H IH]; [reflexivity|]. cbn [distinct_count]. rewrite IH.
  assert (E : existsb (pysame a) ls = existsb (pysame b) ls'); [|now rewrite E].
  clear IH. induction H as [|p q ls ls' Hpq H IH]; [reflexivity|]. cbn [existsb]. rewrite IH. f_equal.
  apply eq_true_iff_eq. split; intros E.
  - exact (pysame_trans _ _ _ (pysame_trans _ _ _ (pysame_sym _ _ Hab) E) Hpq).
  - exact (pysame_trans _ _ _ (pysame_trans _ _ _ Hab E) (pysame_sym _ _ Hpq)).
Qed.
Lemma rows_same ls ls' : Forall2 (fun a b => pysame a b = true) ls ls' -> forall x ix,
  (exists l, nth_error ls x = Some l /\ is_number l ix = true) <-> (exists l, nth_error ls' x = Some l /\ is_number l ix = true).
Proof.
  induction 1 as [|a b ls ls' Hab H IH]; intros x ix; [reflexivity|]. destruct x as [|x]; cbn [nth_error].
  - split; intros (l & [= <-] & E); eexists; split; eauto; [exact (is_number_same _ _ _ Hab E)|exact (is_number_same _ _ _ (pysame_sym _ _ Hab) E)].
  - apply IH.
Qed.
Theorem C86_same_entries (A : Arith) (c : kind) (o : obj A) (m : mat A) (a b : label_array) :
  Forall2 (fun p q => pysame p q = true) (elements a) (elements b) ->
  array_get_cvi c o m a = array_get_cvi c o m b.
Proof.
  intros H. apply (C86_arrays A c o m a (as_ints (elements b))); [rewrite as_ints_count; symmetry; now apply count_same|].
  intros x ix Hx. rewrite (count_same _ _ H) in Hx. rewrite (as_ints_rows _ x ix Hx).
  symmetry. apply (rows_same _ _ H).
Qed.
Print Assumptions C86_same_entries.
Theorem C86_ints (A : Arith) (c : kind) (o : obj A) (m : mat A) (ls : list Z) :
  array_get_cvi c o m (AInt ls) = get_cvi c o (Mat m) (Labs ls).
Proof.
  apply C86_arrays.
  - cbn [elements]. rewrite <- (count_map (fun l => match l with PyInt z => z | _ => 0%Z end)).
    + rewrite map_map. now rewrite map_id.
    + intros p q Hp Hq. apply in_map_iff in Hp as (z & <- & _). apply in_map_iff in Hq as (z' & <- & _). cbn.
      apply eq_true_iff_eq. rewrite Qeq_bool_iff, Z.eqb_eq. unfold Qeq, inject_Z. cbn. lia.
  - intros x ix _. cbn [elements]. rewrite nth_error_map. destruct (nth_error ls x) as [z|]; cbn [option_map].
    + split.
      * intros [= ->]. eexists. split; [reflexivity|]. apply pysame_refl.
      * intros (l & [= <-] & E). cbn in E. apply Qeq_bool_iff in E. unfold Qeq, inject_Z in E. cbn in E. f_equal. lia.
    + split; [discriminate|]. intros (l & E & _). discriminate.
Qed.
Print Assumptions C86_ints.
Theorem C86_bools (A : Arith) (c : kind) (o : obj A) (m : mat A) (bs : list bool) :
  array_get_cvi c o m (ABool bs) = get_cvi c o (Mat m) (Labs (map (fun b : bool => if b then 1 else 0)%Z bs)).
Proof.
  rewrite <- C86_ints. apply C86_same_entries. cbn [elements]. rewrite map_map. induction bs as [|b bs IH]; cbn [map]; constructor; auto.
  now destruct b.
Qed.
Print Assumptions C86_bools.
(** floats m * 2^e with integral values *)
Theorem C86_integral_floats (A : Arith) (c : kind) (o : obj A) (m : mat A) (fs : list (Z * Z)) (zs : list Z) :
  Forall2 (fun f z => (inject_Z (fst f) * pow2Q (snd f) == inject_Z z)%Q) fs zs ->
  array_get_cvi c o m (AFloat (map (fun f => FFin (fst f) (snd f)) fs)) = get_cvi c o (Mat m) (Labs zs).
Proof.
  intros H. rewrite <- C86_ints. apply C86_same_entries. cbn [elements]. rewrite map_map. induction H as [|f z fs zs Hf H IH]; cbn [map]; constructor; auto.
  cbn. apply Qeq_bool_iff. exact Hf.
Qed.
Print Assumptions C86_integral_floats.

(** ** Which arrays work, in exact arithmetic *)
(** the labels are numbers and exactly 0, ..., k-1 *)
Definition numbers_upto (a : label_array) (k : nat) : Prop :=
  (forall l, In l (elements a) -> exists i, i < k /\ pysame l (PyInt (Z.of_nat i)) = true) /\
  (forall i, i < k -> exists l, In l (elements a) /\ pysame l (PyInt (Z.of_nat i)) = true).
(** the samples with the numbers of their labels *)
Definition array_data (pts : list point) (a : label_array) : data := combine pts (as_ints (elements a)).
Lemma array_data_labels pts a : length pts = length (elements a) -> labels (array_data pts a) = as_ints (elements a).
Proof.
  intros H. unfold labels, array_data. assert (E : length pts = length (as_ints (elements a))) by (unfold as_ints; now rewrite map_length).
  revert E. generalize (as_ints (elements a)). clear H. induction pts as [|p pts IH]; intros [|z zs] E; cbn in *; try discriminate; [reflexivity|].
  f_equal. apply IH. lia.
Qed.
Lemma array_data_points pts a : length pts = length (elements a) -> map fst (array_data pts a) = pts.
Proof.
  intros H. unfold array_data. assert (E : length pts = length (as_ints (elements a))) by (unfold as_ints; now rewrite map_length).
  revert E. generalize (as_ints (elements a)). clear H. induction pts as [|p pts IH]; intros [|z zs] E; cbn in *; try discriminate; [reflexivity|].
  f_equal. apply IH. lia.
Qed.
Definition array_result (c : kind) (d : nat) (pts : list point) (a : label_array) : E (F XR) :=
  snd (array_get_cvi (A := XR) c new_obj (mkMat d (map (map Fin) pts : list (list (F XR)))) a).
Lemma array_result_is c d pts a : length pts = length (elements a) ->
  array_result c d pts a = batch_result c d (array_data pts a).
Proof.
  intros H. unfold array_result, array_get_cvi, batch_result. rewrite (array_data_labels pts a H).
  replace (map fst (as_floats (array_data pts a))) with (map (map Fin) pts : list (list (F XR))); [reflexivity|].
  rewrite <- (array_data_points pts a H) at 1. unfold as_floats. rewrite !map_map. reflexivity.
Qed.
Lemma numbers_exact a k : distinct_count (elements a) = k ->
  (numbers_upto a k <-> (forall z, In z (as_ints (elements a)) <-> (0 <= z < Z.of_nat k)%Z)).
Proof.
  intros Hk. unfold as_ints. set (ls := elements a) in *. split.
  - intros [H1 H2] z. split.
    + intros Hz. apply in_map_iff in Hz as (l & <- & Hl). destruct (H1 l Hl) as (i & Hi & E).
      unfold int_for. rewrite Hk, (find_number l k i Hi E). lia.
    + intros Hz. destruct (H2 (Z.to_nat z) ltac:(lia)) as (l & Hl & E). apply in_map_iff. exists l. split; auto.
      unfold int_for. rewrite Hk, (find_number l k (Z.to_nat z) ltac:(lia) E). lia.
  - intros H. split.
    + intros l Hl. assert (Hz : In (int_for ls l) (map (int_for ls) ls)) by now apply in_map.
      apply H in Hz. exists (Z.to_nat (int_for ls l)). split; [lia|].
      pose proof (int_for_number ls l (Z.to_nat (int_for ls l)) ltac:(lia)) as E. rewrite Z2Nat.id in E by lia.
      rewrite Z.eqb_refl in E. symmetry. exact E.
    + intros i Hi. assert (Hz : In (Z.of_nat i) (map (int_for ls) ls)) by (apply H; lia).
      apply in_map_iff in Hz as (l & E & Hl). exists l. split; auto.
      pose proof (int_for_number ls l i ltac:(lia)) as F. rewrite E, Z.eqb_refl in F. symmetry. exact F.
Qed.
Lemma in_range_number a z : In z (as_ints (elements a)) -> (0 <= z < Z.of_nat (distinct_count (elements a)))%Z ->
  exists l, In l (elements a) /\ pysame l (PyInt z) = true.
Proof.
  intros Hz Hr. unfold as_ints in Hz. apply in_map_iff in Hz as (l & E & Hl). exists l. split; auto.
  pose proof (int_for_number (elements a) l (Z.to_nat z) ltac:(lia)) as F. unfold is_number in F. rewrite Z2Nat.id in F by lia.
  rewrite E, Z.eqb_refl in F. symmetry. exact F.
Qed.

(** The labels are 0, ..., k-1 (as ints, bools, floats): the value of the stream.
    All other arrays of at least two different labels: nan, or ZeroDivisionError
    from PS if no label is one of 0, ..., k-1. *)
Theorem C86_numbers_work (c : kind) (d : nat) (pts : list point) (a : label_array) (k : nat) :
  c <> kcSIL -> (c = krCIP -> d <> 0) -> Forall (fun x => length x = d) pts -> length pts = length (elements a) -> 2 <= k ->
  distinct_count (elements a) = k -> numbers_upto a k ->
  exists v, stream_observed c d (array_data pts a) v /\ array_result c d pts a = Ok v.
Proof.
  intros Hc Hd Hp Hl H2 Hk Ha. rewrite (array_result_is c d pts a Hl). apply (C13_contiguous_labels_agree c d _ k Hc Hd); auto.
  - unfold wf. rewrite <- (array_data_points pts a Hl) in Hp. rewrite Forall_map in Hp. exact Hp.
  - unfold exact_labels. rewrite (array_data_labels pts a Hl). apply numbers_exact; auto.
Qed.
Print Assumptions C86_numbers_work.
Theorem C86_others_do_not (c : kind) (d : nat) (pts : list point) (a : label_array) :
  let k := distinct_count (elements a) in
  d <> 0 -> Forall (fun x => length x = d) pts -> length pts = length (elements a) -> 2 <= k -> ~ numbers_upto a k ->
  array_result c d pts a = Ok (NaN : F XR) \/
  c = kPS /\ (forall l i, In l (elements a) -> i < k -> pysame l (PyInt (Z.of_nat i)) = false) /\
    array_result c d pts a = Err ZeroDivisionError.
Proof.
  intros k Hd Hp Hl H2 Ha. rewrite (array_result_is c d pts a Hl).
  assert (W : wf d (array_data pts a)).
  { unfold wf. rewrite <- (array_data_points pts a Hl) in Hp. rewrite Forall_map in Hp. exact Hp. }
  assert (Ek : length (distinct (array_data pts a)) = k).
  { unfold distinct. rewrite (array_data_labels pts a Hl). apply as_ints_count. }
  assert (Nx : ~ exact_labels (array_data pts a) (length (distinct (array_data pts a)))).
  { unfold exact_labels. rewrite Ek, (array_data_labels pts a Hl). intros H. apply Ha. apply numbers_exact; auto. }
  destruct (existsb (fun z => (0 <=? z)%Z && (z <? Z.of_nat k)%Z) (as_ints (elements a))) eqn:E.
  - left. apply (C13_other_labels_give_nan c d); auto; [lia|]. intros _. apply existsb_exists in E as (z & Hz & Er).
    apply andb_true_iff in Er as [R1 R2]. exists z. rewrite (array_data_labels pts a Hl), Ek. split; auto.
    apply Z.leb_le in R1. apply Z.ltb_lt in R2. lia.
  - assert (N : forall z, In z (as_ints (elements a)) -> ~ (0 <= z < Z.of_nat k)%Z).
    { intros z Hz Hr. assert (T : existsb (fun z => (0 <=? z)%Z && (z <? Z.of_nat k)%Z) (as_ints (elements a)) = true); [|congruence].
      apply existsb_exists. exists z. split; auto. apply andb_true_iff. split; [apply Z.leb_le|apply Z.ltb_lt]; lia. }
    assert (Dc : c = kPS \/ c <> kPS) by (destruct c; auto; right; discriminate).
    destruct Dc as [->|Dc].
    + right. split; auto. split.
      * intros l i Hin Hi. destruct (pysame l (PyInt (Z.of_nat i))) eqn:G; auto. exfalso.
        apply (N (int_for (elements a) l)); [now apply in_map|]. unfold int_for. fold k. rewrite (find_number l k i Hi G). lia.
      * apply C13_PS_without_labels_in_range_raises; auto; [lia|]. rewrite (array_data_labels pts a Hl), Ek. exact N.
    + left. apply (C13_other_labels_give_nan c d); auto; [lia|]. intros; congruence.
Qed.
Print Assumptions C86_others_do_not.

(** Strings never work in a batch, though they do in a stream (C83). *)
Theorem C86_strings_refuted (c : kind) (d : nat) (pts : list point) (ss : list string) :
  d <> 0 -> Forall (fun x => length x = d) pts -> length pts = length ss -> 2 <= distinct_count (map PyStr ss) ->
  array_result c d pts (AStr ss) = if match c with kPS => true | _ => false end then Err ZeroDivisionError else Ok (NaN : F XR).
Proof.
  intros Hd Hp Hl H2. set (a := AStr ss).
  assert (Nn : forall l i, In l (elements a) -> pysame l (PyInt i) = false).
  { intros l i Hin. apply in_map_iff in Hin as (s & <- & _). reflexivity. }
  assert (La : length pts = length (elements a)) by (cbn; now rewrite map_length).
  assert (Na : ~ numbers_upto a (distinct_count (elements a))).
  { intros [_ H]. destruct (H 0 ltac:(unfold a; cbn [elements]; lia)) as (l & Hin & E). rewrite (Nn l _ Hin) in E. discriminate. }
  assert (PSc : c = kPS -> array_result kPS d pts a = Err ZeroDivisionError).
  { intros _. rewrite (array_result_is kPS d pts a La).
    assert (Ek : length (distinct (array_data pts a)) = distinct_count (elements a)).
    { unfold distinct. rewrite (array_data_labels pts a La). apply as_ints_count. }
    apply C13_PS_without_labels_in_range_raises; auto.
    - unfold wf. rewrite <- (array_data_points pts a La) in Hp. rewrite Forall_map in Hp. exact Hp.
    - rewrite Ek. exact H2.
    - rewrite (array_data_labels pts a La), Ek. intros z Hz Hr. destruct (in_range_number a z Hz Hr) as (l & Hin & E).
      rewrite (Nn l z Hin) in E. discriminate. }
  destruct (C86_others_do_not c d pts a Hd Hp La H2 Na) as [E|(E & _ & F)].
  - destruct c; try exact E. specialize (PSc eq_refl). rewrite PSc in E. discriminate.
  - subst c. exact F.
Qed.
Print Assumptions C86_strings_refuted.

(** the hypotheses: labels False, True, True, False; 0.0, 1.0, 0.5 * 2, 0.0; "a", "b",
    "b", "a"; 0.0, nan, nan, 1.0 (three distinct labels, 2 missing); and two int
    arrays that differ where no number below k is concerned *)
Example C86_hypotheses :
  numbers_upto (ABool [false; true; true; false]) 2 /\
  numbers_upto (AFloat [FFin 0 0; FFin 1 0; FFin 2 (-1); FFin 0 5]) 2 /\
  distinct_count (elements (ABool [false; true; true; false])) = 2 /\
  distinct_count (elements (AFloat [FFin 0 0; FFin 1 0; FFin 2 (-1); FFin 0 5])) = 2 /\
  distinct_count (map PyStr ["a"; "b"; "b"; "a"]%string) = 2 /\
  distinct_count (elements (AFloat [FFin 0 0; FNan; FNan; FFin 1 0])) = 3 /\
  ~ numbers_upto (AFloat [FFin 0 0; FNan; FNan; FFin 1 0]) 3 /\
  (let ls := [0; 7; -1; 7; 1]%Z in let ls' := [0; 50; 4; 50; 1]%Z in
   length (nodup Z.eq_dec ls) = 4 /\ length (nodup Z.eq_dec ls') = 4 /\
   forall x ix, ix < 4 -> (nth_error ls x = Some (Z.of_nat ix) <-> nth_error ls' x = Some (Z.of_nat ix))).
Proof.
  split.
  { split.
    - intros l [<-|[<-|[<-|[<-|[]]]]]; [exists 0|exists 1|exists 1|exists 0]; split; auto.
    - intros [|[|i]] Hi; [exists (PyBool false)|exists (PyBool true)|lia]; split; cbn; auto. }
  split.
  { split.
    - intros l [<-|[<-|[<-|[<-|[]]]]]; [exists 0|exists 1|exists 1|exists 0]; split; auto.
    - intros [|[|i]] Hi; [exists (PyFloat 0 0)|exists (PyFloat 1 0)|lia]; split; cbn; auto. }
  do 4 (split; [reflexivity|]). split.
  { intros [H _]. destruct (H (PyNan 0)) as (i & _ & E); [cbn; auto|discriminate]. }
  split; [reflexivity|]. split; [reflexivity|]. intros x ix Hx.
  destruct x as [|[|[|[|[|x]]]]]; destruct ix as [|[|[|[|ix]]]]; cbn; try lia; split; intros E; try discriminate; auto; exfalso; destruct x; discriminate.
Qed.
(** in binary64: strings that partition the samples as False, True do *)
Example C86_strings_and_bools (L : Libm) :
  let x z := [f_of_Z (a := F64 L) z] in
  let m := mkMat (A := F64 L) 1 [x 0; x 10; x 14; x 2]%Z in
  (exists w, snd (array_get_cvi kWB new_obj m (AStr ["a"; "b"; "b"; "a"]%string)) = Ok w /\ dnan w = true) /\
  (exists w, snd (array_get_cvi kWB new_obj m (ABool [false; true; true; false])) = Ok w /\ dnan w = false) /\
  (exists p q r w, snd (k_run pysame kWB k_new (k_stream (combine [x 0; x 10; x 14; x 2]%Z (map PyStr ["a"; "b"; "b"; "a"]%string)))) =
     [Ok p; Ok q; Ok r; Ok w] /\ dnan w = false).
Proof.
  split; [eexists; split; vm_compute; reflexivity|]. split; [eexists; split; vm_compute; reflexivity|].
  do 4 eexists; split; vm_compute; reflexivity.
Qed.
