(** * C103: clusters of copies of one sample *)
From Coq Require Import ZArith List Arith Bool Lia SpecFloat Permutation Reals Lra.
From Flocq Require Import Core BinarySingleNaN.
From Verif Require Import Num NumPy Base M_CH M_D M_PS GetCvi Lists Step Step2 StepB Hoare Eval Shapes Stream Generic RunForm BatchForm.
From Verif Require Import F64 F64o XR P_Sign Alone P_Alone Rnd Scal AloneB P_AloneB P_AloneS M_Int IntL IntR IntF.
Import ListNotations.
Local Open Scope nat_scope.

(** ** Batches whose clusters have no spread, in any arithmetic *)
Section Still.
  Context {A : Arith} (Z N Q I P V : F A -> Prop) (HZ : Zeros A Z N Q I) (HP : Pluses A Z N Q I P V).
  Definition still (c : kind) (x : F A) : Prop :=
    match c with
    | kWB | kDB | kXB => Z x
    | kGD43 => I x
    | kGD53 => N x
    | kCH => exists b w e, x = fmul (fdiv b w) e /\ P w
    | _ => True
    end.
  Lemma batch_still c d (s : list (vec A * BinInt.Z)) : six c -> wf_stream d s ->
    (forall l, P (cp_rows d (grp s l))) -> 2 <= n_unique (map snd s) ->
    exists x, results c new_obj [batch_of d s] = [Ok x] /\ still c x.
  Proof.
    intros Hc Hw Hp Hl. unfold results, batch_of. cbn [run fst snd]. unfold get_cvi, update.
    cbn [at_ new_obj label_map init_attrs is_setup].
    set (m := mkMat d (map fst s)). set (ls := map snd s) in *.
    assert (EU : (1 <? unique_labels (Labs ls)) = true) by (apply Nat.ltb_lt; exact Hl).
    rewrite EU. cbn [negb].
    assert (HC : covers m ls (n_unique ls)).
    { apply covers_le. unfold nrows, m, ls. cbn [mrows]. now rewrite !map_length. }
    set (k := n_unique ls) in *. assert (Hk : 1 < k) by lia.
    assert (PC : forall ix, P (b_CP m ls ix)).
    { intros ix. replace (b_CP m ls ix) with (cp_rows d (grp s (Z.of_nat ix))); [apply Hp|].
      unfold b_CP, b_v, cp_rows, mean_rows, m, ls. now rewrite subset_is. }
    assert (FP : Forall P (map (b_CP m ls) (seq 0 k))) by (apply Forall_map, Forall_forall; intros; apply PC).
    assert (G : exists o', param_batch c m ls init_attrs = (o', Ok tt) /\ (exists x, evals c o' x /\ still c x)).
    { assert (GD : forall o', n_clusters o' = k -> n o' = map (b_n m ls) (seq 0 k) -> CP o' = map (b_CP m ls) (seq 0 k) ->
        P (fmul f2 (vmax (map2 fdiv (CP o') (map f_of_nat (n o')))))).
      { intros o' K1 K2 K3. apply (p_mul2 _ _ _ _ _ _ _ HP), vmax_all; [apply (p_max _ _ _ _ _ _ _ HP)|apply (p_0 _ _ _ _ _ _ _ HP)|].
        rewrite K3. now apply ratios_P with (1 := HP). }
      unfold six in Hc. repeat (destruct Hc as [<-|Hc]; [|]); [..|destruct Hc]; cbn [param_batch still].
      - destruct (CH_batch m ls HC) as (o' & E & [B1 B2 B3 B4 B5 B6] & E1 & _). fold k in B4, B5, E1. exists o'. split; auto.
        exists (CH_val o'). split; [apply CH_eval; lia|]. unfold CH_val. rewrite E1.
        do 3 eexists. split; [reflexivity|]. now apply py_sum_P with (1 := HP).
      - destruct (WB_batch m ls HC) as (o' & E & [B1 B2 B3 B4 B5 B6] & E1 & _). fold k in B4, B5, E1. exists o'. split; auto.
        exists (WB_val o'). split; [apply WB_eval; lia|]. unfold WB_val. rewrite E1.
        apply (z_mul _ _ _ _ _ HZ), (z_div _ _ _ _ _ HZ), (p_Z _ _ _ _ _ _ _ HP). now apply py_sum_P with (1 := HP).
      - destruct (DB_batch m ls HC) as (o' & E & [B1 B2 B3 B4 B5 B6] & E1 & ES & _ & _ & _ & ED). fold k in B4, B5, E1, ES, ED.
        exists o'. split; auto. exists (DB_val o'). split.
        { apply DB_eval; rewrite ?B4; auto; [rewrite ED; apply wfm_tab2|rewrite ES, map_length, seq_length; auto]. }
        unfold DB_val. apply (z_div _ _ _ _ _ HZ), (z_sum _ _ _ _ _ HZ).
        assert (PS1 : forall i, P (nth i (S1 o') f0)).
        { intros i. destruct (Nat.lt_ge_cases i k) as [Hi|Hi].
          - rewrite ES, nth_map_seq by auto. apply (p_div _ _ _ _ _ _ _ HP), PC.
          - rewrite nth_overflow; [apply (p_0 _ _ _ _ _ _ _ HP)|]. now rewrite ES, map_length, seq_length. }
        assert (HL : forall i j, Z (DB_low o' j i)).
        { intros i j. unfold DB_low. destruct (i <? j); [|apply (z_0 _ _ _ _ _ HZ)].
          apply (z_div _ _ _ _ _ HZ), (p_Z _ _ _ _ _ _ _ HP), (p_add _ _ _ _ _ _ _ HP); auto. }
        apply Forall_map, Forall_forall. intros j _.
        apply vmax_all; [apply (z_max _ _ _ _ _ HZ)|apply (z_0 _ _ _ _ _ HZ)|].
        apply Forall_map, Forall_forall. intros i _. apply (z_add _ _ _ _ _ HZ); auto.
      - destruct (XB_batch m ls HC) as (o' & E & [B1 B2 B3 B4 B5 B6] & E1 & _ & _ & ED). fold k in B4, B5, E1, ED. exists o'. split; auto.
        exists (XB_val o'). split; [apply XB_eval; rewrite ?B4; auto; rewrite ED; apply wfm_tab2|]. unfold XB_val. rewrite E1.
        apply (z_div _ _ _ _ _ HZ), (p_Z _ _ _ _ _ _ _ HP). now apply py_sum_P with (1 := HP).
      - destruct (GD43_batch m ls HC) as (o' & E & [B1 B2 B3 B4 B5 B6] & E1 & _ & _ & _ & ED). fold k in B4, B5, E1, ED. exists o'. split; auto.
        exists (GD_val o'). split.
        { apply GD43_eval; rewrite ?B4; auto; [rewrite ED; apply wfm_tab2|rewrite E1|rewrite B5]; now rewrite map_length, seq_length. }
        unfold GD_val. apply (q_infP _ _ _ _ _ _ _ HP); auto. rewrite B4, ED.
        apply vmin_all; [apply (q_min _ _ _ _ _ HZ)|now apply triu_ne|].
        apply triu_all. intros i j Hi Hj. unfold D_sym. rewrite entry_tab2 by lia.
        destruct (Nat.ltb_spec i j); [|lia]. destruct (Nat.ltb_spec j i); [lia|].
        apply (q_add0 _ _ _ _ _ _ _ HP), (q_sqrt _ _ _ _ _ HZ).
      - destruct (GD53_batch m ls HC) as (o' & E & [B1 B2 B3 B4 B5 B6] & E1 & _ & _ & _ & ED). fold k in B4, B5, E1, ED. exists o'. split; auto.
        exists (GD_val o'). split.
        { apply GD53_eval; rewrite ?B4; auto; [rewrite ED; apply wfm_tab2|rewrite E1|rewrite B5]; now rewrite map_length, seq_length. }
        unfold GD_val. apply (p_N _ _ _ _ _ _ _ HP); auto. rewrite B4, ED.
        apply vmin_all; [apply (p_min _ _ _ _ _ _ _ HP)|now apply triu_ne|].
        apply triu_all. intros i j Hi Hj. unfold D_sym. rewrite entry_tab2 by lia.
        destruct (Nat.ltb_spec i j); [|lia]. destruct (Nat.ltb_spec j i); [lia|].
        apply (p_add _ _ _ _ _ _ _ HP); [|apply (p_0 _ _ _ _ _ _ _ HP)].
        unfold b_gd53. apply (p_div _ _ _ _ _ _ _ HP), (p_add _ _ _ _ _ _ _ HP); auto. }
    destruct G as (o' & E & x & (o2 & E2 & Ex & _) & Hx). fold m ls. rewrite E. cbn [at_]. rewrite E2. cbn [fst snd].
    exists x. split; auto. now rewrite Ex.
  Qed.
End Still.

(** ** Integers *)
Lemma self_of_mean n z y : 0 < n -> (Z.abs z * Z.of_nat n <= 2 ^ 53)%Z -> summed (repeat (d_of_Z z) n) y ->
  plus0_or_nan (dsub (d_of_Z z) (dmul (ddiv y (d_of_Z (Z.of_nat n))) (d_of_Z 1))).
Proof.
  intros Hn Hz Hy.
  assert (T : forall k, total (repeat z k) = (Z.of_nat k * z)%Z).
  { induction k as [|k IH]; [reflexivity|]. unfold total in *. cbn [repeat fold_right]. rewrite IH. lia. }
  assert (TA : forall k, total (map Z.abs (repeat z k)) = (Z.of_nat k * Z.abs z)%Z).
  { induction k as [|k IH]; [reflexivity|]. unfold total in *. cbn [repeat map fold_right]. rewrite IH. lia. }
  assert (Bz : (Z.abs z <= 2 ^ 53)%Z) by nia. assert (Bn : (Z.abs (Z.of_nat n) <= 2 ^ 53)%Z \/ z = 0%Z) by nia.
  destruct (of_Z_ok z Bz) as (Vz & Fz & Rz).
  assert (NM : d_of_Z z <> minus0).
  { intros F. rewrite F in Rz. cbn in Rz. apply (eq_IZR 0) in Rz. subst z. discriminate F. }
  destruct (summed_int _ _ Hy (repeat z n)) as [Iy Ny].
  { clear -Vz Fz Rz. induction n; cbn; constructor; auto. repeat split; auto. }
  { rewrite TA. lia. }
  rewrite T in Iy. assert (Ey : y = d_of_Z (Z.of_nat n * z)).
  { apply isint_is; auto; [nia|]. apply Ny. clear -NM. apply Forall_forall. intros x Hx. now apply repeat_spec in Hx as ->. }
  destruct (Z.eq_dec z 0) as [->|Nz].
  - rewrite Ey, Z.mul_0_r. change (d_of_Z 0) with (S754_zero false).
    destruct (d_of_Z (Z.of_nat n)) as [g|g| |g m e] eqn:En.
    + right. reflexivity.
    + pose proof (nat_plus n) as K. rewrite En in K. destruct g; [discriminate K|]. left. reflexivity.
    + right. reflexivity.
    + pose proof (nat_plus n) as K. rewrite En in K. destruct g; [discriminate K|]. left. reflexivity.
  - destruct Bn as [Bn|]; [|contradiction]. destruct (of_Z_ok _ Bn) as (Vn & Fn & Rn).
    destruct (of_Z_ok (Z.of_nat n * z)) as (Vp & Fp & Rp); [nia|].
    assert (N0 : IZR (Z.of_nat n) <> 0%R) by (apply not_0_IZR; lia).
    assert (E : (rv (d_of_Z (Z.of_nat n * z)) / rv (d_of_Z (Z.of_nat n)))%R = rv (d_of_Z z)).
    { rewrite Rp, Rn, Rz, mult_IZR. field. exact N0. }
    destruct (ddiv_ok (d_of_Z (Z.of_nat n * z)) (d_of_Z (Z.of_nat n))) as (V & Fi & R); auto.
    + now rewrite Rn.
    + rewrite E. now apply no_overflow_rv.
    + rewrite E, rnd_rv in R by auto.
      assert (Q : ddiv y (d_of_Z (Z.of_nat n)) = d_of_Z z).
      { rewrite Ey. apply same_float; auto. rewrite R, Rz. now apply not_0_IZR. }
      rewrite Q, dmul_one by auto. apply dsub_self.
Qed.

(** ** Spec: samples with the same label are the same; integers [z] with |z| times
    the number of samples at most 2^53 *)
Definition copies {X} (s : list (X * Z)) : Prop := forall x y l, In (x, l) s -> In (y, l) s -> x = y.
Definition small_integers (s : list (list f64 * Z)) : Prop :=
  Forall (fun p => Forall (fun x => exists z, x = d_of_Z z /\ (Z.abs z * Z.of_nat (length s) <= 2 ^ 53)%Z) (fst p)) s.
(** the values of clusters without spread *)
Definition no_spread (c : kind) (x : f64) : Prop :=
  match c with
  | kWB | kDB | kXB => zero_or_nan x
  | kCH | kGD43 => inf_or_nan x
  | kGD53 => x = S754_nan
  | _ => True
  end.

Lemma cp_copies (L : Libm) (S : Sums) d (s : list (vec (F64o L S) * Z)) l : any_order S ->
  wf_stream d s -> copies s -> small_integers s -> plus0_or_nan (cp_rows d (grp s l)).
Proof.
  intros HS Hw Hc Hi. pose proof (F64o_pluses L S HS) as HP. unfold cp_rows, np_sumsq_all. apply (p_sum _ _ _ _ _ _ _ HP).
  set (g := grp s l).
  assert (IG : forall x, In x g -> In (x, l) s).
  { intros x Hx. unfold g, grp in Hx. apply in_map_iff in Hx as ([y k] & <- & H). apply filter_In in H as [H E]. cbn in E |- *.
    apply Z.eqb_eq in E. now subst k. }
  assert (LG : length g <= length s).
  { unfold g, grp. rewrite map_length. clear. induction s as [|p s IH]; auto. cbn [filter]. destruct (_ =? _)%Z; cbn [length]; lia. }
  apply Forall_map. unfold sub_rows, mean_rows, smean0, nrows. cbn [mrows mcols]. apply Forall_concat, Forall_map, Forall_forall.
  intros r Hr. pose proof (IG r Hr) as Hs. unfold wf_stream in Hw. unfold small_integers in Hi. rewrite Forall_forall in Hw, Hi.
  specialize (Hw _ Hs). specialize (Hi _ Hs). cbn [fst] in Hw, Hi.
  assert (Eg : g = repeat r (length g)).
  { clear -IG Hc Hs. induction g as [|x g IH]; [reflexivity|]. cbn [length repeat]. f_equal.
    - apply (Hc x r l); auto. apply IG. now left.
    - apply IH. intros y Hy. apply IG. now right. }
  assert (G0 : 0 < length g) by (destruct g; [destruct Hr|cbn; lia]).
  rewrite map_map. rewrite <- (map_seq_nth r f0) at 1. rewrite Hw, map2_same. apply Forall_map, Forall_forall. intros j Hj. apply in_seq in Hj.
  apply (p_sq _ _ _ _ _ _ _ HP).
  rewrite Forall_forall in Hi. destruct (Hi (nth j r f0)) as (z & Ez & Bz); [apply nth_In; lia|].
  assert (EC : col (mkMat (A := F64o L S) d g) j = repeat (d_of_Z z) (length g)).
  { unfold col. cbn [mrows]. rewrite Eg at 1. generalize (length g). intros q. induction q as [|q IH]; [reflexivity|]. cbn [repeat map]. now rewrite IH, Ez. }
  rewrite EC, Ez. apply (self_of_mean (length g) z); auto; [|apply HS].
  apply Z.le_trans with (2 := Bz). apply Z.mul_le_mono_nonneg_l; [apply Z.abs_nonneg|]. apply Nat2Z.inj_le. exact LG.
Qed.
Theorem C103_batch (L : Libm) (S : Sums) (c : kind) (d : nat) (s : list (vec (F64o L S) * Z)) :
  any_order S -> In c [kCH; kWB; kDB; kXB; kGD43; kGD53] ->
  Forall (fun p => length (fst p) = d) s -> copies s -> small_integers s -> 2 <= length (nodup Z.eq_dec (map snd s)) ->
  exists v : f64, results c new_obj [batch_of d s] = [Ok v] /\ no_spread c v.
Proof.
  intros HS Hc Hw Hq Hi Hl.
  destruct (batch_still _ _ _ _ _ _ (F64o_zeros L S HS) (F64o_pluses L S HS) c d s Hc Hw) as (x & E & Hx); auto.
  { intros l. now apply cp_copies. }
  exists x. split; auto. pose proof (C59_batches L S c d s x HS Hc E) as PP. clear Hc E. destruct c; cbn in Hx |- *; auto.
  destruct Hx as (b & w & e & -> & Hp).
  change (nan_or_plus (dmul (ddiv b w) e)) in PP. change (inf_or_nan (dmul (ddiv b w) e)).
  assert (K : (exists g, ddiv b w = S754_infinity g) \/ ddiv b w = S754_nan).
  { destruct Hp as [->| ->]; [|right; now destruct b]. destruct b as [g|g| |g m k]; [now right|left|now right|left]; now eexists. }
  destruct K as [[g K]|K]; rewrite K in *; [|now right].
  destruct e as [h|h| |h m k]; cbn in PP |- *; try (now right); left; now rewrite PP.
Qed.
Print Assumptions C103_batch.
(** 15, 15, 15 | 0 *)
Definition fifteen (L : Libm) : list (vec (F64 L) * Z) := [(dvec [15], 0); (dvec [15], 0); (dvec [15], 0); (dvec [0], 1)]%Z.
Theorem C103_example (L : Libm) : Forall (fun p => length (fst p) = 1) (fifteen L) /\ copies (fifteen L) /\ small_integers (fifteen L) /\
  length (nodup Z.eq_dec (map snd (fifteen L))) = 2 /\
  (let z := Ok (S754_zero false) in let n := Ok S754_nan in let i := Ok (S754_infinity false) in
   map (fun c => results c new_obj [batch_of 1 (fifteen L)]) [kCH; kWB; kDB; kXB; kGD43; kGD53] = [[i]; [z]; [z]; [z]; [i]; [n]]).
Proof.
  split; [repeat constructor|]. split.
  { intros x y l Hx Hy. cbn in Hx, Hy. repeat destruct Hx as [Hx|Hx]; repeat destruct Hy as [Hy|Hy]; try contradiction; congruence. }
  split. { repeat constructor; cbn; [exists 15%Z|exists 15%Z|exists 15%Z|exists 0%Z]; split; try reflexivity; cbn; lia. }
  split; [reflexivity|]. vm_compute. reflexivity.
Qed.
Print Assumptions C103_example.

(** ** False of streams: the running mean of 15, 15, 15 is not 15.  The last values
    are about 3.6e31, 1.1e-31, 1.4e-32, 1.1e-32, 2.4e30 and 3/8. *)
Definition drifted : list (kind * f64) :=
  [(kCH, S754_finite false 7916483719987203 52); (kWB, S754_finite false 5124095576030429 (-155));
   (kDB, S754_finite false 5124095576030430 (-158)); (kXB, S754_finite false 7686143364045645 (-159));
   (kGD43, S754_finite false 8444249301319681 48); (kGD53, ddiv (d_of_Z 3) (d_of_Z 8))].
Theorem C103_streams_refuted (L : Libm) : forall c x, In (c, x) drifted ->
  results c new_obj (stream (fifteen L)) = map Ok ([d_of_Z 0; d_of_Z 0; d_of_Z 0] ++ [x]) /\ ~ no_spread c x.
Proof.
  intros c x H. unfold drifted in H. repeat (destruct H as [H|H]; [injection H as <- <-; split; [vm_compute; reflexivity|]|]); [..|destruct H].
  1,5 : intros [F|F]; discriminate F.
  1,2,3 : intros F; exact F.
  vm_compute. discriminate.
Qed.
Print Assumptions C103_streams_refuted.

(** ** False of batches of fractions: 0.1, 0.1, 0.1 | 0 added from left to right *)
Definition tenth : f64 := ddiv (d_of_Z 1) (d_of_Z 10).
Definition tenths (L : Libm) : list (vec (F64 L) * Z) := [([tenth], 0); ([tenth], 0); ([tenth], 0); ([d_of_Z 0], 1)]%Z.
Definition drifted_batch : list (kind * f64) :=
  [(kCH, S754_finite false 5764607523034237 52); (kWB, S754_finite false 7036874417766397 (-155));
   (kDB, S754_finite false 7036874417766397 (-158)); (kXB, S754_finite false 5277655813324798 (-158));
   (kGD43, S754_finite false 7205759403792795 55); (kGD53, ddiv (d_of_Z 3) (d_of_Z 8))].
Theorem C103_fractions_refuted (L : Libm) : copies (tenths L) /\ forall c x, In (c, x) drifted_batch ->
  results c new_obj [batch_of 1 (tenths L)] = [Ok x] /\ ~ no_spread c x.
Proof.
  split.
  { intros x y l Hx Hy. cbn in Hx, Hy. repeat destruct Hx as [Hx|Hx]; repeat destruct Hy as [Hy|Hy]; try contradiction; congruence. }
  intros c x H. unfold drifted_batch in H. repeat (destruct H as [H|H]; [injection H as <- <-; split; [vm_compute; reflexivity|]|]); [..|destruct H].
  1,5 : intros [F|F]; discriminate F.
  1,2,3 : intros F; exact F.
  vm_compute. discriminate.
Qed.
Print Assumptions C103_fractions_refuted.
