(** * C101: PS when all clusters have the same number of samples *)
From Coq Require Import ZArith List Arith Bool Lia SpecFloat Permutation Reals Lra.
From Flocq Require Import Core BinarySingleNaN.
From Verif Require Import Num NumPy Base GetCvi Lists Step Step2 StepB Stream Eval Shapes Hoare Generic RunForm BatchForm PSForm F64 F64o Rnd RndErr P_Sign Scal Bnd BndVal P_Bounds64 P_AloneS.
Import ListNotations.
Local Open Scope R_scope.
Local Notation R := Rdefinitions.R.

(** every label that occurs, occurs [q] times *)
Definition same_size {X} (q : nat) (s : list (X * Z)) : Prop :=
  forall l, In l (map snd s) -> count_occ Z.eq_dec (map snd s) l = q.
(** the labels that occur are 0, ..., k-1, k of them *)
Definition in_order {X} (s : list (X * Z)) : Prop :=
  forall l, In l (map snd s) <-> (0 <= l < Z.of_nat (length (nodup Z.eq_dec (map snd s))))%Z.

Lemma grp_count {X} (s : list (X * Z)) l : length (grp s l) = count_occ Z.eq_dec (map snd s) l.
Proof.
  unfold grp. rewrite map_length. induction s as [|[x m] s IH]; auto. cbn [filter map snd count_occ].
  destruct (Z.eqb_spec m l), (Z.eq_dec m l); try congruence; cbn [length]; now rewrite IH.
Qed.

(** ** Numbers between 0 and M *)
Definition upto (M : R) (x : f64) : Prop := x = S754_nan \/ (valid x /\ fin x /\ 0 <= rv x <= M).
Lemma upto_within M x : upto M x -> within 0 M x.
Proof. intros [->|(V & Fi & H)]; [now left|right; auto]. Qed.
Lemma upto_add x y a b : upto (INR a) x -> upto (INR b) y -> (Z.of_nat (a + b) <= 2 ^ 53)%Z -> upto (INR (a + b)) (dadd x y).
Proof.
  intros [->|(Vx & Fx & Hx)] [->|(Vy & Fy & Hy)] Hn; try (left; (apply nan_add_l || apply nan_add_r)).
  right. assert (H : Rabs (rv x + rv y) <= INR (a + b)) by (rewrite plus_INR, Rabs_pos_eq; lra).
  destruct (dadd_ok x y Vx Vy Fx Fy) as (V & Fi & E); [apply (no_overflow_fmt _ _ (fmt_nat _ Hn) H (nat_top _ Hn))|].
  split; auto. split; auto. rewrite E. split.
  - rewrite <- (rnd_id 0) by apply generic_format_0. apply rnd_le. lra.
  - rewrite <- (rnd_id (INR (a + b))) by now apply fmt_nat. apply rnd_le. rewrite plus_INR. lra.
Qed.
Lemma upto_sum l z : summed l z -> Forall (upto 1) l -> (Z.of_nat (length l) <= 2 ^ 53)%Z -> upto (INR (length l)) z.
Proof.
  induction 1 as [|x|a b l x y _ _ Ha IHa Hb IHb P]; intros HF Hn.
  - right. split; [reflexivity|]. split; [reflexivity|]. unfold rv. cbn. lra.
  - inversion HF; subst. exact H1.
  - rewrite P in HF. apply Forall_app in HF as [HA HB]. rewrite (Permutation_length P), app_length in *.
    apply upto_add; auto; [apply IHa|apply IHb]; auto; lia.
Qed.
Lemma upto_one_minus y : y = S754_nan \/ (valid y /\ fin y /\ 0 <= rv y <= 1) -> upto 1 (dsub (d_of_Z 1) y).
Proof.
  intros [->|(Vy & Fy & By)]; [left; apply nan_sub_r|]. right. destruct (of_Z_ok 1) as (V1 & F1 & R1); [lia|].
  assert (G1 : fmt 1) by (apply (fmt_nat 1); lia).
  destruct (dsub_ok (d_of_Z 1) y V1 Vy F1 Fy) as (V & Fz & Ez).
  { apply (no_overflow_fmt _ 1 G1); [rewrite R1; apply Rabs_le; lra|]. apply (nat_top 1). lia. }
  split; [exact V|]. split; [exact Fz|]. rewrite Ez, R1. split.
  - rewrite <- (rnd_id 0) by apply generic_format_0. apply rnd_le. lra.
  - apply Rle_trans with (rnd 1); [apply rnd_le; lra|rewrite rnd_id by exact G1; lra].
Qed.
Section PS.
  Context (L : Libm) (S : Sums) (HS : any_order S) (HL : exp_range L).
  Local Notation A := (F64o L S).
  Lemma upto_PS (a : attrs A) q : (Z.of_nat (n_clusters a) <= 2 ^ 53)%Z -> (0 < Z.of_nat q <= 2 ^ 53)%Z -> n a = repeat q (n_clusters a) ->
    (forall i x, (i < n_clusters a)%nat -> In x (remove_nth i (nth i (mrows (D a)) [])) -> nan_or_plus x) ->
    upto (INR (n_clusters a)) (val_of kPS a).
  Proof.
    intros Hk Hq Hn HD. unfold val_of. destruct (n_clusters a <=? 1)%nat.
    { right. destruct (of_Z_ok 0) as (V & Fz & R0); [lia|]. split; [exact V|]. split; [exact Fz|].
      change (0 <= rv (d_of_Z 0) <= INR (n_clusters a)). rewrite R0. split; [lra|apply pos_INR]. }
    unfold PS_val.
    match goal with |- upto _ (np_sum ?l) => assert (Hl : length l = n_clusters a) by (now rewrite map_length, seq_length);
      refine (eq_ind (length l) (fun q => upto (INR q) (np_sum (a := A) l)) _ _ Hl); apply (upto_sum l) end.
    - apply (proj1 HS).
    - apply Forall_forall. intros x Hx. apply in_map_iff in Hx as (i & <- & Hi). apply in_seq in Hi.
      assert (E : fdiv (a := A) (f_of_nat (nn a i)) (f_of_nat (list_max (n a))) = d_of_Z 1).
      { assert (E1 : nn a i = q). { unfold nn. rewrite Hn. rewrite nth_indep with (d' := q) by (rewrite repeat_length; lia). apply nth_repeat. }
        assert (E2 : list_max (n a) = q).
        { rewrite Hn. destruct (n_clusters a) as [|k]; [lia|]. apply Nat.le_antisymm.
          - apply list_max_le. apply Forall_forall. intros y Hy. apply repeat_spec in Hy. lia.
          - pose proof (nth_list_max (repeat q (Datatypes.S k)) 0) as M. exact M. }
        rewrite E1, E2. change (ddiv (d_of_Z (Z.of_nat q)) (d_of_Z (Z.of_nat q)) = d_of_Z 1). destruct (of_Z_ok (Z.of_nat q)) as (V1 & F1 & R1); [lia|]. apply ddiv_self; auto.
        rewrite R1. apply not_0_IZR. lia. }
      rewrite E. apply upto_one_minus.
      apply (exp_term L HL); [|apply plus_bt; exact HS]. apply plus_vmin. apply Forall_forall. intros x Hx. apply (HD i); [lia|exact Hx].
    - rewrite map_length, seq_length. exact Hk.
  Qed.
End PS.

(** ** C101: between 0 and k, with k clusters of the same size *)
Lemma size_ok {X} (s : list (X * Z)) q l : same_size q s -> (Z.of_nat (length s) <= 2 ^ 53)%Z -> In l (map snd s) -> (0 < Z.of_nat q <= 2 ^ 53)%Z.
Proof.
  intros Hq HN Hl. pose proof (Hq l Hl) as E. apply (proj1 (count_occ_In Z.eq_dec _ _)) in Hl.
  pose proof (count_occ_bound Z.eq_dec l (map snd s)) as B. rewrite map_length in B. lia.
Qed.
Lemma repeat_map {X Y} (f : X -> Y) l y : (forall x, In x l -> f x = y) -> map f l = repeat y (length l).
Proof. induction l as [|x l IH]; intros H; [reflexivity|]. cbn. rewrite H by now left. f_equal. apply IH. intros; apply H. now right. Qed.
Theorem C101_batch (L : Libm) (S : Sums) (d q : nat) (s : list (vec (F64o L S) * Z)) (x : f64) :
  any_order S -> exp_range L -> (Z.of_nat (length s) <= 2 ^ 53)%Z -> in_order s -> same_size q s ->
  results kPS new_obj [batch_of d s] = [Ok x] ->
  within 0 (INR (cluster_count s)) x.
Proof.
  intros HS HL HN Ho Hq Hr. destruct (ps_batch d s x Hr) as (a & HB & HD & Hk & ->).
  set (m := mkMat (A := F64o L S) d (map fst s)) in *. set (ls := map snd s) in *.
  pose proof (bc_k _ _ _ HB) as Ek. pose proof (bc_n _ _ _ HB) as En.
  assert (HO : forall i, (i < n_unique ls)%nat -> In (Z.of_nat i) (map snd s)).
  { intros i Hi. apply Ho. change (length (nodup Z.eq_dec (map snd s))) with (n_unique ls). lia. }
  apply upto_within. change (cluster_count s) with (n_unique ls). rewrite <- Ek. apply (upto_PS L S HS HL a q).
  - rewrite Ek. assert (cluster_count s <= length s)%nat by exact (count_le s). change (n_unique ls) with (cluster_count s). lia.
  - apply (size_ok s q 0%Z Hq HN). apply (HO 0%nat). lia.
  - rewrite En, Ek. transitivity (repeat q (length (seq 0 (n_unique ls)))); [|now rewrite seq_length]. apply repeat_map. intros i Hi. apply in_seq in Hi.
    unfold b_n, m, ls. rewrite subset_is. unfold nrows. cbn [mrows]. rewrite grp_count. apply Hq, HO. lia.
  - intros i y Hi Hy. apply in_remove_nth in Hy. rewrite HD in Hy. unfold D_sym, tab2 in Hy. cbn [mrows] in Hy.
    rewrite Ek in Hi. 
    rewrite nth_indep with (d' := map (fun b => fadd (if (0 <? b)%nat then b_sqd m ls 0 b else f0) (if (b <? 0)%nat then b_sqd m ls b 0 else f0)) (seq 0 (n_unique ls))) in Hy
      by (rewrite map_length, seq_length; exact Hi).
    rewrite (map_nth (fun a => map (fun b => fadd (if (a <? b)%nat then b_sqd m ls a b else f0) (if (b <? a)%nat then b_sqd m ls b a else f0)) (seq 0 (n_unique ls)))) in Hy.
    apply in_map_iff in Hy as (j & <- & _). apply dadd_plus.
    + destruct (_ <? _)%nat; [apply plus_sqd; exact HS|reflexivity].
    + destruct (_ <? _)%nat; [apply plus_sqd; exact HS|reflexivity].
Qed.
Print Assumptions C101_batch.
Theorem C101_stream (L : Libm) (S : Sums) (d q : nat) (s : list (vec (F64o L S) * Z)) (vs : list f64) (x : f64) :
  any_order S -> exp_range L -> Forall (fun p => length (fst p) = d) s -> (Z.of_nat (length s) <= 2 ^ 53)%Z -> same_size q s ->
  results kPS new_obj (stream s) = map Ok (vs ++ [x]) ->
  within 0 (INR (cluster_count s)) x.
Proof.
  intros HS HL Hw HN Hq Hr. destruct (ps_stream d s vs x Hw Hr) as (a & HF & HD & ->).
  destruct HF as [Hsh Ek En _ _].
  assert (Ec : cluster_count s = n_clusters a) by (rewrite Ek; symmetry; apply first_seen_length).
  assert (Hle : (cluster_count s <= length s)%nat) by exact (count_le s). rewrite Ec in *. apply upto_within.
  assert (HF : forall l, In l (firsts s) -> In l (map snd s)).
  { intros l Hl. exact (proj1 (first_seen_In _ _) Hl). }
  assert (Hs : s <> []) by (intros ->; destruct vs; discriminate).
  apply (upto_PS L S HS HL a q).
  - lia.
  - destruct s as [|[y l] s]; [congruence|]. apply (size_ok ((y, l) :: s) q l Hq HN). now left.
  - rewrite En, Ek. unfold groups. rewrite map_map. apply repeat_map. intros l Hl. rewrite grp_count. apply Hq, HF, Hl.
  - intros i y Hi Hy. destruct Hsh as [[-> ->]|[_ Hsh]]; [cbn in Hi; lia|]. cbn [Shape] in Hsh. pose proof (sp_D _ _ (proj1 Hsh)) as (W1 & W2 & W3).
    unfold remove_nth in Hy.
    assert (Hj : exists j, (j < n_clusters a)%nat /\ j <> i /\ y = entry (D a) i j).
    { apply in_app_or in Hy as [Hy|Hy].
      - apply (In_nth _ _ f0) in Hy as (j & Hj & <-). rewrite firstn_length in Hj. rewrite Forall_forall in W3.
        assert (HL1 : length (nth i (mrows (D a)) []) = n_clusters a) by (apply W3, nth_In; lia).
        exists j. split; [lia|]. split; [lia|]. unfold entry. rewrite <- (firstn_skipn i (nth i (mrows (D a)) [])) at 2.
        now rewrite app_nth1 by (rewrite firstn_length; lia).
      - apply (In_nth _ _ f0) in Hy as (j & Hj & <-). rewrite skipn_length in Hj. rewrite Forall_forall in W3.
        assert (HL1 : length (nth i (mrows (D a)) []) = n_clusters a) by (apply W3, nth_In; lia).
        exists (Datatypes.S i + j)%nat. split; [lia|]. split; [lia|]. unfold entry.
        rewrite <- (firstn_skipn (Datatypes.S i) (nth i (mrows (D a)) [])) at 2.
        rewrite app_nth2 by (rewrite firstn_length; lia). f_equal. rewrite firstn_length. lia. }
    destruct Hj as (j & Hj & Nij & ->). destruct (HD i j Hi Hj (not_eq_sym Nij)) as [->| ->]; apply plus_sqd; exact HS.
Qed.
Print Assumptions C101_stream.
(** the clusters 0, 2 | 10, 14 of [two_data], two samples each *)
Theorem C101_example : exp_range rough /\ in_order (two_data rough) /\ same_size 2 (two_data rough) /\
  Forall (fun p => length (fst p) = 1%nat) (two_data rough) /\
  results kPS new_obj [batch_of 1 (two_data rough)] = [Ok (d_of_Z 1)] /\
  results kPS new_obj (stream (two_data rough)) = map Ok ([d_of_Z 0; d_of_Z 0; dyadic 1 1] ++ [d_of_Z 1]).
Proof.
  destruct C66_PS_example as (H1 & H2 & H3 & H4). split; [exact H1|]. split; [intros l; cbn; lia|]. split.
  { intros l Hl. cbn in Hl. assert (l = 0 \/ l = 1)%Z as [-> | ->] by lia; reflexivity. }
  split; [exact H4|]. split; auto.
Qed.
Print Assumptions C101_example.
