(** * C99: every sample a cluster of its own *)
From Coq Require Import ZArith List Arith Bool Lia SpecFloat Permutation Reals Lra.
From Flocq Require Import Core BinarySingleNaN.
From Verif Require Import Num NumPy Base M_PS GetCvi Lists Step StepB Hoare Eval Stream Generic RunForm BatchForm F64 F64o P_Sign Alone AloneB P_Alone P_AloneB Rnd Scal Bnd BndVal.
Import ListNotations.
Local Open Scope nat_scope.

(** ** The diagonal of the table *)
Section Row.
  Context {A : Arith} (Z N Q I P V : F A -> Prop) (HZ : Zeros A Z N Q I) (HP : Pluses A Z N Q I P V).
  Lemma self_row d (r : vec A) : length r = d -> Forall V r ->
    P (np_sumsq (map2 fsub r (map (fun x => fmul x f1) (smean0 (mkMat d [r]))))).
  Proof.
    intros Hl Hv. unfold np_sumsq. apply (p_sum _ _ _ _ _ _ _ HP), Forall_map.
    unfold smean0, col, nrows. cbn [mrows mcols map length]. rewrite map_map.
    rewrite <- (map_seq_nth r f0) at 1. rewrite Hl, map2_same.
    apply Forall_map, Forall_forall. intros j Hj. apply in_seq in Hj.
    apply (p_sq _ _ _ _ _ _ _ HP), (p_self _ _ _ _ _ _ _ HP). rewrite Forall_forall in Hv. apply Hv, nth_In. lia.
  Qed.
  Lemma sil_diag d (s : list (vec A * BinInt.Z)) i : NoDup (map snd s) -> wf_stream d s -> Forall (fun p => Forall V (fst p)) s ->
    P (b_sil (mkMat d (map fst s)) (map snd s) i i).
  Proof.
    intros Hn Hw Hv. unfold b_sil. apply (p_div _ _ _ _ _ _ _ HP), (py_sum_P _ _ _ _ _ _ HP).
    set (m := mkMat d (map fst s)). set (ls := map snd s).
    pose proof (subset_is d s i) as Es. fold m ls in Es. unfold b_v. 
    assert (HI : forall x, In x (indices_of i ls) -> x < length s).
    { intros x Hx. apply indices_lt in Hx. unfold ls in Hx. now rewrite map_length in Hx. }
    assert (HL : length (indices_of i ls) <= 1).
    { apply (f_equal (@nrows A)) in Es. unfold nrows, subset in Es. cbn [mrows] in Es. rewrite map_length in Es. rewrite Es.
      destruct (grp_alone s (Z.of_nat i) Hn) as [->|(y & -> & _)]; simpl; lia. }
    unfold subset. destruct (indices_of i ls) as [|x [|? ?]]; [constructor| |simpl in HL; lia].
    specialize (HI x (or_introl eq_refl)). cbn [map]. constructor; [|constructor].
    rewrite (nth_indep _ f0 (np_sumsq (map2 fsub [] (map (fun y => fmul y f1) (smean0 (mkMat (mcols m) [nth x (mrows m) []]))))))
      by (unfold sub_rows, m; cbn [mrows]; now rewrite !map_length).
    unfold sub_rows. rewrite map_map.
    rewrite (map_nth (fun r => np_sumsq (map2 fsub r (map (fun y => fmul y f1) (smean0 (mkMat (mcols m) [nth x (mrows m) []])))))).
    assert (Hx : In (nth x (mrows m) []) (map fst s)) by (apply nth_In; now rewrite map_length).
    apply in_map_iff in Hx as (p & Ep & Hp). rewrite <- Ep. unfold wf_stream in Hw. rewrite Forall_forall in Hw, Hv.
    apply self_row; auto.
  Qed.
End Row.

(** ** Ones *)
Lemma same_float x y : valid x -> valid y -> fin x -> fin y -> rv x = rv y -> rv x <> 0%R -> x = y.
Proof.
  intros Vx Vy Fx Fy E Nz. destruct y as [?|?| |s m e]; try discriminate Fy.
  - exfalso. apply Nz. rewrite E. reflexivity.
  - apply same_finite; auto.
Qed.
Lemma ddiv_self x : valid x -> fin x -> rv x <> 0%R -> ddiv x x = d_of_Z 1.
Proof.
  intros V Fx Nz. destruct of_Z_1 as (V1 & F1 & R1).
  assert (E : (rv x / rv x)%R = rv (d_of_Z 1)) by (rewrite R1; now field).
  destruct (ddiv_ok x x) as (Vy & Fy & Ey); auto.
  - rewrite E. now apply no_overflow_rv.
  - rewrite E, rnd_rv in Ey by auto. apply same_float; auto. rewrite Ey, R1. lra.
Qed.
Lemma dadd_count a b : 0 < a -> 0 < b -> (Z.of_nat (a + b) <= 2 ^ 53)%Z ->
  dadd (d_of_Z (Z.of_nat a)) (d_of_Z (Z.of_nat b)) = d_of_Z (Z.of_nat (a + b)).
Proof.
  intros Ha Hb H. destruct (of_Z_ok (Z.of_nat a)) as (V1 & F1 & R1); [lia|]. destruct (of_Z_ok (Z.of_nat b)) as (V2 & F2 & R2); [lia|].
  destruct (of_Z_ok (Z.of_nat (a + b))) as (V3 & F3 & R3); [lia|].
  assert (E : (rv (d_of_Z (Z.of_nat a)) + rv (d_of_Z (Z.of_nat b)))%R = rv (d_of_Z (Z.of_nat (a + b)))).
  { rewrite R1, R2, R3, <- plus_IZR. f_equal. lia. }
  destruct (dadd_ok (d_of_Z (Z.of_nat a)) (d_of_Z (Z.of_nat b))) as (Vy & Fy & Ey); auto.
  - rewrite E. now apply no_overflow_rv.
  - rewrite E, rnd_rv in Ey by auto. apply same_float; auto. rewrite Ey, R3. apply not_0_IZR. lia.
Qed.
Definition one_or_nan (x : f64) : Prop := x = d_of_Z 1 \/ x = S754_nan.
Lemma ones l z : summed l z -> Forall one_or_nan l -> (Z.of_nat (length l) <= 2 ^ 53)%Z ->
  z = d_of_Z (Z.of_nat (length l)) \/ z = S754_nan.
Proof.
  induction 1 as [|x|a b l x y Ha Hb _ IHa _ IHb P]; intros HF HL; [now left| |].
  - inversion HF as [|? ? H _]; subst. exact H.
  - rewrite P in HF. apply Forall_app in HF as [FA FB]. rewrite (Permutation_length P), app_length in HL |- *.
    destruct (IHa FA ltac:(lia)) as [->| ->]; [|right; now destruct y].
    destruct (IHb FB ltac:(lia)) as [->| ->]; [|right; now destruct (d_of_Z _)].
    left. apply dadd_count; auto; [destruct a; [congruence|]|destruct b; [congruence|]]; simpl; lia.
Qed.
Lemma coef_one a b : plus0_or_nan a -> vp b -> one_or_nan (ddiv (dsub b a) (dmax a b)).
Proof.
  intros [->| ->] [Vb Pb]; [|right; now destruct b].
  destruct b as [s|s| |s m e]; cbn in Pb; subst; try (now right). left.
  change (dsub (S754_finite false m e) (S754_zero false)) with (S754_finite false m e).
  change (dmax (S754_zero false) (S754_finite false m e)) with (S754_finite false m e).
  apply ddiv_self; auto; [reflexivity|]. unfold rv. cbn [SF2R]. intros H. apply eq_0_F2R in H. discriminate.
Qed.

(** ** C99: cSIL of a batch is 1, its best value, or nan, or 0 when the computed
    distances are all zero.  Up to 2^53 samples. *)
Theorem C99_batch (L : Libm) (S : Sums) (d : nat) (s : list (vec (F64o L S) * Z)) :
  any_order S -> Forall (fun p => length (fst p) = d) s -> Forall (fun p => Forall valid (fst p)) s -> NoDup (map snd s) ->
  2 <= length s -> (Z.of_nat (length s) <= 2 ^ 53)%Z ->
  exists v : f64, results kcSIL new_obj [batch_of d s] = [Ok v] /\ (v = d_of_Z 1 \/ v = S754_nan \/ v = d_of_Z 0).
Proof.
  intros HS Hw Hv Hn Hl HN. unfold results, batch_of. cbn [run fst snd]. unfold get_cvi, update.
  cbn [at_ new_obj label_map init_attrs is_setup].
  set (m := mkMat (A := F64o L S) d (map fst s)). set (ls := map snd s).
  assert (HU : n_unique ls = length s) by (unfold ls; rewrite n_unique_alone by auto; apply map_length).
  assert (EU : (1 <? unique_labels (Labs ls)) = true) by (apply Nat.ltb_lt; cbn [unique_labels]; rewrite HU; lia).
  rewrite EU. cbn [negb].
  assert (Hm : nrows m = length s) by (unfold nrows, m; cbn [mrows]; apply map_length).
  assert (HC : covers m ls (n_unique ls)) by (apply covers_le; rewrite Hm; unfold ls; now rewrite map_length).
  assert (HVr : valid_rows (mrows m)).
  { unfold valid_rows, m. cbn [mrows]. apply Forall_map. exact Hv. }
  destruct (cSIL_batch m ls HC ltac:(lia)) as (o1 & E3 & HB & _ & _ & _ & HS2). pose proof (bc_k _ _ _ HB) as Ek.
  cbn [param_batch]. rewrite E3. cbn [at_].
  destruct (cSIL_eval o1) as (o3 & E4 & E5 & _); [lia|rewrite Ek, HS2; apply wfm_tab2|]. rewrite E4. cbn [fst snd].
  exists (cSIL_val o1). rewrite E5. split; auto.
  unfold cSIL_val. destruct (np_any (S2 o1)); [|now auto].
  assert (G : forall w : list f64, Forall one_or_nan w -> length w = length s ->
    ddiv (s_sum S w) (d_of_Z (Z.of_nat (length s))) = d_of_Z 1 \/ ddiv (s_sum S w) (d_of_Z (Z.of_nat (length s))) = S754_nan).
  { intros w HO HLn. destruct (ones w _ (proj1 HS w) HO) as [E|E]; [rewrite HLn; lia| |]; rewrite E; [|now right].
    left. rewrite HLn. destruct (of_Z_ok (Z.of_nat (length s))) as (V1 & F1 & R1); [lia|]. apply ddiv_self; auto.
    rewrite R1. apply not_0_IZR. lia. }
  unfold f_of_nat. rewrite Ek, HU. match goal with |- fdiv (np_sum ?l) _ = _ \/ _ => destruct (G l) as [E|E] end; auto.
  - apply Forall_map, Forall_forall. intros i Hi. apply in_seq in Hi. apply coef_one.
    + rewrite HS2, entry_tab2 by lia. exact (sil_diag _ _ _ _ _ _ (F64o_pluses L S HS) d s i Hn Hw Hv).
    + apply (vp_vmin L S). apply Forall_forall. intros x Hx. apply in_remove_nth in Hx. unfold col in Hx.
      apply in_map_iff in Hx as (r & <- & Hr). rewrite HS2 in Hr. unfold tab2 in Hr. cbn [mrows] in Hr.
      apply in_map_iff in Hr as (j & <- & Hj). rewrite nth_map_seq by lia. now apply vp_sil.
  - now rewrite map_length, seq_length.
Qed.
Print Assumptions C99_batch.
(** three samples apart give 1; two of them the same, nan; all the same, 0 *)
Theorem C99_example (L : Libm) :
  map (fun xs => results kcSIL new_obj [batch_of (A := F64 L) 1 (combine (map (fv L) xs) [2; 0; 1]%Z)])
    [[[0]; [3]; [10]]; [[0]; [3]; [3]]; [[3]; [3]; [3]]]%Z =
  [[Ok (d_of_Z 1)]; [Ok S754_nan]; [Ok (d_of_Z 0)]] /\
  Forall (fun p => Forall valid (fst p)) (combine (map (fv L) [[0]; [3]; [10]]%Z) [2; 0; 1]%Z).
Proof. split; [vm_compute; reflexivity|repeat constructor]. Qed.
Print Assumptions C99_example.

(** ** One sample at a time cSIL expands the squares: of the samples 440837476 and
    440837478 the squared distance 4 comes out as -64, and the value is -inf,
    where the batch gives 1. *)
Theorem C99_streams_refuted (L : Libm) :
  let s := combine (map (fv L) [[440837476]; [440837478]]%Z) [0; 1]%Z in
  NoDup (map snd s) /\ results kcSIL new_obj (stream s) = [Ok (d_of_Z 0); Ok (S754_infinity true)] /\
  results kcSIL new_obj [batch_of 1 s] = [Ok (d_of_Z 1)].
Proof. split; [repeat constructor; cbn; intuition discriminate|]. split; vm_compute; reflexivity. Qed.
Print Assumptions C99_streams_refuted.
