(** * C103, streams of copies of one sample for which the running mean is exact *)
From Coq Require Import ZArith List Arith Bool Lia SpecFloat Permutation Reals Lra.
From Flocq Require Import Core BinarySingleNaN.
From Verif Require Import Num NumPy Base M_CH M_D M_PS GetCvi Lists Step Step2 StepB Hoare Eval Shapes Stream Generic RunForm BatchForm ValForm Sign.
From Verif Require Import F64 F64o XR P_Sign Alone P_Alone Rnd RndErr Scal AloneB P_AloneB P_AloneS P_Same.
Import ListNotations.
Local Open Scope nat_scope.

(** Spec: the number [a] averaged with itself as in CH.py:100-103, up to [m] times *)
Definition self_mean (k : nat) (a : f64) : f64 :=
  let w := ddiv (d_of_Z 1) (d_of_Z (Z.of_nat k)) in dadd (dmul (dsub (d_of_Z 1) w) a) (dmul w a).
Definition kept (m : nat) (a : f64) : Prop := forall k, 2 <= k <= m -> self_mean k a = a.

Section Kept.
  Context (L : Libm) (S : Sums) (HS : any_order S).
  Let P := plus0_or_nan.
  Lemma P_dot (a b : list f64) : Forall P a -> Forall P b -> P (s_dot S a b).
  Proof.
    intros Ha Hb. assert (H : Forall P (dprods a b)).
    { unfold dprods. revert b Hb. induction Ha as [|x a Hx _ IH]; intros b Hb; [constructor|]. destruct Hb as [|y b Hy Hb]; [constructor|].
      cbn. constructor; [|now apply IH]. destruct Hx as [->| ->], Hy as [->| ->]; first [now left|now right]. }
    apply plus0_zero. split.
    - apply (summed_zero _ _ (proj2 HS a b)). eapply Forall_impl; [|exact H]. intros x Hx. now apply plus0_zero in Hx.
    - apply (summed_plus _ _ (proj2 HS a b)). eapply Forall_impl; [|exact H]. intros x Hx. now apply plus0_zero in Hx.
  Qed.
  Lemma P_mul k a : P a -> P (dmul (d_of_Z (Z.of_nat k)) a).
  Proof.
    intros Ha. pose proof (nat_plus k) as K. destruct Ha as [->| ->]; destruct (d_of_Z (Z.of_nat k)) as [g|g| |g m e]; cbn in K |- *; subst; first [now left|now right].
  Qed.
  Lemma P_add a b : P a -> P b -> P (dadd a b).
  Proof. intros [->| ->] [->| ->]; first [now left|now right]. Qed.
  Lemma self_P (x : list f64) : Forall P (map2 dsub x x).
  Proof. induction x as [|a x IH]; constructor; auto. apply dsub_self. Qed.
  Lemma rmean_kept m k (x : vec (F64o L S)) : Forall (kept m) x -> 2 <= k <= m -> rmean k x x = x.
  Proof.
    intros H Hk. unfold rmean, scal, sscal. induction H as [|a x Ha _ IH]; [reflexivity|]. cbn [map map2]. rewrite IH. f_equal.
    exact (Ha k Hk).
  Qed.
  Lemma add_P (a b : list f64) : Forall P a -> Forall P b -> Forall P (map2 dadd a b).
  Proof.
    intros Ha. revert b. induction Ha as [|x a Hx _ IH]; intros b Hb; [constructor|]. destruct Hb as [|y b Hy Hb]; constructor; auto. now apply P_add.
  Qed.
  Lemma cl_kept (x : vec (F64o L S)) m : Forall (kept m) x -> forall k, 1 <= k <= m ->
    let c := cl_of (A := F64o L S) (repeat x k) in c_v c = x /\ P (c_cp c) /\ Forall P (c_g c).
  Proof.
    intros Hx k. induction k as [|k IH]; intros Hk; [lia|]. cbv zeta.
    destruct k as [|k].
    - cbn [repeat cl_of fold_left cl_one c_v c_cp c_g]. split; auto. split; [now left|]. unfold zeros. apply Forall_forall. intros y Hy. apply repeat_spec in Hy as ->. now left.
    - rewrite <- repeat_snoc, cl_of_snoc by discriminate. destruct (IH ltac:(lia)) as (E1 & E2 & E3). cbn [cl_add c_v c_cp c_g].
      set (c := cl_of (A := F64o L S) (repeat x (Datatypes.S k))) in *.
      assert (En : c_n c = Datatypes.S k) by (unfold c; now rewrite cl_of_n, repeat_length).
      assert (Ev : v_upd (c_n c) (c_v c) x = x).
      { unfold v_upd. rewrite E1, En. apply (rmean_kept m); auto. lia. }
      split; auto. split.
      + unfold cp_upd. rewrite Ev, E1. pose proof (self_P x) as SP.
        apply P_add; [apply P_add; [apply P_add; auto; now apply P_dot|apply P_mul; now apply P_dot]|apply (P_mul 2); now apply P_dot].
      + unfold g_upd. rewrite Ev, E1. pose proof (self_P x) as SP. apply add_P; [now apply add_P|].
        unfold scal. apply Forall_map. eapply Forall_impl; [|exact SP]. intros y Hy. now apply P_mul.
  Qed.
End Kept.

(** Theorem: the last value of a stream of copies whose means are kept *)
Theorem C103_streams_kept (L : Libm) (S : Sums) (c : kind) (d : nat) (s : list (vec (F64o L S) * Z)) vs (x : f64) :
  any_order S -> In c [kCH; kWB; kDB; kXB; kGD43; kGD53] ->
  Forall (fun p => length (fst p) = d) s -> copies s -> 2 <= length (nodup Z.eq_dec (map snd s)) ->
  (forall y l, In (y, l) s -> Forall (kept (length (filter (fun p => Z.eqb (snd p) l) s))) y) ->
  results c new_obj (stream s) = map Ok (vs ++ [x]) -> no_spread c x.
Proof.
  intros HS Hc Hw Hq Hl Hk Hr. pose proof (F64o_pluses L S HS) as HP. pose proof (F64o_zeros L S HS) as HZ.
  destruct (value_stream (A := F64o L S) c d s vs x Hw Hr) as (a & [_ Fk Fn _ Fg] & [XD XS] & Hsep & ->).
  assert (Hg : gclass c = true) by (repeat (destruct Hc as [<-|Hc]; [reflexivity|]); destruct Hc).
  destruct (Fg Hg) as (F1 & F2 & _ & _). clear Fg.
  assert (K2 : 1 < n_clusters a).
  { rewrite Fk. apply Nat.lt_le_trans with (1 := Hl). apply NoDup_incl_length; [apply NoDup_nodup|].
    intros l Hi. apply nodup_In in Hi. now apply first_seen_In. }
  assert (GP : forall l, In l (firsts s) -> plus0_or_nan (c_cp (cl_of (A := F64o L S) (grp s l)))).
  { intros l Hi. apply (proj1 (first_seen_In (map snd s) l)) in Hi.
    apply in_map_iff in Hi as ([y l'] & El & Hy). cbn in El. subst l'.
    assert (IG : forall z, In z (grp s l) -> In (z, l) s).
    { intros z Hz. unfold grp in Hz. apply in_map_iff in Hz as ([z' k] & <- & H). apply filter_In in H as [H E]. cbn in E |- *.
      apply Z.eqb_eq in E. now subst k. }
    assert (Eg : grp s l = repeat y (length (grp s l))).
    { clear -IG Hq Hy. induction (grp s l) as [|z g IH]; [reflexivity|]. cbn [length repeat]. f_equal.
      - apply (Hq z y l); auto. apply IG. now left.
      - apply IH. intros w Hz. apply IG. now right. }
    assert (Ln : length (grp s l) = length (filter (fun p => Z.eqb (snd p) l) s)) by (unfold grp; now rewrite map_length).
    rewrite Eg. apply (cl_kept L S HS y _ (Hk y l Hy)). rewrite Ln. split; auto.
    assert (In (y, l) (filter (fun p => Z.eqb (snd p) l) s)) by (apply filter_In; split; auto; apply Z.eqb_refl).
    destruct (filter _ s); [contradiction|cbn; lia]. }
  assert (GA : forall i, i < n_clusters a -> plus0_or_nan (c_cp (cl_at (A := F64o L S) (groups s) i))).
  { intros i Hi. rewrite Fk in Hi. unfold cl_at, groups. rewrite nth_indep with (d' := grp s 0%Z) by (now rewrite map_length).
    rewrite map_nth. apply GP. now apply nth_In. }
  assert (FP : Forall plus0_or_nan (CP a)).
  { rewrite F2. unfold groups. rewrite map_map. apply Forall_map, Forall_forall. exact GP. }
  assert (Lg : length (groups s) = n_clusters a) by (rewrite groups_length; auto).
  assert (PW : plus0_or_nan (py_sum (A := F64o L S) (CP a))) by now apply py_sum_P with (1 := HP).
  assert (PG : plus0_or_nan (fmul f2 (vmax (map2 fdiv (CP a) (map (f_of_nat (A := F64o L S)) (n a)))))).
  { apply (p_mul2 _ _ _ _ _ _ _ HP), vmax_all; [apply (p_max _ _ _ _ _ _ _ HP)|apply (p_0 _ _ _ _ _ _ _ HP)|]. now apply ratios_P with (1 := HP). }
  unfold val_of. destruct (Nat.leb_spec (n_clusters a) 1) as [F|_]; [lia|].
  repeat (destruct Hc as [<-|Hc]; [|]); [..|destruct Hc]; cbn [no_spread].
  - pose proof (F64o_signed L S HS) as SG.
    assert (PP : nan_or_plus (CH_val (A := F64o L S) a)).
    { apply (pos_CH _ SG); auto.
      - rewrite Hsep by auto. unfold sep_of. apply Forall_map, Forall_forall. intros i _. apply SG; [apply (pos_nat _ SG)|].
        apply (pos_py_sum _ SG). apply Forall_map, Forall_forall. intros. apply SG.
      - eapply Forall_impl; [|exact FP]. intros w Hw'. now apply plus0_zero in Hw'.
      - rewrite Fk, F1, <- (map_length snd s). apply NoDup_incl_length; [apply first_seen_NoDup|]. intros l Hi. now apply (proj1 (first_seen_In (map snd s) l)). }
    unfold CH_val in *. set (e := fdiv (f_of_Z (_ - Z.of_nat (n_clusters a))) _) in *. clearbody e.
    set (w := py_sum (CP a)) in *. clearbody w. set (b := py_sum (SEP a)) in *. clearbody b.
    change (nan_or_plus (dmul (ddiv b w) e)) in PP. change (inf_or_nan (dmul (ddiv b w) e)).
    assert (K : (exists g, ddiv b w = S754_infinity g) \/ ddiv b w = S754_nan).
    { destruct PW as [->| ->]; [|right; now destruct b]. destruct b as [g|g| |g m k]; [now right|left|now right|left]; now eexists. }
    destruct K as [[g K]|K]; rewrite K in *; [|now right].
    destruct e as [h|h| |h m k]; cbn in PP |- *; try (now right); left; now rewrite PP.
  - apply (z_mul _ _ _ _ _ HZ), (z_div _ _ _ _ _ HZ), (p_Z _ _ _ _ _ _ _ HP). exact PW.
  - unfold DB_val. apply (z_div _ _ _ _ _ HZ), (z_sum _ _ _ _ _ HZ).
    assert (PS1 : forall i, plus0_or_nan (nth i (S1 a) f0)).
    { assert (FS : Forall plus0_or_nan (S1 a)).
      { rewrite XS by auto. unfold groups. rewrite map_map. apply Forall_map, Forall_forall. intros l Hi. unfold S_form.
        destruct (_ =? _); [apply (p_0 _ _ _ _ _ _ _ HP)|]. apply (p_div _ _ _ _ _ _ _ HP). now apply GP. }
      rewrite Forall_forall in FS. intros i. destruct (nth_in_or_default i (S1 a) f0) as [H|H]; [now apply FS|]. rewrite H. apply (p_0 _ _ _ _ _ _ _ HP). }
    assert (HL : forall i j, zero_or_nan (DB_low (A := F64o L S) a j i)).
    { intros i j. unfold DB_low. destruct (i <? j); [|apply (z_0 _ _ _ _ _ HZ)].
      apply (z_div _ _ _ _ _ HZ), (p_Z _ _ _ _ _ _ _ HP), (p_add _ _ _ _ _ _ _ HP); auto. }
    apply Forall_map, Forall_forall. intros j _.
    apply vmax_all; [apply (z_max _ _ _ _ _ HZ)|apply (z_0 _ _ _ _ _ HZ)|].
    apply Forall_map, Forall_forall. intros i _. apply (z_add _ _ _ _ _ HZ); auto.
  - apply (z_div _ _ _ _ _ HZ), (p_Z _ _ _ _ _ _ _ HP). exact PW.
  - unfold GD_val. apply (q_infP _ _ _ _ _ _ _ HP); auto.
    apply vmin_all; [apply (q_min _ _ _ _ _ HZ)|now apply triu_ne|].
    apply triu_all. intros i j Hi Hj. destruct (XD eq_refl i j) as [E|E]; try lia; rewrite E; cbn [dterm]; apply (q_sqrt _ _ _ _ _ HZ).
  - symmetry. unfold GD_val. apply (p_N _ _ _ _ _ _ _ HP); auto.
    apply vmin_all; [apply (p_min _ _ _ _ _ _ _ HP)|now apply triu_ne|].
    apply triu_all. intros i j Hi Hj. destruct (XD eq_refl i j) as [E|E]; try lia; rewrite E; cbn [dterm];
      apply (p_div _ _ _ _ _ _ _ HP), (p_add _ _ _ _ _ _ _ HP); apply GA; lia.
Qed.
Print Assumptions C103_streams_kept.

(** Integers up to 2^53 are kept by one average with themselves *)
Lemma kept_two z m : (Z.abs z <= 2 ^ 53)%Z -> m <= 2 -> kept m (d_of_Z z).
Proof.
  intros Hz Hm k Hk. assert (k = 2) as -> by lia. unfold self_mean. cbv zeta.
  set (h := ddiv (d_of_Z 1) (d_of_Z (Z.of_nat 2))).
  replace (dsub (d_of_Z 1) h) with h by (vm_compute; reflexivity).
  destruct (Z.eq_dec z 0) as [->|Nz]; [vm_compute; reflexivity|].
  destruct (of_Z_ok z Hz) as (Vz & Fz & Rz).
  assert (Vh : valid h) by (vm_compute; reflexivity). assert (Fh : fin h) by (vm_compute; reflexivity).
  assert (Rh : rv h = (/ 2)%R).
  { replace h with (S754_finite false 4503599627370496 (-53)) by (vm_compute; reflexivity).
    unfold rv, SF2R, F2R. cbn [cond_Zopp Fnum Fexp]. change (bpow radix2 (-53)) with (/ IZR 9007199254740992)%R. lra. }
  assert (Fm : fmt (/ 2 * IZR z)).
  { apply generic_format_FLT. destruct (Z.eq_dec (Z.abs z) (2 ^ 53)) as [E|E].
    - exists (Float radix2 (z / 2) 0).
      + assert (z = 2 * (z / 2))%Z. { apply Z.div_exact; [lia|]. destruct (Z.abs_eq_or_opp z) as [A|A]; rewrite A in E.
          - now subst z. - replace z with (- 2 ^ 53)%Z by lia. reflexivity. }
        rewrite H at 1. rewrite mult_IZR. unfold F2R. cbn [Fnum Fexp bpow]. lra.
      + cbn [Fnum]. change (radix2 ^ 53)%Z with (2 ^ 53)%Z. apply Z.abs_lt. pose proof (Z.div_mod z 2). pose proof (Z.mod_pos_bound z 2). lia.
      + cbn. lia.
    - exists (Float radix2 z (-1)).
      + unfold F2R. cbn [Fnum Fexp]. change (bpow radix2 (-1)) with (/ IZR 2)%R. lra.
      + cbn [Fnum]. change (radix2 ^ 53)%Z with (2 ^ 53)%Z. lia.
      + cbn. lia. }
  assert (Bz : (Rabs (IZR z) <= bpow radix2 53)%R) by (rewrite <- abs_IZR; change (bpow radix2 53) with (IZR (2 ^ 53)); now apply IZR_le).
  destruct (dmul_ok h (d_of_Z z)) as (Vm & Fim & Rm); auto.
  { rewrite Rh, Rz. apply (no_overflow_le _ 53); [lia|]. rewrite Rabs_mult, (Rabs_pos_eq (/ 2)) by lra. pose proof (Rabs_pos (IZR z)). lra. }
  rewrite Rh, Rz, rnd_id in Rm by auto.
  destruct (dadd_ok (dmul h (d_of_Z z)) (dmul h (d_of_Z z))) as (Va & Fa & Ra); auto.
  { rewrite Rm. replace (/ 2 * IZR z + / 2 * IZR z)%R with (IZR z) by lra. apply (no_overflow_le _ 53); [lia|auto]. }
  rewrite Rm in Ra. replace (/ 2 * IZR z + / 2 * IZR z)%R with (IZR z) in Ra by lra. rewrite <- Rz, rnd_rv in Ra by auto.
  apply same_float; auto. rewrite Ra, Rz. now apply not_0_IZR.
Qed.
(** ... so streams with at most two copies of each integer sample have no spread *)
Theorem C103_streams_two (L : Libm) (S : Sums) (c : kind) (d : nat) (s : list (vec (F64o L S) * Z)) vs (x : f64) :
  any_order S -> In c [kCH; kWB; kDB; kXB; kGD43; kGD53] ->
  Forall (fun p => length (fst p) = d) s -> copies s -> 2 <= length (nodup Z.eq_dec (map snd s)) ->
  Forall (fun p => Forall (fun y => exists z, y = d_of_Z z /\ (Z.abs z <= 2 ^ 53)%Z) (fst p)) s ->
  (forall l, length (filter (fun p => Z.eqb (snd p) l) s) <= 2) ->
  results c new_obj (stream s) = map Ok (vs ++ [x]) -> no_spread c x.
Proof.
  intros HS Hc Hw Hq Hl Hi H2 Hr. apply (C103_streams_kept L S c d s vs x); auto.
  intros y l Hy. rewrite Forall_forall in Hi. specialize (Hi _ Hy). cbn [fst] in Hi. eapply Forall_impl; [|exact Hi].
  intros w (z & -> & Hz). now apply kept_two.
Qed.
Print Assumptions C103_streams_two.
(** 15, 0, 15, 0 with the labels 0, 1, 0, 1 *)
Definition pairs (L : Libm) : list (vec (F64 L) * Z) := [(dvec [15], 0); (dvec [0], 1); (dvec [15], 0); (dvec [0], 1)]%Z.
Theorem C103_streams_example (L : Libm) : Forall (fun p => length (fst p) = 1) (pairs L) /\ copies (pairs L) /\
  length (nodup Z.eq_dec (map snd (pairs L))) = 2 /\ (forall l, length (filter (fun p => Z.eqb (snd p) l) (pairs L)) <= 2) /\
  (let z := Ok (S754_zero false) in let n := Ok S754_nan in let i := Ok (S754_infinity false) in
   map (fun c => last (results c new_obj (stream (pairs L))) n) [kCH; kWB; kDB; kXB; kGD43; kGD53] = [i; z; z; z; i; n]).
Proof.
  split; [repeat constructor|]. split.
  { intros x y l Hx Hy. cbn in Hx, Hy. repeat destruct Hx as [Hx|Hx]; repeat destruct Hy as [Hy|Hy]; try contradiction; congruence. }
  split; [reflexivity|]. split.
  { intros l. cbn [pairs filter snd]. destruct (Z.eqb_spec 0 l), (Z.eqb_spec 1 l); cbn; lia. }
  vm_compute. reflexivity.
Qed.
Print Assumptions C103_streams_example.
