(** * Bounds of the values computed in binary64: the batch quantities and the criterion values *)
From Coq Require Import ZArith Lia Lra SpecFloat List Arith Bool Reals Permutation.
From Flocq Require Import Core BinarySingleNaN Mult_error.
From Verif Require Import Num NumPy Base GetCvi Lists Step StepB Eval Shapes F64 F64o Rnd RndErr RndOps RndSel P_Sign Bnd.
Import ListNotations.
Local Open Scope R_scope.
Local Notation R := Rdefinitions.R.
#[local] Existing Instance Hprec.
#[local] Existing Instance Hmax.

(** a binary64 number without a sign, or nan *)
Definition vp (x : f64) : Prop := valid x /\ nan_or_plus x.
Lemma vp_sq x : valid x -> vp (dmul x x).
Proof. intros H. split; [now apply valid_mul|apply dmul_sq]. Qed.
Lemma vp_add x y : vp x -> vp y -> vp (dadd x y).
Proof. intros [] []. split; [now apply valid_add|now apply dadd_plus]. Qed.
Lemma vp_div x y : vp x -> vp y -> vp (ddiv x y).
Proof. intros [] []. split; [now apply valid_div|now apply ddiv_plus]. Qed.
Lemma vp_mul x y : vp x -> vp y -> vp (dmul x y).
Proof. intros [] []. split; [now apply valid_mul|now apply dmul_plus]. Qed.
Lemma vp_Z z : (0 <= z)%Z -> vp (d_of_Z z).
Proof. intros H. split; [apply valid_Z|now apply normalize_plus]. Qed.
Lemma vp_min x y : vp x -> vp y -> vp (dmin x y).
Proof. intros [] []. split; [now apply valid_min|]. unfold dmin. destruct (SFcompare x y) as [[]|]; auto. exact I. Qed.
Lemma vp_max x y : vp x -> vp y -> vp (dmax x y).
Proof. intros [] []. split; [now apply valid_max|]. unfold dmax. destruct (SFcompare x y) as [[]|]; auto. exact I. Qed.
Lemma vp_summed l z : summed l z -> Forall vp l -> vp z.
Proof.
  intros H HF. split.
  - apply (valid_summed l z H). eapply Forall_impl; [|exact HF]. now intros a [].
  - apply (summed_plus l z H). eapply Forall_impl; [|exact HF]. now intros a [].
Qed.
Lemma vp_fold_min l x : vp x -> Forall vp l -> vp (fold_left dmin l x).
Proof. revert x; induction l as [|y l IH]; intros x Hx H; [exact Hx|]. inversion H; subst. apply IH; [now apply vp_min|auto]. Qed.
Lemma vp_fold_max l x : vp x -> Forall vp l -> vp (fold_left dmax l x).
Proof. revert x; induction l as [|y l IH]; intros x Hx H; [exact Hx|]. inversion H; subst. apply IH; [now apply vp_max|auto]. Qed.
Lemma vp_fold_add l x : vp x -> Forall vp l -> vp (fold_left dadd l x).
Proof. revert x; induction l as [|y l IH]; intros x Hx H; [exact Hx|]. inversion H; subst. apply IH; [now apply vp_add|auto]. Qed.

(** ** The operations whose result is a finite number *)
Lemma dadd_fin x y : valid x -> valid y -> fin (dadd x y) ->
  fin x /\ fin y /\ rv (dadd x y) = rnd (rv x + rv y).
Proof.
  intros Hx Hy Hf.
  assert (Fx : fin x) by (destruct x as [|[]| |], y as [|[]| |]; try reflexivity; exfalso; revert Hf; cbn; discriminate).
  assert (Fy : fin y) by (destruct x as [|[]| |], y as [|[]| |]; try reflexivity; exfalso; revert Hf; cbn; discriminate).
  split; auto. split; auto. rewrite (dadd_equiv x y Hx Hy) in *. unfold fin in Hf. rewrite fin_B2SF in Hf. rewrite rv_B2SF.
  pose proof (Bplus_correct 53 1024 _ _ mode_NE (B x Hx) (B y Hy)) as H. rewrite !fin_B, !B2R_rv in H.
  specialize (H Fx Fy). destruct (Rlt_bool _ _); [apply H|].
  destruct H as [H _]. exfalso. revert Hf. rewrite <- fin_B2SF, H. cbn. discriminate.
Qed.
Lemma dmul_fin x y : valid x -> valid y -> fin (dmul x y) ->
  fin x /\ fin y /\ rv (dmul x y) = rnd (rv x * rv y).
Proof.
  intros Hx Hy Hf.
  assert (Fx : fin x) by (destruct x as [|[]| |], y as [|[]| |]; try reflexivity; exfalso; revert Hf; cbn; discriminate).
  assert (Fy : fin y) by (destruct x as [|[]| |], y as [|[]| |]; try reflexivity; exfalso; revert Hf; cbn; discriminate).
  split; auto. split; auto. rewrite (dmul_equiv x y Hx Hy) in *. unfold fin in Hf. rewrite fin_B2SF in Hf. rewrite rv_B2SF.
  pose proof (Bmult_correct 53 1024 _ _ mode_NE (B x Hx) (B y Hy)) as H. rewrite !fin_B, !B2R_rv in H.
  destruct (Rlt_bool _ _); [apply H|].
  exfalso. revert Hf. rewrite <- fin_B2SF, H. cbn. discriminate.
Qed.
Lemma ddiv_fin x y : valid x -> valid y -> fin y -> fin (ddiv x y) ->
  fin x /\ rv y <> 0 /\ rv (ddiv x y) = rnd (rv x / rv y).
Proof.
  intros Hx Hy Fy Hf.
  assert (Fx : fin x) by (destruct x as [|[]| |], y as [|[]| |]; try reflexivity; exfalso; revert Hf; cbn; discriminate).
  split; auto.
  assert (Ny : rv y <> 0).
  { intros Hz. destruct (fin_zero y Fy Hz) as [s ->]. destruct x as [|[]| |]; cbn in *; discriminate. }
  split; auto. rewrite (ddiv_equiv x y Hx Hy) in *. unfold fin in Hf. rewrite fin_B2SF in Hf. rewrite rv_B2SF.
  pose proof (Bdiv_correct 53 1024 _ _ mode_NE (B x Hx) (B y Hy)) as H. rewrite !B2R_rv in H.
  specialize (H Ny). destruct (Rlt_bool _ _); [apply H|].
  exfalso. revert Hf. rewrite <- fin_B2SF, H. cbn. discriminate.
Qed.
Lemma dmax_fin x y : vp x -> vp y -> fin (dmax x y) -> fin x /\ fin y /\ rv (dmax x y) = Rmax (rv x) (rv y).
Proof.
  intros [Vx Px] [Vy Py] Hf.
  destruct (plus_cases x Px) as [->|[->|[Fx _]]]; [discriminate| |].
  - exfalso. destruct y as [s|[]| |s m e]; cbn in Hf; try discriminate.
  - destruct (plus_cases y Py) as [->|[->|[Fy _]]].
    + exfalso. destruct x as [s|[]| |s m e]; cbn in Hf; discriminate.
    + exfalso. destruct x as [s|[]| |s m e]; cbn in Hf; try discriminate.
    + split; auto. split; auto. now apply max_ok.
Qed.
Lemma fold_max_fin l x : vp x -> Forall vp l -> fin (fold_left dmax l x) ->
  forall y, In y (x :: l) -> fin y /\ rv y <= rv (fold_left dmax l x).
Proof.
  revert x; induction l as [|z l IH]; intros x Hx HF Hf y Hy.
  - destruct Hy as [<-|[]]. split; [exact Hf|cbn; lra].
  - inversion HF; subst. cbn [fold_left] in *. assert (Hm : vp (dmax x z)) by now apply vp_max.
    destruct (IH _ Hm H2 Hf (dmax x z) (or_introl eq_refl)) as [Fm Lm].
    destruct (dmax_fin x z Hx H1 Fm) as (F1 & F2 & Em).
    destruct Hy as [<-|[<-|Hy]].
    + split; auto. rewrite Em in Lm. eapply Rle_trans; [apply Rmax_l|exact Lm].
    + split; auto. rewrite Em in Lm. eapply Rle_trans; [apply Rmax_r|exact Lm].
    + apply (IH _ Hm H2 Hf). now right.
Qed.
(** the minimum is nan or one of the terms *)
Lemma fold_min_in l x : fold_left dmin l x = S754_nan \/ In (fold_left dmin l x) (x :: l).
Proof.
  revert x; induction l as [|z l IH]; intros x; [right; now left|]. cbn [fold_left].
  destruct (IH (dmin x z)) as [Hn|Hi]; [now left|].
  destruct Hi as [Hi|Hi]; [|right; right; right; exact Hi].
  rewrite <- Hi. unfold dmin. destruct (SFcompare x z) as [[]|]; [right; now left|right; now left|right; right; now left|left; auto].
Qed.

(** ** The quantities of a batch *)
Section Batch.
  Context (L : Libm) (S : Sums) (HS : any_order S).
  Local Notation A := (F64o L S).
  Definition valid_rows (rs : list (list f64)) : Prop := Forall (Forall valid) rs.

  Lemma vp_npsum (l : vec A) : Forall vp l -> vp (np_sum (a := A) l).
  Proof. intros H. exact (vp_summed l _ (proj1 HS l) H). Qed.
  Lemma valid_npsum (l : vec A) : Forall valid l -> valid (np_sum (a := A) l).
  Proof. intros H. exact (valid_summed l _ (proj1 HS l) H). Qed.
  Lemma valid_nth (l : list f64) i : Forall valid l -> valid (nth i l (d_of_Z 0)).
  Proof.
    intros H. destruct (Nat.lt_ge_cases i (length l)) as [Hi|Hi].
    - rewrite Forall_forall in H. apply H, nth_In, Hi.
    - rewrite nth_overflow by exact Hi. apply valid_Z.
  Qed.
  Lemma valid_mean0 (m : mat A) : valid_rows (mrows m) -> Forall valid (mean0 m).
  Proof.
    intros H. unfold mean0. apply Forall_forall. intros x Hx. apply in_map_iff in Hx as (j & <- & _).
    apply valid_div; [|apply valid_Z]. apply valid_npsum. unfold col. apply Forall_forall. intros y Hy.
    apply in_map_iff in Hy as (r & <- & Hr). apply (valid_nth r j). unfold valid_rows in H. rewrite Forall_forall in H. now apply H.
  Qed.
  Lemma valid_subset (m : mat A) ls ix : valid_rows (mrows m) -> valid_rows (mrows (subset m ls ix)).
  Proof.
    intros H. unfold valid_rows, subset. cbn [mrows]. apply Forall_forall. intros r Hr. apply in_map_iff in Hr as (i & <- & _).
    destruct (Nat.lt_ge_cases i (length (mrows m))) as [Hi|Hi].
    - unfold valid_rows in H. rewrite Forall_forall in H. apply H, nth_In, Hi.
    - rewrite nth_overflow by exact Hi. constructor.
  Qed.
  Lemma valid_bv (m : mat A) ls ix : valid_rows (mrows m) -> Forall valid (b_v m ls ix).
  Proof. intros H. apply valid_mean0. now apply valid_subset. Qed.
  Lemma valid_map2_sub (a b : list f64) : Forall valid a -> Forall valid b -> Forall valid (map2 dsub a b).
  Proof.
    revert b; induction a as [|x a IH]; intros [|y b] Ha Hb; cbn [map2]; constructor.
    - inversion Ha; inversion Hb; subst. now apply valid_sub.
    - inversion Ha; inversion Hb; subst. now apply IH.
  Qed.
  Lemma vp_sumsq (l : list f64) : Forall valid l -> vp (np_sumsq (l : vec A)).
  Proof.
    intros H. unfold np_sumsq. apply vp_npsum. apply Forall_forall. intros x Hx. apply in_map_iff in Hx as (y & <- & Hy).
    apply vp_sq. rewrite Forall_forall in H. now apply H.
  Qed.
  Lemma vp_sqd (a b : list f64) : Forall valid a -> Forall valid b -> vp (sqd (a : vec A) b).
  Proof. intros Ha Hb. unfold sqd. apply vp_sumsq. now apply valid_map2_sub. Qed.
  Lemma valid_sub_rows (m : mat A) (v : vec A) : valid_rows (mrows m) -> Forall valid v -> valid_rows (sub_rows m v).
  Proof.
    intros H Hv. unfold valid_rows, sub_rows. apply Forall_forall. intros r Hr. apply in_map_iff in Hr as (x & <- & Hx).
    apply valid_map2_sub.
    - unfold valid_rows in H. rewrite Forall_forall in H. now apply H.
    - apply Forall_forall. intros y Hy. apply in_map_iff in Hy as (z & <- & Hz). apply valid_mul; [|apply valid_Z].
      rewrite Forall_forall in Hv. now apply Hv.
  Qed.
  Lemma vp_CP (m : mat A) ls ix : valid_rows (mrows m) -> vp (b_CP m ls ix).
  Proof.
    intros H. unfold b_CP, np_sumsq_all. apply vp_npsum. apply Forall_forall. intros x Hx. apply in_map_iff in Hx as (y & <- & Hy).
    apply vp_sq. apply in_concat in Hy as (r & Hr & Hy).
    pose proof (valid_sub_rows _ _ (valid_subset m ls ix H) (valid_bv m ls ix H)) as HV.
    unfold valid_rows in HV. rewrite Forall_forall in HV. specialize (HV r Hr). rewrite Forall_forall in HV. now apply HV.
  Qed.
  Lemma vp_nat k : vp (f_of_nat (A := A) k).
  Proof. apply vp_Z. lia. Qed.
  Lemma vp_sil (m : mat A) ls jx ix : valid_rows (mrows m) -> vp (b_sil m ls jx ix).
  Proof.
    intros H. unfold b_sil. apply vp_div; [|apply vp_nat]. unfold py_sum. apply vp_fold_add; [apply vp_Z; lia|].
    apply Forall_forall. intros y Hy. apply in_map_iff in Hy as (i & <- & _).
    pose proof (valid_sub_rows _ _ H (valid_bv m ls ix H)) as HV.
    match goal with |- vp (nth i ?l _) => destruct (Nat.lt_ge_cases i (length l)) as [Hi|Hi] end.
    - rewrite nth_indep with (d' := np_sumsq (A := A) []) by exact Hi. rewrite map_nth. apply vp_sumsq.
      rewrite map_length in Hi. unfold valid_rows in HV. rewrite Forall_forall in HV. apply HV, nth_In, Hi.
    - rewrite nth_overflow by exact Hi. apply vp_Z. lia.
  Qed.
  Lemma vp_vmin (l : vec A) : Forall vp l -> vp (vmin l).
  Proof. intros H. destruct l as [|x l]; [apply vp_Z; lia|]. inversion H; subst. now apply vp_fold_min. Qed.
  Lemma in_remove_nth {X} i (l : list X) x : In x (remove_nth i l) -> In x l.
  Proof.
    unfold remove_nth. intros H. apply in_app_or in H as [H|H].
    - rewrite <- (firstn_skipn i l). apply in_or_app. now left.
    - rewrite <- (firstn_skipn (Datatypes.S i) l). apply in_or_app. now right.
  Qed.
  (** *** cSIL *)
  Lemma bound_cSIL (a : attrs A) : (0 < Z.of_nat (n_clusters a) <= 2 ^ 53)%Z ->
    (forall i j, vp (entry (S2 a) i j)) -> bounded 1 (cSIL_val a).
  Proof.
    intros Hk HE. unfold cSIL_val. destruct (np_any (S2 a)).
    - apply bounded_mean; [|exact Hk].
      match goal with |- bounded _ (np_sum ?l) => assert (Hl : length l = n_clusters a) by (now rewrite map_length, seq_length);
        refine (eq_ind (length l) (fun q => bounded (INR q) (np_sum (a := A) l)) _ _ Hl); apply (bounded_sum l) end.
      + apply (proj1 HS).
      + apply Forall_forall. intros x Hx. apply in_map_iff in Hx as (i & <- & _).
        destruct (HE i i) as [V1 P1].
        assert (Hm : vp (vmin (remove_nth i (col (S2 a) i)))).
        { apply vp_vmin. apply Forall_forall. intros x Hx. apply in_remove_nth in Hx. unfold col in Hx.
          apply in_map_iff in Hx as (r & <- & Hr). apply (In_nth _ _ []) in Hr as (j & _ & <-). apply HE. }
        destruct Hm as [V2 P2]. now apply bounded_coef.
      + rewrite map_length, seq_length. lia.
    - right. pose proof (of_Z_ok 0) as (V & Fz & R0); [lia|]. split; [exact V|]. split; [exact Fz|].
      change (Rabs (rv (d_of_Z 0)) <= 1). rewrite R0, Rabs_R0. lra.
  Qed.
  (** *** GD53 *)
  Lemma vp_fin_pos x : vp x -> fin x -> 0 <= rv x.
  Proof. intros [_ H] Hf. destruct (plus_cases x H) as [->|[->|[_ H']]]; [discriminate|discriminate|exact H']. Qed.
End Batch.

Lemma rnd_low x : 0 <= x -> x * (1 - u) <= rnd x + eta.
Proof. intros H. pose proof (rnd_err x) as E0. rewrite (Rabs_pos_eq x H) in E0. apply Rabs_le_inv in E0. lra. Qed.
Lemma rnd_high x : 0 <= x -> rnd x <= x * (1 + u) + eta.
Proof. intros H. pose proof (rnd_err x) as E0. rewrite (Rabs_pos_eq x H) in E0. apply Rabs_le_inv in E0. lra. Qed.
Lemma eta_small m : bpow radix2 (-960) <= m -> eta <= u * u * m.
Proof.
  intros H. apply Rle_trans with (u * u * bpow radix2 (-960)).
  - unfold eta, u. rewrite <- !bpow_plus. apply bpow_le. lia.
  - apply Rmult_le_compat_l; [|exact H]. pose proof u_pos. nra.
Qed.
Lemma gd_ratio p q mx i j :
  vp p -> vp q -> (0 < Z.of_nat i)%Z -> (0 < Z.of_nat j)%Z -> (Z.of_nat (i + j) <= 2 ^ 53)%Z ->
  let e := ddiv (dadd p q) (d_of_Z (Z.of_nat (i + j))) in
  let pi := ddiv p (d_of_Z (Z.of_nat i)) in
  let qj := ddiv q (d_of_Z (Z.of_nat j)) in
  fin pi -> fin qj -> rv pi <= mx -> rv qj <= mx -> bpow radix2 (-960) <= mx -> fin e ->
  rv e <= mx * (1 + 4 * u).
Proof.
  intros Hp Hq Hi Hj Hij e pi qj Fpi Fqj Lp Lq Lm Fe.
  destruct (of_Z_ok (Z.of_nat i)) as (Vi & Fi & Ei); [lia|].
  destruct (of_Z_ok (Z.of_nat j)) as (Vj & Fj & Ej); [lia|].
  destruct (of_Z_ok (Z.of_nat (i + j))) as (Vs & Fs & Es); [lia|].
  destruct (ddiv_fin p _ (proj1 Hp) Vi Fi Fpi) as (Fp & _ & E1).
  destruct (ddiv_fin q _ (proj1 Hq) Vj Fj Fqj) as (Fq & _ & E2).
  assert (Va : valid (dadd p q)) by (apply valid_add; [apply Hp|apply Hq]).
  destruct (ddiv_fin _ _ Va Vs Fs Fe) as (Fa & _ & E3).
  destruct (dadd_fin p q (proj1 Hp) (proj1 Hq) Fa) as (_ & _ & E4).
  fold pi in E1. fold qj in E2. fold e in E3. rewrite Ei in E1. rewrite Ej in E2. rewrite Es, E4 in E3.
  pose proof (vp_fin_pos p Hp Fp) as P0. pose proof (vp_fin_pos q Hq Fq) as Q0.
  set (P := rv p) in *. set (Q := rv q) in *. rewrite E3. rewrite E1 in Lp. rewrite E2 in Lq.
  set (ni := IZR (Z.of_nat i)) in *. set (nj := IZR (Z.of_nat j)) in *.
  assert (Hn : IZR (Z.of_nat (i + j)) = ni + nj) by (unfold ni, nj; rewrite <- plus_IZR; f_equal; lia).
  rewrite Hn.
  assert (Ni : 1 <= ni) by (unfold ni; apply IZR_le; lia). assert (Nj : 1 <= nj) by (unfold nj; apply IZR_le; lia).
  pose proof (rnd_low (P / ni)) as A1. pose proof (rnd_low (Q / nj)) as A2.
  assert (0 <= P / ni) by (apply Rle_mult_inv_pos; lra). assert (0 <= Q / nj) by (apply Rle_mult_inv_pos; lra).
  specialize (A1 H). specialize (A2 H0).
  pose proof (eta_small mx Lm) as He. pose proof eta_pos as He0. pose proof (bpow_gt_0 radix2 (-960)) as Hb.
  set (T := (P + Q) / (ni + nj)).
  assert (T0 : 0 <= T) by (apply Rle_mult_inv_pos; lra).
  assert (HT : T * (1 - u) <= mx + eta).
  { assert (B1 : P * (1 - u) <= ni * (mx + eta)).
    { replace (P * (1 - u)) with (ni * (P / ni * (1 - u))) by (field; lra). apply Rmult_le_compat_l; lra. }
    assert (B2 : Q * (1 - u) <= nj * (mx + eta)).
    { replace (Q * (1 - u)) with (nj * (Q / nj * (1 - u))) by (field; lra). apply Rmult_le_compat_l; lra. }
    apply Rmult_le_reg_l with (ni + nj); [lra|]. unfold T.
    replace ((ni + nj) * ((P + Q) / (ni + nj) * (1 - u))) with (P * (1 - u) + Q * (1 - u)) by (field; lra). lra. }
  pose proof (rnd_high (P + Q)) as A3. specialize (A3 ltac:(lra)).
  assert (R0 : 0 <= rnd (P + Q)) by (rewrite <- (rnd_id 0) by apply generic_format_0; apply rnd_le; lra).
  set (s := rnd (P + Q)) in *.
  assert (S0 : 0 <= s / (ni + nj)) by (apply Rle_mult_inv_pos; lra).
  pose proof (rnd_high (s / (ni + nj)) S0) as A4.
  assert (A5 : s / (ni + nj) <= T * (1 + u) + eta).
  { apply Rle_trans with (((P + Q) * (1 + u) + eta) / (ni + nj)).
    - apply Rmult_le_compat_r; [|exact A3]. apply Rlt_le, Rinv_0_lt_compat. lra.
    - unfold T. replace (((P + Q) * (1 + u) + eta) / (ni + nj)) with ((P + Q) / (ni + nj) * (1 + u) + eta / (ni + nj)) by (field; lra).
      apply Rplus_le_compat_l. apply Rmult_le_reg_r with (ni + nj); [lra|].
      unfold Rdiv. rewrite Rmult_assoc, Rinv_l, Rmult_1_r by lra. nra. }
  clearbody T s. clear - A4 A5 HT He He0 T0 Lm Hb.
  rewrite u_val in *. lra.
Qed.

Section GD.
  Context (L : Libm) (S : Sums).
  Local Notation A := (F64o L S).
  Local Notation two_53 := (2 ^ 53)%Z.
  Lemma triu_in (k : nat) (e : nat -> nat -> F A) x : In x (triu k e) -> exists i j, (i < j < k)%nat /\ x = e i j.
  Proof.
    unfold triu. intros H. apply in_flat_map in H as (i & Hi & H). apply in_map_iff in H as (j & <- & Hj).
    apply in_seq in Hi. apply in_seq in Hj. exists i, j. split; [lia|reflexivity].
  Qed.
  Lemma add_zero x : valid x -> nan_or_plus x -> dadd x (d_of_Z 0) = x.
  Proof. intros _ H. destruct x as [s|s| |s m e]; cbn in H; subst; reflexivity. Qed.
  Lemma vmin_in (l : list f64) : l <> [] -> vmin (l : vec A) = S754_nan \/ In (vmin (l : vec A)) l.
  Proof. destruct l as [|x l]; [congruence|]. intros _. exact (fold_min_in l x). Qed.
  Lemma vmax_fin (l : list f64) : Forall vp l -> fin (vmax (l : vec A)) -> forall y, In y l -> fin y /\ rv y <= rv (vmax (l : vec A)).
  Proof. destruct l as [|x l]; [intros _ _ y []|]. intros H Hf. inversion H; subst. exact (fold_max_fin l x H2 H3 Hf). Qed.
  Lemma vmax_vp (l : list f64) : Forall vp l -> vp (vmax (l : vec A)).
  Proof. intros H. destruct l as [|x l]; [apply vp_Z; lia|]. inversion H; subst. now apply vp_fold_max. Qed.
  Lemma half_fmt : fmt (/ 2 + 2 * u).
  Proof.
    apply (generic_format_FLT radix2 (-1074) 53). exists (Float radix2 (2 ^ 52 + 2) (-53)); [|reflexivity|cbn; lia].
    unfold F2R, u. cbn [Fnum Fexp]. change (bpow radix2 (-53)) with (/ IZR (2 ^ 53)). rewrite plus_IZR.
    change (2 ^ 52)%Z with 4503599627370496%Z. change (2 ^ 53)%Z with 9007199254740992%Z. lra.
  Qed.

  Lemma bound_GD53 k (cp : nat -> f64) (nn : nat -> nat) (a : attrs A) :
    (1 < k)%nat -> n_clusters a = k -> CP a = map cp (seq 0 k) -> n a = map nn (seq 0 k) ->
    (forall i, vp (cp i)) -> (forall i j, (Z.of_nat (nn i + nn j) <= two_53)%Z) ->
    (forall i j, (i < j < k)%nat -> entry (D a) i j = dadd (ddiv (dadd (cp i) (cp j)) (d_of_Z (Z.of_nat (nn i + nn j)))) (d_of_Z 0)) ->
    (exists i, (i < k)%nat /\ bpow radix2 (-960) <= rv (ddiv (cp i) (d_of_Z (Z.of_nat (nn i))))) ->
    GD_val a = S754_nan \/ GD_val a = S754_infinity false \/
    (fin (GD_val a) /\ 0 <= rv (GD_val a) <= / 2 + 2 * u).
  Proof.
    intros Hk Ek Ec En Vc Hn HD (i0 & Hi0 & Hbig).
    set (e := fun i j => ddiv (dadd (cp i) (cp j)) (d_of_Z (Z.of_nat (nn i + nn j)))).
    set (t := fun i => ddiv (cp i) (d_of_Z (Z.of_nat (nn i)))).
    assert (Vt : forall i, vp (t i)) by (intros i; apply vp_div; [auto|apply vp_Z; lia]).
    assert (Ve : forall i j, vp (e i j)) by (intros i j; apply vp_div; [now apply vp_add|apply vp_Z; lia]).
    assert (Em : map2 (fdiv (a := A)) (CP a) (map (f_of_nat (A := A)) (n a)) = map t (seq 0 k)).
    { rewrite Ec, En, map_map. clear. induction (seq 0 k) as [|i l IH]; [reflexivity|]. cbn [map map2]. now rewrite IH. }
    assert (Et : triu (A := A) k (entry (D a)) = triu (A := A) k e).
    { apply (triu_ext (A := A)). intros i j Hi Hj. rewrite HD by lia. apply add_zero; apply Ve. }
    unfold GD_val. rewrite Ek, Em, Et. clear Em Et.
    set (mx := vmax (A := A) (map t (seq 0 k))). set (mn := vmin (A := A) (triu (A := A) k e)).
    assert (FT : Forall vp (map t (seq 0 k))) by (apply Forall_forall; intros x Hx; apply in_map_iff in Hx as (i & <- & _); apply Vt).
    assert (Vm : vp mx) by now apply vmax_vp.
    assert (Vn : vp mn).
    { unfold mn. destruct (vmin_in (triu (A := A) k e)) as [H|H]; [exact (triu_ne (A := A) k e Hk)|rewrite H; split; [reflexivity|exact I]|].
      apply triu_in in H as (i & j & _ & ->). apply Ve. }
    change (f2 (A := A)) with (d_of_Z 2). change (fdiv (a := A) mn (fmul (a := A) (d_of_Z 2) mx)) with (ddiv mn (dmul (d_of_Z 2) mx)).
    assert (Vi : vp (dmul (d_of_Z 2) mx)) by (apply vp_mul; [apply vp_Z; lia|exact Vm]).
    destruct (of_Z_ok 2) as (V2 & F2 & E2); [lia|].
    pose proof (vp_div mn (dmul (d_of_Z 2) mx) Vn Vi) as [VR PR].
    destruct (plus_cases _ (proj2 Vi)) as [Hi|[Hi|[Fi _]]].
    - left. rewrite Hi. apply nan_div_r.
    - rewrite Hi in *. destruct (plus_cases _ PR) as [H|[H|[H H']]]; [now left|right; now left|].
      right. right. split; [exact H|]. split; [exact H'|].
      assert (Hz : rv (ddiv mn (S754_infinity false)) = 0).
      { destruct mn as [s|s| |s m x]; try discriminate; destruct s; reflexivity. }
      rewrite Hz. pose proof u_pos. lra.
    - destruct (dmul_fin (d_of_Z 2) mx V2 (proj1 Vm) Fi) as (_ & Fm & Ei). rewrite E2 in Ei.
      pose proof (vmax_fin _ FT Fm) as Hall. fold mx in Hall.
      assert (Hmx : bpow radix2 (-960) <= rv mx).
      { eapply Rle_trans; [exact Hbig|]. apply (Hall (t i0)). apply in_map, in_seq. lia. }
      assert (E2m : rv (dmul (d_of_Z 2) mx) = 2 * rv mx).
      { rewrite Ei. apply rnd_id. rewrite Rmult_comm. apply (mult_bpow_pos_exact_FLT radix2 (-1074) 53 (rv mx) 1); [|lia].
        apply (fmt_rv mx (proj1 Vm)). }
      destruct (plus_cases _ PR) as [H|[H|[H H']]]; [now left|right; now left|].
      right. right. split; [exact H|]. split; [exact H'|].
      destruct (ddiv_fin mn _ (proj1 Vn) (proj1 Vi) Fi H) as (Fn & Nz & ER).
      rewrite ER, E2m. rewrite <- (rnd_id (/ 2 + 2 * u)) by exact half_fmt. apply rnd_le.
      pose proof (bpow_gt_0 radix2 (-960)) as Hb.
      assert (Hle : rv mn <= rv mx * (1 + 4 * u)).
      { unfold mn in *. destruct (vmin_in (triu (A := A) k e)) as [Hv|Hv]; [exact (triu_ne (A := A) k e Hk)|rewrite Hv in Fn; discriminate|].
        apply triu_in in Hv as (i & j & Hij & Hv). rewrite Hv in *.
        destruct (Hall (t i)) as [Fti Lti]; [apply in_map, in_seq; lia|].
        destruct (Hall (t j)) as [Ftj Ltj]; [apply in_map, in_seq; lia|].
        assert (Pos : forall q, fin (t q) -> (0 < Z.of_nat (nn q))%Z).
        { intros q Fq. destruct (nn q) eqn:Eq; [|lia]. exfalso. unfold t in Fq. rewrite Eq in Fq.
          destruct (cp q) as [s|[]| |s m x]; cbn in Fq; discriminate. }
        apply (gd_ratio (cp i) (cp j) (rv mx) (nn i) (nn j)); auto. }
      apply Rmult_le_reg_r with (2 * rv mx); [lra|].
      replace (rv mn / (2 * rv mx) * (2 * rv mx)) with (rv mn) by (field; lra). lra.
  Qed.
End GD.

(** a number without a sign bit, negated, over another one *)
Definition nan_or_minus (x : f64) : Prop :=
  match x with
  | S754_nan => True
  | S754_zero s | S754_infinity s | S754_finite s _ _ => s = true
  end.
Lemma round_aux_minus m e l : nan_or_minus (SpecFloat.binary_round_aux 53 1024 true m e l).
Proof.
  unfold SpecFloat.binary_round_aux. destruct (shr_fexp _ _ _ _ _) as [mrs e']. destruct (shr_fexp _ _ _ _ _) as [mrs'' e''].
  destruct (shr_m mrs''); try exact I; try reflexivity. destruct (e'' <=? _)%Z; reflexivity.
Qed.
Lemma ddiv_minus x y : nan_or_plus x -> nan_or_plus y -> nan_or_minus (ddiv (SFopp x) y).
Proof.
  destruct x as [sx|sx| |sx mx ex], y as [sy|sy| |sy my ey]; cbn [nan_or_plus SFopp negb]; intros; subst; try exact I; try reflexivity.
  cbn [negb]. unfold ddiv, SFdiv. destruct (SFdiv_core_binary _ _ _ _ _ _) as [[mz ez] lz]. apply round_aux_minus.
Qed.

(** ** PS *)
(** what is asked of the exponential of the C library: nan goes to nan, and a
    number with the sign bit set to a number between 0 and 1 *)
Definition exp_range (L : Libm) : Prop :=
  l_exp L S754_nan = S754_nan /\
  forall x, match x with S754_nan => False | S754_zero s | S754_infinity s | S754_finite s _ _ => s = true end ->
    valid (l_exp L x) /\ fin (l_exp L x) /\ 0 <= rv (l_exp L x) <= 1.
Section PS.
  Context (L : Libm) (S : Sums) (HS : any_order S) (HL : exp_range L).
  Local Notation A := (F64o L S).

  Lemma plus_sqd (a b : vec A) : nan_or_plus (sqd a b).
  Proof.
    unfold sqd, np_sumsq. refine (summed_plus _ _ (proj1 HS _) _). apply Forall_forall. intros x Hx.
    apply in_map_iff in Hx as (y & <- & _). apply dmul_sq.
  Qed.
  Lemma plus_dot (a : vec A) : nan_or_plus (np_dot (a := A) a a).
  Proof.
    refine (summed_plus _ _ (proj2 HS a a) _). apply Forall_forall. intros x Hx. unfold dprods in Hx.
    revert Hx. induction a as [|y a IH]; cbn; [tauto|]. intros [<-|H]; [apply dmul_sq|auto].
  Qed.
  Lemma plus_bt (a : attrs A) : nan_or_plus (PS_bt a).
  Proof.
    unfold PS_bt. apply ddiv_plus; [|apply normalize_plus; lia]. unfold py_sum.
    match goal with |- context [map ?f (seq 0 ?k)] => assert (H : forall l x, nan_or_plus x -> nan_or_plus (fold_left dadd (map f l) x)) end.
    { intros l; induction l as [|i l IH]; intros x Hx; [exact Hx|]. cbn [map fold_left]. apply IH, dadd_plus; [exact Hx|apply plus_dot]. }
    apply H. reflexivity.
  Qed.
  Lemma plus_vmin (l : list f64) : Forall nan_or_plus l -> nan_or_plus (vmin (l : vec A)).
  Proof.
    intros H. destruct l as [|x l]; [reflexivity|]. destruct (vmin_in L S (x :: l)) as [Hv|Hv]; [discriminate|rewrite Hv; exact I|].
    rewrite Forall_forall in H. now apply H.
  Qed.
  Lemma exp_term x b : nan_or_plus x -> nan_or_plus b ->
    l_exp L (ddiv (SFopp x) b) = S754_nan \/
    (valid (l_exp L (ddiv (SFopp x) b)) /\ fin (l_exp L (ddiv (SFopp x) b)) /\ 0 <= rv (l_exp L (ddiv (SFopp x) b)) <= 1).
  Proof.
    intros Hx Hb. destruct HL as [HN HE]. pose proof (ddiv_minus x b Hx Hb) as H.
    destruct (ddiv (SFopp x) b) eqn:Eq; [right; apply HE; exact H|right; apply HE; exact H|left; exact HN|right; apply HE; exact H].
  Qed.
  Lemma ratio_range i j : (Z.of_nat i <= Z.of_nat j <= 2 ^ 53)%Z ->
    ddiv (d_of_Z (Z.of_nat i)) (d_of_Z (Z.of_nat j)) = S754_nan \/
    (valid (ddiv (d_of_Z (Z.of_nat i)) (d_of_Z (Z.of_nat j))) /\ fin (ddiv (d_of_Z (Z.of_nat i)) (d_of_Z (Z.of_nat j))) /\
     0 <= rv (ddiv (d_of_Z (Z.of_nat i)) (d_of_Z (Z.of_nat j))) <= 1).
  Proof.
    intros H. destruct (of_Z_ok (Z.of_nat i)) as (Vi & Fi & Ei); [lia|]. destruct (of_Z_ok (Z.of_nat j)) as (Vj & Fj & Ej); [lia|].
    destruct (Nat.eq_dec j 0) as [->|Nz].
    - assert (i = 0)%nat as -> by lia. left. reflexivity.
    - right. assert (Hj : 1 <= IZR (Z.of_nat j)) by (apply IZR_le; lia).
      assert (Hi : 0 <= IZR (Z.of_nat i)) by (apply IZR_le; lia). assert (Hij : IZR (Z.of_nat i) <= IZR (Z.of_nat j)) by (apply IZR_le; lia).
      assert (Q0 : 0 <= IZR (Z.of_nat i) / IZR (Z.of_nat j)) by (apply Rle_mult_inv_pos; lra).
      assert (Q1 : IZR (Z.of_nat i) / IZR (Z.of_nat j) <= 1).
      { apply Rmult_le_reg_r with (IZR (Z.of_nat j)); [lra|]. unfold Rdiv. rewrite Rmult_assoc, Rinv_l by lra. lra. }
      assert (F1 : fmt 1) by (apply (fmt_nat 1); lia).
      destruct (ddiv_ok _ _ Vi Vj Fi) as (Vq & Fq & Eq).
      + rewrite Ej. lra.
      + rewrite Ei, Ej. apply (no_overflow_fmt _ 1 F1); [rewrite Rabs_pos_eq; lra|]. apply (nat_top 1). lia.
      + split; [exact Vq|]. split; [exact Fq|]. rewrite Eq, Ei, Ej. split.
        * rewrite <- (rnd_id 0) by apply generic_format_0. now apply rnd_le.
        * rewrite <- (rnd_id 1) by exact F1. now apply rnd_le.
  Qed.
  Lemma bounded_diff x y : x = S754_nan \/ (valid x /\ fin x /\ 0 <= rv x <= 1) -> y = S754_nan \/ (valid y /\ fin y /\ 0 <= rv y <= 1) ->
    bounded 1 (dsub x y).
  Proof.
    intros [->|(Vx & Fx & Bx)]; [intros _; left; apply nan_sub_l|]. intros [->|(Vy & Fy & By)]; [left; apply nan_sub_r|]. right.
    assert (F1 : fmt 1) by (apply (fmt_nat 1); lia).
    destruct (dsub_ok x y Vx Vy Fx Fy) as (V & Fz & Ez).
    { apply (no_overflow_fmt _ 1 F1); [apply Rabs_le; lra|]. apply (nat_top 1). lia. }
    split; [exact V|]. split; [exact Fz|]. rewrite Ez. apply Rabs_le. split.
    - rewrite <- (rnd_id (- (1))) by (apply generic_format_opp; exact F1). apply rnd_le. lra.
    - rewrite <- (rnd_id 1) by exact F1. apply rnd_le. lra.
  Qed.
  Lemma nth_list_max l i : (nth i l 0 <= list_max l)%nat.
  Proof.
    destruct (Nat.lt_ge_cases i (length l)) as [Hi|Hi]; [|rewrite nth_overflow; lia].
    pose proof (proj1 (list_max_le l (list_max l)) (Nat.le_refl _)) as H. rewrite Forall_forall in H. apply H, nth_In, Hi.
  Qed.
  Lemma bound_PS (a : attrs A) : (Z.of_nat (n_clusters a) <= 2 ^ 53)%Z -> (Z.of_nat (list_max (n a)) <= 2 ^ 53)%Z ->
    (forall i x, (i < n_clusters a)%nat -> In x (remove_nth i (nth i (mrows (D a)) [])) -> nan_or_plus x) ->
    bounded (INR (n_clusters a)) (val_of kPS a).
  Proof.
    intros Hk Hn HD. unfold val_of. destruct (n_clusters a <=? 1).
    { right. destruct (of_Z_ok 0) as (V & Fz & R0); [lia|]. split; [exact V|]. split; [exact Fz|].
      change (Rabs (rv (d_of_Z 0)) <= INR (n_clusters a)). rewrite R0, Rabs_R0. apply pos_INR. }
    unfold PS_val.
    match goal with |- bounded _ (np_sum ?l) => assert (Hl : length l = n_clusters a) by (now rewrite map_length, seq_length);
      refine (eq_ind (length l) (fun q => bounded (INR q) (np_sum (a := A) l)) _ _ Hl); apply (bounded_sum l) end.
    - apply (proj1 HS).
    - apply Forall_forall. intros x Hx. apply in_map_iff in Hx as (i & <- & Hi). apply in_seq in Hi.
      apply bounded_diff.
      + apply ratio_range. pose proof (nth_list_max (n a) i). unfold nn. lia.
      + apply exp_term; [|apply plus_bt]. apply plus_vmin. apply Forall_forall. intros x Hx. apply (HD i); [lia|exact Hx].
    - rewrite map_length, seq_length. exact Hk.
  Qed.
End PS.
