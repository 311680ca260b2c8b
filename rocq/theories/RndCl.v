(** * The centroids that the calls keep, in binary64 *)
From Coq Require Import ZArith Reals Lia Lra SpecFloat Psatz List Permutation.
From Flocq Require Import Core Relative.
From Verif Require Import Num NumPy Base GetCvi Lists Step Stream RunForm BatchForm F64 F64o Rnd RndErr RndMean RndSum.
Import ListNotations.
Local Open Scope R_scope.

Definition fcol (j : nat) (xs : list (list f64)) : list f64 := map (fun x => nth j x S754_nan) xs.
Section Cl.
  Context (L : Libm) (S : Sums).
  Notation A := (F64o L S).

  Lemma rmean_nth k (m x : vec A) j : length m = length x -> (j < length x)%nat ->
    nth j (rmean k m x) S754_nan = mean_step (Z.of_nat k) (nth j m S754_nan) (nth j x S754_nan).
  Proof.
    intros E Hj. unfold rmean. rewrite (plain_sscal (F64o_plain L S)). unfold scal.
    rewrite (nth_map2 _ _ _ _ S754_nan S754_nan) by (rewrite !map_length; lia).
    rewrite (nth_indep _ _ (fmul (a := A) (fsub f1 (fdiv f1 (f_of_nat k))) S754_nan)) by (rewrite map_length; lia).
    rewrite (map_nth (fmul (a := A) _)).
    rewrite (nth_indep (map (fmul (a := A) (fdiv f1 (f_of_nat k))) x) _ (fmul (a := A) (fdiv f1 (f_of_nat k)) S754_nan)) by (rewrite map_length; lia).
    rewrite (map_nth (fmul (a := A) _)). reflexivity.
  Qed.
  Lemma rmean_fold x xs : fold_left (fun nv y => (fst nv + 1, mean_step (fst nv + 1) (snd nv) y)%Z) xs (1%Z, x) =
    (Z.of_nat (length (x :: xs)), rmean_list (x :: xs)).
  Proof.
    cbn [rmean_list]. rewrite (surjective_pairing (fold_left _ xs (1%Z, x))) at 1. f_equal.
    induction xs as [|y xs IH] using rev_ind; [reflexivity|]. rewrite fold_left_app. cbn [fold_left fst].
    rewrite IH. cbn [length]. rewrite app_length. cbn [length]. lia.
  Qed.
  Lemma rmean_list_snoc xs x : xs <> [] ->
    rmean_list (xs ++ [x]) = mean_step (Z.of_nat (length xs) + 1) (rmean_list xs) x.
  Proof.
    destruct xs as [|y xs]; [congruence|]. intros _. cbn [app]. cbn [rmean_list]. rewrite fold_left_app, rmean_fold.
    reflexivity.
  Qed.
  Lemma cl_v_nth d xs j : xs <> [] -> Forall (fun x : vec A => length x = d) xs -> (j < d)%nat ->
    nth j (c_v (cl_of xs)) S754_nan = rmean_list (fcol j xs).
  Proof.
    induction xs as [|x xs IH] using rev_ind; [congruence|]. intros _ HF Hj. apply Forall_app in HF as [HF Hx].
    inversion Hx as [|? ? Hx' _]; subst. destruct xs as [|y t]; [reflexivity|].
    assert (Hne : y :: t <> []) by discriminate. set (xs := y :: t) in *.
    rewrite cl_of_snoc by auto. cbn [cl_add c_v]. unfold v_upd, fcol. rewrite map_app. cbn [map].
    rewrite rmean_nth; auto; [|now apply cl_of_v_length].
    rewrite rmean_list_snoc by (unfold xs; discriminate). rewrite IH, cl_of_n, map_length by auto.
    f_equal. lia.
  Qed.
  Lemma near_cl_v b d xs j : low <= b <= high -> xs <> [] -> Forall (fun x : vec A => length x = d /\ Forall (ok_in b) x) xs ->
    (Z.of_nat (length xs) <= 2 ^ 48)%Z -> (j < d)%nat ->
    near (nth j (c_v (cl_of xs)) S754_nan) (ravg (fcol j xs)) (17 * u * b * (INR (length xs) - 1)).
  Proof.
    intros Hb Hne HF HL Hj. rewrite (cl_v_nth d); auto.
    2:{ eapply Forall_impl; [|exact HF]. simpl. tauto. }
    replace (length xs) with (length (fcol j xs)) by (unfold fcol; now rewrite map_length).
    apply near_rmean_list; auto.
    - unfold fcol. destruct xs; [congruence|discriminate].
    - unfold fcol. apply Forall_map. eapply Forall_impl; [|exact HF]. intros x [H1 H2].
      rewrite Forall_forall in H2. apply H2, nth_In. now rewrite <- H1 in Hj.
    - unfold fcol. now rewrite map_length.
  Qed.
  Lemma mean_rows_nth d (xs : list (vec A)) j : Forall (fun x => length x = d) xs -> (j < d)%nat ->
    @nth f64 j (mean_rows d xs) S754_nan = ddiv (s_sum S (fcol j xs)) (d_of_Z (Z.of_nat (length xs))).
  Proof.
    intros HF Hj. unfold mean_rows. rewrite (plain_smean0 (F64o_plain L S)). unfold mean0. cbn [mcols].
    refine (eq_trans (nth_map_seq _ d j S754_nan Hj) _). cbn [F64o fdiv np_sum f_of_nat f_of_Z]. unfold nrows. cbn [mrows].
    f_equal. f_equal. unfold col, fcol. cbn [mrows]. apply map_ext_in. intros r Hr. apply nth_indep.
    rewrite Forall_forall in HF. specialize (HF r Hr). cbn in HF. rewrite <- HF in Hj. exact Hj.
  Qed.
End Cl.
