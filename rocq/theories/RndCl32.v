(** * The means that the calls keep, for float32 data *)
From Coq Require Import ZArith Reals Lia Lra SpecFloat Psatz List Permutation.
From Flocq Require Import Core Relative.
From Verif Require Import Num NumPy Base GetCvi Lists Step Stream RunForm BatchForm F64 F64o F32d Rnd RndErr RndMean RndSum RndCl Rnd32 RndMean32.
Import ListNotations.
Local Open Scope R_scope.

Section Cl.
  Context (L : Libm) (S T : Sums).
  Notation A := (F32d L S T).

  Lemma nth_map_len (f : f64 -> f64) l j : (j < length l)%nat -> nth j (map f l) S754_nan = f (nth j l S754_nan).
  Proof. intros H. rewrite (nth_indep _ _ (f S754_nan)) by (rewrite map_length; lia). apply map_nth. Qed.
  Lemma rmean_nth32 k (m x : vec A) j : length m = length x -> (j < length x)%nat ->
    nth j (rmean k m x) S754_nan = mean_step32 (Z.of_nat k) (nth j m S754_nan) (nth j x S754_nan).
  Proof.
    intros E Hj. assert (Hj' : (j < length m)%nat) by now rewrite E. unfold rmean, scal, sscal.
    rewrite (nth_map2 _ _ _ _ S754_nan S754_nan) by (rewrite !map_length; lia).
    refine (f_equal2 dadd (nth_map_len (dmul (cwgt (Z.of_nat k))) m j _) (nth_map_len (mul32 (wgt (Z.of_nat k))) x j _)).
    - exact Hj'.
    - exact Hj.
  Qed.
  Lemma srmean_nth32 k (m x : vec A) j : length m = length x -> (j < length x)%nat ->
    nth j (srmean k m x) S754_nan = mu_step32 (Z.of_nat k) (nth j m S754_nan) (nth j x S754_nan).
  Proof.
    intros E Hj. assert (Hj' : (j < length m)%nat) by now rewrite E. unfold srmean, sscal.
    rewrite (nth_map2 _ _ _ _ S754_nan S754_nan) by (rewrite !map_length; lia).
    refine (f_equal2 add32 (nth_map_len (mul32 (cwgt (Z.of_nat k))) m j _) (nth_map_len (mul32 (wgt (Z.of_nat k))) x j _)).
    - exact Hj'.
    - exact Hj.
  Qed.
  Lemma cl_v_nth32 d xs j : xs <> [] -> Forall (fun x : vec A => length x = d) xs -> (j < d)%nat ->
    nth j (c_v (cl_of xs)) S754_nan = snd (fold32 mean_step32 (fcol j xs)).
  Proof.
    induction xs as [|x xs IH] using rev_ind; [congruence|]. intros _ HF Hj. apply Forall_app in HF as [HF Hx].
    inversion Hx as [|? ? Hx' _]; subst. destruct xs as [|y t]; [reflexivity|].
    assert (Hne : y :: t <> []) by discriminate. set (xs := y :: t) in *.
    rewrite cl_of_snoc by auto. cbn [cl_add c_v]. unfold v_upd, fcol. rewrite map_app. cbn [map].
    rewrite rmean_nth32; auto; [|now apply cl_of_v_length].
    rewrite fold32_snoc by (unfold xs; discriminate). cbn [snd]. rewrite fold32_n.
    rewrite IH, cl_of_n, map_length by auto. f_equal. lia.
  Qed.
  Lemma m_of_length d xs : xs <> [] -> Forall (fun x : vec A => length x = d) xs -> length (snd (m_of xs)) = d.
  Proof.
    induction xs as [|x xs IH] using rev_ind; [congruence|]. intros _ HF. apply Forall_app in HF as [HF Hx].
    inversion Hx as [|? ? Hx' _]; subst. destruct xs as [|y t]; [reflexivity|].
    rewrite m_of_snoc by discriminate. cbn [m_add snd]. rewrite srmean_length; auto. apply IH; [discriminate|auto].
  Qed.
  Lemma m_of_nth32 d xs j : xs <> [] -> Forall (fun x : vec A => length x = d) xs -> (j < d)%nat ->
    nth j (snd (m_of xs)) S754_nan = snd (fold32 mu_step32 (fcol j xs)).
  Proof.
    induction xs as [|x xs IH] using rev_ind; [congruence|]. intros _ HF Hj. apply Forall_app in HF as [HF Hx].
    inversion Hx as [|? ? Hx' _]; subst. destruct xs as [|y t]; [reflexivity|].
    assert (Hne : y :: t <> []) by discriminate. set (xs := y :: t) in *.
    rewrite m_of_snoc by auto. cbn [m_add snd]. unfold fcol. rewrite map_app. cbn [map].
    rewrite srmean_nth32; auto; [|now apply m_of_length].
    rewrite fold32_snoc by (unfold xs; discriminate). cbn [snd]. rewrite fold32_n.
    rewrite IH, m_of_n, map_length by auto. f_equal. lia.
  Qed.
  Lemma mean_rows_nth32 d (xs : list (vec A)) j : Forall (fun x => length x = d) xs -> (j < d)%nat ->
    @nth f64 j (mean_rows d xs) S754_nan = div32 (s_sum T (fcol j xs)) (d_of_Z (Z.of_nat (length xs))).
  Proof.
    intros HF Hj. unfold mean_rows, smean0. cbn [mcols].
    refine (eq_trans (nth_map_seq _ d j S754_nan Hj) _). cbn [F32d sdiv ssum f_of_nat f_of_Z]. unfold nrows. cbn [mrows].
    f_equal. f_equal. unfold col, fcol. cbn [mrows]. apply map_ext_in. intros r Hr. apply nth_indep.
    rewrite Forall_forall in HF. specialize (HF r Hr). cbn in HF. rewrite <- HF in Hj. exact Hj.
  Qed.
End Cl.
