(** * Integer data: the integer steps without wrap-around are the float steps *)
From Coq Require Import ZArith List Arith Bool Lia.
From Verif Require Import Num NumPy Base M_CH M_D M_PS GetCvi Lists Step Step2 Stream Shapes Eval.
From Verif Require Import M_Int.
Import ListNotations.

Definition sumsq (x : list Z) : Z := fold_right Z.add 0%Z (map2 Z.mul x x).
Lemma sumsq_nonneg x : (0 <= sumsq x)%Z.
Proof. unfold sumsq. induction x as [|z x IH]; cbn; [lia|]. pose proof (Z.square_nonneg z). lia. Qed.

Lemma wrap_id t z : (0 <= it_bits t)%Z -> (it_min t <= z <= it_max t)%Z -> wrap t z = z.
Proof. unfold wrap, it_max. intros Hb H. rewrite Z.mod_small by lia. lia. Qed.

(** the dtypes in question *)
Definition int_ok (t : inttype) : Prop := (0 <= it_bits t)%Z /\ (it_min t = 0 \/ it_min t = - it_max t - 1)%Z.

Ltac redE E :=
  cbn [dim n_samples n n_array v CP CP_deleted G n_clusters criterion_value is_setup mu SEP BGSS
       WGSS D R S1 S2 sil_coefs inter intra sigma delta_term constant v_bar beta_t PS_i
       set_dim set_n_samples set_n set_n_array set_v set_CP set_CP_deleted set_G set_n_clusters
       set_criterion_value set_is_setup set_mu set_SEP set_BGSS set_WGSS set_D set_R
       set_S1 set_S2 set_sil_coefs set_inter set_intra set_sigma set_delta_term
       set_constant set_v_bar set_beta_t set_PS_i] in E |- *.
Ltac both E := repeat (progress (rewrite ?bind_assoc, ?bind_get, ?bind_modify, ?bind_ret in E; rewrite ?bind_assoc, ?bind_get, ?bind_modify, ?bind_ret;
  try rewrite (bind_lift _ _ _ _ eq_refl) in E; try rewrite (bind_lift _ _ _ _ eq_refl); redE E)).

(** both programs run the same checked expression next *)
Ltac split1 E := match type of E with
  | bind (lift ?e) _ _ = _ => let H := fresh "He" in destruct e eqn:H; [both E|rewrite (bind_lift_err _ _ _ _ eq_refl) in E; discriminate]
  | (if ?b then _ else _) _ = _ => destruct b; both E
  | bind (if ?b then _ else _) _ _ = _ => destruct b; both E
  | bind (raise _) _ _ = _ => discriminate
  end.
Ltac alleq E := repeat (split1 E); try discriminate; try (injection E as <-; split; reflexivity).
Section IntL.
  Context {A : Arith}.
  (** float arithmetic is exact on integers up to [W] *)
  Record ExactInt (W : Z) : Prop := mkExactInt {
    ei_plain : Plain A;
    ei_add : forall a b, (0 <= a)%Z -> (0 <= b)%Z -> (a + b <= W)%Z -> fadd (f_of_Z a) (f_of_Z b) = f_of_Z (a := A) (a + b);
    ei_mul : forall a b, (0 < a)%Z -> (0 <= b)%Z -> (a <= W)%Z -> (a * b <= W)%Z -> fmul (f_of_Z a) (f_of_Z b) = f_of_Z (a := A) (a * b);
    ei_dot : forall x, (sumsq x <= W)%Z -> np_dot (floats x) (floats x) = f_of_Z (a := A) (sumsq x)
  }.

  Context (ver : numpy_version) (t : inttype) (Ht : int_ok t) (M : Z) (HX : ExactInt M) (HM : (M <= it_max t)%Z)
          (HM' : (M <= it_max int64)%Z).

  Lemma wrap_small z : (0 <= z <= M)%Z -> wrap t z = z.
  Proof. destruct Ht as [Hb [Hm|Hm]]; intros H'; apply wrap_id; lia. Qed.
  Lemma wrap64_small z : (0 <= z <= M)%Z -> wrap int64 z = z.
  Proof. intros H'. apply wrap_id; [cbn; lia|]. cbn [it_min int64]. lia. Qed.
  Lemma int_inner_small x : (sumsq x <= M)%Z -> int_inner t x x = Ok (sumsq x).
  Proof.
    intros H. unfold int_inner, int_dot. rewrite Nat.eqb_refl. f_equal. apply wrap_small. pose proof (sumsq_nonneg x).
    unfold sumsq in *. lia.
  Qed.
  Lemma floats_length x : length (floats (A := A) x) = length x.
  Proof. apply map_length. Qed.
  Lemma inner_floats x : (sumsq x <= M)%Z -> inner (floats (A := A) x) (floats x) = Ok (f_of_Z (sumsq x)).
  Proof. intros H. unfold inner. rewrite Nat.eqb_refl. f_equal. now apply (ei_dot _ HX). Qed.
  Lemma sinner_floats x : (sumsq x <= M)%Z -> sinner (floats (A := A) x) (floats x) = Ok (f_of_Z (sumsq x)).
  Proof. intros H. rewrite (plain_sinner (ei_plain _ HX)). now apply inner_floats. Qed.
  Lemma add_scaled_small cp n z : (0 <= cp)%Z -> (0 < n)%nat -> (Z.of_nat n <= M)%Z -> (0 <= z)%Z -> (cp + Z.of_nat n * z <= M)%Z ->
    int_add_scaled ver t cp n z = Ok (cp + Z.of_nat n * z)%Z.
  Proof.
    intros H1 H2 H3 H4 H5. assert (0 <= Z.of_nat n * z)%Z by lia. unfold int_add_scaled. destruct ver.
    - rewrite (wrap64_small (Z.of_nat n * z)), wrap64_small by lia. reflexivity.
    - replace (Z.of_nat n <=? it_max t)%Z with true by (symmetry; apply Z.leb_le; lia).
      rewrite (wrap_small (Z.of_nat n * z)), wrap_small by lia. reflexivity.
  Qed.

  Lemma get_item_floats cps i : get_item (floats (A := A) cps) i = let* z := get_item cps i in Ok (f_of_Z z).
  Proof. unfold get_item, floats. rewrite nth_error_map. now destruct (nth_error cps i). Qed.
  Lemma set_item_floats cps i z : set_item (floats (A := A) cps) i (f_of_Z z) = let* l := set_item cps i z in Ok (floats l).
  Proof.
    unfold set_item, floats. rewrite map_length. destruct (i <? length cps); [|reflexivity]. cbn [bindE]. f_equal.
    revert i. induction cps as [|y cps IH]; intros [|i]; cbn; auto. now rewrite IH.
  Qed.
  Lemma floats_app a b : floats (A := A) (a ++ b) = floats a ++ floats b.
  Proof. apply map_app. Qed.

  (** what the sums of the steps need *)
  Definition sums_ok (cps : list Z) (ns : list nat) (x : list Z) : Prop :=
    (sumsq x <= M)%Z /\ forall cl cp m, nth_error cps cl = Some cp -> nth_error ns cl = Some m ->
      (0 <= cp)%Z /\ (0 < m)%nat /\ (Z.of_nat m <= M)%Z /\ (cp + Z.of_nat m * sumsq x <= M)%Z.

  Lemma int_row_ok (o : attrs A) cps x cl : CP o = floats cps -> sums_ok cps (n o) x ->
    cSIL_int_row ver t o cps x cl = cSIL_row_new o (floats x) cl.
  Proof.
    intros HC [Hx Hs]. unfold cSIL_int_row, cSIL_row_new. rewrite HC, get_item_floats.
    unfold get_item. specialize (Hs cl). destruct (nth_error cps cl) as [cp|]; [|reflexivity]. cbn [bindE].
    destruct (nth_error (n o) cl) as [m|]; [|reflexivity]. cbn [bindE].
    destruct (Hs cp m eq_refl eq_refl) as (H1 & H2 & H3 & H4). pose proof (sumsq_nonneg x).
    rewrite int_inner_small, sinner_floats by auto. cbn [bindE]. rewrite add_scaled_small by auto. cbn [bindE].
    destruct (row (G o) cl); [|reflexivity]. cbn [bindE]. destruct (inner _ _); [|reflexivity]. cbn [bindE].
    unfold f_of_nat. rewrite (pl_mul _ (ei_plain _ HX)), (pl_add _ (ei_plain _ HX)). rewrite (ei_mul _ HX) by lia. rewrite (ei_add _ HX) by lia. reflexivity.
  Qed.

  Lemma mapE_ext {X Y} (f g : X -> E Y) l : (forall x, f x = g x) -> mapE f l = mapE g l.
  Proof. intros H. induction l as [|x l IH]; cbn; [reflexivity|]. rewrite H. destruct (g x); [|reflexivity]. cbn [bindE]. now rewrite IH. Qed.

  (** the list of integers after the step *)
  Definition cps_next (k : nat) (cps : list Z) (x : list Z) (i : nat) : list Z :=
    if k <=? i then cps ++ [sumsq x] else upd i (nth i cps 0%Z + sumsq x)%Z cps.

  Lemma int_step (o o' : attrs A) cps x i : CP o = floats cps -> sums_ok cps (n o) x ->
    cSIL_param_inc (floats x) i o = (o', Ok tt) ->
    cSIL_int_param_inc ver t cps x i o = (o', Ok (cps_next (n_clusters o) cps x i)) /\
    CP o' = floats (cps_next (n_clusters o) cps x i).
  Proof.
    intros HC HS E. destruct HS as [Hx Hs].
    unfold cSIL_param_inc, cSIL_int_param_inc, append_n, cSIL_setup, base_setup in *. rewrite bind_get in E. rewrite bind_get.
    assert (H : exists o1, n_clusters o1 = n_clusters o /\ CP o1 = CP o /\ n o1 = n o /\
      (if n_samples o =? 0 then modify (set_dim (length (floats (A := A) x))) ;;
         modify (set_v (zmat 0 (length (floats (A := A) x)))) ;; modify (set_G (zmat 0 (length (floats (A := A) x)))) ;; modify (set_is_setup true)
       else ret tt) o = (o1, Ok tt)).
    { destruct (n_samples o =? 0); eexists; (split; [|split; [|split; [|reflexivity]]]); reflexivity. }
    destruct H as (o1 & H1 & H2 & H3 & H4).
    rewrite (bind_ok _ _ _ _ _ H4) in E. rewrite (bind_ok _ _ _ _ _ H4). rewrite bind_get in E. rewrite bind_get.
    cbv zeta in E |- *. rewrite ?bind_assoc in E. rewrite ?bind_assoc. rewrite <- H1 in *. rewrite <- H2 in HC. rewrite <- H3 in Hs. clear H1 H2 H3 H4.
    assert (HSo : sums_ok cps (n o1) x) by (split; assumption).
    unfold cps_next. destruct (n_clusters o1 <=? i) eqn:Ek.
    - rewrite sinner_floats in E by auto. rewrite int_inner_small by auto. both E.
      rewrite (mapE_ext (fun cl => let* c := cSIL_col_new o1 (f_of_Z (sumsq x)) (floats x) cl in
                    let* r := cSIL_int_row ver t o1 cps x cl in Ok (c, r))
                   (fun cl => let* c := cSIL_col_new o1 (f_of_Z (sumsq x)) (floats x) cl in
                    let* r := cSIL_row_new o1 (floats x) cl in Ok (c, r))).
      2:{ intros cl. now rewrite int_row_ok. }
      rewrite floats_app. cbn [floats map]. rewrite HC in E.
      destruct (n_clusters o1 =? 0); both E; alleq E.
    - rewrite int_inner_small by auto. rewrite sinner_floats in E by auto. rewrite HC in E.
      rewrite get_item_floats in E. both E.
      split1 E. split1 E. split1 E.
      destruct (get_item cps i) as [cp|] eqn:Hg; cbn [bindE] in E; [|discriminate]. both E.
      match goal with H : get_item (n o1) i = Ok ?m |- _ => rename H into Hn; set (mm := m) in * end.
      unfold get_item in Hg, Hn. destruct (nth_error cps i) as [cp'|] eqn:Eg; [injection Hg as ->|discriminate].
      destruct (nth_error (n o1) i) as [m'|] eqn:En; [injection Hn as ->|discriminate].
      destruct (Hs _ _ _ Eg En) as (P1 & P2 & P3 & P4). pose proof (sumsq_nonneg x) as P5.
      assert (P6 : (cp + sumsq x <= M)%Z) by nia.
      rewrite (pl_add _ (ei_plain _ HX)) in E. rewrite (ei_add _ HX) in E by lia. rewrite wrap_small by lia. rewrite set_item_floats in E.
      assert (Li : i < length cps) by (apply nth_error_Some; congruence).
      rewrite (nth_error_nth cps i 0%Z Eg).
      rewrite !(set_item_ok cps i) in E by auto. rewrite !(set_item_ok cps i) by auto. cbn [bindE] in E. both E.
      alleq E. all: match goal with |- ?g => idtac g end; match type of E with ?g => idtac g end.
  Qed.
End IntL.
