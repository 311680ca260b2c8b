(** * The operations of [XR] on finite numbers and arrays *)
From Coq Require Import ZArith Reals List Arith Bool Lra Lia Permutation.
From Verif Require Import Num NumPy Base Lists Step Eval Det Spec XR SpecX RGeom.
From Coq Require Import Rdefinitions.
Import ListNotations.
Local Open Scope R_scope.

Definition fin (x : list R) : vec XR := map Fin x.
Definition unfin (x : vec XR) : list R := map (fun a => match a with Fin r => r | _ => 0 end) x.
Lemma unfin_fin x : unfin (fin x) = x.
Proof. unfold unfin, fin. rewrite map_map. apply map_id. Qed.
Lemma fin_length x : length (fin x) = length x.
Proof. apply map_length. Qed.

(** ** Scalars *)
Lemma f_of_nat_fin n : (f_of_nat n : F XR) = Fin (INR n).
Proof. unfold f_of_nat. cbn. f_equal. symmetry. apply INR_IZR_INZ. Qed.
Lemma f0_fin : (f0 : F XR) = Fin 0. Proof. reflexivity. Qed.
Lemma f1_fin : (f1 : F XR) = Fin 1. Proof. reflexivity. Qed.
Lemma f2_fin : (f2 : F XR) = Fin 2. Proof. reflexivity. Qed.
Lemma fadd_fin x y : fadd (a := XR) (Fin x) (Fin y) = Fin (x + y). Proof. reflexivity. Qed.
Lemma fsub_fin x y : fsub (a := XR) (Fin x) (Fin y) = Fin (x - y). Proof. reflexivity. Qed.
Lemma fmul_fin x y : fmul (a := XR) (Fin x) (Fin y) = Fin (x * y). Proof. reflexivity. Qed.
Lemma fneg_fin x : fneg (a := XR) (Fin x) = Fin (- x). Proof. reflexivity. Qed.
Lemma xdiv_fin x y : y <> 0 -> xdiv (Fin x) (Fin y) = Fin (x / y).
Proof. intros H. cbn. now destruct (Req_EM_T y 0). Qed.
Lemma fdiv_fin x y : y <> 0 -> fdiv (a := XR) (Fin x) (Fin y) = Fin (x / y).
Proof. apply xdiv_fin. Qed.
Lemma xdiv_zero x : xdiv (Fin x) (Fin 0) = inf_mul x.
Proof. cbn. now destruct (Req_EM_T 0 0). Qed.
Lemma inf_mul_pos x : 0 < x -> inf_mul x = PInf.
Proof. intros H. unfold inf_mul. destruct (Req_EM_T x 0); [lra|]. destruct (Rlt_dec 0 x); [auto|lra]. Qed.
Lemma inf_mul_zero : inf_mul 0 = NaN.
Proof. unfold inf_mul. now destruct (Req_EM_T 0 0). Qed.
Lemma inf_mul_neg x : x < 0 -> inf_mul x = NInf.
Proof. intros H. unfold inf_mul. destruct (Req_EM_T x 0); [lra|]. destruct (Rlt_dec 0 x); [lra|auto]. Qed.
Lemma fsqrt_fin x : 0 <= x -> fsqrt (a := XR) (Fin x) = Fin (sqrt x).
Proof. intros H. cbn. destruct (Rlt_dec x 0); [lra|auto]. Qed.

(** ** Sums *)
Lemma xsum_acc l a : fold_left xadd (map Fin l) (Fin a) = Fin (a + rsum l).
Proof.
  revert a; induction l as [|x l IH]; intros a; cbn [map fold_left]; [cbn; f_equal; lra|].
  cbn [xadd]. rewrite IH, rsum_cons. f_equal; lra.
Qed.
Lemma xsum_fin l : xsum (map Fin l) = Fin (rsum l).
Proof. unfold xsum. rewrite xsum_acc. f_equal; lra. Qed.
Lemma np_sum_fin l : np_sum (a := XR) (map Fin l) = Fin (rsum l).
Proof. apply xsum_fin. Qed.
Lemma py_sum_fin l : py_sum (A := XR) (map Fin l) = Fin (rsum l).
Proof. apply xsum_fin. Qed.
Lemma np_sum_map {X} (f : X -> R) l : np_sum (a := XR) (map (fun x => Fin (f x)) l) = Fin (rsum (map f l)).
Proof. rewrite <- (np_sum_fin (map f l)), map_map. reflexivity. Qed.
Lemma py_sum_map {X} (f : X -> R) l : py_sum (A := XR) (map (fun x => Fin (f x)) l) = Fin (rsum (map f l)).
Proof. rewrite <- (py_sum_fin (map f l)), map_map. reflexivity. Qed.

Lemma map2_combine {X Y Z} (f : X -> Y -> Z) a b : map2 f a b = map (fun p => f (fst p) (snd p)) (combine a b).
Proof. revert b; induction a as [|x a IH]; intros [|y b]; simpl; auto. now rewrite IH. Qed.
Lemma map2_fin (f : xr -> xr -> xr) g a b : (forall x y, f (Fin x) (Fin y) = Fin (g x y)) ->
  map2 f (fin a) (fin b) = fin (map2 g a b).
Proof. intros H. revert b; induction a as [|x a IH]; intros [|y b]; simpl; auto. now rewrite H, IH. Qed.
Lemma scal_fin c a : scal (A := XR) (Fin c) (fin a) = fin (map (Rmult c) a).
Proof. unfold scal, fin. rewrite !map_map. reflexivity. Qed.
Lemma xdot_map2 a b : xdot a b = map2 xmul a b.
Proof. revert b; induction a as [|x a IH]; intros [|y b]; simpl; auto. now rewrite IH. Qed.
Definition rdot (a b : list R) : R := rsum (map2 Rmult a b).
Lemma np_dot_fin a b : np_dot (a := XR) (fin a) (fin b) = Fin (rdot a b).
Proof.
  cbn [np_dot XR]. rewrite xdot_map2, (map2_fin _ Rmult) by reflexivity. apply xsum_fin.
Qed.
Lemma rdot_sub x y : rdot (map2 Rminus x y) (map2 Rminus x y) = dist2 x y.
Proof.
  unfold rdot. revert y; induction x as [|a x IH]; intros [|b y]; try reflexivity.
  cbn [map2]. rewrite rsum_cons, IH, dist2_cons. reflexivity.
Qed.
Lemma sub_fin x y : map2 (fsub (a := XR)) (fin x) (fin y) = fin (map2 Rminus x y).
Proof. now apply map2_fin. Qed.
Lemma add_fin x y : map2 (fadd (a := XR)) (fin x) (fin y) = fin (map2 Rplus x y).
Proof. now apply map2_fin. Qed.
Lemma dot_sub_fin x y :
  np_dot (a := XR) (map2 fsub (fin x) (fin y)) (map2 fsub (fin x) (fin y)) = Fin (dist2 x y).
Proof. now rewrite sub_fin, np_dot_fin, rdot_sub. Qed.
Lemma map_fsq a : map (fsq (A := XR)) (fin a) = fin (map2 Rmult a a).
Proof. induction a as [|x a IH]; [reflexivity|]. cbn [fin map map2]. f_equal. exact IH. Qed.
Lemma np_sumsq_sub x y : np_sumsq (A := XR) (map2 fsub (fin x) (fin y)) = Fin (dist2 x y).
Proof. unfold np_sumsq. rewrite sub_fin, map_fsq, <- rdot_sub. apply xsum_fin. Qed.
Lemma sqd_fin x y : sqd (A := XR) (fin x) (fin y) = Fin (dist2 x y).
Proof. apply np_sumsq_sub. Qed.
Lemma py_sumsq_sub x y : py_sumsq (A := XR) (map2 fsub (fin x) (fin y)) = Fin (dist2 x y).
Proof. unfold py_sumsq. rewrite sub_fin, map_fsq, <- rdot_sub. apply xsum_fin. Qed.
Lemma zeros_fin d : zeros (A := XR) d = fin (repeat 0 d).
Proof. unfold zeros, fin. induction d as [|d IH]; [reflexivity|]. cbn [repeat map]. f_equal. exact IH. Qed.

(** ** Minima and maxima *)
Lemma fold_Rmin l x : fold_left Rmin l x = fold_right Rmin x l.
Proof. apply fold_symmetric; [intros; first [apply Rmin_assoc|symmetry; apply Rmin_assoc]|intros; apply Rmin_comm]. Qed.
Lemma fold_Rmax l x : fold_left Rmax l x = fold_right Rmax x l.
Proof. apply fold_symmetric; [intros; first [apply Rmax_assoc|symmetry; apply Rmax_assoc]|intros; apply Rmax_comm]. Qed.
Lemma xmin_fin x y : xmin (Fin x) (Fin y) = Fin (Rmin x y).
Proof. cbn. unfold Rmin. now destruct (Rle_dec x y). Qed.
Lemma xmax_fin x y : xmax (Fin x) (Fin y) = Fin (Rmax x y).
Proof. cbn. unfold Rmax. now destruct (Rle_dec x y). Qed.
Lemma vmin_fin l : vmin (A := XR) (fin l) = Fin (rmin l).
Proof.
  destruct l as [|x l]; [reflexivity|]. cbn [fin map vmin rmin]. rewrite <- fold_Rmin.
  revert x; induction l as [|y l IH]; intros x; [reflexivity|]. cbn [map fold_left].
  change (fminimum (a := XR) (Fin x) (Fin y)) with (xmin (Fin x) (Fin y)). rewrite xmin_fin. apply IH.
Qed.
Lemma vmax_fin l : vmax (A := XR) (fin l) = Fin (rmax l).
Proof.
  destruct l as [|x l]; [reflexivity|]. cbn [fin map vmax rmax]. rewrite <- fold_Rmax.
  revert x; induction l as [|y l IH]; intros x; [reflexivity|]. cbn [map fold_left].
  change (fmaximum (a := XR) (Fin x) (Fin y)) with (xmax (Fin x) (Fin y)). rewrite xmax_fin. apply IH.
Qed.

(** ** Sums and maxima of arbitrary extended reals do not depend on the order *)
Lemma xadd_comm a b : xadd a b = xadd b a.
Proof. destruct a, b; cbn; auto. f_equal; lra. Qed.
Lemma xadd_assoc a b c : xadd a (xadd b c) = xadd (xadd a b) c.
Proof. destruct a, b, c; cbn; auto. f_equal; lra. Qed.
Lemma xadd_0_l a : xadd (Fin 0) a = a.
Proof. destruct a; cbn; auto. f_equal; lra. Qed.
Lemma xsum_cons x l : xsum (x :: l) = xadd x (xsum l).
Proof.
  unfold xsum. cbn [fold_left]. rewrite xadd_0_l.
  assert (H : forall l a, fold_left xadd l a = xadd a (fold_left xadd l (Fin 0))).
  { clear. induction l as [|y l IH]; intros a; cbn [fold_left]; [now rewrite xadd_comm, xadd_0_l|].
    rewrite IH, (IH (xadd (Fin 0) y)), xadd_0_l. now rewrite xadd_assoc. }
  apply H.
Qed.
Lemma xsum_perm a b : Permutation a b -> xsum a = xsum b.
Proof.
  induction 1; auto.
  - now rewrite !xsum_cons, IHPermutation.
  - rewrite !xsum_cons, !xadd_assoc. f_equal. apply xadd_comm.
  - congruence.
Qed.
Lemma xmax_comm a b : xmax a b = xmax b a.
Proof.
  destruct a, b; cbn; auto. destruct (Rle_dec x x0), (Rle_dec x0 x); auto; try lra. f_equal; lra.
Qed.
Ltac xcases := repeat match goal with |- context [Rle_dec ?x ?y] => destruct (Rle_dec x y); cbn end;
  auto; try lra; try (f_equal; lra).
Lemma xmax_assoc a b c : xmax a (xmax b c) = xmax (xmax a b) c.
Proof. destruct a, b, c; cbn; xcases. Qed.
Lemma fold_xmax l a : fold_left xmax l a = fold_right xmax a l.
Proof. apply fold_symmetric; auto using xmax_assoc, xmax_comm. Qed.
Lemma vmax_xmaxl l : vmax (A := XR) l = xmaxl l.
Proof. destruct l as [|x l]; [reflexivity|]. apply fold_xmax. Qed.
Lemma xmaxl_cons x l : l <> [] -> xmaxl (x :: l) = xmax x (xmaxl l).
Proof.
  destruct l as [|y l]; [congruence|]. intros _. cbn [xmaxl fold_right].
  induction l as [|z l IH]; cbn [fold_right]; [apply xmax_comm|].
  cbn [fold_right] in IH. rewrite !xmax_assoc, (xmax_comm x z), (xmax_comm y z), <- !xmax_assoc in *.
  congruence.
Qed.
Lemma xmaxl_perm a b : Permutation a b -> xmaxl a = xmaxl b.
Proof.
  induction 1 as [|x a b H IH|x y a|a b c H1 IH1 H2 IH2]; auto.
  - destruct a as [|z a]; [apply Permutation_nil in H; now subst|].
    destruct b as [|w b]; [symmetry in H; now apply Permutation_nil in H|].
    rewrite !(xmaxl_cons x) by discriminate. now rewrite IH.
  - destruct a as [|z a]; [cbn; apply xmax_comm|].
    rewrite (xmaxl_cons y), (xmaxl_cons x (z :: a)), (xmaxl_cons x (y :: z :: a)), (xmaxl_cons y (z :: a)) by discriminate.
    rewrite !xmax_assoc. f_equal. apply xmax_comm.
  - congruence.
Qed.
(** not below zero; nan counts as not below *)
Definition xnonneg (a : xr) : Prop := match a with Fin x => 0 <= x | NInf => False | _ => True end.
Lemma xmax_0 a : xnonneg a -> xmax (Fin 0) a = a.
Proof. destruct a; cbn; xcases; tauto. Qed.
Lemma xmax_nonneg a b : xnonneg a -> xnonneg b -> xnonneg (xmax a b).
Proof. destruct a, b; cbn; xcases; tauto. Qed.
Lemma xmaxl_nonneg l : Forall xnonneg l -> xnonneg (xmaxl l).
Proof.
  intros H. destruct H as [|x l Hx H]; [cbn; lra|]. cbn [xmaxl].
  induction H; cbn [fold_right]; auto using xmax_nonneg.
Qed.
Lemma xmaxl_0 l : Forall xnonneg l -> xmaxl (Fin 0 :: l) = xmaxl l.
Proof.
  intros H. destruct l as [|x l]; [reflexivity|]. rewrite xmaxl_cons by discriminate.
  apply xmax_0. now apply xmaxl_nonneg.
Qed.
Lemma xmaxl_fin l : xmaxl (map Fin l) = Fin (rmax l).
Proof. rewrite <- vmax_xmaxl. apply vmax_fin. Qed.
