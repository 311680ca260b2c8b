(** * C103 in exact arithmetic: clusters of copies of one sample *)
From Coq Require Import ZArith List Arith Bool Lia Permutation.
From Verif Require Import Num NumPy Base GetCvi.
From Coq Require Import Reals Lra.
From Verif Require Import Det Spec XR SpecX RGeom XLift XEval XRun XPerm XBatch Obs XForm XBounds P_Inc P_Formula P_Bounds P_Degenerate.
Import ListNotations.
Local Notation length := List.length.
Local Open Scope R_scope.

(** Spec: samples with the same label are the same *)
Definition copiesX (s : data) : Prop := forall x y l, In (x, l) s -> In (y, l) s -> x = y.
Definition no_spreadX (c : kind) (v : xr) : Prop :=
  match c with
  | kWB | kDB | kXB => v = Fin 0 \/ v = NaN
  | kCH | kGD43 => v = PInf \/ v = NaN
  | kGD53 => v = NaN
  | _ => True
  end.

Lemma copies_tight d s : wf d s -> copiesX s -> tight d (clusters s).
Proof.
  intros Hw Hc g x Hg Hx. pose proof (clusters_good d s Hw) as Gd. unfold clusters in Hg. apply in_map_iff in Hg as (l & <- & Hl).
  assert (IG : forall z, In z (cluster s l) -> In (z, l) s).
  { intros z Hz. unfold cluster in Hz. apply in_map_iff in Hz as ([z' k] & <- & H). apply filter_In in H as [H E]. cbn in E |- *.
    apply Z.eqb_eq in E. now subst k. }
  symmetry. apply centroid_const.
  - pose proof (XMove.cluster_wfg d s l Hw) as W. unfold wfg in W. rewrite Forall_forall in W. now apply W.
  - intros E. rewrite E in Hx. destruct Hx.
  - intros y Hy. apply (Hc y x l); auto.
Qed.
Theorem C103_exact c d s v : In c [kCH; kWB; kDB; kXB; kGD43; kGD53] -> copiesX s -> (2 <= length (distinct s))%nat ->
  observed c d s v -> no_spreadX c v.
Proof.
  intros Hc Hq Hk Ho. pose proof (observed_wf _ _ _ _ Ho) as Hw. pose proof (clusters_good d s Hw) as Hg.
  pose proof (copies_tight d s Hw Hq) as T.
  assert (Hk' : (2 <= length (clusters s))%nat) by (unfold clusters; now rewrite map_length).
  pose proof (C39_case_analysis c d s v) as K. set (gs := clusters s) in *. clearbody gs.
  assert (W0 : wgss d gs = 0) by (apply tight_wgss; auto).
  assert (M0 : forall g, In g gs -> mse d g = 0).
  { intros g Hi. apply (mse_zero d gs Hg); auto. }
  assert (V : value_table c d gs v).
  { apply K; auto; intros ->; cbn in Hc; intuition discriminate. }
  clear K Ho. repeat (destruct Hc as [<-|Hc]; [cbn [value_table no_spreadX] in *|]); [..|destruct Hc].
  - destruct V as (_ & A & B). destruct (Classical_Prop.classic (one_centre d gs \/ singletons gs)) as [H|H]; [right; auto|left]. apply A; auto; intros F; apply H; auto.
  - destruct V as (A & _ & B). destruct (Classical_Prop.classic (one_centre d gs)) as [H|H]; [right; auto|left]. rewrite (A H). unfold WB_formula. rewrite W0. f_equal. unfold Rdiv. ring.
  - destruct V as (A & _ & B). destruct (Classical_Prop.classic (separate d gs)) as [H|H].
    + left. rewrite (A H). unfold DB_formula. f_equal. rewrite (map_ext_in _ (fun _ => 0)).
      { rewrite rsum_const. unfold Rdiv. ring. }
      intros [g r] Hp. cbn [fst snd]. pose proof (selects_ne gs g r Hk' Hp) as Hr. pose proof (selects_In gs g r Hp) as P.
      rewrite (map_ext_in _ (fun _ => 0)).
      * apply rmax_unique; [destruct r as [|h r]; [congruence|now left]|]. intros y Hy. apply in_map_iff in Hy as (? & <- & _). lra.
      * intros h Hh. rewrite (M0 g), (M0 h); [unfold Rdiv; ring|..]; apply (Permutation_in _ (Permutation_sym P)); [now right|now left].
    + right. apply B. destruct (not_nodup d gs H) as (g & h & Hp & E). destruct (pairs_In gs g h Hp) as [H1 H2].
      exists g, h. split; auto. split; auto. intros x [Hx|Hx]; [now apply T|]. rewrite E. now apply T.
  - destruct V as (A & _ & B). destruct (Classical_Prop.classic (separate d gs)) as [H|H]; [left|right; auto]. rewrite (A H). unfold XB_formula. rewrite W0. f_equal. unfold Rdiv. ring.
  - destruct V as (_ & A & B). destruct (Classical_Prop.classic (separate d gs)) as [H|H]; auto.
  - now apply V.
Qed.
Print Assumptions C103_exact.
(** 15, 15, 15 | 0: the exact values of the stream that C103_streams_refuted rounds *)
Definition fifteenX : data := [([15], 0%Z); ([15], 0%Z); ([15], 0%Z); ([0], 1%Z)].
Theorem C103_exact_example : copiesX fifteenX /\ length (distinct fifteenX) = 2%nat /\
  forall c, In c [kCH; kWB; kDB; kXB; kGD43; kGD53] ->
    (exists v, batch_observed c 1 fifteenX v /\ no_spreadX c v) /\ exists v, stream_observed c 1 fifteenX v /\ no_spreadX c v.
Proof.
  assert (Q : copiesX fifteenX).
  { intros x y l Hx Hy. cbn in Hx, Hy. repeat destruct Hx as [Hx|Hx]; repeat destruct Hy as [Hy|Hy]; try contradiction; congruence. }
  assert (W : wf 1 fifteenX) by repeat constructor.
  split; auto. split; [reflexivity|]. intros c Hc.
  assert (H1 : c <> kcSIL) by (intros ->; cbn in Hc; intuition discriminate).
  assert (H2 : c <> krCIP) by (intros ->; cbn in Hc; intuition discriminate).
  split.
  - destruct (batch_observed_ex c 1 2 fifteenX) as [v H]; auto; try congruence; [intros z; cbn; lia|].
    exists v. split; auto. apply (C103_exact c 1 fifteenX v); auto. now left.
  - destruct (stream_observed_ex c 1 fifteenX) as [v H]; auto; try congruence; [discriminate|].
    exists v. split; auto. apply (C103_exact c 1 fifteenX v); auto. now right.
Qed.
Print Assumptions C103_exact_example.
