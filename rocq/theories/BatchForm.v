(** * The attributes after one batch, cluster by cluster.  For every arithmetic. *)
From Coq Require Import ZArith List Arith Bool Lia.
From Verif Require Import Num NumPy Base M_CH M_D M_PS GetCvi Lists Step Step2 StepB Hoare Eval Stream Shapes Generic Nan RunForm.
Import ListNotations.

Section BatchForm.
  Context {A : Arith}.
  Definition mean_rows (d : nat) (xs : list (vec A)) : vec A := smean0 (mkMat d xs).
  Definition cp_rows (d : nat) (xs : list (vec A)) : F A := np_sumsq_all (sub_rows (mkMat d xs) (mean_rows d xs)).

  Lemma subset_is d (s : list (vec A * Z)) ix :
    subset (mkMat d (map fst s)) (map snd s) ix = mkMat d (grp s (Z.of_nat ix)).
  Proof. rewrite <- subset_grp with (d := d). reflexivity. Qed.

  Theorem formed_batch c d (s : list (vec A * Z)) x : wf_stream d s ->
    results c new_obj [batch_of d s] = [Ok x] -> exists a,
    after c new_obj [batch_of d s] = mkObj [] a /\
    n a = map (fun ix => length (grp s (Z.of_nat ix))) (seq 0 (n_unique (map snd s))) /\
    mrows (v a) = map (fun ix => mean_rows d (grp s (Z.of_nat ix))) (seq 0 (n_unique (map snd s))) /\
    (gclass c = true -> CP a = map (fun ix => cp_rows d (grp s (Z.of_nat ix))) (seq 0 (n_unique (map snd s)))).
  Proof.
    intros Hw Hv. unfold results, after, batch_of in *. cbn [run fst snd] in *. unfold get_cvi, update in *.
    cbn [at_ new_obj label_map init_attrs is_setup] in *.
    destruct (1 <? unique_labels (Labs (map snd s))) eqn:EU; cbn [negb] in *; [|discriminate].
    set (m := mkMat d (map fst s)) in *. set (ls := map snd s) in *.
    destruct (param_batch c m ls init_attrs) as [o' [[]|e]] eqn:EB; [|discriminate].
    pose proof (ev_all c o') as [HF _].
    cbn [at_] in *. destruct (evaluate c o') as [o2 [[]|e]] eqn:EV; [|discriminate]. cbn [fst snd label_map] in *.
    assert (HC : covers m ls (n_unique ls)).
    { apply covers_le. unfold nrows, m, ls. cbn [mrows]. now rewrite !map_length. }
    assert (HN : n_unique ls <= nrows m).
    { unfold n_unique, nrows, m. cbn [mrows]. rewrite map_length, <- (map_length snd s).
      apply NoDup_incl_length; [apply NoDup_nodup|]. intros z. now rewrite nodup_In. }
    assert (HM : wfm (nrows m) (mcols m) m).
    { repeat split; auto. unfold m. cbn [mrows mcols]. apply Forall_map. exact Hw. }
    assert (HB : BCommon m ls o' /\ (gclass c = true -> CP o' = map (b_CP m ls) (seq 0 (n_unique ls)))).
    { destruct c; cbn [param_batch] in EB.
      - destruct (CH_batch m ls HC) as (o1 & E & B & E1 & _). rewrite E in EB; inversion EB; subst o1. auto.
      - destruct (WB_batch m ls HC) as (o1 & E & B & E1 & _). rewrite E in EB; inversion EB; subst o1. auto.
      - destruct (DB_batch m ls HC) as (o1 & E & B & E1 & _). rewrite E in EB; inversion EB; subst o1. auto.
      - destruct (XB_batch m ls HC) as (o1 & E & B & E1 & _). rewrite E in EB; inversion EB; subst o1. auto.
      - destruct (GD43_batch m ls HC) as (o1 & E & B & E1 & _). rewrite E in EB; inversion EB; subst o1. auto.
      - destruct (GD53_batch m ls HC) as (o1 & E & B & E1 & _). rewrite E in EB; inversion EB; subst o1. auto.
      - destruct (PS_batch m ls HC) as (o1 & E & B & _). rewrite E in EB; inversion EB; subst o1. split; auto. discriminate.
      - destruct (rCIP_batch_ok m ls o' HC HM EB) as (g & _ & B & _). split; auto. discriminate.
      - destruct (cSIL_batch m ls HC HN) as (o1 & E & B & _). rewrite E in EB; inversion EB; subst o1. split; auto. discriminate. }
    destruct HB as [[B1 B2 B3 B4 B5 B6] BC]. exists o2. split; auto.
    destruct HF. split; [|split].
    - rewrite fr_n, B5. apply map_ext. intros ix. unfold b_n, m, ls. now rewrite subset_is.
    - rewrite fr_v, B6. cbn [mrows]. apply map_ext. intros ix. unfold b_v, mean_rows, m, ls. now rewrite subset_is.
    - intros Hc. rewrite fr_CP, (BC Hc). apply map_ext. intros ix. unfold b_CP, b_v, cp_rows, mean_rows, m, ls. now rewrite subset_is.
  Qed.
End BatchForm.
