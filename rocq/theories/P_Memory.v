(** * What an object keeps of a stream

    C71.  An object that is fed one sample at a time keeps a number of cells
    bounded by the number of labels and of features alone: it never keeps the
    samples.  [A] is any arithmetic. *)
From Coq Require Import ZArith List Arith Bool Lia SpecFloat.
From Verif Require Import Num NumPy Base GetCvi Lists Step Step2 Hoare Stream Shapes Generic F64 P_Calls Mem.
Import ListNotations.
Local Open Scope nat_scope.

(** ** Specification *)
Section Spec.
  Context {A : Arith}.
  Definition matrix_cells (m : mat A) : nat := list_sum (map (@length (F A)) (mrows m)).
  (** cells of the attributes set by the base class: [_dim], [_n_samples],
      [_n_clusters], [criterion_value], [_is_setup], [_n], [_v] and the keys and
      values of [_label_map] *)
  Definition base_cells (o : obj A) : nat :=
    5 + length (n (at_ o)) + matrix_cells (v (at_ o)) + 2 * length (label_map o).
  (** compactness and correction vectors; PS deletes both at its first sample *)
  Definition CPG_cells (a : attrs A) : nat := length (CP a) + matrix_cells (G a).
  (** cells of the attributes the class adds *)
  Definition class_cells (c : kind) (a : attrs A) : nat :=
    match c with
    | kCH | kWB => 2 + length (mu a) + length (SEP a) + CPG_cells a                  (* _mu _SEP _BGSS _WGSS *)
    | kDB => length (mu a) + matrix_cells (D a) + matrix_cells (R a) + length (S1 a) + CPG_cells a   (* _mu _D _R _S *)
    | kXB => 1 + length (mu a) + length (SEP a) + matrix_cells (D a) + CPG_cells a   (* _mu _D _SEP _WGSS *)
    | kGD43 | kGD53 => 2 + length (mu a) + matrix_cells (D a) + CPG_cells a          (* _mu _D _inter _intra *)
    | kPS => 1 + matrix_cells (D a) + length (v_bar a) + length (PS_i a)             (* _D _v_bar _beta_t _PS_i *)
    | krCIP => 1 + matrix_cells (D a) + list_sum (map matrix_cells (sigma a)) + matrix_cells (delta_term a) + CPG_cells a
                                                                                     (* _D _sigma _constant _delta_term *)
    | kcSIL => matrix_cells (S2 a) + length (sil_coefs a) + CPG_cells a              (* _S _sil_coefs *)
    end.
  Definition cells (c : kind) (o : obj A) : nat := base_cells o + class_cells c (at_ o).
  (** the bound: [k] labels, [d] features *)
  Definition cells_bound (c : kind) (k d : nat) : nat :=
    match c with
    | kCH | kWB => 7 + d + k * (5 + 2 * d)
    | kDB => 5 + d + k * (5 + 2 * d + 2 * k)
    | kXB => 7 + 2 * d + k * (4 + 2 * d + k)
    | kGD43 | kGD53 => 7 + d + k * (4 + 2 * d + k)
    | kPS => 6 + d + k * (4 + d + k)
    | krCIP => 6 + d * d + k * (3 + d + k + d * d)
    | kcSIL => 5 + k * (5 + 2 * d + k)
    end.
  Definition labels_seen (s : list (vec A * Z)) : nat := length (nodup Z.eq_dec (map snd s)).
End Spec.

Section Proofs.
  Context {A : Arith}.
  Lemma cells_wfm k d (m : mat A) : wfm k d m -> matrix_cells m = k * d.
  Proof. exact (size_wfm k d m). Qed.
  Lemma cells_nil (m : mat A) : mrows m = [] -> matrix_cells m = 0.
  Proof. unfold matrix_cells. now intros ->. Qed.
  Lemma list_sum_const (l : list (mat A)) q : Forall (fun m => matrix_cells m = q) l -> list_sum (map matrix_cells l) = length l * q.
  Proof. induction 1; cbn [map list_sum fold_right length]; auto. unfold list_sum in *. lia. Qed.
  Lemma labels_firsts (s : list (vec A * Z)) : length (firsts s) = labels_seen s.
  Proof.
    exact (first_seen_length (map snd s)).
  Qed.
  Lemma lmap_length ls : length (lmap ls) = length ls.
  Proof. unfold lmap. now rewrite combine_length, seq_length, Nat.min_id. Qed.

  (** C71: after any stream of samples with [d] features the object keeps at
      most [cells_bound c k d] cells, [k] the number of distinct labels; the
      number of samples does not enter *)
  Theorem C71_stream c d (s : list (vec A * Z)) : rectangular d s -> (c = krCIP -> d <> 0 /\ inv_accepts (A := A)) ->
    cells c (after c new_obj (stream s)) <= cells_bound c (labels_seen s) d.
  Proof.
    intros Hs HI. apply rectangular_wf in Hs. destruct (run_rest c d s HI Hs) as (a & vals & Er & Ha & [K1 K2 K3] & HR).
    unfold after. rewrite Er. cbn [fst]. unfold cells, base_cells. cbn [at_ label_map].
    rewrite lmap_length. rewrite <- labels_firsts. set (k := length (firsts s)) in *.
    assert (Ln : length (n a) = k) by (rewrite K3; apply map_length). rewrite Ln.
    destruct Ha as [[-> ->]|[_ Ha]].
    { subst k. destruct c; cbn; lia. }
    destruct c; cbn [Shape Rest class_cells cells_bound] in *; unfold CPG_cells; rewrite ?K1 in *.
    all: repeat match goal with H : _ /\ _ |- _ => destruct H end.
    all: try (rewrite (cells_wfm _ _ _ (sg_v _ _ ltac:(eassumption))), (cells_wfm _ _ _ (sg_G _ _ ltac:(eassumption))), (sg_mu _ _ ltac:(eassumption)), (sg_CP _ _ ltac:(eassumption)), ?K1).
    all: repeat match goal with H : wfm _ _ (D _) |- _ => rewrite (cells_wfm _ _ _ H); clear H end.
    - nia.
    - nia.
    - change (matrix_cells (R a) <= k * k) in HR. nia.
    - nia.
    - nia.
    - nia.
    - rewrite (cells_wfm _ _ _ (sp_v _ _ ltac:(eassumption))), (cells_wfm _ _ _ (sp_D _ _ ltac:(eassumption))), ?K1. nia.
    - rewrite (cells_wfm _ _ _ (sr_v _ _ ltac:(eassumption))), (cells_wfm _ _ _ (sr_D _ _ ltac:(eassumption))), ?K1, ?H0, ?H, (cells_nil (G a)) by assumption.
      rewrite (list_sum_const _ (d * d)), (sr_sig _ _ ltac:(eassumption)), K1.
      2: { eapply Forall_impl; [|apply (sr_sig' _ _ ltac:(eassumption))]. intros m Hm. now apply cells_wfm. }
      rewrite (sr_delta _ _ ltac:(eassumption)), (cells_wfm d d). 2: apply wfm_delta. cbn [length]. nia.
    - rewrite (cells_wfm _ _ _ (ss_v _ _ ltac:(eassumption))), (cells_wfm _ _ _ (ss_G _ _ ltac:(eassumption))), (cells_wfm _ _ _ (ss_S _ _ ltac:(eassumption))), (ss_CP _ _ ltac:(eassumption)), K1. nia.
  Qed.
End Proofs.

(** ** A concrete case: five samples, two labels, two features, in binary64

    The library functions only have to keep shapes, so crude ones will do. *)
Definition crude : Libm := mkLibm (fun x => x) (fun x _ => x) (fun _ => @f1 (F64 (mkLibm (fun x => x) (fun x _ => x) (fun _ => S754_nan) Some))) Some.
Definition mem_stream : list (vec (F64 crude) * Z) :=
  let f := @f_of_Z (F64 crude) in
  [([f 0; f 0], 7); ([f 1; f 0], 7); ([f 5; f 5], 3); ([f 6; f 5], 3); ([f 5; f 7], 3)]%Z.
Definition all_kinds : list kind := [kCH; kWB; kDB; kXB; kGD43; kGD53; kPS; krCIP; kcSIL].
Example C71_example :
  rectangular (A := F64 crude) 2 mem_stream /\ inv_accepts (A := F64 crude) /\ labels_seen mem_stream = 2 /\
  (* the same number of cells after five samples and after twenty *)
  map (fun c => cells c (after c new_obj (stream mem_stream))) all_kinds = [27; 27; 33; 29; 29; 29; 24; 32; 27] /\
  map (fun c => cells c (after c new_obj (stream (concat (repeat mem_stream 4))))) all_kinds = [27; 27; 33; 29; 29; 29; 24; 32; 27] /\
  map (fun c => cells_bound c 2 2) all_kinds = [27; 27; 33; 31; 29; 29; 24; 32; 27].
Proof.
  split; [|split; [|split; [reflexivity|split; [|split; [|reflexivity]]]]].
  - intros x l H. repeat (destruct H as [H|H]; [injection H as <- <-; reflexivity|]). destruct H.
  - intros m. exists m. split; reflexivity.
  - vm_compute. reflexivity.
  - vm_compute. reflexivity.
Qed.
Print Assumptions C71_stream.
Print Assumptions C71_example.
