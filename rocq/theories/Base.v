(** * modules/_base.py: label map, object attributes, generic setup. *)
From Coq Require Import ZArith List Arith Bool.
From Verif Require Import Num NumPy.
Import ListNotations.

(** ** class LabelMap  (src/cvi/modules/_base.py:23-48) *)

(** [self.map]: the dict, in insertion order (_base.py:28-29). *)
Definition labelmap := list (Z * nat).

(** [label in self.map] / [self.map[label]] *)
Fixpoint lm_lookup (m : labelmap) (label : Z) : option nat :=
  match m with
  | [] => None
  | (k, i) :: m' => if Z.eqb k label then Some i else lm_lookup m' label
  end.

(** LabelMap.get_internal_label (_base.py:31-48) *)
Definition get_internal_label (m : labelmap) (label : Z) : nat * labelmap :=
  match lm_lookup m label with
  | Some internal_label => (internal_label, m)                    (* _base.py:40-41 *)
  | None => let internal_label := length m in                     (* _base.py:45 *)
            (internal_label, m ++ [(label, internal_label)])      (* _base.py:46 *)
  end.

(** ** Attributes of a CVI object other than the label map
    (_base.py:56-70 and the [__init__] of the nine classes, e.g. CH.py:32-44).
    One record holds the attributes of all classes; a class only touches its own. *)
Record attrs (A : Arith) := mkAttrs {
  dim : nat;  (* _dim *)
  n_samples : nat;  (* _n_samples *)
  n : list nat;  (* _n *)
  n_array : bool;  (* True when _n is a numpy array, which has no append *)
  v : mat A;  (* _v  (n_clusters x dim) *)
  CP : list (F A);  (* _CP *)
  CP_deleted : bool;  (* True once PS._setup executed `del self._CP` *)
  G : mat A;  (* _G  (n_clusters x dim) *)
  n_clusters : nat;  (* _n_clusters *)
  criterion_value : F A;  (* criterion_value *)
  is_setup : bool;  (* _is_setup *)
  mu : vec A;  (* _mu (CH, WB, DB, XB, GD43, GD53) *)
  SEP : vec A;  (* _SEP (CH, WB; a scalar in XB) *)
  BGSS : F A;  (* _BGSS *)
  WGSS : F A;  (* _WGSS *)
  D : mat A;  (* _D (DB, XB, GD43, GD53, PS, rCIP) *)
  R : mat A;  (* _R (DB) *)
  S1 : list (F A);  (* _S of DB *)
  S2 : mat A;  (* _S of cSIL *)
  sil_coefs : vec A;  (* _sil_coefs (cSIL) *)
  inter : F A;  (* _inter (GD43, GD53) *)
  intra : F A;  (* _intra *)
  sigma : list (mat A);  (* _sigma[:, :, i] for each i (rCIP) *)
  delta_term : mat A;  (* _delta_term (rCIP) *)
  constant : F A;  (* _constant (rCIP) *)
  v_bar : vec A;  (* _v_bar (PS) *)
  beta_t : F A;  (* _beta_t (PS) *)
  PS_i : vec A  (* _PS_i (PS) *)
}.
Arguments dim {A}. Arguments n_samples {A}. Arguments n {A}. Arguments n_array {A}. Arguments v {A}. Arguments CP {A}. Arguments CP_deleted {A}. Arguments G {A}. Arguments n_clusters {A}. Arguments criterion_value {A}. Arguments is_setup {A}. Arguments mu {A}. Arguments SEP {A}. Arguments BGSS {A}. Arguments WGSS {A}. Arguments D {A}. Arguments R {A}. Arguments S1 {A}. Arguments S2 {A}. Arguments sil_coefs {A}. Arguments inter {A}. Arguments intra {A}. Arguments sigma {A}. Arguments delta_term {A}. Arguments constant {A}. Arguments v_bar {A}. Arguments beta_t {A}. Arguments PS_i {A}.
Arguments mkAttrs {A}.

Section Base.
  Context {A : Arith}.

  Definition set_dim (x : nat) (o : attrs A) : attrs A :=
    mkAttrs x (n_samples o) (n o) (n_array o) (v o) (CP o) (CP_deleted o) (G o) (n_clusters o) (criterion_value o) (is_setup o) (mu o) (SEP o) (BGSS o) (WGSS o) (D o) (R o) (S1 o) (S2 o) (sil_coefs o) (inter o) (intra o) (sigma o) (delta_term o) (constant o) (v_bar o) (beta_t o) (PS_i o).
  Definition set_n_samples (x : nat) (o : attrs A) : attrs A :=
    mkAttrs (dim o) x (n o) (n_array o) (v o) (CP o) (CP_deleted o) (G o) (n_clusters o) (criterion_value o) (is_setup o) (mu o) (SEP o) (BGSS o) (WGSS o) (D o) (R o) (S1 o) (S2 o) (sil_coefs o) (inter o) (intra o) (sigma o) (delta_term o) (constant o) (v_bar o) (beta_t o) (PS_i o).
  Definition set_n (x : list nat) (o : attrs A) : attrs A :=
    mkAttrs (dim o) (n_samples o) x (n_array o) (v o) (CP o) (CP_deleted o) (G o) (n_clusters o) (criterion_value o) (is_setup o) (mu o) (SEP o) (BGSS o) (WGSS o) (D o) (R o) (S1 o) (S2 o) (sil_coefs o) (inter o) (intra o) (sigma o) (delta_term o) (constant o) (v_bar o) (beta_t o) (PS_i o).
  Definition set_n_array (x : bool) (o : attrs A) : attrs A :=
    mkAttrs (dim o) (n_samples o) (n o) x (v o) (CP o) (CP_deleted o) (G o) (n_clusters o) (criterion_value o) (is_setup o) (mu o) (SEP o) (BGSS o) (WGSS o) (D o) (R o) (S1 o) (S2 o) (sil_coefs o) (inter o) (intra o) (sigma o) (delta_term o) (constant o) (v_bar o) (beta_t o) (PS_i o).
  Definition set_v (x : mat A) (o : attrs A) : attrs A :=
    mkAttrs (dim o) (n_samples o) (n o) (n_array o) x (CP o) (CP_deleted o) (G o) (n_clusters o) (criterion_value o) (is_setup o) (mu o) (SEP o) (BGSS o) (WGSS o) (D o) (R o) (S1 o) (S2 o) (sil_coefs o) (inter o) (intra o) (sigma o) (delta_term o) (constant o) (v_bar o) (beta_t o) (PS_i o).
  Definition set_CP (x : list (F A)) (o : attrs A) : attrs A :=
    mkAttrs (dim o) (n_samples o) (n o) (n_array o) (v o) x (CP_deleted o) (G o) (n_clusters o) (criterion_value o) (is_setup o) (mu o) (SEP o) (BGSS o) (WGSS o) (D o) (R o) (S1 o) (S2 o) (sil_coefs o) (inter o) (intra o) (sigma o) (delta_term o) (constant o) (v_bar o) (beta_t o) (PS_i o).
  Definition set_CP_deleted (x : bool) (o : attrs A) : attrs A :=
    mkAttrs (dim o) (n_samples o) (n o) (n_array o) (v o) (CP o) x (G o) (n_clusters o) (criterion_value o) (is_setup o) (mu o) (SEP o) (BGSS o) (WGSS o) (D o) (R o) (S1 o) (S2 o) (sil_coefs o) (inter o) (intra o) (sigma o) (delta_term o) (constant o) (v_bar o) (beta_t o) (PS_i o).
  Definition set_G (x : mat A) (o : attrs A) : attrs A :=
    mkAttrs (dim o) (n_samples o) (n o) (n_array o) (v o) (CP o) (CP_deleted o) x (n_clusters o) (criterion_value o) (is_setup o) (mu o) (SEP o) (BGSS o) (WGSS o) (D o) (R o) (S1 o) (S2 o) (sil_coefs o) (inter o) (intra o) (sigma o) (delta_term o) (constant o) (v_bar o) (beta_t o) (PS_i o).
  Definition set_n_clusters (x : nat) (o : attrs A) : attrs A :=
    mkAttrs (dim o) (n_samples o) (n o) (n_array o) (v o) (CP o) (CP_deleted o) (G o) x (criterion_value o) (is_setup o) (mu o) (SEP o) (BGSS o) (WGSS o) (D o) (R o) (S1 o) (S2 o) (sil_coefs o) (inter o) (intra o) (sigma o) (delta_term o) (constant o) (v_bar o) (beta_t o) (PS_i o).
  Definition set_criterion_value (x : F A) (o : attrs A) : attrs A :=
    mkAttrs (dim o) (n_samples o) (n o) (n_array o) (v o) (CP o) (CP_deleted o) (G o) (n_clusters o) x (is_setup o) (mu o) (SEP o) (BGSS o) (WGSS o) (D o) (R o) (S1 o) (S2 o) (sil_coefs o) (inter o) (intra o) (sigma o) (delta_term o) (constant o) (v_bar o) (beta_t o) (PS_i o).
  Definition set_is_setup (x : bool) (o : attrs A) : attrs A :=
    mkAttrs (dim o) (n_samples o) (n o) (n_array o) (v o) (CP o) (CP_deleted o) (G o) (n_clusters o) (criterion_value o) x (mu o) (SEP o) (BGSS o) (WGSS o) (D o) (R o) (S1 o) (S2 o) (sil_coefs o) (inter o) (intra o) (sigma o) (delta_term o) (constant o) (v_bar o) (beta_t o) (PS_i o).
  Definition set_mu (x : vec A) (o : attrs A) : attrs A :=
    mkAttrs (dim o) (n_samples o) (n o) (n_array o) (v o) (CP o) (CP_deleted o) (G o) (n_clusters o) (criterion_value o) (is_setup o) x (SEP o) (BGSS o) (WGSS o) (D o) (R o) (S1 o) (S2 o) (sil_coefs o) (inter o) (intra o) (sigma o) (delta_term o) (constant o) (v_bar o) (beta_t o) (PS_i o).
  Definition set_SEP (x : vec A) (o : attrs A) : attrs A :=
    mkAttrs (dim o) (n_samples o) (n o) (n_array o) (v o) (CP o) (CP_deleted o) (G o) (n_clusters o) (criterion_value o) (is_setup o) (mu o) x (BGSS o) (WGSS o) (D o) (R o) (S1 o) (S2 o) (sil_coefs o) (inter o) (intra o) (sigma o) (delta_term o) (constant o) (v_bar o) (beta_t o) (PS_i o).
  Definition set_BGSS (x : F A) (o : attrs A) : attrs A :=
    mkAttrs (dim o) (n_samples o) (n o) (n_array o) (v o) (CP o) (CP_deleted o) (G o) (n_clusters o) (criterion_value o) (is_setup o) (mu o) (SEP o) x (WGSS o) (D o) (R o) (S1 o) (S2 o) (sil_coefs o) (inter o) (intra o) (sigma o) (delta_term o) (constant o) (v_bar o) (beta_t o) (PS_i o).
  Definition set_WGSS (x : F A) (o : attrs A) : attrs A :=
    mkAttrs (dim o) (n_samples o) (n o) (n_array o) (v o) (CP o) (CP_deleted o) (G o) (n_clusters o) (criterion_value o) (is_setup o) (mu o) (SEP o) (BGSS o) x (D o) (R o) (S1 o) (S2 o) (sil_coefs o) (inter o) (intra o) (sigma o) (delta_term o) (constant o) (v_bar o) (beta_t o) (PS_i o).
  Definition set_D (x : mat A) (o : attrs A) : attrs A :=
    mkAttrs (dim o) (n_samples o) (n o) (n_array o) (v o) (CP o) (CP_deleted o) (G o) (n_clusters o) (criterion_value o) (is_setup o) (mu o) (SEP o) (BGSS o) (WGSS o) x (R o) (S1 o) (S2 o) (sil_coefs o) (inter o) (intra o) (sigma o) (delta_term o) (constant o) (v_bar o) (beta_t o) (PS_i o).
  Definition set_R (x : mat A) (o : attrs A) : attrs A :=
    mkAttrs (dim o) (n_samples o) (n o) (n_array o) (v o) (CP o) (CP_deleted o) (G o) (n_clusters o) (criterion_value o) (is_setup o) (mu o) (SEP o) (BGSS o) (WGSS o) (D o) x (S1 o) (S2 o) (sil_coefs o) (inter o) (intra o) (sigma o) (delta_term o) (constant o) (v_bar o) (beta_t o) (PS_i o).
  Definition set_S1 (x : list (F A)) (o : attrs A) : attrs A :=
    mkAttrs (dim o) (n_samples o) (n o) (n_array o) (v o) (CP o) (CP_deleted o) (G o) (n_clusters o) (criterion_value o) (is_setup o) (mu o) (SEP o) (BGSS o) (WGSS o) (D o) (R o) x (S2 o) (sil_coefs o) (inter o) (intra o) (sigma o) (delta_term o) (constant o) (v_bar o) (beta_t o) (PS_i o).
  Definition set_S2 (x : mat A) (o : attrs A) : attrs A :=
    mkAttrs (dim o) (n_samples o) (n o) (n_array o) (v o) (CP o) (CP_deleted o) (G o) (n_clusters o) (criterion_value o) (is_setup o) (mu o) (SEP o) (BGSS o) (WGSS o) (D o) (R o) (S1 o) x (sil_coefs o) (inter o) (intra o) (sigma o) (delta_term o) (constant o) (v_bar o) (beta_t o) (PS_i o).
  Definition set_sil_coefs (x : vec A) (o : attrs A) : attrs A :=
    mkAttrs (dim o) (n_samples o) (n o) (n_array o) (v o) (CP o) (CP_deleted o) (G o) (n_clusters o) (criterion_value o) (is_setup o) (mu o) (SEP o) (BGSS o) (WGSS o) (D o) (R o) (S1 o) (S2 o) x (inter o) (intra o) (sigma o) (delta_term o) (constant o) (v_bar o) (beta_t o) (PS_i o).
  Definition set_inter (x : F A) (o : attrs A) : attrs A :=
    mkAttrs (dim o) (n_samples o) (n o) (n_array o) (v o) (CP o) (CP_deleted o) (G o) (n_clusters o) (criterion_value o) (is_setup o) (mu o) (SEP o) (BGSS o) (WGSS o) (D o) (R o) (S1 o) (S2 o) (sil_coefs o) x (intra o) (sigma o) (delta_term o) (constant o) (v_bar o) (beta_t o) (PS_i o).
  Definition set_intra (x : F A) (o : attrs A) : attrs A :=
    mkAttrs (dim o) (n_samples o) (n o) (n_array o) (v o) (CP o) (CP_deleted o) (G o) (n_clusters o) (criterion_value o) (is_setup o) (mu o) (SEP o) (BGSS o) (WGSS o) (D o) (R o) (S1 o) (S2 o) (sil_coefs o) (inter o) x (sigma o) (delta_term o) (constant o) (v_bar o) (beta_t o) (PS_i o).
  Definition set_sigma (x : list (mat A)) (o : attrs A) : attrs A :=
    mkAttrs (dim o) (n_samples o) (n o) (n_array o) (v o) (CP o) (CP_deleted o) (G o) (n_clusters o) (criterion_value o) (is_setup o) (mu o) (SEP o) (BGSS o) (WGSS o) (D o) (R o) (S1 o) (S2 o) (sil_coefs o) (inter o) (intra o) x (delta_term o) (constant o) (v_bar o) (beta_t o) (PS_i o).
  Definition set_delta_term (x : mat A) (o : attrs A) : attrs A :=
    mkAttrs (dim o) (n_samples o) (n o) (n_array o) (v o) (CP o) (CP_deleted o) (G o) (n_clusters o) (criterion_value o) (is_setup o) (mu o) (SEP o) (BGSS o) (WGSS o) (D o) (R o) (S1 o) (S2 o) (sil_coefs o) (inter o) (intra o) (sigma o) x (constant o) (v_bar o) (beta_t o) (PS_i o).
  Definition set_constant (x : F A) (o : attrs A) : attrs A :=
    mkAttrs (dim o) (n_samples o) (n o) (n_array o) (v o) (CP o) (CP_deleted o) (G o) (n_clusters o) (criterion_value o) (is_setup o) (mu o) (SEP o) (BGSS o) (WGSS o) (D o) (R o) (S1 o) (S2 o) (sil_coefs o) (inter o) (intra o) (sigma o) (delta_term o) x (v_bar o) (beta_t o) (PS_i o).
  Definition set_v_bar (x : vec A) (o : attrs A) : attrs A :=
    mkAttrs (dim o) (n_samples o) (n o) (n_array o) (v o) (CP o) (CP_deleted o) (G o) (n_clusters o) (criterion_value o) (is_setup o) (mu o) (SEP o) (BGSS o) (WGSS o) (D o) (R o) (S1 o) (S2 o) (sil_coefs o) (inter o) (intra o) (sigma o) (delta_term o) (constant o) x (beta_t o) (PS_i o).
  Definition set_beta_t (x : F A) (o : attrs A) : attrs A :=
    mkAttrs (dim o) (n_samples o) (n o) (n_array o) (v o) (CP o) (CP_deleted o) (G o) (n_clusters o) (criterion_value o) (is_setup o) (mu o) (SEP o) (BGSS o) (WGSS o) (D o) (R o) (S1 o) (S2 o) (sil_coefs o) (inter o) (intra o) (sigma o) (delta_term o) (constant o) (v_bar o) x (PS_i o).
  Definition set_PS_i (x : vec A) (o : attrs A) : attrs A :=
    mkAttrs (dim o) (n_samples o) (n o) (n_array o) (v o) (CP o) (CP_deleted o) (G o) (n_clusters o) (criterion_value o) (is_setup o) (mu o) (SEP o) (BGSS o) (WGSS o) (D o) (R o) (S1 o) (S2 o) (sil_coefs o) (inter o) (intra o) (sigma o) (delta_term o) (constant o) (v_bar o) (beta_t o) x.

  (** CVI.__init__ (_base.py:56-70) together with the class-specific
      initialisations; np.zeros([0, 0]) and np.empty([0, 0]) are empty arrays. *)
  Definition init_attrs : attrs A :=
    mkAttrs 0 0 [] false (zmat 0 0) [] false (zmat 0 0) 0 f0 false [] [] f0 f0 (zmat 0 0) (zmat 0 0) [] (zmat 0 0) [] f0 f0 [] (zmat 0 0) f0 [] f0 [].

  (** ** Statements of a method: attribute state and exceptions.
      A raised exception keeps the attribute values written before it. *)
  Definition M (X : Type) := attrs A -> attrs A * E X.
  Definition ret {X} (x : X) : M X := fun o => (o, Ok x).
  Definition bind {X Y} (m : M X) (k : X -> M Y) : M Y :=
    fun o => match m o with
             | (o', Ok x) => k x o'
             | (o', Err e) => (o', Err e)
             end.
  Definition get : M (attrs A) := fun o => (o, Ok o).
  Definition lift {X} (e : E X) : M X := fun o => (o, e).
  Definition modify (f : attrs A -> attrs A) : M unit := fun o => (f o, Ok tt).
  Definition raise {X} (e : exn) : M X := fun o => (o, Err e).
  (** for x in l: body(x) *)
  Fixpoint for_ {X} (l : list X) (body : X -> M unit) : M unit :=
    match l with
    | [] => ret tt
    | x :: l' => bind (body x) (fun _ => for_ l' body)
    end.
End Base.
Arguments M : clear implicits.
Notation "'do' x <- m ;; k" := (bind m (fun x => k))
  (at level 200, x pattern, m at level 100, k at level 200, right associativity).
Notation "m ;; k" := (bind m (fun _ => k)) (at level 199, right associativity).

Section Setup.
  Context {A : Arith}.

  (** CVI._setup (_base.py:72-90) *)
  Definition base_setup (sample : vec A) : M A unit :=
    modify (set_dim (length sample)) ;;                     (* :83 *)
    do o <- get ;;
    modify (set_v (zmat 0 (dim o))) ;;                      (* :86 *)
    modify (set_G (zmat 0 (dim o))) ;;                      (* :87 *)
    modify (set_is_setup true).                             (* :90 *)

  (** CVI._setup_batch (_base.py:92-104) *)
  Definition base_setup_batch (data : mat A) : M A unit :=
    modify (set_n_samples (nrows data)) ;;                  (* :103 *)
    modify (set_dim (mcols data)) ;;
    modify (set_is_setup true).                             (* :104 *)

  (** self._n.append(n_new): an AttributeError when _n is a numpy array, i.e.
      after the batch update of CH, WB, XB and cSIL (CH.py:144, WB.py:146,
      XB.py:162, cSIL.py:191) *)
  Definition append_n (n_new : nat) : M A unit :=
    do o <- get ;;
    if n_array o then raise AttributeError
    else modify (set_n (n o ++ [n_new])).

  (** Expression shared by all classes: the running mean
      (1 - 1/n) * m + (1/n) * sample, e.g. CH.py:75-78, CH.py:100-103.  The
      centroids [m] are rows of a float64 array (_base.py:65, :86), so only the
      product with the sample has the dtype of the data. *)
  Definition running_mean (n_new : nat) (m sample : vec A) : E (vec A) :=
    vadd (scal (fsub f1 (fdiv f1 (f_of_nat n_new))) m)
         (sscal (fdiv f1 (f_of_nat n_new)) sample).
  (** The same expression for [_mu], which starts as a sample (CH.py:57) and so
      keeps the dtype of the data. *)
  Definition srunning_mean (n_new : nat) (m sample : vec A) : E (vec A) :=
    svadd (sscal (fsub f1 (fdiv f1 (f_of_nat n_new))) m)
          (sscal (fdiv f1 (f_of_nat n_new)) sample).
End Setup.
