(** * Data of an integer dtype

    NumPy keeps the dtype of the arrays given to get_cvi.  Two places of the
    package multiply and add integers before a float comes in: the streams of
    cSIL (src/cvi/modules/cSIL.py:72, :92-94 and :122-125) and the batches of
    rCIP (src/cvi/modules/rCIP.py:186).  There the numbers wrap around.
    Everywhere else one operand of each operation is float64 (a Python float such
    as 1 / n_new, a row of [_v] or [_G], which grow from np.zeros, or np.mean) and
    the integers are converted first; so all other cases are those of the
    converted numbers. *)
From Coq Require Import ZArith List Arith Bool.
From Verif Require Import Num NumPy Base M_D M_PS GetCvi.
Import ListNotations.

(** Python ints next to NumPy scalars: before version 2 a Python int counts as an
    int64 (where C's long has 64 bits), since version 2 it takes the scalar's dtype *)
Inductive numpy_version := NumPy1 | NumPy2.

(** An integer dtype holds the numbers from [it_min] to [it_min + 2^it_bits - 1] *)
Record inttype := mkIntType { it_min : Z; it_bits : Z }.
Definition it_max (t : inttype) : Z := (it_min t + 2 ^ it_bits t - 1)%Z.
Definition int8 := mkIntType (- 2 ^ 7) 8.
Definition int16 := mkIntType (- 2 ^ 15) 16.
Definition int32 := mkIntType (- 2 ^ 31) 32.
Definition int64 := mkIntType (- 2 ^ 63) 64.
Definition uint8 := mkIntType 0 8.
Definition uint16 := mkIntType 0 16.
Definition uint32 := mkIntType 0 32.
(** the result of integer arithmetic of the dtype: modulo 2^it_bits *)
Definition wrap (t : inttype) (z : Z) : Z := ((z - it_min t) mod 2 ^ it_bits t + it_min t)%Z.

(** np.inner and @ of two 1-D integer arrays of the same length *)
Definition int_dot (t : inttype) (x y : list Z) : Z := wrap t (fold_right Z.add 0%Z (map2 Z.mul x y)).
Definition int_inner (t : inttype) (x y : list Z) : E Z :=
  if length x =? length y then Ok (int_dot t x y) else Err ValueError.

(** [cp + n * z] with NumPy integers [cp] and [z] and a Python int [n].  NumPy 1
    with uint64 (float64 arithmetic) is left out. *)
Definition int_add_scaled (ver : numpy_version) (t : inttype) (cp : Z) (n : nat) (z : Z) : E Z :=
  match ver with
  | NumPy1 => Ok (wrap int64 (cp + wrap int64 (Z.of_nat n * z)))
  | NumPy2 => if (Z.of_nat n <=? it_max t)%Z then Ok (wrap t (cp + wrap t (Z.of_nat n * z)))
              else Err OverflowError
  end.

Section Int.
  Context {A : Arith} (ver : numpy_version) (t : inttype).

  (** conversion to float64 *)
  Definition floats (x : list Z) : vec A := map f_of_Z x.

  (** S_row_new[cl] for a new cluster (cSIL.py:91-96): v_new is the integer sample,
      so line 92-93 is integer arithmetic; [cps] are the integers in [_CP] *)
  Definition cSIL_int_row (o : attrs A) (cps : list Z) (sample : list Z) (cl : nat) : E (F A) :=
    let* CP_cl := get_item cps cl in
    let* n_cl := get_item (n o) cl in
    let* vv := int_inner t sample sample in
    let* s := int_add_scaled ver t CP_cl n_cl vv in
    let* G_cl := row (G o) cl in
    let* gv := inner G_cl (floats sample) in
    Ok (fdiv (fsub (f_of_Z s) (fmul f2 gv)) (f_of_nat n_cl)).

  (** cSIL._param_inc (cSIL.py:52-177) on a sample of the dtype.  The list [_CP]
      holds NumPy integers: they are [cps], and the field [CP] holds them converted
      to float64, which is what all lines except :92-93 and :122-125 read.
      Returns the new [cps]. *)
  Definition cSIL_int_param_inc (cps : list Z) (sample : list Z) (i_label : nat) : M A (list Z) :=
    let x := floats sample in
    do o <- get ;;
    let n_samples_new := n_samples o + 1 in                  (* :61 *)
    (if n_samples o =? 0 then cSIL_setup x else ret tt) ;;   (* :64-65 *)
    do o <- get ;;
    let k := n_clusters o in
    do cps' <-
    (if k <=? i_label then                                   (* :69 *)
       do CP_new <- lift (int_inner t sample sample) ;;      (* :72 *)
       do S_new <-
         (if k =? 0 then ret (zmat 1 1)                      (* :76-77 *)
          else
            do S_new <- lift (grow k (S2 o)) ;;              (* :79-80 *)
            do cs <- lift (mapE (fun cl =>
                       let* c := cSIL_col_new o (f_of_Z CP_new) x cl in
                       let* r := cSIL_int_row o cps sample cl in Ok (c, r)) (seq 0 k)) ;;  (* :83-96 *)
            do S_col_new <- lift (set_item (map fst cs ++ [f0]) i_label f0) ;;  (* :98 *)
            do S_row_new <- lift (set_item (map snd cs ++ [f0]) i_label f0) ;;  (* :99 *)
            do S_new <- lift (set_row S_new i_label S_col_new) ;;  (* :100 *)
            lift (set_col S_new i_label S_row_new)) ;;       (* :101 *)
       modify (set_n_clusters (k + 1)) ;;                    (* :104 *)
       append_n 1 ;;                                         (* :105 *)
       modify (set_CP (floats (cps ++ [CP_new]))) ;;         (* :106 *)
       do v' <- lift (vstack (v o) x) ;;
       modify (set_v v') ;;                                  (* :109 *)
       do G' <- lift (vstack (G o) x) ;;
       modify (set_G G') ;;                                  (* :110 *)
       modify (set_S2 S_new) ;;                              (* :111 *)
       ret (cps ++ [CP_new])
     else
       do n_i <- lift (get_item (n o) i_label) ;;
       let n_new := n_i + 1 in                               (* :115 *)
       do v_i <- lift (row (v o) i_label) ;;
       do v_new <- lift (running_mean n_new v_i x) ;;        (* :116-119 *)
       do CP_i <- lift (get_item cps i_label) ;;
       do xx <- lift (int_inner t sample sample) ;;
       let CP_new := wrap t (CP_i + xx) in                   (* :122-125 *)
       do G_i <- lift (row (G o) i_label) ;;
       do G_new <- lift (vadd G_i x) ;;                      (* :126-129 *)
       do cs <- lift (mapE (fun cl =>
                  if cl =? i_label then Ok (f0, f0)
                  else let* c := cSIL_col_old o x (f_of_Z CP_i) n_i G_new cl in
                       let* r := cSIL_row o v_new cl in Ok (c, r)) (seq 0 k)) ;;  (* :131-152 *)
       do diff_x_v <- lift (vsub x v_new) ;;                 (* :155 *)
       do dd <- lift (inner diff_x_v diff_x_v) ;;
       do vv <- lift (inner v_new v_new) ;;
       do gv <- lift (inner G_i v_new) ;;
       let C := fsub (fadd (fadd (f_of_Z CP_i) dd) (fmul (f_of_nat n_i) vv)) (fmul f2 gv) in  (* :156-161 *)
       let Sii := fdiv C (f_of_nat n_new) in
       do S_col_new <- lift (set_item (map fst cs) i_label Sii) ;;  (* :162 *)
       do S_row_new <- lift (set_item (map snd cs) i_label Sii) ;;  (* :163 *)
       do n' <- lift (set_item (n o) i_label n_new) ;;
       modify (set_n n') ;;                                  (* :166 *)
       do v' <- lift (set_row (v o) i_label v_new) ;;
       modify (set_v v') ;;                                  (* :167 *)
       do cps' <- lift (set_item cps i_label CP_new) ;;
       modify (set_CP (floats cps')) ;;                      (* :168 *)
       do G' <- lift (set_row (G o) i_label G_new) ;;
       modify (set_G G') ;;                                  (* :169 *)
       do S' <- lift (set_row (S2 o) i_label S_col_new) ;;
       modify (set_S2 S') ;;                                 (* :173 *)
       do S'' <- lift (set_col S' i_label S_row_new) ;;
       modify (set_S2 S'') ;;                                (* :174 *)
       ret cps') ;;
    modify (set_n_samples n_samples_new) ;;                  (* :177 *)
    ret cps'.

  (** for x, l in zip(data, labels): cvi.get_cvi(x, l) with cSIL on integer samples
      (_base.py:138-139 and :177-181).  The results up to the first exception. *)
  Fixpoint cSIL_int_stream (o : obj A) (cps : list Z) (s : list (list Z * Z)) : list (E (F A)) :=
    match s with
    | [] => []
    | (x, l) :: s' =>
        let '(i_label, lm') := get_internal_label (label_map o) l in
        match cSIL_int_param_inc cps x i_label (at_ o) with
        | (_, Err e) => [Err e]
        | (a1, Ok cps') =>
            match cSIL_evaluate a1 with
            | (_, Err e) => [Err e]
            | (a2, Ok _) => Ok (criterion_value a2) :: cSIL_int_stream (mkObj lm' a2) cps' s'
            end
        end
    end.

  (** body of the first loop of rCIP._param_batch (rCIP.py:176-191): the product
      of line 186 is integer arithmetic *)
  Definition int_gram (d : nat) (rows : list (list Z)) : mat A :=
    tab2 d d (fun i j => f_of_Z (int_dot t (map (fun r => nth i r 0%Z) rows) (map (fun r => nth j r 0%Z) rows))).
  Definition rCIP_int_batch_body (d : nat) (data : list (list Z)) (labels : list Z) (ix : nat) : M A unit :=
    do rows <- lift (mapE (fun i => get_item data i) (indices_of ix labels)) ;;  (* :177-180 *)
    let subset := mkMat d (map floats rows) in
    do o <- get ;;
    let n_ix := length rows in
    modify (set_n (upd ix n_ix (n o))) ;;                    (* :181 *)
    let v_ix := mean0 subset in
    modify (set_v (mkMat (mcols (v o)) (upd ix v_ix (mrows (v o))))) ;;  (* :182 *)
    if 1 <? n_ix then                                        (* :183 *)
      do s0 <- lift (msub (int_gram d rows) (mscal (f_of_nat n_ix) (outer v_ix v_ix))) ;;
      do s1 <- lift (madd (mscal (fdiv f1 (f_of_Z (Z.of_nat n_ix - 1))) s0) (delta_term o)) ;;
      modify (set_sigma (upd ix s1 (sigma o)))               (* :184-189 *)
    else modify (set_sigma (upd ix (delta_term o) (sigma o))).  (* :191 *)

  (** rCIP._param_batch (rCIP.py:155-205) on integer data *)
  Definition rCIP_int_param_batch (d : nat) (data : list (list Z)) (labels : list Z) : M A unit :=
    base_setup_batch (mkMat d (map floats data)) ;;          (* :161 *)
    (if d =? 0 then raise ZeroDivisionError else ret tt) ;;  (* :164 *)
    modify (set_delta_term (rCIP_delta_term d)) ;;           (* :163-165 *)
    modify (set_constant (rCIP_constant d)) ;;               (* :166 *)
    let k := n_unique labels in
    modify (set_n_clusters k) ;;                             (* :169-170 *)
    modify (set_n (repeat 0 k)) ;;                           (* :171 *)
    modify (set_v (zmat k d)) ;;                             (* :172 *)
    modify (set_sigma (repeat (zmat d d) k)) ;;              (* :173 *)
    modify (set_D (zmat k k)) ;;                             (* :174 *)
    for_ (seq 0 k) (rCIP_int_batch_body d data labels) ;;    (* :176-191 *)
    do o <- get ;;
    do rows <- lift (mapE (fun ix => mapE (fun jx =>
                 if ix <? jx then rCIP_batch_term o ix jx else Ok f0) (seq 0 k)) (seq 0 k)) ;; (* :193-203 *)
    let D_up := mkMat k rows in
    modify (set_D (tab2 k k (fun ix jx => fadd (entry D_up ix jx) (entry (transpose D_up) ix jx)))). (* :205 *)

  (** rCIP().get_cvi(data, labels) on integer data (_base.py:142-154 and :177-181) *)
  Definition rCIP_int_batch (d : nat) (s : list (list Z * Z)) : E (F A) :=
    let labels := map snd s in
    if 1 <? n_unique labels then
      match rCIP_int_param_batch d (map fst s) labels init_attrs with
      | (_, Err e) => Err e
      | (a1, Ok _) =>
          match rCIP_evaluate a1 with
          | (_, Err e) => Err e
          | (a2, Ok _) => Ok (criterion_value a2)
          end
      end
    else Err ValueError.

  (** the same calls on the converted numbers *)
  Definition as_floats (s : list (list Z * Z)) : list (vec A * Z) := map (fun p => (floats (fst p), snd p)) s.
  (** what the classes return on integer data: a stream *)
  Definition int_stream (c : kind) (s : list (list Z * Z)) : list (E (F A)) :=
    match c with
    | kcSIL => cSIL_int_stream new_obj [] s
    | _ => results c new_obj (stream (as_floats s))
    end.
  (** a batch *)
  Definition int_batch (c : kind) (d : nat) (s : list (list Z * Z)) : list (E (F A)) :=
    match c with
    | krCIP => [rCIP_int_batch d s]
    | _ => results c new_obj [batch_of d (as_floats s)]
    end.
End Int.
