(** * src/cvi/modules/PS.py, rCIP.py and cSIL.py *)
From Coq Require Import ZArith List Arith Bool.
From Verif Require Import Num NumPy Base M_D.
Import ListNotations.

Section PS.
  Context {A : Arith}.

  (** PS._setup (PS.py:42-54).  [_G] is created by the generic setup and deleted
      again; PS never reads it, so only the deletion of [_CP] is recorded: a
      second [_setup] on the same object would raise AttributeError there. *)
  Definition PS_setup (sample : vec A) : M A unit :=
    base_setup sample ;;                                     (* :49 *)
    do o <- get ;;
    if CP_deleted o then raise AttributeError                (* :54 *)
    else modify (set_CP_deleted true).

  (** PS._param_inc (PS.py:57-121) after the label has been mapped (:63) *)
  Definition PS_param_inc (sample : vec A) (i_label : nat) : M A unit :=
    do o <- get ;;
    let n_samples_new := n_samples o + 1 in                  (* :66 *)
    (if n_samples o =? 0 then PS_setup sample else ret tt) ;;  (* :69-70 *)
    do o <- get ;;
    (if n_clusters o <=? i_label then                        (* :74 *)
       let n_new := 1 in let v_new := sample in              (* :75-76 *)
       do D_new <- lift (D_new_cluster (n_clusters o) i_label (D o)
                           (sqdist_to v_new (v o))) ;;       (* :77-88 *)
       modify (set_n_clusters (n_clusters o + 1)) ;;         (* :91 *)
       append_n n_new ;;                                     (* :92 *)
       do v' <- lift (vstack (v o) v_new) ;;
       modify (set_v v') ;;                                  (* :95 *)
       modify (set_D D_new)                                  (* :96 *)
     else
       do n_i <- lift (get_item (n o) i_label) ;;
       let n_new := n_i + 1 in                               (* :100 *)
       do v_i <- lift (row (v o) i_label) ;;
       do v_new <- lift (running_mean n_new v_i sample) ;;   (* :101-104 *)
       do d_column_new <- lift (D_old_column (n_clusters o) i_label
                                 (sqdist_to v_new (v o))) ;; (* :105-112 *)
       do n' <- lift (set_item (n o) i_label n_new) ;;
       modify (set_n n') ;;                                  (* :115 *)
       do v' <- lift (set_row (v o) i_label v_new) ;;
       modify (set_v v') ;;                                  (* :116 *)
       do D1 <- lift (set_row (D o) i_label d_column_new) ;;
       modify (set_D D1) ;;                                  (* :117 *)
       do D2 <- lift (set_col D1 i_label d_column_new) ;;
       modify (set_D D2)) ;;                                 (* :118 *)
    modify (set_n_samples n_samples_new).                    (* :121 *)

  (** body of the first loop of PS._param_batch (PS.py:140-146) *)
  Definition PS_batch_body (data : mat A) (labels : list Z) (ix : nat) : M A unit :=
    do subset <- lift (take_rows data (indices_of ix labels)) ;;  (* :141-144 *)
    do o <- get ;;
    modify (set_n (upd ix (nrows subset) (n o))) ;;          (* :145 *)
    modify (set_v (mkMat (mcols (v o)) (upd ix (smean0 subset) (mrows (v o))))).  (* :146 *)

  (** term stored in _D[ix, jx] (PS.py:151-153) *)
  Definition PS_batch_term (o : attrs A) (ix jx : nat) : F A :=
    np_sumsq (map2 fsub (nth ix (mrows (v o)) []) (nth jx (mrows (v o)) [])).

  (** PS._param_batch (PS.py:124-155) *)
  Definition PS_param_batch (data : mat A) (labels : list Z) : M A unit :=
    base_setup_batch data ;;                                 (* :130 *)
    modify (set_mu (smean0 data)) ;;                          (* :133 *)
    let k := n_unique labels in
    modify (set_n_clusters k) ;;                             (* :134-135 *)
    modify (set_n (repeat 0 k)) ;;                           (* :136 *)
    modify (set_v (zmat k (mcols data))) ;;                  (* :137 *)
    modify (set_D (zmat k k)) ;;                             (* :138 *)
    for_ (seq 0 k) (PS_batch_body data labels) ;;            (* :140-146 *)
    do o <- get ;;
    let D_up := tab2 k k (fun ix jx => if ix <? jx then PS_batch_term o ix jx else f0) in (* :149-153 *)
    modify (set_D (tab2 k k (fun ix jx => fadd (entry D_up ix jx) (entry (transpose D_up) ix jx)))). (* :155 *)

  (** PS._evaluate (PS.py:158-181).  [_v_bar], [_beta_t] and [_PS_i] are written
      before the criterion value and read nowhere else; if the loop :172-178
      raises, the model keeps the previous [_PS_i] where the code keeps a partly
      filled one. *)
  Definition PS_evaluate : M A unit :=
    do o <- get ;;
    let k := n_clusters o in
    if 1 <? k then                                           (* :163 *)
      let vb := mean0 (v o) in
      modify (set_v_bar vb) ;;                               (* :164 *)
      do sq <- lift (mapE (fun ix =>
                 let* v_i := row (v o) ix in
                 let* delta_v := vsub v_i vb in
                 inner delta_v delta_v) (seq 0 k)) ;;        (* :167-169 *)
      let bt := fdiv (py_sum sq) (f_of_nat k) in             (* :165-170 *)
      modify (set_beta_t bt) ;;
      let n_max := list_max (n o) in                         (* :171 *)
      do ps <- lift (mapE (fun ix =>
                 let* d0 := row (D o) ix in
                 let* d := np_delete d0 ix in
                 let* n_i := get_item (n o) ix in
                 if n_max =? 0 then Err ZeroDivisionError    (* int / int *)
                 else
                   let* m := np_min d in
                   Ok (fsub (fdiv (f_of_nat n_i) (f_of_nat n_max))
                            (fexp (fdiv (fneg m) bt)))) (seq 0 k)) ;;  (* :172-178 *)
      modify (set_PS_i ps) ;;
      modify (set_criterion_value (np_sum ps))               (* :179 *)
    else modify (set_criterion_value f0).                    (* :181 *)
End PS.

Section rCIP.
  Context {A : Arith}.

  (** delta = 10.0 ** (-epsilon / dim), epsilon = 12.0  (rCIP.py:57-58 and 163-164) *)
  Definition rCIP_delta (d : nat) : F A :=
    fpow (f_of_Z 10) (fdiv (fneg (f_of_Z 12)) (f_of_nat d)).
  (** np.eye(dim) * delta (rCIP.py:59 and 165) *)
  Definition rCIP_delta_term (d : nat) : mat A :=
    tab2 d d (fun i j => fmul (if i =? j then f1 else f0) (rCIP_delta d)).
  (** 1 / np.sqrt((2 * np.pi) ** dim) (rCIP.py:77 and 166) *)
  Definition rCIP_constant (d : nat) : F A :=
    fdiv f1 (fsqrt (fpow (fmul f2 fpi) (f_of_nat d))).

  (** rCIP._setup (rCIP.py:46-59) *)
  Definition rCIP_setup (sample : vec A) : M A unit :=
    base_setup sample ;;                                     (* :53 *)
    modify (set_sigma []) ;;                                 (* :56 *)
    do o <- get ;;
    if dim o =? 0 then raise ZeroDivisionError               (* :58, float / int 0 *)
    else modify (set_delta_term (rCIP_delta_term (dim o))).  (* :57-59 *)

  (** -0.5 * diff_m @ inv(sigma_q) @ diff_m, constant and determinant:
      rCIP.py:94-100, 136-142, 197-203.  det is evaluated before inv. *)
  Definition rCIP_potential (cst : F A) (diff_m : vec A) (sigma_q : mat A) : E (F A) :=
    let det := np_det (mrows sigma_q) in
    let* W := linalg_inv sigma_q in
    let* t := vecmat (scal (fdiv (f_of_Z (-1)) f2) diff_m) W in
    let* e := inner t diff_m in
    Ok (fmul (fmul cst (fdiv f1 (fsqrt det))) (fexp e)).

  (** the term of cluster [jx]: rCIP.py:92-100 and 134-142 *)
  Definition rCIP_term (o : attrs A) (v_new : vec A) (sigma_new : mat A) (jx : nat) : E (F A) :=
    let* v_j := row (v o) jx in
    let* diff_m := vsub v_new v_j in
    let* s_j := get_item (sigma o) jx in
    let* sigma_q := madd sigma_new s_j in
    rCIP_potential (constant o) diff_m sigma_q.

  (** rCIP._param_inc (rCIP.py:62-152) after the label has been mapped (:68) *)
  Definition rCIP_param_inc (sample : vec A) (i_label : nat) : M A unit :=
    do o <- get ;;
    let n_samples_new := n_samples o + 1 in                  (* :71 *)
    (if n_samples o =? 0 then rCIP_setup sample else ret tt) ;;  (* :74-75 *)
    do o <- get ;;
    modify (set_constant (rCIP_constant (dim o))) ;;         (* :77 *)
    do o <- get ;;
    (if n_clusters o <=? i_label then                        (* :81 *)
       let n_new := 1 in let v_new := sample in
       let sigma_new := delta_term o in                      (* :82-84 *)
       do D_new <- lift (D_new_cluster (n_clusters o) i_label (D o)
                           (rCIP_term o v_new sigma_new)) ;; (* :85-102 *)
       modify (set_n_clusters (n_clusters o + 1)) ;;         (* :105 *)
       append_n n_new ;;                                     (* :106 *)
       do v' <- lift (vstack (v o) v_new) ;;
       modify (set_v v') ;;                                  (* :109 *)
       modify (set_D D_new) ;;                               (* :110 *)
       modify (set_sigma (sigma o ++ [sigma_new]))           (* :113, both dim x dim *)
     else
       do n_i <- lift (get_item (n o) i_label) ;;
       let n_new := n_i + 1 in                               (* :117 *)
       do v_i <- lift (row (v o) i_label) ;;
       do v_new <- lift (running_mean n_new v_i sample) ;;   (* :118-121 *)
       do diff_x_v <- lift (vsub sample v_i) ;;              (* :122 *)
       (if n_new =? 1 then raise ZeroDivisionError else ret tt) ;;  (* :124, n_new - 1 *)
       do s_i <- lift (get_item (sigma o) i_label) ;;
       do s0 <- lift (msub s_i (delta_term o)) ;;
       do s1 <- lift (madd (mscal (fdiv (f_of_Z (Z.of_nat n_new - 2)) (f_of_Z (Z.of_nat n_new - 1))) s0)
                           (mscal (fdiv f1 (f_of_nat n_new)) (outer diff_x_v diff_x_v))) ;;
       do sigma_new <- lift (madd s1 (delta_term o)) ;;      (* :123-128 *)
       do d_column_new <- lift (D_old_column (n_clusters o) i_label
                                 (rCIP_term o v_new sigma_new)) ;;  (* :129-142 *)
       do n' <- lift (set_item (n o) i_label n_new) ;;
       modify (set_n n') ;;                                  (* :145 *)
       do v' <- lift (set_row (v o) i_label v_new) ;;
       modify (set_v v') ;;                                  (* :146 *)
       do sg' <- lift (set_item (sigma o) i_label sigma_new) ;;
       modify (set_sigma sg') ;;                             (* :147 *)
       do D1 <- lift (set_row (D o) i_label d_column_new) ;;
       modify (set_D D1) ;;                                  (* :148 *)
       do D2 <- lift (set_col D1 i_label d_column_new) ;;
       modify (set_D D2)) ;;                                 (* :149 *)
    modify (set_n_samples n_samples_new).                    (* :152 *)

  (** body of the first loop of rCIP._param_batch (rCIP.py:176-191) *)
  Definition rCIP_batch_body (data : mat A) (labels : list Z) (ix : nat) : M A unit :=
    do subset <- lift (take_rows data (indices_of ix labels)) ;;  (* :177-180 *)
    do o <- get ;;
    let n_ix := nrows subset in
    modify (set_n (upd ix n_ix (n o))) ;;                    (* :181 *)
    let v_ix := smean0 subset in
    modify (set_v (mkMat (mcols (v o)) (upd ix v_ix (mrows (v o))))) ;;  (* :182 *)
    if 1 <? n_ix then                                        (* :183 *)
      do s0 <- lift (msub (gram subset) (mscal (f_of_nat n_ix) (outer v_ix v_ix))) ;;
      do s1 <- lift (madd (mscal (fdiv f1 (f_of_Z (Z.of_nat n_ix - 1))) s0) (delta_term o)) ;;
      modify (set_sigma (upd ix s1 (sigma o)))               (* :184-189 *)
    else modify (set_sigma (upd ix (delta_term o) (sigma o))).  (* :191 *)

  (** the term stored in _D[ix, jx] (rCIP.py:195-203) *)
  Definition rCIP_batch_term (o : attrs A) (ix jx : nat) : E (F A) :=
    let* v_i := row (v o) ix in
    let* v_j := row (v o) jx in
    let* diff_m := vsub v_i v_j in
    let* s_i := get_item (sigma o) ix in
    let* s_j := get_item (sigma o) jx in
    let* sigma_q := madd s_i s_j in
    rCIP_potential (constant o) diff_m sigma_q.

  (** rCIP._param_batch (rCIP.py:155-205).  If an inversion raises inside the
      double loop the model leaves [_D] all zero where the code leaves it partly
      filled. *)
  Definition rCIP_param_batch (data : mat A) (labels : list Z) : M A unit :=
    base_setup_batch data ;;                                 (* :161 *)
    (if mcols data =? 0 then raise ZeroDivisionError else ret tt) ;;  (* :164 *)
    modify (set_delta_term (rCIP_delta_term (mcols data))) ;;  (* :163-165 *)
    modify (set_constant (rCIP_constant (mcols data))) ;;    (* :166 *)
    let k := n_unique labels in
    modify (set_n_clusters k) ;;                             (* :169-170 *)
    modify (set_n (repeat 0 k)) ;;                           (* :171 *)
    modify (set_v (zmat k (mcols data))) ;;                  (* :172 *)
    modify (set_sigma (repeat (zmat (mcols data) (mcols data)) k)) ;;  (* :173 *)
    modify (set_D (zmat k k)) ;;                             (* :174 *)
    for_ (seq 0 k) (rCIP_batch_body data labels) ;;          (* :176-191 *)
    do o <- get ;;
    do rows <- lift (mapE (fun ix => mapE (fun jx =>
                 if ix <? jx then rCIP_batch_term o ix jx else Ok f0) (seq 0 k)) (seq 0 k)) ;; (* :193-203 *)
    let D_up := mkMat k rows in
    modify (set_D (tab2 k k (fun ix jx => fadd (entry D_up ix jx) (entry (transpose D_up) ix jx)))). (* :205 *)

  (** rCIP._evaluate (rCIP.py:208-219) *)
  Definition rCIP_evaluate : M A unit :=
    do o <- get ;;
    if 1 <? nrows (D o) then                                 (* :213-214 *)
      do values <- lift (triu_indices_values (D o)) ;;       (* :215 *)
      modify (set_criterion_value (np_sum values))           (* :216 *)
    else modify (set_criterion_value f0).                    (* :219 *)
End rCIP.

Section cSIL.
  Context {A : Arith}.

  (** cSIL._setup (cSIL.py:42-49) *)
  Definition cSIL_setup (sample : vec A) : M A unit := base_setup sample.

  (** S_col_new[cl] for a new cluster (cSIL.py:85-90); the factor 2 of the
      squared distance |x - v|^2 is absent from the source (line 88).  [CP_new]
      has the dtype of the data, the centroids are float64. *)
  Definition cSIL_col_new (o : attrs A) (CP_new : F A) (G_new : vec A) (cl : nat) : E (F A) :=
    let* v_cl := row (v o) cl in
    let* vv := inner v_cl v_cl in
    let* gv := inner G_new v_cl in
    Ok (fsub (fadd CP_new vv) gv).
  (** S_row_new[cl] for a new cluster (cSIL.py:91-96): [v_new] is the sample and
      the elements of the list [_CP] are sums of squares of samples, so the first
      two terms are computed in the dtype of the data *)
  Definition cSIL_row_new (o : attrs A) (v_new : vec A) (cl : nat) : E (F A) :=
    let* CP_cl := get_item (CP o) cl in
    let* n_cl := get_item (n o) cl in
    let* vv := sinner v_new v_new in
    let* G_cl := row (G o) cl in
    let* gv := inner G_cl v_new in
    Ok (fdiv (fsub (sadd CP_cl (smul (f_of_nat n_cl) vv)) (fmul f2 gv)) (f_of_nat n_cl)).
  (** S_row_new[cl] for an existing cluster (cSIL.py:147-152) *)
  Definition cSIL_row (o : attrs A) (v_new : vec A) (cl : nat) : E (F A) :=
    let* CP_cl := get_item (CP o) cl in
    let* n_cl := get_item (n o) cl in
    let* vv := inner v_new v_new in
    let* G_cl := row (G o) cl in
    let* gv := inner G_cl v_new in
    Ok (fdiv (fsub (fadd CP_cl (fmul (f_of_nat n_cl) vv)) (fmul f2 gv)) (f_of_nat n_cl)).
  (** S_col_new[cl] for an existing cluster (cSIL.py:138-145) *)
  Definition cSIL_col_old (o : attrs A) (sample : vec A) (CP_i : F A) (n_i : nat)
             (G_new : vec A) (cl : nat) : E (F A) :=
    let* v_cl := row (v o) cl in
    let* diff_x_v := vsub sample v_cl in
    let* dd := inner diff_x_v diff_x_v in
    let* vv := inner v_cl v_cl in
    let* gv := inner G_new v_cl in
    Ok (fdiv (fsub (fadd (fadd CP_i dd) (fmul (f_of_nat n_i) vv)) (fmul f2 gv))
             (f_of_nat (n_i + 1))).

  (** cSIL._param_inc (cSIL.py:52-177) after the label has been mapped (:58) *)
  Definition cSIL_param_inc (sample : vec A) (i_label : nat) : M A unit :=
    do o <- get ;;
    let n_samples_new := n_samples o + 1 in                  (* :61 *)
    (if n_samples o =? 0 then cSIL_setup sample else ret tt) ;;  (* :64-65 *)
    do o <- get ;;
    let k := n_clusters o in
    (if k <=? i_label then                                   (* :69 *)
       let n_new := 1 in let v_new := sample in              (* :70-71 *)
       do CP_new <- lift (sinner sample sample) ;;            (* :72 *)
       let G_new := sample in                                (* :73 *)
       do S_new <-
         (if k =? 0 then ret (zmat 1 1)                      (* :76-77 *)
          else
            do S_new <- lift (grow k (S2 o)) ;;              (* :79-80 *)
            (* the loop :83-96 computes the two vectors side by side *)
            do cs <- lift (mapE (fun cl =>
                       let* c := cSIL_col_new o CP_new G_new cl in
                       let* r := cSIL_row_new o v_new cl in Ok (c, r)) (seq 0 k)) ;;
            do S_col_new <- lift (set_item (map fst cs ++ [f0]) i_label f0) ;;  (* :98 *)
            do S_row_new <- lift (set_item (map snd cs ++ [f0]) i_label f0) ;;  (* :99 *)
            do S_new <- lift (set_row S_new i_label S_col_new) ;;  (* :100 *)
            lift (set_col S_new i_label S_row_new)) ;;       (* :101 *)
       modify (set_n_clusters (k + 1)) ;;                    (* :104 *)
       append_n n_new ;;                                     (* :105 *)
       modify (set_CP (CP o ++ [CP_new])) ;;                 (* :106 *)
       do v' <- lift (vstack (v o) v_new) ;;
       modify (set_v v') ;;                                  (* :109 *)
       do G' <- lift (vstack (G o) G_new) ;;
       modify (set_G G') ;;                                  (* :110 *)
       modify (set_S2 S_new)                                 (* :111 *)
     else
       do n_i <- lift (get_item (n o) i_label) ;;
       let n_new := n_i + 1 in                               (* :115 *)
       do v_i <- lift (row (v o) i_label) ;;
       do v_new <- lift (running_mean n_new v_i sample) ;;   (* :116-119 *)
       do CP_i <- lift (get_item (CP o) i_label) ;;
       do xx <- lift (sinner sample sample) ;;
       let CP_new := sadd CP_i xx in                         (* :122-125 *)
       do G_i <- lift (row (G o) i_label) ;;
       do G_new <- lift (vadd G_i sample) ;;                 (* :126-129 *)
       do cs <- lift (mapE (fun cl =>
                  if cl =? i_label then Ok (f0, f0)
                  else let* c := cSIL_col_old o sample CP_i n_i G_new cl in
                       let* r := cSIL_row o v_new cl in Ok (c, r)) (seq 0 k)) ;;  (* :131-152 *)
       do diff_x_v <- lift (vsub sample v_new) ;;            (* :155 *)
       do dd <- lift (inner diff_x_v diff_x_v) ;;
       do vv <- lift (inner v_new v_new) ;;
       do gv <- lift (inner G_i v_new) ;;
       let C := fsub (fadd (fadd CP_i dd) (fmul (f_of_nat n_i) vv)) (fmul f2 gv) in  (* :156-161 *)
       let Sii := fdiv C (f_of_nat n_new) in
       do S_col_new <- lift (set_item (map fst cs) i_label Sii) ;;  (* :162 *)
       do S_row_new <- lift (set_item (map snd cs) i_label Sii) ;;  (* :163 *)
       do n' <- lift (set_item (n o) i_label n_new) ;;
       modify (set_n n') ;;                                  (* :166 *)
       do v' <- lift (set_row (v o) i_label v_new) ;;
       modify (set_v v') ;;                                  (* :167 *)
       do CP' <- lift (set_item (CP o) i_label CP_new) ;;
       modify (set_CP CP') ;;                                (* :168 *)
       do G' <- lift (set_row (G o) i_label G_new) ;;
       modify (set_G G') ;;                                  (* :169 *)
       do S' <- lift (set_row (S2 o) i_label S_col_new) ;;
       modify (set_S2 S') ;;                                 (* :173 *)
       do S'' <- lift (set_col S' i_label S_row_new) ;;
       modify (set_S2 S'')) ;;                               (* :174 *)
    modify (set_n_samples n_samples_new).                    (* :177 *)

  (** body of the loop cSIL.py:196-209.  Row [ix] of the local array [D] (squared
      distances of all samples to centroid ix) is recomputed from [_v] where it
      is used, see [cSIL_D_row]. *)
  Definition cSIL_batch_body (data : mat A) (labels : list Z) (ix : nat) : M A unit :=
    do subset <- lift (take_rows data (indices_of ix labels)) ;;  (* :197-200 *)
    do o <- get ;;
    modify (set_n (upd ix (nrows subset) (n o))) ;;          (* :201 *)
    let v_ix := smean0 subset in
    modify (set_v (mkMat (mcols (v o)) (upd ix v_ix (mrows (v o))))) ;;  (* :202 *)
    modify (set_CP (upd ix (np_sumsq_all (sub_rows subset v_ix)) (CP o))) ;;  (* :205-206 *)
    (* D is n_samples x n_samples and is indexed by the cluster number *)
    if ix <? nrows data then ret tt else raise IndexError.   (* :209 *)
  (** D[ix, :] (cSIL.py:208-209) *)
  Definition cSIL_D_row (data : mat A) (o : attrs A) (ix : nat) : vec A :=
    map np_sumsq (sub_rows data (nth ix (mrows (v o)) [])).

  (** cSIL._param_batch (cSIL.py:180-215).  The second double loop can only raise
      IndexError (through [subset_ind]) and the first loop raises first on the
      same indices, so it is written as a table. *)
  Definition cSIL_param_batch (data : mat A) (labels : list Z) : M A unit :=
    base_setup_batch data ;;                                 (* :186 *)
    let k := n_unique labels in
    modify (set_n_clusters k) ;;                             (* :189-190 *)
    modify (set_n (repeat 0 k)) ;;                           (* :191 *)
    modify (set_n_array true) ;;                             (* np.zeros(..., dtype=int) *)
    modify (set_v (zmat k (mcols data))) ;;                  (* :192 *)
    modify (set_CP (zeros k)) ;;                             (* :193 *)
    modify (set_S2 (zmat k k)) ;;                            (* :194 *)
    for_ (seq 0 k) (cSIL_batch_body data labels) ;;          (* :196-209 *)
    do o <- get ;;
    modify (set_S2 (tab2 k k (fun jx ix =>
      fdiv (py_sum (map (fun x => nth x (cSIL_D_row data o ix) f0) (indices_of jx labels)))
           (f_of_nat (nth jx (n o) 0))))).                   (* :212-215 *)

  (** cSIL._evaluate (cSIL.py:218-237).  If the loop raises, the model leaves
      [_sil_coefs] zero where the code leaves it partly filled; it is read nowhere else. *)
  Definition cSIL_evaluate : M A unit :=
    do o <- get ;;
    let k := n_clusters o in
    modify (set_sil_coefs (zeros k)) ;;                      (* :223 *)
    if (1 <? k) && np_any (S2 o) then                        (* :225 *)
      do cs <- lift (mapE (fun ix =>
                 let* a := get2 (S2 o) ix ix in              (* :228 *)
                 let* c := get_col (S2 o) ix in
                 let* local_S := np_delete c ix in           (* :230 *)
                 let* b := np_min local_S in                 (* :231 *)
                 Ok (fdiv (fsub b a) (fmaximum a b))) (seq 0 k)) ;;  (* :232 *)
      modify (set_sil_coefs cs) ;;
      modify (set_criterion_value (fdiv (np_sum cs) (f_of_nat k)))  (* :234 *)
    else modify (set_criterion_value f0).                    (* :237 *)
End cSIL.
