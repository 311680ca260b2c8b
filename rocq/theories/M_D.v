(** * src/cvi/modules/DB.py, XB.py, GD43.py and GD53.py: the indices that keep a
    matrix [_D] of pairwise terms between clusters. *)
From Coq Require Import ZArith List Arith Bool.
From Verif Require Import Num NumPy Base.
Import ListNotations.

Section Shared.
  Context {A : Arith}.

  (** The code computing [D_new] for a new cluster, textually the same in
      DB.py:85-96, XB.py:86-97, GD43.py:88-99, GD53.py:88-99, PS.py:77-88 and
      rCIP.py:85-102 up to the term [f jx] written into [d_column_new[jx]]. *)
  Definition D_new_cluster (k i_label : nat) (D_old : mat A) (f : nat -> E (F A)) : E (mat A) :=
    if k =? 0 then Ok (zmat 1 1)
    else
      let* D_new := grow k D_old in
      let* c := mapE f (seq 0 k) in
      let d_column_new := c ++ [f0] in
      let* D_new := set_row D_new i_label d_column_new in
      set_col D_new i_label d_column_new.

  (** The loop computing [d_column_new] for an existing cluster: DB.py:130-137,
      XB.py:129-136, GD43.py:131-138, GD53.py:131-138, PS.py:105-112, rCIP.py:129-142. *)
  Definition D_old_column (k i_label : nat) (f : nat -> E (F A)) : E (vec A) :=
    mapE (fun jx => if jx =? i_label then Ok f0 else f jx) (seq 0 k).

  (** np.sum((v_new - self._v[jx, :]) ** 2) *)
  Definition sqdist_to (v_new : vec A) (v : mat A) (jx : nat) : E (F A) :=
    let* v_j := row v jx in
    let* df := vsub v_new v_j in
    Ok (np_sumsq df).
End Shared.

Section DB.
  Context {A : Arith}.

  (** DB._setup (DB.py:44-54) *)
  Definition DB_setup (sample : vec A) : M A unit :=
    base_setup sample ;;
    modify (set_mu sample).                                  (* :54 *)

  (** term written into d_column_new[jx]: DB.py:92-94 (new cluster) and :135-137 *)
  Definition DB_term (o : attrs A) (v_new : vec A) (CP_new : F A) (n_new jx : nat) : E (F A) :=
    sqdist_to v_new (v o) jx.

  (** DB._param_inc (DB.py:57-150) after the label has been mapped *)
  Definition DB_param_inc (sample : vec A) (i_label : nat) : M A unit :=
    do o <- get ;;
    let n_samples_new := n_samples o + 1 in                  (* :66 *)
    (if n_samples o =? 0 then DB_setup sample                (* :69 *)
     else do mu' <- lift (srunning_mean n_samples_new (mu o) sample) ;;
          modify (set_mu mu')) ;;                            (* :72 *)
    do o <- get ;;
    (if n_clusters o <=? i_label then                        (* :79 *)
       let n_new := 1 in let v_new := sample in
       let CP_new := f0 in let G_new := zeros (dim o) in     (* :80-83 *)
       let S_new := f0 in                                    (* :84 *)
       do D_new <- lift (D_new_cluster (n_clusters o) i_label (D o)
                           (DB_term o v_new CP_new n_new)) ;;  (* :85-96 *)
       modify (set_n_clusters (n_clusters o + 1)) ;;         (* :99 *)
       append_n n_new ;;                                     (* :100 *)
       modify (set_CP (CP o ++ [CP_new])) ;;                 (* :101 *)
       modify (set_S1 (S1 o ++ [S_new])) ;;                  (* :102 *)
       do v' <- lift (vstack (v o) v_new) ;;
       modify (set_v v') ;;                                  (* :105 *)
       do G' <- lift (vstack (G o) G_new) ;;
       modify (set_G G') ;;                                  (* :106 *)
       modify (set_D D_new)                                  (* :107 *)
     else
       do n_i <- lift (get_item (n o) i_label) ;;
       let n_new := n_i + 1 in                               (* :111 *)
       do v_i <- lift (row (v o) i_label) ;;
       do v_new <- lift (running_mean n_new v_i sample) ;;   (* :112-115 *)
       do delta_v <- lift (vsub v_i v_new) ;;                (* :116 *)
       do diff_x_v <- lift (vsub sample v_new) ;;            (* :117 *)
       do CP_i <- lift (get_item (CP o) i_label) ;;
       do dxv2 <- lift (inner diff_x_v diff_x_v) ;;
       do dv2 <- lift (inner delta_v delta_v) ;;
       do G_i <- lift (row (G o) i_label) ;;
       do dvG <- lift (inner delta_v G_i) ;;
       let CP_new := fadd (fadd (fadd CP_i dxv2) (fmul (f_of_nat n_i) dv2))
                          (fmul f2 dvG) in                   (* :118-123 *)
       do G1 <- lift (vadd G_i diff_x_v) ;;
       do G_new <- lift (vadd G1 (scal (f_of_nat n_i) delta_v)) ;;  (* :124-128 *)
       let S_new := fdiv CP_new (f_of_nat n_new) in          (* :129 *)
       do d_column_new <- lift (D_old_column (n_clusters o) i_label
                                 (DB_term o v_new CP_new n_new)) ;;  (* :130-137 *)
       do n' <- lift (set_item (n o) i_label n_new) ;;
       modify (set_n n') ;;                                  (* :140 *)
       do v' <- lift (set_row (v o) i_label v_new) ;;
       modify (set_v v') ;;                                  (* :141 *)
       do CP' <- lift (set_item (CP o) i_label CP_new) ;;
       modify (set_CP CP') ;;                                (* :142 *)
       do G' <- lift (set_row (G o) i_label G_new) ;;
       modify (set_G G') ;;                                  (* :143 *)
       do S' <- lift (set_item (S1 o) i_label S_new) ;;
       modify (set_S1 S') ;;                                 (* :144 *)
       do D1 <- lift (set_row (D o) i_label d_column_new) ;;
       modify (set_D D1) ;;                                  (* :145 *)
       do D2 <- lift (set_col D1 i_label d_column_new) ;;
       modify (set_D D2)) ;;                                 (* :147 *)
    modify (set_n_samples n_samples_new).                    (* :150 *)

  (** body of the first loop of DB._param_batch (DB.py:175-185) *)
  Definition DB_batch_body (data : mat A) (labels : list Z) (ix : nat) : M A unit :=
    do subset <- lift (take_rows data (indices_of ix labels)) ;;  (* :177-180 *)
    do o <- get ;;
    let n_ix := nrows subset in
    modify (set_n (upd ix n_ix (n o))) ;;                    (* :181 *)
    let v_ix := smean0 subset in
    modify (set_v (mkMat (mcols (v o)) (upd ix v_ix (mrows (v o))))) ;;  (* :182 *)
    let CP_ix := np_sumsq_all (sub_rows subset v_ix) in
    modify (set_CP (upd ix CP_ix (CP o))) ;;                   (* :183-184 *)
    modify (set_S1 (upd ix (fdiv CP_ix (f_of_nat n_ix)) (S1 o))).   (* :185 *)

  (** the term stored in _D[ix, jx] (DB.py:189-191); all indices and shapes are in range here *)
  Definition DB_batch_term (o : attrs A) (ix jx : nat) : F A :=
    np_sumsq (map2 fsub (nth ix (mrows (v o)) []) (nth jx (mrows (v o)) [])).

  (** DB._param_batch (DB.py:153-193); the double loop :187-191 fills the strict upper triangle *)
  Definition DB_param_batch (data : mat A) (labels : list Z) : M A unit :=
    base_setup_batch data ;;
    modify (set_mu (smean0 data)) ;;                          (* :162 *)
    let k := n_unique labels in
    modify (set_n_clusters k) ;;                             (* :164 *)
    modify (set_n (repeat 0 k)) ;;                           (* :166 *)
    modify (set_v (zmat k (mcols data))) ;;                  (* :167 *)
    modify (set_CP (zeros k)) ;;                             (* :169 *)
    modify (set_G (zmat k (mcols data))) ;;                  (* :170 *)
    modify (set_D (zmat k k)) ;;                             (* :171 *)
    modify (set_S1 (zeros k)) ;;                             (* :173 *)
    for_ (seq 0 k) (DB_batch_body data labels) ;;           (* :175 *)
    do o <- get ;;
    let D_up := tab2 k k (fun ix jx => if ix <? jx then DB_batch_term o ix jx else f0) in
    modify (set_D (tab2 k k (fun ix jx => fadd (entry D_up ix jx) (entry (transpose D_up) ix jx)))).  (* :193 *)

  (** DB._evaluate (DB.py:196-213) *)
  Definition DB_evaluate : M A unit :=
    do o <- get ;;
    let k := n_clusters o in
    if 1 <? k then                                           (* :201 *)
      do rows <- lift (mapE (fun jx => mapE (fun ix =>
                   if ix <? jx then
                     let* S_i := get_item (S1 o) ix in
                     let* S_j := get_item (S1 o) jx in
                     let* d := get2 (D o) jx ix in
                     Ok (fdiv (fadd S_i S_j) d)
                   else Ok f0) (seq 0 k)) (seq 0 k)) ;;      (* :202-207 *)
      let R_low := mkMat k rows in
      let R_new := tab2 k k (fun i j => fadd (entry R_low i j) (entry (transpose R_low) i j)) in
      modify (set_R R_new) ;;                                (* :208 *)
      do ms <- lift (mapE (fun j => np_max (col R_new j)) (seq 0 k)) ;;
      modify (set_criterion_value (fdiv (np_sum ms) (f_of_nat k)))  (* :209-211 *)
    else modify (set_criterion_value f0).                    (* :213 *)
End DB.

Section XB.
  Context {A : Arith}.

  (** XB._setup (XB.py:44-55) *)
  Definition XB_setup (sample : vec A) : M A unit :=
    base_setup sample ;;
    do o <- get ;;
    modify (set_SEP (zeros (dim o))) ;;                      (* :54 *)
    modify (set_mu sample).                                  (* :55 *)

  (** term written into d_column_new[jx]: XB.py:93-95 (new cluster) and :134-136 *)
  Definition XB_term (o : attrs A) (v_new : vec A) (CP_new : F A) (n_new jx : nat) : E (F A) :=
    sqdist_to v_new (v o) jx.

  (** XB._param_inc (XB.py:58-147) after the label has been mapped *)
  Definition XB_param_inc (sample : vec A) (i_label : nat) : M A unit :=
    do o <- get ;;
    let n_samples_new := n_samples o + 1 in                  (* :67 *)
    (if n_samples o =? 0 then XB_setup sample                (* :70 *)
     else do mu' <- lift (srunning_mean n_samples_new (mu o) sample) ;;
          modify (set_mu mu')) ;;                            (* :73 *)
    do o <- get ;;
    (if n_clusters o <=? i_label then                        (* :80 *)
       let n_new := 1 in let v_new := sample in
       let CP_new := f0 in let G_new := zeros (dim o) in     (* :81-84 *)
       do D_new <- lift (D_new_cluster (n_clusters o) i_label (D o)
                           (XB_term o v_new CP_new n_new)) ;;  (* :86-97 *)
       modify (set_n_clusters (n_clusters o + 1)) ;;         (* :100 *)
       append_n n_new ;;                                     (* :101 *)
       modify (set_CP (CP o ++ [CP_new])) ;;                 (* :102 *)
       do v' <- lift (vstack (v o) v_new) ;;
       modify (set_v v') ;;                                  (* :105 *)
       do G' <- lift (vstack (G o) G_new) ;;
       modify (set_G G') ;;                                  (* :106 *)
       modify (set_D D_new)                                  (* :107 *)
     else
       do n_i <- lift (get_item (n o) i_label) ;;
       let n_new := n_i + 1 in                               (* :111 *)
       do v_i <- lift (row (v o) i_label) ;;
       do v_new <- lift (running_mean n_new v_i sample) ;;   (* :112-115 *)
       do delta_v <- lift (vsub v_i v_new) ;;                (* :116 *)
       do diff_x_v <- lift (vsub sample v_new) ;;            (* :117 *)
       do CP_i <- lift (get_item (CP o) i_label) ;;
       do dxv2 <- lift (inner diff_x_v diff_x_v) ;;
       do dv2 <- lift (inner delta_v delta_v) ;;
       do G_i <- lift (row (G o) i_label) ;;
       do dvG <- lift (inner delta_v G_i) ;;
       let CP_new := fadd (fadd (fadd CP_i dxv2) (fmul (f_of_nat n_i) dv2))
                          (fmul f2 dvG) in                   (* :118-123 *)
       do G1 <- lift (vadd G_i diff_x_v) ;;
       do G_new <- lift (vadd G1 (scal (f_of_nat n_i) delta_v)) ;;  (* :124-128 *)
       do d_column_new <- lift (D_old_column (n_clusters o) i_label
                                 (XB_term o v_new CP_new n_new)) ;;  (* :129-136 *)
       do n' <- lift (set_item (n o) i_label n_new) ;;
       modify (set_n n') ;;                                  (* :139 *)
       do v' <- lift (set_row (v o) i_label v_new) ;;
       modify (set_v v') ;;                                  (* :140 *)
       do CP' <- lift (set_item (CP o) i_label CP_new) ;;
       modify (set_CP CP') ;;                                (* :141 *)
       do G' <- lift (set_row (G o) i_label G_new) ;;
       modify (set_G G') ;;                                  (* :142 *)
       do D1 <- lift (set_row (D o) i_label d_column_new) ;;
       modify (set_D D1) ;;                                  (* :143 *)
       do D2 <- lift (set_col D1 i_label d_column_new) ;;
       modify (set_D D2)) ;;                                 (* :144 *)
    modify (set_n_samples n_samples_new).                    (* :147 *)

  (** body of the first loop of XB._param_batch (XB.py:167-175) *)
  Definition XB_batch_body (data : mat A) (labels : list Z) (ix : nat) : M A unit :=
    do subset <- lift (take_rows data (indices_of ix labels)) ;;  (* :168-171 *)
    do o <- get ;;
    let n_ix := nrows subset in
    modify (set_n (upd ix n_ix (n o))) ;;                    (* :172 *)
    let v_ix := smean0 subset in
    modify (set_v (mkMat (mcols (v o)) (upd ix v_ix (mrows (v o))))) ;;  (* :173 *)
    let CP_ix := np_sumsq_all (sub_rows subset v_ix) in
    modify (set_CP (upd ix CP_ix (CP o))).                   (* :174-175 *)

  (** the term stored in _D[ix, jx] (XB.py:179-181); all indices and shapes are in range here *)
  Definition XB_batch_term (o : attrs A) (ix jx : nat) : F A :=
    np_sumsq (map2 fsub (nth ix (mrows (v o)) []) (nth jx (mrows (v o)) [])).

  (** XB._param_batch (XB.py:150-181); the double loop :177-181 fills the strict upper triangle *)
  Definition XB_param_batch (data : mat A) (labels : list Z) : M A unit :=
    base_setup_batch data ;;
    modify (set_mu (smean0 data)) ;;                          (* :159 *)
    let k := n_unique labels in
    modify (set_n_clusters k) ;;                             (* :161 *)
    modify (set_n (repeat 0 k)) ;;                           (* :162 *)
    modify (set_n_array true) ;;                             (* np.zeros(..., dtype=int) *)
    modify (set_v (zmat k (mcols data))) ;;                  (* :163 *)
    modify (set_CP (zeros k)) ;;                             (* :164 *)
    modify (set_D (zmat k k)) ;;                             (* :165 *)
    for_ (seq 0 k) (XB_batch_body data labels) ;;           (* :167 *)
    do o <- get ;;
    let D_up := tab2 k k (fun ix jx => if ix <? jx then XB_batch_term o ix jx else f0) in
    modify (set_D D_up).                                     (* :177-181 *)

  (** XB._evaluate (XB.py:184-206) *)
  Definition XB_evaluate : M A unit :=
    do o <- get ;;
    let k := n_clusters o in
    if 1 <? k then                                           (* :189 *)
      let wgss := py_sum (CP o) in
      modify (set_WGSS wgss) ;;                              (* :191 *)
      do values <- lift (triu_indices_values (D o)) ;;       (* :195, :199 *)
      do sep <- lift (np_min values) ;;
      modify (set_SEP [sep]) ;;                              (* :200 *)
      modify (set_criterion_value
        (fdiv wgss (fmul (f_of_nat (n_samples o)) sep)))     (* :202-204 *)
    else modify (set_criterion_value f0).                    (* :206 *)
End XB.

Section GD43.
  Context {A : Arith}.

  (** GD43._setup (GD43.py:48-58) *)
  Definition GD43_setup (sample : vec A) : M A unit :=
    base_setup sample ;;
    modify (set_mu sample).                                  (* :58 *)

  (** term written into d_column_new[jx]: GD43.py:95-97 (new cluster) and :136-138 *)
  Definition GD43_term (o : attrs A) (v_new : vec A) (CP_new : F A) (n_new jx : nat) : E (F A) :=
    let* d := sqdist_to v_new (v o) jx in Ok (fsqrt d).

  (** GD43._param_inc (GD43.py:61-149) after the label has been mapped *)
  Definition GD43_param_inc (sample : vec A) (i_label : nat) : M A unit :=
    do o <- get ;;
    let n_samples_new := n_samples o + 1 in                  (* :70 *)
    (if n_samples o =? 0 then GD43_setup sample                (* :73 *)
     else do mu' <- lift (srunning_mean n_samples_new (mu o) sample) ;;
          modify (set_mu mu')) ;;                            (* :76 *)
    do o <- get ;;
    (if n_clusters o <=? i_label then                        (* :83 *)
       let n_new := 1 in let v_new := sample in
       let CP_new := f0 in let G_new := zeros (dim o) in     (* :84-87 *)
       do D_new <- lift (D_new_cluster (n_clusters o) i_label (D o)
                           (GD43_term o v_new CP_new n_new)) ;;  (* :88-99 *)
       modify (set_n_clusters (n_clusters o + 1)) ;;         (* :102 *)
       append_n n_new ;;                                     (* :103 *)
       modify (set_CP (CP o ++ [CP_new])) ;;                 (* :104 *)
       do v' <- lift (vstack (v o) v_new) ;;
       modify (set_v v') ;;                                  (* :107 *)
       do G' <- lift (vstack (G o) G_new) ;;
       modify (set_G G') ;;                                  (* :108 *)
       modify (set_D D_new)                                  (* :109 *)
     else
       do n_i <- lift (get_item (n o) i_label) ;;
       let n_new := n_i + 1 in                               (* :113 *)
       do v_i <- lift (row (v o) i_label) ;;
       do v_new <- lift (running_mean n_new v_i sample) ;;   (* :114-117 *)
       do delta_v <- lift (vsub v_i v_new) ;;                (* :118 *)
       do diff_x_v <- lift (vsub sample v_new) ;;            (* :119 *)
       do CP_i <- lift (get_item (CP o) i_label) ;;
       do dxv2 <- lift (inner diff_x_v diff_x_v) ;;
       do dv2 <- lift (inner delta_v delta_v) ;;
       do G_i <- lift (row (G o) i_label) ;;
       do dvG <- lift (inner delta_v G_i) ;;
       let CP_new := fadd (fadd (fadd CP_i dxv2) (fmul (f_of_nat n_i) dv2))
                          (fmul f2 dvG) in                   (* :120-125 *)
       do G1 <- lift (vadd G_i diff_x_v) ;;
       do G_new <- lift (vadd G1 (scal (f_of_nat n_i) delta_v)) ;;  (* :126-130 *)
       do d_column_new <- lift (D_old_column (n_clusters o) i_label
                                 (GD43_term o v_new CP_new n_new)) ;;  (* :131-138 *)
       do n' <- lift (set_item (n o) i_label n_new) ;;
       modify (set_n n') ;;                                  (* :141 *)
       do v' <- lift (set_row (v o) i_label v_new) ;;
       modify (set_v v') ;;                                  (* :142 *)
       do CP' <- lift (set_item (CP o) i_label CP_new) ;;
       modify (set_CP CP') ;;                                (* :143 *)
       do G' <- lift (set_row (G o) i_label G_new) ;;
       modify (set_G G') ;;                                  (* :144 *)
       do D1 <- lift (set_row (D o) i_label d_column_new) ;;
       modify (set_D D1) ;;                                  (* :145 *)
       do D2 <- lift (set_col D1 i_label d_column_new) ;;
       modify (set_D D2)) ;;                                 (* :146 *)
    modify (set_n_samples n_samples_new).                    (* :149 *)

  (** body of the first loop of GD43._param_batch (GD43.py:170-178) *)
  Definition GD43_batch_body (data : mat A) (labels : list Z) (ix : nat) : M A unit :=
    do subset <- lift (take_rows data (indices_of ix labels)) ;;  (* :171-174 *)
    do o <- get ;;
    let n_ix := nrows subset in
    modify (set_n (upd ix n_ix (n o))) ;;                    (* :175 *)
    let v_ix := smean0 subset in
    modify (set_v (mkMat (mcols (v o)) (upd ix v_ix (mrows (v o))))) ;;  (* :176 *)
    let CP_ix := np_sumsq_all (sub_rows subset v_ix) in
    modify (set_CP (upd ix CP_ix (CP o))).                   (* :177-178 *)

  (** the term stored in _D[ix, jx] (GD43.py:182-184); all indices and shapes are in range here *)
  Definition GD43_batch_term (o : attrs A) (ix jx : nat) : F A :=
    fsqrt (np_sumsq (map2 fsub (nth ix (mrows (v o)) []) (nth jx (mrows (v o)) []))).

  (** GD43._param_batch (GD43.py:152-186); the double loop :180-184 fills the strict upper triangle *)
  Definition GD43_param_batch (data : mat A) (labels : list Z) : M A unit :=
    base_setup_batch data ;;
    modify (set_mu (smean0 data)) ;;                          (* :161 *)
    let k := n_unique labels in
    modify (set_n_clusters k) ;;                             (* :163 *)
    modify (set_n (repeat 0 k)) ;;                           (* :164 *)
    modify (set_v (zmat k (mcols data))) ;;                  (* :165 *)
    modify (set_CP (zeros k)) ;;                             (* :166 *)
    modify (set_G (zmat k (mcols data))) ;;                  (* :167 *)
    modify (set_D (zmat k k)) ;;                             (* :168 *)
    for_ (seq 0 k) (GD43_batch_body data labels) ;;           (* :170 *)
    do o <- get ;;
    let D_up := tab2 k k (fun ix jx => if ix <? jx then GD43_batch_term o ix jx else f0) in
    modify (set_D (tab2 k k (fun ix jx => fadd (entry D_up ix jx) (entry (transpose D_up) ix jx)))).  (* :186 *)

  (** GD43._evaluate (GD43.py:189-207) *)
  Definition GD43_evaluate : M A unit :=
    do o <- get ;;
    let k := n_clusters o in
    if 1 <? k then                                           (* :194 *)
      do ratios <- lift (bc fdiv (CP o) (map f_of_nat (n o))) ;;
      do m <- lift (np_max ratios) ;;
      let intra' := fmul f2 m in
      modify (set_intra intra') ;;                           (* :195 *)
      do values <- lift (triu_mask_values k (D o)) ;;
      do inter' <- lift (np_min values) ;;
      modify (set_inter inter') ;;                           (* :197-203 *)
      modify (set_criterion_value (fdiv inter' intra'))      (* :205 *)
    else modify (set_criterion_value f0).                    (* :207 *)
End GD43.

Section GD53.
  Context {A : Arith}.

  (** GD53._setup (GD53.py:48-58) *)
  Definition GD53_setup (sample : vec A) : M A unit :=
    base_setup sample ;;
    modify (set_mu sample).                                  (* :58 *)

  (** term written into d_column_new[jx]: GD53.py:95-97 (new cluster) and :136-138 *)
  Definition GD53_term (o : attrs A) (v_new : vec A) (CP_new : F A) (n_new jx : nat) : E (F A) :=
    let* CP_j := get_item (CP o) jx in
           let* n_j := get_item (n o) jx in
           Ok (fdiv (fadd CP_new CP_j) (f_of_nat (n_new + n_j))).

  (** GD53._param_inc (GD53.py:61-149) after the label has been mapped *)
  Definition GD53_param_inc (sample : vec A) (i_label : nat) : M A unit :=
    do o <- get ;;
    let n_samples_new := n_samples o + 1 in                  (* :70 *)
    (if n_samples o =? 0 then GD53_setup sample                (* :73 *)
     else do mu' <- lift (srunning_mean n_samples_new (mu o) sample) ;;
          modify (set_mu mu')) ;;                            (* :76 *)
    do o <- get ;;
    (if n_clusters o <=? i_label then                        (* :83 *)
       let n_new := 1 in let v_new := sample in
       let CP_new := f0 in let G_new := zeros (dim o) in     (* :84-87 *)
       do D_new <- lift (D_new_cluster (n_clusters o) i_label (D o)
                           (GD53_term o v_new CP_new n_new)) ;;  (* :88-99 *)
       modify (set_n_clusters (n_clusters o + 1)) ;;         (* :102 *)
       append_n n_new ;;                                     (* :103 *)
       modify (set_CP (CP o ++ [CP_new])) ;;                 (* :104 *)
       do v' <- lift (vstack (v o) v_new) ;;
       modify (set_v v') ;;                                  (* :107 *)
       do G' <- lift (vstack (G o) G_new) ;;
       modify (set_G G') ;;                                  (* :108 *)
       modify (set_D D_new)                                  (* :109 *)
     else
       do n_i <- lift (get_item (n o) i_label) ;;
       let n_new := n_i + 1 in                               (* :113 *)
       do v_i <- lift (row (v o) i_label) ;;
       do v_new <- lift (running_mean n_new v_i sample) ;;   (* :114-117 *)
       do delta_v <- lift (vsub v_i v_new) ;;                (* :118 *)
       do diff_x_v <- lift (vsub sample v_new) ;;            (* :119 *)
       do CP_i <- lift (get_item (CP o) i_label) ;;
       do dxv2 <- lift (inner diff_x_v diff_x_v) ;;
       do dv2 <- lift (inner delta_v delta_v) ;;
       do G_i <- lift (row (G o) i_label) ;;
       do dvG <- lift (inner delta_v G_i) ;;
       let CP_new := fadd (fadd (fadd CP_i dxv2) (fmul (f_of_nat n_i) dv2))
                          (fmul f2 dvG) in                   (* :120-125 *)
       do G1 <- lift (vadd G_i diff_x_v) ;;
       do G_new <- lift (vadd G1 (scal (f_of_nat n_i) delta_v)) ;;  (* :126-130 *)
       do d_column_new <- lift (D_old_column (n_clusters o) i_label
                                 (GD53_term o v_new CP_new n_new)) ;;  (* :131-138 *)
       do n' <- lift (set_item (n o) i_label n_new) ;;
       modify (set_n n') ;;                                  (* :141 *)
       do v' <- lift (set_row (v o) i_label v_new) ;;
       modify (set_v v') ;;                                  (* :142 *)
       do CP' <- lift (set_item (CP o) i_label CP_new) ;;
       modify (set_CP CP') ;;                                (* :143 *)
       do G' <- lift (set_row (G o) i_label G_new) ;;
       modify (set_G G') ;;                                  (* :144 *)
       do D1 <- lift (set_row (D o) i_label d_column_new) ;;
       modify (set_D D1) ;;                                  (* :145 *)
       do D2 <- lift (set_col D1 i_label d_column_new) ;;
       modify (set_D D2)) ;;                                 (* :146 *)
    modify (set_n_samples n_samples_new).                    (* :149 *)

  (** body of the first loop of GD53._param_batch (GD53.py:170-179) *)
  Definition GD53_batch_body (data : mat A) (labels : list Z) (ix : nat) : M A unit :=
    do subset <- lift (take_rows data (indices_of ix labels)) ;;  (* :172-175 *)
    do o <- get ;;
    let n_ix := nrows subset in
    modify (set_n (upd ix n_ix (n o))) ;;                    (* :176 *)
    let v_ix := smean0 subset in
    modify (set_v (mkMat (mcols (v o)) (upd ix v_ix (mrows (v o))))) ;;  (* :177 *)
    let CP_ix := np_sumsq_all (sub_rows subset v_ix) in
    modify (set_CP (upd ix CP_ix (CP o))).                   (* :178-179 *)

  (** the term stored in _D[ix, jx] (GD53.py:183-185); all indices and shapes are in range here *)
  Definition GD53_batch_term (o : attrs A) (ix jx : nat) : F A :=
    fdiv (fadd (nth ix (CP o) f0) (nth jx (CP o) f0))
         (f_of_nat (nth ix (n o) 0 + nth jx (n o) 0)).

  (** GD53._param_batch (GD53.py:152-187); the double loop :181-185 fills the strict upper triangle *)
  Definition GD53_param_batch (data : mat A) (labels : list Z) : M A unit :=
    base_setup_batch data ;;
    modify (set_mu (smean0 data)) ;;                          (* :161 *)
    let k := n_unique labels in
    modify (set_n_clusters k) ;;                             (* :163 *)
    modify (set_n (repeat 0 k)) ;;                           (* :164 *)
    modify (set_v (zmat k (mcols data))) ;;                  (* :165 *)
    modify (set_CP (zeros k)) ;;                             (* :166 *)
    modify (set_G (zmat k (mcols data))) ;;                  (* :167 *)
    modify (set_D (zmat k k)) ;;                             (* :168 *)
    for_ (seq 0 k) (GD53_batch_body data labels) ;;           (* :170 *)
    do o <- get ;;
    let D_up := tab2 k k (fun ix jx => if ix <? jx then GD53_batch_term o ix jx else f0) in
    modify (set_D (tab2 k k (fun ix jx => fadd (entry D_up ix jx) (entry (transpose D_up) ix jx)))).  (* :187 *)

  (** GD53._evaluate (GD53.py:190-208) *)
  Definition GD53_evaluate : M A unit :=
    do o <- get ;;
    let k := n_clusters o in
    if 1 <? k then                                           (* :195 *)
      do ratios <- lift (bc fdiv (CP o) (map f_of_nat (n o))) ;;
      do m <- lift (np_max ratios) ;;
      let intra' := fmul f2 m in
      modify (set_intra intra') ;;                           (* :196 *)
      do values <- lift (triu_mask_values k (D o)) ;;
      do inter' <- lift (np_min values) ;;
      modify (set_inter inter') ;;                           (* :198-204 *)
      modify (set_criterion_value (fdiv inter' intra'))      (* :206 *)
    else modify (set_criterion_value f0).                    (* :208 *)
End GD53.
