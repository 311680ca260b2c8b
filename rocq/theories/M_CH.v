(** * src/cvi/modules/CH.py and src/cvi/modules/WB.py *)
From Coq Require Import ZArith List Arith Bool.
From Verif Require Import Num NumPy Base.
Import ListNotations.

Section CH.
  Context {A : Arith}.

  (** CH._setup (CH.py:46-57).  [self._mu = sample] stores a reference to the
      caller's array; the aliasing is modelled separately in Alias.v. *)
  Definition CH_setup (sample : vec A) : M A unit :=
    base_setup sample ;;                                     (* :53 *)
    do o <- get ;;
    modify (set_SEP (zeros (dim o))) ;;                      (* :56 *)
    modify (set_mu sample).                                  (* :57 *)

  (** CH._param_inc (CH.py:60-129) after the label has been mapped (line 66). *)
  Definition CH_param_inc (sample : vec A) (i_label : nat) : M A unit :=
    do o <- get ;;
    let n_samples_new := n_samples o + 1 in                  (* :69 *)
    (if n_samples o =? 0 then CH_setup sample                (* :72-73 *)
     else do mu' <- lift (srunning_mean n_samples_new (mu o) sample) ;;
          modify (set_mu mu')) ;;                            (* :75-78 *)
    do o <- get ;;
    (if n_clusters o <=? i_label then                        (* :82, i_label > n_clusters - 1 *)
       let n_new := 1 in let v_new := sample in
       let CP_new := f0 in let G_new := zeros (dim o) in     (* :83-86 *)
       modify (set_n_clusters (n_clusters o + 1)) ;;         (* :89 *)
       append_n n_new ;;                                     (* :90 *)
       modify (set_CP (CP o ++ [CP_new])) ;;                 (* :91 *)
       do v' <- lift (vstack (v o) v_new) ;;
       modify (set_v v') ;;                                  (* :94 *)
       do G' <- lift (vstack (G o) G_new) ;;
       modify (set_G G')                                     (* :95 *)
     else
       do n_i <- lift (get_item (n o) i_label) ;;
       let n_new := n_i + 1 in                               (* :99 *)
       do v_i <- lift (row (v o) i_label) ;;
       do v_new <- lift (running_mean n_new v_i sample) ;;   (* :100-103 *)
       do delta_v <- lift (vsub v_i v_new) ;;                (* :104 *)
       do diff_x_v <- lift (vsub sample v_new) ;;            (* :105 *)
       do CP_i <- lift (get_item (CP o) i_label) ;;
       do dxv2 <- lift (inner diff_x_v diff_x_v) ;;
       do dv2 <- lift (inner delta_v delta_v) ;;
       do G_i <- lift (row (G o) i_label) ;;
       do dvG <- lift (inner delta_v G_i) ;;
       let CP_new := fadd (fadd (fadd CP_i dxv2) (fmul (f_of_nat n_i) dv2))
                          (fmul f2 dvG) in                   (* :106-111 *)
       do G1 <- lift (vadd G_i diff_x_v) ;;
       do G_new <- lift (vadd G1 (scal (f_of_nat n_i) delta_v)) ;;  (* :112-116 *)
       do n' <- lift (set_item (n o) i_label n_new) ;;
       modify (set_n n') ;;                                  (* :118 *)
       do v' <- lift (set_row (v o) i_label v_new) ;;
       modify (set_v v') ;;                                  (* :119 *)
       do CP' <- lift (set_item (CP o) i_label CP_new) ;;
       modify (set_CP CP') ;;                                (* :120 *)
       do G' <- lift (set_row (G o) i_label G_new) ;;
       modify (set_G G')) ;;                                 (* :121 *)
    modify (set_n_samples n_samples_new) ;;                  (* :124 *)
    do o <- get ;;
    do sep <- lift (mapE (fun ix =>
                let* n_ix := get_item (n o) ix in
                let* v_ix := row (v o) ix in
                let* df := vsub v_ix (mu o) in
                Ok (fmul (f_of_nat n_ix) (py_sumsq df)))
              (seq 0 (n_clusters o))) ;;
    modify (set_SEP sep).                                    (* :126-129 *)

  (** body of the loop CH.py:149-158 *)
  Definition CH_batch_body (data : mat A) (labels : list Z) (ix : nat) : M A unit :=
    do subset <- lift (take_rows data (indices_of ix labels)) ;;  (* :150-153 *)
    do o <- get ;;
    modify (set_n (upd ix (nrows subset) (n o))) ;;          (* :154 *)
    let v_ix := smean0 subset in
    modify (set_v (mkMat (mcols (v o)) (upd ix v_ix (mrows (v o))))) ;;  (* :155 *)
    modify (set_CP (upd ix (np_sumsq_all (sub_rows subset v_ix)) (CP o))) ;; (* :156-157 *)
    do df <- lift (vsub v_ix (mu o)) ;;
    modify (set_SEP (upd ix (fmul (f_of_nat (nrows subset)) (np_sumsq df)) (SEP o))). (* :158 *)

  (** CH._param_batch (CH.py:132-158) *)
  Definition CH_param_batch (data : mat A) (labels : list Z) : M A unit :=
    base_setup_batch data ;;                                 (* :138 *)
    modify (set_mu (smean0 data)) ;;                          (* :141 *)
    let k := n_unique labels in
    modify (set_n_clusters k) ;;                             (* :142-143 *)
    modify (set_n (repeat 0 k)) ;;                           (* :144 *)
    modify (set_n_array true) ;;                             (* np.zeros(..., dtype=int) *)
    modify (set_v (zmat k (mcols data))) ;;                  (* :145 *)
    modify (set_CP (zeros k)) ;;                             (* :146 *)
    modify (set_SEP (zeros k)) ;;                            (* :147 *)
    for_ (seq 0 k) (CH_batch_body data labels).              (* :149-158 *)

  (** CH._evaluate (CH.py:161-178) *)
  Definition CH_evaluate : M A unit :=
    do o <- get ;;
    if 1 <? n_clusters o then                                (* :166 *)
      let wgss := py_sum (CP o) in
      let bgss := py_sum (SEP o) in
      modify (set_WGSS wgss) ;;                              (* :168 *)
      modify (set_BGSS bgss) ;;                              (* :170 *)
      modify (set_criterion_value                            (* :172-175 *)
        (fmul (fdiv bgss wgss)
              (fdiv (f_of_Z (Z.of_nat (n_samples o) - Z.of_nat (n_clusters o)))
                    (f_of_Z (Z.of_nat (n_clusters o) - 1)))))
    else
      modify (set_BGSS f0) ;;                                (* :177 *)
      modify (set_criterion_value f0).                       (* :178 *)
End CH.

Section WB.
  Context {A : Arith}.

  (** WB._setup (WB.py:48-59) *)
  Definition WB_setup (sample : vec A) : M A unit :=
    base_setup sample ;;                                     (* :55 *)
    do o <- get ;;
    modify (set_SEP (zeros (dim o))) ;;                      (* :58 *)
    modify (set_mu sample).                                  (* :59 *)

  (** WB._param_inc (WB.py:62-131) after line 68 *)
  Definition WB_param_inc (sample : vec A) (i_label : nat) : M A unit :=
    do o <- get ;;
    let n_samples_new := n_samples o + 1 in                  (* :71 *)
    (if n_samples o =? 0 then WB_setup sample                (* :74-75 *)
     else do mu' <- lift (srunning_mean n_samples_new (mu o) sample) ;;
          modify (set_mu mu')) ;;                            (* :77-80 *)
    do o <- get ;;
    (if n_clusters o <=? i_label then                        (* :84 *)
       let n_new := 1 in let v_new := sample in
       let CP_new := f0 in let G_new := zeros (dim o) in     (* :85-88 *)
       modify (set_n_clusters (n_clusters o + 1)) ;;         (* :91 *)
       append_n n_new ;;                                     (* :92 *)
       modify (set_CP (CP o ++ [CP_new])) ;;                 (* :93 *)
       do v' <- lift (vstack (v o) v_new) ;;
       modify (set_v v') ;;                                  (* :96 *)
       do G' <- lift (vstack (G o) G_new) ;;
       modify (set_G G')                                     (* :97 *)
     else
       do n_i <- lift (get_item (n o) i_label) ;;
       let n_new := n_i + 1 in                               (* :101 *)
       do v_i <- lift (row (v o) i_label) ;;
       do v_new <- lift (running_mean n_new v_i sample) ;;   (* :102-105 *)
       do delta_v <- lift (vsub v_i v_new) ;;                (* :106 *)
       do diff_x_v <- lift (vsub sample v_new) ;;            (* :107 *)
       do CP_i <- lift (get_item (CP o) i_label) ;;
       do dxv2 <- lift (inner diff_x_v diff_x_v) ;;
       do dv2 <- lift (inner delta_v delta_v) ;;
       do G_i <- lift (row (G o) i_label) ;;
       do dvG <- lift (inner delta_v G_i) ;;
       let CP_new := fadd (fadd (fadd CP_i dxv2) (fmul (f_of_nat n_i) dv2))
                          (fmul f2 dvG) in                   (* :108-113 *)
       do G1 <- lift (vadd G_i diff_x_v) ;;
       do G_new <- lift (vadd G1 (scal (f_of_nat n_i) delta_v)) ;;  (* :114-118 *)
       do n' <- lift (set_item (n o) i_label n_new) ;;
       modify (set_n n') ;;                                  (* :120 *)
       do v' <- lift (set_row (v o) i_label v_new) ;;
       modify (set_v v') ;;                                  (* :121 *)
       do CP' <- lift (set_item (CP o) i_label CP_new) ;;
       modify (set_CP CP') ;;                                (* :122 *)
       do G' <- lift (set_row (G o) i_label G_new) ;;
       modify (set_G G')) ;;                                 (* :123 *)
    modify (set_n_samples n_samples_new) ;;                  (* :126 *)
    do o <- get ;;
    do sep <- lift (mapE (fun ix =>
                let* n_ix := get_item (n o) ix in
                let* v_ix := row (v o) ix in
                let* df := vsub v_ix (mu o) in
                Ok (fmul (f_of_nat n_ix) (py_sumsq df)))
              (seq 0 (n_clusters o))) ;;
    modify (set_SEP sep).                                    (* :128-131 *)

  (** body of the loop WB.py:151-160 *)
  Definition WB_batch_body (data : mat A) (labels : list Z) (ix : nat) : M A unit :=
    do subset <- lift (take_rows data (indices_of ix labels)) ;;  (* :152-155 *)
    do o <- get ;;
    modify (set_n (upd ix (nrows subset) (n o))) ;;          (* :156 *)
    let v_ix := smean0 subset in
    modify (set_v (mkMat (mcols (v o)) (upd ix v_ix (mrows (v o))))) ;;  (* :157 *)
    modify (set_CP (upd ix (np_sumsq_all (sub_rows subset v_ix)) (CP o))) ;; (* :158-159 *)
    do df <- lift (vsub v_ix (mu o)) ;;
    modify (set_SEP (upd ix (fmul (f_of_nat (nrows subset)) (np_sumsq df)) (SEP o))). (* :160 *)

  (** WB._param_batch (WB.py:134-160) *)
  Definition WB_param_batch (data : mat A) (labels : list Z) : M A unit :=
    base_setup_batch data ;;                                 (* :140 *)
    modify (set_mu (smean0 data)) ;;                          (* :143 *)
    let k := n_unique labels in
    modify (set_n_clusters k) ;;                             (* :144-145 *)
    modify (set_n (repeat 0 k)) ;;                           (* :146 *)
    modify (set_n_array true) ;;                             (* np.zeros(..., dtype=int) *)
    modify (set_v (zmat k (mcols data))) ;;                  (* :147 *)
    modify (set_CP (zeros k)) ;;                             (* :148 *)
    modify (set_SEP (zeros k)) ;;                            (* :149 *)
    for_ (seq 0 k) (WB_batch_body data labels).              (* :151-160 *)

  (** WB._evaluate (WB.py:163-179) *)
  Definition WB_evaluate : M A unit :=
    do o <- get ;;
    if 1 <? n_clusters o then                                (* :168 *)
      let wgss := py_sum (CP o) in
      let bgss := py_sum (SEP o) in
      modify (set_WGSS wgss) ;;                              (* :170 *)
      modify (set_BGSS bgss) ;;                              (* :172 *)
      modify (set_criterion_value                            (* :174-176 *)
        (fmul (fdiv wgss bgss) (f_of_nat (n_clusters o))))
    else
      modify (set_BGSS f0) ;;                                (* :178 *)
      modify (set_criterion_value f0).                       (* :179 *)
End WB.
