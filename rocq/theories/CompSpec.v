(** * Vocabulary of C77: how the attributes left by a call fit the value returned *)
From Coq Require Import ZArith List Arith Bool Reals.
From Verif Require Import Num NumPy Base GetCvi Eval Spec XR SpecX.
Import ListNotations.

Section Fits.
  Context {A : Arith}.

  (** (S_i + S_j) / D[j, i] *)
  Definition DB_ratio (a : attrs A) (i j : nat) : F A :=
    fdiv (fadd (nth i (S1 a) f0) (nth j (S1 a) f0)) (entry (D a) j i).

  (** the attributes [a] hold the parts of the value [x] *)
  Definition Fits (c : kind) (a : attrs A) (x : F A) : Prop :=
    let k := n_clusters a in
    match c with
    | kCH =>
        if 1 <? k then
          WGSS a = py_sum (CP a) /\ BGSS a = py_sum (SEP a) /\
          x = fmul (fdiv (BGSS a) (WGSS a))
                   (fdiv (f_of_Z (Z.of_nat (n_samples a) - Z.of_nat k)) (f_of_Z (Z.of_nat k - 1)))
        else BGSS a = f0 /\ x = f0
    | kWB =>
        if 1 <? k then
          WGSS a = py_sum (CP a) /\ BGSS a = py_sum (SEP a) /\ x = fmul (fdiv (WGSS a) (BGSS a)) (f_of_nat k)
        else BGSS a = f0 /\ x = f0
    | kDB =>
        if 1 <? k then
          Base.R a = tab2 k k (fun i j => fadd (if j <? i then DB_ratio a j i else f0)
                                          (if i <? j then DB_ratio a i j else f0)) /\
          exists ms, mapE (fun j => np_max (col (Base.R a) j)) (seq 0 k) = Ok ms /\ x = fdiv (np_sum ms) (f_of_nat k)
        else x = f0
    | kXB =>
        if 1 <? k then
          exists sep upper, WGSS a = py_sum (CP a) /\ triu_indices_values (D a) = Ok upper /\
            np_min upper = Ok sep /\ SEP a = [sep] /\ x = fdiv (WGSS a) (fmul (f_of_nat (n_samples a)) sep)
        else x = f0
    | kGD43 | kGD53 =>
        if 1 <? k then
          (exists ratios m, bc fdiv (CP a) (map f_of_nat (n a)) = Ok ratios /\ np_max ratios = Ok m /\
                            intra a = fmul f2 m) /\
          (exists upper, triu_mask_values k (D a) = Ok upper /\ np_min upper = Ok (inter a)) /\
          x = fdiv (inter a) (intra a)
        else x = f0
    | kPS =>
        if 1 <? k then
          v_bar a = mean0 (v a) /\
          (exists sq, mapE (fun i => let* v_i := row (v a) i in let* dv := vsub v_i (v_bar a) in NumPy.inner dv dv)
                           (seq 0 k) = Ok sq /\ beta_t a = fdiv (py_sum sq) (f_of_nat k)) /\
          PS_i a = map (fun i => fsub (fdiv (f_of_nat (nth i (n a) 0)) (f_of_nat (list_max (n a))))
                                      (fexp (fdiv (fneg (vmin (remove_nth i (nth i (mrows (D a)) [])))) (beta_t a))))
                       (seq 0 k) /\
          x = np_sum (PS_i a)
        else x = f0
    | krCIP =>
        if 1 <? nrows (D a) then exists upper, triu_indices_values (D a) = Ok upper /\ x = np_sum upper
        else x = f0
    | kcSIL =>
        if (1 <? k) && np_any (S2 a) then
          sil_coefs a = map (fun i => let s := entry (S2 a) i i in
                                      let b := vmin (remove_nth i (col (S2 a) i)) in
                                      fdiv (fsub b s) (fmaximum s b)) (seq 0 k) /\
          x = fdiv (np_sum (sil_coefs a)) (f_of_nat k)
        else sil_coefs a = zeros k /\ x = f0
    end.
End Fits.

Local Open Scope R_scope.
(** the parts of the value of a partition, clusters in the order of [gs] *)
Definition Parts (c : kind) (d : nat) (gs : list (list point)) (a : attrs XR) : Prop :=
  n_clusters a = length gs /\ n a = map (@length point) gs /\
  mrows (v a) = map (fun g => map Fin (centroid d g)) gs /\
  match c with
  | kCH | kWB => CP a = map (fun g => Fin (scatter d g)) gs /\
      SEP a = map (fun g => Fin (INR (length g) * dist2 (centroid d g) (centroid d (concat gs)))) gs /\
      WGSS a = Fin (wgss d gs) /\ BGSS a = Fin (bgss d gs)
  | kDB => S1 a = map (fun g => Fin (mse d g)) gs /\
      forall i j, (i < length gs)%nat -> (j < length gs)%nat ->
        entry (Base.R a) i j =
          if (i =? j)%nat then Fin 0
          else xdiv (Fin (mse d (nth i gs []) + mse d (nth j gs []))) (Fin (cdist d (nth i gs []) (nth j gs [])))
  | kXB => CP a = map (fun g => Fin (scatter d g)) gs /\ WGSS a = Fin (wgss d gs) /\
      SEP a = [Fin (rmin (map (fun p => cdist d (fst p) (snd p)) (pairs gs)))]
  | kGD43 => CP a = map (fun g => Fin (scatter d g)) gs /\ intra a = Fin (2 * rmax (map (mse d) gs)) /\
      inter a = Fin (rmin (map (fun p => sqrt (cdist d (fst p) (snd p))) (pairs gs)))
  | kGD53 => CP a = map (fun g => Fin (scatter d g)) gs /\ intra a = Fin (2 * rmax (map (mse d) gs)) /\
      inter a = Fin (rmin (map (fun p => pooled d (fst p) (snd p)) (pairs gs)))
  | kPS => v_bar a = map Fin (centroid d (map (centroid d) gs)) /\ beta_t a = Fin (PS_beta d gs) /\
      PS_i a = map (fun p => xsub (Fin (INR (length (fst p)) / rmax (map (fun g => INR (length g)) gs)))
                                  (xexp (xdiv (Fin (- rmin (map (cdist d (fst p)) (snd p)))) (Fin (PS_beta d gs)))))
                   (selects gs)
  | krCIP => forall i j, (i < j)%nat -> (j < length gs)%nat ->
      entry (D a) i j = Fin (potential d (nth i gs []) (nth j gs []))
  | kcSIL => sil_coefs a =
      if Req_EM_T (tss d gs) 0 then repeat (Fin 0) (length gs)
      else map (fun p => let s := mdist d (fst p) (fst p) in
                         let b := rmin (map (mdist d (fst p)) (snd p)) in
                         xdiv (Fin (b - s)) (Fin (Rmax s b))) (selects gs)
  end.

