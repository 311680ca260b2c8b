(** * src/cvi/compat/v0.py: the older incremental classes, written again here
    line by line.

    Labels are arbitrary ints (negative ones index from the end, as in Python);
    samples are 1-D float arrays of any length, with broadcasting.  An exception
    leaves the attributes as they were when it was raised.  Counters are ints
    ([nat]); other numbers are of type [F], also where Python has the int 0
    before the first float is stored.  Division never raises: in every division
    below at least one operand is a numpy float, or the divisor is a positive
    int, or it is inf.

    Arrays are values, except in [iSIL], which adds into arrays it was given
    (v0.py:640, :865): there the caller's arrays are numbered and their contents
    are part of the state.  The other classes also keep references to the
    caller's arrays (v0.py:290, :364, :452, :536, :947) but never write to them;
    that the caller could change those arrays afterwards is not modelled. *)
From Coq Require Import String ZArith List Arith Bool.
From Verif Require Import Num NumPy.
Import ListNotations.

(** ** Statements: state and exceptions *)
Definition SM (S X : Type) := S -> S * E X.
Definition sret {S X} (x : X) : SM S X := fun s => (s, Ok x).
Definition sbind {S X Y} (m : SM S X) (k : X -> SM S Y) : SM S Y :=
  fun s => match m s with
           | (s', Ok x) => k x s'
           | (s', Err e) => (s', Err e)
           end.
Definition sget {S} : SM S S := fun s => (s, Ok s).
Definition slift {S X} (e : E X) : SM S X := fun s => (s, e).
Definition smod {S} (f : S -> S) : SM S unit := fun s => (f s, Ok tt).
Fixpoint sfor {S X} (l : list X) (body : X -> SM S unit) : SM S unit :=
  match l with
  | [] => sret tt
  | x :: l' => sbind (body x) (fun _ => sfor l' body)
  end.
Declare Scope compat_scope.
Notation "'do' x <- m ;; k" := (sbind m (fun x => k))
  (at level 200, x pattern, m at level 100, k at level 200, right associativity) : compat_scope.
Notation "m ;; k" := (sbind m (fun _ => k)) (at level 199, right associativity) : compat_scope.
Local Open Scope compat_scope.

(** ** Python lists indexed by ints *)
(** the position meant by index [i] of a list of length [n] *)
Definition py_index (n : nat) (i : Z) : E nat :=
  if ((0 <=? i) && (i <? Z.of_nat n))%Z then Ok (Z.to_nat i)
  else if ((- Z.of_nat n <=? i) && (i <? 0))%Z then Ok (Z.to_nat (i + Z.of_nat n))
  else Err IndexError.
(** l[i] *)
Definition py_get {X} (l : list X) (i : Z) : E X :=
  let* p := py_index (length l) i in get_item l p.
(** l[i] = x *)
Definition py_set {X} (l : list X) (i : Z) (x : X) : E (list X) :=
  let* p := py_index (length l) i in Ok (upd p x l).
(** [j for j in range(n) if j != i] *)
Definition others (n : nat) (i : Z) : list nat :=
  filter (fun j => negb (Z.of_nat j =? i)%Z) (seq 0 n).

Section Compat.
  Context {A : Arith}.
  Notation F := (F A).
  Notation vec := (list F).

  (** builtin min / max of two numbers: the first unless the second is smaller / larger *)
  Definition py_min2 (a b : F) : F := if flt b a then b else a.
  Definition py_max2 (a b : F) : F := if flt a b then b else a.
  (** builtin min / max of a list *)
  Definition py_min (l : vec) : E F :=
    match l with [] => Err ValueError | x :: l' => Ok (fold_left py_min2 l' x) end.
  Definition py_max (l : vec) : E F :=
    match l with [] => Err ValueError | x :: l' => Ok (fold_left py_max2 l' x) end.

  (** np.linalg.norm(x, 2) of a 1-D array: sqrt(x.dot(x)) *)
  Definition norm_2 (x : vec) : F := fsqrt (np_dot x x).
  (** np.linalg.norm(x, 1): np.sum(abs(x)) *)
  Definition norm_1 (x : vec) : F := np_sum (map fabs x).
  Definition norm (q : nat) (x : vec) : F := if q =? 1 then norm_1 x else norm_2 x.
  (** number ** p with p an int *)
  Definition powi (x : F) (p : nat) : F := fpow x (f_of_nat p).

  (** norm22 (v0.py:150-159) *)
  Definition norm22 (x : vec) : F := powi (norm_2 x) 2.

  (** array / int *)
  Definition vdivn (a : vec) (n : nat) : vec := map (fun y => fdiv y (f_of_nat n)) a.

  (** np.pad(m, [(0, 1), (0, 1)], mode='constant', constant_values=c) *)
  Definition pad (c : F) (m : mat A) : mat A :=
    tab2 (S (nrows m)) (S (mcols m))
      (fun i j => if (i <? nrows m) && (j <? mcols m) then entry m i j else c).
  (** m[i, j] and m[i, j] = x with Python ints *)
  Definition mget (m : mat A) (i j : Z) : E F :=
    let* p := py_index (nrows m) i in
    let* q := py_index (mcols m) j in
    Ok (entry m p q).
  Definition mset (m : mat A) (i j : Z) (x : F) : E (mat A) :=
    let* p := py_index (nrows m) i in
    let* q := py_index (mcols m) j in
    Ok (mkMat (mcols m) (upd p (upd q x (nth p (mrows m) [])) (mrows m))).

  (** CP_update (v0.py:162-219), called without n_new and v_new *)
  Definition CP_update (x v_old : vec) (n_old : nat) (g_old : option vec) (cp_old : F) (p q : nat)
    : E (F * vec * vec * nat) :=
    let g_old := match g_old with None => zeros (length x) | Some g => g end in   (* :203-204 *)
    let n_new := n_old + 1 in                                (* :205-206 *)
    let* d := vsub x v_old in
    let* v_new := vadd v_old (vdivn d n_new) in              (* :207-208 *)
    let* delta_v := vsub v_old v_new in                      (* :209 *)
    let* z := vsub x v_new in                                (* :210 *)
    let* g1 := vadd g_old z in
    let* g_new := vadd g1 (scal (f_of_nat n_old) delta_v) in (* :211 *)
    let* dg := inner delta_v g_old in
    let cp_new := fadd (fadd (fadd cp_old (powi (norm q z) p))
                             (fmul (f_of_nat n_old) (powi (norm q delta_v) p)))
                       (powi (fsqrt (fmul f2 dg)) p) in      (* :212-217 *)
    Ok (cp_new, g_new, v_new, n_new).                        (* :219 *)

  (** cluster_center_update (v0.py:222-246) *)
  Definition cluster_center_update (x v_old : vec) (n_old : nat) : E (vec * nat) :=
    let n_new := n_old + 1 in                                (* :244 *)
    let* d := vsub x v_old in
    let* v_new := vadd v_old (vdivn d n_new) in              (* :245 *)
    Ok (v_new, n_new).                                       (* :246 *)

  (** norm22(centers[a] - centers[b]) *)
  Definition center_dist (centers : list vec) (a b : Z) : E F :=
    let* ca := py_get centers a in
    let* cb := py_get centers b in
    let* d := vsub ca cb in
    Ok (norm22 d).

  (** ** class iXB *)
  (** attributes of class iXB (v0.py:254-269) *)
  Record iXB := mkiXB {
    xb_min_v : F;  (* min_v *)
    xb_min_v_i : list F;  (* min_v_i *)
    xb_N : nat;  (* N *)
    xb_WGSS : F;  (* WGSS *)
    xb_WGSS_i : list F;  (* WGSS_i *)
    xb_output : F;  (* output *)
    xb_centers : list vec;  (* cluster_centers *)
    xb_sizes : list nat;  (* cluster_sizes *)
    xb_g : option vec  (* g; None is None *)
  }.
  Definition set_xb_min_v (x : F) (o : iXB) : iXB := mkiXB x (xb_min_v_i o) (xb_N o) (xb_WGSS o) (xb_WGSS_i o) (xb_output o) (xb_centers o) (xb_sizes o) (xb_g o).
  Definition set_xb_min_v_i (x : list F) (o : iXB) : iXB := mkiXB (xb_min_v o) x (xb_N o) (xb_WGSS o) (xb_WGSS_i o) (xb_output o) (xb_centers o) (xb_sizes o) (xb_g o).
  Definition set_xb_N (x : nat) (o : iXB) : iXB := mkiXB (xb_min_v o) (xb_min_v_i o) x (xb_WGSS o) (xb_WGSS_i o) (xb_output o) (xb_centers o) (xb_sizes o) (xb_g o).
  Definition set_xb_WGSS (x : F) (o : iXB) : iXB := mkiXB (xb_min_v o) (xb_min_v_i o) (xb_N o) x (xb_WGSS_i o) (xb_output o) (xb_centers o) (xb_sizes o) (xb_g o).
  Definition set_xb_WGSS_i (x : list F) (o : iXB) : iXB := mkiXB (xb_min_v o) (xb_min_v_i o) (xb_N o) (xb_WGSS o) x (xb_output o) (xb_centers o) (xb_sizes o) (xb_g o).
  Definition set_xb_output (x : F) (o : iXB) : iXB := mkiXB (xb_min_v o) (xb_min_v_i o) (xb_N o) (xb_WGSS o) (xb_WGSS_i o) x (xb_centers o) (xb_sizes o) (xb_g o).
  Definition set_xb_centers (x : list vec) (o : iXB) : iXB := mkiXB (xb_min_v o) (xb_min_v_i o) (xb_N o) (xb_WGSS o) (xb_WGSS_i o) (xb_output o) x (xb_sizes o) (xb_g o).
  Definition set_xb_sizes (x : list nat) (o : iXB) : iXB := mkiXB (xb_min_v o) (xb_min_v_i o) (xb_N o) (xb_WGSS o) (xb_WGSS_i o) (xb_output o) (xb_centers o) x (xb_g o).
  Definition set_xb_g (x : option vec) (o : iXB) : iXB := mkiXB (xb_min_v o) (xb_min_v_i o) (xb_N o) (xb_WGSS o) (xb_WGSS_i o) (xb_output o) (xb_centers o) (xb_sizes o) x.
  (** iXB.__init__ (v0.py:254-269) *)
  Definition iXB_init : iXB := mkiXB finf [] 0 f0 [] f0 [] [] None.
  (** iXB.update, first half (v0.py:288-312) *)
  Definition iXB_place (x : vec) (c_i : Z) : SM iXB unit :=
    smod (fun o => set_xb_N (xb_N o + 1) o) ;;               (* :288 *)
    do o <- sget ;;
    (if (c_i =? Z.of_nat (length (xb_sizes o)))%Z then       (* :289 *)
       smod (set_xb_centers (xb_centers o ++ [x])) ;;        (* :290 *)
       smod (set_xb_sizes (xb_sizes o ++ [1])) ;;            (* :291 *)
       smod (set_xb_WGSS_i (xb_WGSS_i o ++ [f0])) ;;         (* :292 *)
       smod (set_xb_min_v_i (xb_min_v_i o ++ [finf]))        (* :293 *)
     else if (Z.of_nat (length (xb_sizes o)) <? c_i)%Z then
       slift (Err ValueError)                                (* :294-295 *)
     else
       do w <- slift (py_get (xb_WGSS_i o) c_i) ;;
       smod (set_xb_WGSS (fsub (xb_WGSS o) w)) ;;            (* :297 *)
       do v_c <- slift (py_get (xb_centers o) c_i) ;;
       do n_c <- slift (py_get (xb_sizes o) c_i) ;;
       do r <- slift (CP_update x v_c n_c (xb_g o) w 2 2) ;; (* :303-309 *)
       let '(cp, g', v', n') := r in
       do l1 <- slift (py_set (xb_WGSS_i o) c_i cp) ;;
       smod (set_xb_WGSS_i l1) ;;                            (* :299 *)
       smod (set_xb_g (Some g')) ;;                          (* :300 *)
       do l2 <- slift (py_set (xb_centers o) c_i v') ;;
       smod (set_xb_centers l2) ;;                           (* :301 *)
       do l3 <- slift (py_set (xb_sizes o) c_i n') ;;
       smod (set_xb_sizes l3)) ;;                            (* :302 *)
    do o <- sget ;;
    do w <- slift (py_get (xb_WGSS_i o) c_i) ;;
    smod (set_xb_WGSS (fadd (xb_WGSS o) w)).                 (* :312 *)
  (** iXB.update, second half (v0.py:313-324) *)
  Definition iXB_value (c_i : Z) : SM iXB F :=
    do o <- sget ;;
    do l <- slift (py_set (xb_min_v_i o) c_i finf) ;;
    smod (set_xb_min_v_i l) ;;                               (* :313 *)
    sfor (others (length (xb_centers o)) c_i) (fun j =>      (* :314-315 *)
      do o <- sget ;;
      do m <- slift (py_get (xb_min_v_i o) c_i) ;;
      do d <- slift (center_dist (xb_centers o) c_i (Z.of_nat j)) ;;
      do l <- slift (py_set (xb_min_v_i o) c_i (fminimum m d)) ;;
      smod (set_xb_min_v_i l)) ;;                            (* :316-319 *)
    do o <- sget ;;
    do m <- slift (py_get (xb_min_v_i o) c_i) ;;
    smod (set_xb_min_v (py_min2 (xb_min_v o) m)) ;;          (* :321 *)
    do o <- sget ;;
    smod (set_xb_output (fdiv (fdiv (xb_WGSS o) (f_of_nat (xb_N o))) (xb_min_v o))) ;;  (* :323 *)
    do o <- sget ;;
    sret (xb_output o).                                      (* :324 *)
  (** iXB.update (v0.py:271-324) *)
  Definition iXB_update (x : vec) (c_i : Z) : SM iXB F :=
    iXB_place x c_i ;; iXB_value c_i.

  (** ** class iPS *)
  (** attributes of class iPS (v0.py:332-344) *)
  Record iPS := mkiPS {
    ps_mean : option F;  (* mean_cluster_center *)
    ps_max : nat;  (* max_cluster_size *)
    ps_output : F;  (* output *)
    ps_PS_i : list F;  (* PS_i *)
    ps_centers : list vec;  (* cluster_centers *)
    ps_sizes : list nat  (* cluster_sizes *)
  }.
  Definition set_ps_mean (x : option F) (o : iPS) : iPS := mkiPS x (ps_max o) (ps_output o) (ps_PS_i o) (ps_centers o) (ps_sizes o).
  Definition set_ps_max (x : nat) (o : iPS) : iPS := mkiPS (ps_mean o) x (ps_output o) (ps_PS_i o) (ps_centers o) (ps_sizes o).
  Definition set_ps_output (x : F) (o : iPS) : iPS := mkiPS (ps_mean o) (ps_max o) x (ps_PS_i o) (ps_centers o) (ps_sizes o).
  Definition set_ps_PS_i (x : list F) (o : iPS) : iPS := mkiPS (ps_mean o) (ps_max o) (ps_output o) x (ps_centers o) (ps_sizes o).
  Definition set_ps_centers (x : list vec) (o : iPS) : iPS := mkiPS (ps_mean o) (ps_max o) (ps_output o) (ps_PS_i o) x (ps_sizes o).
  Definition set_ps_sizes (x : list nat) (o : iPS) : iPS := mkiPS (ps_mean o) (ps_max o) (ps_output o) (ps_PS_i o) (ps_centers o) x.
  (** iPS.__init__ (v0.py:332-344) *)
  Definition iPS_init : iPS := mkiPS None 0 f0 [] [] [].
  (** np.sum(self.cluster_centers): over all entries of all centers; arrays of
      different lengths do not form an array *)
  Definition sum_centers (centers : list vec) : E F :=
    match centers with
    | [] => Ok (np_sum [])
    | c :: _ => if forallb (fun b => length b =? length c) centers
                then Ok (np_sum (concat centers)) else Err ValueError
    end.
  (** What np.sum does with a generator (v0.py:390-393) depends on the numpy
      version: a deprecated call of the builtin sum, or TypeError in recent
      ones.  The model takes it as a parameter. *)
  Definition gen_sum_old (l : vec) : E F := Ok (py_sum l).
  Definition gen_sum_new (l : vec) : E F := Err TypeError.
  (** iPS.update (v0.py:346-403) *)
  Definition iPS_update (gen_sum : vec -> E F) (x : vec) (c_i : Z) : SM iPS F :=
    do o <- sget ;;
    (if (Z.of_nat (length (ps_centers o)) <=? c_i)%Z then    (* :363 *)
       smod (set_ps_centers (ps_centers o ++ [x])) ;;        (* :364 *)
       smod (set_ps_sizes (ps_sizes o ++ [1])) ;;            (* :365 *)
       smod (set_ps_PS_i (ps_PS_i o ++ [f0]))                (* :366 *)
     else
       do v_c <- slift (py_get (ps_centers o) c_i) ;;
       do n_c <- slift (py_get (ps_sizes o) c_i) ;;
       do r <- slift (cluster_center_update x v_c n_c) ;;    (* :371-375 *)
       let '(v', n') := r in
       do l1 <- slift (py_set (ps_centers o) c_i v') ;;
       smod (set_ps_centers l1) ;;                           (* :369 *)
       do l2 <- slift (py_set (ps_sizes o) c_i n') ;;
       smod (set_ps_sizes l2)) ;;                            (* :370 *)
    do o <- sget ;;
    do n_c <- slift (py_get (ps_sizes o) c_i) ;;
    smod (set_ps_max (Nat.max (ps_max o) n_c)) ;;            (* :376-378 *)
    do o <- sget ;;
    do b_ <- slift (mapE (fun j => center_dist (ps_centers o) c_i (Z.of_nat j))
                      (others (length (ps_centers o)) c_i)) ;;  (* :379-383 *)
    (match b_ with
     | _ :: _ =>                                             (* :384 *)
         do b <- slift (np_min b_) ;;                        (* :385 *)
         do t <- slift (sum_centers (ps_centers o)) ;;
         let mean := fdiv t (f_of_nat (length (ps_centers o))) in
         smod (set_ps_mean (Some mean)) ;;                   (* :386-388 *)
         do s <- slift (gen_sum (map (fun cc => norm22 (map (fun y => fsub y mean) cc)) (ps_centers o))) ;;
         let Bt := fdiv s (f_of_nat (length (ps_centers o))) in   (* :389-394 *)
         do n_c <- slift (py_get (ps_sizes o) c_i) ;;
         do l <- slift (py_set (ps_PS_i o) c_i
                          (fsub (fdiv (f_of_nat n_c) (f_of_nat (ps_max o)))
                                (fexp (fdiv (fneg b) Bt)))) ;;
         smod (set_ps_PS_i l)                                (* :395-398 *)
     | [] =>
         do l <- slift (py_set (ps_PS_i o) c_i f0) ;;
         smod (set_ps_PS_i l) ;;                             (* :400 *)
         do o <- sget ;;
         smod (set_ps_output (np_sum (ps_PS_i o)))           (* :402 *)
     end) ;;
    do o <- sget ;;
    sret (ps_output o).                                      (* :403 *)

  (** ** class iCH *)
  (** attributes of class iCH (v0.py:411-428) *)
  Record iCH := mkiCH {
    ch_clusters : nat;  (* len(clusters): the list is created and never touched *)
    ch_WGSS : F;  (* WGSS *)
    ch_WGSS_i : list F;  (* WGSS_i *)
    ch_BGSS : F;  (* BGSS *)
    ch_BGSS_i : list F;  (* BGSS_i *)
    ch_output : F;  (* output *)
    ch_center : option vec;  (* data_center; None is the initial int 0 *)
    ch_N : nat;  (* N *)
    ch_centers : list vec;  (* cluster_centers *)
    ch_sizes : list nat;  (* cluster_sizes *)
    ch_g : option vec  (* g *)
  }.
  Definition set_ch_clusters (x : nat) (o : iCH) : iCH := mkiCH x (ch_WGSS o) (ch_WGSS_i o) (ch_BGSS o) (ch_BGSS_i o) (ch_output o) (ch_center o) (ch_N o) (ch_centers o) (ch_sizes o) (ch_g o).
  Definition set_ch_WGSS (x : F) (o : iCH) : iCH := mkiCH (ch_clusters o) x (ch_WGSS_i o) (ch_BGSS o) (ch_BGSS_i o) (ch_output o) (ch_center o) (ch_N o) (ch_centers o) (ch_sizes o) (ch_g o).
  Definition set_ch_WGSS_i (x : list F) (o : iCH) : iCH := mkiCH (ch_clusters o) (ch_WGSS o) x (ch_BGSS o) (ch_BGSS_i o) (ch_output o) (ch_center o) (ch_N o) (ch_centers o) (ch_sizes o) (ch_g o).
  Definition set_ch_BGSS (x : F) (o : iCH) : iCH := mkiCH (ch_clusters o) (ch_WGSS o) (ch_WGSS_i o) x (ch_BGSS_i o) (ch_output o) (ch_center o) (ch_N o) (ch_centers o) (ch_sizes o) (ch_g o).
  Definition set_ch_BGSS_i (x : list F) (o : iCH) : iCH := mkiCH (ch_clusters o) (ch_WGSS o) (ch_WGSS_i o) (ch_BGSS o) x (ch_output o) (ch_center o) (ch_N o) (ch_centers o) (ch_sizes o) (ch_g o).
  Definition set_ch_output (x : F) (o : iCH) : iCH := mkiCH (ch_clusters o) (ch_WGSS o) (ch_WGSS_i o) (ch_BGSS o) (ch_BGSS_i o) x (ch_center o) (ch_N o) (ch_centers o) (ch_sizes o) (ch_g o).
  Definition set_ch_center (x : option vec) (o : iCH) : iCH := mkiCH (ch_clusters o) (ch_WGSS o) (ch_WGSS_i o) (ch_BGSS o) (ch_BGSS_i o) (ch_output o) x (ch_N o) (ch_centers o) (ch_sizes o) (ch_g o).
  Definition set_ch_N (x : nat) (o : iCH) : iCH := mkiCH (ch_clusters o) (ch_WGSS o) (ch_WGSS_i o) (ch_BGSS o) (ch_BGSS_i o) (ch_output o) (ch_center o) x (ch_centers o) (ch_sizes o) (ch_g o).
  Definition set_ch_centers (x : list vec) (o : iCH) : iCH := mkiCH (ch_clusters o) (ch_WGSS o) (ch_WGSS_i o) (ch_BGSS o) (ch_BGSS_i o) (ch_output o) (ch_center o) (ch_N o) x (ch_sizes o) (ch_g o).
  Definition set_ch_sizes (x : list nat) (o : iCH) : iCH := mkiCH (ch_clusters o) (ch_WGSS o) (ch_WGSS_i o) (ch_BGSS o) (ch_BGSS_i o) (ch_output o) (ch_center o) (ch_N o) (ch_centers o) x (ch_g o).
  Definition set_ch_g (x : option vec) (o : iCH) : iCH := mkiCH (ch_clusters o) (ch_WGSS o) (ch_WGSS_i o) (ch_BGSS o) (ch_BGSS_i o) (ch_output o) (ch_center o) (ch_N o) (ch_centers o) (ch_sizes o) x.
  (** iCH.__init__ (v0.py:411-428); Clusters() is an empty list *)
  Definition iCH_init : iCH := mkiCH 0 f0 [] f0 [] f0 None 0 [] [] None.
  (** iCH.update, the mean of all samples (v0.py:447-450) *)
  Definition iCH_mean (x : vec) : SM iCH unit :=
    smod (fun o => set_ch_N (ch_N o + 1) o) ;;               (* :447 *)
    do o <- sget ;;
    do t <- slift (match ch_center o with
                   | None => Ok (map (fadd (fmul (f_of_nat (ch_N o - 1)) f0)) x)
                   | Some c => vadd (scal (f_of_nat (ch_N o - 1)) c) x
                   end) ;;
    smod (set_ch_center (Some (vdivn t (ch_N o)))).          (* :448-450 *)
  (** iCH.update, the cluster of the sample (v0.py:451-472) *)
  Definition iCH_place (x : vec) (c_i : Z) : SM iCH unit :=
    do o <- sget ;;
    (if (c_i =? Z.of_nat (ch_clusters o))%Z then             (* :451 *)
       smod (set_ch_centers (ch_centers o ++ [x])) ;;        (* :452 *)
       smod (set_ch_sizes (ch_sizes o ++ [1])) ;;            (* :453 *)
       smod (set_ch_WGSS_i (ch_WGSS_i o ++ [f0])) ;;         (* :454 *)
       smod (set_ch_BGSS_i (ch_BGSS_i o ++ [f0]))            (* :455 *)
     else if (Z.of_nat (length (ch_sizes o)) <? c_i)%Z then
       slift (Err ValueError)                                (* :456-457 *)
     else
       do w <- slift (py_get (ch_WGSS_i o) c_i) ;;
       smod (set_ch_WGSS (fsub (ch_WGSS o) w)) ;;            (* :459 *)
       do v_c <- slift (py_get (ch_centers o) c_i) ;;
       do n_c <- slift (py_get (ch_sizes o) c_i) ;;
       do r <- slift (CP_update x v_c n_c (ch_g o) w 2 2) ;; (* :465-471 *)
       let '(cp, g', v', n') := r in
       do l1 <- slift (py_set (ch_WGSS_i o) c_i cp) ;;
       smod (set_ch_WGSS_i l1) ;;                            (* :461 *)
       smod (set_ch_g (Some g')) ;;                          (* :462 *)
       do l2 <- slift (py_set (ch_centers o) c_i v') ;;
       smod (set_ch_centers l2) ;;                           (* :463 *)
       do l3 <- slift (py_set (ch_sizes o) c_i n') ;;
       smod (set_ch_sizes l3) ;;                             (* :464 *)
       do o <- sget ;;
       do w <- slift (py_get (ch_WGSS_i o) c_i) ;;
       smod (set_ch_WGSS (fadd (ch_WGSS o) w))).             (* :472 *)
  (** iCH.update, the value (v0.py:474-488) *)
  Definition iCH_value (c_i : Z) : SM iCH F :=
    do o <- sget ;;
    do b <- slift (py_get (ch_BGSS_i o) c_i) ;;
    smod (set_ch_BGSS (fsub (ch_BGSS o) b)) ;;               (* :474 *)
    do n_c <- slift (py_get (ch_sizes o) c_i) ;;
    do v_c <- slift (py_get (ch_centers o) c_i) ;;
    do d <- slift (vsub v_c (match ch_center o with Some c => c | None => [] end)) ;;
    do l <- slift (py_set (ch_BGSS_i o) c_i (fmul (f_of_nat n_c) (norm22 d))) ;;
    smod (set_ch_BGSS_i l) ;;                                (* :475-478 *)
    do o <- sget ;;
    do b <- slift (py_get (ch_BGSS_i o) c_i) ;;
    smod (set_ch_BGSS (fadd (ch_BGSS o) b)) ;;               (* :479 *)
    do o <- sget ;;
    let k := length (ch_centers o) in
    smod (set_ch_output
            (if (1 <? k) && (k <? ch_N o) then               (* :481 *)
               fdiv (fdiv (ch_BGSS o) (f_of_nat (k - 1)))
                    (fdiv (ch_WGSS o) (f_of_nat (ch_N o - k)))  (* :482-485 *)
             else f0)) ;;                                    (* :487 *)
    do o <- sget ;;
    sret (ch_output o).                                      (* :488 *)
  (** iCH.update (v0.py:430-488) *)
  Definition iCH_update (x : vec) (c_i : Z) : SM iCH F :=
    iCH_mean x ;; iCH_place x c_i ;; iCH_value c_i.

  (** ** class iGD, of which iGD43 and iGD53 (v0.py:587-602) are the instances t = 43, 53 *)
  (** attributes of class iGD (v0.py:496-516) *)
  Record iGD := mkiGD {
    gd_t : nat;  (* t *)
    gd_d : mat A;  (* d *)
    gd_D : list F;  (* D *)
    gd_output : F;  (* output *)
    gd_centers : list vec;  (* cluster_centers *)
    gd_sizes : list nat;  (* cluster_sizes *)
    gd_g : option vec;  (* g *)
    gd_CP : list F  (* CP *)
  }.
  Definition set_gd_t (x : nat) (o : iGD) : iGD := mkiGD x (gd_d o) (gd_D o) (gd_output o) (gd_centers o) (gd_sizes o) (gd_g o) (gd_CP o).
  Definition set_gd_d (x : mat A) (o : iGD) : iGD := mkiGD (gd_t o) x (gd_D o) (gd_output o) (gd_centers o) (gd_sizes o) (gd_g o) (gd_CP o).
  Definition set_gd_D (x : list F) (o : iGD) : iGD := mkiGD (gd_t o) (gd_d o) x (gd_output o) (gd_centers o) (gd_sizes o) (gd_g o) (gd_CP o).
  Definition set_gd_output (x : F) (o : iGD) : iGD := mkiGD (gd_t o) (gd_d o) (gd_D o) x (gd_centers o) (gd_sizes o) (gd_g o) (gd_CP o).
  Definition set_gd_centers (x : list vec) (o : iGD) : iGD := mkiGD (gd_t o) (gd_d o) (gd_D o) (gd_output o) x (gd_sizes o) (gd_g o) (gd_CP o).
  Definition set_gd_sizes (x : list nat) (o : iGD) : iGD := mkiGD (gd_t o) (gd_d o) (gd_D o) (gd_output o) (gd_centers o) x (gd_g o) (gd_CP o).
  Definition set_gd_g (x : option vec) (o : iGD) : iGD := mkiGD (gd_t o) (gd_d o) (gd_D o) (gd_output o) (gd_centers o) (gd_sizes o) x (gd_CP o).
  Definition set_gd_CP (x : list F) (o : iGD) : iGD := mkiGD (gd_t o) (gd_d o) (gd_D o) (gd_output o) (gd_centers o) (gd_sizes o) (gd_g o) x.
  (** iGD.__init__ (v0.py:496-516) *)
  Definition iGD_init (t : nat) : E iGD :=
    if (t =? 43) || (t =? 53)
    then Ok (mkiGD t (mkMat 0 []) [] f0 [] [] None [])
    else Err AssertionError.                                 (* :506 *)
  (** iGD.update (v0.py:518-584).  [cluster_sizes[c_i]] is an int, which has no
      attribute [len] (:580). *)
  Definition int_len (n : nat) : E F := Err AttributeError.
  Definition iGD_update (x : vec) (c_i : Z) : SM iGD F :=
    do o <- sget ;;
    (if (c_i =? Z.of_nat (length (gd_centers o)))%Z then     (* :535 *)
       smod (set_gd_centers (gd_centers o ++ [x])) ;;        (* :536 *)
       smod (set_gd_sizes (gd_sizes o ++ [1])) ;;            (* :537 *)
       smod (set_gd_CP (gd_CP o ++ [f0])) ;;                 (* :538 *)
       smod (set_gd_d (pad finf (gd_d o))) ;;                (* :539-544 *)
       smod (set_gd_D (gd_D o ++ [fneg finf]))               (* :545 *)
     else if (Z.of_nat (length (gd_sizes o)) <? c_i)%Z then
       slift (Err ValueError)                                (* :546-547 *)
     else
       do v_c <- slift (py_get (gd_centers o) c_i) ;;
       do n_c <- slift (py_get (gd_sizes o) c_i) ;;
       do cp_c <- slift (py_get (gd_CP o) c_i) ;;
       do r <- slift (CP_update x v_c n_c (gd_g o) cp_c 1 2) ;;  (* :554-561 *)
       let '(cp, g', v', n') := r in
       do l1 <- slift (py_set (gd_CP o) c_i cp) ;;
       smod (set_gd_CP l1) ;;                                (* :550 *)
       smod (set_gd_g (Some g')) ;;                          (* :551 *)
       do l2 <- slift (py_set (gd_centers o) c_i v') ;;
       smod (set_gd_centers l2) ;;                           (* :552 *)
       do l3 <- slift (py_set (gd_sizes o) c_i n') ;;
       smod (set_gd_sizes l3) ;;                             (* :553 *)
       do o <- sget ;;
       sfor (others (length (gd_centers o)) c_i) (fun j =>   (* :562-564, :571-572 *)
         do o <- sget ;;
         do y <- slift (if gd_t o =? 43
                        then center_dist (gd_centers o) c_i (Z.of_nat j)   (* :565-568 *)
                        else let* a := py_get (gd_CP o) c_i in
                             let* b := py_get (gd_CP o) (Z.of_nat j) in
                             let* na := py_get (gd_sizes o) c_i in
                             let* nb := py_get (gd_sizes o) (Z.of_nat j) in
                             Ok (fdiv (fadd a b) (f_of_nat (na + nb)))) ;;  (* :573-576 *)
         do d1 <- slift (mset (gd_d o) c_i (Z.of_nat j) y) ;;
         smod (set_gd_d d1) ;;
         do y <- slift (mget d1 c_i (Z.of_nat j)) ;;
         do d2 <- slift (mset d1 (Z.of_nat j) c_i y) ;;      (* :569, :577 *)
         smod (set_gd_d d2)) ;;
       do o <- sget ;;
       do cp_c <- slift (py_get (gd_CP o) c_i) ;;
       do n_c <- slift (py_get (gd_sizes o) c_i) ;;
       do len <- slift (int_len n_c) ;;
       do l4 <- slift (py_set (gd_D o) c_i (fdiv (fmul f2 cp_c) len)) ;;
       smod (set_gd_D l4) ;;                                 (* :578-581 *)
       do o <- sget ;;
       do mn <- slift (np_min (concat (mrows (gd_d o)))) ;;
       do mx <- slift (np_max (gd_D o)) ;;
       smod (set_gd_output (fdiv mn mx))) ;;                 (* :582 *)
    do o <- sget ;;
    sret (gd_output o).                                      (* :584 *)

  (** ** class iSIL *)
  (** attributes of class iSIL (v0.py:610-625) and the arrays of the caller, which
      the object keeps in [g] and writes to *)
  Record iSIL := mkiSIL {
    sl_sc : list F;  (* sc *)
    sl_b : mat A;  (* b *)
    sl_output : F;  (* output *)
    sl_N : nat;  (* N *)
    sl_centers : list vec;  (* cluster_centers *)
    sl_sizes : list nat;  (* cluster_sizes *)
    sl_CP : list F;  (* CP *)
    sl_g : list nat;  (* g: which arrays of the caller it holds *)
    sl_sij : mat A;  (* sij *)
    sl_heap : nat -> vec  (* contents of the caller's arrays, not an attribute *)
  }.
  Definition set_sl_sc (x : list F) (o : iSIL) : iSIL := mkiSIL x (sl_b o) (sl_output o) (sl_N o) (sl_centers o) (sl_sizes o) (sl_CP o) (sl_g o) (sl_sij o) (sl_heap o).
  Definition set_sl_b (x : mat A) (o : iSIL) : iSIL := mkiSIL (sl_sc o) x (sl_output o) (sl_N o) (sl_centers o) (sl_sizes o) (sl_CP o) (sl_g o) (sl_sij o) (sl_heap o).
  Definition set_sl_output (x : F) (o : iSIL) : iSIL := mkiSIL (sl_sc o) (sl_b o) x (sl_N o) (sl_centers o) (sl_sizes o) (sl_CP o) (sl_g o) (sl_sij o) (sl_heap o).
  Definition set_sl_N (x : nat) (o : iSIL) : iSIL := mkiSIL (sl_sc o) (sl_b o) (sl_output o) x (sl_centers o) (sl_sizes o) (sl_CP o) (sl_g o) (sl_sij o) (sl_heap o).
  Definition set_sl_centers (x : list vec) (o : iSIL) : iSIL := mkiSIL (sl_sc o) (sl_b o) (sl_output o) (sl_N o) x (sl_sizes o) (sl_CP o) (sl_g o) (sl_sij o) (sl_heap o).
  Definition set_sl_sizes (x : list nat) (o : iSIL) : iSIL := mkiSIL (sl_sc o) (sl_b o) (sl_output o) (sl_N o) (sl_centers o) x (sl_CP o) (sl_g o) (sl_sij o) (sl_heap o).
  Definition set_sl_CP (x : list F) (o : iSIL) : iSIL := mkiSIL (sl_sc o) (sl_b o) (sl_output o) (sl_N o) (sl_centers o) (sl_sizes o) x (sl_g o) (sl_sij o) (sl_heap o).
  Definition set_sl_g (x : list nat) (o : iSIL) : iSIL := mkiSIL (sl_sc o) (sl_b o) (sl_output o) (sl_N o) (sl_centers o) (sl_sizes o) (sl_CP o) x (sl_sij o) (sl_heap o).
  Definition set_sl_sij (x : mat A) (o : iSIL) : iSIL := mkiSIL (sl_sc o) (sl_b o) (sl_output o) (sl_N o) (sl_centers o) (sl_sizes o) (sl_CP o) (sl_g o) x (sl_heap o).
  Definition set_sl_heap (x : nat -> vec) (o : iSIL) : iSIL := mkiSIL (sl_sc o) (sl_b o) (sl_output o) (sl_N o) (sl_centers o) (sl_sizes o) (sl_CP o) (sl_g o) (sl_sij o) x.
  (** iSIL.__init__ (v0.py:610-625), created when the caller's arrays hold [h] *)
  Definition iSIL_init (h : nat -> vec) : iSIL :=
    mkiSIL [] (mkMat 0 []) f0 0 [] [] [] [] (mkMat 0 []) h.
  (** array [r] now holds [x] *)
  Definition heap_set (h : nat -> vec) (r : nat) (x : vec) : nat -> vec :=
    fun r' => if r' =? r then x else h r'.
  (** a += b for arrays: the result must have the shape of [a] *)
  Definition iadd (a b : vec) : E vec :=
    let* s := vadd a b in
    if length s =? length a then Ok s else Err ValueError.
  (** iSIL.s_ij_new (v0.py:642-724) *)
  Definition s_ij_new (x : vec) (i j : nat) (J : Z) (nj nj_old : nat) (cpj_old : F) (vj vi gj_old : vec)
      (sij_old : F) : E F :=
    let* zi := vsub x vi in                                  (* :690 *)
    let* zj := vsub x vj in                                  (* :691 *)
    if negb (Z.of_nat i =? J)%Z then                         (* :692 *)
      if (Z.of_nat j =? J)%Z then                            (* :693 *)
        let* dt := inner vi gj_old in
        Ok (fmul (fdiv f1 (f_of_nat nj))
              (fsub (fadd (fadd cpj_old (norm22 zi)) (fmul (f_of_nat nj) (norm22 vi)))
                    (fmul f2 dt)))                           (* :694-702 *)
      else Ok sij_old                                        (* :704 *)
    else
      if (Z.of_nat j =? J)%Z then                            (* :706 *)
        let* dt := inner vj gj_old in
        Ok (fmul (fdiv f1 (f_of_nat nj))
              (fsub (fadd (fadd cpj_old (norm22 zj)) (fmul (f_of_nat nj_old) (norm22 vj)))
                    (fmul f2 dt)))                           (* :707-715 *)
      else
        let* dt := inner vi gj_old in
        Ok (fmul (fdiv f1 (f_of_nat nj))
              (fsub (fadd cpj_old (fmul (f_of_nat nj) (norm22 vi)))
                    (fmul f2 dt))).                          (* :717-724 *)
  (** iSIL.s_ij_new_cluster (v0.py:726-792); nothing in the repository calls it *)
  Definition s_ij_new_cluster (x : vec) (i j : nat) (J : Z) (nj_old : nat) (cpj_old : F) (vi_new vi_old gj_old : vec)
      (sij_old : F) : E F :=
    if negb (Z.of_nat i =? J)%Z then                         (* :771 *)
      if (Z.of_nat j =? J)%Z then                            (* :772 *)
        let* dt := inner vi_old x in
        Ok (fsub (fadd (norm22 x) (norm22 vi_old)) (fmul f2 dt))   (* :773-778 *)
      else Ok sij_old                                        (* :780 *)
    else
      if (Z.of_nat j =? J)%Z then Ok f0                      (* :782-783, the int 0 *)
      else if nj_old =? 0 then Err ZeroDivisionError         (* :786, 1 / 0 of ints *)
      else
        let* dt := inner vi_new gj_old in
        Ok (fmul (fdiv f1 (f_of_nat nj_old))
              (fsub (fadd cpj_old (fmul (f_of_nat nj_old) (norm22 vi_new)))
                    (fmul f2 dt))).                          (* :785-792 *)
  (** iSIL.sci (v0.py:794-829) *)
  Definition sci (o : iSIL) (i : nat) (J : Z) : E F :=
    let* row := mapE (fun ij => mget (sl_sij o) (Z.of_nat i) (Z.of_nat ij))
                  (others (length (sl_centers o)) J) in
    let* mn := py_min row in                                 (* :812-816 *)
    let* s := mget (sl_sij o) (Z.of_nat i) J in              (* :817 *)
    let* mx := py_max row in                                 (* :822-826 *)
    Ok (fdiv (fsub mn s) (py_max2 s mx)).                    (* :811-829 *)
  (** iSIL.update (v0.py:831-902) with the array number [r] as sample, in four
      parts. *)
  (** v0.py:848-876: a new cluster, and the center and size of the sample's cluster *)
  Definition iSIL_place (r : nat) (c_i : Z) : SM iSIL unit :=
    do o <- sget ;;
    let x := sl_heap o r in
    (if (c_i =? Z.of_nat (length (sl_sizes o)))%Z then       (* :848 *)
       smod (set_sl_centers (sl_centers o ++ [x])) ;;        (* :849 *)
       smod (set_sl_sizes (sl_sizes o ++ [1])) ;;            (* :850 *)
       smod (set_sl_sc (sl_sc o ++ [f0])) ;;                 (* :851 *)
       smod (set_sl_b (pad finf (sl_b o))) ;;                (* :852-857 *)
       smod (set_sl_sij (pad f0 (pad finf (sl_b o)))) ;;     (* :858-863 *)
       smod (set_sl_CP (sl_CP o ++ [norm22 x])) ;;           (* :864 *)
       smod (set_sl_g (sl_g o ++ [r]))                       (* :865 *)
     else if (Z.of_nat (length (sl_sizes o)) <? c_i)%Z then
       slift (Err ValueError)                                (* :866-867 *)
     else sret tt) ;;
    smod (fun o => set_sl_N (sl_N o + 1) o) ;;               (* :868 *)
    do o <- sget ;;
    do v_c <- slift (py_get (sl_centers o) c_i) ;;
    do n_c <- slift (py_get (sl_sizes o) c_i) ;;
    do q <- slift (cluster_center_update x v_c n_c) ;;       (* :872-876 *)
    let '(v', n') := q in
    do l1 <- slift (py_set (sl_centers o) c_i v') ;;
    smod (set_sl_centers l1) ;;                              (* :870 *)
    do l2 <- slift (py_set (sl_sizes o) c_i n') ;;
    smod (set_sl_sizes l2).                                  (* :871 *)
  (** v0.py:877-893: the table sij.  Nothing has been written to the arrays yet,
      so the sample is what array [r] holds. *)
  Definition iSIL_table (r : nat) (c_i : Z) : SM iSIL unit :=
    do o <- sget ;;
    let k := length (sl_sizes o) in
    sfor (seq 0 k) (fun i =>                                 (* :877 *)
      sfor (seq 0 k) (fun j =>                               (* :878 *)
        do o <- sget ;;
        let x := sl_heap o r in
        do nj <- slift (get_item (sl_sizes o) j) ;;
        do cpj <- slift (get_item (sl_CP o) j) ;;
        do vj <- slift (get_item (sl_centers o) j) ;;
        do vi <- slift (get_item (sl_centers o) i) ;;
        do rj <- slift (get_item (sl_g o) j) ;;
        do old <- slift (mget (sl_sij o) (Z.of_nat i) (Z.of_nat j)) ;;
        do y <- slift (s_ij_new x i j c_i nj (nj - 1) cpj vj vi (sl_heap o rj) old) ;;
        do m <- slift (mset (sl_sij o) (Z.of_nat i) (Z.of_nat j) y) ;;
        smod (set_sl_sij m))).                               (* :879-893 *)
  (** iSIL.cp_update (v0.py:627-640), called at :894 *)
  Definition iSIL_cp_update (r : nat) (c_i : Z) : SM iSIL unit :=
    do o <- sget ;;
    let x := sl_heap o r in
    do cp <- slift (py_get (sl_CP o) c_i) ;;
    do l3 <- slift (py_set (sl_CP o) c_i (fadd cp (norm22 x))) ;;
    smod (set_sl_CP l3) ;;                                   (* :639 *)
    do rg <- slift (py_get (sl_g o) c_i) ;;
    do s <- slift (iadd (sl_heap o rg) x) ;;
    smod (set_sl_heap (heap_set (sl_heap o) rg s)).          (* :640 *)
  (** v0.py:895-902 *)
  Definition iSIL_value (c_i : Z) : SM iSIL F :=
    do o <- sget ;;
    do cs <- slift (mapE (fun i => sci o i c_i) (seq 0 (length (sl_centers o)))) ;;  (* :897-900 *)
    smod (set_sl_output (fmul (fdiv f1 (f_of_nat (length (sl_centers o)))) (py_sum cs))) ;;  (* :895-901 *)
    do o <- sget ;;
    sret (sl_output o).                                      (* :902 *)
  Definition iSIL_update (r : nat) (c_i : Z) : SM iSIL F :=
    iSIL_place r c_i ;; iSIL_table r c_i ;; iSIL_cp_update r c_i ;; iSIL_value c_i.

  (** ** class iDB *)
  (** attributes of class iDB (v0.py:910-926); p = q = 1 (:918-919) are constants *)
  Record iDB := mkiDB {
    db_R : list F;  (* R *)
    db_S : list F;  (* S *)
    db_M : mat A;  (* M *)
    db_output : F;  (* output *)
    db_N : nat;  (* N *)
    db_centers : list vec;  (* cluster_centers *)
    db_sizes : list nat;  (* cluster_sizes *)
    db_g : option vec;  (* g *)
    db_CP : list F  (* CP *)
  }.
  Definition set_db_R (x : list F) (o : iDB) : iDB := mkiDB x (db_S o) (db_M o) (db_output o) (db_N o) (db_centers o) (db_sizes o) (db_g o) (db_CP o).
  Definition set_db_S (x : list F) (o : iDB) : iDB := mkiDB (db_R o) x (db_M o) (db_output o) (db_N o) (db_centers o) (db_sizes o) (db_g o) (db_CP o).
  Definition set_db_M (x : mat A) (o : iDB) : iDB := mkiDB (db_R o) (db_S o) x (db_output o) (db_N o) (db_centers o) (db_sizes o) (db_g o) (db_CP o).
  Definition set_db_output (x : F) (o : iDB) : iDB := mkiDB (db_R o) (db_S o) (db_M o) x (db_N o) (db_centers o) (db_sizes o) (db_g o) (db_CP o).
  Definition set_db_N (x : nat) (o : iDB) : iDB := mkiDB (db_R o) (db_S o) (db_M o) (db_output o) x (db_centers o) (db_sizes o) (db_g o) (db_CP o).
  Definition set_db_centers (x : list vec) (o : iDB) : iDB := mkiDB (db_R o) (db_S o) (db_M o) (db_output o) (db_N o) x (db_sizes o) (db_g o) (db_CP o).
  Definition set_db_sizes (x : list nat) (o : iDB) : iDB := mkiDB (db_R o) (db_S o) (db_M o) (db_output o) (db_N o) (db_centers o) x (db_g o) (db_CP o).
  Definition set_db_g (x : option vec) (o : iDB) : iDB := mkiDB (db_R o) (db_S o) (db_M o) (db_output o) (db_N o) (db_centers o) (db_sizes o) x (db_CP o).
  Definition set_db_CP (x : list F) (o : iDB) : iDB := mkiDB (db_R o) (db_S o) (db_M o) (db_output o) (db_N o) (db_centers o) (db_sizes o) (db_g o) x.
  (** iDB.__init__ (v0.py:910-926) *)
  Definition iDB_init : iDB := mkiDB [] [] (mkMat 0 []) f0 0 [] [] None [].
  (** iDB.update (v0.py:928-1000).  [sizes > 0] always holds of the counters;
      the tests :982 and :990 are kept.  The loop over t (:981-987) leaves its last
      value in M[c_i, j]. *)
  Definition iDB_update (x : vec) (c_i : Z) : SM iDB F :=
    smod (fun o => set_db_N (db_N o + 1) o) ;;               (* :945 *)
    do o <- sget ;;
    (if (c_i =? Z.of_nat (length (db_centers o)))%Z then     (* :946 *)
       smod (set_db_centers (db_centers o ++ [x])) ;;        (* :947 *)
       smod (set_db_sizes (db_sizes o ++ [1])) ;;            (* :948 *)
       smod (set_db_R (db_R o ++ [f0])) ;;                   (* :949 *)
       smod (set_db_S (db_S o ++ [f0])) ;;                   (* :950 *)
       smod (set_db_M (pad f0 (db_M o)))                     (* :951-956 *)
     else if (Z.of_nat (length (db_sizes o)) <? c_i)%Z then
       slift (Err ValueError)                                (* :957-958 *)
     else
       do v_c <- slift (py_get (db_centers o) c_i) ;;
       do n_c <- slift (py_get (db_sizes o) c_i) ;;
       do cp_c <- slift (py_get (db_CP o) c_i) ;;
       do r <- slift (CP_update x v_c n_c (db_g o) cp_c 1 1) ;;  (* :965-973 *)
       let '(cp, g', v', n') := r in
       do l1 <- slift (py_set (db_CP o) c_i cp) ;;
       smod (set_db_CP l1) ;;                                (* :961 *)
       smod (set_db_g (Some g')) ;;                          (* :962 *)
       do l2 <- slift (py_set (db_centers o) c_i v') ;;
       smod (set_db_centers l2) ;;                           (* :963 *)
       do l3 <- slift (py_set (db_sizes o) c_i n') ;;
       smod (set_db_sizes l3) ;;                             (* :964 *)
       do l4 <- slift (py_set (db_S o) c_i (powi (fmul (fdiv f1 (f_of_nat n')) cp) 1)) ;;
       smod (set_db_S l4) ;;                                 (* :974-976 *)
       do l5 <- slift (py_set (db_R o) c_i f0) ;;
       smod (set_db_R l5) ;;                                 (* :977 *)
       sfor (others (length l3) c_i) (fun j =>               (* :978-979 *)
         do o <- sget ;;
         do n_j <- slift (get_item (db_sizes o) j) ;;
         do v_c <- slift (py_get (db_centers o) c_i) ;;
         do v_j <- slift (get_item (db_centers o) j) ;;
         do ts <- slift (mapE (fun t => let* a := get_item v_c t in
                                        let* b := get_item v_j t in
                                        Ok (powi (fabs (fsub a b)) 1)) (seq 0 (length x))) ;;
         let m := powi (if 0 <? n_j then last ts f0 else f0) 1 in  (* :980-988 *)
         do m1 <- slift (mset (db_M o) c_i (Z.of_nat j) m) ;;
         do m2 <- slift (mset m1 (Z.of_nat j) c_i m) ;;
         smod (set_db_M m2) ;;                               (* :989 *)
         if 0 <? n_j then                                    (* :990 *)
           do r_c <- slift (py_get (db_R o) c_i) ;;
           do s_c <- slift (py_get (db_S o) c_i) ;;
           do s_j <- slift (get_item (db_S o) j) ;;
           do l <- slift (py_set (db_R o) c_i (py_max2 r_c (fdiv (fadd s_c s_j) m))) ;;
           smod (set_db_R l)                                 (* :991-994 *)
         else sret tt) ;;
       do o <- sget ;;
       smod (set_db_output
               (fdiv (np_sum (db_R o))
                     (f_of_nat (length (filter (fun c => 0 <? c) (db_sizes o))))))) ;;  (* :996-999 *)
    do o <- sget ;;
    sret (db_output o).                                      (* :1000 *)

  (** ** class Cluster *)
  (** attributes of class Cluster (v0.py:19-38) *)
  Record cluster := mkCluster {
    cl_radial : bool;  (* radial *)
    cl_box : bool;  (* box *)
    cl_len : nat;  (* len *)
    cl_center : option vec;  (* center; None is the initial int 0 *)
    cl_bb : option vec;  (* bounding_box; None is the initial empty list *)
    cl_points : list vec;  (* points *)
    cl_indicies : list Z;  (* indicies *)
    cl_dim : nat  (* dim *)
  }.
  Definition set_cl_radial (x : bool) (o : cluster) : cluster := mkCluster x (cl_box o) (cl_len o) (cl_center o) (cl_bb o) (cl_points o) (cl_indicies o) (cl_dim o).
  Definition set_cl_box (x : bool) (o : cluster) : cluster := mkCluster (cl_radial o) x (cl_len o) (cl_center o) (cl_bb o) (cl_points o) (cl_indicies o) (cl_dim o).
  Definition set_cl_len (x : nat) (o : cluster) : cluster := mkCluster (cl_radial o) (cl_box o) x (cl_center o) (cl_bb o) (cl_points o) (cl_indicies o) (cl_dim o).
  Definition set_cl_center (x : option vec) (o : cluster) : cluster := mkCluster (cl_radial o) (cl_box o) (cl_len o) x (cl_bb o) (cl_points o) (cl_indicies o) (cl_dim o).
  Definition set_cl_bb (x : option vec) (o : cluster) : cluster := mkCluster (cl_radial o) (cl_box o) (cl_len o) (cl_center o) x (cl_points o) (cl_indicies o) (cl_dim o).
  Definition set_cl_points (x : list vec) (o : cluster) : cluster := mkCluster (cl_radial o) (cl_box o) (cl_len o) (cl_center o) (cl_bb o) x (cl_indicies o) (cl_dim o).
  Definition set_cl_indicies (x : list Z) (o : cluster) : cluster := mkCluster (cl_radial o) (cl_box o) (cl_len o) (cl_center o) (cl_bb o) (cl_points o) x (cl_dim o).
  Definition set_cl_dim (x : nat) (o : cluster) : cluster := mkCluster (cl_radial o) (cl_box o) (cl_len o) (cl_center o) (cl_bb o) (cl_points o) (cl_indicies o) x.
  (** Cluster.__init__ (v0.py:19-38) *)
  Definition cluster_init (radial box : bool) : cluster :=
    mkCluster radial box 0 None None [] [] 0.
  (** Cluster.add_point (v0.py:40-70); [fle] is Python's <= on floats *)
  Definition add_point (fle : F -> F -> bool) (x : vec) (i : option Z) : SM cluster unit :=
    do o <- sget ;;
    (match cl_points o with [] => smod (set_cl_dim (length x)) | _ => sret tt end) ;;  (* :52-53 *)
    do o <- sget ;;
    (if cl_dim o =? length x then sret tt else slift (Err AssertionError)) ;;  (* :54 *)
    (if cl_radial o then                                     (* :55 *)
       do t <- slift (match cl_center o with
                      | None => Ok (map (fadd (fmul f0 (f_of_nat (cl_len o)))) x)
                      | Some c => vadd (map (fun y => fmul y (f_of_nat (cl_len o))) c) x
                      end) ;;
       smod (set_cl_center (Some (vdivn t (cl_len o + 1))))  (* :56-57 *)
     else sret tt) ;;
    (if cl_box o then                                        (* :58 *)
       do mx <- slift (np_max x) ;;
       (if fle mx f1 then sret tt else slift (Err AssertionError)) ;;  (* :59 *)
       do mn <- slift (np_min x) ;;
       (if fle f0 mn then sret tt else slift (Err AssertionError)) ;;  (* :60 *)
       let cc_x := x ++ map (fsub f1) x in                   (* :61 *)
       match cl_bb o with
       | None => smod (set_cl_bb (Some cc_x))                (* :65 *)
       | Some bb =>
           (* [if self.bounding_box:] (:62) on an array: its truth value exists
              only if it has at most one element; [bb] has an even number *)
           match bb with
           | [] => smod (set_cl_bb (Some cc_x))              (* :65 *)
           | [b] => if ftrue b then do m <- slift (bc fminimum bb cc_x) ;; smod (set_cl_bb (Some m))  (* :63 *)
                    else smod (set_cl_bb (Some cc_x))
           | _ => slift (Err ValueError)
           end
       end
     else sret tt) ;;
    smod (fun o => set_cl_points (cl_points o ++ [x]) o) ;;  (* :67 *)
    (match i with
     | Some i => smod (fun o => set_cl_indicies (cl_indicies o ++ [i]) o)   (* :68-69 *)
     | None => sret tt
     end) ;;
    smod (fun o => set_cl_len (cl_len o + 1) o).             (* :70 *)
  (** Cluster.min_distance (v0.py:72-88), norm_ord 2 *)
  Definition min_distance (o : cluster) (x : vec) : E F :=
    let* ds := mapE (fun y => let* d := vsub x y in Ok (norm_2 d)) (cl_points o) in
    Ok (fold_left fminimum ds finf).
  (** Cluster.avg_distance (v0.py:90-106); for no points 0 / 0 of ints *)
  Definition avg_distance (o : cluster) (x : vec) : E F :=
    let* ds := mapE (fun y => let* d := vsub x y in Ok (norm_2 d)) (cl_points o) in
    if (cl_len o =? 0) then Err ZeroDivisionError
    else Ok (fdiv (py_sum ds) (f_of_nat (cl_len o))).
  (** Cluster.center_distance (v0.py:108-120) *)
  Definition center_distance (o : cluster) (x : vec) : E F :=
    let* d := match cl_center o with
              | None => Ok (map (fsub f0) x)
              | Some c => vsub c x
              end in
    Ok (norm_2 d).
  (** Cluster.within_bounding_box (v0.py:122-136); np.array_equal compares the
      shapes and then the entries with ==, written with [fle] *)
  Definition within_bounding_box (fle : F -> F -> bool) (o : cluster) (x : vec) : E bool :=
    let bb := match cl_bb o with None => [] | Some bb => bb end in
    let* m := bc fminimum x bb in
    Ok ((length m =? length bb) && forallb (fun q => fle (fst q) (snd q) && fle (snd q) (fst q)) (combine m bb)).

  (** ** class Clusters *)
  (** what the list can hold: the class [Cluster] itself (v0.py:146) or an object of it *)
  Inductive member := TheClass | Obj (c : cluster).
  (** Clusters.from_list (v0.py:143-147) on the zipped labels; the samples are
      not used.  [Cluster.add_point(c, c)] on the class binds self = c, an int,
      which has no attribute [points] (:52); [obj.add_point(c, c)] calls len(c)
      of an int (:53, :54). *)
  Definition from_list (C : list Z) : SM (list member) unit :=
    sfor C (fun c =>
      do l <- sget ;;
      (if (Z.of_nat (length l) <=? c)%Z then smod (fun l => l ++ [TheClass]) else sret tt) ;;  (* :145-146 *)
      do l <- sget ;;
      do m <- slift (py_get l c) ;;
      slift (match m with
             | TheClass => Err AttributeError
             | Obj _ => Err TypeError
             end)).                                          (* :147 *)

  (** ** the factory *)
  Inductive cobj :=
  | O_iDB (o : iDB) | O_iSIL (o : iSIL) | O_iGD43 (o : iGD) | O_iGD53 (o : iGD)
  | O_iCH (o : iCH) | O_iPS (o : iPS) | O_iXB (o : iXB).
  (** iCVI (v0.py:1003-1022); [h] are the contents of the caller's arrays *)
  Definition iCVI (h : nat -> vec) (name : string) : E cobj :=
    if String.eqb name "iDB"%string then Ok (O_iDB iDB_init)        (* :1007-1008 *)
    else if String.eqb name "iSIL"%string then Ok (O_iSIL (iSIL_init h))
    else if String.eqb name "iGD43"%string then let* o := iGD_init 43 in Ok (O_iGD43 o)
    else if String.eqb name "iGD53"%string then let* o := iGD_init 53 in Ok (O_iGD53 o)
    else if String.eqb name "iCH"%string then Ok (O_iCH iCH_init)
    else if String.eqb name "iPS"%string then Ok (O_iPS iPS_init)
    else if String.eqb name "iXB"%string then Ok (O_iXB iXB_init)   (* :1019-1020 *)
    else Err ValueError.                                     (* :1021-1022 *)
End Compat.

(** ** Histories: a sequence of calls on one object; exceptions may be caught *)
Fixpoint chist {S I X} (step : I -> SM S X) (s : S) (h : list I) : S * list (E X) :=
  match h with
  | [] => (s, [])
  | i :: h' => let '(s1, r) := step i s in
               let '(s2, rs) := chist step s1 h' in
               (s2, r :: rs)
  end.
Definition chist_after {S I X} (step : I -> SM S X) s h := fst (chist step s h).
Definition chist_results {S I X} (step : I -> SM S X) s h := snd (chist step s h).
