(** * References: which arrays are shared with the caller, which are written in place.

    The rest of the model treats arrays as values.  This file adds the part of
    the reference semantics that values cannot show.

    Part 1 lists, for every class, the statements that bind an array attribute
    or write through one, and runs them on locations.  Part 2 gives the model of
    [GetCvi] a memory of caller-owned sample buffers, with [_mu] referring to the
    first buffer as the code makes it. *)
From Coq Require Import ZArith List Arith Bool Lia.
From Verif Require Import Num NumPy Base M_CH M_D M_PS GetCvi Lists Step Step2 StepB Hoare Eval Stream Shapes Generic.
Import ListNotations.

(** ** Part 1: statements on array attributes *)

(** attributes holding a mutable object (array or list); a_S is [_S] of DB and
    cSIL, a_CP, a_n the lists or arrays of the same names *)
Inductive aname := a_n | a_v | a_CP | a_G | a_mu | a_SEP | a_D | a_R | a_S | a_sigma | a_delta | a_vbar | a_PSi | a_coefs.

(** [Fresh a]: [self.a = <expression that allocates>] (np.zeros, np.vstack, np.dstack,
    np.mean, np.array, arithmetic on arrays, list display);
    [Share a]: [self.a = sample];
    [InPlace a]: [self.a[...] = ...] or [self.a.append(...)].
    Every array read in between is read only; local arrays (D_new, v_new, subset,
    ...) are either freshly allocated or, for v_new and cSIL's G_new, [sample]
    itself, which is only read (np.vstack copies). *)
Inductive stmt := Fresh (a : aname) | Share (a : aname) | InPlace (a : aname).

(** CVI.__init__ (_base.py:61-70) and the __init__ of the class; scalars left out *)
Definition st_init (c : kind) : list stmt :=
  [Fresh a_n; Fresh a_v; Fresh a_CP; Fresh a_G] ++
  match c with
  | kCH | kWB => [Fresh a_mu; Fresh a_SEP]                   (* CH.py:41-42, WB.py:43-44 *)
  | kDB => [Fresh a_mu; Fresh a_R; Fresh a_D; Fresh a_S]     (* DB.py:39-42 *)
  | kXB => [Fresh a_mu; Fresh a_SEP; Fresh a_D]              (* XB.py:39-41 *)
  | kGD43 | kGD53 => [Fresh a_mu; Fresh a_D]                 (* GD43.py:43-44, GD53.py:43-44 *)
  | kPS => [Fresh a_D; Fresh a_vbar; Fresh a_PSi]            (* PS.py:37-40 *)
  | krCIP => [Fresh a_D; Fresh a_sigma; Fresh a_delta]       (* rCIP.py:39-41 *)
  | kcSIL => [Fresh a_S; Fresh a_coefs]                      (* cSIL.py:39-40 *)
  end.
(** _setup: _base.py:86-87 and the class (CH.py:56-57, WB.py:58-59, DB.py:54,
    XB.py:54-55, GD43.py:58, GD53.py:58, rCIP.py:56-59); [del] in PS.py:53-54
    removes names only *)
Definition st_setup (c : kind) : list stmt :=
  [Fresh a_v; Fresh a_G] ++
  match c with
  | kCH | kWB | kXB => [Fresh a_SEP; Share a_mu]
  | kDB | kGD43 | kGD53 => [Share a_mu]
  | krCIP => [Fresh a_sigma; Fresh a_delta]
  | kPS | kcSIL => []
  end.
Definition shares_mu (c : kind) : bool :=
  match c with kPS | krCIP | kcSIL => false | _ => true end.
(** _param_inc for a new label: CH.py:90-95, WB.py:92-97, DB.py:100-107, XB.py:101-107,
    GD43.py:103-109, GD53.py:103-109, PS.py:92-96, rCIP.py:106-113, cSIL.py:105-111 *)
Definition st_new (c : kind) : list stmt :=
  match c with
  | kCH | kWB => [InPlace a_n; InPlace a_CP; Fresh a_v; Fresh a_G]
  | kDB => [InPlace a_n; InPlace a_CP; InPlace a_S; Fresh a_v; Fresh a_G; Fresh a_D]
  | kXB | kGD43 | kGD53 => [InPlace a_n; InPlace a_CP; Fresh a_v; Fresh a_G; Fresh a_D]
  | kPS => [InPlace a_n; Fresh a_v; Fresh a_D]
  | krCIP => [InPlace a_n; Fresh a_v; Fresh a_D; Fresh a_sigma]
  | kcSIL => [InPlace a_n; InPlace a_CP; Fresh a_v; Fresh a_G; Fresh a_S]
  end.
(** _param_inc for a known label: CH.py:118-121, WB.py:120-123, DB.py:140-147, XB.py:139-144,
    GD43.py:141-146, GD53.py:141-146, PS.py:115-118, rCIP.py:145-149, cSIL.py:166-174 *)
Definition st_old (c : kind) : list stmt :=
  match c with
  | kCH | kWB => [InPlace a_n; InPlace a_v; InPlace a_CP; InPlace a_G]
  | kDB => [InPlace a_n; InPlace a_v; InPlace a_CP; InPlace a_G; InPlace a_S; InPlace a_D; InPlace a_D]
  | kXB | kGD43 | kGD53 => [InPlace a_n; InPlace a_v; InPlace a_CP; InPlace a_G; InPlace a_D; InPlace a_D]
  | kPS => [InPlace a_n; InPlace a_v; InPlace a_D; InPlace a_D]
  | krCIP => [InPlace a_n; InPlace a_v; InPlace a_sigma; InPlace a_D; InPlace a_D]
  | kcSIL => [InPlace a_n; InPlace a_v; InPlace a_CP; InPlace a_G; InPlace a_S; InPlace a_S]
  end.
(** _param_inc: [first] is [self._n_samples == 0] (CH.py:72-78 and the like), [new] label novelty *)
Definition st_inc (c : kind) (first new : bool) : list stmt :=
  (if first then st_setup c else if shares_mu c then [Fresh a_mu] else []) ++
  (if new then st_new c else st_old c) ++
  match c with kCH | kWB => [Fresh a_SEP] | _ => [] end.     (* CH.py:126-129, WB.py:128-131 *)
Fixpoint times {X} (k : nat) (l : list X) : list X := match k with 0 => [] | S k' => l ++ times k' l end.
(** _param_batch with [k] clusters and [m] pairs of clusters (rCIP: a batch with [k] clusters) *)
Definition st_batch (c : kind) (k m : nat) : list stmt :=
  match c with
  | kCH | kWB => [Fresh a_mu; Fresh a_n; Fresh a_v; Fresh a_CP; Fresh a_SEP] ++          (* CH.py:141-147, WB.py:143-149 *)
                 times k [InPlace a_n; InPlace a_v; InPlace a_CP; InPlace a_SEP]          (* CH.py:154-158, WB.py:156-160 *)
  | kDB => [Fresh a_mu; Fresh a_n; Fresh a_v; Fresh a_CP; Fresh a_G; Fresh a_D; Fresh a_S] ++  (* DB.py:162-173 *)
           times k [InPlace a_n; InPlace a_v; InPlace a_CP; InPlace a_S] ++               (* DB.py:181-185 *)
           times m [InPlace a_D] ++ [Fresh a_D]                                           (* DB.py:189-193 *)
  | kXB => [Fresh a_mu; Fresh a_n; Fresh a_v; Fresh a_CP; Fresh a_D] ++                   (* XB.py:159-165 *)
           times k [InPlace a_n; InPlace a_v; InPlace a_CP] ++ times m [InPlace a_D]      (* XB.py:172-181 *)
  | kGD43 | kGD53 => [Fresh a_mu; Fresh a_n; Fresh a_v; Fresh a_CP; Fresh a_G; Fresh a_D] ++  (* GD43.py:161-168, GD53.py:161-168 *)
           times k [InPlace a_n; InPlace a_v; InPlace a_CP] ++ times m [InPlace a_D] ++ [Fresh a_D]  (* GD43.py:175-186, GD53.py:176-187 *)
  | kPS => [Fresh a_mu; Fresh a_n; Fresh a_v; Fresh a_D] ++                               (* PS.py:133-138 *)
           times k [InPlace a_n; InPlace a_v] ++ times m [InPlace a_D] ++ [Fresh a_D]     (* PS.py:145-155 *)
  | krCIP => [Fresh a_delta; Fresh a_n; Fresh a_v; Fresh a_sigma; Fresh a_D] ++           (* rCIP.py:165-174 *)
           times k [InPlace a_n; InPlace a_v; InPlace a_sigma] ++ times m [InPlace a_D] ++ [Fresh a_D]  (* rCIP.py:181-205 *)
  | kcSIL => [Fresh a_n; Fresh a_v; Fresh a_CP; Fresh a_S] ++                             (* cSIL.py:191-194 *)
           times k [InPlace a_n; InPlace a_v; InPlace a_CP] ++ times m [InPlace a_S]      (* cSIL.py:201-215 *)
  end.
(** _evaluate with [k] clusters and [m] pairs: DB.py:202-208, PS.py:164-178, cSIL.py:223-232;
    the other classes assign scalars only *)
Definition st_eval (c : kind) (k m : nat) : list stmt :=
  match c with
  | kDB => Fresh a_R :: times m [InPlace a_R] ++ [Fresh a_R]
  | kPS => [Fresh a_vbar; Fresh a_PSi] ++ times k [InPlace a_PSi]
  | kcSIL => Fresh a_coefs :: times k [InPlace a_coefs]
  | _ => []
  end.

(** the statements a call of get_cvi can execute, in order, if nothing raises *)
Inductive path (c : kind) : list stmt -> Prop :=
| path_inc first new k m : path c (st_inc c first new ++ st_eval c k m)
| path_batch k m : path c (st_batch c k m ++ st_eval c k m).

(** locations: the caller's arrays and those allocated by the package *)
Inductive loc := Caller (b : nat) | Own (i : nat).
(** several objects, numbered; [binds i a] is the location of attribute [a] of object [i], if any;
    [next] is the next unused location; [writes] lists (object, location) of the in-place writes, latest first *)
Record refs := mkRefs { binds : nat -> aname -> option loc; next : nat; writes : list (nat * loc) }.
Definition aname_eq (a b : aname) : {a = b} + {a <> b}.
Proof. decide equality. Defined.
Definition rebind (f : nat -> aname -> option loc) (i : nat) (a : aname) (l : loc) : nat -> aname -> option loc :=
  fun j b => if Nat.eq_dec j i then if aname_eq b a then Some l else f j b else f j b.
Definition exec1 (i : nat) (sample : loc) (r : refs) (s : stmt) : refs :=
  match s with
  | Fresh a => mkRefs (rebind (binds r) i a (Own (next r))) (S (next r)) (writes r)
  | Share a => mkRefs (rebind (binds r) i a sample) (next r) (writes r)
  | InPlace a => match binds r i a with
                 | Some l => mkRefs (binds r) (next r) ((i, l) :: writes r)
                 | None => r                                 (* AttributeError, nothing is written *)
                 end
  end.
Definition exec (i : nat) (sample : loc) (r : refs) (l : list stmt) : refs := fold_left (exec1 i sample) l r.
Definition no_refs : refs := mkRefs (fun _ _ => None) 0 [].

(** a program: objects are created and called in any order; a call with the array
    [b] of the caller executes the first [j] statements of one of its paths
    (fewer than all of them if it raises) *)
Inductive action := Create (i : nat) (c : kind) | CallOn (i : nat) (b : nat) (j : nat) (p : list stmt).
Definition act (r : refs) (x : action) : refs :=
  match x with
  | Create i c => exec i (Caller 0) r (st_init c)
  | CallOn i b j p => exec i (Caller b) r (firstn j p)
  end.
Definition acts (xs : list action) : refs := fold_left act xs no_refs.
(** every call follows a path of the class the object was created with: given as [cls i] *)
Definition legal (cls : nat -> kind) (x : action) : Prop :=
  match x with Create i c => c = cls i | CallOn i _ _ p => path (cls i) p end.

(** ** Part 2: objects whose [_mu] refers to a buffer of the caller *)
Section Heap.
  Context {A : Arith}.

  (** the caller's sample buffers *)
  Definition memory := nat -> vec A.
  (** an object; [hmu] is the buffer [_mu] refers to, if it is one of the caller's;
      the value of [_mu] in [ho] is then not used *)
  Record hobj := mkH { ho : obj A; hmu : option nat }.
  Definition fresh_h : hobj := mkH new_obj None.
  (** the object as it sees itself *)
  Definition seen (m : memory) (h : hobj) : obj A :=
    match hmu h with
    | Some b => mkObj (label_map (ho h)) (set_mu (m b) (at_ (ho h)))
    | None => ho h
    end.
  (** what [_mu] refers to after [_param_inc] on the buffer [b]: [self._mu = sample] in
      [_setup] (CH.py:57, WB.py:59, DB.py:54, XB.py:55, GD43.py:58, GD53.py:58), a new array
      otherwise (CH.py:75-78 and the like), unchanged if computing that array raises *)
  Definition mu_after (c : kind) (a : attrs A) (x : vec A) (b : nat) (old : option nat) : option nat :=
    if shares_mu c then
      if n_samples a =? 0 then Some b
      else match srunning_mean (n_samples a + 1) (mu a) x with Ok _ => None | Err _ => old end
    else old.

  (** what the program does: the caller overwrites one of its buffers in place
      ([buf[:] = x]; with another length numpy refuses and the buffer stays), or
      calls get_cvi: with a buffer and one label, with a buffer and an array of
      labels, with a 2-D array, with an array of any other ndim.  2-D arrays are
      only read and copied (Part 1), so they are passed as values. *)
  Inductive event :=
  | Write (b : nat) (x : vec A)
  | Sample (b : nat) (l : Z)
  | ManyLabels (b : nat) (ls : list Z)
  | Batch (x : mat A) (l : label_arg)
  | OtherDim (k : nat) (l : label_arg).
  Definition write (m : memory) (b : nat) (x : vec A) : memory :=
    fun j => if Nat.eq_dec j b then if length x =? length (m b) then x else m b else m j.
  (** the call made by an event *)
  Definition call_of (m : memory) (e : event) : option (call A) :=
    match e with
    | Write _ _ => None
    | Sample b l => Some (Vec (m b), Lab l)
    | ManyLabels b ls => Some (Vec (m b), Labs ls)
    | Batch x l => Some (Mat x, l)
    | OtherDim k l => Some (Nd k, l)
    end.
  (** the caller's memory after an event: get_cvi does not write to it (Part 1) *)
  Definition mem_after (m : memory) (e : event) : memory :=
    match e with Write b x => write m b x | _ => m end.
  Definition ref_after (c : kind) (m : memory) (h : hobj) (e : event) : option nat :=
    match e with
    | Sample b _ => mu_after c (at_ (seen m h)) (m b) b (hmu h)
    | Batch _ _ => if is_setup (at_ (seen m h)) then hmu h else None  (* refused, or a new array: CH.py:141 and the like *)
    | _ => hmu h
    end.
  Definition step1 (c : kind) (m : memory) (h : hobj) (e : event) : hobj * list (E (F A)) :=
    match call_of m e with
    | None => (h, [])
    | Some (data, l) => let '(o', r) := get_cvi c (seen m h) data l in (mkH o' (ref_after c m h e), [r])
    end.
  Fixpoint play (c : kind) (m : memory) (h : hobj) (es : list event) : list (E (F A)) :=
    match es with
    | [] => []
    | e :: es' => snd (step1 c m h e) ++ play c (mem_after m e) (fst (step1 c m h e)) es'
    end.
  (** the calls of the program with the contents the buffers had when they were made *)
  Fixpoint calls_made (m : memory) (es : list event) : list (call A) :=
    match es with
    | [] => []
    | e :: es' => match call_of m e with Some k => [k] | None => [] end ++ calls_made (mem_after m e) es'
    end.

  (** several objects: event [(i, e)] is [e] done to object [i]; the memory is shared *)
  Definition objects := nat -> hobj.
  Definition put (hs : objects) (i : nat) (h : hobj) : objects := fun j => if Nat.eq_dec j i then h else hs j.
  Fixpoint play_many (cls : nat -> kind) (m : memory) (hs : objects) (es : list (nat * event)) : list (nat * E (F A)) :=
    match es with
    | [] => []
    | (i, e) :: es' =>
        map (pair i) (snd (step1 (cls i) m (hs i) e)) ++
        play_many cls (mem_after m e) (put hs i (fst (step1 (cls i) m (hs i) e))) es'
    end.

End Heap.
Arguments event : clear implicits.
Arguments memory : clear implicits.
Arguments hobj : clear implicits.
Arguments objects : clear implicits.
