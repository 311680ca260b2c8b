(** * C40, C43: arrays of the caller, several objects *)
From Coq Require Import ZArith List Arith Bool Lia SpecFloat.
From Verif Require Import Num NumPy Base M_CH M_D M_PS GetCvi Lists Step Step2 StepB Hoare Eval Stream Shapes Generic Alias AliasL F64.
Import ListNotations.

(** ** Vocabulary *)

(** a program on one new object, run with references ([play]), answers as if every
    call had been given a private copy of its argument *)
Definition as_if_copied {A : Arith} (c : kind) (m : memory A) (es : list (event A)) : Prop :=
  play c m fresh_h es = results c new_obj (calls_made m es).
Definition only_writes {A : Arith} (es : list (event A)) : Prop := forall e, In e es -> exists b x, e = Write b x.
Definition never_writes_to {A : Arith} (b : nat) (es : list (event A)) : Prop := forall x, ~ In (Write b x) es.

(** ** C40, first half: get_cvi writes to no array of the caller *)

(** Any number of objects of any classes, created and called in any order with any
    arrays of the caller, each call stopping anywhere: no in-place write reaches an
    array of the caller. *)
Theorem C40_caller_arrays_never_written (cls : nat -> kind) (xs : list action) (i : nat) (l : loc) :
  Forall (legal cls) xs -> In (i, l) (writes (acts xs)) -> forall b, l <> Caller b.
Proof. intros H Hi b ->. destruct (sep_writes _ (acts_sep cls xs H) _ _ Hi). discriminate. Qed.
Print Assumptions C40_caller_arrays_never_written.

(** two CH objects and a DB object given the same two arrays *)
Definition ex_cls (i : nat) : kind := if i =? 2 then kDB else kCH.
Definition ex_actions : list action :=
  [Create 0 kCH; Create 1 kCH; Create 2 kDB;
   CallOn 0 7 100 (st_inc kCH true true ++ st_eval kCH 1 0);
   CallOn 1 7 100 (st_inc kCH true true ++ st_eval kCH 1 0);
   CallOn 2 7 100 (st_inc kDB true true ++ st_eval kDB 1 0);
   CallOn 0 8 100 (st_inc kCH false false ++ st_eval kCH 1 0);
   CallOn 2 8 3 (st_inc kDB false true ++ st_eval kDB 2 1)].
Example C40_actions : Forall (legal ex_cls) ex_actions /\ length (writes (acts ex_actions)) = 13 /\
  binds (acts ex_actions) 1 a_mu = Some (Caller 7) /\ (exists n, binds (acts ex_actions) 0 a_mu = Some (Own n)).
Proof.
  split; [|split; [vm_compute; reflexivity|split; [vm_compute; reflexivity|eexists; vm_compute; reflexivity]]].
  unfold ex_actions. repeat (apply Forall_cons || apply Forall_nil); cbn [legal]; try reflexivity; apply path_inc.
Qed.

(** ** C40, second half: later writes of the caller *)

(** Seven classes: whatever the caller writes to its arrays, and whenever, changes no answer. *)
Theorem C40_later_writes_not_seen (A : Arith) (c : kind) (m : memory A) (es : list (event A)) :
  c <> kCH -> c <> kWB -> as_if_copied c m es.
Proof.
  intros H1 H2. unfold as_if_copied. destruct c; try contradiction; try (now apply play_unshared);
    (apply play_ignored; [unfold ignores_mu; tauto|split; [reflexivity|apply upto_refl]]).
Qed.
Print Assumptions C40_later_writes_not_seen.

(** one buffer reused for every sample *)
Definition reuse {A : Arith} (s : list (vec A * Z)) : list (event A) :=
  flat_map (fun p => [Write 0 (fst p); Sample 0 (snd p)]) s.
Definition ex_data (L : Libm) := fs L [([1; 2], 0); ([5; 1], 1); ([2; 2], 0); ([7; 3], 1)]%Z.
Definition zeros2 (L : Libm) : memory (F64 L) := fun _ => fv L [0; 0]%Z.
Example C40_reuse_calls (L : Libm) : calls_made (zeros2 L) (reuse (ex_data L)) = stream (ex_data L).
Proof. reflexivity. Qed.
(** for DB the reference is there and the answers are the right ones, and not trivial *)
Example C40_reuse_DB (L : Libm) :
  hmu (snd (play_state kDB (zeros2 L) fresh_h (firstn 2 (reuse (ex_data L))))) = Some 0 /\
  map (fun r => match r with Ok x => SFeqb x (d_of_Z 0) | Err _ => true end) (play kDB (zeros2 L) fresh_h (reuse (ex_data L))) = [true; true; false; false].
Proof. split; vm_compute; reflexivity. Qed.

(** The property as stated is false of CH and WB: after the first call [_mu] is the
    caller's array, so refilling the buffer changes the mean the second call computes. *)
Theorem C40_refuted (L : Libm) (c : kind) : c = kCH \/ c = kWB ->
  ~ (forall (m : memory (F64 L)) (es : list (event (F64 L))), as_if_copied c m es).
Proof.
  intros Hc H. specialize (H (zeros2 L) (reuse (ex_data L))). unfold as_if_copied in H.
  destruct Hc as [-> | ->]; vm_compute in H; discriminate H.
Qed.
Print Assumptions C40_refuted.

(** For every class it is enough that the array of the first call is left alone ... *)
Lemma only_writes_F {A : Arith} (es : list (event A)) : only_writes es -> Forall is_write es.
Proof. intros H. apply Forall_forall. intros e He. destruct (H e He) as (b & x & ->). exact I. Qed.
Lemma never_writes_F {A : Arith} b (es : list (event A)) : never_writes_to b es -> Forall (spares b) es.
Proof. intros H. apply Forall_forall. intros e He. destruct e; cbn; auto. intros ->. exact (H _ He). Qed.
Theorem C40_first_array_left_alone (A : Arith) (c : kind) (m : memory A) (before after : list (event A)) (b : nat) (l : Z) :
  only_writes before -> never_writes_to b after -> as_if_copied c m (before ++ Sample b l :: after).
Proof. intros H1 H2. apply play_first_spared; [now apply only_writes_F|now apply never_writes_F]. Qed.
Print Assumptions C40_first_array_left_alone.

(** ... until the next one-sample call that returns a value: from then on it may be written too. *)
Theorem C40_until_a_call_returns (A : Arith) (c : kind) (m : memory A) (before between after : list (event A))
  (b b' : nat) (l l' : Z) (rs : list (E (F A))) (r : F A) :
  only_writes before -> never_writes_to b between ->
  results c new_obj (calls_made m (before ++ Sample b l :: between ++ [Sample b' l'])) = rs ++ [Ok r] ->
  as_if_copied c m (before ++ Sample b l :: between ++ Sample b' l' :: after).
Proof. intros H1 H2 H3. eapply play_first_spared_until; eauto using only_writes_F, never_writes_F. Qed.
Print Assumptions C40_until_a_call_returns.

(** two buffers used in turn *)
Definition in_turn {A : Arith} (x y z : vec A) : list (event A) :=
  [Write 0 x; Sample 0 0%Z; Write 1 y; Sample 1 1%Z; Write 0 z; Sample 0 0%Z; Write 1 x; Sample 1 1%Z].
Example C40_two_buffers (L : Libm) :
  as_if_copied kCH (zeros2 L) (in_turn (fv L [1; 2]%Z) (fv L [5; 1]%Z) (fv L [2; 2]%Z)) /\
  map (fun r => match r with Ok x => SFeqb x (d_of_Z 0) | Err _ => true end)
    (play kCH (zeros2 L) fresh_h (in_turn (fv L [1; 2]%Z) (fv L [5; 1]%Z) (fv L [2; 2]%Z))) = [true; false; false; false].
Proof.
  split; [|vm_compute; reflexivity].
  apply (C40_until_a_call_returns (F64 L) kCH (zeros2 L) [Write 0 (fv L [1; 2]%Z)] [Write 1 (fv L [5; 1]%Z)] _ 0 1 0%Z 1%Z
           [Ok (d_of_Z 0)] S754_nan).
  - intros e [<-|[]]. eauto.
  - intros x [H|[]]. discriminate H.
  - vm_compute. reflexivity.
Qed.

(** A program whose first call is a batch that returns is safe without condition. *)
Theorem C40_after_a_batch (A : Arith) (c : kind) (m : memory A) (before after : list (event A)) (x : mat A) (l : label_arg) (r : F A) :
  only_writes before -> nrows x <> 0 -> snd (get_cvi c new_obj (Mat x) l) = Ok r ->
  as_if_copied c m (before ++ Batch x l :: after).
Proof. intros H1 H2 H3. eapply play_batch_first; eauto using only_writes_F. Qed.
Print Assumptions C40_after_a_batch.
Example C40_batch_ok (L : Libm) : exists r : F (F64 L),
  snd (get_cvi kCH new_obj (Mat (mkMat 2 (map fst (ex_data L)))) (Labs (map snd (ex_data L)))) = Ok r.
Proof. eexists. vm_compute. reflexivity. Qed.

(** ** C43 *)

(** No array the package allocated is reachable from two objects, or from two
    attributes of one; an array of the caller only through [_mu]. *)
Theorem C43_nothing_shared (cls : nat -> kind) (xs : list action) (i j : nat) (a b : aname) (n : nat) :
  Forall (legal cls) xs -> binds (acts xs) i a = Some (Own n) -> binds (acts xs) j b = Some (Own n) -> i = j /\ a = b.
Proof. intros H. exact (sep_inj _ (acts_sep cls xs H) i a j b n). Qed.
Print Assumptions C43_nothing_shared.
(** so the next in-place write of a call is seen through no other object *)
Theorem C43_writes_are_private (cls : nat -> kind) (xs : list action) (i b k : nat) (p : list stmt) (a : aname) :
  Forall (legal cls) xs -> path (cls i) p -> nth_error p k = Some (InPlace a) ->
  forall j a' l, binds (acts (xs ++ [CallOn i b k p])) i a = Some l -> binds (acts (xs ++ [CallOn i b k p])) j a' = Some l ->
  j = i /\ a' = a.
Proof.
  intros H Hp Hn j a' l H1 H2. pose proof (next_private cls xs i b k p a H Hp Hn) as HP. unfold private in HP. rewrite H1 in HP.
  destruct l; [contradiction|]. now apply HP.
Qed.
Print Assumptions C43_writes_are_private.
Example C43_write : path (ex_cls 0) (st_inc kCH false false ++ st_eval kCH 2 1) /\
  nth_error (st_inc kCH false false ++ st_eval kCH 2 1) 2 = Some (InPlace a_v) /\
  exists l, binds (acts (ex_actions ++ [CallOn 0 8 2 (st_inc kCH false false ++ st_eval kCH 2 1)])) 0 a_v = Some l.
Proof. split; [apply (path_inc kCH)|split; [reflexivity|eexists; vm_compute; reflexivity]]. Qed.

(** the part of a program that concerns object [i]: its calls and the writes of the caller *)
Definition part_of {A : Arith} (i : nat) (es : list (nat * event A)) : list (event A) :=
  map snd (filter (fun p => match snd p with Write _ _ => true | _ => fst p =? i end) es).
(** the answers object [i] gives in a program with many objects *)
Definition answers_of {A : Arith} (i : nat) (cls : nat -> kind) (m : memory A) (es : list (nat * event A)) : list (E (F A)) :=
  map snd (filter (fun p => fst p =? i) (play_many cls m (fun _ => fresh_h) es)).

(** Any number of objects, any interleaving, arrays shared at will and rewritten at
    will: each object answers as it would on its own in the same program. *)
Theorem C43_interleaving (A : Arith) (cls : nat -> kind) (m : memory A) (es : list (nat * event A)) (i : nat) :
  answers_of i cls m es = play (cls i) m fresh_h (part_of i es).
Proof. exact (play_many_alone cls i es m (fun _ => fresh_h)). Qed.
Print Assumptions C43_interleaving.

(** If the caller does not write to the arrays in between, that is what the object
    answers to its calls alone, for all nine classes. *)
Theorem C43_interleaving_no_writes (A : Arith) (cls : nat -> kind) (m : memory A) (es : list (nat * event A)) (i : nat) :
  (forall j b x, ~ In (j, Write b x) es) ->
  answers_of i cls m es = results (cls i) new_obj (calls_made m (part_of i es)).
Proof.
  intros H. rewrite C43_interleaving. unfold results. change new_obj with (seen m (fresh_h (A := A))).
  rewrite (play_results (cls i) (fun _ _ es => forall b x, ~ In (Write b x) es)); [reflexivity| | |].
  - intros m' h e es' Hn b x Hi. exact (Hn b x (or_intror Hi)).
  - intros m' h b x es' Hn. destruct (Hn b x (or_introl eq_refl)).
  - intros b x Hi. unfold part_of in Hi. apply in_map_iff in Hi. destruct Hi as ([j e] & E & Hf). apply filter_In in Hf.
    cbn [snd] in E. subst e. exact (H j b x (proj1 Hf)).
Qed.
Print Assumptions C43_interleaving_no_writes.

(** two objects fed the same two arrays, one class of each kind *)
Example C43_example (L : Libm) :
  let m := fun b => match b with 0 => fv L [1; 2]%Z | 1 => fv L [5; 1]%Z | _ => fv L [2; 2]%Z end in
  let es := [(0, Sample 0 0%Z); (1, Sample 0 3%Z); (0, Sample 1 1%Z); (1, Sample 2 3%Z); (1, Sample 1 4%Z); (0, Sample 2 0%Z)] in
  (forall j b x, ~ In (j, Write b x) es) /\
  map (fun r => match r with Ok x => SFeqb x (d_of_Z 0) | Err _ => true end) (answers_of 0 (fun i => if i =? 0 then kCH else kXB) m es) = [true; false; false] /\
  map (fun r => match r with Ok x => SFeqb x (d_of_Z 0) | Err _ => true end) (answers_of 1 (fun i => if i =? 0 then kCH else kXB) m es) = [true; true; false].
Proof.
  cbv zeta. split; [|split; vm_compute; reflexivity].
  intros j b x H. repeat destruct H as [H|H]; try discriminate H. destruct H.
Qed.
