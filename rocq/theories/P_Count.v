(** * C93: what a rejected sample leaves behind in the compat classes *)
From Coq Require Import ZArith List Arith Bool Lia SpecFloat.
From Verif Require Import Num NumPy Base GetCvi Lists F64 Compat CompatL CompatH.
Import ListNotations.
Local Notation length := List.length.
Local Open Scope compat_scope.

(** ** Lemmas *)
Definition keeps {S X} (f : S -> nat) (m : SM S X) : Prop := forall o, f (fst (m o)) = f o.
Lemma k_ret {S X} f (x : X) : @keeps S X f (sret x). Proof. intros o. reflexivity. Qed.
Lemma k_lift {S X} f (e : E X) : @keeps S X f (slift e). Proof. intros o. reflexivity. Qed.
Lemma k_get {S} f : @keeps S S f sget. Proof. intros o. reflexivity. Qed.
Lemma k_mod {S} (f : S -> nat) g : (forall o, f (g o) = f o) -> keeps f (smod g). Proof. intros H o. apply H. Qed.
Lemma k_bind {S X Y} (f : S -> nat) (m : SM S X) (k : X -> SM S Y) : keeps f m -> (forall x, keeps f (k x)) -> keeps f (sbind m k).
Proof. intros H K o. unfold sbind. specialize (H o). destruct (m o) as [o1 [x|e]]; cbn in *; auto. rewrite <- H. apply K. Qed.
Lemma k_for {S X} (f : S -> nat) (l : list X) (b : X -> SM S unit) : (forall x, keeps f (b x)) -> keeps f (sfor l b).
Proof. intros H. induction l as [|x l IH]; cbn; [apply k_ret|]. apply k_bind; auto. Qed.
Ltac keep := repeat first
  [apply k_ret|apply k_lift|apply k_get|apply k_for; intros|apply k_mod; reflexivity|apply k_bind; [|intros]
  |match goal with |- keeps _ (if ?b then _ else _) => destruct b | |- keeps _ (let '(_, _) := ?p in _) => destruct p | |- keeps _ (match ?p with _ => _ end) => destruct p end].
Definition adds {S X} (f : S -> nat) (m : SM S X) : Prop := forall o, f (fst (m o)) = f o + 1.
Lemma a_bind {S X Y} (f : S -> nat) (m : SM S X) (k : X -> SM S Y) : adds f m -> (forall x, keeps f (k x)) -> adds f (sbind m k).
Proof. intros H K o. unfold sbind. specialize (H o). destruct (m o) as [o1 [x|e]]; cbn in *; auto. rewrite <- H. apply K. Qed.
Lemma a_mod {S} (f : S -> nat) g : (forall o, f (g o) = f o + 1) -> adds f (smod g). Proof. intros H o. apply H. Qed.
Lemma counts_all {S I X} (f : S -> nat) (step : I -> SM S X) : (forall i, adds f (step i)) -> forall h o, f (chist_after step o h) = f o + length h.
Proof.
  intros H. induction h as [|i h IH]; intros o; cbn; [lia|]. unfold chist_after in *. cbn. specialize (H i o). destruct (step i o) as [o1 r]. cbn in H.
  specialize (IH o1). destruct (chist step o1 h). cbn in *. lia.
Qed.
Ltac high H := replace (_ =? _)%Z with false by (symmetry; apply Z.eqb_neq; lia); replace (_ <? _)%Z with true by (symmetry; apply Z.ltb_lt; lia).

Section Any.
  Context {A : Arith}.
  Lemma iXB_counts x l : adds xb_N (iXB_update (A := A) x l).
  Proof.
    unfold iXB_update, iXB_place, iXB_value. apply a_bind; [|intros; keep]. apply a_bind; [now apply a_mod|]. intros _. keep.
  Qed.
  Lemma iCH_counts x l : adds ch_N (iCH_update (A := A) x l).
  Proof.
    unfold iCH_update, iCH_mean, iCH_place, iCH_value. apply a_bind; [|intros; keep]. apply a_bind; [now apply a_mod|]. intros _. keep.
  Qed.
  Lemma iDB_counts x l : adds db_N (iDB_update (A := A) x l).
  Proof. unfold iDB_update. apply a_bind; [now apply a_mod|]. intros _. keep. Qed.
  Lemma iSIL_counts r l (o : iSIL (A := A)) : (l <= Z.of_nat (length (sl_sizes o)))%Z -> sl_N (fst (iSIL_update r l o)) = sl_N o + 1.
  Proof.
    intros H.
    set (x := sl_heap o r). assert (G : exists o1, sl_N o1 = sl_N o /\ iSIL_place r l o = (smod (fun o => set_sl_N (sl_N o + 1) o) ;;
      do o <- sget ;; do v_c <- slift (py_get (sl_centers o) l) ;; do n_c <- slift (py_get (sl_sizes o) l) ;;
      do q <- slift (cluster_center_update x v_c n_c) ;; let '(v', n') := q in
      do l1 <- slift (py_set (sl_centers o) l v') ;; smod (set_sl_centers l1) ;; do l2 <- slift (py_set (sl_sizes o) l n') ;; smod (set_sl_sizes l2)) o1).
    { unfold iSIL_place. destruct (l =? Z.of_nat (length (sl_sizes o)))%Z eqn:E1.
      - eexists. split; [|unfold sbind at 1 2; cbn [sget]; rewrite E1; reflexivity]. reflexivity.
      - exists o. split; auto. unfold sbind at 1 2. cbn [sget]. rewrite E1. replace (_ <? l)%Z with false by (symmetry; apply Z.ltb_ge; lia). reflexivity. }
    destruct G as (o1 & EN & EP). rewrite <- EN.
    unfold iSIL_update. unfold sbind at 1. rewrite EP. clear EP.
    match goal with |- sl_N (fst (match ?m o1 with _ => _ end)) = _ => assert (Hm : adds sl_N m) end.
    { apply a_bind; [now apply a_mod|]. intros _. keep. }
    match goal with |- sl_N (fst (match ?m o1 with _ => _ end)) = _ => specialize (Hm o1); destruct (m o1) as [o2 [[]|e]] end; cbn [fst] in *; auto.
    rewrite <- Hm. match goal with |- sl_N (fst (?m o2)) = _ => assert (Hk : keeps sl_N m) end; [|apply Hk].
    unfold iSIL_table, iSIL_cp_update, iSIL_value. keep.
  Qed.
End Any.

(** ** The property *)
(** every call of iXB, iCH and iDB counts, also a rejected one *)
Theorem C93_every_call_counts : forall (A : Arith) (h : list (vec A * Z)),
  xb_N (chist_after xb_step' iXB_init h) = length h /\
  ch_N (chist_after ch_step iCH_init h) = length h /\
  db_N (chist_after db_step iDB_init h) = length h.
Proof.
  intros A h. repeat split; rewrite counts_all; auto; intros [x l]; [apply iXB_counts|apply iCH_counts|apply iDB_counts].
Qed.
Print Assumptions C93_every_call_counts.
(** iSIL counts the calls it does not reject *)
Theorem C93_iSIL_counts : forall (A : Arith) (o : iSIL (A := A)) r l,
  sl_N (fst (iSIL_update r l o)) = if (Z.of_nat (length (sl_sizes o)) <? l)%Z then sl_N o else sl_N o + 1.
Proof.
  intros A o r l. destruct (Z.ltb_spec (Z.of_nat (length (sl_sizes o))) l) as [H|H]; [now rewrite iSIL_high|now apply iSIL_counts].
Qed.
Print Assumptions C93_iSIL_counts.
(** what a label beyond the next unused number leaves behind, any object state *)
Theorem C93_left_behind : forall (A : Arith) (x : vec A) (l : Z),
  (forall o : iXB (A := A), (Z.of_nat (length (xb_sizes o)) < l)%Z -> iXB_update x l o = (set_xb_N (xb_N o + 1) o, Err ValueError)) /\
  (forall o : iDB (A := A), (Z.of_nat (length (db_sizes o)) < l)%Z -> length (db_centers o) = length (db_sizes o) ->
     iDB_update x l o = (set_db_N (db_N o + 1) o, Err ValueError)) /\
  (forall o : iGD (A := A), (Z.of_nat (length (gd_sizes o)) < l)%Z -> length (gd_centers o) = length (gd_sizes o) -> iGD_update x l o = (o, Err ValueError)) /\
  (forall r (o : iSIL (A := A)), (Z.of_nat (length (sl_sizes o)) < l)%Z -> iSIL_update r l o = (o, Err ValueError)) /\
  (forall (o : iCH (A := A)) c, (Z.of_nat (length (ch_sizes o)) < l)%Z -> l <> Z.of_nat (ch_clusters o) -> ch_center o = Some c -> length c = length x ->
     iCH_update x l o = (set_ch_center (Some (map2 (fun m y => fdiv (fadd (fmul (f_of_nat (ch_N o)) m) y) (f_of_nat (ch_N o + 1))) c x))
       (set_ch_N (ch_N o + 1) o), Err ValueError)) /\
  (forall gen (o : iPS (A := A)), (Z.of_nat (length (ps_sizes o)) < l)%Z -> length (ps_centers o) = length (ps_sizes o) ->
     iPS_update gen x l o = (set_ps_PS_i (ps_PS_i o ++ [f0]) (set_ps_sizes (ps_sizes o ++ [1]) (set_ps_centers (ps_centers o ++ [x]) o)), Err IndexError)).
Proof.
  intros A x l. repeat split.
  - intros o H. unfold iXB_update, iXB_place, sbind, smod, sget. cbn [xb_sizes set_xb_N]. high H. reflexivity.
  - intros o H E. unfold iDB_update, sbind, smod, sget. cbn [db_sizes db_centers set_db_N]. high H. reflexivity.
  - intros o H E. unfold iGD_update, sbind, smod, sget. high H. reflexivity.
  - intros r o H. now apply iSIL_high.
  - intros o c H Hc Ec Hl. unfold iCH_update, iCH_mean, sbind, smod, sget, slift. cbn [ch_center set_ch_N ch_N]. rewrite Ec. replace (ch_N o + 1 - 1) with (ch_N o) by lia.
    rewrite vadd_ok by (unfold scal; now rewrite map_length). unfold iCH_place, sbind, sget. cbn [ch_clusters set_ch_center set_ch_N ch_sizes]. high H.
    unfold slift, vdivn, scal. do 3 f_equal. clear. revert x. induction c as [|m c IH]; intros [|y x]; cbn; auto. f_equal. apply IH.
  - intros gen o H E. unfold iPS_update, sbind, smod, sget. replace (_ <=? l)%Z with true by (symmetry; apply Z.leb_le; lia).
    cbn [ps_sizes set_ps_PS_i set_ps_sizes set_ps_centers ps_centers ps_PS_i]. unfold slift. rewrite py_get_high by (rewrite app_length; cbn; lia). reflexivity.
Qed.
Print Assumptions C93_left_behind.

(** A rejected sample changes the values returned afterwards: 2/3 and 1/2 (iXB on
    0 | 1, 3) and 0.57 and 3.4 (iCH) without and with a rejected sample before the
    last one.  [x ** 2] is taken to be [x * x]. *)
Theorem C93_refuted : forall e d i, let L := mkLibm e (fun x _ => dmul x x) d i in
  let h := fs L [([0], 0); ([1], 1); ([3], 1)]%Z in let h' := fs L [([0], 0); ([1], 1); ([9], 7); ([3], 1)]%Z in
  let k := fs L [([0], 0); ([1], 0); ([3], 1)]%Z in let k' := fs L [([0], 0); ([1], 0); ([9], 7); ([3], 1)]%Z in
  map (fun r => match r with Ok y => Some (SFcompare y (ddiv (d_of_Z 1) (d_of_Z 2))) | Err _ => None end) (chist_results (xb_step' (A := F64 L)) iXB_init h) = [Some (Some Lt); Some (Some Lt); Some (Some Gt)] /\
  map (fun r => match r with Ok y => Some (SFcompare y (ddiv (d_of_Z 1) (d_of_Z 2))) | Err _ => None end) (chist_results (xb_step' (A := F64 L)) iXB_init h') = [Some (Some Lt); Some (Some Lt); None; Some (Some Eq)] /\
  map (fun r => match r with Ok y => Some (SFcompare y (d_of_Z 1)) | Err _ => None end) (chist_results (ch_step (A := F64 L)) iCH_init k) = [Some (Some Lt); Some (Some Lt); Some (Some Lt)] /\
  map (fun r => match r with Ok y => Some (SFcompare y (d_of_Z 1)) | Err _ => None end) (chist_results (ch_step (A := F64 L)) iCH_init k') = [Some (Some Lt); Some (Some Lt); None; Some (Some Gt)].
Proof. intros e d i. repeat split; vm_compute; reflexivity. Qed.
Print Assumptions C93_refuted.

(** ** Examples *)
(** four calls, one of them rejected, are counted as four *)
Example C93_case e d i : let L := mkLibm e (fun x _ => dmul x x) d i in
  let h := fs L [([0], 0); ([1], 1); ([9], 7); ([3], 1)]%Z in
  xb_N (chist_after (xb_step' (A := F64 L)) iXB_init h) = 4 /\ xb_sizes (chist_after (xb_step' (A := F64 L)) iXB_init h) = [1; 2].
Proof. split; vm_compute; reflexivity. Qed.
(** an object as C93_left_behind wants it: two clusters, label 7 *)
Example C93_case_iPS (L : Libm) : let o := chist_after (fun p => iPS_update (A := F64 L) gen_sum_old (fst p) (snd p)) iPS_init (fs L [([0], 0); ([1], 1)]%Z) in
  length (ps_centers o) = length (ps_sizes o) /\ (Z.of_nat (length (ps_sizes o)) < 7)%Z /\ ps_sizes (fst (iPS_update gen_sum_old (fv L [9%Z]) 7%Z o)) = [1; 1; 1].
Proof. cbv zeta. repeat split; vm_compute; reflexivity. Qed.
