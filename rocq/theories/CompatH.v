(** * The classes of compat/v0.py: sequences of calls, in every arithmetic. *)
From Coq Require Import String ZArith List Arith Bool Lia.
From Verif Require Import Num NumPy Lists Generic Compat CompatL CompatL2 CompatL3 CompatL4.
Import ListNotations.
Local Notation length := List.length.

(** the number of clusters after calls with these labels: a call starts a
    cluster when its label is the number of clusters so far *)
Definition started (ls : list Z) : nat :=
  fold_left (fun k c => if (c =? Z.of_nat k)%Z then S k else k) ls 0.
Lemma started_snoc ls c :
  started (ls ++ [c]) = if (c =? Z.of_nat (started ls))%Z then S (started ls) else started ls.
Proof. unfold started. now rewrite fold_left_app. Qed.

Section H.
  Context {A : Arith}.
  Notation F := (F A).
  Notation vec := (list F).
  Local Open Scope compat_scope.

  (** ** iGD *)
  Definition gd_step (p : vec * Z) : SM (iGD (A := A)) F := iGD_update (fst p) (snd p).
  Lemma iGD_high x c (o : iGD (A := A)) : c <> Z.of_nat (length (gd_centers o)) -> (Z.of_nat (length (gd_sizes o)) < c)%Z ->
    iGD_update x c o = (o, Err ValueError).
  Proof.
    intros H1 H2. unfold iGD_update. sm. apply Z.eqb_neq in H1. apply Z.ltb_lt in H2. now rewrite H1, H2.
  Qed.
  Definition gd_new (t : nat) : iGD (A := A) := mkiGD t (mkMat 0 []) [] f0 [] [] None [].
  Lemma gd_history d t (h : list (vec * Z)) : Forall (fun p => length (fst p) = d /\ (0 <= snd p)%Z) h ->
    let o := chist_after gd_step (gd_new t) h in
    GDW d (started (map snd h)) o /\ gd_output o = f0 /\ gd_t o = t.
  Proof.
    cbv zeta. induction h as [|[x c] h IH] using rev_ind; intros Hh.
    - repeat split; cbn; auto; intros; lia.
    - apply Forall_app in Hh as [Hh Hx]. inversion Hx as [|? ? [Hx1 Hx2] _]; subst. cbn [fst snd] in *.
      destruct (IH Hh) as (W & O & T). rewrite chist_after_snoc, map_app. cbn [map snd]. rewrite started_snoc.
      set (o := chist_after gd_step (gd_new t) h) in *. set (k := started (map snd h)) in *.
      unfold gd_step. cbn [fst snd]. destruct (Z.eqb_spec c (Z.of_nat k)) as [->|Hc].
      + split; [now apply iGD_new_W|]. destruct W as (W1 & _). rewrite <- W1, iGD_new. cbn. auto.
      + destruct (Z_lt_le_dec c (Z.of_nat k)) as [Hl|Hl].
        * destruct (iGD_old (length x) k x o (Z.to_nat c) W eq_refl) as (o' & E & W' & E1 & E2 & _); [lia|].
          rewrite Z2Nat.id in E by lia. rewrite E. cbn [fst]. split; auto. split; congruence.
        * pose proof W as (W1 & _ & W3 & _). rewrite iGD_high by lia. auto.
  Qed.

  (** ** iDB *)
  Definition db_step (p : vec * Z) : SM (iDB (A := A)) F := iDB_update (fst p) (snd p).
  Lemma db_history (h : list (vec * Z)) :
    let o := chist_after db_step iDB_init h in
    db_CP o = [] /\ db_output o = f0 /\ length (db_centers o) = started (map snd h) /\
    length (db_sizes o) = started (map snd h) /\ db_N o = length h.
  Proof.
    cbv zeta. induction h as [|[x c] h IH] using rev_ind; [cbn; auto 6|].
    rewrite chist_after_snoc, map_app, app_length. cbn [map snd List.length]. rewrite started_snoc.
    set (o := chist_after db_step iDB_init h) in *. destruct IH as (H1 & H2 & H3 & H4 & H5).
    unfold db_step. cbn [fst snd]. rewrite <- H3. destruct (Z.eqb_spec c (Z.of_nat (length (db_centers o)))) as [->|Hc].
    - rewrite iDB_new. cbn. rewrite !app_length. cbn. repeat split; auto; lia.
    - rewrite iDB_old by auto. cbn. repeat split; auto; lia.
  Qed.

  (** ** iPS *)
  Definition ps_step (gen : vec -> E F) (p : vec * Z) : SM (iPS (A := A)) F := iPS_update gen (fst p) (snd p).
  Lemma ps_history d (h : list (vec * Z)) :
    Forall (fun p => length (fst p) = d) h ->
    (forall i p, nth_error h i = Some p -> (0 <= snd p <= Z.of_nat (started (map snd (firstn i h))))%Z) ->
    PSD d (started (map snd h)) (chist_after (ps_step gen_sum_old) iPS_init h) /\
    forall r, In r (chist_results (ps_step gen_sum_old) iPS_init h) -> exists y, r = Ok y.
  Proof.
    induction h as [|[x c] h IH] using rev_ind; intros Hh Hl.
    - split; [|intros r []]. repeat split; cbn; auto.
    - apply Forall_app in Hh as [Hh Hx]. inversion Hx as [|? ? Hx1 _]; subst. cbn [fst snd] in *.
      destruct IH as (W & R); auto.
      { intros i p Hp. assert (i < length h) by (apply nth_error_Some; congruence).
        specialize (Hl i p). rewrite nth_error_app1 in Hl by auto. specialize (Hl Hp).
        rewrite firstn_app in Hl. replace (i - length h) with 0 in Hl by lia. now rewrite firstn_O, app_nil_r in Hl. }
      specialize (Hl (length h) (x, c)). rewrite nth_error_app2, Nat.sub_diag in Hl by lia. specialize (Hl eq_refl).
      rewrite firstn_app, Nat.sub_diag, firstn_O, app_nil_r, firstn_all in Hl. cbn [snd] in Hl.
      rewrite chist_after_snoc, chist_results_snoc, map_app. cbn [map snd]. rewrite started_snoc.
      set (o := chist_after _ iPS_init h) in *. set (k := started (map snd h)) in *.
      destruct (iPS_returns (length x) k x (Z.to_nat c) o W eq_refl) as (o' & y & E & W'); [lia|].
      rewrite Z2Nat.id in E by lia. unfold ps_step at 1 3. cbn [fst snd]. rewrite E. cbn [fst snd]. split.
      + destruct (Z.eqb_spec c (Z.of_nat k)); [replace (Nat.max k (S (Z.to_nat c))) with (S k) in W' by lia
                                              |replace (Nat.max k (S (Z.to_nat c))) with k in W' by lia]; exact W'.
      + intros r Hr. apply in_app_or in Hr as [Hr|[<-|[]]]; eauto.
  Qed.
  (** with a numpy that refuses generators *)
  Lemma iPS_refuses x c (o o' : iPS (A := A)) y : iPS_update gen_sum_new x c o = (o', Ok y) -> length (ps_centers o') <= 1.
  Proof.
    intros H. unfold iPS_update in H.
    apply sbind_ok in H as (s1 & x1 & E1 & H). injection E1 as <- <-.
    apply sbind_ok in H as (s2 & x2 & _ & H).
    apply sbind_ok in H as (s3 & x3 & E3 & H). injection E3 as <- <-.
    apply sbind_ok in H as (s4 & x4 & E4 & H). injection E4 as <- E4.
    apply sbind_ok in H as (s5 & x5 & E5 & H). injection E5 as <-.
    apply sbind_ok in H as (s6 & x6 & E6 & H). injection E6 as <- <-.
    apply sbind_ok in H as (s7 & b & E7 & H). injection E7 as <- E7.
    apply mapE_length in E7.
    apply sbind_ok in H as (s8 & x8 & E8 & H).
    apply sbind_ok in H as (s9 & x9 & E9 & H). injection E9 as <- <-. injection H as <- _.
    destruct b as [|b0 b].
    - apply sbind_ok in E8 as (s10 & x10 & E10 & E8). injection E10 as <- _.
      apply sbind_ok in E8 as (s11 & x11 & E11 & E8). injection E11 as <- <-.
      apply sbind_ok in E8 as (s12 & x12 & E12 & E8). injection E12 as <- <-.
      injection E8 as <-. cbn [ps_centers set_ps_output set_ps_PS_i set_ps_max] in *.
      cbn [List.length] in E7. symmetry in E7. apply length_zero_iff_nil in E7.
      destruct (length (ps_centers s2)) eqn:El; [lia|].
      rewrite <- El in E7. apply others_nil in E7; lia.
    - do 3 (apply sbind_ok in E8 as (? & ? & ? & E8)).
      apply sbind_ok in E8 as (? & ? & Eg & E8). discriminate.
  Qed.

  (** ** iCH *)
  Definition ch_step (p : vec * Z) : SM (iCH (A := A)) F := iCH_update (fst p) (snd p).
  Lemma ch_history d (h : list (vec * Z)) : Forall (fun p => length (fst p) = d) h ->
    CHW d (count_occ Z.eq_dec (map snd h) 0%Z) (chist_after ch_step iCH_init h) /\
    ch_N (chist_after ch_step iCH_init h) = length h.
  Proof.
    induction h as [|[x c] h IH] using rev_ind; intros Hh.
    - repeat split; cbn; auto.
    - apply Forall_app in Hh as [Hh Hx]. inversion Hx as [|? ? Hx1 _]; subst. cbn [fst snd] in *.
      destruct (IH Hh) as (W & N). rewrite chist_after_snoc, map_app, count_occ_app, app_length. cbn [map snd List.length].
      set (o := chist_after ch_step iCH_init h) in *. set (k := count_occ _ _ _) in *.
      unfold ch_step. cbn [fst snd count_occ]. destruct (Z.eq_dec c 0) as [->|Hc].
      + destruct (iCH_zero (length x) k x o W eq_refl) as (o' & -> & W' & _ & _ & N' & _). cbn [fst].
        rewrite Nat.add_1_r. split; [exact W'|]. lia.
      + rewrite Nat.add_0_r. pose proof (iCH_other (length x) k x c o W eq_refl Hc) as H.
        destruct (py_index k c).
        * destruct H as (o' & -> & W' & _ & _ & N'). cbn [fst]. split; auto. lia.
        * rewrite H. cbn [fst]. split; [now apply ch_start_W|]. cbn. lia.
  Qed.
  Lemma ch_zeros d (h : list vec) : Forall (fun x => length x = d) h ->
    let o := chist_after ch_step iCH_init (map (fun x => (x, 0%Z)) h) in
    ch_centers o = h /\ ch_sizes o = repeat 1 (length h) /\
    chist_results ch_step iCH_init (map (fun x => (x, 0%Z)) h) = repeat (Ok f0) (length h).
  Proof.
    cbv zeta. induction h as [|x h IH] using rev_ind; intros Hh; [cbn; auto|].
    apply Forall_app in Hh as [Hh Hx]. inversion Hx; subst. destruct (IH Hh) as (C & S & R).
    rewrite map_app. cbn [map]. rewrite chist_after_snoc, chist_results_snoc, app_length. cbn [List.length].
    destruct (ch_history (length x) (map (fun x => (x, 0%Z)) h)) as [W N].
    { apply Forall_map. eapply Forall_impl; [|exact Hh]. auto. }
    set (o := chist_after ch_step iCH_init _) in *.
    destruct W as (W0 & W1 & W'). pose proof W1 as W1'. rewrite C in W1'. rewrite map_length in N.
    destruct (iCH_zero (length x) (length h) x o) as (o' & E & _ & C' & S' & _ & V); auto.
    { rewrite W1'. split; auto. }
    change (ch_step (x, 0%Z)) with (iCH_update x 0%Z). rewrite E. cbn [fst snd]. rewrite C', S', V, C, S, R by lia.
    rewrite !repeat_app. auto.
  Qed.

  (** ** iXB *)
  Definition xb_step' (p : vec * Z) : SM (iXB (A := A)) F := iXB_update (fst p) (snd p).
  Lemma xb_history d (h : list (vec * Z)) : Forall (fun p => length (fst p) = d /\ (0 <= snd p)%Z) h ->
    XBW d (started (map snd h)) (chist_after xb_step' iXB_init h) /\
    forall i p, nth_error h i = Some p ->
      if (snd p <=? Z.of_nat (started (map snd (firstn i h))))%Z
      then exists y, nth_error (chist_results xb_step' iXB_init h) i = Some (Ok y)
      else nth_error (chist_results xb_step' iXB_init h) i = Some (Err ValueError).
  Proof.
    induction h as [|[x c] h IH] using rev_ind; intros Hh.
    - split; [apply XBW_init|]. intros [|i] p; discriminate.
    - apply Forall_app in Hh as [Hh Hx]. inversion Hx as [|? ? [Hx1 Hx2] _]; subst. cbn [fst snd] in *.
      destruct (IH Hh) as (W & R). rewrite chist_after_snoc, chist_results_snoc, map_app. cbn [map snd]. rewrite started_snoc.
      set (o := chist_after _ iXB_init h) in *. set (k := started (map snd h)) in *.
      assert (HS : (if (c <=? Z.of_nat k)%Z then exists o' y, xb_step' (x, c) o = (o', Ok y) /\
                       XBW (length x) (if (c =? Z.of_nat k)%Z then S k else k) o'
                    else xb_step' (x, c) o = (set_xb_N (xb_N o + 1) o, Err ValueError))).
      { unfold xb_step'. cbn [fst snd]. destruct (Z.leb_spec c (Z.of_nat k)).
        - destruct (iXB_accepts (length x) k x o (Z.to_nat c) W eq_refl) as (o' & y & E & W'); [lia|].
          rewrite Z2Nat.id in E by lia. exists o', y. split; auto.
          destruct (Z.eqb_spec c (Z.of_nat k)); [replace (Nat.max k (S (Z.to_nat c))) with (S k) in W' by lia
                                                |replace (Nat.max k (S (Z.to_nat c))) with k in W' by lia]; exact W'.
        - now apply (xbw_place_high (length x) k). }
      split.
      + destruct (Z.leb_spec c (Z.of_nat k)).
        * destruct HS as (o' & y & -> & W'). exact W'.
        * rewrite HS. cbn [fst]. replace (c =? Z.of_nat k)%Z with false by (symmetry; apply Z.eqb_neq; lia).
          exact W.
      + intros i p Hp. assert (Hl : length (chist_results xb_step' iXB_init h) = length h) by apply chist_results_length.
        destruct (Nat.lt_ge_cases i (length h)) as [Hi|Hi].
        * rewrite nth_error_app1 in Hp by auto. rewrite nth_error_app1 by lia.
          rewrite firstn_app. replace (i - length h) with 0 by lia. rewrite firstn_O, app_nil_r. now apply R.
        * assert (i = length h) as ->.
          { assert (i < length (h ++ [(x, c)])) by (apply nth_error_Some; congruence). rewrite app_length in *. cbn in *. lia. }
          rewrite nth_error_app2, Nat.sub_diag in Hp by lia. injection Hp as <-.
          rewrite firstn_app, Nat.sub_diag, firstn_O, app_nil_r, firstn_all. fold k. cbn [snd].
          rewrite nth_error_app2, Hl, Nat.sub_diag by lia. cbn [nth_error].
          destruct (Z.leb_spec c (Z.of_nat k)); [destruct HS as (o' & y & -> & _); eexists; reflexivity|now rewrite HS].
  Qed.

  (** ** iSIL *)
  (** a call with array [r] and label [c], or a write by the caller *)
  Inductive sil_event := SilCall (r : nat) (c : Z) | SilWrite (r : nat) (x : vec).
  Definition sil_step (e : sil_event) : SM (iSIL (A := A)) (option F) :=
    match e with
    | SilCall r c => do y <- iSIL_update r c ;; sret (Some y)
    | SilWrite r x => smod (fun o => set_sl_heap (heap_set (sl_heap o) r x) o) ;; sret None
    end.
  Definition sil_labels (es : list sil_event) : list Z :=
    flat_map (fun e => match e with SilCall _ c => [c] | SilWrite _ _ => [] end) es.
  Lemma iSIL_high r c (o : iSIL (A := A)) : (Z.of_nat (length (sl_sizes o)) < c)%Z -> iSIL_update r c o = (o, Err ValueError).
  Proof.
    intros H. unfold iSIL_update, iSIL_place. sm.
    replace (c =? _)%Z with false by (symmetry; apply Z.eqb_neq; lia).
    replace (_ <? c)%Z with true by (symmetry; apply Z.ltb_lt; lia). reflexivity.
  Qed.
  Lemma iSIL_old d k r (o : iSIL (A := A)) (i : nat) : SLD d k o -> length (sl_heap o r) = d -> 2 <= k -> i < k ->
    exists o' y, iSIL_update r (Z.of_nat i) o = (o', Ok y) /\ SLD d k o' /\
      let rg := nth i (sl_g o) 0 in sl_heap o' = heap_set (sl_heap o) rg (map2 fadd (sl_heap o rg) (sl_heap o r)).
  Proof.
    intros HW Hr Hk Hi. unfold iSIL_update.
    destruct (sil_place_old d k r o i HW Hr Hi) as (o1 & E1 & W1 & Eh1 & Eg1 & _).
    destruct (sil_table_ok d k r o1 i W1 ltac:(now rewrite Eh1)) as (m & E2 & Hm & _); [lia|].
    assert (W2 : SLD d k (set_sl_sij m o1)).
    { destruct W1 as (H1 & H2 & H3 & H4 & H5 & H6 & H7 & H8 & H9).
      split; [|split; [|split; [|split; [|split; [|split; [|split; [|split]]]]]]]; cbn; auto. }
    destruct (sil_cp_ok d k r _ i W2 ltac:(cbn; now rewrite Eh1)) as (o3 & E3 & W3 & _ & Eg3 & Eh3); [lia|].
    unfold sbind at 1. rewrite E1. unfold sbind at 1. rewrite E2. unfold sbind at 1. rewrite E3.
    unfold iSIL_value. sm. pose proof W3 as (H1 & _). rewrite H1.
    assert (exists cs, mapE (fun j => sci o3 j (Z.of_nat i)) (seq 0 k) = Ok cs) as [cs ->].
    { exists (map (fun j => match sci o3 j (Z.of_nat i) with Ok y => y | Err _ => f0 end) (seq 0 k)).
      apply mapE_ok. intros j Hj. apply in_seq in Hj.
      destruct (sil_sci_ok d k o3 j i W3) as (a & l & _ & ->); try lia. reflexivity. }
    eexists. eexists. split; [reflexivity|]. split.
    - destruct W3 as (J1 & J2 & J3 & J4 & J5 & J6 & J7 & J8 & J9).
      split; [|split; [|split; [|split; [|split; [|split; [|split; [|split]]]]]]]; cbn; auto.
    - cbv zeta. cbn [sl_heap set_sl_output]. rewrite Eh3. cbn [sl_g sl_heap set_sl_sij]. now rewrite Eg1, Eh1.
  Qed.
  Definition ok_event d (e : sil_event) : Prop :=
    match e with SilCall _ c => (0 <= c)%Z | SilWrite _ x => length x = d end.
  Lemma heap_add_length d h rg r : (forall r, length (h r) = d) ->
    forall r', length (heap_set (A := A) h rg (map2 fadd (h rg) (h r)) r') = d.
  Proof. intros H r'. unfold heap_set. destruct (_ =? _); auto. rewrite length_map2, !H. lia. Qed.
  Lemma sil_history d h (es : list sil_event) : (forall r, length (h r) = d) -> Forall (ok_event d) es ->
    let o := chist_after sil_step (iSIL_init h) es in
    SLD d (started (sil_labels es)) o /\ forall r, length (sl_heap o r) = d.
  Proof.
    cbv zeta. intros Hh. induction es as [|e es IH] using rev_ind; intros He.
    - split; [apply SLD_init|exact Hh].
    - apply Forall_app in He as [He He1]. inversion He1 as [|? ? He2 _]; subst.
      destruct (IH He) as (W & L). rewrite chist_after_snoc. unfold sil_labels. rewrite flat_map_app.
      change (flat_map _ es) with (sil_labels es).
      set (o := chist_after sil_step (iSIL_init h) es) in *. destruct e as [r c|r x]; cbn [flat_map app].
      + rewrite started_snoc. set (k := started (sil_labels es)) in *. cbn in He2.
        cbn [sil_step]. destruct (Z.eqb_spec c (Z.of_nat k)) as [->|Hc].
        * destruct k as [|k'] eqn:Ek.
          -- destruct (iSIL_one d 0 r o W (L r)) as (o' & E & W' & _ & Eh); [lia|]. cbn [Z.of_nat].
             unfold sbind. rewrite E. cbn [fst]. split; auto. rewrite Eh. now apply heap_add_length.
          -- destruct (iSIL_later_new d (S k') r o W (L r)) as (o' & cs & s & E & W' & _); [lia|].
             pose proof (iSIL_heap r (Z.of_nat (S k')) o o' _ E) as [_ Hp]. unfold sbind. rewrite E. cbn [fst sret].
             split; auto. destruct Hp as [->|(rg & y & _ & Ei & ->)]; auto.
             intros r'. unfold heap_set. destruct (_ =? _); auto.
             unfold iadd in Ei. rewrite vadd_ok in Ei by (now rewrite !L). cbn [bindE] in Ei. rewrite length_map2, !L, Nat.min_id, Nat.eqb_refl in Ei.
             injection Ei as <-. rewrite length_map2, !L. lia.
        * destruct (Z_lt_le_dec c (Z.of_nat k)) as [Hl|Hl].
          -- destruct (Nat.le_gt_cases 2 k) as [H2|H2].
             ++ destruct (iSIL_old d k r o (Z.to_nat c) W (L r)) as (o' & y & E & W' & Eh); try lia.
                rewrite Z2Nat.id in E by lia. unfold sbind. rewrite E. cbn [fst sret]. split; auto. rewrite Eh. now apply heap_add_length.
             ++ assert (c = 0%Z) as -> by lia. assert (k = 1) as Ek by lia. rewrite Ek in *.
                destruct (iSIL_one d 1 r o W (L r)) as (o' & E & W' & _ & Eh); [lia|].
                unfold sbind. rewrite E. cbn [fst]. split; auto. rewrite Eh. now apply heap_add_length.
          -- pose proof W as (_ & _ & H3 & _). unfold sbind. rewrite iSIL_high by lia. auto.
      + rewrite app_nil_r. cbn in He2. unfold sil_step. sm. cbn [fst].
        assert (L' : forall r', length (heap_set (sl_heap o) r x r') = d).
        { intros r'. unfold heap_set. destruct (_ =? _); auto. }
        split; [|exact L']. destruct W as (J1 & J2 & J3 & J4 & J5 & J6 & J7 & J8 & J9).
        split; [|split; [|split; [|split; [|split; [|split; [|split; [|split]]]]]]]; cbn; auto.
  Qed.
  (** the value of a call that starts the second or a later cluster *)
  Section Bad.
    Variable bad : F -> Prop.
    Hypothesis inf_inf : flt (a := A) finf finf = false.
    Hypothesis bad_first : forall s : F, bad (fdiv (fsub finf s) (py_max2 s finf)).
    Hypothesis bad_add : forall a b : F, bad a \/ bad b -> bad (fadd a b).
    Hypothesis bad_mul : forall a b : F, bad b -> bad (fmul a b).
    Lemma fold_inf (f : F -> F -> F) n : f finf finf = finf -> fold_left f (repeat finf n) finf = finf.
    Proof. intros H. induction n; cbn; auto. now rewrite H. Qed.
    Lemma py_sum_bad l x : nth_error l 0 = Some x -> bad x -> bad (py_sum l).
    Proof.
      destruct l as [|y l]; [discriminate|]. intros H Hb. injection H as ->. unfold py_sum. cbn [fold_left].
      assert (G : forall l a, bad a -> bad (fold_left fadd l a)) by (clear -bad_add; induction l; cbn; auto).
      apply G. auto.
    Qed.
    Lemma iSIL_new_bad d k r o : SLD d k o -> length (sl_heap o r) = d -> 1 <= k ->
      exists o' y, iSIL_update r (Z.of_nat k) o = (o', Ok y) /\ bad y.
    Proof.
      intros W Hr Hk. destruct (iSIL_later_new d k r o W Hr Hk) as (o' & cs & s & E & _ & Hc).
      exists o'. eexists. split; [exact E|]. apply bad_mul. apply (py_sum_bad _ _ Hc).
      rewrite !fold_inf; auto; unfold py_min2, py_max2; now rewrite inf_inf.
    Qed.
  End Bad.
End H.
