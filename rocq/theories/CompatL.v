(** * Lemmas about the classes of compat/v0.py. *)
From Coq Require Import String ZArith List Arith Bool Lia.
From Verif Require Import Num NumPy Lists Compat.
Import ListNotations.

Lemma sbind_ok {S X Y} (m : SM S X) (k : X -> SM S Y) s s' y :
  sbind m k s = (s', Ok y) -> exists s1 x, m s = (s1, Ok x) /\ k x s1 = (s', Ok y).
Proof. unfold sbind. destruct (m s) as [s1 [x|e]]; intros H; [eauto|discriminate]. Qed.

(** histories *)
Section Hist.
  Context {S I X : Type} (step : I -> SM S X).
  Lemma chist_app s h1 h2 :
    chist step s (h1 ++ h2) =
    (chist_after step (chist_after step s h1) h2,
     chist_results step s h1 ++ chist_results step (chist_after step s h1) h2).
  Proof.
    revert s. unfold chist_after, chist_results. induction h1 as [|i h1 IH]; intros s; cbn [app chist fst snd].
    - now destruct (chist step s h2).
    - destruct (step i s) as [s1 r]. rewrite IH. destruct (chist step s1 h1) as [s2 rs]. reflexivity.
  Qed.
  Lemma chist_after_app s h1 h2 :
    chist_after step s (h1 ++ h2) = chist_after step (chist_after step s h1) h2.
  Proof. unfold chist_after at 1. now rewrite chist_app. Qed.
  Lemma chist_results_app s h1 h2 :
    chist_results step s (h1 ++ h2) =
    chist_results step s h1 ++ chist_results step (chist_after step s h1) h2.
  Proof. unfold chist_results at 1. now rewrite chist_app. Qed.
  Lemma chist_after_snoc s h i : chist_after step s (h ++ [i]) = fst (step i (chist_after step s h)).
  Proof.
    rewrite chist_after_app. unfold chist_after at 1. cbn [chist]. now destruct (step i _).
  Qed.
  Lemma chist_results_snoc s h i :
    chist_results step s (h ++ [i]) = chist_results step s h ++ [snd (step i (chist_after step s h))].
  Proof.
    rewrite chist_results_app. f_equal. unfold chist_results at 1. cbn [chist]. now destruct (step i _).
  Qed.
  Lemma chist_results_length s h : List.length (chist_results step s h) = List.length h.
  Proof.
    unfold chist_results. revert s. induction h as [|i h IH]; intros s; cbn [chist]; auto.
    destruct (step i s) as [s1 r]. specialize (IH s1). destruct (chist step s1 h). simpl in *. lia.
  Qed.
  (** a property of states kept by every step, and a property of the values it gives *)
  Lemma chist_inv (P : S -> Prop) (Q : X -> Prop) s h :
    (forall i s s' r, P s -> step i s = (s', r) -> P s' /\ forall x, r = Ok x -> Q x) ->
    P s -> P (chist_after step s h) /\ forall x, In (Ok x) (chist_results step s h) -> Q x.
  Proof.
    intros H. revert s. unfold chist_after, chist_results. induction h as [|i h IH]; intros s HP; cbn [chist].
    - split; auto. intros x [].
    - destruct (step i s) as [s1 r] eqn:E. destruct (H _ _ _ _ HP E) as [HP1 HQ].
      specialize (IH s1 HP1). destruct (chist step s1 h) as [s2 rs]. simpl in *. destruct IH as [IH1 IH2]. split; auto.
      intros x [Hx|Hx]; auto.
  Qed.
  Lemma chist_firstn s h i : chist_results step s (firstn i h) = firstn i (chist_results step s h).
  Proof.
    unfold chist_results. revert s i. induction h as [|a h IH]; intros s [|i]; cbn [firstn chist]; auto.
    destruct (step a s) as [s1 r]. specialize (IH s1 i). destruct (chist step s1 h), (chist step s1 (firstn i h)).
    simpl in *. now rewrite IH.
  Qed.
End Hist.

(** indices *)
Lemma py_index_in n i : (0 <= i < Z.of_nat n)%Z -> py_index n i = Ok (Z.to_nat i).
Proof. intros H. unfold py_index. replace ((0 <=? i) && (i <? Z.of_nat n))%Z with true by (symmetry; rewrite andb_true_iff; lia). reflexivity. Qed.
Lemma py_index_nat n (i : nat) : i < n -> py_index n (Z.of_nat i) = Ok i.
Proof. intros H. rewrite py_index_in by lia. now rewrite Nat2Z.id. Qed.
Lemma py_index_high n i : (Z.of_nat n <= i)%Z -> py_index n i = Err IndexError.
Proof.
  intros H. unfold py_index. replace ((0 <=? i) && (i <? Z.of_nat n))%Z with false by (symmetry; rewrite andb_false_iff; lia).
  replace ((- Z.of_nat n <=? i) && (i <? 0))%Z with false by (symmetry; rewrite andb_false_iff; lia). reflexivity.
Qed.
Lemma py_index_nil i : py_index 0 i = Err IndexError.
Proof.
  unfold py_index. simpl. replace ((0 <=? i) && (i <? 0))%Z with false by (symmetry; rewrite andb_false_iff; lia).
  reflexivity.
Qed.
Lemma py_index_bound n i p : py_index n i = Ok p -> p < n.
Proof.
  unfold py_index. destruct ((0 <=? i) && (i <? Z.of_nat n))%Z eqn:E1.
  - intros H. injection H as <-. apply andb_true_iff in E1. lia.
  - destruct ((- Z.of_nat n <=? i) && (i <? 0))%Z eqn:E2; intros H; [|discriminate].
    injection H as <-. apply andb_true_iff in E2. lia.
Qed.
Lemma py_get_nil {X} i : py_get (@nil X) i = Err IndexError.
Proof. unfold py_get. cbn [List.length]. now rewrite py_index_nil. Qed.
Lemma py_get_high {X} (l : list X) i : (Z.of_nat (List.length l) <= i)%Z -> py_get l i = Err IndexError.
Proof. intros H. unfold py_get. now rewrite py_index_high. Qed.
Lemma py_get_nat {X} (l : list X) (i : nat) x : nth_error l i = Some x -> py_get l (Z.of_nat i) = Ok x.
Proof.
  intros H. unfold py_get. assert (i < List.length l) by (apply nth_error_Some; congruence).
  rewrite py_index_nat by auto. simpl. unfold get_item. now rewrite H.
Qed.
Lemma py_set_nat {X} (l : list X) (i : nat) x : i < List.length l -> py_set l (Z.of_nat i) x = Ok (upd i x l).
Proof. intros H. unfold py_set. now rewrite py_index_nat. Qed.
Lemma py_get_err {X} (l : list X) i e : py_get l i = Err e -> e = IndexError.
Proof.
  unfold py_get, py_index. intros H. destruct (_ && _)%bool eqn:E1 in H; simpl in H.
  - unfold get_item in H. destruct (nth_error _ _) in H; congruence.
  - destruct (_ && _)%bool in H; simpl in H; [|congruence]. unfold get_item in H. destruct (nth_error _ _) in H; congruence.
Qed.
Lemma others_In n i j : In j (others n i) <-> j < n /\ Z.of_nat j <> i.
Proof.
  unfold others. rewrite filter_In, in_seq, negb_true_iff, Z.eqb_neq. lia.
Qed.

Section C.
  Context {A : Arith}.
  Notation F := (F A).
  Notation vec := (list F).
  Local Open Scope compat_scope.

  (** ** the factory *)
  Lemma iCVI_cases (h : nat -> vec) name :
    iCVI h name =
    match find (fun p => String.eqb name (fst p))
      [("iDB"%string, O_iDB iDB_init); ("iSIL"%string, O_iSIL (iSIL_init h));
       ("iGD43"%string, O_iGD43 (mkiGD 43 (mkMat 0 []) [] f0 [] [] None []));
       ("iGD53"%string, O_iGD53 (mkiGD 53 (mkMat 0 []) [] f0 [] [] None []));
       ("iCH"%string, O_iCH iCH_init); ("iPS"%string, O_iPS iPS_init); ("iXB"%string, O_iXB iXB_init)] with
    | Some (_, o) => Ok o
    | None => Err ValueError
    end.
  Proof.
    unfold iCVI. cbn [find fst]. repeat (destruct (String.eqb name _); [reflexivity|]). reflexivity.
  Qed.

  (** ** CP_update on arrays of one length *)
  Definition g_or (d : nat) (g : option vec) : vec := match g with None => zeros d | Some g => g end.
  Definition cu_v (x v : vec) (n : nat) : vec := map2 fadd v (vdivn (map2 fsub x v) (n + 1)).
  Definition cu_g (x v g : vec) (n : nat) : vec :=
    map2 fadd (map2 fadd g (map2 fsub x (cu_v x v n))) (scal (f_of_nat n) (map2 fsub v (cu_v x v n))).
  Definition cu_cp (x v g : vec) (n : nat) (cp : F) (p q : nat) : F :=
    fadd (fadd (fadd cp (powi (norm q (map2 fsub x (cu_v x v n))) p))
               (fmul (f_of_nat n) (powi (norm q (map2 fsub v (cu_v x v n))) p)))
         (powi (fsqrt (fmul f2 (np_dot (map2 fsub v (cu_v x v n)) g))) p).
  Lemma length_cu_v d x v n : List.length x = d -> List.length v = d -> List.length (cu_v x v n) = d.
  Proof. intros Hx Hv. unfold cu_v, vdivn. rewrite length_map2, map_length, length_map2. lia. Qed.
  Lemma length_cu_g d x v g n : List.length x = d -> List.length v = d -> List.length g = d -> List.length (cu_g x v g n) = d.
  Proof.
    intros Hx Hv Hg. unfold cu_g. rewrite !length_map2, length_scal, !length_map2, (length_cu_v d) by auto. lia.
  Qed.
  Definition len_g (d : nat) (g : option vec) : Prop := match g with None => True | Some g => List.length g = d end.
  Lemma len_g_or d g : len_g d g -> List.length (g_or d g) = d.
  Proof. destruct g; simpl; auto. intros _. apply length_zeros. Qed.
  Lemma CP_update_eq d (x v : vec) n g cp p q : List.length x = d -> List.length v = d -> len_g d g ->
    CP_update x v n g cp p q = Ok (cu_cp x v (g_or d g) n cp p q, cu_g x v (g_or d g) n, cu_v x v n, n + 1).
  Proof.
    intros Hx Hv Hg. unfold CP_update. rewrite Hx. fold (g_or d g). pose proof (len_g_or d g Hg) as Hl.
    pose proof (length_cu_v d x v n Hx Hv) as Hc.
    rewrite vsub_ok by lia. cbn [bindE]. rewrite vadd_ok.
    2:{ unfold vdivn. rewrite map_length, length_map2. lia. }
    cbn [bindE]. fold (cu_v x v n). rewrite vsub_ok by lia. cbn [bindE]. rewrite vsub_ok by lia. cbn [bindE].
    rewrite vadd_ok by (rewrite length_map2; lia). cbn [bindE].
    rewrite vadd_ok by (rewrite length_scal, !length_map2; lia). cbn [bindE].
    rewrite inner_ok by (rewrite length_map2; lia). reflexivity.
  Qed.
  Lemma center_update_eq d (x v : vec) n : List.length x = d -> List.length v = d ->
    cluster_center_update x v n = Ok (cu_v x v n, n + 1).
  Proof.
    intros Hx Hv. unfold cluster_center_update. rewrite vsub_ok by lia. cbn [bindE]. rewrite vadd_ok; [reflexivity|].
    unfold vdivn. rewrite map_length, length_map2. lia.
  Qed.
  Definition cdist (centers : list vec) (a b : nat) : F := norm22 (map2 fsub (nth a centers []) (nth b centers [])).
  Lemma center_dist_eq d (cs : list vec) a b : Forall (fun c => List.length c = d) cs ->
    a < List.length cs -> b < List.length cs ->
    center_dist cs (Z.of_nat a) (Z.of_nat b) = Ok (cdist cs a b).
  Proof.
    intros Hf Ha Hb. unfold center_dist. rewrite Forall_forall in Hf.
    rewrite (py_get_nat cs a (nth a cs [])), (py_get_nat cs b (nth b cs [])) by (now apply nth_error_nth').
    cbn [bindE]. rewrite vsub_ok; [reflexivity|].
    rewrite !Hf; auto; now apply nth_In.
  Qed.
  Lemma py_get_in {X} (l : list X) c dflt : (0 <= c < Z.of_nat (List.length l))%Z ->
    py_get l c = Ok (nth (Z.to_nat c) l dflt).
  Proof.
    intros H. rewrite <- (Z2Nat.id c) at 1 by lia. apply py_get_nat. apply nth_error_nth'. lia.
  Qed.
  Lemma py_set_in {X} (l : list X) c x : (0 <= c < Z.of_nat (List.length l))%Z ->
    py_set l c x = Ok (upd (Z.to_nat c) x l).
  Proof. intros H. rewrite <- (Z2Nat.id c) at 1 by lia. apply py_set_nat. lia. Qed.
  Lemma Forall_upd {X} (P : X -> Prop) i x l : P x -> Forall P l -> Forall P (upd i x l).
  Proof.
    intros Hx H. revert i. induction H as [|y l Hy H IH]; intros [|i]; simpl; constructor; auto.
  Qed.
  Lemma sfor_inv {S X} (P : S -> Prop) (l : list X) body s :
    (forall x s, In x l -> P s -> exists s', body x s = (s', Ok tt) /\ P s') -> P s ->
    exists s', sfor l body s = (s', Ok tt) /\ P s'.
  Proof.
    revert s. induction l as [|x l IH]; intros s H HP; cbn [sfor].
    - exists s. split; auto.
    - destruct (H x s) as (s1 & E1 & P1); [now left|auto|].
      destruct (IH s1) as (s2 & E2 & P2); auto. { intros y s' Hy. apply H. now right. }
      exists s2. split; auto. unfold sbind. now rewrite E1.
  Qed.
  Lemma wfm_pad k c (m : mat A) : wfm k k m -> wfm (S k) (S k) (pad c m).
  Proof. intros (H1 & H2 & H3). unfold pad, nrows. rewrite H1, H2. apply wfm_tab2. Qed.
  Lemma mset_ok k (m : mat A) a b x : wfm k k m -> a < k -> b < k ->
    exists m', mset m (Z.of_nat a) (Z.of_nat b) x = Ok m' /\ wfm k k m'.
  Proof.
    intros Hm Ha Hb. pose proof (wfm_row k k m a Hm Ha) as Hr. destruct Hm as (H1 & H2 & H3). unfold mset, nrows.
    rewrite H1, H2, !py_index_nat by auto. cbn [bindE]. eexists. split; [reflexivity|].
    repeat split; simpl.
    - now rewrite length_upd.
    - apply Forall_upd; auto. now rewrite length_upd.
  Qed.
  Lemma mget_ok k (m : mat A) a b : wfm k k m -> a < k -> b < k ->
    mget m (Z.of_nat a) (Z.of_nat b) = Ok (entry m a b).
  Proof.
    intros (H1 & H2 & H3) Ha Hb. unfold mget, nrows. now rewrite H1, H2, !py_index_nat by auto.
  Qed.

  (** ** iGD *)
  (** shape of the attributes with [k] clusters of [d]-dimensional samples *)
  Definition GDW (d k : nat) (o : iGD (A := A)) : Prop :=
    List.length (gd_centers o) = k /\ Forall (fun c => List.length c = d) (gd_centers o) /\
    List.length (gd_sizes o) = k /\ List.length (gd_CP o) = k /\ len_g d (gd_g o) /\ wfm k k (gd_d o).
  Lemma iGD_new (x : vec) (o : iGD (A := A)) :
    iGD_update x (Z.of_nat (List.length (gd_centers o))) o =
    (mkiGD (gd_t o) (pad finf (gd_d o)) (gd_D o ++ [fneg finf]) (gd_output o) (gd_centers o ++ [x])
       (gd_sizes o ++ [1]) (gd_g o) (gd_CP o ++ [f0]), Ok (gd_output o)).
  Proof. unfold iGD_update. unfold sbind at 1, sget at 1. rewrite Z.eqb_refl. reflexivity. Qed.
  Lemma iGD_new_W d k x o : GDW d k o -> List.length x = d ->
    GDW d (S k) (fst (iGD_update x (Z.of_nat k) o)).
  Proof.
    intros (H1 & H2 & H3 & H4 & H5 & H6) Hx. rewrite <- H1 at 2. rewrite iGD_new. cbn [fst].
    split; [|split; [|split; [|split; [|split]]]]; cbn [gd_centers gd_sizes gd_CP gd_g gd_d]; rewrite ?app_length; simpl; try lia; auto.
    - apply Forall_app. split; auto.
    - now apply wfm_pad.
  Qed.
  Lemma iGD_old d k x o (i : nat) : GDW d k o -> List.length x = d -> i < k ->
    exists o', iGD_update x (Z.of_nat i) o = (o', Err AttributeError) /\ GDW d k o' /\
      gd_t o' = gd_t o /\ gd_output o' = gd_output o /\ gd_D o' = gd_D o /\
      gd_sizes o' = upd i (nth i (gd_sizes o) 0 + 1) (gd_sizes o) /\
      gd_centers o' = upd i (cu_v x (nth i (gd_centers o) []) (nth i (gd_sizes o) 0)) (gd_centers o).
  Proof.
    intros (H1 & H2 & H3 & H4 & H5 & H6) Hx Hi.
    assert (Hv : List.length (nth i (gd_centers o) []) = d).
    { rewrite Forall_forall in H2. apply H2, nth_In. lia. }
    unfold iGD_update. cbv beta delta [sbind sget smod slift sret]. cbv beta iota.
    replace (Z.of_nat i =? Z.of_nat (List.length (gd_centers o)))%Z with false by (symmetry; apply Z.eqb_neq; lia).
    replace (Z.of_nat (List.length (gd_sizes o)) <? Z.of_nat i)%Z with false by (symmetry; apply Z.ltb_ge; lia).
    rewrite (py_get_nat (gd_centers o) i (nth i (gd_centers o) [])) by (apply nth_error_nth'; lia).
    rewrite (py_get_nat (gd_sizes o) i (nth i (gd_sizes o) 0)) by (apply nth_error_nth'; lia).
    rewrite (py_get_nat (gd_CP o) i (nth i (gd_CP o) f0)) by (apply nth_error_nth'; lia).
    rewrite (CP_update_eq d) by auto. cbv beta iota.
    set (v' := cu_v _ _ _). set (cp' := cu_cp _ _ _ _ _ _ _). set (g' := cu_g _ _ _ _).
    rewrite !py_set_nat by (cbn; lia).
    cbn [gd_t gd_d gd_D gd_output gd_centers gd_sizes gd_g gd_CP set_gd_CP set_gd_g set_gd_centers set_gd_sizes].
    set (o1 := mkiGD (gd_t o) (gd_d o) (gd_D o) (gd_output o) (upd i v' (gd_centers o))
                 (upd i (nth i (gd_sizes o) 0 + 1) (gd_sizes o)) (Some g') (upd i cp' (gd_CP o))).
    assert (W1 : GDW d k o1).
    { unfold o1. split; [|split; [|split; [|split; [|split]]]]; cbn [gd_centers gd_sizes gd_CP gd_g gd_d]; rewrite ?length_upd; auto.
      - apply Forall_upd; auto. now apply length_cu_v.
      - cbn. apply length_cu_g; auto. now apply len_g_or. }
    match goal with |- context [sfor ?l ?b ?s0] =>
      destruct (sfor_inv (fun s => exists m, s = mkiGD (gd_t o1) m (gd_D o1) (gd_output o1) (gd_centers o1) (gd_sizes o1)
                                                (gd_g o1) (gd_CP o1) /\ wfm k k m) l b s0) as (s2 & E2 & m2 & -> & Hm2)
    end.
    - intros j s Hj (m & -> & Hm). apply others_In in Hj as [Hj Hne].
      rewrite length_upd in Hj.
      cbv beta delta [sbind sget smod slift sret]. cbv beta iota.
      cbn [gd_t gd_d gd_D gd_output gd_centers gd_sizes gd_g gd_CP].
      assert (exists y, (if gd_t o1 =? 43 then center_dist (gd_centers o1) (Z.of_nat i) (Z.of_nat j)
        else let* a := py_get (gd_CP o1) (Z.of_nat i) in let* b := py_get (gd_CP o1) (Z.of_nat j) in
             let* na := py_get (gd_sizes o1) (Z.of_nat i) in let* nb := py_get (gd_sizes o1) (Z.of_nat j) in
             Ok (fdiv (fadd a b) (f_of_nat (na + nb)))) = Ok y) as [y Ey].
      { destruct W1 as (W1 & W2 & W3 & W4 & _). destruct (gd_t o1 =? 43).
        - rewrite (center_dist_eq d) by (auto; lia). eauto.
        - rewrite !(py_get_in (gd_CP o1) _ f0), !(py_get_in (gd_sizes o1) _ 0) by lia. cbn [bindE]. eauto. }
      rewrite Ey. destruct (mset_ok k m i j y Hm) as (m1 & E1 & Hm1); [auto|lia|]. rewrite E1.
      cbn [gd_t gd_d gd_D gd_output gd_centers gd_sizes gd_g gd_CP set_gd_d].
      rewrite (mget_ok k) by (auto; lia).
      destruct (mset_ok k m1 j i (entry m1 i j) Hm1) as (m3 & E3 & Hm3); [lia|auto|]. rewrite E3.
      eexists. split; [reflexivity|]. exists m3. split; auto.
    - exists (gd_d o1). split; [reflexivity|apply W1].
    - rewrite E2. cbn [gd_t gd_d gd_D gd_output gd_centers gd_sizes gd_g gd_CP].
      destruct W1 as (W1 & W2 & W3 & W4 & W5 & W6).
      rewrite (py_get_in (gd_CP o1) _ f0), (py_get_in (gd_sizes o1) _ 0) by lia.
      eexists. split; [reflexivity|]. repeat split; auto; apply Hm2.
  Qed.
  Lemma iGD_old_never (x : vec) c (o o' : iGD (A := A)) y :
    (c <> Z.of_nat (List.length (gd_centers o)))%Z -> iGD_update x c o <> (o', Ok y).
  Proof.
    intros Hc H. unfold iGD_update in H.
    apply sbind_ok in H as (s1 & x1 & E1 & H). injection E1 as <- <-.
    apply sbind_ok in H as (s2 & x2 & H & _).
    apply Z.eqb_neq in Hc. rewrite Hc in H. destruct (_ <? _)%Z; [discriminate|].
    repeat first [ apply sbind_ok in H as (? & ? & ? & H)
                 | match goal with r : (_ * _ * _ * _)%type |- _ => destruct r as [[[? ?] ?] ?] end ].
    discriminate.
  Qed.

  (** ** iDB *)
  Lemma iDB_new (x : vec) (o : iDB (A := A)) :
    iDB_update x (Z.of_nat (List.length (db_centers o))) o =
    (mkiDB (db_R o ++ [f0]) (db_S o ++ [f0]) (pad f0 (db_M o)) (db_output o) (db_N o + 1) (db_centers o ++ [x])
       (db_sizes o ++ [1]) (db_g o) (db_CP o), Ok (db_output o)).
  Proof.
    unfold iDB_update. cbv beta delta [sbind sget smod slift sret]. cbv beta iota.
    cbn [db_centers set_db_N]. rewrite Z.eqb_refl. reflexivity.
  Qed.
  Lemma iDB_old (x : vec) c (o : iDB (A := A)) : db_CP o = [] ->
    c <> Z.of_nat (List.length (db_centers o)) ->
    iDB_update x c o = (set_db_N (db_N o + 1) o,
                        Err (if (Z.of_nat (List.length (db_sizes o)) <? c)%Z then ValueError else IndexError)).
  Proof.
    intros H1 H2. unfold iDB_update. cbv beta delta [sbind sget smod slift sret]. cbv beta iota.
    cbn [db_centers db_sizes db_CP set_db_N]. apply Z.eqb_neq in H2. rewrite H2.
    destruct (_ <? _)%Z; [reflexivity|].
    destruct (py_get (db_centers o) c) as [v|e] eqn:Ev; [|apply py_get_err in Ev; now subst].
    destruct (py_get (db_sizes o) c) as [n|e] eqn:En; [|apply py_get_err in En; now subst].
    rewrite H1, py_get_nil. reflexivity.
  Qed.
  (** no update ever stores anything in CP or changes the output *)
  Lemma iDB_inv (x : vec) c (o o' : iDB (A := A)) r : db_CP o = [] ->
    iDB_update x c o = (o', r) -> db_CP o' = [] /\ db_output o' = db_output o /\ forall y, r = Ok y -> y = db_output o.
  Proof.
    intros H1 E. destruct (Z.eq_dec c (Z.of_nat (List.length (db_centers o)))) as [->|Hc].
    - rewrite iDB_new in E. injection E as <- <-. repeat split; auto. intros y Hy. now injection Hy.
    - rewrite iDB_old in E by auto. injection E as <- <-. repeat split; auto. intros y Hy. discriminate.
  Qed.
End C.
