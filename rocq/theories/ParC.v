(** * Two runs of the same program on related numbers: the methods *)
From Coq Require Import ZArith List Arith Bool Lia.
From Verif Require Import Num NumPy Base M_CH M_D M_PS GetCvi Lists Eval Hoare.
From Verif Require Import Par ParL.
Import ListNotations.

Section Run.
  Context {A B : Arith} (s : Sorts A B).
  Section C.
  Context (c : kind) (L : Lawful s c).
  Notation RMc := (RM s c).
  Notation P2 := (Forall2 (sP s)).

  Ltac facts Ho :=
    pose proof (a_v _ _ _ _ Ho); pose proof (a_CP _ _ _ _ Ho); pose proof (a_G _ _ _ _ Ho); pose proof (a_mu _ _ _ _ Ho);
    pose proof (a_D _ _ _ _ Ho); pose proof (a_S1 _ _ _ _ Ho); pose proof (a_S2 _ _ _ _ Ho); pose proof (a_SEP _ _ _ _ Ho);
    pose proof (a_sig _ _ _ _ Ho); pose proof (a_dt _ _ _ _ Ho); pose proof (a_const _ _ _ _ Ho);
    rewrite ?(a_dim _ _ _ _ Ho), ?(a_ns _ _ _ _ Ho), ?(a_n _ _ _ _ Ho), ?(a_na _ _ _ _ Ho), ?(a_CPd _ _ _ _ Ho), ?(a_k _ _ _ _ Ho), ?(a_set _ _ _ _ Ho).
  Ltac getm := apply RM_get; let o := fresh "o" in let o' := fresh "o'" in let Ho := fresh "Ho" in intros o o' Ho; facts Ho.
  Ltac setm := apply RM_mod; intros;
    first [apply st_dim|apply st_ns|apply st_n|apply st_na|apply st_cpd|apply st_k|apply st_set|apply st_v|apply st_G|apply st_CP
          |apply st_cv|apply st_mu|apply st_SEP|apply st_BG|apply st_WG|apply st_D|apply st_R|apply st_S1|apply st_S2|apply st_sil
          |apply st_inter|apply st_intra|apply st_vb|apply st_bt|apply st_psi|apply st_sig|apply st_dt|apply st_const]; auto.
  Ltac nxt := apply RM_seq.

  Lemma par_base_setup x y : P2 x y -> RMc ru (base_setup x) (base_setup y).
  Proof.
    intros H. unfold base_setup. rewrite (par_length _ x y H). nxt; [setm|]. getm. nxt; [setm; apply par_zmat, (l_P0 s c L)|].
    nxt; [setm; apply par_zmat, (l_P0 s c L)|]. setm.
  Qed.
  Lemma par_base_batch m m' : rmat (sP s) m m' -> RMc ru (base_setup_batch m) (base_setup_batch m').
  Proof. intros H. unfold base_setup_batch. rewrite (par_nrows _ m m' H), (proj1 H). nxt; [setm|]. nxt; setm. Qed.
  Lemma par_append k : RMc ru (append_n k) (append_n k).
  Proof. unfold append_n. getm. destruct (n_array o'); [apply RM_raise|setm]. Qed.

  (** the mean of the samples *)
  Lemma par_mu_head (S1 : M A unit) (S2 : M B unit) o o' x y : AR s c o o' -> P2 x y -> RMc ru S1 S2 ->
    RMc ru (if n_samples o' =? 0 then S1 else do mu' <- lift (srunning_mean (n_samples o' + 1) (mu o) x) ;; modify (set_mu mu'))
           (if n_samples o' =? 0 then S2 else do mu' <- lift (srunning_mean (n_samples o' + 1) (mu o') y) ;; modify (set_mu mu')).
  Proof.
    intros Ho H HS. destruct (_ =? 0); auto. facts Ho. apply (RM_let s c ru P2); [now apply (par_srm s c L)|]. intros. setm.
  Qed.
  (** CP_new of an existing cluster *)
  Lemma par_CP_new a b d d' e e' g g' k : c <> kcSIL -> sC s c a b -> sU s d d' -> sU s e e' -> sQ s g g' ->
    sC s c (fadd (fadd (fadd a d) (fmul (f_of_nat k) e)) (fmul f2 g)) (fadd (fadd (fadd b d') (fmul (f_of_nat k) e')) (fmul f2 g')).
  Proof.
    intros Hk Ha Hd He Hg. assert (Ht : sT s a b) by (unfold sC in Ha; destruct c; auto; congruence).
    assert (Hr : sT s (fadd (fadd (fadd a d) (fmul (f_of_nat k) e)) (fmul f2 g)) (fadd (fadd (fadd b d') (fmul (f_of_nat k) e')) (fmul f2 g'))).
    { apply (l_Tadd s c L); [apply (l_Tadd s c L); [apply (l_Tadd s c L); [auto|now apply (l_UQ s c L)]|apply (l_UQ s c L), (l_Umul s c L)]|apply (l_Qmul s c L)]; auto using (l_2 s c L). }
    unfold sC. destruct c; auto; congruence.
  Qed.
  Lemma par_upd_row (m : mat A) (m' : mat B) i x y : rmat (sP s) m m' -> P2 x y ->
    rmat (sP s) (mkMat (mcols m) (upd i x (mrows m))) (mkMat (mcols m') (upd i y (mrows m'))).
  Proof. intros [H1 H2] H. split; cbn; auto. now apply par_upd. Qed.
  Lemma par_sep (o : attrs A) (o' : attrs B) ix : AR s c o o' ->
    rE (sS s) (let* n_ix := get_item (n o') ix in let* v_ix := row (v o) ix in let* df := vsub v_ix (mu o) in
               Ok (fmul (f_of_nat n_ix) (py_sumsq df)))
              (let* n_ix := get_item (n o') ix in let* v_ix := row (v o') ix in let* df := vsub v_ix (mu o') in
               Ok (fmul (f_of_nat n_ix) (py_sumsq df))).
  Proof.
    intros Ho. facts Ho. apply (par_bindE eq); [now apply par_eq_item|]. intros k ? <-.
    apply (par_bindE P2); [now apply par_row|]. intros. apply (par_bindE P2); [now apply (par_vsub s c L)|]. intros.
    apply rE_ok. apply (l_Smul s c L); [now apply (l_nat s c L)|]. now apply (l_US s c L), (par_py_sumsq s c L).
  Qed.

  Tactic Notation "letm" uconstr(R) := apply (RM_let s c ru R).

  (** the common part of the incremental updates that keep _CP and _G *)
  Lemma par_CH_inc x y i : c = kCH \/ c = kWB -> P2 x y -> RMc ru (CH_param_inc x i) (CH_param_inc y i).
  Proof.
    intros Hk H. assert (Hs : c <> kcSIL) by (destruct Hk; subst; discriminate). unfold CH_param_inc. getm. nxt.
    { apply par_mu_head; auto. unfold CH_setup. nxt; [now apply par_base_setup|]. getm. nxt; [setm; apply par_zeros, (l_S0 s c L); auto|]. setm. }
    getm. nxt; [destruct (n_clusters o'0 <=? i)|].
    - nxt; [setm|]. nxt; [apply par_append|]. nxt; [setm; apply par_snoc; auto; now apply (l_C0 s c L)|].
      letm (rmat (sP s)); [now apply par_vstack|]. intros. nxt; [setm|].
      letm (rmat (sP s)); [apply par_vstack; auto; apply par_zeros, (l_P0 s c L)|]. intros. setm.
    - letm (@eq nat); [now apply par_eq_item|]. intros n_i ? <-.
      letm P2; [now apply par_row|]. intros vi vi' Hvi. letm P2; [now apply (par_rm s c L)|]. intros vn vn' Hvn.
      letm P2; [now apply (par_vsub s c L)|]. intros dv dv' Hdv. letm P2; [now apply (par_vsub s c L)|]. intros dx dx' Hdx.
      letm (sC s c); [now apply par_get_item|]. intros cp cp' Hcp. letm (sU s); [now apply (par_inner_self s c L)|]. intros d2 d2' Hd2.
      letm (sU s); [now apply (par_inner_self s c L)|]. intros e2 e2' He2. letm P2; [now apply par_row|]. intros g g' Hg.
      letm (sQ s); [now apply (par_inner s c L)|]. intros q q' Hq. letm P2; [now apply (par_vadd s c L)|]. intros g1 g1' Hg1.
      letm P2; [apply (par_vadd s c L); auto; apply (par_scal s c L); auto; now apply (l_nat s c L)|]. intros gn gn' Hgn.
      letm (@eq (list nat)); [now apply par_eq_set|]. intros n' ? <-. nxt; [setm|].
      letm (rmat (sP s)); [now apply par_set_row|]. intros. nxt; [setm|].
      letm (Forall2 (sC s c)); [apply par_set_item; auto; now apply par_CP_new|]. intros. nxt; [setm|].
      letm (rmat (sP s)); [now apply par_set_row|]. intros. setm.
    - nxt; [setm|]. getm. letm (Forall2 (sS s)); [apply par_mapE_seq; intros; now apply par_sep|]. intros. setm.
  Qed.

  Lemma par_WB_inc x y i : c = kCH \/ c = kWB -> P2 x y -> RMc ru (WB_param_inc x i) (WB_param_inc y i).
  Proof. exact (par_CH_inc x y i). Qed.

  Ltac old_head :=
      letm (@eq nat); [now apply par_eq_item|]; intros n_i ? <-;
      letm P2; [now apply par_row|]; intros vi vi' Hvi; letm P2; [now apply (par_rm s c L)|]; intros vn vn' Hvn.
  Ltac old_cp :=
      letm P2; [now apply (par_vsub s c L)|]; intros dv dv' Hdv; letm P2; [now apply (par_vsub s c L)|]; intros dx dx' Hdx;
      letm (sC s c); [now apply par_get_item|]; intros cp cp' Hcp; letm (sU s); [now apply (par_inner_self s c L)|]; intros d2 d2' Hd2;
      letm (sU s); [now apply (par_inner_self s c L)|]; intros e2 e2' He2; letm P2; [now apply par_row|]; intros g g' Hg;
      letm (sQ s); [now apply (par_inner s c L)|]; intros q q' Hq; letm P2; [now apply (par_vadd s c L)|]; intros g1 g1' Hg1;
      letm P2; [apply (par_vadd s c L); auto; apply (par_scal s c L); auto; now apply (l_nat s c L)|]; intros gn gn' Hgn.
  Ltac old_nv :=
      letm (@eq (list nat)); [now apply par_eq_set|]; intros n' ? <-; nxt; [setm|];
      letm (rmat (sP s)); [now apply par_set_row|]; intros; nxt; [setm|].
  Ltac old_cg :=
      letm (Forall2 (sC s c)); [apply par_set_item; auto; now apply par_CP_new|]; intros; nxt; [setm|];
      letm (rmat (sP s)); [now apply par_set_row|]; intros; nxt; [setm|].
  Ltac old_D :=
      letm (rmat (sD s c)); [now apply par_set_row|]; intros; nxt; [setm|];
      letm (rmat (sD s c)); [now apply par_set_col|]; intros; setm.
  Ltac new_D tm :=
      letm (rmat (sD s c)); [apply (par_D_new s c L); auto; intros; tm|]; intros.
  Ltac new_n := nxt; [setm|]; nxt; [apply par_append|].
  Ltac new_cp := nxt; [setm; apply par_snoc; auto; now apply (l_C0 s c L)|].
  Ltac new_v := letm (rmat (sP s)); [now apply par_vstack|]; intros; nxt; [setm|].
  Ltac new_G := letm (rmat (sP s)); [apply par_vstack; auto; apply par_zeros, (l_P0 s c L)|]; intros; nxt; [setm|].

  Lemma par_sqD x y m m' j : sD s c = sS s -> P2 x y -> rmat (sP s) m m' -> rE (sD s c) (sqdist_to x m j) (sqdist_to y m' j).
  Proof.
    intros Hk H Hm. apply (rE_mono (sU s)); [|now apply (par_sqdist s c L)]. rewrite Hk. intros. now apply (l_US s c L).
  Qed.
  Lemma par_DB_inc x y i : c = kDB -> P2 x y -> RMc ru (DB_param_inc x i) (DB_param_inc y i).
  Proof.
    intros Hk H. assert (Hs : c <> kcSIL) by (subst; discriminate). assert (Hg3 : sD s c = sS s) by (subst; reflexivity).
    unfold DB_param_inc. getm. nxt.
    { apply par_mu_head; auto. unfold DB_setup. nxt; [now apply par_base_setup|]. setm. }
    getm. nxt; [destruct (n_clusters o'0 <=? i)|].
    - unfold DB_term. new_D ltac:(now apply par_sqD). new_n. new_cp. nxt; [setm; apply par_snoc; auto; now apply (l_S0 s c L)|]. new_v. new_G. setm.
    - old_head. old_cp. letm (Forall2 (sD s c)); [apply (par_D_old s c L); auto; intros; now apply par_sqD|]. intros col col' Hcol.
      old_nv. old_cg. letm (Forall2 (sS s)).
      { apply par_set_item; auto. apply (l_Sdiv s c L); [|now apply (l_nat s c L)]. apply (l_CS s c L). now apply par_CP_new. }
      intros. nxt; [setm|]. old_D.
    - setm.
  Qed.
  Lemma par_XB_inc x y i : c = kXB -> P2 x y -> RMc ru (XB_param_inc x i) (XB_param_inc y i).
  Proof.
    intros Hk H. assert (Hs : c <> kcSIL) by (subst; discriminate). assert (Hg3 : sD s c = sS s) by (subst; reflexivity).
    unfold XB_param_inc. getm. nxt.
    { apply par_mu_head; auto. unfold XB_setup. nxt; [now apply par_base_setup|]. getm. nxt; [setm; apply par_zeros, (l_S0 s c L); auto|]. setm. }
    getm. nxt; [destruct (n_clusters o'0 <=? i)|].
    - unfold XB_term. new_D ltac:(now apply par_sqD). new_n. new_cp. new_v. new_G. setm.
    - old_head. old_cp. letm (Forall2 (sD s c)); [apply (par_D_old s c L); auto; intros; now apply par_sqD|]. intros col col' Hcol.
      old_nv. old_cg. old_D.
    - setm.
  Qed.
  Lemma par_sqrtD x y m m' j : c = kGD43 -> P2 x y -> rmat (sP s) m m' ->
    rE (sD s c) (let* d := sqdist_to x m j in Ok (fsqrt d)) (let* d := sqdist_to y m' j in Ok (fsqrt d)).
  Proof.
    intros Hk H Hm. apply (par_bindE (sU s)); [now apply (par_sqdist s c L)|]. intros. rewrite Hk. cbn [sD]. now apply rE_ok, (l_sqrt s c L).
  Qed.
  Lemma par_GD43_inc x y i : c = kGD43 -> P2 x y -> RMc ru (GD43_param_inc x i) (GD43_param_inc y i).
  Proof.
    intros Hk H. assert (Hs : c <> kcSIL) by (subst; discriminate).
    unfold GD43_param_inc. getm. nxt.
    { apply par_mu_head; auto. unfold GD43_setup. nxt; [now apply par_base_setup|]. setm. }
    getm. nxt; [destruct (n_clusters o'0 <=? i)|].
    - unfold GD43_term. new_D ltac:(now apply par_sqrtD). new_n. new_cp. new_v. new_G. setm.
    - old_head. old_cp. letm (Forall2 (sD s c)); [apply (par_D_old s c L); auto; intros; now apply par_sqrtD|]. intros col col' Hcol.
      old_nv. old_cg. old_D.
    - setm.
  Qed.
  Lemma par_GD53_term o o' vn vn' cp cp' k j : c = kGD53 -> AR s c o o' -> sC s c cp cp' ->
    rE (sD s c) (GD53_term o vn cp k j) (GD53_term o' vn' cp' k j).
  Proof.
    intros Hk Ho H. facts Ho. unfold GD53_term. rewrite (a_n _ _ _ _ Ho). apply (par_bindE (sC s c)); [now apply par_get_item|]. intros.
    apply (par_bindE eq); [now apply par_eq_item|]. intros m ? <-. apply rE_ok. assert (HD : sD s c = sS s) by now rewrite Hk. rewrite HD.
    apply (l_Sdiv s c L); [|now apply (l_nat s c L)]. apply (l_Sadd s c L); now apply (l_CS s c L).
  Qed.
  Lemma par_GD53_inc x y i : c = kGD53 -> P2 x y -> RMc ru (GD53_param_inc x i) (GD53_param_inc y i).
  Proof.
    intros Hk H. assert (Hs : c <> kcSIL) by (subst; discriminate).
    unfold GD53_param_inc. getm. nxt.
    { apply par_mu_head; auto. unfold GD53_setup. nxt; [now apply par_base_setup|]. setm. }
    getm. nxt; [destruct (n_clusters o'0 <=? i)|].
    - new_D ltac:(apply par_GD53_term; auto; now apply (l_C0 s c L)). new_n. new_cp. new_v. new_G. setm.
    - old_head. old_cp. letm (Forall2 (sD s c)); [apply (par_D_old s c L); auto; intros; apply par_GD53_term; auto; now apply par_CP_new|]. intros col col' Hcol.
      old_nv. old_cg. old_D.
    - setm.
  Qed.
  Lemma par_PS_inc x y i : c = kPS -> P2 x y -> RMc ru (PS_param_inc x i) (PS_param_inc y i).
  Proof.
    intros Hk H. assert (Hg3 : sD s c = sS s) by (subst; reflexivity).
    unfold PS_param_inc. getm. nxt.
    { destruct (_ =? 0); [|apply RM_ret; exact I]. unfold PS_setup. nxt; [now apply par_base_setup|]. getm.
      destruct (CP_deleted o'0); [apply RM_raise|setm]. }
    getm. nxt; [destruct (n_clusters o'0 <=? i)|].
    - new_D ltac:(now apply par_sqD). new_n. new_v. setm.
    - old_head. letm (Forall2 (sD s c)); [apply (par_D_old s c L); auto; intros; now apply par_sqD|]. intros col col' Hcol.
      old_nv. old_D.
    - setm.
  Qed.
  Lemma par_scol_new o o' cp cp' g g' j : AR s c o o' -> sU s cp cp' -> P2 g g' ->
    rE (sS s) (cSIL_col_new o cp g j) (cSIL_col_new o' cp' g' j).
  Proof.
    intros Ho Hcp Hg. facts Ho. unfold cSIL_col_new.
    apply (par_bindE P2); [now apply par_row|]. intros w w' Hw. apply (par_bindE (sU s)); [now apply (par_inner_self s c L)|]. intros.
    apply (par_bindE (sQ s)); [now apply (par_inner s c L)|]. intros. apply rE_ok. apply (l_Usub s c L); auto. now apply (l_Uadd s c L).
  Qed.
  Lemma par_srow_new o o' w w' j : c = kcSIL -> AR s c o o' -> P2 w w' ->
    rE (sS s) (cSIL_row_new o w j) (cSIL_row_new o' w' j).
  Proof.
    intros Hk Ho Hw. facts Ho. assert (HC : sC s c = sU s) by now rewrite Hk. rewrite HC in *. unfold cSIL_row_new. rewrite (a_n _ _ _ _ Ho).
    apply (par_bindE (sU s)); [now apply par_get_item|]. intros. apply (par_bindE eq); [now apply par_eq_item|]. intros m ? <-.
    apply (par_bindE (sU s)); [now apply (par_sinner_self s c L)|]. intros. apply (par_bindE P2); [now apply par_row|]. intros.
    apply (par_bindE (sQ s)); [now apply (par_inner s c L)|]. intros. apply rE_ok. apply (l_Sdiv s c L); [|now apply (l_nat s c L)].
    apply (l_Usub s c L); [apply (l_Usadd s c L); auto; now apply (l_Usmul s c L)|]. apply (l_Qmul s c L); auto. now apply (l_2 s c L).
  Qed.
  Lemma par_srow o o' w w' j : c = kcSIL -> AR s c o o' -> P2 w w' ->
    rE (sS s) (cSIL_row o w j) (cSIL_row o' w' j).
  Proof.
    intros Hk Ho Hw. facts Ho. assert (HC : sC s c = sU s) by now rewrite Hk. rewrite HC in *. unfold cSIL_row. rewrite (a_n _ _ _ _ Ho).
    apply (par_bindE (sU s)); [now apply par_get_item|]. intros. apply (par_bindE eq); [now apply par_eq_item|]. intros m ? <-.
    apply (par_bindE (sU s)); [now apply (par_inner_self s c L)|]. intros. apply (par_bindE P2); [now apply par_row|]. intros.
    apply (par_bindE (sQ s)); [now apply (par_inner s c L)|]. intros. apply rE_ok. apply (l_Sdiv s c L); [|now apply (l_nat s c L)].
    apply (l_Usub s c L); [apply (l_Uadd s c L); auto; now apply (l_Umul s c L)|]. apply (l_Qmul s c L); auto. now apply (l_2 s c L).
  Qed.
  Lemma par_scol_old o o' x y cp cp' k g g' j : AR s c o o' -> P2 x y -> sU s cp cp' -> P2 g g' ->
    rE (sS s) (cSIL_col_old o x cp k g j) (cSIL_col_old o' y cp' k g' j).
  Proof.
    intros Ho Hx Hcp Hg. facts Ho. unfold cSIL_col_old. apply (par_bindE P2); [now apply par_row|]. intros w w' Hw.
    apply (par_bindE P2); [now apply (par_vsub s c L)|]. intros. apply (par_bindE (sU s)); [now apply (par_inner_self s c L)|]. intros.
    apply (par_bindE (sU s)); [now apply (par_inner_self s c L)|]. intros.
    apply (par_bindE (sQ s)); [now apply (par_inner s c L)|]. intros. apply rE_ok. apply (l_Sdiv s c L); [|now apply (l_nat s c L)].
    apply (l_Usub s c L); [apply (l_Uadd s c L); [now apply (l_Uadd s c L)|now apply (l_Umul s c L)]|]. apply (l_Qmul s c L); auto. now apply (l_2 s c L).
  Qed.
  (** shapes *)
  Lemma rE_and {X Y} (R : X -> Y -> Prop) (Q : X -> Prop) a b : rE R a b -> (forall x, a = Ok x -> Q x) -> rE (fun x y => R x y /\ Q x) a b.
  Proof. destruct a, b; cbn; auto. Qed.
  Lemma rect_tab2 {X : Arith} a b (f : nat -> nat -> F X) : rect (tab2 a b f).
  Proof. unfold rect, tab2. cbn. apply Forall_forall. intros r Hr. apply in_map_iff in Hr as (i & <- & _). now rewrite map_length, seq_length. Qed.
  Lemma rect_zmat {X : Arith} a b : rect (zmat a b : mat X).
  Proof. unfold rect, zmat. cbn. apply Forall_forall. intros r Hr. apply repeat_spec in Hr as ->. apply repeat_length. Qed.
  Lemma rect_grow {X : Arith} k (m m' : mat X) : grow k m = Ok m' -> rect m'.
  Proof. unfold grow. destruct (_ && _); [|discriminate]. intros H. injection H as <-. apply rect_tab2. Qed.
  Lemma Forall_upd {X} (P : X -> Prop) i x l : P x -> Forall P l -> Forall P (upd i x l).
  Proof. intros Hx H. revert i. induction H; intros [|i]; cbn; constructor; auto. Qed.
  Lemma rect_set_row {X : Arith} (m m' : mat X) i r : rect m -> set_row m i r = Ok m' -> rect m'.
  Proof.
    unfold set_row. intros Hm. destruct (_ <? _); [|discriminate]. destruct (length r =? mcols m) eqn:E.
    - intros H. injection H as <-. apply Nat.eqb_eq in E. now apply Forall_upd.
    - destruct r as [|x [|]]; try discriminate. intros H. injection H as <-. apply Forall_upd; auto. apply repeat_length.
  Qed.
  Lemma rect_set_col {X : Arith} (m m' : mat X) i r : rect m -> set_col m i r = Ok m' -> rect m'.
  Proof.
    unfold set_col, rect. intros Hm. destruct (_ <? _); [|discriminate]. destruct (length r =? nrows m) eqn:E.
    - intros H. injection H as <-. cbn. clear E. revert r. induction Hm; intros [|x0 r']; cbn; constructor; auto. now rewrite length_upd.
    - destruct r as [|x [|]]; try discriminate. intros H. injection H as <-. cbn. clear E. induction Hm; cbn; constructor; auto. now rewrite length_upd.
  Qed.
  Definition rmr (m : mat A) (m' : mat B) : Prop := rmat (sS s) m m' /\ rect m.
  Notation SS := (rpair (sS s) (sS s)).
  Lemma par_cSIL_inc x y i : c = kcSIL -> P2 x y -> RMc ru (cSIL_param_inc x i) (cSIL_param_inc y i).
  Proof.
    intros Hk H. assert (HC : sC s c = sU s) by now rewrite Hk. pose proof (l_S0 s c L) as H0.
    unfold cSIL_param_inc. getm. nxt.
    { destruct (_ =? 0); [|apply RM_ret; exact I]. unfold cSIL_setup. now apply par_base_setup. }
    getm. nxt; [destruct (n_clusters o'0 <=? i)|].
    - letm (sU s); [now apply (par_sinner_self s c L)|]. intros cp cp' Hcp. apply (RM_bind s c rmr).
      + destruct (_ =? 0); [apply RM_ret; split; [now apply par_zmat|apply rect_zmat]|]. apply (RM_let s c _ rmr); [apply rE_and; [now apply par_grow|intros z; apply rect_grow]|]. intros M0 M0' [HM0 HM1].
        apply (RM_let s c _ (Forall2 SS)).
        { apply par_mapE_seq. intros. apply (par_bindE (sS s)); [now apply par_scol_new|]. intros.
          apply (par_bindE (sS s)); [now apply par_srow_new|]. intros. apply rE_ok. now split. }
        intros cs cs' Hcs. apply (RM_let s c _ (Forall2 (sS s))); [apply par_set_item; auto; apply par_snoc; auto; now apply (par_fst _ _ _ _ Hcs)|]. intros.
        apply (RM_let s c _ (Forall2 (sS s))); [apply par_set_item; auto; apply par_snoc; auto; now apply (par_snd _ _ _ _ Hcs)|]. intros.
        apply (RM_let s c _ rmr); [apply rE_and; [now apply par_set_row|intros z; now apply rect_set_row]|]. intros M1 M1' [HM2 HM3]. apply RM_lift. apply rE_and; [now apply par_set_col|intros z; now apply rect_set_col].
      + intros M0 M0' [HM0 HM1]. new_n. nxt; [setm; apply par_snoc; auto; now apply (l_UC s c L)|]. new_v.
        letm (rmat (sP s)); [now apply par_vstack|]; intros; nxt; [setm|]. setm.
    - old_head. letm (sC s c); [now apply par_get_item|]. intros cp cp' Hcp. letm (sU s); [now apply (par_sinner_self s c L)|]. intros xx xx' Hxx.
      letm P2; [now apply par_row|]. intros g g' Hg. letm P2; [now apply (par_vadd s c L)|]. intros gn gn' Hgn. rewrite HC in Hcp.
      letm (Forall2 SS).
      { apply par_mapE_seq. intros j _. destruct (j =? i); [apply rE_ok; now split|]. apply (par_bindE (sS s)); [now apply par_scol_old|]. intros.
        apply (par_bindE (sS s)); [now apply par_srow|]. intros. apply rE_ok. now split. }
      intros cs cs' Hcs. letm P2; [now apply (par_vsub s c L)|]. intros dx dx' Hdx. letm (sU s); [now apply (par_inner_self s c L)|]. intros d2 d2' Hd2.
      letm (sU s); [now apply (par_inner_self s c L)|]. intros e2 e2' He2. letm (sQ s); [now apply (par_inner s c L)|]. intros q q' Hq.
      assert (HS : sS s (fdiv (fsub (fadd (fadd cp d2) (fmul (f_of_nat n_i) e2)) (fmul f2 q)) (f_of_nat (n_i + 1)))
                        (fdiv (fsub (fadd (fadd cp' d2') (fmul (f_of_nat n_i) e2')) (fmul f2 q')) (f_of_nat (n_i + 1)))).
      { apply (l_Sdiv s c L); [|now apply (l_nat s c L)]. apply (l_Usub s c L); [apply (l_Uadd s c L); [now apply (l_Uadd s c L)|now apply (l_Umul s c L)]|].
        apply (l_Qmul s c L); auto. now apply (l_2 s c L). }
      letm (Forall2 (sS s)); [apply par_set_item; auto; now apply (par_fst _ _ _ _ Hcs)|]. intros.
      letm (Forall2 (sS s)); [apply par_set_item; auto; now apply (par_snd _ _ _ _ Hcs)|]. intros. old_nv.
      letm (Forall2 (sC s c)); [apply par_set_item; auto; rewrite HC; now apply (l_Usadd s c L)|]; intros; nxt; [setm|].
      letm (rmat (sP s)); [now apply par_set_row|]; intros; nxt; [setm|].
      letm rmr; [apply rE_and; [now apply par_set_row|intros z; apply rect_set_row; apply (a_rect _ _ _ _ Ho0)]|]; intros M0 M0' [HM0 HM1]; nxt; [setm|].
      letm rmr; [apply rE_and; [now apply par_set_col|intros z; now apply rect_set_col]|]; intros M1 M1' [HM2 HM3]; setm.
    - setm.
  Qed.

  (** the batch updates *)
  Lemma par_CP_batch m m' x y : rmat (sP s) m m' -> P2 x y -> sC s c (np_sumsq_all (sub_rows m x)) (np_sumsq_all (sub_rows m' y)).
  Proof. intros. apply (l_UC s c L); auto. apply (par_np_sumsq_all s c L); auto. now apply (par_sub_rows s c L). Qed.
  Ltac sub_head H := letm (rmat (sP s)); [now apply par_take|]; intros sb sb' Hsb; getm; rewrite (par_nrows _ sb sb' Hsb); nxt; [setm|];
    pose proof (par_smean0 s c L sb sb' Hsb) as Hmean; nxt; [setm; now apply par_upd_row|].
  Ltac zer := first [apply rect_zmat|apply par_zmat, (l_P0 s c L)|apply par_zmat; now apply (l_D0 s c L)|apply par_zmat; now apply (l_S0 s c L)|apply par_zeros; now apply (l_C0 s c L)|apply par_zeros; now apply (l_S0 s c L)].
  Ltac cprow := nxt; [setm; apply par_upd; auto; now apply par_CP_batch|].
  Ltac bhead Hd := nxt; [now apply par_base_batch|]; nxt; [setm; now apply (par_smean0 s c L)|]; rewrite (proj1 Hd); repeat (nxt; [solve [setm|setm; zer]|]).
  Lemma par_batch_term o o' i j : AR s c o o' ->
    sU s (np_sumsq (map2 fsub (nth i (mrows (v o)) []) (nth j (mrows (v o)) []))) (np_sumsq (map2 fsub (nth i (mrows (v o')) []) (nth j (mrows (v o')) []))).
  Proof.
    intros Ho. facts Ho. apply (par_np_sumsq s c L); auto. apply (par_map2 (sP s) (sP s)); [apply (l_Psub s c L)| |]; now apply par_nthrow.
  Qed.
  Lemma par_batch_termD o o' i j : sD s c = sS s -> AR s c o o' ->
    sD s c (np_sumsq (map2 fsub (nth i (mrows (v o)) []) (nth j (mrows (v o)) []))) (np_sumsq (map2 fsub (nth i (mrows (v o')) []) (nth j (mrows (v o')) []))).
  Proof. intros Hk Ho. pose proof (par_batch_term o o' i j Ho). rewrite Hk. now apply (l_US s c L). Qed.
  Lemma par_CH_batch m m' ls : rmat (sP s) m m' -> RMc ru (CH_param_batch m ls) (CH_param_batch m' ls).
  Proof.
    intros H. unfold CH_param_batch. bhead H. apply RM_for. intros i _. unfold CH_batch_body. sub_head H. cprow.
    letm P2; [now apply (par_vsub s c L)|]. intros. setm. apply par_upd; auto. apply (l_Smul s c L); [now apply (l_nat s c L)|]. now apply (l_US s c L), (par_np_sumsq s c L).
  Qed.
  Lemma par_WB_batch m m' ls : rmat (sP s) m m' -> RMc ru (WB_param_batch m ls) (WB_param_batch m' ls).
  Proof. exact (par_CH_batch m m' ls). Qed.
  Lemma par_DB_batch m m' ls : sD s c = sS s -> rmat (sP s) m m' -> RMc ru (DB_param_batch m ls) (DB_param_batch m' ls).
  Proof.
    intros Hk H. unfold DB_param_batch. bhead H. nxt.
    - apply RM_for. intros i _. unfold DB_batch_body. sub_head H. cprow. setm. apply par_upd; auto. apply (l_Sdiv s c L); [|now apply (l_nat s c L)].
      apply (l_CS s c L). now apply par_CP_batch.
    - getm. setm. apply (par_D_sym s c L); auto. intros. destruct (_ <? _); [now apply par_batch_termD|now apply (l_D0 s c L)].
  Qed.
  Lemma par_XB_batch m m' ls : sD s c = sS s -> rmat (sP s) m m' -> RMc ru (XB_param_batch m ls) (XB_param_batch m' ls).
  Proof.
    intros Hk H. unfold XB_param_batch. bhead H. nxt.
    - apply RM_for. intros i _. unfold XB_batch_body. sub_head H. setm. apply par_upd; auto. now apply par_CP_batch.
    - getm. setm. apply par_tab2. intros. destruct (_ <? _); [now apply par_batch_termD|now apply (l_D0 s c L)].
  Qed.
  Lemma par_GD43_batch m m' ls : c = kGD43 -> rmat (sP s) m m' -> RMc ru (GD43_param_batch m ls) (GD43_param_batch m' ls).
  Proof.
    intros Hk H. unfold GD43_param_batch. bhead H. nxt.
    - apply RM_for. intros i _. unfold GD43_batch_body. sub_head H. setm. apply par_upd; auto. now apply par_CP_batch.
    - getm. setm. apply (par_D_sym s c L); auto. intros. destruct (_ <? _); [|now apply (l_D0 s c L)]. assert (HD : sD s c = sH s) by now rewrite Hk.
      rewrite HD. apply (l_sqrt s c L). now apply par_batch_term.
  Qed.
  Lemma par_GD53_batch m m' ls : c = kGD53 -> rmat (sP s) m m' -> RMc ru (GD53_param_batch m ls) (GD53_param_batch m' ls).
  Proof.
    intros Hk H. unfold GD53_param_batch. bhead H. nxt.
    - apply RM_for. intros i _. unfold GD53_batch_body. sub_head H. setm. apply par_upd; auto. now apply par_CP_batch.
    - getm. setm. apply (par_D_sym s c L); auto. intros. destruct (_ <? _); [|now apply (l_D0 s c L)]. assert (HD : sD s c = sS s) by now rewrite Hk.
      rewrite HD. unfold GD53_batch_term. rewrite (a_n _ _ _ _ Ho). apply (l_Sdiv s c L); [|now apply (l_nat s c L)].
      apply (l_Sadd s c L); apply (l_CS s c L); apply par_nth; auto; now apply (l_C0 s c L).
  Qed.
  Lemma par_PS_batch m m' ls : sD s c = sS s -> rmat (sP s) m m' -> RMc ru (PS_param_batch m ls) (PS_param_batch m' ls).
  Proof.
    intros Hk H. unfold PS_param_batch. bhead H. nxt.
    - apply RM_for. intros i _. unfold PS_batch_body. letm (rmat (sP s)); [now apply par_take|]; intros w w' Hw; getm; rewrite (par_nrows _ w w' Hw); nxt; [setm|].
      setm. apply par_upd_row; auto. now apply (par_smean0 s c L).
    - getm. setm. apply (par_D_sym s c L); auto. intros. destruct (_ <? _); [now apply par_batch_termD|now apply (l_D0 s c L)].
  Qed.
  Lemma par_cSIL_batch m m' ls : rmat (sP s) m m' -> RMc ru (cSIL_param_batch m ls) (cSIL_param_batch m' ls).
  Proof.
    intros H. unfold cSIL_param_batch. nxt; [now apply par_base_batch|]. rewrite (proj1 H). repeat (nxt; [solve [setm|setm; zer]|]). nxt.
    - apply RM_for. intros i _. unfold cSIL_batch_body. rewrite (par_nrows _ m m' H). letm (rmat (sP s)); [now apply par_take|]. intros w w' Hw. getm.
      rewrite (par_nrows _ w w' Hw); nxt; [setm|]. pose proof (par_smean0 s c L w w' Hw). nxt; [setm; now apply par_upd_row|]. cprow.
      destruct (_ <? _); [apply RM_ret; exact I|apply RM_raise].
    - getm. setm; [|apply rect_tab2]. apply par_tab2. intros j i. apply (l_Sdiv s c L); [|now apply (l_nat s c L)]. apply (par_py_sum s c L); auto. apply par_seq. intros x _.
      apply par_nth; [|now apply (l_S0 s c L)]. unfold cSIL_D_row. apply (par_map P2).
      + intros. apply (l_US s c L); auto. now apply (par_np_sumsq s c L).
      + apply (par_sub_rows s c L); auto. now apply par_nthrow.
  Qed.

  (** the evaluations *)
  Lemma par_CH_eval : c = kCH \/ c = kWB -> RMc ru CH_evaluate CH_evaluate.
  Proof.
    intros Hk. assert (HV : sV s c = sE s) by (destruct Hk; now subst). unfold CH_evaluate. getm.
    destruct (_ <? _).
    - nxt; [setm; now apply (par_py_sum_C s c L)|]. nxt; [setm; now apply (par_py_sum s c L)|]. setm. rewrite HV. apply (l_Emul s c L).
      + apply (l_SSdiv s c L); [now apply (par_py_sum s c L)|now apply (par_py_sum_C s c L)].
      + apply (l_Ediv s c L); apply (l_Z s c L).
    - nxt; [setm; now apply (l_S0 s c L)|]. setm. now apply (l_V0 s c L).
  Qed.
  Lemma par_WB_eval : c = kCH \/ c = kWB -> RMc ru WB_evaluate WB_evaluate.
  Proof.
    intros Hk. assert (HV : sV s c = sE s) by (destruct Hk; now subst). unfold WB_evaluate. getm.
    destruct (_ <? _).
    - nxt; [setm; now apply (par_py_sum_C s c L)|]. nxt; [setm; now apply (par_py_sum s c L)|]. setm. rewrite HV. apply (l_Emul s c L).
      + apply (l_SSdiv s c L); [now apply (par_py_sum_C s c L)|now apply (par_py_sum s c L)].
      + now apply (l_nat s c L).
    - nxt; [setm; now apply (l_S0 s c L)|]. setm. now apply (l_V0 s c L).
  Qed.
  Lemma par_DB_eval : c = kDB -> RMc ru DB_evaluate DB_evaluate.
  Proof.
    intros Hk. assert (HV : sV s c = sE s) by now subst. assert (HD : sD s c = sS s) by now rewrite Hk. unfold DB_evaluate. getm.
    destruct (_ <? _); [|setm; now apply (l_V0 s c L)]. letm (Forall2 (Forall2 (sE s))).
    { apply par_mapE_seq. intros j _. apply par_mapE_seq. intros i _. destruct (_ <? _); [|apply rE_ok; now apply (l_E0 s c L)].
      apply (par_bindE (sS s)); [now apply par_get_item|]. intros. apply (par_bindE (sS s)); [now apply par_get_item|]. intros.
      rewrite HD in *. apply (par_bindE (sS s)); [apply par_get2; auto; now apply (l_S0 s c L)|]. intros. apply rE_ok. apply (l_SSdiv s c L); auto. now apply (l_Sadd s c L). }
    intros rs rs' Hrs. set (k := n_clusters o').
    assert (HR : rmat (sE s) (mkMat k rs) (mkMat k rs')) by (split; auto).
    match goal with |- RM s c ru (modify (set_R ?x) ;; _) (modify (set_R ?y) ;; _) => assert (HR2 : rmat (sE s) x y) end.
    { apply par_tab2. intros i j. apply (l_Eadd s c L); apply par_entry; auto using (l_E0 s c L). apply par_transpose; auto. now apply (l_E0 s c L). }
    nxt; [setm|]. letm (Forall2 (sE s)).
    { apply par_mapE_seq. intros j _. apply par_max; [apply (l_Emax s c L)|]. apply par_col; auto. now apply (l_E0 s c L). }
    intros. setm. rewrite HV. apply (l_Ediv s c L); [now apply (l_Esum s c L)|now apply (l_nat s c L)].
  Qed.
  Lemma par_XB_eval : c = kXB -> RMc ru XB_evaluate XB_evaluate.
  Proof.
    intros Hk. assert (HV : sV s c = sE s) by now subst. assert (HD : sD s c = sS s) by now rewrite Hk. unfold XB_evaluate. getm.
    destruct (_ <? _); [|setm; now apply (l_V0 s c L)]. rewrite HD in *. nxt; [setm; now apply (par_py_sum_C s c L)|].
    letm (Forall2 (sS s)); [apply par_triu_indices; auto; now apply (l_S0 s c L)|]. intros. letm (sS s); [apply par_min; auto; apply (l_Smin s c L)|]. intros.
    nxt; [setm|]. setm. rewrite HV. apply (l_SSdiv s c L); [now apply (par_py_sum_C s c L)|]. apply (l_Smul s c L); auto. now apply (l_nat s c L).
  Qed.
  Lemma par_GD_eval : c = kGD43 \/ c = kGD53 -> RMc ru GD43_evaluate GD43_evaluate.
  Proof.
    intros Hk. unfold GD43_evaluate. getm.
    destruct (_ <? _); [|setm; now apply (l_V0 s c L)]. letm (Forall2 (sS s)).
    { apply (par_bc (sC s c) (sE s)); auto.
      - intros. apply (l_Sdiv s c L); auto. now apply (l_CS s c L).
      - apply par_seq. intros. now apply (l_nat s c L). }
    intros. letm (sS s); [apply par_max; auto; apply (l_Smax s c L)|]. intros. nxt; [setm; apply (l_Smul s c L); auto; now apply (l_2 s c L)|].
    letm (Forall2 (sD s c)); [apply par_triu_mask; auto; now apply (l_D0 s c L)|]. intros. letm (sD s c); [apply par_min; auto; intros; apply (l_Dmin s c L); auto; destruct Hk; congruence|].
    intros p q Hp. nxt; [setm|]. setm. assert (Hi : forall x y, sS s x y -> sS s (fmul f2 x) (fmul f2 y)) by (intros; apply (l_Smul s c L); auto; now apply (l_2 s c L)).
    destruct Hk as [Hk|Hk].
    - assert (HV : sV s c = sJ s) by now rewrite Hk. assert (HD : sD s c = sH s) by now rewrite Hk. rewrite HV, HD in *. apply (l_Hdiv s c L); auto.
    - assert (HV : sV s c = sE s) by now rewrite Hk. assert (HD : sD s c = sS s) by now rewrite Hk. rewrite HV, HD in *. apply (l_SSdiv s c L); auto.
  Qed.
  Lemma par_PS_eval : c = kPS -> RMc ru PS_evaluate PS_evaluate.
  Proof.
    intros Hk. assert (HV : sV s c = sE s) by now subst. assert (HD : sD s c = sS s) by now rewrite Hk. unfold PS_evaluate. getm.
    destruct (_ <? _); [|setm; now apply (l_V0 s c L)]. rewrite HD in *. pose proof (par_mean0 s c L _ _ H) as Hb. nxt; [setm|].
    letm (Forall2 (sU s)).
    { apply par_mapE_seq. intros. apply (par_bindE P2); [now apply par_row|]. intros. apply (par_bindE P2); [now apply (par_vsub s c L)|]. intros.
      now apply (par_inner_self s c L). }
    intros sq sq' Hsq. assert (Hbt : sS s (fdiv (py_sum sq) (f_of_nat (n_clusters o'))) (fdiv (py_sum sq') (f_of_nat (n_clusters o')))).
    { apply (l_Sdiv s c L); [|now apply (l_nat s c L)]. apply (par_py_sum s c L); auto. apply (par_mono (sU s)); auto. intros. now apply (l_US s c L). }
    nxt; [setm|]. letm (Forall2 (sE s)).
    { apply par_mapE_seq. intros. apply (par_bindE (Forall2 (sS s))); [now apply par_row|]. intros.
      apply (par_bindE (Forall2 (sS s))); [now apply par_delete|]. intros. apply (par_bindE eq); [now apply par_eq_item|]. intros m ? <-.
      destruct (_ =? 0); [cbn; auto|]. apply (par_bindE (sS s)); [apply par_min; auto; apply (l_Smin s c L)|]. intros. apply rE_ok.
      apply (l_Esub s c L); [apply (l_Ediv s c L); now apply (l_nat s c L)|]. apply (l_Eexp s c L Hk). apply (l_SSdiv s c L); auto. now apply (l_Sneg s c L). }
    intros. nxt; [setm|]. setm. rewrite HV. now apply (l_Esum s c L).
  Qed.
  (** the array [_S] of cSIL is square once an update has returned *)
  Definition well {X : Arith} (o : attrs X) : Prop :=
    c = kcSIL -> 1 < n_clusters o -> nrows (S2 o) = n_clusters o /\ mcols (S2 o) = n_clusters o.
  Lemma cSIL_terms {X : Arith} (o : attrs X) k : 1 < k -> nrows (S2 o) = k -> mcols (S2 o) = k -> exists cs, length cs = k /\
    mapE (fun ix => let* a := get2 (S2 o) ix ix in let* c := get_col (S2 o) ix in let* local_S := np_delete c ix in
                    let* b := np_min local_S in Ok (fdiv (fsub b a) (fmaximum a b))) (seq 0 k) = Ok cs.
  Proof.
    intros Hk Hn Hm. match goal with |- exists cs, _ /\ mapE ?g _ = _ => set (f := g) end.
    assert (Hf : forall i, i < k -> exists x, f i = Ok x).
    { intros i Hi. unfold f, get2, get_col, np_delete. rewrite Hn, Hm, (proj2 (Nat.ltb_lt i k) Hi). cbn [andb bindE].
      assert (Hc' : length (col (S2 o) i) = k) by (unfold col; rewrite map_length; exact Hn). rewrite Hc', (proj2 (Nat.ltb_lt i k) Hi). cbn [bindE].
      destruct (remove_nth i (col (S2 o) i)) as [|x r] eqn:Er.
      - exfalso. pose proof (f_equal (@length _) Er) as E. rewrite remove_nth_length in E by (rewrite Hc'; exact Hi). rewrite Hc' in E. cbn in E. lia.
      - cbn [np_min bindE]. eauto. }
    assert (G : forall l, (forall i, In i l -> i < k) -> exists cs, length cs = length l /\ mapE f l = Ok cs).
    { induction l as [|i l IH]; intros H; [exists []; split; reflexivity|]. destruct IH as (cs & Hl & IH); [intros; apply H; now right|].
      destruct (Hf i) as [x Hx]; [apply H; now left|]. exists (x :: cs). cbn. rewrite Hx, IH, Hl. split; reflexivity. }
    destruct (G (seq 0 k)) as (cs & Hl & H); [intros i Hi; apply in_seq in Hi; lia|]. exists cs. split; [now rewrite Hl, seq_length|exact H].
  Qed.
  Lemma cSIL_eval_form {X : Arith} (p : attrs X) : (n_clusters p <= 1 \/ nrows (S2 p) = n_clusters p /\ mcols (S2 p) = n_clusters p) ->
    exists cs v, length cs = n_clusters p /\ cSIL_evaluate p = (set_criterion_value v (set_sil_coefs cs p), Ok tt).
  Proof.
    intros Hp. unfold cSIL_evaluate. cbn [bind get modify].
    destruct (1 <? n_clusters p) eqn:E1; cbn [andb].
    - apply Nat.ltb_lt in E1. destruct Hp as [Hp|[Hn Hm]]; [lia|]. destruct (np_any (S2 p)).
      + destruct (cSIL_terms p (n_clusters p) E1 Hn Hm) as (cs & Hl & Hc'). cbn [bind modify lift]. rewrite Hc'. cbn.
        exists cs. eexists. split; [exact Hl|]. reflexivity.
      + exists (zeros (n_clusters p)). eexists. split; [apply repeat_length|]. reflexivity.
    - exists (zeros (n_clusters p)). eexists. split; [apply repeat_length|]. reflexivity.
  Qed.
  Lemma mapE_in {X Y} (f : X -> E Y) l l' i : mapE f l = Ok l' -> In i l -> exists y, f i = Ok y /\ In y l'.
  Proof.
    revert l'. induction l as [|a l IH]; cbn; intros l' H Hi; [contradiction|]. destruct (f a) as [y|] eqn:Ea; [|discriminate]. cbn in H.
    destruct (mapE f l) as [r|] eqn:E; [|discriminate]. cbn in H. injection H as <-. destruct Hi as [->|Hi]; [exists y; split; auto; now left|].
    destruct (IH r eq_refl Hi) as (z & Hz & Hin). exists z. split; auto. now right.
  Qed.
  (** an unknown entry of [_S] makes the value unknown *)
  Lemma remove_nth_in {X} (l : list X) i j d : j < length l -> j <> i -> In (nth j l d) (remove_nth i l).
  Proof.
    unfold remove_nth. revert i j. induction l as [|a l IH]; intros i j Hj Hn; cbn in Hj; [lia|]. destruct i as [|i].
    - destruct j as [|j]; [lia|]. cbn [nth firstn skipn app]. apply nth_In. lia.
    - cbn [firstn skipn app]. destruct j as [|j]; [now left|]. right. apply (IH i j); lia.
  Qed.
  Lemma cSIL_poisoned (P : F A -> bool) (o : attrs A) : poison s P -> 1 < n_clusters o -> nrows (S2 o) = n_clusters o -> mcols (S2 o) = n_clusters o ->
    rect (S2 o) -> existsb (existsb P) (mrows (S2 o)) = true -> P (criterion_value (fst (cSIL_evaluate o))) = true.
  Proof.
    intros (_ & Pt & _ & Ps & Pd & Pm & PS) Hk Hn Hm Hr HP. apply existsb_exists in HP as (r & Hin & HP). apply existsb_exists in HP as (x & Hx & HP).
    assert (Ha : np_any (S2 o) = true) by (apply existsb_exists; exists r; split; auto; apply existsb_exists; exists x; auto).
    assert (Hl : length r = n_clusters o) by (unfold rect in Hr; rewrite Forall_forall in Hr; rewrite (Hr r Hin); exact Hm).
    destruct (In_nth _ _ [] Hin) as (i & Hi & Er). destruct (In_nth _ _ f0 Hx) as (j & Hj & Ex). unfold nrows in Hn. rewrite Hn in Hi. rewrite Hl in Hj.
    assert (He : entry (S2 o) i j = x) by (unfold entry; now rewrite Er). fold (nrows (S2 o)) in Hn.
    unfold cSIL_evaluate. cbn [bind get modify]. rewrite (proj2 (Nat.ltb_lt _ _) Hk), Ha. cbn [andb bind modify lift].
    destruct (cSIL_terms o (n_clusters o) Hk Hn Hm) as (cs & Hlc & Hc'). rewrite Hc'. cbn. apply Pd. rewrite PS; [reflexivity|].
    destruct (mapE_in _ _ _ j Hc' ltac:(apply in_seq; lia)) as (y & Hy & Hyin). apply existsb_exists. exists y. split; [exact Hyin|].
    unfold get2, get_col, np_delete in Hy. rewrite Hn, Hm, (proj2 (Nat.ltb_lt j _) Hj) in Hy. cbn [andb bindE] in Hy.
    assert (Hcl : length (col (S2 o) j) = n_clusters o) by (unfold col; rewrite map_length; exact Hn).
    rewrite Hcl, (proj2 (Nat.ltb_lt j _) Hj) in Hy. cbn [bindE] in Hy.
    destruct (Nat.eq_dec i j) as [->|Hij].
    - destruct (np_min _) as [b|]; [|discriminate]. cbn in Hy. injection Hy as <-. rewrite He. apply Pd. rewrite Ps; [reflexivity|]. rewrite HP. apply orb_true_r.
    - destruct (np_min _) as [b|] eqn:Eb; [|discriminate]. cbn in Hy. injection Hy as <-. apply Pd. rewrite Ps; [reflexivity|].
      enough (K : P b = true) by now rewrite K.
      assert (Hxin : In x (remove_nth j (col (S2 o) j))).
      { assert (En : nth i (col (S2 o) j) f0 = x).
        { unfold col. rewrite (nth_indep _ f0 (nth j [] f0)) by (rewrite map_length; fold (nrows (S2 o)); lia). rewrite (map_nth (fun r => nth j r f0)). exact He. }
        rewrite <- En. apply remove_nth_in; [rewrite Hcl; exact Hi|exact Hij]. }
      destruct (remove_nth j (col (S2 o) j)) as [|a l]; [contradiction|]. cbn in Eb. injection Eb as <-.
      assert (G : forall l a, P a = true \/ In x l -> P (fold_left fminimum l a) = true).
      { clear - Pm HP. induction l as [|b l IH]; intros a [H|H]; cbn; auto; try contradiction.
        - apply IH. left. apply Pm. now rewrite H.
        - destruct H as [->|H]; apply IH; [left|now right]. apply Pm. rewrite HP. apply orb_true_r. }
      apply G. destruct Hxin as [->|H]; auto.
  Qed.
  Lemma np_min_W (W : F A -> bool) l v : (forall x y, W x = true -> W y = true -> W (fminimum x y) = true) ->
    (forall x, In x l -> W x = true) -> np_min l = Ok v -> W v = true.
  Proof.
    intros Hm Hl. destruct l as [|a l]; cbn; [discriminate|]. intros [= <-]. assert (Ha := Hl a (or_introl eq_refl)). assert (Hl' : forall x, In x l -> W x = true) by (intros; apply Hl; now right).
    clear Hl. revert a Ha Hl'. induction l as [|b l IH]; intros a Ha Hl'; cbn; auto. apply IH; [apply Hm; auto; apply Hl'; now left|]. intros. apply Hl'. now right.
  Qed.
  (** nothing but numbers that may be zero in [_S], and not all zero *)
  Lemma cSIL_weak (W P : F A -> bool) (o : attrs A) : weak s W P -> 1 < n_clusters o -> nrows (S2 o) = n_clusters o -> mcols (S2 o) = n_clusters o ->
    rect (S2 o) -> np_any (S2 o) = true -> (forall r x, In r (mrows (S2 o)) -> In x r -> W x = true) -> P (criterion_value (fst (cSIL_evaluate o))) = true.
  Proof.
    intros (_ & _ & _ & Wm & Wx & Wd & Pd & PS) Hk Hn Hm Hr Ha HW.
    unfold cSIL_evaluate. cbn [bind get modify]. rewrite (proj2 (Nat.ltb_lt _ _) Hk), Ha. cbn [andb bind modify lift].
    destruct (cSIL_terms o (n_clusters o) Hk Hn Hm) as (cs & Hlc & Hc'). rewrite Hc'. cbn. apply Pd. apply PS.
    destruct (mapE_in _ _ _ 0 Hc' ltac:(apply in_seq; lia)) as (y & Hy & Hyin). apply existsb_exists. exists y. split; [exact Hyin|].
    assert (HW' : forall i j, i < n_clusters o -> j < n_clusters o -> W (entry (S2 o) i j) = true).
    { intros i j Hi Hj. unfold nrows in Hn. unfold rect in Hr. rewrite Forall_forall in Hr. assert (Hin : In (nth i (mrows (S2 o)) []) (mrows (S2 o))) by (apply nth_In; lia).
      unfold entry. eapply HW; [exact Hin|]. apply nth_In. rewrite (Hr _ Hin). lia. }
    unfold get2, get_col, np_delete in Hy. rewrite Hn, Hm, (proj2 (Nat.ltb_lt 0 _)) in Hy by lia. cbn [andb bindE] in Hy.
    assert (Hcl : length (col (S2 o) 0) = n_clusters o) by (unfold col; rewrite map_length; exact Hn).
    rewrite Hcl, (proj2 (Nat.ltb_lt 0 _)) in Hy by lia. cbn [bindE] in Hy.
    destruct (np_min _) as [b|] eqn:Eb; [|discriminate]. cbn in Hy. injection Hy as <-. apply Wd. apply Wx; [apply HW'; lia|].
    apply (np_min_W W (remove_nth 0 (col (S2 o) 0))); auto. intros x Hx. assert (Hc : In x (col (S2 o) 0)).
    { unfold remove_nth in Hx. apply in_app_or in Hx as [Hx|Hx]; [rewrite <- (firstn_skipn 0 (col (S2 o) 0)); apply in_or_app; now left|].
      rewrite <- (firstn_skipn 1 (col (S2 o) 0)). apply in_or_app. now right. }
    unfold col in Hc. apply in_map_iff in Hc as (r & <- & Hin). eapply HW; [exact Hin|]. apply nth_In. unfold rect in Hr. rewrite Forall_forall in Hr. rewrite (Hr _ Hin). lia.
  Qed.
  Lemma par_any_P (P : F A -> bool) m m' : (forall x y, P x = false -> sS s x y -> ftrue x = ftrue y) -> rmat (sS s) m m' ->
    existsb (existsb P) (mrows m) = false -> np_any m = np_any m'.
  Proof.
    intros Ht [_ H]. unfold np_any. induction H as [|r r' l l' Hr Hl IH]; cbn; auto. intros E. apply orb_false_iff in E as [E1 E2]. rewrite IH by auto. f_equal.
    clear - Ht Hr E1. induction Hr as [|x y r r' Hx _ IH]; cbn in *; auto. apply orb_false_iff in E1 as [E1 E2]. rewrite IH by auto. f_equal. now apply Ht.
  Qed.
  Lemma par_any_both (W : F A -> bool) m m' : (forall x y, W x = false -> sS s x y -> ftrue x = true /\ ftrue y = true) -> rmat (sS s) m m' ->
    existsb (existsb (fun x => negb (W x))) (mrows m) = true -> np_any m = true /\ np_any m' = true.
  Proof.
    intros Ht [_ H]. unfold np_any. induction H as [|r r' l l' Hr Hl IH]; cbn; [discriminate|]. intros E. apply orb_true_iff in E as [E|E].
    - enough (K : existsb ftrue r = true /\ existsb ftrue r' = true) by (destruct K as [-> ->]; auto). clear - Ht Hr E.
      induction Hr as [|x y r r' Hx _ IH]; cbn in *; [discriminate|]. apply orb_true_iff in E as [E|E].
      + apply negb_true_iff in E. destruct (Ht x y E Hx) as [-> ->]. auto.
      + destruct (IH E) as [-> ->]. now rewrite !orb_true_r.
    - destruct (IH E) as [-> ->]. now rewrite !orb_true_r.
  Qed.
  Lemma par_none m m' : (forall x y, ftrue x = false -> sS s x y -> ftrue y = false) -> rmat (sS s) m m' -> np_any m = false -> np_any m' = false.
  Proof.
    intros Ht [_ H]. unfold np_any. induction H as [|r r' l l' Hr Hl IH]; cbn; auto. intros E. apply orb_false_iff in E as [E1 E2]. rewrite (IH E2), orb_false_r.
    clear - Ht Hr E1. induction Hr as [|x y r r' Hx _ IH]; cbn in *; auto. apply orb_false_iff in E1 as [E1 E2]. now rewrite (Ht x y E1 Hx), IH.
  Qed.
  Lemma par_cSIL_eval : c = kcSIL -> forall o o', AR s c o o' -> well o ->
    AR s c (fst (cSIL_evaluate o)) (fst (cSIL_evaluate o')) /\ rE ru (snd (cSIL_evaluate o)) (snd (cSIL_evaluate o')).
  Proof.
    intros Hk o o' Ho Hw. assert (HV : sV s c = sE s) by now rewrite Hk.
    (* same branch *)
    assert (K1 : np_any (S2 o) = np_any (S2 o') -> AR s c (fst (cSIL_evaluate o)) (fst (cSIL_evaluate o')) /\ rE ru (snd (cSIL_evaluate o)) (snd (cSIL_evaluate o'))).
    { intros Ha. unfold cSIL_evaluate. cbn [bind get modify]. rewrite <- Ha.
      assert (Ho1 : AR s c (set_sil_coefs (zeros (n_clusters o)) o) (set_sil_coefs (zeros (n_clusters o')) o')).
      { apply st_sil; auto. unfold zeros. now rewrite !repeat_length, (a_k _ _ _ _ Ho). }
      revert Ho1. generalize (set_sil_coefs (zeros (n_clusters o)) o) (set_sil_coefs (zeros (n_clusters o')) o'). facts Ho.
      enough (K : RMc ru
        (if (1 <? n_clusters o') && np_any (S2 o) then
          do cs <- lift (mapE (fun ix => let* a := get2 (S2 o) ix ix in let* c := get_col (S2 o) ix in let* local_S := np_delete c ix in
                 let* b := np_min local_S in Ok (fdiv (fsub b a) (fmaximum a b))) (seq 0 (n_clusters o'))) ;;
          modify (set_sil_coefs cs) ;; modify (set_criterion_value (fdiv (np_sum cs) (f_of_nat (n_clusters o'))))
         else modify (set_criterion_value f0))
        (if (1 <? n_clusters o') && np_any (S2 o) then
          do cs <- lift (mapE (fun ix => let* a := get2 (S2 o') ix ix in let* c := get_col (S2 o') ix in let* local_S := np_delete c ix in
                 let* b := np_min local_S in Ok (fdiv (fsub b a) (fmaximum a b))) (seq 0 (n_clusters o'))) ;;
          modify (set_sil_coefs cs) ;; modify (set_criterion_value (fdiv (np_sum cs) (f_of_nat (n_clusters o'))))
         else modify (set_criterion_value f0))).
      { intros p q Hpq. exact (K p q Hpq). }
      destruct (_ && _); [|setm; now apply (l_V0 s c L)]. letm (Forall2 (sE s)).
      { apply par_mapE_seq. intros. apply (par_bindE (sS s)); [apply par_get2; auto; now apply (l_S0 s c L)|]. intros.
        apply (par_bindE (Forall2 (sS s))); [apply par_get_col; auto; now apply (l_S0 s c L)|]. intros.
        apply (par_bindE (Forall2 (sS s))); [now apply par_delete|]. intros. apply (par_bindE (sS s)); [apply par_min; auto; apply (l_Smin s c L)|]. intros.
        apply rE_ok. apply (l_SSdiv s c L); [now apply (l_Ssub s c L)|now apply (l_Smax s c L)]. }
      intros cs cs' Hcs. nxt; [setm; now apply (par_length (sE s))|]. setm. rewrite HV. apply (l_Ediv s c L); [now apply (l_Esum s c L)|now apply (l_nat s c L)]. }
    (* the value is related to anything *)
    assert (K2 : (1 < n_clusters o -> forall y, sE s (criterion_value (fst (cSIL_evaluate o))) y) -> AR s c (fst (cSIL_evaluate o)) (fst (cSIL_evaluate o')) /\ rE ru (snd (cSIL_evaluate o)) (snd (cSIL_evaluate o'))).
    { intros Hv. destruct (Nat.le_gt_cases (n_clusters o) 1) as [H1|H1].
      - assert (E1 : forall X (p : attrs X), n_clusters p <= 1 -> cSIL_evaluate p = (set_criterion_value f0 (set_sil_coefs (zeros (n_clusters p)) p), Ok tt)).
        { intros X p Hp. unfold cSIL_evaluate. cbn [bind get modify]. now rewrite (proj2 (Nat.ltb_ge _ _) Hp). }
        rewrite (E1 A o H1), (E1 B o') by (rewrite <- (a_k _ _ _ _ Ho); exact H1). split; [|exact I]. apply st_cv; [now apply (l_V0 s c L)|].
        apply st_sil; auto. unfold zeros. now rewrite !repeat_length, (a_k _ _ _ _ Ho).
      - specialize (Hv H1). destruct (Hw Hk H1) as [Hn Hm]. destruct (cSIL_eval_form o (or_intror (conj Hn Hm))) as (cs & w & Hl & E). rewrite E in *.
        destruct (cSIL_eval_form o') as (cs' & w' & Hl' & ->).
        { right. rewrite <- (a_k _ _ _ _ Ho). split; [rewrite <- Hn; symmetry; apply (par_nrows (sS s))|rewrite <- Hm; symmetry; apply (proj1 (a_S2 _ _ _ _ Ho))]. apply (a_S2 _ _ _ _ Ho). }
        split; [|exact I]. apply st_cv; [rewrite HV; apply Hv|]. apply st_sil; auto. now rewrite Hl, Hl', (a_k _ _ _ _ Ho). }
    destruct (l_Strue s c L Hk) as [Ht|[Ht|[[P HP]|[W [P HP]]]]].
    - apply K1. apply (par_any (sS s)); auto. apply (a_S2 _ _ _ _ Ho).
    - apply K2. auto.
    - destruct (existsb (existsb P) (mrows (S2 o))) eqn:E.
      + apply K2. intros H1 y. destruct (Hw Hk H1) as [Hn Hm]. apply (proj1 (proj2 (proj2 HP))). apply cSIL_poisoned; auto. apply (a_rect _ _ _ _ Ho).
      + apply K1. apply (par_any_P P); auto; [apply (proj1 HP)|apply (a_S2 _ _ _ _ Ho)].
    - destruct (existsb (existsb (fun x => negb (W x))) (mrows (S2 o))) eqn:E.
      + apply K1. destruct (par_any_both W (S2 o) (S2 o') (proj1 HP)) as [-> ->]; auto. apply (a_S2 _ _ _ _ Ho).
      + destruct (np_any (S2 o)) eqn:Ea.
        * apply K2. intros H1 y. destruct (Hw Hk H1) as [Hn Hm]. apply (proj1 (proj2 (proj2 HP))). apply (cSIL_weak W P); auto; [apply (a_rect _ _ _ _ Ho)|].
          intros r x Hr Hx. apply not_false_iff_true. intros K. apply not_true_iff_false in E. apply E. apply existsb_exists. exists r. split; auto. apply existsb_exists. exists x. now rewrite K.
        * apply K1. symmetry. apply (par_none (S2 o) (S2 o')); auto; [apply (proj1 (proj2 HP))|apply (a_S2 _ _ _ _ Ho)].
  Qed.

  (** method resolution *)

  (** rCIP *)
  Section Gauss.
  Context (Hk : c = krCIP).
  Let W : LawR s := l_R s c L Hk.
  Lemma sD_E : sD s c = sE s. Proof. now rewrite Hk. Qed.
  Lemma l_Q0 : sQ s f0 f0. Proof. apply (l_SQ s c L), (l_S0 s c L). Qed.
  Lemma l_TQ x y : sT s x y -> sQ s x y. Proof. intros. now apply (l_SQ s c L), (l_TS s c L). Qed.
  Lemma par_maddT a b a' b' : rmat (sT s) a b -> rmat (sT s) a' b' -> rE (rmat (sT s)) (madd a a') (madd b b').
  Proof.
    apply par_bc2; [apply (l_T0 s c L)|apply (l_T0 s c L)|]. intros. apply (l_Tadd s c L); auto. now apply l_TQ.
  Qed.
  Lemma par_maddQT a b a' b' : rmat (sQ s) a b -> rmat (sT s) a' b' -> rE (rmat (sT s)) (madd a a') (madd b b').
  Proof. apply par_bc2; [apply l_Q0|apply (l_T0 s c L)|apply (r_QTadd s W)]. Qed.
  Lemma par_maddQ a b a' b' : rmat (sQ s) a b -> rmat (sQ s) a' b' -> rE (rmat (sQ s)) (madd a a') (madd b b').
  Proof. apply par_bc2; [apply l_Q0|apply l_Q0|apply (r_Qadd s W)]. Qed.
  Lemma par_msubQ a b a' b' : rmat (sQ s) a b -> rmat (sQ s) a' b' -> rE (rmat (sQ s)) (msub a a') (msub b b').
  Proof. apply par_bc2; [apply l_Q0|apply l_Q0|apply (r_Qsub s W)]. Qed.
  Lemma par_mscalQ x y m m' : sE s x y -> rmat (sQ s) m m' -> rmat (sQ s) (mscal x m) (mscal y m').
  Proof. apply par_mscal. apply (l_Qmul s c L). Qed.
  Lemma par_outerQ a b : P2 a b -> rmat (sQ s) (outer a a) (outer b b).
  Proof. intros H. apply (par_outer (sP s) (sP s)); auto. apply (r_PPmul s W). Qed.
  Lemma par_delta d : rmat (sT s) (rCIP_delta_term d) (rCIP_delta_term d).
  Proof. apply par_tab2. intros. apply (r_delta s W). Qed.
  Lemma par_potential x y a b m m' : sE s x y -> P2 a b -> rmat (sT s) m m' -> rE (sE s) (rCIP_potential x a m) (rCIP_potential y b m').
  Proof.
    intros Hx H [Hm Hm']. unfold rCIP_potential. apply (par_bindE (rmat (sE s))).
    { unfold linalg_inv. pose proof (r_inv s W _ _ Hm') as G. destruct (np_inv (mrows m)), (np_inv (mrows m')); cbn; try contradiction; auto. now split. }
    intros w w' Hw. apply (par_bindE P2).
    { apply (par_vecmat (sP s) (sE s)); auto; [apply (l_E0 s c L)|apply (r_dot s W)|]. apply (par_scal s c L); auto. apply (l_Ediv s c L); apply (l_Z s c L). }
    intros t t' Ht. apply (par_bindE (sQ s)); [now apply (par_inner s c L)|]. intros e e' He. apply rE_ok.
    apply (l_Emul s c L); [apply (l_Emul s c L); auto; apply (l_Ediv s c L); [apply (l_1 s c L)|apply (r_sqrt s W), (r_det s W); auto]|now apply (r_exp s W)].
  Qed.
  Lemma par_rCIP_term o o' a b m m' j : AR s c o o' -> P2 a b -> rmat (sT s) m m' -> rE (sD s c) (rCIP_term o a m j) (rCIP_term o' b m' j).
  Proof.
    intros Ho H Hm. facts Ho. rewrite sD_E. unfold rCIP_term. apply (par_bindE P2); [now apply par_row|]. intros u u' Hu.
    apply (par_bindE P2); [now apply (par_vsub s c L)|]. intros w w' Hw. apply (par_bindE (rmat (sT s))); [now apply par_get_item|]. intros q q' Hq.
    apply (par_bindE (rmat (sT s))); [now apply par_maddT|]. intros. now apply par_potential.
  Qed.
  Lemma par_rCIP_inc x y i : P2 x y -> RMc ru (rCIP_param_inc x i) (rCIP_param_inc y i).
  Proof.
    intros H. unfold rCIP_param_inc. getm. nxt.
    { destruct (_ =? 0); [|apply RM_ret; exact I]. unfold rCIP_setup. nxt; [now apply par_base_setup|]. nxt; [setm|]. getm.
      destruct (_ =? 0); [apply RM_raise|]. setm. apply par_delta. }
    getm. nxt; [setm; apply (r_const s W)|]. getm. nxt; [|setm]. destruct (n_clusters o'1 <=? i).
    - new_D ltac:(now apply par_rCIP_term). new_n. new_v. nxt; [setm|]. setm. now apply par_snoc.
    - old_head. letm P2; [now apply (par_vsub s c L)|]. intros dx dx' Hdx. nxt; [destruct (_ =? 1); [apply RM_raise|apply RM_ret; exact I]|].
      letm (rmat (sT s)); [now apply par_get_item|]. intros si si' Hsi.
      letm (rmat (sQ s)); [apply par_msubQ; apply (par_mat_mono (sT s)); auto using l_TQ|]. intros s0 s0' Hs0.
      letm (rmat (sQ s)). { apply par_maddQ; apply par_mscalQ; auto using par_outerQ; apply (l_Ediv s c L); apply (l_Z s c L). } intros s1 s1' Hs1.
      letm (rmat (sT s)); [now apply par_maddQT|]. intros sn sn' Hsn.
      letm (Forall2 (sD s c)); [apply (par_D_old s c L); auto; intros; now apply par_rCIP_term|]. intros col col' Hcol.
      old_nv. letm (Forall2 (rmat (sT s))); [now apply par_set_item|]. intros. nxt; [setm|]. old_D.
  Qed.
  Lemma par_rCIP_batch m m' ls : rmat (sP s) m m' -> RMc ru (rCIP_param_batch m ls) (rCIP_param_batch m' ls).
  Proof.
    intros H. unfold rCIP_param_batch. nxt; [now apply par_base_batch|]. rewrite (proj1 H). nxt; [destruct (_ =? 0); [apply RM_raise|apply RM_ret; exact I]|].
    nxt; [setm; apply par_delta|]. nxt; [setm; apply (r_const s W)|]. nxt; [setm|]. nxt; [setm|]. nxt; [setm; apply par_zmat, (l_P0 s c L)|].
    nxt; [setm; apply par_repeat, par_zmat, (l_T0 s c L)|]. nxt; [setm; apply par_zmat, (l_D0 s c L)|]. nxt.
    - apply RM_for. intros i _. unfold rCIP_batch_body. letm (rmat (sP s)); [now apply par_take|]. intros w w' Hw. getm. rewrite (par_nrows _ w w' Hw).
      pose proof (par_smean0 s c L w w' Hw) as Hv. nxt; [setm|]. nxt; [setm; now apply par_upd_row|]. destruct (1 <? _).
      + letm (rmat (sQ s)). { apply par_msubQ; [apply (par_gram (sP s)); auto; [apply (l_P0 s c L)|apply (r_sdot s W)]|]. apply par_mscalQ; [apply (l_nat s c L)|now apply par_outerQ]. }
        intros s0 s0' Hs0. letm (rmat (sT s)). { apply par_maddQT; auto. apply par_mscalQ; auto. apply (l_Ediv s c L); apply (l_Z s c L). }
        intros s1 s1' Hs1. setm. now apply par_upd.
      + setm. now apply par_upd.
    - getm. letm (Forall2 (Forall2 (sD s c))).
      { apply par_mapE_seq. intros i _. apply par_mapE_seq. intros j _. destruct (_ <? _); [|apply rE_ok, (l_D0 s c L)]. rewrite sD_E. unfold rCIP_batch_term.
        apply (par_bindE P2); [now apply par_row|]. intros u u' Hu. apply (par_bindE P2); [now apply par_row|]. intros w w' Hw.
        apply (par_bindE P2); [now apply (par_vsub s c L)|]. intros d d' Hd.
        apply (par_bindE (rmat (sT s))); [now apply par_get_item|]. intros q q' Hq. apply (par_bindE (rmat (sT s))); [now apply par_get_item|]. intros r r' Hr.
        apply (par_bindE (rmat (sT s))); [now apply par_maddT|]. intros. now apply par_potential. }
      intros rs rs' Hrs. assert (HR : rmat (sD s c) (mkMat (n_unique ls) rs) (mkMat (n_unique ls) rs')) by (split; auto).
      setm. apply par_tab2. intros i j. apply (l_Dadd s c L); apply par_entry; auto using (l_D0 s c L). apply par_transpose; auto. apply (l_D0 s c L).
  Qed.
  Lemma par_rCIP_eval : RMc ru rCIP_evaluate rCIP_evaluate.
  Proof.
    unfold rCIP_evaluate. getm. assert (HV : sV s c = sE s) by now rewrite Hk. match goal with HD : rmat (sD s c) (D _) (D _) |- _ => rewrite (par_nrows _ _ _ HD) end.
    destruct (1 <? _); [|setm; apply (l_V0 s c L)]. rewrite sD_E in *. letm (Forall2 (sE s)); [apply par_triu_indices; auto; apply (l_E0 s c L)|]. intros. setm.
    rewrite HV. now apply (l_Esum s c L).
  Qed.
  End Gauss.

  Lemma par_param_inc x y i : P2 x y -> RMc ru (param_inc c x i) (param_inc c y i).
  Proof.
    intros H. enough (K : forall k, c = k -> RMc ru (param_inc k x i) (param_inc k y i)) by now apply K. intros k Ek. destruct k; cbn [param_inc];
    [apply par_CH_inc|apply par_WB_inc|apply par_DB_inc|apply par_XB_inc|apply par_GD43_inc|apply par_GD53_inc|apply par_PS_inc|apply par_rCIP_inc|apply par_cSIL_inc]; auto.
  Qed.
  Lemma par_param_batch m m' ls : rmat (sP s) m m' -> RMc ru (param_batch c m ls) (param_batch c m' ls).
  Proof.
    intros H. enough (K : forall k, c = k -> RMc ru (param_batch k m ls) (param_batch k m' ls)) by now apply K. intros k Ek. destruct k; cbn [param_batch];
    [apply par_CH_batch|apply par_WB_batch|apply par_DB_batch|apply par_XB_batch|apply par_GD43_batch|apply par_GD53_batch|apply par_PS_batch|apply par_rCIP_batch|apply par_cSIL_batch]; auto; subst; reflexivity.
  Qed.
  Lemma par_evaluate o o' : AR s c o o' -> well o ->
    AR s c (fst (evaluate c o)) (fst (evaluate c o')) /\ rE ru (snd (evaluate c o)) (snd (evaluate c o')).
  Proof.
    intros Ho Hw. enough (K : forall k, c = k -> AR s c (fst (evaluate k o)) (fst (evaluate k o')) /\ rE ru (snd (evaluate k o)) (snd (evaluate k o'))) by now apply K.
    intros k Ek. destruct k; cbn [evaluate];
    [apply par_CH_eval|apply par_WB_eval|apply par_DB_eval|apply par_XB_eval|apply par_GD_eval|apply par_GD_eval|apply par_PS_eval|apply par_rCIP_eval|apply par_cSIL_eval]; auto.
  Qed.

  (** objects, calls, histories *)
  Definition robj (o : obj A) (o' : obj B) : Prop := label_map o = label_map o' /\ AR s c (at_ o) (at_ o').
  Definition rdata (d : data_arg A) (d' : data_arg B) : Prop :=
    match d, d' with Vec x, Vec y => P2 x y | Mat m, Mat m' => rmat (sP s) m m' | Nd k, Nd k' => k = k' | _, _ => False end.
  Definition rcall (p : call A) (q : call B) : Prop := rdata (fst p) (fst q) /\ snd p = snd q.
  Lemma set_row_shape {X : Arith} (m m' : mat X) i r : set_row m i r = Ok m' ->
    nrows m' = nrows m /\ mcols m' = mcols m /\ (length r = mcols m \/ length r = 1).
  Proof.
    unfold set_row. destruct (_ <? _); [|discriminate]. destruct (length r =? mcols m) eqn:E.
    - intros H. injection H as <-. apply Nat.eqb_eq in E. unfold nrows. cbn. rewrite length_upd. auto.
    - destruct r as [|x [|]]; try discriminate. intros H. injection H as <-. unfold nrows. cbn. rewrite length_upd. auto.
  Qed.
  Lemma set_col_shape {X : Arith} (m m' : mat X) i r : set_col m i r = Ok m' ->
    nrows m' = nrows m /\ mcols m' = mcols m /\ (length r = nrows m \/ length r = 1).
  Proof.
    unfold set_col. destruct (_ <? _); [|discriminate]. destruct (length r =? nrows m) eqn:E.
    - intros H. injection H as <-. apply Nat.eqb_eq in E. unfold nrows in *. cbn. rewrite length_map2, E. rewrite Nat.min_id. auto.
    - destruct r as [|x [|]]; try discriminate. intros H. injection H as <-. unfold nrows. cbn. rewrite map_length. auto.
  Qed.
  Lemma grow_shape {X : Arith} k (m m' : mat X) : grow k m = Ok m' -> nrows m' = k + 1 /\ mcols m' = k + 1.
  Proof. unfold grow. destruct (_ && _); [|discriminate]. intros H. injection H as <-. unfold nrows, tab2. cbn [mrows mcols]. rewrite map_length, seq_length. lia. Qed.
  Lemma set_item_length {X} (l l' : list X) i x : set_item l i x = Ok l' -> length l' = length l.
  Proof. unfold set_item. destruct (_ <? _); [|discriminate]. intros H. injection H as <-. apply length_upd. Qed.
  Lemma mapE_length {X Y} (f : X -> E Y) l l' : mapE f l = Ok l' -> length l' = length l.
  Proof.
    revert l'. induction l as [|x l IH]; cbn; intros l' H; [injection H as <-; reflexivity|]. destruct (f x); [|discriminate]. cbn in H.
    destruct (mapE f l) eqn:E; [|discriminate]. cbn in H. injection H as <-. cbn. f_equal. now apply IH.
  Qed.
  Lemma cSIL_inc_square {X : Arith} x i (o : attrs X) : post (cSIL_param_inc x i) o
    (fun o' r => r = Ok tt -> 1 < n_clusters o' -> nrows (S2 o') = n_clusters o' /\ mcols (S2 o') = n_clusters o').
  Proof.
    unfold cSIL_param_inc, append_n, cSIL_setup, base_setup. hrun.
    all: try discriminate.
    all: intros _ Hk; cbn in Hk |- *.
    all: try (apply Nat.eqb_eq in Heqb1; lia).
    all: repeat match goal with
      | H : set_row _ _ _ = Ok _ |- _ => apply set_row_shape in H; destruct H as (? & ? & ?)
      | H : set_col _ _ _ = Ok _ |- _ => apply set_col_shape in H; destruct H as (? & ? & ?)
      | H : grow _ _ = Ok _ |- _ => apply grow_shape in H; destruct H as (? & ?)
      | H : set_item _ _ _ = Ok _ |- _ => apply set_item_length in H
      | H : mapE _ _ = Ok _ |- _ => apply mapE_length in H
      | H : (_ <=? _) = _ |- _ => clear H | H : (_ =? _) = _ |- _ => clear H
      end.
    all: repeat rewrite map_length, ?seq_length in *; cbn in *; try lia.
  Qed.
  Lemma cSIL_batch_square {X : Arith} m ls (o : attrs X) : post (cSIL_param_batch m ls) o
    (fun o' r => r = Ok tt -> nrows (S2 o') = n_clusters o' /\ mcols (S2 o') = n_clusters o').
  Proof.
    unfold cSIL_param_batch, base_setup_batch. hrun; try discriminate.
    apply post_bind. eapply post_conseq.
    - apply (post_for _ _ _ (fun o' => n_clusters o' = n_unique ls)); [reflexivity|]. intros j p Hp. unfold cSIL_batch_body. hrun; auto.
    - intros p [u|e] Hp; [|discriminate]. hrun. intros _. unfold nrows, tab2. cbn. rewrite map_length, seq_length. auto.
  Qed.
  Lemma well_update {X : Arith} (o : obj X) d l : snd (update c o d l) = Ok tt -> well (at_ (fst (update c o d l))).
  Proof.
    intros H Hk. rewrite Hk in *. unfold update in *. destruct d as [x|m|j]; [|..].
    - destruct l as [z|zs]; [|discriminate]. destruct (get_internal_label _ _) as [i lm]. pose proof (cSIL_inc_square x i (at_ o)) as G. unfold post in G.
      cbn [param_inc] in *. destruct (cSIL_param_inc x i (at_ o)) as [a r]. cbn in *. now apply G.
    - destruct (is_setup _); [discriminate|]. destruct (negb _); [discriminate|]. destruct l as [z|zs]; [discriminate|].
      pose proof (cSIL_batch_square m zs (at_ o)) as G. unfold post in G.
      cbn [param_batch] in *. destruct (cSIL_param_batch m zs (at_ o)) as [a r]. cbn in *. intros _. now apply G.
    - discriminate.
  Qed.
  Lemma par_get_cvi o o' d d' l : robj o o' -> rdata d d' ->
    robj (fst (get_cvi c o d l)) (fst (get_cvi c o' d' l)) /\ rE (sV s c) (snd (get_cvi c o d l)) (snd (get_cvi c o' d' l)).
  Proof.
    intros [Hl Ha] Hd.
    assert (HU : robj (fst (update c o d l)) (fst (update c o' d' l)) /\ rE ru (snd (update c o d l)) (snd (update c o' d' l))).
    { unfold update. destruct d as [x|m|k], d' as [y|m'|k']; try contradiction Hd; cbn [rdata] in Hd.
      - destruct l as [z|zs]; [|split; cbn; auto; now split]. rewrite <- Hl. destruct (get_internal_label _ _) as [i lm].
        destruct (par_param_inc x y i Hd (at_ o) (at_ o') Ha) as [H1 H2]. destruct (param_inc c x i (at_ o)) as [a r], (param_inc c y i (at_ o')) as [a' r'].
        cbn in *. split; auto. now split.
      - rewrite (a_set _ _ _ _ Ha). destruct (is_setup _); [split; cbn; auto; now split|]. destruct (negb _); [split; cbn; auto; now split|].
        destruct l as [z|zs]; [split; cbn; auto; now split|].
        destruct (par_param_batch m m' zs Hd (at_ o) (at_ o') Ha) as [H1 H2]. destruct (param_batch c m zs (at_ o)) as [a r], (param_batch c m' zs (at_ o')) as [a' r'].
        cbn in *. split; auto. now split.
      - split; cbn; auto. now split. }
    pose proof (well_update o d l) as HW.
    unfold get_cvi. destruct HU as [[HU1 HU2] HU3]. destruct (update c o d l) as [o1 [u|e]], (update c o' d' l) as [o1' [u'|e']]; cbn in *; try contradiction.
    - destruct (par_evaluate (at_ o1) (at_ o1') HU2 (HW ltac:(destruct u; reflexivity))) as [H1 H2]. destruct (evaluate c (at_ o1)) as [a [w|e]], (evaluate c (at_ o1')) as [a' [w'|e']]; cbn in *; try contradiction.
      + split; [now split|]. apply (a_cv _ _ _ _ H1).
      + split; auto. now split.
    - split; auto. now split.
  Qed.
  Lemma par_run h h' : Forall2 rcall h h' -> forall o o', robj o o' ->
    robj (after c o h) (after c o' h') /\ Forall2 (rE (sV s c)) (results c o h) (results c o' h').
  Proof.
    unfold after, results. induction 1 as [|[d l] [d' l'] h h' [Hd Hl] _ IH]; intros o o' Ho; cbn in *; [now split|]. subst l'.
    destruct (par_get_cvi o o' d d' l Ho Hd) as [H1 H2]. destruct (get_cvi c o d l) as [o1 r], (get_cvi c o' d' l) as [o1' r']. cbn in *.
    destruct (IH o1 o1' H1) as [H3 H4]. destruct (run c o1 h) as [o2 rs], (run c o1' h') as [o2' rs']. cbn in *. split; auto.
  Qed.
  Lemma par_new : robj new_obj new_obj.
  Proof. split; auto. now apply AR_init. Qed.
  End C.
End Run.
