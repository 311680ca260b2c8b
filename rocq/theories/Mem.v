(** * How much an object stores after a stream *)
From Coq Require Import ZArith List Arith Lia Bool.
From Verif Require Import Num NumPy Base M_CH M_D M_PS GetCvi Lists Step Step2 StepB Hoare Eval Stream Shapes Generic.
Import ListNotations.

Lemma mapE_len {X Y} (f : X -> E Y) l ys : mapE f l = Ok ys -> length ys = length l.
Proof. intros H. now apply mapE_inv in H. Qed.

Section Mem.
  Context {A : Arith}.
  (** what [_param_inc] does to the attributes about which [Shape] is silent *)
  Definition inc_rest (c : kind) (d : nat) (o o' : attrs A) (r : E unit) : Prop := r = Ok tt ->
    match c with
    | kCH | kWB => length (SEP o') = n_clusters o'
    | kXB => SEP o' = SEP o \/ length (SEP o') = d
    | kDB => R o' = R o
    | kPS => v_bar o' = v_bar o /\ PS_i o' = PS_i o
    | kcSIL => sil_coefs o' = sil_coefs o
    | krCIP => CP o' = CP o /\ (mrows (G o') = mrows (G o) \/ mrows (G o') = [])
    | kGD43 | kGD53 => True
    end.
  Ltac sep_done := red_attrs; intros ?; try discriminate;
    match goal with H : mapE _ _ = Ok ?s |- length ?s = _ => apply mapE_len in H; rewrite seq_length in H; exact H end.
  Ltac rest_done := red_attrs; intros ?; try discriminate; auto.
  Lemma inc_rest_ok c x i o : post (param_inc c x i) o (inc_rest c (length x) o).
  Proof.
    destruct c; cbn [param_inc]; unfold inc_rest.
    - unfold CH_param_inc, append_n, CH_setup, base_setup. hrun. all: sep_done.
    - unfold WB_param_inc, append_n, WB_setup, base_setup. hrun. all: sep_done.
    - unfold DB_param_inc, append_n, DB_setup, base_setup. hrun. all: rest_done.
    - unfold XB_param_inc, append_n, XB_setup, base_setup. hrun. all: rest_done; right; apply length_zeros.
    - exact (fun _ => I).
    - exact (fun _ => I).
    - unfold PS_param_inc, append_n, PS_setup, base_setup. hrun. all: rest_done.
    - unfold rCIP_param_inc, append_n, rCIP_setup, base_setup. hrun. all: rest_done.
    - unfold cSIL_param_inc, append_n, cSIL_setup, base_setup. hrun. all: rest_done.
  Qed.
  (** and [_evaluate] *)
  Definition ev_rest (c : kind) (o o' : attrs A) (r : E unit) : Prop :=
    match c with
    | kCH | kWB => SEP o' = SEP o
    | kXB => SEP o' = SEP o \/ length (SEP o') = 1
    | kDB => R o' = R o \/ wfm (n_clusters o) (n_clusters o) (R o')
    | kPS => (v_bar o' = v_bar o \/ length (v_bar o') = mcols (v o)) /\ (PS_i o' = PS_i o \/ length (PS_i o') = n_clusters o)
    | kcSIL => length (sil_coefs o') = n_clusters o
    | krCIP => CP o' = CP o /\ G o' = G o
    | kGD43 | kGD53 => True
    end.
  Ltac ev_done := red_attrs; repeat split; auto; try (right; apply wfm_tab2); try apply length_zeros;
    try (right; unfold mean0; rewrite map_length, seq_length; reflexivity);
    try (right; match goal with H : mapE _ _ = Ok ?s |- length ?s = _ => apply mapE_len in H; rewrite seq_length in H; exact H end);
    try match goal with H : mapE _ _ = Ok ?s |- length ?s = _ => apply mapE_len in H; rewrite seq_length in H; exact H end.
  Lemma ev_rest_ok c o : post (evaluate c) o (ev_rest c o).
  Proof.
    destruct c; cbn [evaluate]; unfold ev_rest.
    - unfold CH_evaluate. hrun. all: ev_done.
    - unfold WB_evaluate. hrun. all: ev_done.
    - unfold DB_evaluate. hrun. all: ev_done.
    - unfold XB_evaluate. hrun. all: ev_done.
    - exact I.
    - exact I.
    - unfold PS_evaluate. hrun. all: ev_done.
    - unfold rCIP_evaluate. hrun. all: ev_done.
    - unfold cSIL_evaluate. hrun. all: ev_done.
  Qed.

  Definition size_m (m : mat A) : nat := list_sum (map (@length _) (mrows m)).
  Lemma size_wfm k d m : wfm k d m -> size_m m = k * d.
  Proof.
    intros (_ & <- & H). unfold size_m. induction (mrows m) as [|r l IH]; auto. inversion H; subst. cbn [map list_sum fold_right length].
    unfold list_sum in *. rewrite IH by auto. lia.
  Qed.
  (** the sizes of those attributes after a stream *)
  Definition Rest (c : kind) (d : nat) (o : attrs A) : Prop :=
    let k := n_clusters o in
    match c with
    | kCH | kWB => length (SEP o) <= k
    | kXB => length (SEP o) <= d + 1
    | kDB => size_m (R o) <= k * k
    | kPS => length (v_bar o) <= d /\ length (PS_i o) <= k
    | kcSIL => length (sil_coefs o) <= k
    | krCIP => CP o = [] /\ mrows (G o) = []
    | kGD43 | kGD53 => True
    end.
  Lemma Rest_init c d : Rest c d init_attrs.
  Proof. destruct c; cbn; repeat split; lia. Qed.
  Lemma Rest_step c d (x : vec A) (o o1 o2 : attrs A) : length x = d -> Rest c d o -> n_clusters o <= n_clusters o1 -> Shape c d o1 -> Frame o1 o2 ->
    inc_rest c d o o1 (Ok tt) -> ev_rest c o1 o2 (Ok tt) -> Rest c d o2.
  Proof.
    intros Hx H Hk Hs HF H1 H2. assert (Ek : n_clusters o2 = n_clusters o1) by apply HF. specialize (H1 eq_refl).
    destruct c; cbn [Rest inc_rest ev_rest] in *; try exact I; rewrite ?Ek.
    - rewrite H2. lia.
    - rewrite H2. lia.
    - destruct H2 as [->|H2]; [rewrite H1; nia|]. rewrite (size_wfm _ _ _ H2). lia.
    - destruct H2 as [->|H2]; [destruct H1 as [->|H1]|]; lia.
    - destruct H1 as [V1 P1], H2 as [V2 P2], H as [V P], Hs as [Hs _]. destruct (sp_v _ _ Hs) as (Ec & _).
      split; [destruct V2 as [->|V2]; [rewrite V1; lia|rewrite V2, Ec; lia]|destruct P2 as [->|P2]; [rewrite P1; lia|lia]].
    - destruct H as [C G], H1 as [C1 G1], H2 as [C2 G2]. rewrite C2, C1, G2. split; auto. destruct G1 as [->|G1]; auto.
    - lia.
  Qed.

  Lemma run_rest c d s : inv_good (A := A) c d -> wf_stream d s -> exists a vals,
    run c new_obj (stream s) = (mkObj (lmap (firsts s)) a, map Ok vals) /\
    ((s = [] /\ a = init_attrs) \/ (s <> [] /\ Shape c d a)) /\ Counted d s a /\ Rest c d a.
  Proof.
    intros HI. induction s as [|[x l] s IH] using rev_ind; intros Hw.
    - exists init_attrs, []. repeat split; auto. apply Rest_init.
    - destruct (IH (wf_snoc _ _ _ Hw)) as (a & vals & Er & Hs & Hc & HR). pose proof (wf_last _ _ _ _ Hw) as Hx.
      destruct (counted_step c d s x l a HI Hs Hc Hx) as (a1 & a2 & E1 & E2 & E3 & S1' & S2' & Hc').
      exists a2, (vals ++ [criterion_value a2]). split; [|split; [|split]]; auto.
      + rewrite stream_app, run_app, Er. cbn [fst snd stream map run]. unfold get_cvi, update.
        cbn [label_map at_ fst snd]. rewrite lmap_get, E1. cbn [at_ label_map]. rewrite E2. cbn [fst snd].
        rewrite map_app, firsts_snoc. reflexivity.
      + right. split; auto. destruct s; discriminate.
      + pose proof (inc_rest_ok c x (index l (firsts s)) a) as Q1. pose proof (ev_rest_ok c a1) as Q2.
        pose proof (inc_all c x (index l (firsts s)) a) as Q3. pose proof (ev_all c a1) as Q4.
        unfold post in Q1, Q2, Q3, Q4. rewrite E1 in Q1, Q3. rewrite E2 in Q2, Q4. cbn [fst snd] in *. rewrite Hx in Q1.
        apply (Rest_step c d x a a1 a2); auto.
        * apply Q3.
        * apply Q4.
  Qed.
End Mem.
