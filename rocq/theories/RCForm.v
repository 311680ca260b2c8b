(** * The covariances that rCIP holds after a stream: lemmas for every arithmetic *)
From Coq Require Import ZArith List Arith Bool Lia.
From Verif Require Import Num NumPy Base M_CH M_D M_PS GetCvi Lists Step Step2 StepB Hoare Eval Stream Shapes Generic Nan RunForm.
Import ListNotations.

Section RCForm.
  Context {A : Arith}.

  Lemma rc_new_sigma d x (o o' : attrs A) : o = init_attrs \/ ShapeR d o -> length x = d ->
    rCIP_param_inc x (n_clusters o) o = (o', Ok tt) ->
    v o' = mkMat d (mrows (v o) ++ [x]) /\ sigma o' = sigma o ++ [rCIP_delta_term d].
  Proof.
    intros Hs Hx E0. destruct Hs as [->|HS].
    - destruct (Nat.eq_dec d 0) as [Hd|Hd].
      { destruct x; [|simpl in Hx; lia]. discriminate E0. }
      destruct (rCIP_first d x Hx Hd) as (o1 & E & C & N & HD & Hsg & Hdl).
      change (n_clusters init_attrs) with 0 in E0. rewrite E in E0. inversion E0; subst o1.
      split; [apply N|]. exact Hsg.
    - destruct (table (fun j g => rCIP_term (rc o d) x (rCIP_delta_term d) j = Ok g) (n_clusters o) f0) as [g Hg].
      { intros j Hj. destruct (rCIP_term (rc o d) x (rCIP_delta_term d) j) as [g|e] eqn:Et; [eauto|].
        destruct (rCIP_new_raise d x o HS Hx) as [e' E']; [eauto|]. congruence. }
      destruct (rCIP_new d x o g HS Hx Hg) as (o1 & E & C & N & HD & Hsg & Hdl).
      rewrite E in E0. inversion E0; subst o1. split; [apply N|]. exact Hsg.
  Qed.
  Lemma rc_old_sigma d x i (o o' : attrs A) : ShapeR d o -> length x = d -> i < n_clusters o ->
    rCIP_param_inc x i o = (o', Ok tt) ->
    v o' = mkMat d (upd i (v_upd (nn o i) (vrow o i) x) (mrows (v o))) /\
    sigma o' = upd i (sigma_upd d (nn o i) (vrow o i) (sig o i) x) (sigma o).
  Proof.
    intros Hs Hx Hi E0.
    destruct (table (fun j g => j <> i -> rCIP_term (rc o d) (v_upd (nn o i) (vrow o i) x)
                (sigma_upd d (nn o i) (vrow o i) (sig o i) x) j = Ok g) (n_clusters o) f0) as [g Hg].
    { intros j Hj. destruct (Nat.eq_dec j i) as [->|Hn]; [exists f0; congruence|].
      destruct (rCIP_term (rc o d) (v_upd (nn o i) (vrow o i) x)
                (sigma_upd d (nn o i) (vrow o i) (sig o i) x) j) as [g|e] eqn:Et; [eauto|].
      destruct (rCIP_old_raise d x i o Hs Hx Hi) as [e' E']; [eauto 6|]. congruence. }
    destruct (rCIP_old d x i o g Hs Hx Hi Hg) as (o1 & E & C & N & HD & Hsg & Hdl).
    rewrite E in E0. inversion E0; subst o1. split; [apply N|exact Hsg].
  Qed.

  (** a property of the covariances and one of the centroids that every step keeps *)
  Record Kept (d N : nat) (P : mat A -> Prop) (Q : vec A -> Prop) : Prop := mkKept {
    kp_delta : P (rCIP_delta_term d);
    kp_v : forall m vi x, length vi = d -> length x = d -> 1 <= m -> m < N -> Q vi -> Q x -> Q (v_upd m vi x);
    kp_sigma : forall m vi si x, length vi = d -> length x = d -> 1 <= m -> m < N -> P si -> Q vi -> Q x -> P (sigma_upd d m vi si x)
  }.
  Definition Holds (P : mat A -> Prop) (Q : vec A -> Prop) (a : attrs A) : Prop :=
    Forall P (sigma a) /\ Forall Q (mrows (v a)).

  Lemma groups_sizes (s : list (vec A * Z)) i : length (nth i (groups s) []) <= length s.
  Proof.
    destruct (Nat.lt_ge_cases i (length (groups s))) as [Hi|Hi]; [|rewrite nth_overflow; [cbn|]; lia].
    assert (H : In (nth i (groups s) []) (groups s)) by (now apply nth_In).
    revert H. generalize (nth i (groups s) []). intros g H. unfold groups in H. apply in_map_iff in H as (l & <- & _). unfold grp. rewrite map_length.
    clear. induction s as [|p s IH]; cbn; [lia|]. match goal with |- context [if ?b then _ else _] => destruct b end; cbn; lia.
  Qed.

  Lemma kept_step d N P Q s x l (a a1 : attrs A) : Kept d N P Q -> length s < N ->
    Formed krCIP d s a -> Holds P Q a -> length x = d -> Q x ->
    param_inc krCIP x (index l (firsts s)) a = (a1, Ok tt) -> Holds P Q a1.
  Proof.
    intros HK HN HF [HP HQ] Hx Qx E0. destruct HF as [Hs Hk Hn Hv _].
    destruct (in_dec Z.eq_dec l (firsts s)) as [Hin|Hin].
    - assert (HS : Shape krCIP d a) by (destruct Hs as [[-> _]|[_ H]]; [destruct Hin|auto]). cbn [Shape param_inc] in *.
      destruct (index_In _ _ Hin) as [Hi _]. rewrite <- Hk in Hi. set (i := index l (firsts s)) in *.
      destruct (rc_old_sigma d x i a a1 HS Hx Hi E0) as [E1 E2].
      destruct HS as [H1 H2 H3 H4 (V1 & V2 & V3) H6 H7 H8 H9 Hp Hna].
      assert (Em : nn a i = length (nth i (groups s) [])).
      { unfold nn. rewrite Hn. rewrite Hk in Hi. now apply (nth_groups (@length _)). }
      pose proof (groups_sizes s i) as Hle.
      assert (Hm : 1 <= nn a i). { rewrite Forall_forall in Hp. assert (nn a i <> 0); [|lia]. apply Hp, nth_In. lia. }
      assert (Lv : length (vrow a i) = d) by (rewrite Forall_forall in V3; apply V3, nth_In; lia).
      assert (Qv : Q (vrow a i)) by (rewrite Forall_forall in HQ; apply HQ, nth_In; lia).
      split.
      + rewrite E2. apply Forall_upd; auto. apply (kp_sigma _ _ _ _ HK); auto; try lia.
        rewrite Forall_forall in HP. apply HP. unfold sig. apply nth_In. lia.
      + rewrite E1. cbn [mrows]. apply Forall_upd; auto. apply (kp_v _ _ _ _ HK); auto; lia.
    - assert (HS : a = init_attrs \/ ShapeR d a) by (destruct Hs as [[_ H]|[_ H]]; auto).
      rewrite index_notIn in E0 by auto. rewrite <- Hk in E0. cbn [param_inc] in E0.
      destruct (rc_new_sigma d x a a1 HS Hx E0) as [E1 E2]. split.
      + rewrite E2. apply Forall_app. split; auto. constructor; auto. apply HK.
      + rewrite E1. cbn [mrows]. apply Forall_app. split; auto.
  Qed.
  Lemma kept_frame P Q (a a' : attrs A) : Frame a a' -> Holds P Q a -> Holds P Q a'.
  Proof. intros HF HD. destruct HF. unfold Holds. rewrite fr_sigma, fr_v. exact HD. Qed.

  Theorem kept_stream d P Q s vs : Kept d (length s) P Q -> Forall (fun p => Q (fst p)) s ->
    wf_stream d s -> results krCIP new_obj (stream s) = map Ok vs -> exists a,
    after krCIP new_obj (stream s) = mkObj (lmap (firsts s)) a /\ Formed krCIP d s a /\ Holds P Q a.
  Proof.
    intros HK. assert (HN : length s <= length s) by lia. revert HN HK. generalize (length s) at 2 3. intros N HN HK.
    revert vs HN. induction s as [|[x l] s IH] using rev_ind; intros vs HN HQ Hw Hr.
    - exists init_attrs. split; auto. split; [constructor; auto|]. split; constructor.
    - rewrite stream_app, results_app in Hr. rewrite app_length in HN. cbn in HN.
      apply Forall_app in HQ as [HQ Qx]. inversion Qx; subst. cbn [fst] in *.
      assert (exists vs1, results krCIP new_obj (stream s) = map Ok vs1) as [vs1 Hr1].
      { exists (firstn (length (stream s)) vs). apply (f_equal (firstn (length (stream s)))) in Hr.
        rewrite <- (results_length krCIP new_obj (stream s)) in Hr at 1.
        rewrite firstn_app, firstn_all, Nat.sub_diag, firstn_O, app_nil_r in Hr.
        rewrite Hr. now rewrite firstn_map. }
      destruct (IH vs1 ltac:(lia) HQ (wf_snoc _ _ _ Hw) Hr1) as (a & Ea & HG & HX).
      rewrite Ea in Hr. unfold results in Hr. cbn [stream map run fst snd] in Hr.
      rewrite stream_app, after_app, Ea. unfold after. cbn [stream map run fst snd].
      unfold get_cvi, update in *. cbn [label_map at_ fst snd] in *. rewrite lmap_get in *.
      destruct (param_inc krCIP x (index l (firsts s)) a) as [a1 [[]|e]] eqn:E1.
      2:{ exfalso. cbn [fst snd] in Hr. fold (results krCIP new_obj (stream s)) in Hr. rewrite Hr1 in Hr.
          apply (f_equal (@rev _)) in Hr. rewrite rev_app_distr, <- !map_rev in Hr. cbn [rev app] in Hr.
          destruct (rev vs); discriminate Hr. }
      pose proof (formed_step krCIP d s x l a a1 HG (wf_last _ _ _ _ Hw) E1) as HG1.
      pose proof (kept_step d N P Q s x l a a1 HK ltac:(lia) HG HX (wf_last _ _ _ _ Hw) H1 E1) as HX1.
      assert (HS1 : Shape krCIP d a1).
      { destruct HG1 as [[[H _]|[_ H]] _ _ _ _]; auto. destruct s; discriminate. }
      destruct (ev_total krCIP d a1 HS1) as (a2 & E2 & E3 & HF). cbn [at_ label_map]. rewrite E2. cbn [fst].
      exists a2. rewrite firsts_snoc. split; auto. split; [|eapply kept_frame; eauto].
      eapply formed_frame; eauto. destruct s; discriminate.
  Qed.
End RCForm.
