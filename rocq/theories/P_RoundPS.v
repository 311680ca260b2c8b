(** * C68: how far rounding moves the value of PS *)
From Coq Require Import ZArith Lia Lra SpecFloat List Arith Reals Permutation.
From Flocq Require Import Core.
From Verif Require Import Num NumPy Base GetCvi Lists Step StepB Eval Stream Shapes Generic RunForm BatchForm ValForm PSForm F64 F64o Rnd RndErr RndMean RndSum RndCl RndCP RndCP3 RndOps RndVal RndCH RndSel RndVal2 RndRun RndRun2 RndPS RndRunPS Spec RGeom XPerm P_Calls P_Round P_RoundCP P_RoundV P_RoundV2.
Import ListNotations.
Local Open Scope R_scope.
Local Notation R := Rdefinitions.R.

(** ** The specification *)
(** The exponential of the C library is finite and off by at most [tau] on the
    numbers that are not positive (1 ulp of a result below 1 is at most 2^-53). *)
Definition exp_within (tau : R) (L : Libm) : Prop := forall x, valid x -> fin x -> rv x <= 0 ->
  valid (l_exp L x) /\ fin (l_exp L x) /\ Rabs (rv (l_exp L x) - exp (rv x)) <= tau.
(** [l] is the rounding level (P_RoundV.v), [separation] the smallest squared
    distance of two centroids (P_RoundV2.v), [k] the number of clusters *)
Definition PS_above (l : R) (d : nat) (gs : list (list point)) : Prop := 4 * (nclus gs * l) <= separation d gs.
Definition PS_allowed (tau l : R) (d : nat) (gs : list (list point)) : R := nclus gs * (tau + 2 * (nclus gs * l / separation d gs)).

Lemma PS_formula_perm d gs gs' : Permutation gs gs' -> PS_formula d gs = PS_formula d gs'.
Proof.
  intros P. unfold PS_formula. rewrite (beta_perm d _ _ P). apply rsum_perm.
  rewrite (rmax_perm _ _ (Permutation_map (fun g => INR (length g)) P)).
  apply (selects_perm (fun x r => INR (length x) / rmax (map (fun g => INR (length g)) gs') - exp (- rmin (map (cdist d x) r) / PS_beta d gs'))); auto.
  intros x r r' Hr. do 4 f_equal. now apply rmin_perm, Permutation_map.
Qed.

Section Common.
  Context (L : Libm) (S : Sums) (HS : any_order S).
  Notation A := (F64o L S).
  Context (d : nat) (s : list (list f64 * Z)) (b : R) (Hz : sized d s) (Hw : wf_stream (A := A) d s)
          (Hb : moderate b) (Hwi : within b s) (H2 : (2 <= length (true_clusters s))%nat).
  Context (tau : R) (Htau : 0 <= tau <= 1) (HX : exp_within tau L).
  Lemma common_PS a gs (P : Permutation gs (groups s)) : ps_holds L S b d gs a ->
    PS_above (level b d s) d (true_clusters s) ->
    close (val_of (A := A) kPS a) (PS_formula d (true_clusters s)) (PS_allowed tau (level b d s) d (true_clusters s)).
  Proof.
    intros Ho Ha. destruct (perm_ok L S b d s Hw Hwi (proj2 Hz) (s_ne s H2) gs P) as (G1 & G2 & G3 & G4 & G5 & G6).
    assert (K2 : (2 <= length gs)%nat) by (rewrite G6; exact H2). fold (true_clusters s) in G5, G6.
    pose proof (moderate_lo2 b Hb) as Hb'. destruct Hz as [Hd HL]. pose proof (s_ne s H2) as Hs.
    assert (El : lam b d gs = level b d s) by (unfold lam, level, u; rewrite G3; ring).
    assert (Es : sepmin d gs = separation d (true_clusters s)) by (exact (separation_perm d _ _ G5)).
    assert (Ek : INR (length gs) = nclus (true_clusters s)) by (unfold nclus; now rewrite G6).
    pose proof (obj_PS L S HS b Hb' d Hd s Hw Hwi HL Hs gs P K2 tau Htau HX a Ho) as H. rewrite El, Es, Ek in H.
    rewrite <- (PS_formula_perm d _ _ G5). destruct (H Ha) as (_ & Hf & He). split; auto.
  Qed.
End Common.

(** ** Streams *)
Theorem C68_stream (L : Libm) (S : Sums) (d : nat) (s : list (vec (F64o L S) * Z)) vs r (b tau : R) :
  any_order S -> 0 <= tau <= 1 -> exp_within tau L -> sized d s -> wf_stream d s -> results kPS new_obj (stream s) = map Ok (vs ++ [r]) ->
  moderate b -> within b s ->
  let gs := true_clusters s in
  (2 <= length gs)%nat -> PS_above (level b d s) d gs ->
  close r (PS_formula d gs) (PS_allowed tau (level b d s) d gs).
Proof.
  intros HS Ht HX Hz Hw Hr Hb Hwi gs H2 Ha. destruct (ps_stream d s vs r Hw Hr) as (a & HF & HD & ->).
  assert (Hs : s <> []) by (exact (s_ne s H2)). pose proof (moderate_lo2 b Hb) as Hb'.
  apply (common_PS L S HS d s b Hz Hw Hb Hwi H2 tau Ht HX a (groups s) (Permutation_refl _)); auto.
  exact (ps_holds_stream L S b Hb' d (proj1 Hz) s Hw Hwi (proj2 Hz) Hs (groups s) (Permutation_refl _) tau Ht a eq_refl HF HD).
Qed.
Print Assumptions C68_stream.

(** ** One batch with labels 0, 1, ..., k-1 *)
Theorem C68_batch (L : Libm) (S : Sums) (d : nat) (s : list (vec (F64o L S) * Z)) r (b tau : R) :
  any_order S -> 0 <= tau <= 1 -> exp_within tau L -> sized d s -> wf_stream d s -> results kPS new_obj [batch_of d s] = [Ok r] ->
  moderate b -> within b s ->
  let gs := true_clusters s in
  exact_labels (exact_data s) (length gs) -> (2 <= length gs)%nat -> PS_above (level b d s) d gs ->
  close r (PS_formula d gs) (PS_allowed tau (level b d s) d gs).
Proof.
  intros HS Ht HX Hz Hw Hr Hb Hwi gs Hl H2 Ha. destruct (ps_batch d s r Hr) as (a & HB & HD & _ & ->).
  destruct (exact_labels_upto s _ Hl) as [Hl' El].
  assert (Hs : s <> []) by (exact (s_ne s H2)). pose proof (moderate_lo2 b Hb) as Hb'.
  pose proof (bgroups_perm L S d s Hl') as P.
  apply (common_PS L S HS d s b Hz Hw Hb Hwi H2 tau Ht HX a _ P); auto.
  assert (K2 : (2 <= length (bgroups (A := F64o L S) s))%nat).
  { destruct (perm_ok L S b d s Hw Hwi (proj2 Hz) Hs _ P) as (_ & _ & _ & _ & _ & G6). exact (eq_ind_r (fun t => (2 <= t)%nat) H2 G6). }
  exact (ps_holds_batch L S HS b Hb' d (proj1 Hz) s Hw Hwi (proj2 Hz) Hs _ P K2 a eq_refl HB HD).
Qed.
Print Assumptions C68_batch.

(** ** The two modes *)
Theorem C68_modes_agree (L : Libm) (S : Sums) (d : nat) (s : list (vec (F64o L S) * Z)) vs r r' (b tau : R) :
  any_order S -> 0 <= tau <= 1 -> exp_within tau L -> sized d s -> wf_stream d s -> moderate b -> within b s ->
  let gs := true_clusters s in
  exact_labels (exact_data s) (length gs) -> (2 <= length gs)%nat -> PS_above (level b d s) d gs ->
  results kPS new_obj (stream s) = map Ok (vs ++ [r]) -> results kPS new_obj [batch_of d s] = [Ok r'] ->
  Rabs (rv r - rv r') <= 2 * PS_allowed tau (level b d s) d gs.
Proof.
  intros HS Ht HX Hz Hw Hb Hwi gs Hl H2 Ha H H'.
  exact (close_two _ _ _ _ (C68_stream L S d s vs r b tau HS Ht HX Hz Hw H Hb Hwi H2 Ha) (C68_batch L S d s r' b tau HS Ht HX Hz Hw H' Hb Hwi Hl H2 Ha)).
Qed.
Print Assumptions C68_modes_agree.

(** ** Cases *)
(** a library whose exponential is the true one, rounded to a multiple of 2^-52 *)
Definition fixed (x : R) : f64 := ddiv (d_of_Z (ZnearestE (x * 4503599627370496))) (d_of_Z 4503599627370496).
Definition rounded_exp : Libm :=
  mkLibm (fun x => match x with S754_nan => S754_nan | _ => fixed (exp (rv x)) end) (fun x _ => x) (fun _ => d_of_Z 0) (fun _ => None).
Lemma rounded_exp_within : exp_within (/ 2 ^ 51) rounded_exp.
Proof.
  intros x Vx Fx Hx. cbn [rounded_exp l_exp]. assert (Ex : 0 < exp (rv x) <= 1).
  { split; [apply exp_pos|]. rewrite <- exp_0. destruct Hx as [Hx| ->]; [left; now apply exp_increasing|right; reflexivity]. }
  assert (H : valid (fixed (exp (rv x))) /\ fin (fixed (exp (rv x))) /\ Rabs (rv (fixed (exp (rv x))) - exp (rv x)) <= / 2 ^ 51).
  { unfold fixed. set (y := exp (rv x)) in *. set (z := ZnearestE (y * 4503599627370496)).
    assert (Hz : Rabs (y * 4503599627370496 - IZR z) <= / 2) by apply Znearest_half. apply Rabs_le_inv in Hz.
    assert (Rz : (-1 <= z <= 4503599627370497)%Z) by (split; apply le_IZR; lra).
    assert (Az : Rabs (IZR z) <= 4503599627370497) by (rewrite <- abs_IZR; apply IZR_le; lia).
    assert (T1 : 4503599627370497 <= top) by (apply Rle_trans with (bpow radix2 53); [cbn; lra|apply bpow_le; lia]).
    assert (Aq : Rabs (IZR z / IZR 4503599627370496) <= 2).
    { unfold Rdiv. rewrite Rabs_mult, (Rabs_pos_eq (/ _)) by lra. lra. }
    assert (He : eta <= / 1000000 * u).
    { apply Rle_trans with (u * u); [unfold eta, u; rewrite <- bpow_plus; apply bpow_le; lia|]. pose proof u_small. apply Rmult_le_compat_r; lra. }
    destruct (near_div_Z _ _ _ 4503599627370496 (near_Z z ltac:(lia))) as (V & Fi & Hd); [lia|lra|].
    split; [exact V|]. split; [exact Fi|]. set (q := IZR z / IZR 4503599627370496) in *.
    assert (Dq : Rabs (q - y) <= / 9007199254740992).
    { apply Rabs_le. unfold q. lra. }
    match type of Hd with Rabs (?w - _) <= _ => replace (w - y) with ((w - q) + (q - y)) by ring end.
    eapply Rle_trans; [apply Rabs_triang|]. unfold Rdiv in Hd. rewrite Rmult_0_l in Hd. pose proof (Rabs_pos q). pose proof u_pos.
    assert (u * (Rabs q + 0) <= u * 2) by (apply Rmult_le_compat_l; lra). rewrite u_val in *. cbn [pow]. lra. }
  destruct x; try exact H. discriminate.
Qed.

(** For 0, 0, 5 | 10 the true value is 4/3 - 2 exp(-4); every run of the code
    with this library returns it up to 2^-29. *)
Example C68_example :
  let L := rounded_exp in let s := thirds L in let gs := true_clusters s in
  exp_within (/ 2 ^ 51) L /\ sized 1 s /\ wf_stream 1 s /\ moderate 16 /\ within 16 s /\ (2 <= length gs)%nat /\ exact_labels (exact_data s) (length gs) /\
  PS_above (level 16 1 s) 1 gs /\ PS_formula 1 gs = 4 / 3 - 2 * exp (- 4) /\ PS_allowed (/ 2 ^ 51) (level 16 1 s) 1 gs <= / 2 ^ 29 /\
  exists vs r, results kPS new_obj (stream s) = map Ok (vs ++ [r]) /\ close r (4 / 3 - 2 * exp (- 4)) (/ 2 ^ 29).
Proof.
  intros L s gs.
  assert (Hx : exp_within (/ 2 ^ 51) L) by exact rounded_exp_within.
  assert (Hz : sized 1 s) by (split; cbn; lia). assert (Hw : wf_stream 1 s) by (repeat constructor).
  assert (Hb : moderate 16) by (change 16 with (bpow radix2 4); split; apply bpow_le; lia).
  assert (Hwi : within 16 s) by (exact (thirds_within L)).
  assert (Eg : gs = [[[0]; [0]; [5]]; [[10]]]) by (apply thirds_clusters).
  assert (H2 : (2 <= length gs)%nat) by (rewrite Eg; cbn; lia).
  assert (Hl : exact_labels (exact_data s) (length gs)).
  { rewrite Eg. unfold exact_labels. intros x. cbn. lia. }
  assert (Ecd : cdist 1 [[0]; [0]; [5]] [[10]] = 625 / 9) by (unfold cdist, centroid, dist2; cbn; field).
  assert (Es : separation 1 gs = 625 / 9) by (rewrite Eg; unfold separation; cbn; exact Ecd).
  assert (Ebt : PS_beta 1 [[[0]; [0]; [5]]; [[10]]] = 625 / 36) by (unfold PS_beta, nclus, centroid, dist2; cbn; field).
  assert (EF : PS_formula 1 gs = 4 / 3 - 2 * exp (- 4)).
  { rewrite Eg. unfold PS_formula. rewrite Ebt. cbn [selects map fst snd rmin fold_right Spec.rsum length]. rewrite (cdist_sym 1 [[10]]), Ecd.
    replace (rmax _) with 3 by (cbn; unfold Rmax; repeat destruct Rle_dec; lra).
    replace (- (625 / 9) / (625 / 36)) with (-4) by field. replace (INR 3) with 3 by (cbn; ring). cbn [INR]. field. }
  assert (El : level 16 1 s = 389120 * bpow radix2 (-53)) by (unfold level; cbn [s thirds length INR]; ring).
  change (bpow radix2 (-53)) with (/ 9007199254740992) in El.
  assert (En : nclus gs = 2) by (rewrite Eg; cbn; ring).
  assert (Ha : PS_above (level 16 1 s) 1 gs) by (unfold PS_above; rewrite En, Es, El; lra).
  assert (HA : PS_allowed (/ 2 ^ 51) (level 16 1 s) 1 gs <= / 2 ^ 29) by (unfold PS_allowed; rewrite En, Es, El; lra).
  repeat (split; [assumption|]).
  destruct (C18_rectangular_streams_never_raise (F64o L left_right) kPS 1 s) as [vals Hv]; [intros x l Hi; repeat (destruct Hi as [[= <- <-]|Hi]; [reflexivity|]); destruct Hi|discriminate|].
  assert (Hn : length vals = 4%nat) by (rewrite <- (map_length Ok vals); refine (eq_trans (eq_sym (f_equal (@length _) Hv)) _); refine (eq_trans (results_length kPS _ _) _); reflexivity).
  destruct vals as [|r vs _] using rev_ind; [discriminate Hn|]. exists vs, r. split; [exact Hv|].
  destruct (C68_stream L left_right 1 s vs r 16 (/ 2 ^ 51) left_right_order ltac:(lra) Hx Hz Hw Hv Hb Hwi H2 Ha) as [Hf Hd].
  split; [exact Hf|]. fold gs in Hd. rewrite EF in Hd. lra.
Qed.

(** The condition is needed: for 2^52 | 2^52, 2^52+1 the two computed centroids
    coincide and the value is nan in both modes, while the true value is
    3/2 - 2 exp(-4). *)
Theorem C68_needs_separation :
  let L := rounded_exp in let s := close_by L in let gs := true_clusters s in
  exp_within (/ 2 ^ 51) L /\
  sized 1 s /\ wf_stream 1 s /\ exact_labels (exact_data s) (length gs) /\
  PS_formula 1 gs = 3 / 2 - 2 * exp (- 4) /\
  (exists vs, results kPS new_obj (stream s) = map Ok (vs ++ [S754_nan])) /\
  results kPS new_obj [batch_of 1 s] = [Ok S754_nan].
Proof.
  intros L s gs. split; [exact rounded_exp_within|].
  assert (Eg : gs = [[[4503599627370496]]; [[4503599627370496]; [4503599627370497]]]).
  { destruct ex_vals as (_ & _ & _ & E1 & E2). unfold gs, s, true_clusters, exact_data, close_by. cbn [map fst snd]. rewrite E1, E2. reflexivity. }
  split; [split; cbn; lia|]. split; [repeat constructor|].
  split. { rewrite Eg. unfold exact_labels. intros x. cbn. lia. }
  assert (Ecd : cdist 1 [[4503599627370496]] [[4503599627370496]; [4503599627370497]] = 1 / 4) by (unfold cdist, centroid, dist2; cbn; field).
  assert (Ebt : PS_beta 1 [[[4503599627370496]]; [[4503599627370496]; [4503599627370497]]] = 1 / 16) by (unfold PS_beta, nclus, centroid, dist2; cbn; field).
  split.
  { rewrite Eg. unfold PS_formula. rewrite Ebt. cbn [selects map fst snd rmin fold_right Spec.rsum length]. rewrite (cdist_sym 1 [[4503599627370496]; _]), Ecd.
    replace (rmax _) with 2 by (cbn; unfold Rmax; repeat destruct Rle_dec; lra).
    replace (- (1 / 4) / (1 / 16)) with (-4) by field. replace (INR 2) with 2 by (cbn; ring). cbn [INR]. field. }
  split; [exists [d_of_Z 0; S754_nan]|]; vm_compute; reflexivity.
Qed.
Print Assumptions C68_needs_separation.
