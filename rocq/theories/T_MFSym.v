(** * Symmetries of the matrix factorisation models: swapping likes and
    dislikes (C87), turning the latent space (C88) *)
From Coq Require Import List ZArith Reals Lra Lia Bool.
From Verif Require Import M_Py P_Py M_Sigmoid P_RSum P_Exp T_Sigmoid M_MF P_MF T_MF T_MF2 T_MFInit T_MF3 T_Implicit.
Import ListNotations.
Open Scope R_scope.

(** ** C87 *)

(** the parameters of the opposite opinion: scores change their sign *)
Definition mirror (t : par) : par :=
  mkPar (- mu t) (map Ropp (bu t)) (map Ropp (bi t)) (map (map Ropp) (pu t)) (qi t).

Lemma mirror_wf : forall nu ni k t, wf nu ni k t -> wf nu ni k (mirror t).
Proof.
  intros nu ni k t [H1 [H2 [H3 [H4 [H5 H6]]]]]. unfold wf, mirror. cbn [bu bi pu qi]. rewrite !map_length.
  repeat split; auto. rewrite Forall_map. eapply Forall_impl; [|exact H5]. intros. rewrite map_length. auto.
Qed.

Lemma at1_opp : forall l i, at1 (map Ropp l) i = - at1 l i.
Proof. induction l; intros [|i]; unfold at1 in *; cbn; auto; ring. Qed.
Lemma at2_opp : forall m i f, at2 (map (map Ropp) m) i f = - at2 m i f.
Proof.
  induction m as [|r m IH]; intros [|i] f; unfold at2 in *; cbn [map nth]; auto.
  - destruct f; cbn; ring.
  - destruct f; cbn; ring.
  - apply at1_opp.
Qed.

Lemma S_mirror : forall k t x, S_ k (mirror t) x = - S_ k t x.
Proof.
  intros. unfold S_, mirror. cbn [mu bu bi pu qi]. rewrite !at1_opp.
  rewrite (rsum_ext_in _ (fun f => - (at2 (pu t) (fst x) f * at2 (qi t) (snd x) f))) by (intros; rewrite at2_opp; ring).
  rewrite rsum_opp. ring.
Qed.

Lemma sumsq_opp : forall l, sumsq (map Ropp l) = sumsq l.
Proof. intros. unfold sumsq. rewrite map_map. apply rsum_ext_in. intros. ring. Qed.

Lemma reg_mirror : forall t, reg (mirror t) = reg t.
Proof. intros. unfold reg, mirror. cbn [bu bi pu qi]. rewrite <- concat_map, !sumsq_opp. ring. Qed.

Lemma xe_flip : forall s x, xe (1 - s) (- x) = xe s x.
Proof.
  intros. unfold xe. rewrite C38_symmetric. replace (1 - (1 - safe_sigmoid x)) with (safe_sigmoid x) by ring. ring.
Qed.

Lemma gpar_mirror : forall C nu ni k t (E : list scored) h,
  gpar C nu ni k (mirror t) (map fst E) (map (fun e => - h e) E) = mirror (gpar C nu ni k t (map fst E) (map h E)).
Proof.
  intros. rewrite !gpar_E. unfold mirror. cbn [mu bu bi pu qi]. f_equal.
  - apply rsum_opp.
  - rewrite map_map. apply map_ext. intros. rewrite at1_opp, rsum_opp. ring.
  - rewrite map_map. apply map_ext. intros. rewrite at1_opp, rsum_opp. ring.
  - rewrite map_map. apply map_ext. intros u. rewrite map_map. apply map_ext. intros f. rewrite at2_opp.
    rewrite (rsum_ext_in _ (fun e => - (h e * at2 (qi t) (item e) f))) by (intros; ring). rewrite rsum_opp. ring.
  - apply map_ext. intros i. apply map_ext. intros f. f_equal. apply rsum_ext_in. intros. rewrite at2_opp. ring.
Qed.

(** the scored events with likes and dislikes swapped *)
Definition opposite (E : list scored) : list scored := map (fun e => (fst e, 1 - snd e)) E.

Lemma opposite_fst : forall E, map fst (opposite E) = map fst E.
Proof. intros. unfold opposite. rewrite map_map. reflexivity. Qed.

Theorem C87_logistic : forall C nu ni k c (E : list scored),
  length c = coef_size nu ni k -> in_range nu ni (map fst E) ->
  exists t g, view nu ni k c = Ok t /\
    lpmf_loss C nu ni k (flatten (mirror t)) (ev_of (map fst E)) (map snd (opposite E)) =
    lpmf_loss C nu ni k c (ev_of (map fst E)) (map snd E) /\
    lpmf_grad C nu ni k c (ev_of (map fst E)) (map snd E) = Ok (flatten g) /\ wf nu ni k g /\
    lpmf_grad C nu ni k (flatten (mirror t)) (ev_of (map fst E)) (map snd (opposite E)) = Ok (flatten (mirror g)).
Proof.
  intros C nu ni k c E Hc Hr. destruct (view_ok nu ni k c Hc) as [t [Et [Ht <-]]]. exists t.
  eexists. split; [auto|]. pose proof (mirror_wf _ _ _ _ Ht) as Hm.
  assert (Hr' : in_range nu ni (map fst (opposite E))) by (rewrite opposite_fst; auto).
  split; [|split; [apply lpmf_grad_closed; auto|split; [apply gpar_wf|]]].
  - rewrite <- (opposite_fst E) at 1. rewrite !lpmf_loss_closed by auto. f_equal. rewrite reg_mirror. f_equal.
    unfold opposite. rewrite map_map. apply rsum_ext_in. intros e _. cbn [fst snd]. rewrite S_mirror. apply xe_flip.
  - rewrite <- (opposite_fst E) at 1. rewrite lpmf_grad_closed by auto. f_equal. rewrite opposite_fst.
    rewrite <- gpar_mirror. f_equal. f_equal. unfold opposite. rewrite map_map. apply map_ext. intros e. cbn [fst snd].
    rewrite S_mirror, C38_symmetric. ring.
Qed.

Lemma cells_as_E : forall nu ni m, shaped nu ni m ->
  exists E : list scored, map fst E = cells nu ni /\ map snd E = concat m.
Proof.
  intros nu ni m H. exists (combine (cells nu ni) (concat m)). pose proof (concat_len nu ni m H).
  split; [apply map_fst_combine|apply map_snd_combine]; auto.
Qed.

Lemma opposite_snd : forall E, map snd (opposite E) = map (fun s => 1 - s) (map snd E).
Proof. intros. unfold opposite. rewrite !map_map. reflexivity. Qed.

Theorem C87_implicit : forall C nu ni k c m,
  length c = coef_size nu ni k -> shaped nu ni m ->
  exists t g, view nu ni k c = Ok t /\
    imp_loss C nu ni k (flatten (mirror t)) (map (map (fun s => 1 - s)) m) = imp_loss C nu ni k c m /\
    imp_grad C nu ni k c m = Ok (flatten g) /\ wf nu ni k g /\
    imp_grad C nu ni k (flatten (mirror t)) (map (map (fun s => 1 - s)) m) = Ok (flatten (mirror g)).
Proof.
  intros C nu ni k c m Hc Hm. destruct (cells_as_E nu ni m Hm) as [E [E1 E2]].
  destruct (C87_logistic C nu ni k c E Hc) as [t [g [A1 [A2 [A3 [A4 A5]]]]]]; [rewrite E1; apply cells_in_range|].
  exists t, g. rewrite E1, opposite_snd, E2 in *. split; auto.
  assert (Hm' : shaped nu ni (map (map (fun s => 1 - s)) m)).
  { destruct Hm as [H1 H2]. split; [rewrite map_length; auto|]. rewrite Forall_map. eapply Forall_impl; [|exact H2].
    intros. rewrite map_length. auto. }
  assert (Ht : wf nu ni k t) by (destruct (view_ok nu ni k c Hc) as [t' [Et [H _]]]; congruence).
  pose proof (flatten_length _ _ _ _ (mirror_wf _ _ _ _ Ht)) as Hl.
  destruct (C35_implicit_is_logistic C nu ni k c m Hc Hm) as [-> ->].
  destruct (C35_implicit_is_logistic C nu ni k _ _ Hl Hm') as [-> ->].
  rewrite <- concat_map. auto.
Qed.

(** the mirrored parameters predict the complement for known and unknown users
    and items *)
Theorem C87_predictions : forall nu ni k c t uis, length c = coef_size nu ni k -> view nu ni k c = Ok t ->
  Forall (fun ui => fst ui <= nu /\ snd ui <= ni)%nat uis ->
  exists t1 t2 y, learned nu ni k c = Ok t1 /\ learned nu ni k (flatten (mirror t)) = Ok t2 /\
    lpmf_raw_predict t1 (ev_of uis) = Ok y /\ length y = length uis /\
    lpmf_raw_predict t2 (ev_of uis) = Ok (map (fun p => 1 - p) y).
Proof.
  intros nu ni k c t uis Hc Et Hu.
  destruct (view_ok nu ni k c Hc) as [t0 [Et0 [Ht Ec]]]. assert (t0 = t) by congruence. subst t0.
  pose proof (flatten_length _ _ _ _ (mirror_wf _ _ _ _ Ht)) as Hl.
  destruct (C37_unknown_fallback nu ni k c uis Hc Hu) as [t1 [A1 [_ A3]]].
  destruct (C37_unknown_fallback nu ni k _ uis Hl Hu) as [t2 [B1 [_ B3]]].
  exists t1, t2, (map (fun ui => safe_sigmoid (fallback_score nu ni k c ui)) uis).
  split; auto. split; auto. split; auto. split; [apply map_length|]. rewrite B3, map_map. f_equal. apply map_ext_in.
  intros ui Hin. rewrite Forall_forall in Hu. destruct (Hu ui Hin) as [Hu1 Hu2].
  assert (E : fallback_score nu ni k (flatten (mirror t)) ui = - fallback_score nu ni k c ui).
  { destruct (learned_ok nu ni k c Hc) as [t1' [L1 [_ F1]]]. assert (t1' = t1) by congruence. subst t1'.
    destruct (learned_ok nu ni k _ Hl) as [t2' [L2 [_ F2]]]. assert (t2' = t2) by congruence. subst t2'.
    rewrite <- F1, <- F2 by auto.
    unfold learned in L1, L2. rewrite assign_eq in L1, L2 by auto. cbn [bind] in L1, L2.
    rewrite Et in L1. rewrite view_flatten in L2 by (apply mirror_wf; auto). cbn [bind] in L1, L2.
    injection L1 as <-. injection L2 as <-. unfold mirror. cbn [mu bu bi pu qi].
    rewrite <- S_mirror. unfold mirror. cbn [mu bu bi pu qi]. rewrite !map_app. cbn [map].
    replace (map Ropp (repeat 0 k)) with (repeat 0 k). 2:{ clear. induction k; cbn; [auto|]. rewrite <- IHk. f_equal. ring. }
    replace (- 0) with 0 by ring. reflexivity. }
  rewrite E. apply C38_symmetric.
Qed.

Example C87_nonvacuous : let E : list scored := [((0, 0)%nat, 1); ((1, 0)%nat, 0)] in let c := [1; 2; 3; 4; 5; 6; 7] in
  length c = coef_size 2 1 1 /\ in_range 2 1 (map fst E) /\
  exists t, view 2 1 1 c = Ok t /\ flatten (mirror t) = [-1; -2; -3; -4; -5; -6; 7].
Proof.
  cbn zeta. split; [reflexivity|]. split; [repeat constructor|]. eexists. split; [reflexivity|].
  unfold mirror, flatten. cbn. repeat f_equal.
Qed.
Print Assumptions C87_logistic.
Print Assumptions C87_implicit.
Print Assumptions C87_predictions.

(** ** C88 *)
Section Turn.
  Variables (k : nat) (O : nat -> nat -> R).

  (** a row of factors multiplied by the k x k matrix [O] *)
  Definition turn_row (r : list R) : list R :=
    map (fun f => rsum (map (fun a => at1 r a * O a f) (seq 0 k))) (seq 0 k).

  Definition turn (t : par) : par := mkPar (mu t) (bu t) (bi t) (map turn_row (pu t)) (map turn_row (qi t)).

  (** the rows of [O] are orthonormal *)
  Definition orthogonal : Prop := forall a b, (a < k)%nat -> (b < k)%nat ->
    rsum (map (fun f => O a f * O b f) (seq 0 k)) = if Nat.eqb a b then 1 else 0.

  Lemma turn_row_length : forall r, length (turn_row r) = k.
  Proof. intros. unfold turn_row. rewrite map_length, seq_length. auto. Qed.

  Lemma turn_wf : forall nu ni t, wf nu ni k t -> wf nu ni k (turn t).
  Proof.
    intros nu ni t [H1 [H2 [H3 [H4 [H5 H6]]]]]. unfold wf, turn. cbn [bu bi pu qi]. rewrite !map_length.
    repeat split; auto; apply Forall_map; apply Forall_forall; intros; apply turn_row_length.
  Qed.

  Lemma at2_turn : forall m u f, (u < length m)%nat -> (f < k)%nat ->
    at2 (map turn_row m) u f = rsum (map (fun a => at2 m u a * O a f) (seq 0 k)).
  Proof.
    intros m u f Hu Hf. unfold at2. rewrite (nth_indep _ [] (turn_row [])) by (rewrite map_length; auto).
    rewrite map_nth. unfold turn_row. rewrite nth_map_seq by auto. reflexivity.
  Qed.

  (** inner products are unchanged *)
  Lemma dot_turn : orthogonal -> forall (p q : nat -> R),
    rsum (map (fun f => rsum (map (fun a => p a * O a f) (seq 0 k)) * rsum (map (fun b => q b * O b f) (seq 0 k))) (seq 0 k)) =
    rsum (map (fun a => p a * q a) (seq 0 k)).
  Proof.
    intros Ho p q.
    rewrite (rsum_ext_in _ (fun f => rsum (map (fun a => rsum (map (fun b => p a * q b * (O a f * O b f)) (seq 0 k))) (seq 0 k)))).
    2:{ intros f _. rewrite Rmult_comm, <- rsum_scal. apply rsum_ext_in. intros a _. rewrite Rmult_comm, <- rsum_scal.
        apply rsum_ext_in. intros. ring. }
    rewrite rsum_swap. apply rsum_ext_in. intros a Ha. apply in_seq in Ha. rewrite rsum_swap.
    rewrite (rsum_ext_in _ (fun b => if Nat.eqb b a then p a * q a else 0)).
    - apply rsum_delta. lia.
    - intros b Hb. apply in_seq in Hb. rewrite rsum_scal, Ho by lia. rewrite Nat.eqb_sym. destruct (Nat.eqb_spec b a); subst; ring.
  Qed.

  Lemma S_turn : orthogonal -> forall nu ni t x, wf nu ni k t -> (fst x < nu)%nat -> (snd x < ni)%nat ->
    S_ k (turn t) x = S_ k t x.
  Proof.
    intros Ho nu ni t x [H1 [H2 [H3 [H4 _]]]] Hu Hi. unfold S_, turn. cbn [mu bu bi pu qi]. f_equal.
    rewrite <- (dot_turn Ho (at2 (pu t) (fst x)) (at2 (qi t) (snd x))). apply rsum_ext_in. intros f Hf. apply in_seq in Hf.
    rewrite !at2_turn by lia. reflexivity.
  Qed.

  Lemma sumsq_turn : orthogonal -> forall m, Forall (fun r => length r = k) m ->
    sumsq (concat (map turn_row m)) = sumsq (concat m).
  Proof.
    intros Ho m H. induction H as [|r m Hr _ IH]; [reflexivity|]. cbn [map concat]. unfold sumsq in *.
    rewrite !map_app, !rsum_app, IH. f_equal. unfold turn_row. rewrite map_map, (dot_turn Ho (at1 r) (at1 r)).
    replace (map (fun x => x * x) r) with (map (fun a => at1 r a * at1 r a) (seq 0 k)); [reflexivity|].
    transitivity (map (fun x => x * x) (map (fun i => nth i r 0) (seq 0 (length r)))).
    - rewrite map_map, Hr. reflexivity.
    - rewrite <- (list_as_map _ r 0). reflexivity.
  Qed.

  Lemma reg_turn : orthogonal -> forall nu ni t, wf nu ni k t -> reg (turn t) = reg t.
  Proof.
    intros Ho nu ni t [_ [_ [_ [_ [H5 H6]]]]]. unfold reg, turn. cbn [bu bi pu qi]. rewrite !sumsq_turn by auto. auto.
  Qed.

  Lemma gpar_turn : forall C nu ni t (E : list scored) h, wf nu ni k t -> in_range nu ni (map fst E) ->
    gpar C nu ni k (turn t) (map fst E) (map h E) = turn (gpar C nu ni k t (map fst E) (map h E)).
  Proof.
    intros C nu ni t E h [H1 [H2 [H3 [H4 [H5 H6]]]]] Hr. rewrite !gpar_E. unfold turn. cbn [mu bu bi pu qi].
    assert (HE : forall e, In e E -> (user e < nu /\ item e < ni)%nat).
    { intros e He. unfold in_range in Hr. rewrite Forall_map, Forall_forall in Hr. apply (Hr e He). }
    f_equal; rewrite map_map; apply map_ext_in; intros u Hu; apply in_seq in Hu; apply map_ext_in; intros f Hf; apply in_seq in Hf.
    - rewrite at2_turn by lia. rewrite <- rsum_scal.
      rewrite (rsum_ext_in _ (fun e => rsum (map (fun a => h e * at2 (qi t) (item e) a * O a f) (seq 0 k)))).
      2:{ intros e He. apply filter_In in He. destruct (HE e (proj1 He)). rewrite at2_turn by lia. rewrite <- rsum_scal.
          apply rsum_ext_in. intros. ring. }
      rewrite rsum_swap, <- rsum_plus. apply rsum_ext_in. intros a Ha. apply in_seq in Ha. unfold at1. rewrite nth_map_seq by lia.
      rewrite (rsum_ext_in _ (fun e => O a f * (h e * at2 (qi t) (item e) a))) by (intros; ring). rewrite rsum_scal. ring.
    - rewrite at2_turn by lia. rewrite <- rsum_scal.
      rewrite (rsum_ext_in _ (fun e => rsum (map (fun a => h e * at2 (pu t) (user e) a * O a f) (seq 0 k)))).
      2:{ intros e He. apply filter_In in He. destruct (HE e (proj1 He)). rewrite at2_turn by lia. rewrite <- rsum_scal.
          apply rsum_ext_in. intros. ring. }
      rewrite rsum_swap, <- rsum_plus. apply rsum_ext_in. intros a Ha. apply in_seq in Ha. unfold at1. rewrite nth_map_seq by lia.
      rewrite (rsum_ext_in _ (fun e => O a f * (h e * at2 (pu t) (user e) a))) by (intros; ring). rewrite rsum_scal. ring.
  Qed.
End Turn.

(** turning the latent space by an orthogonal matrix keeps the losses of all
    three models, turns their gradients along and keeps every prediction *)
Theorem C88_objective : forall C nu ni k O c (E : list scored) m, orthogonal k O ->
  length c = coef_size nu ni k -> in_range nu ni (map fst E) -> shaped nu ni m ->
  exists t g1 g2 g3, view nu ni k c = Ok t /\ let c' := flatten (turn k O t) in
    let ev := ev_of (map fst E) in let sc := map snd E in
    pmf_loss C nu ni k c' ev sc = pmf_loss C nu ni k c ev sc /\
    lpmf_loss C nu ni k c' ev sc = lpmf_loss C nu ni k c ev sc /\
    imp_loss C nu ni k c' m = imp_loss C nu ni k c m /\
    pmf_grad C nu ni k c ev sc = Ok (flatten g1) /\ pmf_grad C nu ni k c' ev sc = Ok (flatten (turn k O g1)) /\
    lpmf_grad C nu ni k c ev sc = Ok (flatten g2) /\ lpmf_grad C nu ni k c' ev sc = Ok (flatten (turn k O g2)) /\
    imp_grad C nu ni k c m = Ok (flatten g3) /\ imp_grad C nu ni k c' m = Ok (flatten (turn k O g3)) /\
    wf nu ni k g1 /\ wf nu ni k g2 /\ wf nu ni k g3.
Proof.
  intros C nu ni k O c E m Ho Hc Hr Hm. destruct (view_ok nu ni k c Hc) as [t [Et [Ht <-]]].
  pose proof (turn_wf k O _ _ _ Ht) as Ht'.
  assert (HS : forall (E : list scored), in_range nu ni (map fst E) -> forall e, In e E -> S_ k (turn k O t) (fst e) = S_ k t (fst e)).
  { clear E Hr. intros E Hr e He. unfold in_range in Hr. rewrite Forall_map, Forall_forall in Hr. destruct (Hr e He).
    apply (S_turn k O Ho nu ni); auto. }
  assert (L : forall (E : list scored), in_range nu ni (map fst E) ->
    lpmf_loss C nu ni k (flatten (turn k O t)) (ev_of (map fst E)) (map snd E) = lpmf_loss C nu ni k (flatten t) (ev_of (map fst E)) (map snd E) /\
    exists g, lpmf_grad C nu ni k (flatten t) (ev_of (map fst E)) (map snd E) = Ok (flatten g) /\
      lpmf_grad C nu ni k (flatten (turn k O t)) (ev_of (map fst E)) (map snd E) = Ok (flatten (turn k O g)) /\ wf nu ni k g).
  { clear E Hr. intros E Hr. split.
    - rewrite !lpmf_loss_closed by auto. rewrite (reg_turn k O Ho nu ni) by auto. f_equal. f_equal. apply rsum_ext_in.
      intros e He. rewrite (HS E Hr e He). auto.
    - eexists. split; [apply lpmf_grad_closed; auto|]. split; [|apply gpar_wf]. rewrite lpmf_grad_closed by auto.
      rewrite <- (gpar_turn k O C nu ni t E) by auto. do 2 f_equal. f_equal. apply map_ext_in. intros e He. rewrite (HS E Hr e He). auto. }
  destruct (L E Hr) as [L1 [g2 [L2 [L3 L4]]]].
  destruct (cells_as_E nu ni m Hm) as [E' [E1 E2]].
  destruct (L E') as [I1 [g3 [I2 [I3 I4]]]]; [rewrite E1; apply cells_in_range|].
  rewrite E1, E2 in *.
  destruct (C35_implicit_is_logistic C nu ni k (flatten t) m) as [J1 J2]; auto.
  destruct (C35_implicit_is_logistic C nu ni k (flatten (turn k O t)) m) as [K1 K2]; auto; [apply flatten_length; auto|].
  exists t. eexists. exists g2, g3. split; auto. cbn zeta. rewrite J1, J2, K1, K2.
  split; [|split; [auto|split; [auto|split; [apply pmf_grad_closed; auto|]]]].
  - rewrite !pmf_loss_closed by auto. rewrite (reg_turn k O Ho nu ni) by auto. f_equal. f_equal. f_equal. apply rsum_ext_in.
    intros e He. rewrite (HS E Hr e He). auto.
  - split.
    + rewrite pmf_grad_closed by auto. rewrite <- (gpar_turn k O C nu ni t E) by auto. do 2 f_equal. f_equal. apply map_ext_in.
      intros e He. rewrite (HS E Hr e He). auto.
    + repeat (split; [auto; fail|]). split; [apply gpar_wf|]. auto.
Qed.

Theorem C88_predictions : forall nu ni k O c t uis, orthogonal k O -> length c = coef_size nu ni k -> view nu ni k c = Ok t ->
  Forall (fun ui => fst ui <= nu /\ snd ui <= ni)%nat uis ->
  exists t1 t2, learned nu ni k c = Ok t1 /\ learned nu ni k (flatten (turn k O t)) = Ok t2 /\
    pmf_raw_predict t2 (ev_of uis) = pmf_raw_predict t1 (ev_of uis) /\
    lpmf_raw_predict t2 (ev_of uis) = lpmf_raw_predict t1 (ev_of uis) /\
    exists y, pmf_raw_predict t1 (ev_of uis) = Ok y /\ length y = length uis.
Proof.
  intros nu ni k O c t uis Ho Hc Et Hu.
  destruct (view_ok nu ni k c Hc) as [t0 [Et0 [Ht Ec]]]. assert (t0 = t) by congruence. subst t0.
  pose proof (turn_wf k O _ _ _ Ht) as Ht'.
  pose proof (flatten_length _ _ _ _ Ht') as Hl.
  destruct (C37_unknown_fallback nu ni k c uis Hc Hu) as [t1 [A1 [A2 A3]]].
  destruct (C37_unknown_fallback nu ni k _ uis Hl Hu) as [t2 [B1 [B2 B3]]].
  exists t1, t2. split; auto. split; auto. rewrite A2, A3, B2, B3.
  assert (E : forall ui, In ui uis -> fallback_score nu ni k (flatten (turn k O t)) ui = fallback_score nu ni k c ui).
  { intros ui Hin. rewrite Forall_forall in Hu. destruct (Hu ui Hin) as [Hu1 Hu2].
    destruct (learned_ok nu ni k c Hc) as [t1' [L1 [W1 F1]]]. assert (t1' = t1) by congruence. subst t1'.
    destruct (learned_ok nu ni k _ Hl) as [t2' [L2 [_ F2]]]. assert (t2' = t2) by congruence. subst t2'.
    rewrite <- F1, <- F2 by auto. rewrite <- (S_turn k O Ho (S nu) (S ni) t1) by (auto; lia).
    unfold learned in L1, L2. rewrite assign_eq in L1, L2 by auto. cbn [bind] in L1, L2.
    rewrite Et in L1. rewrite view_flatten in L2 by auto. cbn [bind] in L1, L2.
    injection L1 as <-. injection L2 as <-. unfold turn. cbn [mu bu bi pu qi]. rewrite !map_app. cbn [map].
    replace (turn_row k O (repeat 0 k)) with (repeat 0 k); [reflexivity|].
    unfold turn_row. rewrite (repeat_as_map _ 0 k 0%nat). apply map_ext_in. intros f _. symmetry. apply rsum_zero.
    intros a Ha. apply in_seq in Ha. unfold at1. rewrite nth_map_seq by lia. ring. }
  split; [f_equal; apply map_ext_in; auto|]. split.
  - f_equal. apply map_ext_in. intros ui Hin. rewrite E; auto.
  - eexists. split; [reflexivity|]. apply map_length.
Qed.

(** a rotation by the angle of the 3-4-5 triangle, and the swap of two factors *)
Definition rot345 (a f : nat) : R := match a, f with O, O => 3 / 5 | O, S O => 4 / 5 | S O, O => - (4 / 5) | S O, S O => 3 / 5 | _, _ => 0 end.
Definition swap01 (a f : nat) : R := match a, f with O, S O => 1 | S O, O => 1 | _, _ => 0 end.
Example C88_nonvacuous : orthogonal 2 rot345 /\ orthogonal 2 swap01 /\
  turn 2 rot345 (mkPar 1 [2] [3] [[5; 10]] [[-5; 0]]) = mkPar 1 [2] [3] [[-5; 10]] [[-3; -4]].
Proof.
  assert (H : forall a, (a < 2)%nat -> a = 0%nat \/ a = 1%nat) by (intros; lia).
  split; [|split].
  - intros a b Ha Hb. destruct (H a Ha), (H b Hb); subst; cbn; lra.
  - intros a b Ha Hb. destruct (H a Ha), (H b Hb); subst; cbn; lra.
  - unfold turn, turn_row, at1. cbn. repeat (f_equal; try lra).
Qed.
Print Assumptions C88_objective.
Print Assumptions C88_predictions.
