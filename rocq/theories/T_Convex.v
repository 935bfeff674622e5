(** * Size of the learned parameters (C89) and convexity of the losses when one
    table of factors is fixed (C90) *)
From Coq Require Import List ZArith Reals Lra Lia Bool.
From Verif Require Import M_Py P_Py M_Sigmoid P_RSum P_Exp T_Sigmoid M_MF P_MF T_MF T_MF2 T_MFInit T_MF3 T_Implicit.
Import ListNotations.
Open Scope R_scope.

(** ** C89 *)

(** the sum of squares of all coefficients but the first, mu *)
Lemma reg_tail : forall nu ni k t, wf nu ni k t -> reg t = sumsq (tl (flatten t)).
Proof.
  intros nu ni k t _. unfold reg, flatten, sumsq. cbn [tl]. rewrite !map_app, !rsum_app. ring.
Qed.

Lemma sumsq_member : forall l x, In x l -> x * x <= sumsq l.
Proof. intros l x H. unfold sumsq. apply (rsum_member_le (fun x => x * x)); auto. intros. apply Rle_0_sqr. Qed.

(** parameters that are not worse than the start: they are bounded by the loss
    at the start, and so is the error of every training event *)
Theorem C89_pmf : forall C nu ni k c0 c (E : list scored) l0 l, 0 < C ->
  length c = coef_size nu ni k -> in_range nu ni (map fst E) ->
  pmf_loss C nu ni k c0 (ev_of (map fst E)) (map snd E) = Ok l0 ->
  pmf_loss C nu ni k c (ev_of (map fst E)) (map snd E) = Ok l -> l <= l0 ->
  C * sumsq (tl c) <= 2 * l0 /\
  (forall x, In x (tl c) -> Rabs x <= sqrt (2 * l0 / C)) /\
  (exists t y, learned nu ni k c = Ok t /\ pmf_raw_predict t (ev_of (map fst E)) = Ok y /\
     rsum (map (fun ey => (snd (fst ey) - snd ey) ^ 2) (combine E y)) <= 2 * l0 /\
     forall e v, In (e, v) (combine E y) -> Rabs (snd e - v) <= sqrt (2 * l0)).
Proof.
  intros C nu ni k c0 c E l0 l HC Hc Hr _ Hl Hle.
  destruct (C37_unknown_fallback nu ni k c (map fst E) Hc) as [t' [Et' [Ey _]]].
  { eapply Forall_impl; [|exact Hr]. cbn. lia. }
  destruct (learned_ok nu ni k c Hc) as [t'' [Et'' [_ Hfb]]]. assert (t'' = t') by congruence. subst t''.
  destruct (view_ok nu ni k c Hc) as [t [Et [Ht <-]]].
  assert (K : forall ui, In ui (map fst E) -> S_ k t ui = fallback_score nu ni k (flatten t) ui).
  { intros [u i] Hui. unfold in_range in Hr. rewrite Forall_forall in Hr. destruct (Hr _ Hui) as [Hu Hi]. cbn [fst snd] in Hu, Hi.
    unfold fallback_score, S_. cbn [fst snd]. rewrite !(proj2 (Nat.ltb_lt _ _)) by auto. cbn [andb].
    rewrite param_mu, param_bu, param_bi by auto. f_equal. apply rsum_ext_in. intros f Hf. apply in_seq in Hf.
    rewrite param_p, param_q by (auto; lia). auto. }
  rewrite pmf_loss_closed in Hl by auto. injection Hl as Hl.
  rewrite (reg_tail nu ni k) in Hl by auto.
  set (sq := rsum (map (fun e => (snd e - S_ k t (fst e)) * (snd e - S_ k t (fst e))) E)) in Hl.
  assert (Hsq : 0 <= sq) by (apply rsum_nonneg; intros; apply Rle_0_sqr).
  pose proof (sumsq_nonneg (tl (flatten t))) as Hreg.
  assert (HCr : 0 <= C * sumsq (tl (flatten t))) by (apply Rmult_le_pos; lra).
  assert (H1 : C * sumsq (tl (flatten t)) <= 2 * l0) by lra.
  assert (H2 : sq <= 2 * l0) by lra.
  split; auto. split.
  - intros x Hx. rewrite <- sqrt_Rsqr_abs. apply sqrt_le_1_alt. unfold Rsqr.
    apply (Rmult_le_reg_l C); [lra|]. replace (C * (2 * l0 / C)) with (2 * l0) by (field; lra).
    eapply Rle_trans; [|exact H1]. apply Rmult_le_compat_l; [lra|]. apply sumsq_member; auto.
  - exists t', (map (fallback_score nu ni k (flatten t)) (map fst E)). split; auto. split; auto.
    rewrite <- (map_ext_in _ _ _ K). rewrite map_map.
    assert (Ec : combine E (map (fun e => S_ k t (fst e)) E) = map (fun e => (e, S_ k t (fst e))) E).
    { clear. induction E; cbn; auto. f_equal. auto. }
    rewrite Ec. split.
    + rewrite map_map. cbn [fst snd]. eapply Rle_trans; [|exact H2]. apply Req_le. apply rsum_ext_in. intros. cbn [pow]. ring.
    + intros e v Hin. apply in_map_iff in Hin. destruct Hin as [e' [Ee He]]. injection Ee as -> <-.
      rewrite <- sqrt_Rsqr_abs. apply sqrt_le_1_alt. unfold Rsqr. eapply Rle_trans; [|exact H2].
      apply (rsum_member_le (fun e => (snd e - S_ k t (fst e)) * (snd e - S_ k t (fst e)))); auto. intros. apply Rle_0_sqr.
Qed.

Theorem C89_logistic : forall C nu ni k c0 c (E : list scored) l0 l, 0 < C ->
  length c = coef_size nu ni k -> in_range nu ni (map fst E) -> Forall (fun e => 0 <= snd e <= 1) E ->
  lpmf_loss C nu ni k c0 (ev_of (map fst E)) (map snd E) = Ok l0 ->
  lpmf_loss C nu ni k c (ev_of (map fst E)) (map snd E) = Ok l -> l <= l0 ->
  C * sumsq (tl c) <= 2 * l0 /\ (forall x, In x (tl c) -> Rabs x <= sqrt (2 * l0 / C)).
Proof.
  intros C nu ni k c0 c E l0 l HC Hc Hr Hs _ Hl Hle. destruct (view_ok nu ni k c Hc) as [t [Et [Ht <-]]].
  rewrite lpmf_loss_closed in Hl by auto. injection Hl as Hl. rewrite (reg_tail nu ni k) in Hl by auto.
  assert (Hx : 0 <= rsum (map (fun e => xe (snd e) (S_ k t (fst e))) E)).
  { apply rsum_nonneg. intros e He. rewrite Forall_forall in Hs. apply xe_nonneg. auto. }
  assert (H1 : C * sumsq (tl (flatten t)) <= 2 * l0) by lra.
  split; auto. intros x Hin. rewrite <- sqrt_Rsqr_abs. apply sqrt_le_1_alt. unfold Rsqr.
  apply (Rmult_le_reg_l C); [lra|]. replace (C * (2 * l0 / C)) with (2 * l0) by (field; lra).
  eapply Rle_trans; [|exact H1]. apply Rmult_le_compat_l; [lra|]. apply sumsq_member; auto.
Qed.

(** implicit data: the matrix entries are 0 or 1 unless events repeat *)
Theorem C89_implicit : forall C nu ni k c0 c m l0 l, 0 < C ->
  length c = coef_size nu ni k -> shaped nu ni m -> Forall (fun s => 0 <= s <= 1) (concat m) ->
  length c0 = coef_size nu ni k -> imp_loss C nu ni k c0 m = Ok l0 -> imp_loss C nu ni k c m = Ok l -> l <= l0 ->
  C * sumsq (tl c) <= 2 * l0 /\ (forall x, In x (tl c) -> Rabs x <= sqrt (2 * l0 / C)).
Proof.
  intros C nu ni k c0 c m l0 l HC Hc Hm Hs Hc0 H0 H1 Hle.
  rewrite (proj1 (C35_implicit_is_logistic C nu ni k c m Hc Hm)) in H1.
  rewrite (proj1 (C35_implicit_is_logistic C nu ni k c0 m Hc0 Hm)) in H0.
  set (E := combine (cells nu ni) (concat m)). pose proof (concat_len nu ni m Hm) as Hl.
  assert (E1 : map fst E = cells nu ni) by (apply map_fst_combine; auto).
  assert (E2 : map snd E = concat m) by (apply map_snd_combine; auto).
  rewrite <- E1, <- E2 in *. apply (C89_logistic C nu ni k c0 c E l0 l); auto; [rewrite E1; apply cells_in_range|].
  apply Forall_map in Hs. exact Hs.
Qed.

(** without a regulariser there is no such bound *)
Theorem C89_zero_C : exists nu ni k (E : list scored) l0,
  in_range nu ni (map fst E) /\ E <> [] /\
  forall B, exists c x, length c = coef_size nu ni k /\ pmf_loss 0 nu ni k c (ev_of (map fst E)) (map snd E) = Ok l0 /\
    In x (tl c) /\ B < Rabs x.
Proof.
  exists 1%nat, 1%nat, 0%nat, [((0, 0)%nat, 3)], 0. split; [repeat constructor|]. split; [discriminate|].
  intros B. set (b := Rabs B + 1). exists (flatten (mkPar 3 [b] [- b] [[]] [[]])), b.
  split; [reflexivity|]. split; [|split].
  - rewrite (pmf_loss_closed 0 1 1 0) by (repeat constructor). f_equal. unfold S_, at1, at2, reg, sumsq. cbn. field.
  - left. reflexivity.
  - unfold b. rewrite (Rabs_pos_eq (Rabs B + 1)); pose proof (Rle_abs B); pose proof (Rabs_pos B); lra.
Qed.

Example C89_nonvacuous : let E : list scored := [((0, 0)%nat, 1); ((1, 0)%nat, 3)] in
  exists l0 l, length [2; - (1 / 2); 1 / 2; 0] = coef_size 2 1 0 /\ in_range 2 1 (map fst E) /\
  pmf_loss 1 2 1 0 [2; 0; 0; 0] (ev_of (map fst E)) (map snd E) = Ok l0 /\
  pmf_loss 1 2 1 0 [2; - (1 / 2); 1 / 2; 0] (ev_of (map fst E)) (map snd E) = Ok l /\ l < l0.
Proof.
  cbn zeta. eexists _, _. split; [reflexivity|]. split; [repeat constructor|].
  change [2; 0; 0; 0] with (flatten (mkPar 2 [0; 0] [0] [[]; []] [[]])).
  change [2; - (1 / 2); 1 / 2; 0] with (flatten (mkPar 2 [- (1 / 2); 1 / 2] [0] [[]; []] [[]])).
  split; [apply pmf_loss_closed; repeat constructor|]. split; [apply pmf_loss_closed; repeat constructor|].
  unfold S_, at1, at2, reg, sumsq. cbn. lra.
Qed.
Print Assumptions C89_pmf.
Print Assumptions C89_logistic.
Print Assumptions C89_implicit.
Print Assumptions C89_zero_C.

(** ** C90 *)

(** [c] and [c'] agree in the factors of the users or in those of the items *)
Definition same_factors (nu ni k : nat) (c c' : list R) : Prop :=
  (forall u f, (u < nu)%nat -> (f < k)%nat -> param nu ni k c (SP u f) = param nu ni k c' (SP u f)) \/
  (forall i f, (i < ni)%nat -> (f < k)%nat -> param nu ni k c (SQ i f) = param nu ni k c' (SQ i f)).

Lemma at1_out : forall l i, (length l <= i)%nat -> at1 l i = 0.
Proof. intros. apply nth_overflow. auto. Qed.

Lemma S_step : forall nu ni k t t' x, wf nu ni k t -> wf nu ni k t' -> same_factors nu ni k (flatten t) (flatten t') ->
  (fst x < nu)%nat -> (snd x < ni)%nat ->
  S_ k t' x = S_ k t x + D_ k t (palong t' t (-1)) x.
Proof.
  intros nu ni k t t' x Ht Ht' Hs Hu Hi. pose proof Ht as [H1 [H2 [H3 [H4 [H5 H6]]]]]. pose proof Ht' as [V1 [V2 [V3 [V4 [V5 V6]]]]].
  unfold S_, D_, palong. cbn [mu bu bi pu qi]. rewrite !at1_along by congruence.
  assert (E : rsum (map (fun f => at2 (pu t') (fst x) f * at2 (qi t') (snd x) f) (seq 0 k)) =
    rsum (map (fun f => at2 (pu t) (fst x) f * at2 (qi t) (snd x) f) (seq 0 k)) +
    rsum (map (fun f => at2 (along2 (pu t') (pu t) (-1)) (fst x) f * at2 (qi t) (snd x) f +
      at2 (pu t) (fst x) f * at2 (along2 (qi t') (qi t) (-1)) (snd x) f) (seq 0 k))).
  { rewrite <- rsum_plus. apply rsum_ext_in. intros f Hf. apply in_seq in Hf. rewrite !(at2_along k) by (auto; congruence).
    destruct Hs as [Hs|Hs].
    - specialize (Hs (fst x) f Hu ltac:(lia)). rewrite !param_p in Hs by (auto; lia). rewrite Hs. ring.
    - specialize (Hs (snd x) f Hi ltac:(lia)). rewrite !param_q in Hs by (auto; lia). rewrite Hs. ring. }
  rewrite E. ring.
Qed.

Lemma sumsq_step : forall a b, length a = length b ->
  sumsq b = sumsq a + 2 * dotl a (along b a (-1)) + sumsq (along b a (-1)).
Proof.
  induction a as [|x a IH]; intros [|y b] H; try discriminate.
  - unfold sumsq, dotl, along. cbn. ring.
  - unfold sumsq, dotl, along in *. cbn [map combine]. rewrite !rsum_cons. unfold rmul2 at 1. cbn [fst snd].
    rewrite (IH b) by (cbn in H; lia). ring.
Qed.

Lemma reg_step : forall nu ni k t t', wf nu ni k t -> wf nu ni k t' ->
  reg t' = reg t + 2 * regdot t (palong t' t (-1)) + reg (palong t' t (-1)).
Proof.
  intros nu ni k t t' [H1 [H2 [H3 [H4 [H5 H6]]]]] [V1 [V2 [V3 [V4 [V5 V6]]]]].
  unfold reg, regdot, palong. cbn [bu bi pu qi].
  rewrite <- !(along_concat k) by (auto; congruence).
  rewrite (sumsq_step (bu t) (bu t')), (sumsq_step (bi t) (bi t')) by congruence.
  rewrite (sumsq_step (concat (pu t)) (concat (pu t'))), (sumsq_step (concat (qi t)) (concat (qi t')))
    by (rewrite !(concat_rect_length _ k) by auto; congruence).
  ring.
Qed.

Lemma combine_map_self : forall A B (f : A -> nat * nat) (h : A -> B) (l : list A),
  combine (map f l) (map h l) = map (fun e => (f e, h e)) l.
Proof. induction l; cbn; auto. f_equal. auto. Qed.

(** what the model with coefficients [c] answers for the training events *)
Definition fitted (nu ni k : nat) (c : list R) (uis : list (nat * nat)) (y : list R) : Prop :=
  exists t, learned nu ni k c = Ok t /\ pmf_raw_predict t (ev_of uis) = Ok y.

Lemma fitted_S : forall nu ni k t uis, wf nu ni k t -> in_range nu ni uis ->
  fitted nu ni k (flatten t) uis (map (S_ k t) uis).
Proof.
  intros nu ni k t uis Ht Hr. pose proof (flatten_length _ _ _ _ Ht) as Hc.
  destruct (C37_unknown_fallback nu ni k (flatten t) uis Hc) as [t' [Et' [Ey _]]].
  { eapply Forall_impl; [|exact Hr]. cbn. lia. }
  exists t'. split; auto. rewrite Ey. f_equal. apply map_ext_in.
  intros [u i] Hui. unfold in_range in Hr. rewrite Forall_forall in Hr. destruct (Hr _ Hui) as [Hu Hi]. cbn [fst snd] in Hu, Hi.
  unfold fallback_score, S_. cbn [fst snd]. rewrite !(proj2 (Nat.ltb_lt _ _)) by auto. cbn [andb].
  rewrite param_mu, param_bu, param_bi by auto. f_equal. apply rsum_ext_in. intros f Hf. apply in_seq in Hf.
  rewrite param_p, param_q by (auto; lia). auto.
Qed.

(** the loss at [c'] is the linear extrapolation from [c] plus a sum of
    squares *)
Theorem C90_pmf_exact : forall C nu ni k c c' (E : list scored),
  length c = coef_size nu ni k -> length c' = coef_size nu ni k -> in_range nu ni (map fst E) ->
  same_factors nu ni k c c' ->
  exists l g l' y y', pmf_loss C nu ni k c (ev_of (map fst E)) (map snd E) = Ok l /\
  pmf_grad C nu ni k c (ev_of (map fst E)) (map snd E) = Ok g /\
  pmf_loss C nu ni k c' (ev_of (map fst E)) (map snd E) = Ok l' /\
  fitted nu ni k c (map fst E) y /\ fitted nu ni k c' (map fst E) y' /\ length y = length E /\ length y' = length E /\
  l' = l + dotl g (along c' c (-1)) + 1 / 2 * rsum (map (fun z => (fst z - snd z) ^ 2) (combine y' y)) +
       1 / 2 * C * sumsq (along (tl c') (tl c) (-1)).
Proof.
  intros C nu ni k c c' E Hc Hc' Hr Hs.
  destruct (view_ok nu ni k c Hc) as [t [_ [Ht <-]]]. destruct (view_ok nu ni k c' Hc') as [t' [_ [Ht' <-]]].
  do 5 eexists. split; [apply pmf_loss_closed; auto|]. split; [apply pmf_grad_closed; auto|]. split; [apply pmf_loss_closed; auto|].
  split; [apply fitted_S; auto|]. split; [apply fitted_S; auto|]. split; [rewrite !map_length; auto|]. split; [rewrite !map_length; auto|].
  pose proof (palong_wf nu ni k t' t (-1) Ht' Ht) as Hv.
  rewrite (along_flatten nu ni k) by auto.
  assert (Etl : along (tl (flatten t')) (tl (flatten t)) (-1) = tl (flatten (palong t' t (-1)))).
  { rewrite <- (along_flatten nu ni k) by auto. reflexivity. }
  rewrite Etl, <- (reg_tail nu ni k) by auto.
  rewrite grad_dot by (auto; rewrite !map_length; auto). rewrite combine_map_self, map_map. cbn [fst snd].
  rewrite !map_map, combine_maps, map_map. cbn [fst snd].
  rewrite (reg_step nu ni k t t') by auto.
  assert (HE : forall e, In e E -> S_ k t' (fst e) = S_ k t (fst e) + D_ k t (palong t' t (-1)) (fst e)).
  { intros e He. unfold in_range in Hr. rewrite Forall_map, Forall_forall in Hr. destruct (Hr e He). apply (S_step nu ni); auto. }
  set (v := palong t' t (-1)) in *.
  assert (Q : rsum (map (fun e => (snd e - S_ k t' (fst e)) * (snd e - S_ k t' (fst e))) E) =
    rsum (map (fun e => (snd e - S_ k t (fst e)) * (snd e - S_ k t (fst e))) E) +
    2 * rsum (map (fun e => - (snd e - S_ k t (fst e)) * D_ k t v (fst e)) E) +
    rsum (map (fun e => (S_ k t' (fst e) - S_ k t (fst e)) ^ 2) E)).
  { rewrite <- rsum_scal, <- !rsum_plus. apply rsum_ext_in. intros e He. rewrite (HE e He). cbn [pow]. ring. }
  rewrite Q. field.
Qed.

Lemma dotl_vanish : forall g c c', length g = length c -> length c' = length c ->
  (forall j, (j < length c)%nat -> nth j c 0 = nth j c' 0 \/ nth j g 0 = 0) -> dotl g (along c' c (-1)) = 0.
Proof.
  intros g c c' Hg Hc H. rewrite (dotl_seq _ _ (length c)); auto.
  2:{ rewrite P_MF.along_length by auto. auto. }
  apply rsum_zero. intros j Hj. apply in_seq in Hj. rewrite at1_along by auto. unfold at1.
  destruct (H j ltac:(lia)) as [E|E]; rewrite E; ring.
Qed.

Lemma along_zero : forall a b, length a = length b -> sumsq (along b a (-1)) = 0 -> a = b.
Proof.
  intros a b Hl H. apply nth_ext with (d := 0) (d' := 0); auto. intros j Hj.
  assert (K : at1 (along b a (-1)) j * at1 (along b a (-1)) j = 0).
  { unfold sumsq in H. refine (rsum_zero_inv (fun x => x * x) _ _ H _ _); [intros; apply Rle_0_sqr|].
    apply nth_In. rewrite P_MF.along_length by auto. lia. }
  apply Rmult_integral in K. rewrite at1_along in K by auto. unfold at1 in K. destruct K; lra.
Qed.

(** where the gradient vanishes for every coefficient that changes, the loss
    is minimal, and with C > 0 and at least one event there is no second
    minimum *)
Theorem C90_pmf_optimal : forall C nu ni k c c' (E : list scored) l g l', 0 <= C ->
  length c = coef_size nu ni k -> length c' = coef_size nu ni k -> in_range nu ni (map fst E) ->
  same_factors nu ni k c c' ->
  pmf_loss C nu ni k c (ev_of (map fst E)) (map snd E) = Ok l ->
  pmf_grad C nu ni k c (ev_of (map fst E)) (map snd E) = Ok g ->
  pmf_loss C nu ni k c' (ev_of (map fst E)) (map snd E) = Ok l' ->
  (forall j, (j < length c)%nat -> nth j c 0 = nth j c' 0 \/ nth j g 0 = 0) ->
  l <= l' /\ (0 < C -> E <> [] -> l' = l -> c' = c).
Proof.
  intros C nu ni k c c' E l g l' HC Hc Hc' Hr Hs El Eg El' Hz.
  destruct (C90_pmf_exact C nu ni k c c' E Hc Hc' Hr Hs) as (l0 & g0 & l0' & y & y' & A1 & A2 & A3 & A4 & A5 & A6 & A7 & A8).
  assert (Q1 : l0 = l) by congruence. assert (Q2 : g0 = g) by congruence. assert (Q3 : l0' = l') by congruence.
  rewrite Q1, Q2, Q3 in A8. clear A1 A2 A3 Q1 Q2 Q3.
  assert (Lg : length g = length c).
  { destruct (view_ok nu ni k c Hc) as [v [_ [Hv <-]]]. rewrite pmf_grad_closed in Eg by auto. injection Eg as <-.
    rewrite (flatten_length _ _ _ _ (gpar_wf _ _ _ _ _ _ _)), Hc. auto. }
  rewrite (dotl_vanish g c c') in A8 by (auto; congruence).
  set (q := rsum (map (fun z => (fst z - snd z) ^ 2) (combine y' y))) in A8.
  assert (Hq : 0 <= q) by (apply rsum_nonneg; intros; apply pow2_ge_0).
  pose proof (sumsq_nonneg (along (tl c') (tl c) (-1))) as Hr2.
  assert (0 <= C * sumsq (along (tl c') (tl c) (-1))) by (apply Rmult_le_pos; auto).
  split; [lra|]. intros HC' Hne Heq.
  assert (Z : sumsq (along (tl c') (tl c) (-1)) = 0).
  { assert (K : C * sumsq (along (tl c') (tl c) (-1)) = 0) by lra. apply Rmult_integral in K. destruct K; lra. }
  assert (Zq : q = 0) by lra.
  destruct c as [|m b]; [cbn in Hc; discriminate|]. destruct c' as [|m' b']; [cbn in Hc'; discriminate|].
  cbn [tl] in Z. apply along_zero in Z; [|cbn in Hc, Hc'; lia]. subst b'. f_equal.
  destruct E as [|e E]; [contradiction|].
  destruct (view_ok nu ni k (m :: b) Hc) as [v [_ [Hv Ev]]]. destruct (view_ok nu ni k (m' :: b) Hc') as [v' [_ [Hv' Ev']]].
  destruct A4 as [t [T1 T2]]. destruct A5 as [t' [T1' T2']].
  rewrite <- Ev in T1. rewrite <- Ev' in T1'.
  destruct (fitted_S nu ni k v _ Hv Hr) as [t0 [B1 B2]]. destruct (fitted_S nu ni k v' _ Hv' Hr) as [t0' [B1' B2']].
  assert (t0 = t) by congruence. assert (t0' = t') by congruence. subst t0 t0'.
  assert (Ey : y = map (S_ k v) (map fst (e :: E))) by congruence. assert (Ey' : y' = map (S_ k v') (map fst (e :: E))) by congruence.
  assert (Es : (S_ k v' (fst e) - S_ k v (fst e)) ^ 2 = 0).
  { unfold q in Zq. rewrite Ey, Ey' in Zq. cbn [map combine] in Zq. rewrite rsum_cons in Zq. cbn [fst snd] in Zq.
    match type of Zq with ?a + rsum (map ?f ?l) = 0 => assert (0 <= rsum (map f l)) by (apply rsum_nonneg; intros; apply pow2_ge_0);
      assert (0 <= a) by apply pow2_ge_0; lra end. }
  cbn [pow] in Es. rewrite Rmult_1_r in Es. apply Rmult_integral in Es.
  assert (Emu : mu v = m /\ mu v' = m' /\ bu v' = bu v /\ bi v' = bi v /\ pu v' = pu v /\ qi v' = qi v).
  { pose proof (view_flatten _ _ _ _ Hv) as W. pose proof (view_flatten _ _ _ _ Hv') as W'. rewrite Ev in W. rewrite Ev' in W'.
    unfold view in W, W'. rewrite Hc, Nat.eqb_refl in W. rewrite Hc', Nat.eqb_refl in W'. injection W as <-. injection W' as <-.
    cbn [mu bu bi pu qi]. repeat split; reflexivity. }
  destruct Emu as [M1 [M2 [M3 [M4 [M5 M6]]]]]. unfold S_ in Es. rewrite M1, M2, M3, M4, M5, M6 in Es. lra.
Qed.

(** without latent factors: a stationary point is the global minimum, and with
    C > 0 the only one *)
Corollary C90_bias_model : forall C nu ni c c' (E : list scored) l g l', 0 <= C ->
  length c = coef_size nu ni 0 -> length c' = coef_size nu ni 0 -> in_range nu ni (map fst E) ->
  pmf_loss C nu ni 0 c (ev_of (map fst E)) (map snd E) = Ok l ->
  pmf_grad C nu ni 0 c (ev_of (map fst E)) (map snd E) = Ok g -> Forall (fun x => x = 0) g ->
  pmf_loss C nu ni 0 c' (ev_of (map fst E)) (map snd E) = Ok l' ->
  l <= l' /\ (0 < C -> E <> [] -> l' = l -> c' = c).
Proof.
  intros C nu ni c c' E l g l' HC Hc Hc' Hr El Eg Hz El'.
  apply (C90_pmf_optimal C nu ni 0 c c' E l g l'); auto.
  - left. intros. lia.
  - intros j Hj. right. rewrite Forall_forall in Hz. destruct (Nat.lt_ge_cases j (length g)); [|apply nth_overflow; auto].
    apply Hz. apply nth_In. auto.
Qed.

(** ** Logistic loss *)
Lemma ln_le_le : forall x y, 0 < x -> x <= y -> ln x <= ln y.
Proof. intros x y Hx [H| ->]; [left; apply ln_increasing; auto|right; auto]. Qed.

Definition softplus (x : R) : R := ln (1 + exp x).

Lemma softplus_tangent : forall x y, softplus x + expit x * (y - x) <= softplus y.
Proof.
  intros x y. unfold softplus. set (s := expit x). set (z := s * (y - x)).
  assert (P : 0 < 1 + exp x) by (pose proof (exp_pos x); lra). assert (P' : 0 < 1 + exp y) by (pose proof (exp_pos y); lra).
  assert (Hs : s = exp x / (1 + exp x)).
  { unfold s, expit. rewrite exp_Ropp. pose proof (exp_pos x). field. lra. }
  assert (H0 : 0 < s < 1).
  { rewrite Hs. pose proof (exp_pos x). split; [apply Rdiv_lt_0_compat; auto|].
    apply (Rmult_lt_reg_r (1 + exp x)); [auto|]. unfold Rdiv. rewrite Rmult_assoc, Rinv_l by lra. lra. }
  assert (T : forall w, exp z * (1 + (w - z)) <= exp w).
  { intros w. replace (exp w) with (exp z * exp (w - z)) by (rewrite <- exp_plus; f_equal; ring).
    apply Rmult_le_compat_l; [left; apply exp_pos|]. apply exp_ineq1_le. }
  assert (J : exp z <= (1 - s) * exp 0 + s * exp (y - x)).
  { pose proof (T 0) as T0. pose proof (T (y - x)) as T1.
    apply Rle_trans with ((1 - s) * (exp z * (1 + (0 - z))) + s * (exp z * (1 + (y - x - z)))).
    - apply Req_le. unfold z at 2 4. ring_simplify. unfold z. ring.
    - apply Rplus_le_compat; apply Rmult_le_compat_l; lra. }
  rewrite exp_0 in J.
  assert (K : (1 + exp x) * exp z <= 1 + exp y).
  { replace (1 + exp y) with ((1 + exp x) * ((1 - s) * 1 + s * exp (y - x))).
    - apply Rmult_le_compat_l; lra.
    - rewrite Hs. unfold Rminus at 2. rewrite exp_plus, exp_Ropp. pose proof (exp_pos x). field. lra. }
  rewrite <- (ln_exp z), <- ln_mult by (auto; apply exp_pos). apply ln_le_le; auto. apply Rmult_lt_0_compat; auto. apply exp_pos.
Qed.

Lemma xe_softplus : forall s x, Rabs x <= sig_dom -> xe s x = softplus x - s * x.
Proof.
  intros s x Hx. unfold xe. rewrite (C38_exact_inside x Hx).
  pose proof (exp_pos x). pose proof (exp_pos (- x)).
  assert (E1 : ln (/ (1 + exp (- x))) = x - softplus x).
  { unfold softplus. rewrite ln_Rinv by lra. replace (1 + exp (- x)) with ((1 + exp x) * / exp x) by (rewrite exp_Ropp; field; lra).
    rewrite ln_mult by (try lra; apply Rinv_0_lt_compat; auto). rewrite ln_Rinv, ln_exp by auto. ring. }
  assert (E2 : ln (1 - / (1 + exp (- x))) = - softplus x).
  { unfold softplus. rewrite <- ln_Rinv by lra. f_equal. rewrite exp_Ropp. field. lra. }
  rewrite E1, E2. ring.
Qed.

Lemma xe_tangent : forall s x y, Rabs x <= sig_dom -> Rabs y <= sig_dom ->
  xe s x + (safe_sigmoid x - s) * (y - x) <= xe s y.
Proof.
  intros s x y Hx Hy. rewrite !xe_softplus by auto. rewrite (C38_exact_inside x Hx). pose proof (softplus_tangent x y) as T.
  unfold expit in T. lra.
Qed.

(** inside the range that safe_sigmoid does not clip, the logistic loss lies
    above its linear extrapolation; full statement: for all [c'], which the
    clipping breaks (C90_logistic_refuted) *)
Theorem C90_logistic_partial : forall C nu ni k c c' (E : list scored) l g l' y y', 0 <= C ->
  length c = coef_size nu ni k -> length c' = coef_size nu ni k -> in_range nu ni (map fst E) ->
  same_factors nu ni k c c' ->
  fitted nu ni k c (map fst E) y -> Forall (fun v => Rabs v <= sig_dom) y ->
  fitted nu ni k c' (map fst E) y' -> Forall (fun v => Rabs v <= sig_dom) y' ->
  lpmf_loss C nu ni k c (ev_of (map fst E)) (map snd E) = Ok l ->
  lpmf_grad C nu ni k c (ev_of (map fst E)) (map snd E) = Ok g ->
  lpmf_loss C nu ni k c' (ev_of (map fst E)) (map snd E) = Ok l' ->
  l + dotl g (along c' c (-1)) + 1 / 2 * C * sumsq (along (tl c') (tl c) (-1)) <= l' /\
  ((forall j, (j < length c)%nat -> nth j c 0 = nth j c' 0 \/ nth j g 0 = 0) -> l <= l').
Proof.
  intros C nu ni k c c' E l g l' y y' HC Hc Hc' Hr Hs Fy By Fy' By' El Eg El'.
  destruct (view_ok nu ni k c Hc) as [t [_ [Ht <-]]]. destruct (view_ok nu ni k c' Hc') as [t' [_ [Ht' <-]]].
  assert (Ey : y = map (S_ k t) (map fst E)).
  { destruct Fy as [a [A1 A2]]. destruct (fitted_S nu ni k t _ Ht Hr) as [b [B1 B2]]. congruence. }
  assert (Ey' : y' = map (S_ k t') (map fst E)).
  { destruct Fy' as [a [A1 A2]]. destruct (fitted_S nu ni k t' _ Ht' Hr) as [b [B1 B2]]. congruence. }
  subst y y'. rewrite map_map in By, By'. rewrite Forall_map, Forall_forall in By, By'.
  rewrite lpmf_loss_closed in El, El' by auto. rewrite lpmf_grad_closed in Eg by auto.
  injection El as <-. injection El' as <-. injection Eg as <-.
  pose proof (palong_wf nu ni k t' t (-1) Ht' Ht) as Hv.
  assert (Etl : along (tl (flatten t')) (tl (flatten t)) (-1) = tl (flatten (palong t' t (-1)))).
  { rewrite <- (along_flatten nu ni k) by auto. reflexivity. }
  match goal with |- ?A <= ?B /\ _ => assert (M : A <= B) end.
  { rewrite (along_flatten nu ni k) by auto. rewrite Etl, <- (reg_tail nu ni k) by auto.
    rewrite grad_dot by (auto; rewrite !map_length; auto). rewrite combine_map_self, map_map. cbn [fst snd].
    rewrite (reg_step nu ni k t t') by auto. set (v := palong t' t (-1)) in *.
    assert (Q : rsum (map (fun e => xe (snd e) (S_ k t (fst e)) + (safe_sigmoid (S_ k t (fst e)) - snd e) * D_ k t v (fst e)) E) <=
      rsum (map (fun e => xe (snd e) (S_ k t' (fst e))) E)).
    { apply rsum_le. intros e He.
      assert (HE : S_ k t' (fst e) = S_ k t (fst e) + D_ k t v (fst e)).
      { unfold in_range in Hr. rewrite Forall_map, Forall_forall in Hr. destruct (Hr e He). apply (S_step nu ni); auto. }
      pose proof (xe_tangent (snd e) (S_ k t (fst e)) (S_ k t' (fst e)) (By e He) (By' e He)) as X.
      replace (S_ k t' (fst e) - S_ k t (fst e)) with (D_ k t v (fst e)) in X by (rewrite HE; ring). exact X. }
    rewrite rsum_plus in Q. lra. }
  split; [exact M|]. intros Hz. rewrite dotl_vanish in M.
  - pose proof (sumsq_nonneg (along (tl (flatten t')) (tl (flatten t)) (-1))) as N.
    assert (0 <= C * sumsq (along (tl (flatten t')) (tl (flatten t)) (-1))) by (apply Rmult_le_pos; auto). lra.
  - rewrite Hc. apply flatten_length, gpar_wf.
  - congruence.
  - auto.
Qed.

(** one user, one item, one liked event: at mu = 0 the gradient promises a loss
    above 500 at mu = -1000, but clipping keeps it below 150 *)
Theorem C90_logistic_refuted : exists C nu ni k c c' (E : list scored) l g l', 0 <= C /\
  length c = coef_size nu ni k /\ length c' = coef_size nu ni k /\ in_range nu ni (map fst E) /\
  same_factors nu ni k c c' /\
  lpmf_loss C nu ni k c (ev_of (map fst E)) (map snd E) = Ok l /\
  lpmf_grad C nu ni k c (ev_of (map fst E)) (map snd E) = Ok g /\
  lpmf_loss C nu ni k c' (ev_of (map fst E)) (map snd E) = Ok l' /\
  l' + 300 < l + dotl g (along c' c (-1)).
Proof.
  exists 0, 1%nat, 1%nat, 0%nat, (flatten (mkPar 0 [0] [0] [[]] [[]])), (flatten (mkPar (-1000) [0] [0] [[]] [[]])), [((0, 0)%nat, 1)].
  do 3 eexists. split; [lra|]. split; [reflexivity|]. split; [reflexivity|]. split; [repeat constructor|].
  split; [left; intros; lia|]. split; [apply lpmf_loss_closed; repeat constructor|].
  split; [apply lpmf_grad_closed; repeat constructor|]. split; [apply lpmf_loss_closed; repeat constructor|].
  rewrite gpar_E. unfold flatten, gpar, S_, at1, at2, reg, sumsq, dotl, along, rmul2. cbn - [safe_sigmoid xe INR].
  assert (Z : safe_sigmoid 0 = 1 / 2).
  { rewrite C38_exact_inside by (rewrite Rabs_R0; pose proof sig_dom_pos; lra). rewrite Ropp_0, exp_0. field. }
  replace (0 + 0 + 0 + 0) with 0 by ring. rewrite Z.
  assert (N : 0 <= xe 1 0) by (apply xe_nonneg; lra).
  assert (B : xe 1 (-1000 + 0 + 0 + 0) <= 135).
  { unfold xe. set (p := safe_sigmoid _). assert (P : / 10 ^ 15 <= p) by apply C38_range.
    assert (L : ln (/ 10 ^ 15) <= ln p) by (apply ln_le_le; auto; apply Rinv_0_lt_compat; apply pow_lt; lra).
    rewrite ln_Rinv, ln_pow in L by (try apply pow_lt; lra).
    assert (T : ln 10 <= 9).
    { pose proof (exp_ineq1_le (ln 10)) as X. rewrite exp_ln in X by lra. lra. }
    replace (INR 15) with 15 in L by (cbn; ring). lra. }
  lra.
Qed.

Example C90_nonvacuous : let E : list scored := [((0, 0)%nat, 1); ((1, 0)%nat, 3)] in
  let c := [2; - (1 / 2); 1 / 2; 0] in let c' := [2; 0; 0; 0] in
  length c = coef_size 2 1 0 /\ length c' = coef_size 2 1 0 /\ in_range 2 1 (map fst E) /\ same_factors 2 1 0 c c' /\
  exists l g l', pmf_loss 1 2 1 0 c (ev_of (map fst E)) (map snd E) = Ok l /\
    pmf_grad 1 2 1 0 c (ev_of (map fst E)) (map snd E) = Ok g /\ Forall (fun x => x = 0) g /\
    pmf_loss 1 2 1 0 c' (ev_of (map fst E)) (map snd E) = Ok l' /\ l < l'.
Proof.
  cbn zeta. split; [reflexivity|]. split; [reflexivity|]. split; [repeat constructor|]. split; [left; intros; lia|].
  change [2; 0; 0; 0] with (flatten (mkPar 2 [0; 0] [0] [[]; []] [[]])).
  change [2; - (1 / 2); 1 / 2; 0] with (flatten (mkPar 2 [- (1 / 2); 1 / 2] [0] [[]; []] [[]])).
  do 3 eexists. split; [apply pmf_loss_closed; repeat constructor|]. split; [apply pmf_grad_closed; repeat constructor|].
  split; [|split; [apply pmf_loss_closed; repeat constructor|]].
  - rewrite gpar_E. unfold flatten, S_, at1, at2. cbn. repeat (apply Forall_cons; [lra|]). apply Forall_nil.
  - unfold S_, at1, at2, reg, sumsq. cbn. lra.
Qed.
Print Assumptions C90_pmf_exact.
Print Assumptions C90_pmf_optimal.
Print Assumptions C90_bias_model.
Print Assumptions C90_logistic_partial.
Print Assumptions C90_logistic_refuted.
