(** * What the penalty weight, the number of factors and a single event do to the optimum (C136, C137) *)
From Coq Require Import List ZArith Reals Lia Lra Bool.
From Verif Require Import M_Py P_Py M_Sigmoid P_RSum P_Exp T_Sigmoid M_MF P_MF T_MF T_MF2 T_MFInit T_MF3 T_Implicit T_Convex T_Bias T_Factors.
Import ListNotations.
Open Scope R_scope.

(** ** C136: the penalty weight *)
Lemma path : forall C1 C2 d1 d2 r1 r2, C1 < C2 -> 0 <= r2 -> d1 + 1 / 2 * C1 * r1 <= d2 + 1 / 2 * C1 * r2 -> d2 + 1 / 2 * C2 * r2 <= d1 + 1 / 2 * C2 * r1 ->
  0 <= C1 -> d1 <= d2 /\ r2 <= r1 /\ d1 + 1 / 2 * C1 * r1 <= d2 + 1 / 2 * C2 * r2.
Proof.
  intros C1 C2 d1 d2 r1 r2 H R0 A B C0. assert (K : r2 <= r1) by (apply Rnot_lt_le; intros L; assert ((C2 - C1) * (r2 - r1) <= 0) by lra; nra). split; [nra|]. split; [auto|]. nra.
Qed.

Lemma pmf_split : forall C nu ni k c (E : list scored) d, length c = coef_size nu ni k -> in_range nu ni (map fst E) ->
  pmf_loss 0 nu ni k c (ev_of (map fst E)) (map snd E) = Ok d ->
  pmf_loss C nu ni k c (ev_of (map fst E)) (map snd E) = Ok (d + 1 / 2 * C * sumsq (tl c)).
Proof.
  intros C nu ni k c E d Hc Hr. destruct (view_ok nu ni k c Hc) as [t [_ [Ht <-]]]. rewrite !pmf_loss_closed by auto. intros Ed. injection Ed as Ed. rewrite <- Ed, (reg_tail nu ni k) by auto. f_equal. ring.
Qed.

Lemma lpmf_split : forall C nu ni k c (E : list scored) d, length c = coef_size nu ni k -> in_range nu ni (map fst E) ->
  lpmf_loss 0 nu ni k c (ev_of (map fst E)) (map snd E) = Ok d ->
  lpmf_loss C nu ni k c (ev_of (map fst E)) (map snd E) = Ok (d + 1 / 2 * C * sumsq (tl c)).
Proof.
  intros C nu ni k c E d Hc Hr. destruct (view_ok nu ni k c Hc) as [t [_ [Ht <-]]]. rewrite !lpmf_loss_closed by auto. intros Ed. injection Ed as Ed. rewrite <- Ed, (reg_tail nu ni k) by auto. f_equal. ring.
Qed.

(** a point with the smallest loss of all points of that length *)
Definition optimal (loss : list R -> res R) (n : nat) (c : list R) (l : R) : Prop :=
  length c = n /\ loss c = Ok l /\ forall c' l', length c' = n -> loss c' = Ok l' -> l <= l'.

(** with a larger penalty weight the training data are fitted no better (the
    loss without penalty, C = 0), and the penalised coefficients are no larger *)
Theorem C136_pmf : forall C1 C2 nu ni k c1 c2 (E : list scored) l1 l2 d1 d2, 0 <= C1 < C2 -> in_range nu ni (map fst E) ->
  optimal (fun c => pmf_loss C1 nu ni k c (ev_of (map fst E)) (map snd E)) (coef_size nu ni k) c1 l1 ->
  optimal (fun c => pmf_loss C2 nu ni k c (ev_of (map fst E)) (map snd E)) (coef_size nu ni k) c2 l2 ->
  pmf_loss 0 nu ni k c1 (ev_of (map fst E)) (map snd E) = Ok d1 -> pmf_loss 0 nu ni k c2 (ev_of (map fst E)) (map snd E) = Ok d2 ->
  d1 <= d2 /\ sumsq (tl c2) <= sumsq (tl c1) /\ l1 <= l2.
Proof.
  intros C1 C2 nu ni k c1 c2 E l1 l2 d1 d2 HC Hr [L1 [E1 M1]] [L2 [E2 M2]] D1 D2.
  pose proof (pmf_split C1 _ _ _ _ _ _ L1 Hr D1) as A1. pose proof (pmf_split C2 _ _ _ _ _ _ L2 Hr D2) as A2.
  assert (Q1 : l1 = d1 + 1 / 2 * C1 * sumsq (tl c1)) by congruence. assert (Q2 : l2 = d2 + 1 / 2 * C2 * sumsq (tl c2)) by congruence.
  pose proof (M1 _ _ L2 (pmf_split C1 _ _ _ _ _ _ L2 Hr D2)). pose proof (M2 _ _ L1 (pmf_split C2 _ _ _ _ _ _ L1 Hr D1)). rewrite Q1, Q2 in *.
  apply path; try lra. apply sumsq_nonneg.
Qed.

Theorem C136_logistic : forall C1 C2 nu ni k c1 c2 (E : list scored) l1 l2 d1 d2, 0 <= C1 < C2 -> in_range nu ni (map fst E) ->
  optimal (fun c => lpmf_loss C1 nu ni k c (ev_of (map fst E)) (map snd E)) (coef_size nu ni k) c1 l1 ->
  optimal (fun c => lpmf_loss C2 nu ni k c (ev_of (map fst E)) (map snd E)) (coef_size nu ni k) c2 l2 ->
  lpmf_loss 0 nu ni k c1 (ev_of (map fst E)) (map snd E) = Ok d1 -> lpmf_loss 0 nu ni k c2 (ev_of (map fst E)) (map snd E) = Ok d2 ->
  d1 <= d2 /\ sumsq (tl c2) <= sumsq (tl c1) /\ l1 <= l2.
Proof.
  intros C1 C2 nu ni k c1 c2 E l1 l2 d1 d2 HC Hr [L1 [E1 M1]] [L2 [E2 M2]] D1 D2.
  pose proof (lpmf_split C1 _ _ _ _ _ _ L1 Hr D1) as A1. pose proof (lpmf_split C2 _ _ _ _ _ _ L2 Hr D2) as A2.
  assert (Q1 : l1 = d1 + 1 / 2 * C1 * sumsq (tl c1)) by congruence. assert (Q2 : l2 = d2 + 1 / 2 * C2 * sumsq (tl c2)) by congruence.
  pose proof (M1 _ _ L2 (lpmf_split C1 _ _ _ _ _ _ L2 Hr D2)). pose proof (M2 _ _ L1 (lpmf_split C2 _ _ _ _ _ _ L1 Hr D1)). rewrite Q1, Q2 in *.
  apply path; try lra. apply sumsq_nonneg.
Qed.

Theorem C136_implicit : forall C1 C2 nu ni k c1 c2 m l1 l2 d1 d2, 0 <= C1 < C2 -> shaped nu ni m ->
  optimal (fun c => imp_loss C1 nu ni k c m) (coef_size nu ni k) c1 l1 -> optimal (fun c => imp_loss C2 nu ni k c m) (coef_size nu ni k) c2 l2 ->
  imp_loss 0 nu ni k c1 m = Ok d1 -> imp_loss 0 nu ni k c2 m = Ok d2 ->
  d1 <= d2 /\ sumsq (tl c2) <= sumsq (tl c1) /\ l1 <= l2.
Proof.
  intros C1 C2 nu ni k c1 c2 m l1 l2 d1 d2 HC Hm O1 O2 D1 D2.
  set (E := combine (cells nu ni) (concat m)). pose proof (concat_len nu ni m Hm) as Hl.
  assert (F1 : map fst E = cells nu ni) by (apply map_fst_combine; auto). assert (F2 : map snd E = concat m) by (apply map_snd_combine; auto).
  assert (I : forall C c, length c = coef_size nu ni k -> imp_loss C nu ni k c m = lpmf_loss C nu ni k c (ev_of (map fst E)) (map snd E)).
  { intros C c Hc. rewrite F1, F2. apply (proj1 (C35_implicit_is_logistic C nu ni k c m Hc Hm)). }
  assert (O : forall C c l, optimal (fun c => imp_loss C nu ni k c m) (coef_size nu ni k) c l -> optimal (fun c => lpmf_loss C nu ni k c (ev_of (map fst E)) (map snd E)) (coef_size nu ni k) c l).
  { intros C c l [A [B D]]. split; [auto|]. split; [rewrite <- I by auto; auto|]. intros c' l' H1 H2. apply (D c' l' H1). rewrite I by auto. auto. }
  apply (C136_logistic C1 C2 nu ni k c1 c2 E l1 l2 d1 d2); auto.
  - rewrite F1. apply cells_in_range.
  - rewrite <- I by apply O1. auto.
  - rewrite <- I by apply O2. auto.
Qed.

(** more factors: the smallest loss does not grow *)
Theorem C136_factors : forall C nu ni k d c c' (E : list scored) l l', in_range nu ni (map fst E) ->
  (optimal (fun c => pmf_loss C nu ni k c (ev_of (map fst E)) (map snd E)) (coef_size nu ni k) c l ->
   optimal (fun c => pmf_loss C nu ni (k + d) c (ev_of (map fst E)) (map snd E)) (coef_size nu ni (k + d)) c' l' -> l' <= l) /\
  (optimal (fun c => lpmf_loss C nu ni k c (ev_of (map fst E)) (map snd E)) (coef_size nu ni k) c l ->
   optimal (fun c => lpmf_loss C nu ni (k + d) c (ev_of (map fst E)) (map snd E)) (coef_size nu ni (k + d)) c' l' -> l' <= l).
Proof.
  intros C nu ni k d c c' E l l' Hr. split; intros [A1 [A2 A3]] [B1 [B2 B3]].
  - destruct (C135_padding C nu ni k d c E A1 Hr) as [c2 [P1 [P2 _]]]. apply (B3 c2 l P1). rewrite P2. auto.
  - destruct (view_ok nu ni k c A1) as [t [_ [Ht Ec]]]. pose proof (pad_wf nu ni k d t Ht) as Hp. apply (B3 (flatten (pad d t)) l (flatten_length _ _ _ _ Hp)).
    rewrite <- A2, <- Ec, !lpmf_loss_closed by auto. f_equal. unfold reg, pad. cbn [bu bi pu qi]. rewrite !pad_sumsq. fold (pad d t). f_equal.
    apply rsum_ext_in. intros e _. rewrite (S_pad nu ni) by auto. auto.
Qed.

(** ** towards the mean *)
Lemma at2_row_sq : forall n k m i, length m = n -> Forall (fun r => length r = k) m -> (i < n)%nat ->
  rsum (map (fun f => at2 m i f * at2 m i f) (seq 0 k)) <= sumsq (concat m).
Proof.
  intros n k m i Hn Hm Hi. rewrite (at2_sumsq n k) by auto. rewrite rsum_swap.
  eapply Rle_trans; [|apply (rsum_member_le (fun i => rsum (map (fun f => at2 m i f ^ 2) (seq 0 k))) (seq 0 n) i)].
  - right. apply rsum_ext_in. intros f _. ring.
  - intros j _. apply rsum_nonneg. intros. apply pow2_ge_0.
  - apply in_seq. lia.
Qed.

Lemma dev_bound : forall nu ni k t ui, wf nu ni k t -> Rabs (fallback_score nu ni k (flatten t) ui - mu t) <= sqrt (2 * reg t) + reg t / 2.
Proof.
  intros nu ni k t [u i] Ht. pose proof Ht as [H1 [H2 [H3 [H4 [H5 H6]]]]].
  set (wu := if Nat.ltb u nu then at1 (bu t) u else 0). set (wi := if Nat.ltb i ni then at1 (bi t) i else 0).
  set (wp := if Nat.ltb u nu && Nat.ltb i ni then rsum (map (fun f => at2 (pu t) u f * at2 (qi t) i f) (seq 0 k)) else 0).
  assert (Eq : fallback_score nu ni k (flatten t) (u, i) - mu t = wu + wi + wp).
  { unfold fallback_score. rewrite param_mu. unfold wu, wi, wp. destruct (Nat.ltb_spec u nu); destruct (Nat.ltb_spec i ni); cbn [andb]; rewrite ?param_bu, ?param_bi by auto; try ring.
    rewrite (rsum_ext_in (fun f => param nu ni k (flatten t) (SP u f) * param nu ni k (flatten t) (SQ i f)) (fun f => at2 (pu t) u f * at2 (qi t) i f)).
    - ring.
    - intros f Hf. apply in_seq in Hf. rewrite param_p, param_q by (auto; lia). auto. }
  rewrite Eq. assert (Wu : wu * wu <= sumsq (bu t)) by (unfold wu; destruct (u <? nu)%nat; [apply at1_sumsq|rewrite Rmult_0_l; apply sumsq_nonneg]).
  assert (Wi : wi * wi <= sumsq (bi t)) by (unfold wi; destruct (i <? ni)%nat; [apply at1_sumsq|rewrite Rmult_0_l; apply sumsq_nonneg]).
  pose proof (sumsq_nonneg (concat (pu t))) as N1. pose proof (sumsq_nonneg (concat (qi t))) as N2. pose proof (sumsq_nonneg (bu t)) as N3. pose proof (sumsq_nonneg (bi t)) as N4.
  assert (Wp : Rabs wp <= (sumsq (concat (pu t)) + sumsq (concat (qi t))) / 2).
  { unfold wp. destruct (Nat.ltb_spec u nu) as [Hu|Hu]; destruct (Nat.ltb_spec i ni) as [Hi|Hi]; cbn [andb]; try (rewrite Rabs_R0; lra).
    pose proof (at2_row_sq nu k (pu t) u H3 H5 Hu) as K1. pose proof (at2_row_sq ni k (qi t) i H4 H6 Hi) as K2.
    assert (K3 : forall s, s * s = 1 -> s * rsum (map (fun f => at2 (pu t) u f * at2 (qi t) i f) (seq 0 k)) <=
      (rsum (map (fun f => at2 (pu t) u f * at2 (pu t) u f) (seq 0 k)) + rsum (map (fun f => at2 (qi t) i f * at2 (qi t) i f) (seq 0 k))) / 2).
    { intros s Hs. rewrite <- rsum_plus, <- rsum_scal. unfold Rdiv. rewrite Rmult_comm, <- rsum_scal. apply rsum_le. intros f _.
      pose proof (Rle_0_sqr (at2 (pu t) u f - s * at2 (qi t) i f)) as S. unfold Rsqr in S. nra. }
    apply Rabs_le. pose proof (K3 1 ltac:(ring)). pose proof (K3 (-1) ltac:(ring)). lra. }
  assert (Rg : reg t = sumsq (bu t) + sumsq (bi t) + sumsq (concat (pu t)) + sumsq (concat (qi t))) by reflexivity.
  assert (Wb : Rabs (wu + wi) <= sqrt (2 * reg t)).
  { rewrite <- sqrt_Rsqr_abs. apply sqrt_le_1_alt. unfold Rsqr. pose proof (Rle_0_sqr (wu - wi)) as S. unfold Rsqr in S. nra. }
  pose proof (Rabs_triang (wu + wi) wp). lra.
Qed.

(** a run that does not end worse than at a loss l0 and balances the total of
    the residuals up to e predicts the mean score up to a term that vanishes
    with growing C *)
Theorem C136_mean : forall C nu ni k c (E : list scored) l l0 g e, 0 < C -> length c = coef_size nu ni k -> in_range nu ni (map fst E) -> E <> [] ->
  pmf_loss C nu ni k c (ev_of (map fst E)) (map snd E) = Ok l -> l <= l0 ->
  pmf_grad C nu ni k c (ev_of (map fst E)) (map snd E) = Ok g -> Rabs (hd 0 g) <= e ->
  forall uis z, Forall (fun ui => fst ui <= nu /\ snd ui <= ni)%nat uis -> fitted nu ni k c uis z ->
  Forall (fun x => Rabs (x - rsum (map snd E) / INR (length E)) <= 4 * sqrt (l0 / C) + 2 * (l0 / C) + e / INR (length E)) z.
Proof.
  intros C nu ni k c E l l0 g e HC Hc Hr HE El Hl Eg He uis z Hu Fz.
  rewrite (fitted_fallback _ _ _ _ _ _ Hc Hu Fz). destruct (view_ok nu ni k c Hc) as [t [_ [Ht <-]]].
  rewrite pmf_loss_closed in El by auto. injection El as El. rewrite pmf_grad_closed in Eg by auto. injection Eg as Eg. rewrite <- Eg in He. cbn [flatten gpar mu hd] in He.
  assert (Sq : 0 <= rsum (map (fun e => (snd e - S_ k t (fst e)) * (snd e - S_ k t (fst e))) E)) by (apply rsum_nonneg; intros; apply Rle_0_sqr).
  assert (R0 : 0 <= reg t) by (unfold reg; repeat apply Rplus_le_le_0_compat; apply sumsq_nonneg).
  assert (Q : reg t <= 2 * (l0 / C)). { apply Rmult_le_reg_l with C; auto. replace (C * (2 * (l0 / C))) with (2 * l0) by (field; lra). lra. }
  set (q := l0 / C) in *. assert (Bd : forall ui, Rabs (fallback_score nu ni k (flatten t) ui - mu t) <= 2 * sqrt q + q).
  { intros ui. eapply Rle_trans; [apply dev_bound; auto|]. assert (sqrt (2 * reg t) <= 2 * sqrt q); [|lra].
    replace (2 * sqrt q) with (sqrt (4 * q)); [apply sqrt_le_1_alt; lra|]. replace 4 with (2 * 2) by ring. rewrite sqrt_mult, sqrt_square by lra. ring. }
  assert (n0 : 0 < INR (length E)) by (apply lt_0_INR; destruct E; [contradiction|cbn; lia]). set (n := INR (length E)) in *.
  assert (Hm : Rabs (mu t - rsum (map snd E) / n) <= 2 * sqrt q + q + e / n).
  { assert (Es : forall e, In e E -> S_ k t (fst e) = fallback_score nu ni k (flatten t) (fst e)).
    { pose proof (fitted_S nu ni k t _ Ht Hr) as F. assert (Hu' : Forall (fun ui => fst ui <= nu /\ snd ui <= ni)%nat (map fst E)) by (eapply Forall_impl; [|exact Hr]; cbv beta; intros; lia).
      pose proof (fitted_fallback _ _ _ _ _ _ (flatten_length _ _ _ _ Ht) Hu' F) as M. intros x Hx. rewrite !map_map in M. exact (ext_in_map M x Hx). }
    assert (Tot : n * mu t - rsum (map snd E) = rsum (map (fun e => - (snd e - S_ k t (fst e))) E) - rsum (map (fun e => fallback_score nu ni k (flatten t) (fst e) - mu t) E)).
    { unfold n. rewrite <- rsum_minus. replace (INR (length E) * mu t) with (mu t * INR (length E)) by ring. rewrite <- rsum_const, <- rsum_minus. apply rsum_ext_in. intros x Hx. rewrite <- Es by auto. ring. }
    assert (Dv : Rabs (rsum (map (fun e => fallback_score nu ni k (flatten t) (fst e) - mu t) E)) <= n * (2 * sqrt q + q)).
    { unfold n. clear - Bd. induction E as [|x E IH]; [cbn; rewrite Rabs_R0; lra|]. cbn [map length]. rewrite rsum_cons, S_INR. eapply Rle_trans; [apply Rabs_triang|]. pose proof (Bd (fst x)). lra. }
    replace (mu t - rsum (map snd E) / n) with ((n * mu t - rsum (map snd E)) / n) by (field; lra). unfold Rdiv at 1. rewrite Rabs_mult, (Rabs_pos_eq (/ n)) by (apply Rlt_le, Rinv_0_lt_compat; auto).
    apply Rmult_le_reg_r with n; auto. rewrite Rmult_assoc, Rinv_l, Rmult_1_r by lra. replace ((2 * sqrt q + q + e / n) * n) with (e + n * (2 * sqrt q + q)) by (field; lra).
    rewrite Tot. match goal with |- Rabs (?a - ?b) <= _ => replace (a - b) with (a + - b) by ring; pose proof (Rabs_triang a (- b)) as T3; rewrite (Rabs_Ropp b) in T3 end. lra. }
  rewrite Forall_map, Forall_forall. intros ui _. specialize (Bd ui).
  replace (fallback_score nu ni k (flatten t) ui - rsum (map snd E) / n) with ((fallback_score nu ni k (flatten t) ui - mu t) + (mu t - rsum (map snd E) / n)) by ring.
  eapply Rle_trans; [apply Rabs_triang|]. lra.
Qed.

(** ** C137: a single event *)
(** the model without factors: one more event with score s moves no prediction
    by more than its residual times a factor that depends only on C and on the
    numbers of users and items *)
Theorem C137_one_event : forall C nu ni c c' (E : list scored) (e0 : scored) v g g' e e', 0 < C ->
  length c = coef_size nu ni 0 -> length c' = coef_size nu ni 0 -> in_range nu ni (map fst (e0 :: E)) -> E <> [] ->
  pmf_grad C nu ni 0 c (ev_of (map fst E)) (map snd E) = Ok g -> Forall (fun x => Rabs x <= e) g ->
  pmf_grad C nu ni 0 c' (ev_of (map fst (e0 :: E))) (map snd (e0 :: E)) = Ok g' -> Forall (fun x => Rabs x <= e') g' ->
  fitted nu ni 0 c' [fst e0] [v] ->
  forall uis z z', Forall (fun ui => fst ui <= nu /\ snd ui <= ni)%nat uis -> fitted nu ni 0 c uis z -> fitted nu ni 0 c' uis z' ->
  Forall2 (fun a b => Rabs (b - a) <= (Rabs (snd e0 - v) + e + e') * sqrt (1 + 2 * (INR nu + INR ni + 2) / C) * (1 + 3 / sqrt C)) z z'.
Proof.
  intros C nu ni c c' E e0 v g g' e e' HC Hc Hc' Hr HE Eg He Eg' He' Fv uis z z' Hu Fz Fz'.
  destruct (view_ok nu ni 0 c' Hc') as [t' [_ [Ht' Ec']]]. pose proof Ht' as [V1 [V2 [V3 [V4 [V5 V6]]]]].
  assert (Hr' : in_range nu ni (map fst E)) by (inversion Hr; auto). assert (Hr0 : in_range nu ni [fst e0]) by (inversion Hr; constructor; auto; constructor).
  assert (Ev : v = S_ 0 t' (fst e0)).
  { pose proof (fitted_S nu ni 0 t' _ Ht' Hr0) as F. rewrite Ec' in F. destruct F as [? [? ?]]. destruct Fv as [? [? ?]]. cbn [map] in *. congruence. }
  rewrite <- Ec' in Eg'. rewrite pmf_grad_closed in Eg' by auto. injection Eg' as Eg'. set (w0 := - (snd e0 - S_ 0 t' (fst e0))).
  pose proof (pmf_grad_closed C nu ni 0 t' E Ht' Hr') as G. rewrite Ec' in G.
  set (g2 := flatten (gpar C nu ni 0 t' (map fst E) (map (fun e => - (snd e - S_ 0 t' (fst e))) E))) in *.
  assert (Aw : Rabs w0 = Rabs (snd e0 - v)) by (unfold w0; rewrite Rabs_Ropp, Ev; auto).
  assert (H2 : Forall (fun x => Rabs x <= Rabs (snd e0 - v) + e') g2).
  { rewrite <- Eg' in He'. rewrite <- Aw. unfold g2. unfold flatten, gpar in *. cbn [mu bu bi pu qi map] in *.
    assert (W : forall x us w u j, wcount (x :: us) (w0 :: w) u = (if Nat.eqb x u then w0 else 0) + wcount us w u + j - j) by (intros; unfold wcount; cbn [combine map]; rewrite rsum_cons; cbn [fst snd]; ring).
    assert (Z : forall (n : nat) (f h : nat -> R) l, Forall (fun x => Rabs x <= l) (concat (map (fun u => map (fun f0 => f f0) (seq 0 0)) (seq 0 n)))) by (intros n f h l; rewrite Forall_concat, Forall_map, Forall_forall; constructor).
    assert (Tr : forall a b l, Rabs (a + b) <= l -> Rabs b <= Rabs a + l).
    { intros a b l H. replace b with ((a + b) + - a) by ring. eapply Rle_trans; [apply Rabs_triang|]. rewrite Rabs_Ropp. lra. }
    pose proof (Forall_inv He') as M1. pose proof (Forall_inv_tail He') as M2. cbv beta in M1. rewrite !Forall_app in M2. destruct M2 as [M2 [M3 _]].
    constructor; [rewrite rsum_cons in M1; fold w0 in M1; apply Tr; auto|].
    assert (Tw : forall x (us : list nat) w u a l, Rabs (wcount (x :: us) (w0 :: w) u + a) <= l -> Rabs (wcount us w u + a) <= Rabs w0 + l).
    { intros x us w u a l H. rewrite (W x us w u 0) in H. destruct (Nat.eqb x u).
      - apply Tr. replace (w0 + (wcount us w u + a)) with (w0 + wcount us w u + 0 - 0 + a) by ring. auto.
      - pose proof (Rabs_pos w0). replace (0 + wcount us w u + 0 - 0 + a) with (wcount us w u + a) in H by ring. lra. }
    rewrite !Forall_app. split; [|split; [|split]].
    - rewrite Forall_map in M2 |- *. eapply Forall_impl; [|exact M2]. cbv beta. intros u. fold w0. apply Tw.
    - rewrite Forall_map in M3 |- *. eapply Forall_impl; [|exact M3]. cbv beta. intros u. fold w0. apply Tw.
    - rewrite Forall_concat, Forall_map, Forall_forall. intros. constructor.
    - rewrite Forall_concat, Forall_map, Forall_forall. intros. constructor. }
  destruct (C134_bias_runs C nu ni c c' E g g2 e (Rabs (snd e0 - v) + e') HC Hc Hc' Hr' HE Eg He G H2) as [_ B].
  replace (Rabs (snd e0 - v) + e + e') with (e + (Rabs (snd e0 - v) + e')) by ring. exact (B uis z z' Hu Fz Fz').
Qed.

(** ** Examples *)
(** two users who gave one item the scores 2 and 0; without factors the optimum
    shrinks the biases 1, -1 to 1 / (1 + C), -1 / (1 + C) *)
Definition tw (C : R) : par := mkPar 1 [/ (1 + C); - / (1 + C)] [0] [[]; []] [[]].
Definition twE : list scored := [((0, 0)%nat, 2); ((1, 0)%nat, 0)].

Lemma tw_wf : forall C, wf 2 1 0 (tw C). Proof. intros. repeat split; repeat constructor. Qed.
Lemma tw_range : in_range 2 1 (map fst twE). Proof. repeat constructor; cbn; lia. Qed.

Lemma tw_loss : forall C D, 0 <= C -> pmf_loss D 2 1 0 (flatten (tw C)) (ev_of (map fst twE)) (map snd twE) = Ok ((C * C + D) / ((1 + C) * (1 + C))).
Proof.
  intros C D HC. rewrite pmf_loss_closed by auto using tw_wf, tw_range. f_equal. unfold reg, sumsq, S_, twE, tw, at1, rsum. cbn. field. lra.
Qed.

Lemma tw_optimal : forall C, 0 <= C -> optimal (fun c => pmf_loss C 2 1 0 c (ev_of (map fst twE)) (map snd twE)) (coef_size 2 1 0) (flatten (tw C)) (C / (1 + C)).
Proof.
  intros C HC. assert (L : pmf_loss C 2 1 0 (flatten (tw C)) (ev_of (map fst twE)) (map snd twE) = Ok (C / (1 + C))).
  { rewrite tw_loss by auto. f_equal. field. lra. }
  split; [reflexivity|]. split; [exact L|]. intros c' l' Hc' El'.
  refine (proj1 (C90_bias_model C 2 1 (flatten (tw C)) c' twE _ _ l' HC eq_refl Hc' tw_range L (pmf_grad_closed C 2 1 0 (tw C) twE (tw_wf C) tw_range) _ El')).
  unfold gpar, flatten, wcount, twE, tw, S_, at1, rsum. cbn. repeat constructor; field; lra.
Qed.

Example C136_nonvacuous :
  optimal (fun c => pmf_loss 1 2 1 0 c (ev_of (map fst twE)) (map snd twE)) (coef_size 2 1 0) (flatten (tw 1)) (1 / (1 + 1)) /\
  optimal (fun c => pmf_loss 3 2 1 0 c (ev_of (map fst twE)) (map snd twE)) (coef_size 2 1 0) (flatten (tw 3)) (3 / (1 + 3)) /\
  pmf_loss 0 2 1 0 (flatten (tw 1)) (ev_of (map fst twE)) (map snd twE) = Ok (1 / 4) /\
  pmf_loss 0 2 1 0 (flatten (tw 3)) (ev_of (map fst twE)) (map snd twE) = Ok (9 / 16) /\
  sumsq (tl (flatten (tw 1))) = 1 / 2 /\ sumsq (tl (flatten (tw 3))) = 1 / 8.
Proof.
  split; [apply tw_optimal; lra|]. split; [apply tw_optimal; lra|]. split; [rewrite tw_loss by lra; f_equal; field|]. split; [rewrite tw_loss by lra; f_equal; field|].
  unfold tw, flatten, sumsq, rsum. cbn. split; field.
Qed.

Example C136_mean_nonvacuous : exists g, pmf_grad 100 2 1 0 (flatten (tw 100)) (ev_of (map fst twE)) (map snd twE) = Ok g /\ hd 0 g = 0 /\
  forall uis z, Forall (fun ui => fst ui <= 2 /\ snd ui <= 1)%nat uis -> fitted 2 1 0 (flatten (tw 100)) uis z -> Forall (fun x => Rabs (x - 1) <= 42 / 100) z.
Proof.
  assert (H0 : hd 0 (flatten (gpar 100 2 1 0 (tw 100) (map fst twE) (map (fun e => - (snd e - S_ 0 (tw 100) (fst e))) twE))) = 0).
  { unfold gpar, flatten, twE, tw, S_, at1, rsum. cbn. field. }
  eexists. split; [apply pmf_grad_closed; auto using tw_wf, tw_range|]. split; [exact H0|]. intros uis z Hu Fz.
  pose proof (C136_mean 100 2 1 0 (flatten (tw 100)) twE _ 1 _ 0 ltac:(lra) eq_refl tw_range ltac:(discriminate) (tw_loss 100 100 ltac:(lra)) ltac:(lra)
    (pmf_grad_closed 100 2 1 0 (tw 100) twE (tw_wf 100) tw_range) ltac:(rewrite H0, Rabs_R0; lra) uis z Hu Fz) as K.
  eapply Forall_impl; [|exact K]. cbv beta. intros x Hx. replace (rsum (map snd twE) / INR (length twE)) with 1 in Hx by (unfold twE, rsum; cbn; field).
  replace (1 / 100) with (1 / 10 * (1 / 10)) in Hx by field. rewrite sqrt_square in Hx by lra. lra.
Qed.

(** one user, one item, the score 1, then the score 0 in addition *)
Example C137_nonvacuous : exists g g',
  pmf_grad 1 1 1 0 [1; 0; 0] (ev_of [(0, 0)%nat]) [1] = Ok g /\ Forall (fun x => Rabs x <= 0) g /\
  pmf_grad 1 1 1 0 [1 / 2; 0; 0] (ev_of [(0, 0)%nat; (0, 0)%nat]) [0; 1] = Ok g' /\ Forall (fun x => Rabs x <= 0) g' /\
  fitted 1 1 0 [1 / 2; 0; 0] [(0, 0)%nat] [1 / 2] /\
  forall uis z z', Forall (fun ui => fst ui <= 1 /\ snd ui <= 1)%nat uis -> fitted 1 1 0 [1; 0; 0] uis z -> fitted 1 1 0 [1 / 2; 0; 0] uis z' ->
    Forall2 (fun a b => Rabs (b - a) <= 6) z z'.
Proof.
  set (t := mkPar 1 [0] [0] [[]] [[]]). set (t' := mkPar (1 / 2) [0] [0] [[]] [[]]). set (E := [((0, 0)%nat, 1)] : list scored). set (e0 := ((0, 0)%nat, 0) : scored).
  assert (Wt : wf 1 1 0 t) by (repeat split; repeat constructor). assert (Wt' : wf 1 1 0 t') by (repeat split; repeat constructor).
  assert (R1 : in_range 1 1 (map fst E)) by (repeat constructor). assert (R2 : in_range 1 1 (map fst (e0 :: E))) by (repeat constructor).
  pose proof (pmf_grad_closed 1 1 1 0 t E Wt R1) as G1. pose proof (pmf_grad_closed 1 1 1 0 t' (e0 :: E) Wt' R2) as G2.
  assert (Z : forall l, Forall (fun x => x = 0) l -> Forall (fun x => Rabs x <= 0) l) by (intros l H; eapply Forall_impl; [|exact H]; cbv beta; intros a ->; rewrite Rabs_R0; lra).
  assert (H1 : Forall (fun x => Rabs x <= 0) (flatten (gpar 1 1 1 0 t (map fst E) (map (fun e => - (snd e - S_ 0 t (fst e))) E)))).
  { apply Z. unfold gpar, flatten, wcount, E, t, S_, at1, rsum. cbn. repeat constructor; lra. }
  assert (H2 : Forall (fun x => Rabs x <= 0) (flatten (gpar 1 1 1 0 t' (map fst (e0 :: E)) (map (fun e => - (snd e - S_ 0 t' (fst e))) (e0 :: E))))).
  { apply Z. unfold gpar, flatten, wcount, E, e0, t', S_, at1, rsum. cbn. repeat constructor; lra. }
  assert (Fv : fitted 1 1 0 [1 / 2; 0; 0] [(0, 0)%nat] [1 / 2]).
  { pose proof (fitted_S 1 1 0 t' [(0, 0)%nat] Wt' ltac:(repeat constructor)) as F. replace [1 / 2] with (map (S_ 0 t') [(0, 0)%nat]); [exact F|]. unfold S_, t', at1, rsum. cbn. f_equal. lra. }
  do 2 eexists. split; [exact G1|]. split; [exact H1|]. split; [exact G2|]. split; [exact H2|]. split; [exact Fv|].
  intros uis z z' Hu Fz Fz'. pose proof (C137_one_event 1 1 1 [1; 0; 0] [1 / 2; 0; 0] E e0 (1 / 2) _ _ 0 0 ltac:(lra) eq_refl eq_refl R2 ltac:(discriminate) G1 H1 G2 H2 Fv uis z z' Hu Fz Fz') as K.
  assert (Im : forall (P Q : R -> R -> Prop) (x y : list R), (forall a b, P a b -> Q a b) -> Forall2 P x y -> Forall2 Q x y) by (clear; induction 2; constructor; auto).
  eapply Im; [|exact K]. cbv beta. intros a b H. replace (1 + 2 * (INR 1 + INR 1 + 2) / 1) with (3 * 3) in H by (cbn; field). rewrite sqrt_square, sqrt_1 in H by lra.
  replace (Rabs (snd e0 - 1 / 2)) with (1 / 2) in H by (unfold e0; cbn [snd]; rewrite Rabs_left1; lra). lra.
Qed.

Print Assumptions C136_pmf.
Print Assumptions C136_logistic.
Print Assumptions C136_implicit.
Print Assumptions C136_factors.
Print Assumptions C136_mean.
Print Assumptions C137_one_event.
Print Assumptions C137_nonvacuous.
