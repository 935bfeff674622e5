(** * Two runs of the model without latent factors (C134) *)
From Coq Require Import List ZArith Reals Lia Lra Bool.
From Verif Require Import M_Py P_Py P_RSum M_MF P_MF T_MF T_MF2 T_MFInit T_MF3 T_Convex.
Import ListNotations.
Open Scope R_scope.

(** ** C134: two runs that stop near stationary points *)
Lemma cauchy : forall A (f g : A -> R) l, rsum (map (fun x => f x * g x) l) * rsum (map (fun x => f x * g x) l) <=
  rsum (map (fun x => f x * f x) l) * rsum (map (fun x => g x * g x) l).
Proof.
  intros A f g. induction l as [|a l IH]; cbn [map]; rewrite ?rsum_cons; [cbn; lra|].
  set (u := rsum (map (fun x => f x * g x) l)) in *. set (p := rsum (map (fun x => f x * f x) l)) in *. set (q := rsum (map (fun x => g x * g x) l)) in *.
  assert (P : 0 <= p) by (apply rsum_nonneg; intros; nra). assert (Q : 0 <= q) by (apply rsum_nonneg; intros; nra).
  assert (K : 2 * (f a * g a) * u <= f a * f a * q + g a * g a * p); [|nra].
  destruct (Req_dec p 0) as [Z|Z].
  - assert (u = 0) by nra. rewrite H, Z. pose proof (Rle_0_sqr (f a)). unfold Rsqr in *. nra.
  - assert (p * (2 * (f a * g a) * u) <= p * (f a * f a * q + g a * g a * p)).
    { pose proof (Rle_0_sqr (f a * u - g a * p)) as S. unfold Rsqr in S. pose proof (Rle_0_sqr (f a)) as F. unfold Rsqr in F. nra. }
    apply Rmult_le_reg_l with p; auto. lra.
Qed.

Lemma abs_sum_sq : forall l, rsum (map Rabs l) * rsum (map Rabs l) <= INR (length l) * sumsq l.
Proof.
  intros l. pose proof (cauchy R (fun _ => 1) Rabs l) as K.
  rewrite (rsum_ext_in (fun x => 1 * Rabs x) Rabs) in K by (intros; ring).
  rewrite (rsum_ext_in (fun x => Rabs x * Rabs x) (fun x => x * x)) in K by (intros x _; rewrite <- Rabs_mult; apply Rabs_pos_eq; nra).
  rewrite (rsum_ext_in (fun _ => 1 * 1) (fun _ => 1)), rsum_const in K by (intros; ring). unfold sumsq. lra.
Qed.

Lemma dotl_bound : forall g v e, length g = length v -> Forall (fun x => Rabs x <= e) g -> Rabs (dotl g v) <= e * rsum (map Rabs v).
Proof.
  induction g as [|a g IH]; intros [|b v] e Hl H; try discriminate.
  - unfold dotl. cbn. rewrite Rabs_R0. lra.
  - unfold dotl in *. cbn [combine map]. rewrite !rsum_cons. unfold rmul2 at 1. cbn [fst snd].
    eapply Rle_trans; [apply Rabs_triang|]. rewrite Rabs_mult. inversion H; subst. specialize (IH v e ltac:(cbn in Hl; lia) H3).
    assert (Rabs a * Rabs b <= e * Rabs b) by (apply Rmult_le_compat_r; auto using Rabs_pos). lra.
Qed.

Lemma dotl_opp : forall g a b, length a = length b -> dotl g (along a b (-1)) = - dotl g (along b a (-1)).
Proof.
  induction g as [|x g IH]; intros [|y a] [|z b] H; try discriminate; try (unfold dotl, along; cbn; lra).
  unfold dotl, along in *. cbn [map combine]. rewrite !rsum_cons. unfold rmul2 at 1 3. cbn [fst snd]. rewrite (IH a b) by (cbn in H; lia). ring.
Qed.

Lemma sumsq_sym : forall a b, length a = length b -> sumsq (along a b (-1)) = sumsq (along b a (-1)).
Proof.
  induction a as [|x a IH]; intros [|y b] H; try discriminate; auto. unfold sumsq, along in *. cbn [map combine fst snd]. rewrite !rsum_cons, (IH b) by (cbn in H; lia). ring.
Qed.

(** between two points with the same factors of the users (or of the items) *)
Theorem C134_monotone : forall C nu ni k c c' (E : list scored) g g' e e' y y',
  length c = coef_size nu ni k -> length c' = coef_size nu ni k -> in_range nu ni (map fst E) -> same_factors nu ni k c c' ->
  pmf_grad C nu ni k c (ev_of (map fst E)) (map snd E) = Ok g -> Forall (fun x => Rabs x <= e) g ->
  pmf_grad C nu ni k c' (ev_of (map fst E)) (map snd E) = Ok g' -> Forall (fun x => Rabs x <= e') g' ->
  fitted nu ni k c (map fst E) y -> fitted nu ni k c' (map fst E) y' ->
  rsum (map (fun z => (fst z - snd z) ^ 2) (combine y' y)) + C * sumsq (along (tl c') (tl c) (-1)) <= (e + e') * rsum (map Rabs (along c' c (-1))).
Proof.
  intros C nu ni k c c' E g g' e e' y y' Hc Hc' Hr Hs Eg He Eg' He' Fy Fy'.
  assert (Hs' : same_factors nu ni k c' c) by (destruct Hs as [H|H]; [left|right]; intros; symmetry; apply H; auto).
  destruct (C90_pmf_exact C nu ni k c c' E Hc Hc' Hr Hs) as (l & g0 & l' & y0 & y0' & A1 & A2 & A3 & A4 & A5 & A6 & A7 & A8).
  destruct (C90_pmf_exact C nu ni k c' c E Hc' Hc Hr Hs') as (m' & h0 & m & z0' & z0 & B1 & B2 & B3 & B4 & B5 & B6 & B7 & B8).
  assert (g0 = g) by congruence. assert (h0 = g') by congruence. assert (Em : m = l) by congruence. assert (Em' : m' = l') by congruence. rewrite Em, Em' in B8.
  assert (U : forall c y y', fitted nu ni k c (map fst E) y -> fitted nu ni k c (map fst E) y' -> y = y') by (intros ? ? ? [? [? ?]] [? [? ?]]; congruence).
  assert (y0 = y) by eauto. assert (y0' = y') by eauto. assert (z0 = y) by eauto. assert (z0' = y') by eauto. subst g0 h0 y0 y0' z0 z0'.
  assert (L1 : length (tl c') = length (tl c)) by (destruct c, c'; cbn in *; congruence).
  rewrite dotl_opp in B8 by congruence. rewrite (sumsq_sym (tl c) (tl c')) in B8 by auto.
  assert (Q : rsum (map (fun z => (fst z - snd z) ^ 2) (combine y y')) = rsum (map (fun z => (fst z - snd z) ^ 2) (combine y' y))).
  { clear. revert y'. induction y as [|a y IH]; intros [|b y']; auto. cbn [combine map fst snd]. rewrite !rsum_cons, IH. cbn. ring. }
  rewrite Q in B8.
  assert (Lg : forall c g, length c = coef_size nu ni k -> pmf_grad C nu ni k c (ev_of (map fst E)) (map snd E) = Ok g -> length g = length c).
  { intros d h Hd Eh. destruct (view_ok nu ni k d Hd) as [v [_ [Hv <-]]]. rewrite pmf_grad_closed in Eh by auto. injection Eh as <-.
    rewrite (flatten_length _ _ _ _ (gpar_wf _ _ _ _ _ _ _)), Hd. auto. }
  pose proof (Lg _ _ Hc Eg) as G1. pose proof (Lg _ _ Hc' Eg') as G2.
  assert (La : length (along c' c (-1)) = coef_size nu ni k) by (rewrite P_MF.along_length by congruence; auto).
  pose proof (dotl_bound g (along c' c (-1)) e ltac:(congruence) He) as D1. pose proof (dotl_bound g' (along c' c (-1)) e' ltac:(congruence) He') as D2.
  assert (dotl g (along c' c (-1)) >= - (e * rsum (map Rabs (along c' c (-1))))) by (revert D1; unfold Rabs at 1; destruct Rcase_abs; lra).
  assert (dotl g' (along c' c (-1)) <= e' * rsum (map Rabs (along c' c (-1)))) by (revert D2; unfold Rabs at 1; destruct Rcase_abs; lra).
  lra.
Qed.

Lemma combine_both : forall A B D (f : A -> B) (g : A -> D) l, combine (map f l) (map g l) = map (fun x => (f x, g x)) l.
Proof. induction l; [reflexivity|]. cbn [map combine]. rewrite IHl. auto. Qed.

Lemma at1_sumsq : forall l i, at1 l i * at1 l i <= sumsq l.
Proof.
  intros l i. unfold at1. destruct (Nat.lt_ge_cases i (length l)).
  - apply sumsq_member. apply nth_In. auto.
  - rewrite nth_overflow by auto. rewrite Rmult_0_l. apply sumsq_nonneg.
Qed.

Lemma fitted_fallback : forall nu ni k c uis z, length c = coef_size nu ni k -> Forall (fun ui => fst ui <= nu /\ snd ui <= ni)%nat uis ->
  fitted nu ni k c uis z -> z = map (fallback_score nu ni k c) uis.
Proof.
  intros nu ni k c uis z Hc Hu [t [E1 E2]]. destruct (C37_unknown_fallback nu ni k c uis Hc Hu) as [t' [E3 [E4 _]]]. congruence.
Qed.

(** the model without factors: whatever the optimiser and the starting point *)
Theorem C134_bias_runs : forall C nu ni c c' (E : list scored) g g' e e', 0 < C ->
  length c = coef_size nu ni 0 -> length c' = coef_size nu ni 0 -> in_range nu ni (map fst E) -> E <> [] ->
  pmf_grad C nu ni 0 c (ev_of (map fst E)) (map snd E) = Ok g -> Forall (fun x => Rabs x <= e) g ->
  pmf_grad C nu ni 0 c' (ev_of (map fst E)) (map snd E) = Ok g' -> Forall (fun x => Rabs x <= e') g' ->
  let K := 1 + 2 * (INR nu + INR ni + 2) / C in
  (forall y y', fitted nu ni 0 c (map fst E) y -> fitted nu ni 0 c' (map fst E) y' ->
     rsum (map (fun z => (fst z - snd z) ^ 2) (combine y' y)) + C * sumsq (along (tl c') (tl c) (-1)) <= (e + e') ^ 2 * K) /\
  (forall uis z z', Forall (fun ui => fst ui <= nu /\ snd ui <= ni)%nat uis -> fitted nu ni 0 c uis z -> fitted nu ni 0 c' uis z' ->
     Forall2 (fun a b => Rabs (b - a) <= (e + e') * sqrt K * (1 + 3 / sqrt C)) z z').
Proof.
  intros C nu ni c c' E g g' e e' HC Hc Hc' Hr HE Eg He Eg' He' K.
  destruct (view_ok nu ni 0 c Hc) as [t [_ [Ht Ec]]]. destruct (view_ok nu ni 0 c' Hc') as [t' [_ [Ht' Ec']]].
  pose proof (fitted_S nu ni 0 t _ Ht Hr) as Ft. pose proof (fitted_S nu ni 0 t' _ Ht' Hr) as Ft'. rewrite Ec in Ft. rewrite Ec' in Ft'.
  assert (U : forall c y y', fitted nu ni 0 c (map fst E) y -> fitted nu ni 0 c (map fst E) y' -> y = y') by (intros ? ? ? [? [? ?]] [? [? ?]]; congruence).
  pose proof (C134_monotone C nu ni 0 c c' E g g' e e' _ _ Hc Hc' Hr ltac:(left; intros; lia) Eg He Eg' He' Ft Ft') as M.
  set (y := map (S_ 0 t) (map fst E)) in *. set (y' := map (S_ 0 t') (map fst E)) in *.
  set (q := rsum (map (fun z => (fst z - snd z) ^ 2) (combine y' y))) in *. set (rr := sumsq (along (tl c') (tl c) (-1))) in *.
  pose proof Ht as [H1 [H2 [H3 [H4 [H5 H6]]]]]. pose proof Ht' as [V1 [V2 [V3 [V4 [V5 V6]]]]].
  assert (Z0 : forall (m : list (list R)), Forall (fun r => length r = 0%nat) m -> concat m = []).
  { clear. induction m as [|r m IH]; intros H; auto. inversion H; subst. destruct r; [|discriminate]. cbn. auto. }
  assert (Ct : c = mu t :: bu t ++ bi t) by (rewrite <- Ec; unfold flatten; rewrite !Z0, !app_nil_r by auto; auto).
  assert (Ct' : c' = mu t' :: bu t' ++ bi t') by (rewrite <- Ec'; unfold flatten; rewrite !Z0, !app_nil_r by auto; auto).
  set (du := along (bu t') (bu t) (-1)). set (di := along (bi t') (bi t) (-1)).
  assert (Et : along (tl c') (tl c) (-1) = du ++ di).
  { rewrite Ct, Ct'. cbn [tl]. unfold along at 1. rewrite combine_app by congruence. rewrite map_app. reflexivity. }
  assert (Ea : along c' c (-1) = (mu t' - mu t) :: du ++ di).
  { rewrite <- Et. rewrite Ct at 1. rewrite Ct' at 1. unfold along at 1. cbn [combine map fst snd]. f_equal; [ring|]. rewrite Ct, Ct'. reflexivity. }
  assert (Ru : forall i, at1 du i = at1 (bu t') i - at1 (bu t) i) by (intros i; unfold du; rewrite at1_along by congruence; ring).
  assert (Ri : forall i, at1 di i = at1 (bi t') i - at1 (bi t) i) by (intros i; unfold di; rewrite at1_along by congruence; ring).
  assert (ER : rr = sumsq du + sumsq di) by (unfold rr; rewrite Et; unfold sumsq; rewrite map_app, rsum_app; auto).
  assert (W : forall u i, (Rabs (at1 du u) + Rabs (at1 di i)) * (Rabs (at1 du u) + Rabs (at1 di i)) <= 2 * rr).
  { intros u i. pose proof (at1_sumsq du u) as A. pose proof (at1_sumsq di i) as B. set (a := at1 du u) in *. set (b := at1 di i) in *.
    assert (Qa : Rabs a * Rabs a = a * a) by (rewrite <- Rabs_mult; apply Rabs_pos_eq; nra). assert (Qb : Rabs b * Rabs b = b * b) by (rewrite <- Rabs_mult; apply Rabs_pos_eq; nra).
    pose proof (Rle_0_sqr (Rabs a - Rabs b)) as S. unfold Rsqr in S. nra. }
  set (s := e + e') in *. set (n := INR nu + INR ni).
  rewrite Ea in M. cbn [map] in M. rewrite rsum_cons in M. set (T := rsum (map Rabs (du ++ di))) in *.
  assert (T2 : T * T <= n * rr).
  { pose proof (abs_sum_sq (du ++ di)) as K1. fold T in K1. rewrite <- Et in K1 at 2. fold rr in K1. rewrite app_length in K1. unfold du, di in K1. rewrite !P_MF.along_length, V1, V2, plus_INR in K1 by congruence. exact K1. }
  assert (exists x0, In x0 E) as [x0 In0] by (clear - HE; destruct E as [|a l]; [contradiction|exists a; left; auto]).
  set (d0 := S_ 0 t' (fst x0) - S_ 0 t (fst x0)).
  assert (D0 : d0 * d0 <= q).
  { unfold q, y, y'. rewrite !map_map, combine_both, map_map. cbn [fst snd].
    replace (d0 * d0) with ((fun e : scored => (S_ 0 t' (fst e) - S_ 0 t (fst e)) ^ 2) x0) by (unfold d0; ring). apply (rsum_member_le (fun e : scored => (S_ 0 t' (fst e) - S_ 0 t (fst e)) ^ 2)); auto.
    intros; apply pow2_ge_0. }
  set (w := Rabs (at1 du (fst (fst x0))) + Rabs (at1 di (snd (fst x0)))). pose proof (W (fst (fst x0)) (snd (fst x0))) as W0. fold w in W0.
  assert (A0 : Rabs (mu t' - mu t) <= Rabs d0 + w).
  { replace (mu t' - mu t) with (d0 + - (at1 du (fst (fst x0)) + at1 di (snd (fst x0)))).
    - eapply Rle_trans; [apply Rabs_triang|]. rewrite Rabs_Ropp. pose proof (Rabs_triang (at1 du (fst (fst x0))) (at1 di (snd (fst x0)))). unfold w. lra.
    - rewrite Ru, Ri. unfold d0, S_. cbn [seq map]. change (rsum []) with 0. ring. }
  assert (Sn : 0 <= s).
  { assert (forall e g, Forall (fun x => Rabs x <= e) g -> g <> [] -> 0 <= e) by (intros a [|b h] Hf Hn; [contradiction|]; inversion Hf; subst; pose proof (Rabs_pos b); lra).
    assert (Lg : forall c g, length c = coef_size nu ni 0 -> pmf_grad C nu ni 0 c (ev_of (map fst E)) (map snd E) = Ok g -> g <> []).
    { intros d h Hd Eh. destruct (view_ok nu ni 0 d Hd) as [v [_ [Hv <-]]]. rewrite pmf_grad_closed in Eh by auto. injection Eh as <-. discriminate. }
    unfold s. pose proof (H e g He ltac:(eauto)). pose proof (H e' g' He' ltac:(eauto)). lra. }
  assert (R0 : 0 <= rr) by apply sumsq_nonneg. assert (q0 : 0 <= q) by nra.
  assert (n0 : 2 <= n).
  { unfold n. unfold in_range in Hr. rewrite Forall_forall in Hr. destruct (Hr (fst x0) (in_map fst _ _ In0)) as [U1 U2].
    assert (1 <= INR nu) by (apply (le_INR 1); lia). assert (1 <= INR ni) by (apply (le_INR 1); lia). lra. }
  assert (Main : q + C * rr <= s ^ 2 * K).
  { assert (B1 : s * Rabs d0 <= q / 2 + s * s / 2).
    { pose proof (Rle_0_sqr (Rabs d0 - s)) as S. unfold Rsqr in S. assert (Rabs d0 * Rabs d0 = d0 * d0) by (rewrite <- Rabs_mult; apply Rabs_pos_eq; nra). nra. }
    assert (B2 : s * w <= C * rr / 4 + 2 * (s * s) / C).
    { apply Rmult_le_reg_l with (8 * C); [lra|]. replace (8 * C * (C * rr / 4 + 2 * (s * s) / C)) with (C * C * (2 * rr) + 16 * (s * s)) by (field; lra).
      pose proof (Rle_0_sqr (C * w - 4 * s)) as S. unfold Rsqr in S. assert (C * C * (w * w) <= C * C * (2 * rr)) by (apply Rmult_le_compat_l; nra). nra. }
    assert (B3 : s * T <= C * rr / 4 + s * s * n / C).
    { apply Rmult_le_reg_l with (4 * n * C); [nra|]. replace (4 * n * C * (C * rr / 4 + s * s * n / C)) with (C * C * (n * rr) + 4 * n * n * (s * s)) by (field; lra).
      pose proof (Rle_0_sqr (C * T - 2 * n * s)) as S. unfold Rsqr in S. assert (C * C * (T * T) <= C * C * (n * rr)) by (apply Rmult_le_compat_l; nra). nra. }
    assert (B4 : s * (Rabs (mu t' - mu t) + T) <= s * (Rabs d0 + w + T)) by (apply Rmult_le_compat_l; lra).
    replace (s ^ 2 * K) with (2 * (s * s / 2 + 2 * (s * s) / C + s * s * n / C)) by (unfold K; fold n; field; lra). lra. }
  split.
  { intros z z' Fz Fz'. rewrite (U _ _ _ Fz Ft), (U _ _ _ Fz' Ft'). exact Main. }
  assert (K1 : 1 <= K). { unfold K. fold n. assert (0 <= 2 * (n + 2) / C) by (apply Rmult_le_pos; [lra|apply Rlt_le, Rinv_0_lt_compat; lra]). lra. }
  pose proof (sqrt_lt_R0 K ltac:(lra)) as K2. pose proof (sqrt_sqrt K ltac:(lra)) as K3. pose proof (sqrt_lt_R0 C HC) as C2. pose proof (sqrt_sqrt C ltac:(lra)) as C3.
  set (rk := sqrt K) in *. set (rc := sqrt C) in *.
  assert (Bd : forall a b, 0 <= b -> a * a <= b * b -> Rabs a <= b) by (intros a b Hb Hab; apply Rabs_le; nra).
  assert (P1 : Rabs d0 <= s * rk) by (apply Bd; [nra|]; replace (s * rk * (s * rk)) with (s ^ 2 * (rk * rk)) by ring; rewrite K3; nra).
  assert (P2 : forall w, 0 <= w -> w * w <= 2 * rr -> w <= s * rk * (3 / 2 / rc)).
  { intros a Ha Hw. rewrite <- (Rabs_pos_eq a) by auto. assert (I : 0 < / rc) by (apply Rinv_0_lt_compat; auto). apply Bd; [repeat apply Rmult_le_pos; lra|].
    replace (s * rk * (3 / 2 / rc) * (s * rk * (3 / 2 / rc))) with (9 / 4 * (s ^ 2 * (rk * rk)) / (rc * rc)) by (field; lra). rewrite K3, C3.
    apply Rmult_le_reg_r with C; auto. replace (9 / 4 * (s ^ 2 * K) / C * C) with (9 / 4 * (s ^ 2 * K)) by (field; lra). nra. }
  intros uis z z' Hu Fz Fz'. rewrite (fitted_fallback _ _ _ _ _ _ Hc Hu Fz), (fitted_fallback _ _ _ _ _ _ Hc' Hu Fz').
  assert (Hq : forall ui, Rabs (fallback_score nu ni 0 c' ui - fallback_score nu ni 0 c ui) <= s * rk * (1 + 3 / rc)).
  { intros [u i]. set (wu := if Nat.ltb u nu then at1 du u else 0). set (wi := if Nat.ltb i ni then at1 di i else 0).
    assert (Eq : fallback_score nu ni 0 c' (u, i) - fallback_score nu ni 0 c (u, i) = (mu t' - mu t) + wu + wi).
    { unfold fallback_score. rewrite <- Ec, <- Ec'. rewrite !param_mu. unfold wu, wi.
      destruct (Nat.ltb_spec u nu); destruct (Nat.ltb_spec i ni); cbn [andb]; rewrite ?param_bu, ?param_bi, ?Ru, ?Ri by auto; cbn [seq map]; change (rsum []) with 0; ring. }
    rewrite Eq. assert (Wb : Rabs wu + Rabs wi <= s * rk * (3 / 2 / rc)).
    { apply P2; [pose proof (Rabs_pos wu); pose proof (Rabs_pos wi); lra|]. pose proof (W u i) as W1.
      assert (Rabs wu <= Rabs (at1 du u)) by (unfold wu; destruct (u <? nu)%nat; [lra|rewrite Rabs_R0; apply Rabs_pos]).
      assert (Rabs wi <= Rabs (at1 di i)) by (unfold wi; destruct (i <? ni)%nat; [lra|rewrite Rabs_R0; apply Rabs_pos]).
      pose proof (Rabs_pos wu). pose proof (Rabs_pos wi). eapply Rle_trans; [|exact W1]. apply Rmult_le_compat; lra. }
    assert (P3 : w <= s * rk * (3 / 2 / rc)) by (apply P2; auto; unfold w; pose proof (Rabs_pos (at1 du (fst (fst x0)))); pose proof (Rabs_pos (at1 di (snd (fst x0)))); lra).
    pose proof (Rabs_triang (mu t' - mu t + wu) wi). pose proof (Rabs_triang (mu t' - mu t) wu).
    replace (s * rk * (1 + 3 / rc)) with (s * rk + s * rk * (3 / 2 / rc) + s * rk * (3 / 2 / rc)) by (field; lra). lra. }
  clear - Hq. induction uis as [|ui uis IH]; cbn [map]; constructor; auto.
Qed.

(** ** Example *)
(** two users, two items, the scores 1 and 0 crosswise; one run stops at the
    optimum, the other one with the mean too high by 1/10 *)
Definition cr : par := mkPar (1 / 2) [0; 0] [0; 0] [[]; []] [[]; []].
Definition crE : list scored := [((0, 0)%nat, 1); ((0, 1)%nat, 0); ((1, 0)%nat, 0); ((1, 1)%nat, 1)].

Lemma cr_wf : wf 2 2 0 cr. Proof. repeat split; repeat constructor. Qed.
Lemma cr_range : in_range 2 2 (map fst crE). Proof. repeat constructor; cbn; lia. Qed.

Lemma cr_zero : forall C, Forall (fun x => x = 0) (flatten (gpar C 2 2 0 cr (map fst crE) (map (fun e => - (snd e - S_ 0 cr (fst e))) crE))).
Proof. intros C. unfold gpar, flatten, wcount, crE, cr, S_, at1, rsum. cbn. repeat constructor; lra. Qed.

Definition cr' : par := mkPar (3 / 5) [0; 0] [0; 0] [[]; []] [[]; []].

Example C134_nonvacuous : exists g g',
  pmf_grad 1 2 2 0 (flatten cr) (ev_of (map fst crE)) (map snd crE) = Ok g /\ Forall (fun x => Rabs x <= 0) g /\
  pmf_grad 1 2 2 0 (flatten cr') (ev_of (map fst crE)) (map snd crE) = Ok g' /\ Forall (fun x => Rabs x <= 2 / 5) g' /\ Exists (fun x => x = 2 / 5) g' /\
  (forall uis z z', Forall (fun ui => fst ui <= 2 /\ snd ui <= 2)%nat uis -> fitted 2 2 0 (flatten cr) uis z -> fitted 2 2 0 (flatten cr') uis z' ->
     Forall2 (fun a b => Rabs (b - a) <= 2 / 5 * sqrt 13 * 4) z z') /\
  fitted 2 2 0 (flatten cr) [(2, 0)%nat; (1, 1)%nat] [1 / 2; 1 / 2] /\ fitted 2 2 0 (flatten cr') [(2, 0)%nat; (1, 1)%nat] [3 / 5; 3 / 5].
Proof.
  assert (W' : wf 2 2 0 cr') by (repeat split; repeat constructor).
  assert (G0 : Forall (fun x => Rabs x <= 0) (flatten (gpar 1 2 2 0 cr (map fst crE) (map (fun e => - (snd e - S_ 0 cr (fst e))) crE)))).
  { eapply Forall_impl; [|apply cr_zero]. cbv beta. intros a ->. rewrite Rabs_R0. lra. }
  assert (Eg : flatten (gpar 1 2 2 0 cr' (map fst crE) (map (fun e => - (snd e - S_ 0 cr' (fst e))) crE)) = [2 / 5; 1 / 5; 1 / 5; 1 / 5; 1 / 5]).
  { unfold gpar, flatten, wcount, crE, cr', S_, at1, rsum. cbn. repeat (apply f_equal2; [lra|]). reflexivity. }
  assert (G1 : Forall (fun x => Rabs x <= 2 / 5) (flatten (gpar 1 2 2 0 cr' (map fst crE) (map (fun e => - (snd e - S_ 0 cr' (fst e))) crE)))).
  { rewrite Eg. repeat constructor; rewrite Rabs_pos_eq; lra. }
  do 2 eexists. split; [apply pmf_grad_closed; auto using cr_wf, cr_range|]. split; [exact G0|].
  split; [apply pmf_grad_closed; auto using cr_range|]. split; [exact G1|]. split; [rewrite Eg; left; auto|]. split; [|split].
  - intros uis z z' Hu Fz Fz'.
    destruct (C134_bias_runs 1 2 2 (flatten cr) (flatten cr') crE _ _ 0 (2 / 5) ltac:(lra) eq_refl eq_refl cr_range ltac:(discriminate)
      (pmf_grad_closed 1 2 2 0 cr crE cr_wf cr_range) G0 (pmf_grad_closed 1 2 2 0 cr' crE W' cr_range) G1) as [_ B].
    specialize (B uis z z' Hu Fz Fz'). replace (1 + 2 * (INR 2 + INR 2 + 2) / 1) with 13 in B by (cbn; field). rewrite sqrt_1 in B.
    replace ((0 + 2 / 5) * sqrt 13 * (1 + 3 / 1)) with (2 / 5 * sqrt 13 * 4) in B by field. exact B.
  - destruct (C37_unknown_fallback 2 2 0 (flatten cr) [(2, 0)%nat; (1, 1)%nat] eq_refl ltac:(repeat constructor)) as [t [A [B _]]]. exists t. split; auto. rewrite B. unfold fallback_score, rsum. cbn. f_equal. repeat (apply f_equal2; [lra|]). reflexivity.
  - destruct (C37_unknown_fallback 2 2 0 (flatten cr') [(2, 0)%nat; (1, 1)%nat] eq_refl ltac:(repeat constructor)) as [t [A [B _]]]. exists t. split; auto. rewrite B. unfold fallback_score, rsum. cbn. f_equal. repeat (apply f_equal2; [lra|]). reflexivity.
Qed.

Print Assumptions C134_monotone.
Print Assumptions C134_bias_runs.
Print Assumptions C134_nonvacuous.
