(** * Losses, predictions, initial values and unseen objects of the explicit
    matrix factorisation models (C36, C37, C39, C40) *)
From Coq Require Import List ZArith Reals Lra Lia Bool.
From Verif Require Import M_Py P_Py M_Sigmoid P_RSum P_Exp T_Sigmoid M_MF P_MF T_MF.
Import ListNotations.
Open Scope R_scope.

(** ** C36 *)
Lemma sumsq_nonneg : forall l, 0 <= sumsq l.
Proof. intros. unfold sumsq. apply rsum_nonneg. intros x _. nra. Qed.

Lemma reg_nonneg : forall t, 0 <= reg t.
Proof.
  intros. unfold reg. pose proof (sumsq_nonneg (bu t)). pose proof (sumsq_nonneg (bi t)).
  pose proof (sumsq_nonneg (concat (pu t))). pose proof (sumsq_nonneg (concat (qi t))). lra.
Qed.

Theorem C36_pmf_loss : forall C nu ni k c uis sc,
  length c = coef_size nu ni k -> in_range nu ni uis -> length sc = length uis -> 0 <= C ->
  exists l, pmf_loss C nu ni k c (ev_of uis) sc = Ok l /\ 0 <= l.
Proof.
  intros C nu ni k c uis sc Hc Hr Hl HC.
  destruct (view_ok nu ni k c Hc) as [t [Et [Ht <-]]].
  unfold pmf_loss. rewrite Et. cbn [bind]. rewrite pairs_ok. cbn [bind].
  rewrite (scores_ok nu ni k) by auto. cbn [bind]. rewrite bcast_eq by (rewrite map_length; auto). cbn [bind].
  eexists. split; [reflexivity|].
  match goal with |- 0 <= 1 / 2 * ?S + _ => assert (0 <= S) end.
  { apply rsum_nonneg. intros x _. set (d := fst x - snd x). nra. }
  pose proof (reg_nonneg t). assert (0 <= C * reg t) by (apply Rmult_le_pos; auto). lra.
Qed.

Lemma xe_nonneg : forall s x, 0 <= s <= 1 -> 0 <= xe s x.
Proof.
  intros s x Hs. unfold xe. pose proof (C38_probability x) as [P1 P2].
  assert (ln (safe_sigmoid x) <= 0) by (rewrite <- ln_1; left; apply ln_increasing; lra).
  assert (ln (1 - safe_sigmoid x) <= 0) by (rewrite <- ln_1; left; apply ln_increasing; lra).
  nra.
Qed.

(** the logistic loss is defined for every coefficient vector; non-negative
    for scores in [0,1], in particular 0/1 scores *)
Theorem C36_logistic_loss : forall C nu ni k c uis sc,
  length c = coef_size nu ni k -> in_range nu ni uis -> length sc = length uis ->
  exists l, lpmf_loss C nu ni k c (ev_of uis) sc = Ok l /\
    (0 <= C -> (forall s, In s sc -> 0 <= s <= 1) -> 0 <= l).
Proof.
  intros C nu ni k c uis sc Hc Hr Hl.
  destruct (view_ok nu ni k c Hc) as [t [Et [Ht <-]]].
  eexists. split; [apply lpmf_loss_ok; auto|]. intros HC Hs.
  match goal with |- 0 <= ?S + _ => assert (0 <= S) end.
  { apply rsum_nonneg. intros [e s] Hin. cbn [fst snd].
    apply xe_nonneg. apply Hs. apply in_combine_r in Hin. auto. }
  pose proof (reg_nonneg t). assert (0 <= C * reg t) by (apply Rmult_le_pos; auto). lra.
Qed.

Example C36_nonvacuous : in_range 2 2 [(0, 1); (1, 0); (0, 1)]%nat /\
  length [0; 1; 1] = length [(0, 1); (1, 0); (0, 1)]%nat /\ (forall s, In s [0; 1; 1] -> 0 <= s <= 1) /\
  length (repeat 7 9) = coef_size 2 2 1.
Proof.
  repeat split; try (repeat constructor; fail); cbn in H; intuition lra.
Qed.

(** ** C37 *)

(** the entry of the optimiser's result that holds a named parameter *)
Definition param (nu ni k : nat) (x : list R) (s : slot) : R := nth (offset nu ni k s) x 0.

Definition fallback_score (nu ni k : nat) (x : list R) (ui : nat * nat) : R :=
  let (u, i) := ui in
  let known_u := Nat.ltb u nu in
  let known_i := Nat.ltb i ni in
  param nu ni k x SMu +
  (if known_u then param nu ni k x (SBu u) else 0) +
  (if known_i then param nu ni k x (SBi i) else 0) +
  (if known_u && known_i
   then rsum (map (fun f => param nu ni k x (SP u f) * param nu ni k x (SQ i f)) (seq 0 k)) else 0).

Lemma param_entry : forall nu ni k t s v, wf nu ni k t -> slot_ok nu ni k s -> slot_entry t s = Some v ->
  param nu ni k (flatten t) s = v.
Proof.
  intros nu ni k t s v Hw Hs Hv. unfold param. apply nth_error_nth. rewrite offset_entry; auto.
Qed.

Lemma param_mu : forall nu ni k t, param nu ni k (flatten t) SMu = mu t.
Proof. reflexivity. Qed.

Lemma param_bu : forall nu ni k t u, wf nu ni k t -> (u < nu)%nat -> param nu ni k (flatten t) (SBu u) = at1 (bu t) u.
Proof.
  intros. apply param_entry; auto. cbn. unfold at1. apply nth_error_nth'. destruct H as [-> _]. auto.
Qed.

Lemma param_bi : forall nu ni k t i, wf nu ni k t -> (i < ni)%nat -> param nu ni k (flatten t) (SBi i) = at1 (bi t) i.
Proof.
  intros. apply param_entry; auto. cbn. unfold at1. apply nth_error_nth'. destruct H as [_ [-> _]]. auto.
Qed.

Lemma entry2_at : forall n k m i f, length m = n -> Forall (fun r => length r = k) m -> (i < n)%nat -> (f < k)%nat ->
  entry2 m i f = Some (at2 m i f).
Proof.
  intros n k m i f Hn Hf Hi Hk. unfold entry2. rewrite (nth_error_nth' m [] ) by lia.
  unfold at2. apply nth_error_nth'. rewrite (wf_row n k) by auto. auto.
Qed.

Lemma param_p : forall nu ni k t u f, wf nu ni k t -> (u < nu)%nat -> (f < k)%nat ->
  param nu ni k (flatten t) (SP u f) = at2 (pu t) u f.
Proof.
  intros. apply param_entry; [auto | split; auto|]. destruct H as [_ [_ [H2 [_ [H4 _]]]]].
  apply (entry2_at nu k); auto.
Qed.

Lemma param_q : forall nu ni k t i f, wf nu ni k t -> (i < ni)%nat -> (f < k)%nat ->
  param nu ni k (flatten t) (SQ i f) = at2 (qi t) i f.
Proof.
  intros. apply param_entry; [auto | split; auto|]. destruct H as [_ [_ [_ [H2 [_ H4]]]]].
  apply (entry2_at ni k); auto.
Qed.

Lemma at1_snoc : forall l n i, length l = n -> (i <= n)%nat ->
  at1 (l ++ [0]) i = if Nat.ltb i n then at1 l i else 0.
Proof.
  intros l n i Hl Hi. unfold at1. destruct (Nat.ltb_spec i n).
  - apply app_nth1. lia.
  - rewrite app_nth2 by lia. replace (i - length l)%nat with 0%nat by lia. reflexivity.
Qed.

Lemma at2_snoc : forall m n k i f, length m = n -> (i <= n)%nat ->
  at2 (m ++ [repeat 0 k]) i f = if Nat.ltb i n then at2 m i f else 0.
Proof.
  intros m n k i f Hl Hi. unfold at2. destruct (Nat.ltb_spec i n).
  - rewrite app_nth1 by lia. auto.
  - rewrite app_nth2 by lia. replace (i - length m)%nat with 0%nat by lia. cbn [nth].
    destruct (Nat.lt_ge_cases f k).
    + apply nth_repeat.
    + apply nth_overflow. rewrite repeat_length. lia.
Qed.

Lemma learned_ok : forall nu ni k x, length x = coef_size nu ni k ->
  exists t, learned nu ni k x = Ok t /\ wf (S nu) (S ni) k t /\
    forall ui, (fst ui <= nu)%nat -> (snd ui <= ni)%nat -> S_ k t ui = fallback_score nu ni k x ui.
Proof.
  intros nu ni k x Hx. destruct (view_ok nu ni k x Hx) as [t [Et [Ht <-]]].
  unfold learned. rewrite assign_eq by auto. cbn [bind]. rewrite Et. cbn [bind].
  eexists. split; [reflexivity|]. pose proof Ht as [H1 [H2 [H3 [H4 [H5 H6]]]]]. split.
  - unfold wf. cbn [bu bi pu qi]. rewrite !app_length. cbn [length].
    repeat split; try lia; apply Forall_app; split; auto; constructor; auto; apply repeat_length.
  - intros [u i] Hu Hi. cbn [fst snd] in *. unfold S_, fallback_score. cbn [mu bu bi pu qi fst snd].
    rewrite (at1_snoc _ nu), (at1_snoc _ ni) by auto.
    assert (Es : forall f, at2 (pu t ++ [repeat 0 k]) u f * at2 (qi t ++ [repeat 0 k]) i f =
      if (u <? nu)%nat && (i <? ni)%nat then at2 (pu t) u f * at2 (qi t) i f else 0).
    { intros f. rewrite (at2_snoc _ nu), (at2_snoc _ ni) by auto.
      destruct (u <? nu)%nat, (i <? ni)%nat; cbn [andb]; ring. }
    rewrite (map_ext _ _ Es). rewrite param_mu.
    f_equal; [f_equal; [f_equal|]|].
    + destruct (Nat.ltb_spec u nu); auto. symmetry. apply param_bu; auto.
    + destruct (Nat.ltb_spec i ni); auto. symmetry. apply param_bi; auto.
    + destruct (Nat.ltb_spec u nu), (Nat.ltb_spec i ni); cbn [andb];
        try (apply rsum_zero; intros y Hy; auto).
      apply rsum_ext_in. intros f Hf. apply in_seq in Hf. rewrite param_p, param_q by (auto; lia). auto.
Qed.

Theorem C37_unknown_fallback : forall nu ni k x uis,
  length x = coef_size nu ni k -> Forall (fun ui => fst ui <= nu /\ snd ui <= ni)%nat uis ->
  exists t, learned nu ni k x = Ok t /\
    pmf_raw_predict t (ev_of uis) = Ok (map (fallback_score nu ni k x) uis) /\
    lpmf_raw_predict t (ev_of uis) = Ok (map (fun ui => safe_sigmoid (fallback_score nu ni k x ui)) uis).
Proof.
  intros nu ni k x uis Hx Hr. destruct (learned_ok nu ni k x Hx) as [t [Et [Ht Hs]]].
  exists t. split; auto.
  assert (Hr' : in_range (S nu) (S ni) uis).
  { eapply Forall_impl; [|apply Hr]. cbn. intros; lia. }
  assert (E : map (S_ k t) uis = map (fallback_score nu ni k x) uis).
  { apply map_ext_in. intros a Ha. rewrite Forall_forall in Hr. destruct (Hr a Ha). apply Hs; auto. }
  unfold pmf_raw_predict, lpmf_raw_predict. rewrite pairs_ok. cbn [bind].
  rewrite (scores_ok (S nu) (S ni) k) by auto. cbn [bind]. rewrite E. split; auto. rewrite map_map. auto.
Qed.

(** the four cases spelt out *)
Corollary C37_cases : forall nu ni k x u i,
  length x = coef_size nu ni k -> (u < nu)%nat -> (i < ni)%nat ->
  exists t, learned nu ni k x = Ok t /\
    pmf_raw_predict t (ev_of [(u, i); (nu, i); (u, ni); (nu, ni)]) =
    Ok [param nu ni k x SMu + param nu ni k x (SBu u) + param nu ni k x (SBi i) +
          rsum (map (fun f => param nu ni k x (SP u f) * param nu ni k x (SQ i f)) (seq 0 k));
        param nu ni k x SMu + param nu ni k x (SBi i);
        param nu ni k x SMu + param nu ni k x (SBu u);
        param nu ni k x SMu].
Proof.
  intros nu ni k x u i Hx Hu Hi.
  destruct (C37_unknown_fallback nu ni k x [(u, i); (nu, i); (u, ni); (nu, ni)] Hx) as [t [Et [Ep _]]].
  { repeat constructor; cbn; lia. }
  exists t. split; auto. rewrite Ep. unfold fallback_score. cbn [map].
  rewrite !(proj2 (Nat.ltb_lt _ _)) by auto. rewrite !Nat.ltb_irrefl. cbn [andb].
  match goal with |- Ok [?a; ?b; ?c; ?d] = Ok [?a'; ?b'; ?c'; ?d'] =>
    assert (a = a' /\ b = b' /\ c = c' /\ d = d') as [E1 [E2 [E3 E4]]]; [repeat split; ring | rewrite E2, E3, E4; reflexivity] end.
Qed.

Example C37_nonvacuous : length [1; 2; 3; 4; 5; 6; 7] = coef_size 2 1 1 /\
  fallback_score 2 1 1 [1; 2; 3; 4; 5; 6; 7] (1, 0)%nat = 1 + 3 + 4 + 6 * 7 /\
  fallback_score 2 1 1 [1; 2; 3; 4; 5; 6; 7] (2, 0)%nat = 1 + 4.
Proof. repeat split; unfold fallback_score, param; cbn; lra. Qed.

(** ** C40 *)

(** the object a parameter belongs to occurs in no event *)
Definition unseen (uis : list (nat * nat)) (s : slot) : Prop :=
  match s with
  | SMu => False
  | SBu u | SP u _ => ~ In u (map fst uis)
  | SBi i | SQ i _ => ~ In i (map snd uis)
  end.

Lemma wcount_unseen : forall l w v, ~ In v l -> wcount l w v = 0.
Proof.
  intros l w v H. unfold wcount. apply rsum_zero. intros [a b] Hin. cbn.
  apply in_combine_l in Hin. destruct (Nat.eqb_spec a v); auto. subst. contradiction.
Qed.

Lemma gpar_unseen : forall C nu ni k t uis w s, wf nu ni k t -> slot_ok nu ni k s -> unseen uis s ->
  param nu ni k (flatten (gpar C nu ni k t uis w)) s = C * param nu ni k (flatten t) s.
Proof.
  intros C nu ni k t uis w s Ht Hs Hu. pose proof (gpar_wf C nu ni k t uis w) as Hg.
  destruct s as [|u|i|u f|i f]; cbn [slot_ok unseen] in *; [contradiction| | | |].
  - rewrite !param_bu by auto. unfold at1 at 1. cbn [gpar bu]. rewrite nth_map_seq by auto.
    rewrite wcount_unseen by auto. ring.
  - rewrite !param_bi by auto. unfold at1 at 1. cbn [gpar bi]. rewrite nth_map_seq by auto.
    rewrite wcount_unseen by auto. ring.
  - destruct Hs. rewrite !param_p by auto. unfold at2 at 1. cbn [gpar pu]. rewrite nth_map_seq by auto.
    rewrite nth_map_seq by auto. rewrite wcount_unseen by auto. ring.
  - destruct Hs. rewrite !param_q by auto. unfold at2 at 1. cbn [gpar qi]. rewrite nth_map_seq by auto.
    rewrite nth_map_seq by auto. rewrite wcount_unseen by auto. ring.
Qed.

Lemma pmf_grad_ok : forall C nu ni k t uis sc, wf nu ni k t -> in_range nu ni uis -> length sc = length uis ->
  exists w, pmf_grad C nu ni k (flatten t) (ev_of uis) sc = Ok (flatten (gpar C nu ni k t uis w)).
Proof.
  intros C nu ni k t uis sc Ht Hr Hl. eexists. unfold pmf_grad. rewrite view_flatten by auto.
  cbn [bind]. rewrite pairs_ok. cbn [bind].
  rewrite (scores_ok nu ni k) by auto. cbn [bind]. rewrite bcast_eq by (rewrite map_length; auto). cbn [bind].
  rewrite mf_grad_ok by (auto; rewrite map_length, combine_length, map_length; lia). reflexivity.
Qed.

Theorem C40_unseen_gradient : forall C nu ni k c uis sc s,
  length c = coef_size nu ni k -> in_range nu ni uis -> length sc = length uis ->
  slot_ok nu ni k s -> unseen uis s ->
  exists g h, pmf_grad C nu ni k c (ev_of uis) sc = Ok g /\ param nu ni k g s = C * param nu ni k c s /\
              lpmf_grad C nu ni k c (ev_of uis) sc = Ok h /\ param nu ni k h s = C * param nu ni k c s.
Proof.
  intros C nu ni k c uis sc s Hc Hr Hl Hs Hu. destruct (view_ok nu ni k c Hc) as [t [_ [Ht <-]]].
  destruct (pmf_grad_ok C nu ni k t uis sc Ht Hr Hl) as [w Ew].
  eexists _, _. split; [apply Ew|]. split; [apply gpar_unseen; auto|].
  split; [apply lpmf_grad_ok; auto|]. apply gpar_unseen; auto.
Qed.

(** points an optimiser can visit by moving along gradients taken at visited
    points, by any amounts; conjugate gradient and quasi-Newton methods that
    start from the identity stay in this set *)
Inductive visited (grad : list R -> res (list R)) (c0 : list R) : list R -> Prop :=
| V_start : visited grad c0 c0
| V_step : forall c c' g r, visited grad c0 c -> visited grad c0 c' -> grad c' = Ok g ->
           visited grad c0 (along c g r).

Lemma visited_zero : forall grad nu ni k c0 s,
  length c0 = coef_size nu ni k -> param nu ni k c0 s = 0 ->
  (forall c, length c = coef_size nu ni k -> param nu ni k c s = 0 ->
     exists g, grad c = Ok g /\ length g = coef_size nu ni k /\ param nu ni k g s = 0) ->
  forall c, visited grad c0 c -> length c = coef_size nu ni k /\ param nu ni k c s = 0.
Proof.
  intros grad nu ni k c0 s H0 Hz Hg c H. induction H as [|c c' g r _ [L1 Z1] _ [L2 Z2] E]; auto.
  destruct (Hg c' L2 Z2) as [g' [E' [L' Z']]]. rewrite E in E'. injection E' as <-.
  split; [unfold along; rewrite map_length, combine_length; lia|].
  unfold param in *. fold (at1 (along c g r) (offset nu ni k s)). rewrite at1_along by lia.
  unfold at1. rewrite Z1, Z'. ring.
Qed.

Theorem C40_unseen_stays_zero : forall C nu ni k c0 uis sc s,
  length c0 = coef_size nu ni k -> in_range nu ni uis -> length sc = length uis ->
  slot_ok nu ni k s -> unseen uis s -> param nu ni k c0 s = 0 ->
  forall c, visited (fun c => pmf_grad C nu ni k c (ev_of uis) sc) c0 c \/
            visited (fun c => lpmf_grad C nu ni k c (ev_of uis) sc) c0 c -> param nu ni k c s = 0.
Proof.
  intros C nu ni k c0 uis sc s H0 Hr Hl Hs Hu Hz c [H|H].
  - refine (proj2 (visited_zero _ nu ni k c0 s H0 Hz _ c H)).
    intros c1 Hc1 Hz1. destruct (view_ok nu ni k c1 Hc1) as [t [_ [Ht <-]]].
    destruct (pmf_grad_ok C nu ni k t uis sc Ht Hr Hl) as [w Ew]. eexists. split; [apply Ew|].
    split; [apply flatten_length, gpar_wf|]. rewrite gpar_unseen, Hz1 by auto. ring.
  - refine (proj2 (visited_zero _ nu ni k c0 s H0 Hz _ c H)).
    intros c1 Hc1 Hz1. destruct (view_ok nu ni k c1 Hc1) as [t [_ [Ht <-]]].
    eexists. split; [apply lpmf_grad_ok; auto|].
    split; [apply flatten_length, gpar_wf|]. rewrite gpar_unseen, Hz1 by auto. ring.
Qed.

Example C40_nonvacuous : in_range 3 2 [(0, 1); (2, 1)]%nat /\ unseen [(0, 1); (2, 1)]%nat (SP 1 0) /\
  unseen [(0, 1); (2, 1)]%nat (SBi 0) /\ slot_ok 3 2 1 (SP 1 0) /\ slot_ok 3 2 1 (SBi 0).
Proof. repeat split; try (repeat constructor; fail); cbn; lia. Qed.

Print Assumptions C36_pmf_loss.
Print Assumptions C36_logistic_loss.
Print Assumptions C37_unknown_fallback.
Print Assumptions C37_cases.
Print Assumptions C40_unseen_gradient.
Print Assumptions C40_unseen_stays_zero.
