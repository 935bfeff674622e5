(** * What the latent factors of PMF are worth (C135) *)
From Coq Require Import List ZArith Reals Lia Lra Bool.
From Verif Require Import M_Py P_Py P_RSum M_MF P_MF T_MF T_MF2 T_MFInit T_MF3 T_Convex T_Bias.
Import ListNotations.
Open Scope R_scope.

(** ** the loss between any two points *)
Lemma S_any : forall nu ni k t t' x, wf nu ni k t -> wf nu ni k t' ->
  S_ k t' x = S_ k t x + D_ k t (palong t' t (-1)) x +
    rsum (map (fun f => (at2 (pu t') (fst x) f - at2 (pu t) (fst x) f) * (at2 (qi t') (snd x) f - at2 (qi t) (snd x) f)) (seq 0 k)).
Proof.
  intros nu ni k t t' x [H1 [H2 [H3 [H4 [H5 H6]]]]] [V1 [V2 [V3 [V4 [V5 V6]]]]].
  unfold S_, D_, palong. cbn [mu bu bi pu qi]. rewrite !at1_along by congruence.
  assert (E : rsum (map (fun f => at2 (pu t') (fst x) f * at2 (qi t') (snd x) f) (seq 0 k)) =
    rsum (map (fun f => at2 (pu t) (fst x) f * at2 (qi t) (snd x) f) (seq 0 k)) +
    rsum (map (fun f => at2 (along2 (pu t') (pu t) (-1)) (fst x) f * at2 (qi t) (snd x) f +
      at2 (pu t) (fst x) f * at2 (along2 (qi t') (qi t) (-1)) (snd x) f) (seq 0 k)) +
    rsum (map (fun f => (at2 (pu t') (fst x) f - at2 (pu t) (fst x) f) * (at2 (qi t') (snd x) f - at2 (qi t) (snd x) f)) (seq 0 k))).
  { rewrite <- !rsum_plus. apply rsum_ext_in. intros f Hf. rewrite !(at2_along k) by (auto; congruence). ring. }
  rewrite E. ring.
Qed.

(** the change of the factors of the user and of the item of an event *)
Definition cross (nu ni k : nat) (c c' : list R) (ui : nat * nat) : R :=
  rsum (map (fun f => (param nu ni k c' (SP (fst ui) f) - param nu ni k c (SP (fst ui) f)) *
                      (param nu ni k c' (SQ (snd ui) f) - param nu ni k c (SQ (snd ui) f))) (seq 0 k)).

Lemma cross_at : forall nu ni k t t' x, wf nu ni k t -> wf nu ni k t' -> (fst x < nu)%nat -> (snd x < ni)%nat ->
  cross nu ni k (flatten t) (flatten t') x =
  rsum (map (fun f => (at2 (pu t') (fst x) f - at2 (pu t) (fst x) f) * (at2 (qi t') (snd x) f - at2 (qi t) (snd x) f)) (seq 0 k)).
Proof.
  intros nu ni k t t' x Ht Ht' Hu Hi. apply rsum_ext_in. intros f Hf. apply in_seq in Hf. rewrite !param_p, !param_q by (auto; lia). reflexivity.
Qed.

(** the loss of a model is a quadratic function of its predictions and of its
    coefficients up to one term, the residuals times the change of the factors *)
Theorem C135_exact : forall C nu ni k c c' (E : list scored),
  length c = coef_size nu ni k -> length c' = coef_size nu ni k -> in_range nu ni (map fst E) ->
  exists l g l' y y', pmf_loss C nu ni k c (ev_of (map fst E)) (map snd E) = Ok l /\
  pmf_grad C nu ni k c (ev_of (map fst E)) (map snd E) = Ok g /\
  pmf_loss C nu ni k c' (ev_of (map fst E)) (map snd E) = Ok l' /\
  fitted nu ni k c (map fst E) y /\ fitted nu ni k c' (map fst E) y' /\ length y = length E /\ length y' = length E /\
  l' = l + dotl g (along c' c (-1)) + 1 / 2 * rsum (map (fun z => (fst z - snd z) ^ 2) (combine y' y)) +
       1 / 2 * C * sumsq (along (tl c') (tl c) (-1)) -
       rsum (map (fun ey => (snd (fst ey) - snd ey) * cross nu ni k c c' (fst (fst ey))) (combine E y)).
Proof.
  intros C nu ni k c c' E Hc Hc' Hr.
  destruct (view_ok nu ni k c Hc) as [t [_ [Ht <-]]]. destruct (view_ok nu ni k c' Hc') as [t' [_ [Ht' <-]]].
  do 5 eexists. split; [apply pmf_loss_closed; auto|]. split; [apply pmf_grad_closed; auto|]. split; [apply pmf_loss_closed; auto|].
  split; [apply fitted_S; auto|]. split; [apply fitted_S; auto|]. split; [rewrite !map_length; auto|]. split; [rewrite !map_length; auto|].
  pose proof (palong_wf nu ni k t' t (-1) Ht' Ht) as Hv.
  rewrite (along_flatten nu ni k) by auto.
  assert (Etl : along (tl (flatten t')) (tl (flatten t)) (-1) = tl (flatten (palong t' t (-1)))).
  { rewrite <- (along_flatten nu ni k) by auto. reflexivity. }
  rewrite Etl, <- (reg_tail nu ni k) by auto.
  rewrite grad_dot by (auto; rewrite !map_length; auto). rewrite combine_map_self, map_map. cbn [fst snd].
  rewrite !map_map, combine_both, map_map. cbn [fst snd].
  rewrite (reg_step nu ni k t t') by auto.
  assert (Ex : combine E (map (fun x => S_ k t (fst x)) E) = map (fun e : scored => (e, S_ k t (fst e))) E).
  { rewrite <- (map_id E) at 1. apply (combine_both _ _ _ (fun x : scored => x) (fun x : scored => S_ k t (fst x))). }
  rewrite Ex, map_map. cbn [fst snd].
  assert (HE : forall e, In e E -> S_ k t' (fst e) = S_ k t (fst e) + D_ k t (palong t' t (-1)) (fst e) + cross nu ni k (flatten t) (flatten t') (fst e)).
  { intros e He. unfold in_range in Hr. rewrite Forall_map, Forall_forall in Hr. destruct (Hr e He). rewrite cross_at by auto. apply (S_any nu ni); auto. }
  set (v := palong t' t (-1)) in *.
  assert (Q : rsum (map (fun e => (snd e - S_ k t' (fst e)) * (snd e - S_ k t' (fst e))) E) =
    rsum (map (fun e => (snd e - S_ k t (fst e)) * (snd e - S_ k t (fst e))) E) +
    2 * rsum (map (fun e => - (snd e - S_ k t (fst e)) * D_ k t v (fst e)) E) +
    rsum (map (fun e => (S_ k t' (fst e) - S_ k t (fst e)) ^ 2) E) -
    2 * rsum (map (fun e => (snd e - S_ k t (fst e)) * cross nu ni k (flatten t) (flatten t') (fst e)) E)).
  { rewrite <- !rsum_scal, <- !rsum_plus, <- rsum_minus. apply rsum_ext_in. intros e He. rewrite (HE e He). cbn [pow]. ring. }
  rewrite Q. field.
Qed.

(** ** additional factors that are zero *)
Definition pad_rows (d : nat) (m : list (list R)) : list (list R) := map (fun r => r ++ repeat 0 d) m.
Definition pad (d : nat) (t : par) : par := mkPar (mu t) (bu t) (bi t) (pad_rows d (pu t)) (pad_rows d (qi t)).

Lemma at2_pad : forall d m i f, at2 (pad_rows d m) i f = at2 m i f.
Proof.
  intros d m i f. unfold at2, pad_rows. destruct (Nat.lt_ge_cases i (length m)).
  - rewrite (nth_indep (map (fun r => r ++ repeat 0 d) m) [] ((fun r => r ++ repeat 0 d) [])) by (rewrite map_length; auto). rewrite (map_nth (fun r => r ++ repeat 0 d)).
    destruct (Nat.lt_ge_cases f (length (nth i m []))).
    + rewrite app_nth1 by auto. auto.
    + rewrite app_nth2 by auto. rewrite (nth_overflow (nth i m [])) by auto. destruct (Nat.lt_ge_cases (f - length (nth i m [])) d).
      * apply nth_repeat.
      * apply nth_overflow. rewrite repeat_length. auto.
  - rewrite (nth_overflow m) by auto. rewrite (nth_overflow (map _ m)) by (rewrite map_length; auto). auto.
Qed.

Lemma pad_wf : forall nu ni k d t, wf nu ni k t -> wf nu ni (k + d) (pad d t).
Proof.
  intros nu ni k d t [H1 [H2 [H3 [H4 [H5 H6]]]]]. unfold wf, pad, pad_rows. cbn [bu bi pu qi]. rewrite !map_length.
  do 4 (split; [auto|]). split; (rewrite Forall_map; eapply Forall_impl; [|eassumption]; intros r Hr; cbv beta in *; rewrite app_length, repeat_length; lia).
Qed.

Lemma pad_sumsq : forall d m, sumsq (concat (pad_rows d m)) = sumsq (concat m).
Proof.
  intros d m. unfold sumsq. induction m as [|r m IH]; auto. cbn [pad_rows map concat] in *. rewrite !map_app, !rsum_app. unfold pad_rows in IH. rewrite IH.
  assert (Z : rsum (map (fun x => x * x) (repeat 0 d)) = 0) by (apply rsum_zero; intros x Hx; apply repeat_spec in Hx; subst; ring). rewrite Z. ring.
Qed.

Lemma at2_high : forall k m i f, Forall (fun r => length r = k) m -> (k <= f)%nat -> at2 m i f = 0.
Proof.
  intros k m i f Hm Hf. unfold at2. apply nth_overflow. destruct (Nat.lt_ge_cases i (length m)).
  - rewrite Forall_forall in Hm. rewrite (Hm (nth i m [])); auto. apply nth_In. auto.
  - rewrite nth_overflow by auto. cbn. lia.
Qed.

Lemma S_pad : forall nu ni k d t x, wf nu ni k t -> S_ (k + d) (pad d t) x = S_ k t x.
Proof.
  intros nu ni k d t x [H1 [H2 [H3 [H4 [H5 H6]]]]]. unfold S_, pad. cbn [mu bu bi pu qi]. rewrite seq_app, map_app, rsum_app.
  rewrite (rsum_zero _ (seq (0 + k) d)).
  2:{ intros f Hf. apply in_seq in Hf. rewrite at2_pad, (at2_high k) by (auto; lia). ring. }
  rewrite (rsum_ext_in (fun f => at2 (pad_rows d (pu t)) (fst x) f * at2 (pad_rows d (qi t)) (snd x) f) (fun f => at2 (pu t) (fst x) f * at2 (qi t) (snd x) f))
    by (intros; rewrite !at2_pad; auto). ring.
Qed.

Lemma gpar_zero : forall C nu ni k t uis w, Forall (fun x => x = 0) (flatten (gpar C nu ni k t uis w)) <->
  (mu (gpar C nu ni k t uis w) = 0 /\ Forall (fun x => x = 0) (bu (gpar C nu ni k t uis w)) /\ Forall (fun x => x = 0) (bi (gpar C nu ni k t uis w)) /\
   (forall u f, (u < nu)%nat -> (f < k)%nat -> at2 (pu (gpar C nu ni k t uis w)) u f = 0) /\
   (forall i f, (i < ni)%nat -> (f < k)%nat -> at2 (qi (gpar C nu ni k t uis w)) i f = 0)).
Proof.
  intros. pose proof (gpar_wf C nu ni k t uis w) as [G1 [G2 [G3 [G4 [G5 G6]]]]]. set (g := gpar C nu ni k t uis w) in *.
  assert (Hm : forall n (m : list (list R)), length m = n -> Forall (fun r => length r = k) m ->
    (Forall (fun x => x = 0) (concat m) <-> forall i f, (i < n)%nat -> (f < k)%nat -> at2 m i f = 0)).
  { intros n m <- H. split.
    - intros Hz i f Hi Hf. rewrite Forall_concat in Hz. rewrite Forall_forall in Hz, H. pose proof (Hz _ (nth_In m [] Hi)) as Z. rewrite Forall_forall in Z.
      apply Z. unfold at2. apply nth_In. rewrite H; auto. apply nth_In; auto.
    - intros Hz. apply Forall_concat. apply Forall_nth. intros i d Hi. apply Forall_nth. intros f e Hf. rewrite (nth_indep m d []) in * by auto.
      rewrite (nth_indep _ e 0) by auto. apply Hz; auto. rewrite Forall_forall in H. rewrite <- (H (nth i m [])); auto. apply nth_In; auto. }
  unfold flatten. rewrite <- (Hm nu (pu g)), <- (Hm ni (qi g)) by auto. split.
  - intros H. inversion H as [|a l A B]. rewrite !Forall_app in B. tauto.
  - intros [A [B [D [F G]]]]. constructor; auto. rewrite !Forall_app. tauto.
Qed.

Lemma wcount_zero : forall us w u, Forall (fun x => x = 0) w -> wcount us w u = 0.
Proof.
  intros us w u H. unfold wcount. apply rsum_zero. intros [a b] Hx. apply in_combine_r in Hx. rewrite Forall_forall in H. cbn [fst snd]. destruct (Nat.eqb a u); auto.
Qed.

Lemma fitted_exists : forall nu ni k c uis, length c = coef_size nu ni k -> Forall (fun ui => fst ui <= nu /\ snd ui <= ni)%nat uis ->
  fitted nu ni k c uis (map (fallback_score nu ni k c) uis).
Proof. intros nu ni k c uis Hc Hu. destruct (C37_unknown_fallback nu ni k c uis Hc Hu) as [t [A [B _]]]. exists t. auto. Qed.

Lemma fallback_pad : forall nu ni k d t ui, wf nu ni k t -> fallback_score nu ni (k + d) (flatten (pad d t)) ui = fallback_score nu ni k (flatten t) ui.
Proof.
  intros nu ni k d t [u i] Ht. pose proof (pad_wf nu ni k d t Ht) as Hp. pose proof (S_pad nu ni k d t (u, i) Ht) as E. unfold fallback_score. rewrite !param_mu.
  cbn [mu pad]. destruct (Nat.ltb_spec u nu); destruct (Nat.ltb_spec i ni); cbn [andb]; rewrite ?param_bu, ?param_bi by auto;
    rewrite ?(param_bu nu ni (k + d)), ?(param_bi nu ni (k + d)) by auto; cbn [bu bi pad]; auto.
  unfold S_ in E. cbn [mu bu bi pad fst snd] in E.
  rewrite (rsum_ext_in (fun f => param nu ni (k + d) (flatten (pad d t)) (SP u f) * param nu ni (k + d) (flatten (pad d t)) (SQ i f))
    (fun f => at2 (pu (pad d t)) u f * at2 (qi (pad d t)) i f)) by (intros f Hf; apply in_seq in Hf; rewrite param_p, param_q by (auto; lia); auto).
  rewrite (rsum_ext_in (fun f => param nu ni k (flatten t) (SP u f) * param nu ni k (flatten t) (SQ i f))
    (fun f => at2 (pu t) u f * at2 (qi t) i f)) by (intros f Hf; apply in_seq in Hf; rewrite param_p, param_q by (auto; lia); auto).
  exact E.
Qed.

(** a model can be taken over into one with more factors: same loss, same
    predictions, and what was stationary stays stationary *)
Theorem C135_padding : forall C nu ni k d c (E : list scored), length c = coef_size nu ni k -> in_range nu ni (map fst E) ->
  exists c2, length c2 = coef_size nu ni (k + d) /\
  pmf_loss C nu ni (k + d) c2 (ev_of (map fst E)) (map snd E) = pmf_loss C nu ni k c (ev_of (map fst E)) (map snd E) /\
  (forall uis y, Forall (fun ui => fst ui <= nu /\ snd ui <= ni)%nat uis -> fitted nu ni k c uis y -> fitted nu ni (k + d) c2 uis y) /\
  (forall u i f, (u < nu)%nat -> (i < ni)%nat -> (k <= f < k + d)%nat -> param nu ni (k + d) c2 (SP u f) = 0 /\ param nu ni (k + d) c2 (SQ i f) = 0) /\
  (forall g, pmf_grad C nu ni k c (ev_of (map fst E)) (map snd E) = Ok g -> Forall (fun x => x = 0) g ->
     exists g2, pmf_grad C nu ni (k + d) c2 (ev_of (map fst E)) (map snd E) = Ok g2 /\ Forall (fun x => x = 0) g2).
Proof.
  intros C nu ni k d c E Hc Hr. destruct (view_ok nu ni k c Hc) as [t [_ [Ht <-]]]. pose proof (pad_wf nu ni k d t Ht) as Hp.
  pose proof (flatten_length _ _ _ _ Hp) as Hl. exists (flatten (pad d t)). split; [auto|]. pose proof Ht as [H1 [H2 [H3 [H4 [H5 H6]]]]].
  split; [|split; [|split]].
  - rewrite !pmf_loss_closed by auto. f_equal. unfold reg, pad. cbn [bu bi pu qi]. rewrite !pad_sumsq. fold (pad d t). f_equal. f_equal.
    apply rsum_ext_in. intros e _. rewrite (S_pad nu ni) by auto. auto.
  - intros uis y Hu Fy. rewrite (fitted_fallback _ _ _ _ _ _ Hc Hu Fy).
    rewrite <- (map_ext _ _ (fun ui => fallback_pad nu ni k d t ui Ht)). apply fitted_exists; auto.
  - intros u i f Hu Hi Hf. rewrite param_p, param_q by (auto; lia). cbn [pu qi pad]. rewrite !at2_pad, !(at2_high k) by (auto; lia). auto.
  - intros g Eg Hz. rewrite pmf_grad_closed in Eg |- * by auto. eexists. split; [reflexivity|].
    assert (Ew : map (fun e : scored => - (snd e - S_ (k + d) (pad d t) (fst e))) E = map (fun e => - (snd e - S_ k t (fst e))) E).
    { apply map_ext. intros e. rewrite (S_pad nu ni) by auto. auto. }
    rewrite Ew. injection Eg as <-. set (w := map (fun e => - (snd e - S_ k t (fst e))) E) in *.
    apply gpar_zero in Hz. apply gpar_zero. destruct Hz as [A [B [D [F G]]]]. cbn [gpar mu bu bi] in *. do 3 (split; [auto|]).
    assert (Hhi : forall n (l : list nat) (m m2 : list (list R)) js j f, Forall (fun r => length r = k) m -> Forall (fun r => length r = k) m2 -> (k <= f)%nat ->
      wcount l (map (fun x => fst x * at2 (pad_rows d m2) (snd x) f) (combine w js)) j + C * at2 (pad_rows d m) n f = 0).
    { intros n l m m2 js j f Hm Hm2 Hf. rewrite wcount_zero.
      - rewrite at2_pad, (at2_high k) by auto. ring.
      - rewrite Forall_map, Forall_forall. intros x _. rewrite at2_pad, (at2_high k) by auto. ring. }
    assert (At : forall n K (h : nat -> nat -> R) i f, (i < n)%nat -> (f < K)%nat -> at2 (map (fun i => map (h i) (seq 0 K)) (seq 0 n)) i f = h i f).
    { intros n K h i f Hi Hf. unfold at2. rewrite (nth_indep _ [] (map (h 0%nat) (seq 0 K))) by (rewrite map_length, seq_length; auto).
      rewrite (map_nth (fun i => map (h i) (seq 0 K))), seq_nth by auto. apply nth_map_seq. auto. }
    cbn [pu qi gpar] in *.
    split; intros j f Hj Hf.
    + rewrite At by auto. cbn [pad qi pu]. destruct (Nat.lt_ge_cases f k) as [Hk|Hk]; [|apply Hhi; auto].
      specialize (F j f Hj Hk). rewrite At in F by auto. rewrite at2_pad. rewrite <- F. f_equal. f_equal. apply map_ext. intros x. rewrite at2_pad. auto.
    + rewrite At by auto. cbn [pad qi pu]. destruct (Nat.lt_ge_cases f k) as [Hk|Hk]; [|apply Hhi; auto].
      specialize (G j f Hj Hk). rewrite At in G by auto. rewrite at2_pad. rewrite <- G. f_equal. f_equal. apply map_ext. intros x. rewrite at2_pad. auto.
Qed.

(** ** the certificate *)
(** the residuals, as a bilinear form on the users and the items, are bounded
    by the penalty *)
Definition certified (C : R) (nu ni : nat) (E : list scored) (y : list R) : Prop :=
  forall x z : nat -> R,
  rsum (map (fun ey => (snd (fst ey) - snd ey) * (x (fst (fst (fst ey))) * z (snd (fst (fst ey))))) (combine E y)) <=
  C / 2 * (rsum (map (fun u => x u ^ 2) (seq 0 nu)) + rsum (map (fun i => z i ^ 2) (seq 0 ni))).

Lemma at2_sumsq : forall n k m, length m = n -> Forall (fun r => length r = k) m ->
  sumsq (concat m) = rsum (map (fun f => rsum (map (fun i => at2 m i f ^ 2) (seq 0 n))) (seq 0 k)).
Proof.
  intros n k m Hn Hm. pose proof (dotl_concat k m m Hm Hm eq_refl) as D. rewrite Hn in D. rewrite rsum_swap. etransitivity; [|etransitivity; [exact D|]].
  - unfold sumsq, dotl. assert (K : forall l : list R, combine l l = map (fun x => (x, x)) l) by (induction l; cbn; congruence). rewrite K, map_map. reflexivity.
  - apply rsum_ext_in. intros i _. apply rsum_ext_in. intros f _. ring.
Qed.

Lemma certified_cross : forall C nu ni k c c' (E : list scored) y, 0 <= C -> length c = coef_size nu ni k -> length c' = coef_size nu ni k ->
  certified C nu ni E y ->
  rsum (map (fun ey => (snd (fst ey) - snd ey) * cross nu ni k c c' (fst (fst ey))) (combine E y)) <= 1 / 2 * C * sumsq (along (tl c') (tl c) (-1)).
Proof.
  intros C nu ni k c c' E y HC Hc Hc' H.
  destruct (view_ok nu ni k c Hc) as [t [_ [Ht <-]]]. destruct (view_ok nu ni k c' Hc') as [t' [_ [Ht' <-]]].
  pose proof (palong_wf nu ni k t' t (-1) Ht' Ht) as Hv.
  assert (Etl : along (tl (flatten t')) (tl (flatten t)) (-1) = tl (flatten (palong t' t (-1)))) by (rewrite <- (along_flatten nu ni k) by auto; reflexivity).
  rewrite Etl, <- (reg_tail nu ni k) by auto. set (v := palong t' t (-1)) in *. pose proof Hv as [V1 [V2 [V3 [V4 [V5 V6]]]]]. pose proof Ht as [H1 [H2 [H3 [H4 [H5 H6]]]]]. pose proof Ht' as [T1 [T2 [T3 [T4 [T5 T6]]]]].
  set (X := fun f u => param nu ni k (flatten t') (SP u f) - param nu ni k (flatten t) (SP u f)).
  set (Z := fun f i => param nu ni k (flatten t') (SQ i f) - param nu ni k (flatten t) (SQ i f)).
  assert (L : rsum (map (fun ey => (snd (fst ey) - snd ey) * cross nu ni k (flatten t) (flatten t') (fst (fst ey))) (combine E y)) =
    rsum (map (fun f => rsum (map (fun ey : scored * R => (snd (fst ey) - snd ey) * (X f (fst (fst (fst ey))) * Z f (snd (fst (fst ey))))) (combine E y))) (seq 0 k))).
  { rewrite rsum_swap. apply rsum_ext_in. intros ey _. unfold cross. rewrite <- rsum_scal. apply rsum_ext_in. intros f _. reflexivity. }
  rewrite L. eapply Rle_trans; [apply rsum_le; intros f Hf; apply (H (X f) (Z f))|]. rewrite rsum_scal, rsum_plus.
  unfold reg. rewrite (at2_sumsq nu k (pu v)), (at2_sumsq ni k (qi v)) by auto.
  assert (Ep : rsum (map (fun f => rsum (map (fun u => X f u ^ 2) (seq 0 nu))) (seq 0 k)) = rsum (map (fun f => rsum (map (fun i => at2 (pu v) i f ^ 2) (seq 0 nu))) (seq 0 k))).
  { apply rsum_ext_in. intros f Hf. apply rsum_ext_in. intros u Hu. apply in_seq in Hf. apply in_seq in Hu. unfold X. rewrite !param_p by (auto; lia).
    unfold v. cbn [palong pu]. rewrite (at2_along k) by (auto; congruence). ring. }
  assert (Eq : rsum (map (fun f => rsum (map (fun u => Z f u ^ 2) (seq 0 ni))) (seq 0 k)) = rsum (map (fun f => rsum (map (fun i => at2 (qi v) i f ^ 2) (seq 0 ni))) (seq 0 k))).
  { apply rsum_ext_in. intros f Hf. apply rsum_ext_in. intros u Hu. apply in_seq in Hf. apply in_seq in Hu. unfold Z. rewrite !param_q by (auto; lia).
    unfold v. cbn [palong qi]. rewrite (at2_along k) by (auto; congruence). ring. }
  rewrite Ep, Eq. pose proof (sumsq_nonneg (bu v)). pose proof (sumsq_nonneg (bi v)). nra.
Qed.

Lemma zero_dot : forall g a, Forall (fun x => x = 0) g -> dotl g a = 0.
Proof.
  intros g a H. unfold dotl. apply rsum_zero. intros [p q] Hp. apply in_combine_l in Hp. rewrite Forall_forall in H. unfold rmul2. cbn [fst snd]. rewrite (H p) by auto. ring.
Qed.

Lemma same_k : forall C nu ni k c c' (E : list scored) g y l l', 0 <= C -> length c = coef_size nu ni k -> length c' = coef_size nu ni k -> in_range nu ni (map fst E) ->
  pmf_grad C nu ni k c (ev_of (map fst E)) (map snd E) = Ok g -> Forall (fun x => x = 0) g -> fitted nu ni k c (map fst E) y -> certified C nu ni E y ->
  pmf_loss C nu ni k c (ev_of (map fst E)) (map snd E) = Ok l -> pmf_loss C nu ni k c' (ev_of (map fst E)) (map snd E) = Ok l' ->
  l <= l' /\ (l' = l -> fitted nu ni k c' (map fst E) y).
Proof.
  intros C nu ni k c c' E g y l l' HC Hc Hc' Hr Eg Hz Fy Hcert El El'.
  destruct (C135_exact C nu ni k c c' E Hc Hc' Hr) as (l0 & g0 & l0' & y0 & y' & A1 & A2 & A3 & A4 & A5 & A6 & A7 & A8).
  assert (Q1 : l0 = l) by congruence. assert (Q2 : g0 = g) by congruence. assert (Q3 : l0' = l') by congruence.
  assert (Q4 : y0 = y) by (destruct A4 as [? [? ?]]; destruct Fy as [? [? ?]]; congruence).
  rewrite Q1, Q2, Q3, Q4 in A8. rewrite zero_dot in A8 by auto. pose proof (certified_cross C nu ni k c c' E y HC Hc Hc' Hcert) as K.
  assert (P : forall z, In z (combine y' y) -> 0 <= (fst z - snd z) ^ 2) by (intros; apply pow2_ge_0).
  pose proof (rsum_nonneg (fun z => (fst z - snd z) ^ 2) _ P) as N. split; [lra|].
  intros Hl. assert (Z : rsum (map (fun z => (fst z - snd z) ^ 2) (combine y' y)) = 0) by lra.
  assert (y' = y); [|congruence]. rewrite Q4 in A6. assert (L : length y' = length y) by congruence. pose proof (rsum_zero_inv _ _ P Z) as I. clear - L I. revert y L I.
  induction y' as [|a y' IH]; intros [|b y] L I; try discriminate; auto. f_equal; [|apply IH; [cbn in L; lia|intros; apply I; right; auto]].
  pose proof (I (a, b) (or_introl eq_refl)) as E. cbn in E. nra.
Qed.

(** a stationary point with that certificate is a global minimum among the
    models with any number of factors, and all global minima agree on the
    training events *)
Theorem C135_certificate : forall C nu ni k c (E : list scored) g y l, 0 <= C -> length c = coef_size nu ni k -> in_range nu ni (map fst E) ->
  pmf_grad C nu ni k c (ev_of (map fst E)) (map snd E) = Ok g -> Forall (fun x => x = 0) g ->
  fitted nu ni k c (map fst E) y -> certified C nu ni E y -> pmf_loss C nu ni k c (ev_of (map fst E)) (map snd E) = Ok l ->
  forall k' c' l', length c' = coef_size nu ni k' -> pmf_loss C nu ni k' c' (ev_of (map fst E)) (map snd E) = Ok l' ->
  l <= l' /\ (l' = l -> fitted nu ni k' c' (map fst E) y).
Proof.
  intros C nu ni k c E g y l HC Hc Hr Eg Hz Fy Hcert El k' c' l' Hc' El'.
  assert (Hu : Forall (fun ui => fst ui <= nu /\ snd ui <= ni)%nat (map fst E)) by (eapply Forall_impl; [|exact Hr]; cbv beta; intros; lia).
  destruct (C135_padding C nu ni k (Nat.max k k' - k) c E Hc Hr) as [c2 [L2 [E2 [F2 [_ G2]]]]]. destruct (G2 g Eg Hz) as [g2 [Eg2 Hz2]].
  destruct (C135_padding C nu ni k' (Nat.max k k' - k') c' E Hc' Hr) as [c3 [L3 [E3 [F3 _]]]].
  replace (k + (Nat.max k k' - k))%nat with (Nat.max k k') in * by lia. replace (k' + (Nat.max k k' - k'))%nat with (Nat.max k k') in * by lia.
  destruct (same_k C nu ni _ c2 c3 E g2 y l l' HC L2 L3 Hr Eg2 Hz2 (F2 _ _ Hu Fy) Hcert ltac:(congruence) ltac:(congruence)) as [A B]. split; auto.
  intros Hl. specialize (B Hl). pose proof (fitted_exists nu ni k' c' _ Hc' Hu) as Fe. pose proof (F3 _ _ Hu Fe) as Fe3.
  assert (map (fallback_score nu ni k' c') (map fst E) = y) by (destruct B as [? [? ?]]; destruct Fe3 as [? [? ?]]; congruence). congruence.
Qed.

(** without the certificate one more factor makes the loss smaller *)
Theorem C135_improves : forall C nu ni k c (E : list scored) y l (x z : nat -> R), length c = coef_size nu ni k -> in_range nu ni (map fst E) ->
  fitted nu ni k c (map fst E) y -> pmf_loss C nu ni k c (ev_of (map fst E)) (map snd E) = Ok l ->
  C / 2 * (rsum (map (fun u => x u ^ 2) (seq 0 nu)) + rsum (map (fun i => z i ^ 2) (seq 0 ni))) <
    rsum (map (fun ey => (snd (fst ey) - snd ey) * (x (fst (fst (fst ey))) * z (snd (fst (fst ey))))) (combine E y)) ->
  exists c' l', length c' = coef_size nu ni (k + 1) /\ pmf_loss C nu ni (k + 1) c' (ev_of (map fst E)) (map snd E) = Ok l' /\ l' < l.
Proof.
  intros C nu ni k c E y l x z Hc Hr Fy El H. destruct (view_ok nu ni k c Hc) as [t [_ [Ht <-]]]. pose proof Ht as [H1 [H2 [H3 [H4 [H5 H6]]]]].
  assert (y = map (S_ k t) (map fst E)) by (pose proof (fitted_S nu ni k t _ Ht Hr) as [? [? ?]]; destruct Fy as [? [? ?]]; congruence). subst y. rewrite map_map in H.
  assert (Ex : combine E (map (fun x => S_ k t (fst x)) E) = map (fun e : scored => (e, S_ k t (fst e))) E).
  { rewrite <- (map_id E) at 1. apply (combine_both _ _ _ (fun x : scored => x) (fun x : scored => S_ k t (fst x))). }
  rewrite Ex, map_map in H. cbn [fst snd] in H. rewrite pmf_loss_closed in El by auto. injection El as <-.
  set (A := rsum (map (fun e : scored => (snd e - S_ k t (fst e)) * (x (fst (fst e)) * z (snd (fst e)))) E)) in *.
  set (N := rsum (map (fun u => x u ^ 2) (seq 0 nu)) + rsum (map (fun i => z i ^ 2) (seq 0 ni))) in *.
  set (B := rsum (map (fun e : scored => (x (fst (fst e)) * z (snd (fst e))) ^ 2) E)).
  assert (B0 : 0 <= B) by (apply rsum_nonneg; intros; apply pow2_ge_0).
  set (eps := Rmin 1 ((A - C / 2 * N) / (B + 1))).
  assert (P0 : 0 < (A - C / 2 * N) / (B + 1)) by (apply Rdiv_lt_0_compat; lra).
  assert (e0 : 0 < eps) by (apply Rmin_glb_lt; lra). assert (e1 : eps <= 1) by apply Rmin_l. assert (e2 : eps * (B + 1) <= A - C / 2 * N).
  { apply Rle_trans with ((A - C / 2 * N) / (B + 1) * (B + 1)); [apply Rmult_le_compat_r; [lra|apply Rmin_r]|]. right. field. lra. }
  set (col := fun (m : list (list R)) (h : nat -> R) n => map (fun u => nth u m [] ++ [eps * h u]) (seq 0 n)).
  assert (Ln : forall m h n, length (col m h n) = n) by (intros; unfold col; rewrite map_length, seq_length; auto).
  assert (Rw : forall m h n, length m = n -> Forall (fun r => length r = k) m -> Forall (fun r => length r = (k + 1)%nat) (col m h n)).
  { intros m h n Hn Hm. unfold col. rewrite Forall_map, Forall_forall. intros u Hu. apply in_seq in Hu. rewrite app_length. cbn [length].
    rewrite Forall_forall in Hm. rewrite (Hm (nth u m [])) by (apply nth_In; lia). auto. }
  assert (At : forall m h n u f, length m = n -> Forall (fun r => length r = k) m -> (u < n)%nat -> at2 (col m h n) u f = if Nat.eqb f k then eps * h u else at2 m u f).
  { intros m h n u f Hn Hm Hu. unfold at2, col. rewrite (nth_indep _ [] ((fun u => nth u m [] ++ [eps * h u]) 0%nat)) by (rewrite map_length, seq_length; auto).
    rewrite (map_nth (fun u => nth u m [] ++ [eps * h u])), seq_nth by auto. cbn [Nat.add]. rewrite Forall_forall in Hm.
    assert (Lk : length (nth u m []) = k) by (apply Hm; apply nth_In; lia). destruct (Nat.eqb_spec f k) as [->|Hf].
    - rewrite app_nth2 by lia. rewrite Lk, Nat.sub_diag. reflexivity.
    - destruct (Nat.lt_ge_cases f k).
      + rewrite app_nth1 by lia. auto.
      + rewrite !nth_overflow; auto; [lia|]. rewrite app_length. cbn. lia. }
  set (t' := mkPar (mu t) (bu t) (bi t) (col (pu t) x nu) (col (qi t) z ni)).
  assert (Ht' : wf nu ni (k + 1) t') by (unfold wf, t'; cbn [bu bi pu qi]; auto 10).
  exists (flatten t'). eexists. split; [apply flatten_length; auto|]. split; [apply pmf_loss_closed; auto|].
  assert (ES : forall e, In e E -> S_ (k + 1) t' (fst e) = S_ k t (fst e) + eps * eps * (x (fst (fst e)) * z (snd (fst e)))).
  { intros e He. unfold in_range in Hr. rewrite Forall_map, Forall_forall in Hr. destruct (Hr e He) as [Hu Hi]. unfold S_, t'. cbn [mu bu bi pu qi].
    rewrite seq_app, map_app, rsum_app. cbn [seq map Nat.add]. rewrite !At by auto. rewrite Nat.eqb_refl, rsum_cons. change (rsum []) with 0.
    rewrite (rsum_ext_in _ (fun f => at2 (pu t) (fst (fst e)) f * at2 (qi t) (snd (fst e)) f)).
    2:{ intros f Hf. apply in_seq in Hf. rewrite !At by auto. destruct (Nat.eqb_spec f k); [lia|]. auto. }
    ring. }
  assert (Eb : forall m h n, length m = n -> Forall (fun r => length r = k) m -> sumsq (concat (col m h n)) = sumsq (concat m) + eps * eps * rsum (map (fun u => h u ^ 2) (seq 0 n))).
  { intros m h n Hn Hm. rewrite (at2_sumsq n (k + 1)), (at2_sumsq n k m) by auto. rewrite seq_app, map_app, rsum_app. cbn [seq map Nat.add]. rewrite rsum_cons. change (rsum []) with 0. f_equal.
    - apply rsum_ext_in. intros f Hf. apply rsum_ext_in. intros u Hu. apply in_seq in Hf. apply in_seq in Hu. rewrite At by (auto; lia). destruct (Nat.eqb_spec f k); [lia|]. auto.
    - rewrite Rplus_0_r, <- rsum_scal. apply rsum_ext_in. intros u Hu. apply in_seq in Hu. rewrite At by (auto; lia). rewrite Nat.eqb_refl. ring. }
  assert (Er : reg t' = reg t + eps * eps * N).
  { unfold reg, t'. cbn [bu bi pu qi]. rewrite !Eb by auto. unfold N. ring. }
  assert (Q : rsum (map (fun e => (snd e - S_ (k + 1) t' (fst e)) * (snd e - S_ (k + 1) t' (fst e))) E) =
    rsum (map (fun e => (snd e - S_ k t (fst e)) * (snd e - S_ k t (fst e))) E) - 2 * (eps * eps) * A + eps * eps * (eps * eps) * B).
  { unfold A, B. rewrite <- !rsum_scal, <- rsum_minus, <- rsum_plus. apply rsum_ext_in. intros e He. rewrite (ES e He). ring. }
  rewrite Q, Er. assert (eps * eps <= eps) by nra. assert (eps * eps * B <= eps * B) by (apply Rmult_le_compat_r; auto).
  assert (0 < eps * eps) by nra. assert (K : 1 / 2 * (eps * eps * B) + C / 2 * N < A) by nra. nra.
Qed.

(** so the certificate decides whether a stationary point can be improved by
    another factor, or by any number of them *)
Theorem C135_worth : forall C nu ni k c (E : list scored) g y l, 0 <= C -> length c = coef_size nu ni k -> in_range nu ni (map fst E) ->
  pmf_grad C nu ni k c (ev_of (map fst E)) (map snd E) = Ok g -> Forall (fun x => x = 0) g ->
  fitted nu ni k c (map fst E) y -> pmf_loss C nu ni k c (ev_of (map fst E)) (map snd E) = Ok l ->
  (certified C nu ni E y <->
   forall c' l', length c' = coef_size nu ni (k + 1) -> pmf_loss C nu ni (k + 1) c' (ev_of (map fst E)) (map snd E) = Ok l' -> l <= l').
Proof.
  intros C nu ni k c E g y l HC Hc Hr Eg Hz Fy El. split.
  - intros H c' l' Hc' El'. apply (C135_certificate C nu ni k c E g y l HC Hc Hr Eg Hz Fy H El (k + 1) c' l' Hc' El').
  - intros H x z. apply Rnot_lt_le. intros Hlt. destruct (C135_improves C nu ni k c E y l x z Hc Hr Fy El Hlt) as [c' [l' [A [B D]]]]. specialize (H c' l' A B). lra.
Qed.

(** *** when it holds and when it does not *)
Lemma group_sum : forall A (f : A -> nat) (w : A -> R) (h : nat -> R) n l, Forall (fun a => f a < n)%nat l ->
  rsum (map (fun a => w a * h (f a)) l) = rsum (map (fun u => h u * rsum (map (fun a => if Nat.eqb (f a) u then w a else 0) l)) (seq 0 n)).
Proof.
  intros A f w h n l H. rewrite (rsum_ext_in (fun u => h u * rsum (map (fun a => if Nat.eqb (f a) u then w a else 0) l)) (fun u => rsum (map (fun a => if Nat.eqb (f a) u then h u * w a else 0) l))).
  2:{ intros u _. rewrite <- rsum_scal. apply rsum_ext_in. intros a _. destruct (Nat.eqb (f a) u); ring. }
  rewrite rsum_swap. apply rsum_ext_in. intros a Ha. rewrite Forall_forall in H. specialize (H a Ha). rewrite <- (rsum_delta n (f a) (w a * h (f a))) by auto.
  apply rsum_ext_in. intros u _. destruct (Nat.eqb_spec u (f a)) as [->|Hn]; [rewrite Nat.eqb_refl; ring|]. destruct (Nat.eqb_spec (f a) u); [congruence|ring].
Qed.

(** it is enough that the absolute residuals of every user and of every item add up to at most C *)
Theorem C135_rows : forall C nu ni (E : list scored) y, in_range nu ni (map fst E) ->
  (forall u, (u < nu)%nat -> rsum (map (fun ey => if Nat.eqb (fst (fst (fst ey))) u then Rabs (snd (fst ey) - snd ey) else 0) (combine E y)) <= C) ->
  (forall i, (i < ni)%nat -> rsum (map (fun ey => if Nat.eqb (snd (fst (fst ey))) i then Rabs (snd (fst ey) - snd ey) else 0) (combine E y)) <= C) ->
  certified C nu ni E y.
Proof.
  intros C nu ni E y Hr Hu Hi x z.
  assert (R1 : Forall (fun ey : scored * R => fst (fst (fst ey)) < nu /\ snd (fst (fst ey)) < ni)%nat (combine E y)).
  { apply Forall_forall. intros [e b] He. apply in_combine_l in He. unfold in_range in Hr. rewrite Forall_map, Forall_forall in Hr. apply (Hr e He). }
  apply Rle_trans with (1 / 2 * (rsum (map (fun ey => Rabs (snd (fst ey) - snd ey) * (fun u => x u ^ 2) (fst (fst (fst ey)))) (combine E y)) +
                                rsum (map (fun ey => Rabs (snd (fst ey) - snd ey) * (fun i => z i ^ 2) (snd (fst (fst ey)))) (combine E y)))).
  - rewrite <- rsum_plus, <- rsum_scal. apply rsum_le. intros ey _. set (a := x (fst (fst (fst ey)))). set (b := z (snd (fst (fst ey)))). set (e := snd (fst ey) - snd ey).
    cbv beta. fold a b. assert (e * (a * b) <= Rabs e * Rabs (a * b)) by (rewrite <- Rabs_mult; apply Rle_abs). assert (Rabs (a * b) <= 1 / 2 * (a ^ 2 + b ^ 2)) by (pose proof (Rle_0_sqr (a - b)) as S1; pose proof (Rle_0_sqr (a + b)) as S2; unfold Rsqr in S1, S2; apply Rabs_le; lra).
    assert (Rabs e * Rabs (a * b) <= Rabs e * (1 / 2 * (a ^ 2 + b ^ 2))) by (apply Rmult_le_compat_l; auto using Rabs_pos). lra.
  - rewrite (group_sum (scored * R) (fun ey => fst (fst (fst ey))) (fun ey => Rabs (snd (fst ey) - snd ey)) (fun u => x u ^ 2) nu) by (eapply Forall_impl; [|exact R1]; cbv beta; tauto).
    rewrite (group_sum (scored * R) (fun ey => snd (fst (fst ey))) (fun ey => Rabs (snd (fst ey) - snd ey)) (fun u => z u ^ 2) ni) by (eapply Forall_impl; [|exact R1]; cbv beta; tauto).
    assert (K1 : rsum (map (fun u => x u ^ 2 * rsum (map (fun ey => if Nat.eqb (fst (fst (fst ey))) u then Rabs (snd (fst ey) - snd ey) else 0) (combine E y))) (seq 0 nu)) <= C * rsum (map (fun u => x u ^ 2) (seq 0 nu))).
    { rewrite <- rsum_scal. apply rsum_le. intros u H. apply in_seq in H. rewrite Rmult_comm. apply Rmult_le_compat_r; [apply pow2_ge_0|]. apply Hu. lia. }
    assert (K2 : rsum (map (fun u => z u ^ 2 * rsum (map (fun ey => if Nat.eqb (snd (fst (fst ey))) u then Rabs (snd (fst ey) - snd ey) else 0) (combine E y))) (seq 0 ni)) <= C * rsum (map (fun u => z u ^ 2) (seq 0 ni))).
    { rewrite <- rsum_scal. apply rsum_le. intros u H. apply in_seq in H. rewrite Rmult_comm. apply Rmult_le_compat_r; [apply pow2_ge_0|]. apply Hi. lia. }
    lra.
Qed.

(** and it is necessary that the residuals of every pair of a user and an item add up to at most C *)
Theorem C135_pairs : forall C nu ni (E : list scored) y u i, (u < nu)%nat -> (i < ni)%nat -> certified C nu ni E y ->
  Rabs (rsum (map (fun ey => if Nat.eqb (fst (fst (fst ey))) u && Nat.eqb (snd (fst (fst ey))) i then snd (fst ey) - snd ey else 0) (combine E y))) <= C.
Proof.
  intros C nu ni E y u i Hu Hi H. set (S := rsum _).
  assert (K : forall s, s * s = 1 -> s * S <= C).
  { intros s Hs. specialize (H (fun a => if Nat.eqb a u then 1 else 0) (fun b => if Nat.eqb b i then s else 0)).
    rewrite (rsum_ext_in (fun a : nat => (if Nat.eqb a u then 1 else 0) ^ 2) (fun a => if Nat.eqb a u then 1 else 0)) in H by (intros a _; destruct (Nat.eqb a u); ring).
    rewrite (rsum_ext_in (fun a : nat => (if Nat.eqb a i then s else 0) ^ 2) (fun a => if Nat.eqb a i then 1 else 0)) in H by (intros a _; destruct (Nat.eqb a i); [nra|ring]).
    rewrite !rsum_delta in H by auto. unfold S. rewrite <- rsum_scal. eapply Rle_trans; [|eapply Rle_trans; [exact H|lra]]. right. apply rsum_ext_in. intros ey _. cbv beta.
    destruct (Nat.eqb (fst (fst (fst ey))) u); destruct (Nat.eqb (snd (fst (fst ey))) i); cbn [andb]; ring. }
  apply Rabs_le. pose proof (K 1 ltac:(ring)). pose proof (K (-1) ltac:(ring)). lra.
Qed.

(** ** Examples *)
(** two users, two items, the scores 1 and 0 crosswise: what the biases leave
    is 1/2 in absolute value, and the factors are worth having exactly if C < 1
    ([cr], [crE] in T_Bias) *)
Lemma cr_fitted : fitted 2 2 0 (flatten cr) (map fst crE) [1 / 2; 1 / 2; 1 / 2; 1 / 2].
Proof.
  pose proof (fitted_S 2 2 0 cr _ cr_wf cr_range) as F. replace [1 / 2; 1 / 2; 1 / 2; 1 / 2] with (map (S_ 0 cr) (map fst crE)); auto.
  unfold S_, crE, cr, at1, rsum. cbn. replace (1 / 2 + 0 + 0 + 0) with (1 / 2) by lra. reflexivity.
Qed.

Lemma cr_loss : forall C, pmf_loss C 2 2 0 (flatten cr) (ev_of (map fst crE)) (map snd crE) = Ok (1 / 2).
Proof.
  intros C. rewrite pmf_loss_closed by auto using cr_wf, cr_range. f_equal. unfold reg, sumsq, S_, crE, cr, at1, rsum. cbn. field.
Qed.

Example C135_nonvacuous :
  (forall C, 1 <= C -> forall k' c' l', length c' = coef_size 2 2 k' -> pmf_loss C 2 2 k' c' (ev_of (map fst crE)) (map snd crE) = Ok l' -> 1 / 2 <= l') /\
  (forall C, 0 <= C < 1 -> exists c' l', length c' = coef_size 2 2 1 /\ pmf_loss C 2 2 1 c' (ev_of (map fst crE)) (map snd crE) = Ok l' /\ l' < 1 / 2) /\
  (forall C, 0 <= C -> (certified C 2 2 crE [1 / 2; 1 / 2; 1 / 2; 1 / 2] <-> 1 <= C)).
Proof.
  assert (V : forall C, C < 1 -> C / 2 * (rsum (map (fun u => (if Nat.eqb u 0 then 1 else -1) ^ 2) (seq 0 2)) + rsum (map (fun i => (if Nat.eqb i 0 then 1 else -1) ^ 2) (seq 0 2))) <
    rsum (map (fun ey : scored * R => (snd (fst ey) - snd ey) * ((if Nat.eqb (fst (fst (fst ey))) 0 then 1 else -1) * (if Nat.eqb (snd (fst (fst ey))) 0 then 1 else -1))) (combine crE [1 / 2; 1 / 2; 1 / 2; 1 / 2]))).
  { intros C HC. unfold rsum, crE. cbn. lra. }
  assert (W : forall C, 1 <= C -> certified C 2 2 crE [1 / 2; 1 / 2; 1 / 2; 1 / 2]).
  { intros C HC. assert (A1 : Rabs (1 - 1 / 2) = 1 / 2) by (rewrite Rabs_pos_eq; lra). assert (A2 : Rabs (0 - 1 / 2) = 1 / 2) by (rewrite Rabs_left1; lra).
    apply C135_rows; [apply cr_range| |]; intros [|[|]] Hj; try lia; unfold rsum, crE; cbn [combine map fst snd Nat.eqb fold_right]; rewrite ?A1, ?A2; lra. }
  split; [|split].
  - intros C HC k' c' l' Hc' El'. refine (proj1 (C135_certificate C 2 2 0 (flatten cr) crE _ _ (1 / 2) ltac:(lra) eq_refl cr_range (pmf_grad_closed C 2 2 0 cr crE cr_wf cr_range) (cr_zero C) cr_fitted (W C HC) (cr_loss C) k' c' l' Hc' El')).
  - intros C HC. exact (C135_improves C 2 2 0 (flatten cr) crE _ (1 / 2) _ _ eq_refl cr_range cr_fitted (cr_loss C) (V C ltac:(lra))).
  - intros C HC. split; auto. intros H. apply Rnot_lt_le. intros Hlt. specialize (V C Hlt).
    specialize (H (fun u => if Nat.eqb u 0 then 1 else -1) (fun i => if Nat.eqb i 0 then 1 else -1)). cbv beta in H. lra.
Qed.

Print Assumptions C135_exact.
Print Assumptions C135_padding.
Print Assumptions C135_certificate.
Print Assumptions C135_improves.
Print Assumptions C135_worth.
Print Assumptions C135_rows.
Print Assumptions C135_pairs.
Print Assumptions C135_nonvacuous.
