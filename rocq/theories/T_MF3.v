(** * Order of events (C71) and stationary points (C72) of the matrix
    factorisation models *)
From Coq Require Import List ZArith Reals Lra Lia Bool Permutation FunctionalExtensionality.
From Verif Require Import M_Py P_Py M_Sigmoid P_RSum T_Sigmoid M_MF P_MF T_MF T_MF2 T_MFInit T_Implicit.
Import ListNotations.
Open Scope R_scope.

Lemma rsum_perm : forall a b, Permutation a b -> rsum a = rsum b.
Proof. induction 1; rewrite ?rsum_cons in *; try lra; reflexivity. Qed.

Lemma rsum_map_perm : forall A (f : A -> R) a b, Permutation a b -> rsum (map f a) = rsum (map f b).
Proof. intros. apply rsum_perm, Permutation_map. auto. Qed.

Lemma perm_filter : forall A (p : A -> bool) a b, Permutation a b -> Permutation (filter p a) (filter p b).
Proof.
  induction 1; cbn [filter].
  - constructor.
  - destruct (p x); auto.
  - destruct (p x), (p y); auto. apply perm_swap.
  - eapply perm_trans; eauto.
Qed.

Lemma combine_split_map : forall A B (E : list (A * B)), combine (map fst E) (map snd E) = E.
Proof. induction E as [|[a b] E IH]; cbn; [auto|]. rewrite IH. auto. Qed.

Lemma in_range_perm : forall nu ni (E E' : list scored), Permutation E E' ->
  in_range nu ni (map fst E) -> in_range nu ni (map fst E').
Proof. intros. unfold in_range in *. eapply Permutation_Forall; [apply Permutation_map|]; eauto. Qed.

(** ** closed forms *)
Lemma pmf_loss_closed : forall C nu ni k t (E : list scored), wf nu ni k t -> in_range nu ni (map fst E) ->
  pmf_loss C nu ni k (flatten t) (ev_of (map fst E)) (map snd E) =
  Ok (1 / 2 * rsum (map (fun e => (snd e - S_ k t (fst e)) * (snd e - S_ k t (fst e))) E) + 1 / 2 * C * reg t).
Proof.
  intros. unfold pmf_loss. rewrite view_flatten by auto. cbn [bind]. rewrite pairs_ok. cbn [bind].
  rewrite (scores_ok nu ni k) by auto. cbn [bind]. rewrite bcast_eq by (rewrite !map_length; auto). cbn [bind].
  rewrite (weights_eq (fun a b => (a - b) * (a - b))), combine_split_map. reflexivity.
Qed.

Lemma pmf_grad_closed : forall C nu ni k t (E : list scored), wf nu ni k t -> in_range nu ni (map fst E) ->
  pmf_grad C nu ni k (flatten t) (ev_of (map fst E)) (map snd E) =
  Ok (flatten (gpar C nu ni k t (map fst E) (map (fun e => - (snd e - S_ k t (fst e))) E))).
Proof.
  intros. unfold pmf_grad. rewrite view_flatten by auto. cbn [bind]. rewrite pairs_ok. cbn [bind].
  rewrite (scores_ok nu ni k) by auto. cbn [bind]. rewrite bcast_eq by (rewrite !map_length; auto). cbn [bind].
  rewrite (weights_eq (fun a b => - (a - b))), combine_split_map.
  apply mf_grad_ok; auto. rewrite !map_length. auto.
Qed.

Lemma lpmf_loss_closed : forall C nu ni k t (E : list scored), wf nu ni k t -> in_range nu ni (map fst E) ->
  lpmf_loss C nu ni k (flatten t) (ev_of (map fst E)) (map snd E) =
  Ok (rsum (map (fun e => xe (snd e) (S_ k t (fst e))) E) + 1 / 2 * C * reg t).
Proof. intros. rewrite lpmf_loss_ok by (auto; rewrite !map_length; auto). rewrite combine_split_map. auto. Qed.

Lemma lpmf_grad_closed : forall C nu ni k t (E : list scored), wf nu ni k t -> in_range nu ni (map fst E) ->
  lpmf_grad C nu ni k (flatten t) (ev_of (map fst E)) (map snd E) =
  Ok (flatten (gpar C nu ni k t (map fst E) (map (fun e => safe_sigmoid (S_ k t (fst e)) - snd e) E))).
Proof. intros. rewrite lpmf_grad_ok by (auto; rewrite !map_length; auto). rewrite combine_split_map. auto. Qed.

(** the gradient in terms of the scored events *)
Lemma wcount_E : forall (g : scored -> nat) (h : scored -> R) E v,
  wcount (map g E) (map h E) v = rsum (map h (filter (fun e => Nat.eqb (g e) v) E)).
Proof.
  intros. rewrite rsum_filter. unfold wcount.
  induction E as [|e E IH]; cbn [map combine]; [reflexivity|]. rewrite !rsum_cons, IH. reflexivity.
Qed.

Lemma gpar_E : forall C nu ni k t (E : list scored) h,
  gpar C nu ni k t (map fst E) (map h E) =
  mkPar (rsum (map h E))
    (map (fun u => rsum (map h (of_user u E)) + C * at1 (bu t) u) (seq 0 nu))
    (map (fun i => rsum (map h (of_item i E)) + C * at1 (bi t) i) (seq 0 ni))
    (map (fun u => map (fun f => rsum (map (fun e => h e * at2 (qi t) (item e) f) (of_user u E)) + C * at2 (pu t) u f) (seq 0 k)) (seq 0 nu))
    (map (fun i => map (fun f => rsum (map (fun e => h e * at2 (pu t) (user e) f) (of_item i E)) + C * at2 (qi t) i f) (seq 0 k)) (seq 0 ni)).
Proof.
  intros. unfold gpar. rewrite !map_map.
  assert (K : forall (g : scored -> nat) (m : list (list R)) f,
    map (fun x => fst x * at2 m (snd x) f) (combine (map h E) (map g E)) = map (fun e => h e * at2 m (g e) f) E).
  { intros. clear. induction E as [|e E IH]; cbn [map combine]; [reflexivity|]. rewrite IH. reflexivity. }
  f_equal.
  - apply map_ext. intros u. rewrite (wcount_E (fun x => fst (fst x))). reflexivity.
  - apply map_ext. intros u. rewrite (wcount_E (fun x => snd (fst x))). reflexivity.
  - apply map_ext. intros u. apply map_ext. intros f. rewrite (K (fun x => snd (fst x))), (wcount_E (fun x => fst (fst x))). reflexivity.
  - apply map_ext. intros u. apply map_ext. intros f. rewrite (K (fun x => fst (fst x))), (wcount_E (fun x => snd (fst x))). reflexivity.
Qed.

Lemma gpar_perm : forall C nu ni k t (E E' : list scored) h, Permutation E E' ->
  gpar C nu ni k t (map fst E) (map h E) = gpar C nu ni k t (map fst E') (map h E').
Proof.
  intros C nu ni k t E E' h P. rewrite !gpar_E.
  assert (PU : forall u, Permutation (of_user u E) (of_user u E')) by (intros; apply perm_filter; auto).
  assert (PI : forall u, Permutation (of_item u E) (of_item u E')) by (intros; apply perm_filter; auto).
  f_equal; [apply rsum_map_perm; auto|..]; apply map_ext; intros u;
    try (apply map_ext; intros f); f_equal; apply rsum_map_perm; auto.
Qed.

(** ** C71: the objective, its gradient and the starting point do not depend
    on the order of the events (paired with their scores) *)
Theorem C71_objective : forall C nu ni k c (E E' : list scored), in_range nu ni (map fst E) -> Permutation E E' ->
  pmf_loss C nu ni k c (ev_of (map fst E)) (map snd E) = pmf_loss C nu ni k c (ev_of (map fst E')) (map snd E') /\
  pmf_grad C nu ni k c (ev_of (map fst E)) (map snd E) = pmf_grad C nu ni k c (ev_of (map fst E')) (map snd E') /\
  lpmf_loss C nu ni k c (ev_of (map fst E)) (map snd E) = lpmf_loss C nu ni k c (ev_of (map fst E')) (map snd E') /\
  lpmf_grad C nu ni k c (ev_of (map fst E)) (map snd E) = lpmf_grad C nu ni k c (ev_of (map fst E')) (map snd E').
Proof.
  intros C nu ni k c E E' Hr P. pose proof (in_range_perm _ _ _ _ P Hr) as Hr'.
  destruct (Nat.eq_dec (length c) (coef_size nu ni k)) as [Hc|Hc].
  - destruct (view_ok nu ni k c Hc) as [t [_ [Ht <-]]].
    rewrite !pmf_loss_closed, !pmf_grad_closed, !lpmf_loss_closed, !lpmf_grad_closed by auto.
    rewrite (rsum_map_perm _ _ E E'), (gpar_perm C nu ni k t E E') by auto.
    rewrite (rsum_map_perm _ (fun e => xe _ _) E E') by auto.
    rewrite (gpar_perm C nu ni k t E E' (fun e => safe_sigmoid _ - _)) by auto. auto.
  - assert (V : view nu ni k c = Raise ValueError).
    { unfold view. destruct (Nat.eqb_spec (length c) (coef_size nu ni k)); [contradiction|auto]. }
    unfold pmf_loss, pmf_grad, lpmf_loss, lpmf_grad. rewrite V. auto.
Qed.

Lemma existsb_perm : forall A (p : A -> bool) a b, Permutation a b -> existsb p a = existsb p b.
Proof.
  intros A p a b P. destruct (existsb p b) eqn:E.
  - apply existsb_exists in E. destruct E as [x [Hx Hp]]. apply existsb_exists. exists x. split; auto.
    eapply Permutation_in; [apply Permutation_sym|]; eauto.
  - apply not_true_is_false. intros H. apply existsb_exists in H. destruct H as [x [Hx Hp]].
    assert (existsb p b = true) by (apply existsb_exists; exists x; split; auto; eapply Permutation_in; eauto). congruence.
Qed.

Lemma init_pieces : forall nu ni (E E' : list scored), in_range nu ni (map fst E) -> Permutation E E' ->
  forall m, m = rsum (map snd E) / INR (length E) ->
  m = rsum (map snd E') / INR (length E') /\
  exists b c, length b = nu /\ length c = ni /\
    init_bu m (map (fun e => Z.of_nat (user e)) E) (map snd E) nu = Ok b /\
    init_bu m (map (fun e => Z.of_nat (user e)) E') (map snd E') nu = Ok b /\
    init_bi m b (map (fun e => Z.of_nat (user e)) E) (map (fun e => Z.of_nat (item e)) E) (map snd E) ni = Ok c /\
    init_bi m b (map (fun e => Z.of_nat (user e)) E') (map (fun e => Z.of_nat (item e)) E') (map snd E') ni = Ok c /\
    residual_var m b c (zp (map fst E)) (map snd E) = residual_var m b c (zp (map fst E')) (map snd E').
Proof.
  intros nu ni E E' Hr P m Hm. pose proof (in_range_perm _ _ _ _ P Hr) as Hr'.
  assert (Hf : forall E, in_range nu ni (map fst E) -> Forall (fun e => user e < nu /\ item e < ni)%nat E).
  { intros E0 H. unfold in_range in H. rewrite Forall_map in H. exact H. }
  assert (HfU : forall E, in_range nu ni (map fst E) -> Forall (fun e => user e < nu)%nat E).
  { intros E0 H. eapply Forall_impl; [|apply Hf, H]. cbn. tauto. }
  assert (PU : forall u, Permutation (of_user u E) (of_user u E')) by (intros; apply perm_filter; auto).
  assert (PI : forall u, Permutation (of_item u E) (of_item u E')) by (intros; apply perm_filter; auto).
  split; [rewrite Hm, (rsum_map_perm _ _ E E'), (Permutation_length P) by auto; reflexivity|].
  eexists _, _. rewrite !init_bu_ok.
  split; [|split; [|split; [reflexivity|]]].
  { rewrite map_length, seq_length. auto. }
  2:{ split; [|split; [|split]].
    - f_equal. apply map_ext. intros u. rewrite (rsum_map_perm _ _ _ _ (PU u)), (Permutation_length (PU u)). reflexivity.
    - apply (init_bi_ok _ _ _ nu); auto. rewrite map_length, seq_length. auto.
    - rewrite (init_bi_ok _ _ _ nu) by (auto; rewrite map_length, seq_length; auto).
      f_equal. apply map_ext. intros u. rewrite (rsum_map_perm _ _ _ _ (PI u)), (Permutation_length (PI u)). reflexivity.
    - rewrite !(residual_var_ok _ _ _ _ nu ni) by (auto; rewrite map_length, seq_length; auto).
      rewrite (rsum_map_perm _ _ E E') by auto. rewrite (Permutation_length P). reflexivity. }
  rewrite map_length, seq_length. auto.
Qed.

Theorem C71_start : forall nu ni k (E E' : list scored) d1 d2 e1 e2, in_range nu ni (map fst E) -> Permutation E E' ->
  pmf_init nu ni k (ev_of (map fst E)) (map snd E) d1 d2 = pmf_init nu ni k (ev_of (map fst E')) (map snd E') d1 d2 /\
  lpmf_init nu ni k (ev_of (map fst E)) (map snd E) e1 e2 = lpmf_init nu ni k (ev_of (map fst E')) (map snd E') e1 e2.
Proof.
  intros nu ni k E E' d1 d2 e1 e2 Hr P. pose proof (in_range_perm _ _ _ _ P Hr) as Hr'.
  unfold pmf_init, lpmf_init. rewrite !pairs_ok. cbn [bind].
  assert (Lz : forall E : list scored, length (zp (map fst E)) = length E) by (intros; unfold zp; rewrite !map_length; auto).
  rewrite !Lz, (Permutation_length P). destruct (Nat.eqb (length E') 0); [auto|].
  assert (EU : forall E : list scored, map fst (zp (map fst E)) = map (fun e => Z.of_nat (user e)) E) by (intros; unfold zp; rewrite !map_map; reflexivity).
  assert (EI : forall E : list scored, map snd (zp (map fst E)) = map (fun e => Z.of_nat (item e)) E) by (intros; unfold zp; rewrite !map_map; reflexivity).
  rewrite !EU, !EI.
  destruct (init_pieces nu ni E E' Hr P _ eq_refl) as [Em [b [c [Lb [Lc [B1 [B2 [C1 [C2 V]]]]]]]]].
  rewrite (Permutation_length P) in *. rewrite <- Em. rewrite B1, B2. cbn [bind]. rewrite C1, C2. cbn [bind]. rewrite V.
  assert (SU : seen (map (fun e => Z.of_nat (user e)) E) nu = seen (map (fun e => Z.of_nat (user e)) E') nu).
  { rewrite <- !(map_map user Z.of_nat).
    rewrite !seen_ok by (unfold in_range in *; rewrite Forall_map in *; eapply Forall_impl; [|eassumption]; cbn; tauto).
    f_equal. f_equal. apply filter_ext. intros v. apply existsb_perm, Permutation_map. auto. }
  assert (SI : seen (map (fun e => Z.of_nat (item e)) E) ni = seen (map (fun e => Z.of_nat (item e)) E') ni).
  { rewrite <- !(map_map item Z.of_nat).
    rewrite !seen_ok by (unfold in_range in *; rewrite Forall_map in *; eapply Forall_impl; [|eassumption]; cbn; tauto).
    f_equal. f_equal. apply filter_ext. intros v. apply existsb_perm, Permutation_map. auto. }
  rewrite SU, SI. auto.
Qed.

(** the event matrix of the implicit model *)
Theorem C71_matrix : forall nu ni uis uis', Permutation uis uis' -> coo_matrix nu ni uis = coo_matrix nu ni uis'.
Proof.
  intros nu ni uis uis' P. unfold coo_matrix.
  assert (A : forall A (p : A -> bool) a b, Permutation a b -> forallb p a = forallb p b).
  { clear. intros A p a b P. induction P; cbn [forallb]; try congruence. destruct (p x), (p y); auto. }
  rewrite (A _ _ _ _ P). destruct (forallb _ uis'); [|auto].
  f_equal. apply map_ext. intros i. apply map_ext. intros j. f_equal. apply Permutation_length, perm_filter. auto.
Qed.

(** ** C72: what the gradient says about the predictions for the training
    events *)

(** sum of prediction - score over scored events with their predictions *)
Definition excess (l : list (scored * R)) : R := rsum (map (fun ey => snd ey - snd (fst ey)) l).

Lemma excess_map : forall (f : nat * nat -> R) (p : scored -> bool) (E : list scored),
  excess (filter (fun ey => p (fst ey)) (combine E (map f (map fst E)))) =
  rsum (map (fun e => f (fst e) - snd e) (filter p E)).
Proof.
  intros f p E. unfold excess. induction E as [|e E IH]; cbn [map combine filter]; [reflexivity|].
  cbn [fst]. destruct (p e); cbn [map]; rewrite ?rsum_cons; rewrite IH; reflexivity.
Qed.

Lemma excess_map_all : forall (f : nat * nat -> R) (E : list scored),
  excess (combine E (map f (map fst E))) = rsum (map (fun e => f (fst e) - snd e) E).
Proof.
  intros f E. unfold excess. induction E as [|e E IH]; cbn [map combine]; [reflexivity|].
  rewrite !rsum_cons, IH. reflexivity.
Qed.

(** the training events of one user, of one item, with their predictions *)
Definition rows_user (u : nat) (l : list (scored * R)) := filter (fun ey => Nat.eqb (user (fst ey)) u) l.
Definition rows_item (i : nat) (l : list (scored * R)) := filter (fun ey => Nat.eqb (item (fst ey)) i) l.

(** the entries of a gradient [g] at [c] that belong to mu, bu and bi *)
Definition residual_gradient C nu ni k (c g : list R) (l : list (scored * R)) : Prop :=
  param nu ni k g SMu = excess l /\
  (forall u, (u < nu)%nat -> param nu ni k g (SBu u) = excess (rows_user u l) + C * param nu ni k c (SBu u)) /\
  (forall i, (i < ni)%nat -> param nu ni k g (SBi i) = excess (rows_item i l) + C * param nu ni k c (SBi i)).

Lemma gpar_residual : forall C nu ni k t (E : list scored) (f : nat * nat -> R), wf nu ni k t ->
  residual_gradient C nu ni k (flatten t) (flatten (gpar C nu ni k t (map fst E) (map (fun e => f (fst e) - snd e) E)))
    (combine E (map f (map fst E))).
Proof.
  intros C nu ni k t E f Ht. pose proof (gpar_wf C nu ni k t (map fst E) (map (fun e => f (fst e) - snd e) E)) as Hg.
  rewrite gpar_E in *. split; [|split].
  - rewrite param_mu, excess_map_all. reflexivity.
  - intros u Hu. rewrite !param_bu by auto. unfold at1 at 1. cbn [bu]. rewrite nth_map_seq by auto.
    unfold rows_user. rewrite (excess_map f (fun e => Nat.eqb (user e) u)). reflexivity.
  - intros u Hu. rewrite !param_bi by auto. unfold at1 at 1. cbn [bi]. rewrite nth_map_seq by auto.
    unfold rows_item. rewrite (excess_map f (fun e => Nat.eqb (item e) u)). reflexivity.
Qed.

Theorem C72_gradient_residuals : forall C nu ni k c (E : list scored),
  length c = coef_size nu ni k -> in_range nu ni (map fst E) ->
  exists t y p g h, learned nu ni k c = Ok t /\
    pmf_raw_predict t (ev_of (map fst E)) = Ok y /\ lpmf_raw_predict t (ev_of (map fst E)) = Ok p /\
    pmf_grad C nu ni k c (ev_of (map fst E)) (map snd E) = Ok g /\
    lpmf_grad C nu ni k c (ev_of (map fst E)) (map snd E) = Ok h /\
    length y = length E /\ length p = length E /\
    residual_gradient C nu ni k c g (combine E y) /\ residual_gradient C nu ni k c h (combine E p).
Proof.
  intros C nu ni k c E Hc Hr.
  destruct (C37_unknown_fallback nu ni k c (map fst E) Hc) as [t [Et [Ey Ep]]].
  { eapply Forall_impl; [|exact Hr]. cbn. lia. }
  destruct (learned_ok nu ni k c Hc) as [t' [Et' [_ Hfb]]]. assert (t' = t) by congruence. subst t'.
  destruct (view_ok nu ni k c Hc) as [v [Ev [Hv <-]]].
  assert (K : forall ui, In ui (map fst E) -> S_ k v ui = fallback_score nu ni k (flatten v) ui).
  { intros [u i] Hui. unfold in_range in Hr. rewrite Forall_forall in Hr. destruct (Hr _ Hui) as [Hu Hi]. cbn [fst snd] in Hu, Hi.
    unfold fallback_score, S_. cbn [fst snd]. rewrite !(proj2 (Nat.ltb_lt _ _)) by auto. cbn [andb].
    rewrite param_mu, param_bu, param_bi by auto. f_equal. apply rsum_ext_in. intros f Hf. apply in_seq in Hf.
    rewrite param_p, param_q by (auto; lia). auto. }
  eexists t, _, _, _, _. split; [exact Et|]. split; [exact Ey|]. split; [exact Ep|].
  split; [apply pmf_grad_closed; auto|]. split; [apply lpmf_grad_closed; auto|].
  split; [rewrite !map_length; auto|]. split; [rewrite !map_length; auto|].
  rewrite <- (map_ext_in _ _ _ K).
  rewrite <- (map_ext_in (fun ui => safe_sigmoid (S_ k v ui)) (fun ui => safe_sigmoid (fallback_score nu ni k (flatten v) ui))) by (intros; f_equal; auto).
  split.
  - rewrite (map_ext (fun e => - (snd e - S_ k v (fst e))) (fun e => S_ k v (fst e) - snd e)) by (intros; ring).
    apply gpar_residual; auto.
  - apply (gpar_residual C nu ni k v E (fun ui => safe_sigmoid (S_ k v ui))); auto.
Qed.

Lemma param_small : forall nu ni k g s eps, length g = coef_size nu ni k -> slot_ok nu ni k s ->
  Forall (fun x => Rabs x <= eps) g -> Rabs (param nu ni k g s) <= eps.
Proof.
  intros nu ni k g s eps Hl Hs Hf. rewrite Forall_forall in Hf. apply Hf. unfold param. apply nth_In. rewrite Hl.
  destruct (view_ok nu ni k g Hl) as [t [_ [Ht E]]]. rewrite <- Hl. rewrite <- E.
  destruct (nth_error (flatten t) (offset nu ni k s)) eqn:N; [eapply nth_error_Some; congruence|].
  exfalso. rewrite offset_entry in N by auto. destruct Ht as [H1 [H2 [H3 [H4 [H5 H6]]]]].
  destruct s; cbn in *; try discriminate.
  - apply nth_error_None in N. lia.
  - apply nth_error_None in N. lia.
  - destruct Hs. rewrite (entry2_at nu k) in N by auto. discriminate.
  - destruct Hs. rewrite (entry2_at ni k) in N by auto. discriminate.
Qed.

(** where every entry of the gradient is at most eps (the stopping rule of
    scipy's gradient methods is of this form), predictions and scores of the
    training events have the same sum up to eps, and C times a bias is the sum
    of the residuals of the user or item up to eps *)
Definition balanced C nu ni k (eps : R) (c : list R) (l : list (scored * R)) : Prop :=
  Rabs (excess l) <= eps /\
  (forall u, (u < nu)%nat -> Rabs (excess (rows_user u l) + C * param nu ni k c (SBu u)) <= eps) /\
  (forall i, (i < ni)%nat -> Rabs (excess (rows_item i l) + C * param nu ni k c (SBi i)) <= eps).

Lemma residual_balanced : forall C nu ni k eps c g l, length g = coef_size nu ni k ->
  Forall (fun x => Rabs x <= eps) g -> residual_gradient C nu ni k c g l -> balanced C nu ni k eps c l.
Proof.
  intros C nu ni k eps c g l Hl Hf [H1 [H2 H3]]. split; [|split].
  - rewrite <- H1. apply param_small; auto. exact I.
  - intros u Hu. rewrite <- H2 by auto. apply param_small; auto.
  - intros u Hu. rewrite <- H3 by auto. apply param_small; auto.
Qed.

Theorem C72_stationary : forall C nu ni k c (E : list scored) eps t y p g h,
  length c = coef_size nu ni k -> in_range nu ni (map fst E) ->
  learned nu ni k c = Ok t ->
  pmf_raw_predict t (ev_of (map fst E)) = Ok y -> lpmf_raw_predict t (ev_of (map fst E)) = Ok p ->
  pmf_grad C nu ni k c (ev_of (map fst E)) (map snd E) = Ok g ->
  lpmf_grad C nu ni k c (ev_of (map fst E)) (map snd E) = Ok h ->
  (Forall (fun x => Rabs x <= eps) g -> balanced C nu ni k eps c (combine E y)) /\
  (Forall (fun x => Rabs x <= eps) h -> balanced C nu ni k eps c (combine E p)).
Proof.
  intros C nu ni k c E eps t y p g h Hc Hr Et Ey Ep Eg Eh.
  destruct (C72_gradient_residuals C nu ni k c E Hc Hr) as [t' [y' [p' [g' [h' [A1 [A2 [A3 [A4 [A5 [_ [_ [A6 A7]]]]]]]]]]]]].
  assert (t' = t) by congruence. subst t'. assert (y' = y) by congruence. assert (p' = p) by congruence.
  assert (g' = g) by congruence. assert (h' = h) by congruence. subst.
  assert (length g = coef_size nu ni k /\ length h = coef_size nu ni k) as [Lg Lh].
  { destruct (view_ok nu ni k c Hc) as [v [_ [Hv <-]]]. rewrite pmf_grad_closed in Eg by auto. rewrite lpmf_grad_closed in Eh by auto.
    split; [injection Eg as <- | injection Eh as <-]; apply flatten_length, gpar_wf. }
  split; intros Hf; [apply (residual_balanced C nu ni k eps c g) | apply (residual_balanced C nu ni k eps c h)]; auto.
Qed.

(** grouping the training events by user or item loses none *)
Lemma excess_by : forall (g : scored * R -> nat) n l, Forall (fun ey => g ey < n)%nat l ->
  rsum (map (fun v => excess (filter (fun ey => Nat.eqb (g ey) v) l)) (seq 0 n)) = excess l.
Proof.
  intros g n l Hf. unfold excess.
  rewrite (map_ext _ (fun v => rsum (map (fun ey => if Nat.eqb (g ey) v then snd ey - snd (fst ey) else 0) l)))
    by (intros; apply rsum_filter).
  rewrite rsum_swap. apply rsum_ext_in. intros ey He. rewrite Forall_forall in Hf.
  transitivity (rsum (map (fun j => if Nat.eqb j (g ey) then snd ey - snd (fst ey) else 0) (seq 0 n))).
  - apply rsum_ext_in. intros j _. rewrite Nat.eqb_sym. auto.
  - apply rsum_delta. auto.
Qed.

(** at an exact stationary point with C > 0 the biases of the users sum to
    zero, and so do the biases of the items *)
Theorem C72_biases_centred : forall C nu ni k c (E : list scored) y, 0 < C ->
  in_range nu ni (map fst E) -> length y = length E -> balanced C nu ni k 0 c (combine E y) ->
  rsum y = rsum (map snd E) /\
  rsum (map (fun u => param nu ni k c (SBu u)) (seq 0 nu)) = 0 /\
  rsum (map (fun i => param nu ni k c (SBi i)) (seq 0 ni)) = 0.
Proof.
  intros C nu ni k c E y HC Hr Hl [H1 [H2 H3]].
  assert (Z : forall x, Rabs x <= 0 -> x = 0).
  { intros x Hx. pose proof (Rabs_pos x). destruct (Req_dec x 0); auto. pose proof (Rabs_pos_lt x H0). lra. }
  apply Z in H1.
  assert (Hex : excess (combine E y) = rsum y - rsum (map snd E)).
  { clear - Hl. revert y Hl. induction E as [|e E IH]; intros [|a y] Hl; try discriminate; unfold excess in *; cbn [combine map]; rewrite ?rsum_cons.
    - cbn. lra.
    - rewrite IH by (cbn in Hl; lia). cbn [fst snd]. lra. }
  assert (HE : forall ey, In ey (combine E y) -> (user (fst ey) < nu /\ item (fst ey) < ni)%nat).
  { intros [e a] He. apply in_combine_l in He. unfold in_range in Hr. rewrite Forall_map, Forall_forall in Hr. apply (Hr e He). }
  split; [lra|]. split.
  - assert (K : rsum (map (fun u => excess (rows_user u (combine E y)) + C * param nu ni k c (SBu u)) (seq 0 nu)) = 0).
    { apply rsum_zero. intros u Hu. apply in_seq in Hu. apply Z, H2. lia. }
    rewrite rsum_plus, rsum_scal in K.
    unfold rows_user in K. rewrite (excess_by (fun ey => user (fst ey)) nu) in K by (apply Forall_forall; intros; apply HE; auto).
    rewrite H1 in K. apply (Rmult_eq_reg_l C); lra.
  - assert (K : rsum (map (fun u => excess (rows_item u (combine E y)) + C * param nu ni k c (SBi u)) (seq 0 ni)) = 0).
    { apply rsum_zero. intros u Hu. apply in_seq in Hu. apply Z, H3. lia. }
    rewrite rsum_plus, rsum_scal in K.
    unfold rows_item in K. rewrite (excess_by (fun ey => item (fst ey)) ni) in K by (apply Forall_forall; intros; apply HE; auto).
    rewrite H1 in K. apply (Rmult_eq_reg_l C); lra.
Qed.

Example C71_nonvacuous :
  let E : list scored := [((0, 0)%nat, 3); ((1, 0)%nat, 4); ((0, 0)%nat, 5)] in
  let E' : list scored := [((0, 0)%nat, 5); ((0, 0)%nat, 3); ((1, 0)%nat, 4)] in
  in_range 2 1 (map fst E) /\ Permutation E E' /\ E <> E' /\ ev_of (map fst E) <> ev_of (map fst E').
Proof.
  cbn zeta. split; [repeat constructor|]. split.
  - apply Permutation_sym. apply (Permutation_cons_append [((0, 0)%nat, 3); ((1, 0)%nat, 4)] ((0, 0)%nat, 5)).
  - split; intros H; [inversion H; lra | discriminate].
Qed.

(** a stationary point: two users, one item, no factors *)
Example C72_nonvacuous :
  let E : list scored := [((0, 0)%nat, 1); ((1, 0)%nat, 3)] in
  let c := [2; - (1 / 2); 1 / 2; 0] in
  length c = coef_size 2 1 0 /\ in_range 2 1 (map fst E) /\
  exists g, pmf_grad 1 2 1 0 c (ev_of (map fst E)) (map snd E) = Ok g /\ Forall (fun x => Rabs x <= 0) g.
Proof.
  cbn zeta. split; [reflexivity|]. split; [repeat constructor|].
  set (t := mkPar 2 [- (1 / 2); 1 / 2] [0] [[]; []] [[]]).
  change [2; - (1 / 2); 1 / 2; 0] with (flatten t).
  eexists. split; [apply pmf_grad_closed; [repeat split; repeat constructor | repeat constructor]|].
  rewrite gpar_E. unfold flatten, t, S_, at1, at2. cbn.
  repeat (apply Forall_cons; [match goal with |- Rabs ?x <= 0 => replace x with 0 by lra end; rewrite Rabs_R0; lra|]).
  apply Forall_nil.
Qed.
Print Assumptions C71_objective.
Print Assumptions C71_start.
Print Assumptions C71_matrix.
Print Assumptions C72_gradient_residuals.
Print Assumptions C72_stationary.
Print Assumptions C72_biases_centred.
