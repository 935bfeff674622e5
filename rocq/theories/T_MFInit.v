(** * Initial parameters of PMF and LogisticPMF (C39) *)
From Coq Require Import List ZArith Reals Lra Lia Bool.
From Verif Require Import M_Py P_Py M_Sigmoid P_RSum T_Sigmoid M_MF P_MF T_MF T_MF2.
Import ListNotations.
Open Scope R_scope.

(** a scored event: ((user, item), score) *)
Notation scored := ((nat * nat) * R)%type.
Definition user (e : scored) : nat := fst (fst e).
Definition item (e : scored) : nat := snd (fst e).
Definition of_user (u : nat) (E : list scored) := filter (fun e => Nat.eqb (user e) u) E.
Definition of_item (i : nat) (E : list scored) := filter (fun e => Nat.eqb (item e) i) E.

Section Positions.
  Context {X A : Type} (h : X -> nat) (g : X -> A).
  Let sel (i : nat) (s : nat) (E : list X) : list Z :=
    map snd (filter (fun x => (fst x =? Z.of_nat i)%Z)
      (combine (map (fun e => Z.of_nat (h e)) E) (map Z.of_nat (seq s (length E))))).

  Lemma sel_cons : forall i s e E, sel i s (e :: E) =
    (if Nat.eqb (h e) i then [Z.of_nat s] else []) ++ sel i (S s) E.
  Proof.
    intros. unfold sel. cbn [length seq map combine filter fst].
    destruct (Z.eqb_spec (Z.of_nat (h e)) (Z.of_nat i)), (Nat.eqb_spec (h e) i); try lia; reflexivity.
  Qed.

  Lemma sel_length : forall i E s, length (sel i s E) = length (filter (fun e => Nat.eqb (h e) i) E).
  Proof.
    intros i E. induction E; intros s; [reflexivity|]. rewrite sel_cons, app_length, IHE. cbn [filter].
    destruct (Nat.eqb (h a) i); reflexivity.
  Qed.

  Lemma sel_take : forall i E pre,
    np_take (pre ++ map g E) (sel i (length pre) E) = Ok (map g (filter (fun e => Nat.eqb (h e) i) E)).
  Proof.
    intros i E. induction E; intros pre; [reflexivity|].
    rewrite sel_cons. cbn [map filter].
    assert (T : np_take (pre ++ g a :: map g E) (sel i (S (length pre)) E) =
                Ok (map g (filter (fun e => Nat.eqb (h e) i) E))).
    { specialize (IHE (pre ++ [g a])). rewrite <- app_assoc in IHE. cbn [app] in IHE.
      rewrite app_length in IHE. cbn [length] in IHE. rewrite Nat.add_1_r in IHE. apply IHE. }
    destruct (Nat.eqb (h a) i); cbn [app]; [|apply T].
    unfold np_take in *. cbn [mapM]. rewrite (np_get_at _ _ _ (g a)) by (rewrite app_length; cbn; lia).
    cbn [bind]. rewrite T. cbn [bind map]. rewrite app_nth2, Nat.sub_diag by lia. reflexivity.
  Qed.
End Positions.

Lemma positions_take : forall X A (h : X -> nat) (g : X -> A) E i,
  np_take (map g E) (positions (map (fun e => Z.of_nat (h e)) E) i) =
  Ok (map g (filter (fun e => Nat.eqb (h e) i) E)).
Proof.
  intros. unfold positions, enumerate_z. rewrite map_length. apply (sel_take h g i E []).
Qed.

Lemma positions_len : forall X (h : X -> nat) E i,
  length (positions (map (fun e => Z.of_nat (h e)) E) i) = length (filter (fun e => Nat.eqb (h e) i) E).
Proof. intros. unfold positions, enumerate_z. rewrite (map_length (fun e => Z.of_nat (h e))). apply (sel_length h i E 0). Qed.

Lemma init_bu_ok : forall m (E : list scored) nu,
  init_bu m (map (fun e => Z.of_nat (user e)) E) (map snd E) nu =
  Ok (map (fun u => rsum (map (fun e => snd e - m) (of_user u E)) / INR (length (of_user u E))) (seq 0 nu)).
Proof.
  intros m E nu. unfold init_bu. apply mapM_total. intros u _. cbv beta.
  pose proof (positions_len _ user E u) as HL. pose proof (positions_take _ _ user snd E u) as HT.
  fold (of_user u E) in *.
  destruct (positions (map (fun e => Z.of_nat (user e)) E) u) as [|j js] eqn:EP.
  - destruct (of_user u E); [|discriminate]. cbn. f_equal. unfold Rdiv. ring.
  - rewrite HT. cbn [bind]. rewrite HL, map_map. reflexivity.
Qed.

Lemma take_at : forall (b : list R) n l, length b = n -> Forall (fun x => x < n)%nat l ->
  np_take b (map Z.of_nat l) = Ok (map (at1 b) l).
Proof.
  intros b n l Hb Hf. unfold np_take. rewrite mapM_map. apply mapM_total. intros x Hx.
  rewrite Forall_forall in Hf. specialize (Hf x Hx). rewrite (np_get_at _ _ _ 0) by lia. reflexivity.
Qed.

Lemma init_bi_ok : forall m b (E : list scored) nu ni, length b = nu -> Forall (fun e => user e < nu)%nat E ->
  init_bi m b (map (fun e => Z.of_nat (user e)) E) (map (fun e => Z.of_nat (item e)) E) (map snd E) ni =
  Ok (map (fun i => rsum (map (fun e => snd e - (m + at1 b (user e))) (of_item i E)) / INR (length (of_item i E))) (seq 0 ni)).
Proof.
  intros m b E nu ni Hb Hf. unfold init_bi. apply mapM_total. intros i _. cbv beta.
  pose proof (positions_len _ item E i) as HL. pose proof (positions_take _ _ item snd E i) as HT.
  pose proof (positions_take _ _ item (fun e => Z.of_nat (user e)) E i) as HU.
  fold (of_item i E) in *.
  destruct (positions (map (fun e => Z.of_nat (item e)) E) i) as [|j js] eqn:EP.
  - destruct (of_item i E); [|discriminate]. cbn. f_equal. unfold Rdiv. ring.
  - rewrite HT, HU. cbn [bind]. rewrite <- (map_map user Z.of_nat).
    rewrite (take_at b nu) by (auto; apply Forall_forall; intros u Hu; apply in_map_iff in Hu; destruct Hu as [e [<- He]];
      apply filter_In in He; rewrite Forall_forall in Hf; apply Hf, He).
    cbn [bind]. rewrite HL. f_equal. f_equal. clear.
    induction (of_item i E); [reflexivity|]. cbn [map combine]. rewrite !rsum_cons, IHl. reflexivity.
Qed.

Lemma seen_ok : forall (l : list nat) n, Forall (fun x => x < n)%nat l ->
  seen (map Z.of_nat l) n = Ok (map Z.of_nat (filter (fun v => existsb (Nat.eqb v) l) (seq 0 n))).
Proof.
  intros l n Hf. unfold seen. rewrite existsb_nonneg. pose proof (zmax_lt l n Hf).
  replace (Nat.max n (Z.to_nat (zmax (map Z.of_nat l) + 1))) with n by lia. f_equal.
  generalize (seq 0 n). intros s. induction s; [reflexivity|]. cbn [map filter].
  assert (E : existsb (Z.eqb (Z.of_nat a)) (map Z.of_nat l) = existsb (Nat.eqb a) l).
  { clear. induction l; [reflexivity|]. cbn. rewrite IHl. f_equal.
    destruct (Z.eqb_spec (Z.of_nat a) (Z.of_nat a0)), (Nat.eqb_spec a a0); auto; lia. }
  rewrite E. destruct (existsb (Nat.eqb a) l); cbn [map]; rewrite IHs; reflexivity.
Qed.

Lemma put_ok : forall A (ixv : list (nat * A)) (l : list A),
  Forall (fun x => fst x < length l)%nat ixv -> NoDup (map fst ixv) ->
  exists l', np_put l (map (fun x => (Z.of_nat (fst x), snd x)) ixv) = Ok l' /\ length l' = length l /\
    (forall x, In x ixv -> nth_error l' (fst x) = Some (snd x)) /\
    (forall i, ~ In i (map fst ixv) -> nth_error l' i = nth_error l i).
Proof.
  intros A ixv. induction ixv as [|[i v] ixv IH]; intros l Hf Hn.
  - exists l. repeat split; auto. intros x [].
  - inversion Hf as [|? ? Hi Hf']; subst. inversion Hn as [|? ? Hni Hn']; subst. cbn [fst snd] in *.
    destruct (IH (set_nth l i v)) as [l' [E [L [H1 H2]]]]; auto.
    { eapply Forall_impl; [|apply Hf']. cbn. intros. rewrite set_nth_length. auto. }
    exists l'. cbn [map np_put foldM fst snd]. unfold np_put in E. cbn [foldM fst snd].
    rewrite np_set_nat by auto. cbn [bind]. rewrite set_nth_length in L.
    split; [exact E|]. split; auto. split.
    + intros x [<-|Hx]; auto. cbn [fst snd]. rewrite H2 by auto. rewrite nth_error_set_nth.
      destruct (Nat.eqb_spec i i); [|congruence]. destruct (Nat.ltb_spec i (length l)); auto; lia.
    + intros j Hj. cbn [map fst] in Hj. rewrite H2 by (intros Hc; apply Hj; right; auto).
      rewrite nth_error_set_nth. destruct (Nat.eqb_spec j i); auto. subst. exfalso. apply Hj. left. auto.
Qed.

Lemma combine_fst_in : forall A B (a : list A) (b : list B) j x y, nth_error a j = Some x -> nth_error b j = Some y ->
  In (x, y) (combine a b).
Proof.
  induction a; intros b j x y H1 H2; [destruct j; discriminate|]. destruct b; [destruct j; discriminate|].
  destruct j; cbn in *; [left; congruence | right; eapply IHa; eauto].
Qed.

Lemma fill_ok : forall n k mask draws, Forall (fun x => x < n)%nat mask -> NoDup mask ->
  length draws = length mask -> Forall (fun r => length r = k) draws ->
  exists m, fill n k (map Z.of_nat mask) draws = Ok m /\ length m = n /\ Forall (fun r => length r = k) m /\
    (forall j v, nth_error mask j = Some v -> nth v m [] = nth j draws []) /\
    (forall v, (v < n)%nat -> ~ In v mask -> nth v m [] = repeat 0 k).
Proof.
  intros n k mask draws Hf Hn Hl Hk.
  destruct (put_ok _ (combine mask draws) (repeat (repeat 0 k) n)) as [m [E [L [H1 H2]]]].
  - apply Forall_forall. intros [a b] Hab. apply in_combine_l in Hab. rewrite Forall_forall in Hf.
    rewrite repeat_length. apply Hf; auto.
  - rewrite map_fst_combine by auto. auto.
  - exists m. unfold fill. replace (combine (map Z.of_nat mask) draws) with
      (map (fun x => (Z.of_nat (fst x), snd x)) (combine mask draws)).
    2:{ clear. revert draws. induction mask; intros draws; destruct draws; cbn; congruence. }
    rewrite repeat_length in L. rewrite map_fst_combine in H2 by auto.
    assert (G1 : forall j v, nth_error mask j = Some v -> nth_error m v = Some (nth j draws [])).
    { intros j v Hj. assert (j < length mask)%nat by (apply nth_error_Some; congruence).
      apply (H1 (v, nth j draws [])). apply combine_fst_in with j; auto. apply nth_error_nth'. lia. }
    assert (G2 : forall v, (v < n)%nat -> ~ In v mask -> nth_error m v = Some (repeat 0 k)).
    { intros v Hv Hnv. rewrite H2 by auto. apply nth_error_repeat. auto. }
    split; auto. split; auto. split; [|split].
    + apply Forall_forall. intros r Hr. apply In_nth_error in Hr. destruct Hr as [v Hv].
      assert (Hvn : (v < n)%nat) by (rewrite <- L; apply nth_error_Some; congruence).
      destruct (in_dec Nat.eq_dec v mask) as [Hin|Hni].
      * apply In_nth_error in Hin. destruct Hin as [j Hj]. rewrite (G1 j v Hj) in Hv. injection Hv as <-.
        rewrite Forall_forall in Hk. apply Hk. apply nth_In.
        assert (j < length mask)%nat by (apply nth_error_Some; congruence). lia.
      * rewrite G2 in Hv by auto. injection Hv as <-. apply repeat_length.
    + intros j v Hj. apply nth_error_nth. eauto.
    + intros v Hv Hnv. apply nth_error_nth. eauto.
Qed.

Definition resid (nu ni k : nat) (c : list R) (e : scored) : R :=
  snd e - (param nu ni k c SMu + param nu ni k c (SBu (user e)) + param nu ni k c (SBi (item e))).

Lemma residual_var_ok : forall m b c E nu ni, length b = nu -> length c = ni ->
  Forall (fun e => user e < nu /\ item e < ni)%nat E ->
  residual_var m b c (zp (map fst E)) (map snd E) =
  Ok (rsum (map (fun e => (snd e - (m + at1 b (user e) + at1 c (item e))) ^ 2) E) / INR (length E)).
Proof.
  intros m b c E nu ni Hb Hc Hf. unfold residual_var, zp. rewrite !map_length.
  set (F := fun e : scored => (snd e - (m + at1 b (user e) + at1 c (item e))) ^ 2).
  rewrite (mapM_total _ _ _ (fun i => F (nth i E ((0, 0)%nat, 0)))).
  - cbn [bind]. rewrite <- (map_map (fun i => nth i E ((0, 0)%nat, 0)) F).
    rewrite <- list_as_map. reflexivity.
  - intros i Hi. apply in_seq in Hi.
    assert (He : In (nth i E ((0, 0)%nat, 0)) E) by (apply nth_In; lia).
    rewrite Forall_forall in Hf. destruct (Hf _ He) as [Hu Hit].
    rewrite (np_get_at _ _ _ (snd ((0, 0)%nat, 0))) by (rewrite map_length; lia). rewrite map_nth. cbn [bind].
    rewrite map_map.
    rewrite (np_get_at _ _ _ ((fun x : scored => (Z.of_nat (fst (fst x)), Z.of_nat (snd (fst x)))) ((0, 0)%nat, 0))) by (rewrite map_length; lia).
    rewrite (map_nth (fun x : scored => (Z.of_nat (fst (fst x)), Z.of_nat (snd (fst x))))). cbn [bind fst snd].
    rewrite (np_get_at _ _ _ 0) by (fold (user (nth i E ((0, 0)%nat, 0))); lia). cbn [bind].
    rewrite (np_get_at _ _ _ 0) by (fold (item (nth i E ((0, 0)%nat, 0))); lia). cbn [bind].
    reflexivity.
Qed.

(** what the initial vector looks like *)
Record initial (nu ni k : nat) (E : list scored) (D1 D2 : list (list R)) (c : list R) : Prop := {
  i_len : length c = coef_size nu ni k;
  (** mu is the mean score *)
  i_mu : param nu ni k c SMu * INR (length E) = rsum (map snd E);
  (** a user's bias is the mean deviation of the user's scores from mu *)
  i_bu : forall u, (u < nu)%nat -> param nu ni k c (SBu u) * INR (length (of_user u E)) =
           rsum (map (fun e => snd e - param nu ni k c SMu) (of_user u E));
  (** an item's bias is the mean of what mu and the users' biases leave over *)
  i_bi : forall i, (i < ni)%nat -> param nu ni k c (SBi i) * INR (length (of_item i E)) =
           rsum (map (fun e => snd e - (param nu ni k c SMu + param nu ni k c (SBu (user e)))) (of_item i E));
  (** everything about objects without events is zero *)
  i_zero : forall s, slot_ok nu ni k s -> unseen (map fst E) s -> param nu ni k c s = 0;
  (** the j-th drawn row goes to the j-th user (item) that has events *)
  i_p : forall j u f, nth_error (filter (fun v => existsb (Nat.eqb v) (map user E)) (seq 0 nu)) j = Some u -> (f < k)%nat ->
          param nu ni k c (SP u f) = at2 D1 j f;
  i_q : forall j i f, nth_error (filter (fun v => existsb (Nat.eqb v) (map item E)) (seq 0 ni)) j = Some i -> (f < k)%nat ->
          param nu ni k c (SQ i f) = at2 D2 j f }.

Lemma mask_props : forall n l, let mask := filter (fun v => existsb (Nat.eqb v) l) (seq 0 n) in
  Forall (fun x => x < n)%nat mask /\ NoDup mask /\ (forall v, In v mask -> In v l).
Proof.
  intros n l mask. unfold mask. split; [|split].
  - apply Forall_forall. intros x Hx. apply filter_In in Hx. destruct Hx as [Hx _]. apply in_seq in Hx. lia.
  - apply NoDup_filter, seq_NoDup.
  - intros v Hv. apply filter_In in Hv. destruct Hv as [_ Hv]. apply existsb_exists in Hv.
    destruct Hv as [y [Hy Ey]]. apply Nat.eqb_eq in Ey. subst. auto.
Qed.

Lemma mean_mult : forall s n, (n = 0%nat -> s = 0) -> s / INR n * INR n = s.
Proof.
  intros s n H. destruct n; [rewrite H by auto; cbn; unfold Rdiv; ring|].
  field. apply not_0_INR. lia.
Qed.

Lemma initial_ok : forall nu ni k E D1 D2 m b c p q,
  Forall (fun e => user e < nu /\ item e < ni)%nat E -> E <> [] ->
  m = rsum (map snd E) / INR (length E) ->
  b = map (fun u => rsum (map (fun e => snd e - m) (of_user u E)) / INR (length (of_user u E))) (seq 0 nu) ->
  c = map (fun i => rsum (map (fun e => snd e - (m + at1 b (user e))) (of_item i E)) / INR (length (of_item i E))) (seq 0 ni) ->
  length p = nu -> Forall (fun r => length r = k) p ->
  length q = ni -> Forall (fun r => length r = k) q ->
  (forall j v, nth_error (filter (fun v => existsb (Nat.eqb v) (map user E)) (seq 0 nu)) j = Some v -> nth v p [] = nth j D1 []) ->
  (forall v, (v < nu)%nat -> ~ In v (filter (fun v => existsb (Nat.eqb v) (map user E)) (seq 0 nu)) -> nth v p [] = repeat 0 k) ->
  (forall j v, nth_error (filter (fun v => existsb (Nat.eqb v) (map item E)) (seq 0 ni)) j = Some v -> nth v q [] = nth j D2 []) ->
  (forall v, (v < ni)%nat -> ~ In v (filter (fun v => existsb (Nat.eqb v) (map item E)) (seq 0 ni)) -> nth v q [] = repeat 0 k) ->
  initial nu ni k E D1 D2 (flatten (mkPar m b c p q)).
Proof.
  intros nu ni k E D1 D2 m b c p q Hf Hne Em Eb Ec Lp Fp Lq Fq P1 P2 Q1 Q2.
  assert (Hw : wf nu ni k (mkPar m b c p q)).
  { subst b c. unfold wf. cbn [bu bi pu qi]. rewrite !map_length, !seq_length. repeat split; auto. }
  assert (Z1 : forall f, nth f (repeat 0 k) 0 = 0).
  { intros f. destruct (Nat.lt_ge_cases f k); [apply nth_repeat|]. apply nth_overflow. rewrite repeat_length. lia. }
  constructor.
  - apply flatten_length; auto.
  - rewrite param_mu. cbn [mu]. rewrite Em. apply mean_mult. intros H. apply length_zero_iff_nil in H. contradiction.
  - intros u Hu. rewrite param_bu by auto. unfold at1. cbn [bu]. rewrite Eb. rewrite nth_map_seq by auto.
    rewrite param_mu. cbn [mu]. apply mean_mult. intros H. apply length_zero_iff_nil in H. rewrite H. reflexivity.
  - intros i Hi. rewrite param_bi by auto. unfold at1 at 1. cbn [bi]. rewrite Ec. rewrite nth_map_seq by auto.
    rewrite param_mu. cbn [mu].
    transitivity (rsum (map (fun e => snd e - (m + at1 b (user e))) (of_item i E))).
    + apply mean_mult. intros H. apply length_zero_iff_nil in H. rewrite H. reflexivity.
    + apply rsum_ext_in. intros e He. apply filter_In in He. rewrite Forall_forall in Hf.
      destruct (Hf e (proj1 He)). subst c. rewrite param_bu by auto. reflexivity.
  - assert (NU : forall u, ~ In u (map fst (map fst E)) -> of_user u E = []).
    { intros u Hu. unfold of_user. clear - Hu. induction E; [reflexivity|]. cbn [filter map In] in *.
      destruct (Nat.eqb_spec (user a) u); [exfalso; apply Hu; left; auto|]. apply IHE. tauto. }
    assert (NI : forall u, ~ In u (map snd (map fst E)) -> of_item u E = []).
    { intros u Hu. unfold of_item. clear - Hu. induction E; [reflexivity|]. cbn [filter map In] in *.
      destruct (Nat.eqb_spec (item a) u); [exfalso; apply Hu; left; auto|]. apply IHE. tauto. }
    intros [|u|i|u f|i f] Hs Hu; cbn [slot_ok unseen] in *; [contradiction| | | |].
    + rewrite param_bu by auto. unfold at1. cbn [bu]. rewrite Eb, nth_map_seq, (NU u Hu) by auto. cbn. unfold Rdiv. ring.
    + rewrite param_bi by auto. unfold at1 at 1. cbn [bi]. rewrite Ec, nth_map_seq, (NI i Hu) by auto. cbn. unfold Rdiv. ring.
    + destruct Hs. rewrite param_p by auto. unfold at2. cbn [pu]. rewrite P2; auto.
      intros Hc. apply mask_props in Hc. rewrite map_map in Hu. auto.
    + destruct Hs. rewrite param_q by auto. unfold at2. cbn [qi]. rewrite Q2; auto.
      intros Hc. apply mask_props in Hc. rewrite map_map in Hu. auto.
  - intros j u f Hj Hk. pose proof (mask_props nu (map user E)) as [M1 _]. rewrite Forall_forall in M1.
    rewrite param_p; auto; [|apply M1; eapply nth_error_In; eauto]. unfold at2. cbn [pu]. rewrite (P1 j u Hj). auto.
  - intros j u f Hj Hk. pose proof (mask_props ni (map item E)) as [M1 _]. rewrite Forall_forall in M1.
    rewrite param_q; auto; [|apply M1; eapply nth_error_In; eauto]. unfold at2. cbn [qi]. rewrite (Q1 j u Hj). auto.
Qed.

(** the generator returns an n x k array *)
Definition draws_ok (k : nat) (d : nat -> list (list R)) : Prop :=
  forall n, length (d n) = n /\ Forall (fun r => length r = k) (d n).

Theorem C39_logistic_initial : forall nu ni k (E : list scored) draw1 draw2,
  in_range nu ni (map fst E) -> E <> [] -> draws_ok k draw1 -> draws_ok k draw2 ->
  exists c n1 n2, lpmf_init nu ni k (ev_of (map fst E)) (map snd E) draw1 draw2 = Ok c /\
    initial nu ni k E (draw1 n1) (draw2 n2) c.
Proof.
  intros nu ni k E draw1 draw2 Hr Hne D1 D2.
  assert (Hf : Forall (fun e => user e < nu /\ item e < ni)%nat E).
  { unfold in_range in Hr. rewrite Forall_map in Hr. exact Hr. }
  assert (HfU : Forall (fun e => user e < nu)%nat E) by (eapply Forall_impl; [|apply Hf]; cbn; tauto).
  set (M1 := filter (fun v => existsb (Nat.eqb v) (map user E)) (seq 0 nu)).
  set (M2 := filter (fun v => existsb (Nat.eqb v) (map item E)) (seq 0 ni)).
  pose proof (mask_props nu (map user E)) as [A1 [A2 _]]. pose proof (mask_props ni (map item E)) as [B1 [B2 _]].
  fold M1 in A1, A2. fold M2 in B1, B2.
  destruct (D1 (length M1)) as [L1 F1]. destruct (D2 (length M2)) as [L2 F2].
  destruct (fill_ok nu k M1 _ A1 A2 L1 F1) as [p [Ep [Lp [Fp [P1 P2]]]]].
  destruct (fill_ok ni k M2 _ B1 B2 L2 F2) as [q [Eq [Lq [Fq [Q1 Q2]]]]].
  eexists _, (length M1), (length M2). split.
  - unfold lpmf_init. rewrite pairs_ok. cbn [bind]. unfold zp. rewrite !map_length.
    destruct (Nat.eqb_spec (length E) 0) as [H0|_]; [apply length_zero_iff_nil in H0; contradiction|].
    rewrite !map_map. cbn [fst snd].
    change (map (fun x : nat * nat * R => Z.of_nat (fst (fst x))) E) with (map (fun e => Z.of_nat (user e)) E).
    change (map (fun x : nat * nat * R => Z.of_nat (snd (fst x))) E) with (map (fun e => Z.of_nat (item e)) E).
    rewrite init_bu_ok. cbn [bind]. rewrite (init_bi_ok _ _ _ nu) by (auto; rewrite map_length, seq_length; auto).
    cbn [bind]. rewrite <- (map_map user Z.of_nat), <- (map_map item Z.of_nat).
    rewrite seen_ok by (apply Forall_map; auto). cbn [bind]. fold M1. rewrite map_length, Ep. cbn [bind].
    rewrite seen_ok by (apply Forall_map; eapply Forall_impl; [|apply Hf]; cbn; tauto). cbn [bind]. fold M2.
    rewrite map_length, Eq. cbn [bind]. reflexivity.
  - eapply initial_ok; eauto.
Qed.

(** PMF: the standard deviation of the draws is the root of the mean squared
    residual *)
Theorem C39_pmf_initial : forall nu ni k (E : list scored) draw1 draw2,
  in_range nu ni (map fst E) -> E <> [] -> (forall sd, draws_ok k (draw1 sd)) -> (forall sd, draws_ok k (draw2 sd)) ->
  exists c n1 n2 var, pmf_init nu ni k (ev_of (map fst E)) (map snd E) draw1 draw2 = Ok c /\
    initial nu ni k E (draw1 (sqrt var) n1) (draw2 (sqrt var) n2) c /\
    var * INR (length E) = rsum (map (fun e => resid nu ni k c e ^ 2) E).
Proof.
  intros nu ni k E draw1 draw2 Hr Hne D1 D2.
  assert (Hf : Forall (fun e => user e < nu /\ item e < ni)%nat E).
  { unfold in_range in Hr. rewrite Forall_map in Hr. exact Hr. }
  assert (HfU : Forall (fun e => user e < nu)%nat E) by (eapply Forall_impl; [|apply Hf]; cbn; tauto).
  set (M1 := filter (fun v => existsb (Nat.eqb v) (map user E)) (seq 0 nu)).
  set (M2 := filter (fun v => existsb (Nat.eqb v) (map item E)) (seq 0 ni)).
  pose proof (mask_props nu (map user E)) as [A1 [A2 _]]. pose proof (mask_props ni (map item E)) as [B1 [B2 _]].
  fold M1 in A1, A2. fold M2 in B1, B2.
  set (m := rsum (map snd E) / INR (length E)).
  set (b := map (fun u => rsum (map (fun e => snd e - m) (of_user u E)) / INR (length (of_user u E))) (seq 0 nu)).
  set (c := map (fun i => rsum (map (fun e => snd e - (m + at1 b (user e))) (of_item i E)) / INR (length (of_item i E))) (seq 0 ni)).
  set (var := rsum (map (fun e => (snd e - (m + at1 b (user e) + at1 c (item e))) ^ 2) E) / INR (length E)).
  assert (Lb : length b = nu) by (unfold b; rewrite map_length, seq_length; auto).
  assert (Lc : length c = ni) by (unfold c; rewrite map_length, seq_length; auto).
  destruct (D1 (sqrt var) (length M1)) as [L1 F1]. destruct (D2 (sqrt var) (length M2)) as [L2 F2].
  destruct (fill_ok nu k M1 _ A1 A2 L1 F1) as [p [Ep [Lp [Fp [P1 P2]]]]].
  destruct (fill_ok ni k M2 _ B1 B2 L2 F2) as [q [Eq [Lq [Fq [Q1 Q2]]]]].
  assert (Hi : initial nu ni k E (draw1 (sqrt var) (length M1)) (draw2 (sqrt var) (length M2)) (flatten (mkPar m b c p q))).
  { eapply initial_ok; eauto. }
  exists (flatten (mkPar m b c p q)), (length M1), (length M2), var. split; [|split; [exact Hi|]].
  - unfold pmf_init. rewrite pairs_ok. cbn [bind].
    assert (Lz : length (zp (map fst E)) = length E) by (unfold zp; rewrite !map_length; auto). rewrite Lz.
    destruct (Nat.eqb_spec (length E) 0) as [H0|_]; [apply length_zero_iff_nil in H0; contradiction|].
    assert (EU : map fst (zp (map fst E)) = map (fun e => Z.of_nat (user e)) E) by (unfold zp; rewrite !map_map; reflexivity).
    assert (EI : map snd (zp (map fst E)) = map (fun e => Z.of_nat (item e)) E) by (unfold zp; rewrite !map_map; reflexivity).
    rewrite EU, EI. fold m.
    rewrite init_bu_ok. cbn [bind]. fold b. rewrite (init_bi_ok _ _ _ nu) by auto. fold c.
    cbn [bind]. rewrite (residual_var_ok _ _ _ _ nu ni) by auto. fold var. cbn [bind].
    rewrite <- (map_map user Z.of_nat), <- (map_map item Z.of_nat).
    rewrite seen_ok by (apply Forall_map; auto). cbn [bind]. fold M1. rewrite map_length, Ep. cbn [bind].
    rewrite seen_ok by (apply Forall_map; eapply Forall_impl; [|apply Hf]; cbn; tauto). cbn [bind]. fold M2.
    rewrite map_length, Eq. cbn [bind]. reflexivity.
  - assert (Hw : wf nu ni k (mkPar m b c p q)) by (unfold wf; cbn [bu bi pu qi]; repeat split; auto).
    transitivity (rsum (map (fun e => (snd e - (m + at1 b (user e) + at1 c (item e))) ^ 2) E)).
    + unfold var. apply mean_mult. intros H0. apply length_zero_iff_nil in H0. contradiction.
    + apply rsum_ext_in. intros e He. rewrite Forall_forall in Hf. destruct (Hf e He). unfold resid.
      rewrite param_mu, param_bu, param_bi by auto. reflexivity.
Qed.

(** an unseen object therefore keeps zero parameters throughout training
    (C40), and is scored like an unknown one *)
Corollary C39_unseen_initial : forall nu ni k (E : list scored) D1 D2 c s,
  initial nu ni k E D1 D2 c -> in_range nu ni (map fst E) -> slot_ok nu ni k s -> unseen (map fst E) s ->
  forall C c', visited (fun x => pmf_grad C nu ni k x (ev_of (map fst E)) (map snd E)) c c' \/
               visited (fun x => lpmf_grad C nu ni k x (ev_of (map fst E)) (map snd E)) c c' ->
               param nu ni k c' s = 0.
Proof.
  intros nu ni k E D1 D2 c s [L _ _ _ Z _ _] Hr Hs Hu C c' H.
  eapply C40_unseen_stays_zero; eauto. rewrite !map_length. auto.
Qed.

Example C39_nonvacuous :
  let E : list scored := [((0, 1)%nat, 4); ((2, 1)%nat, 2); ((0, 1)%nat, 3)] in
  in_range 3 2 (map fst E) /\ E <> [] /\ draws_ok 1 (fun n => repeat [7] n) /\
  (* mean score 3; user 0 deviates by 1/2, user 2 by -1 *)
  (forall c D1 D2, initial 3 2 1 E D1 D2 c -> param 3 2 1 c SMu = 3 /\ param 3 2 1 c (SBu 0) = 1 / 2 /\
     param 3 2 1 c (SBu 1) = 0 /\ param 3 2 1 c (SBu 2) = - 1 /\ param 3 2 1 c (SBi 1) = 0).
Proof.
  cbv zeta. split; [repeat constructor|]. split; [discriminate|]. split.
  - intros n. rewrite repeat_length. split; auto. apply Forall_forall. intros r Hr. apply repeat_spec in Hr. subst. reflexivity.
  - intros c D1 D2 H. pose proof (i_mu _ _ _ _ _ _ _ H) as Hm. cbn in Hm.
    assert (Em : param 3 2 1 c SMu = 3) by lra.
    pose proof (i_bu _ _ _ _ _ _ _ H 0%nat ltac:(lia)) as H0. pose proof (i_bu _ _ _ _ _ _ _ H 2%nat ltac:(lia)) as H2.
    pose proof (i_bi _ _ _ _ _ _ _ H 1%nat ltac:(lia)) as H1.
    rewrite Em in *. cbn in H0, H1, H2.
    assert (E0 : param 3 2 1 c (SBu 0) = 1 / 2) by lra. assert (E2 : param 3 2 1 c (SBu 2) = -1) by lra.
    unfold user in H1. cbn in H1. rewrite E0, E2 in H1.
    repeat split; auto; try lra.
    apply (i_zero _ _ _ _ _ _ _ H); cbn; lia.
Qed.
Print Assumptions C39_logistic_initial.
Print Assumptions C39_pmf_initial.
