(** * Exchange of topics in MultinomialPLSA (C91) and topics that start alike (C92) *)
From Coq Require Import String List ZArith Reals Lra Lia Bool Permutation.
From Verif Require Import M_Py P_Py P_RSum M_MF P_MF M_PLSA P_PLSA P_PLSA2 T_PLSA T_MF3 T_PLSA3 T_PLSA2 T_Converge.
Import ListNotations.
Open Scope R_scope.

(** the columns of a table in another order; [s] lists the old numbers *)
Definition exchange (s : list nat) (row : list R) : list R := map (fun z => nth z row 0) s.
Definition exchange_topics (s : list nat) (p : params) : params :=
  mkParams (exchange s (pZ p)) (map (exchange s) (pRgZ p)) (map (exchange s) (pXgZ p)) (map (exchange s) (pYgZ p)).
(** the same problem, started from exchanged responsibilities *)
Definition exchange_start (s : list nat) (P : problem) : problem :=
  mkProblem (q_alpha P) (q_k P) (q_nl P) (q_nu P) (q_ni P) (q_evs P) (map (exchange s) (q_start P)).

(** ** Lemmas about a permutation of the numbers below [k] *)
Section Perm.
  Variables (k : nat) (s : list nat).
  Hypothesis Hs : Permutation s (seq 0 k).
  Notation pi := (fun z => nth z s 0%nat).

  Lemma s_length : length s = k.
  Proof. rewrite (Permutation_length Hs). apply seq_length. Qed.

  Lemma s_as_map : s = map pi (seq 0 k).
  Proof. rewrite <- s_length. apply list_as_map. Qed.

  Lemma pi_lt : forall z, (z < k)%nat -> (pi z < k)%nat.
  Proof.
    intros z Hz. assert (H : In (pi z) s) by (apply nth_In; rewrite s_length; auto).
    apply (Permutation_in _ Hs) in H. apply in_seq in H. lia.
  Qed.

  Lemma sm_pi : forall f, sm k (fun z => f (pi z)) = sm k f.
  Proof.
    intros f. unfold sm. rewrite <- (map_map pi f), <- s_as_map. apply rsum_map_perm. auto.
  Qed.

  Lemma exchange_length : forall row, length (exchange s row) = k.
  Proof. intros. unfold exchange. rewrite map_length. apply s_length. Qed.

  Lemma exchange_at : forall row z, (z < k)%nat -> at1 (exchange s row) z = at1 row (pi z).
  Proof.
    intros row z Hz. unfold at1, exchange. rewrite s_as_map at 1. rewrite map_map, nth_map_seq by auto. reflexivity.
  Qed.

  Lemma at2_exchange : forall m v z, (v < length m)%nat -> (z < k)%nat -> at2 (map (exchange s) m) v z = at2 m v (pi z).
  Proof.
    intros m v z Hv Hz. unfold at2. rewrite (nth_indep _ [] (exchange s [])) by (rewrite map_length; auto).
    rewrite map_nth. apply (exchange_at (nth v m []) z Hz).
  Qed.

  Lemma exchange_seq : forall f, exchange s (map f (seq 0 k)) = map (fun z => f (pi z)) (seq 0 k).
  Proof.
    intros f. unfold exchange. rewrite s_as_map at 1. rewrite map_map. apply map_ext_in. intros z Hz. apply in_seq in Hz.
    apply nth_map_seq. apply pi_lt. lia.
  Qed.

  Lemma exchange_tab2 : forall n f, map (exchange s) (tab2 n k f) = tab2 n k (fun v z => f v (pi z)).
  Proof. intros n f. unfold tab2. rewrite map_map. apply map_ext. intros v. apply exchange_seq. Qed.

  Definition fpi (t : fpar) : fpar :=
    mkF (fun z => fz t (pi z)) (fun v z => fr t v (pi z)) (fun v z => fx t v (pi z)) (fun v z => fy t v (pi z)).

  Lemma exchange_tab : forall nl nu ni t, exchange_topics s (tab_of k nl nu ni t) = tab_of k nl nu ni (fpi t).
  Proof.
    intros nl nu ni t. unfold exchange_topics, tab_of. cbn [pZ pRgZ pXgZ pYgZ fpi fz fr fx fy].
    rewrite exchange_seq, !exchange_tab2. reflexivity.
  Qed.

  Lemma exchange_shape : forall n m, shape2 n k m -> shape2 n k (map (exchange s) m).
  Proof.
    intros n m [H1 H2]. split; [rewrite map_length; auto|]. apply Forall_map, Forall_forall. intros. apply exchange_length.
  Qed.
  Lemma exchange_pshape : forall nl nu ni p, params_shape k nl nu ni p -> params_shape k nl nu ni (exchange_topics s p).
  Proof.
    intros nl nu ni p [H0 [H1 [H2 H3]]]. unfold params_shape, exchange_topics. cbn [pZ pRgZ pXgZ pYgZ].
    split; [apply exchange_length|]. split; [|split]; apply exchange_shape; auto.
  Qed.

  Lemma tables_eq : forall nl nu ni t t', (forall z, (z < k)%nat -> fz t z = fz t' z) ->
    (forall v z, (v < nl)%nat -> (z < k)%nat -> fr t v z = fr t' v z) ->
    (forall v z, (v < nu)%nat -> (z < k)%nat -> fx t v z = fx t' v z) ->
    (forall v z, (v < ni)%nat -> (z < k)%nat -> fy t v z = fy t' v z) -> tab_of k nl nu ni t = tab_of k nl nu ni t'.
  Proof.
    intros nl nu ni t t' H0 H1 H2 H3. unfold tab_of. f_equal; try (apply tab2_ext; auto).
    apply map_ext_in. intros z Hz. apply in_seq in Hz. apply H0. lia.
  Qed.

  Lemma mfun_pi : forall alpha nl nu ni N S U I q q',
    (forall e z, (e < N)%nat -> (z < k)%nat -> q' e z = q e (pi z)) ->
    tab_of k nl nu ni (mfun alpha k nl nu ni N S U I q') = tab_of k nl nu ni (fpi (mfun alpha k nl nu ni N S U I q)).
  Proof.
    intros alpha nl nu ni N S U I q q' Hq.
    assert (W : forall g v z, (z < k)%nat -> wc N g q' v z = wc N g q v (pi z)).
    { intros g v z Hz. apply sm_ext. intros e He. destruct (Nat.eqb (g e) v); auto. }
    assert (D : forall n g v z, (z < k)%nat -> sd alpha N n g q' v z = sd alpha N n g q v (pi z)).
    { intros n g v z Hz. unfold sd. rewrite W by auto. f_equal. apply sm_ext. intros. rewrite W; auto. }
    assert (Z0 : forall z, (z < k)%nat -> sm N (fun e => q' e z) = sm N (fun e => q e (pi z))) by (intros; apply sm_ext; auto).
    apply tables_eq; cbn [mfun fpi fz fr fx fy]; auto.
    intros z Hz. rewrite Z0 by auto. f_equal.
    rewrite <- (sm_pi (fun z => sm N (fun e => q e z) + alpha)). apply sm_ext. intros. rewrite Z0; auto.
  Qed.
End Perm.

Section Exchange.
  Variables (P : problem) (s : list nat).
  Hypothesis HP : problem_ok P.
  Hypothesis Hs : Permutation s (seq 0 (q_k P)).
  Notation P' := (exchange_start s P).
  Notation k := (q_k P). Notation nl := (q_nl P). Notation nu := (q_nu P). Notation ni := (q_ni P).
  Notation N := (length (q_evs P)).
  Notation SE := (se (q_evs P)). Notation UE := (ue (q_evs P)). Notation IE := (ie (q_evs P)).
  Notation pi := (fun z => nth z s 0%nat).

  Lemma exchange_row : forall (Q : R -> Prop) row, length row = k -> Forall Q row -> Forall Q (exchange s row).
  Proof.
    intros Q row Hl H. unfold exchange. apply Forall_map, Forall_forall. intros z Hz. rewrite Forall_forall in H. apply H.
    apply nth_In. apply (Permutation_in _ Hs) in Hz. apply in_seq in Hz. lia.
  Qed.

  Lemma exchange_rows : forall (Q : R -> Prop) m, Forall (fun row => length row = k) m -> Forall (Forall Q) m ->
    Forall (Forall Q) (map (exchange s) m).
  Proof.
    intros Q m Hl H. apply Forall_map, Forall_forall. intros row Hr. rewrite Forall_forall in Hl, H. apply exchange_row; auto.
  Qed.

  Lemma exchange_ok : problem_ok P'.
  Proof.
    destruct HP as [H1 [H2 [H3 [H4 [H5 [H6 [H7 H8]]]]]]]. unfold problem_ok, exchange_start, start_ok.
    cbn [q_alpha q_k q_nl q_nu q_ni q_evs q_start]. rewrite map_length.
    repeat (split; [auto; fail|]). split; [|split].
    - apply Forall_map, Forall_forall. intros. apply exchange_length. auto.
    - apply exchange_rows; auto.
    - destruct H8; [left; auto|right; apply exchange_rows; auto].
  Qed.

  Lemma fun_exchange : forall p, params_shape k nl nu ni p -> let t := fun_of (exchange_topics s p) in let t' := fpi s (fun_of p) in
    (forall z, (z < k)%nat -> fz t z = fz t' z) /\
    (forall v z, (v < nl)%nat -> (z < k)%nat -> fr t v z = fr t' v z) /\
    (forall v z, (v < nu)%nat -> (z < k)%nat -> fx t v z = fx t' v z) /\
    (forall v z, (v < ni)%nat -> (z < k)%nat -> fy t v z = fy t' v z).
  Proof.
    intros p [S0 [[S1 _] [[S2 _] [S3 _]]]]. cbn zeta. cbn [fun_of exchange_topics fpi fz fr fx fy pZ pRgZ pXgZ pYgZ].
    split; [intros; apply exchange_at with k; auto|]. repeat split; intros; apply at2_exchange with k; auto; lia.
  Qed.

  Lemma J_exchange : forall p, params_shape k nl nu ni p -> forall e z, (e < N)%nat -> (z < k)%nat ->
    J SE UE IE (fun_of (exchange_topics s p)) e z = J SE UE IE (fun_of p) e (pi z).
  Proof.
    intros p Sp e z He Hz. destruct (fun_exchange p Sp) as [F0 [F1 [F2 F3]]]. destruct (ranges P HP) as [R1 [R2 R3]].
    unfold J. rewrite F0, F1, F2, F3 by auto. reflexivity.
  Qed.

  Lemma Jsum_exchange : forall p, params_shape k nl nu ni p -> forall e, (e < N)%nat ->
    sm k (J SE UE IE (fun_of (exchange_topics s p)) e) = sm k (J SE UE IE (fun_of p) e).
  Proof.
    intros p Sp e He. rewrite <- (sm_pi k s Hs (J SE UE IE (fun_of p) e)). apply sm_ext. intros z Hz. apply J_exchange; auto.
  Qed.

  Lemma nll_exchange : forall p, params_shape k nl nu ni p ->
    nll k N SE UE IE (fun_of (exchange_topics s p)) = nll k N SE UE IE (fun_of p).
  Proof.
    intros p Sp. unfold nll. f_equal. apply sm_ext. intros e He. rewrite Jsum_exchange; auto.
  Qed.

  Lemma state_exchange : forall p, state P p -> state P' (exchange_topics s p).
  Proof.
    intros p [Sp [G0 [G1 [G2 [G3 G4]]]]]. split; [apply (exchange_pshape k s Hs nl nu ni); auto|].
    destruct (fun_exchange p Sp) as [F0 [F1 [F2 F3]]].
    assert (T : forall n g f, good_table (q_alpha P) k N n g f -> good_table (q_alpha P) k N n g (fun v z => f v (pi z))).
    { intros n g f [T1 [T2 T3]]. split; [|split].
      - intros z Hz. apply T1. apply (pi_lt k s Hs); auto.
      - intros v z Hv Hz. apply T2; auto. apply (pi_lt k s Hs); auto.
      - intros v z Hv Hz. apply T3; auto. apply (pi_lt k s Hs); auto. }
    apply (good_ext P' (fpi s (fun_of p))); try (intros; symmetry; auto; fail).
    split; [|split; [|split; [|split]]].
    - rewrite <- G0. apply (sm_pi k s Hs).
    - intros z Hz. apply G1. apply (pi_lt k s Hs); auto.
    - apply (T nl SE (fr (fun_of p))); auto.
    - apply (T nu UE (fx (fun_of p))); auto.
    - apply (T ni IE (fy (fun_of p))); auto.
  Qed.

  Lemma first_exchange : forall p, first_step P = Ok p -> first_step P' = Ok (exchange_topics s p).
  Proof.
    intros p E. pose proof exchange_ok as HP'. destruct (start_weights P HP) as [W Q]. destruct (start_weights P' HP') as [W' Q'].
    pose proof (N_pos P HP) as HN. destruct HP as [Ha [Hk [_ [Hev _]]]].
    unfold first_step in *. cbn [exchange_start q_alpha q_k q_nl q_nu q_ni q_evs q_start] in *.
    rewrite m_step_ok in E by auto. rewrite m_step_ok by auto. inversion E as [E']. f_equal. rewrite (exchange_tab k s Hs).
    apply mfun_pi; auto. intros e z He Hz. apply at2_exchange with k; auto. destruct Q as [-> _]. auto.
  Qed.

  Lemma iteration_exchange : forall p p' c, state P p -> iteration P p = Ok (p', c) ->
    iteration P' (exchange_topics s p) = Ok (exchange_topics s p', c).
  Proof.
    intros p p' c S E. destruct (iteration_state P HP p S) as [p1 [E1 [S1 F1]]]. rewrite E in E1. inversion E1 as [[Ep Ec]]. rewrite <- Ep in F1, S1, Ec. clear E1.
    destruct (iteration_state P' exchange_ok _ (state_exchange p S)) as [p2 [E2 [S2 F2]]].
    assert (X : p2 = exchange_topics s p').
    { rewrite F1, F2, (exchange_tab k s Hs). cbn [exchange_start q_alpha q_k q_nl q_nu q_ni q_evs q_start].
      apply mfun_pi; auto. intros e z He Hz. destruct S as [Sp _]. unfold post. rewrite J_exchange, Jsum_exchange by auto. reflexivity. }
    rewrite E2, X. cbn [exchange_start q_k q_evs]. rewrite nll_exchange by apply S1. rewrite ?Ec, ?Ep. reflexivity.
  Qed.

  Lemma after_exchange : forall n p, after P n p -> after P' n (exchange_topics s p).
  Proof.
    intros n p H. induction H as [p H|n p p' c H IH E].
    - constructor. apply first_exchange. auto.
    - econstructor; [exact IH|]. apply iteration_exchange; eauto. eapply after_state; eauto.
  Qed.

  Lemma loss_exchange : forall p, state P p -> loss_of P' (exchange_topics s p) = loss_of P p.
  Proof.
    intros p S. rewrite (loss_state P HP p S), (loss_state P' exchange_ok _ (state_exchange p S)).
    cbn [exchange_start q_k q_evs]. rewrite nll_exchange by apply S. reflexivity.
  Qed.

  Lemma loop_exchange : forall tol its iter cur pre p, state P p ->
    exists p' it c, state P p' /\
    em_loop (q_alpha P) tol k nl nu ni N (uis_of (q_evs P)) (sc_of (q_evs P)) its iter cur pre p = Ok (p', it, c) /\
    em_loop (q_alpha P) tol k nl nu ni N (uis_of (q_evs P)) (sc_of (q_evs P)) its iter cur pre (exchange_topics s p) =
      Ok (exchange_topics s p', it, c).
  Proof.
    intros tol its. induction its as [|i its IH]; intros iter cur pre p S; [exists p, iter, cur; auto|]. cbn [em_loop].
    destruct (iteration_state P HP p S) as [p1 [E1 [S1 _]]]. pose proof (iteration_exchange _ _ _ S E1) as E2.
    unfold iteration in E1, E2. cbn [exchange_start q_alpha q_k q_nl q_nu q_ni q_evs q_start] in E2. rewrite E1, E2. cbn [bind].
    destruct (converged tol pre _); [eauto 10|]. apply IH. auto.
  Qed.

  Lemma size_exchange : forall m n, shape2 n k m -> length (concat (map (exchange s) m)) = length (concat m).
  Proof.
    intros m n [_ H]. induction H as [|row m Hr H IH]; [reflexivity|]. cbn [map concat]. rewrite !app_length, IH, Hr.
    rewrite (exchange_length k s Hs). auto.
  Qed.
End Exchange.

(** ** C91: the numbering of the topics does not matter *)
(** training from exchanged responsibilities gives the same report, and the
    same parameters with the topics exchanged *)
Theorem C91_fit : forall P s tol maxiter, problem_ok P -> Permutation s (seq 0 (q_k P)) ->
  problem_ok (exchange_start s P) /\
  exists p rep, fit_of P tol maxiter = Ok (p, rep) /\ fit_of (exchange_start s P) tol maxiter = Ok (exchange_topics s p, rep).
Proof.
  intros P s tol maxiter HP Hs. pose proof (exchange_ok P s HP Hs) as HP'. split; [auto|].
  destruct (first_state P HP) as [p0 [E0 S0]]. pose proof (first_exchange P s HP Hs p0 E0) as E0'.
  pose proof (loss_exchange P s HP Hs p0 S0) as L. pose proof (loss_state P HP p0 S0) as L0. rewrite L0 in L.
  unfold fit_of, em_fit. unfold first_step in E0, E0'. unfold loss_of in L, L0.
  cbn [exchange_start q_alpha q_k q_nl q_nu q_ni q_evs q_start] in *. rewrite E0, E0'. cbn [bind]. rewrite L, L0. cbn [bind].
  destruct (loop_exchange P s HP Hs tol (map Z.of_nat (seq 0 (Z.to_nat maxiter))) 0%Z None
    (nll (q_k P) (length (q_evs P)) (se (q_evs P)) (ue (q_evs P)) (ie (q_evs P)) (fun_of p0) / INR (length (q_evs P))) p0 S0)
    as (p & it & c & S1 & E1 & E2).
  rewrite E1, E2. cbn [bind]. eexists p, _. split; [reflexivity|]. f_equal. f_equal.
  destruct S1 as [[A0 [A1 [A2 A3]]] _]. cbn [exchange_topics pZ pRgZ pXgZ pYgZ].
  rewrite (size_exchange P s Hs _ _ A1), (size_exchange P s Hs _ _ A2), (size_exchange P s Hs _ _ A3).
  rewrite (exchange_length _ s Hs), A0. reflexivity.
Qed.

(** and the same predictions, for every row *)
Theorem C91_predictions : forall P s n p b lv row, problem_ok P -> Permutation s (seq 0 (q_k P)) -> after P n p ->
  after (exchange_start s P) n (exchange_topics s p) /\
  plsa_raw_row b (trained P (exchange_topics s p) lv) row = plsa_raw_row b (trained P p lv) row.
Proof.
  intros P s n p b lv row HP Hs Hp. split; [apply after_exchange; auto|].
  destruct (after_state P HP n p Hp) as [[S0 [S1 [S2 S3]]] _]. set (k := q_k P) in *.
  assert (U : exchange s (repeat 1 k) = repeat 1 k).
  { apply nth_ext with 0 0; [rewrite (exchange_length k s Hs), repeat_length; auto|]. intros z Hz.
    rewrite (exchange_length k s Hs) in Hz. change (at1 (exchange s (repeat 1 k)) z = nth z (repeat 1 k) 0).
    rewrite (exchange_at k s Hs) by auto. unfold at1.
    rewrite !(nth_indep (repeat 1 k) 0 1), !nth_repeat; auto; rewrite repeat_length; auto. apply (pi_lt k s Hs); auto. }
  assert (G : forall m u, shape2 (length m) k m ->
    (exists x, np_get (m ++ [repeat 1 k]) u = Ok x /\ length x = k /\ np_get (map (exchange s) m ++ [repeat 1 k]) u = Ok (exchange s x)) \/
    (exists e, np_get (m ++ [repeat 1 k]) u = Raise e /\ np_get (map (exchange s) m ++ [repeat 1 k]) u = Raise e)).
  { intros m u [_ Hm]. assert (map (exchange s) m ++ [repeat 1 k] = map (exchange s) (m ++ [repeat 1 k])) as ->.
    { rewrite map_app. cbn [map]. rewrite U. reflexivity. }
    unfold np_get. rewrite map_length. destruct (np_norm _ u) as [j|]; [|right; eauto].
    rewrite nth_error_map. destruct (nth_error (m ++ [repeat 1 k]) j) as [x|] eqn:Ex; cbn [option_map]; [left|right; eauto].
    exists x. split; auto. split; auto. apply nth_error_In, in_app_iff in Ex. destruct Ex as [Ex|[<-|[]]]; [|apply repeat_length].
    rewrite Forall_forall in Hm. auto. }
  unfold plsa_raw_row, trained, with_unknown. cbn [theta levels pZ pRgZ pXgZ pYgZ exchange_topics]. fold k.
  destruct (np_get row 0) as [u|]; [|reflexivity]. cbn [bind]. destruct (np_get row 1) as [i|]; [|reflexivity]. cbn [bind].
  assert (S2' : shape2 (length (pXgZ p)) k (pXgZ p)) by (destruct S2; split; auto).
  assert (S3' : shape2 (length (pYgZ p)) k (pYgZ p)) by (destruct S3; split; auto).
  destruct (G _ u S2') as [[x [-> [X ->]]]|[e [-> ->]]]; [|reflexivity]. cbn [bind].
  destruct (G _ i S3') as [[y [-> [Y ->]]]|[e [-> ->]]]; [|reflexivity]. cbn [bind].
  assert (M4 : forall a r x y, length a = k -> length r = k -> length x = k -> length y = k ->
    (do a' <- mul_rows a r; do b' <- mul_rows a' x; do c <- mul_rows b' y; Ok (rsum c)) =
    Ok (sm k (fun z => at1 a z * at1 r z * at1 x z * at1 y z))).
  { intros a r x' y' La Lr Lx Ly. pose proof (mul4_ok k a r x' y' La Lr Lx Ly) as E.
    destruct (mul_rows a r) as [a'|]; [|discriminate]. cbn [bind] in *. destruct (mul_rows a' x') as [c|]; [|discriminate].
    cbn [bind] in *. rewrite E. reflexivity. }
  match goal with |- bind ?A ?f = bind ?B ?g => assert (E : A = B); [|rewrite E; reflexivity] end.
  destruct S1 as [_ S1]. rewrite Forall_forall in S1.
  rewrite (mapM_total _ _ _ (fun r => sm k (fun z => at1 (pZ p) z * at1 r z * at1 x z * at1 y z)) (pRgZ p)).
  2:{ intros r Hr. apply M4; auto. }
  rewrite (mapM_total _ _ _ (fun r => sm k (fun z => at1 (exchange s (pZ p)) z * at1 r z * at1 (exchange s x) z * at1 (exchange s y) z))).
  2:{ intros r Hr. apply in_map_iff in Hr. destruct Hr as [r' [<- Hr]]. apply M4; apply (exchange_length k s Hs). }
  f_equal. rewrite map_map. apply map_ext. intros r.
  rewrite <- (sm_pi k s Hs (fun z => at1 (pZ p) z * at1 r z * at1 x z * at1 y z)).
  apply sm_ext. intros z Hz. rewrite !(exchange_at k s Hs) by auto. reflexivity.
Qed.

(** ** Topics that start alike *)
Lemma mfun_tied : forall alpha k nl nu ni N S U I q a b, (forall e, (e < N)%nat -> q e a = q e b) ->
  let t := mfun alpha k nl nu ni N S U I q in
  fz t a = fz t b /\ (forall v, fr t v a = fr t v b) /\ (forall v, fx t v a = fx t v b) /\ (forall v, fy t v a = fy t v b).
Proof.
  intros alpha k nl nu ni N S U I q a b H. cbn zeta. cbn [mfun fz fr fx fy].
  assert (W : forall g v, wc N g q v a = wc N g q v b).
  { intros g v. apply sm_ext. intros e He. rewrite H by auto. auto. }
  assert (D : forall n g v, sd alpha N n g q v a = sd alpha N n g q v b).
  { intros n g v. unfold sd. rewrite W. f_equal. apply sm_ext. intros. rewrite W. auto. }
  split; [|auto]. f_equal. f_equal. apply sm_ext. auto.
Qed.

(** topics with the same responsibilities at the start have the same parameters
    after every iteration: EM cannot tell them apart *)
Theorem C92_tied : forall P n p a b, problem_ok P -> after P n p -> (a < q_k P)%nat -> (b < q_k P)%nat ->
  (forall row, In row (q_start P) -> nth a row 0 = nth b row 0) ->
  nth a (pZ p) 0 = nth b (pZ p) 0 /\
  forall m row, In m [pRgZ p; pXgZ p; pYgZ p] -> In row m -> nth a row 0 = nth b row 0.
Proof.
  intros P n p a b HP Hp Ha Hb Hq.
  set (tied := fun t : fpar => fz t a = fz t b /\ (forall v, (v < q_nl P)%nat -> fr t v a = fr t v b) /\
    (forall v, (v < q_nu P)%nat -> fx t v a = fx t v b) /\ (forall v, (v < q_ni P)%nat -> fy t v a = fy t v b)).
  assert (T : forall q t, (forall e, (e < length (q_evs P))%nat -> q e a = q e b) ->
    t = tab_of (q_k P) (q_nl P) (q_nu P) (q_ni P) (mfun (q_alpha P) (q_k P) (q_nl P) (q_nu P) (q_ni P) (length (q_evs P))
      (se (q_evs P)) (ue (q_evs P)) (ie (q_evs P)) q) -> tied (fun_of t)).
  { intros q t Hqq ->. destruct (mfun_tied (q_alpha P) (q_k P) (q_nl P) (q_nu P) (q_ni P) (length (q_evs P))
      (se (q_evs P)) (ue (q_evs P)) (ie (q_evs P)) q a b Hqq) as [M0 [M1 [M2 M3]]].
    destruct (fun_tab P (mfun (q_alpha P) (q_k P) (q_nl P) (q_nu P) (q_ni P) (length (q_evs P))
      (se (q_evs P)) (ue (q_evs P)) (ie (q_evs P)) q)) as [F0 [F1 [F2 F3]]].
    split; [rewrite <- !F0; auto|]. repeat split; intros.
    - rewrite <- !F1; auto.
    - rewrite <- !F2; auto.
    - rewrite <- !F3; auto. }
  assert (R : tied (fun_of p)).
  { induction Hp as [p E|n p p' c Hp IH E].
    - destruct (start_weights P HP) as [W Q]. unfold first_step in E. destruct (step_state P HP _ _ Q W E) as [E' _].
      apply (T _ _ (fun e He => Hq (nth e (q_start P) []) ltac:(apply nth_In; destruct Q as [-> _]; auto)) E').
    - destruct (iteration_state P HP p (after_state P HP n p Hp)) as [p1 [E1 [_ F1]]]. assert (X : p1 = p') by congruence. rewrite X in F1.
      refine (T _ _ _ F1). intros e He. destruct IH as [I0 [I1 [I2 I3]]]. destruct (ranges P HP) as [R1 [R2 R3]].
      unfold post, J. rewrite I0, I1, I2, I3 by auto. reflexivity. }
  destruct R as [R0 [R1 [R2 R3]]]. split; [exact R0|].
  destruct (after_state P HP n p Hp) as [[S0 [S1 [S2 S3]]] _].
  assert (X : forall m c, shape2 c (q_k P) m -> (forall v, (v < c)%nat -> at2 m v a = at2 m v b) -> forall row, In row m -> nth a row 0 = nth b row 0).
  { intros m c [Hc _] H row Hr. destruct (In_nth _ _ [] Hr) as [v [Hv <-]]. apply H. lia. }
  intros m row Hm. cbn [In] in Hm. destruct Hm as [<-|[<-|[<-|[]]]].
  - apply (X _ _ S1 R1).
  - apply (X _ _ S2 R2).
  - apply (X _ _ S3 R3).
Qed.

(** how often [v] occurs *)
Definition often (v : nat) (ids : list nat) : R := INR (count_occ Nat.eq_dec ids v).

(** relative frequencies of the values below [n], with [a] pseudo counts for each, once per topic *)
Definition frequencies (k : nat) (a : R) (n : nat) (ids : list nat) : list (list R) :=
  map (fun v => repeat ((often v ids + a) / (INR (length ids) + INR n * a)) k) (seq 0 n).

Definition marginals (P : problem) : params :=
  let a := INR (q_k P) * q_alpha P in
  mkParams (repeat (/ INR (q_k P)) (q_k P))
    (frequencies (q_k P) a (q_nl P) (map snd (q_evs P)))
    (frequencies (q_k P) a (q_nu P) (map (fun x : rating => fst (fst x)) (q_evs P)))
    (frequencies (q_k P) a (q_ni P) (map (fun x : rating => snd (fst x)) (q_evs P))).

Lemma wc_const : forall g N (c : R) q v z, (forall e, (e < N)%nat -> q e z = c) ->
  wc N g q v z = often v (map g (seq 0 N)) * c.
Proof.
  intros g N c q v z H. unfold wc, often, sm.
  assert (X : forall l, (forall e, In e l -> q e z = c) ->
    rsum (map (fun e => if Nat.eqb (g e) v then q e z else 0) l) = INR (count_occ Nat.eq_dec (map g l) v) * c).
  { induction l as [|e l IH]; intros Hl; [cbn; ring|]. cbn [map rsum count_occ].
    change (rsum (?x :: ?y)) with (x + rsum y). rewrite IH by (intros; apply Hl; right; auto).
    destruct (Nat.eqb_spec (g e) v) as [E|E]; destruct (Nat.eq_dec (g e) v) as [E'|E']; try contradiction.
    - rewrite (Hl e (or_introl eq_refl)), S_INR. ring.
    - ring. }
  apply X. intros e He. apply in_seq in He. apply H. lia.
Qed.

Lemma often_total : forall n ids, (forall v, In v ids -> (v < n)%nat) -> sm n (fun v => often v ids) = INR (length ids).
Proof.
  intros n ids. induction ids as [|x ids IH]; intros H.
  - cbn [length]. unfold often. cbn. rewrite sm_const. ring.
  - cbn [length]. rewrite S_INR, <- IH by (intros; apply H; right; auto).
    rewrite <- (sm_delta n x 1) by (apply H; left; auto). rewrite <- sm_plus. apply sm_ext. intros v Hv. unfold often. cbn [count_occ].
    destruct (Nat.eq_dec x v) as [E|E]; destruct (Nat.eqb_spec v x) as [E'|E']; try lia; rewrite ?S_INR; ring.
Qed.

Section Alike.
  Variable P : problem.
  Hypothesis HP : problem_ok P.
  Notation alpha := (q_alpha P). Notation k := (q_k P). Notation nl := (q_nl P). Notation nu := (q_nu P). Notation ni := (q_ni P).
  Notation N := (length (q_evs P)).
  Notation SE := (se (q_evs P)). Notation UE := (ue (q_evs P)). Notation IE := (ie (q_evs P)).

  Lemma k_pos : 0 < INR k.
  Proof. destruct HP as [_ [H _]]. apply lt_0_INR. auto. Qed.
  Lemma NR_pos : 0 < INR N.
  Proof. apply lt_0_INR. apply N_pos. auto. Qed.

  Lemma sd_const : forall n g q v z, (forall e, (e < N)%nat -> (g e < n)%nat) -> (forall e, (e < N)%nat -> q e z = / INR k) ->
    sd alpha N n g q v z =
    (often v (map g (seq 0 N)) + INR k * alpha) / (INR (length (map g (seq 0 N))) + INR n * (INR k * alpha)).
  Proof.
    intros n g q v z Hg Hq. pose proof k_pos as Hk. pose proof NR_pos as HN. assert (Ha : 0 <= alpha) by apply HP.
    unfold sd. rewrite (wc_const g N (/ INR k) q v z Hq).
    rewrite (sm_ext n _ (fun v => / INR k * often v (map g (seq 0 N)) + alpha)).
    2:{ intros i Hi. rewrite (wc_const g N (/ INR k) q i z Hq). ring. }
    rewrite sm_plus, sm_scal, sm_const, often_total.
    2:{ intros x Hx. apply in_map_iff in Hx. destruct Hx as [e [<- He]]. apply in_seq in He. apply Hg. lia. }
    rewrite map_length, seq_length.
    assert (0 <= INR n * (INR k * alpha)) by (apply Rmult_le_pos; [apply pos_INR|apply Rmult_le_pos; lra]).
    assert (0 <= alpha * INR n) by (apply Rmult_le_pos; [lra|apply pos_INR]).
    assert (0 < / INR k * INR N) by (apply Rmult_lt_0_compat; [apply Rinv_0_lt_compat|]; auto).
    field. repeat split; lra.
  Qed.

  Lemma tab_repeat : forall n f, (forall v z z', (z < k)%nat -> (z' < k)%nat -> f v z = f v z') -> forall c,
    (forall v z, (v < n)%nat -> (z < k)%nat -> f v z = c v) -> tab2 n k f = map (fun v => repeat (c v) k) (seq 0 n).
  Proof.
    intros n f _ c H. unfold tab2. apply map_ext_in. intros v Hv. apply in_seq in Hv.
    assert (X : forall l d, Forall (fun x : R => x = d) l -> l = repeat d (length l)).
    { intros l d. induction 1 as [|x l -> _ IH]; cbn; [auto|]. f_equal. auto. }
    rewrite (X (map (f v) (seq 0 k)) (c v)); [rewrite map_length, seq_length; auto|].
    apply Forall_map, Forall_forall. intros z Hz. apply in_seq in Hz. apply H; lia.
  Qed.

  Lemma step_const : forall q, (forall e z, (e < N)%nat -> (z < k)%nat -> q e z = / INR k) ->
    tab_of k nl nu ni (mfun alpha k nl nu ni N SE UE IE q) = marginals P.
  Proof.
    intros q Hq. destruct (ranges P HP) as [R1 [R2 R3]]. unfold tab_of, marginals, frequencies. cbn zeta. cbn [mfun fz fr fx fy].
    pose proof k_pos as Hk. pose proof NR_pos as HN. assert (Ha : 0 <= alpha) by apply HP.
    assert (D : forall n g ids, (forall e, (e < N)%nat -> (g e < n)%nat) -> map g (seq 0 N) = ids ->
      tab2 n k (sd alpha N n g q) =
      map (fun v => repeat ((often v ids + INR k * alpha) / (INR (length ids) + INR n * (INR k * alpha))) k) (seq 0 n)).
    { intros n g ids Hg <-. apply tab_repeat.
      - intros v z z' Hz Hz'. rewrite !sd_const; auto.
      - intros v z Hv Hz. apply sd_const; auto. }
    f_equal.
    - assert (X : forall l d, Forall (fun x : R => x = d) l -> l = repeat d (length l)).
      { intros l d. induction 1 as [|x l -> _ IH]; cbn; [auto|]. f_equal. auto. }
      assert (W : forall z, (z < k)%nat -> sm N (fun e => q e z) = / INR k * INR N).
      { intros z Hz. rewrite <- sm_const. apply sm_ext. auto. }
      match goal with |- ?l = _ => rewrite (X l (/ INR k)) end; [rewrite map_length, seq_length; auto|].
      apply Forall_map, Forall_forall. intros z Hz. apply in_seq in Hz. rewrite W by lia.
      rewrite (sm_ext k _ (fun _ => / INR k * INR N + alpha)) by (intros; rewrite W; auto). rewrite sm_const.
      assert (0 < / INR k * INR N) by (apply Rmult_lt_0_compat; [apply Rinv_0_lt_compat|]; auto).
      field. split; [lra|]. replace (INR N + alpha * INR k) with (INR k * (/ INR k * INR N + alpha)) by (field; lra).
      apply Rgt_not_eq. apply Rmult_lt_0_compat; lra.
    - apply D; auto. symmetry. apply (as_seq _ snd).
    - apply D; auto. symmetry. apply (as_seq _ (fun x : rating => fst (fst x))).
    - apply D; auto. symmetry. apply (as_seq _ (fun x : rating => snd (fst x))).
  Qed.

  Hypothesis Hq : forall row z, In row (q_start P) -> (z < k)%nat -> nth z row 0 = nth 0 row 0.

  Lemma alike_post : forall n p, after P n p -> forall e z, (e < N)%nat -> (z < k)%nat -> post k SE UE IE (fun_of p) e z = / INR k.
  Proof.
    intros n p Hp e z He Hz. assert (H0 : (0 < k)%nat) by lia.
    pose proof (J_sums P HP p (after_state P HP n p Hp) e He) as HJ. pose proof k_pos as Hk.
    assert (E : forall z, (z < k)%nat -> J SE UE IE (fun_of p) e z = J SE UE IE (fun_of p) e 0).
    { intros y Hy. destruct (C92_tied P n p y 0 HP Hp Hy H0) as [T0 T].
      { intros row Hr. apply Hq; auto. }
      destruct (after_state P HP n p Hp) as [[_ [[S1 _] [[S2 _] [S3 _]]]] _]. destruct (ranges P HP) as [R1 [R2 R3]].
      specialize (R1 e He). specialize (R2 e He). specialize (R3 e He).
      unfold J. cbn [fun_of fz fr fx fy]. unfold at1, at2. f_equal; [f_equal; [f_equal; [exact T0|]|]|].
      - apply (T (pRgZ p)); [left; auto|apply nth_In; lia].
      - apply (T (pXgZ p)); [right; left; auto|apply nth_In; lia].
      - apply (T (pYgZ p)); [right; right; left; auto|apply nth_In; lia]. }
    unfold post. rewrite (sm_ext k _ (fun _ => J SE UE IE (fun_of p) e 0)) in HJ |- * by auto.
    rewrite E by auto. rewrite sm_const in *. field. split; [lra|]. intros H. rewrite H in HJ. lra.
  Qed.

  Lemma alike_after : forall n p, after P (S n) p -> p = marginals P.
  Proof.
    intros n p H. inversion H as [|n' p0 p' c Hp E]; subst. 
    destruct (iteration_state P HP p0 (after_state P HP n p0 Hp)) as [p1 [E1 [_ F1]]]. assert (X : p1 = p) by congruence.
    rewrite <- X, F1. apply step_const. apply alike_post with n. auto.
  Qed.
End Alike.

(** ** C92: topics that all start alike stay alike, and one iteration reduces
    the model to the frequencies of levels, users and items *)
Theorem C92_marginals : forall P n p, problem_ok P ->
  (forall row z, In row (q_start P) -> (z < q_k P)%nat -> nth z row 0 = nth 0 row 0) ->
  after P (S n) p -> p = marginals P.
Proof. intros P n p HP Hq. apply alike_after; auto. Qed.

(** everybody gets the same prediction: the mean level of the training data,
    with [k * alpha] additional ratings of every level *)
Theorem C92_predictions : forall P n p u i lv, problem_ok P ->
  (forall row z, In row (q_start P) -> (z < q_k P)%nat -> nth z row 0 = nth 0 row 0) ->
  after P (S n) p -> (u <= q_nu P)%nat -> (i <= q_ni P)%nat ->
  seen_or_unknown (q_alpha P) (map (fun x : rating => fst (fst x)) (q_evs P)) (known (q_nu P) u) ->
  seen_or_unknown (q_alpha P) (map (fun x : rating => snd (fst x)) (q_evs P)) (known (q_ni P) i) ->
  length lv = q_nl P ->
  plsa_raw_row true (trained P p lv) [Z.of_nat u; Z.of_nat i] =
  Ok ((rsum (map (fun x : rating => nth (snd x) lv 0) (q_evs P)) + INR (q_k P) * q_alpha P * rsum lv) /
      (INR (length (q_evs P)) + INR (q_k P) * q_alpha P * INR (q_nl P))).
Proof.
  intros P n p u i lv HP Hq Hp Hu Hi Su Si Hl.
  destruct (expectation_row P (S n) p u i HP Hp Hu Hi Su Si lv Hl) as [E MP]. rewrite E. clear E. f_equal.
  pose proof (k_pos P HP) as Hk. pose proof (NR_pos P HP) as HN. assert (Ha : 0 <= q_alpha P) by apply HP.
  destruct (after_state P HP _ p Hp) as [[S0 [[S1 _] [[S2 _] [S3 _]]]] _].
  set (x := known (q_nu P) u) in *. set (y := known (q_ni P) i) in *.
  set (D := INR (length (q_evs P)) + INR (q_nl P) * (INR (q_k P) * q_alpha P)).
  assert (HD : 0 < D). { unfold D. assert (0 <= INR (q_nl P) * (INR (q_k P) * q_alpha P)) by (apply Rmult_le_pos; [apply pos_INR|apply Rmult_le_pos; lra]). lra. }
  pose proof (C92_marginals P n p HP Hq Hp) as Ep.
  assert (Rz : forall r z, (r < q_nl P)%nat -> (z < q_k P)%nat ->
    nth z (nth r (pRgZ p) []) 0 = (often r (map snd (q_evs P)) + INR (q_k P) * q_alpha P) / D).
  { intros r z Hr Hz. rewrite Ep. unfold marginals, frequencies. cbn zeta. cbn [pRgZ].
    rewrite nth_map_seq by auto. rewrite (nth_indep _ 0 ((often r (map snd (q_evs P)) + INR (q_k P) * q_alpha P) / (INR (length (map snd (q_evs P))) + INR (q_nl P) * (INR (q_k P) * q_alpha P)))) by (rewrite repeat_length; auto).
    rewrite nth_repeat, map_length. reflexivity. }
  set (c := sm (q_k P) (fun z => at1 (pZ p) z * factor (pXgZ p) x z * factor (pYgZ p) y z) / D).
  assert (M : forall r, (r < q_nl P)%nat -> mass p x y r = c * (often r (map snd (q_evs P)) + INR (q_k P) * q_alpha P)).
  { intros r Hr. unfold x, y in *. rewrite (mass_sm P (S n) p u i HP Hp). unfold c.
    transitivity ((often r (map snd (q_evs P)) + INR (q_k P) * q_alpha P) / D * sm (q_k P) (fun z => at1 (pZ p) z * factor (pXgZ p) (known (q_nu P) u) z * factor (pYgZ p) (known (q_ni P) i) z)); [|field; lra].
    rewrite <- sm_scal. apply sm_ext. intros z Hz. unfold at2. rewrite (Rz r z Hr Hz). ring. }
  change (0 < sm (q_nl P) (mass p x y)) in MP.
  change (sm (q_nl P) (fun r => mass p x y r * nth r lv 0) / sm (q_nl P) (mass p x y) =
    (rsum (map (fun x : rating => nth (snd x) lv 0) (q_evs P)) + INR (q_k P) * q_alpha P * rsum lv) /
      (INR (length (q_evs P)) + INR (q_k P) * q_alpha P * INR (q_nl P))).
  rewrite (sm_ext _ _ _ M) in MP. rewrite (sm_ext _ (mass p x y) _ M).
  rewrite (sm_ext (q_nl P) (fun r => mass p x y r * nth r lv 0)
     (fun r => c * (often r (map snd (q_evs P)) * nth r lv 0 + (INR (q_k P) * q_alpha P) * nth r lv 0))).
  2:{ intros r Hr. rewrite M by auto. ring. }
  rewrite !sm_scal in *. rewrite !sm_plus, sm_scal, sm_const in *.
  assert (Hev : forall v, In v (map snd (q_evs P)) -> (v < q_nl P)%nat).
  { intros v Hv. apply in_map_iff in Hv. destruct Hv as [w [<- Hw]]. destruct HP as [_ [_ [_ [H _]]]]. rewrite Forall_forall in H. apply H. auto. }
  rewrite (often_total _ _ Hev) in *. rewrite map_length in *.
  assert (L : sm (q_nl P) (fun i0 => nth i0 lv 0) = rsum lv).
  { rewrite <- Hl. rewrite (sm_rows R 0 (fun v => v) lv). rewrite map_id. auto. }
  assert (O : forall evs : list rating, (forall v, In v (map snd evs) -> (v < q_nl P)%nat) ->
    sm (q_nl P) (fun r => often r (map snd evs) * nth r lv 0) = rsum (map (fun x : rating => nth (snd x) lv 0) evs)).
  { induction evs as [|w evs IH]; intros H.
    - cbn. unfold often. cbn. rewrite (sm_ext _ _ (fun _ => 0)) by (intros; ring). rewrite sm_const. ring.
    - cbn [map]. change (rsum (?a :: ?b)) with (a + rsum b). rewrite <- IH by (intros v Hv; apply H; right; auto).
      rewrite <- (sm_delta (q_nl P) (snd w) (nth (snd w) lv 0)) by (apply H; left; auto). rewrite <- sm_plus. apply sm_ext. intros v Hv.
      unfold often. cbn [count_occ]. destruct (Nat.eq_dec (snd w) v) as [E|E]; destruct (Nat.eqb_spec v (snd w)) as [E'|E']; try lia.
      + rewrite S_INR, E'. ring.
      + ring. }
  rewrite L, (O _ Hev).
  assert (Hc : c <> 0). { intros H. rewrite H in MP. lra. }
  replace (INR (q_k P) * q_alpha P * INR (q_nl P)) with (INR (q_nl P) * (INR (q_k P) * q_alpha P)) in * by ring. fold D in MP |- *.
  match goal with |- _ / (c * ?d) = _ => change d with D end.
  field. split; [lra|auto].
Qed.

(** and training stops after two iterations *)
Theorem C92_fit : forall P tol maxiter, problem_ok P -> ~ degenerate P -> 0 < tol -> (3 <= maxiter)%Z ->
  (forall row z, In row (q_start P) -> (z < q_k P)%nat -> nth z row 0 = nth 0 row 0) ->
  exists rep, fit_of P tol maxiter = Ok (marginals P, rep) /\ (n_iterations rep <= 2)%Z /\ success rep = true.
Proof.
  intros P tol maxiter HP Hd Ht Hm Hq.
  destruct (C45_report_partial P tol maxiter HP ltac:(lia)) as (n & p & rep & l0 & l & E & Hp & Hn & Hr & _ & _ & _ & _ & NC & _ & Hs & _).
  assert (L : forall a b n, loss_after P (S n) a -> loss_after P 1 b -> a = b).
  { intros a b j [pa [A La]] [pb [B Lb]]. apply C92_marginals in A; auto. apply C92_marginals in B; auto. congruence. }
  assert (N2 : (n <= 2)%nat).
  { destruct (le_gt_dec n 2) as [H|H]; [auto|exfalso].
    destruct (after_total P HP 1) as [p1 A1]. pose proof (loss_state P HP p1 (after_state P HP _ _ A1)) as L1.
    destruct (after_total P HP 2) as [p2 A2]. pose proof (loss_state P HP p2 (after_state P HP _ _ A2)) as L2.
    pose proof (C92_marginals P _ p1 HP Hq A1) as X1. pose proof (C92_marginals P _ p2 HP Hq A2) as X2.
    destruct (loss_bound P HP Hd) as [m [Hm0 Hb]]. pose proof (Hb _ _ A2) as B. 
    assert (HN : 0 < INR (length (q_evs P))) by (apply NR_pos; auto).
    apply (NC 1%nat _ _ ltac:(lia) (ex_intro _ p1 (conj A1 L1)) (ex_intro _ p2 (conj A2 L2))).
    rewrite X1. rewrite X2 in *. split.
    - apply Rgt_not_eq. apply Rdiv_lt_0_compat; lra.
    - unfold Rdiv. rewrite Rminus_diag_eq by auto. rewrite Rmult_0_l, Rabs_R0. auto. }
  exists rep. rewrite E. destruct n as [|n]; [lia|]. split; [|split].
  - f_equal. f_equal. apply (C92_marginals P n p HP Hq Hp).
  - lia.
  - apply Hs. lia.
Qed.

(** ** Concrete cases *)
Example C91_nonvacuous : problem_ok (ex_problem 1) /\ Permutation [1; 0]%nat (seq 0 (q_k (ex_problem 1))) /\
  exchange_start [1; 0]%nat (ex_problem 1) <> ex_problem 1 /\
  exists p, after (ex_problem 0) 0 p /\ exchange_topics [1; 0]%nat p <> p.
Proof.
  split; [apply ex_problem_ok; lra|]. split; [apply perm_swap|]. split.
  - unfold exchange_start, ex_problem. cbn. intros H. inversion H. lra.
  - destruct C41_first_step as (p & A & B & C & _). exists p. split; auto. intros H.
    assert (E : nth 0 (pZ (exchange_topics [1; 0]%nat p)) 0 = nth 1 (pZ p) 0) by reflexivity. rewrite H in E. lra.
Qed.

(** two topics, weights that differ between events but not between topics *)
Definition alike : problem := mkProblem 1 2 3 2 2 ex_evs [[1; 1]; [1 / 2; 1 / 2]; [0; 0]; [1; 1]].
Example C92_nonvacuous : problem_ok alike /\ ~ degenerate alike /\
  (forall row z, In row (q_start alike) -> (z < q_k alike)%nat -> nth z row 0 = nth 0 row 0) /\
  plsa_raw_row true (trained alike (marginals alike) [1; 2; 3]) [0; 1]%Z = Ok (21 / 10).
Proof.
  assert (HP : problem_ok alike).
  { unfold problem_ok, alike, ex_evs, start_ok. cbn.
    repeat split; auto; try lra; try lia; try discriminate; try (left; lra); repeat constructor; cbn; try lra; lia. }
  assert (Hq : forall row z, In row (q_start alike) -> (z < q_k alike)%nat -> nth z row 0 = nth 0 row 0).
  { intros row z Hr Hz. cbn in Hr, Hz. destruct z as [|[|z]]; try lia; destruct Hr as [<-|[<-|[<-|[<-|[]]]]]; reflexivity. }
  split; [auto|]. split.
  { intros [_ [H|[H _]]]; cbn in H; [lra|lia]. }
  split; [auto|].
  destruct (after_total alike HP 1) as [p Hp]. pose proof (C92_marginals alike 0 p HP Hq Hp) as E. rewrite <- E.
  change [0; 1]%Z with [Z.of_nat 0; Z.of_nat 1].
  rewrite (C92_predictions alike 0 p 0 1 [1; 2; 3] HP Hq Hp).
  - f_equal. cbn. field.
  - cbn. lia.
  - cbn. lia.
  - left. cbn. lra.
  - left. cbn. lra.
  - reflexivity.
Qed.

Print Assumptions C91_fit.
Print Assumptions C91_predictions.
Print Assumptions C92_tied.
Print Assumptions C92_marginals.
Print Assumptions C92_predictions.
Print Assumptions C92_fit.
