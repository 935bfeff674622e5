(** * Repeating all events (C130) *)
From Coq Require Import String List ZArith Permutation Reals Lia Lra Bool.
From Verif Require Import M_Py P_Py P_RSum M_MF P_MF M_PLSA P_PLSA P_PLSA2 T_PLSA T_PLSA3.
Import ListNotations.
Notation length := List.length.
Open Scope list_scope.
Open Scope R_scope.

(** [m] copies of a list, one after the other *)
Definition copies {A} (m : nat) (l : list A) : list A := concat (repeat l m).

Lemma copies_S : forall A m (l : list A), copies (S m) l = l ++ copies m l.
Proof. reflexivity. Qed.
Lemma copies_map : forall A B (f : A -> B) m l, map f (copies m l) = copies m (map f l).
Proof. intros. induction m; [reflexivity|]. rewrite !copies_S, map_app, IHm. reflexivity. Qed.
Lemma copies_length : forall A m (l : list A), length (copies m l) = (m * length l)%nat.
Proof. intros. induction m; [reflexivity|]. rewrite copies_S, app_length, IHm. lia. Qed.
Lemma combine_app : forall A B (a1 a2 : list A) (b1 b2 : list B), length a1 = length b1 ->
  combine (a1 ++ a2) (b1 ++ b2) = combine a1 b1 ++ combine a2 b2.
Proof. induction a1; intros a2 [|b b1] b2 H; try discriminate; [reflexivity|]. cbn. rewrite IHa1; auto. Qed.
Lemma copies_combine : forall A B m (a : list A) (b : list B), length a = length b -> combine (copies m a) (copies m b) = copies m (combine a b).
Proof. intros. induction m; [reflexivity|]. rewrite !copies_S, combine_app, IHm; auto. Qed.
Lemma copies_filter : forall A (f : A -> bool) m l, filter f (copies m l) = copies m (filter f l).
Proof. intros. induction m; [reflexivity|]. rewrite !copies_S, filter_app, IHm. reflexivity. Qed.
Lemma copies_sum : forall m l, rsum (copies m l) = INR m * rsum l.
Proof. intros. induction m; [cbn; unfold rsum; cbn; lra|]. rewrite copies_S, rsum_app, IHm, S_INR. lra. Qed.
Lemma copies_exists : forall A (f : A -> bool) m l, existsb f (copies (S m) l) = existsb f l.
Proof.
  intros. induction m; [cbn; rewrite app_nil_r; reflexivity|]. rewrite copies_S, existsb_app, IHm. destruct (existsb f l); reflexivity.
Qed.
Lemma zmax_app : forall a b, zmax (a ++ b) = Z.max (zmax a) (zmax b).
Proof.
  assert (N : forall l, (-1 <= zmax l)%Z) by (induction l; cbn; lia).
  induction a; intros b; cbn [app zmax]; [pose proof (N b); lia|]. rewrite IHa. lia.
Qed.
Lemma copies_zmax : forall m l, zmax (copies (S m) l) = zmax l.
Proof. intros. induction m; [cbn; rewrite app_nil_r; reflexivity|]. rewrite copies_S, zmax_app, IHm. lia. Qed.
Lemma copies_mapM : forall A B (f : A -> res B) m l, mapM f (copies (S m) l) = do x <- mapM f l; Ok (copies (S m) x).
Proof.
  intros. induction m as [|m IH].
  - cbn [copies repeat concat]. rewrite !app_nil_r. destruct (mapM f l) as [x|]; cbn [bind]; [|reflexivity]. unfold copies. cbn. rewrite app_nil_r. reflexivity.
  - rewrite copies_S, mapM_app. destruct (mapM f l) as [x|]; cbn [bind]; [|reflexivity]. rewrite IH. cbn [bind]. reflexivity.
Qed.
Lemma copies_bcast : forall A B m (a : list A) (b : list B), length a = length b ->
  bcast (copies m a) (copies m b) = do x <- bcast a b; Ok (copies m x).
Proof.
  intros A B m a b H. unfold bcast. rewrite !copies_length, H, !Nat.eqb_refl. cbn [bind]. rewrite copies_combine by auto. reflexivity.
Qed.

Section Copies.
  Variable n : nat.
  Let m := S n.
  Let M := INR m.
  Lemma M_pos : 0 < M. Proof. apply lt_0_INR. unfold m. lia. Qed.

  Lemma div_scale : forall x y, np_div (M * x) (M * y) = np_div x y.
  Proof.
    intros. pose proof M_pos. unfold np_div. destruct (Req_EM_T (M * y) 0) as [E|E], (Req_EM_T y 0) as [E'|E']; auto.
    - apply Rmult_integral in E. destruct E; [lra|contradiction].
    - subst y. rewrite Rmult_0_r in E. contradiction.
    - f_equal. field. split; auto. lra.
  Qed.

  Lemma normalise_scale : forall v, normalise (map (Rmult M) v) = normalise v.
  Proof.
    intros. unfold normalise. assert (E : rsum (map (Rmult M) v) = M * rsum v).
    { induction v; cbn [map]; [unfold rsum; cbn; lra|]. rewrite !rsum_cons, IHv. lra. }
    rewrite E. rewrite mapM_map. apply P_Py.mapM_ext. intros. apply div_scale.
  Qed.

  Lemma column_copies : forall q z, column (copies m q) z = do w <- column q z; Ok (copies m w).
  Proof. intros. apply copies_mapM. Qed.

  Lemma bincount_copies : forall ids w k, bincount (copies m ids) (copies m w) k = do b <- bincount ids w k; Ok (map (Rmult M) b).
  Proof.
    intros. unfold bincount. unfold m at 1. rewrite copies_exists. destruct (existsb _ ids); [reflexivity|].
    rewrite !copies_length. assert (Nat.eqb (m * length ids) (m * length w) = Nat.eqb (length ids) (length w)) as ->.
    { destruct (Nat.eqb_spec (length ids) (length w)) as [->|H]; [apply Nat.eqb_refl|]. apply Nat.eqb_neq. unfold m. nia. }
    destruct (Nat.eqb_spec (length ids) (length w)) as [L|L]; cbn [negb bind]; [|reflexivity].
    rewrite copies_combine by auto. unfold m at 2. rewrite copies_zmax. rewrite map_map. f_equal. apply map_ext. intros v.
    rewrite copies_filter, copies_map, copies_sum. reflexivity.
  Qed.

  Lemma smoothed_copies : forall alpha k q ids N, smoothed (M * alpha) k (copies m q) (copies m ids) N = smoothed alpha k q ids N.
  Proof.
    intros. unfold smoothed. f_equal. apply P_Py.mapM_ext. intros z _. rewrite column_copies.
    destruct (column q z) as [w|]; cbn [bind]; [|reflexivity]. rewrite bincount_copies. destruct (bincount ids w N) as [b|]; cbn [bind]; [|reflexivity].
    rewrite <- (normalise_scale (map _ b)), !map_map. f_equal. apply map_ext. intros. lra.
  Qed.

  Lemma m_step_copies : forall alpha k nl nu ni q uis sc,
    m_step (M * alpha) k nl nu ni (copies m q) (copies m uis) (copies m sc) = m_step alpha k nl nu ni q uis sc.
  Proof.
    intros. unfold m_step. rewrite !copies_map, !smoothed_copies.
    destruct (smoothed alpha k q sc nl); cbn [bind]; [|reflexivity].
    destruct (smoothed alpha k q (map fst uis) nu); cbn [bind]; [|reflexivity].
    destruct (smoothed alpha k q (map snd uis) ni); cbn [bind]; [|reflexivity].
    assert (E : mapM (fun z => do w <- column (copies m q) z; Ok (rsum w + M * alpha)) (seq 0 k) =
                do s <- mapM (fun z => do w <- column q z; Ok (rsum w + alpha)) (seq 0 k); Ok (map (Rmult M) s)).
    { induction (seq 0 k) as [|z l IH]; [reflexivity|]. cbn [mapM]. rewrite column_copies. destruct (column q z) as [w|]; cbn [bind]; [|reflexivity].
      rewrite IH. destruct (mapM (fun y => do w0 <- column q y; Ok (rsum w0 + alpha)) l); cbn [bind]; [|reflexivity]. cbn [map]. do 2 f_equal. rewrite copies_sum. unfold M. lra. }
    rewrite E. destruct (mapM (fun y => do w <- column q y; Ok (rsum w + alpha)) (seq 0 k)) as [s|]; cbn [bind]; [|reflexivity]. rewrite normalise_scale. reflexivity.
  Qed.

  Lemma joint_copies : forall p uis sc, length uis = length sc ->
    joint_rows p (copies m uis) (copies m sc) = do j <- joint_rows p uis sc; Ok (copies m j).
  Proof.
    intros p uis sc L. unfold joint_rows. rewrite !copies_map. unfold np_take. unfold m. rewrite !copies_mapM. fold m.
    destruct (mapM (np_get (pRgZ p)) sc) as [rs|] eqn:E1; cbn [bind]; [|reflexivity].
    destruct (mapM (np_get (pXgZ p)) (map fst uis)) as [xs|] eqn:E2; cbn [bind]; [|reflexivity].
    destruct (mapM (np_get (pYgZ p)) (map snd uis)) as [ys|] eqn:E3; cbn [bind]; [|reflexivity].
    apply mapM_length in E1. apply mapM_length in E2. apply mapM_length in E3. rewrite map_length in E2, E3.
    rewrite copies_bcast by congruence. destruct (bcast rs xs) as [rx|] eqn:E4; cbn [bind]; [|reflexivity].
    assert (L4 : length rx = length rs). { unfold bcast in E4. replace (length xs) with (length rs) in E4 by congruence. rewrite Nat.eqb_refl in E4. injection E4 as <-. rewrite combine_length. lia. }
    rewrite copies_bcast by congruence. destruct (bcast rx ys) as [rxy|] eqn:E5; cbn [bind]; [|reflexivity].
    unfold m. rewrite copies_mapM. reflexivity.
  Qed.

  Lemma e_step_copies : forall p uis sc, length uis = length sc -> e_step p (copies m uis) (copies m sc) = do q <- e_step p uis sc; Ok (copies m q).
  Proof.
    intros. unfold e_step. rewrite joint_copies by auto. destruct (joint_rows p uis sc) as [j|]; cbn [bind]; [|reflexivity].
    unfold m. apply copies_mapM.
  Qed.

  Lemma loss_copies : forall N p uis sc, length uis = length sc -> plsa_loss (m * N) p (copies m uis) (copies m sc) = plsa_loss N p uis sc.
  Proof.
    intros. unfold plsa_loss. rewrite joint_copies by auto. destruct (joint_rows p uis sc) as [j|]; cbn [bind]; [|reflexivity].
    unfold m. rewrite copies_mapM. fold m. destruct (mapM _ j) as [l|]; cbn [bind]; [|reflexivity].
    rewrite copies_sum, mult_INR. replace (- (INR m * rsum l)) with (M * - rsum l) by (unfold M; lra). apply div_scale.
  Qed.

  Section Fit.
    Variables (alpha tol : R) (k nl nu ni N : nat) (uis : list (Z * Z)) (sc : list Z).
    Hypothesis L : length uis = length sc.

    Lemma iteration_copies : forall p, em_iteration (M * alpha) k nl nu ni (m * N) (copies m uis) (copies m sc) p = em_iteration alpha k nl nu ni N uis sc p.
    Proof.
      intros. unfold em_iteration. rewrite e_step_copies by auto. destruct (e_step p uis sc) as [q|]; cbn [bind]; [|reflexivity].
      rewrite m_step_copies. destruct (m_step _ _ _ _ _ _ _ _) as [p'|]; cbn [bind]; [|reflexivity]. rewrite loss_copies by auto. reflexivity.
    Qed.

    Lemma loop_copies : forall its i cur pre p, em_loop (M * alpha) tol k nl nu ni (m * N) (copies m uis) (copies m sc) its i cur pre p =
      em_loop alpha tol k nl nu ni N uis sc its i cur pre p.
    Proof.
      induction its as [|z its IH]; intros; [reflexivity|]. cbn [em_loop]. rewrite iteration_copies.
      destruct (em_iteration _ _ _ _ _ _ _ _ p) as [[p' c]|]; cbn [bind]; [|reflexivity]. destruct (converged tol pre c); auto.
    Qed.
  End Fit.
End Copies.

(** a problem whose events, with their initial responsibilities, were recorded
    [m] times, and whose smoothing is [m] times as large *)
Definition repeated (m : nat) (P : problem) : problem :=
  mkProblem (INR m * q_alpha P) (q_k P) (q_nl P) (q_nu P) (q_ni P) (copies m (q_evs P)) (copies m (q_start P)).

(** training on it passes through the same parameters and losses, stops at the
    same iteration for the same reason and reports the same, apart from the
    number of events; it fails if and only if training on the original fails,
    with the same exception *)
Theorem C130_same_run : forall m P tol maxiter, (0 < m)%nat ->
  match fit_of P tol maxiter with
  | Ok (p, t) => exists t', fit_of (repeated m P) tol maxiter = Ok (p, t') /\
      initial_loss t' = initial_loss t /\ final_loss t' = final_loss t /\ status t' = status t /\
      n_iterations t' = n_iterations t /\ success t' = success t /\ message t' = message t /\
      n_users t' = n_users t /\ n_items t' = n_items t /\ n_parameters t' = n_parameters t /\
      n_fit_events t' = (m * n_fit_events t)%nat
  | Raise e => fit_of (repeated m P) tol maxiter = Raise e
  end.
Proof.
  intros [|n] P tol maxiter Hm; [lia|]. unfold fit_of, em_fit. cbn [repeated q_alpha q_k q_nl q_nu q_ni q_evs q_start].
  assert (L : length (uis_of (q_evs P)) = length (sc_of (q_evs P))) by (unfold uis_of, zp, sc_of; rewrite !map_length; reflexivity).
  replace (uis_of (copies (S n) (q_evs P))) with (copies (S n) (uis_of (q_evs P))) by (unfold uis_of, zp; rewrite !copies_map; reflexivity).
  replace (sc_of (copies (S n) (q_evs P))) with (copies (S n) (sc_of (q_evs P))) by (unfold sc_of; rewrite !copies_map; reflexivity).
  rewrite copies_length, m_step_copies.
  destruct (m_step _ _ _ _ _ _ _ _) as [p0|]; cbn [bind]; [|reflexivity]. rewrite loss_copies by auto.
  destruct (plsa_loss _ _ _ _) as [l0|]; cbn [bind]; [|reflexivity]. rewrite loop_copies by auto.
  destruct (em_loop _ _ _ _ _ _ _ _ _ _ _ _ _ _) as [[[p i] cur]|]; cbn [bind]; [|reflexivity].
  eexists. split; [reflexivity|]. repeat (split; [reflexivity|]). reflexivity.
Qed.

Lemma copies_forall : forall A (Q : A -> Prop) m l, Forall Q l -> Forall Q (copies m l).
Proof. intros. induction m; [constructor|]. rewrite copies_S. apply Forall_app. auto. Qed.

Lemma repeated_ok : forall m P, (0 < m)%nat -> problem_ok P -> problem_ok (repeated m P).
Proof.
  intros m P Hm [A [B [C [D [E1 [E2 [E3 E4]]]]]]]. assert (0 < INR m) by (apply lt_0_INR; auto).
  unfold problem_ok, start_ok. cbn [repeated q_alpha q_k q_nl q_nu q_ni q_evs q_start].
  split; [apply Rmult_le_pos; lra|]. split; [auto|]. split.
  { intros N. apply C. apply (f_equal (@length _)) in N. rewrite copies_length in N. cbn in N. destruct (q_evs P); auto. cbn in N. lia. }
  split; [apply copies_forall; auto|]. split; [rewrite !copies_length, E1; reflexivity|]. do 2 (split; [apply copies_forall; auto|]).
  destruct E4 as [E4|E4]; [left; apply Rmult_lt_0_compat; auto|right; apply copies_forall; auto].
Qed.

(** it does not matter either in what order the copies were recorded: every
    problem with [m] copies of each event is trained like the original *)
Corollary C130_any_order : forall m P P' tol maxiter p t, (0 < m)%nat -> problem_ok P -> reordered (repeated m P) P' ->
  fit_of P tol maxiter = Ok (p, t) ->
  exists t', fit_of P' tol maxiter = Ok (p, t') /\ final_loss t' = final_loss t /\ n_iterations t' = n_iterations t.
Proof.
  intros m P P' tol maxiter p t Hm HP HR E. pose proof (C130_same_run m P tol maxiter Hm) as S. rewrite E in S.
  destruct S as [t' [F [_ [G [_ [K _]]]]]]. exists t'. rewrite <- (C71_plsa _ _ tol maxiter (repeated_ok m P Hm HP) HR). auto.
Qed.

(** without smoothing only the proportions of the events matter *)
Corollary C130_proportions : forall m P tol maxiter p t, (0 < m)%nat -> q_alpha P = 0 -> fit_of P tol maxiter = Ok (p, t) ->
  exists t', fit_of (mkProblem 0 (q_k P) (q_nl P) (q_nu P) (q_ni P) (copies m (q_evs P)) (copies m (q_start P))) tol maxiter = Ok (p, t').
Proof.
  intros m P tol maxiter p t Hm H E. pose proof (C130_same_run m P tol maxiter Hm) as S. rewrite E in S.
  destruct S as [t' [F _]]. exists t'. unfold repeated in F. rewrite H, Rmult_0_r in F. exact F.
Qed.

Definition lone (alpha : R) : problem := mkProblem alpha 1 2 1 1 [(0, 0, 0)]%nat [[1]].
Definition lone2 (alpha : R) : problem := mkProblem alpha 1 2 1 1 [(0, 0, 0); (0, 0, 0)]%nat [[1]; [1]].
Lemma lone_ok : forall alpha, 0 <= alpha -> problem_ok (lone alpha).
Proof.
  intros. unfold problem_ok, start_ok, lone. cbn [q_alpha q_k q_nl q_nu q_ni q_evs q_start length].
  split; [lra|]. split; [lia|]. split; [discriminate|]. split; [repeat constructor|]. split; [reflexivity|].
  split; [repeat constructor|]. split; [|right]; (apply Forall_cons; [apply Forall_cons; [lra|apply Forall_nil]|apply Forall_nil]).
Qed.
Lemma lone_first : forall alpha, 0 <= alpha -> exists p, first_step (lone alpha) = Ok p /\
  nth 0 (nth 0 (pRgZ p) []) 0 = (1 + alpha) / (1 + 2 * alpha).
Proof.
  intros alpha H. destruct (lone_ok alpha H) as [_ [_ [_ [Hev _]]]]. cbn [lone q_nl q_nu q_ni q_evs] in Hev.
  eexists. split.
  - unfold first_step. cbn [lone q_alpha q_k q_nl q_nu q_ni q_evs q_start].
    apply (m_step_ok 1 2 1 1 _ Hev); [lia|cbn; lia|lra|split; [reflexivity|repeat constructor]|].
    split; [|right]; intros e z He Hz; cbn in He; destruct e; [|lia| |lia]; destruct z; try lia; unfold at2; cbn; lra.
  - unfold tab_of, tab2. cbn. unfold sd, wc, sm, se. cbn. field. lra.
Qed.
Lemma lone2_first : forall alpha, 0 <= alpha -> exists p, first_step (lone2 alpha) = Ok p /\
  nth 0 (nth 0 (pRgZ p) []) 0 = (2 + alpha) / (2 + 2 * alpha).
Proof.
  intros alpha H.
  assert (Hev : ratings_ok 2 1 1 [(0, 0, 0); (0, 0, 0)]%nat) by (repeat constructor).
  eexists. split.
  - unfold first_step. cbn [lone2 q_alpha q_k q_nl q_nu q_ni q_evs q_start].
    apply (m_step_ok 1 2 1 1 _ Hev); [lia|cbn; lia|lra|split; [reflexivity|repeat constructor]|].
    split; [|right]; intros e z He Hz; cbn in He; destruct z; try lia; destruct e as [|[|e]]; try lia; unfold at2; cbn; lra.
  - unfold tab_of, tab2. cbn. unfold sd, wc, sm, se. cbn. field. lra.
Qed.

(** one event, recorded twice: with the smoothing doubled the probability of
    its level stays 2/3, with the same smoothing it grows to 3/4 *)
Example C130_nonvacuous : problem_ok (lone 1) /\ repeated 2 (lone 1) = lone2 2 /\
  (exists p, first_step (lone 1) = Ok p /\ nth 0 (nth 0 (pRgZ p) []) 0 = 2 / 3) /\
  (exists p, first_step (lone2 2) = Ok p /\ nth 0 (nth 0 (pRgZ p) []) 0 = 2 / 3) /\
  (exists p, first_step (lone2 1) = Ok p /\ nth 0 (nth 0 (pRgZ p) []) 0 = 3 / 4).
Proof.
  split; [apply lone_ok; lra|]. split.
  { unfold repeated, lone, lone2, copies. cbn [q_alpha q_k q_nl q_nu q_ni q_evs q_start repeat concat app].
    replace (INR 2 * 1) with 2 by (cbn; lra). reflexivity. }
  split; [|split].
  - destruct (lone_first 1 ltac:(lra)) as [p [E F]]. exists p. split; auto. rewrite F. field.
  - destruct (lone2_first 2 ltac:(lra)) as [p [E F]]. exists p. split; auto. rewrite F. field.
  - destruct (lone2_first 1 ltac:(lra)) as [p [E F]]. exists p. split; auto. rewrite F. field.
Qed.

Print Assumptions C130_same_run.
Print Assumptions C130_any_order.
Print Assumptions C130_proportions.
