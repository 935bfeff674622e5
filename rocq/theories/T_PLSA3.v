(** * Order of events in the EM algorithm of MultinomialPLSA (C71) *)
From Coq Require Import String List ZArith Reals Lra Lia Bool Permutation.
From Verif Require Import M_Py P_Py P_RSum M_MF P_MF M_PLSA P_PLSA P_PLSA2 T_PLSA T_MF3.
Import ListNotations.
Open Scope R_scope.

(** the same training problem with the events, and the responsibilities the
    training starts from, in another order *)
Definition reordered (P P' : problem) : Prop :=
  q_alpha P' = q_alpha P /\ q_k P' = q_k P /\ q_nl P' = q_nl P /\ q_nu P' = q_nu P /\ q_ni P' = q_ni P /\
  length (q_start P') = length (q_evs P') /\
  Permutation (combine (q_evs P) (q_start P)) (combine (q_evs P') (q_start P')).

Lemma sm_rows : forall X (d : X) (F : X -> R) l, sm (length l) (fun e => F (nth e l d)) = rsum (map F l).
Proof.
  intros X d F l. unfold sm. f_equal.
  rewrite <- (map_map (fun e => nth e l d) F). f_equal.
  induction l as [|x l IH]; cbn [length seq map nth]; [reflexivity|]. f_equal. rewrite <- seq_shift, map_map. exact IH.
Qed.

Lemma mfun_eq : forall alpha k nl nu ni N S U I Q N' S' U' I' Q',
  (forall z, sm N (fun e => Q e z) = sm N' (fun e => Q' e z)) ->
  (forall v z, wc N S Q v z = wc N' S' Q' v z) -> (forall v z, wc N U Q v z = wc N' U' Q' v z) ->
  (forall v z, wc N I Q v z = wc N' I' Q' v z) ->
  tab_of k nl nu ni (mfun alpha k nl nu ni N S U I Q) = tab_of k nl nu ni (mfun alpha k nl nu ni N' S' U' I' Q').
Proof.
  intros alpha k nl nu ni N S U I Q N' S' U' I' Q' H0 H1 H2 H3.
  assert (E : forall g g' n, (forall v z, wc N g Q v z = wc N' g' Q' v z) ->
    forall v z, sd alpha N n g Q v z = sd alpha N' n g' Q' v z).
  { intros g g' n H v z. unfold sd. rewrite H. f_equal. apply sm_ext. intros. rewrite H. auto. }
  unfold tab_of, mfun. cbn [fz fr fx fy]. f_equal.
  - apply map_ext. intros z. rewrite H0. f_equal. apply sm_ext. intros. rewrite H0. auto.
  - apply tab2_ext. intros. apply E; auto.
  - apply tab2_ext. intros. apply E; auto.
  - apply tab2_ext. intros. apply E; auto.
Qed.

(** responsibilities [Q] given row by row through a list *)
Lemma mfun_rows : forall X (d d' : X) alpha k nl nu ni (l l' : list X) (g : X -> rating) (h : X -> nat -> R), Permutation l l' ->
  tab_of k nl nu ni (mfun alpha k nl nu ni (length l) (fun e => snd (g (nth e l d))) (fun e => fst (fst (g (nth e l d))))
    (fun e => snd (fst (g (nth e l d)))) (fun e => h (nth e l d))) =
  tab_of k nl nu ni (mfun alpha k nl nu ni (length l') (fun e => snd (g (nth e l' d'))) (fun e => fst (fst (g (nth e l' d'))))
    (fun e => snd (fst (g (nth e l' d')))) (fun e => h (nth e l' d'))).
Proof.
  intros X d d' alpha k nl nu ni l l' g h P. apply mfun_eq; intros; unfold wc.
  - rewrite (sm_rows X d (fun x => h x z)), (sm_rows X d' (fun x => h x z)). apply rsum_map_perm; auto.
  - rewrite (sm_rows X d (fun x => if Nat.eqb (snd (g x)) v then h x z else 0)),
      (sm_rows X d' (fun x => if Nat.eqb (snd (g x)) v then h x z else 0)). apply rsum_map_perm; auto.
  - rewrite (sm_rows X d (fun x => if Nat.eqb (fst (fst (g x))) v then h x z else 0)),
      (sm_rows X d' (fun x => if Nat.eqb (fst (fst (g x))) v then h x z else 0)). apply rsum_map_perm; auto.
  - rewrite (sm_rows X d (fun x => if Nat.eqb (snd (fst (g x))) v then h x z else 0)),
      (sm_rows X d' (fun x => if Nat.eqb (snd (fst (g x))) v then h x z else 0)). apply rsum_map_perm; auto.
Qed.

Section Reordered.
  Variables P P' : problem.
  Hypothesis HP : problem_ok P.
  Hypothesis HR : reordered P P'.

  Lemma start_length : length (q_start P) = length (q_evs P).
  Proof. destruct HP as [_ [_ [_ [_ [H _]]]]]. auto. Qed.

  Lemma fst_combine : forall A B (a : list A) (b : list B), length b = length a -> map fst (combine a b) = a.
  Proof. induction a; intros [|y b] H; try discriminate; cbn; [auto|]. f_equal. apply IHa. cbn in H. lia. Qed.
  Lemma snd_combine : forall A B (a : list A) (b : list B), length b = length a -> map snd (combine a b) = b.
  Proof. induction a; intros [|y b] H; try discriminate; cbn; [auto|]. f_equal. apply IHa. cbn in H. lia. Qed.

  Lemma evs_perm : Permutation (q_evs P) (q_evs P').
  Proof.
    destruct HR as [_ [_ [_ [_ [_ [L H]]]]]]. apply (Permutation_map fst) in H.
    rewrite !fst_combine in H; auto using start_length.
  Qed.
  Lemma start_perm : Permutation (q_start P) (q_start P').
  Proof.
    destruct HR as [_ [_ [_ [_ [_ [L H]]]]]]. apply (Permutation_map snd) in H.
    rewrite !snd_combine in H; auto using start_length.
  Qed.

  Lemma reordered_ok : problem_ok P'.
  Proof.
    pose proof evs_perm as E. pose proof start_perm as S. pose proof HR as [E1 [E2 [E3 [E4 [E5 [L _]]]]]].
    destruct HP as [H1 [H2 [H3 [H4 [H5 [H6 [H7 H8]]]]]]].
    unfold problem_ok, start_ok. rewrite E1, E2, E3, E4, E5.
    repeat split; auto.
    - intros H. apply H3. rewrite H in E. apply Permutation_sym, Permutation_nil in E. auto.
    - eapply Permutation_Forall; eauto.
    - eapply Permutation_Forall; eauto.
    - eapply Permutation_Forall; eauto.
    - destruct H8; [left; auto|right; eapply Permutation_Forall; eauto].
  Qed.

  Lemma first_same : first_step P = first_step P'.
  Proof.
    pose proof reordered_ok as HP'. pose proof (start_weights P HP) as [W Q]. pose proof (start_weights P' HP') as [W' Q'].
    pose proof (N_pos P HP) as HN. pose proof (N_pos P' HP') as HN'.
    pose proof start_length as L. pose proof HR as [E1 [E2 [E3 [E4 [E5 [L' Hp]]]]]].
    destruct HP as [Ha [Hk [_ [Hev _]]]]. destruct HP' as [Ha' [Hk' [_ [Hev' _]]]].
    unfold first_step. rewrite !m_step_ok by auto. f_equal. rewrite E1, E2, E3, E4, E5.
    pose proof (mfun_rows _ (dr, []) (dr, []) (q_alpha P) (q_k P) (q_nl P) (q_nu P) (q_ni P) _ _ fst (fun x z => nth z (snd x) 0) Hp) as M.
    rewrite !combine_length, L, L', !Nat.min_id in M.
    etransitivity; [|etransitivity; [exact M|]].
    - apply mfun_eq; intros; unfold wc; apply sm_ext; intros; unfold se, ue, ie; rewrite combine_nth by auto; reflexivity.
    - apply mfun_eq; intros; unfold wc; apply sm_ext; intros; unfold se, ue, ie; rewrite combine_nth by auto; reflexivity.
  Qed.

  Lemma nll_same : forall k t, nll k (length (q_evs P)) (se (q_evs P)) (ue (q_evs P)) (ie (q_evs P)) t =
    nll k (length (q_evs P')) (se (q_evs P')) (ue (q_evs P')) (ie (q_evs P')) t.
  Proof.
    intros k t. unfold nll, J, se, ue, ie. f_equal.
    pose (F := fun x : rating => ln (sm k (fun z => fz t z * fr t (snd x) z * fx t (fst (fst x)) z * fy t (snd (fst x)) z))).
    etransitivity; [|etransitivity; [exact (rsum_map_perm _ F _ _ evs_perm)|]].
    - apply (sm_rows _ dr F).
    - symmetry. apply (sm_rows _ dr F).
  Qed.

  Lemma loss_same : forall p, state P p -> state P' p -> loss_of P p = loss_of P' p.
  Proof.
    intros p S S'. rewrite (loss_state P HP p S), (loss_state P' reordered_ok p S').
    destruct HR as [E1 [E2 _]]. rewrite E2, nll_same, (Permutation_length evs_perm). auto.
  Qed.

  Lemma iteration_same : forall p, state P p -> state P' p -> iteration P p = iteration P' p.
  Proof.
    intros p S S'. destruct (iteration_state P HP p S) as [p1 [I1 [_ E1]]].
    destruct (iteration_state P' reordered_ok p S') as [p2 [I2 [_ E2]]].
    rewrite I1, I2. pose proof HR as [F1 [F2 [F3 [F4 [F5 _]]]]].
    assert (p1 = p2) as <-.
    { rewrite E1, E2, F1, F2, F3, F4, F5. pose (t := fun_of p).
      pose (h := fun (x : rating) (z : nat) =>
        let j := fun z => fz t z * fr t (snd x) z * fx t (fst (fst x)) z * fy t (snd (fst x)) z in j z / sm (q_k P) j).
      pose proof (mfun_rows _ dr dr (q_alpha P) (q_k P) (q_nl P) (q_nu P) (q_ni P) _ _ (fun x => x) h evs_perm) as M.
      exact M. }
    rewrite F2, nll_same, (Permutation_length evs_perm). auto.
  Qed.

  Lemma after_same : forall n p, after P n p -> after P' n p.
  Proof.
    intros n p H. induction H as [p H|n p p' c H IH E].
    - constructor. rewrite <- first_same. auto.
    - econstructor; [exact IH|]. rewrite <- iteration_same; eauto using after_state, reordered_ok.
  Qed.

  Lemma loop_same : forall tol its n iter cur pre p, after P n p ->
    em_loop (q_alpha P) tol (q_k P) (q_nl P) (q_nu P) (q_ni P) (length (q_evs P)) (uis_of (q_evs P)) (sc_of (q_evs P)) its iter cur pre p =
    em_loop (q_alpha P') tol (q_k P') (q_nl P') (q_nu P') (q_ni P') (length (q_evs P')) (uis_of (q_evs P')) (sc_of (q_evs P')) its iter cur pre p.
  Proof.
    intros tol its. induction its as [|i its IH]; intros n iter cur pre p H; [reflexivity|]. cbn [em_loop].
    pose proof (iteration_same p) as I. unfold iteration in I.
    rewrite <- I by eauto using after_state, after_same, reordered_ok.
    change (em_iteration (q_alpha P) (q_k P) (q_nl P) (q_nu P) (q_ni P) (length (q_evs P)) (uis_of (q_evs P)) (sc_of (q_evs P)) p)
      with (iteration P p).
    destruct (iteration_state P HP p) as [p1 [I1 [S1 _]]]; [eauto using after_state|]. rewrite I1. cbn [bind].
    destruct (converged tol pre _); [reflexivity|]. apply (IH (S n)). econstructor; eauto.
  Qed.
End Reordered.

(** training gives the same parameters and the same report: the order in which
    the events were recorded does not matter, as long as every event keeps its
    level and its initial responsibilities *)
Theorem C71_plsa : forall P P' tol maxiter, problem_ok P -> reordered P P' -> fit_of P tol maxiter = fit_of P' tol maxiter.
Proof.
  intros P P' tol maxiter HP HR. pose proof (reordered_ok P P' HP HR) as HP'.
  destruct (first_state P HP) as [p [E S]]. assert (A : after P 0 p) by (constructor; auto).
  unfold fit_of, em_fit. pose proof (first_same P P' HP HR) as F. unfold first_step in F, E. rewrite <- F, E. cbn [bind].
  pose proof (after_same P P' HP HR 0 p A) as A'.
  pose proof (loss_same P P' HP HR p S (after_state P' HP' 0 p A')) as L. unfold loss_of in L. rewrite <- L.
  destruct (plsa_loss _ _ _ _) as [l0|]; [|reflexivity]. cbn [bind].
  rewrite (loop_same P P' HP HR tol _ 0 _ _ _ p A).
  destruct (em_loop _ _ _ _ _ _ _ _ _ _ _ _ _ _) as [[[p' it] cur]|]; [|reflexivity]. cbn [bind].
  pose proof HR as [F1 [F2 [F3 [F4 [F5 _]]]]]. rewrite F4, F5, (Permutation_length (evs_perm P P' HP HR)). reflexivity.
Qed.

Example C71_plsa_nonvacuous : exists P P', problem_ok P /\ reordered P P' /\ q_evs P <> q_evs P' /\ q_start P <> q_start P'.
Proof.
  exists (mkProblem 1 2 2 2 1 [(0, 0, 0); (1, 0, 1); (0, 0, 1)]%nat [[1; 0]; [0; 1]; [1 / 2; 1 / 2]]),
         (mkProblem 1 2 2 2 1 [(1, 0, 1); (0, 0, 0); (0, 0, 1)]%nat [[0; 1]; [1; 0]; [1 / 2; 1 / 2]]).
  split.
  - unfold problem_ok, start_ok. cbn [q_alpha q_k q_nl q_nu q_ni q_evs q_start length].
    split; [lra|]. split; [lia|]. split; [discriminate|]. split; [repeat constructor; cbn; lia|].
    split; [reflexivity|]. split; [repeat constructor|]. split; [|left; lra].
    repeat (apply Forall_cons; [repeat (apply Forall_cons; [lra|]); apply Forall_nil|]). apply Forall_nil.
  - split; [|split; [discriminate|intros H; inversion H; lra]].
    unfold reordered. cbn [q_alpha q_k q_nl q_nu q_ni q_evs q_start length combine]. repeat (split; [reflexivity|]). apply perm_swap.
Qed.
Print Assumptions C71_plsa.
