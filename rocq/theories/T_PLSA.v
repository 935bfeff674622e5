(** * Theorems about the EM algorithm of MultinomialPLSA (C41 - C43, C45, C46) *)
From Coq Require Import String List ZArith Reals Lra Lia Bool.
From Verif Require Import M_Py P_Py P_RSum M_MF P_MF M_PLSA P_PLSA P_PLSA2.
Import ListNotations.
Open Scope R_scope.

(** a list of numbers that is a probability distribution *)
Definition distribution (l : list R) : Prop := Forall (fun x => 0 <= x) l /\ rsum l = 1.
Definition col (m : list (list R)) (z : nat) : list R := map (fun row => nth z row 0) m.

(** responsibilities to start from: one row per event, one column per topic,
    not negative; positive if there is no smoothing *)
Definition start_ok (alpha : R) (k n : nat) (q : list (list R)) : Prop :=
  length q = n /\ Forall (fun row => length row = k) q /\
  Forall (Forall (fun x => 0 <= x)) q /\ (0 < alpha \/ Forall (Forall (fun x => 0 < x)) q).

(** a training problem: users below [nu], items below [ni], levels below [nl] *)
Record problem := mkProblem {
  q_alpha : R; q_k : nat; q_nl : nat; q_nu : nat; q_ni : nat; q_evs : list rating; q_start : list (list R) }.
Definition problem_ok (P : problem) : Prop :=
  0 <= q_alpha P /\ (0 < q_k P)%nat /\ q_evs P <> [] /\
  Forall (fun x : rating => fst (fst x) < q_nu P /\ snd (fst x) < q_ni P /\ snd x < q_nl P)%nat (q_evs P) /\
  start_ok (q_alpha P) (q_k P) (length (q_evs P)) (q_start P).

(** the calls of the model on a problem *)
Definition first_step (P : problem) : res params :=
  m_step (q_alpha P) (q_k P) (q_nl P) (q_nu P) (q_ni P) (q_start P) (uis_of (q_evs P)) (sc_of (q_evs P)).
Definition iteration (P : problem) : params -> res (params * R) :=
  em_iteration (q_alpha P) (q_k P) (q_nl P) (q_nu P) (q_ni P) (length (q_evs P)) (uis_of (q_evs P)) (sc_of (q_evs P)).
Definition loss_of (P : problem) (p : params) : res R :=
  plsa_loss (length (q_evs P)) p (uis_of (q_evs P)) (sc_of (q_evs P)).
Definition fit_of (P : problem) (tol : R) (maxiter : Z) : res (params * report) :=
  em_fit (q_alpha P) tol (q_k P) (q_nl P) (q_nu P) (q_ni P) (length (q_evs P)) (uis_of (q_evs P)) (sc_of (q_evs P))
    maxiter (q_start P).

(** the parameters after [n] EM iterations *)
Inductive after (P : problem) : nat -> params -> Prop :=
| after_first : forall p, first_step P = Ok p -> after P 0 p
| after_next : forall n p p' c, after P n p -> iteration P p = Ok (p', c) -> after P (S n) p'.

(** ** Lemmas *)
Section Problem.
  Variable P : problem.
  Hypothesis HP : problem_ok P.
  Notation alpha := (q_alpha P). Notation k := (q_k P). Notation nl := (q_nl P).
  Notation nu := (q_nu P). Notation ni := (q_ni P). Notation evs := (q_evs P).
  Notation N := (length evs).
  Notation SE := (se evs). Notation UE := (ue evs). Notation IE := (ie evs).

  Definition state (p : params) : Prop :=
    params_shape k nl nu ni p /\ good alpha k nl nu ni N SE UE IE (fun_of p).

  Lemma N_pos : (0 < N)%nat.
  Proof. destruct HP as [_ [_ [H _]]]. destruct evs; [contradiction|cbn; lia]. Qed.

  Lemma forall2_at : forall (Q : R -> Prop) n m, length m = n -> Forall (fun row => length row = k) m -> Forall (Forall Q) m ->
    forall i j, (i < n)%nat -> (j < k)%nat -> Q (at2 m i j).
  Proof.
    intros Q n m Hl Hr H i j Hi Hj. rewrite Forall_forall in H, Hr.
    assert (Hin : In (nth i m []) m) by (apply nth_In; lia). specialize (H _ Hin). rewrite Forall_forall in H. apply H.
    apply nth_In. rewrite Hr; auto.
  Qed.

  Lemma start_weights : weights_ok alpha k N (at2 (q_start P)) /\ shape2 N k (q_start P).
  Proof.
    destruct HP as [_ [_ [_ [_ [H1 [H2 [H3 H4]]]]]]]. split; [|split; auto]. split.
    - apply forall2_at; auto.
    - destruct H4 as [H4|H4]; [left; auto|right]. apply forall2_at; auto.
  Qed.

  Lemma weights_ext : forall q q', (forall e z, (e < N)%nat -> (z < k)%nat -> q e z = q' e z) ->
    weights_ok alpha k N q -> weights_ok alpha k N q'.
  Proof.
    intros q q' E [H1 H2]. split.
    - intros e z He Hz. rewrite <- E by auto. auto.
    - destruct H2 as [H2|H2]; [auto|right]. intros e z He Hz. rewrite <- E by auto. auto.
  Qed.

  Lemma good_ext : forall t t', (forall z, (z < k)%nat -> fz t z = fz t' z) ->
    (forall v z, (v < nl)%nat -> (z < k)%nat -> fr t v z = fr t' v z) ->
    (forall v z, (v < nu)%nat -> (z < k)%nat -> fx t v z = fx t' v z) ->
    (forall v z, (v < ni)%nat -> (z < k)%nat -> fy t v z = fy t' v z) ->
    good alpha k nl nu ni N SE UE IE t -> good alpha k nl nu ni N SE UE IE t'.
  Proof.
    intros t t' E0 E1 E2 E3 [G0 [G1 [G2 [G3 G4]]]].
    assert (T : forall n g f f', (forall v z, (v < n)%nat -> (z < k)%nat -> f v z = f' v z) ->
      good_table alpha k N n g f -> good_table alpha k N n g f').
    { intros n g f f' E [T1 [T2 T3]]. split; [|split].
      - intros z Hz. rewrite <- (T1 z Hz). apply sm_ext. intros v Hv. symmetry. auto.
      - intros v z Hv Hz. rewrite <- E by auto. auto.
      - intros v z Hv Hz H. rewrite <- E by auto. auto. }
    split; [|split; [|split; [|split]]].
    - rewrite <- G0. apply sm_ext. intros z Hz. symmetry. auto.
    - intros z Hz. rewrite <- E0 by auto. auto.
    - apply (T nl SE (fr t)); auto.
    - apply (T nu UE (fx t)); auto.
    - apply (T ni IE (fy t)); auto.
  Qed.

  Lemma fun_tab : forall t, let t' := fun_of (tab_of k nl nu ni t) in
    (forall z, (z < k)%nat -> fz t z = fz t' z) /\
    (forall v z, (v < nl)%nat -> (z < k)%nat -> fr t v z = fr t' v z) /\
    (forall v z, (v < nu)%nat -> (z < k)%nat -> fx t v z = fx t' v z) /\
    (forall v z, (v < ni)%nat -> (z < k)%nat -> fy t v z = fy t' v z).
  Proof.
    intros t t'. unfold t'. cbn [fun_of tab_of fz fr fx fy pZ pRgZ pXgZ pYgZ]. split; [|repeat split; intros; rewrite tab2_at by auto; auto].
    intros z Hz. unfold at1. rewrite nth_map_seq by auto. auto.
  Qed.

  Lemma ranges : (forall e, (e < N)%nat -> (SE e < nl)%nat) /\ (forall e, (e < N)%nat -> (UE e < nu)%nat) /\
    (forall e, (e < N)%nat -> (IE e < ni)%nat).
  Proof. apply ratings_range. destruct HP as [_ [_ [_ [H _]]]]. exact H. Qed.

  Lemma step_state : forall q p, shape2 N k q -> weights_ok alpha k N (at2 q) ->
    m_step alpha k nl nu ni q (uis_of evs) (sc_of evs) = Ok p ->
    p = tab_of k nl nu ni (mfun alpha k nl nu ni N SE UE IE (at2 q)) /\ state p.
  Proof.
    intros q p Hq Hw H. pose proof N_pos as HN. destruct HP as [Ha [Hk [_ [Hev _]]]]. destruct ranges as [R1 [R2 R3]].
    rewrite (m_step_ok k nl nu ni evs Hev alpha q Hk HN Ha Hq Hw) in H. inversion H; subst p. split; auto.
    split; [apply tab_of_shape|].
    destruct (fun_tab (mfun alpha k nl nu ni N SE UE IE (at2 q))) as [F1 [F2 [F3 F4]]].
    apply (good_ext (mfun alpha k nl nu ni N SE UE IE (at2 q))); auto. apply good_mfun; auto.
  Qed.

  Lemma J_sums : forall p, state p -> forall e, (e < N)%nat -> 0 < sm k (J SE UE IE (fun_of p) e).
  Proof.
    intros p [_ H] e He. destruct HP as [Ha [Hk _]]. destruct ranges as [R1 [R2 R3]].
    eapply Jsum_pos; eauto.
  Qed.

  Lemma e_step_state : forall p, state p -> exists q, e_step p (uis_of evs) (sc_of evs) = Ok q /\
    q = tab2 N k (post k SE UE IE (fun_of p)) /\ shape2 N k q /\ weights_ok alpha k N (at2 q).
  Proof.
    intros p Hp. pose proof (J_sums p Hp) as HJ. destruct Hp as [Hs Hg]. destruct HP as [Ha [Hk [_ [Hev _]]]].
    destruct ranges as [R1 [R2 R3]]. eexists. split; [|split; [reflexivity|split; [apply tab2_shape|]]].
    - apply e_step_ok with nl nu ni; auto. intros e He. specialize (HJ e He). lra.
    - apply (weights_ext (post k SE UE IE (fun_of p))).
      + intros. rewrite tab2_at; auto.
      + eapply post_ok; eauto.
  Qed.

  Lemma loss_state : forall p, state p -> loss_of P p = Ok (nll k N SE UE IE (fun_of p) / INR N).
  Proof.
    intros p Hp. pose proof (J_sums p Hp) as HJ. destruct Hp as [Hs Hg]. pose proof N_pos. destruct HP as [Ha [Hk [_ [Hev _]]]].
    apply loss_ok with nl nu ni; auto.
  Qed.

  Lemma iteration_state : forall p, state p -> exists p', iteration P p = Ok (p', nll k N SE UE IE (fun_of p') / INR N) /\
    state p' /\ p' = tab_of k nl nu ni (mfun alpha k nl nu ni N SE UE IE (post k SE UE IE (fun_of p))).
  Proof.
    intros p Hp. destruct (e_step_state p Hp) as [q [E1 [E2 [E3 E4]]]].
    pose proof N_pos as HN. destruct HP as [Ha [Hk [_ [Hev _]]]]. destruct ranges as [R1 [R2 R3]].
    pose proof (m_step_ok k nl nu ni evs Hev alpha q Hk HN Ha E3 E4) as M. destruct (step_state q _ E3 E4 M) as [_ S'].
    eexists. split; [|split; [exact S'|]].
    - unfold iteration, em_iteration. rewrite E1. cbn [bind]. rewrite M. cbn [bind].
      pose proof (loss_state _ S') as L. unfold loss_of in L. rewrite L. reflexivity.
    - assert (X : forall e z, (e < N)%nat -> (z < k)%nat -> at2 q e z = post k SE UE IE (fun_of p) e z).
      { intros e z He Hz. rewrite E2. apply tab2_at; auto. }
      assert (Sd : forall n g v z, (z < k)%nat -> sd alpha N n g (at2 q) v z = sd alpha N n g (post k SE UE IE (fun_of p)) v z).
      { intros n g v z Hz. assert (W : forall v, wc N g (at2 q) v z = wc N g (post k SE UE IE (fun_of p)) v z).
        { intros v'. apply sm_ext. intros e He. rewrite X by auto. auto. }
        unfold sd. rewrite W. f_equal. apply sm_ext. intros i Hi. rewrite W. auto. }
      unfold tab_of, mfun. cbn [fz fr fx fy]. f_equal.
      + assert (Z0 : forall z, (z < k)%nat -> sm N (fun e => at2 q e z) = sm N (fun e => post k SE UE IE (fun_of p) e z)).
        { intros z Hz. apply sm_ext. auto. }
        apply map_ext_in. intros z Hz. apply in_seq in Hz. rewrite Z0 by lia. f_equal. apply sm_ext. intros. rewrite Z0; auto.
      + apply tab2_ext. auto.
      + apply tab2_ext. auto.
      + apply tab2_ext. auto.
  Qed.

  Lemma first_state : exists p, first_step P = Ok p /\ state p.
  Proof.
    destruct start_weights as [W Q]. pose proof N_pos as HN. destruct HP as [Ha [Hk [_ [Hev _]]]].
    pose proof (m_step_ok k nl nu ni evs Hev alpha (q_start P) Hk HN Ha Q W) as M.
    eexists. split; [exact M|]. eapply step_state; eauto.
  Qed.

  Lemma after_state : forall n p, after P n p -> state p.
  Proof.
    intros n p H. induction H as [p H|n p p' c _ IH H].
    - destruct first_state as [p0 [E S0]]. congruence.
    - destruct (iteration_state p IH) as [p1 [E [S1 _]]]. congruence.
  Qed.

  Lemma after_total : forall n, exists p, after P n p.
  Proof.
    induction n as [|n [p IH]].
    - destruct first_state as [p0 [E _]]. exists p0. constructor; auto.
    - destruct (iteration_state p (after_state _ _ IH)) as [p1 [E _]]. exists p1. econstructor; eauto.
  Qed.
End Problem.

Lemma after_det : forall P n p p', after P n p -> after P n p' -> p = p'.
Proof.
  intros P n p p' H. revert p'. induction H as [p H|n p p1 c H IH E]; intros p' H'; inversion H'; subst; [congruence|].
  match goal with H : after P n ?x |- _ => specialize (IH _ H); subst x end. congruence.
Qed.

(** the probability that a model gives to a rating *)
Definition likelihood (p : params) (x : rating) : R :=
  rsum (map (fun z => nth z (pZ p) 0 * nth z (nth (snd x) (pRgZ p) []) 0 *
                      nth z (nth (fst (fst x)) (pXgZ p) []) 0 * nth z (nth (snd (fst x)) (pYgZ p) []) 0)
            (seq 0 (length (pZ p)))).

Lemma nll_likelihood : forall k nl nu ni evs p, params_shape k nl nu ni p ->
  nll k (length evs) (se evs) (ue evs) (ie evs) (fun_of p) = - rsum (map (fun x => ln (likelihood p x)) evs).
Proof.
  intros k nl nu ni evs p [Hz _]. unfold nll, sm. f_equal. rewrite (as_seq _ (fun x => ln (likelihood p x))).
  f_equal. apply map_ext. intros e. f_equal. unfold likelihood. rewrite Hz. reflexivity.
Qed.

(** ** C41 *)
Theorem C41_distributions : forall P n p, problem_ok P -> after P n p ->
  length (pZ p) = q_k P /\ distribution (pZ p) /\ Forall (fun x => 0 < x) (pZ p) /\
  length (pRgZ p) = q_nl P /\ length (pXgZ p) = q_nu P /\ length (pYgZ p) = q_ni P /\
  (forall z, (z < q_k P)%nat -> distribution (col (pRgZ p) z) /\ distribution (col (pXgZ p) z) /\ distribution (col (pYgZ p) z)) /\
  (forall m, In m [pRgZ p; pXgZ p; pYgZ p] -> Forall (fun row => length row = q_k P) m /\
     (0 < q_alpha P -> Forall (Forall (fun x => 0 < x)) m)).
Proof.
  intros P n p HP H. destruct (after_state P HP n p H) as [[S0 [S1 [S2 S3]]] [G0 [G1 [G2 [G3 G4]]]]].
  assert (T : forall n g m, shape2 n (q_k P) m -> good_table (q_alpha P) (q_k P) (length (q_evs P)) n g (at2 m) ->
    (forall z, (z < q_k P)%nat -> distribution (col m z)) /\
    (Forall (fun row => length row = q_k P) m /\ (0 < q_alpha P -> Forall (Forall (fun x => 0 < x)) m))).
  { intros n0 g m [M1 M2] [T1 [T2 T3]].
    assert (C : forall z, col m z = map (fun v => at2 m v z) (seq 0 n0)).
    { intros z. unfold col. rewrite (list_as_map _ m []) at 1. rewrite map_map, M1. reflexivity. }
    split; [|split; auto].
    - intros z Hz. rewrite C. split; [|apply (T1 z Hz)]. apply Forall_map, Forall_forall. intros v Hv. apply in_seq in Hv. apply T2; auto; lia.
    - intros Ha. rewrite (shape2_tab _ _ m (conj M1 M2)). unfold tab2. apply Forall_map, Forall_forall. intros v Hv. apply in_seq in Hv.
      apply Forall_map, Forall_forall. intros z Hz. apply in_seq in Hz. apply T3; auto; lia. }
  destruct (T _ _ _ S1 G2) as [A1 A2]. destruct (T _ _ _ S2 G3) as [B1 B2]. destruct (T _ _ _ S3 G4) as [C1 C2].
  assert (Pz : Forall (fun x => 0 < x) (pZ p)).
  { apply Forall_forall. intros x Hx. apply (In_nth _ _ 0) in Hx. destruct Hx as [z [Hz <-]]. apply G1. lia. }
  split; auto. split; [split|].
  - eapply Forall_impl; [|exact Pz]. cbn. intros; lra.
  - rewrite <- G0. unfold sm. f_equal. rewrite (list_as_map _ (pZ p) 0) at 1. rewrite S0. reflexivity.
  - split; auto. destruct S1 as [S1 _], S2 as [S2 _], S3 as [S3 _]. repeat (split; auto).
    + destruct H0 as [<-|[<-|[<-|[]]]]; tauto.
    + destruct H0 as [<-|[<-|[<-|[]]]]; tauto.
Qed.

(** every iteration is possible *)
Theorem C41_total : forall P n, problem_ok P -> exists p, after P n p /\ forall p', after P n p' -> p' = p.
Proof.
  intros P n HP. destruct (after_total P HP n) as [p H]. exists p. split; auto. intros. eapply after_det; eauto.
Qed.

(** ** C42 *)
Theorem C42_responsibilities : forall P n p, problem_ok P -> after P n p ->
  exists q, e_step p (uis_of (q_evs P)) (sc_of (q_evs P)) = Ok q /\ length q = length (q_evs P) /\
    Forall (fun row => length row = q_k P /\ Forall (fun x => 0 < x) row /\ rsum row = 1) q /\
    (** posterior probabilities *)
    forall e z x, nth_error (q_evs P) e = Some x -> (z < q_k P)%nat ->
      nth z (nth e q []) 0 * likelihood p x =
      nth z (pZ p) 0 * nth z (nth (snd x) (pRgZ p) []) 0 *
      nth z (nth (fst (fst x)) (pXgZ p) []) 0 * nth z (nth (snd (fst x)) (pYgZ p) []) 0.
Proof.
  intros P n p HP H. pose proof (after_state P HP n p H) as S. destruct (e_step_state P HP p S) as [q [E1 [E2 [E3 E4]]]].
  pose proof (J_sums P HP p S) as HJ. destruct S as [Hs Hg].
  destruct HP as [Ha [Hk [_ [Hev _]]]]. destruct (ratings_range _ _ _ _ Hev) as [R1 [R2 R3]].
  exists q. split; auto. split; [apply E3|]. split.
  - rewrite E2. unfold tab2. apply Forall_map, Forall_forall. intros e He. apply in_seq in He.
    split; [rewrite map_length, seq_length; auto|]. split.
    + apply Forall_map, Forall_forall. intros z Hz. apply in_seq in Hz. eapply post_pos; eauto; lia.
    + change (sm (q_k P) (post (q_k P) (se (q_evs P)) (ue (q_evs P)) (ie (q_evs P)) (fun_of p) e) = 1).
      eapply post_sum; eauto; lia.
  - intros e z x Hx Hz. assert (He : (e < length (q_evs P))%nat) by (apply nth_error_Some; congruence).
    assert (Ex : nth e (q_evs P) dr = x) by (apply nth_error_nth; auto).
    change (nth z (nth e q []) 0) with (at2 q e z). rewrite E2, tab2_at by auto. unfold post.
    assert (EL : sm (q_k P) (J (se (q_evs P)) (ue (q_evs P)) (ie (q_evs P)) (fun_of p) e) = likelihood p x).
    { unfold likelihood. destruct Hs as [-> _]. unfold sm, J, se, ue, ie. rewrite Ex. reflexivity. }
    specialize (HJ e He). rewrite EL in HJ |- *. unfold J, se, ue, ie. rewrite Ex. cbn [fz fr fx fy fun_of at1 at2].
    unfold at1, at2. field. lra.
Qed.

(** ** C43 *)
(** minus log likelihood minus alpha times the logarithms of all parameters *)
Definition penalised (P : problem) (p : params) : R :=
  - rsum (map (fun x => ln (likelihood p x)) (q_evs P)) -
  q_alpha P * (rsum (map ln (pZ p)) + rsum (map ln (concat (pRgZ p))) +
               rsum (map ln (concat (pXgZ p))) + rsum (map ln (concat (pYgZ p)))).

Lemma rsum_concat_map : forall (f : R -> R) m, rsum (map f (concat m)) = rsum (map (fun row => rsum (map f row)) m).
Proof. intros. rewrite concat_map, rsum_concat, map_map. auto. Qed.

Lemma logs_concat : forall n k m, shape2 n k m -> rsum (map ln (concat m)) = logs k n (at2 m).
Proof.
  intros n k m H. rewrite (shape2_tab _ _ m H) at 1. rewrite rsum_concat_map. unfold logs, tab2.
  rewrite sm_swap. unfold sm. rewrite map_map. f_equal. apply map_ext. intros i. rewrite map_map. auto.
Qed.

Lemma obj_penalised : forall P p, params_shape (q_k P) (q_nl P) (q_nu P) (q_ni P) p ->
  obj (q_alpha P) (q_k P) (q_nl P) (q_nu P) (q_ni P) (length (q_evs P)) (se (q_evs P)) (ue (q_evs P)) (ie (q_evs P)) (fun_of p) = penalised P p.
Proof.
  intros P p H. unfold obj, penalised. rewrite (nll_likelihood _ _ _ _ _ _ H). destruct H as [H0 [H1 [H2 H3]]].
  rewrite (logs_concat _ _ _ H1), (logs_concat _ _ _ H2), (logs_concat _ _ _ H3). cbn [fz fr fx fy fun_of].
  replace (rsum (map ln (pZ p))) with (sm (q_k P) (fun z => ln (at1 (pZ p) z))); [reflexivity|].
  unfold sm. assert (E := list_as_map _ (pZ p) 0). apply (f_equal (fun l => rsum (map ln l))) in E. rewrite E, map_map, H0. reflexivity.
Qed.

Theorem C43_em_monotone : forall P n p p' c, problem_ok P -> after P n p -> iteration P p = Ok (p', c) ->
  penalised P p' <= penalised P p.
Proof.
  intros P n p p' c HP H E. pose proof (after_state P HP n p H) as S.
  destruct (iteration_state P HP p S) as [p1 [E1 [S1 E2]]]. assert (Ep : p1 = p') by congruence. rewrite Ep in E2, S1. clear E1 Ep.
  rewrite <- !obj_penalised by (apply S || apply S1).
  destruct (fun_tab P (mfun (q_alpha P) (q_k P) (q_nl P) (q_nu P) (q_ni P) (length (q_evs P)) (se (q_evs P)) (ue (q_evs P)) (ie (q_evs P))
     (post (q_k P) (se (q_evs P)) (ue (q_evs P)) (ie (q_evs P)) (fun_of p)))) as [F1 [F2 [F3 F4]]].
  rewrite <- E2 in F1, F2, F3, F4. set (t' := mfun _ _ _ _ _ _ _ _ _ _) in *.
  destruct HP as [Ha [Hk [He [Hev Hq]]]]. destruct (ratings_range _ _ _ _ Hev) as [R1 [R2 R3]].
  assert (HN : (0 < length (q_evs P))%nat) by (destruct (q_evs P); [contradiction|cbn; lia]).
  destruct S as [_ S].
  eapply Rle_trans; [|apply (em_mono (q_alpha P) (q_k P) (q_nl P) (q_nu P) (q_ni P) _ (se (q_evs P)) (ue (q_evs P)) (ie (q_evs P))); auto].
  right. fold t'. unfold obj. f_equal.
  - unfold nll. f_equal. apply sm_ext. intros e He'. f_equal. apply sm_ext. intros z Hz. unfold J.
    rewrite <- F1, <- F2, <- F3, <- F4; auto.
  - f_equal. f_equal; [f_equal; [f_equal|]|].
    + apply sm_ext. intros z Hz. rewrite <- F1; auto.
    + apply sm_ext. intros z Hz. apply sm_ext. intros v Hv. rewrite <- F2; auto.
    + apply sm_ext. intros z Hz. apply sm_ext. intros v Hv. rewrite <- F3; auto.
    + apply sm_ext. intros z Hz. apply sm_ext. intros v Hv. rewrite <- F4; auto.
Qed.

(** the reported loss is the mean minus log likelihood *)
Theorem C43_loss : forall P n p, problem_ok P -> after P n p ->
  loss_of P p = Ok (- rsum (map (fun x => ln (likelihood p x)) (q_evs P)) / INR (length (q_evs P))).
Proof.
  intros P n p HP H. pose proof (after_state P HP n p H) as S. rewrite (loss_state P HP p S).
  destruct S as [Hs _]. rewrite (nll_likelihood _ _ _ _ _ _ Hs). auto.
Qed.

(** without smoothing it never increases *)
Theorem C43_loss_monotone : forall P n p p' c c', problem_ok P -> q_alpha P = 0 -> after P n p ->
  loss_of P p = Ok c -> iteration P p = Ok (p', c') -> c' <= c.
Proof.
  intros P n p p' c c' HP Ha H Hc E. pose proof (C43_em_monotone P n p p' c' HP H E) as M. unfold penalised in M. rewrite Ha in M.
  rewrite (C43_loss P n p HP H) in Hc. inversion Hc as [Hc']. clear Hc.
  assert (H' : after P (S n) p') by (econstructor; eauto).
  pose proof (after_state P HP n p H) as S. destruct (iteration_state P HP p S) as [p1 [E1 [S1 _]]].
  assert (p1 = p') by congruence. subst p1. rewrite E in E1. inversion E1 as [Ec]. destruct S1 as [Hs1 _].
  rewrite (nll_likelihood _ _ _ _ _ _ Hs1). destruct HP as [_ [_ [He _]]].
  apply Rmult_le_compat_r; [|lra]. left. apply Rinv_0_lt_compat, lt_0_INR. destruct (q_evs P); [contradiction|cbn; lia].
Qed.

(** ** C45 *)
(** the loss after [n] iterations *)
Definition loss_after (P : problem) (n : nat) (l : R) : Prop := exists p, after P n p /\ loss_of P p = Ok l.
(** the relative change from [a] to [b] is below [tol] *)
Definition close (tol a b : R) : Prop := b <> 0 /\ Rabs ((b - a) / b) < tol.

Lemma converged_close : forall tol a b, converged tol a b = true <-> close tol a b.
Proof.
  intros. unfold converged, close. destruct (Req_EM_T b 0); [split; [discriminate|tauto]|].
  destruct (Rlt_dec (Rabs ((b - a) / b)) tol); split; try discriminate; tauto.
Qed.

Definition seqz (i n : nat) : list Z := map Z.of_nat (seq i n).

Section Loop.
  Variable P : problem.
  Hypothesis HP : problem_ok P.
  Variable tol : R.
  Notation loop := (em_loop (q_alpha P) tol (q_k P) (q_nl P) (q_nu P) (q_ni P) (length (q_evs P)) (uis_of (q_evs P)) (sc_of (q_evs P))).

  Lemma loop_ok : forall m i iter cur pre p, after P i p -> loss_of P p = Ok pre ->
    (m = 0%nat -> (i = 0%nat /\ iter = 0%Z /\ cur = None) \/ (iter = Z.of_nat i - 1 /\ cur = Some pre)%Z) ->
    exists n p' iter' cur', loop (seqz i m) iter cur pre p = Ok (p', iter', cur') /\
      (i <= n <= i + m)%nat /\ after P n p' /\
      (forall j a b, (i <= j)%nat -> (S j < n)%nat -> loss_after P j a -> loss_after P (S j) b -> ~ close tol a b) /\
      ((m = 0%nat /\ i = 0%nat /\ iter' = 0%Z /\ cur' = None) \/
       (iter' = Z.of_nat n - 1 /\ (m <> 0%nat -> (i < n)%nat) /\ (exists l, cur' = Some l /\ loss_of P p' = Ok l))%Z) /\
      ((n < i + m)%nat -> exists a b j, n = S j /\ loss_after P j a /\ loss_after P n b /\ close tol a b) /\
      (n = i + m -> forall j a b, (i <= j)%nat -> (S j < n)%nat -> loss_after P j a -> loss_after P (S j) b -> ~ close tol a b)%nat.
  Proof.
    induction m as [|m IH]; intros i iter cur pre p Ha Hl Hc.
    - exists i, p, iter, cur. cbn [seqz seq map em_loop]. split; auto. split; [lia|]. split; auto.
      split; [intros; lia|]. split; [|split; intros; lia].
      destruct (Hc eq_refl) as [[-> [-> ->]]|[-> ->]]; [left; auto|right]. split; auto. split; [congruence|eauto].
    - assert (S := after_state P HP i p Ha). destruct (iteration_state P HP p S) as [p1 [E1 [S1 _]]].
      set (c := nll _ _ _ _ _ _ / _) in E1.
      assert (H1 : after P (Datatypes.S i) p1) by (econstructor; eauto).
      assert (L1 : loss_of P p1 = Ok c) by (apply loss_state; auto).
      unfold seqz. cbn [seq map em_loop]. unfold iteration in E1. rewrite E1. cbn [bind].
      destruct (converged tol pre c) eqn:Ec.
      + apply converged_close in Ec. exists (Datatypes.S i), p1, (Z.of_nat i), (Some c).
        split; auto. split; [lia|]. split; auto. split; [intros; lia|]. split.
        { right. split; [lia|]. split; [lia|eauto]. }
        split; [|intros; lia]. intros _. exists pre, c, i. split; auto. split; [exists p; auto|]. split; [exists p1; auto|auto].
      + destruct (IH (Datatypes.S i) (Z.of_nat i) (Some c) c p1 H1 L1) as [n [p' [iter' [cur' [A1 [A2 [A3 [A4 [A5 [A6 A7]]]]]]]]]].
        { intros _. right. split; auto. lia. }
        exists n, p', iter', cur'. fold (seqz (Datatypes.S i) m). split; auto. split; [lia|]. split; auto.
        assert (NC : forall j a b, (i <= j)%nat -> (Datatypes.S j < n)%nat -> loss_after P j a -> loss_after P (Datatypes.S j) b -> ~ close tol a b).
        { intros j a b Hj Hn La Lb. destruct (Nat.eq_dec j i) as [->|Hne].
          - destruct La as [pa [A La]]. destruct Lb as [pb [B Lb]]. assert (pa = p) by (eapply after_det; eauto).
            assert (pb = p1) by (eapply after_det; eauto). subst pa pb. assert (a = pre) by congruence. assert (b = c) by congruence. subst a b.
            intros Hcl. apply converged_close in Hcl. congruence.
          - apply (A4 j); auto; lia. }
        split; auto. split.
        { right. destruct A5 as [[_ [? _]]|[B1 [B2 B3]]]; [lia|]. split; auto. split; [lia|auto]. }
        split; [|auto]. intros Hn. apply A6. lia.
  Qed.
End Loop.

(** what the report says: [n] iterations were performed, at most maxiter, no
    earlier one changed the loss by less than tol, the last one did if
    iterations were left; success is reported only then.  Missing: success is
    not reported when tol is reached in the last allowed iteration, see
    below. *)
Theorem C45_report_partial : forall P tol maxiter, problem_ok P -> (1 <= maxiter)%Z ->
  exists n p rep l0 l, fit_of P tol maxiter = Ok (p, rep) /\ after P n p /\
    (1 <= Z.of_nat n <= maxiter)%Z /\ n_iterations rep = Z.of_nat n /\
    loss_after P 0 l0 /\ initial_loss rep = l0 /\ loss_after P n l /\ final_loss rep = Some l /\
    (forall j a b, (S j < n)%nat -> loss_after P j a -> loss_after P (S j) b -> ~ close tol a b) /\
    ((Z.of_nat n < maxiter)%Z -> exists a, loss_after P (n - 1) a /\ close tol a l) /\
    (success rep = true <-> (Z.of_nat n < maxiter)%Z) /\
    (success rep = true -> status rep = 0%Z /\ message rep = "Fitting terminated successfully."%string) /\
    (success rep = false -> status rep = 2%Z /\ message rep = "Maximum number of iterations has been exceeded."%string).
Proof.
  intros P tol maxiter HP Hm. destruct (first_state P HP) as [p0 [E0 S0]].
  assert (A0 : after P 0 p0) by (constructor; auto). pose proof (loss_state P HP p0 S0) as L0. set (l0 := nll _ _ _ _ _ _ / _) in L0.
  destruct (loop_ok P HP tol (Z.to_nat maxiter) 0 0%Z None l0 p0 A0 L0) as [n [p [it [cur [E [Hn [Hp [NC [R [C _]]]]]]]]]].
  { intros; lia. }
  destruct R as [[R _]|[R1 [R2 [l [R3 R4]]]]]; [lia|]. specialize (R2 ltac:(lia)).
  unfold seqz in E. eexists n, p, _, l0, l. split.
  { unfold fit_of, em_fit. unfold first_step in E0. rewrite E0. cbn [bind]. unfold loss_of in L0. rewrite L0. cbn [bind].
    rewrite E. cbn [bind]. reflexivity. }
  cbn [n_iterations initial_loss final_loss success status message]. subst it cur.
  split; auto. split; [lia|]. split; [lia|]. split; [exists p0; auto|]. split; auto. split; [exists p; auto|]. split; auto.
  split; [intros j a b Hj; apply NC; lia|]. split.
  { intros Hlt. destruct (C ltac:(lia)) as [a [b [j [-> [La [Lb Hc]]]]]]. exists a. replace (S j - 1)%nat with j by lia. split; auto.
    destruct Lb as [pb [B Lb]]. assert (pb = p) by (eapply after_det; eauto). subst pb. assert (b = l) by congruence. subst b. auto. }
  destruct (Z.leb_spec (maxiter - 1) (Z.of_nat n - 1)); cbn; repeat split; intros; try discriminate; auto; lia.
Qed.

(** ** The defects of the report *)
(** one user, one item, two levels, one rating, one topic *)
Definition tiny : problem := mkProblem 1 1 2 1 1 [(0, 0, 0)%nat] [[1]].
Lemma tiny_ok : problem_ok tiny.
Proof.
  unfold problem_ok, tiny, start_ok. cbn. repeat split; try lra; try lia; try discriminate; repeat constructor; cbn; try lra; lia.
Qed.

(** with one topic the first M-step already gives the final parameters *)
Lemma tiny_after : forall n p, after tiny n p -> likelihood p (0, 0, 0)%nat = 2 / 3.
Proof.
  assert (K : forall p, (exists q, shape2 1 1 q /\ at2 q 0 0 = 1 /\ m_step 1 1 2 1 1 q (uis_of [(0, 0, 0)%nat]) (sc_of [(0, 0, 0)%nat]) = Ok p) ->
     likelihood p (0, 0, 0)%nat = 2 / 3).
  { intros p [q [Q1 [Q2 E]]].
    assert (W : weights_ok 1 1 1 (at2 q)).
    { split; [|left; lra]. intros e z He Hz. replace e with 0%nat by lia. replace z with 0%nat by lia. rewrite Q2. lra. }
    pose proof tiny_ok as T. destruct T as [_ [_ [_ [Hev _]]]].
    pose proof (m_step_ok 1 2 1 1 [(0, 0, 0)%nat] Hev 1 q ltac:(lia) ltac:(cbn; lia) ltac:(lra) Q1 W) as M.
    rewrite M in E. inversion E; subst p. unfold likelihood. cbn. unfold sd, wc, sm, se, ue, ie. cbn. rewrite Q2. field. }
  intros n p H. destruct H as [p H|n p p' c H E].
  - apply K. exists [[1]]. repeat split; auto.
  - pose proof (after_state tiny tiny_ok n p H) as S. destruct (e_step_state tiny tiny_ok p S) as [q [E1 [E2 [E3 E4]]]].
    apply K. exists q. split; auto. split.
    + destruct (C42_responsibilities tiny n p tiny_ok H) as [q' [F1 [F2 [F3 _]]]]. assert (q' = q) by congruence. subst q'.
      cbn in F2. destruct q as [|row [|? ?]]; try discriminate. inversion F3 as [|? ? [G1 [G2 G3]] _]. cbn in G1.
      destruct row as [|y [|? ?]]; try discriminate. cbn in G3 |- *. lra.
    + unfold iteration, em_iteration in E. cbn [tiny q_alpha q_k q_nl q_nu q_ni q_evs] in *. rewrite E1 in E. cbn [bind] in E.
      apply bind_ok in E. destruct E as [p1 [E5 E]]. apply bind_ok in E. destruct E as [c1 [_ E]]. inversion E; subst. auto.
Qed.

Lemma tiny_loss : forall n l, loss_after tiny n l -> l = - ln (2 / 3).
Proof.
  intros n l [p [H L]]. rewrite (C43_loss tiny n p tiny_ok H) in L. inversion L. cbn [q_evs tiny map length].
  rewrite (tiny_after n p H). cbn. field.
Qed.

Lemma ln_two_thirds : - ln (2 / 3) <> 0.
Proof. assert (ln (2 / 3) < 0); [|lra]. rewrite <- ln_1. apply ln_increasing; lra. Qed.

(** the tolerance is reached in the only iteration allowed, yet failure is
    reported *)
Theorem C45_success_refuted : exists P tol maxiter p rep l0 l, problem_ok P /\
  fit_of P tol maxiter = Ok (p, rep) /\ n_iterations rep = 1%Z /\
  loss_after P 0 l0 /\ loss_after P 1 l /\ close tol l0 l /\ success rep = false.
Proof.
  destruct (C45_report_partial tiny 1 1 tiny_ok ltac:(lia)) as [n [p [rep [l0 [l [E [A [Hn [En [L0 [I0 [L [F [NC [C [Sx _]]]]]]]]]]]]]]]].
  assert (n = 1%nat) by lia. subst n.
  exists tiny, 1, 1%Z, p, rep, l0, l. split; [apply tiny_ok|]. split; auto. split; auto. split; auto. split; auto. split.
  - apply tiny_loss in L0. apply tiny_loss in L. subst. split; [apply ln_two_thirds|].
    replace ((- ln (2 / 3) - - ln (2 / 3)) / - ln (2 / 3)) with 0; [rewrite Rabs_R0; lra|]. pose proof ln_two_thirds. field. lra.
  - destruct (success rep); auto. destruct Sx as [Sx _]. specialize (Sx eq_refl). lia.
Qed.

(** no iteration is performed for maxiter 0, but one is reported, with an
    infinite loss *)
Theorem C45_no_iteration_refuted : forall P tol, problem_ok P ->
  exists p rep, fit_of P tol 0 = Ok (p, rep) /\ after P 0 p /\
    n_iterations rep = 1%Z /\ final_loss rep = None /\ success rep = false.
Proof.
  intros P tol HP. destruct (first_state P HP) as [p0 [E0 S0]].
  assert (A0 : after P 0 p0) by (constructor; auto). pose proof (loss_state P HP p0 S0) as L0.
  eexists p0, _. split; [|split; auto].
  - unfold fit_of, em_fit. unfold first_step in E0. rewrite E0. cbn [bind]. unfold loss_of in L0. rewrite L0. reflexivity.
  - cbn. auto.
Qed.

(** a perfect model, loss 0, is never accepted as converged: one user, one
    item, one level *)
Definition perfect : problem := mkProblem 1 1 1 1 1 [(0, 0, 0)%nat] [[1]].
Lemma perfect_ok : problem_ok perfect.
Proof.
  unfold problem_ok, perfect, start_ok. cbn. repeat split; try lra; try lia; try discriminate; repeat constructor; cbn; try lra; lia.
Qed.

Lemma single : forall l, length l = 1%nat -> distribution l -> nth 0 l 0 = 1.
Proof. intros [|x [|? ?]] H [_ D]; try discriminate. cbn in *. lra. Qed.

Lemma perfect_loss : forall n l, loss_after perfect n l -> l = 0.
Proof.
  intros n l [p [H L]]. rewrite (C43_loss perfect n p perfect_ok H) in L. assert (El : l = - rsum (map (fun x => ln (likelihood p x)) (q_evs perfect)) / INR (length (q_evs perfect))) by congruence.
  rewrite El. clear El L. cbn [q_evs perfect map length].
  destruct (C41_distributions perfect n p perfect_ok H) as [H0 [D0 [_ [H1 [H2 [H3 [D _]]]]]]]. cbn [q_k q_nl q_nu q_ni perfect] in *.
  destruct (D 0%nat ltac:(lia)) as [D1 [D2 D3]].
  assert (K : forall m, length m = 1%nat -> distribution (col m 0) -> nth 0 (nth 0 m []) 0 = 1).
  { intros [|row [|? ?]] Hm Dm; try discriminate. apply single in Dm; auto. }
  assert (E : likelihood p (0, 0, 0)%nat = 1).
  { unfold likelihood. rewrite H0. cbn [seq map fst snd]. rewrite (single (pZ p)), !K by auto. cbn. lra. }
  rewrite E, ln_1. cbn. field.
Qed.

Theorem C45_perfect_refuted : exists P, problem_ok P /\ (forall n l, loss_after P n l -> l = 0) /\
  forall tol maxiter, (1 <= maxiter)%Z -> exists p rep, fit_of P tol maxiter = Ok (p, rep) /\
    n_iterations rep = maxiter /\ success rep = false.
Proof.
  exists perfect. split; [apply perfect_ok|]. split; [apply perfect_loss|]. intros tol maxiter Hm.
  destruct (C45_report_partial perfect tol maxiter perfect_ok Hm) as [n [p [rep [l0 [l [E [A [Hn [En [L0 [I0 [L [F [NC [C [Sx _]]]]]]]]]]]]]]]].
  assert (~ (Z.of_nat n < maxiter)%Z).
  { intros Hlt. destruct (C Hlt) as [a [La [Hne _]]]. apply Hne. eapply perfect_loss; eauto. }
  exists p, rep. split; auto. split; [lia|]. destruct (success rep); auto. destruct Sx as [Sx _]. specialize (Sx eq_refl). contradiction.
Qed.

(** without smoothing a fit never ends with a larger loss than it began with *)
Theorem C43_fit_improves : forall P tol maxiter p rep l, problem_ok P -> q_alpha P = 0 ->
  fit_of P tol maxiter = Ok (p, rep) -> final_loss rep = Some l -> l <= initial_loss rep.
Proof.
  intros P tol maxiter p rep l HP Ha E F. destruct (Z_lt_le_dec maxiter 1) as [Hm|Hm].
  - exfalso. unfold fit_of, em_fit in E. apply bind_ok in E. destruct E as [p0 [_ E]]. apply bind_ok in E. destruct E as [l0 [_ E]].
    replace (Z.to_nat maxiter) with 0%nat in E by lia. cbn in E. inversion E; subst. discriminate.
  - destruct (C45_report_partial P tol maxiter HP Hm) as [n [p1 [rep1 [l0 [l1 [E1 [A [Hn [En [L0 [I0 [L [F1 _]]]]]]]]]]]]].
    assert (rep1 = rep) by congruence. subst rep1. assert (l1 = l) by congruence. subst l1. rewrite I0. clear - L0 L HP Ha.
    revert l L. induction n as [|n IH]; intros l L.
    + destruct L0 as [a [A La]], L as [b [B Lb]]. assert (a = b) by (eapply after_det; eauto). subst b. assert (l = l0) by congruence. lra.
    + destruct L as [p' [A' L']]. inversion A' as [|? p ? c A E]; subst.
      pose proof (after_state P HP n p A) as S. pose proof (loss_state P HP p S) as Lp.
      eapply Rle_trans; [|apply IH; exists p; split; [exact A|exact Lp]].
      apply (C43_loss_monotone P n p p' _ l HP Ha A Lp).
      destruct (iteration_state P HP p S) as [p1 [E1 [S1 _]]]. rewrite E1 in E. inversion E; subst.
      rewrite (loss_state P HP p' S1) in L'. inversion L'; subst. auto.
Qed.

(** ** C46 *)
Definition preferred (a : list (list R)) (r z : nat) : Prop := exists x, nth_error (nth r a []) z = Some x /\ x = 1000.

Lemma init_alpha_at : forall nl k r z, (r < nl)%nat -> (z < k)%nat ->
  nth_error (nth r (init_alpha nl k) []) z = Some (if Nat.eqb (Nat.modulo z nl) r then 1000 else 1).
Proof.
  intros nl k r z Hr Hz. unfold init_alpha. rewrite nth_map_seq by auto.
  rewrite nth_error_map. rewrite (nth_error_nth' _ 0%nat) by (rewrite seq_length; auto). rewrite seq_nth by auto. reflexivity.
Qed.

(** results of rng.dirichlet: positive numbers that sum to one, one for each
    parameter *)
Definition dirichlet_ok (dirichlet : nat -> list R -> list R) : Prop :=
  forall i a, a <> [] -> Forall (fun x => 0 < x) a ->
    length (dirichlet i a) = length a /\ Forall (fun x => 0 < x) (dirichlet i a) /\ rsum (dirichlet i a) = 1.

Theorem C46_start : forall dirichlet nl k sc, dirichlet_ok dirichlet -> (0 < k)%nat ->
  Forall (fun s => (0 <= s < Z.of_nat nl)%Z) sc ->
  exists q, init_params dirichlet (Z.of_nat nl) k (length sc) sc = Ok q /\ length q = length sc /\
    Forall (fun row => length row = k /\ Forall (fun x => 0 < x) row /\ rsum row = 1) q /\
    (forall i s, nth_error sc i = Some s -> nth_error q i = Some (dirichlet i (nth (Z.to_nat s) (init_alpha nl k) []))).
Proof.
  intros dirichlet nl k sc Hd Hk Hs. unfold init_params. destruct (Z.ltb_spec (Z.of_nat nl) 0); [lia|]. rewrite Nat2Z.id.
  set (f := fun i => dirichlet i (nth (Z.to_nat (nth i sc 0%Z)) (init_alpha nl k) [])).
  assert (Hf : forall i, (i < length sc)%nat -> length (f i) = k /\ Forall (fun x => 0 < x) (f i) /\ rsum (f i) = 1).
  { intros i Hi. rewrite Forall_forall in Hs. specialize (Hs _ (nth_In sc 0%Z Hi)).
    set (s := Z.to_nat (nth i sc 0%Z)) in *. assert (s < nl)%nat by lia.
    assert (La : length (nth s (init_alpha nl k) []) = k).
    { unfold init_alpha. rewrite nth_map_seq by auto. rewrite map_length, seq_length. auto. }
    unfold f. fold s. destruct (Hd i (nth s (init_alpha nl k) [])) as [D1 [D2 D3]].
    - intros E. rewrite E in La. cbn in La. lia.
    - unfold init_alpha. rewrite nth_map_seq by auto. apply Forall_map, Forall_forall. intros z _. destruct (Nat.eqb _ _); lra.
    - split; [congruence|auto]. }
  exists (map f (seq 0 (length sc))). split; [|split; [|split]].
  - apply mapM_total. intros i Hi. apply in_seq in Hi. rewrite (np_get_at _ sc i 0%Z) by lia. cbn [bind].
    rewrite Forall_forall in Hs. specialize (Hs _ (nth_In sc 0%Z (n := i) ltac:(lia))).
    replace (nth i sc 0%Z) with (Z.of_nat (Z.to_nat (nth i sc 0%Z))) by lia.
    rewrite (np_get_at _ _ _ []).
    2:{ unfold init_alpha. rewrite map_length, seq_length. lia. }
    cbn [bind]. unfold assign.
    destruct (Hf i ltac:(lia)) as [Hl _]. unfold f in Hl |- *. rewrite Hl, Nat.eqb_refl. auto.
  - rewrite map_length, seq_length. auto.
  - apply Forall_map, Forall_forall. intros i Hi. apply in_seq in Hi. apply Hf. lia.
  - intros i s Hi. assert (i < length sc)%nat by (apply nth_error_Some; congruence).
    rewrite nth_error_map, (nth_error_nth' _ 0%nat), seq_nth by (rewrite ?seq_length; auto). cbn. unfold f.
    rewrite (nth_error_nth _ _ 0%Z Hi). auto.
Qed.

Theorem C46_preferred_level : forall nl k z, (0 < nl)%nat -> (z < k)%nat ->
  exists r, (r < nl)%nat /\ preferred (init_alpha nl k) r z /\
    forall r', (r' < nl)%nat -> preferred (init_alpha nl k) r' z -> r' = r.
Proof.
  intros nl k z Hn Hz. exists (Nat.modulo z nl). assert (Nat.modulo z nl < nl)%nat by (apply Nat.mod_upper_bound; lia).
  split; auto. split.
  - eexists. split; [apply init_alpha_at; auto|]. rewrite Nat.eqb_refl. auto.
  - intros r' Hr [x [Hx E]]. rewrite init_alpha_at in Hx by auto. destruct (Nat.eqb_spec (Nat.modulo z nl) r'); auto.
    exfalso. inversion Hx. lra.
Qed.

Theorem C46_every_level : forall nl k r, (nl <= k)%nat -> (r < nl)%nat ->
  exists z, (z < k)%nat /\ preferred (init_alpha nl k) r z.
Proof.
  intros nl k r Hk Hr. exists r. split; [lia|]. eexists. split; [apply init_alpha_at; lia|].
  rewrite Nat.mod_small, Nat.eqb_refl by auto. auto.
Qed.

(** the start satisfies the hypotheses of C41 - C43 and C45 *)
Theorem C46_problem : forall alpha k nl nu ni evs dirichlet q, dirichlet_ok dirichlet -> 0 <= alpha -> (0 < k)%nat -> evs <> [] ->
  Forall (fun x : rating => fst (fst x) < nu /\ snd (fst x) < ni /\ snd x < nl)%nat evs ->
  init_params dirichlet (Z.of_nat nl) k (length evs) (sc_of evs) = Ok q ->
  problem_ok (mkProblem alpha k nl nu ni evs q).
Proof.
  intros alpha k nl nu ni evs dirichlet q Hd Ha Hk Hne Hev Hq.
  destruct (C46_start dirichlet nl k (sc_of evs) Hd Hk) as [q' [E [L [R _]]]].
  { unfold sc_of. rewrite map_map. apply Forall_map. eapply Forall_impl; [|exact Hev]. cbn. intros; lia. }
  assert (Els : length (sc_of evs) = length evs) by (unfold sc_of; rewrite !map_length; auto).
  rewrite Els in E, L. assert (q' = q) by congruence. subst q'.
  unfold problem_ok. cbn. repeat (split; auto).
  - eapply Forall_impl; [|exact R]. cbn. tauto.
  - eapply Forall_impl; [|exact R]. cbn. intros row [_ [H _]]. eapply Forall_impl; [|exact H]. cbn. intros; lra.
  - right. eapply Forall_impl; [|exact R]. cbn. tauto.
Qed.

(** ** Concrete cases *)
(** two users, two items, three levels, two topics, with and without smoothing *)
Definition ex_evs : list rating := [(0, 0, 2); (0, 1, 0); (1, 0, 1); (1, 1, 2)]%nat.
Definition ex_problem (alpha : R) : problem :=
  mkProblem alpha 2 3 2 2 ex_evs [[1 / 3; 2 / 3]; [1 / 4; 3 / 4]; [1 / 2; 1 / 2]; [2 / 3; 1 / 3]].
Lemma ex_problem_ok : forall alpha, 0 <= alpha -> problem_ok (ex_problem alpha).
Proof.
  intros alpha H. unfold problem_ok, ex_problem, ex_evs, start_ok. cbn.
  repeat split; auto; try lia; try discriminate; try (right); repeat constructor; cbn; try lra; lia.
Qed.

Example C41_nonvacuous : forall alpha, 0 <= alpha -> problem_ok (ex_problem alpha) /\
  exists p p' c, after (ex_problem alpha) 3 p /\ iteration (ex_problem alpha) p = Ok (p', c).
Proof.
  intros alpha H. pose proof (ex_problem_ok alpha H) as HP. split; auto.
  destruct (C41_total (ex_problem alpha) 4 HP) as [p' [H' _]]. inversion H'; subst. eauto.
Qed.

(** EM does something here: the first step already separates the topics *)
Example C41_first_step : exists p, after (ex_problem 0) 0 p /\ nth 0 (pZ p) 0 = 7 / 16 /\ nth 1 (pZ p) 0 = 9 / 16 /\
  nth 0 (nth 0 (pXgZ p) []) 0 = 1 / 3 /\ nth 1 (nth 0 (pXgZ p) []) 0 = 17 / 27.
Proof.
  pose proof (ex_problem_ok 0 ltac:(lra)) as HP. destruct (first_state _ HP) as [p [E _]].
  exists p. split; [constructor; auto|]. unfold first_step in E.
  destruct HP as [_ [_ [_ [Hev _]]]].
  assert (S0 : shape2 4 2 (q_start (ex_problem 0))) by (split; [reflexivity|repeat constructor]).
  assert (W : weights_ok 0 2 4 (at2 (q_start (ex_problem 0)))).
  { split.
    - intros e z He Hz. destruct e as [|[|[|[|e]]]]; try lia; destruct z as [|[|z]]; try lia; unfold at2; cbn; lra.
    - right. intros e z He Hz. destruct e as [|[|[|[|e]]]]; try lia; destruct z as [|[|z]]; try lia; unfold at2; cbn; lra. }
  pose proof (m_step_ok 2 3 2 2 ex_evs Hev 0 (q_start (ex_problem 0)) ltac:(lia) ltac:(cbn; lia) ltac:(lra) S0 W) as M.
  cbn [ex_problem q_alpha q_k q_nl q_nu q_ni q_evs q_start] in *. rewrite M in E. inversion E; subst p.
  unfold tab_of, tab2. cbn. unfold sd, wc, sm, se, ue, ie, ex_evs. cbn. repeat split; field.
Qed.

(** evenly distributed draws *)
Definition even (i : nat) (a : list R) : list R := map (fun _ => / INR (length a)) a.
Lemma even_ok : dirichlet_ok even.
Proof.
  intros i a Hne _. unfold even. split; [apply map_length|].
  assert (Hp : 0 < INR (length a)) by (apply lt_0_INR; destruct a; [contradiction|cbn; lia]).
  split; [apply Forall_map, Forall_forall; intros; apply Rinv_0_lt_compat; auto|].
  set (c := / INR (length a)). assert (E : forall l : list R, rsum (map (fun _ => c) l) = INR (length l) * c).
  { induction l as [|x l IH]; [cbn; ring|]. change (c + rsum (map (fun _ => c) l) = INR (S (length l)) * c). rewrite S_INR, IH. ring. }
  rewrite E. unfold c. field. lra.
Qed.

Example C46_nonvacuous : dirichlet_ok even /\
  init_params even 3 2 2 [2; 0]%Z = Ok [[/ 2; / 2]; [/ 2; / 2]] /\
  init_alpha 3 2 = [[1000; 1]; [1; 1000]; [1; 1]].
Proof.
  split; [apply even_ok|]. split; [|reflexivity].
  unfold init_params. cbn. unfold even. cbn. replace (1 + 1) with 2 by ring. reflexivity.
Qed.

Print Assumptions C41_distributions.
Print Assumptions C41_total.
Print Assumptions C42_responsibilities.
Print Assumptions C43_em_monotone.
Print Assumptions C43_loss_monotone.
Print Assumptions C45_report_partial.
Print Assumptions C45_success_refuted.
Print Assumptions C45_no_iteration_refuted.
Print Assumptions C45_perfect_refuted.
Print Assumptions C46_start.
Print Assumptions C46_problem.
