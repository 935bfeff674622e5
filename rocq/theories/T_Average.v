(** * C67 in terms of predictions: what raw_predict returns for an unknown
    user (item) is the mean of what it returns for the known users (items),
    weighted with the probability of the pair *)
From Coq Require Import List ZArith QArith Qreals Reals Lra Lia Bool.
From Verif Require Import M_Py P_Py P_Rec P_RSum M_MF P_MF M_PLSA P_PLSA P_PLSA2 T_PLSA T_PLSA2.
Import ListNotations.
Open Scope R_scope.

(** the probability of a user and an item under parameters [p] *)
Definition pair_mass (P : problem) (p : params) (user item : option nat) : R :=
  rsum (map (mass p user item) (seq 0 (q_nl P))).

Lemma known_lt : forall n u, (u < n)%nat -> known n u = Some u.
Proof. intros n u H. unfold known. rewrite (proj2 (Nat.ltb_lt _ _) H). reflexivity. Qed.

Lemma known_n : forall n, known n n = None.
Proof. intros n. unfold known. rewrite Nat.ltb_irrefl. reflexivity. Qed.

Theorem C67_average_user : forall P n p i lv, problem_ok P -> after P n p -> (i <= q_ni P)%nat ->
  (forall u, (u < q_nu P)%nat -> 0 < q_alpha P \/ In u (map (fun x : rating => fst (fst x)) (q_evs P))) ->
  seen_or_unknown (q_alpha P) (map (fun x : rating => snd (fst x)) (q_evs P)) (known (q_ni P) i) ->
  length lv = q_nl P ->
  exists y ys, plsa_raw_row true (trained P p lv) [Z.of_nat (q_nu P); Z.of_nat i] = Ok y /\
    (forall u, (u < q_nu P)%nat -> plsa_raw_row true (trained P p lv) [Z.of_nat u; Z.of_nat i] = Ok (ys u) /\
       0 < pair_mass P p (Some u) (known (q_ni P) i)) /\
    y * rsum (map (fun u => pair_mass P p (Some u) (known (q_ni P) i)) (seq 0 (q_nu P))) =
    rsum (map (fun u => pair_mass P p (Some u) (known (q_ni P) i) * ys u) (seq 0 (q_nu P))).
Proof.
  intros P n p i lv HP Hp Hi Su Si Hl.
  set (it := known (q_ni P) i) in *.
  destruct (C44_expectation P n p (q_nu P) i lv HP Hp (le_n _) Hi) as (y & E & _ & Hy & _); auto.
  { rewrite known_n. exact I. }
  rewrite known_n in Hy. fold it in Hy.
  pose (ys := fun u => rsum (map (fun r => mass p (Some u) it r * nth r lv 0) (seq 0 (q_nl P))) / pair_mass P p (Some u) it).
  assert (Hys : forall u, (u < q_nu P)%nat -> plsa_raw_row true (trained P p lv) [Z.of_nat u; Z.of_nat i] = Ok (ys u) /\
       0 < pair_mass P p (Some u) it).
  { intros u Lu. assert (K : known (q_nu P) u = Some u) by (apply known_lt; auto).
    assert (Su' : seen_or_unknown (q_alpha P) (map (fun x : rating => fst (fst x)) (q_evs P)) (known (q_nu P) u)).
    { rewrite K. apply Su; auto. }
    pose proof (expectation_row P n p u i HP Hp (Nat.lt_le_incl _ _ Lu) Hi Su' Si lv Hl) as [A B].
    rewrite K in A, B. fold it in A, B. split; [exact A|exact B]. }
  exists y, ys. split; [exact E|]. split; [exact Hys|].
  assert (S1 : rsum (map (fun u => pair_mass P p (Some u) it) (seq 0 (q_nu P))) = rsum (map (mass p None it) (seq 0 (q_nl P)))).
  { unfold pair_mass. change (sm (q_nu P) (fun u => sm (q_nl P) (fun r => mass p (Some u) it r)) = sm (q_nl P) (mass p None it)).
    rewrite sm_swap. apply sm_ext. intros r _. symmetry. apply (C67_unknown_user P n p it r HP Hp). }
  rewrite S1, Hy.
  change (sm (q_nl P) (fun r => mass p None it r * nth r lv 0) = sm (q_nu P) (fun u => pair_mass P p (Some u) it * ys u)).
  rewrite (sm_ext (q_nu P) _ (fun u => sm (q_nl P) (fun r => mass p (Some u) it r * nth r lv 0))).
  - rewrite sm_swap. apply sm_ext. intros r _. rewrite (C67_unknown_user P n p it r HP Hp).
    change (sm (q_nu P) (fun u => mass p (Some u) it r) * nth r lv 0 = sm (q_nu P) (fun u => mass p (Some u) it r * nth r lv 0)).
    rewrite Rmult_comm, <- sm_scal. apply sm_ext. intros; ring.
  - intros u Lu. unfold ys. destruct (Hys u Lu) as [_ Hpos]. fold (sm (q_nl P) (fun r => mass p (Some u) it r * nth r lv 0)). field. lra.
Qed.

Theorem C67_average_item : forall P n p u lv, problem_ok P -> after P n p -> (u <= q_nu P)%nat ->
  seen_or_unknown (q_alpha P) (map (fun x : rating => fst (fst x)) (q_evs P)) (known (q_nu P) u) ->
  (forall i, (i < q_ni P)%nat -> 0 < q_alpha P \/ In i (map (fun x : rating => snd (fst x)) (q_evs P))) ->
  length lv = q_nl P ->
  exists y ys, plsa_raw_row true (trained P p lv) [Z.of_nat u; Z.of_nat (q_ni P)] = Ok y /\
    (forall i, (i < q_ni P)%nat -> plsa_raw_row true (trained P p lv) [Z.of_nat u; Z.of_nat i] = Ok (ys i) /\
       0 < pair_mass P p (known (q_nu P) u) (Some i)) /\
    y * rsum (map (fun i => pair_mass P p (known (q_nu P) u) (Some i)) (seq 0 (q_ni P))) =
    rsum (map (fun i => pair_mass P p (known (q_nu P) u) (Some i) * ys i) (seq 0 (q_ni P))).
Proof.
  intros P n p u lv HP Hp Hu Su Si Hl.
  set (us := known (q_nu P) u) in *.
  destruct (C44_expectation P n p u (q_ni P) lv HP Hp Hu (le_n _)) as (y & E & _ & Hy & _); auto.
  { rewrite known_n. exact I. }
  rewrite known_n in Hy. fold us in Hy.
  pose (ys := fun i => rsum (map (fun r => mass p us (Some i) r * nth r lv 0) (seq 0 (q_nl P))) / pair_mass P p us (Some i)).
  assert (Hys : forall i, (i < q_ni P)%nat -> plsa_raw_row true (trained P p lv) [Z.of_nat u; Z.of_nat i] = Ok (ys i) /\
       0 < pair_mass P p us (Some i)).
  { intros i Li. assert (K : known (q_ni P) i = Some i) by (apply known_lt; auto).
    assert (Si' : seen_or_unknown (q_alpha P) (map (fun x : rating => snd (fst x)) (q_evs P)) (known (q_ni P) i)).
    { rewrite K. apply Si; auto. }
    pose proof (expectation_row P n p u i HP Hp Hu (Nat.lt_le_incl _ _ Li) Su Si' lv Hl) as [A B].
    rewrite K in A, B. fold us in A, B. split; [exact A|exact B]. }
  exists y, ys. split; [exact E|]. split; [exact Hys|].
  assert (S1 : rsum (map (fun i => pair_mass P p us (Some i)) (seq 0 (q_ni P))) = rsum (map (mass p us None) (seq 0 (q_nl P)))).
  { unfold pair_mass. change (sm (q_ni P) (fun i => sm (q_nl P) (fun r => mass p us (Some i) r)) = sm (q_nl P) (mass p us None)).
    rewrite sm_swap. apply sm_ext. intros r _. symmetry. apply (C67_unknown_item P n p us r HP Hp). }
  rewrite S1, Hy.
  change (sm (q_nl P) (fun r => mass p us None r * nth r lv 0) = sm (q_ni P) (fun i => pair_mass P p us (Some i) * ys i)).
  rewrite (sm_ext (q_ni P) _ (fun i => sm (q_nl P) (fun r => mass p us (Some i) r * nth r lv 0))).
  - rewrite sm_swap. apply sm_ext. intros r _. rewrite (C67_unknown_item P n p us r HP Hp).
    change (sm (q_ni P) (fun i => mass p us (Some i) r) * nth r lv 0 = sm (q_ni P) (fun i => mass p us (Some i) r * nth r lv 0)).
    rewrite Rmult_comm, <- sm_scal. apply sm_ext. intros; ring.
  - intros i Li. unfold ys. destruct (Hys i Li) as [_ Hpos]. fold (sm (q_nl P) (fun r => mass p us (Some i) r * nth r lv 0)). field. lra.
Qed.

(** both users and both items of the example were rated *)
Example C67_average_nonvacuous : problem_ok (ex_problem 0) /\ (exists p, after (ex_problem 0) 2 p) /\
  (forall u, (u < q_nu (ex_problem 0))%nat -> 0 < q_alpha (ex_problem 0) \/ In u (map (fun x : rating => fst (fst x)) (q_evs (ex_problem 0)))) /\
  (forall u, (u < q_ni (ex_problem 0))%nat -> 0 < q_alpha (ex_problem 0) \/ In u (map (fun x : rating => snd (fst x)) (q_evs (ex_problem 0)))).
Proof.
  split; [apply ex_problem_ok; lra|]. split.
  - destruct (C41_total (ex_problem 0) 2 (ex_problem_ok 0 ltac:(lra))) as [p [H _]]. eauto.
  - cbn. split; intros u Hu; right; assert (u = 0 \/ u = 1)%nat as [ -> | -> ] by lia; auto.
Qed.

Print Assumptions C67_average_user.
Print Assumptions C67_average_item.
