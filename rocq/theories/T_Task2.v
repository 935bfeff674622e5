(** * Options, repetition and merging of experiments (C97) *)
From Coq Require Import String List ZArith QArith Qreals Reals Bool Lia Lra Permutation.
From Verif Require Import M_Py P_Py M_Data M_Score M_Rec P_Rec M_Split P_Split M_Scripts P_Scripts P_Scripts2 T_Scripts M_MF M_PLSA M_MFRec M_Exp M_Load T_Load
  M_Metrics T_Metrics T_Metrics2 T_Stats M_Task.
Import ListNotations.
Open Scope nat_scope.
Notation length := List.length.

(** ** repeating an experiment *)
(** two computations end alike: the same exception, or related results and
    random generators in the same state *)
Definition alike {W S X} (rng : W -> S) (P : X -> X -> Prop) (a b : res (X * W)) : Prop :=
  match a, b with
  | Ok (x, w), Ok (y, v) => P x y /\ rng w = rng v
  | Raise e, Raise e' => e = e'
  | _, _ => False
  end.
(** training depends on the data and the state of the generator *)
Definition repeatable {W S D Rc FR} (rng : W -> S) (fit : W -> D -> res (Rc * FR * W)) : Prop :=
  forall d w1 w2, rng w1 = rng w2 -> alike rng eq (fit w1 d) (fit w2 d).

(** records that differ at most in the times *)
Definition untimed {X} (d : fdict (run X)) : list (nat * X) := map (fun kv => (fst kv, run_info (snd kv))) d.
Definition cv_same {FR G V} (i j : cv_info FR G V) : Prop :=
  (c_n_events i, c_n_users i, c_n_items i) = (c_n_events j, c_n_users j, c_n_items j) /\
  untimed (c_training i) = untimed (c_training j) /\ untimed (c_test i) = untimed (c_test j) /\ c_pred i = c_pred j.
Definition held_same {FR G V Fl} (i j : holdout_info (G := G) (FR := FR) (V := V) Fl) : Prop :=
  ho_train_file i = ho_train_file j /\ ho_test_file i = ho_test_file j /\ ho_domain i = ho_domain j /\
  run_info (ho_training i) = run_info (ho_training j) /\ run_info (ho_test i) = run_info (ho_test j) /\
  ho_event i = ho_event j /\ ho_true i = ho_true j /\ ho_predicted i = ho_predicted j /\ ho_feature i = ho_feature j.
Definition same_outcome {FR G V Fl} (a b : outcome FR G V Fl) : Prop :=
  match a, b with
  | Held n i, Held m j => n = m /\ held_same i j
  | Crossed n dm i, Crossed m dm' j => n = m /\ dm = dm' /\ cv_same i j
  | _, _ => False
  end.

Lemma alike_bind : forall W S X Y (rng : W -> S) (P : X -> X -> Prop) (Q : Y -> Y -> Prop) a b (f g : X * W -> res (Y * W)),
  alike rng P a b -> (forall x w y v, P x y -> rng w = rng v -> alike rng Q (f (x, w)) (g (y, v))) -> alike rng Q (bind a f) (bind b g).
Proof.
  intros W S X Y rng P Q [[x w]|e] [[y v]|e'] f g H K; cbn [alike bind] in *; try contradiction; [destruct H; auto|auto].
Qed.
Lemma untimed_set : forall X (d1 d2 : fdict (run X)) k r1 r2, untimed d1 = untimed d2 -> run_info r1 = run_info r2 -> untimed (fset d1 k r1) = untimed (fset d2 k r2).
Proof.
  intros X d1 d2 k r1 r2 E R. unfold fset. revert d2 E. induction d1 as [|[a x] d1 IH]; intros [|[b y] d2] E; try discriminate; cbn [dict_set].
  - unfold untimed. cbn. rewrite R. auto.
  - unfold untimed in E. cbn [map fst snd] in E. inversion E. subst b. destruct (Nat.eqb k a); unfold untimed; cbn [map fst snd].
    + rewrite R. f_equal. auto.
    + f_equal; [congruence|]. apply IH. auto.
Qed.

Section Repeat.
  Context {W S F G Rc FR V Fl : Type} (rng : W -> S).
  Context (now : W -> Z * W) (shuffle : W -> list nat -> list nat * W) (fmul : Q -> nat -> Q) (seed : option Z -> W -> W).
  Context (fit : W -> sdata F G -> res (Rc * FR * W)) (predict : Rc -> list (list Z) -> res (pred V)).
  Context (load : Fl -> dom -> res (sdata F G * dom)).
  Hypotheses (Hnow : clock_apart rng now) (Hsh : random_from rng shuffle) (Hfit : repeatable rng fit).

  Lemma training_alike : forall d w v, rng w = rng v ->
    alike rng (fun a b => fst a = fst b /\ run_info (snd a) = run_info (snd b)) (training now fit w d) (training now fit v d).
  Proof.
    intros d w v E. unfold training. pose proof (Hnow w) as N1. pose proof (Hnow v) as N2. destruct (now w) as [s1 w1], (now v) as [s2 v1]. cbn [snd] in *.
    pose proof (Hfit d w1 v1 ltac:(congruence)) as K. destruct (fit w1 d) as [[[r1 f1] w2]|], (fit v1 d) as [[[r2 f2] v2]|]; cbn [alike bind] in *; try contradiction; auto.
    destruct K as [K1 K2]. inversion K1; subst. pose proof (Hnow w2) as N3. pose proof (Hnow v2) as N4. destruct (now w2), (now v2). cbn [snd] in *.
    cbn. repeat split. congruence.
  Qed.
  Lemma testing_alike : forall r ev w v, rng w = rng v ->
    alike rng (fun a b => fst a = fst b /\ run_info (snd a) = run_info (snd b)) (testing now predict w r ev) (testing now predict v r ev).
  Proof.
    intros r ev w v E. unfold testing. pose proof (Hnow w) as N1. pose proof (Hnow v) as N2. destruct (now w) as [s1 w1], (now v) as [s2 v1]. cbn [snd] in *.
    destruct (predict r ev); [|reflexivity]. cbn [bind]. pose proof (Hnow w1) as N3. pose proof (Hnow v1) as N4. destruct (now w1), (now v1). cbn [snd] in *.
    cbn. repeat split. congruence.
  Qed.

  Lemma mask_alike : forall te tr sh n gs us w v, rng w = rng v ->
    alike rng eq (ssg_mask shuffle fmul te tr sh n gs us w) (ssg_mask shuffle fmul te tr sh n gs us v).
  Proof.
    intros te tr sh n gs us w v E. unfold ssg_mask. generalize (repeat false n). revert w v E.
    induction us as [|g us IH]; intros w v E mask; cbn [foldM]; [split; auto|].
    apply (alike_bind _ _ _ _ _ eq).
    - cbn [fst snd]. destruct (members n gs g) as [m|]; [|reflexivity]. cbn [bind]. unfold tts_test.
      destruct (split_sizes fmul (length m) te tr) as [nn|]; [|reflexivity]. cbn [bind]. destruct sh.
      + destruct (Hsh w v (arange (length m)) E) as [S1 S2].
        destruct (shuffle w (arange (length m))) as [p1 v1], (shuffle v (arange (length m))) as [p2 v2]. cbn [fst snd] in *. subst p2.
        destruct (take m (upto p1 (snd nn))); [|reflexivity]. cbn [bind fst snd]. destruct (put_true mask a); [|reflexivity]. cbn. auto.
      + destruct (np_take m (arange_from (fst nn) (fst nn + snd nn))); [|reflexivity]. cbn [bind fst snd]. destruct (put_true mask a); [|reflexivity]. cbn. auto.
    - intros x w' y v' -> E'. apply IH. auto.
  Qed.

  Lemma fold_alike : forall d ev fold tt i j w v, cv_same i j -> rng w = rng v ->
    alike rng cv_same (cv_fold now fit predict d ev fold tt i w) (cv_fold now fit predict d ev fold tt j v).
  Proof.
    intros d ev fold tt i j w v [C [T1 [T2 P]]] E. unfold cv_fold. destruct (s_filter_event d (FIdx (map Z.of_nat (fst tt)))) as [[td|]|]; try reflexivity. cbn [bind].
    apply (alike_bind _ _ _ _ _ _ _ _ _ _ _ (training_alike td w v E)). intros [r1 tr1] w1 [r2 tr2] v1 [K1 K2] E1. cbn [fst snd] in *. subst r2.
    destruct (take ev (snd tt)) as [ev_t|]; [|reflexivity]. cbn [bind].
    apply (alike_bind _ _ _ _ _ _ _ _ _ _ _ (testing_alike r1 ev_t w1 v1 E1)). intros [p1 te1] w2 [p2 te2] v2 [K3 K4] E2. cbn [fst snd] in *. subst p2.
    destruct (match score d with Some sc => take sc (snd tt) | None => Raise TypeError end); [|reflexivity]. cbn [bind]. rewrite P.
    destruct (match event_feature (s_data d), p_feature (c_pred j) with Some ef, Some pf => do x <- take ef (snd tt); Ok (Some (fset pf fold x)) | _, pf => Ok pf end); [|reflexivity].
    cbn. split; auto. unfold cv_same. cbn. split; [auto|]. split; [apply untimed_set; auto|]. split; [apply untimed_set; auto|]. auto.
  Qed.

  Lemma loop_alike : forall d ev gs us target k fold i j w v, cv_same i j -> rng w = rng v ->
    alike rng cv_same (cv_loop now shuffle fmul fit predict d ev gs us target k fold i w) (cv_loop now shuffle fmul fit predict d ev gs us target k fold j v).
  Proof.
    intros d ev gs us target k. induction k as [|k IH]; intros fold i j w v C E; cbn [cv_loop]; [split; auto|].
    apply (alike_bind _ _ _ _ _ _ _ _ _ _ _ (mask_alike _ _ _ _ _ _ _ _ E)). intros m w1 m' v1 -> E1. cbn [fst snd].
    destruct (of_mask (length ev) m') as [tt|]; [|reflexivity]. cbn [bind].
    destruct (match target with Some t => negb (Z.of_nat fold =? t)%Z | None => false end); [apply IH; auto|].
    apply (alike_bind _ _ _ _ _ _ _ _ _ _ _ (fold_alike d ev fold tt i j w1 v1 C E1)). intros i1 w2 j1 v2 C1 E2. cbn [fst snd]. apply IH; auto.
  Qed.
  Lemma cv_alike : forall d n target w v, rng w = rng v ->
    alike rng cv_same (cv_test now shuffle fmul fit predict d n target w) (cv_test now shuffle fmul fit predict d n target v).
  Proof.
    intros d n target w v E. unfold cv_test. destruct (external_events (s_data d)) as [ev|]; [|reflexivity]. cbn [bind].
    destruct (n_of (s_data d) 0) as [nu|]; [|reflexivity]. cbn [bind]. destruct (n_of (s_data d) 1) as [ni|]; [|reflexivity]. cbn [bind].
    destruct (mapM (fun row => np_get row 0) ev) as [gs|]; [|reflexivity]. cbn [bind]. apply loop_alike; auto. repeat split.
  Qed.
  Lemma hold_alike : forall train test cond w v, rng w = rng v ->
    alike rng held_same (holdout_test now fit predict load train test cond w) (holdout_test now fit predict load train test cond v).
  Proof.
    intros train test cond w v E. unfold holdout_test. destruct (load train cond) as [a|]; [|reflexivity]. cbn [bind]. destruct test as [tf|]; [|reflexivity].
    destruct (load tf (snd a)) as [b|]; [|reflexivity]. cbn [bind]. destruct (external_events (s_data (fst b))) as [ev|]; [|reflexivity]. cbn [bind].
    apply (alike_bind _ _ _ _ _ _ _ _ _ _ _ (training_alike (fst a) w v E)). intros [r1 tr1] w1 [r2 tr2] v1 [K1 K2] E1. cbn [fst snd] in *. subst r2.
    apply (alike_bind _ _ _ _ _ _ _ _ _ _ _ (testing_alike r1 ev w1 v1 E1)). intros [p1 te1] w2 [p2 te2] v2 [K3 K4] E2. cbn [fst snd] in *. subst p2.
    split; auto. repeat split; auto.
  Qed.

  (** with an integer as random_state a run gives the same outcome whenever it
      is repeated, times apart; without one this holds for equal generators *)
  Theorem C97_repeatable : (forall z w1 w2, rng (seed (Some z) w1) = rng (seed (Some z) w2)) ->
    forall z scheme n target train test cond w v,
    let run := do_task now shuffle fmul seed fit predict load (Some z) scheme n target train test cond in
    match run w, run v with
    | Ok (a, _), Ok (b, _) => same_outcome a b
    | Raise e, Raise e' => e = e'
    | _, _ => False
    end.
  Proof.
    intros Hseed z scheme n target train test cond w v run. assert (A : alike rng same_outcome (run w) (run v)).
    { unfold run, do_task. pose proof (Hseed z w v) as E. destruct (match target with Some t => (t <? 0)%Z || (n <=? t)%Z | None => false end); [reflexivity|].
      destruct (String.eqb scheme "holdout"); [|destruct (String.eqb scheme "cv"); [|reflexivity]].
      - apply (alike_bind _ _ _ _ _ _ _ _ _ _ _ (hold_alike train test cond _ _ E)). intros i w1 j v1 K E1. cbn [fst snd]. split; auto. split; auto.
      - destruct (load train cond) as [a|]; [|reflexivity]. cbn [bind].
        apply (alike_bind _ _ _ _ _ _ _ _ _ _ _ (cv_alike (fst a) n target _ _ E)). intros i w1 j v1 K E1. cbn [fst snd]. split; auto. split; auto. }
    unfold alike in A. destruct (run w) as [[a w1]|], (run v) as [[b v1]|]; try contradiction; auto. apply A.
  Qed.

  (** what a run needs, whatever the rest of the options and the data *)
  Theorem C97_options : forall rs scheme n target train test cond w,
    let run := do_task now shuffle fmul seed fit predict load rs scheme n target train test cond w in
    (forall o w', run = Ok (o, w') ->
       (scheme = "holdout"%string \/ scheme = "cv"%string) /\ (forall t, target = Some t -> (0 <= t < n)%Z) /\
       (scheme = "holdout"%string <-> exists i, o = Held 1 i) /\ (scheme = "cv"%string <-> exists dm i, o = Crossed n dm i)) /\
    (forall t, target = Some t -> ~ (0 <= t < n)%Z -> run = Raise TypeError).
  Proof.
    intros rs scheme n target train test cond w. cbv zeta. unfold do_task. split.
    - intros o w' H. destruct (match target with Some t => (t <? 0)%Z || (n <=? t)%Z | None => false end) eqn:Et; [discriminate|].
      assert (Ht : forall t, target = Some t -> (0 <= t < n)%Z) by (intros t ->; apply orb_false_iff in Et; lia).
      destruct (String.eqb_spec scheme "holdout") as [->|N1].
      + apply bind_ok in H. destruct H as [[i w1] [_ H]]. inversion H. subst. split; [auto|]. split; [exact Ht|].
        split; split; intros K; auto; [eexists; reflexivity|discriminate|]. destruct K as [dm [j K]]. discriminate.
      + destruct (String.eqb_spec scheme "cv") as [->|N2]; [|discriminate]. apply bind_ok in H. destruct H as [a [_ H]].
        apply bind_ok in H. destruct H as [[i w1] [_ H]]. inversion H. subst. split; [auto|]. split; [exact Ht|].
        split; split; intros K; auto; [discriminate|destruct K; discriminate|]. eauto.
    - intros t -> Ht. assert ((t <? 0)%Z || (n <=? t)%Z = true) as -> by (apply orb_true_iff; lia). reflexivity.
  Qed.

  (** a hold-out test has one fold, run with any target in range *)
  Theorem C97_holdout_target : forall rs n t train test cond w, (0 <= t < n)%Z ->
    do_task now shuffle fmul seed fit predict load rs "holdout" n (Some t) train test cond w =
    do_task now shuffle fmul seed fit predict load rs "holdout" n None train test cond w.
  Proof.
    intros rs n t train test cond w Ht. unfold do_task. assert ((t <? 0)%Z || (n <=? t)%Z = false) as -> by (apply orb_false_iff; lia). reflexivity.
  Qed.

  (** the message announced for other schemes is never raised: formatting it
      fails *)
  Theorem C97_scheme : forall rs scheme n target train test cond w, scheme <> "holdout"%string -> scheme <> "cv"%string ->
    (forall t, target = Some t -> (0 <= t < n)%Z) ->
    do_task now shuffle fmul seed fit predict load rs scheme n target train test cond w = Raise NameError.
  Proof.
    intros rs scheme n target train test cond w N1 N2 Ht. unfold do_task.
    assert ((match target with Some t => (t <? 0)%Z || (n <=? t)%Z | None => false end) = false) as ->.
    { destruct target as [t|]; auto. specialize (Ht t eq_refl). apply orb_false_iff; lia. }
    apply String.eqb_neq in N1. apply String.eqb_neq in N2. rewrite N1, N2. reflexivity.
  Qed.
End Repeat.

(** the models of the scripts are repeatable if the random numbers they draw and
    the optimiser depend on the state of the generator only *)
Definition steady {W S A} (rng : W -> S) (f : W -> A) : Prop := forall w v, rng w = rng v -> f w = f v.
Theorem C97_models_repeatable : forall W S F G FR (rng : W -> S) (results : W -> sdata F G -> FR) (after : W -> sdata F G -> W),
  (forall d, steady rng (fun w => results w d)) -> (forall d, steady rng (fun w => rng (after w d))) ->
  (forall C k draw1 draw2 minimize junk, steady rng draw1 -> steady rng draw2 -> steady rng minimize ->
     repeatable rng (pmf_run results after C k draw1 draw2 minimize junk)) /\
  (forall C k draw1 draw2 minimize junk, steady rng draw1 -> steady rng draw2 -> steady rng minimize ->
     repeatable rng (lpmf_run results after C k draw1 draw2 minimize junk)) /\
  (forall alpha tol k maxiter dirichlet junk, steady rng dirichlet ->
     repeatable rng (plsa_run results after alpha tol k maxiter dirichlet junk)).
Proof.
  intros W S F G FR rng results after Hr Ha.
  assert (K : forall Par (new : rec G Par) fitp, steady rng fitp -> repeatable rng (run_fit results after new fitp)).
  { intros Par new fitp Hf d w1 w2 E. unfold run_fit. rewrite (Hf w1 w2 E). destruct (fitp w2 new d None) as [r [e|]]; [reflexivity|].
    cbn. split; [|apply Ha; auto]. rewrite (Hr d w1 w2 E). auto. }
  repeat split; intros; apply K; intros w v E; repeat match goal with H : steady rng _ |- _ => rewrite (H w v E); clear H end; reflexivity.
Qed.

(** ** statistics of merged runs *)
(** the statistics of an item finder depend on the pairs of scores only, for a
    measure that does *)
Definition of_pairs {A B X} (f : list A -> list B -> X) : Prop :=
  forall t p t' p', length t = length p -> length t' = length p' -> Permutation (combine t p) (combine t' p') -> f t p = f t' p'.

Lemma binary_perm : forall (t t' : list Q) b, Permutation t t' -> is_binary_score t b = is_binary_score t' b.
Proof.
  intros t t' b H. destruct (C55_is_binary (map Some t)) as [A1 A2]. destruct (C55_is_binary (map Some t')) as [B1 B2]. unfold is_binary in *. rewrite !finite_ok in *.
  pose proof (Permutation_map Some H) as P.
  assert (M : forall x : option Q, In x (map Some t) <-> In x (map Some t')) by (intros x; split; apply Permutation_in; [|apply Permutation_sym]; auto).
  apply eq_true_iff_eq. destruct b.
  - rewrite A2, B2. split; intros [K1 K2]; (split; [intros E; apply K1|intros x Hx; apply K2, M; auto]).
    + rewrite E in P. apply Permutation_sym, Permutation_nil in P. auto.
    + rewrite E in P. apply Permutation_nil in P. auto.
  - rewrite A1, B1. split; intros [K1 [[e [E1 E2]] [g [G1 G2]]]]; (split; [intros x Hx; apply K1, M; auto|]);
      (split; [exists e|exists g]); (split; [apply M; auto|auto]).
Qed.

Theorem C97_finder_order : forall auc, of_pairs auc -> of_pairs (item_finder_statistics auc).
Proof.
  intros auc Hauc yt yp yt' yp' L L' H.
  destruct (pairs_finite _ _ _ _ _ _ L L' H) as [(t & p & t' & p' & -> & -> & -> & -> & Lt & Lt' & Hp)|[[N N']|(F & F' & N & N')]].
  - unfold item_finder_statistics. rewrite !finite_ok. cbn [bind].
    pose proof (Permutation_map fst Hp) as Ht. pose proof (Permutation_map snd Hp) as Hq. rewrite !fst_pairs in Ht by auto. rewrite !snd_pairs in Hq by auto.
    rewrite (binary_perm _ _ true Ht), (binary_perm _ _ false Ht). destruct (negb (is_binary_score t' true)); [reflexivity|].
    unfold check_consistent_length. rewrite Lt, Lt', !Nat.eqb_refl. cbn [bind].
    rewrite (describe_perm _ _ (Permutation_map Q2R Ht)), (describe_perm _ _ Hq), (Permutation_length Hq), (Hauc _ _ _ _ Lt Lt' Hp). reflexivity.
  - unfold item_finder_statistics. rewrite (proj1 (finite_err _ _) N), (proj1 (finite_err _ _) N'). reflexivity.
  - unfold item_finder_statistics. destruct (finite_cases _ yt) as [[t ->]|I]; [|contradiction]. destruct (finite_cases _ yt') as [[t' ->]|I]; [|contradiction].
    pose proof (Permutation_map fst H) as Ht. rewrite !fst_pairs in Ht by auto.
    assert (Hp : Permutation t t').
    { destruct (finite_perm _ _ _ Ht) as [(r & r' & E1 & E2 & P)|[B _]]; [|contradiction].
      assert (Inj : forall x y : list Q, map Some x = map Some y -> x = y).
      { induction x as [|u x IH]; intros [|v y] E; try discriminate; auto. cbn in E. inversion E. f_equal. auto. }
      apply Inj in E1. apply Inj in E2. subst. auto. }
    rewrite !finite_ok. cbn [bind]. rewrite (binary_perm _ _ true Hp). destruct (negb (is_binary_score t' true)); [reflexivity|].
    rewrite (proj1 (finite_err _ _) N), (proj1 (finite_err _ _) N'). reflexivity.
Qed.

(** the same folds in another order *)
Definition reordered {FR G V} (i m : cv_info FR G V) : Prop := consistent i /\ consistent m /\ same_results i m.

Lemma keys_perm : forall A (a b : fdict A), NoDup (map fst a) -> NoDup (map fst b) -> (forall f, fget b f = fget a f) -> Permutation a b.
Proof.
  intros A a b Na Nb H. apply NoDup_Permutation; [eapply NoDup_map_inv; exact Na|eapply NoDup_map_inv; exact Nb|].
  intros [f x]. split; intros Hin.
  - apply fget_in. rewrite H. apply fget_some; auto.
  - apply fget_in. rewrite <- H. apply fget_some; auto.
Qed.
Lemma combine_map2 : forall A B C (f : A -> B) (g : A -> C) l, combine (map f l) (map g l) = map (fun x => (f x, g x)) l.
Proof. induction l as [|x l IH]; cbn; auto. f_equal. auto. Qed.

Lemma reordered_input : forall FR G V (i m : cv_info FR G V), reordered i m ->
  (stats_input i = Raise ValueError /\ stats_input m = Raise ValueError) \/
  exists t p t' p', stats_input i = Ok (t, p) /\ stats_input m = Ok (t', p') /\ length t = length p /\ length t' = length p' /\
    Permutation (combine t p) (combine t' p').
Proof.
  intros FR G V i m [Ci [Cm [_ [_ [_ [_ [St [Sp [Sm _]]]]]]]]]. pose proof Ci as [_ [_ [Ni _]]]. pose proof Cm as [_ [_ [Nm _]]].
  pose proof (keys_perm _ _ _ Ni Nm Sm) as P. pose proof (C60_total_partial i Ci) as Ti. pose proof (C60_total_partial m Cm) as Tm.
  assert (E1 : match p_mask (c_pred i) with [] => true | _ => false end = match p_mask (c_pred m) with [] => true | _ => false end).
  { destruct (p_mask (c_pred i)); [apply Permutation_nil in P; rewrite P; auto|].
    destruct (p_mask (c_pred m)); auto. apply Permutation_sym, Permutation_nil in P. discriminate. }
  assert (E2 : existsb (fun fm => Nat.eqb (length (snd fm)) 1) (p_mask (c_pred i)) = existsb (fun fm => Nat.eqb (length (snd fm)) 1) (p_mask (c_pred m))).
  { apply eq_true_iff_eq. rewrite !existsb_exists. split; intros [x [X1 X2]]; exists x; (split; [|auto]); (eapply Permutation_in; [|exact X1]); auto. apply Permutation_sym; auto. }
  rewrite E1, E2 in Ti. destruct (_ || _); [left; auto|]. right. destruct Ti as [[t p] Ei]. destruct Tm as [[t' p'] Em].
  destruct (C60_aligned _ _ _ _ _ _ Ci Ei) as [q [-> [-> [Nq Hq]]]]. destruct (C60_aligned _ _ _ _ _ _ Cm Em) as [q' [-> [-> [Nq' Hq']]]].
  do 4 eexists. split; [exact Ei|]. split; [exact Em|]. rewrite !map_length. do 2 (split; [auto|]). rewrite !combine_map2. apply Permutation_map.
  apply NoDup_Permutation; [eapply NoDup_map_inv; exact Nq|eapply NoDup_map_inv; exact Nq'|].
  intros [[[f j] x] v]. rewrite Hq, Hq'. split; intros [mk [ts [ps [k [H1 [H2 [H3 H4]]]]]]]; exists mk, ts, ps, k; [rewrite Sm, St, Sp|rewrite <- Sm, <- St, <- Sp]; auto.
Qed.

(** what the statistics script writes does not depend on the order of the
    folds *)
Theorem C97_reordered_statistics : forall FR G Fl (i m : cv_info FR G Q) auc task_type keep n dm, of_pairs auc -> reordered i m ->
  match stats_task (Fl := Fl) auc task_type keep (Crossed n dm i), stats_task (Fl := Fl) auc task_type keep (Crossed n dm m) with
  | Ok (s, _), Ok (s', _) => s = s'
  | Raise e, Raise e' => e = e'
  | _, _ => False
  end.
Proof.
  intros FR G Fl i m auc task_type keep n dm Ha R. unfold stats_task. cbn [task_input task_domain].
  destruct (reordered_input _ _ _ _ _ R) as [[-> ->]|[t [p [t' [p' [-> [-> [L [L' P]]]]]]]]]; [reflexivity|]. cbn [bind fst snd].
  assert (M : forall X Y (g : Q -> X) (h : Q -> Y) x y, combine (map g x) (map h y) = map (fun c => (g (fst c), h (snd c))) (combine x y)).
  { intros X Y g h. induction x as [|u x IH]; intros [|v y]; cbn; auto. f_equal. auto. }
  assert (Eq1 : score_predictor_statistics (map Some t) (map Some p) dm = score_predictor_statistics (map Some t') (map Some p') dm).
  { apply C93_order; rewrite ?map_length; auto. rewrite !M. apply Permutation_map. auto. }
  assert (Eq2 : item_finder_statistics auc (map Some t) (map (fun x => Some (Q2R x)) p) = item_finder_statistics auc (map Some t') (map (fun x => Some (Q2R x)) p')).
  { apply (C97_finder_order auc Ha); [rewrite !map_length; auto|rewrite !map_length; auto|]. rewrite !M. apply Permutation_map. auto. }
  rewrite Eq1, Eq2. set (X := score_predictor_statistics _ _ _). set (Y := item_finder_statistics _ _ _).
  destruct (String.eqb task_type "score_predictor"); [destruct X; cbn; auto|]. destruct (String.eqb task_type "item_finder"); [destruct Y; cbn; auto|]. cbn. auto.
Qed.

(** running the folds one by one, in any order and at any times, merging the
    files and computing statistics gives what the run over all folds gives *)
Section Merged.
  Context {W S F G Rc FR Fl : Type} (rng : W -> S).
  Context (now : W -> Z * W) (shuffle : W -> list nat -> list nat * W) (fmul : Q -> nat -> Q) (seed : option Z -> W -> W).
  Context (fit : W -> sdata F G -> res (Rc * FR * W)) (predict : Rc -> list (list Z) -> res (pred Q)).
  Context (load : Fl -> dom -> res (sdata F G * dom)).
  Hypotheses (Hnow : clock_apart rng now) (Hsh : random_from rng shuffle) (Hfit : deterministic rng fit) (Hp : row_by_row predict).
  Hypothesis Hseed : forall z w1 w2, rng (seed (Some z) w1) = rng (seed (Some z) w2).

  Theorem C97_merged_statistics : forall z n train test cond w n' dm i w' fs ws, (0 < n)%Z ->
    let run := do_task now shuffle fmul seed fit predict load (Some z) "cv" n in
    run None train test cond w = Ok (Crossed n' dm i, w') -> Permutation (seq 0 (Z.to_nat n)) fs ->
    exists files m, Forall2 (fun f file => exists v, run (Some (Z.of_nat f)) train test cond (ws f) = Ok (Crossed n dm file, v)) fs files /\
      merge files = Ok m /\
      forall auc task_type keep, of_pairs auc ->
        match stats_task (Fl := Fl) auc task_type keep (Crossed n' dm i), stats_task (Fl := Fl) auc task_type keep (Crossed n dm m) with
        | Ok (s, _), Ok (s', _) => s = s'
        | Raise e, Raise e' => e = e'
        | _, _ => False
        end.
  Proof.
    intros z n train test cond w n' dm i w' fs ws Hn run H P. unfold run, do_task in H. cbn [String.eqb Ascii.eqb Bool.eqb] in H.
    apply bind_ok in H. destruct H as [[d dm0] [Hl H]]. apply bind_ok in H. destruct H as [[i0 w0] [Hc H]]. cbn [fst snd] in *. inversion H. subst n' dm0 i0 w0. clear H.
    destruct (C59_merge rng now shuffle fmul fit predict seed Hnow Hsh Hfit Hseed d n z w i w' fs ws Hn Hc P) as [files [m [HF [Hm Hs]]]].
    exists files, m. split; [|split; [exact Hm|]].
    - clear - HF Hl. unfold run. induction HF as [|f file fs files [v H] HF IH]; constructor; auto. exists v. unfold do_task. unfold cv_task in H.
      destruct (_ || _); [discriminate|]. cbn [String.eqb Ascii.eqb Bool.eqb]. rewrite Hl. cbn [bind fst snd]. rewrite H. reflexivity.
    - intros auc task_type keep Ha. apply (C97_reordered_statistics FR G Fl i m auc task_type keep n dm Ha). split; [eapply C60_cv_runs; eauto|].
      split; [|exact Hs]. refine (proj1 (C60_merged_runs now shuffle fmul fit predict d n (map Z.of_nat fs) files m Hp _ _ Hm)).
      + apply FinFun.Injective_map_NoDup; [intros a b; lia|]. eapply Permutation_NoDup; [exact P|apply seq_NoDup].
      + assert (Hin : Forall (fun f => f < Z.to_nat n) fs).
        { apply Forall_forall. intros f Hf. apply (Permutation_in _ (Permutation_sym P)) in Hf. apply in_seq in Hf. lia. }
        clear - HF Hin Hn. induction HF as [|f file fs files [v H] HF IH]; [constructor|]. inversion Hin; subst. constructor; [|auto]. split; [lia|].
        unfold cv_task in H. destruct (_ || _); [discriminate|]. eauto.
  Qed.
End Merged.

(** ** what the statistics script writes *)
Lemma stats_mae : forall t p dm s, length t = length p -> t <> [] -> score_predictor_statistics (map Some t) (map Some p) dm = Ok s ->
  fst (sp_mae s) = Some (average (map (fun tp => Rabs (Q2R (fst tp) - Q2R (snd tp))) (combine t p))).
Proof.
  intros t p dm s L N H. unfold score_predictor_statistics in H. rewrite !finite_ok in H. cbn [bind] in H. apply bind_ok in H. destruct H as [_ [_ H]].
  apply bind_ok in H. destruct H as [lv [_ H]]. apply bind_ok in H. destruct H as [mae [Hm H]]. apply bind_ok in H. destruct H as [mse [_ H]].
  apply bind_ok in H. destruct H as [dt [_ H]]. apply bind_ok in H. destruct H as [dp [_ H]]. inversion H. subst s. cbn [sp_mae].
  assert (Lr : length (map Q2R t) = length (map Q2R p)) by (rewrite !map_length; auto). assert (Nr : map Q2R t <> []) by (destruct t; [congruence|discriminate]).
  destruct (C52_mean_absolute_error _ _ Lr Nr) as [m [sd [E1 [E2 _]]]]. fold (reals t) (reals p) in Hm. rewrite !reals_finite in Hm. rewrite E1 in Hm. inversion Hm. cbn [fst].
  f_equal. rewrite E2. f_equal. clear. revert p. induction t as [|x t IH]; intros [|y p]; try reflexivity. cbn [map combine fst snd]. rewrite IH. reflexivity.
Qed.

Theorem C97_statistics : forall FR G Fl (o : outcome FR G Q Fl) t p auc keep, task_input o = Ok (t, p) -> length t = length p -> t <> [] ->
  ((0 < st (task_domain o))%Q -> exists s, stats_task auc "score_predictor" keep o = Ok (Scores s, if keep then Some o else None) /\
     sp_n_samples s = length t /\ fst (sp_mae s) = Some (average (map (fun tp => Rabs (Q2R (fst tp) - Q2R (snd tp))) (combine t p))) /\
     histogram_of (task_domain o) t (sp_true s) /\ histogram_of (task_domain o) p (sp_predicted s)) /\
  ((forall x, In x t -> x == 0 \/ x == 1)%Q -> exists s, stats_task auc "item_finder" keep o = Ok (Finds s, if keep then Some o else None) /\
     if_n_samples s = length t /\ ((exists x y, In x t /\ In y t /\ x == 0 /\ y == 1)%Q -> if_auc s = Some (auc t (map Q2R p)))) /\
  (~ (forall x, In x t -> x == 0 \/ x == 1)%Q -> stats_task auc "item_finder" keep o = Raise ValueError) /\
  (forall task_type, task_type <> "score_predictor"%string -> task_type <> "item_finder"%string -> stats_task auc task_type keep o = Raise TypeError).
Proof.
  intros FR G Fl o t p auc keep H L N. unfold stats_task. rewrite H. cbn [bind fst snd String.eqb Ascii.eqb Bool.eqb].
  assert (B : is_binary_score t true = true <-> (forall x, In x t -> x == 0 \/ x == 1)%Q).
  { destruct (C55_is_binary (map Some t)) as [_ A2]. unfold is_binary in A2. rewrite finite_ok in A2. rewrite A2. split.
    - intros [_ K] x Hx. destruct (K (Some x) (in_map _ _ _ Hx)) as [[y [E Hy]]|[y [E Hy]]]; inversion E; subst; auto.
    - intros K. split; [destruct t; [congruence|discriminate]|]. intros e He. apply in_map_iff in He. destruct He as [x [<- Hx]].
      destruct (K x Hx); [left|right]; exists x; auto. }
  split; [|split; [|split]].
  - intros Hs. destruct (C21_statistics t p _ Hs L N) as [s [E [H1 [H2 [_ [_ H5]]]]]]. rewrite E. cbn [bind]. exists s. split; auto. split; auto.
    split; [exact (stats_mae _ _ _ _ L N E)|auto].
  - intros K. apply B in K. unfold item_finder_statistics. rewrite finite_ok. cbn [bind]. rewrite K. cbn [negb].
    rewrite <- (map_map Q2R Some), finite_ok. cbn [bind]. unfold check_consistent_length. rewrite map_length, L, Nat.eqb_refl. cbn [bind].
    eexists. split; [reflexivity|]. cbn [if_n_samples if_auc]. split; auto. intros [x [y [X1 [Y1 [X2 Y2]]]]].
    assert (is_binary_score t false = true) as ->; [|reflexivity].
    destruct (C55_is_binary (map Some t)) as [A1 _]. unfold is_binary in A1. rewrite finite_ok in A1. apply A1. split; [|split].
    + intros e He. apply in_map_iff in He. destruct He as [v [<- Hv]]. apply B with (x := v) in K; auto. destruct K; [left|right]; exists v; auto.
    + exists (Some x). split; [apply in_map; auto|exists x; auto].
    + exists (Some y). split; [apply in_map; auto|exists y; auto].
  - intros K. unfold item_finder_statistics. rewrite finite_ok. cbn [bind]. destruct (is_binary_score t true); [exfalso; apply K, B; auto|reflexivity].
  - intros tt N1 N2. apply String.eqb_neq in N1. apply String.eqb_neq in N2. rewrite N1, N2. reflexivity.
Qed.

(** ** concrete cases *)
Example C97_nonvacuous :
  clock_apart fst wnow /\ random_from fst wshuffle /\ repeatable fst wfit /\ deterministic fst wfit /\
  (forall z w1 w2, fst (wseed (Some z) w1) = fst (wseed (Some z) w2)) /\
  let load := fun (f : list (frow nat)) dm => load_data_sp (F := nat) f dm true in
  let predict := fun r q => do p <- wpredict r q; Ok (match p with Scalar x => Scalar (inject_Z x) | Vector l => Vector (map inject_Z l) end) in
  row_by_row predict /\
  (exists dm i w', do_task wnow wshuffle exact_mul wseed wfit predict load (Some 4%Z) "cv" 2 None ex_rows6 None undefined_domain (9, 100%Z) =
     Ok (Crossed 2 dm i, w') /\ exists t p, task_input (Crossed (Fl := unit) 2 dm i) = Ok (t, p) /\ length t = 4 /\ length p = 4 /\ (0 < st dm)%Q) /\
  (exists i w', do_task wnow wshuffle exact_mul wseed wfit predict load (Some 4%Z) "holdout" 3 (Some 2%Z) ex_train (Some ex_test) undefined_domain (9, 100%Z) =
     Ok (Held 1 i, w')) /\
  do_task wnow wshuffle exact_mul wseed wfit predict load (Some 4%Z) "bootstrap" 3 None ex_train (Some ex_test) undefined_domain (9, 100%Z) = Raise NameError.
Proof.
  split; [intros w; reflexivity|]. split; [intros [a b] [c e] l; cbn; intros ->; auto|].
  split; [intros d [a b] [c e]; cbn; intros ->; auto|]. split; [intros d w1 w2; cbn; auto|]. split; [reflexivity|]. cbv zeta. split; [|split; [|split]].
  - intros r q p H. cbn [wpredict bind] in H. injection H as <-. exists (map inject_Z (map (fun row => Z.of_nat r + fold_right Z.add 0 row)%Z q)).
    split; [|rewrite !map_length; auto]. unfold squeeze. destruct q as [|a [|b q]]; reflexivity.
  - eexists. eexists. eexists. split; [vm_compute; reflexivity|]. eexists. eexists. split; [vm_compute; reflexivity|]. repeat split.
  - eexists. eexists. vm_compute. reflexivity.
  - vm_compute. reflexivity.
Qed.

Print Assumptions C97_repeatable.
Print Assumptions C97_options.
Print Assumptions C97_holdout_target.
Print Assumptions C97_scheme.
Print Assumptions C97_models_repeatable.
Print Assumptions C97_finder_order.
Print Assumptions C97_reordered_statistics.
Print Assumptions C97_merged_statistics.
Print Assumptions C97_statistics.
