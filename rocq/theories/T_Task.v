(** * Hold-out experiments from the files to the statistics (C96) and what
    do_task runs (C97) *)
From Coq Require Import Lqa.
From Coq Require Import String List ZArith QArith Qround Qreals Reals Bool Lia Lra Sorted.
From Verif Require Import M_Py P_Py M_Data Spec P_Data P_Filter P_Reach P_DataThms T_Data T_Filter M_Score P_Score T_Score P_RSum
  M_MF P_MF M_Rec P_Rec T_Rec M_MFRec T_MF T_MF2 T_MFInit T_MFRec M_Split P_Split T_Split M_Load T_Load M_Scripts P_Scripts P_Scripts2 T_Scripts T_Leak
  M_Sigmoid M_Metrics T_Metrics T_Metrics2 M_PLSA T_PLSA T_PLSA2 M_Exp T_Eval M_Task.
Import ListNotations.
Open Scope nat_scope.
Notation length := List.length.

(** ** C96 *)
(** the lines of a file after loading for item finding *)
Lemma load_view_if : forall F G (rows : list (frow G)) cond ts (d : sdata F G) dm, Forall (fun r => length (r_ids r) = 2) rows ->
  load_data_if rows cond ts = Ok (d, dm) ->
  shistory d /\ external_events (s_data d) = Ok (map r_ids (map (liked dm) rows)) /\ event_otypes (s_data d) = [0; 1] /\
  score d = Some (map r_score (map (liked dm) rows)) /\ score_domain d = Some binary_dom /\ n_score_levels d = Some 2%Z /\
  exists d0, load_data_sp rows cond ts = Ok (d0, dm) /\ binarize_score d0 None = Ok d.
Proof.
  intros F G rows cond ts d dm Hw Hl. unfold load_data_if in Hl. apply bind_ok in Hl. destruct Hl as [[d0 dm0] [H0 Hl]].
  apply bind_ok in Hl. destruct Hl as [d1 [Hb Hl]]. cbn [fst snd] in *. inversion Hl; subst d1 dm0. clear Hl.
  destruct (load_view _ _ _ _ _ _ _ Hw H0) as [V1 [V2 [V3 [V4 V5]]]].
  pose proof (sh_binarize _ _ _ V1 Hb) as V1'. pose proof Hb as Hb'. unfold binarize_score in Hb. rewrite V4, V5 in Hb. cbn [bind] in Hb.
  assert (Es : s_data d = s_data d0) by (inversion Hb; reflexivity). rewrite <- Es in V2, V3.
  split; auto. split; [rewrite map_map; exact V2|]. split; auto. split.
  { inversion Hb. cbn [score]. unfold binarize. rewrite !map_map. f_equal. apply map_ext. intros l. unfold liked. cbn [r_score]. rewrite middle. reflexivity. }
  split; [inversion Hb; reflexivity|]. split; [inversion Hb; reflexivity|]. exists d0. auto.
Qed.

Section Holdout.
  Context {W F G FR : Type} (now : W -> Z * W).
  Context (results : W -> sdata F G -> FR) (after : W -> sdata F G -> W).
  Context (draw1 draw2 : W -> R -> nat -> list (list R)) (ldraw1 ldraw2 : W -> nat -> list (list R)).
  Context (minimize : W -> minimizer) (dirichlet : W -> nat -> list R -> list R).

  (** the recorded results: the lines of the test file, in their order, with
      the predictions [ps] *)
  Definition held_result (i : holdout_info (G := G) (FR := FR) (V := R) (list (frow G))) (test : list (frow G)) (ps : list R) : Prop :=
    ho_event i = map r_ids test /\ ho_true i = Some (map r_score test) /\ length ps = length test /\ ho_predicted i = squeeze ps.

  Lemma shown_user_item : forall (d : sdata F G) (rows : list (frow G)), shistory d -> external_events (s_data d) = Ok (map r_ids rows) ->
    event_otypes (s_data d) = [0; 1] ->
    user_item (s_data d) None /\ decoded (s_data d) (map (map IdInt) (map r_ids rows)) /\ n_events (s_data d) = length rows.
  Proof.
    intros d rows Hsh He Hot. apply external_events_ok in He. pose proof (history_reachable _ _ _ (C16_scored_histories _ _ _ Hsh)) as Hr.
    destruct (decoded_length _ _ _ _ Hr He) as [E _]. rewrite !map_length in E. split; [|split; auto].
    split; auto. split; [destruct He as [x [E' _]]; congruence|]. auto.
  Qed.

  (** any recommender, any way of loading that shows the lines [train'] and
      [test'] *)
  Lemma held_of : forall Par (new : rec G Par) (fitp : W -> rec G Par -> sdata F G -> option (list Z) -> rec G Par * option exn)
      (raw : Par -> list (list Z) -> res (list R)) (load : list (frow G) -> dom -> res (sdata F G * dom)) train test cond w i w',
    holdout_test now (run_fit results after new fitp) (run_predict raw) load train (Some test) cond w = Ok (i, w') ->
    exists trd dm ted r, load train cond = Ok (trd, dm) /\ load test dm = Ok (ted, ho_domain i) /\
      fitp (snd (now w)) new trd None = (r, None) /\ external_events (s_data ted) = Ok (ho_event i) /\ ho_true i = score ted /\
      predict raw r (A2 2 (ho_event i)) = Ok (ho_predicted i) /\ ho_event i <> [].
  Proof.
    intros Par new fitp raw load train test cond w i w' H.
    destruct (holdout_inv _ _ _ _ _ _ _ _ _ _ _ H) as [trd [dm [ted [dm' [r [wf [w2 [H1 [H2 [H3 [H4 [H5 [H6 [H7 _]]]]]]]]]]]]]]. subst dm'.
    unfold run_fit in H4. destruct (fitp (snd (now w)) new trd None) as [r' [e|]] eqn:E; [discriminate|]. inversion H4. subst r'.
    exists trd, dm, ted, r. repeat (split; [solve [auto]|]). intros E0. rewrite E0 in H7. eapply predict_none; exact H7.
  Qed.

  (** probabilistic matrix factorisation: the loss is minimised on the lines
      of the training file, users and items are numbered in their order there,
      and every line of the test file gets the formula's score *)
  Theorem C96_pmf : forall (train test : list (frow G)) cond ts C k junk w i w',
    Forall (fun r => length (r_ids r) = 2) train -> Forall (fun r => length (r_ids r) = 2) test ->
    holdout_test now (pmf_run results after C k draw1 draw2 minimize junk) (run_predict pmf_raw_predict)
      (fun f dm => load_data_sp f dm ts) train (Some test) cond w = Ok (i, w') ->
    exists Us Is x0 x c, names 0 (map r_ids train) Us /\ names 1 (map r_ids train) Is /\
      let w0 := snd (now w) in let nu := length Us in let ni := length Is in
      let ev := ev_of (map (fun l => number Us Is (r_ids l)) train) in let sc := map (fun l => Q2R (r_score l)) train in
      pmf_init nu ni k ev sc (draw1 w0) (draw2 w0) = Ok x0 /\
      minimize w0 (fun c => pmf_loss C nu ni k c ev sc) (fun c => pmf_grad C nu ni k c ev sc) x0 = Ok x /\
      length c = coef_size nu ni k /\ (length x = coef_size nu ni k -> c = x) /\
      held_result i test (map (fun l => fallback_score nu ni k c (number Us Is (r_ids l))) test).
  Proof.
    intros train test cond ts C k junk w i w' Hw Hw' H.
    destruct (held_of _ _ _ _ _ _ _ _ _ _ _ H) as [trd [dm [ted [r [L1 [L2 [Fi [Ev [Tr [Pr Ne]]]]]]]]]]. cbv beta in L1, L2.
    destruct (load_view _ _ _ _ _ _ _ Hw L1) as [V1 [V2 [V3 [V4 V5]]]]. destruct (load_view _ _ _ _ _ _ _ Hw' L2) as [_ [V2' [_ [V4' _]]]].
    assert (Ee : ho_event i = map r_ids test) by congruence. rewrite Ee in *.
    destruct (shown_user_item _ _ V1 V2 V3) as [Hui [Hd Hn]].
    destruct (C25_pmf _ _ _ _ _ _ _ _ _ _ _ _ Hui Fi) as [uis [sc [nu [ni [x0 [x [c [B1 [B2 [B3 [B4 [B5 [B6 [B7 [B8 B9]]]]]]]]]]]]]]].
    destruct Hui as [D1 [D2 [D3 D4]]].
    destruct (numbering _ _ _ _ D1 D3 Hd) as [Us [Is [N1 [N2 [N3 [N4 [N5 N6]]]]]]].
    assert (Enu : nu = length Us) by (apply Nat2Z.inj; congruence). assert (Eni : ni = length Is) by (apply Nat2Z.inj; congruence). subst nu ni.
    assert (Es : sc = map r_score train) by congruence. subst sc.
    assert (Eq : ev_of uis = ev_of (map (fun l : frow G => number Us Is (r_ids l)) train)). { rewrite map_map in N5. congruence. }
    rewrite Eq in *. rewrite map_map in B5, B6.
    exists Us, Is, x0, x, c. cbv zeta. do 6 (split; [solve [auto]|]). unfold held_result. split; auto. split; [congruence|].
    split; [apply map_length|].
    assert (Hrect : rect 2 (map r_ids test)) by (unfold rect; apply Forall_map; exact Hw').
    exact (fold_formula _ _ _ _ _ _ _ _ _ _ _ _ N6 B9 Ne Hrect Pr).
  Qed.

  (** the logistic model: both files made binary at the middle of the domain in
      force for the training file *)
  Theorem C96_logistic : forall (train test : list (frow G)) cond ts C k junk w i w',
    Forall (fun r => length (r_ids r) = 2) train -> Forall (fun r => length (r_ids r) = 2) test ->
    holdout_test now (lpmf_run results after C k ldraw1 ldraw2 minimize junk) (run_predict lpmf_raw_predict)
      (fun f dm => load_data_if f dm ts) train (Some test) cond w = Ok (i, w') ->
    domain_from cond train (ho_domain i) /\
    exists Us Is x0 x c, names 0 (map r_ids train) Us /\ names 1 (map r_ids train) Is /\
      let w0 := snd (now w) in let nu := length Us in let ni := length Is in
      let ev := ev_of (map (fun l => number Us Is (r_ids l)) train) in
      let sc := map (fun l => Q2R (r_score l)) (map (liked (ho_domain i)) train) in
      lpmf_init nu ni k ev sc (ldraw1 w0) (ldraw2 w0) = Ok x0 /\
      minimize w0 (fun c => lpmf_loss C nu ni k c ev sc) (fun c => lpmf_grad C nu ni k c ev sc) x0 = Ok x /\
      length c = coef_size nu ni k /\ (length x = coef_size nu ni k -> c = x) /\
      held_result i (map (liked (ho_domain i)) test) (map (fun l => safe_sigmoid (fallback_score nu ni k c (number Us Is (r_ids l)))) test).
  Proof.
    intros train test cond ts C k junk w i w' Hw Hw' H.
    destruct (held_of _ _ _ _ _ _ _ _ _ _ _ H) as [trd [dm [ted [r [L1 [L2 [Fi [Ev [Tr [Pr Ne]]]]]]]]]]. cbv beta in L1, L2.
    destruct (load_view_if _ _ _ _ _ _ _ Hw L1) as [V1 [V2 [V3 [V4 [V5 [V6 [p1 [S1 _]]]]]]]].
    destruct (load_view_if _ _ _ _ _ _ _ Hw' L2) as [_ [V2' [_ [V4' [_ [_ [p2 [S2 _]]]]]]]].
    destruct (load_scores _ _ _ _ _ _ _ S1) as [_ [_ [Q1 Q2]]]. destruct (load_scores _ _ _ _ _ _ _ S2) as [_ [_ [Q3 _]]].
    rewrite (specified_again _ Q2) in Q3. rewrite Q3 in *. split; [apply domain_from_ok; auto|].
    assert (Ei : forall l : list (frow G), map r_ids (map (liked dm) l) = map r_ids l) by (intros l; rewrite map_map; reflexivity).
    assert (Ee : ho_event i = map r_ids test) by (rewrite Ei in V2'; congruence). rewrite Ee in *.
    destruct (shown_user_item _ _ V1 V2 V3) as [Hui [Hd Hn]].
    destruct (C25_logistic _ _ _ _ _ _ _ _ _ _ _ _ Hui Fi) as [uis [sc [nu [ni [x0 [x [c [B1 [B2 [B3 [B4 [B5 [B6 [B7 [B8 B9]]]]]]]]]]]]]]].
    destruct Hui as [D1 [D2 [D3 D4]]].
    destruct (numbering _ _ _ _ D1 D3 Hd) as [Us [Is [N1 [N2 [N3 [N4 [N5 N6]]]]]]].
    assert (Enu : nu = length Us) by (apply Nat2Z.inj; congruence). assert (Eni : ni = length Is) by (apply Nat2Z.inj; congruence). subst nu ni.
    assert (Es : sc = map r_score (map (liked dm) train)) by congruence. subst sc.
    assert (Eq : ev_of uis = ev_of (map (fun l : frow G => number Us Is (r_ids l)) train)). { rewrite Ei, map_map in N5. congruence. }
    rewrite Eq in *. rewrite (map_map r_score Q2R) in B5, B6. rewrite Ei in N1, N2.
    exists Us, Is, x0, x, c. cbv zeta. do 6 (split; [solve [auto]|]). unfold held_result.
    split; [rewrite map_map; exact Ee|]. split; [congruence|]. split; [rewrite !map_length; auto|].
    assert (Hrect : rect 2 (map r_ids test)) by (unfold rect; apply Forall_map; exact Hw').
    exact (fold_formula _ _ _ _ _ _ _ _ _ _ _ _ N6 B9 Ne Hrect Pr).
  Qed.

  (** the topic model *)
  Theorem C96_plsa : forall use_expectation (train test : list (frow G)) cond ts alpha tol k maxiter junk w i w',
    Forall (fun r => length (r_ids r) = 2) train -> Forall (fun r => length (r_ids r) = 2) test ->
    (forall w, dirichlet_ok (dirichlet w)) -> (0 <= alpha)%R ->
    holdout_test now (plsa_run results after alpha tol k maxiter dirichlet junk) (run_predict (plsa_raw_predict use_expectation))
      (fun f dm => load_data_sp f dm ts) train (Some test) cond w = Ok (i, w') -> (lo (ho_domain i) <= hi (ho_domain i))%Q ->
    domain_from cond train (ho_domain i) /\
    exists ps, held_result i test ps /\
      if use_expectation then Forall (fun y => (Q2R (lo (ho_domain i)) <= y <= Q2R (hi (ho_domain i)))%R) ps
      else exists nl lv, n_levels_of (ho_domain i) = Ok nl /\ get_score_levels (ho_domain i) nl = Ok lv /\ Forall (fun y => In y (map Q2R lv)) ps.
  Proof.
    intros use_expectation train test cond ts alpha tol k maxiter junk w i w' Hw Hw' Hdir Ha H Hlh.
    destruct (held_of _ _ _ _ _ _ _ _ _ _ _ H) as [trd [dm [ted [r [L1 [L2 [Fi [Ev [Tr [Pr Ne]]]]]]]]]]. cbv beta in L1, L2.
    destruct (load_view _ _ _ _ _ _ _ Hw L1) as [V1 [V2 [V3 [V4 V5]]]]. destruct (load_view _ _ _ _ _ _ _ Hw' L2) as [_ [V2' [_ [V4' _]]]].
    destruct (load_scores _ _ _ _ _ _ _ L1) as [_ [_ [Q1 Q2]]]. destruct (load_scores _ _ _ _ _ _ _ L2) as [_ [_ [Q3 _]]].
    rewrite (specified_again _ Q2) in Q3. rewrite Q3 in *. split; [apply domain_from_ok; auto|].
    assert (Ee : ho_event i = map r_ids test) by congruence. rewrite Ee in *.
    destruct (shown_user_item _ _ V1 V2 V3) as [Hui [Hd Hn]].
    assert (Hrect : rect 2 (map r_ids test)) by (unfold rect; apply Forall_map; exact Hw').
    destruct (C44_fitted _ _ _ _ _ _ _ _ _ _ _ _ _ _ Hui (Hdir _) Ha Fi V5 Hlh Ne Hrect) as [[y1 [P1 [P2 P3]]] [y2 [lv [nl [P4 [P5 [P6 [P7 P8]]]]]]]].
    rewrite map_length in P2, P5.
    destruct use_expectation.
    - exists y1. split; auto. unfold held_result. repeat split; auto; congruence.
    - exists y2. split; [unfold held_result; repeat split; auto; congruence|]. exists nl, lv. split; [|auto].
      destruct (load_levels _ _ _ _ _ _ _ L1) as [n [M1 M2]]. congruence.
  Qed.
End Holdout.

(** ** the error that is reported *)
(** the statistics of a hold-out run compare line by line *)
Theorem C96_error : forall G FR (i : holdout_info (G := G) (FR := FR) (V := R) (list (frow G))) test ps t p,
  test <> [] -> held_result i test ps -> task_input (Held 1 i) = Ok (t, p) ->
  t = map r_score test /\ p = ps /\ 2 <= length test /\
  exists sd, mean_absolute_error (map (fun x => Some (Q2R x)) t) (map Some p) =
    Ok (Some (rsum (map (fun ly => Rabs (Q2R (r_score (fst ly)) - snd ly)) (combine test ps)) / INR (length test))%R, Some sd).
Proof.
  intros G FR i test ps t p Hne [_ [Ht [Hl Hp]]] H. unfold task_input in H. rewrite Ht, Hp in H. cbn [bind] in H.
  apply bind_ok in H. destruct H as [p0 [Hv H]]. inversion H; subst t p0. clear H.
  assert (E : p = ps /\ 2 <= length ps).
  { unfold squeeze in Hv. destruct ps as [|a [|b ps]]; cbn in Hv; [|discriminate|]; inversion Hv; split; auto; cbn; try lia.
    destruct test; [congruence|discriminate]. }
  destruct E as [-> E]. split; auto. split; auto. split; [lia|].
  assert (Len : length (map Q2R (map r_score test)) = length ps) by (rewrite !map_length; auto).
  assert (Nt : map Q2R (map r_score test) <> []) by (destruct test; [congruence|discriminate]).
  destruct (C52_mean_absolute_error _ _ Len Nt) as [m [sd [E1 [E2 _]]]]. exists sd. unfold finite in E1. rewrite map_map in E1. rewrite E1.
  do 3 f_equal. rewrite E2. unfold average. rewrite map_length, combine_length, Len, Nat.min_id, Hl. f_equal.
  clear. revert ps. induction test as [|l test IH]; intros [|y ps]; try reflexivity. cbn [map combine fst snd]. rewrite !rsum_cons, IH. reflexivity.
Qed.

(** ** hold-out runs that succeed *)
(** a file that can be loaded: two lines or more of two identifiers, and a
    domain, or two different scores to estimate it from *)
Definition loadable {G} (rows : list (frow G)) (cond : dom) : Prop :=
  Forall (fun r => length (r_ids r) = 2) rows /\ 2 <= length rows /\
  (~ (st cond == 0)%Q \/ (lo cond == 0 /\ hi cond == 0 /\ st cond == 0)%Q /\ exists a b, In a rows /\ In b rows /\ (r_score a < r_score b)%Q).

Lemma unspecified_zero : forall c, (lo c == 0 /\ hi c == 0 /\ st c == 0)%Q -> unspecified c = true.
Proof. intros c [A [B D]]. unfold unspecified. apply Qeq_bool_iff in A. apply Qeq_bool_iff in B. apply Qeq_bool_iff in D. rewrite A, B, D. reflexivity. Qed.
Lemma unspecified_step : forall c, ~ (st c == 0)%Q -> unspecified c = false.
Proof.
  intros c H. unfold unspecified. destruct (Qeq_bool (st c) 0) eqn:E; [apply Qeq_bool_iff in E; contradiction|]. apply andb_false_r.
Qed.

Lemma load_runs : forall F G (rows : list (frow G)) cond ts, loadable rows cond ->
  exists (d : sdata F G) dm, load_data_sp rows cond ts = Ok (d, dm) /\ domain_from cond rows dm /\ ~ (st dm == 0)%Q.
Proof.
  intros F G rows cond ts [Hw [Hl Hc]].
  assert (exists s : sdata F G, load_event_with_score rows 2 OTNone (if unspecified cond then None else Some cond) ts = Ok s /\ score_domain s <> None) as [s [Es Ed]].
  { destruct (C66_load_scores_partial F G rows 2 OTNone (if unspecified cond then None else Some cond) ts) as [s [E [_ [_ [_ [_ [E1 E2]]]]]]].
    - split; [lia|exact I].
    - cbn. lia.
    - exact Hw.
    - exact Hl.
    - destruct Hc as [Hc|[Hz Hc]]; [rewrite unspecified_step by auto; auto|]. rewrite unspecified_zero by auto. destruct Hc as [a [b [A [B D]]]]. exists a, b. auto.
    - exists s. split; auto. destruct (unspecified cond); [destruct (E2 eq_refl) as [x [-> _]]; discriminate|]. rewrite (E1 _ eq_refl). discriminate. }
  destruct (score_domain s) as [dm|] eqn:E; [|congruence].
  assert (H : load_data_sp rows cond ts = Ok (s, dm)) by (unfold load_data_sp; rewrite Es; cbn [bind]; rewrite E; reflexivity).
  exists s, dm. split; auto. destruct (load_scores _ _ _ _ _ _ _ H) as [_ [_ [A B]]]. split; [apply domain_from_ok; auto|].
  intros C. apply Qeq_bool_iff in C. congruence.
Qed.

Section Succeeds.
  Context {W F G FR : Type} (now : W -> Z * W).
  Context (results : W -> sdata F G -> FR) (after : W -> sdata F G -> W).

  Lemma held_runs : forall Par (new : rec G Par) (fitp : W -> rec G Par -> sdata F G -> option (list Z) -> rec G Par * option exn)
      (raw : Par -> list (list Z) -> res (list R)) (load : list (frow G) -> dom -> res (sdata F G * dom)) train test cond w trd dm ted dm',
    load train cond = Ok (trd, dm) -> load test dm = Ok (ted, dm') -> external_events (s_data ted) = Ok (map r_ids test) ->
    (exists r, fitp (snd (now w)) new trd None = (r, None) /\ exists p, predict raw r (A2 2 (map r_ids test)) = Ok p) ->
    exists i w', holdout_test now (run_fit results after new fitp) (run_predict raw) load train (Some test) cond w = Ok (i, w') /\ ho_domain i = dm'.
  Proof.
    intros Par new fitp raw load train test cond w trd dm ted dm' H1 H2 H3 [r [H4 [p H5]]]. unfold holdout_test.
    rewrite H1. cbn [bind snd]. rewrite H2. cbn [bind fst]. rewrite H3. cbn [bind]. unfold training.
    destruct (now w) as [st0 w0]. cbn [snd] in *. unfold run_fit. rewrite H4. cbn [bind].
    destruct (now (after w0 trd)) as [st1 w1]. cbn [bind]. unfold testing. destruct (now w1) as [st2 w2]. unfold run_predict. rewrite H5. cbn [bind].
    destruct (now w2) as [st3 w3]. cbn [bind]. eexists. eexists. split; reflexivity.
  Qed.

  Theorem C96_pmf_runs : forall draw1 draw2 minimize (train test : list (frow G)) cond ts C k junk w,
    loadable train cond -> Forall (fun r => length (r_ids r) = 2) test -> 2 <= length test ->
    (0 <= C)%R -> (forall w sd, draws_ok k (draw1 w sd)) -> (forall w sd, draws_ok k (draw2 w sd)) -> (forall w, length_preserving (minimize w)) ->
    exists i w', holdout_test now (pmf_run results after C k draw1 draw2 minimize junk) (run_predict pmf_raw_predict)
      (fun f dm => load_data_sp f dm ts) train (Some test) cond w = Ok (i, w').
  Proof.
    intros draw1 draw2 minimize train test cond ts C k junk w Hld Hw' Hlt HC D1 D2 Hm. pose proof Hld as [Hw [Hlr _]].
    destruct (load_runs F G train cond ts Hld) as [trd [dm [L1 [_ Hst]]]].
    destruct (load_runs F G test dm ts) as [ted [dm' [L2 _]]]; [split; [auto|split; auto]|].
    destruct (load_view _ _ _ _ _ _ _ Hw L1) as [V1 [V2 [V3 [V4 V5]]]]. destruct (load_view _ _ _ _ _ _ _ Hw' L2) as [_ [V2' _]].
    destruct (shown_user_item _ _ V1 V2 V3) as [Hui [Hd Hn]].
    destruct (held_runs _ new_rec (fun w => pmf_fit C k (draw1 w) (draw2 w) (minimize w) junk) pmf_raw_predict
      (fun f dm => load_data_sp f dm ts) train test cond w trd dm ted dm' L1 L2 V2') as [i [w' [H _]]]; [|exists i, w'; exact H].
    destruct (C25_pmf_fit_succeeds _ _ C k (draw1 (snd (now w))) (draw2 (snd (now w))) (minimize (snd (now w))) junk new_rec trd None _ Hui V4) as [r' Hr']; auto.
    { rewrite map_length. auto. }
    { destruct train; [cbn in Hlr; lia|discriminate]. }
    exists r'. split; auto.
    destruct (C25_pmf _ _ _ _ _ _ _ _ _ _ _ _ Hui Hr') as [uis [sc [nu [ni [x0 [x [c [_ [_ [_ [_ [_ [_ [_ [_ B9]]]]]]]]]]]]]]].
    destruct (B9 (map r_ids test)) as [u [_ E]]; [destruct test; [cbn in Hlt; lia|discriminate]|unfold rect; apply Forall_map; exact Hw'|]. eauto.
  Qed.

  (** the logistic model needs lines on both sides of the middle of the
      domain *)
  Definition two_sided (dm : dom) (rows : list (frow G)) : Prop :=
    (exists a, In a rows /\ (r_score a <= (lo dm + hi dm) / 2)%Q) /\ (exists b, In b rows /\ ((lo dm + hi dm) / 2 < r_score b)%Q).

  (** an estimated domain has such lines *)
  Theorem C96_estimated_two_sided : forall (rows : list (frow G)) dm, infer_domain (map r_score rows) = Ok dm -> two_sided dm rows.
  Proof.
    intros rows dm H. destruct (C17_estimated_domain _ _ H) as [A [B [D [[x [y [X [Y [L _]]]]] _]]]].
    assert (Hlt : (lo dm < hi dm)%Q). { destruct (D x X) as [D1 D2], (D y Y) as [D3 D4]. Lqa.lra. }
    apply in_map_iff in A. destruct A as [a [Ea A]]. apply in_map_iff in B. destruct B as [b [Eb B]].
    assert (M : (lo dm <= (lo dm + hi dm) / 2 < hi dm)%Q).
    { setoid_replace ((lo dm + hi dm) / 2)%Q with (lo dm * (1#2) + hi dm * (1#2))%Q by field. Lqa.lra. }
    split; [exists a|exists b]; rewrite ?Ea, ?Eb; tauto.
  Qed.

  Theorem C96_logistic_runs : forall ldraw1 ldraw2 minimize (train test : list (frow G)) cond ts C k junk w,
    loadable train cond -> Forall (fun r => length (r_ids r) = 2) test -> 2 <= length test ->
    (forall w, draws_ok k (ldraw1 w)) -> (forall w, draws_ok k (ldraw2 w)) -> (forall w, length_preserving (minimize w)) ->
    exists dm, domain_from cond train dm /\
      (two_sided dm train -> exists i w', holdout_test now (lpmf_run results after C k ldraw1 ldraw2 minimize junk) (run_predict lpmf_raw_predict)
         (fun f dm => load_data_if f dm ts) train (Some test) cond w = Ok (i, w')) /\
      (~ two_sided dm train -> holdout_test now (lpmf_run results after C k ldraw1 ldraw2 minimize junk) (run_predict lpmf_raw_predict)
         (fun f dm => load_data_if f dm ts) train (Some test) cond w = Raise ValueError).
  Proof.
    intros draw1 draw2 minimize train test cond ts C k junk w Hld Hw' Hlt D1 D2 Hm. pose proof Hld as [Hw [Hlr _]].
    destruct (load_runs F G train cond ts Hld) as [trd0 [dm [L1 [Hdf Hst]]]]. exists dm. split; auto.
    destruct (load_runs F G test dm ts) as [ted0 [dm' [L2 _]]]; [split; [auto|split; auto]|].
    assert (K : forall rows c (d0 : sdata F G) dmx, Forall (fun r => length (r_ids r) = 2) rows -> load_data_sp rows c ts = Ok (d0, dmx) ->
      exists d : sdata F G, load_data_if rows c ts = Ok (d, dmx)).
    { intros rows c d0 dmx Hr Hx. unfold load_data_if. rewrite Hx. cbn [bind fst snd]. destruct (load_scores _ _ _ _ _ _ _ Hx) as [S1 [S2 _]].
      unfold binarize_score. rewrite S1, S2. cbn [bind]. eauto. }
    destruct (K _ _ _ _ Hw L1) as [trd M1]. destruct (K _ _ _ _ Hw' L2) as [ted M2]. clear K.
    destruct (load_view_if _ _ _ _ _ _ _ Hw M1) as [V1 [V2 [V3 [V4 [V5 [V6 _]]]]]]. destruct (load_view_if _ _ _ _ _ _ _ Hw' M2) as [_ [V2' _]].
    assert (Ei : forall dmx (l : list (frow G)), map r_ids (map (liked dmx) l) = map r_ids l) by (intros dmx l; rewrite map_map; reflexivity).
    destruct (shown_user_item _ _ V1 V2 V3) as [Hui [Hd Hn]]. rewrite map_length in Hn. rewrite Ei in V2'.
    assert (Hb : binary_scored trd <-> two_sided dm train).
    { unfold binary_scored, two_sided. rewrite V4, V5, V6. split.
      - intros [_ [[sc [Es [_ [[x [X1 X2]] [y [Y1 Y2]]]]]] _]]. assert (sc = map r_score (map (liked dm) train)) by congruence. subst sc.
        rewrite map_map in X1, Y1. apply in_map_iff in X1. apply in_map_iff in Y1. destruct X1 as [a [Ea A]]. destruct Y1 as [b [Eb B]].
        unfold liked in Ea, Eb. cbn [r_score] in Ea, Eb. split.
        + exists a. split; auto. destruct (Qle_bool (r_score a) ((lo dm + hi dm) / 2)) eqn:E; [apply Qle_bool_iff; auto|].
          rewrite <- Ea in X2. discriminate X2.
        + exists b. split; auto. destruct (Qle_bool (r_score b) ((lo dm + hi dm) / 2)) eqn:E.
          * rewrite <- Eb in Y2. discriminate Y2.
          * apply Qnot_le_lt. intros Hle. apply Qle_bool_iff in Hle. congruence.
      - intros [[a [A1 A2]] [b [B1 B2]]]. split; [exists binary_dom; repeat split; reflexivity|]. split; [|reflexivity].
        exists (map r_score (map (liked dm) train)). split; auto. rewrite map_map. split; [|split].
        + intros x X. apply in_map_iff in X. destruct X as [l [<- _]]. unfold liked. cbn [r_score].
          destruct (Qle_bool (r_score l) ((lo dm + hi dm) / 2)); [left|right]; reflexivity.
        + exists (r_score (liked dm a)). split; [apply in_map_iff; eauto|]. unfold liked. cbn [r_score]. apply Qle_bool_iff in A2. rewrite A2. reflexivity.
        + exists (r_score (liked dm b)). split; [apply in_map_iff; eauto|]. unfold liked. cbn [r_score].
          destruct (Qle_bool (r_score b) ((lo dm + hi dm) / 2)) eqn:E; [apply Qle_bool_iff in E; exfalso; eapply Qlt_not_le; eauto|]. reflexivity. }
    split; intros H2; apply Hb in H2 || (rewrite <- Hb in H2).
    - destruct (held_runs _ new_explicit (fun w => lpmf_fit C k (draw1 w) (draw2 w) (minimize w) junk) lpmf_raw_predict
        (fun f dm => load_data_if f dm ts) train test cond w trd dm ted dm' M1 M2 V2') as [i [w' [H _]]]; [|exists i, w'; exact H].
      destruct (C25_logistic_fit_succeeds _ _ C k (draw1 (snd (now w))) (draw2 (snd (now w))) (minimize (snd (now w))) junk new_explicit trd None _ Hui H2 V4) as [r' Hr']; auto.
      { rewrite !map_length. auto. }
      exists r'. split; auto.
      destruct (C25_logistic _ _ _ _ _ _ _ _ _ _ _ _ Hui Hr') as [uis [sc [nu [ni [x0 [x [c [_ [_ [_ [_ [_ [_ [_ [_ B9]]]]]]]]]]]]]]].
      destruct (B9 (map r_ids test)) as [u [_ E]]; [destruct test; [cbn in Hlt; lia|discriminate]|unfold rect; apply Forall_map; exact Hw'|]. eauto.
    - unfold holdout_test. rewrite M1. cbn [bind snd]. rewrite M2. cbn [bind fst]. rewrite V2'. cbn [bind]. unfold training. destruct (now w) as [st0 w0].
      unfold lpmf_run, run_fit, lpmf_fit, model_fit. destruct Hui as [U1 [U2 [U3 U4]]].
      destruct (C29_accepts_binary _ _ _ (new_explicit (G := G) (Par := par)) trd None [0; 1] U1 U2) as [_ C29].
      { unfold asked. rewrite U3. reflexivity. }
      specialize (C29 H2). destruct (explicit_fit new_explicit trd None) as [r0 e0]. cbn [snd] in C29. subst e0. reflexivity.
  Qed.

  (** the topic model needs a domain whose width is a multiple of its step *)
  Theorem C96_plsa_runs : forall dirichlet use_expectation (train test : list (frow G)) cond ts alpha tol k maxiter junk w,
    loadable train cond -> Forall (fun r => length (r_ids r) = 2) test -> 2 <= length test ->
    (0 <= alpha)%R -> 0 < k -> (forall w, dirichlet_ok (dirichlet w)) ->
    exists dm, domain_from cond train dm /\
      forall m, (0 < st dm)%Q -> (hi dm - lo dm == inject_Z (Z.of_nat m) * st dm)%Q ->
      exists i w', holdout_test now (plsa_run results after alpha tol k maxiter dirichlet junk) (run_predict (plsa_raw_predict use_expectation))
        (fun f dm => load_data_sp f dm ts) train (Some test) cond w = Ok (i, w').
  Proof.
    intros dirichlet use_expectation train test cond ts alpha tol k maxiter junk w Hld Hw' Hlt Ha Hk Hdir. pose proof Hld as [Hw [Hlr _]].
    destruct (load_runs F G train cond ts Hld) as [trd [dm [L1 [Hdf Hst]]]]. exists dm. split; auto. intros m Hs Hdiv.
    destruct (load_runs F G test dm ts) as [ted [dm' [L2 _]]]; [split; [auto|split; auto]|].
    destruct (load_view _ _ _ _ _ _ _ Hw L1) as [V1 [V2 [V3 [V4 V5]]]]. destruct (load_view _ _ _ _ _ _ _ Hw' L2) as [_ [V2' _]].
    destruct (load_levels _ _ _ _ _ _ _ L1) as [nl [N1 N2]].
    destruct (shown_user_item _ _ V1 V2 V3) as [Hui [Hd Hn]].
    destruct (held_runs _ new_rec (fun w => plsa_fit alpha tol k maxiter (dirichlet w) junk) (plsa_raw_predict use_expectation)
      (fun f dm => load_data_sp f dm ts) train test cond w trd dm ted dm' L1 L2 V2') as [i [w' [H _]]]; [|exists i, w'; exact H].
    destruct (C25_plsa_fit_succeeds _ _ alpha tol k maxiter (dirichlet (snd (now w))) junk new_rec trd None _ dm m nl Hui (Hdir _) Ha Hk V4) as [r' Hr']; auto.
    { rewrite map_length. auto. }
    { destruct train; [cbn in Hlr; lia|discriminate]. }
    assert (Hlh : (lo dm <= hi dm)%Q).
    { assert (0 <= inject_Z (Z.of_nat m) * st dm)%Q. { apply Qmult_le_0_compat; [|apply Qlt_le_weak; auto]. change 0%Q with (inject_Z 0). rewrite <- Zle_Qle. lia. }
      rewrite <- Hdiv in H. apply (Qplus_le_l _ _ (- lo dm)). setoid_replace (lo dm + - lo dm)%Q with 0%Q by ring. exact H. }
    exists r'. split; auto.
    destruct (C44_fitted _ _ _ _ _ _ _ _ _ _ _ _ _ (map r_ids test) Hui (Hdir _) Ha Hr' V5 Hlh) as [[y1 [P1 _]] [y2 [lv [nl' [P4 _]]]]].
    { destruct test; [cbn in Hlt; lia|discriminate]. } { unfold rect. apply Forall_map. exact Hw'. }
    destruct use_expectation; eauto.
  Qed.
End Succeeds.

(** ** concrete cases *)
Definition zeros0 (n : nat) : list (list R) := repeat [0%R] n.
Lemma zeros0_ok : draws_ok 1 zeros0.
Proof. exact (zeros_ok 0%R). Qed.
Lemma ex_train_loadable : loadable ex_train undefined_domain /\ loadable ex_train given6.
Proof.
  split; (split; [repeat constructor|split; [cbn; lia|]]).
  - right. split; [repeat split; reflexivity|]. exists (mkRow [2; 30]%Z 1 101), (mkRow [7; 30]%Z 4 100). cbn. repeat split; auto.
  - left. discriminate.
Qed.

Example C96_nonvacuous : exists i w' j v' l u',
  Forall (fun r => length (r_ids r) = 2) ex_train /\ Forall (fun r => length (r_ids r) = 2) ex_test /\ ex_test <> [] /\
  holdout_test wnow (pmf_run (fun _ _ => tt) (fun w _ => w) (1 / 100) 1 (fun _ => zeros) (fun _ => zeros) (fun _ _ _ x => Ok x) None)
    (run_predict pmf_raw_predict) (fun f dm => load_data_sp (F := nat) f dm true) ex_train (Some ex_test) undefined_domain (0, 100%Z) = Ok (i, w') /\
  holdout_test wnow (plsa_run (fun _ _ => tt) (fun w _ => w) 1 (1 / 100) 1 20 (fun _ => even) None)
    (run_predict (plsa_raw_predict true)) (fun f dm => load_data_sp (F := nat) f dm true) ex_train (Some ex_test) given6 (0, 100%Z) = Ok (j, v') /\
  holdout_test wnow (lpmf_run (fun _ _ => tt) (fun w _ => w) (1 / 100) 1 (fun _ => zeros0) (fun _ => zeros0) (fun _ _ _ x => Ok x) None)
    (run_predict lpmf_raw_predict) (fun f dm => load_data_if (F := nat) f dm true) ex_train (Some ex_test) undefined_domain (0, 100%Z) = Ok (l, u').
Proof.
  assert (Hw : Forall (fun r : frow nat => length (r_ids r) = 2) ex_train) by (repeat constructor).
  assert (Ht : Forall (fun r : frow nat => length (r_ids r) = 2) ex_test) by (repeat constructor).
  assert (H2 : 2 <= length ex_test) by (cbn; lia). destruct ex_train_loadable as [La Lb].
  destruct (C96_pmf_runs (F := nat) wnow (fun _ _ => tt) (fun w _ => w) (fun _ => zeros) (fun _ => zeros) (fun _ _ _ x => Ok x)
    ex_train ex_test undefined_domain true (1 / 100)%R 1 None (0, 100%Z) La Ht H2) as [i [w' Hi]].
  { lra. } { intros _. apply zeros_ok. } { intros _. apply zeros_ok. } { intros _ loss grad x0. exists x0. auto. }
  destruct (C96_plsa_runs (F := nat) wnow (fun _ _ => tt) (fun w _ => w) (fun _ => even) true
    ex_train ex_test given6 true 1%R (1 / 100)%R 1 20%Z None (0, 100%Z) Lb Ht H2) as [dm [Hd Hj]].
  { lra. } { lia. } { intros _. exact even_ok. }
  assert (dm = given6) as -> by (destruct Hd as [[[B _] _]|[_ E]]; [discriminate B|exact E]).
  destruct (Hj 8 eq_refl eq_refl) as [j [v' Ej]].
  destruct (C96_logistic_runs (F := nat) wnow (fun _ _ => tt) (fun w _ => w) (fun _ => zeros0) (fun _ => zeros0) (fun _ _ _ x => Ok x)
    ex_train ex_test undefined_domain true (1 / 100)%R 1 None (0, 100%Z) La Ht H2) as [dl [Hdl [Hl _]]].
  { intros _. apply zeros0_ok. } { intros _. apply zeros0_ok. } { intros _ loss grad x0. exists x0. auto. }
  destruct Hl as [l [u' El]]; [apply C96_estimated_two_sided; destruct Hdl as [[_ E]|[N _]]; [exact E|destruct N; repeat split; reflexivity]|].
  exists i, w', j, v', l, u'. do 2 (split; [assumption|]). split; [discriminate|]. split; [exact Hi|]. split; [exact Ej|exact El].
Qed.

(** a file of likes alone under a given domain stops the logistic model *)
Example C96_one_sided : exists dm : dom, let train := [mkRow [7; 30]%Z 4 100; mkRow [2; 30]%Z 5 101]%nat in
  loadable train dm /\ ~ two_sided dm train /\
  holdout_test wnow (lpmf_run (fun _ _ => tt) (fun w _ => w) (1 / 100) 1 (fun _ => zeros0) (fun _ => zeros0) (fun _ _ _ x => Ok x) None)
    (run_predict lpmf_raw_predict) (fun f dm => load_data_if (F := nat) f dm true) train (Some ex_test) dm (0, 100%Z) = Raise ValueError.
Proof.
  exists (mkDom 1 5 1). cbv zeta. assert (L : loadable [mkRow [7; 30]%Z 4 100; mkRow [2; 30]%Z 5 101] (mkDom 1 5 1)).
  { split; [repeat constructor|]. split; [cbn; lia|]. left. discriminate. }
  assert (N : ~ two_sided (mkDom 1 5 1) [mkRow [7; 30]%Z 4 100; mkRow [2; 30]%Z 5 101]).
  { intros [[a [A E]] _]. cbn in A. destruct A as [<-|[<-|[]]]; exact (E eq_refl). }
  split; [exact L|]. split; [exact N|].
  destruct (C96_logistic_runs (F := nat) wnow (fun _ _ => tt) (fun w _ => w) (fun _ => zeros0) (fun _ => zeros0) (fun _ _ _ x => Ok x)
    [mkRow [7; 30]%Z 4 100; mkRow [2; 30]%Z 5 101] ex_test (mkDom 1 5 1) true (1 / 100)%R 1 None (0, 100%Z) L) as [dl [Hdl [_ Hl]]].
  { repeat constructor. } { cbn; lia. } { intros _. apply zeros0_ok. } { intros _. apply zeros0_ok. } { intros _ loss grad x0. exists x0. auto. }
  assert (dl = mkDom 1 5 1) as -> by (destruct Hdl as [[[B _] _]|[_ E]]; [discriminate B|exact E]). exact (Hl N).
Qed.

Print Assumptions C96_pmf.
Print Assumptions C96_logistic.
Print Assumptions C96_plsa.
Print Assumptions C96_error.
Print Assumptions C96_pmf_runs.
Print Assumptions C96_logistic_runs.
Print Assumptions C96_plsa_runs.
Print Assumptions C96_estimated_two_sided.
