(** * Cross validation of the logistic model: when it runs through (C102, C103) *)
From Coq Require Import Lqa.
From Coq Require Import List ZArith QArith Qround Qreals Reals Bool Lia Lra Sorted Permutation.
From Verif Require Import M_Py P_Py M_Data Spec P_Data P_Filter P_Reach P_DataThms T_Data T_Filter M_Score P_Score T_Score P_RSum
  M_MF P_MF M_Rec P_Rec T_Rec M_MFRec T_MF T_MF2 T_MFInit T_MFRec M_Split P_Split T_Split M_Load T_Load M_Scripts P_Scripts P_Scripts2 T_Scripts T_Leak
  M_Sigmoid M_Metrics T_Metrics M_PLSA T_PLSA T_PLSA2 M_Exp T_Eval M_Task T_Task.
Import ListNotations.
Open Scope nat_scope.

(** ** what can stop a cross validation *)
Section Stuck.
  Context {W F G Rc FR V : Type}.
  Context (now : W -> Z * W) (shuffle : W -> list nat -> list nat * W) (fmul : Q -> nat -> Q).
  Context (fit : W -> sdata F G -> res (Rc * FR * W)) (predict : Rc -> list (list Z) -> res (pred V)).

  (** line [j] is one of user [x] *)
  Definition of_user (rows : list (frow G)) (x : Z) (j : nat) : bool :=
    match nth_error rows j with Some r => match nth_error (r_ids r) 0 with Some y => Z.eqb y x | None => false end | None => false end.
  Definition lines_of (rows : list (frow G)) (x : Z) : nat := length (filter (of_user rows x) (seq 0 (length rows))).

  (** the lines are divided within each user, a fifth of them to be tested *)
  Definition divided (rows : list (frow G)) (tr te : list nat) : Prop :=
    complementary (length rows) (tr, te) /\ tr <> [] /\
    (exists s, ssg_split shuffle fmul 1 (Some (Frac fifth)) None true (length rows) (Some (map (fun r => nth 0 (r_ids r) 0%Z) rows)) s = Ok [(tr, te)]) /\
    forall j x, j < length rows -> of_user rows x j = true ->
      Z.of_nat (length (filter (of_user rows x) te)) = Qceiling (fmul fifth (lines_of rows x)).

  (** the recommender raises [e] on one of the training parts *)
  Definition stuck (rows : list (frow G)) (d : sdata F G) (e : exn) : Prop :=
    exists w0 td tr te, divided rows tr te /\ s_filter_event d (FIdx (map Z.of_nat tr)) = Ok (Some td) /\
      (fit w0 td = Raise e \/ exists r fr w1 q, fit w0 td = Ok (r, fr, w1) /\ q <> [] /\ rect 2 q /\ predict r q = Raise e).

  Lemma cv_cases : forall d n_folds target w rows j0 k0, shuffles shuffle -> product_ok fmul -> fifth_of fmul ->
    shistory d -> event_otypes (s_data d) = [0; 1] -> external_events (s_data d) = Ok (map r_ids rows) -> score d = Some (map r_score rows) ->
    features_aligned (s_data d) -> event_features_aligned (s_data d) -> Forall (fun r => length (r_ids r) = 2) rows -> two_lines rows j0 k0 ->
    (exists x, cv_test now shuffle fmul fit predict d n_folds target w = Ok x) \/
    exists e, cv_test now shuffle fmul fit predict d n_folds target w = Raise e /\ stuck rows d e.
  Proof.
    intros d n_folds target w rows j0 k0 Hs Hf H5 Hh Hot2 He Hsc Hfa Hea Hw Htwo. set (ev := map r_ids rows) in *.
    pose proof He as Hd. apply external_events_ok in Hd.
    pose proof (history_reachable _ _ _ (C16_scored_histories _ _ _ Hh)) as Hr.
    destruct (decoded_length _ _ _ _ Hr Hd) as [Hn Hrect]. rewrite map_length in Hn.
    assert (Lsc : length (map r_score rows) = length ev) by (unfold ev; rewrite !map_length; auto).
    assert (Lev : length ev = length rows) by (unfold ev; apply map_length).
    assert (Hev : event (s_data d) <> None) by (destruct Hd as [x [E _]]; congruence).
    destruct (reachable_inv _ Hr) as [[Hot _] [_ [[C _]|[base Hrep]]]]; [congruence|].
    assert (Hof : forall e, e < 2 -> exists z, n_of (s_data d) (Z.of_nat e) = Ok z).
    { intros e Hlt. unfold n_of. destruct (nth_error (event_otypes (s_data d)) e) as [t|] eqn:Et; [|apply nth_error_None in Et; rewrite Hot2 in Et; cbn in Et; lia].
      rewrite (proj2 (np_get_nat _ _ _ _) Et). cbn [bind]. destruct Hrep as [Ho _]. rewrite Ho, gen_o_n, np_get_map_seq; eauto.
      apply nth_error_In in Et. rewrite Forall_forall in Hot. auto. }
    destruct (Hof 0 ltac:(lia)) as [a Ha]. destruct (Hof 1 ltac:(lia)) as [b Hb]. cbn in Ha, Hb.
    assert (Hg : mapM (fun row => np_get row 0) ev = Ok (map (fun row => nth 0 row 0%Z) ev)).
    { apply mapM_total_in. intros row Hin. apply (np_get_nth _ row 0).
      unfold ev in Hin. apply in_map_iff in Hin. destruct Hin as [l [<- Hin]]. rewrite Forall_forall in Hw. rewrite (Hw _ Hin). lia. }
    set (gs := map (fun row => nth 0 row 0%Z) ev) in *.
    assert (Egs : gs = map (fun r => nth 0 (r_ids r) 0%Z) rows) by (unfold gs, ev; rewrite map_map; reflexivity).
    rewrite (cv_test_intro _ _ _ _ _ _ _ _ _ _ _ _ _ He Hg Ha Hb).
    assert (Lg : length gs = length ev) by (unfold gs; apply map_length).
    assert (Hfits : forall us, Forall (fun g => fits fmul (Some (Frac fifth)) None (length (group gs g))) us).
    { intros us. apply Forall_forall. intros g _. unfold fits. cbn. repeat split; auto. lia. }
    assert (Hlab : forall j x, j < length rows -> of_user rows x j = Z.eqb (label (Some gs) j) x).
    { intros j x Hj. unfold of_user. cbn [label]. rewrite Egs.
      destruct (nth_error rows j) as [r|] eqn:E; [|apply nth_error_None in E; lia].
      assert (E2 : nth j (map (fun r : frow G => nth 0 (r_ids r) 0%Z) rows) 0%Z = nth 0 (r_ids r) 0%Z).
      { apply nth_error_nth. rewrite nth_error_map, E. reflexivity. }
      rewrite E2. rewrite Forall_forall in Hw. apply nth_error_In in E. specialize (Hw _ E). destruct (r_ids r); [discriminate|]. reflexivity. }
    assert (Hgo : forall k fold w fes i, Forall (fun fe : nat * entry FR G V => fst fe < fold) fes -> matches (has_feature d) i fes ->
      (exists x, cv_loop now shuffle fmul fit predict d ev gs (np_unique Z.compare gs) target k fold i w = Ok x) \/
      exists e, cv_loop now shuffle fmul fit predict d ev gs (np_unique Z.compare gs) target k fold i w = Raise e /\ stuck rows d e);
      [|eapply Hgo; [apply Forall_nil | apply empty_matches]].
    clear w Ha Hb a b.
    induction k as [|k IH]; intros fold w fes i L M; cbn [cv_loop]; [eauto|].
    destruct (ssg_mask_spec shuffle Hs fmul Hf (Some (Frac fifth)) None true fifth_ok none_ok fifth_some
                gs (np_unique Z.compare gs) (repeat false (length gs)) w (repeat_length _ _)) as [Sp _]. cbv zeta in Sp.
    destruct (Sp (Hfits _)) as [mask [wm [pairs [Em0 [Lm _]]]]].
    assert (Hm : ssg_mask shuffle fmul (Some (Frac fifth)) None true (length ev) gs (np_unique Z.compare gs) w = Ok (mask, wm)).
    { unfold ssg_mask. rewrite <- Lg. exact Em0. }
    rewrite Hm. cbn [bind fst snd]. rewrite Lg in Lm. pose proof (of_mask_ok _ _ Lm) as Em. rewrite Em. cbn [bind].
    set (tt := (filter _ _, filter _ _)) in *.
    pose proof (of_mask_complementary _ _ _ Lm Em) as Hcomp. pose proof Hcomp as [_ [_ [C1 C2]]].
    assert (Ev : forall iw', (exists x, cv_loop now shuffle fmul fit predict d ev gs (np_unique Z.compare gs) target k (S fold) i iw' = Ok x) \/
      exists e, cv_loop now shuffle fmul fit predict d ev gs (np_unique Z.compare gs) target k (S fold) i iw' = Raise e /\ stuck rows d e).
    { intros w'. eapply (IH (S fold) w' fes); eauto. eapply Forall_impl; [|exact L]. cbv beta; intros; lia. }
    destruct (match target with Some t => negb (Z.of_nat fold =? t)%Z | None => false end); auto.
    assert (Hsplit : ssg_split shuffle fmul 1 (Some (Frac fifth)) None true (length ev) (Some gs) w = Ok [tt]).
    { unfold ssg_split, indexable. rewrite Lg, Nat.eqb_refl. cbn [bind labels_of]. change (Z.to_nat 1) with 1. cbn [ssg_folds].
      rewrite Hm. cbn [bind fst snd]. rewrite Em. reflexivity. }
    destruct (C49_test_share _ _ _ _ _ _ _ _ _ _ _ Hs Hf fifth_ok none_ok fifth_some Hsplit) as [_ [_ Sh]].
    assert (Hshare : fst tt <> [] /\ snd tt <> []).
    { destruct Htwo as [la [lb [x [T1 [T2 [T3 [T4 T5]]]]]]].
      assert (Hj : j0 < length ev) by (rewrite Lev; apply nth_error_Some; congruence).
      assert (Hk : k0 < length ev) by (rewrite Lev; apply nth_error_Some; congruence).
      assert (Gj : nth j0 gs 0%Z = x).
      { apply nth_error_nth. unfold gs, ev. rewrite !nth_error_map, T2. cbn. f_equal. apply nth_error_nth. auto. }
      assert (Gk : nth k0 gs 0%Z = x).
      { apply nth_error_nth. unfold gs, ev. rewrite !nth_error_map, T3. cbn. f_equal. apply nth_error_nth. auto. }
      destruct (Sh j0 (fst tt) (snd tt) Hj (or_introl (surjective_pairing _))) as [S1 S2]. cbn [label asked_test] in S1, S2. rewrite Gj in S1, S2.
      assert (Hsize : 2 <= group_size (length ev) (Some gs) x).
      { unfold group_size, count. assert (I : incl [j0; k0] (filter (fun i => (label (Some gs) i =? x)%Z) (seq 0 (length ev)))).
        { intros y [<-|[<-|[]]]; apply filter_In; (split; [apply in_seq; lia|]); cbn [label]; apply Z.eqb_eq; auto. }
        apply (NoDup_incl_length) in I; [exact I|]. constructor; [intros [E|[]]; lia|]. constructor; [intros []|constructor]. }
      destruct (H5 (group_size (length ev) (Some gs) x)) as [P1 P2]. specialize (P1 ltac:(lia)). specialize (P2 Hsize).
      set (m := group_size (length ev) (Some gs) x) in *.
      assert (Q1 : (0 < Qceiling (fmul fifth m))%Z).
      { rewrite Zlt_Qlt. eapply Qlt_le_trans; [exact P1|]. apply Qle_ceiling. }
      assert (Q2 : (Qceiling (fmul fifth m) <= Z.of_nat m - 1)%Z).
      { apply Qceiling_resp_le in P2. rewrite Qceiling_Z in P2. exact P2. }
      split; intros E; rewrite E in *; cbn in S1, S2; lia. }
    destruct Hshare as [Htr0 Hte0].
    assert (Hdiv : divided rows (fst tt) (snd tt)).
    { split; [rewrite <- Lev, <- surjective_pairing; exact Hcomp|]. split; auto. split.
      - exists w. rewrite <- Egs, <- Lev, <- surjective_pairing. exact Hsplit.
      - intros j x Hj Hu. rewrite (Hlab j x Hj) in Hu. apply Z.eqb_eq in Hu. rewrite <- Lev in Hj.
        destruct (Sh j (fst tt) (snd tt) Hj (or_introl (surjective_pairing _))) as [S1 _]. cbn [asked_test] in S1. rewrite Hu in S1.
        unfold group_size, count in S1. unfold lines_of. rewrite <- Lev.
        rewrite (filter_ext_in (of_user rows x) (fun i => (label (Some gs) i =? x)%Z) (snd tt)) by (intros y Hy; apply Hlab; apply C2 in Hy; lia).
        rewrite (filter_ext_in (of_user rows x) (fun i => (label (Some gs) i =? x)%Z) (seq 0 (length ev))) by (intros y Hy; apply Hlab; apply in_seq in Hy; lia).
        exact S1. }
    assert (Htr : Forall (fun k => k < length ev) (fst tt)) by (apply Forall_forall; intros x Hx; apply C1 in Hx; lia).
    assert (Hte : Forall (fun k => k < length ev) (snd tt)) by (apply Forall_forall; intros x Hx; apply C2 in Hx; lia).
    assert (Hsel : selects (n_events (s_data d)) (FIdx (map Z.of_nat (fst tt))) (fst tt)).
    { cbn [selects]. rewrite <- Hn. clear - Htr. induction Htr; constructor; auto. lia. }
    destruct (proj1 (C10_filter_total _ _ _ (FIdx (map Z.of_nat (fst tt))) Hr Hev Hfa Hea) (ex_intro _ _ Hsel)) as [td Htd].
    assert (exists sd, s_filter_event d (FIdx (map Z.of_nat (fst tt))) = Ok (Some sd)) as [sd Hsd].
    { unfold s_filter_event. destruct (event (s_data d)); [|congruence]. rewrite Htd. cbn [bind]. rewrite Hsc. cbn [np_select].
      destruct (take_total _ (map r_score rows) (fst tt)) as [x Ex]; [rewrite Lsc; auto|]. unfold take in Ex. rewrite Ex. cbn [bind]. eauto. }
    destruct (take_total _ ev (snd tt) Hte) as [evt Hevt].
    assert (Hne : evt <> []). { apply take_picks, picks_length in Hevt. intros ->. destruct (snd tt); [congruence|discriminate]. }
    assert (Hre : rect 2 evt). { apply take_picks in Hevt. unfold rect. eapply picks_Forall; [exact Hevt|]. unfold ev. apply Forall_map. exact Hw. }
    destruct (fit (snd (now wm)) sd) as [[[r fr] w1]|e] eqn:Er.
    2:{ right. exists e. split; [|exists (snd (now wm)), sd, (fst tt), (snd tt); auto].
        unfold cv_fold. rewrite Hsd. cbn [bind]. unfold training. destruct (now wm) as [t0 wa]. cbn [snd] in Er. rewrite Er. reflexivity. }
    destruct (predict r evt) as [p|e] eqn:Hp.
    2:{ right. exists e. split; [|exists (snd (now wm)), sd, (fst tt), (snd tt); split; auto; split; auto; right; exists r, fr, w1, evt; auto].
        unfold cv_fold. rewrite Hsd. cbn [bind]. unfold training. destruct (now wm) as [t0 wa]. cbn [snd] in Er. rewrite Er. cbn [bind].
        destruct (now w1) as [t1 wc]. cbn [bind]. rewrite Hevt. cbn [bind]. unfold testing. destruct (now wc) as [t2 wd]. rewrite Hp. reflexivity. }
    destruct (take_total _ (map r_score rows) (snd tt)) as [sct Hsct]; [rewrite Lsc; auto|].
    assert (exists x, match event_feature (s_data d), x with Some ef, Some x => take ef (snd tt) = Ok x | None, None => True | _, _ => False end) as [x Hx].
    { unfold event_features_aligned in Hea. destruct (event_feature (s_data d)) as [ef|]; [|exists None; auto].
      destruct (take_total _ ef (snd tt)) as [x Ex]; [rewrite Hea, <- Hn; auto|]. exists (Some x). auto. }
    destruct (cv_fold_ok now fit predict d ev fold tt i wm (mkEntry fr (length evt) evt sct p (snd tt) x) w1) as [i1 [w2 Hf1]].
    - eapply matches_feature; eauto.
    - exists sd, r, (map r_score rows). cbn. repeat split; auto.
    - rewrite Hf1. cbn [bind fst snd].
      assert (Nin : ~ In fold (map fst fes)).
      { intros C. apply in_map_iff in C. destruct C as [fe [Ef C]]. rewrite Forall_forall in L. specialize (L _ C). lia. }
      destruct (cv_fold_spec _ _ _ _ _ _ _ _ _ _ _ _ M Nin Hf1) as [e [wb [sw [_ [M1 _]]]]].
      eapply (IH (S fold) w2 _); [|exact M1]. apply Forall_app. split; [eapply Forall_impl; [|exact L]; cbv beta; intros; lia | constructor; cbn; auto].
  Qed.
End Stuck.

(** ** the two sides of the domain *)
Definition low_side {G} (dm : dom) (r : frow G) : bool := Qle_bool (r_score r) ((lo dm + hi dm) / 2).

Lemma two_sided_iff : forall F G (dm : dom) (l : list (frow G)) (td : sdata F G),
  score td = Some (map r_score (map (liked dm) l)) -> score_domain td = Some binary_dom -> n_score_levels td = Some 2%Z ->
  (binary_scored td <-> two_sided dm l).
Proof.
  intros F G dm l td V4 V5 V6. unfold binary_scored, two_sided. rewrite V4, V5, V6. split.
  - intros [_ [[sc [Es [_ [[x [X1 X2]] [y [Y1 Y2]]]]]] _]]. assert (sc = map r_score (map (liked dm) l)) by congruence. subst sc.
    rewrite map_map in X1, Y1. apply in_map_iff in X1. apply in_map_iff in Y1. destruct X1 as [a [Ea A]]. destruct Y1 as [b [Eb B]].
    unfold liked in Ea, Eb. cbn [r_score] in Ea, Eb. split.
    + exists a. split; auto. destruct (Qle_bool (r_score a) ((lo dm + hi dm) / 2)) eqn:E; [apply Qle_bool_iff; auto|].
      rewrite <- Ea in X2. discriminate X2.
    + exists b. split; auto. destruct (Qle_bool (r_score b) ((lo dm + hi dm) / 2)) eqn:E.
      * rewrite <- Eb in Y2. discriminate Y2.
      * apply Qnot_le_lt. intros Hle. apply Qle_bool_iff in Hle. congruence.
  - intros [[a [H1 H2]] [b [B1 B2]]]. split; [exists binary_dom; repeat split; reflexivity|]. split; [|reflexivity].
    exists (map r_score (map (liked dm) l)). split; auto. rewrite map_map. split; [|split].
    + intros x X. apply in_map_iff in X. destruct X as [r [<- _]]. unfold liked. cbn [r_score].
      destruct (Qle_bool (r_score r) ((lo dm + hi dm) / 2)); [left|right]; reflexivity.
    + exists (r_score (liked dm a)). split; [apply in_map_iff; eauto|]. unfold liked. cbn [r_score]. apply Qle_bool_iff in H2. rewrite H2. reflexivity.
    + exists (r_score (liked dm b)). split; [apply in_map_iff; eauto|]. unfold liked. cbn [r_score].
      destruct (Qle_bool (r_score b) ((lo dm + hi dm) / 2)) eqn:E; [apply Qle_bool_iff in E; exfalso; eapply Qlt_not_le; eauto|]. reflexivity.
Qed.

(** a user with so many lines on one side that the fifth to be tested cannot
    hold them all *)
Definition many_on {G} (fmul : Q -> nat -> Q) (rows : list (frow G)) (side : frow G -> bool) : Prop :=
  exists x, (Qceiling (fmul fifth (lines_of rows x)) <
             Z.of_nat (length (filter (fun j => of_user rows x j && match nth_error rows j with Some r => side r | None => false end) (seq 0 (length rows)))))%Z.

Lemma many_left : forall S G (shuffle : S -> list nat -> list nat * S) fmul (rows : list (frow G)) side tr te l, product_ok fmul ->
  divided shuffle fmul rows tr te -> picks rows tr l -> many_on fmul rows side -> exists r, In r l /\ side r = true.
Proof.
  intros S G shuffle fmul rows side tr te l Hf [[C0 [C1 [C2 C3]]] [_ [_ Sh]]] Hp [x Hx]. cbn [fst snd] in *.
  set (both := fun j => of_user rows x j && match nth_error rows j with Some r => side r | None => false end) in *.
  assert (D : (exists j, In j tr /\ both j = true) \/ forall j, In j tr -> both j = false).
  { clear. induction tr as [|j tr [[k [I1 I2]]|IH]]; [right; intros j []|left; exists k; cbn; auto|].
    destruct (both j) eqn:E; [left; exists j; cbn; auto|]. right. intros k [<-|Hk]; auto. }
  destruct D as [[j [I1 I2]]|D].
  - unfold both in I2. apply andb_true_iff in I2. destruct I2 as [_ I2]. destruct (nth_error rows j) as [r|] eqn:E; [|discriminate].
    exists r. split; auto. unfold picks in Hp. clear - Hp I1 E. induction Hp as [|k y tr l Hk Hp IH]; [destruct I1|]. destruct I1 as [->|I1]; [left; congruence|right; auto].
  - exfalso. assert (I : incl (filter both (seq 0 (length rows))) (filter (of_user rows x) te)).
    { intros j Hj. apply filter_In in Hj. destruct Hj as [J1 J2]. apply in_seq in J1. apply filter_In. split.
      - destruct (in_dec Nat.eq_dec j te) as [|N]; auto. exfalso. rewrite (D j) in J2; [discriminate|]. apply C2. split; [lia|auto].
      - unfold both in J2. apply andb_true_iff in J2. tauto. }
    apply NoDup_incl_length in I; [|apply NoDup_filter, seq_NoDup].
    destruct (filter both (seq 0 (length rows))) as [|j f] eqn:Ef.
    + cbn [length] in Hx. destruct (Hf fifth (lines_of rows x)) as [P _]; [split; [discriminate|reflexivity]|].
      apply Qceiling_resp_le in P. change (Qceiling 0) with 0%Z in P. lia.
    + assert (Hj : In j (filter both (seq 0 (length rows)))) by (rewrite Ef; left; auto). apply filter_In in Hj. destruct Hj as [H1 H2]. apply in_seq in H1.
      unfold both in H2. apply andb_true_iff in H2. specialize (Sh j x ltac:(lia) (proj1 H2)). lia.
Qed.

Section Logistic.
  Context {W F G FR : Type}.
  Context (now : W -> Z * W) (shuffle : W -> list nat -> list nat * W) (fmul : Q -> nat -> Q) (results : W -> sdata F G -> FR) (after : W -> sdata F G -> W).
  Context (ldraw1 ldraw2 : W -> nat -> list (list R)) (minimize : W -> (list R -> res R) -> (list R -> res (list R)) -> list R -> res (list R)).
  Notation run C k junk := (lpmf_run results after C k ldraw1 ldraw2 minimize junk).

  (** fitting works just on training lines from both sides *)
  Lemma logistic_part : forall (rows : list (frow G)) cond ts (d : sdata F G) dm C k junk w0 td tr,
    Forall (fun r => length (r_ids r) = 2) rows -> load_data_if rows cond ts = Ok (d, dm) -> (forall w, draws_ok k (ldraw1 w)) -> (forall w, draws_ok k (ldraw2 w)) ->
    (forall w, length_preserving (minimize w)) -> tr <> [] -> s_filter_event d (FIdx (map Z.of_nat tr)) = Ok (Some td) ->
    exists l, picks rows tr l /\
      (two_sided dm l -> exists r fr w1, run C k junk w0 td = Ok (r, fr, w1) /\ forall q, q <> [] -> rect 2 q -> exists p, run_predict lpmf_raw_predict r q = Ok p) /\
      (~ two_sided dm l -> run C k junk w0 td = Raise ValueError).
  Proof.
    intros rows cond ts d dm C k junk w0 td tr Hw Hl D1 D2 Hm Htr Hfl. destruct (load_view_if _ _ _ _ _ _ _ Hw Hl) as [V1 [V2 [V3 [V4 [V5 [V6 _]]]]]].
    destruct (training_part _ _ _ _ _ _ V1 V2 V3 V4 Hfl) as [trl [T1 [T2 [T3 [T4 [T5 [T6 T7]]]]]]].
    assert (exists l, picks rows tr l) as [l Pl].
    { apply picks_total. intros j Hj. unfold picks in T1. clear - T1 Hj. induction T1 as [|a b ks ls Ha T1 IH]; [destruct Hj|].
      destruct Hj as [->|Hj]; auto. rewrite nth_error_map in Ha. apply nth_error_Some. destruct (nth_error rows j); [discriminate|discriminate Ha]. }
    exists l. split; auto. assert (trl = map (liked dm) l) by (eapply picks_fun; [exact T1|apply picks_map; auto]). subst trl.
    rewrite V5 in T5. rewrite V6 in T6. pose proof (two_sided_iff _ _ _ _ _ T4 T5 T6) as Hb.
    assert (Hne : map r_score (map (liked dm) l) <> []). { apply picks_length in T1. destruct l; [|discriminate]. destruct tr; [congruence|discriminate]. }
    assert (Hlen : length (map r_score (map (liked dm) l)) = n_events (s_data td)).
    { pose proof (history_reachable _ _ _ (C16_scored_histories _ _ _ T7)) as Hr. destruct (decoded_length _ _ _ _ Hr T3) as [E _]. rewrite !map_length in *. auto. }
    split; intros H2; apply Hb in H2 || (rewrite <- Hb in H2).
    - destruct (C25_logistic_fit_succeeds _ _ C k (ldraw1 w0) (ldraw2 w0) (minimize w0) junk new_explicit td None _ T2 H2 T4 Hlen (D1 w0) (D2 w0) (Hm w0)) as [r' Hr'].
      exists r', (results w0 td), (after w0 td). unfold lpmf_run, run_fit. rewrite Hr'. split; auto. intros q Hq Hrect. unfold run_predict.
      destruct (C25_logistic _ _ _ _ _ _ _ _ _ _ _ _ T2 Hr') as [uis [sc [nu [ni [x0 [x [c [_ [_ [_ [_ [_ [_ [_ [_ B9]]]]]]]]]]]]]]].
      destruct (B9 q Hq Hrect) as [u [_ E]]. eauto.
    - unfold lpmf_run, run_fit, lpmf_fit, model_fit. destruct T2 as [U1 [U2 [U3 U4]]].
      destruct (C29_accepts_binary _ _ _ (new_explicit (G := G) (Par := par)) td None [0; 1] U1 U2) as [_ C29].
      { unfold asked. rewrite U3. reflexivity. }
      specialize (C29 H2). destruct (explicit_fit new_explicit td None) as [r0 e0]. cbn [snd] in C29. subst e0. reflexivity.
  Qed.

  Lemma of_user_liked : forall dm (rows : list (frow G)) x j, of_user (map (liked dm) rows) x j = of_user rows x j.
  Proof. intros dm rows x j. unfold of_user. rewrite nth_error_map. destruct (nth_error rows j); reflexivity. Qed.
  Lemma divided_liked : forall dm (rows : list (frow G)) tr te, divided shuffle fmul (map (liked dm) rows) tr te -> divided shuffle fmul rows tr te.
  Proof.
    intros dm rows tr te [A [B [[s C] D]]]. rewrite map_length in *. split; auto. split; auto. split; [exists s; rewrite map_map in C; exact C|].
    intros j x Hj Hu. specialize (D j x Hj). rewrite of_user_liked in D. specialize (D Hu). unfold lines_of in *. rewrite map_length in D.
    rewrite !(filter_ext (of_user (map (liked dm) rows) x) (of_user rows x)) in D by (intros; apply of_user_liked). exact D.
  Qed.
  Lemma aligned_if : forall (rows : list (frow G)) cond ts (d : sdata F G) dm, Forall (fun r => length (r_ids r) = 2) rows ->
    load_data_if rows cond ts = Ok (d, dm) -> features_aligned (s_data d) /\ event_features_aligned (s_data d).
  Proof.
    intros rows cond ts d dm Hw Hl. destruct (load_view_if _ _ _ _ _ _ _ Hw Hl) as [_ [_ [_ [_ [_ [_ [d0 [H0 Hb]]]]]]]].
    assert (Es : s_data d = s_data d0).
    { unfold binarize_score in Hb. destruct (score d0), (score_domain d0); cbn [bind] in Hb; try discriminate; inversion Hb; reflexivity. }
    rewrite Es. eapply load_aligned; eauto.
  Qed.

  (** nothing but a training part all of whose lines are on one side stops the
      cross validation *)
  Theorem C102_cases : forall (rows : list (frow G)) cond ts (d : sdata F G) dm C k junk n_folds target w j0 k0,
    shuffles shuffle -> product_ok fmul -> fifth_of fmul -> Forall (fun r => length (r_ids r) = 2) rows -> load_data_if rows cond ts = Ok (d, dm) ->
    two_lines rows j0 k0 -> (forall w, draws_ok k (ldraw1 w)) -> (forall w, draws_ok k (ldraw2 w)) -> (forall w, length_preserving (minimize w)) ->
    (exists x, cv_test now shuffle fmul (run C k junk) (run_predict lpmf_raw_predict) d n_folds target w = Ok x) \/
    (cv_test now shuffle fmul (run C k junk) (run_predict lpmf_raw_predict) d n_folds target w = Raise ValueError /\
     exists tr te l, divided shuffle fmul rows tr te /\ picks rows tr l /\ ~ two_sided dm l).
  Proof.
    intros rows cond ts d dm C k junk n_folds target w j0 k0 Hs Hf H5 Hw Hl Htwo D1 D2 Hm.
    destruct (load_view_if _ _ _ _ _ _ _ Hw Hl) as [V1 [V2 [V3 [V4 _]]]]. destruct (aligned_if _ _ _ _ _ Hw Hl) as [L1 L2].
    assert (Hw' : Forall (fun r => length (r_ids r) = 2) (map (liked dm) rows)) by (apply Forall_map; exact Hw).
    assert (Htwo' : two_lines (map (liked dm) rows) j0 k0).
    { destruct Htwo as [a [b [x [T1 [T2 [T3 T4]]]]]]. exists (liked dm a), (liked dm b), x. rewrite !nth_error_map, T2, T3. auto. }
    destruct (cv_cases now shuffle fmul (run C k junk) (run_predict lpmf_raw_predict) d n_folds target w _ j0 k0 Hs Hf H5 V1 V3 V2 V4 L1 L2 Hw' Htwo') as [[x Hx]|[e [He [w0 [td [tr [te [Hd [Hfl Hst]]]]]]]]].
    - left. eauto.
    - right. apply divided_liked in Hd. pose proof Hd as [_ [Htr _]].
      destruct (logistic_part rows cond ts d dm C k junk w0 td tr Hw Hl D1 D2 Hm Htr Hfl) as [l [Pl [P1 P2]]].
      assert (N : ~ two_sided dm l).
      { intros H2. destruct (P1 H2) as [r [fr [w1 [E1 E2]]]]. destruct Hst as [Hst|[r' [fr' [w1' [q [E3 [E4 [E5 E6]]]]]]]]; [congruence|].
        assert (r' = r) by congruence. subst r'. destruct (E2 q E4 E5) as [p Ep]. congruence. }
      assert (e = ValueError).
      { specialize (P2 N). destruct Hst as [Hst|[r' [fr' [w1' [q [E3 _]]]]]]; congruence. }
      subst e. split; [exact He|]. exists tr, te, l. auto.
  Qed.

  (** it runs through, whatever the shuffling, if some user has more lines of
      low score than are tested, and some user more lines of high score *)
  Theorem C102_runs : forall (rows : list (frow G)) cond ts (d : sdata F G) dm C k junk n_folds target w j0 k0,
    shuffles shuffle -> product_ok fmul -> fifth_of fmul -> Forall (fun r => length (r_ids r) = 2) rows -> load_data_if rows cond ts = Ok (d, dm) ->
    two_lines rows j0 k0 -> (forall w, draws_ok k (ldraw1 w)) -> (forall w, draws_ok k (ldraw2 w)) -> (forall w, length_preserving (minimize w)) ->
    many_on fmul rows (low_side dm) -> many_on fmul rows (fun r => negb (low_side dm r)) ->
    exists i w', cv_test now shuffle fmul (run C k junk) (run_predict lpmf_raw_predict) d n_folds target w = Ok (i, w').
  Proof.
    intros rows cond ts d dm C k junk n_folds target w j0 k0 Hs Hf H5 Hw Hl Htwo D1 D2 Hm M1 M2.
    destruct (C102_cases rows cond ts d dm C k junk n_folds target w j0 k0 Hs Hf H5 Hw Hl Htwo D1 D2 Hm) as [[[i w'] H]|[_ [tr [te [l [Hd [Hp N]]]]]]]; [eauto|].
    exfalso. apply N. destruct (many_left _ _ _ _ _ _ _ _ _ Hf Hd Hp M1) as [a [Ia Ea]]. destruct (many_left _ _ _ _ _ _ _ _ _ Hf Hd Hp M2) as [b [Ib Eb]].
    unfold low_side in *. split; [exists a|exists b]; split; auto.
    - apply Qle_bool_iff. auto.
    - apply Qnot_le_lt. intros Hle. apply Qle_bool_iff in Hle. rewrite Hle in Eb. discriminate.
  Qed.

  (** it never does on a file with lines on one side only *)
  Theorem C102_one_sided : forall (rows : list (frow G)) cond ts (d : sdata F G) dm C k junk n_folds target w j0 k0,
    shuffles shuffle -> product_ok fmul -> fifth_of fmul -> Forall (fun r => length (r_ids r) = 2) rows -> load_data_if rows cond ts = Ok (d, dm) ->
    two_lines rows j0 k0 -> (forall w, draws_ok k (ldraw1 w)) -> (forall w, draws_ok k (ldraw2 w)) -> (forall w, length_preserving (minimize w)) ->
    run_folds n_folds target <> [] -> ~ two_sided dm rows ->
    cv_test now shuffle fmul (run C k junk) (run_predict lpmf_raw_predict) d n_folds target w = Raise ValueError.
  Proof.
    intros rows cond ts d dm C k junk n_folds target w j0 k0 Hs Hf H5 Hw Hl Htwo D1 D2 Hm Hn N.
    destruct (C102_cases rows cond ts d dm C k junk n_folds target w j0 k0 Hs Hf H5 Hw Hl Htwo D1 D2 Hm) as [[[i w'] H]|[H _]]; [exfalso|exact H].
    destruct (load_view_if _ _ _ _ _ _ _ Hw Hl) as [V1 [V2 [V3 [V4 [V5 [V6 _]]]]]].
    assert (Hw' : Forall (fun r => length (r_ids r) = 2) (map (liked dm) rows)) by (apply Forall_map; exact Hw).
    destruct (fold_of now shuffle fmul results after _ _ (fun w => lpmf_fit C k (ldraw1 w) (ldraw2 w) (minimize w) junk) lpmf_raw_predict _ _ _ _ _ _ _ V1 V2 V3 V4 Hw' H) as [_ [_ [_ K]]].
    destruct (run_folds n_folds target) as [|f fs]; [congruence|].
    destruct (K f (or_introl eq_refl)) as [tr [te [trl [tel [td [r [w0 [p [_ [_ [Z3 [_ [Z5 [_ [Z7 [Z8 [Z9 [Z10 _]]]]]]]]]]]]]]]]]].
    assert (exists l, picks rows tr l) as [l Pl].
    { apply picks_total. intros j Hj. unfold picks in Z3. clear - Z3 Hj. induction Z3 as [|a b ks ls Ha T1 IH]; [destruct Hj|].
      destruct Hj as [->|Hj]; auto. rewrite nth_error_map in Ha. apply nth_error_Some. destruct (nth_error rows j); [discriminate|discriminate Ha]. }
    assert (trl = map (liked dm) l) by (eapply picks_fun; [exact Z3|apply picks_map; auto]). subst trl.
    rewrite V5 in Z8. rewrite V6 in Z9. pose proof (two_sided_iff _ _ _ _ _ Z7 Z8 Z9) as Hb.
    assert (Nb : ~ binary_scored td).
    { intros B. apply N. apply Hb in B. destruct B as [[a [A1' A2']] [b [B1 B2]]].
      assert (I : forall y, In y l -> In y rows).
      { intros y Hy. unfold picks in Pl. clear - Pl Hy. induction Pl as [|k z ks ls Hk Pl IH]; [destruct Hy|]. destruct Hy as [->|Hy]; auto. eapply nth_error_In; eauto. }
      split; [exists a|exists b]; auto. }
    destruct Z5 as [U1 [U2 [U3 U4]]].
    destruct (C29_accepts_binary _ _ _ (new_explicit (G := G) (Par := par)) td None [0; 1] U1 U2) as [_ C29].
    { unfold asked. rewrite U3. reflexivity. }
    specialize (C29 Nb). unfold lpmf_fit, model_fit in Z10. destruct (explicit_fit new_explicit td None) as [r0 e0]. cbn [snd] in C29. subst e0. discriminate.
  Qed.
End Logistic.

(** ** A file with lines on both sides may or may not run through: one of its
    three lines is tested, and whether that is the only line of low score is
    up to the shuffling *)
Definition luck_rows : list (frow nat) := [mkRow [1; 10]%Z 1%Q 0; mkRow [1; 11]%Z 5%Q 0; mkRow [1; 12]%Z 5%Q 0].
Definition luck_dom : dom := mkDom 1 5 1.
Definition straight (w : unit) (l : list nat) : list nat * unit := (l, w).
Definition backwards (w : unit) (l : list nat) : list nat * unit := (rev l, w).
Definition nowu (w : unit) : Z * unit := (0%Z, w).


Theorem C103_luck_refuted : exists (rows : list (frow nat)) (d : sdata nat nat) dm j0 k0,
  Forall (fun r => length (r_ids r) = 2) rows /\ load_data_if rows dm false = Ok (d, dm) /\ two_lines rows j0 k0 /\ two_sided dm rows /\
  shuffles straight /\ shuffles backwards /\
  forall C k ldraw1 ldraw2 minimize junk, (forall w, draws_ok k (ldraw1 w)) -> (forall w, draws_ok k (ldraw2 w)) -> (forall w, length_preserving (minimize w)) ->
  (exists i w', cv_test nowu backwards exact_mul (lpmf_run (fun _ _ => tt) (fun w _ => w) C k ldraw1 ldraw2 minimize junk) (run_predict lpmf_raw_predict) d 5 None tt = Ok (i, w')) /\
  cv_test nowu straight exact_mul (lpmf_run (fun _ _ => tt) (fun w _ => w) C k ldraw1 ldraw2 minimize junk) (run_predict lpmf_raw_predict) d 5 None tt = Raise ValueError.
Proof.
  assert (Hl : exists d : sdata nat nat, load_data_if luck_rows luck_dom false = Ok (d, luck_dom)) by (eexists; vm_compute; reflexivity).
  destruct Hl as [d Hl]. exists luck_rows, d, luck_dom, 0, 1.
  assert (Hw : Forall (fun r : frow nat => length (r_ids r) = 2) luck_rows) by (repeat constructor).
  assert (Ht : two_lines luck_rows 0 1) by (do 2 eexists; exists 1%Z; repeat split; lia).
  assert (S1 : shuffles straight) by (intros w l; apply Permutation_refl).
  assert (S2 : shuffles backwards) by (intros w l; apply Permutation_rev).
  split; [exact Hw|]. split; [exact Hl|]. split; [exact Ht|]. split.
  { split; [exists (mkRow [1; 10]%Z 1%Q 0)|exists (mkRow [1; 11]%Z 5%Q 0)]; (split; [cbn; auto|vm_compute]); [discriminate|reflexivity]. }
  split; [exact S1|]. split; [exact S2|]. intros C k ldraw1 ldraw2 minimize junk D1 D2 Hm. split.
  - destruct (C102_cases nowu backwards exact_mul (fun _ _ => tt) (fun w _ => w) ldraw1 ldraw2 minimize luck_rows luck_dom false d luck_dom C k junk 5%Z None tt 0 1
      S2 exact_ok exact_fifth Hw Hl Ht D1 D2 Hm) as [[[i w'] H]|[_ [tr [te [l [[_ [_ [[s Hs] _]]] [Hp N]]]]]]]; [eauto|].
    exfalso. apply N. clear N. destruct s. vm_compute in Hs. inversion Hs; subst tr te. clear Hs.
    inversion Hp as [|? a ? l' E1 Hp1]; subst. inversion Hp1 as [|? b ? l'' E2 Hp2]; subst. cbn in E1, E2. injection E1 as <-. injection E2 as <-.
    split; [exists (mkRow [1; 10]%Z 1%Q 0)|exists (mkRow [1; 11]%Z 5%Q 0)]; (split; [cbn; auto|vm_compute]); [discriminate|reflexivity].
  - vm_compute in Hl. injection Hl as <-. vm_compute. reflexivity.
Qed.

Definition safe_rows : list (frow nat) := [mkRow [1; 10]%Z 1%Q 0; mkRow [1; 11]%Z 5%Q 0; mkRow [1; 12]%Z 5%Q 0; mkRow [1; 13]%Z 2%Q 0].
Example C102_nonvacuous : exists (d : sdata nat nat) (e : sdata nat nat),
  Forall (fun r => length (r_ids r) = 2) safe_rows /\ load_data_if safe_rows luck_dom false = Ok (d, luck_dom) /\ two_lines safe_rows 0 1 /\
  many_on exact_mul safe_rows (low_side luck_dom) /\ many_on exact_mul safe_rows (fun r => negb (low_side luck_dom r)) /\
  load_data_if (tl luck_rows) luck_dom false = Ok (e, luck_dom) /\ two_lines (tl luck_rows) 0 1 /\ ~ two_sided luck_dom (tl luck_rows) /\ run_folds 5 None <> [].
Proof.
  assert (Hl : exists d : sdata nat nat, load_data_if safe_rows luck_dom false = Ok (d, luck_dom)) by (eexists; vm_compute; reflexivity).
  assert (He : exists e : sdata nat nat, load_data_if (tl luck_rows) luck_dom false = Ok (e, luck_dom)) by (eexists; vm_compute; reflexivity).
  destruct Hl as [d Hl], He as [e He]. exists d, e. split; [repeat constructor|]. split; [exact Hl|].
  split; [do 2 eexists; exists 1%Z; repeat split; lia|]. split; [exists 1%Z; vm_compute; reflexivity|]. split; [exists 1%Z; vm_compute; reflexivity|].
  split; [exact He|]. split; [do 2 eexists; exists 1%Z; repeat split; lia|]. split; [|discriminate].
  intros [[a [Ia Ha]] _]. destruct Ia as [<-|[<-|[]]]; vm_compute in Ha; apply Ha; reflexivity.
Qed.

Print Assumptions C102_cases.
Print Assumptions C102_runs.
Print Assumptions C102_one_sided.
Print Assumptions C103_luck_refuted.
