(** * The same for item finders

    C157: from the options of exp_recsys_if.py to the statistics. *)
From Coq Require Import String List ZArith QArith Qround Qreals Reals NArith Bool Lia.
From Verif Require Import M_Py P_Py M_Json M_Convert P_Convert M_JsonText M_Tree M_Rec M_Data M_Score M_Load M_Split M_Opt M_Args M_Main M_Scripts M_Task P_Scripts P_Scripts2 M_CvTree M_HoTree M_InfoTree M_Metrics M_StatTree T_Json T_JsonText T_Tree T_Scripts T_CvTree T_StatTree T_Eval T_HoTree T_InfoTree T_InfoTree2 T_InfoTree3 T_Task Spec P_Data P_Filter P_Reach P_DataThms P_Split T_Data T_Filter T_Split T_Score P_Score.
Import ListNotations.
Local Open Scope list_scope.

Section Finder.
  Context {X Fl Cx Ob W S F FR G P Rc : Type}.
  Notation V := (value Fl Cx Ob text).
  Variables (of_x : X -> V) (none : Ob) (class : recommender -> Ob) (file : val X -> Ob).
  Variables (script_name script_version kamrecsys_version : text) (mc : machine) (ve : versions).
  Variables (num : Q -> Fl) (predicted : P -> Fl) (training_tree : run FR -> V) (test_tree : run nat -> V).
  Variables (names : list text) (column : text -> G -> V) (str : Ob -> text).
  Variables (v_false v_true : X).
  Variables (value_of : Fl -> option Q) (of_real : option R -> Fl) (auc : list Q -> list R -> R).
  Notation experiment_tree := (@M_InfoTree.experiment_tree X Fl Cx Ob F FR G P of_x none class file script_name script_version kamrecsys_version mc ve num predicted training_tree test_tree names column str).
  Notation child := (@M_Json.child Fl Cx Ob text str).
  Notation score_statistics := (@M_StatTree.score_statistics Fl Cx Ob value_of of_real str).
  Notation finder_statistics := (@M_StatTree.finder_statistics Fl Cx Ob value_of of_real str auc).
  Notation stats_tree := (@M_Tree.stats_tree Fl Cx Ob score_statistics finder_statistics).
  Context (xz : X -> Z) (xq : X -> Q) (rng : W -> S).
  Context (now : W -> Z * W) (shuffle : W -> list nat -> list nat * W) (fmul : Q -> nat -> Q) (seed : option Z -> W -> W).
  Context (fit : recommender * dict string (kval X) -> W -> sdata F G -> res (Rc * FR * W)) (predict : Rc -> list (list Z) -> res (pred P)).
  Context (content : val X -> list (frow G)).
  Hypotheses (Hnow : clock_apart rng now) (Hsh : random_from rng shuffle) (Hfit : forall md, deterministic rng (fit md)).
  Hypothesis Hseed : forall z w1 w2, rng (seed (Some z) w1) = rng (seed (Some z) w2).
  Notation user_item_rows := (Forall (fun r : frow G => length (r_ids r) = 2%nat)).
  Notation run_task := (run_task xz xq now shuffle fmul seed fit predict (fun ts f dm => load_data_if (content f) dm ts)).

  (** 1 for scores above the middle of the domain *)
  Notation wanted d := (fun l : frow G => if Qle_bool (r_score l) ((lo d + hi d) / 2) then 0 else 1)%Q.
  Notation prepared := (@T_CvTree.prepared Fl Cx Ob).
  Notation cv_file := (@M_CvTree.cv_file Fl Cx Ob FR G P num predicted training_tree test_tree names column str).

  Lemma cross_finder : forall md d n_folds z w i w' ws out outs cout infos info dmt c (pq : P -> Q), (0 < n_folds)%Z -> row_by_row predict ->
    prepared info (VStr (t "item_finder")) dmt -> (forall f, prepared (infos f) (VStr (t "item_finder")) dmt) ->
    cv_task now shuffle fmul (fit md) predict seed (Some z) d n_folds None w = Ok (i, w') -> cv_file cout info i = Ok c ->
    (forall f mask, fget (p_mask (c_pred i)) f = Some mask -> length mask <> 1%nat) -> (exists f mask, fget (p_mask (c_pred i)) f = Some mask /\ mask <> []) ->
    value_of (num 0) = Some 0%Q -> value_of (num 1) = Some 1%Q -> (forall f ts q, fget (p_true (c_pred i)) f = Some ts -> In q ts -> (q = 0 \/ q = 1)%Q) ->
    (forall f ps x, fget (p_predicted (c_pred i)) f = Some (Vector ps) -> In x ps -> value_of (predicted x) = Some (pq x)) ->
    exists trees m l, Forall2 (fun f tree => T_CvTree.script num predicted training_tree test_tree names column str now shuffle fmul (fit md) predict seed d n_folds z (Some (Z.of_nat f)) (outs f) (infos f) (ws f) = Ok tree) (seq 0 (Z.to_nat n_folds)) trees /\ merge_trees out trees = Ok m /\
      tests i l /\ l <> [] /\
      forall keepdata x, x = c \/ x = m -> exists r s, stats_tree keepdata x = Ok r /\ path r [t "statistics"] = Some s /\ found of_real auc s (map (fun x => snd (fst x)) l) (map (fun x => pq (snd x)) l).
  Proof.
    intros md d n z w i w' ws out outs cout infos info dmt c pq HN RR PI PIS ET EC ONE (f0 & mask0 & F0 & N0) V0 V1 HT HP.
    assert (ES : T_CvTree.script num predicted training_tree test_tree names column str now shuffle fmul (fit md) predict seed d n z None cout info w = Ok c). { unfold T_CvTree.script. rewrite ET. cbn [bind fst]. exact EC. }
    destruct (C149_merged num predicted training_tree test_tree names column str rng now shuffle fmul (fit md) predict seed Hnow Hsh (Hfit md) Hseed score_statistics finder_statistics d n z w ws out outs cout infos info _ _ c HN PI PIS ES) as (trees & m & FT & EM & _ & _ & SAME).
    assert (CV : exists v, cv_test now shuffle fmul (fit md) predict d n None v = Ok (i, w')) by (unfold cv_task in ET; cbn in ET; eauto). destruct CV as (v & CV).
    pose proof (C60_cv_runs now shuffle fmul (fit md) predict d n None v i w' RR CV) as CON. pose proof (C60_total_partial i CON) as TOT.
    assert (IN0 : In (f0, mask0) (p_mask (c_pred i))) by (apply fget_in; exact F0).
    assert (OK : exists r, stats_input i = Ok r).
    { destruct (p_mask (c_pred i)) as [|km rm] eqn:EM0; [destruct IN0|]. rewrite <- EM0 in *. cbn [orb] in TOT. destruct (existsb _ _) eqn:EX; [|exact TOT]. exfalso. apply existsb_exists in EX as ((f & mask) & I & B). cbn [snd] in B. apply Nat.eqb_eq in B. apply (ONE f mask); [|exact B].
      apply fget_some; [destruct CON as (_ & _ & ND & _); exact ND|exact I]. }
    destruct OK as ((y & p) & OK). destruct (C60_aligned _ _ _ _ _ _ CON OK) as (l & EY & EP & ND & ALL).
    exists trees, m, l. split; [exact FT|]. split; [exact EM|]. split; [split; assumption|].
    assert (NE : l <> []).
    { destruct CON as (K1 & K2 & NDM & LEN). destruct mask0 as [|j mask0]; [contradiction|].
      assert (KEY : In f0 (map fst (p_mask (c_pred i)))) by (change f0 with (fst (f0, j :: mask0)); apply in_map; exact IN0).
      destruct (fget_key _ (p_true (c_pred i)) f0) as (ts & GT); [rewrite K1; exact KEY|]. destruct (fget_key _ (p_predicted (c_pred i)) f0) as (pr & GP); [rewrite K2; exact KEY|].
      destruct (LEN _ _ _ _ F0 GT GP) as (_ & L1 & ps & -> & L2). specialize (ONE _ _ F0). assert (SQ : squeeze ps = Vector ps) by (apply squeeze_vector; split; [reflexivity|congruence]). rewrite SQ in GP.
      destruct ts as [|q ts]; [discriminate|]. destruct ps as [|x ps]; [discriminate|]. assert (I : In (f0, j, q, x) l) by (apply ALL; exists (j :: mask0), (q :: ts), (x :: ps), 0%nat; auto 7). intros ->. destruct I. }
    split; [exact NE|].
    assert (WC : written num predicted training_tree test_tree names column str c i (VStr (t "item_finder")) dmt). { destruct (cv_file_spec num predicted training_tree test_tree names column str cout info _ _ i PI) as (c' & EC' & WR). rewrite EC in EC'. injection EC' as <-. exact WR. }
    pose proof (cv_inputs str num predicted training_tree test_tree names column _ _ _ _ _ _ WC OK) as IN.
    assert (FY : figures value_of (VList (map (fun q => VFloat (num q)) y) : V) y).
    { eexists. split; [reflexivity|]. assert (XA : Forall (fun q => value_of (num q) = Some q) y). { apply Forall_forall. intros q I. rewrite EY in I. apply in_map_iff in I as ([[[f j] q'] x] & E & I). cbn [fst snd] in E. subst q'. apply ALL in I as (mk & ts & ps & k & _ & G1 & _ & _ & G2 & _). destruct (HT _ _ q G1 (nth_error_In _ _ G2)) as [->| ->]; assumption. }
      clear - XA. induction XA as [|q y E XA IH]; cbn [map]; constructor; [left; eauto|exact IH]. }
    assert (FP : figures value_of (VList (map (fun x => VFloat (predicted x)) p) : V) (map pq p)).
    { eexists. split; [reflexivity|]. assert (XA : Forall (fun x => value_of (predicted x) = Some (pq x)) p). { apply Forall_forall. intros x I. rewrite EP in I. apply in_map_iff in I as ([[[f j] q'] x'] & E & I). cbn [fst snd] in E. subst x'. apply ALL in I as (mk & ts & ps & k & _ & _ & G1 & _ & _ & G2). eapply HP; [exact G1|]. eapply nth_error_In; exact G2. }
      clear - XA. induction XA as [|q y E XA IH]; cbn [map]; constructor; [left; eauto|exact IH]. }
    assert (EL : length y = length (map pq p)) by (rewrite map_length, EY, EP, !map_length; reflexivity).
    assert (NY : y <> []) by (rewrite EY; destruct l; [contradiction|discriminate]).
    assert (BIN : forall x, In x y -> (x == 0 \/ x == 1)%Q). { intros x I. rewrite EY in I. apply in_map_iff in I as ([[[f j] q'] x'] & E & I). cbn [fst snd] in E. subst q'. apply ALL in I as (mk & ts & ps & k & _ & G1 & _ & _ & G2 & _). destruct (HT _ _ x G1 (nth_error_In _ _ G2)) as [->| ->]; [left|right]; reflexivity. }
    intros keepdata x HX. pose proof WC as (_ & _ & _ & _ & _ & PTY & PDM).
    destruct (C151_finder_file value_of of_real str auc keepdata c _ _ _ _ IN FY FP EL NY PTY BIN) as (r & s & ER & PS & EV). rewrite EP, map_map in EV. rewrite EY in EV.
    destruct HX as [->| ->]; [eauto|]. specialize (SAME keepdata). rewrite ER in SAME. destruct (stats_tree keepdata m) as [r'|]; [|destruct SAME]. cbn [same_statistics] in SAME. exists r', s. split; [reflexivity|]. split; [|exact EV].
    destruct SAME as (st0 & P1 & P2). congruence.
  Qed.
  Theorem C157_cross : forall m c k al tol mi rs tr fo te a b g ts f i (fos : nat -> val X) (xs : nat -> X) s0 out outs merged_out w ws o w' s (pq : P -> Q) train test,
    i = (fun fo fn => mkInfo tr fo te (init_model v_false v_true (mkOpts m c k al tol mi rs)) [a; b; g] ts "cv"%string f fn) -> m = Mlpmf -> get_system_info mc false = Ok (s : V) ->
    shuffles shuffle -> product_ok fmul -> fifth_of fmul -> row_by_row predict -> user_item_rows (content tr) -> two_users (content tr) -> (0 < xz f)%Z -> (forall k, (k < Z.to_nat (xz f))%nat -> xz (xs k) = Z.of_nat k) ->
    run_task (i fo None) (Some s0) w = Ok (o, w') ->
    value_of (num 0) = Some 0%Q -> value_of (num 1) = Some 1%Q -> (forall x, value_of (predicted x) = Some (pq x)) ->
    exists trd dm ci file trees merged l,
      load_data_if (content tr) (mkDom (xq a) (xq b) (xq g)) ts = Ok (trd, dm) /\ o = Crossed (xz f) dm ci /\ experiment_tree m (i fo None) out train test o = Ok file /\
      (forall k, (k < Z.to_nat (xz f))%nat -> exists tra tes r, fold_ok (fit (n_model (i fo None))) predict trd (map r_ids (content tr)) ci k tra tes r /\ (2 <= length tes)%nat) /\
      Forall2 (fun k tree => exists ok wk, run_task (i (fos k) (Some (xs k))) (Some s0) (ws k) = Ok (ok, wk) /\ experiment_tree m (i (fos k) (Some (xs k))) (outs k) train test ok = Ok tree) (seq 0 (Z.to_nat (xz f))) trees /\
      merge_trees merged_out trees = Ok merged /\ tests ci l /\ l <> [] /\ (forall k j q v, In (k, j, q, v) l -> nth_error (map (wanted dm) (content tr)) j = Some q) /\
      forall keepdata x, x = file \/ x = merged -> exists z stats, stats_tree keepdata x = Ok z /\ path z [t "statistics"] = Some stats /\ found of_real auc stats (map (fun x => snd (fst x)) l) (map (fun x => pq (snd x)) l).
  Proof.
    intros m c k al tol mi rs tr fo te a b g ts f i fos xs s0 out outs merged_out w ws o w' s pq train test EI NL SY HS HP H5 RR UT TU HN XS RT V0 V1 NP.
    assert (MD : forall fo fn, n_model (i fo fn) = init_model v_false v_true (mkOpts m c k al tol mi rs)) by (intros ? ?; rewrite EI; reflexivity).
    assert (RD : forall fo' fn w, run_task (i fo' fn) (Some s0) w = do_task now shuffle fmul seed (fit (n_model (i fo None))) predict (fun f dm => load_data_if (content f) dm ts) (Some (xz s0)) "cv" (xz f) (option_map xz fn) tr (M_Main.file_of te) (mkDom (xq a) (xq b) (xq g)) w).
    { intros fo' fn v. unfold M_Main.run_task. rewrite EI. reflexivity. }
    assert (TY : forall fo' fn, kind (fst (n_model (i fo' fn))) = t "item_finder"). { intros fo' fn. rewrite MD. rewrite NL. reflexivity. }
    rewrite RD in RT. unfold do_task in RT. cbn [option_map] in RT. change (String.eqb "cv" "holdout") with false in RT. change (String.eqb "cv" "cv") with true in RT. cbn iota in RT.
    destruct (load_data_if (content tr) (mkDom (xq a) (xq b) (xq g)) ts) as [[trd dm]|] eqn:LD; [|discriminate]. cbn [bind fst snd] in RT.
    destruct (cv_test now shuffle fmul (fit (n_model (i fo None))) predict trd (xz f) None (seed (Some (xz s0)) w)) as [[ci wc]|] eqn:CV; [|discriminate]. cbn [bind fst snd] in RT. injection RT as <- <-. cbn [task_domain] in *.
    destruct (load_view_if _ _ _ _ _ _ _ UT LD) as (SHI & EX & _ & SC & _). rewrite map_map in EX, SC. change (map (fun x : frow G => r_ids (liked dm x)) (content tr)) with (map (@r_ids G) (content tr)) in EX. change (map (fun x : frow G => r_score (liked dm x)) (content tr)) with (map (wanted dm) (content tr)) in SC.
    destruct (C58_cv_test now shuffle fmul (fit (n_model (i fo None))) predict trd (xz f) None _ ci wc SHI CV) as (ev & DE & _ & _ & _ & _ & KT & _ & KM & FO).
    assert (EV : ev = map r_ids (content tr)). { apply external_events_ok in EX. pose proof (decoded_fun _ _ _ _ _ DE EX) as E. revert E. generalize (map r_ids (content tr)). clear. induction ev as [|x ev IH]; intros [|y l] E; try discriminate; auto. inversion E. f_equal; auto.
      clear - H0. revert y H0. induction x as [|a x IH]; intros [|b y] E; try discriminate; auto. inversion E. f_equal; auto. }
    subst ev. pose proof (two_tested now shuffle fmul fit predict _ _ _ _ _ _ _ HS HP H5 UT TU CV EX) as TWO.
    assert (RF : run_folds (xz f) None = seq 0 (Z.to_nat (xz f))). { unfold run_folds. generalize (seq 0 (Z.to_nat (xz f))). induction l as [|x l IH]; [reflexivity|]. cbn. rewrite IH. reflexivity. }
    assert (PR : forall fo' fn, exists v, (do v <- init_tree of_x none class file m (i fo' fn); do v <- task_tree script_name script_version kamrecsys_version mc ve (fst (n_model (i fo' fn))) v; load_tree num dm v) = Ok v /\ prepared v (VStr (t "item_finder")) (M_InfoTree.domain_tree num dm : V)).
    { intros fo' fn. destruct (C154_prepared of_x none class file script_name script_version kamrecsys_version mc ve num m (i fo' fn) dm s SY) as (v & E & PV & _). rewrite TY in PV. exists v. split; [exact E|exact PV]. }
    assert (EXP : forall fo' fn out n ci v, (do v <- init_tree of_x none class file m (i fo' fn); do v <- task_tree script_name script_version kamrecsys_version mc ve (fst (n_model (i fo' fn))) v; load_tree num dm v) = Ok v ->
      experiment_tree m (i fo' fn) out train test (Crossed n dm ci) = M_CvTree.cv_file num predicted training_tree test_tree names column str out v ci).
    { intros fo' fn out' n ci' v E. unfold M_InfoTree.experiment_tree. cbn [task_domain]. destruct (init_tree of_x none class file m (i fo' fn)) as [v1|]; [|discriminate]. cbn [bind] in E |- *. match type of E with bind ?x _ = _ => destruct x as [v2|]; [|discriminate] end. cbn [bind] in E |- *. rewrite E. reflexivity. }
    destruct (PR fo None) as (v0 & E0 & P0).
    assert (PI : exists infos : nat -> V, forall j, (do v <- init_tree of_x none class file m (i (fos j) (Some (xs j))); do v <- task_tree script_name script_version kamrecsys_version mc ve (fst (n_model (i (fos j) (Some (xs j))))) v; load_tree num dm v) = Ok (infos j) /\ prepared (infos j) (VStr (t "item_finder")) (M_InfoTree.domain_tree num dm : V)).
    { exists (fun j => match (do v <- init_tree of_x none class file m (i (fos j) (Some (xs j))); do v <- task_tree script_name script_version kamrecsys_version mc ve (fst (n_model (i (fos j) (Some (xs j))))) v; load_tree num dm v) with Ok v => v | Raise _ => v0 end).
      intros j. destruct (PR (fos j) (Some (xs j))) as (v & E & PV). rewrite E. split; [reflexivity|exact PV]. }
    destruct PI as (infos & PI).
    destruct (cv_file_spec num predicted training_tree test_tree names column str out v0 _ _ ci P0) as (cf & EC & _).
    assert (TK : cv_task now shuffle fmul (fit (n_model (i fo None))) predict seed (Some (xz s0)) trd (xz f) None w = Ok (ci, wc)) by (unfold cv_task; exact CV).
    destruct (cross_finder (n_model (i fo None)) trd (xz f) (xz s0) w ci wc ws merged_out outs out infos v0 _ cf pq HN RR P0 (fun j => proj2 (PI j)) TK EC) as (trees & merged & l & FT & EM & TE & NE & STA).
    - intros j mask FM. specialize (TWO j mask FM). lia.
    - destruct (FO 0%nat) as (tra & tes & r & FK); [rewrite RF; apply in_seq; lia|]. destruct FK as (_ & _ & evt & run & sc & sct & p & _ & _ & _ & _ & _ & _ & _ & _ & _ & FM & _). exists 0%nat, tes. split; [exact FM|]. specialize (TWO _ _ FM). destruct tes; [cbn in TWO; lia|discriminate].
    - exact V0.
    - exact V1.
    - intros j ts' q FT I. destruct (FO j) as (tra & tes & r & FK). { rewrite <- KT. apply fget_in in FT. change j with (fst (j, ts')). apply in_map. exact FT. }
      destruct FK as (_ & _ & evt & run & sc & sct & p & _ & _ & _ & _ & S1 & S2 & S3 & _). rewrite FT in S2. injection S2 as <-. rewrite SC in S1. injection S1 as <-.
      assert (IQ : In q (map (wanted dm) (content tr))). { clear - S3 I. unfold picks in S3. induction S3 as [|n y l l' E S IH]; [destruct I|]. destruct I as [<-|I]; [eapply nth_error_In; exact E|exact (IH I)]. }
      apply in_map_iff in IQ. destruct IQ as (r0 & <- & IR). destruct (Qle_bool _ _); auto.
    - intros. apply NP.
    - exists trd, dm, ci, cf, trees, merged, l. split; [reflexivity|]. split; [reflexivity|]. split; [rewrite (EXP _ _ _ _ _ _ E0); exact EC|]. split.
      { intros j LJ. destruct (FO j) as (tra & tes & r & FK); [rewrite RF; apply in_seq; lia|]. exists tra, tes, r. split; [exact FK|]. destruct FK as (_ & _ & evt & run & sc & sct & p & _ & _ & _ & _ & _ & _ & _ & _ & _ & FM & _). exact (TWO _ _ FM). }
      split; [|split; [exact EM|split; [exact TE|split; [exact NE|split; [exact (tests_lines fit predict _ _ _ _ _ _ _ FO KM SC TE)|exact STA]]]]].
      assert (FT' : Forall2 (fun j tree => (j < Z.to_nat (xz f))%nat /\ script num predicted training_tree test_tree names column str now shuffle fmul (fit (n_model (i fo None))) predict seed trd (xz f) (xz s0) (Some (Z.of_nat j)) (outs j) (infos j) (ws j) = Ok tree) (seq 0 (Z.to_nat (xz f))) trees).
      { assert (IN : forall j, In j (seq 0 (Z.to_nat (xz f))) -> (j < Z.to_nat (xz f))%nat) by (intros j I; apply in_seq in I; lia). clear - FT IN. induction FT as [|j tree l0 l' E FT0 IH]; constructor; [split; [apply IN; left; reflexivity|exact E]|apply IH; intros x I; apply IN; right; exact I]. }
      eapply P_Rec.F2_impl; [|exact FT']. intros j tree (LJ & E). cbv beta in E. unfold script in E.
      match type of E with bind ?x _ = _ => destruct x as [[cj wj]|] eqn:TJ; [|discriminate] end. cbn [bind fst] in E.
      exists (Crossed (xz f) dm cj), wj. split.
      + rewrite RD. unfold do_task. cbn [option_map]. rewrite (XS _ LJ). unfold cv_task in TJ. match type of TJ with (if ?x then _ else _) = _ => destruct x; [discriminate|] end. change (String.eqb "cv" "holdout") with false. change (String.eqb "cv" "cv") with true. cbn iota. rewrite LD. cbn [bind fst snd]. rewrite TJ. reflexivity.
      + rewrite (EXP _ _ _ _ _ _ (proj1 (PI j))). exact E.
  Qed.
  Lemma n_of_loaded_if : forall ls cond ts (d : sdata F G) dm e, user_item_rows ls -> load_data_if ls cond ts = Ok (d, dm) -> (e < 2)%nat -> exists z, n_of (s_data d) (Z.of_nat e) = Ok z.
  Proof.
    intros ls cond ts d dm e UI L Hlt. destruct (load_view_if _ _ _ _ _ _ _ UI L) as (Hh & He & Hot2 & _). pose proof (history_reachable _ _ _ (C16_scored_histories _ _ _ Hh)) as Hr. pose proof He as Hd. apply external_events_ok in Hd.
    assert (Hev : event (s_data d) <> None) by (destruct Hd as [x [E _]]; congruence). destruct (reachable_inv _ Hr) as [[Hot _] [_ [[C _]|[base Hrep]]]]; [congruence|].
    unfold n_of. destruct (nth_error (event_otypes (s_data d)) e) as [tt|] eqn:Et; [|apply nth_error_None in Et; rewrite Hot2 in Et; cbn in Et; lia].
    rewrite (proj2 (np_get_nat _ _ _ _) Et). cbn [bind]. destruct Hrep as [Ho _]. rewrite Ho, gen_o_n, np_get_map_seq; eauto. apply nth_error_In in Et. rewrite Forall_forall in Hot. auto.
  Qed.

  Theorem C157_holdout : forall m c k al tol mi rs tr fo te a b g ts f fn i out rs0 w o w' s (pq : P -> Q),
    i = mkInfo tr fo te (init_model v_false v_true (mkOpts m c k al tol mi rs)) [a; b; g] ts "holdout"%string f fn -> m = Mlpmf -> get_system_info mc false = Ok (s : V) ->
    row_by_row predict -> user_item_rows (content tr) -> user_item_rows (content te) -> (2 <= length (content te))%nat ->
    run_task i rs0 w = Ok (o, w') ->
    value_of (num 0) = Some 0%Q -> value_of (num 1) = Some 1%Q -> (forall x, value_of (predicted x) = Some (pq x)) ->
    domain_from (mkDom (xq a) (xq b) (xq g)) (content tr) (task_domain o) /\ exists trd dm ted dm' r fr w1 w2 ps file,
      load_data_if (content tr) (mkDom (xq a) (xq b) (xq g)) ts = Ok (trd, dm) /\ load_data_if (content te) dm ts = Ok (ted, dm') /\
      fit (init_model v_false v_true (mkOpts m c k al tol mi rs)) w1 trd = Ok (r, fr, w2) /\ predict r (map r_ids (content te)) = Ok (Vector ps) /\
      experiment_tree m i out (s_data trd) (s_data ted) o = Ok file /\
      forall keepdata, exists z stats, stats_tree keepdata file = Ok z /\ path z [t "statistics"] = Some stats /\ found of_real auc stats (map (wanted (task_domain o)) (content te)) (map pq ps).
  Proof.
    intros m c k al tol mi rs tr fo te a b g ts f fn i out rs0 w o w' s pq EI NL SY RR UT UE L2 RT V0 V1 NP.
    unfold M_Main.run_task in RT. rewrite EI in RT. cbn [M_Main.domain_of n_domain bind n_model n_timestamp n_scheme M_Main.n_folds n_target n_train n_test] in RT. unfold do_task in RT.
    match type of RT with (if ?x then _ else _) = _ => destruct x; [discriminate|] end. change (String.eqb "holdout" "holdout") with true in RT. cbn iota in RT.
    set (md := init_model v_false v_true (mkOpts m c k al tol mi rs)) in *. set (w0 := seed _ w) in *.
    match type of RT with bind ?x _ = _ => destruct x as [[h wh]|] eqn:HT; [|discriminate] end. cbn [bind fst snd] in RT. injection RT as <- <-. cbn [task_domain] in *.
    destruct (M_Main.file_of te) as [te'|] eqn:FT. 2: { unfold holdout_test in HT. destruct (load_data_if (content tr) _ ts) as [z|]; [cbn [bind] in HT; discriminate|discriminate]. }
    assert (te' = te) by (destruct te; cbn in FT; congruence). subst te'.
    pose proof (holdout_renamed now fit predict content md (fun r dm => load_data_if r dm ts) tr te _ _ _ _ HT) as HR.
    destruct (holdout_inv _ _ _ _ _ _ _ _ _ _ _ HR) as [trd [dm [ted [dm' [r [wf [w2 [H1 [H2 [H3 [H4 _]]]]]]]]]]]. cbv beta in H1, H2.
    destruct (C154_prepared of_x none class file script_name script_version kamrecsys_version mc ve num m i (ho_domain h) s SY) as (v & EV & PR & _).
    assert (KD : kind (fst (n_model i)) = t "item_finder"). { rewrite EI. cbn [n_model]. unfold md. rewrite NL. reflexivity. } rewrite KD in PR.
    destruct (ho_total of_x none script_name num predicted training_tree test_tree names column str v_false value_of xz xq fmul fit out v _ _ (s_data trd) (s_data ted) h PR (fun e HE => n_of_loaded_if _ _ _ _ _ e UT H1 HE) (fun e HE => n_of_loaded_if _ _ _ _ _ e UE H2 HE)) as (cf & HF).
    assert (DR : ho_domain (renamed content h) = ho_domain h) by reflexivity.
    destruct (C153_finder num predicted training_tree test_tree names column none str value_of of_real auc now (fit md) predict ts (content tr) (content te) _ _ (renamed content h) _ trd ted dm dm' out v _ cf pq RR UE HR H1 H2 PR HF V0 V1 NP) as (DF & R0 & _). destruct (R0 L2) as (r' & wf' & ps & R1 & R2 & _ & R3).
    split; [exact DF|]. exists trd, dm, ted, dm', r', (run_info (ho_training (renamed content h))), (snd (now w0)), wf', ps, cf. split; [exact H1|]. split; [exact H2|]. split; [exact R1|]. split; [exact R2|]. split; [|exact R3].
    unfold M_InfoTree.experiment_tree. cbn [task_domain]. destruct (init_tree of_x none class file m i) as [v1|]; [|discriminate]. cbn [bind] in EV |- *.
    match type of EV with bind ?x _ = _ => destruct x as [v2|]; [|discriminate] end. cbn [bind] in EV |- *. rewrite EV. cbn [bind]. exact HF.
  Qed.
End Finder.

(** ** The six lines of C156 with an item finder *)
Local Notation XF := (Q + option R)%type.
Local Notation XV := (value XF Empty_set nat text).
Definition y_cross (fo : val Q) (fn : option Q) : info Q := mkInfo (VText "train") fo VNone (init_model 0%Q 1%Q (mkOpts Mlpmf (1 # 100)%Q 5%Q 1%Q (1 # 1000)%Q None (Some 4%Q))) [1; 5; 1]%Q true "cv"%string 2%Q fn.
Local Notation x_experiment := (@M_InfoTree.experiment_tree Q XF Empty_set nat nat nat nat Z x_of 0%nat (fun _ => 1%nat) (fun _ => 2%nat) (t "exp") (t "1") (t "3") (x_machine (t "Linux") x_output) (mkVersions [] [] [] [] [] []) inl (fun z => inl (inject_Z z)) (fun _ => VInt 0) (fun _ => VInt 0) [t "timestamp"] (fun _ x => VInt (Z.of_nat x)) x_str).
Local Notation x_stats := (@M_Tree.stats_tree XF Empty_set nat (M_StatTree.score_statistics x_value x_float x_str) (M_StatTree.finder_statistics x_value x_float x_str x_auc)).
Local Notation x_run i := (run_task (F := nat) Qnum (fun q => q) wnow wshuffle exact_mul wseed (fun _ => wfit) wpredict (fun ts f dm => load_data_if (x_lines f) dm ts) i (Some 4%Q) (9%nat, 100%Z)).
Example C157_nonvacuous :
  exists o w' file trees merged l, x_run (y_cross VStdout None) = Ok (o, w') /\ (forall train test, x_experiment Mlpmf (y_cross VStdout None) (t "out") train test o = Ok file) /\
    length trees = 2%nat /\ merge_trees (t "merged") trees = Ok merged /\ l <> [] /\ (forall k j q v, In (k, j, q, v) l -> q = 0 \/ q = 1)%Q /\
    forall x, x = file \/ x = merged -> exists m s, x_stats false x = Ok m /\ path m [t "statistics"] = Some s /\ path s [t "n_samples"] = Some (VInt (Z.of_nat (@length (nat * nat * Q * Z) l))).
Proof.
  destruct (x_run (y_cross VStdout None)) as [[o w']|] eqn:RT; [|vm_compute in RT; discriminate].
  destruct (get_system_info (Fl := XF) (Cx := Empty_set) (Ob := nat) (x_machine (t "Linux") x_output) false) as [sy|] eqn:SY; [|vm_compute in SY; discriminate].
  destruct (load_data_if (F := nat) ex_rows6 (mkDom 1 5 1) true) as [[d0 dm0]|] eqn:L0; [|vm_compute in L0; discriminate].
  destruct (C157_cross (F := nat) x_of 0%nat (fun _ => 1%nat) (fun _ => 2%nat) (t "exp") (t "1") (t "3") (x_machine (t "Linux") x_output) (mkVersions [] [] [] [] [] []) inl (fun z => inl (inject_Z z)) (fun _ => VInt 0) (fun _ => VInt 0) [t "timestamp"] (fun _ x => VInt (Z.of_nat x)) x_str 0%Q 1%Q
    x_value x_float x_auc Qnum (fun q => q) fst wnow wshuffle exact_mul wseed (fun _ => wfit) wpredict x_lines (proj1 C59_nonvacuous) (proj1 (proj2 C59_nonvacuous)) (fun _ => proj1 (proj2 (proj2 C59_nonvacuous))) (proj1 (proj2 (proj2 (proj2 C59_nonvacuous))))
    _ _ _ _ _ _ _ _ VStdout _ _ _ _ _ _ y_cross (fun _ => VStdout) (fun k => inject_Z (Z.of_nat k)) 4%Q (t "out") (fun _ => t "fold") (t "merged") (9%nat, 100%Z) (fun _ => (9%nat, 100%Z)) o w' sy inject_Z (s_data d0) (s_data d0)
    eq_refl eq_refl SY wshuffles exact_ok exact_fifth wpredict_rows ltac:(repeat constructor)) as (trd & dm & ci & file & trees & merged & l & LD & EO & EF & FO & FT & EM & TE & NE & SCO & STA).
  - exists (nth 0 ex_rows6 (mkRow [] 0%Q 0%nat)), (nth 5 ex_rows6 (mkRow [] 0%Q 0%nat)). split; [left; reflexivity|]. split; [cbn; tauto|discriminate].
  - reflexivity.
  - reflexivity.
  - exact RT.
  - reflexivity.
  - reflexivity.
  - reflexivity.
  - exists o, w', file, trees, merged, l. split; [reflexivity|]. split; [subst o; intros train test; exact EF|]. assert (LT : length (seq 0 (Z.to_nat (Qnum 2))) = length trees) by (clear - FT; induction FT; cbn; congruence). clear FT. rename LT into FT. split; [rewrite <- FT; reflexivity|]. split; [exact EM|]. split; [exact NE|].
    split; [intros k j q v I; specialize (SCO _ _ _ _ I); apply nth_error_In in SCO; apply in_map_iff in SCO; destruct SCO as (r & <- & _); destruct (Qle_bool _ _); auto|].
    intros x HX. destruct (STA false x HX) as (m & s & E1 & E2 & EV). exists m, s. split; [exact E1|]. split; [exact E2|]. destruct EV as [EV _]. rewrite map_length in EV. exact EV.
Qed.

Definition y_info : info Q := mkInfo (VText "train") (VText "out") (VText "test") (init_model 0%Q 1%Q (mkOpts Mlpmf (1 # 100)%Q 5%Q 1%Q (1 # 1000)%Q None (Some 7%Q))) [1; 5; 1]%Q true "holdout"%string 5%Q None.
Local Notation y_run := (run_task (F := nat) Qnum (fun q => q) wnow (fun w l => (l, w)) (fun q n => q) (fun _ w => w) (fun _ => wfit) wpredict (fun ts f dm => load_data_if (x_content f) dm ts) y_info (Some 7%Q) (0%nat, 100%Z)).
Example C157_holdout_nonvacuous :
  exists o w' trd ted file, y_run = Ok (o, w') /\ x_experiment Mlpmf y_info (t "out") (s_data trd) (s_data ted) o = Ok file /\
    exists m s, x_stats false file = Ok m /\ path m [t "statistics"] = Some s /\ path s [t "n_samples"] = Some (VInt 2).
Proof.
  destruct y_run as [[o w']|] eqn:RT; [|vm_compute in RT; discriminate].
  destruct (get_system_info (Fl := XF) (Cx := Empty_set) (Ob := nat) (x_machine (t "Linux") x_output) false) as [sy|] eqn:SY; [|vm_compute in SY; discriminate].
  destruct (C157_holdout x_of 0%nat (fun _ => 1%nat) (fun _ => 2%nat) (t "exp") (t "1") (t "3") (x_machine (t "Linux") x_output) (mkVersions [] [] [] [] [] []) inl (fun z => inl (inject_Z z)) (fun _ => VInt 0) (fun _ => VInt 0) [t "timestamp"] (fun _ x => VInt (Z.of_nat x)) x_str 0%Q 1%Q
    x_value x_float x_auc Qnum (fun q => q) wnow (fun w l => (l, w)) (fun q n => q) (fun _ w => w) (fun _ => wfit) wpredict x_content _ _ _ _ _ _ _ _ _ _ _ _ _ _ _ _ y_info (t "out") (Some 7%Q) (0%nat, 100%Z) o w' sy inject_Z
    eq_refl eq_refl SY wpredict_rows ltac:(repeat constructor) ltac:(repeat constructor) ltac:(cbn; lia) RT ltac:(reflexivity) ltac:(reflexivity) ltac:(reflexivity)) as (_ & trd & dm & ted & dm' & r & fr & w1 & w2 & ps & file & _ & _ & _ & _ & EF & ST).
  destruct (ST false) as (m & s & E1 & E2 & EV). exists o, w', trd, ted, file. split; [reflexivity|]. split; [exact EF|]. exists m, s. split; [exact E1|]. split; [exact E2|]. exact (proj1 EV).
Qed.
Print Assumptions C157_cross.
Print Assumptions C157_holdout.
