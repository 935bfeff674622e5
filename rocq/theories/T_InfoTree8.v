(** * From the command lines to the texts of the files

    C158: the command line of a cross validation, and the same with
    '-o name -n fold' added for each fold. *)
From Coq Require Import String List ZArith QArith Qround Qreals Reals NArith Bool Lia.
From Verif Require Import M_Py P_Py M_Json M_Convert P_Convert M_JsonText M_Tree M_Rec M_Data M_Score M_Load M_Split M_Opt M_Args P_Args T_Args T_Args2 M_Main T_Main M_Scripts M_Task P_Scripts P_Scripts2 M_CvTree M_HoTree M_InfoTree M_Metrics M_StatTree T_Json T_JsonText T_Tree T_Scripts T_CvTree T_StatTree T_Eval T_HoTree T_InfoTree T_InfoTree2 T_InfoTree3 T_InfoTree4 T_InfoTree5 T_InfoTree6 T_InfoTree7 Spec P_Split T_Split.
Import ListNotations.
Local Open Scope list_scope.
Local Open Scope string_scope.

Section CommandTexts.
  Context {X Fl Cx Ob W S F FR G P Rc : Type}.
  Notation V := (value Fl Cx Ob text).
  Variables (of_x : X -> V) (none : Ob) (class : recommender -> Ob) (file : val X -> Ob).
  Variables (script_name script_version kamrecsys_version : text) (mc : machine) (ve : versions).
  Variables (num : Q -> Fl) (predicted : P -> Fl) (training_tree : run FR -> V) (test_tree : run nat -> V).
  Variables (names : list text) (column : text -> G -> V) (str : Ob -> text).
  Variables (v_false v_true : X).
  Variables (value_of : Fl -> option Q) (of_real : option R -> Fl) (auc : list Q -> list R -> R).
  Notation experiment_tree := (@M_InfoTree.experiment_tree X Fl Cx Ob F FR G P of_x none class file script_name script_version kamrecsys_version mc ve num predicted training_tree test_tree names column str).
  Notation score_statistics := (@M_StatTree.score_statistics Fl Cx Ob value_of of_real str).
  Notation finder_statistics := (@M_StatTree.finder_statistics Fl Cx Ob value_of of_real str auc).
  Context (xz : X -> Z) (xq : X -> Q) (rng : W -> S).
  Context (now : W -> Z * W) (shuffle : W -> list nat -> list nat * W) (fmul : Q -> nat -> Q) (seed : option Z -> W -> W).
  Context (fit : recommender * dict string (kval X) -> W -> sdata F G -> res (Rc * FR * W)) (predict : Rc -> list (list Z) -> res (pred P)).
  Context (content : val X -> list (frow G)).
  Hypotheses (Hnow : clock_apart rng now) (Hsh : random_from rng shuffle) (Hfit : forall md, deterministic rng (fit md)).
  Hypothesis Hseed : forall z w1 w2, rng (seed (Some z) w1) = rng (seed (Some z) w2).
  Context (to_int to_float : string -> option X) (can_read can_write : string -> bool).
  Context (v_0 v_5 v_1 v_C v_one v_tol : X).
  Notation EXP := (exp_parser v_0 v_5 v_1 v_C v_one v_tol).
  Notation MAIN load := (main to_int to_float can_read can_write v_false v_true xz xq now shuffle fmul seed fit predict load).
  Notation sp := (fun ts f dm => load_data_sp (content f) dm ts).
  Notation if_ := (fun ts f dm => load_data_if (content f) dm ts).
  Notation line := (line to_int to_float can_read can_write v_0 v_5 v_1 v_C v_one v_tol).
  Notation effect := (effect (X := X)).
  Notation user_item_rows := (Forall (fun r : frow G => length (r_ids r) = 2%nat)).

  (** 1 for scores above the middle of the domain *)
  Notation wanted d := (fun l : frow G => if Qle_bool (r_score l) ((lo d + hi d) / 2) then 0 else 1)%Q.

  (** The texts *)
  Variable repr : Fl -> frepr.
  Variables (read_float : text -> Fl) (f_nan f_inf f_neginf : Fl).
  Notation fine := (@T_Tree.fine Fl Cx Ob repr read_float f_nan f_inf f_neginf).
  Notation plain := (@T_CvTree.plain Fl Cx Ob str repr read_float f_nan f_inf f_neginf).
  Notation file_of := (@T_Tree.file_of Fl Cx Ob repr read_float f_nan f_inf f_neginf).
  Notation dumps := (@M_JsonText.dumps Fl Cx Ob repr).
  Notation loads := (@M_JsonText.loads Fl Cx Ob read_float f_nan f_inf f_neginf none).
  Notation merge_files := (@M_Tree.merge_files Fl Cx Ob repr read_float f_nan f_inf f_neginf none str).
  Notation stats_file := (@M_Tree.stats_file Fl Cx Ob score_statistics finder_statistics repr read_float f_nan f_inf f_neginf none).
  (** floats are read as they were written; texts are unicode *)
  Hypothesis Hfloat : forall f, faithful repr read_float f_nan f_inf f_neginf f.
  Hypothesis Hstr : forall o, unicode (str o).
  Hypotheses (Hx : forall x, plain (of_x x)) (Htrain : forall r, plain (training_tree r)) (Htest : forall r, plain (test_tree r)).
  Hypotheses (Hnames : NoDup names) (Hunicode : Forall unicode names) (Hcolumn : forall k x, plain (column k x)).
  Hypothesis Henv : Forall unicode [script_name; script_version; kamrecsys_version; mc_system mc; mc_release mc; mc_version mc; mc_machine mc; mc_processor mc; ve_sklearn ve; ve_numpy ve; ve_scipy ve; ve_compiler ve; ve_implementation ve; ve_python ve].
  Hypothesis Hout : forall s, mc_profiler mc = Ok s \/ mc_sysctl mc = Ok s \/ mc_cpuinfo mc = Ok s -> unicode s.


  Theorem C158_command : forall methods dfl pick argv es ps vos op tr fo te mt m c k al tol mi s0 a b g ts f (names_ texts : nat -> string) (xs : nat -> X) out outs merged_out w ws o w' s (pq : P -> Q) train test python,
    line methods dfl argv es ps vos op -> in_file es vos tr -> out_file es vos fo ->
    chosen (EXP methods dfl) es "testfile" te -> chosen (EXP methods dfl) es "method" (VText mt) -> pick mt = Some m ->
    chosen (EXP methods dfl) es "C" (VX c) -> chosen (EXP methods dfl) es "k" (VX k) -> chosen (EXP methods dfl) es "alpha" (VX al) ->
    chosen (EXP methods dfl) es "tol" (VX tol) -> chosen (EXP methods dfl) es "maxiter" (maybe mi) -> chosen (EXP methods dfl) es "rseed" (VX s0) ->
    chosen (EXP methods dfl) es "domain" (VXs [a; b; g]) -> chosen (EXP methods dfl) es "timestamp" (VBool ts) -> chosen (EXP methods dfl) es "validation" (VText "cv") ->
    chosen (EXP methods dfl) es "fold" (VX f) -> chosen (EXP methods dfl) es "fold_no" VNone ->
    (forall j, (j < Z.to_nat (xz f))%nat -> P_Args.plain (names_ j) /\ names_ j <> "-" /\ can_write (names_ j) = true) -> (forall j, (j < Z.to_nat (xz f))%nat -> P_Args.plain (texts j) /\ to_int (texts j) = Some (xs j) /\ xz (xs j) = Z.of_nat j) ->
    m <> Mlpmf -> get_system_info mc false = Ok (s : V) ->
    shuffles shuffle -> product_ok fmul -> fifth_of fmul -> row_by_row predict -> user_item_rows (content tr) -> two_users (content tr) -> (0 < xz f)%Z ->
    MAIN sp pick (EXP methods dfl) argv w = Some (Done (o, w') op) ->
    (forall l, In l (content tr) -> value_of (num (r_score l)) = Some (r_score l)) -> (forall x, value_of (predicted x) = Some (pq x)) ->
    (forall q, In q [lo (task_domain o); hi (task_domain o); st (task_domain o)] -> value_of (num q) = Some q) -> (0 < M_Score.st (task_domain o))%Q ->
    unicode out -> (forall j, unicode (outs j)) -> unicode merged_out -> before39 python ->
    let i := fun fo fn => mkInfo tr fo te (init_model v_false v_true (mkOpts m c k al tol mi (Some s0))) [a; b; g] ts "cv" f fn in
    exists ci text files merged_text l, o = Crossed (xz f) (task_domain o) ci /\ (do v <- experiment_tree m (i fo None) out train test o; dumps v) = Ok text /\
      Forall2 (fun j s => exists oj wj, MAIN sp pick (EXP methods dfl) (argv ++ ["-o"; names_ j; "-n"; texts j])%list (ws j) = Some (Done (oj, wj) (op ++ [(true, names_ j)])%list) /\
                 (do v <- experiment_tree m (i (VFile (names_ j)) (Some (xs j))) (outs j) train test oj; dumps v) = Ok s) (seq 0 (Z.to_nat (xz f))) files /\
      merge_files python merged_out files = Ok merged_text /\ tests ci l /\ l <> [] /\ (forall k j q v, In (k, j, q, v) l -> nth_error (map r_score (content tr)) j = Some q) /\
      forall keepdata x, x = text \/ x = merged_text -> exists y z stats, stats_file python keepdata x = Ok y /\ printable y /\ loads y = Some z /\ path z [t "statistics"] = Some stats /\ evaluated of_real stats (map (fun x => snd (fst x)) l) (map (fun x => pq (snd x)) l) (task_domain o).
  Proof.
    intros methods dfl pick argv es ps vos op tr fo te mt m c k al tol mi s0 a b g ts f names_ texts xs out outs merged_out w ws o w' s pq train test python
      LI HI HO HT HM PK HC HK HA HTo HMi HR HD HTs HV HF HFn NM TX NL SY HS HP H5 RR UT TU HN RT NQ NP ND ST UO UOS UM B i.
    pose proof (C143_experiment to_int to_float can_read can_write v_false v_true v_0 v_5 v_1 v_C v_one v_tol xz xq now shuffle fmul seed fit predict (fun ts f dm => load_data_sp (content f) dm ts)
      methods dfl pick argv es ps vos op w tr fo te mt m c k al tol mi (Some s0) [a; b; g] ts "cv" f None LI HI HO HT HM PK HC HK HA HTo HMi HR HD HTs HV HF HFn) as E0.
    rewrite RT in E0. change (mkInfo _ _ _ _ _ _ _ _ _) with (i fo None) in E0.
    match type of E0 with _ = match ?x with _ => _ end => destruct x as [r|] eqn:RUN; [|discriminate] end. injection E0 as <-.
    destruct (C158_scores of_x none class file script_name script_version kamrecsys_version mc ve num predicted training_tree test_tree names column str v_false v_true value_of of_real auc xz xq rng now shuffle fmul seed fit predict content Hnow Hsh Hfit Hseed
      repr read_float f_nan f_inf f_neginf Hfloat Hstr Hx Htrain Htest Hnames Hunicode Hcolumn Henv Hout
      m c k al tol mi (Some s0) tr fo te a b g ts f i (fun j => VFile (names_ j)) xs s0 out outs merged_out w ws o w' s pq train test python eq_refl NL SY HS HP H5 RR UT TU HN (fun j LJ => proj2 (proj2 (TX j LJ))) RUN NQ NP ND ST UO UOS UM B)
      as (ci & text & files & merged_text & l & L2 & L3 & FT & L5 & L6 & L7 & L8 & L9).
    exists ci, text, files, merged_text, l. split; [exact L2|]. split; [exact L3|]. split; [|auto 7].
    assert (FT' : Forall2 (fun j tx => (j < Z.to_nat (xz f))%nat /\ exists ok wk, run_task xz xq now shuffle fmul seed fit predict (fun ts f dm => load_data_sp (content f) dm ts) (i (VFile (names_ j)) (Some (xs j))) (Some s0) (ws j) = Ok (ok, wk) /\ (do v <- experiment_tree m (i (VFile (names_ j)) (Some (xs j))) (outs j) train test ok; dumps v) = Ok tx) (seq 0 (Z.to_nat (xz f))) files).
    { assert (IN : forall j, In j (seq 0 (Z.to_nat (xz f))) -> (j < Z.to_nat (xz f))%nat) by (intros j I; apply in_seq in I; lia). clear - FT IN. induction FT as [|j tx l0 l' E FT0 IH]; constructor; [split; [apply IN; left; reflexivity|]|apply IH; intros x I; apply IN; right; exact I].
      match type of E with bind ?x _ = _ => destruct x as [[ok wk]|]; [|discriminate] end. exists ok, wk. split; [reflexivity|exact E]. }
    eapply P_Rec.F2_impl; [|exact FT']. intros j tree (LJ0 & oj & wj & RJ & TJ). exists oj, wj. split; [|exact TJ].
    destruct (NM j LJ0) as (N1 & N2 & N3). destruct (TX j LJ0) as (T1 & T2 & _).
    pose proof (line_more to_int to_float can_read can_write v_0 v_5 v_1 v_C v_one v_tol methods dfl argv es ps vos op (names_ j) (texts j) (xs j) LI N1 N2 N3 T1 T2) as LJ.
    assert (IJ : in_file (es ++ more (names_ j) (xs j))%list vos tr).
    { destruct HI as [(l1 & e & l2 & -> & E1 & E2 & U)|[U E]].
      - left. exists l1, e, (l2 ++ more (names_ j) (xs j))%list. split; [rewrite <- app_assoc; reflexivity|]. split; [exact E1|]. split; [exact E2|]. intros e' I. apply in_app_or in I. destruct I as [I|[<-|[<-|[]]]]; [auto|discriminate|discriminate].
      - right. split; [|exact E]. intros e I. apply in_app_or in I. destruct I as [I|[<-|[<-|[]]]]; [auto|discriminate|discriminate]. }
    assert (OJ : out_file (es ++ more (names_ j) (xs j))%list vos (VFile (names_ j))).
    { left. exists es, (mkEff 6 "outfile" (VFile (names_ j)) [(true, names_ j)]), [mkEff 11 "fold_no" (VX (xs j)) []]. split; [reflexivity|]. split; [reflexivity|]. split; [reflexivity|]. intros e' [<-|[]]. discriminate. }
    assert (FJ : chosen (EXP methods dfl) (es ++ more (names_ j) (xs j))%list "fold_no" (maybe (Some (xs j)))).
    { left. exists (es ++ [mkEff 6 "outfile" (VFile (names_ j)) [(true, names_ j)]])%list, (mkEff 11 "fold_no" (VX (xs j)) []), []. split; [rewrite <- app_assoc; reflexivity|]. split; [reflexivity|]. split; [reflexivity|]. intros e' []. }
    assert (CJ : forall d v, chosen (EXP methods dfl) es d v -> d <> "outfile" -> d <> "fold_no" -> chosen (EXP methods dfl) (es ++ more (names_ j) (xs j))%list d v) by (intros; apply chosen_more; assumption).
    rewrite (C143_experiment to_int to_float can_read can_write v_false v_true v_0 v_5 v_1 v_C v_one v_tol xz xq now shuffle fmul seed fit predict (fun ts f dm => load_data_sp (content f) dm ts)
      methods dfl pick _ _ ps vos _ (ws j) tr (VFile (names_ j)) te mt m c k al tol mi (Some s0) [a; b; g] ts "cv" f (Some (xs j)) LJ IJ OJ
      (CJ _ _ HT ltac:(discriminate) ltac:(discriminate)) (CJ _ _ HM ltac:(discriminate) ltac:(discriminate)) PK (CJ _ _ HC ltac:(discriminate) ltac:(discriminate)) (CJ _ _ HK ltac:(discriminate) ltac:(discriminate))
      (CJ _ _ HA ltac:(discriminate) ltac:(discriminate)) (CJ _ _ HTo ltac:(discriminate) ltac:(discriminate)) (CJ _ _ HMi ltac:(discriminate) ltac:(discriminate)) (CJ _ _ HR ltac:(discriminate) ltac:(discriminate))
      (CJ _ _ HD ltac:(discriminate) ltac:(discriminate)) (CJ _ _ HTs ltac:(discriminate) ltac:(discriminate)) (CJ _ _ HV ltac:(discriminate) ltac:(discriminate)) (CJ _ _ HF ltac:(discriminate) ltac:(discriminate)) FJ).
    change (mkInfo _ _ _ _ _ _ _ _ _) with (i (VFile (names_ j)) (Some (xs j))). cbv beta in RJ. rewrite RJ. reflexivity.
  Qed.

  Theorem C158_finder_command : forall methods dfl pick argv es ps vos op tr fo te mt m c k al tol mi s0 a b g ts f (names_ texts : nat -> string) (xs : nat -> X) out outs merged_out w ws o w' s (pq : P -> Q) train test python,
    line methods dfl argv es ps vos op -> in_file es vos tr -> out_file es vos fo ->
    chosen (EXP methods dfl) es "testfile" te -> chosen (EXP methods dfl) es "method" (VText mt) -> pick mt = Some m ->
    chosen (EXP methods dfl) es "C" (VX c) -> chosen (EXP methods dfl) es "k" (VX k) -> chosen (EXP methods dfl) es "alpha" (VX al) ->
    chosen (EXP methods dfl) es "tol" (VX tol) -> chosen (EXP methods dfl) es "maxiter" (maybe mi) -> chosen (EXP methods dfl) es "rseed" (VX s0) ->
    chosen (EXP methods dfl) es "domain" (VXs [a; b; g]) -> chosen (EXP methods dfl) es "timestamp" (VBool ts) -> chosen (EXP methods dfl) es "validation" (VText "cv") ->
    chosen (EXP methods dfl) es "fold" (VX f) -> chosen (EXP methods dfl) es "fold_no" VNone ->
    (forall j, (j < Z.to_nat (xz f))%nat -> P_Args.plain (names_ j) /\ names_ j <> "-" /\ can_write (names_ j) = true) -> (forall j, (j < Z.to_nat (xz f))%nat -> P_Args.plain (texts j) /\ to_int (texts j) = Some (xs j) /\ xz (xs j) = Z.of_nat j) ->
    m = Mlpmf -> get_system_info mc false = Ok (s : V) ->
    shuffles shuffle -> product_ok fmul -> fifth_of fmul -> row_by_row predict -> user_item_rows (content tr) -> two_users (content tr) -> (0 < xz f)%Z ->
    MAIN if_ pick (EXP methods dfl) argv w = Some (Done (o, w') op) ->
    value_of (num 0) = Some 0%Q -> value_of (num 1) = Some 1%Q -> (forall x, value_of (predicted x) = Some (pq x)) ->
    unicode out -> (forall j, unicode (outs j)) -> unicode merged_out -> before39 python ->
    let i := fun fo fn => mkInfo tr fo te (init_model v_false v_true (mkOpts m c k al tol mi (Some s0))) [a; b; g] ts "cv" f fn in
    exists ci text files merged_text l, o = Crossed (xz f) (task_domain o) ci /\ (do v <- experiment_tree m (i fo None) out train test o; dumps v) = Ok text /\
      Forall2 (fun j s => exists oj wj, MAIN if_ pick (EXP methods dfl) (argv ++ ["-o"; names_ j; "-n"; texts j])%list (ws j) = Some (Done (oj, wj) (op ++ [(true, names_ j)])%list) /\
                 (do v <- experiment_tree m (i (VFile (names_ j)) (Some (xs j))) (outs j) train test oj; dumps v) = Ok s) (seq 0 (Z.to_nat (xz f))) files /\
      merge_files python merged_out files = Ok merged_text /\ tests ci l /\ l <> [] /\ (forall k j q v, In (k, j, q, v) l -> nth_error (map (wanted (task_domain o)) (content tr)) j = Some q) /\
      forall keepdata x, x = text \/ x = merged_text -> exists y z stats, stats_file python keepdata x = Ok y /\ printable y /\ loads y = Some z /\ path z [t "statistics"] = Some stats /\ found of_real auc stats (map (fun x => snd (fst x)) l) (map (fun x => pq (snd x)) l).
  Proof.
    intros methods dfl pick argv es ps vos op tr fo te mt m c k al tol mi s0 a b g ts f names_ texts xs out outs merged_out w ws o w' s pq train test python
      LI HI HO HT HM PK HC HK HA HTo HMi HR HD HTs HV HF HFn NM TX NL SY HS HP H5 RR UT TU HN RT V0 V1 NP UO UOS UM B i.
    pose proof (C143_experiment to_int to_float can_read can_write v_false v_true v_0 v_5 v_1 v_C v_one v_tol xz xq now shuffle fmul seed fit predict (fun ts f dm => load_data_if (content f) dm ts)
      methods dfl pick argv es ps vos op w tr fo te mt m c k al tol mi (Some s0) [a; b; g] ts "cv" f None LI HI HO HT HM PK HC HK HA HTo HMi HR HD HTs HV HF HFn) as E0.
    rewrite RT in E0. change (mkInfo _ _ _ _ _ _ _ _ _) with (i fo None) in E0.
    match type of E0 with _ = match ?x with _ => _ end => destruct x as [r|] eqn:RUN; [|discriminate] end. injection E0 as <-.
    destruct (C158_finder of_x none class file script_name script_version kamrecsys_version mc ve num predicted training_tree test_tree names column str v_false v_true value_of of_real auc xz xq rng now shuffle fmul seed fit predict content Hnow Hsh Hfit Hseed
      repr read_float f_nan f_inf f_neginf Hfloat Hstr Hx Htrain Htest Hnames Hunicode Hcolumn Henv Hout
      m c k al tol mi (Some s0) tr fo te a b g ts f i (fun j => VFile (names_ j)) xs s0 out outs merged_out w ws o w' s pq train test python eq_refl NL SY HS HP H5 RR UT TU HN (fun j LJ => proj2 (proj2 (TX j LJ))) RUN V0 V1 NP UO UOS UM B)
      as (ci & text & files & merged_text & l & L2 & L3 & FT & L5 & L6 & L7 & L8 & L9).
    exists ci, text, files, merged_text, l. split; [exact L2|]. split; [exact L3|]. split; [|auto 7].
    assert (FT' : Forall2 (fun j tx => (j < Z.to_nat (xz f))%nat /\ exists ok wk, run_task xz xq now shuffle fmul seed fit predict (fun ts f dm => load_data_if (content f) dm ts) (i (VFile (names_ j)) (Some (xs j))) (Some s0) (ws j) = Ok (ok, wk) /\ (do v <- experiment_tree m (i (VFile (names_ j)) (Some (xs j))) (outs j) train test ok; dumps v) = Ok tx) (seq 0 (Z.to_nat (xz f))) files).
    { assert (IN : forall j, In j (seq 0 (Z.to_nat (xz f))) -> (j < Z.to_nat (xz f))%nat) by (intros j I; apply in_seq in I; lia). clear - FT IN. induction FT as [|j tx l0 l' E FT0 IH]; constructor; [split; [apply IN; left; reflexivity|]|apply IH; intros x I; apply IN; right; exact I].
      match type of E with bind ?x _ = _ => destruct x as [[ok wk]|]; [|discriminate] end. exists ok, wk. split; [reflexivity|exact E]. }
    eapply P_Rec.F2_impl; [|exact FT']. intros j tree (LJ0 & oj & wj & RJ & TJ). exists oj, wj. split; [|exact TJ].
    destruct (NM j LJ0) as (N1 & N2 & N3). destruct (TX j LJ0) as (T1 & T2 & _).
    pose proof (line_more to_int to_float can_read can_write v_0 v_5 v_1 v_C v_one v_tol methods dfl argv es ps vos op (names_ j) (texts j) (xs j) LI N1 N2 N3 T1 T2) as LJ.
    assert (IJ : in_file (es ++ more (names_ j) (xs j))%list vos tr).
    { destruct HI as [(l1 & e & l2 & -> & E1 & E2 & U)|[U E]].
      - left. exists l1, e, (l2 ++ more (names_ j) (xs j))%list. split; [rewrite <- app_assoc; reflexivity|]. split; [exact E1|]. split; [exact E2|]. intros e' I. apply in_app_or in I. destruct I as [I|[<-|[<-|[]]]]; [auto|discriminate|discriminate].
      - right. split; [|exact E]. intros e I. apply in_app_or in I. destruct I as [I|[<-|[<-|[]]]]; [auto|discriminate|discriminate]. }
    assert (OJ : out_file (es ++ more (names_ j) (xs j))%list vos (VFile (names_ j))).
    { left. exists es, (mkEff 6 "outfile" (VFile (names_ j)) [(true, names_ j)]), [mkEff 11 "fold_no" (VX (xs j)) []]. split; [reflexivity|]. split; [reflexivity|]. split; [reflexivity|]. intros e' [<-|[]]. discriminate. }
    assert (FJ : chosen (EXP methods dfl) (es ++ more (names_ j) (xs j))%list "fold_no" (maybe (Some (xs j)))).
    { left. exists (es ++ [mkEff 6 "outfile" (VFile (names_ j)) [(true, names_ j)]])%list, (mkEff 11 "fold_no" (VX (xs j)) []), []. split; [rewrite <- app_assoc; reflexivity|]. split; [reflexivity|]. split; [reflexivity|]. intros e' []. }
    assert (CJ : forall d v, chosen (EXP methods dfl) es d v -> d <> "outfile" -> d <> "fold_no" -> chosen (EXP methods dfl) (es ++ more (names_ j) (xs j))%list d v) by (intros; apply chosen_more; assumption).
    rewrite (C143_experiment to_int to_float can_read can_write v_false v_true v_0 v_5 v_1 v_C v_one v_tol xz xq now shuffle fmul seed fit predict (fun ts f dm => load_data_if (content f) dm ts)
      methods dfl pick _ _ ps vos _ (ws j) tr (VFile (names_ j)) te mt m c k al tol mi (Some s0) [a; b; g] ts "cv" f (Some (xs j)) LJ IJ OJ
      (CJ _ _ HT ltac:(discriminate) ltac:(discriminate)) (CJ _ _ HM ltac:(discriminate) ltac:(discriminate)) PK (CJ _ _ HC ltac:(discriminate) ltac:(discriminate)) (CJ _ _ HK ltac:(discriminate) ltac:(discriminate))
      (CJ _ _ HA ltac:(discriminate) ltac:(discriminate)) (CJ _ _ HTo ltac:(discriminate) ltac:(discriminate)) (CJ _ _ HMi ltac:(discriminate) ltac:(discriminate)) (CJ _ _ HR ltac:(discriminate) ltac:(discriminate))
      (CJ _ _ HD ltac:(discriminate) ltac:(discriminate)) (CJ _ _ HTs ltac:(discriminate) ltac:(discriminate)) (CJ _ _ HV ltac:(discriminate) ltac:(discriminate)) (CJ _ _ HF ltac:(discriminate) ltac:(discriminate)) FJ).
    change (mkInfo _ _ _ _ _ _ _ _ _) with (i (VFile (names_ j)) (Some (xs j))). cbv beta in RJ. rewrite RJ. reflexivity.
  Qed.
End CommandTexts.

(** ** Two folds, the command lines in full, with whole scores *)
Definition v_of (z : Z) : value (option Z) Empty_set nat text := VInt z.
Definition v_lines (f : val Z) : list (frow nat) := match f with VFile _ => z_rows | _ => [] end.
Local Notation ifz := (if_parser 0%Z 5%Z 1%Z 101%Z 102%Z 103%Z).
Local Notation v_main load pick p := (main dec_int dec_int always always 0%Z 1%Z (fun z => z) inject_Z wnow wshuffle exact_mul wseed (fun _ => wfit) wpredict load pick p).
Local Notation v_sp := (fun ts f dm => load_data_sp (F := nat) (v_lines f) dm ts).
Local Notation v_if := (fun ts f dm => load_data_if (F := nat) (v_lines f) dm ts).
Local Notation v_loads := (@M_JsonText.loads (option Z) Empty_set nat ex_read None (Some 0%Z) (Some 0%Z) 0%nat).
Local Notation v_merge := (@M_Tree.merge_files (option Z) Empty_set nat z_repr ex_read None (Some 0%Z) (Some 0%Z) 0%nat x_str).
Local Notation v_stats := (@M_Tree.stats_file (option Z) Empty_set nat (M_StatTree.score_statistics z_value z_real x_str) (M_StatTree.finder_statistics z_value z_real x_str x_auc) z_repr ex_read None (Some 0%Z) (Some 0%Z) 0%nat).
Example C158_command_nonvacuous : exists o w' text files merged l,
  v_main v_sp sp_method spz z_line (9%nat, 100%Z) = Some (Done (o, w') [(false, "train.event")]) /\ length files = 2%nat /\ v_merge (3, 8)%nat (t "merged") files = Ok merged /\ l <> [] /\
  (exists o1 w1, v_main v_sp sp_method spz ["train.event"; "-v"; "cv"; "--rseed"; "4"; "-f"; "2"; "-d"; "1"; "5"; "1"; "-o"; "f1.json"; "-n"; "1"] (3%nat, 700%Z) = Some (Done (o1, w1) [(false, "train.event"); (true, "f1.json")])) /\
  forall x, x = text \/ x = merged -> exists y z s, v_stats (3, 8)%nat false x = Ok y /\ v_loads y = Some z /\ path z [t "statistics"] = Some s /\ path s [t "n_samples"] = Some (VInt (Z.of_nat (@length (nat * nat * Q * Z) l))).
Proof.
  destruct (v_main v_sp sp_method spz z_line (9%nat, 100%Z)) as [[cd op|e op|[o w'] op]|] eqn:RT; try (vm_compute in RT; discriminate).
  assert (OP : op = [(false, "train.event")]) by (vm_compute in RT; injection RT as _ _ <-; reflexivity). subst op.
  assert (DM : task_domain o = mkDom 1 5 1) by (vm_compute in RT; injection RT as <- _; reflexivity).
  destruct (get_system_info (Fl := option Z) (Cx := Empty_set) (Ob := nat) (x_machine (t "Linux") x_output) false) as [sy|] eqn:SY; [|vm_compute in SY; discriminate].
  destruct (load_data_sp (F := nat) z_rows (mkDom 1 5 1) true) as [[d0 dm0]|] eqn:L0; [|vm_compute in L0; discriminate].
  assert (DEF : forall d v, d <> "validation" -> d <> "rseed" -> d <> "fold" -> d <> "domain" -> aget (pr_defaults (exp_parser 0%Z 5%Z 1%Z 101%Z 102%Z 103%Z ["pmf"; "plsam"; "plsamm"] "pmf")) d = Some v -> chosen (exp_parser 0%Z 5%Z 1%Z 101%Z 102%Z 103%Z ["pmf"; "plsam"; "plsamm"] "pmf") z_effects d v).
  { intros d v N1 N2 N3 N4 E. right. split; [|exact E]. intros e [<-|[<-|[<-|[<-|[]]]]]; cbn; congruence. }
  assert (U : forall (d : string) (l : list (effect (X := Z))), Forall (fun e => e_dest e <> d) l -> forall e', In e' l -> e_dest e' <> d) by (intros d l; rewrite Forall_forall; auto).
  destruct (C158_command (F := nat) (Rc := _) v_of 0%nat (fun _ => 1%nat) (fun _ => 2%nat) (t "exp") (t "1") (t "3") (x_machine (t "Linux") x_output) (mkVersions [] [] [] [] [] []) z_num (@Some Z) (fun _ => VInt 0) (fun _ => VInt 0) [t "timestamp"] (fun _ x => VInt (Z.of_nat x)) x_str 0%Z 1%Z
    z_value z_real x_auc (fun z => z) inject_Z fst wnow wshuffle exact_mul wseed (fun _ => wfit) wpredict v_lines (proj1 C59_nonvacuous) (proj1 (proj2 C59_nonvacuous)) (fun _ => proj1 (proj2 (proj2 C59_nonvacuous))) (proj1 (proj2 (proj2 (proj2 C59_nonvacuous))))
    dec_int dec_int always always 0%Z 5%Z 1%Z 101%Z 102%Z 103%Z
    z_repr ex_read None (Some 0%Z) (Some 0%Z) z_faithful z_objects z_plain_int (fun _ => z_plain_int 0) (fun _ => z_plain_int 0) (distinct_nodup [t "timestamp"] eq_refl) z_names (fun _ x => z_plain_int (Z.of_nat x)) z_env z_outputs
    ["pmf"; "plsam"; "plsamm"] "pmf" sp_method z_line z_effects ["train.event"] [(VFile "train.event", [(false, "train.event")])] [(false, "train.event")]
    (VFile "train.event") VStdout VNone "pmf" Mpmf 101%Z 1%Z 102%Z 103%Z None 4%Z 1%Z 5%Z 1%Z true 2%Z z_name z_text Z.of_nat (t "out") (fun _ => t "fold") (t "merged") (9%nat, 100%Z) (fun j => match j with 0%nat => (9%nat, 100%Z) | _ => (3%nat, 700%Z) end) o w' sy inject_Z (s_data d0) (s_data d0) (3, 8)%nat
    z_described) as (ci & text & files & merged & l & _ & _ & FT & EM & _ & NE & _ & STA).
  - right. split; [intros e [<-|[<-|[<-|[<-|[]]]]]; discriminate|reflexivity].
  - right. split; [intros e [<-|[<-|[<-|[<-|[]]]]]; discriminate|reflexivity].
  - apply DEF; [discriminate|discriminate|discriminate|discriminate|reflexivity].
  - apply DEF; [discriminate|discriminate|discriminate|discriminate|reflexivity].
  - reflexivity.
  - apply DEF; [discriminate|discriminate|discriminate|discriminate|reflexivity].
  - apply DEF; [discriminate|discriminate|discriminate|discriminate|reflexivity].
  - apply DEF; [discriminate|discriminate|discriminate|discriminate|reflexivity].
  - apply DEF; [discriminate|discriminate|discriminate|discriminate|reflexivity].
  - apply DEF; [discriminate|discriminate|discriminate|discriminate|reflexivity].
  - left. exists [mkEff 9 "validation" (VText "cv") []]. do 2 eexists. split; [reflexivity|]. do 2 (split; [reflexivity|]). apply U. repeat constructor; discriminate.
  - left. exists [mkEff 9 "validation" (VText "cv") []; mkEff 4 "rseed" (VX 4%Z) []; mkEff 10 "fold" (VX 2%Z) []]. do 2 eexists. split; [reflexivity|]. do 2 (split; [reflexivity|]). apply U. constructor.
  - apply DEF; [discriminate|discriminate|discriminate|discriminate|reflexivity].
  - left. exists []. do 2 eexists. split; [reflexivity|]. do 2 (split; [reflexivity|]). apply U. repeat constructor; discriminate.
  - left. exists [mkEff 9 "validation" (VText "cv") []; mkEff 4 "rseed" (VX 4%Z) []]. do 2 eexists. split; [reflexivity|]. do 2 (split; [reflexivity|]). apply U. repeat constructor; discriminate.
  - apply DEF; [discriminate|discriminate|discriminate|discriminate|reflexivity].
  - intros [|j] _; (split; [cbn; left; discriminate|]); (split; [discriminate|reflexivity]).
  - intros [|[|j]] LJ; [| |change (Z.to_nat 2) with 2%nat in LJ; lia]; (split; [cbn; left; discriminate|]); split; reflexivity.
  - discriminate.
  - exact SY.
  - exact wshuffles.
  - exact exact_ok.
  - exact exact_fifth.
  - exact wpredict_rows.
  - repeat constructor.
  - exists (nth 0 z_rows (mkRow [] 0%Q 0%nat)), (nth 5 z_rows (mkRow [] 0%Q 0%nat)). split; [left; reflexivity|]. split; [cbn; tauto|discriminate].
  - reflexivity.
  - exact RT.
  - apply Forall_forall. change (Forall (fun r : frow nat => z_value (z_num (r_score r)) = Some (r_score r)) z_rows). repeat (apply Forall_cons; [reflexivity|]). apply Forall_nil.
  - reflexivity.
  - rewrite DM. apply Forall_forall. repeat (apply Forall_cons; [reflexivity|]). apply Forall_nil.
  - rewrite DM. reflexivity.
  - apply unicode_ascii; reflexivity.
  - intros j. apply unicode_ascii; reflexivity.
  - apply unicode_ascii; reflexivity.
  - right. split; [reflexivity|]. cbn. lia.
  - exists o, w', text, files, merged, l. split; [reflexivity|].
    assert (LT : length (seq 0 (Z.to_nat 2)) = length files) by (clear - FT; induction FT; cbn; congruence). split; [rewrite <- LT; reflexivity|]. split; [exact EM|]. split; [exact NE|]. split.
    + clear - FT. change (seq 0 (Z.to_nat 2)) with [0; 1]%nat in FT. inversion FT as [|? ? ? ? _ FT1]; subst. inversion FT1 as [|? ? ? ? (o1 & w1 & R1 & _) _]; subst. exists o1, w1. exact R1.
    + intros x HX. destruct (STA false x HX) as (y & z & s & E1 & _ & E2 & E3 & EV). exists y, z, s. split; [exact E1|]. split; [exact E2|]. split; [exact E3|]. destruct EV as [EV _]. rewrite map_length in EV. exact EV.
Qed.
Example C158_finder_command_nonvacuous : exists o w' text files merged l,
  v_main v_if if_method ifz z_line (9%nat, 100%Z) = Some (Done (o, w') [(false, "train.event")]) /\ length files = 2%nat /\ v_merge (3, 8)%nat (t "merged") files = Ok merged /\ l <> [] /\
  (exists o1 w1, v_main v_if if_method ifz ["train.event"; "-v"; "cv"; "--rseed"; "4"; "-f"; "2"; "-d"; "1"; "5"; "1"; "-o"; "f1.json"; "-n"; "1"] (3%nat, 700%Z) = Some (Done (o1, w1) [(false, "train.event"); (true, "f1.json")])) /\
  forall x, x = text \/ x = merged -> exists y z s, v_stats (3, 8)%nat false x = Ok y /\ v_loads y = Some z /\ path z [t "statistics"] = Some s /\ path s [t "n_samples"] = Some (VInt (Z.of_nat (@length (nat * nat * Q * Z) l))).
Proof.
  destruct (v_main v_if if_method ifz z_line (9%nat, 100%Z)) as [[cd op|e op|[o w'] op]|] eqn:RT; try (vm_compute in RT; discriminate).
  assert (OP : op = [(false, "train.event")]) by (vm_compute in RT; injection RT as _ _ <-; reflexivity). subst op.
  destruct (get_system_info (Fl := option Z) (Cx := Empty_set) (Ob := nat) (x_machine (t "Linux") x_output) false) as [sy|] eqn:SY; [|vm_compute in SY; discriminate].
  destruct (load_data_if (F := nat) z_rows (mkDom 1 5 1) true) as [[d0 dm0]|] eqn:L0; [|vm_compute in L0; discriminate].
  assert (DEF : forall d v, d <> "validation" -> d <> "rseed" -> d <> "fold" -> d <> "domain" -> aget (pr_defaults (exp_parser 0%Z 5%Z 1%Z 101%Z 102%Z 103%Z ["lpmf"] "lpmf")) d = Some v -> chosen (exp_parser 0%Z 5%Z 1%Z 101%Z 102%Z 103%Z ["lpmf"] "lpmf") z_effects d v).
  { intros d v N1 N2 N3 N4 E. right. split; [|exact E]. intros e [<-|[<-|[<-|[<-|[]]]]]; cbn; congruence. }
  assert (U : forall (d : string) (l : list (effect (X := Z))), Forall (fun e => e_dest e <> d) l -> forall e', In e' l -> e_dest e' <> d) by (intros d l; rewrite Forall_forall; auto).
  destruct (C158_finder_command (F := nat) (Rc := _) v_of 0%nat (fun _ => 1%nat) (fun _ => 2%nat) (t "exp") (t "1") (t "3") (x_machine (t "Linux") x_output) (mkVersions [] [] [] [] [] []) z_num (@Some Z) (fun _ => VInt 0) (fun _ => VInt 0) [t "timestamp"] (fun _ x => VInt (Z.of_nat x)) x_str 0%Z 1%Z
    z_value z_real x_auc (fun z => z) inject_Z fst wnow wshuffle exact_mul wseed (fun _ => wfit) wpredict v_lines (proj1 C59_nonvacuous) (proj1 (proj2 C59_nonvacuous)) (fun _ => proj1 (proj2 (proj2 C59_nonvacuous))) (proj1 (proj2 (proj2 (proj2 C59_nonvacuous))))
    dec_int dec_int always always 0%Z 5%Z 1%Z 101%Z 102%Z 103%Z
    z_repr ex_read None (Some 0%Z) (Some 0%Z) z_faithful z_objects z_plain_int (fun _ => z_plain_int 0) (fun _ => z_plain_int 0) (distinct_nodup [t "timestamp"] eq_refl) z_names (fun _ x => z_plain_int (Z.of_nat x)) z_env z_outputs
    ["lpmf"] "lpmf" if_method z_line z_effects ["train.event"] [(VFile "train.event", [(false, "train.event")])] [(false, "train.event")]
    (VFile "train.event") VStdout VNone "lpmf" Mlpmf 101%Z 1%Z 102%Z 103%Z None 4%Z 1%Z 5%Z 1%Z true 2%Z z_name z_text Z.of_nat (t "out") (fun _ => t "fold") (t "merged") (9%nat, 100%Z) (fun j => match j with 0%nat => (9%nat, 100%Z) | _ => (3%nat, 700%Z) end) o w' sy inject_Z (s_data d0) (s_data d0) (3, 8)%nat
    zf_described) as (ci & text & files & merged & l & _ & _ & FT & EM & _ & NE & _ & STA).
  - right. split; [intros e [<-|[<-|[<-|[<-|[]]]]]; discriminate|reflexivity].
  - right. split; [intros e [<-|[<-|[<-|[<-|[]]]]]; discriminate|reflexivity].
  - apply DEF; [discriminate|discriminate|discriminate|discriminate|reflexivity].
  - apply DEF; [discriminate|discriminate|discriminate|discriminate|reflexivity].
  - reflexivity.
  - apply DEF; [discriminate|discriminate|discriminate|discriminate|reflexivity].
  - apply DEF; [discriminate|discriminate|discriminate|discriminate|reflexivity].
  - apply DEF; [discriminate|discriminate|discriminate|discriminate|reflexivity].
  - apply DEF; [discriminate|discriminate|discriminate|discriminate|reflexivity].
  - apply DEF; [discriminate|discriminate|discriminate|discriminate|reflexivity].
  - left. exists [mkEff 9 "validation" (VText "cv") []]. do 2 eexists. split; [reflexivity|]. do 2 (split; [reflexivity|]). apply U. repeat constructor; discriminate.
  - left. exists [mkEff 9 "validation" (VText "cv") []; mkEff 4 "rseed" (VX 4%Z) []; mkEff 10 "fold" (VX 2%Z) []]. do 2 eexists. split; [reflexivity|]. do 2 (split; [reflexivity|]). apply U. constructor.
  - apply DEF; [discriminate|discriminate|discriminate|discriminate|reflexivity].
  - left. exists []. do 2 eexists. split; [reflexivity|]. do 2 (split; [reflexivity|]). apply U. repeat constructor; discriminate.
  - left. exists [mkEff 9 "validation" (VText "cv") []; mkEff 4 "rseed" (VX 4%Z) []]. do 2 eexists. split; [reflexivity|]. do 2 (split; [reflexivity|]). apply U. repeat constructor; discriminate.
  - apply DEF; [discriminate|discriminate|discriminate|discriminate|reflexivity].
  - intros [|j] _; (split; [cbn; left; discriminate|]); (split; [discriminate|reflexivity]).
  - intros [|[|j]] LJ; [| |change (Z.to_nat 2) with 2%nat in LJ; lia]; (split; [cbn; left; discriminate|]); split; reflexivity.
  - reflexivity.
  - exact SY.
  - exact wshuffles.
  - exact exact_ok.
  - exact exact_fifth.
  - exact wpredict_rows.
  - repeat constructor.
  - exists (nth 0 z_rows (mkRow [] 0%Q 0%nat)), (nth 5 z_rows (mkRow [] 0%Q 0%nat)). split; [left; reflexivity|]. split; [cbn; tauto|discriminate].
  - reflexivity.
  - exact RT.
  - reflexivity.
  - reflexivity.
  - reflexivity.
  - apply unicode_ascii; reflexivity.
  - intros j. apply unicode_ascii; reflexivity.
  - apply unicode_ascii; reflexivity.
  - right. split; [reflexivity|]. cbn. lia.
  - exists o, w', text, files, merged, l. split; [reflexivity|].
    assert (LT : length (seq 0 (Z.to_nat 2)) = length files) by (clear - FT; induction FT; cbn; congruence). split; [rewrite <- LT; reflexivity|]. split; [exact EM|]. split; [exact NE|]. split.
    + clear - FT. change (seq 0 (Z.to_nat 2)) with [0; 1]%nat in FT. inversion FT as [|? ? ? ? _ FT1]; subst. inversion FT1 as [|? ? ? ? (o1 & w1 & R1 & _) _]; subst. exists o1, w1. exact R1.
    + intros x HX. destruct (STA false x HX) as (y & z & s & E1 & _ & E2 & E3 & EV). exists y, z, s. split; [exact E1|]. split; [exact E2|]. split; [exact E3|]. destruct EV as [EV _]. rewrite map_length in EV. exact EV.
Qed.
Print Assumptions C158_command.
Print Assumptions C158_finder_command.
