(** * From the command lines of a cross validation to its statistics, for item finders

    C157: the same command line with '-o name -n fold' added for each fold,
    and a merge. *)
From Coq Require Import String List ZArith QArith Qround Qreals Reals NArith Bool Lia.
From Verif Require Import M_Py P_Py M_Json M_Convert P_Convert M_JsonText M_Tree M_Rec M_Data M_Score M_Load M_Split M_Opt M_Args P_Args T_Args T_Args2 M_Main T_Main M_Scripts M_Task P_Scripts P_Scripts2 M_CvTree M_HoTree M_InfoTree M_Metrics M_StatTree T_Json T_JsonText T_Tree T_Scripts T_CvTree T_StatTree T_Eval T_HoTree T_InfoTree T_InfoTree2 T_InfoTree3 T_InfoTree4 T_InfoTree5 Spec P_Split T_Split.
Import ListNotations.
Local Open Scope list_scope.
Local Open Scope string_scope.

Section Command.
  Context {X Fl Cx Ob W S F FR G P Rc : Type}.
  Notation V := (value Fl Cx Ob text).
  Variables (of_x : X -> V) (none : Ob) (class : recommender -> Ob) (file : val X -> Ob).
  Variables (script_name script_version kamrecsys_version : text) (mc : machine) (ve : versions).
  Variables (num : Q -> Fl) (predicted : P -> Fl) (training_tree : run FR -> V) (test_tree : run nat -> V).
  Variables (names : list text) (column : text -> G -> V) (str : Ob -> text).
  Variables (v_false v_true : X).
  Variables (value_of : Fl -> option Q) (of_real : option R -> Fl) (auc : list Q -> list R -> R).
  Notation experiment_tree := (@M_InfoTree.experiment_tree X Fl Cx Ob F FR G P of_x none class file script_name script_version kamrecsys_version mc ve num predicted training_tree test_tree names column str).
  Notation score_statistics := (@M_StatTree.score_statistics Fl Cx Ob value_of of_real str).
  Notation finder_statistics := (@M_StatTree.finder_statistics Fl Cx Ob value_of of_real str auc).
  Notation stats_tree := (@M_Tree.stats_tree Fl Cx Ob score_statistics finder_statistics).
  Context (xz : X -> Z) (xq : X -> Q) (rng : W -> S).
  Context (now : W -> Z * W) (shuffle : W -> list nat -> list nat * W) (fmul : Q -> nat -> Q) (seed : option Z -> W -> W).
  Context (fit : recommender * dict string (kval X) -> W -> sdata F G -> res (Rc * FR * W)) (predict : Rc -> list (list Z) -> res (pred P)).
  Context (content : val X -> list (frow G)).
  Hypotheses (Hnow : clock_apart rng now) (Hsh : random_from rng shuffle) (Hfit : forall md, deterministic rng (fit md)).
  Hypothesis Hseed : forall z w1 w2, rng (seed (Some z) w1) = rng (seed (Some z) w2).
  Context (to_int to_float : string -> option X) (can_read can_write : string -> bool).
  Context (v_0 v_5 v_1 v_C v_one v_tol : X).
  Notation EXP := (exp_parser v_0 v_5 v_1 v_C v_one v_tol).
  Notation MAIN := (main to_int to_float can_read can_write v_false v_true xz xq now shuffle fmul seed fit predict (fun ts f dm => load_data_if (content f) dm ts)).
  Notation line := (line to_int to_float can_read can_write v_0 v_5 v_1 v_C v_one v_tol).
  Notation effect := (effect (X := X)).
  Notation user_item_rows := (Forall (fun r : frow G => length (r_ids r) = 2%nat)).

  (** 1 for scores above the middle of the domain *)
  Notation wanted d := (fun l : frow G => if Qle_bool (r_score l) ((lo d + hi d) / 2) then 0 else 1)%Q.

  Theorem C157_command : forall methods dfl pick argv es ps vos op tr fo te mt m c k al tol mi s0 a b g ts f (names_ texts : nat -> string) (xs : nat -> X) out outs merged_out w ws o w' s (pq : P -> Q) train test,
    line methods dfl argv es ps vos op -> in_file es vos tr -> out_file es vos fo ->
    chosen (EXP methods dfl) es "testfile" te -> chosen (EXP methods dfl) es "method" (VText mt) -> pick mt = Some m ->
    chosen (EXP methods dfl) es "C" (VX c) -> chosen (EXP methods dfl) es "k" (VX k) -> chosen (EXP methods dfl) es "alpha" (VX al) ->
    chosen (EXP methods dfl) es "tol" (VX tol) -> chosen (EXP methods dfl) es "maxiter" (maybe mi) -> chosen (EXP methods dfl) es "rseed" (VX s0) ->
    chosen (EXP methods dfl) es "domain" (VXs [a; b; g]) -> chosen (EXP methods dfl) es "timestamp" (VBool ts) -> chosen (EXP methods dfl) es "validation" (VText "cv") ->
    chosen (EXP methods dfl) es "fold" (VX f) -> chosen (EXP methods dfl) es "fold_no" VNone ->
    (forall j, (j < Z.to_nat (xz f))%nat -> P_Args.plain (names_ j) /\ names_ j <> "-" /\ can_write (names_ j) = true) -> (forall j, (j < Z.to_nat (xz f))%nat -> P_Args.plain (texts j) /\ to_int (texts j) = Some (xs j) /\ xz (xs j) = Z.of_nat j) ->
    m = Mlpmf -> get_system_info mc false = Ok (s : V) ->
    shuffles shuffle -> product_ok fmul -> fifth_of fmul -> row_by_row predict -> user_item_rows (content tr) -> two_users (content tr) -> (0 < xz f)%Z ->
    MAIN pick (EXP methods dfl) argv w = Some (Done (o, w') op) ->
    value_of (num 0) = Some 0%Q -> value_of (num 1) = Some 1%Q -> (forall x, value_of (predicted x) = Some (pq x)) ->
    let i := fun fo fn => mkInfo tr fo te (init_model v_false v_true (mkOpts m c k al tol mi (Some s0))) [a; b; g] ts "cv" f fn in
    exists (trd : sdata F G) dm ci result trees merged l,
      load_data_if (content tr) (mkDom (xq a) (xq b) (xq g)) ts = Ok (trd, dm) /\ o = Crossed (xz f) dm ci /\ experiment_tree m (i fo None) out train test o = Ok result /\
      Forall2 (fun j tree => exists oj wj, MAIN pick (EXP methods dfl) (argv ++ ["-o"; names_ j; "-n"; texts j])%list (ws j) = Some (Done (oj, wj) (op ++ [(true, names_ j)])%list) /\
                 experiment_tree m (i (VFile (names_ j)) (Some (xs j))) (outs j) train test oj = Ok tree) (seq 0 (Z.to_nat (xz f))) trees /\
      merge_trees merged_out trees = Ok merged /\ tests ci l /\ l <> [] /\ (forall k j q v, In (k, j, q, v) l -> nth_error (map (wanted dm) (content tr)) j = Some q) /\
      forall keepdata x, x = result \/ x = merged -> exists z stats, stats_tree keepdata x = Ok z /\ path z [t "statistics"] = Some stats /\ found of_real auc stats (map (fun x => snd (fst x)) l) (map (fun x => pq (snd x)) l).
  Proof.
    intros methods dfl pick argv es ps vos op tr fo te mt m c k al tol mi s0 a b g ts f names_ texts xs out outs merged_out w ws o w' s pq train test
      LI HI HO HT HM PK HC HK HA HTo HMi HR HD HTs HV HF HFn NM TX NL SY HS HP H5 RR UT TU HN RT V0 V1 NP i.
    pose proof (C143_experiment to_int to_float can_read can_write v_false v_true v_0 v_5 v_1 v_C v_one v_tol xz xq now shuffle fmul seed fit predict (fun ts f dm => load_data_if (content f) dm ts)
      methods dfl pick argv es ps vos op w tr fo te mt m c k al tol mi (Some s0) [a; b; g] ts "cv" f None LI HI HO HT HM PK HC HK HA HTo HMi HR HD HTs HV HF HFn) as E0.
    rewrite RT in E0. change (mkInfo _ _ _ _ _ _ _ _ _) with (i fo None) in E0.
    match type of E0 with _ = match ?x with _ => _ end => destruct x as [r|] eqn:RUN; [|discriminate] end. injection E0 as <-.
    destruct (C157_cross of_x none class file script_name script_version kamrecsys_version mc ve num predicted training_tree test_tree names column str v_false v_true value_of of_real auc xz xq rng now shuffle fmul seed fit predict content Hnow Hsh Hfit Hseed
      m c k al tol mi (Some s0) tr fo te a b g ts f i (fun j => VFile (names_ j)) xs s0 out outs merged_out w ws o w' s pq train test eq_refl NL SY HS HP H5 RR UT TU HN (fun j LJ => proj2 (proj2 (TX j LJ))) RUN V0 V1 NP)
      as (trd & dm & ci & result & trees & merged & l & L1 & L2 & L3 & _ & FT & L5 & L6 & L7 & L8 & L9).
    exists trd, dm, ci, result, trees, merged, l. split; [exact L1|]. split; [exact L2|]. split; [exact L3|]. split; [|auto 7].
    assert (FT' : Forall2 (fun j tree => (j < Z.to_nat (xz f))%nat /\ exists ok wk, run_task xz xq now shuffle fmul seed fit predict (fun ts f dm => load_data_if (content f) dm ts) (i (VFile (names_ j)) (Some (xs j))) (Some s0) (ws j) = Ok (ok, wk) /\ experiment_tree m (i (VFile (names_ j)) (Some (xs j))) (outs j) train test ok = Ok tree) (seq 0 (Z.to_nat (xz f))) trees).
    { assert (IN : forall j, In j (seq 0 (Z.to_nat (xz f))) -> (j < Z.to_nat (xz f))%nat) by (intros j I; apply in_seq in I; lia). clear - FT IN. induction FT as [|j tree l0 l' E FT0 IH]; constructor; [split; [apply IN; left; reflexivity|exact E]|apply IH; intros x I; apply IN; right; exact I]. }
    eapply P_Rec.F2_impl; [|exact FT']. intros j tree (LJ0 & oj & wj & RJ & TJ). exists oj, wj. split; [|exact TJ].
    destruct (NM j LJ0) as (N1 & N2 & N3). destruct (TX j LJ0) as (T1 & T2 & _).
    pose proof (line_more to_int to_float can_read can_write v_0 v_5 v_1 v_C v_one v_tol methods dfl argv es ps vos op (names_ j) (texts j) (xs j) LI N1 N2 N3 T1 T2) as LJ.
    assert (IJ : in_file (es ++ more (names_ j) (xs j))%list vos tr).
    { destruct HI as [(l1 & e & l2 & -> & E1 & E2 & U)|[U E]].
      - left. exists l1, e, (l2 ++ more (names_ j) (xs j))%list. split; [rewrite <- app_assoc; reflexivity|]. split; [exact E1|]. split; [exact E2|]. intros e' I. apply in_app_or in I. destruct I as [I|[<-|[<-|[]]]]; [auto|discriminate|discriminate].
      - right. split; [|exact E]. intros e I. apply in_app_or in I. destruct I as [I|[<-|[<-|[]]]]; [auto|discriminate|discriminate]. }
    assert (OJ : out_file (es ++ more (names_ j) (xs j))%list vos (VFile (names_ j))).
    { left. exists es, (mkEff 6 "outfile" (VFile (names_ j)) [(true, names_ j)]), [mkEff 11 "fold_no" (VX (xs j)) []]. split; [reflexivity|]. split; [reflexivity|]. split; [reflexivity|]. intros e' [<-|[]]. discriminate. }
    assert (FJ : chosen (EXP methods dfl) (es ++ more (names_ j) (xs j))%list "fold_no" (maybe (Some (xs j)))).
    { left. exists (es ++ [mkEff 6 "outfile" (VFile (names_ j)) [(true, names_ j)]])%list, (mkEff 11 "fold_no" (VX (xs j)) []), []. split; [rewrite <- app_assoc; reflexivity|]. split; [reflexivity|]. split; [reflexivity|]. intros e' []. }
    assert (CJ : forall d v, chosen (EXP methods dfl) es d v -> d <> "outfile" -> d <> "fold_no" -> chosen (EXP methods dfl) (es ++ more (names_ j) (xs j))%list d v) by (intros; apply chosen_more; assumption).
    rewrite (C143_experiment to_int to_float can_read can_write v_false v_true v_0 v_5 v_1 v_C v_one v_tol xz xq now shuffle fmul seed fit predict (fun ts f dm => load_data_if (content f) dm ts)
      methods dfl pick _ _ ps vos _ (ws j) tr (VFile (names_ j)) te mt m c k al tol mi (Some s0) [a; b; g] ts "cv" f (Some (xs j)) LJ IJ OJ
      (CJ _ _ HT ltac:(discriminate) ltac:(discriminate)) (CJ _ _ HM ltac:(discriminate) ltac:(discriminate)) PK (CJ _ _ HC ltac:(discriminate) ltac:(discriminate)) (CJ _ _ HK ltac:(discriminate) ltac:(discriminate))
      (CJ _ _ HA ltac:(discriminate) ltac:(discriminate)) (CJ _ _ HTo ltac:(discriminate) ltac:(discriminate)) (CJ _ _ HMi ltac:(discriminate) ltac:(discriminate)) (CJ _ _ HR ltac:(discriminate) ltac:(discriminate))
      (CJ _ _ HD ltac:(discriminate) ltac:(discriminate)) (CJ _ _ HTs ltac:(discriminate) ltac:(discriminate)) (CJ _ _ HV ltac:(discriminate) ltac:(discriminate)) (CJ _ _ HF ltac:(discriminate) ltac:(discriminate)) FJ).
    change (mkInfo _ _ _ _ _ _ _ _ _) with (i (VFile (names_ j)) (Some (xs j))). cbv beta in RJ. rewrite RJ. reflexivity.
  Qed.
End Command.

(** ** Two folds, the command lines in full *)
Local Notation XF := (Q + option R)%type.
Local Notation XV := (value XF Empty_set nat text).
Local Notation ifz := (if_parser 0%Z 5%Z 1%Z 101%Z 102%Z 103%Z).
Local Notation z_main := (main dec_int dec_int always always 0%Z 1%Z (fun z => z) inject_Z wnow wshuffle exact_mul wseed (fun _ => wfit) wpredict (fun ts f dm => load_data_if (F := nat) (z_lines f) dm ts) if_method ifz).
Local Notation z_stats := (@M_Tree.stats_tree XF Empty_set nat (M_StatTree.score_statistics x_value x_float x_str) (M_StatTree.finder_statistics x_value x_float x_str x_auc)).
Lemma zf_described : line dec_int dec_int always always 0%Z 5%Z 1%Z 101%Z 102%Z 103%Z ["lpmf"] "lpmf" z_line z_effects ["train.event"] [(VFile "train.event", [(false, "train.event")])] [(false, "train.event")].
Proof.
  exists [], [], [["-v"; "cv"]; ["--rseed"; "4"]; ["-f"; "2"]; ["-d"; "1"; "5"; "1"]], z_effects. split; [constructor|]. split.
  { constructor; [|constructor; [|constructor; [|constructor; [|constructor]]]].
    - exists ["cv"]. split; [apply (sp_apart ifz 9 "-v" ["cv"]); [left; by_option|by_option|constructor; [cbn; left; discriminate|constructor]]|]. eexists. split; [reflexivity|]. cbn. exists "cv". do 2 (split; [reflexivity|]). split; [reflexivity|]. split; [tauto|reflexivity].
    - exists ["4"]. split; [apply (sp_apart ifz 4 "--rseed" ["4"]); [left; by_option|by_option|constructor; [cbn; left; discriminate|constructor]]|]. eexists. split; [reflexivity|]. cbn. exists "4". do 2 (split; [reflexivity|]). split; [reflexivity|]. exists 4%Z. split; reflexivity.
    - exists ["2"]. split; [apply (sp_apart ifz 10 "-f" ["2"]); [left; by_option|by_option|constructor; [cbn; left; discriminate|constructor]]|]. eexists. split; [reflexivity|]. cbn. exists "2". do 2 (split; [reflexivity|]). split; [reflexivity|]. exists 2%Z. split; reflexivity.
    - exists ["1"; "5"; "1"]. split; [apply (sp_apart ifz 12 "-d" ["1"; "5"; "1"]); [left; by_option|by_option|repeat (constructor; [cbn; left; discriminate|]); constructor]|]. eexists. split; [reflexivity|]. cbn. exists "1", "5", "1", 1%Z, 5%Z, 1%Z. do 2 (split; [reflexivity|]). repeat (split; [split; [reflexivity|eexists; split; reflexivity]|]). split; reflexivity. }
  split; [reflexivity|]. split.
  { intros i j Hi Hj (N & oi & oj & g & Ei & Ej & Gi & Gj). cbn in Hi. repeat (destruct Hi as [<-|Hi]; [cbn in Ei; injection Ei as <-; discriminate|]). destruct Hi. }
  split; [cbn; lia|]. split; [reflexivity|]. split; [|split; reflexivity].
  intros [|[|k]] a q vo Ha Hq Hv; try discriminate. cbn in Ha, Hq, Hv. injection Ha as <-. injection Hq as <-. injection Hv as <-. split; [cbn; left; discriminate|]. right. repeat split; discriminate.
Qed.
Example C157_command_nonvacuous : exists o w' result trees merged l,
  z_main z_line (9%nat, 100%Z) = Some (Done (o, w') [(false, "train.event")]) /\ length trees = 2%nat /\ merge_trees (t "merged") trees = Ok merged /\ l <> [] /\
  (exists o1 w1, z_main ["train.event"; "-v"; "cv"; "--rseed"; "4"; "-f"; "2"; "-d"; "1"; "5"; "1"; "-o"; "f1.json"; "-n"; "1"] (3%nat, 700%Z) = Some (Done (o1, w1) [(false, "train.event"); (true, "f1.json")])) /\
  forall x, x = result \/ x = merged -> exists m s, z_stats false x = Ok m /\ path m [t "statistics"] = Some s /\ path s [t "n_samples"] = Some (VInt (Z.of_nat (@length (nat * nat * Q * Z) l))).
Proof.
  destruct (z_main z_line (9%nat, 100%Z)) as [[cd op|e op|[o w'] op]|] eqn:RT; try (vm_compute in RT; discriminate).
  assert (OP : op = [(false, "train.event")]) by (vm_compute in RT; injection RT as _ _ <-; reflexivity). subst op.
  destruct (get_system_info (Fl := XF) (Cx := Empty_set) (Ob := nat) (x_machine (t "Linux") x_output) false) as [sy|] eqn:SY; [|vm_compute in SY; discriminate].
  destruct (load_data_if (F := nat) ex_rows6 (mkDom 1 5 1) true) as [[d0 dm0]|] eqn:L0; [|vm_compute in L0; discriminate].
  assert (DEF : forall d v, d <> "validation" -> d <> "rseed" -> d <> "fold" -> d <> "domain" -> aget (pr_defaults (exp_parser 0%Z 5%Z 1%Z 101%Z 102%Z 103%Z ["lpmf"] "lpmf")) d = Some v -> chosen (exp_parser 0%Z 5%Z 1%Z 101%Z 102%Z 103%Z ["lpmf"] "lpmf") z_effects d v).
  { intros d v N1 N2 N3 N4 E. right. split; [|exact E]. intros e [<-|[<-|[<-|[<-|[]]]]]; cbn; congruence. }
  assert (U : forall (d : string) (l : list (effect (X := Z))), Forall (fun e => e_dest e <> d) l -> forall e', In e' l -> e_dest e' <> d) by (intros d l; rewrite Forall_forall; auto).
  destruct (C157_command (F := nat) (Rc := _) z_of 0%nat (fun _ => 1%nat) (fun _ => 2%nat) (t "exp") (t "1") (t "3") (x_machine (t "Linux") x_output) (mkVersions [] [] [] [] [] []) inl (fun z => inl (inject_Z z)) (fun _ => VInt 0) (fun _ => VInt 0) [t "timestamp"] (fun _ x => VInt (Z.of_nat x)) x_str 0%Z 1%Z
    x_value x_float x_auc (fun z => z) inject_Z fst wnow wshuffle exact_mul wseed (fun _ => wfit) wpredict z_lines (proj1 C59_nonvacuous) (proj1 (proj2 C59_nonvacuous)) (fun _ => proj1 (proj2 (proj2 C59_nonvacuous))) (proj1 (proj2 (proj2 (proj2 C59_nonvacuous))))
    dec_int dec_int always always 0%Z 5%Z 1%Z 101%Z 102%Z 103%Z ["lpmf"] "lpmf" if_method z_line z_effects ["train.event"] [(VFile "train.event", [(false, "train.event")])] [(false, "train.event")]
    (VFile "train.event") VStdout VNone "lpmf" Mlpmf 101%Z 1%Z 102%Z 103%Z None 4%Z 1%Z 5%Z 1%Z true 2%Z z_name z_text Z.of_nat (t "out") (fun _ => t "fold") (t "merged") (9%nat, 100%Z) (fun j => match j with 0%nat => (9%nat, 100%Z) | _ => (3%nat, 700%Z) end) o w' sy inject_Z (s_data d0) (s_data d0)
    zf_described) as (trd & dm & ci & result & trees & merged & l & _ & _ & _ & FT & EM & _ & NE & _ & STA).
  - right. split; [intros e [<-|[<-|[<-|[<-|[]]]]]; discriminate|reflexivity].
  - right. split; [intros e [<-|[<-|[<-|[<-|[]]]]]; discriminate|reflexivity].
  - apply DEF; [discriminate|discriminate|discriminate|discriminate|reflexivity].
  - apply DEF; [discriminate|discriminate|discriminate|discriminate|reflexivity].
  - reflexivity.
  - apply DEF; [discriminate|discriminate|discriminate|discriminate|reflexivity].
  - apply DEF; [discriminate|discriminate|discriminate|discriminate|reflexivity].
  - apply DEF; [discriminate|discriminate|discriminate|discriminate|reflexivity].
  - apply DEF; [discriminate|discriminate|discriminate|discriminate|reflexivity].
  - apply DEF; [discriminate|discriminate|discriminate|discriminate|reflexivity].
  - left. exists [mkEff 9 "validation" (VText "cv") []]. do 2 eexists. split; [reflexivity|]. do 2 (split; [reflexivity|]). apply U. repeat constructor; discriminate.
  - left. exists [mkEff 9 "validation" (VText "cv") []; mkEff 4 "rseed" (VX 4%Z) []; mkEff 10 "fold" (VX 2%Z) []]. do 2 eexists. split; [reflexivity|]. do 2 (split; [reflexivity|]). apply U. constructor.
  - apply DEF; [discriminate|discriminate|discriminate|discriminate|reflexivity].
  - left. exists []. do 2 eexists. split; [reflexivity|]. do 2 (split; [reflexivity|]). apply U. repeat constructor; discriminate.
  - left. exists [mkEff 9 "validation" (VText "cv") []; mkEff 4 "rseed" (VX 4%Z) []]. do 2 eexists. split; [reflexivity|]. do 2 (split; [reflexivity|]). apply U. repeat constructor; discriminate.
  - apply DEF; [discriminate|discriminate|discriminate|discriminate|reflexivity].
  - intros [|j] _; (split; [cbn; left; discriminate|]); (split; [discriminate|reflexivity]).
  - intros [|[|j]] LJ; [| |change (Z.to_nat 2) with 2%nat in LJ; lia]; (split; [cbn; left; discriminate|]); split; reflexivity.
  - reflexivity.
  - exact SY.
  - exact wshuffles.
  - exact exact_ok.
  - exact exact_fifth.
  - exact wpredict_rows.
  - repeat constructor.
  - exists (nth 0 ex_rows6 (mkRow [] 0%Q 0%nat)), (nth 5 ex_rows6 (mkRow [] 0%Q 0%nat)). split; [left; reflexivity|]. split; [cbn; tauto|discriminate].
  - reflexivity.
  - exact RT.
  - reflexivity.
  - reflexivity.
  - reflexivity.
  - exists o, w', result, trees, merged, l. split; [reflexivity|].
    assert (LT : length (seq 0 (Z.to_nat 2)) = length trees) by (clear - FT; induction FT; cbn; congruence). split; [rewrite <- LT; reflexivity|]. split; [exact EM|]. split; [exact NE|]. split.
    + clear - FT. change (seq 0 (Z.to_nat 2)) with [0; 1]%nat in FT. inversion FT as [|? ? ? ? _ FT1]; subst. inversion FT1 as [|? ? ? ? (o1 & w1 & R1 & _) _]; subst. exists o1, w1. exact R1.
    + intros x HX. destruct (STA false x HX) as (m & s & E1 & E2 & EV). exists m, s. split; [exact E1|]. split; [exact E2|]. destruct EV as [EV _]. rewrite map_length in EV. exact EV.
Qed.
Print Assumptions C157_command.
