(** * From the command line to the experiment

    C143: the experiment that is run is the one the options describe.  C144:
    a run that fails may have emptied its output file by then; without a test
    file the default scheme always fails. *)
From Coq Require Import Ascii String List ZArith QArith Bool Lia Permutation.
From Verif Require Import M_Py M_Data M_Score M_Rec M_Opt M_Scripts M_Task M_Args P_Args T_Args T_Args2 M_Main.
Import ListNotations.
Open Scope string_scope.

Section Main.
  Context {X W F G Rc FR V : Type}.
  Context (to_int to_float : string -> option X) (can_read can_write : string -> bool) (v_false v_true : X).
  Context (v_0 v_5 v_1 v_C v_one v_tol : X).
  Context (xz : X -> Z) (xq : X -> Q).
  Context (now : W -> Z * W) (shuffle : W -> list nat -> list nat * W) (fmul : Q -> nat -> Q) (seed : option Z -> W -> W).
  Context (fit : recommender * dict string (kval X) -> W -> sdata F G -> res (Rc * FR * W)) (predict : Rc -> list (list Z) -> res (pred V)).
  Context (load : bool -> val X -> dom -> res (sdata F G * dom)).
  Notation SETS := (sets to_int to_float can_read can_write).
  Notation EXP := (exp_parser v_0 v_5 v_1 v_C v_one v_tol).
  Notation MAIN := (main to_int to_float can_read can_write v_false v_true xz xq now shuffle fmul seed fit predict load).
  Notation RUN := (run_task xz xq now shuffle fmul seed fit predict load).
  Notation effect := (effect (X := X)).

  (** [v] is what the last option for [d] says, or the default *)
  Definition chosen (p : parser X) (es : list effect) (d : string) (v : val X) : Prop :=
    (exists l1 e l2, es = (l1 ++ e :: l2)%list /\ e_dest e = d /\ e_val e = v /\ forall e', In e' l2 -> e_dest e' <> d) \/
    ((forall e, In e es -> e_dest e <> d) /\ aget (pr_defaults p) d = Some v).

  Definition maybe (o : option X) : val X := match o with Some x => VX x | None => VNone end.

  Lemma exp_two_files : forall methods dm, two_files (EXP methods dm).
  Proof.
    intros methods dm. do 5 (split; [reflexivity|]).
    split; intros op I; cbn in I; repeat (destruct I as [<-|I]; [cbn; intros [H|H]; [try discriminate; reflexivity|destruct H] || (intros [])|]); destruct I.
  Qed.

  (** an experiment described by options before and after the positional
      arguments *)
  Definition line (methods : list string) (dm : string) (argv : list string) (es : list effect) (ps : list string) (vos : list (val X * list (bool * string))) (opened : list (bool * string)) : Prop :=
    exists ws1 es1 ws2 es2, Forall2 (SETS (EXP methods dm)) ws1 es1 /\ Forall2 (SETS (EXP methods dm)) ws2 es2 /\ es = (es1 ++ es2)%list /\
      compatible (EXP methods dm) (map e_opt es) /\ (length ps <= 2)%nat /\ length vos = length ps /\
      (forall k a q vo, nth_error ps k = Some a -> nth_error (pr_pos (EXP methods dm)) k = Some q -> nth_error vos k = Some vo -> places to_int to_float can_read can_write a q (fst vo) (snd vo)) /\
      argv = (concat ws1 ++ ps ++ concat ws2)%list /\ opened = (concat (map e_opened es1) ++ concat (map snd vos) ++ concat (map e_opened es2))%list.

  (** the file an option names, or the positional argument, or the stream *)
  Definition in_file (es : list effect) (vos : list (val X * list (bool * string))) (v : val X) : Prop :=
    (exists l1 e l2, es = (l1 ++ e :: l2)%list /\ e_dest e = "infile" /\ e_val e = v /\ forall e', In e' l2 -> e_dest e' <> "infile") \/
    ((forall e, In e es -> e_dest e <> "infile") /\ v = match vos with vo :: _ => fst vo | [] => VStdin end).
  Definition out_file (es : list effect) (vos : list (val X * list (bool * string))) (v : val X) : Prop :=
    (exists l1 e l2, es = (l1 ++ e :: l2)%list /\ e_dest e = "outfile" /\ e_val e = v /\ forall e', In e' l2 -> e_dest e' <> "outfile") \/
    ((forall e, In e es -> e_dest e <> "outfile") /\ v = match vos with _ :: vo :: _ => fst vo | _ => VStdout end).

  (** ** C143 *)
  Theorem C143_experiment : forall methods dm pick argv es ps vos o w tr out te mt m c k al tol mi rs dmn ts sch f fn,
    line methods dm argv es ps vos o -> in_file es vos tr -> out_file es vos out ->
    chosen (EXP methods dm) es "testfile" te -> chosen (EXP methods dm) es "method" (VText mt) -> pick mt = Some m ->
    chosen (EXP methods dm) es "C" (VX c) -> chosen (EXP methods dm) es "k" (VX k) -> chosen (EXP methods dm) es "alpha" (VX al) ->
    chosen (EXP methods dm) es "tol" (VX tol) -> chosen (EXP methods dm) es "maxiter" (maybe mi) -> chosen (EXP methods dm) es "rseed" (maybe rs) ->
    chosen (EXP methods dm) es "domain" (VXs dmn) -> chosen (EXP methods dm) es "timestamp" (VBool ts) -> chosen (EXP methods dm) es "validation" (VText sch) ->
    chosen (EXP methods dm) es "fold" (VX f) -> chosen (EXP methods dm) es "fold_no" (maybe fn) ->
    MAIN pick (EXP methods dm) argv w =
      match RUN (mkInfo tr out te (init_model v_false v_true (mkOpts m c k al tol mi rs)) dmn ts sch f fn) rs w with
      | Ok r => Some (Done r o)
      | Raise e => Some (Raised e o)
      end.
  Proof.
    intros methods dm pick argv es ps vos o w tr out te mt m c k al tol mi rs dmn ts sch f fn
      (ws1 & es1 & ws2 & es2 & F1 & F2 & -> & CM & LP & LV & PL & -> & ->) HI HO HT HM PK HC HK HA HTo HMi HR HD HTs HS HF HFn.
    destruct (C142_files to_int to_float can_read can_write (EXP methods dm) ws1 es1 ps vos ws2 es2 (proj1 (exp_table v_0 v_5 v_1 v_C v_one v_tol methods dm)) (exp_two_files methods dm) F1 F2 CM LP LV PL) as (ns & E & L & IN & OUT & D).
    assert (GET : forall d v, chosen (EXP methods dm) (es1 ++ es2) d v -> ~ In d ["infile"; "outfile"; "infilep"; "outfilep"] -> aget ns d = Some v).
    { intros d v [(l1 & e & l2 & EL & <- & <- & U)|[N E0]] Hd; [apply (L l1 e l2 EL U)|]. rewrite (D d N Hd). exact E0. }
    assert (GI : aget ns "infile" = Some tr).
    { destruct HI as [(l1 & e & l2 & EL & Ed & <- & U)|[N ->]]; [|apply IN; exact N]. rewrite <- Ed in U |- *. apply (L l1 e l2 EL U). }
    assert (GO : aget ns "outfile" = Some out).
    { destruct HO as [(l1 & e & l2 & EL & Ed & <- & U)|[N ->]]; [|apply OUT; exact N]. rewrite <- Ed in U |- *. apply (L l1 e l2 EL U). }
    unfold main. rewrite E. unfold init_info, a_text, a_x, a_maybe, a_list, a_bool, attr. rewrite GI, GO. cbn [bind].
    rewrite (GET _ _ HT), (GET _ _ HM), (GET _ _ HC), (GET _ _ HK), (GET _ _ HA), (GET _ _ HTo), (GET _ _ HMi), (GET _ _ HR), (GET _ _ HD), (GET _ _ HTs), (GET _ _ HS), (GET _ _ HF), (GET _ _ HFn)
      by (cbn; intros NI; repeat (destruct NI as [NI|NI]; [discriminate|]); destruct NI).
    cbn [bind]. destruct mi, rs; cbn [maybe bind]; rewrite PK; cbn [bind]; destruct fn; reflexivity.
  Qed.

  (** the values of C143 exist for every such line *)
  Lemma last_or_none : forall (es : list effect) d, (exists l1 e l2, es = (l1 ++ e :: l2)%list /\ e_dest e = d /\ forall e', In e' l2 -> e_dest e' <> d) \/ (forall e, In e es -> e_dest e <> d).
  Proof.
    intros es d. induction es as [|e l IH]; [right; intros e []|].
    destruct IH as [(l1 & e0 & l2 & -> & H1 & H2)|IH]; [left; exists (e :: l1), e0, l2; auto|].
    destruct (string_dec (e_dest e) d) as [Ed|Ed]; [left; exists [], e, l; auto|right]. intros e' [<-|I]; auto.
  Qed.

  Lemma chosen_kind : forall methods dm es (d : string) (K : val X -> Prop),
    (forall e, In e es -> exists w, SETS (EXP methods dm) w e) ->
    (forall op e args, In op (exp_opts methods) -> In d (stored (o_action op)) -> nth_error (exp_opts methods) (e_opt e) = Some op -> e_dest e = d ->
       does to_int to_float can_read can_write (EXP methods dm) args e -> K (e_val e)) ->
    (exists v, aget (pr_defaults (EXP methods dm)) d = Some v /\ K v) -> exists v, chosen (EXP methods dm) es d v /\ K v.
  Proof.
    intros methods dm es d K SE HK (v0 & E0 & K0). destruct (last_or_none es d) as [(l1 & e & l2 & EL & Ed & U)|N].
    - exists (e_val e). split; [left; exists l1, e, l2; auto|]. destruct (SE e) as (w & Sw); [rewrite EL; apply in_or_app; right; left; reflexivity|].
      destruct (effect_stored to_int to_float can_read can_write _ _ _ Sw) as (op & args & I & IS & NE & DO). rewrite Ed in IS. eapply HK; eauto.
    - exists v0. split; [right; auto|exact K0].
  Qed.

  Theorem C143_described : forall methods dm argv es ps vos o, line methods dm argv es ps vos o ->
    exists tr out te mt c k al tol mi rs a b g ts sch f fn,
    in_file es vos tr /\ out_file es vos out /\
    chosen (EXP methods dm) es "testfile" te /\ chosen (EXP methods dm) es "method" (VText mt) /\ (In mt methods \/ mt = dm) /\
    chosen (EXP methods dm) es "C" (VX c) /\ chosen (EXP methods dm) es "k" (VX k) /\ chosen (EXP methods dm) es "alpha" (VX al) /\
    chosen (EXP methods dm) es "tol" (VX tol) /\ chosen (EXP methods dm) es "maxiter" (maybe mi) /\ chosen (EXP methods dm) es "rseed" (maybe rs) /\
    chosen (EXP methods dm) es "domain" (VXs [a; b; g]) /\ chosen (EXP methods dm) es "timestamp" (VBool ts) /\
    chosen (EXP methods dm) es "validation" (VText sch) /\ (sch = "holdout" \/ sch = "cv") /\
    chosen (EXP methods dm) es "fold" (VX f) /\ chosen (EXP methods dm) es "fold_no" (maybe fn).
  Proof.
    intros methods dm argv es ps vos o (ws1 & es1 & ws2 & es2 & F1 & F2 & -> & _ & _ & _ & _ & _ & _).
    assert (SE : forall e : effect, In e (es1 ++ es2)%list -> exists w, SETS (EXP methods dm) w e).
    { intros e Ie. apply in_app_iff in Ie as [Ie|Ie]; [destruct (F2_in _ _ _ _ _ _ F1 Ie) as (w & _ & Sw)|destruct (F2_in _ _ _ _ _ _ F2 Ie) as (w & _ & Sw)]; eauto. }
    assert (ONE : forall d c (K : val X -> Prop), (forall op, In op (exp_opts methods) -> In d (stored (o_action op)) -> o_action op = AStore d One c) ->
       (forall s v ob, reads to_int to_float can_read can_write c s v ob -> K v) -> (exists v, aget (pr_defaults (EXP methods dm)) d = Some v /\ K v) -> exists v, chosen (EXP methods dm) (es1 ++ es2) d v /\ K v).
    { intros d c K U RK DF. apply chosen_kind; [exact SE| |exact DF]. intros op e args I IS NE Ed (op' & NE' & DO).
      change (pr_opts (EXP methods dm)) with (exp_opts methods) in NE'. rewrite NE in NE'. injection NE' as <-. rewrite (U op I IS) in DO. destruct DO as (s & _ & _ & R). eapply RK; eauto. }
    pose (KX := fun v : val X => exists x, v = VX x). pose (KM := fun v : val X => exists x, v = maybe x).
    assert (NUM : forall d c, c = CInt \/ c = CFloat -> (forall op, In op (exp_opts methods) -> In d (stored (o_action op)) -> o_action op = AStore d One c) ->
       (exists x, aget (pr_defaults (EXP methods dm)) d = Some (VX x)) -> exists x, chosen (EXP methods dm) (es1 ++ es2) d (VX x)).
    { intros d c CC U (x0 & E0). destruct (ONE d c KX U) as (v & CH & x & ->); [|exists (VX x0); split; [exact E0|exists x0; reflexivity]|eauto].
      intros s v ob R. destruct CC as [->| ->]; cbn in R; destruct R as (_ & x & _ & ->); exists x; reflexivity. }
    assert (NUM' : forall d c, c = CInt \/ c = CFloat -> (forall op, In op (exp_opts methods) -> In d (stored (o_action op)) -> o_action op = AStore d One c) ->
       aget (pr_defaults (EXP methods dm)) d = Some VNone -> exists x, chosen (EXP methods dm) (es1 ++ es2) d (maybe x)).
    { intros d c CC U E0. destruct (ONE d c KM U) as (v & CH & x & ->); [|exists VNone; split; [exact E0|exists None; reflexivity]|eauto].
      intros s v ob R. destruct CC as [->| ->]; cbn in R; destruct R as (_ & x & _ & ->); exists (Some x); reflexivity. }
    Ltac table := let op := fresh in let I := fresh in intros op I; cbn in I;
      repeat (destruct I as [<-|I]; [cbn; let H := fresh in intros H; repeat (destruct H as [H|H]; [try discriminate; reflexivity|]); destruct H|]); destruct I.
    destruct (NUM "C" CFloat (or_intror eq_refl) ltac:(table) ltac:(eexists; reflexivity)) as (c & HC).
    destruct (NUM "k" CInt (or_introl eq_refl) ltac:(table) ltac:(eexists; reflexivity)) as (k & HK).
    destruct (NUM "alpha" CFloat (or_intror eq_refl) ltac:(table) ltac:(eexists; reflexivity)) as (al & HA).
    destruct (NUM "tol" CFloat (or_intror eq_refl) ltac:(table) ltac:(eexists; reflexivity)) as (tol & HT).
    destruct (NUM "fold" CInt (or_introl eq_refl) ltac:(table) ltac:(eexists; reflexivity)) as (f & HF).
    destruct (NUM' "maxiter" CInt (or_introl eq_refl) ltac:(table) eq_refl) as (mi & HMi).
    destruct (NUM' "rseed" CInt (or_introl eq_refl) ltac:(table) eq_refl) as (rs & HR).
    destruct (NUM' "fold_no" CInt (or_introl eq_refl) ltac:(table) eq_refl) as (fn & HFn).
    destruct (ONE "testfile" CRead (fun _ => True) ltac:(table) (fun _ _ _ _ => I) ltac:(eexists; split; [reflexivity|exact I])) as (te & HTe & _).
    destruct (ONE "method" (CChoice methods) (fun v => exists mt, v = VText mt /\ (In mt methods \/ mt = dm)) ltac:(table)) as (v & HM & mt & -> & Hmt).
    { intros s v ob (_ & I & ->). exists s. auto. } { eexists; split; [reflexivity|]. exists dm. auto. }
    destruct (ONE "validation" (CChoice ["holdout"; "cv"]) (fun v => exists s, v = VText s /\ (s = "holdout" \/ s = "cv")) ltac:(table)) as (v & HV & sch & -> & Hsch).
    { intros s v ob (_ & I & ->). exists s. cbn in I. split; [reflexivity|]. destruct I as [<-|[<-|[]]]; auto. } { eexists; split; [reflexivity|]. exists "holdout". auto. }
    destruct (chosen_kind methods dm (es1 ++ es2) "domain" (fun v => exists a b g, v = VXs [a; b; g]) SE) as (v & HD & a & b & g & ->).
    { intros op e args I IS NE Ed (op' & NE' & DO). change (pr_opts (EXP methods dm)) with (exp_opts methods) in NE'. rewrite NE in NE'. injection NE' as <-.
      assert (A : o_action op = AStore "domain" Three CFloat) by (revert op I IS NE DO; intros op I IS _ _; revert op I IS; table).
      rewrite A in DO. destruct DO as (s1 & s2 & s3 & x & y & z & _ & _ & _ & _ & _ & -> & _). eauto. }
    { eexists; split; [reflexivity|]. eauto. }
    destruct (chosen_kind methods dm (es1 ++ es2) "timestamp" (fun v => exists b, v = VBool b) SE) as (v & HTs & ts & ->).
    { intros op e args I IS NE Ed (op' & NE' & DO). change (pr_opts (EXP methods dm)) with (exp_opts methods) in NE'. rewrite NE in NE'. injection NE' as <-.
      assert (A : exists b, o_action op = AFlag "timestamp" b).
      { clear - I IS. cbn in I. repeat (destruct I as [<-|I]; [cbn in IS |- *; repeat (destruct IS as [IS|IS]; [try discriminate; eexists; reflexivity|]); destruct IS|]). destruct I. }
      destruct A as (b0 & A). rewrite A in DO. destruct DO as (_ & _ & -> & _). eauto. }
    { eexists; split; [reflexivity|]. eauto. }
    assert (IO : forall d dflt, exists v, (exists l1 (e : effect) l2, (es1 ++ es2)%list = (l1 ++ e :: l2)%list /\ e_dest e = d /\ e_val e = v /\ forall e', In e' l2 -> e_dest e' <> d) \/ ((forall e, In e (es1 ++ es2)%list -> e_dest e <> d) /\ v = dflt)).
    { intros d dflt. destruct (last_or_none (es1 ++ es2) d) as [(l1 & e & l2 & EL & Ed & U)|N]; [exists (e_val e); left; exists l1, e, l2; auto|exists dflt; auto]. }
    destruct (IO "infile" (match vos with vo :: _ => fst vo | [] => VStdin end)) as (tr & HI).
    destruct (IO "outfile" (match vos with _ :: vo :: _ => fst vo | _ => VStdout end)) as (out & HO).
    exists tr, out, te, mt, c, k, al, tol, mi, rs, a, b, g, ts, sch, f, fn. do 16 (split; [assumption|]). assumption.
  Qed.

  (** ** C144 *)
  (** without [-t] and in the default scheme the run always fails, with its
      output file open *)
  Theorem C144_no_test : forall methods dm pick argv es ps vos o w, line methods dm argv es ps vos o ->
    (forall mt, In mt methods \/ mt = dm -> pick mt <> None) ->
    (forall e, In e es -> e_dest e <> "testfile") -> chosen (EXP methods dm) es "validation" (VText "holdout") ->
    exists e, MAIN pick (EXP methods dm) argv w = Some (Raised e o).
  Proof.
    intros methods dm pick argv es ps vos o w LN PK NT VH.
    destruct (C143_described methods dm argv es ps vos o LN) as (tr & out & te & mt & c & k & al & tol & mi & rs & a & b & g & ts & sch & f & fn & HI & HO & HTe & HM & Hmt & HC & HK & HA & HT & HMi & HR & HD & HTs & HS & Hsch & HF & HFn).
    destruct (pick mt) as [m|] eqn:EP; [|destruct (PK mt Hmt EP)].
    rewrite (C143_experiment methods dm pick argv es ps vos o w tr out te mt m c k al tol mi rs [a; b; g] ts "holdout" f fn); try assumption.
    assert (TE : te = VNone).
    { destruct HTe as [(l1 & e & l2 & EL & Ed & _)|[_ E]]; [|cbn in E; congruence]. exfalso. apply (NT e); [rewrite EL; apply in_or_app; right; left; reflexivity|exact Ed]. }
    subst te. unfold run_task. cbn [n_domain domain_of bind n_scheme n_test file_of]. unfold do_task.
    destruct (match option_map xz _ with Some t => _ | None => _ end); [eauto|].
    cbn [String.eqb Ascii.eqb]. unfold holdout_test. cbn [n_train n_timestamp n_model].
    match goal with |- context [load ?x ?y ?z] => destruct (load x y z) end; cbn; eauto.
  Qed.
End Main.

(** ** Concrete command lines *)
From Coq Require DecimalString.
Definition dec_int (s : string) : option Z := option_map Z.of_int (DecimalString.NilZero.int_of_string s).
Notation spz := (sp_parser 0%Z 5%Z 1%Z 101%Z 102%Z 103%Z).
Notation always := (fun _ : string => true).

Ltac by_option := match goal with |- takes _ _ _ => eexists; split; reflexivity | |- has _ _ _ => eexists; split; [reflexivity|cbn; tauto] end.

Lemma shown_sets :
  Forall2 (sets dec_int dec_int always always spz) [["--dim=7"]; ["-q"]; ["-mplsam"]]
    [mkEff 16 "k" (VX 7%Z) []; mkEff 3 "verbose" (VBool false) []; mkEff 8 "method" (VText "plsam") []] /\
  Forall2 (sets dec_int dec_int always always spz) [["-k"; "9"]; ["--meth"; "pmf"]; ["--rseed=-3"]; ["-o"; "out.json"]]
    [mkEff 16 "k" (VX 9%Z) []; mkEff 8 "method" (VText "pmf") []; mkEff 4 "rseed" (VX (-3)%Z) []; mkEff 6 "outfile" (VFile "out.json") [(true, "out.json")]].
Proof.
  split.
  - constructor; [|constructor; [|constructor; [|constructor]]].
    + exists ["7"]. split; [apply (sp_equals spz 16 "--dim" "7"); [left; by_option|by_option|discriminate]|].
      eexists. split; [reflexivity|]. cbn. exists "7". do 2 (split; [reflexivity|]). split; [reflexivity|]. exists 7%Z. split; reflexivity.
    + exists []. split; [apply (sp_apart spz 3 "-q" []); [left; by_option|by_option|constructor]|].
      eexists. split; [reflexivity|]. cbn. auto.
    + exists ["plsam"]. split; [apply (sp_glued spz 8 "m" "plsam"); [by_option|by_option|discriminate|discriminate|discriminate]|].
      eexists. split; [reflexivity|]. cbn. exists "plsam". do 2 (split; [reflexivity|]). split; [reflexivity|]. split; [tauto|reflexivity].
  - constructor; [|constructor; [|constructor; [|constructor; [|constructor]]]].
    + exists ["9"]. split; [apply (sp_apart spz 16 "-k" ["9"]); [left; by_option|by_option|constructor; [cbn; left; discriminate|constructor]]|].
      eexists. split; [reflexivity|]. cbn. exists "9". do 2 (split; [reflexivity|]). split; [reflexivity|]. exists 9%Z. split; reflexivity.
    + exists ["pmf"]. split.
      * apply (sp_apart spz 8 "--meth" ["pmf"]); [|by_option|constructor; [cbn; left; discriminate|constructor]].
        right. exists "--method". split; [by_option|]. split; [exists "meth"; split; [reflexivity|discriminate]|]. split; [reflexivity|]. split.
        -- intros i H. apply in_names in H. vm_compute in H. repeat (destruct H as [H|H]; [discriminate|]). exact H.
        -- split; [reflexivity|]. intros n j H P. apply in_names in H. vm_compute in H.
           repeat (destruct H as [H|H]; [injection H as <- <-; first [reflexivity|vm_compute in P; discriminate]|]). destruct H.
      * eexists. split; [reflexivity|]. cbn. exists "pmf". do 2 (split; [reflexivity|]). split; [reflexivity|]. split; [tauto|reflexivity].
    + exists ["-3"]. split; [apply (sp_equals spz 4 "--rseed" "-3"); [left; by_option|by_option|discriminate]|].
      eexists. split; [reflexivity|]. cbn. exists "-3". do 2 (split; [reflexivity|]). split; [reflexivity|]. exists (-3)%Z. split; reflexivity.
    + exists ["out.json"]. split; [apply (sp_apart spz 6 "-o" ["out.json"]); [left; by_option|by_option|constructor; [cbn; left; discriminate|constructor]]|].
      eexists. split; [reflexivity|]. cbn. exists "out.json". do 2 (split; [reflexivity|]). right. repeat split; discriminate.
Qed.

(** one line with all spellings, options on both sides of the input file *)
Lemma shown_line : line dec_int dec_int always always 0%Z 5%Z 1%Z 101%Z 102%Z 103%Z ["pmf"; "plsam"; "plsamm"] "pmf"
  ["--dim=7"; "-q"; "-mplsam"; "train.event"; "-k"; "9"; "--meth"; "pmf"; "--rseed=-3"; "-o"; "out.json"]
  [mkEff 16 "k" (VX 7%Z) []; mkEff 3 "verbose" (VBool false) []; mkEff 8 "method" (VText "plsam") [];
   mkEff 16 "k" (VX 9%Z) []; mkEff 8 "method" (VText "pmf") []; mkEff 4 "rseed" (VX (-3)%Z) []; mkEff 6 "outfile" (VFile "out.json") [(true, "out.json")]]
  ["train.event"] [(VFile "train.event", [(false, "train.event")])] [(false, "train.event"); (true, "out.json")].
Proof.
  destruct shown_sets as [F1 F2]. eexists. eexists. eexists. eexists. split; [exact F1|]. split; [exact F2|]. split; [reflexivity|]. split.
  { intros i j Hi Hj (N & oi & oj & g & Ei & Ej & Gi & Gj). cbn in Hi, Hj.
    repeat (destruct Hi as [<-|Hi]; [cbn in Ei; injection Ei as <-; try discriminate|]); [|destruct Hi].
    injection Gi as <-. repeat (destruct Hj as [<-|Hj]; [cbn in Ej; injection Ej as <-; try discriminate; congruence|]). destruct Hj. }
  split; [cbn; lia|]. split; [reflexivity|]. split.
  { intros [|[|k]] a q vo Ha Hq Hv; try discriminate. cbn in Ha, Hq, Hv. injection Ha as <-. injection Hq as <-. injection Hv as <-.
    split; [cbn; left; discriminate|]. right. repeat split; discriminate. }
  split; reflexivity.
Qed.

(** the theorem about such lines, and the whole namespace *)
Example C140_nonvacuous : exists ns o,
  parse_args dec_int dec_int always always spz ["--dim=7"; "-q"; "-mplsam"; "train.event"; "-k"; "9"; "--meth"; "pmf"; "--rseed=-3"; "-o"; "out.json"] = Some (Go (ns, o)) /\
  aget ns "k" = Some (VX 9%Z) /\ aget ns "method" = Some (VText "pmf") /\ aget ns "infilep" = Some (VFile "train.event") /\ aget ns "C" = Some (VX 101%Z).
Proof.
  destruct shown_sets as [F1 F2].
  destruct shown_line as (ws1 & es1 & ws2 & es2 & _ & _ & E & CM & _). clear ws1 ws2.
  destruct (C140_parsed dec_int dec_int always always spz _ _ ["train.event"] [(VFile "train.event", [(false, "train.event")])] _ _
    (proj1 (exp_table _ _ _ _ _ _ _ _)) (proj2 (exp_table _ _ _ _ _ _ _ _)) F1 F2 CM ltac:(cbn; lia) eq_refl) as (ns & EP & L & P & D).
  { intros [|[|k]] a q vo Ha Hq Hv; try discriminate. cbn in Ha, Hq, Hv. injection Ha as <-. injection Hq as <-. injection Hv as <-.
    split; [cbn; left; discriminate|]. right. repeat split; discriminate. }
  exists ns, [(false, "train.event"); (true, "out.json")]. split; [exact EP|]. split; [|split; [|split]].
  - apply (L [mkEff 16 "k" (VX 7%Z) []; mkEff 3 "verbose" (VBool false) []; mkEff 8 "method" (VText "plsam") []] (mkEff 16 "k" (VX 9%Z) []) _ eq_refl).
    cbn. intros e' H. repeat (destruct H as [<-|H]; [discriminate|]). destruct H.
  - apply (L [mkEff 16 "k" (VX 7%Z) []; mkEff 3 "verbose" (VBool false) []; mkEff 8 "method" (VText "plsam") []; mkEff 16 "k" (VX 9%Z) []] (mkEff 8 "method" (VText "pmf") []) _ eq_refl).
    cbn. intros e' H. repeat (destruct H as [<-|H]; [discriminate|]). destruct H.
  - apply (P 0%nat (mkPos "infilep" PMaybe CRead) (VFile "train.event", [(false, "train.event")]) eq_refl eq_refl).
  - rewrite D; [reflexivity| |cbn; intros [H|[]]; discriminate]. cbn. intros e' H. repeat (destruct H as [<-|H]; [discriminate|]). destruct H.
Qed.

Example C140_order_nonvacuous : forall ns o ns' o',
  parse_args dec_int dec_int always always spz ["-k"; "9"; "-q"; "-o"; "out.json"] = Some (Go (ns, o)) ->
  parse_args dec_int dec_int always always spz ["-o"; "out.json"; "-q"; "-k"; "9"] = Some (Go (ns', o')) -> ns = ns' /\ o = o'.
Proof. intros ns o ns' o' H H'. vm_compute in H, H'. injection H as <- <-. injection H' as <- <-. split; reflexivity. Qed.

Example C140_merge_nonvacuous :
  parse_args dec_int dec_int always always (merge_parser (X := Z)) ["-q"; "a.json"; "b.json"; "c.json"; "-o"; "all.json"] =
  Some (Go ([("verbose", VBool false); ("outfile", VFile "all.json"); ("infile", VFiles ["a.json"; "b.json"; "c.json"])],
            [(false, "a.json"); (false, "b.json"); (false, "c.json"); (true, "all.json")])).
Proof. vm_compute. reflexivity. Qed.

(** refused: flags that exclude each other, text for a number, a negative
    number with exponent (one without is fine), a name cut too short; and help *)
Example C141_nonvacuous :
  parse_args dec_int dec_int always always spz ["--verbose"; "-k"; "2"; "-q"] = Some (Stop 2 []) /\
  parse_args dec_int dec_int always always spz ["-o"; "out.json"; "-k"; "two"] = Some (Stop 2 [(true, "out.json")]) /\
  parse_args dec_int dec_int always always spz ["-o"; "out.json"; "--help"] = Some (Stop 0 [(true, "out.json")]) /\
  parse_args dec_int (fun _ => Some 0%Z) always always spz ["-d"; "-1e-1"; "1"; "1"] = Some (Stop 2 []) /\ optionlike "-1e-1" /\
  (exists ns, parse_args dec_int (fun _ => Some 0%Z) always always spz ["-d"; "-1"; "-.5"; "1"] = Some (Go (ns, []))) /\
  parse_args dec_int dec_int always always spz ["-k"; "3"; "--t"; "test.event"] = Some (Stop 2 []) /\
  parse_args dec_int dec_int always always spz ["-k"] = Some (Stop 2 []).
Proof.
  do 4 (split; [vm_compute; reflexivity|]). split; [split; [eexists; split; [reflexivity|discriminate]|split; reflexivity]|].
  split; [eexists; vm_compute; reflexivity|]. split; vm_compute; reflexivity.
Qed.

(** ** C142, C144: what one would expect and does not hold *)
(** INFILE and OUTFILE are refused when an option stands between them *)
Theorem C142_torn_refuted : exists a b : string, a <> b /\
  (exists ns o, command_line_parser dec_int dec_int always always spz ["-m"; "pmf"; a; b] = Some (Go (ns, o)) /\
     aget ns "infile" = Some (VFile a) /\ aget ns "outfile" = Some (VFile b)) /\
  (exists ns o, command_line_parser dec_int dec_int always always spz [a; b; "-m"; "pmf"] = Some (Go (ns, o)) /\
     aget ns "infile" = Some (VFile a) /\ aget ns "outfile" = Some (VFile b)) /\
  exists o, command_line_parser dec_int dec_int always always spz [a; "-m"; "pmf"; b] = Some (Stop 2 o).
Proof.
  exists "train.event", "out.json". split; [discriminate|].
  split; [eexists; eexists; split; [vm_compute; reflexivity|split; reflexivity]|].
  split; [eexists; eexists; split; [vm_compute; reflexivity|split; reflexivity]|]. eexists. vm_compute. reflexivity.
Qed.

(** with [-i] for the input, OUTFILE is not the output *)
Theorem C142_behind_in_refuted : exists a b : string, a <> b /\
  (exists ns o, command_line_parser dec_int dec_int always always spz ["-i"; a; b] = Some (Go (ns, o)) /\
     aget ns "infile" = Some (VFile a) /\ aget ns "outfile" = Some VStdout /\ In (false, b) o /\ ~ In (true, b) o) /\
  command_line_parser dec_int dec_int (String.eqb a) always spz ["-i"; a; b] = Some (Stop 2 [(false, a)]).
Proof.
  exists "train.event", "out.json". split; [discriminate|]. split; [|vm_compute; reflexivity].
  eexists. eexists. split; [vm_compute; reflexivity|]. split; [reflexivity|]. split; [reflexivity|]. cbn. split; [tauto|]. intros [H|[H|[]]]; discriminate.
Qed.

(** the hypotheses of C142_torn hold of the first of these lines *)
Example C142_torn_nonvacuous : exists o, parse_args dec_int dec_int always always spz ["train.event"; "-k"; "9"; "--meth"; "pmf"; "--rseed=-3"; "-o"; "out.json"; "x.json"] = Some (Stop 2 o).
Proof.
  destruct shown_sets as [_ F2]. destruct shown_line as (ws1 & es1 & ws2 & es2 & _ & _ & E & CM & _). clear ws1 ws2.
  apply (C142_torn dec_int dec_int always always spz [] [] ["train.event"] _ _ ["x.json"] [] [] (proj1 (exp_table _ _ _ _ _ _ _ _)) (proj2 (exp_table _ _ _ _ _ _ _ _)) (Forall2_nil _) F2 (Forall2_nil _)).
  - eapply compatible_sub; [exact CM|]. cbn. tauto.
  - constructor; [cbn; left; discriminate|constructor].
  - constructor; [cbn; left; discriminate|constructor].
  - discriminate.
  - discriminate.
  - discriminate.
Qed.

(** a command line that is refused has emptied the output file *)
Theorem C144_emptied_refuted : exists (argv : list string) o, parse_args dec_int dec_int always always spz argv = Some (Stop 2 o) /\ In (true, "out.json") o.
Proof. exists ["-o"; "out.json"; "-k"; "two"]. eexists. split; [vm_compute; reflexivity|]. left. reflexivity. Qed.

(** stats_recsys.py asked to write into the file it reads: the file is emptied
    before a byte of it has been read *)
Theorem C144_same_file_refuted : exists (f : string) ns o, command_line_parser dec_int dec_int always always (stats_parser (X := Z)) ["--keepdata"; f; f] = Some (Go (ns, o)) /\
  aget ns "infile" = Some (VFile f) /\ aget ns "outfile" = Some (VFile f) /\ o = [(false, f); (true, f)].
Proof. exists "result.json". eexists. eexists. split; [vm_compute; reflexivity|]. split; [reflexivity|]. split; reflexivity. Qed.

Section Shown.
  Context (fit : recommender * dict string (kval Z) -> nat -> sdata unit unit -> res (unit * unit * nat)) (load : bool -> val Z -> dom -> res (sdata unit unit * dom)).
  Notation M := (main dec_int dec_int always always 0%Z 1%Z (fun z => z) inject_Z (fun w : nat => (0%Z, w)) (fun w l => (l, w)) (fun q _ => q) (fun _ w => w) fit (fun _ _ => Raise (A := pred Q) ValueError) load sp_method).

  (** the line of C140 has no test file: C144_no_test applies *)
  Example C144_nonvacuous : exists e, M spz ["--dim=7"; "-q"; "-mplsam"; "train.event"; "-k"; "9"; "--meth"; "pmf"; "--rseed=-3"; "-o"; "out.json"] 0%nat = Some (Raised e [(false, "train.event"); (true, "out.json")]).
  Proof.
    eapply C144_no_test; [exact shown_line| | |].
    - intros mt H. cbn in H. destruct H as [[<-|[<-|[<-|[]]]]| ->]; discriminate.
    - cbn. intros e H. repeat (destruct H as [<-|H]; [discriminate|]). destruct H.
    - right. split; [|reflexivity]. cbn. intros e H. repeat (destruct H as [<-|H]; [discriminate|]). destruct H.
  Qed.

  (** C143: the model is a PMF with the last k and the seed given *)
  Example C143_nonvacuous : exists tr out te,
    M spz ["--dim=7"; "-q"; "-mplsam"; "train.event"; "-k"; "9"; "--meth"; "pmf"; "--rseed=-3"; "-o"; "out.json"] 0%nat =
    match run_task (fun z => z) inject_Z (fun w : nat => (0%Z, w)) (fun w l => (l, w)) (fun q _ => q) (fun _ w => w) fit (fun _ _ => Raise (A := pred Q) ValueError) load
      (mkInfo tr out te (PMF, [("C", KX 101%Z); ("k", KX 9%Z); ("tol", KX 103%Z); ("random_state", KX (-3)%Z)]) [0%Z; 0%Z; 0%Z] true "holdout" 5%Z None) (Some (-3)%Z) 0%nat with
    | Ok r => Some (Done r [(false, "train.event"); (true, "out.json")])
    | Raise e => Some (Raised e [(false, "train.event"); (true, "out.json")])
    end.
  Proof.
    exists (VFile "train.event"), (VFile "out.json"), VNone.
    change (PMF, [("C", KX 101%Z); ("k", KX 9%Z); ("tol", KX 103%Z); ("random_state", KX (-3)%Z)]) with (init_model 0%Z 1%Z (mkOpts Mpmf 101%Z 9%Z 102%Z 103%Z None (Some (-3)%Z))).
    eapply (C143_experiment dec_int dec_int always always 0%Z 1%Z 0%Z 5%Z 1%Z 101%Z 102%Z 103%Z) with (mt := "pmf"); [exact shown_line| | | | |reflexivity| | | | | | | | | | | ].
    - right. split; [|reflexivity]. cbn. intros e H. repeat (destruct H as [<-|H]; [discriminate|]). destruct H.
    - left. exists [mkEff 16 "k" (VX 7%Z) []; mkEff 3 "verbose" (VBool false) []; mkEff 8 "method" (VText "plsam") []; mkEff 16 "k" (VX 9%Z) []; mkEff 8 "method" (VText "pmf") []; mkEff 4 "rseed" (VX (-3)%Z) []].
      eexists. exists []. do 3 (split; [reflexivity|]). intros e [].
    - right. split; [|reflexivity]. cbn. intros e H. repeat (destruct H as [<-|H]; [discriminate|]). destruct H.
    - left. exists [mkEff 16 "k" (VX 7%Z) []; mkEff 3 "verbose" (VBool false) []; mkEff 8 "method" (VText "plsam") []; mkEff 16 "k" (VX 9%Z) []].
      eexists. eexists. do 3 (split; [reflexivity|]). cbn. intros e H. repeat (destruct H as [<-|H]; [discriminate|]). destruct H.
    - right. split; [|reflexivity]. cbn. intros e H. repeat (destruct H as [<-|H]; [discriminate|]). destruct H.
    - left. exists [mkEff 16 "k" (VX 7%Z) []; mkEff 3 "verbose" (VBool false) []; mkEff 8 "method" (VText "plsam") []].
      eexists. eexists. do 3 (split; [reflexivity|]). cbn. intros e H. repeat (destruct H as [<-|H]; [discriminate|]). destruct H.
    - right. split; [|reflexivity]. cbn. intros e H. repeat (destruct H as [<-|H]; [discriminate|]). destruct H.
    - right. split; [|reflexivity]. cbn. intros e H. repeat (destruct H as [<-|H]; [discriminate|]). destruct H.
    - right. split; [|reflexivity]. cbn. intros e H. repeat (destruct H as [<-|H]; [discriminate|]). destruct H.
    - left. exists [mkEff 16 "k" (VX 7%Z) []; mkEff 3 "verbose" (VBool false) []; mkEff 8 "method" (VText "plsam") []; mkEff 16 "k" (VX 9%Z) []; mkEff 8 "method" (VText "pmf") []].
      eexists. eexists. do 3 (split; [reflexivity|]). cbn. intros e H. repeat (destruct H as [<-|H]; [discriminate|]). destruct H.
    - right. split; [|reflexivity]. cbn. intros e H. repeat (destruct H as [<-|H]; [discriminate|]). destruct H.
    - right. split; [|reflexivity]. cbn. intros e H. repeat (destruct H as [<-|H]; [discriminate|]). destruct H.
    - right. split; [|reflexivity]. cbn. intros e H. repeat (destruct H as [<-|H]; [discriminate|]). destruct H.
    - right. split; [|reflexivity]. cbn. intros e H. repeat (destruct H as [<-|H]; [discriminate|]). destruct H.
    - right. split; [|reflexivity]. cbn. intros e H. repeat (destruct H as [<-|H]; [discriminate|]). destruct H.
  Qed.
End Shown.

Print Assumptions C140_parsed.
Print Assumptions C140_order.
Print Assumptions C140_total.
Print Assumptions C140_merge.
Print Assumptions C141_exclusive.
Print Assumptions C141_refused.
Print Assumptions C141_quits.
Print Assumptions C141_too_few.
Print Assumptions C141_ambiguous.
Print Assumptions C142_files.
Print Assumptions C142_behind_in.
Print Assumptions C142_torn.
Print Assumptions C142_too_many.
Print Assumptions C142_torn_refuted.
Print Assumptions C142_behind_in_refuted.
Print Assumptions C143_experiment.
Print Assumptions C143_described.
Print Assumptions C144_no_test.
Print Assumptions C144_emptied_refuted.
Print Assumptions C144_same_file_refuted.
