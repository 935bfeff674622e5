(** * The options of the experiment scripts do what the documentation says

    C145: the options as listed in the module docstrings, each changing one
    setting of the experiment, starting from the documented defaults. *)
From Coq Require Import Ascii String List ZArith QArith Bool Lia Permutation.
From Verif Require Import M_Py M_Data M_Score M_Rec M_Opt M_Scripts M_Task M_Args P_Args T_Args T_Args2 M_Main T_Main.
Import ListNotations.
Open Scope string_scope.

Section Docs.
  Context {X W F G Rc FR V : Type}.
  Context (to_int to_float : string -> option X) (can_read can_write : string -> bool) (v_false v_true : X).
  (** 0, 5, 1, 0.01, 1.0 and 1e-05 *)
  Context (v_0 v_5 v_1 v_C v_one v_tol : X).
  Context (xz : X -> Z) (xq : X -> Q).
  Context (now : W -> Z * W) (shuffle : W -> list nat -> list nat * W) (fmul : Q -> nat -> Q) (seed : option Z -> W -> W).
  Context (fit : recommender * dict string (kval X) -> W -> sdata F G -> res (Rc * FR * W)) (predict : Rc -> list (list Z) -> res (pred V)).
  Context (load : bool -> val X -> dom -> res (sdata F G * dom)).
  Notation SETS := (sets to_int to_float can_read can_write).
  Notation EXP := (exp_parser v_0 v_5 v_1 v_C v_one v_tol).
  Notation MAIN := (main to_int to_float can_read can_write v_false v_true xz xq now shuffle fmul seed fit predict load).
  Notation RUN := (run_task xz xq now shuffle fmul seed fit predict load).
  Notation effect := (effect (X := X)).

  (** the settings of an experiment *)
  Record wish := mkWish { w_in : val X; w_test : val X; w_out : val X; w_method : string; w_scheme : string; w_fold : X; w_fold_no : option X;
    w_timestamp : bool; w_domain : X * X * X; w_C : X; w_k : X; w_alpha : X; w_tol : X; w_maxiter : option X; w_rseed : option X }.
  (** the defaults; a domain of zeros means auto *)
  Definition unsaid (m : string) : wish :=
    mkWish VStdin VNone VStdout m "holdout" v_5 None true (v_0, v_0, v_0) v_C v_1 v_one v_tol None None.

  (** a word that is no option *)
  Definition word (s : string) : Prop := plain s.

  (** the words of one option, what it changes, and the file it opens *)
  Inductive says_one (methods : list string) : list string -> (wish -> wish) -> list (bool * string) -> Prop :=
  | so_in : forall n s, In n ["-i"; "--in"] -> word s -> s <> "-" -> can_read s = true -> says_one methods [n; s]
      (fun w => mkWish (VFile s) (w_test w) (w_out w) (w_method w) (w_scheme w) (w_fold w) (w_fold_no w) (w_timestamp w) (w_domain w) (w_C w) (w_k w) (w_alpha w) (w_tol w) (w_maxiter w) (w_rseed w)) [(false, s)]
  | so_test : forall n s, In n ["-t"; "--test"] -> word s -> s <> "-" -> can_read s = true -> says_one methods [n; s]
      (fun w => mkWish (w_in w) (VFile s) (w_out w) (w_method w) (w_scheme w) (w_fold w) (w_fold_no w) (w_timestamp w) (w_domain w) (w_C w) (w_k w) (w_alpha w) (w_tol w) (w_maxiter w) (w_rseed w)) [(false, s)]
  | so_out : forall n s, In n ["-o"; "--out"] -> word s -> s <> "-" -> can_write s = true -> says_one methods [n; s]
      (fun w => mkWish (w_in w) (w_test w) (VFile s) (w_method w) (w_scheme w) (w_fold w) (w_fold_no w) (w_timestamp w) (w_domain w) (w_C w) (w_k w) (w_alpha w) (w_tol w) (w_maxiter w) (w_rseed w)) [(true, s)]
  | so_method : forall n s, In n ["-m"; "--method"] -> word s -> In s methods -> says_one methods [n; s]
      (fun w => mkWish (w_in w) (w_test w) (w_out w) s (w_scheme w) (w_fold w) (w_fold_no w) (w_timestamp w) (w_domain w) (w_C w) (w_k w) (w_alpha w) (w_tol w) (w_maxiter w) (w_rseed w)) []
  | so_scheme : forall n s, In n ["-v"; "--validation"] -> In s ["holdout"; "cv"] -> says_one methods [n; s]
      (fun w => mkWish (w_in w) (w_test w) (w_out w) (w_method w) s (w_fold w) (w_fold_no w) (w_timestamp w) (w_domain w) (w_C w) (w_k w) (w_alpha w) (w_tol w) (w_maxiter w) (w_rseed w)) []
  | so_fold : forall n s x, In n ["-f"; "--fold"] -> word s -> to_int s = Some x -> says_one methods [n; s]
      (fun w => mkWish (w_in w) (w_test w) (w_out w) (w_method w) (w_scheme w) x (w_fold_no w) (w_timestamp w) (w_domain w) (w_C w) (w_k w) (w_alpha w) (w_tol w) (w_maxiter w) (w_rseed w)) []
  | so_fold_no : forall n s x, In n ["-n"; "--fold-no"] -> word s -> to_int s = Some x -> says_one methods [n; s]
      (fun w => mkWish (w_in w) (w_test w) (w_out w) (w_method w) (w_scheme w) (w_fold w) (Some x) (w_timestamp w) (w_domain w) (w_C w) (w_k w) (w_alpha w) (w_tol w) (w_maxiter w) (w_rseed w)) []
  | so_timestamp : forall n b, n = "--timestamp" /\ b = true \/ n = "--no-timestamp" /\ b = false -> says_one methods [n]
      (fun w => mkWish (w_in w) (w_test w) (w_out w) (w_method w) (w_scheme w) (w_fold w) (w_fold_no w) b (w_domain w) (w_C w) (w_k w) (w_alpha w) (w_tol w) (w_maxiter w) (w_rseed w)) []
  | so_domain : forall n a b g x y z, In n ["-d"; "--domain"] -> word a -> word b -> word g -> to_float a = Some x -> to_float b = Some y -> to_float g = Some z ->
      says_one methods [n; a; b; g]
      (fun w => mkWish (w_in w) (w_test w) (w_out w) (w_method w) (w_scheme w) (w_fold w) (w_fold_no w) (w_timestamp w) (x, y, z) (w_C w) (w_k w) (w_alpha w) (w_tol w) (w_maxiter w) (w_rseed w)) []
  | so_C : forall n s x, In n ["-C"; "--lambda"] -> word s -> to_float s = Some x -> says_one methods [n; s]
      (fun w => mkWish (w_in w) (w_test w) (w_out w) (w_method w) (w_scheme w) (w_fold w) (w_fold_no w) (w_timestamp w) (w_domain w) x (w_k w) (w_alpha w) (w_tol w) (w_maxiter w) (w_rseed w)) []
  | so_k : forall n s x, In n ["-k"; "--dim"] -> word s -> to_int s = Some x -> says_one methods [n; s]
      (fun w => mkWish (w_in w) (w_test w) (w_out w) (w_method w) (w_scheme w) (w_fold w) (w_fold_no w) (w_timestamp w) (w_domain w) (w_C w) x (w_alpha w) (w_tol w) (w_maxiter w) (w_rseed w)) []
  | so_alpha : forall s x, word s -> to_float s = Some x -> says_one methods ["--alpha"; s]
      (fun w => mkWish (w_in w) (w_test w) (w_out w) (w_method w) (w_scheme w) (w_fold w) (w_fold_no w) (w_timestamp w) (w_domain w) (w_C w) (w_k w) x (w_tol w) (w_maxiter w) (w_rseed w)) []
  | so_tol : forall s x, word s -> to_float s = Some x -> says_one methods ["--tol"; s]
      (fun w => mkWish (w_in w) (w_test w) (w_out w) (w_method w) (w_scheme w) (w_fold w) (w_fold_no w) (w_timestamp w) (w_domain w) (w_C w) (w_k w) (w_alpha w) x (w_maxiter w) (w_rseed w)) []
  | so_maxiter : forall s x, word s -> to_int s = Some x -> says_one methods ["--maxiter"; s]
      (fun w => mkWish (w_in w) (w_test w) (w_out w) (w_method w) (w_scheme w) (w_fold w) (w_fold_no w) (w_timestamp w) (w_domain w) (w_C w) (w_k w) (w_alpha w) (w_tol w) (Some x) (w_rseed w)) []
  | so_quiet : forall n, In n ["-q"; "--quiet"] -> says_one methods [n] (fun w => w) []
  | so_rseed : forall s x, word s -> to_int s = Some x -> says_one methods ["--rseed"; s]
      (fun w => mkWish (w_in w) (w_test w) (w_out w) (w_method w) (w_scheme w) (w_fold w) (w_fold_no w) (w_timestamp w) (w_domain w) (w_C w) (w_k w) (w_alpha w) (w_tol w) (w_maxiter w) (Some x)) [].

  (** several options, from left to right *)
  Inductive says (methods : list string) (m : string) : list (list string) -> wish -> list (bool * string) -> Prop :=
  | says_none : says methods m [] (unsaid m) []
  | says_more : forall l w o ws f o', says methods m l w o -> says_one methods ws f o' -> says methods m (l ++ [ws])%list (f w) (o ++ o')%list.

  (** the experiment with these settings: do_task *)
  Definition experiment (md : method) (w : wish) (st : W) : res (outcome FR G V (val X) * W) :=
    do_task now shuffle fmul seed (fit (init_model v_false v_true (mkOpts md (w_C w) (w_k w) (w_alpha w) (w_tol w) (w_maxiter w) (w_rseed w)))) predict (load (w_timestamp w))
      (option_map xz (w_rseed w)) (w_scheme w) (xz (w_fold w)) (option_map xz (w_fold_no w)) (w_in w) (match w_test w with VNone => None | f => Some f end)
      (mkDom (xq (fst (fst (w_domain w)))) (xq (snd (fst (w_domain w)))) (xq (snd (w_domain w)))) st.

  (** ** Proof *)
  Definition three (d : X * X * X) : list X := [fst (fst d); snd (fst d); snd d].
  Definition agree (methods : list string) (m : string) (es : list effect) (w : wish) : Prop :=
    in_file es [] (w_in w) /\ out_file es [] (w_out w) /\ chosen (EXP methods m) es "testfile" (w_test w) /\ chosen (EXP methods m) es "method" (VText (w_method w)) /\
    chosen (EXP methods m) es "validation" (VText (w_scheme w)) /\ chosen (EXP methods m) es "fold" (VX (w_fold w)) /\ chosen (EXP methods m) es "fold_no" (maybe (w_fold_no w)) /\
    chosen (EXP methods m) es "timestamp" (VBool (w_timestamp w)) /\ chosen (EXP methods m) es "domain" (VXs (three (w_domain w))) /\
    chosen (EXP methods m) es "C" (VX (w_C w)) /\ chosen (EXP methods m) es "k" (VX (w_k w)) /\ chosen (EXP methods m) es "alpha" (VX (w_alpha w)) /\
    chosen (EXP methods m) es "tol" (VX (w_tol w)) /\ chosen (EXP methods m) es "maxiter" (maybe (w_maxiter w)) /\ chosen (EXP methods m) es "rseed" (maybe (w_rseed w)).

  Lemma chosen_keep : forall p es (e : effect) d v, chosen p es d v -> e_dest e <> d -> chosen p (es ++ [e])%list d v.
  Proof.
    intros p es e d v [(l1 & e0 & l2 & -> & H1 & H2 & U)|[N E]] ND.
    - left. exists l1, e0, (l2 ++ [e])%list. rewrite <- app_assoc. split; [reflexivity|]. split; [exact H1|]. split; [exact H2|].
      intros e' I. apply in_app_iff in I as [I|[<-|[]]]; auto.
    - right. split; [|exact E]. intros e' I. apply in_app_iff in I as [I|[<-|[]]]; auto.
  Qed.
  Lemma chosen_new : forall p es (e : effect) d v, e_dest e = d -> e_val e = v -> chosen p (es ++ [e])%list d v.
  Proof. intros p es e d v H1 H2. left. exists es, e, []. repeat split; auto; intros e' []. Qed.
  Lemma in_keep : forall es (e : effect) v, in_file es [] v -> e_dest e <> "infile" -> in_file (es ++ [e])%list [] v.
  Proof.
    intros es e v [(l1 & e0 & l2 & -> & H1 & H2 & U)|[N E]] ND.
    - left. exists l1, e0, (l2 ++ [e])%list. rewrite <- app_assoc. split; [reflexivity|]. split; [exact H1|]. split; [exact H2|].
      intros e' I. apply in_app_iff in I as [I|[<-|[]]]; auto.
    - right. split; [|exact E]. intros e' I. apply in_app_iff in I as [I|[<-|[]]]; auto.
  Qed.
  Lemma in_new : forall es (e : effect) v, e_dest e = "infile" -> e_val e = v -> in_file (es ++ [e])%list [] v.
  Proof. intros es e v H1 H2. left. exists es, e, []. repeat split; auto; intros e' []. Qed.
  Lemma out_keep : forall es (e : effect) v, out_file es [] v -> e_dest e <> "outfile" -> out_file (es ++ [e])%list [] v.
  Proof.
    intros es e v [(l1 & e0 & l2 & -> & H1 & H2 & U)|[N E]] ND.
    - left. exists l1, e0, (l2 ++ [e])%list. rewrite <- app_assoc. split; [reflexivity|]. split; [exact H1|]. split; [exact H2|].
      intros e' I. apply in_app_iff in I as [I|[<-|[]]]; auto.
    - right. split; [|exact E]. intros e' I. apply in_app_iff in I as [I|[<-|[]]]; auto.
  Qed.
  Lemma out_new : forall es (e : effect) v, e_dest e = "outfile" -> e_val e = v -> out_file (es ++ [e])%list [] v.
  Proof. intros es e v H1 H2. left. exists es, e, []. repeat split; auto; intros e' []. Qed.

  Ltac named := eexists; split; [reflexivity|cbn; tauto].
  Ltac arity := eexists; split; reflexivity.
  Ltac settle := let es := fresh in let w := fresh in let A := fresh in
    intros es w A; unfold agree in *; cbn [w_in w_test w_out w_method w_scheme w_fold w_fold_no w_timestamp w_domain w_C w_k w_alpha w_tol w_maxiter w_rseed];
    decompose [and] A; repeat split;
    first [apply chosen_keep; [assumption|discriminate] | apply in_keep; [assumption|discriminate] | apply out_keep; [assumption|discriminate]
          | apply in_new; reflexivity | apply out_new; reflexivity | apply chosen_new; reflexivity].

  Lemma one_effect : forall methods m ws f o, says_one methods ws f o -> exists e : effect, SETS (EXP methods m) ws e /\ e_opened e = o /\
    In (e_opt e) [3; 4; 5; 6; 7; 8; 9; 10; 11; 12; 13; 14; 15; 16; 17; 18; 19]%nat /\
    (e_opt e = 13%nat -> ws = ["--no-timestamp"]) /\ (e_opt e = 14%nat -> ws = ["--timestamp"]) /\
    (forall es w, agree methods m es w -> agree methods m (es ++ [e])%list (f w)).
  Proof.
    intros methods m ws f o H.
    assert (GO : forall i d v ol args ws0, spelled (EXP methods m) i args ws0 -> does to_int to_float can_read can_write (EXP methods m) args (mkEff i d v ol) -> SETS (EXP methods m) ws0 (mkEff i d v ol)) by (intros; eexists; split; eauto).
    assert (ONE : forall n s i, has (EXP methods m) n i -> takes (EXP methods m) i 1 -> plain s -> spelled (EXP methods m) i [s] [n; s]).
    { intros n s i Hn Ht Hs. apply (sp_apart _ i n [s]); [left; exact Hn|exact Ht|constructor; [exact Hs|constructor]]. }
    destruct H.
    - exists (mkEff 5 "infile" (VFile s) [(false, s)]). split.
      { apply (GO _ _ _ _ [s]); [destruct H as [<-|[<-|[]]]; (apply ONE; [named|arity|assumption])|]. eexists. split; [reflexivity|]. cbn. exists s. do 2 (split; [reflexivity|]). right. auto. }
      split; [reflexivity|]. split; [cbn; tauto|]. do 2 (split; [discriminate|]). settle.
    - exists (mkEff 7 "testfile" (VFile s) [(false, s)]). split.
      { apply (GO _ _ _ _ [s]); [destruct H as [<-|[<-|[]]]; (apply ONE; [named|arity|assumption])|]. eexists. split; [reflexivity|]. cbn. exists s. do 2 (split; [reflexivity|]). right. auto. }
      split; [reflexivity|]. split; [cbn; tauto|]. do 2 (split; [discriminate|]). settle.
    - exists (mkEff 6 "outfile" (VFile s) [(true, s)]). split.
      { apply (GO _ _ _ _ [s]); [destruct H as [<-|[<-|[]]]; (apply ONE; [named|arity|assumption])|]. eexists. split; [reflexivity|]. cbn. exists s. do 2 (split; [reflexivity|]). right. auto. }
      split; [reflexivity|]. split; [cbn; tauto|]. do 2 (split; [discriminate|]). settle.
    - exists (mkEff 8 "method" (VText s) []). split.
      { apply (GO _ _ _ _ [s]); [destruct H as [<-|[<-|[]]]; (apply ONE; [named|arity|assumption])|]. eexists. split; [reflexivity|]. cbn. exists s. do 2 (split; [reflexivity|]). split; [reflexivity|]. auto. }
      split; [reflexivity|]. split; [cbn; tauto|]. do 2 (split; [discriminate|]). settle.
    - exists (mkEff 9 "validation" (VText s) []). split.
      { apply (GO _ _ _ _ [s]); [destruct H as [<-|[<-|[]]]; (apply ONE; [named|arity|destruct H0 as [<-|[<-|[]]]; cbn; left; discriminate])|]. eexists. split; [reflexivity|]. cbn. exists s. do 2 (split; [reflexivity|]). split; [reflexivity|]. auto. }
      split; [reflexivity|]. split; [cbn; tauto|]. do 2 (split; [discriminate|]). settle.
    - exists (mkEff 10 "fold" (VX x) []). split.
      { apply (GO _ _ _ _ [s]); [destruct H as [<-|[<-|[]]]; (apply ONE; [named|arity|assumption])|]. eexists. split; [reflexivity|]. cbn. exists s. do 2 (split; [reflexivity|]). split; [reflexivity|]. eauto. }
      split; [reflexivity|]. split; [cbn; tauto|]. do 2 (split; [discriminate|]). settle.
    - exists (mkEff 11 "fold_no" (VX x) []). split.
      { apply (GO _ _ _ _ [s]); [destruct H as [<-|[<-|[]]]; (apply ONE; [named|arity|assumption])|]. eexists. split; [reflexivity|]. cbn. exists s. do 2 (split; [reflexivity|]). split; [reflexivity|]. eauto. }
      split; [reflexivity|]. split; [cbn; tauto|]. do 2 (split; [discriminate|]). settle.
    - destruct H as [[-> ->]|[-> ->]].
      + exists (mkEff 14 "timestamp" (VBool true) []). split.
        { apply (GO _ _ _ _ []); [apply (sp_apart _ 14 "--timestamp" []); [left; named|arity|constructor]|]. eexists. split; [reflexivity|]. cbn. auto. }
        split; [reflexivity|]. split; [cbn; tauto|]. split; [discriminate|]. split; [reflexivity|]. settle.
      + exists (mkEff 13 "timestamp" (VBool false) []). split.
        { apply (GO _ _ _ _ []); [apply (sp_apart _ 13 "--no-timestamp" []); [left; named|arity|constructor]|]. eexists. split; [reflexivity|]. cbn. auto. }
        split; [reflexivity|]. split; [cbn; tauto|]. split; [reflexivity|]. split; [discriminate|]. settle.
    - exists (mkEff 12 "domain" (VXs [x; y; z]) []). split.
      { apply (GO _ _ _ _ [a; b; g]); [destruct H as [<-|[<-|[]]]; (apply (sp_apart _ 12 _ [a; b; g]); [left; named|arity|repeat constructor; assumption])|].
        eexists. split; [reflexivity|]. cbn. exists a, b, g, x, y, z. repeat (split; [reflexivity|]). repeat split; eauto. }
      split; [reflexivity|]. split; [cbn; tauto|]. do 2 (split; [discriminate|]). settle.
    - exists (mkEff 15 "C" (VX x) []). split.
      { apply (GO _ _ _ _ [s]); [destruct H as [<-|[<-|[]]]; (apply ONE; [named|arity|assumption])|]. eexists. split; [reflexivity|]. cbn. exists s. do 2 (split; [reflexivity|]). split; [reflexivity|]. eauto. }
      split; [reflexivity|]. split; [cbn; tauto|]. do 2 (split; [discriminate|]). settle.
    - exists (mkEff 16 "k" (VX x) []). split.
      { apply (GO _ _ _ _ [s]); [destruct H as [<-|[<-|[]]]; (apply ONE; [named|arity|assumption])|]. eexists. split; [reflexivity|]. cbn. exists s. do 2 (split; [reflexivity|]). split; [reflexivity|]. eauto. }
      split; [reflexivity|]. split; [cbn; tauto|]. do 2 (split; [discriminate|]). settle.
    - exists (mkEff 17 "alpha" (VX x) []). split.
      { apply (GO _ _ _ _ [s]); [apply ONE; [named|arity|assumption]|]. eexists. split; [reflexivity|]. cbn. exists s. do 2 (split; [reflexivity|]). split; [reflexivity|]. eauto. }
      split; [reflexivity|]. split; [cbn; tauto|]. do 2 (split; [discriminate|]). settle.
    - exists (mkEff 18 "tol" (VX x) []). split.
      { apply (GO _ _ _ _ [s]); [apply ONE; [named|arity|assumption]|]. eexists. split; [reflexivity|]. cbn. exists s. do 2 (split; [reflexivity|]). split; [reflexivity|]. eauto. }
      split; [reflexivity|]. split; [cbn; tauto|]. do 2 (split; [discriminate|]). settle.
    - exists (mkEff 19 "maxiter" (VX x) []). split.
      { apply (GO _ _ _ _ [s]); [apply ONE; [named|arity|assumption]|]. eexists. split; [reflexivity|]. cbn. exists s. do 2 (split; [reflexivity|]). split; [reflexivity|]. eauto. }
      split; [reflexivity|]. split; [cbn; tauto|]. do 2 (split; [discriminate|]). settle.
    - exists (mkEff 3 "verbose" (VBool false) []). split.
      { apply (GO _ _ _ _ []); [destruct H as [<-|[<-|[]]]; (apply (sp_apart _ 3 _ []); [left; named|arity|constructor])|]. eexists. split; [reflexivity|]. cbn. auto. }
      split; [reflexivity|]. split; [cbn; tauto|]. do 2 (split; [discriminate|]). settle.
    - exists (mkEff 4 "rseed" (VX x) []). split.
      { apply (GO _ _ _ _ [s]); [apply ONE; [named|arity|assumption]|]. eexists. split; [reflexivity|]. cbn. exists s. do 2 (split; [reflexivity|]). split; [reflexivity|]. eauto. }
      split; [reflexivity|]. split; [cbn; tauto|]. do 2 (split; [discriminate|]). settle.
  Qed.

  Lemma agree_none : forall methods m, agree methods m [] (unsaid m).
  Proof. intros methods m. repeat split; right; (split; [intros e []|reflexivity]). Qed.

  Lemma says_effects : forall methods m l w o, says methods m l w o -> exists es : list effect, Forall2 (SETS (EXP methods m)) l es /\ concat (map e_opened es) = o /\
    (forall i, In i (map e_opt es) -> In i [3; 4; 5; 6; 7; 8; 9; 10; 11; 12; 13; 14; 15; 16; 17; 18; 19]%nat) /\
    (In 13%nat (map e_opt es) -> In ["--no-timestamp"] l) /\ (In 14%nat (map e_opt es) -> In ["--timestamp"] l) /\ agree methods m es w.
  Proof.
    intros methods m l w o H. induction H as [|l w o ws f o' _ (es & F1 & E & I & T1 & T2 & A) S].
    - exists []. split; [constructor|]. split; [reflexivity|]. do 3 (split; [intros * []|]). apply agree_none.
    - destruct (one_effect methods m ws f o' S) as (e & SE & EO & IE & Z1 & Z2 & AG). exists (es ++ [e])%list.
      split; [apply Forall2_app; [exact F1|constructor; [exact SE|constructor]]|].
      split; [rewrite map_app, concat_app; cbn; rewrite E, EO, app_nil_r; reflexivity|].
      rewrite map_app. cbn [map]. split; [|split; [|split]].
      + intros i Hi. apply in_app_iff in Hi as [Hi|[<-|[]]]; [apply I; exact Hi|exact IE].
      + intros Hi. apply in_app_iff in Hi as [Hi|[Hi|[]]]; apply in_or_app; [left; auto|right; left; auto].
      + intros Hi. apply in_app_iff in Hi as [Hi|[Hi|[]]]; apply in_or_app; [left; auto|right; left; auto].
      + apply AG. exact A.
  Qed.

  (** ** C145 *)
  Theorem C145_settings : forall methods m pick l w o st md, says methods m l w o -> ~ (In ["--no-timestamp"] l /\ In ["--timestamp"] l) -> pick (w_method w) = Some md ->
    MAIN pick (EXP methods m) (concat l) st =
      match experiment md w st with
      | Ok r => Some (Done r o)
      | Raise e => Some (Raised e o)
      end.
  Proof.
    intros methods m pick l w o st md H NT PK. destruct (says_effects methods m l w o H) as (es & F1 & E & I & T1 & T2 & A).
    unfold agree in A. decompose [and] A.
    rewrite (C143_experiment to_int to_float can_read can_write v_false v_true v_0 v_5 v_1 v_C v_one v_tol xz xq now shuffle fmul seed fit predict load methods m pick (concat l) es [] [] o st
      (w_in w) (w_out w) (w_test w) (w_method w) md (w_C w) (w_k w) (w_alpha w) (w_tol w) (w_maxiter w) (w_rseed w) (three (w_domain w)) (w_timestamp w) (w_scheme w) (w_fold w) (w_fold_no w)); try assumption.
    { unfold experiment, run_task. cbn [n_domain n_model n_timestamp n_scheme n_folds n_target n_train n_test domain_of three bind file_of]. destruct (w_test w); reflexivity. }
    exists l, es, [], []. split; [exact F1|]. split; [constructor|]. split; [rewrite app_nil_r; reflexivity|]. split.
    { intros i j Hi Hj (N & oi & oj & g & Ei & Ej & Gi & Gj). pose proof (I i Hi) as Ii. pose proof (I j Hj) as Ij. cbn in Ii, Ij.
      assert (NN : ~ (In 13%nat (map e_opt es) /\ In 14%nat (map e_opt es))) by (intros [? ?]; apply NT; auto).
      repeat (destruct Ii as [<-|Ii]; [cbn in Ei; injection Ei as <-; try discriminate|]); [| | |destruct Ii];
      injection Gi as <-; (repeat (destruct Ij as [<-|Ij]; [cbn in Ej; injection Ej as <-; try discriminate; try congruence; tauto|]); destruct Ij). }
    split; [cbn; lia|]. split; [reflexivity|]. split; [intros [|k] a q vo Ha; discriminate|].
    split; [cbn [concat app]; rewrite app_nil_r; reflexivity|]. cbn [map concat app]. rewrite app_nil_r. symmetry. exact E.
  Qed.

  Lemma method_named : forall methods m l w o, says methods m l w o -> In (w_method w) (m :: methods).
  Proof. intros methods m l w o H. induction H as [|l w o ws f o' _ IH S]; [left; reflexivity|]. destruct S; cbn [w_method]; try exact IH. right. assumption. Qed.

  (** the two scripts, with the classes the documentation gives *)
  Theorem C145_score_predictor : forall l w o st, says ["pmf"; "plsam"; "plsamm"] "pmf" l w o -> ~ (In ["--no-timestamp"] l /\ In ["--timestamp"] l) ->
    exists md, (w_method w = "pmf" /\ md = Mpmf \/ w_method w = "plsam" /\ md = Mplsam \/ w_method w = "plsamm" /\ md = Mplsamm) /\
    MAIN sp_method (sp_parser v_0 v_5 v_1 v_C v_one v_tol) (concat l) st =
      match experiment md w st with
      | Ok r => Some (Done r o)
      | Raise e => Some (Raised e o)
      end.
  Proof.
    intros l w o st H NT. pose proof (method_named _ _ _ _ _ H) as M. cbn in M.
    assert (MD : exists md, (w_method w = "pmf" /\ md = Mpmf \/ w_method w = "plsam" /\ md = Mplsam \/ w_method w = "plsamm" /\ md = Mplsamm) /\ sp_method (w_method w) = Some md).
    { destruct M as [E|[E|[E|[E|[]]]]]; rewrite <- E; [exists Mpmf|exists Mpmf|exists Mplsam|exists Mplsamm]; (split; [tauto|reflexivity]). }
    destruct MD as (md & D & PK). exists md. split; [exact D|]. apply C145_settings; assumption.
  Qed.

  Theorem C145_item_finder : forall l w o st, says ["lpmf"] "lpmf" l w o -> ~ (In ["--no-timestamp"] l /\ In ["--timestamp"] l) ->
    MAIN if_method (if_parser v_0 v_5 v_1 v_C v_one v_tol) (concat l) st =
      match experiment Mlpmf w st with
      | Ok r => Some (Done r o)
      | Raise e => Some (Raised e o)
      end.
  Proof.
    intros l w o st H NT. pose proof (method_named _ _ _ _ _ H) as M. cbn in M. apply C145_settings; try assumption.
    destruct M as [E|[E|[]]]; rewrite <- E; reflexivity.
  Qed.

  (** a command line that is refused ends the process *)
  Theorem C145_refused : forall pick p argv st c o, parse_args to_int to_float can_read can_write p argv = Some (Stop c o) -> MAIN pick p argv st = Some (Exited c o).
  Proof. intros pick p argv st c o H. unfold main, command_line_parser. rewrite H. reflexivity. Qed.
End Docs.

(** C145: a line with repetitions *)
Example C145_nonvacuous : says dec_int dec_int (fun _ => true) (fun _ => true) 0%Z 5%Z 1%Z 101%Z 102%Z 103%Z ["pmf"; "plsam"; "plsamm"] "pmf"
  [["-k"; "3"]; ["-o"; "out.json"]; ["--method"; "plsam"]; ["-d"; "1"; "5"; "1"]; ["--no-timestamp"]; ["-v"; "cv"]; ["--dim"; "4"]; ["-q"]; ["-n"; "2"]]
  (mkWish VStdin VNone (VFile "out.json") "plsam" "cv" 5%Z (Some 2%Z) false (1, 5, 1)%Z 101%Z 4%Z 102%Z 103%Z None None) [(true, "out.json")].
Proof.
  assert (P : forall a, match a with String d _ => d <> "-"%char | EmptyString => True end -> word a).
  { intros [|d tl] H; [exact I|left; exact H]. }
  pose proof (says_none dec_int dec_int (fun _ => true) (fun _ => true) 0%Z 5%Z 1%Z 101%Z 102%Z 103%Z ["pmf"; "plsam"; "plsamm"] "pmf") as S.
  assert (M := fun l w o ws f o' (H : says _ _ _ _ _ _ _ _ _ _ _ _ l w o) (H1 : says_one dec_int dec_int (fun _ => true) (fun _ => true) ["pmf"; "plsam"; "plsamm"] ws f o') =>
    says_more dec_int dec_int (fun _ => true) (fun _ => true) 0%Z 5%Z 1%Z 101%Z 102%Z 103%Z ["pmf"; "plsam"; "plsamm"] "pmf" l w o ws f o' H H1).
  specialize (M _ _ _ _ _ _ S (so_k _ _ _ _ _ "-k" "3" 3%Z ltac:(cbn; tauto) (P "3" ltac:(discriminate)) eq_refl)) as S1. clear S. unfold unsaid in S1. cbv beta iota delta [w_in w_test w_out w_method w_scheme w_fold w_fold_no w_timestamp w_domain w_C w_k w_alpha w_tol w_maxiter w_rseed] in S1.
  specialize (M _ _ _ _ _ _ S1 (so_out _ _ _ _ _ "-o" "out.json" ltac:(cbn; tauto) (P "out.json" ltac:(discriminate)) ltac:(discriminate) eq_refl)) as S2. clear S1. unfold unsaid in S2. cbv beta iota delta [w_in w_test w_out w_method w_scheme w_fold w_fold_no w_timestamp w_domain w_C w_k w_alpha w_tol w_maxiter w_rseed] in S2.
  specialize (M _ _ _ _ _ _ S2 (so_method _ _ _ _ ["pmf"; "plsam"; "plsamm"] "--method" "plsam" ltac:(cbn; tauto) (P "plsam" ltac:(discriminate)) ltac:(cbn; tauto))) as S3. clear S2. unfold unsaid in S3. cbv beta iota delta [w_in w_test w_out w_method w_scheme w_fold w_fold_no w_timestamp w_domain w_C w_k w_alpha w_tol w_maxiter w_rseed] in S3.
  specialize (M _ _ _ _ _ _ S3 (so_domain _ _ _ _ _ "-d" "1" "5" "1" 1%Z 5%Z 1%Z ltac:(cbn; tauto) (P "1" ltac:(discriminate)) (P "5" ltac:(discriminate)) (P "1" ltac:(discriminate)) eq_refl eq_refl eq_refl)) as S4. clear S3. unfold unsaid in S4. cbv beta iota delta [w_in w_test w_out w_method w_scheme w_fold w_fold_no w_timestamp w_domain w_C w_k w_alpha w_tol w_maxiter w_rseed] in S4.
  specialize (M _ _ _ _ _ _ S4 (so_timestamp _ _ _ _ _ "--no-timestamp" false (or_intror (conj eq_refl eq_refl)))) as S5. clear S4. unfold unsaid in S5. cbv beta iota delta [w_in w_test w_out w_method w_scheme w_fold w_fold_no w_timestamp w_domain w_C w_k w_alpha w_tol w_maxiter w_rseed] in S5.
  specialize (M _ _ _ _ _ _ S5 (so_scheme _ _ _ _ _ "-v" "cv" ltac:(cbn; tauto) ltac:(cbn; tauto))) as S6. clear S5. unfold unsaid in S6. cbv beta iota delta [w_in w_test w_out w_method w_scheme w_fold w_fold_no w_timestamp w_domain w_C w_k w_alpha w_tol w_maxiter w_rseed] in S6.
  specialize (M _ _ _ _ _ _ S6 (so_k _ _ _ _ _ "--dim" "4" 4%Z ltac:(cbn; tauto) (P "4" ltac:(discriminate)) eq_refl)) as S7. clear S6. unfold unsaid in S7. cbv beta iota delta [w_in w_test w_out w_method w_scheme w_fold w_fold_no w_timestamp w_domain w_C w_k w_alpha w_tol w_maxiter w_rseed] in S7.
  specialize (M _ _ _ _ _ _ S7 (so_quiet _ _ _ _ _ "-q" ltac:(cbn; tauto))) as S8. clear S7. unfold unsaid in S8. cbv beta iota delta [w_in w_test w_out w_method w_scheme w_fold w_fold_no w_timestamp w_domain w_C w_k w_alpha w_tol w_maxiter w_rseed] in S8.
  exact (M _ _ _ _ _ _ S8 (so_fold_no _ _ _ _ _ "-n" "2" 2%Z ltac:(cbn; tauto) (P "2" ltac:(discriminate)) eq_refl)).
Qed.

Print Assumptions C145_settings.
Print Assumptions C145_score_predictor.
Print Assumptions C145_item_finder.
Print Assumptions C145_refused.
