(** * What main hands to the task

    C143 again, with the arguments of do_task in place of the dictionary. *)
From Coq Require Import Ascii String List ZArith QArith Bool Lia Permutation.
From Verif Require Import M_Py M_Data M_Score M_Rec M_Opt M_Scripts M_Task M_Args P_Args T_Args T_Args2 M_Main T_Main.
Import ListNotations.
Open Scope string_scope.

Section Handed.
  Context {X W F G Rc FR V : Type}.
  Context (to_int to_float : string -> option X) (can_read can_write : string -> bool) (v_false v_true : X).
  Context (v_0 v_5 v_1 v_C v_one v_tol : X).
  Context (xz : X -> Z) (xq : X -> Q).
  Context (now : W -> Z * W) (shuffle : W -> list nat -> list nat * W) (fmul : Q -> nat -> Q) (seed : option Z -> W -> W).
  Context (fit : recommender * dict string (kval X) -> W -> sdata F G -> res (Rc * FR * W)) (predict : Rc -> list (list Z) -> res (pred V)).
  Context (load : bool -> val X -> dom -> res (sdata F G * dom)).
  Notation EXP := (exp_parser v_0 v_5 v_1 v_C v_one v_tol).
  Notation MAIN := (main to_int to_float can_read can_write v_false v_true xz xq now shuffle fmul seed fit predict load).
  Notation line := (line to_int to_float can_read can_write v_0 v_5 v_1 v_C v_one v_tol).

  Theorem C143_task : forall methods dm pick argv es ps vos o w tr out te mt m c k al tol mi rs a b g ts sch f fn,
    line methods dm argv es ps vos o -> in_file es vos tr -> out_file es vos out ->
    chosen (EXP methods dm) es "testfile" te -> chosen (EXP methods dm) es "method" (VText mt) -> pick mt = Some m ->
    chosen (EXP methods dm) es "C" (VX c) -> chosen (EXP methods dm) es "k" (VX k) -> chosen (EXP methods dm) es "alpha" (VX al) ->
    chosen (EXP methods dm) es "tol" (VX tol) -> chosen (EXP methods dm) es "maxiter" (maybe mi) -> chosen (EXP methods dm) es "rseed" (maybe rs) ->
    chosen (EXP methods dm) es "domain" (VXs [a; b; g]) -> chosen (EXP methods dm) es "timestamp" (VBool ts) -> chosen (EXP methods dm) es "validation" (VText sch) ->
    chosen (EXP methods dm) es "fold" (VX f) -> chosen (EXP methods dm) es "fold_no" (maybe fn) ->
    MAIN pick (EXP methods dm) argv w =
      match do_task now shuffle fmul seed (fit (init_model v_false v_true (mkOpts m c k al tol mi rs))) predict (load ts)
              (option_map xz rs) sch (xz f) (option_map xz fn) tr (match te with VNone => None | _ => Some te end) (mkDom (xq a) (xq b) (xq g)) w with
      | Ok r => Some (Done r o)
      | Raise e => Some (Raised e o)
      end.
  Proof.
    intros methods dm pick argv es ps vos o w tr out te mt m c k al tol mi rs a b g ts sch f fn L HI HO HT HM PK HC HK HA HTo HMi HR HD HTs HS HF HFn.
    rewrite (C143_experiment to_int to_float can_read can_write v_false v_true v_0 v_5 v_1 v_C v_one v_tol xz xq now shuffle fmul seed fit predict load
      methods dm pick argv es ps vos o w tr out te mt m c k al tol mi rs [a; b; g] ts sch f fn L HI HO HT HM PK HC HK HA HTo HMi HR HD HTs HS HF HFn).
    destruct te; reflexivity.
  Qed.
End Handed.

(** the line of C140: the seed -3 reaches the generator, and no fold is chosen *)
Section Shown.
  Context (fit : recommender * dict string (kval Z) -> option Z -> sdata unit unit -> res (unit * unit * option Z)) (load : bool -> val Z -> dom -> res (sdata unit unit * dom)).
  Notation M := (main dec_int dec_int always always 0%Z 1%Z (fun z => z) inject_Z (fun w : option Z => (0%Z, w)) (fun w l => (l, w)) (fun q _ => q) (fun s _ => s) fit (fun _ _ => Raise (A := pred Q) ValueError) load sp_method).
  Example C143_task_nonvacuous :
    M spz ["--dim=7"; "-q"; "-mplsam"; "train.event"; "-k"; "9"; "--meth"; "pmf"; "--rseed=-3"; "-o"; "out.json"] None =
    match do_task (fun w : option Z => (0%Z, w)) (fun w l => (l, w)) (fun q _ => q) (fun s _ => s) (fit (PMF, [("C", KX 101%Z); ("k", KX 9%Z); ("tol", KX 103%Z); ("random_state", KX (-3)%Z)])) (fun _ _ => Raise (A := pred Q) ValueError) (load true)
      (Some (-3)%Z) "holdout" 5%Z None (VFile "train.event") None (mkDom 0 0 0) None with
    | Ok r => Some (Done r [(false, "train.event"); (true, "out.json")])
    | Raise e => Some (Raised e [(false, "train.event"); (true, "out.json")])
    end.
  Proof.
    change (PMF, [("C", KX 101%Z); ("k", KX 9%Z); ("tol", KX 103%Z); ("random_state", KX (-3)%Z)]) with (init_model 0%Z 1%Z (mkOpts Mpmf 101%Z 9%Z 102%Z 103%Z None (Some (-3)%Z))).
    refine (C143_task dec_int dec_int always always 0%Z 1%Z 0%Z 5%Z 1%Z 101%Z 102%Z 103%Z (fun z => z) inject_Z _ _ _ _ fit _ load _ _ sp_method _ _ _ _ _ None (VFile "train.event") (VFile "out.json") VNone "pmf" Mpmf 101%Z 9%Z 102%Z 103%Z None (Some (-3)%Z) 0%Z 0%Z 0%Z true "holdout" 5%Z None shown_line _ _ _ _ eq_refl _ _ _ _ _ _ _ _ _ _ _).
    - right. split; [|reflexivity]. cbn. intros e H. repeat (destruct H as [<-|H]; [discriminate|]). destruct H.
    - left. exists [mkEff 16 "k" (VX 7%Z) []; mkEff 3 "verbose" (VBool false) []; mkEff 8 "method" (VText "plsam") []; mkEff 16 "k" (VX 9%Z) []; mkEff 8 "method" (VText "pmf") []; mkEff 4 "rseed" (VX (-3)%Z) []].
      eexists. exists []. do 3 (split; [reflexivity|]). intros e [].
    - right. split; [|reflexivity]. cbn. intros e H. repeat (destruct H as [<-|H]; [discriminate|]). destruct H.
    - left. exists [mkEff 16 "k" (VX 7%Z) []; mkEff 3 "verbose" (VBool false) []; mkEff 8 "method" (VText "plsam") []; mkEff 16 "k" (VX 9%Z) []].
      eexists. eexists. do 3 (split; [reflexivity|]). cbn. intros e H. repeat (destruct H as [<-|H]; [discriminate|]). destruct H.
    - right. split; [|reflexivity]. cbn. intros e H. repeat (destruct H as [<-|H]; [discriminate|]). destruct H.
    - left. exists [mkEff 16 "k" (VX 7%Z) []; mkEff 3 "verbose" (VBool false) []; mkEff 8 "method" (VText "plsam") []].
      eexists. eexists. do 3 (split; [reflexivity|]). cbn. intros e H. repeat (destruct H as [<-|H]; [discriminate|]). destruct H.
    - right. split; [|reflexivity]. cbn. intros e H. repeat (destruct H as [<-|H]; [discriminate|]). destruct H.
    - right. split; [|reflexivity]. cbn. intros e H. repeat (destruct H as [<-|H]; [discriminate|]). destruct H.
    - right. split; [|reflexivity]. cbn. intros e H. repeat (destruct H as [<-|H]; [discriminate|]). destruct H.
    - left. exists [mkEff 16 "k" (VX 7%Z) []; mkEff 3 "verbose" (VBool false) []; mkEff 8 "method" (VText "plsam") []; mkEff 16 "k" (VX 9%Z) []; mkEff 8 "method" (VText "pmf") []].
      eexists. eexists. do 3 (split; [reflexivity|]). cbn. intros e H. repeat (destruct H as [<-|H]; [discriminate|]). destruct H.
    - right. split; [|reflexivity]. cbn. intros e H. repeat (destruct H as [<-|H]; [discriminate|]). destruct H.
    - right. split; [|reflexivity]. cbn. intros e H. repeat (destruct H as [<-|H]; [discriminate|]). destruct H.
    - right. split; [|reflexivity]. cbn. intros e H. repeat (destruct H as [<-|H]; [discriminate|]). destruct H.
    - right. split; [|reflexivity]. cbn. intros e H. repeat (destruct H as [<-|H]; [discriminate|]). destruct H.
    - right. split; [|reflexivity]. cbn. intros e H. repeat (destruct H as [<-|H]; [discriminate|]). destruct H.
  Qed.
End Shown.
Print Assumptions C143_task.
