(** * The command lines of the four scripts

    C142 continued: which file is input and which is output, and the command
    line of exp_recsys_fold_merge.py.  The tables of the scripts meet the
    conditions of T_Args. *)
From Coq Require Import Ascii String List ZArith Bool Lia Permutation.
From Verif Require Import M_Py M_Args P_Args T_Args.
Import ListNotations.
Open Scope string_scope.

(** ** The tables *)
Fixpoint nodupb (l : list string) : bool := match l with [] => true | a :: l => negb (existsb (String.eqb a) l) && nodupb l end.
Lemma nodupb_ok : forall l, nodupb l = true -> NoDup l.
Proof.
  induction l as [|a l IH]; intros H; [constructor|]. cbn in H. apply andb_true_iff in H as [H1 H2]. constructor; [|auto].
  intros I. apply negb_true_iff in H1. rewrite (proj2 (existsb_exists _ _)) in H1; [discriminate|]. exists a. split; [exact I|apply String.eqb_refl].
Qed.
Definition table_check {X} (p : parser X) : bool :=
  forallb (fun ni => good_name (fst ni)) (names p) && nodupb (map fst (names p)) &&
  forallb (fun op => forallb (fun d => negb (existsb (String.eqb d) (map p_dest (pr_pos p)))) (stored (o_action op))) (pr_opts p) &&
  nodupb (map p_dest (pr_pos p)).
Lemma table_check_ok : forall X (p : parser X), table_check p = true -> table_ok p.
Proof.
  intros X p H. apply andb_true_iff in H as [H H4]. apply andb_true_iff in H as [H H3]. apply andb_true_iff in H as [H1 H2].
  split; [|split; [|split]].
  - intros n i Hn. apply in_names in Hn. rewrite forallb_forall in H1. apply (H1 _ Hn).
  - apply nodupb_ok. exact H2.
  - intros op d I Id Ip. rewrite forallb_forall in H3. specialize (H3 op I). rewrite forallb_forall in H3. specialize (H3 d Id).
    apply negb_true_iff in H3. rewrite (proj2 (existsb_exists _ _)) in H3; [discriminate|]. exists d. split; [exact Ip|apply String.eqb_refl].
  - apply nodupb_ok. exact H4.
Qed.

Section Tables.
  Context {X : Type} (v_0 v_5 v_1 v_C v_one v_tol : X).
  Theorem exp_table : forall methods dm, table_ok (exp_parser v_0 v_5 v_1 v_C v_one v_tol methods dm) /\ optional_positionals (exp_parser v_0 v_5 v_1 v_C v_one v_tol methods dm).
  Proof. intros methods dm. split; [apply table_check_ok; vm_compute; reflexivity|repeat constructor]. Qed.
  Theorem stats_table : table_ok (stats_parser (X := X)) /\ optional_positionals (stats_parser (X := X)).
  Proof. split; [apply table_check_ok; vm_compute; reflexivity|repeat constructor]. Qed.
  Theorem merge_table : table_ok (merge_parser (X := X)).
  Proof. apply table_check_ok. vm_compute. reflexivity. Qed.
End Tables.

Section F.
  Context {X : Type} (to_int to_float : string -> option X) (can_read can_write : string -> bool).
  Notation SETS := (sets to_int to_float can_read can_write).
  Notation CLP := (command_line_parser to_int to_float can_read can_write).
  Notation PA := (parse_args to_int to_float can_read can_write).
  Notation RN := (rn to_int to_float can_read can_write).
  Notation CP := (consume_positionals to_int to_float can_read can_write).
  Notation effect := (effect (X := X)).
  Implicit Types (p : parser X).

  (** input and output as in exp_recsys_sp.py, exp_recsys_if.py and stats_recsys.py *)
  Definition two_files p : Prop :=
    pr_pos p = [mkPos "infilep" PMaybe CRead; mkPos "outfilep" PMaybe CWrite] /\
    aget (pr_defaults p) "infile" = Some VNone /\ aget (pr_defaults p) "outfile" = Some VNone /\
    aget (pr_defaults p) "infilep" = Some VStdin /\ aget (pr_defaults p) "outfilep" = Some VStdout /\
    (forall op, In op (pr_opts p) -> In "infile" (stored (o_action op)) -> o_action op = AStore "infile" One CRead) /\
    (forall op, In op (pr_opts p) -> In "outfile" (stored (o_action op)) -> o_action op = AStore "outfile" One CWrite).

  Lemma effect_stored : forall p w (e : effect), SETS p w e -> exists op args, In op (pr_opts p) /\ In (e_dest e) (stored (o_action op)) /\ nth_error (pr_opts p) (e_opt e) = Some op /\ does to_int to_float can_read can_write p args e.
  Proof.
    intros p w e (args & _ & op & N & D). exists op, args. split; [eapply nth_error_In; eauto|]. split; [|split; [exact N|exists op; auto]].
    destruct (o_action op) as [d [] c|d b|]; cbn.
    - left. destruct D as (a & _ & E & _). auto.
    - left. destruct D as (a & b & g & x & y & z & _ & E & _). auto.
    - left. destruct D as (_ & E & _). auto.
    - destruct D.
  Qed.

  (** a file given by an option is a file or a standard stream *)
  Lemma file_value : forall p w (e : effect) d c, SETS p w e -> e_dest e = d -> c = CRead \/ c = CWrite ->
    (forall op, In op (pr_opts p) -> In d (stored (o_action op)) -> o_action op = AStore d One c) -> e_val e <> VNone.
  Proof.
    intros p w e d c S ED CC U. destruct (effect_stored p w e S) as (op & args & I & IS & N & (op' & N' & D)).
    rewrite N in N'. injection N' as <-. rewrite ED in IS. rewrite (U op I IS) in D. destruct D as (a & _ & _ & R).
    destruct CC as [->| ->]; cbn in R; destruct R as [(_ & -> & _)|(_ & _ & -> & _)]; discriminate.
  Qed.

  (** ** C142: the files of the experiment and of the statistics *)
  Theorem C142_files : forall p ws1 es1 ps vos ws2 es2, table_ok p -> two_files p ->
    Forall2 (SETS p) ws1 es1 -> Forall2 (SETS p) ws2 es2 -> compatible p (map e_opt (es1 ++ es2)) ->
    (length ps <= 2)%nat -> length vos = length ps ->
    (forall k a q vo, nth_error ps k = Some a -> nth_error (pr_pos p) k = Some q -> nth_error vos k = Some vo -> places to_int to_float can_read can_write a q (fst vo) (snd vo)) ->
    exists ns, CLP p (concat ws1 ++ ps ++ concat ws2) =
        Some (Go (ns, concat (map e_opened es1) ++ concat (map snd vos) ++ concat (map e_opened es2))%list) /\
      (forall l1 (e : effect) l2, (es1 ++ es2)%list = (l1 ++ e :: l2)%list -> (forall e', In e' l2 -> e_dest e' <> e_dest e) -> aget ns (e_dest e) = Some (e_val e)) /\
      ((forall e, In e (es1 ++ es2)%list -> e_dest e <> "infile") -> aget ns "infile" = Some (match vos with vo :: _ => fst vo | [] => VStdin end)) /\
      ((forall e, In e (es1 ++ es2)%list -> e_dest e <> "outfile") -> aget ns "outfile" = Some (match vos with _ :: vo :: _ => fst vo | _ => VStdout end)) /\
      (forall d, (forall e, In e (es1 ++ es2)%list -> e_dest e <> d) -> ~ In d ["infile"; "outfile"; "infilep"; "outfilep"] -> aget ns d = aget (pr_defaults p) d).
  Proof.
    intros p ws1 es1 ps vos ws2 es2 W (PP & DI & DO & DIP & DOP & UI & UO) F1 F2 CM LP LV PL.
    assert (OP : optional_positionals p) by (unfold optional_positionals; rewrite PP; repeat constructor).
    destruct (C140_parsed to_int to_float can_read can_write p ws1 es1 ps vos ws2 es2 W OP F1 F2 CM ltac:(rewrite PP; exact LP) LV PL) as (ns & E & L & P & D).
    unfold command_line_parser. rewrite E.
    assert (LAST : forall d, (forall e : effect, In e (es1 ++ es2)%list -> e_dest e <> d) \/ exists e l1 l2, (es1 ++ es2)%list = (l1 ++ e :: l2)%list /\ e_dest e = d /\ forall e' : effect, In e' l2 -> e_dest e' <> d).
    { intros d. clear. induction (es1 ++ es2)%list as [|e l IH]; [left; intros e []|].
      destruct IH as [IH|(e0 & l1 & l2 & -> & H1 & H2)]; [|right; exists e0, (e :: l1), l2; auto].
      destruct (string_dec (e_dest e) d) as [Ed|Ed]; [right; exists e, [], l; auto|left]. intros e' [<-|I]; auto. }
    assert (SE : forall e : effect, In e (es1 ++ es2)%list -> exists w, SETS p w e).
    { intros e Ie. apply in_app_iff in Ie as [Ie|Ie]; [destruct (F2_in _ _ _ _ _ _ F1 Ie) as (w & _ & Sw)|destruct (F2_in _ _ _ _ _ _ F2 Ie) as (w & _ & Sw)]; eauto. }
    assert (NP : forall d (e : effect), In e (es1 ++ es2)%list -> In d (map p_dest (pr_pos p)) -> e_dest e <> d).
    { intros d e Ie Id Ed. destruct (SE e Ie) as (w & Sw). apply (does_dest to_int to_float can_read can_write p w e W Sw). congruence. }
    assert (GI : aget ns "infilep" = Some (match vos with vo :: _ => fst vo | [] => VStdin end)).
    { destruct vos as [|vo vos].
      - destruct ps; [|discriminate]. rewrite D; [exact DIP| |cbn; tauto]. intros e Ie. apply NP; [exact Ie|rewrite PP; cbn; auto].
      - apply (P 0%nat (mkPos "infilep" PMaybe CRead) vo); [rewrite PP|]; reflexivity. }
    assert (GO : aget ns "outfilep" = Some (match vos with _ :: vo :: _ => fst vo | _ => VStdout end)).
    { destruct vos as [|v0 [|vo vos]].
      - destruct ps; [|discriminate]. rewrite D; [exact DOP| |cbn; tauto]. intros e Ie. apply NP; [exact Ie|rewrite PP; cbn; auto].
      - destruct ps as [|a [|b ps]]; try discriminate. rewrite D; [exact DOP| |rewrite PP; cbn; intros [H|[]]; discriminate]. intros e Ie. apply NP; [exact Ie|rewrite PP; cbn; auto].
      - apply (P 1%nat (mkPos "outfilep" PMaybe CWrite) vo); [rewrite PP|]; reflexivity. }
    assert (QN : forall d, ~ In d ["infilep"; "outfilep"] -> ~ In d (map p_dest (firstn (length ps) (pr_pos p)))).
    { intros d Hd I. apply Hd. rewrite PP in I. destruct ps as [|a [|b ps]]; cbn in I |- *; [destruct I|tauto|]. destruct ps; cbn in I; tauto. }
    assert (ORP : forall (ns0 : dict string (val X)) k kp d, d <> k -> aget (or_positional ns0 k kp) d = aget ns0 d).
    { intros ns0 k kp d N. unfold or_positional. destruct (aget ns0 k) as [[]|]; try reflexivity. destruct (aget ns0 kp); [|reflexivity].
      rewrite aget_aset, (proj2 (String.eqb_neq _ _) N). reflexivity. }
    assert (ORS : forall (ns0 : dict string (val X)) k kp v, aget ns0 k = Some v -> v <> VNone -> aget (or_positional ns0 k kp) k = Some v).
    { intros ns0 k kp v H N. unfold or_positional. rewrite H. destruct v; try exact H. congruence. }
    assert (ORN : forall (ns0 : dict string (val X)) k kp v, aget ns0 k = Some VNone -> aget ns0 kp = Some v -> aget (or_positional ns0 k kp) k = Some v).
    { intros ns0 k kp v H Hv. unfold or_positional. rewrite H, Hv, aget_aset, String.eqb_refl. reflexivity. }
    eexists. split; [reflexivity|]. split; [|split; [|split]].
    - intros l1 e l2 EL U. assert (Ie : In e (es1 ++ es2)) by (rewrite EL; apply in_or_app; right; left; reflexivity).
      destruct (SE e Ie) as (w & Sw). pose proof (L l1 e l2 EL U) as HL.
      destruct (string_dec (e_dest e) "outfile") as [Eo|No].
      + rewrite Eo in *. apply ORS; [rewrite ORP by discriminate; exact HL|]. apply (file_value p w e "outfile" CWrite Sw Eo (or_intror eq_refl) UO).
      + rewrite ORP by exact No. destruct (string_dec (e_dest e) "infile") as [Ei|Ni].
        * rewrite Ei in *. apply ORS; [exact HL|]. apply (file_value p w e "infile" CRead Sw Ei (or_introl eq_refl) UI).
        * rewrite ORP by exact Ni. exact HL.
    - intros H. rewrite ORP by discriminate. apply ORN; [|exact GI]. rewrite D by (exact H || (apply QN; cbn; intros [I|[I|[]]]; discriminate)). exact DI.
    - intros H. apply ORN; [|rewrite ORP by discriminate; exact GO]. rewrite ORP by discriminate.
      rewrite D by (exact H || (apply QN; cbn; intros [I|[I|[]]]; discriminate)). exact DO.
    - intros d H N. rewrite !ORP by (intros ->; apply N; cbn; auto). apply D; [exact H|]. apply QN. intros I. apply N. cbn in *. tauto.
  Qed.

  (** with [-i] the one positional argument is still taken for the input: it
      is opened for reading and forgotten, and the results go to standard
      output *)
  Theorem C142_behind_in : forall p ws1 es1 x ws2 es2, table_ok p -> two_files p ->
    Forall2 (SETS p) ws1 es1 -> Forall2 (SETS p) ws2 es2 -> compatible p (map e_opt (es1 ++ es2)) ->
    (exists e, In e (es1 ++ es2)%list /\ e_dest e = "infile") -> (forall e, In e (es1 ++ es2)%list -> e_dest e <> "outfile") ->
    plain x -> x <> "-" ->
    (can_read x = true -> exists ns, CLP p (concat ws1 ++ [x] ++ concat ws2) = Some (Go (ns, concat (map e_opened es1) ++ [(false, x)] ++ concat (map e_opened es2))%list) /\
       aget ns "outfile" = Some VStdout /\ exists e, In e (es1 ++ es2)%list /\ aget ns "infile" = Some (e_val e)) /\
    (can_read x = false -> exists o, CLP p (concat ws1 ++ [x] ++ concat ws2) = Some (Stop 2 o)).
  Proof.
    intros p ws1 es1 x ws2 es2 W TF F1 F2 CM (e0 & Ie0 & Ed0) NO PX NX. split.
    - intros R.
      destruct (C142_files p ws1 es1 [x] [(VFile x, [(false, x)])] ws2 es2 W TF F1 F2 CM ltac:(cbn; lia) eq_refl) as (ns & E & L & _ & OF & _).
      + intros [|[|k]] a q vo Ha Hq Hv; try discriminate. rewrite (proj1 TF) in Hq. cbn in Ha, Hq, Hv. injection Ha as <-. injection Hq as <-. injection Hv as <-.
        split; [exact PX|]. right. auto.
      + exists ns. cbn [map concat snd app] in E. split; [exact E|]. split; [apply (OF NO)|].
        assert (LAST : exists e l1 l2, (es1 ++ es2)%list = (l1 ++ e :: l2)%list /\ e_dest e = "infile" /\ forall e' : effect, In e' l2 -> e_dest e' <> "infile").
        { clear - Ie0 Ed0. induction (es1 ++ es2)%list as [|e l IH]; [destruct Ie0|].
          destruct (in_dec string_dec "infile" (map e_dest l)) as [I|I].
          - apply in_map_iff in I as (e1 & E1 & I1). assert (IHX : exists e l1 l2, l = (l1 ++ e :: l2)%list /\ e_dest e = "infile" /\ forall e' : effect, In e' l2 -> e_dest e' <> "infile").
            { clear - I1 E1. revert e1 I1 E1. induction l as [|e l IH]; intros e1 I1 E1; [destruct I1|].
              destruct (in_dec string_dec "infile" (map e_dest l)) as [I|I].
              - apply in_map_iff in I as (e2 & E2 & I2). destruct (IH e2 I2 E2) as (a & b & c & -> & ?). exists a, (e :: b), c. auto.
              - destruct I1 as [<-|I1]; [|exfalso; apply I; rewrite <- E1; apply in_map; exact I1]. exists e, [], l. split; [reflexivity|]. split; [exact E1|].
                intros e' I' E'. apply I. rewrite <- E'. apply in_map. exact I'. }
            destruct IHX as (a & b & c & -> & ?). exists a, (e :: b), c. auto.
          - destruct Ie0 as [->|Ie0]; [|exfalso; apply I; rewrite <- Ed0; apply in_map; exact Ie0]. exists e0, [], l. split; [reflexivity|]. split; [exact Ed0|].
            intros e' I' E'. apply I. rewrite <- E'. apply in_map. exact I'. }
        destruct LAST as (e & l1 & l2 & EL & Ed & U). exists e. split; [rewrite EL; apply in_or_app; right; left; reflexivity|].
        rewrite <- Ed. apply (L l1 e l2 EL). intros e' I'. rewrite Ed. apply U. exact I'.
    - intros R.
      destruct (blocks to_int to_float can_read can_write p ws1 es1 W F1) as (B1 & C1 & _ & _ & R1). destruct (blocks to_int to_float can_read can_write p ws2 es2 W F2) as (B2 & C2 & O2 & N2 & R2).
      unfold command_line_parser, parse_args.
      assert (CL : classify_all p (concat ws1 ++ [x] ++ concat ws2) = Some (B1 ++ (x, KArg) :: B2)%list).
      { rewrite C1. rewrite (classify_all_plain p [x]) by auto. pose proof (C2 []) as C2'. rewrite app_nil_r in C2'. rewrite C2'. cbn. rewrite app_nil_r. reflexivity. }
      rewrite CL. fold (rn to_int to_float can_read can_write p (pr_pos p) (B1 ++ (x, KArg) :: B2)%list (mkState (pr_defaults p) [] []) []).
      rewrite R1.
      2:{ cbn. rewrite app_nil_r. eapply compatible_sub; [exact CM|]. intros i Hi. rewrite map_app. apply in_or_app. auto. }
      set (s1 := afters es1 (mkState (pr_defaults p) [] [])).
      assert (OW : opens_with B2). { destruct ws2 as [|w ws2]; [left; auto|right]. destruct (O2 ltac:(discriminate)) as (y & r & -> & OY). eauto. }
      assert (CPX : exists o, CP p (pr_pos p) ((x, KArg) :: B2) s1 = Stop 2 o).
      { rewrite (proj1 TF). cbn [consume_positionals]. rewrite match_pos_one by (reflexivity || (left; exact OW)). cbn [map fst].
        unfold take_pos at 1. rewrite remove_dashes_id by (constructor; [apply plain_not_dashes; exact PX|constructor]). cbn [p_n p_conv convert].
        rewrite (proj2 (String.eqb_neq _ _) NX), R. cbn. eauto. }
      destruct CPX as (o & CPX).
      destruct (existsb is_opt B2) eqn:EO.
      + rewrite rn_pos by (reflexivity || exact EO). rewrite CPX. eauto.
      + rewrite rn_end by (cbn; exact EO). rewrite CPX. cbn. eauto.
  Qed.

  (** ** C140: the command line of exp_recsys_fold_merge.py *)
  Theorem C140_merge : forall p q ws1 es1 ps ws2 es2, table_ok p -> pr_pos p = [q] -> p_n q = PSome ->
    Forall2 (SETS p) ws1 es1 -> Forall2 (SETS p) ws2 es2 -> compatible p (map e_opt (es1 ++ es2)) ->
    ps <> [] -> Forall plain ps -> Forall (fun a => a <> "-" /\ can_read a = true) ps ->
    exists ns, PA p (concat ws1 ++ ps ++ concat ws2) =
        Some (Go (ns, concat (map e_opened es1) ++ map (fun a => (false, a)) ps ++ concat (map e_opened es2))%list) /\
      aget ns (p_dest q) = Some (VFiles ps) /\
      (forall l1 (e : effect) l2, (es1 ++ es2)%list = (l1 ++ e :: l2)%list -> (forall e', In e' l2 -> e_dest e' <> e_dest e) -> aget ns (e_dest e) = Some (e_val e)) /\
      (forall d, (forall e, In e (es1 ++ es2)%list -> e_dest e <> d) -> d <> p_dest q -> aget ns d = aget (pr_defaults p) d).
  Proof.
    intros p q ws1 es1 ps ws2 es2 W PP PN F1 F2 CM NE FP FR.
    destruct (blocks to_int to_float can_read can_write p ws1 es1 W F1) as (B1 & C1 & _ & _ & R1). destruct (blocks to_int to_float can_read can_write p ws2 es2 W F2) as (B2 & C2 & O2 & N2 & R2).
    assert (OW : opens_with B2). { destruct ws2 as [|w ws2]; [left; auto|right]. destruct (O2 ltac:(discriminate)) as (y & r & -> & OY). eauto. }
    assert (CL : classify_all p (concat ws1 ++ ps ++ concat ws2) = Some (B1 ++ map (fun a => (a, KArg)) ps ++ B2)%list).
    { rewrite C1, classify_all_plain by assumption. pose proof (C2 []) as C2'. rewrite app_nil_r in C2'. rewrite C2'. cbn. rewrite app_nil_r. reflexivity. }
    set (s0 := mkState (pr_defaults p) [] []). set (s1 := afters es1 s0).
    set (s2 := mkState (aset (s_ns s1) (p_dest q) (VFiles ps)) (s_seen s1) (s_opened s1 ++ map (fun a => (false, a)) ps)%list).
    assert (CPX : CP p (pr_pos p) (map (fun a => (a, KArg)) ps ++ B2)%list s1 = Go ([], B2, s2)).
    { rewrite PP. cbn [consume_positionals]. destruct ps as [|a ps]; [congruence|].
      assert (SPN : forall l, span (fun y => is_arg y || is_dash y) (map (fun a => (a, KArg)) l ++ B2)%list = (map (fun a : string => (a, KArg)) l, B2)).
      { induction l as [|b l IH]; cbn.
        - destruct OW as [->|(y & r & -> & OY)]; [reflexivity|]. cbn.
          assert (ED : is_arg y || is_dash y = false) by (clear - OY; unfold is_arg, is_dash, is_opt in *; destruct (snd y); [discriminate|discriminate|reflexivity]).
          rewrite ED. reflexivity.
        - rewrite IH. reflexivity. }
      assert (MP : match_pos q (map (fun a => (a, KArg)) (a :: ps) ++ B2)%list = Some (map (fun a => (a, KArg)) (a :: ps), B2)).
      { unfold match_pos. rewrite PN. cbn [map app span is_dash snd fst is_arg]. rewrite SPN. reflexivity. }
      rewrite MP. unfold take_pos at 1.
      assert (MF : map fst (map (fun a : string => (a, KArg)) (a :: ps)) = a :: ps) by (rewrite map_map; cbn; rewrite map_id; reflexivity).
      rewrite MF. rewrite remove_dashes_id by (eapply Forall_impl; [|exact FP]; intros b Hb; apply plain_not_dashes; exact Hb). rewrite PN.
      assert (FI : forall l o, Forall (fun a => a <> "-" /\ can_read a = true) l -> files to_int to_float can_read can_write l o = Go (l, (o ++ map (fun a => (false, a)) l)%list)).
      { clear. induction l as [|b l IH]; intros o H; [cbn; rewrite app_nil_r; reflexivity|].
        destruct (Forall_inv H) as [Nb Rb]. cbn [files convert]. rewrite (proj2 (String.eqb_neq _ _) Nb), Rb. cbn [andthen snd].
        rewrite IH by exact (Forall_inv_tail H). cbn. rewrite <- app_assoc. reflexivity. }
      rewrite FI by exact FR. cbn [andthen fst snd]. reflexivity. }
    assert (FIN : RN p (pr_pos p) (B1 ++ map (fun a => (a, KArg)) ps ++ B2)%list s0 [] = Some (Go ([], afters es2 s2, []))).
    { rewrite R1. 2:{ cbn. rewrite app_nil_r. eapply compatible_sub; [exact CM|]. intros i Hi. rewrite map_app. apply in_or_app. auto. }
      fold s1.
      assert (CM2 : compatible p (map e_opt es2 ++ s_seen s2)).
      { eapply compatible_sub; [exact CM|]. intros i Hi. rewrite map_app. apply in_or_app. apply in_app_iff in Hi as [Hi|Hi]; [auto|]. cbn in Hi. unfold s1 in Hi. apply afters_seen in Hi as [Hi|[]]. auto. }
      pose proof (R2 [] [] s2 [] CM2) as R2'. rewrite app_nil_r in R2'. rewrite (rn_end to_int to_float can_read can_write p [] [] (afters es2 s2) [] eq_refl) in R2'. cbn [consume_positionals andthen fst snd map app] in R2'.
      destruct ps as [|a ps]; [congruence|].
      destruct (existsb is_opt B2) eqn:EO.
      - cbn [map app]. rewrite rn_pos by (reflexivity || (rewrite existsb_app, EO; apply orb_true_r)). cbn [map app] in CPX. rewrite CPX.
        replace (Nat.ltb (length B2) (length ((a, KArg) :: map (fun a => (a, KArg)) ps ++ B2)%list)) with true.
        2:{ symmetry. apply Nat.ltb_lt. cbn. rewrite app_length. lia. }
        exact R2'.
      - assert (B2 = []) by (destruct OW as [H|(y & r & -> & OY)]; [exact H|cbn in EO; rewrite OY in EO; discriminate]). subst B2.
        rewrite rn_end. 2:{ rewrite existsb_app, EO, orb_false_r. clear. induction (a :: ps); [reflexivity|assumption]. }
        rewrite CPX. rewrite (rn_end to_int to_float can_read can_write p [] [] s2 [] eq_refl) in R2'. cbn in R2' |- *. congruence. }
    exists (s_ns (afters es2 s2)). split; [|split; [|split]].
    - unfold parse_args. rewrite CL. fold s0. unfold rn in FIN. rewrite FIN. cbn [existsb]. rewrite afters_opened. unfold s2. cbn [s_opened]. unfold s1. rewrite afters_opened. cbn. rewrite <- app_assoc. reflexivity.
    - rewrite afters_none; [unfold s2; cbn [s_ns]; rewrite aget_aset, String.eqb_refl; reflexivity|].
      intros e Ie Ed. destruct (F2_in _ _ _ _ _ _ F2 Ie) as (w & _ & Sw). apply (does_dest to_int to_float can_read can_write p w e W Sw). rewrite PP. cbn. auto.
    - intros l1 e l2 EL U.
      assert (Ne : e_dest e <> p_dest q).
      { assert (Ie : In e (es1 ++ es2)) by (rewrite EL; apply in_or_app; right; left; reflexivity).
        intros Ed. apply in_app_iff in Ie as [Ie|Ie]; [destruct (F2_in _ _ _ _ _ _ F1 Ie) as (w & _ & Sw)|destruct (F2_in _ _ _ _ _ _ F2 Ie) as (w & _ & Sw)];
          apply (does_dest to_int to_float can_read can_write p w e W Sw); rewrite PP; cbn; auto. }
      assert (AG : forall es (s s' : state X) d, aget (s_ns s) d = aget (s_ns s') d -> aget (s_ns (afters es s)) d = aget (s_ns (afters es s')) d).
      { clear. unfold afters. induction es as [|e es IH]; intros s s' d H; [exact H|]. cbn [fold_left]. apply IH. unfold after. cbn [s_ns]. rewrite !aget_aset, H. reflexivity. }
      rewrite (AG es2 s2 s1) by (unfold s2; cbn [s_ns]; rewrite aget_aset, (proj2 (String.eqb_neq _ _) Ne); reflexivity).
      unfold s1. rewrite <- afters_app, EL. apply afters_last. exact U.
    - intros d H Nd. rewrite afters_none by (intros e Ie; apply H; apply in_or_app; auto). unfold s2. cbn [s_ns]. rewrite aget_aset, (proj2 (String.eqb_neq _ _) Nd).
      unfold s1. rewrite afters_none by (intros e Ie; apply H; apply in_or_app; auto). reflexivity.
  Qed.
End F.
