(** * What the command lines of the scripts mean

    C140: of repeated options the last one counts, whatever the spelling and
    the order of the others; positional arguments.  C141: command lines that
    are refused, and what has been opened by then.  C142: positional
    arguments torn apart, and an output file behind [-i]. *)
From Coq Require Import Ascii String List ZArith Bool Lia Permutation.
From Verif Require Import M_Py M_Args P_Args.
Import ListNotations.
Open Scope string_scope.

Section T.
  Context {X : Type} (to_int to_float : string -> option X) (can_read can_write : string -> bool).
  Notation CO := (consume_optional to_int to_float can_read can_write).
  Notation CP := (consume_positionals to_int to_float can_read can_write).
  Notation TO := (take_opt to_int to_float can_read can_write).
  Notation CV := (convert to_int to_float can_read can_write).
  Notation RN := (rn to_int to_float can_read can_write).
  Notation PA := (parse_args to_int to_float can_read can_write).
  Implicit Types (p : parser X) (s : state X).

  (** ** Vocabulary *)
  (** the text [a] stands for the value [v], and reading it opens [o] *)
  Definition reads (c : conv) (a : string) (v : val X) (o : list (bool * string)) : Prop :=
    match c with
    | CInt => o = [] /\ exists x, to_int a = Some x /\ v = VX x
    | CFloat => o = [] /\ exists x, to_float a = Some x /\ v = VX x
    | CChoice l => o = [] /\ In a l /\ v = VText a
    | CRead => a = "-" /\ v = VStdin /\ o = [] \/ a <> "-" /\ can_read a = true /\ v = VFile a /\ o = [(false, a)]
    | CWrite => a = "-" /\ v = VStdout /\ o = [] \/ a <> "-" /\ can_write a = true /\ v = VFile a /\ o = [(true, a)]
    end.
  Definition refuses (c : conv) (a : string) : Prop :=
    match c with
    | CInt => to_int a = None
    | CFloat => to_float a = None
    | CChoice l => ~ In a l
    | CRead => a <> "-" /\ can_read a = false
    | CWrite => a <> "-" /\ can_write a = false
    end.

  (** number of arguments of option [i] *)
  Definition takes p (i n : nat) : Prop := exists op, nth_error (pr_opts p) i = Some op /\
    n = match o_action op with AStore _ One _ => 1%nat | AStore _ Three _ => 3%nat | _ => 0%nat end.

  (** the words that give option [i] the arguments [args]: '--name a', '-n a',
      '--name=a', '-n=a', '-na', and names cut short *)
  Inductive spelled p (i : nat) : list string -> list string -> Prop :=
  | sp_apart : forall n args, called p n i -> takes p i (length args) -> Forall plain args -> spelled p i args (n :: args)
  | sp_equals : forall n a, called p n i -> takes p i 1 -> a <> "--" -> spelled p i [a] [n ++ "=" ++ a]
  | sp_glued : forall c a, has p (String "-" (String c "")) i -> takes p i 1 -> a <> "" -> (forall a', a <> String "=" a') -> a <> "--" ->
      spelled p i [a] [String "-" (String c a)].

  (** what an option does: its number, the attribute, the value, the files opened *)
  Record effect := mkEff { e_opt : nat; e_dest : string; e_val : val X; e_opened : list (bool * string) }.
  Definition does p (args : list string) (e : effect) : Prop :=
    exists op, nth_error (pr_opts p) (e_opt e) = Some op /\
    match o_action op with
    | AQuit => False
    | AFlag d b => args = [] /\ e_dest e = d /\ e_val e = VBool b /\ e_opened e = []
    | AStore d One c => exists a, args = [a] /\ e_dest e = d /\ reads c a (e_val e) (e_opened e)
    | AStore d Three c => exists a b g x y z, args = [a; b; g] /\ e_dest e = d /\ reads c a (VX x) [] /\ reads c b (VX y) [] /\ reads c g (VX z) [] /\
                          e_val e = VXs [x; y; z] /\ e_opened e = []
    end.
  Definition sets p (words : list string) (e : effect) : Prop := exists args, spelled p (e_opt e) args words /\ does p args e.

  (** no two different options of one mutually exclusive group *)
  Definition exclude p (i j : nat) : Prop := i <> j /\ exists oi oj g, nth_error (pr_opts p) i = Some oi /\ nth_error (pr_opts p) j = Some oj /\ o_group oi = Some g /\ o_group oj = Some g.
  Definition compatible p (l : list nat) : Prop := forall i j, In i l -> In j l -> ~ exclude p i j.

  (** the positional arguments are all optional *)
  Definition optional_positionals p : Prop := Forall (fun q => p_n q = PMaybe) (pr_pos p).

  (** a positional argument given as [a] *)
  Definition places (a : string) (q : pos) (v : val X) (o : list (bool * string)) : Prop := plain a /\ reads (p_conv q) a v o.

  (** ** Lemmas *)
  Lemma convert_reads : forall c a v o o0, reads c a v o -> CV c a o0 = Go (v, (o0 ++ o)%list).
  Proof.
    intros c a v o o0 H. destruct c; cbn in *.
    - destruct H as (-> & x & -> & ->). rewrite app_nil_r. reflexivity.
    - destruct H as (-> & x & -> & ->). rewrite app_nil_r. reflexivity.
    - destruct H as (-> & I & ->). rewrite app_nil_r.
      rewrite (proj2 (existsb_exists _ _)); [reflexivity|]. exists a. split; [exact I|apply String.eqb_refl].
    - destruct H as [(-> & -> & ->)|(N & C & -> & ->)]; [rewrite app_nil_r; reflexivity|].
      apply String.eqb_neq in N. rewrite N, C. reflexivity.
    - destruct H as [(-> & -> & ->)|(N & C & -> & ->)]; [rewrite app_nil_r; reflexivity|].
      apply String.eqb_neq in N. rewrite N, C. reflexivity.
  Qed.

  Lemma convert_refuses : forall c a o0, refuses c a -> CV c a o0 = Stop 2 o0.
  Proof.
    intros c a o0 H. destruct c; cbn in *; try (rewrite H; reflexivity).
    - destruct (existsb (String.eqb a) l) eqn:E; [|reflexivity]. apply existsb_exists in E as (b & I & E). apply String.eqb_eq in E. subst b. tauto.
    - destruct H as [N C]. apply String.eqb_neq in N. rewrite N, C. reflexivity.
    - destruct H as [N C]. apply String.eqb_neq in N. rewrite N, C. reflexivity.
  Qed.

  Lemma convert_stops : forall c a o0 k o, CV c a o0 = Stop k o -> k = 2%Z /\ o = o0.
  Proof.
    intros c a o0 k o H. destruct c; cbn in H.
    - destruct (to_int a); [discriminate|injection H as <- <-; auto].
    - destruct (to_float a); [discriminate|injection H as <- <-; auto].
    - destruct (existsb _ l); [discriminate|injection H as <- <-; auto].
    - destruct (String.eqb a "-"); [discriminate|]. destruct (can_read a); [discriminate|injection H as <- <-; auto].
    - destruct (String.eqb a "-"); [discriminate|]. destruct (can_write a); [discriminate|injection H as <- <-; auto].
  Qed.

  Lemma remove_dashes_id : forall l, Forall (fun a => a <> "--") l -> remove_dashes l = l.
  Proof.
    induction l as [|a l IH]; intros H; [reflexivity|]. cbn. rewrite (proj2 (String.eqb_neq _ _) (Forall_inv H)), IH by (eapply Forall_inv_tail; eauto). reflexivity.
  Qed.

  Lemma spelled_args : forall p i args w, spelled p i args w -> Forall (fun a => a <> "--") args.
  Proof.
    intros p i args w [n a _ _ H|n a _ _ H|c a _ _ _ _ H].
    - eapply Forall_impl; [|exact H]. intros b Hb. apply plain_not_dashes. exact Hb.
    - constructor; [exact H|constructor].
    - constructor; [exact H|constructor].
  Qed.

  Definition after (e : effect) s : state X := mkState (aset (s_ns s) (e_dest e) (e_val e)) (e_opt e :: s_seen s) (s_opened s ++ e_opened e)%list.

  Lemma take_does : forall p args e s, does p args e -> Forall (fun a => a <> "--") args -> (forall j, In j (s_seen s) -> ~ exclude p j (e_opt e)) ->
    TO p (e_opt e) args s = Go (after e s).
  Proof.
    intros p args e s (op & NE & D) NA C. unfold take_opt. rewrite NE, remove_dashes_id by exact NA. unfold after.
    destruct (o_action op) as [d n c|d b|] eqn:A; [| |destruct D].
    - destruct n.
      + destruct D as (a & -> & <- & R). rewrite (convert_reads _ _ _ _ _ R). reflexivity.
      + destruct D as (a & b & g & x & y & z & -> & <- & R1 & R2 & R3 & -> & ->). unfold numbers.
        rewrite (convert_reads _ _ _ _ (s_opened s) R1). cbn [andthen fst].
        rewrite (convert_reads _ _ _ _ (s_opened s) R2). cbn [andthen fst].
        rewrite (convert_reads _ _ _ _ (s_opened s) R3). cbn [andthen fst]. rewrite app_nil_r. reflexivity.
    - destruct D as (-> & <- & -> & ->).
      match goal with |- (if ?b then _ else _) = _ => assert (E : b = false) end.
      { destruct (o_group op) as [g|] eqn:G; [|reflexivity].
        match goal with |- ?b = false => destruct b eqn:E; [|reflexivity] end. exfalso.
        apply existsb_exists in E as (j & Ij & E). apply andb_true_iff in E as [E1 E2]. apply negb_true_iff, Nat.eqb_neq in E1.
        destruct (nth_error (pr_opts p) j) as [oj|] eqn:NJ; [|discriminate]. destruct (o_group oj) as [g'|] eqn:GJ; [|discriminate].
        apply Nat.eqb_eq in E2. subst g'. apply (C j Ij). split; [exact E1|]. exists oj, op, g. auto. }
      rewrite E, app_nil_r. reflexivity.
  Qed.

  Lemma andthen_go : forall A (r : run A), andthen r (fun a => Go a) = r.
  Proof. intros A [a|c o]; reflexivity. Qed.

  Lemma grab_plain : forall args rest, grab (length args) (map (fun a => (a, KArg)) args ++ rest)%list = Some (args, rest).
  Proof. induction args as [|a args IH]; intros rest; [reflexivity|]. cbn. rewrite IH. reflexivity. Qed.

  Lemma classify_all_plain : forall p args w, table_ok p -> Forall plain args ->
    classify_all p (args ++ w) = match classify_all p w with Some l => Some (map (fun a => (a, KArg)) args ++ l)%list | None => None end.
  Proof.
    induction args as [|a args IH]; intros w W H; [cbn; destruct (classify_all p w); reflexivity|].
    cbn [app classify_all map]. rewrite (proj2 (String.eqb_neq _ _) (plain_not_dashes _ (Forall_inv H))).
    rewrite (classify_plain p a W (Forall_inv H)), IH by (auto; eapply Forall_inv_tail; eauto). destruct (classify_all p w); reflexivity.
  Qed.

  (** the words of an option become a block that the loop hands to [take_opt] *)
  Lemma block : forall p i args w, table_ok p -> spelled p i args w -> exists x B,
    (forall w', classify_all p (w ++ w') = match classify_all p w' with Some l => Some (x :: B ++ l)%list | None => None end) /\
    is_opt x = true /\
    (forall rest s e, CO p x (B ++ rest)%list s e = andthen (TO p i args s) (fun s => Go (rest, s, e))).
  Proof.
    intros p i args w W S.
    assert (AR : forall n, takes p i n -> exists op, nth_error (pr_opts p) i = Some op /\ arity (o_action op) = n).
    { intros n (op & H1 & H2). exists op. split; [exact H1|]. rewrite H2. destruct (o_action op) as [d [] c|d b|]; reflexivity. }
    assert (ONE : forall x nm a rest s e, takes p i 1 -> snd x = KOpt (Some i) nm (Some a) -> CO p x rest s e = andthen (TO p i [a] s) (fun s => Go (rest, s, e))).
    { intros x nm a rest s e T E. destruct (AR _ T) as (op & N & A). unfold consume_optional. rewrite E.
      destruct a as [|ch tl]; cbn [cluster]; rewrite N, A; cbn [take_all andthen].
      - destruct (TO p i [""] s); reflexivity.
      - destruct (TO p i [String ch tl] s); reflexivity. }
    destruct S as [n args C T F|n a C T ND|c a H T NA NQ ND].
    - destruct (classify_called p n i W C) as (full & E & _). destruct (called_shape p n i W C) as (c & tl & EN & _ & ND).
      exists (n, KOpt (Some i) full None), (map (fun a => (a, KArg)) args). split; [|split; [reflexivity|]].
      + intros w'. cbn [app classify_all]. rewrite (proj2 (String.eqb_neq _ _) ND), E, classify_all_plain by assumption.
        destruct (classify_all p w'); reflexivity.
      + intros rest s e. destruct (AR _ T) as (op & N & A). unfold consume_optional. cbn [snd]. rewrite N, A, grab_plain.
        cbn [app take_all]. rewrite andthen_go. reflexivity.
    - destruct (classify_eq p n i a W C) as (full & E & _). destruct (called_shape p n i W C) as (c & tl & EN & _ & _).
      exists (n ++ "=" ++ a, KOpt (Some i) full (Some a)), []. split; [|split; [reflexivity|]].
      + intros w'. cbn [app classify_all]. rewrite E.
        replace (String.eqb (n ++ "=" ++ a) "--") with false; [destruct (classify_all p w'); reflexivity|].
        symmetry. apply String.eqb_neq. rewrite EN. cbn. intros H. injection H as _ H. destruct tl; discriminate.
      + intros rest s e. apply (ONE _ full); [exact T|reflexivity].
    - pose proof (classify_glue p c i a W H NA NQ) as E.
      exists (String "-" (String c a), KOpt (Some i) (String "-" (String c "")) (Some a)), []. split; [|split; [reflexivity|]].
      + intros w'. cbn [app classify_all]. rewrite E.
        replace (String.eqb (String "-" (String c a)) "--") with false; [destruct (classify_all p w'); reflexivity|].
        symmetry. apply String.eqb_neq. intros H1. injection H1 as _ H1. congruence.
      + intros rest s e. apply (ONE _ (String "-" (String c ""))); [exact T|reflexivity].
  Qed.

  (** several options *)
  Definition afters (es : list effect) s := fold_left (fun s e => after e s) es s.
  Lemma blocks : forall p ws es, table_ok p -> Forall2 (sets p) ws es -> exists B,
    (forall w', classify_all p (concat ws ++ w') = match classify_all p w' with Some l => Some (B ++ l)%list | None => None end) /\
    (ws <> [] -> exists x B', B = x :: B' /\ is_opt x = true) /\ (ws = [] -> B = []) /\
    (forall qs rest s e, compatible p (map e_opt es ++ s_seen s) -> RN p qs (B ++ rest)%list s e = RN p qs rest (afters es s) e).
  Proof.
    intros p ws es W H. induction H as [|w e ws es (args & S & D) _ (B & IH1 & _ & _ & IH2)].
    - exists []. split; [intros w'; cbn; destruct (classify_all p w'); reflexivity|]. split; [congruence|]. split; [reflexivity|]. intros qs rest s ex _. reflexivity.
    - destruct (block p _ _ _ W S) as (x & B0 & C & O & T). exists (x :: B0 ++ B)%list. split; [|split; [|split]].
      + intros w'. cbn [concat]. rewrite <- app_assoc, C, IH1. destruct (classify_all p w'); [|reflexivity]. cbn. rewrite app_assoc. reflexivity.
      + intros _. eauto.
      + discriminate.
      + intros qs rest s ex CM. cbn [app]. rewrite <- app_assoc. rewrite rn_opt by exact O. rewrite T.
        rewrite (take_does p args e s D); [|eapply spelled_args; eauto|].
        2:{ intros j Ij. apply CM; cbn; [right; apply in_or_app; auto|left; reflexivity]. }
        cbn [andthen]. rewrite IH2; [reflexivity|]. intros i j Hi Hj. apply CM.
        * apply in_app_iff in Hi as [Hi|Hi]; cbn in *; [right; apply in_or_app; auto|]. destruct Hi as [Hi|Hi]; [left; exact Hi|right; apply in_or_app; auto].
        * apply in_app_iff in Hj as [Hj|Hj]; cbn in *; [right; apply in_or_app; auto|]. destruct Hj as [Hj|Hj]; [left; exact Hj|right; apply in_or_app; auto].
  Qed.

  Lemma afters_seen : forall es s i, In i (s_seen (afters es s)) <-> In i (map e_opt es) \/ In i (s_seen s).
  Proof.
    unfold afters. induction es as [|e es IH]; intros s i; [cbn; tauto|]. cbn [fold_left map]. rewrite IH. cbn. tauto.
  Qed.
  Lemma afters_opened : forall es s, s_opened (afters es s) = (s_opened s ++ concat (map e_opened es))%list.
  Proof. unfold afters. induction es as [|e es IH]; intros s; [cbn; rewrite app_nil_r; reflexivity|]. cbn [fold_left map concat]. rewrite IH. cbn. rewrite app_assoc. reflexivity. Qed.
  Lemma afters_none : forall es s d, (forall e, In e es -> e_dest e <> d) -> aget (s_ns (afters es s)) d = aget (s_ns s) d.
  Proof.
    unfold afters. induction es as [|e es IH]; intros s d H; [reflexivity|]. cbn [fold_left]. rewrite IH by (intros; apply H; right; assumption).
    unfold after at 1. cbn [s_ns]. rewrite aget_aset, (proj2 (String.eqb_neq _ _)); [reflexivity|]. intros E. apply (H e (or_introl eq_refl)). congruence.
  Qed.
  Lemma afters_last : forall es1 e es2 s, (forall e', In e' es2 -> e_dest e' <> e_dest e) -> aget (s_ns (afters (es1 ++ e :: es2) s)) (e_dest e) = Some (e_val e).
  Proof.
    intros es1 e es2 s H. unfold afters. rewrite fold_left_app. cbn [fold_left].
    pose proof (afters_none es2 (after e (fold_left (fun s e => after e s) es1 s)) (e_dest e) H) as N. unfold afters in N. rewrite N.
    unfold after at 1. cbn [s_ns]. rewrite aget_aset, String.eqb_refl. reflexivity.
  Qed.

  (** positional arguments *)
  Definition opens_with (l : list (string * cls)) : Prop := l = [] \/ exists x r, l = x :: r /\ is_opt x = true.
  Lemma match_pos_none : forall q l, p_n q = PMaybe -> opens_with l -> match_pos q l = Some ([], l).
  Proof.
    intros q l Q H. unfold match_pos. rewrite Q. destruct H as [->|(x & r & -> & O)]; [reflexivity|].
    assert (D : is_dash x = false) by (unfold is_dash, is_opt in *; destruct (snd x); congruence).
    assert (A : is_arg x = false) by (unfold is_arg, is_opt in *; destruct (snd x); congruence).
    cbn [span]. rewrite D. cbn [fst snd]. rewrite A. cbn [fst snd span]. rewrite D. reflexivity.
  Qed.
  Lemma match_pos_one : forall q a l, p_n q = PMaybe -> opens_with l \/ (exists b r, l = (b, KArg) :: r) -> match_pos q ((a, KArg) :: l) = Some ([(a, KArg)], l).
  Proof.
    intros q a l Q H. unfold match_pos. rewrite Q. cbn [span is_dash snd fst is_arg app].
    assert (E : span is_dash l = ([], l)).
    { destruct H as [[->|(x & r & -> & O)]|(b & r & ->)]; [reflexivity| |reflexivity].
      assert (D : is_dash x = false) by (unfold is_dash, is_opt in *; destruct (snd x); congruence). cbn. rewrite D. reflexivity. }
    rewrite E. reflexivity.
  Qed.

  (** no strings: the defaults *)
  Lemma consume_none : forall p qs l s, Forall (fun q => p_n q = PMaybe) qs -> opens_with l ->
    exists s', CP p qs l s = Go ([], l, s') /\ s_seen s' = s_seen s /\ s_opened s' = s_opened s /\
      forall d, aget (s_ns s') d = if existsb (fun q => String.eqb d (p_dest q)) qs then match aget (pr_defaults p) d with Some v => Some v | None => aget (s_ns s) d end else aget (s_ns s) d.
  Proof.
    intros p qs l. induction qs as [|q qs IH]; intros s F H.
    - exists s. cbn. auto.
    - cbn [consume_positionals]. rewrite match_pos_none by (auto; exact (Forall_inv F)). cbn [map].
      assert (TP : exists s1, take_pos to_int to_float can_read can_write p q [] s = Go s1 /\ s_seen s1 = s_seen s /\ s_opened s1 = s_opened s /\
        forall d, aget (s_ns s1) d = if String.eqb d (p_dest q) then match aget (pr_defaults p) d with Some v => Some v | None => aget (s_ns s) d end else aget (s_ns s) d).
      { unfold take_pos. cbn [remove_dashes]. rewrite (Forall_inv F). eexists. split; [reflexivity|].
        destruct (aget (pr_defaults p) (p_dest q)) as [v|] eqn:E; cbn [s_seen s_opened s_ns]; (split; [reflexivity|split; [reflexivity|]]); intros d.
        - rewrite aget_aset. destruct (String.eqb d (p_dest q)) eqn:ED; [|reflexivity]. apply String.eqb_eq in ED. subst d. rewrite E. reflexivity.
        - destruct (String.eqb d (p_dest q)) eqn:ED; [|reflexivity]. apply String.eqb_eq in ED. subst d. rewrite E. reflexivity. }
      destruct TP as (s1 & E1 & A1 & A2 & A3). rewrite E1. cbn [andthen].
      destruct (IH s1 (Forall_inv_tail F) H) as (s' & E2 & B1 & B2 & B3). exists s'. split; [exact E2|]. split; [congruence|]. split; [congruence|].
      intros d. rewrite B3, A3. cbn [existsb]. destruct (String.eqb d (p_dest q)); cbn [orb]; destruct (existsb _ qs); try reflexivity.
      destruct (aget (pr_defaults p) d); reflexivity.
  Qed.

  Lemma consume_some : forall p qs ps l s q1 q2 vos, qs = (q1 ++ q2)%list -> Forall (fun q => p_n q = PMaybe) qs -> NoDup (map p_dest qs) -> opens_with l ->
    length ps = length q1 -> length vos = length q1 -> (forall k a q vo, nth_error ps k = Some a -> nth_error q1 k = Some q -> nth_error vos k = Some vo -> places a q (fst vo) (snd vo)) ->
    exists s', CP p qs (map (fun a => (a, KArg)) ps ++ l) s = Go ([], l, s') /\ s_seen s' = s_seen s /\ s_opened s' = (s_opened s ++ concat (map snd vos))%list /\
      (forall k q vo, nth_error q1 k = Some q -> nth_error vos k = Some vo -> aget (s_ns s') (p_dest q) = Some (fst vo)) /\
      (forall d, ~ In d (map p_dest q1) -> aget (s_ns s') d = if existsb (fun q => String.eqb d (p_dest q)) q2 then match aget (pr_defaults p) d with Some v => Some v | None => aget (s_ns s) d end else aget (s_ns s) d).
  Proof.
    intros p qs ps. revert qs. induction ps as [|a ps IH]; intros qs l s q1 q2 vos EQ F ND H LP LV R.
    - destruct q1; [|discriminate]. destruct vos; [|discriminate]. cbn in EQ. subst q2. cbn [map app].
      destruct (consume_none p qs l s F H) as (s' & E & E1 & E2 & E3). exists s'. split; [exact E|]. split; [exact E1|]. split; [rewrite E2; cbn; rewrite app_nil_r; reflexivity|].
      split; [intros [|k] q vo Hk; discriminate|]. intros d _. apply E3.
    - destruct q1 as [|q q1]; [discriminate|]. destruct vos as [|vo vos]; [discriminate|]. cbn in EQ. destruct qs as [|q' qs]; [discriminate|]. injection EQ as -> EQ.
      cbn in LP, LV. destruct (R 0%nat a q vo eq_refl eq_refl eq_refl) as [PL RD].
      cbn [map app consume_positionals]. rewrite match_pos_one; [|exact (Forall_inv F)|].
      2:{ destruct ps; [left; exact H|right; cbn; eauto]. }
      cbn [map fst]. unfold take_pos at 1. rewrite remove_dashes_id by (constructor; [apply plain_not_dashes; exact PL|constructor]). rewrite (Forall_inv F).
      rewrite (convert_reads _ _ _ _ (s_opened s) RD). cbn [andthen fst snd].
      cbn in ND. inversion ND as [|? ? N1 N2]; subst.
      destruct (IH (q1 ++ q2)%list l (mkState (aset (s_ns s) (p_dest q) (fst vo)) (s_seen s) (s_opened s ++ snd vo)%list) q1 q2 vos eq_refl (Forall_inv_tail F) N2 H ltac:(lia) ltac:(lia)) as (s' & E & E1 & E2 & E3 & E4).
      { intros k a' q' vo' Ha Hq Hv. apply (R (Datatypes.S k)); assumption. }
      exists s'. split; [exact E|]. split; [exact E1|]. split; [rewrite E2; cbn; rewrite <- app_assoc; reflexivity|]. split.
      + intros [|k] q0 vo0 Hq Hv; cbn in Hq, Hv; [|eapply E3; eauto]. injection Hq as <-. injection Hv as <-.
        assert (NI : ~ In (p_dest q) (map p_dest q1)) by (intros I; apply N1; rewrite map_app; apply in_or_app; auto).
        rewrite (E4 _ NI). cbn [s_ns]. rewrite aget_aset, String.eqb_refl.
        destruct (existsb (fun q0 => String.eqb (p_dest q) (p_dest q0)) q2) eqn:EX; [|reflexivity]. exfalso.
        apply existsb_exists in EX as (q0 & I0 & EQ0). apply String.eqb_eq in EQ0. apply N1. rewrite map_app, EQ0. apply in_or_app. right. apply in_map. exact I0.
      + intros d Hd. cbn in Hd. rewrite E4 by tauto. cbn [s_ns]. rewrite aget_aset.
        replace (String.eqb d (p_dest q)) with false by (symmetry; apply String.eqb_neq; intros ->; tauto). reflexivity.
  Qed.

  Lemma does_dest : forall p w e, table_ok p -> sets p w e -> ~ In (e_dest e) (map p_dest (pr_pos p)).
  Proof.
    intros p w e W (args & _ & op & N & D). apply (proj1 (proj2 (proj2 W)) op); [eapply nth_error_In; eauto|].
    destruct (o_action op) as [d [] c|d b|]; cbn.
    - left. destruct D as (a & _ & E & _). auto.
    - left. destruct D as (a & b & g & x & y & z & _ & E & _). auto.
    - left. destruct D as (_ & E & _). auto.
    - destruct D.
  Qed.

  Lemma compatible_sub : forall p l l', compatible p l -> (forall i, In i l' -> In i l) -> compatible p l'.
  Proof. intros p l l' H S i j Hi Hj. apply H; auto. Qed.

  Lemma afters_app : forall es1 es2 s, afters (es1 ++ es2) s = afters es2 (afters es1 s).
  Proof. intros. unfold afters. apply fold_left_app. Qed.

  Lemma F2_in : forall A B (R : A -> B -> Prop) l l' b, Forall2 R l l' -> In b l' -> exists a, In a l /\ R a b.
  Proof. intros A B R l l' b H. induction H; intros I; [destruct I|]. destruct I as [<-|I]; [eexists; split; [left; reflexivity|eassumption]|]. destruct (IHForall2 I) as (a & Ia & Ra). exists a. split; [right|]; assumption. Qed.

  (** ** C140 *)
  (** options before and after at most as many positional arguments as there
      are: of the options that set an attribute the last one counts, each
      positional argument gets its text, everything else is the default *)
  Theorem C140_parsed : forall p ws1 es1 ps vos ws2 es2, table_ok p -> optional_positionals p ->
    Forall2 (sets p) ws1 es1 -> Forall2 (sets p) ws2 es2 -> compatible p (map e_opt (es1 ++ es2)) ->
    (length ps <= length (pr_pos p))%nat -> length vos = length ps ->
    (forall k a q vo, nth_error ps k = Some a -> nth_error (pr_pos p) k = Some q -> nth_error vos k = Some vo -> places a q (fst vo) (snd vo)) ->
    exists ns, PA p (concat ws1 ++ ps ++ concat ws2) =
        Some (Go (ns, concat (map e_opened es1) ++ concat (map snd vos) ++ concat (map e_opened es2))%list) /\
      (forall l1 e l2, (es1 ++ es2)%list = (l1 ++ e :: l2)%list -> (forall e', In e' l2 -> e_dest e' <> e_dest e) -> aget ns (e_dest e) = Some (e_val e)) /\
      (forall k q vo, nth_error (pr_pos p) k = Some q -> nth_error vos k = Some vo -> aget ns (p_dest q) = Some (fst vo)) /\
      (forall d, (forall e, In e (es1 ++ es2)%list -> e_dest e <> d) -> ~ In d (map p_dest (firstn (length ps) (pr_pos p))) -> aget ns d = aget (pr_defaults p) d).
  Proof.
    intros p ws1 es1 ps vos ws2 es2 W OP F1 F2 CM LP LV PL.
    destruct (blocks p ws1 es1 W F1) as (B1 & C1 & _ & N1 & R1). destruct (blocks p ws2 es2 W F2) as (B2 & C2 & O2 & N2 & R2).
    assert (FP : Forall plain ps).
    { apply Forall_forall. intros a Ia. apply In_nth_error in Ia as [k Hk].
      assert (Kl : (k < length ps)%nat) by (apply nth_error_Some; congruence).
      destruct (nth_error (pr_pos p) k) as [q|] eqn:Q; [|apply nth_error_None in Q; lia].
      destruct (nth_error vos k) as [vo|] eqn:V; [|apply nth_error_None in V; lia]. apply (PL k a q vo Hk Q V). }
    set (q1 := firstn (length ps) (pr_pos p)). set (q2 := skipn (length ps) (pr_pos p)).
    assert (Q12 : pr_pos p = (q1 ++ q2)%list) by (symmetry; apply firstn_skipn).
    assert (Lq1 : length q1 = length ps) by (unfold q1; rewrite firstn_length; lia).
    set (s0 := mkState (pr_defaults p) [] []). set (s1 := afters es1 s0).
    assert (OW : opens_with B2).
    { destruct ws2 as [|w ws2]; [left; auto|right]. destruct (O2 ltac:(discriminate)) as (x & r & -> & O). eauto. }
    assert (NB : existsb is_opt B2 = match ws2 with [] => false | _ => true end).
    { destruct ws2 as [|w ws2]; [rewrite (N2 eq_refl); reflexivity|]. destruct (O2 ltac:(discriminate)) as (x & r & -> & O). cbn. rewrite O. reflexivity. }
    destruct (consume_some p (pr_pos p) ps B2 s1 q1 q2 vos Q12 OP (proj2 (proj2 (proj2 W))) OW ltac:(lia) ltac:(lia)) as (s2 & E2 & SN2 & OP2 & V2 & D2).
    { intros k a q vo Ha Hq Hv. apply (PL k a q vo Ha); [|exact Hv].
      rewrite Q12, nth_error_app1; [exact Hq|]. rewrite Lq1. apply nth_error_Some. congruence. }
    assert (Def : forall d, ~ In d (map p_dest q1) -> aget (s_ns s2) d = aget (s_ns s1) d \/ aget (s_ns s2) d = aget (pr_defaults p) d /\ In d (map p_dest (pr_pos p))).
    { intros d Hd. rewrite (D2 d Hd). destruct (existsb (fun q => String.eqb d (p_dest q)) q2) eqn:EX; [|left; reflexivity].
      destruct (aget (pr_defaults p) d); [right|left; reflexivity]. split; [reflexivity|].
      apply existsb_exists in EX as (q0 & I0 & EQ0). apply String.eqb_eq in EQ0. rewrite Q12, map_app, EQ0. apply in_or_app. right. apply in_map. exact I0. }
    assert (CL : classify_all p (concat ws1 ++ ps ++ concat ws2) = Some (B1 ++ map (fun a => (a, KArg)) ps ++ B2)%list).
    { rewrite C1, classify_all_plain by assumption. pose proof (C2 []) as C2'. rewrite app_nil_r in C2'. rewrite C2'. cbn. rewrite app_nil_r. reflexivity. }
    assert (CM1 : compatible p (map e_opt es1 ++ s_seen s0)).
    { eapply compatible_sub; [exact CM|]. intros i Hi. cbn in Hi. rewrite app_nil_r in Hi. rewrite map_app. apply in_or_app. auto. }
    assert (CM2 : forall s, s_seen s = s_seen s1 -> compatible p (map e_opt es2 ++ s_seen s)).
    { intros s Es. eapply compatible_sub; [exact CM|]. intros i Hi. rewrite Es in Hi. rewrite map_app. apply in_or_app.
      apply in_app_iff in Hi as [Hi|Hi]; [auto|]. unfold s1 in Hi. apply afters_seen in Hi as [Hi|[]]. auto. }
    (* the final state *)
    assert (FIN : exists s3, RN p (pr_pos p) (B1 ++ map (fun a => (a, KArg)) ps ++ B2)%list s0 [] = Some (Go ([], s3, [])) /\
       s_opened s3 = (concat (map e_opened es1) ++ concat (map snd vos) ++ concat (map e_opened es2))%list /\
       (forall d, ~ In d (map p_dest (pr_pos p)) -> aget (s_ns s3) d = aget (s_ns (afters (es1 ++ es2) s0)) d) /\
       (forall d, In d (map p_dest (pr_pos p)) -> aget (s_ns s3) d = aget (s_ns s2) d)).
    { rewrite R1 by exact CM1. fold s1.
      assert (AG : forall s s' d, aget (s_ns s) d = aget (s_ns s') d -> aget (s_ns (afters es2 s)) d = aget (s_ns (afters es2 s')) d).
      { clear. unfold afters. induction es2 as [|e es2 IH]; intros s s' d H; [exact H|]. cbn [fold_left]. apply IH. unfold after. cbn [s_ns]. rewrite !aget_aset, H. reflexivity. }
      assert (PD : forall d s, In d (map p_dest (pr_pos p)) -> aget (s_ns (afters es2 s)) d = aget (s_ns s) d).
      { intros d s I. apply afters_none. intros e Ie Ed. destruct (F2_in _ _ _ _ _ _ F2 Ie) as (w & _ & Sw). apply (does_dest p w e W Sw). congruence. }
      destruct ps as [|a ps].
      - (* no positional arguments: the defaults at the end *)
        assert (V0 : vos = []) by (destruct vos; [reflexivity|discriminate]). subst vos.
        cbn [map app]. pose proof (R2 (pr_pos p) [] s1 [] (CM2 s1 eq_refl)) as R2'. rewrite app_nil_r in R2'. rewrite R2', rn_end by reflexivity.
        destruct (consume_none p (pr_pos p) [] (afters es2 s1) OP (or_introl eq_refl)) as (s3 & E3 & S3 & O3 & D3).
        rewrite E3. cbn [andthen fst snd map app]. exists s3. split; [reflexivity|]. split; [|split].
        + rewrite O3. unfold s1. rewrite !afters_opened. reflexivity.
        + intros d Hd. rewrite D3. rewrite afters_app. fold s1.
          destruct (existsb (fun q => String.eqb d (p_dest q)) (pr_pos p)) eqn:EX; [|reflexivity]. exfalso.
          apply existsb_exists in EX as (q0 & I0 & EQ0). apply String.eqb_eq in EQ0. apply Hd. rewrite EQ0. apply in_map. exact I0.
        + intros d Hd. rewrite D3, D2 by (cbn; tauto). rewrite (PD d s1 Hd). reflexivity.
      - cbn [map app]. destruct ws2 as [|w2 ws2].
        + rewrite (N2 eq_refl) in *. inversion F2; subst es2. rewrite app_nil_r.
          assert (NO : existsb is_opt ((a, KArg) :: map (fun a => (a, KArg)) ps) = false).
          { clear. cbn. induction ps; [reflexivity|exact IHps]. }
          rewrite rn_end by exact NO. cbn [map app] in E2. rewrite app_nil_r in E2. rewrite E2. cbn [andthen fst snd map app].
          exists s2. split; [reflexivity|]. split; [|split].
          * rewrite OP2. unfold s1. rewrite afters_opened. cbn. rewrite app_nil_r. reflexivity.
          * intros d Hd. rewrite app_nil_r. fold s1. destruct (Def d) as [H|[_ H]]; [|exact H|destruct (Hd H)].
            intros I. apply Hd. rewrite Q12, map_app. apply in_or_app. auto.
          * reflexivity.
        + assert (EXO : existsb is_opt (map (fun a => (a, KArg)) ps ++ B2)%list = true).
          { rewrite existsb_app, NB. apply orb_true_r. }
          rewrite rn_pos by (reflexivity || exact EXO). cbn [map app] in E2. rewrite E2.
          replace (Nat.ltb (length B2) (length ((a, KArg) :: map (fun a => (a, KArg)) ps ++ B2)%list)) with true.
          2:{ symmetry. apply Nat.ltb_lt. cbn. rewrite app_length. lia. }
          pose proof (R2 [] [] s2 [] (CM2 s2 SN2)) as R2'. rewrite app_nil_r in R2'. rewrite R2', rn_end by reflexivity.
          cbn [consume_positionals andthen fst snd map app]. exists (afters es2 s2). split; [reflexivity|]. split; [|split].
          * rewrite afters_opened, OP2. unfold s1. rewrite afters_opened. cbn. rewrite <- app_assoc. reflexivity.
          * intros d Hd. rewrite afters_app. fold s1. apply AG. destruct (Def d) as [H|[_ H]]; [|exact H|destruct (Hd H)].
            intros I. apply Hd. rewrite Q12, map_app. apply in_or_app. auto.
          * intros d Hd. apply PD. exact Hd. }
    destruct FIN as (s3 & RN3 & O3 & D3 & P3). exists (s_ns s3). split; [|split; [|split]].
    - unfold parse_args. rewrite CL. fold s0. unfold rn in RN3. rewrite RN3. cbn [existsb]. rewrite O3. reflexivity.
    - intros l1 e l2 EL U. assert (Ie : In e (es1 ++ es2)) by (rewrite EL; apply in_or_app; right; left; reflexivity).
      rewrite D3.
      + rewrite EL. apply afters_last. exact U.
      + apply in_app_iff in Ie as [Ie|Ie]; [destruct (F2_in _ _ _ _ _ _ F1 Ie) as (w & _ & Sw)|destruct (F2_in _ _ _ _ _ _ F2 Ie) as (w & _ & Sw)]; eapply does_dest; eauto.
    - intros k q vo Hq Hv. assert (Kl : (k < length q1)%nat) by (rewrite Lq1, <- LV; apply nth_error_Some; congruence).
      rewrite P3 by (apply in_map; eapply nth_error_In; eauto). apply (V2 k); [|exact Hv].
      rewrite Q12, nth_error_app1 in Hq by exact Kl. exact Hq.
    - intros d Hd Hq. fold q1 in Hq.
      destruct (in_dec string_dec d (map p_dest (pr_pos p))) as [I|I].
      + rewrite P3 by exact I. destruct (Def d Hq) as [H|[H _]]; [|exact H]. rewrite H. unfold s1. rewrite afters_none; [reflexivity|].
        intros e Ie. apply Hd. apply in_or_app. auto.
      + rewrite D3 by exact I. rewrite afters_none by exact Hd. reflexivity.
  Qed.

  (** the order of options that set different attributes does not matter *)
  Theorem C140_order : forall p ws es ws' es', table_ok p -> optional_positionals p ->
    Forall2 (sets p) ws es -> Forall2 (sets p) ws' es' -> Permutation es es' -> NoDup (map e_dest es) -> compatible p (map e_opt es) ->
    exists ns o ns' o', PA p (concat ws) = Some (Go (ns, o)) /\ PA p (concat ws') = Some (Go (ns', o')) /\
      (forall d, aget ns d = aget ns' d) /\ Permutation o o'.
  Proof.
    intros p ws es ws' es' W OP F F' PE ND CM.
    assert (CM' : compatible p (map e_opt es')).
    { eapply compatible_sub; [exact CM|]. intros i Hi. eapply Permutation_in; [|exact Hi]. apply Permutation_map, Permutation_sym, PE. }
    assert (ND' : NoDup (map e_dest es')) by (eapply Permutation_NoDup; [apply Permutation_map, PE|exact ND]).
    destruct (C140_parsed p ws es [] [] [] [] W OP F (Forall2_nil _) ltac:(rewrite app_nil_r; exact CM) ltac:(cbn; lia) eq_refl) as (ns & E & L & _ & D); [intros [|k]; discriminate|].
    destruct (C140_parsed p ws' es' [] [] [] [] W OP F' (Forall2_nil _) ltac:(rewrite app_nil_r; exact CM') ltac:(cbn; lia) eq_refl) as (ns' & E' & L' & _ & D'); [intros [|k]; discriminate|].
    cbn [concat map app] in E, E'. rewrite app_nil_r in E, E'. rewrite app_nil_r in *.
    exists ns, (concat (map e_opened es)), ns', (concat (map e_opened es')). split; [exact E|]. split; [exact E'|]. split.
    - assert (G : forall l d e, NoDup (map e_dest l) -> In e l -> e_dest e = d -> exists l1 l2, l = (l1 ++ e :: l2)%list /\ forall e', In e' l2 -> e_dest e' <> e_dest e).
      { clear. intros l d e N I _. apply in_split in I as (l1 & l2 & ->). exists l1, l2. split; [reflexivity|].
        rewrite map_app in N. cbn in N. apply NoDup_remove_2 in N. intros e' I' E. apply N. apply in_or_app. right. rewrite <- E. apply in_map. exact I'. }
      intros d. destruct (in_dec string_dec d (map e_dest es)) as [I|I].
      + apply in_map_iff in I as (e & Ed & Ie). subst d.
        destruct (G es _ e ND Ie eq_refl) as (l1 & l2 & E1 & U1). destruct (G es' _ e ND' (Permutation_in _ PE Ie) eq_refl) as (l1' & l2' & E2 & U2).
        rewrite (L l1 e l2 E1 U1), (L' l1' e l2' E2 U2). reflexivity.
      + rewrite D, D'; try reflexivity; try (cbn; tauto); intros e Ie Ed; apply I; rewrite <- Ed; apply in_map; [eapply Permutation_in; [apply Permutation_sym, PE|exact Ie]|exact Ie].
    - clear - PE. induction PE; cbn; [constructor| | |etransitivity; eauto].
      + apply Permutation_app_head. exact IHPE.
      + rewrite !app_assoc. apply Permutation_app_tail. apply Permutation_app_comm.
  Qed.

  (** every command line ends, whatever the table *)
  Theorem C140_total : forall p argv, PA p argv <> None.
  Proof.
    intros p argv. unfold parse_args. destruct (classify_all p argv) as [l|]; [|discriminate].
    destruct (loop_fuel to_int to_float can_read can_write p (Datatypes.S (length l)) (Datatypes.S (length l)) (pr_pos p) l (mkState (pr_defaults p) [] []) [] ltac:(lia) ltac:(lia)) as [_ H].
    destruct (loop to_int to_float can_read can_write p (Datatypes.S (length l)) (pr_pos p) l (mkState (pr_defaults p) [] []) []) as [[[[qs s] ex]|c o]|]; [|discriminate|congruence].
    destruct (existsb required qs); [discriminate|]. destruct ex; discriminate.
  Qed.

  (** ** C141: refused command lines *)
  Lemma stops_at : forall p ws es w i args c o rest, table_ok p -> Forall2 (sets p) ws es -> compatible p (map e_opt es) -> spelled p i args w ->
    TO p i args (afters es (mkState (pr_defaults p) [] [])) = Stop c o ->
    PA p (concat ws ++ w ++ rest) = match classify_all p rest with None => Some (Stop 2 []) | Some _ => Some (Stop c o) end.
  Proof.
    intros p ws es w i args c o rest W F CM S T. unfold parse_args.
    destruct (blocks p ws es W F) as (B & CL & _ & _ & R). destruct (block p i args w W S) as (x & B0 & CB & O & CONS).
    rewrite CL, CB. destruct (classify_all p rest) as [l|]; [|reflexivity].
    fold (rn to_int to_float can_read can_write p (pr_pos p) (B ++ x :: B0 ++ l)%list (mkState (pr_defaults p) [] []) []).
    rewrite R by (cbn; rewrite app_nil_r; exact CM). rewrite rn_opt by exact O. rewrite CONS, T. reflexivity.
  Qed.

  Lemma classify_sets : forall p ws es, table_ok p -> Forall2 (sets p) ws es -> classify_all p (concat ws) <> None.
  Proof. intros p ws es W F. destruct (blocks p ws es W F) as (B & CL & _). pose proof (CL []) as C. rewrite app_nil_r in C. rewrite C. discriminate. Qed.

  (** two options that exclude each other, with anything behind them *)
  Theorem C141_exclusive : forall p ws es w e rest, table_ok p -> Forall2 (sets p) ws es -> compatible p (map e_opt es) -> sets p w e ->
    (forall op, nth_error (pr_opts p) (e_opt e) = Some op -> exists d b, o_action op = AFlag d b) ->
    (exists e', In e' es /\ exclude p (e_opt e') (e_opt e)) ->
    exists o, PA p (concat ws ++ w ++ rest) = Some (Stop 2 o).
  Proof.
    intros p ws es w e rest W F CM (args & S & D) FL (e' & I' & NE & oi & oj & g & Hi & Hj & Gi & Gj).
    assert (T : TO p (e_opt e) args (afters es (mkState (pr_defaults p) [] [])) = Stop 2 (s_opened (afters es (mkState (pr_defaults p) [] [])))).
    { unfold take_opt. rewrite Hj. destruct (FL oj Hj) as (d & b & A). rewrite A, Gj.
      rewrite (proj2 (existsb_exists _ _)); [reflexivity|]. exists (e_opt e'). split.
      - apply afters_seen. left. apply in_map. exact I'.
      - rewrite Hi, Gi. apply andb_true_iff. split; [apply negb_true_iff, Nat.eqb_neq; exact NE|apply Nat.eqb_refl]. }
    rewrite (stops_at p ws es w _ args _ _ rest W F CM S T). destruct (classify_all p rest); eauto.
  Qed.

  (** an argument that is refused: the files of the options before it have
      been opened, so an output file is empty *)
  Theorem C141_refused : forall p ws es w i d c a ws' es', table_ok p -> Forall2 (sets p) ws es -> compatible p (map e_opt es) -> Forall2 (sets p) ws' es' ->
    spelled p i [a] w -> (exists op, nth_error (pr_opts p) i = Some op /\ o_action op = AStore d One c) -> refuses c a ->
    PA p (concat ws ++ w ++ concat ws') = Some (Stop 2 (concat (map e_opened es))).
  Proof.
    intros p ws es w i d c a ws' es' W F CM F' S (op & N & A) RF.
    assert (T : TO p i [a] (afters es (mkState (pr_defaults p) [] [])) = Stop 2 (concat (map e_opened es))).
    { unfold take_opt. rewrite N, A, remove_dashes_id by (eapply spelled_args; eauto). rewrite (convert_refuses c a _ RF). cbn [andthen].
      rewrite afters_opened. reflexivity. }
    rewrite (stops_at p ws es w i [a] _ _ (concat ws') W F CM S T). pose proof (classify_sets p ws' es' W F') as C. destruct (classify_all p (concat ws')); congruence.
  Qed.

  (** help and version as well *)
  Theorem C141_quits : forall p ws es n i ws' es', table_ok p -> Forall2 (sets p) ws es -> compatible p (map e_opt es) -> Forall2 (sets p) ws' es' ->
    called p n i -> (exists op, nth_error (pr_opts p) i = Some op /\ o_action op = AQuit) ->
    PA p (concat ws ++ [n] ++ concat ws') = Some (Stop 0 (concat (map e_opened es))).
  Proof.
    intros p ws es n i ws' es' W F CM F' C (op & N & A).
    assert (S : spelled p i [] [n]) by (apply sp_apart; [exact C|exists op; rewrite A; auto|constructor]).
    assert (T : TO p i [] (afters es (mkState (pr_defaults p) [] [])) = Stop 0 (concat (map e_opened es))).
    { unfold take_opt. rewrite N, A, afters_opened. reflexivity. }
    rewrite (stops_at p ws es [n] i [] _ _ (concat ws') W F CM S T). pose proof (classify_sets p ws' es' W F') as CC. destruct (classify_all p (concat ws')); congruence.
  Qed.

  (** a string that looks like an option is never an argument of the option
      before it, not even where a number is expected *)
  Definition optionlike (a : string) : Prop := (exists tl, a = String "-" tl /\ tl <> "") /\ negative_number a = false /\ has_space a = false.
  Lemma classify_optionlike : forall p a, optionlike a -> classify p a <> Some KArg.
  Proof.
    intros p a ((tl & -> & NT) & NN & NS). unfold classify. change (negb (Ascii.eqb "-" "-")) with false. cbv iota.
    destruct (find_name p (String "-" tl)); [discriminate|]. rewrite (proj2 (String.eqb_neq _ _) NT).
    assert (OT : forall k, In k (option_tuples p (String "-" tl)) -> k <> KArg).
    { intros k. unfold option_tuples. destruct tl as [|c2 tl]; [intros []|]. destruct (Ascii.eqb c2 "-").
      - intros I. apply in_map_iff in I as (ni & <- & _). discriminate.
      - intros I. apply in_concat in I as (l & Il & Ik). apply in_map_iff in Il as (ni & <- & _).
        destruct (String.eqb (fst ni) _); [destruct Ik as [<-|[]]; discriminate|]. destruct (prefix _ _); [destruct Ik as [<-|[]]; discriminate|destruct Ik]. }
    destruct (match split_eq (String "-" tl) with Some (a, b) => match find_name p a with Some i => Some (KOpt (Some i) a (Some b)) | None => None end | None => None end) as [k|] eqn:SE.
    - destruct (split_eq (String "-" tl)) as [[u v]|]; [|discriminate]. destruct (find_name p u); [|discriminate]. injection SE as <-. discriminate.
    - destruct (option_tuples p (String "-" tl)) as [|k [|k' l]]; [rewrite NN, NS; discriminate| |discriminate].
      intros E. injection E as E. apply (OT k (or_introl eq_refl) E).
  Qed.

  Theorem C141_too_few : forall p ws es n i k args rest, table_ok p -> Forall2 (sets p) ws es -> compatible p (map e_opt es) ->
    called p n i -> takes p i k -> Forall plain args -> (length args < k)%nat -> (rest = [] \/ exists a l, rest = a :: l /\ optionlike a) ->
    exists o, PA p (concat ws ++ (n :: args) ++ rest) = Some (Stop 2 o).
  Proof.
    intros p ws es n i k args rest W F CM C TK FA LT R.
    destruct (blocks p ws es W F) as (B & CL & _ & _ & RB). destruct (classify_called p n i W C) as (full & E & _). destruct (called_shape p n i W C) as (c & tl & EN & _ & ND).
    unfold parse_args. rewrite CL. cbn [app classify_all]. rewrite (proj2 (String.eqb_neq _ _) ND), E, classify_all_plain by assumption.
    destruct (classify_all p rest) as [l|] eqn:CR; [|eauto].
    assert (HL : l = [] \/ exists x l', l = x :: l' /\ is_arg x = false).
    { destruct R as [->|(a & l0 & -> & OL)]; [left; cbn in CR; congruence|right]. cbn in CR. destruct (String.eqb a "--"); [injection CR as <-; eauto|].
      pose proof (classify_optionlike p a OL) as NC. destruct (classify p a) as [k0|]; [|discriminate]. destruct (classify_all p l0) as [r|]; [|discriminate].
      injection CR as <-. eexists. eexists. split; [reflexivity|]. unfold is_arg. cbn. destruct k0; congruence. }
    cbn [map]. fold (rn to_int to_float can_read can_write p (pr_pos p) (B ++ (n, KOpt (Some i) full None) :: map (fun a => (a, KArg)) args ++ l)%list (mkState (pr_defaults p) [] []) []).
    rewrite RB by (cbn; rewrite app_nil_r; exact CM). rewrite rn_opt by reflexivity. unfold consume_optional. cbn [snd].
    destruct TK as (op & NO & K). rewrite NO.
    assert (G : forall m args, (length args < m)%nat -> grab m (map (fun a => (a, KArg)) args ++ l)%list = None).
    { clear - HL. induction m as [|m IH]; intros args LT; [lia|]. destruct args as [|a args].
      - cbn. destruct HL as [->|(x & l' & -> & A)]; [reflexivity|]. cbn. rewrite A. reflexivity.
      - cbn. rewrite IH; [reflexivity|]. cbn in LT. lia. }
    rewrite G; [eauto|]. destruct (o_action op) as [d [] c0|d b|]; cbn; lia.
  Qed.

  (** a name cut too short *)
  Theorem C141_ambiguous : forall p l n n1 i1 n2 i2 rest, table_ok p -> Forall (fun a => a <> "--") l ->
    (exists tl, n = "--" ++ tl /\ tl <> "") -> no_eq n = true -> (forall i, ~ has p n i) ->
    has p n1 i1 -> has p n2 i2 -> n1 <> n2 -> prefix n n1 = true -> prefix n n2 = true ->
    PA p (l ++ n :: rest) = Some (Stop 2 []).
  Proof.
    intros p l n n1 i1 n2 i2 rest W FL (tl & EN & NT) NE NN H1 H2 ND P1 P2. unfold parse_args.
    replace (classify_all p (l ++ n :: rest)) with (@None (list (string * cls))); [reflexivity|]. symmetry.
    induction l as [|a l IH].
    - cbn [app classify_all]. rewrite EN. replace (String.eqb ("--" ++ tl) "--") with false by (symmetry; apply String.eqb_neq; destruct tl; [congruence|discriminate]).
      replace (classify p ("--" ++ tl)) with (@None cls); [reflexivity|]. symmetry. rewrite EN in NN, NE.
      unfold classify. cbn [append]. change (negb (Ascii.eqb "-" "-")) with false. cbv iota. change (String "-" (String "-" tl)) with ("--" ++ tl).
      rewrite (find_name_none p _ NN). cbn [String.eqb]. rewrite split_eq_none by exact NE.
      assert (OT : exists k k' l', option_tuples p ("--" ++ tl) = k :: k' :: l').
      { cbn [append option_tuples]. change (Ascii.eqb "-" "-") with true. cbv iota. change (String "-" (String "-" tl)) with ("--" ++ tl).
        rewrite split_eq_none by exact NE. cbn [fst snd].
        assert (I1 : In (n1, i1) (filter (fun ni => prefix ("--" ++ tl) (fst ni)) (names p))) by (apply filter_In; split; [apply in_names; exact H1|rewrite <- EN; exact P1]).
        assert (I2 : In (n2, i2) (filter (fun ni => prefix ("--" ++ tl) (fst ni)) (names p))) by (apply filter_In; split; [apply in_names; exact H2|rewrite <- EN; exact P2]).
        destruct (filter (fun ni => prefix ("--" ++ tl) (fst ni)) (names p)) as [|x [|y r]]; [destruct I1| |cbn [map]; eauto].
        destruct I1 as [I1|[]], I2 as [I2|[]]. congruence. }
      destruct OT as (k & k' & l' & ->). reflexivity.
    - cbn [app classify_all]. rewrite (proj2 (String.eqb_neq _ _) (Forall_inv FL)). rewrite (IH (Forall_inv_tail FL)). destruct (classify p a); reflexivity.
  Qed.

  (** ** C142: positional arguments torn apart *)
  Lemma extras : forall p ps B s e, opens_with B -> RN p [] (map (fun a => (a, KArg)) ps ++ B)%list s e = RN p [] B s (e ++ ps)%list.
  Proof.
    intros p ps B s e H. destruct ps as [|a ps]; [cbn; rewrite app_nil_r; reflexivity|].
    assert (M : forall ps : list string, map fst (map (fun a => (a, KArg)) ps) = ps) by (intros l; rewrite map_map; cbn; apply map_id).
    assert (NO : forall ps : list string, existsb is_opt (map (fun a => (a, KArg)) ps) = false) by (induction ps0; [reflexivity|assumption]).
    destruct H as [->|(x & r & -> & O)].
    - rewrite !rn_end; [|reflexivity|rewrite app_nil_r; apply (NO (a :: ps))].
      cbn [consume_positionals andthen fst snd]. rewrite app_nil_r, (M (a :: ps)). cbn [map]. rewrite app_nil_r. reflexivity.
    - cbn [map app]. rewrite rn_pos; [|reflexivity|rewrite existsb_app; cbn; rewrite O; apply orb_true_r].
      cbn [consume_positionals]. rewrite Nat.ltb_irrefl. cbv zeta.
      assert (SP : forall ps : list string, span (fun x => negb (is_opt x)) (map (fun a => (a, KArg)) ps ++ x :: r)%list = (map (fun a => (a, KArg)) ps, x :: r)).
      { induction ps0 as [|b ps0 IH]; cbn; [rewrite O; reflexivity|]. rewrite IH. reflexivity. }
      pose proof (SP (a :: ps)) as SP'. cbn [map app] in SP'. rewrite SP'. cbn [fst snd]. pose proof (M (a :: ps)) as M'. cbn [map] in M'. cbn [map]. rewrite M'. reflexivity.
  Qed.

  Lemma consume_any : forall p qs ps l s, Forall (fun q => p_n q = PMaybe) qs -> Forall plain ps -> opens_with l ->
    (exists o, CP p qs (map (fun a => (a, KArg)) ps ++ l)%list s = Stop 2 o) \/
    exists s', CP p qs (map (fun a => (a, KArg)) ps ++ l)%list s = Go ([], (map (fun a => (a, KArg)) (skipn (length qs) ps) ++ l)%list, s') /\ s_seen s' = s_seen s.
  Proof.
    intros p. induction qs as [|q qs IH]; intros ps l s F FP H; [right; cbn; eauto|].
    destruct ps as [|a ps].
    - destruct (consume_none p (q :: qs) l s F H) as (s' & E & E1 & _). right. exists s'. split; [exact E|exact E1].
    - cbn [map app consume_positionals]. rewrite match_pos_one; [|exact (Forall_inv F)|destruct ps; [left; exact H|right; cbn; eauto]].
      cbn [map fst]. unfold take_pos at 1 2. rewrite remove_dashes_id by (constructor; [apply plain_not_dashes; exact (Forall_inv FP)|constructor]). rewrite (Forall_inv F).
      destruct (CV (p_conv q) a (s_opened s)) as [vo|k o] eqn:C; cbn [andthen].
      + destruct (IH ps l (mkState (aset (s_ns s) (p_dest q) (fst vo)) (s_seen s) (snd vo)) (Forall_inv_tail F) (Forall_inv_tail FP) H) as [[o E]|(s' & E & E1)]; [left|right]; eauto.
      + apply convert_stops in C as [-> _]. left. eauto.
  Qed.

  Lemma extras_stop : forall p ws es ps ws' es' B' s e, table_ok p -> Forall2 (sets p) ws es -> Forall2 (sets p) ws' es' ->
    classify_all p (concat ws') = Some B' -> compatible p (map e_opt es' ++ s_seen s) -> (e ++ ps)%list <> [] ->
    exists s', RN p [] (map (fun a => (a, KArg)) ps ++ B')%list s e = Some (Go ([], s', (e ++ ps)%list)).
  Proof.
    intros p ws es ps ws' es' B' s e W _ F' CL CM NE. destruct (blocks p ws' es' W F') as (B & CB & O & N & R).
    pose proof (CB []) as CB'. rewrite app_nil_r, CL in CB'. cbn in CB'. rewrite app_nil_r in CB'. injection CB' as ->.
    rewrite extras. 2:{ destruct ws' as [|w ws']; [left; auto|right]. destruct (O ltac:(discriminate)) as (x & r & -> & OX). eauto. }
    pose proof (R [] [] s (e ++ ps)%list CM) as R'. rewrite app_nil_r in R'. rewrite R', rn_end by reflexivity. cbn. rewrite app_nil_r. eauto.
  Qed.

  (** once an option follows a positional argument, no further one is taken *)
  Theorem C142_torn : forall p ws1 es1 ps1 ws2 es2 ps2 ws3 es3, table_ok p -> optional_positionals p ->
    Forall2 (sets p) ws1 es1 -> Forall2 (sets p) ws2 es2 -> Forall2 (sets p) ws3 es3 -> compatible p (map e_opt (es1 ++ es2 ++ es3)) ->
    Forall plain ps1 -> Forall plain ps2 -> ps1 <> [] -> ps2 <> [] -> ws2 <> [] ->
    exists o, PA p (concat ws1 ++ ps1 ++ concat ws2 ++ ps2 ++ concat ws3) = Some (Stop 2 o).
  Proof.
    intros p ws1 es1 ps1 ws2 es2 ps2 ws3 es3 W OP F1 F2 F3 CM FP1 FP2 N1 N2 N3.
    destruct (blocks p ws1 es1 W F1) as (B1 & C1 & _ & _ & R1). destruct (blocks p ws2 es2 W F2) as (B2 & C2 & O2 & _ & R2).
    pose proof (classify_sets p ws3 es3 W F3) as C3. destruct (classify_all p (concat ws3)) as [B3|] eqn:EC3; [|congruence].
    unfold parse_args. rewrite C1, classify_all_plain, C2, classify_all_plain, EC3 by assumption.
    set (s0 := mkState (pr_defaults p) [] []). set (T := (map (fun a => (a, KArg)) ps2 ++ B3)%list).
    fold (rn to_int to_float can_read can_write p (pr_pos p) (B1 ++ map (fun a => (a, KArg)) ps1 ++ B2 ++ T)%list s0 []).
    rewrite R1.
    2:{ eapply compatible_sub; [exact CM|]. cbn. rewrite app_nil_r. intros i Hi. rewrite map_app. apply in_or_app. auto. }
    destruct (O2 N3) as (x & B2' & EB2 & OX).
    assert (OW : opens_with (B2 ++ T)) by (right; rewrite EB2; cbn; eauto).
    assert (SEEN : forall s, s_seen s = s_seen (afters es1 s0) -> forall e, compatible p (map e_opt es2 ++ s_seen s) /\ exists s', RN p [] (B2 ++ T)%list s e = Some (Go ([], s', (e ++ ps2)%list))).
    { intros s Es e.
      assert (CM2 : compatible p (map e_opt es2 ++ s_seen s)).
      { eapply compatible_sub; [exact CM|]. rewrite Es. intros i Hi. apply in_app_iff in Hi as [Hi|Hi]; rewrite !map_app, !in_app_iff; [auto|]. apply afters_seen in Hi as [Hi|[]]. auto. }
      split; [exact CM2|]. rewrite R2 by exact CM2. unfold T.
      apply (extras_stop p [] [] ps2 ws3 es3 B3); try assumption; [constructor| |destruct e; [exact N2|discriminate]].
      eapply compatible_sub; [exact CM|]. intros i Hi. rewrite !map_app, !in_app_iff. apply in_app_iff in Hi as [Hi|Hi]; [auto|].
      apply afters_seen in Hi as [Hi|Hi]; [auto|]. rewrite Es in Hi. apply afters_seen in Hi as [Hi|[]]. auto. }
    assert (FIN : forall s e, s_seen s = s_seen (afters es1 s0) -> forall ps, exists s', RN p [] (map (fun a => (a, KArg)) ps ++ B2 ++ T)%list s e = Some (Go ([], s', (e ++ ps ++ ps2)%list))).
    { intros s e Es ps. rewrite extras by exact OW. destruct (SEEN s Es (e ++ ps)%list) as (_ & s' & ->). rewrite app_assoc. eauto. }
    destruct ps1 as [|a ps1]; [congruence|]. cbn [map app].
    rewrite rn_pos; [|reflexivity|rewrite existsb_app, EB2; cbn; rewrite OX; apply orb_true_r].
    assert (STOP : forall (s' : state X) (e : list string), e <> [] -> match Some (Go ([] : list pos, s' : state X, e)) with
        | Some (Go (qs, s, extras)) => if existsb required qs then Some (Stop 2 (s_opened s)) else match extras with [] => Some (Go (s_ns s, s_opened s)) | _ :: _ => Some (Stop 2 (s_opened s)) end
        | Some (Stop c o) => Some (Stop c o) | None => None end = Some (Stop 2 (s_opened s'))).
    { intros s' e Ne. cbn. destruct e; [congruence|reflexivity]. }
    destruct (consume_any p (pr_pos p) (a :: ps1) (B2 ++ T)%list (afters es1 s0) OP FP1 OW) as [[o E]|(s' & E & Es)]; cbn [map app] in E; rewrite E; [eauto|].
    destruct (Nat.ltb _ _).
    - destruct (FIN s' [] Es (skipn (length (pr_pos p)) (a :: ps1))) as (s2 & ->). exists (s_opened s2). apply STOP. cbn. destruct (skipn _ _); [exact N2|discriminate].
    - cbv zeta. destruct (skipn (length (pr_pos p)) (a :: ps1)) as [|b sk] eqn:SK.
      + cbn [map app]. rewrite EB2. cbn [app span]. rewrite OX. cbn [negb fst snd map app].
        change (x :: B2' ++ T)%list with ((x :: B2') ++ T)%list. rewrite <- EB2. destruct (SEEN s' Es []) as (_ & s2 & ->). exists (s_opened s2). apply STOP. exact N2.
      + assert (SPN : forall ps : list string, span (fun x => negb (is_opt x)) (map (fun a => (a, KArg)) ps ++ B2 ++ T)%list = (map (fun a => (a, KArg)) ps, (B2 ++ T)%list)).
        { rewrite EB2. induction ps as [|b' ps IH]; cbn; [rewrite OX; reflexivity|]. cbn in IH. rewrite IH. reflexivity. }
        rewrite SPN. cbn [fst snd]. destruct (SEEN s' Es ([] ++ map fst (map (fun a0 : string => (a0, KArg)) (b :: sk)))%list) as (_ & s2 & ->).
        exists (s_opened s2). apply STOP. cbn. discriminate.
  Qed.

  (** more positional arguments than the script has *)
  Theorem C142_too_many : forall p ws es ps, table_ok p -> optional_positionals p -> Forall2 (sets p) ws es -> compatible p (map e_opt es) ->
    Forall plain ps -> (length (pr_pos p) < length ps)%nat -> exists o, PA p (concat ws ++ ps) = Some (Stop 2 o).
  Proof.
    intros p ws es ps W OP F CM FP LT. destruct (blocks p ws es W F) as (B & C & _ & _ & R). unfold parse_args.
    rewrite C. pose proof (classify_all_plain p ps [] W FP) as CP'. rewrite app_nil_r in CP'. rewrite CP'. cbn [classify_all]. rewrite app_nil_r.
    fold (rn to_int to_float can_read can_write p (pr_pos p) (B ++ map (fun a => (a, KArg)) ps)%list (mkState (pr_defaults p) [] []) []).
    rewrite R by (cbn; rewrite app_nil_r; exact CM). rewrite rn_end by (clear; induction ps; [reflexivity|assumption]).
    destruct (consume_any p (pr_pos p) ps [] (afters es (mkState (pr_defaults p) [] [])) OP FP (or_introl eq_refl)) as [[o E]|(s' & E & _)]; rewrite app_nil_r in E; rewrite E; cbn [andthen fst snd app existsb]; [eauto|].
    rewrite app_nil_r. assert (L : length (skipn (length (pr_pos p)) ps) <> 0%nat) by (rewrite skipn_length; lia).
    destruct (skipn (length (pr_pos p)) ps); [cbn in L; lia|]. cbn. eauto.
  Qed.
End T.
