(** * Data converters: C65 *)
From Coq Require Import Decimal Ascii String List ZArith NArith Bool Lia.
From Verif Require Import M_Py P_Py M_Convert P_Convert.
Import ListNotations.
Open Scope nat_scope.

Lemma disjoint_app : forall A (l l' : list A), NoDup l -> NoDup l' -> (forall x, In x l -> In x l' -> False) -> NoDup (l ++ l').
Proof.
  induction l as [|x l IH]; intros l' N N' D; auto. inversion N; subst. cbn. constructor.
  - rewrite in_app_iff. intros [C|C]; auto. apply (D x); auto. left; auto.
  - apply IH; auto. intros y C1 C2. apply (D y); auto. right; auto.
Qed.

(** ** sushi3 *)
Section Sushi.
  Variable int_of : text -> res Z.
  (** the line printed for a rating *)
  Definition event_line (e : nat * nat * text) : text := join tab [dec (fst (fst e)); dec (snd (fst e)); snd e] ++ nl.

  Lemma ratings_spec : forall rating uid iid out, sushi_ratings int_of uid iid rating = Ok out ->
    exists evs, out = map event_line evs /\ NoDup (map fst evs) /\
      forall u i r, In (u, i, r) evs <-> u = uid /\ exists k v, i = iid + k /\ nth_error rating k = Some r /\ int_of r = Ok v /\ (0 <= v)%Z.
  Proof.
    induction rating as [|r rating IH]; intros uid iid out H; cbn [sushi_ratings] in H.
    - inversion H. exists []. split; auto. split; [constructor|]. intros u i r. split; [intros []|]. intros [_ [[|k] [v [_ [C _]]]]]; discriminate.
    - apply bind_ok in H. destruct H as [v [Hv H]]. apply bind_ok in H. destruct H as [l [Hl H]].
      destruct (IH _ _ _ Hl) as [evs [-> [N A]]].
      assert (Hn : ~ In (uid, iid) (map fst evs)).
      { intros C. apply in_map_iff in C. destruct C as [[[u i] x] [E C]]. cbn in E. inversion E; subst. apply A in C. destruct C as [_ [k [w [C _]]]]. lia. }
      destruct (Z.leb_spec 0 v) as [P|P]; inversion H; subst out.
      + exists ((uid, iid, r) :: evs). split; auto. split; [constructor; auto|]. intros u i x. split.
        * intros [E|C]; [inversion E; subst; split; auto; exists 0, v; repeat split; auto; lia|].
          apply A in C. destruct C as [-> [k [w [-> [C1 C2]]]]]. split; auto. exists (S k), w. repeat split; try apply C2; auto. lia.
        * intros [-> [[|k] [w [-> [C1 C2]]]]]; cbn in C1; [inversion C1; subst; left; f_equal; f_equal; lia|].
          right. apply A. split; auto. exists k, w. repeat split; try apply C2; auto. lia.
      + exists evs. split; auto. split; auto. intros u i x. rewrite A. split; intros [-> [k [w [-> [C1 [C2 C3]]]]]]; split; auto.
        * exists (S k), w. repeat split; auto. lia.
        * destruct k as [|k]; cbn in C1; [inversion C1; subst x; rewrite Hv in C2; inversion C2; lia|]. exists k, w. repeat split; auto. lia.
  Qed.

  Definition ratings_of (line : text) : list text := split (t " ") (rstrip line).

  Lemma events_spec : forall lines uid out, sushi_events int_of uid lines = Ok out ->
    exists evs, out = map event_line evs /\ NoDup (map fst evs) /\
      forall u i r, In (u, i, r) evs <-> exists n line v, u = uid + n /\ nth_error lines n = Some line /\ nth_error (ratings_of line) i = Some r /\ int_of r = Ok v /\ (0 <= v)%Z.
  Proof.
    induction lines as [|line lines IH]; intros uid out H; cbn [sushi_events] in H.
    - inversion H. exists []. split; auto. split; [constructor|]. intros u i r. split; [intros []|]. intros [[|n] [line [v [_ [C _]]]]]; discriminate.
    - apply bind_ok in H. destruct H as [a [Ha H]]. apply bind_ok in H. destruct H as [l [Hl H]]. inversion H; subst out. clear H.
      destruct (ratings_spec _ _ _ _ Ha) as [e1 [-> [N1 A1]]]. destruct (IH _ _ Hl) as [e2 [-> [N2 A2]]].
      exists (e1 ++ e2). split; [rewrite map_app; auto|]. split.
      + rewrite map_app. apply disjoint_app; auto. intros [u0 i0] C1 C2. apply in_map_iff in C1. destruct C1 as [[[u1 i1] r1] [E1 C1]].
        apply in_map_iff in C2. destruct C2 as [[[u2 i2] r2] [E2 C2]]. cbn in E1, E2. inversion E1; inversion E2; subst.
        apply A1 in C1. apply A2 in C2. destruct C1 as [C1 _]. destruct C2 as [n [ln [v [C2 _]]]]. lia.
      + intros u i r. rewrite in_app_iff, A1, A2. split.
        * intros [[-> [k [v [-> [C1 C2]]]]]|[n [ln [v [-> [C1 C2]]]]]]; [exists 0, line, v; repeat split; try apply C2; auto; lia|].
          exists (S n), ln, v. repeat split; try apply C2; auto. lia.
        * intros [[|n] [ln [v [-> [C1 [C2 C3]]]]]]; cbn in C1; [inversion C1; subst ln; left; split; [lia|]; exists i, v; split; [auto|split; [exact C2|exact C3]]|].
          right. exists n, ln, v. repeat split; try apply C3; auto. lia.
  Qed.

  (** one line for each non-missing rating and no other *)
  Theorem C65_sushi_events : forall lines out, sushi_events int_of 0 lines = Ok out ->
    exists evs, out = map event_line evs /\ NoDup (map fst evs) /\
      forall u i r, In (u, i, r) evs <-> exists line v, nth_error lines u = Some line /\ nth_error (ratings_of line) i = Some r /\
        int_of r = Ok v /\ (0 <= v)%Z.
  Proof.
    intros lines out H. destruct (events_spec _ _ _ H) as [evs [E [N A]]]. exists evs. split; auto. split; auto.
    intros u i r. rewrite A. split.
    - intros [n [line [v [-> C]]]]. exists line, v. auto.
    - intros [line [v C]]. exists u, line, v. auto.
  Qed.

  Theorem C65_sushi_total : forall lines uid, (exists out, sushi_events int_of uid lines = Ok out) <->
    forall line r, In line lines -> In r (ratings_of line) -> exists v, int_of r = Ok v.
  Proof.
    assert (HR : forall rating uid iid, (exists out, sushi_ratings int_of uid iid rating = Ok out) <-> forall r, In r rating -> exists v, int_of r = Ok v).
    { induction rating as [|r rating IH]; intros uid iid; cbn [sushi_ratings]; [split; eauto; intros _ r []|]. split.
      - intros [out H]. apply bind_ok in H. destruct H as [v [Hv H]]. apply bind_ok in H. destruct H as [l [Hl _]].
        intros x [<-|Hx]; eauto. eapply IH; eauto.
      - intros H. destruct (H r (or_introl eq_refl)) as [v ->]. destruct (proj2 (IH uid (S iid))) as [l ->]; [intros x Hx; apply H; right; auto|]. cbn. eauto. }
    induction lines as [|line lines IH]; intros uid; cbn [sushi_events]; [split; eauto; intros _ line r []|]. split.
    - intros [out H]. apply bind_ok in H. destruct H as [a [Ha H]]. apply bind_ok in H. destruct H as [l [Hl _]].
      intros ln r [<-|Hx] Hr; [eapply HR; eauto|]. eapply IH; eauto.
    - intros H. destruct (proj2 (HR (split (t " ") (rstrip line)) uid 0)) as [a ->]; [intros r Hr; apply (H line r); auto; left; auto|]. cbn [bind].
      destruct (proj2 (IH (S uid))) as [l ->]; [intros ln r Hin Hr; apply (H ln r); auto; right; auto|]. cbn. eauto.
  Qed.

  (** users and items keep their lines; users get the number of their line *)
  Theorem C65_sushi_users : forall lines n line, nth_error lines n = Some line ->
    nth_error (sushi_users 0 lines) n = Some (dec n ++ tab ++ rstrip line ++ nl) /\
    nth_error (sushi_items lines) n = Some (rstrip line ++ nl).
  Proof.
    assert (H : forall lines uid n line, nth_error lines n = Some line ->
      nth_error (sushi_users uid lines) n = Some (dec (uid + n) ++ tab ++ rstrip line ++ nl) /\ nth_error (sushi_items lines) n = Some (rstrip line ++ nl)).
    { induction lines as [|l lines IH]; intros uid [|n] line H; try discriminate.
      - cbn in H. inversion H; subst. cbn [sushi_users sushi_items map nth_error]. unfold print_fields. rewrite join_cons by discriminate. cbn [join].
        rewrite join_split by discriminate. rewrite Nat.add_0_r. rewrite <- !app_assoc. auto.
      - cbn in H. destruct (IH (S uid) n line H) as [A B]. cbn [sushi_users nth_error]. rewrite A. replace (S uid + n) with (uid + S n) by lia. auto. }
    intros lines n line Hn. apply (H lines 0 n line Hn).
  Qed.
End Sushi.

(** what is printed is read back as the same fields *)
Lemma tab_free_dec : forall n, ~ In 9%N (dec n).
Proof. intros. apply dec_free. reflexivity. Qed.
Theorem C65_fields_read_back : forall l, l <> [] -> Forall (fun x => ~ In 9%N x) l -> exists x, print_fields l = x ++ nl /\ split tab x = l.
Proof. intros l Hl HF. exists (join tab l). split; auto. apply split_join; auto. Qed.
Corollary C65_sushi_read_back : forall u i r, ~ In 9%N r -> exists x, event_line (u, i, r) = x ++ nl /\ split tab x = [dec u; dec i; r] /\
  int10 (dec u) = Ok (Z.of_nat u) /\ int10 (dec i) = Ok (Z.of_nat i).
Proof.
  intros u i r Hr. destruct (C65_fields_read_back [dec u; dec i; r]) as [x [E S]]; [discriminate|repeat constructor; auto using tab_free_dec|].
  exists x. repeat split; auto using int10_dec.
Qed.

Example C65_sushi_nonvacuous : sushi_events int10 0 [t "-1 3 0" ++ nl; t "2 -1 -1" ++ nl] =
  Ok [t "0" ++ tab ++ t "1" ++ tab ++ t "3" ++ nl; t "0" ++ tab ++ t "2" ++ tab ++ t "0" ++ nl; t "1" ++ tab ++ t "0" ++ tab ++ t "2" ++ nl].
Proof. vm_compute. reflexivity. Qed.
Print Assumptions C65_sushi_events.
Print Assumptions C65_sushi_total.
Print Assumptions C65_sushi_users.
Print Assumptions C65_sushi_read_back.

(** ** movielens_mini *)
(** a line that holds an event of a user and an item with ids up to 10 *)
Definition small_event (int_of : text -> res Z) (line : text) : Prop :=
  (forall rest, line <> 35%N :: rest) /\ exists f0 f1 rest u i, split tab (rstrip line) = f0 :: f1 :: rest /\
    int_of f0 = Ok u /\ int_of f1 = Ok i /\ (u <= 10)%Z /\ (i <= 10)%Z.

Theorem C65_mini : forall int_of lines out, mini int_of lines = Ok out ->
  exists keep, out = filter keep lines /\ forall line, In line lines -> keep line = true <-> small_event int_of line.
Proof.
  intros int_of lines out H.
  set (keep := fun line : text => match line with [] => false | c :: _ => negb (N.eqb c 35) &&
    match split tab (rstrip line) with f0 :: f1 :: _ => match int_of f0, int_of f1 with Ok u, Ok i => (u <=? 10)%Z && (i <=? 10)%Z | _, _ => false end | _ => false end end).
  exists keep.
  assert (HK : forall line, keep line = true <-> line <> [] /\ small_event int_of line).
  { intros [|c line]; [split; [discriminate|]; intros [C _]; congruence|]. unfold keep, small_event. rewrite andb_true_iff. split.
    - intros [H1 H2]. split; [discriminate|]. split; [intros rest E; inversion E; subst; discriminate|].
      destruct (split tab (rstrip (c :: line))) as [|f0 [|f1 rest]]; try discriminate. destruct (int_of f0) as [u|] eqn:E0; [|discriminate].
      destruct (int_of f1) as [i|] eqn:E1; [|discriminate]. apply andb_true_iff in H2. exists f0, f1, rest, u, i. repeat split; auto; lia.
    - intros [_ [H1 [f0 [f1 [rest [u [i [-> [-> [-> [A B]]]]]]]]]]]. split; [destruct (N.eqb_spec c 35); auto; subst; exfalso; eapply H1; eauto|].
      apply andb_true_iff. lia. }
  assert (HG : out = filter keep lines /\ forall line, In line lines -> line <> []).
  { clear HK. revert out H. induction lines as [|line lines IH]; intros out H; cbn [mini] in H; [inversion H; split; auto; intros ? []|].
    apply bind_ok in H. destruct H as [c [Hc H]]. apply item_ok in Hc. destruct line as [|c' line]; [discriminate|]. cbn in Hc. inversion Hc; subst c'.
    destruct (N.eqb c 35) eqn:E35.
    - destruct (IH _ H) as [-> A]. split; [cbn [filter]; assert (keep (c :: line) = false) as -> by (unfold keep; rewrite E35; auto); auto|]. intros ln [<-|Hin]; [discriminate|auto].
    - apply bind_ok in H. destruct H as [f0 [H0 H]]. apply bind_ok in H. destruct H as [u [Hu H]]. apply bind_ok in H. destruct H as [b [Hb H]].
      apply bind_ok in H. destruct H as [l [Hl H]]. inversion H; subst out. destruct (IH _ Hl) as [-> A].
      split; [|intros ln [<-|Hin]; [discriminate|auto]]. cbn [filter]. assert (keep (c :: line) = b) as ->; [|auto]. unfold keep. rewrite E35. cbn [negb andb]. apply item_ok in H0.
      destruct (split tab (rstrip (c :: line))) as [|f0' rest]; [discriminate|]. cbn in H0. inversion H0; subst f0'.
      destruct (u <=? 10)%Z eqn:Eu.
      + apply bind_ok in Hb. destruct Hb as [f1 [H1 Hb]]. apply bind_ok in Hb. destruct Hb as [i [Hi Hb]]. inversion Hb; subst b. apply item_ok in H1.
        destruct rest as [|f1' rest]; [discriminate|]. cbn in H1. inversion H1; subst f1'. rewrite Hu, Hi, Eu. cbn [andb]. auto.
      + inversion Hb; subst b. destruct rest as [|f1 rest]; auto. rewrite Hu. destruct (int_of f1); auto. rewrite Eu. auto. }
  destruct HG as [-> HA]. split; auto. intros line Hin. rewrite HK. split; [tauto|]. intros C. split; auto.
Qed.
Example C65_mini_nonvacuous : exists out, mini int10 [t "# x" ++ nl; t "3" ++ tab ++ t "11" ++ tab ++ t "5" ++ nl; t "10" ++ tab ++ t "7" ++ tab ++ t "5" ++ nl] = Ok out /\
  out = [t "10" ++ tab ++ t "7" ++ tab ++ t "5" ++ nl].
Proof. eexists. split; vm_compute; reflexivity. Qed.
Print Assumptions C65_mini.

(** ** movielens1m *)
(** the genres in the order of the columns, as documented in the header *)
Definition genre_names : list text := map t
  ["Action"; "Adventure"; "Animation"; "Children's"; "Comedy"; "Crime"; "Documentary"; "Drama"; "Fantasy"; "Film-Noir"; "Horror"; "Musical";
   "Mystery"; "Romance"; "Sci-Fi"; "Thriller"; "War"; "Western"]%string.

Lemma genre_lookup : forall name k, lookup genre name = Ok k <-> nth_error genre_names k = Some name.
Proof.
  intros name k. split; intros H.
  - apply lookup_ok in H. cbn in H. repeat (destruct H as [H|H]; [inversion H; reflexivity|]). destruct H.
  - assert (k < 18) by (change 18 with (List.length genre_names); apply nth_error_Some; congruence).
    do 18 (destruct k as [|k]; [inversion H; reflexivity|]). lia.
Qed.
Lemma flag_set : forall A (o : list A) k v j, k < List.length o -> nth_error (set_nth o k v) j = if Nat.eqb j k then Some v else nth_error o j.
Proof.
  induction o as [|x o IH]; intros [|k] v [|j] H; cbn in *; try lia; auto. apply IH. lia.
Qed.
Lemma set_len : forall A (o : list A) k v, List.length (set_nth o k v) = List.length o.
Proof. induction o as [|x o IH]; intros [|k] v; cbn; auto. Qed.

Definition flags_of (names : list text) (o : list text) : Prop :=
  List.length o = 18 /\ forall j name, nth_error genre_names j = Some name ->
    (In name names -> nth_error o j = Some (t "1")) /\ (~ In name names -> nth_error o j = Some (t "0")).

Theorem C65_genres : forall names o, genre_flags names = Ok o -> flags_of names o /\ Forall (fun n => In n genre_names) names.
Proof.
  intros names o H. unfold genre_flags in H.
  assert (HG : forall names o0 o, List.length o0 = 18 -> foldM (fun o i => do k <- lookup genre i; np_set o (Z.of_nat k) (t "1")) names o0 = Ok o ->
    List.length o = 18 /\ Forall (fun n => In n genre_names) names /\
    forall j name, nth_error genre_names j = Some name -> (In name names -> nth_error o j = Some (t "1")) /\ (~ In name names -> nth_error o j = nth_error o0 j)).
  { clear. induction names as [|n names IH]; intros o0 o L H; cbn [foldM] in H.
    - inversion H; subst. split; auto. split; [constructor|]. intros j name Hj. split; auto. intros [].
    - apply bind_ok in H. destruct H as [o1 [H1 H]]. apply bind_ok in H1. destruct H1 as [k [Hk H1]].
      apply genre_lookup in Hk. assert (Lk : k < 18) by (change 18 with (List.length genre_names); apply nth_error_Some; congruence).
      assert (E1 : o1 = set_nth o0 k (t "1")).
      { unfold np_set in H1. destruct (np_norm (List.length o0) (Z.of_nat k)) as [k'|] eqn:En; [|discriminate].
        rewrite np_norm_nat in En by lia. inversion En; subst. inversion H1. auto. }
      subst o1. destruct (IH _ _ (eq_trans (set_len _ _ _ _) L) H) as [L' [HF A]]. split; auto.
      split; [constructor; auto; eapply nth_error_In; eauto|]. intros j name Hj. destruct (A j name Hj) as [A1 A2]. split.
      + intros [<-|Hin]; auto. destruct (in_dec (list_eq_dec N.eq_dec) n names) as [I|I]; auto. rewrite (A2 I), flag_set by lia.
        assert (j = k) as ->. { apply genre_lookup in Hj. apply genre_lookup in Hk. rewrite Hj in Hk. inversion Hk. auto. }
        rewrite Nat.eqb_refl. auto.
      + intros Hn. rewrite A2 by (intros C; apply Hn; right; auto). rewrite flag_set by lia.
        destruct (Nat.eqb_spec j k) as [E|E]; auto. subst. exfalso. apply Hn. left. congruence. }
  destruct (HG _ _ _ (repeat_length (t "0") 18) H) as [L [HF A]]. split; auto. split; auto. intros j name Hj. destruct (A j name Hj) as [A1 A2]. split; auto.
  intros Hn. rewrite (A2 Hn). assert (j < 18) by (change 18 with (List.length genre_names); apply nth_error_Some; congruence). apply nth_error_repeat. auto.
Qed.
Theorem C65_genres_total : forall names, Forall (fun n => In n genre_names) names -> exists o, genre_flags names = Ok o.
Proof.
  intros names HF. unfold genre_flags. assert (L : List.length (repeat (t "0") 18) = 18) by apply repeat_length.
  revert L. generalize (repeat (t "0") 18). induction HF as [|n names Hn HF IH]; intros o0 L; cbn [foldM]; [eauto|].
  apply In_nth_error in Hn. destruct Hn as [k Hk]. assert (Lk : k < 18) by (change 18 with (List.length genre_names); apply nth_error_Some; congruence).
  apply genre_lookup in Hk. rewrite Hk. cbn [bind]. unfold np_set. rewrite np_norm_nat by lia. cbn [bind]. apply IH. rewrite set_len. auto.
Qed.

(** an item line keeps its id and title, names the year the title ends with
    and flags its genres *)
Theorem C65_ml1m_item : forall line out, ml1m_item line = Ok out ->
  exists f0 f1 f2 rest title y o, split (t "::") (rstrip line) = f0 :: f1 :: f2 :: rest /\
    out = join tab [f0; title; y; join tab o] ++ nl /\
    (title = f1 \/ f0 = t "3845") /\ (exists a, title = a ++ t "(" ++ y ++ t ")") /\
    List.length y = 4 /\ Forall (fun c => 48 <= c <= 57)%N y /\ flags_of (split (t "|") f2) o.
Proof.
  intros line out H. unfold ml1m_item in H. apply bind_ok in H. destruct H as [f0 [H0 H]]. apply bind_ok in H. destruct H as [f1 [H1 H]].
  apply bind_ok in H. destruct H as [y [Hy H]]. apply bind_ok in H. destruct H as [f2 [H2 H]]. apply bind_ok in H. destruct H as [o [Ho H]]. inversion H; subst out.
  apply item_ok in H0. apply item_ok in H1. apply item_ok in H2. destruct (split (t "::") (rstrip line)) as [|a [|b [|c rest]]]; try discriminate.
  cbn in H0, H1, H2. inversion H0; inversion H1; inversion H2; subst a b c. set (title := fix_title f0 f1) in *.
  exists f0, f1, f2, rest, title, y, o. split; auto. split; auto. split; [|split; [|split; [|split]]].
  - unfold title, fix_title. destruct (text_eqb f0 (t "3845")) eqn:E; auto. right. apply text_eqb_eq. auto.
  - unfold year in Hy. destruct (rev title) as [|r [|d4 [|d3 [|d2 [|d1 [|l a]]]]]] eqn:Er; try discriminate.
    destruct (_ && _) eqn:E in Hy; [|discriminate]. inversion Hy; subst y. rewrite !andb_true_iff in E. destruct E as [[[[[E1 E2] _] _] _] _].
    apply N.eqb_eq in E1. apply N.eqb_eq in E2. subst r l. exists (rev a).
    rewrite <- (rev_involutive title), Er. cbn [rev]. rewrite <- !app_assoc. reflexivity.
  - unfold year in Hy. destruct (rev title) as [|r [|d4 [|d3 [|d2 [|d1 [|l a]]]]]] eqn:Er; try discriminate.
    destruct (_ && _) eqn:E in Hy; [|discriminate]. inversion Hy; subst y. auto.
  - unfold year in Hy. destruct (rev title) as [|r [|d4 [|d3 [|d2 [|d1 [|l a]]]]]] eqn:Er; try discriminate.
    destruct (_ && _) eqn:E in Hy; [|discriminate]. inversion Hy; subst y. rewrite !andb_true_iff in E. unfold digit in E. rewrite !andb_true_iff, !N.leb_le in E.
    repeat (constructor; [tauto|]). constructor.
  - apply C65_genres. auto.
Qed.
Example C65_item_nonvacuous : ml1m_item (t "1::Toy Story (1995)::Animation|Children's|Comedy" ++ nl) =
  Ok (join tab (map t ["1"; "Toy Story (1995)"; "1995"; "0"; "0"; "1"; "1"; "1"; "0"; "0"; "0"; "0"; "0"; "0"; "0"; "0"; "0"; "0"; "0"; "0"; "0"]%string) ++ nl).
Proof. vm_compute. reflexivity. Qed.
Print Assumptions C65_genres.
Print Assumptions C65_genres_total.
Print Assumptions C65_ml1m_item.

(** events: the fields between '::' are printed with tabs between them, and
    the original line can be read back *)
Theorem C65_ml1m_event_lossless : forall line, ~ In 9%N line ->
  exists x, ml1m_event line = x ++ nl /\ split tab x = split (t "::") (rstrip line) /\ join (t "::") (split tab x) = rstrip line.
Proof.
  intros line H. unfold ml1m_event.
  destruct (C65_fields_read_back (split (t "::") (rstrip line))) as [x [E S]].
  - apply split_nonempty.
  - apply Forall_forall. intros p Hp C. apply H, rstrip_incl. eapply split_incl; [|exact Hp|exact C]. discriminate.
  - exists x. split; auto. split; auto. rewrite S. apply join_split. discriminate.
Qed.
(** users: nothing but the end of a zip code longer than five is lost *)
Definition user_fields (line : text) (f : list text) : Prop := split (t "::") (rstrip line) = f.
Lemma gender_code : forall g h c, gender g = Ok c -> gender h = Ok c -> g = h.
Proof.
  intros g h c H1 H2. unfold gender in *.
  destruct (text_eqb g (t "M")) eqn:E1, (text_eqb h (t "M")) eqn:E2; try (apply text_eqb_eq in E1); try (apply text_eqb_eq in E2); try congruence.
  - inversion H1; subst c. destruct (text_eqb h (t "F")); inversion H2.
  - inversion H2; subst c. destruct (text_eqb g (t "F")); inversion H1.
  - destruct (text_eqb g (t "F")) eqn:E3, (text_eqb h (t "F")) eqn:E4; try discriminate. apply text_eqb_eq in E3. apply text_eqb_eq in E4. congruence.
Qed.
Lemma gender_free : forall g c, gender g = Ok c -> ~ In 9%N c.
Proof.
  intros g c H. unfold gender in H. destruct (text_eqb g (t "M")); [inversion H; cbn; intros [C|[]]; discriminate|].
  destruct (text_eqb g (t "F")); [inversion H; cbn; intros [C|[]]; discriminate|discriminate].
Qed.
Lemma code_inj : forall (d : dict text nat) a b k, NoDup (map snd d) -> lookup d a = Ok k -> lookup d b = Ok k -> a = b.
Proof.
  intros d a b k N Ha Hb. apply lookup_ok in Ha. apply lookup_ok in Hb. induction d as [|[x y] d IH]; [destruct Ha|].
  cbn in N. apply NoDup_cons_iff in N. destruct N as [N1 N2]. destruct Ha as [Ha|Ha], Hb as [Hb|Hb]; auto.
  - congruence.
  - inversion Ha; subst. exfalso. apply N1. apply (in_map snd) in Hb. auto.
  - inversion Hb; subst. exfalso. apply N1. apply (in_map snd) in Ha. auto.
Qed.
Lemma dec_inj : forall a b, dec a = dec b -> a = b.
Proof. intros a b H. assert (E : int10 (dec a) = int10 (dec b)) by congruence. rewrite !int10_dec in E. inversion E. lia. Qed.
Lemma age_codes : NoDup (map snd age).
Proof. repeat constructor; cbn; intuition discriminate. Qed.
Lemma occupation_codes : NoDup (map snd occupation).
Proof. repeat constructor; cbn; intuition discriminate. Qed.

Lemma print_inj : forall l l', l <> [] -> l' <> [] -> Forall (fun x => ~ In 9%N x) l -> Forall (fun x => ~ In 9%N x) l' ->
  print_fields l = print_fields l' -> l = l'.
Proof.
  intros l l' N N' F F' H. destruct (C65_fields_read_back l N F) as [x [E S]]. destruct (C65_fields_read_back l' N' F') as [x' [E' S']].
  rewrite E, E' in H. apply app_inv_tail in H. congruence.
Qed.
Lemma firstn_incl : forall A n (l : list A) x, In x (firstn n l) -> In x l.
Proof. intros A n l x H. rewrite <- (firstn_skipn n l). apply in_or_app. auto. Qed.

Lemma item5 : forall A (a b c d e : A), item [a; b; c; d; e] 0 = Ok a /\ item [a; b; c; d; e] 1 = Ok b /\ item [a; b; c; d; e] 2 = Ok c /\
  item [a; b; c; d; e] 3 = Ok d /\ item [a; b; c; d; e] 4 = Ok e.
Proof. intros. repeat split; apply item_ok; reflexivity. Qed.

Theorem C65_ml1m_user_lossless : forall a b out fa fb za zb, ~ In 9%N a -> ~ In 9%N b ->
  split (t "::") (rstrip a) = fa ++ [za] -> split (t "::") (rstrip b) = fb ++ [zb] -> List.length fa = 4 -> List.length fb = 4 ->
  ml1m_user a = Ok out -> ml1m_user b = Ok out -> fa = fb /\ firstn 5 za = firstn 5 zb.
Proof.
  intros a b out fa fb za zb Ta Tb Ea Eb La Lb Ha Hb.
  assert (FA : Forall (fun x => ~ In 9%N x) (fa ++ [za])).
  { rewrite <- Ea. apply Forall_forall. intros p Hp C. apply Ta, rstrip_incl. eapply split_incl; [|exact Hp|exact C]. discriminate. }
  assert (FB : Forall (fun x => ~ In 9%N x) (fb ++ [zb])).
  { rewrite <- Eb. apply Forall_forall. intros p Hp C. apply Tb, rstrip_incl. eapply split_incl; [|exact Hp|exact C]. discriminate. }
  unfold ml1m_user in Ha, Hb. rewrite Ea in Ha. rewrite Eb in Hb.
  destruct fa as [|a0 [|a1 [|a2 [|a3 [|? ?]]]]]; try discriminate. destruct fb as [|b0 [|b1 [|b2 [|b3 [|? ?]]]]]; try discriminate.
  cbn [app] in Ha, Hb. destruct (item5 _ a0 a1 a2 a3 za) as [I0 [I1 [I2 [I3 I4]]]]. destruct (item5 _ b0 b1 b2 b3 zb) as [J0 [J1 [J2 [J3 J4]]]].
  rewrite I0, I1, I2, I3, I4 in Ha. rewrite J0, J1, J2, J3, J4 in Hb. cbn [bind] in Ha, Hb. apply bind_ok in Ha. destruct Ha as [ga [Ga Ha]]. apply bind_ok in Hb. destruct Hb as [gb [Gb Hb]].
  apply bind_ok in Ha. destruct Ha as [ka [Ka Ha]]. apply bind_ok in Hb. destruct Hb as [kb [Kb Hb]].
  assert (E : print_fields [a0; ga; dec ka; a3; firstn 5 za] = print_fields [b0; gb; dec kb; b3; firstn 5 zb]) by (inversion Ha; inversion Hb; congruence).
  clear Ha Hb. cbn [app] in FA, FB. inversion FA as [|? ? A0 FA1]; inversion FA1 as [|? ? A1 FA2]; inversion FA2 as [|? ? A2 FA3]; inversion FA3 as [|? ? A3 FA4]; inversion FA4 as [|? ? A4 FA5]; subst.
  inversion FB as [|? ? B0 FB1]; inversion FB1 as [|? ? B1 FB2]; inversion FB2 as [|? ? B2 FB3]; inversion FB3 as [|? ? B3 FB4]; inversion FB4 as [|? ? B4 FB5]; subst.
  apply print_inj in E; try discriminate.
  - inversion E as [[E0 E1 E2 E3 E4]]. apply dec_inj in E2. subst kb gb. rewrite (gender_code _ _ _ Ga Gb), (code_inj _ _ _ _ age_codes Ka Kb). auto.
  - repeat constructor; auto using tab_free_dec; [eapply gender_free; eauto|]. intros C. apply firstn_incl in C. auto.
  - repeat constructor; auto using tab_free_dec; [eapply gender_free; eauto|]. intros C. apply firstn_incl in C. auto.
Qed.
Example C65_user_nonvacuous : ml1m_user (t "2::M::56::16::700721" ++ nl) = Ok (join tab (map t ["2"; "0"; "6"; "16"; "70072"]%string) ++ nl) /\
  ml1m_event (t "1::1193::5::978300760" ++ nl) = join tab (map t ["1"; "1193"; "5"; "978300760"]%string) ++ nl.
Proof. split; vm_compute; reflexivity. Qed.
Print Assumptions C65_ml1m_event_lossless.
Print Assumptions C65_ml1m_user_lossless.

(** ** movielens100k and flixster *)
Theorem C65_ml100k_event : forall line, ml100k_event line = rstrip line ++ nl.
Proof. intros. unfold ml100k_event, print_fields. cbn [join]. rewrite join_split by discriminate. auto. Qed.

Theorem C65_ml100k_user_lossless : forall a b out fa fb, ~ In 9%N a -> ~ In 9%N b ->
  split (t "|") (rstrip a) = fa -> split (t "|") (rstrip b) = fb -> List.length fa = 5 -> List.length fb = 5 ->
  ml100k_user a = Ok out -> ml100k_user b = Ok out -> rstrip a = rstrip b.
Proof.
  intros a b out fa fb Ta Tb Ea Eb La Lb Ha Hb.
  assert (FA : Forall (fun x => ~ In 9%N x) fa).
  { rewrite <- Ea. apply Forall_forall. intros p Hp C. apply Ta, rstrip_incl. eapply split_incl; [|exact Hp|exact C]. discriminate. }
  assert (FB : Forall (fun x => ~ In 9%N x) fb).
  { rewrite <- Eb. apply Forall_forall. intros p Hp C. apply Tb, rstrip_incl. eapply split_incl; [|exact Hp|exact C]. discriminate. }
  rewrite <- (join_split (t "|") (rstrip a)), <- (join_split (t "|") (rstrip b)) by discriminate. rewrite Ea, Eb. f_equal.
  unfold ml100k_user in Ha, Hb. rewrite Ea in Ha. rewrite Eb in Hb. clear Ea Eb.
  destruct fa as [|a0 [|a1 [|a2 [|a3 [|a4 [|? ?]]]]]]; try discriminate. destruct fb as [|b0 [|b1 [|b2 [|b3 [|b4 [|? ?]]]]]]; try discriminate.
  destruct (item5 _ a0 a1 a2 a3 a4) as [I0 [I1 [I2 [I3 I4]]]]. destruct (item5 _ b0 b1 b2 b3 b4) as [J0 [J1 [J2 [J3 J4]]]].
  rewrite I0, I1, I2, I3, I4 in Ha. rewrite J0, J1, J2, J3, J4 in Hb. cbn [bind] in Ha, Hb. apply bind_ok in Ha. destruct Ha as [ga [Ga Ha]]. apply bind_ok in Hb. destruct Hb as [gb [Gb Hb]].
  apply bind_ok in Ha. destruct Ha as [ka [Ka Ha]]. apply bind_ok in Hb. destruct Hb as [kb [Kb Hb]].
  assert (E : print_fields [a0; a1; ga; dec ka; a4] = print_fields [b0; b1; gb; dec kb; b4]) by (inversion Ha; inversion Hb; congruence).
  clear Ha Hb. inversion FA as [|? ? A0 FA1]; inversion FA1 as [|? ? A1 FA2]; inversion FA2 as [|? ? A2 FA3]; inversion FA3 as [|? ? A3 FA4]; inversion FA4 as [|? ? A4 FA5]; subst.
  inversion FB as [|? ? B0 FB1]; inversion FB1 as [|? ? B1 FB2]; inversion FB2 as [|? ? B2 FB3]; inversion FB3 as [|? ? B3 FB4]; inversion FB4 as [|? ? B4 FB5]; subst.
  apply print_inj in E; try discriminate.
  - inversion E as [[E0 E1 E2 E3 E4]]. apply dec_inj in E3. subst kb gb. rewrite (gender_code _ _ _ Ga Gb), (code_inj _ _ _ _ occupation_codes Ka Kb). auto.
  - repeat constructor; auto using tab_free_dec. eapply gender_free; eauto.
  - repeat constructor; auto using tab_free_dec. eapply gender_free; eauto.
Qed.

Lemma join_nested : forall sep a l b, l <> [] -> join sep (a ++ join sep l :: b) = join sep (a ++ l ++ b).
Proof.
  intros sep a l b Hl. induction a as [|x a IH].
  - cbn [app]. induction l as [|y l IH]; [congruence|]. destruct l as [|z l]; [destruct b; auto|]. specialize (IH ltac:(discriminate)).
    change ((y :: z :: l) ++ b) with (y :: (z :: l) ++ b). rewrite (join_cons _ y ((z :: l) ++ b)) by discriminate. rewrite <- IH.
    rewrite (join_cons _ y (z :: l)) by discriminate. destruct b as [|c b]; auto. rewrite !join_cons by discriminate. rewrite <- !app_assoc. auto.
  - cbn [app]. rewrite !join_cons; [rewrite IH; auto| |].
    + destruct a; cbn; [destruct l; [congruence|discriminate]|discriminate].
    + destruct a; discriminate.
Qed.

(** an item line with its 24 fields: id, title, date, the 18 genre columns and
    the address come out, in this order *)
Theorem C65_ml100k_item : forall int_of line out f, ~ In 9%N line -> split (t "|") (rstrip line) = f -> List.length f = 24 ->
  ml100k_item int_of line = Ok out ->
  exists x d m y, out = x ++ nl /\ List.length (split tab x) = 24 /\ firstn 5 (split tab x) = [nth 0 f []; nth 1 f []; d; m; y] /\
    (forall j, j < 18 -> nth_error (split tab x) (5 + j) = nth_error f (6 + j)) /\ nth_error (split tab x) 23 = nth_error f 4 /\
    ((exists ds ms ys zd zy, split (t "-") (nth 2 f []) = [ds; ms; ys] /\ int_of ds = Ok zd /\ int_of ys = Ok zy /\
       d = show zd /\ y = show zy /\ exists k, nth_error (map t ["Jan"; "Feb"; "Mar"; "Apr"; "May"; "Jun"; "Jul"; "Aug"; "Sep"; "Oct"; "Nov"; "Dec"]%string) k = Some ms /\ m = dec (S k)) \/
     (List.length (split (t "-") (nth 2 f [])) <> 3 /\ d = t "0" /\ m = t "0" /\ y = t "0")).
Proof.
  intros int_of line out f T E L H.
  assert (FA : Forall (fun x => ~ In 9%N x) f).
  { rewrite <- E. apply Forall_forall. intros p Hp C. apply T, rstrip_incl. eapply split_incl; [|exact Hp|exact C]. discriminate. }
  unfold ml100k_item in H. rewrite E in H. clear E.
  assert (Hn : forall k, k < 24 -> item f k = Ok (nth k f [])) by (intros k Hk; apply item_ok, nth_error_nth'; lia).
  rewrite (Hn 0), (Hn 1), (Hn 2), (Hn 4) in H by lia. cbn [bind] in H.
  apply bind_ok in H. destruct H as [dd [Hd H]]. inversion H; subst out. clear H.
  assert (HD : exists d m y, dd = [d; m; y] /\ ~ In 9%N d /\ ~ In 9%N m /\ ~ In 9%N y /\
     ((exists ds ms ys zd zy, split (t "-") (nth 2 f []) = [ds; ms; ys] /\ int_of ds = Ok zd /\ int_of ys = Ok zy /\
       d = show zd /\ y = show zy /\ exists k, nth_error (map t ["Jan"; "Feb"; "Mar"; "Apr"; "May"; "Jun"; "Jul"; "Aug"; "Sep"; "Oct"; "Nov"; "Dec"]%string) k = Some ms /\ m = dec (S k)) \/
     (List.length (split (t "-") (nth 2 f [])) <> 3 /\ d = t "0" /\ m = t "0" /\ y = t "0"))).
  { clear Hn. unfold ml100k_date in Hd. assert (Hshow : forall z, ~ In 9%N (show z)).
    { intros z. unfold show. destruct (z <? 0)%Z; [|apply tab_free_dec]. intros C. apply in_app_or in C. destruct C as [[C|[]]|C]; [discriminate|]. revert C. apply tab_free_dec. }
    assert (Hz : ~ In 9%N (t "0")) by (cbn; intros [C|[]]; discriminate).
    destruct (split (t "-") (nth 2 f [])) as [|ds [|ms [|ys [|? ?]]]] eqn:Es;
      try (inversion Hd; exists (t "0"), (t "0"), (t "0"); split; [auto|split; [auto|split; [auto|split; [auto|right; split; [cbn; lia|auto]]]]]).
    apply bind_ok in Hd. destruct Hd as [zd [Hzd Hd]]. apply bind_ok in Hd. destruct Hd as [k [Hk Hd]]. apply bind_ok in Hd. destruct Hd as [zy [Hzy Hd]].
    inversion Hd. exists (show zd), (dec k), (show zy). repeat split; auto using tab_free_dec. left. exists ds, ms, ys, zd, zy. repeat split; auto.
    apply lookup_ok in Hk. cbn in Hk. exists (Nat.pred k).
    repeat (destruct Hk as [Hk|Hk]; [inversion Hk; split; reflexivity|]). destruct Hk. }
  destruct HD as [d [m [y [-> [D1 [D2 [D3 HD]]]]]]].
  do 24 (destruct f as [|? f]; [cbn in L; lia|]). destruct f; [|cbn in L; lia].
  repeat match goal with H : Forall _ (_ :: _) |- _ => inversion H; subst; clear H end.
  unfold print_fields. cbn [nth app slice skipn firstn Nat.sub].
  match goal with |- context [join tab ?full ++ nl] => match full with [?a0; ?a1; ?a2; ?a3; ?a4; join tab ?l; ?z] =>
    exists (join tab ([a0; a1; a2; a3; a4] ++ l ++ [z])), d, m, y; split; [f_equal; apply (join_nested tab [a0; a1; a2; a3; a4] l [z]); discriminate|];
    assert (Hs : split tab (join tab ([a0; a1; a2; a3; a4] ++ l ++ [z])) = [a0; a1; a2; a3; a4] ++ l ++ [z])
      by (apply split_join; [discriminate|repeat constructor; auto]); rewrite Hs; clear Hs end end.
  split; [reflexivity|]. split; [reflexivity|]. split; [|split; [reflexivity|exact HD]].
  intros j Hj. do 18 (destruct j as [|j]; [reflexivity|]). lia.
Qed.
Example C65_ml100k_nonvacuous :
  ml100k_item int10 (t "1|Toy Story (1995)|01-Jan-1995||http://x|0|0|0|1|1|1|0|0|0|0|0|0|0|0|0|0|0|0|0" ++ nl) =
  Ok (join tab (map t ["1"; "Toy Story (1995)"; "1"; "1"; "1995"; "0"; "0"; "1"; "1"; "1"; "0"; "0"; "0"; "0"; "0"; "0"; "0"; "0"; "0"; "0"; "0"; "0"; "0"; "http://x"]%string) ++ nl) /\
  ml100k_user (t "1|24|M|technician|85711" ++ nl) = Ok (join tab (map t ["1"; "24"; "0"; "19"; "85711"]%string) ++ nl).
Proof. split; vm_compute; reflexivity. Qed.

(** flixster: the first three fields of each line *)
Theorem C65_flixster : forall line,
  match split tab (rstrip line) with
  | f0 :: f1 :: f2 :: _ => exists x, flixster_event line = Ok (x ++ nl) /\ split tab x = [f0; f1; f2]
  | _ => flixster_event line = Raise IndexError
  end.
Proof.
  intros line. unfold flixster_event. pose proof (split_char 9%N (rstrip line)) as HF. change (split [9%N] (rstrip line)) with (split tab (rstrip line)) in HF.
  destruct (split tab (rstrip line)) as [|f0 [|f1 [|f2 rest]]]; try reflexivity.
  inversion HF as [|? ? A0 FA1]; inversion FA1 as [|? ? A1 FA2]; inversion FA2 as [|? ? A2 FA3]; subst.
  destruct (C65_fields_read_back [f0; f1; f2]) as [x [E S]]; [discriminate|repeat constructor; auto|]. exists x. split; auto.
  assert (item (f0 :: f1 :: f2 :: rest) 0 = Ok f0) as -> by (apply item_ok; auto). assert (item (f0 :: f1 :: f2 :: rest) 1 = Ok f1) as -> by (apply item_ok; auto).
  assert (item (f0 :: f1 :: f2 :: rest) 2 = Ok f2) as -> by (apply item_ok; auto). cbn [bind]. rewrite E. auto.
Qed.
Print Assumptions C65_ml100k_event.
Print Assumptions C65_ml100k_user_lossless.
Print Assumptions C65_ml100k_item.
Print Assumptions C65_flixster.
