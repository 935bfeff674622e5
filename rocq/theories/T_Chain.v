(** * C85: data sets that were converted are loaded as published *)
From Coq Require Import Ascii String List ZArith NArith QArith Lia Bool.
From Verif Require Import M_Py P_Py M_Data M_Score M_Load M_Convert P_Convert T_Convert M_Text T_Text Spec T_Load M_Datasets.
Import ListNotations.
Local Open Scope nat_scope.

(** what is needed of [np.int64] and [float] on text *)
Definition reads_numbers (int_of : text -> res Z) (float_of : text -> option Q) : Prop :=
  (forall n, int_of (dec n) = Ok (Z.of_nat n)) /\ (forall n, float_of (dec n) = Some (inject_Z (Z.of_nat n))).
(** the lines that the converters print first *)
Definition header (h : list text) : Prop := Forall (fun l => exists d, l = t "#" ++ d) h.

(** ** Lemmas *)
Lemma tail_nl : tail nl.
Proof. exists nl, []. split; [reflexivity|]. split; [|auto]. constructor; auto. Qed.

Lemma printed_file : forall h rows, header h -> Forall fields_ok rows -> file_of (h ++ map print_fields rows) rows.
Proof.
  intros h rows Hh HF. induction Hh as [|l h [d ->] _ IH]; cbn [app].
  - induction HF as [|f rows Hf _ IH]; [constructor|]. cbn [map]. unfold print_fields at 1. apply file_row; auto. apply tail_nl.
  - apply file_skip; auto. exists [], (t "#" ++ d). split; auto. split; [constructor|]. right. exists d. auto.
Qed.

Lemma digit_plain : forall c, digit c = true -> plain c /\ c <> 32%N /\ c <> 58%N.
Proof.
  intros c H. unfold digit in H. apply andb_true_iff in H. destruct H as [H1 H2]. apply N.leb_le in H1. apply N.leb_le in H2.
  unfold plain. repeat split; lia.
Qed.
Lemma dec_plain : forall n, Forall plain (dec n).
Proof. intros n. eapply Forall_impl; [|apply dec_digits]. intros c H. apply digit_plain in H. tauto. Qed.
Lemma dec_first : forall n, exists c x, dec n = c :: x /\ c <> 32%N.
Proof.
  intros n. pose proof (dec_digits n) as D. pose proof (int10_dec n) as E. destruct (dec n) as [|c x]; [discriminate|].
  exists c, x. split; auto. inversion D; subst. apply digit_plain in H1. tauto.
Qed.
Lemma dec_last : forall n x, dec n <> x ++ [32%N].
Proof.
  intros n x E. pose proof (dec_digits n) as D. rewrite E in D. apply Forall_app in D. destruct D as [_ D]. inversion D; subst. discriminate.
Qed.

(** a row of plain fields which starts with a number *)
Lemma fields_plain : forall n g z, Forall (Forall plain) g -> Forall plain z -> (forall x, z <> x ++ [32%N]) -> fields_ok (dec n :: g ++ [z]).
Proof.
  intros n g z Hg Hz Hl. split; [|split].
  - constructor; [apply dec_plain|]. apply Forall_app. auto.
  - destruct (dec_first n) as [c [x [E Hc]]]. exists c, x, (g ++ [z]). rewrite E. auto.
  - intros g' x E. change (dec n :: g ++ [z]) with ((dec n :: g) ++ [z]) in E. apply app_inj_tail in E. destruct E as [_ E]. apply (Hl x). auto.
Qed.

Lemma rstrip_line : forall s, Forall (fun c => c <> 10%N /\ c <> 13%N) s -> rstrip (s ++ nl) = s.
Proof.
  intros s H. induction H as [|c s [H1 H2] _ IH]; [reflexivity|]. cbn [app rstrip]. rewrite IH.
  destruct s; auto. apply N.eqb_neq in H1. apply N.eqb_neq in H2. rewrite H1, H2. reflexivity.
Qed.

(** splitting what was joined by a separator of any length *)
Lemma split_piece2 : forall c sep x cur s, ~ In c x -> split_go (c :: sep) 0 cur (x ++ s) = split_go (c :: sep) 0 (rev x ++ cur) s.
Proof.
  intros c sep. induction x as [|a x IH]; intros cur s H; auto. cbn [app split_go prefixb].
  destruct (N.eqb_spec c a) as [E|E]; [exfalso; apply H; left; auto|]. cbn [andb]. rewrite IH by (intros C; apply H; right; auto).
  cbn [rev]. rewrite <- app_assoc. auto.
Qed.
Lemma split_join2 : forall c sep l, l <> [] -> Forall (fun p => ~ In c p) l -> split (c :: sep) (join (c :: sep) l) = l.
Proof.
  intros c sep l Hne HF. unfold split. induction HF as [|x l Hx HF IH]; [congruence|]. destruct l as [|y l].
  - cbn [join]. rewrite <- (app_nil_r x) at 1. rewrite split_piece2 by auto. cbn. rewrite app_nil_r, rev_involutive. auto.
  - rewrite join_cons by discriminate. rewrite split_piece2 by auto. rewrite app_nil_r.
    set (r := join (c :: sep) (y :: l)) in *.
    assert (E : prefixb (c :: sep) ((c :: sep) ++ r) = true) by (apply prefixb_ok; eauto).
    cbn [app split_go]. change (c :: sep ++ r) with ((c :: sep) ++ r). rewrite E. rewrite rev_involutive. f_equal.
    cbn [List.length Nat.sub]. rewrite Nat.sub_0_r. rewrite split_skip by (rewrite app_length; lia).
    rewrite skipn_app, skipn_all, Nat.sub_diag. cbn [skipn app]. apply IH. discriminate.
Qed.

Lemma join_forall : forall (P : N -> Prop) sep l, Forall P sep -> Forall (Forall P) l -> Forall P (join sep l).
Proof.
  intros P sep l Hs HF. apply Forall_forall. intros c Hc. apply join_in in Hc. destruct Hc as [Hc|[x [Hx Hc]]].
  - rewrite Forall_forall in Hs. auto.
  - rewrite Forall_forall in HF. specialize (HF x Hx). rewrite Forall_forall in HF. auto.
Qed.

(** ** Ratings of MovieLens: user, item, rating and time stamp *)
Definition rating4 : Type := nat * nat * nat * nat.
Definition fields4 (e : rating4) : list text := let '(u, i, r, ts) := e in [dec u; dec i; dec r; dec ts].
(** lines of ml-1m/ratings.dat and ml-100k/u.data *)
Definition ml1m_line (e : rating4) : text := join (t "::") (fields4 e) ++ nl.
Definition ml100k_line (e : rating4) : text := join tab (fields4 e) ++ nl.
Definition row4 {G} (feature_of : list text -> G) (e : rating4) : frow G :=
  let '(u, i, r, ts) := e in mkRow [Z.of_nat u; Z.of_nat i] (inject_Z (Z.of_nat r)) (feature_of [dec ts]).

Lemma fields4_ok : forall e, fields_ok (fields4 e).
Proof.
  intros [[[u i] r] ts]. apply (fields_plain u [dec i; dec r] (dec ts)); [repeat constructor; apply dec_plain|apply dec_plain|intros; apply dec_last].
Qed.

Lemma fields4_free : forall e (c : N), digit c = false -> Forall (fun p => ~ In c p) (fields4 e).
Proof. intros [[[u i] r] ts] c H. repeat constructor; apply dec_free; auto. Qed.

Lemma ml1m_printed : forall e, ml1m_event (ml1m_line e) = print_fields (fields4 e).
Proof.
  intros e. unfold ml1m_event, ml1m_line. rewrite rstrip_line.
  - f_equal. apply (split_join2 58%N [58%N]); [destruct e as [[[u i] r] ts]; discriminate|]. apply fields4_free. reflexivity.
  - apply join_forall; [repeat constructor; discriminate|]. destruct e as [[[u i] r] ts].
    repeat constructor; (eapply Forall_impl; [|apply dec_plain]; intros a [_ [_ [H1 H2]]]; auto).
Qed.
Lemma ml100k_printed : forall e, ml100k_event (ml100k_line e) = print_fields (fields4 e).
Proof.
  intros e. rewrite C65_ml100k_event. unfold ml100k_line. rewrite rstrip_line; auto.
  apply join_forall; [repeat constructor; discriminate|]. destruct e as [[[u i] r] ts].
  repeat constructor; (eapply Forall_impl; [|apply dec_plain]; intros a [_ [_ [H1 H2]]]; auto).
Qed.

(** ** C85 *)
(** the ratings that are loaded from the converted file are those of the
    original file, for the call in load_movielens1m and load_movielens100k *)
Theorem C85_movielens : forall F G (int_of : text -> res Z) float_of (feature_of : list text -> G) h (evs : list rating4) d,
  reads_numbers int_of float_of -> header h ->
  load_score_file (F := F) int_of float_of feature_of (h ++ map ml1m_event (map ml1m_line evs)) 2 (OTVec [0; 1]%Z) d 1 =
    Some (load_event_with_score (map (row4 feature_of) evs) 2 (OTVec [0; 1]%Z) d true) /\
  load_score_file (F := F) int_of float_of feature_of (h ++ map ml100k_event (map ml100k_line evs)) 2 (OTVec [0; 1]%Z) d 1 =
    Some (load_event_with_score (map (row4 feature_of) evs) 2 (OTVec [0; 1]%Z) d true).
Proof.
  intros F G int_of float_of feature_of h evs d [HI HF] Hh.
  assert (L : load_score_file (F := F) int_of float_of feature_of (h ++ map print_fields (map fields4 evs)) 2 (OTVec [0; 1]%Z) d 1 =
    Some (load_event_with_score (map (row4 feature_of) evs) 2 (OTVec [0; 1]%Z) d true)).
  { apply (C84_load_scores F G int_of float_of feature_of _ (map fields4 evs) (map (row4 feature_of) evs) 2 4 (OTVec [0; 1]%Z) d 1).
    - apply printed_file; auto. apply Forall_map, Forall_forall. intros; apply fields4_ok.
    - apply Forall_map, Forall_forall. intros [[[u i] r] ts] _. reflexivity.
    - induction evs as [|[[[u i] r] ts] evs IH]; constructor; auto. exists [dec u; dec i], (dec r), [dec ts], [].
      split; auto. split; auto. split; [repeat constructor; apply HI|]. split; [apply HF|reflexivity].
    - apply Forall_map, Forall_forall. intros [[[u i] r] ts] _. reflexivity. }
  rewrite !map_map in *. split.
  - rewrite (map_ext _ (fun e => print_fields (fields4 e)) ml1m_printed). auto.
  - rewrite (map_ext _ (fun e => print_fields (fields4 e)) ml100k_printed). auto.
Qed.

(** flixster: user, item and a rating in any notation *)
Definition flix_line (e : nat * nat * text) : text := let '(u, i, s) := e in join tab [dec u; dec i; s] ++ nl.
Theorem C85_flixster : forall F G (int_of : text -> res Z) float_of (feature_of : list text -> G) h (evs : list (nat * nat * text)) rs d,
  reads_numbers int_of float_of -> header h ->
  Forall2 (fun e r => Forall plain (snd e) /\ (forall x, snd e <> x ++ [32%N]) /\ float_of (snd e) = Some (r_score r) /\
    r_ids r = [Z.of_nat (fst (fst e)); Z.of_nat (snd (fst e))] /\ r_feat r = feature_of []) evs rs ->
  exists out, mapM flixster_event (map flix_line evs) = Ok out /\
    load_score_file (F := F) int_of float_of feature_of (h ++ out) 2 (OTVec [0; 1]%Z) d 0 =
      Some (load_event_with_score rs 2 (OTVec [0; 1]%Z) d false).
Proof.
  intros F G int_of float_of feature_of h evs rs d [HI HF] Hh H2.
  exists (map print_fields (map (fun e : nat * nat * text => [dec (fst (fst e)); dec (snd (fst e)); snd e]) evs)). split.
  - apply mapM_ok. rewrite map_map. induction H2 as [|[[u i] s] r evs rs [P1 _] _ IH]; constructor; auto. cbn [fst snd] in *.
    unfold flixster_event, flix_line. rewrite rstrip_line.
    + change tab with [9%N]. rewrite split_join; [reflexivity|discriminate|]. repeat constructor; try (apply dec_free; reflexivity).
      intros C. rewrite Forall_forall in P1. destruct (P1 _ C) as [_ [X _]]. congruence.
    + apply join_forall; [repeat constructor; discriminate|].
      repeat constructor; try (eapply Forall_impl; [|apply dec_plain]; intros a [_ [_ [X1 X2]]]; auto).
      eapply Forall_impl; [|exact P1]. intros a [_ [_ [X1 X2]]]; auto.
  - apply (C84_load_scores F G int_of float_of feature_of _ (map (fun e : nat * nat * text => [dec (fst (fst e)); dec (snd (fst e)); snd e]) evs) rs 2 3 (OTVec [0; 1]%Z) d 0).
    + apply printed_file; auto. apply Forall_map. clear - H2. induction H2 as [|[[u i] s] r evs rs [P1 [P2 _]] _ IH]; constructor; auto. cbn [fst snd] in *.
      apply (fields_plain u [dec i] s); auto. repeat constructor. apply dec_plain.
    + apply Forall_map, Forall_forall. auto.
    + clear - H2 HI. induction H2 as [|[[u i] s] r evs rs [P1 [P2 [P3 [P4 P5]]]] _ IH]; constructor; auto. cbn [fst snd] in *.
      exists [dec u; dec i], s, [], []. split; auto. split; auto. split; [rewrite P4; repeat constructor; apply HI|]. auto.
    + clear - H2. induction H2 as [|e r evs rs [_ [_ [_ [P4 _]]]] _ IH]; constructor; auto. rewrite P4. auto.
Qed.

(** sushi: line [u] of the file holds the ratings of user [u] for all items,
    -1 if there is none *)
Definition sushi_field (r : option nat) : text := match r with Some n => dec n | None => t "-1" end.
Definition sushi_line (l : list (option nat)) : text := join (t " ") (map sushi_field l) ++ nl.
(** the ratings given, in the order of users and items *)
Definition given (G : Type) (g : G) (m : list (list (option nat))) : list (frow G) :=
  flat_map (fun ul => flat_map (fun ir => match snd ir with
                                          | Some n => [mkRow [Z.of_nat (fst ul); Z.of_nat (fst ir)] (inject_Z (Z.of_nat n)) g]
                                          | None => []
                                          end) (combine (seq 0 (List.length (snd ul))) (snd ul)))
           (combine (seq 0 (List.length m)) m).

Definition sushi_rows (u : nat) (i : nat) (l : list (option nat)) : list (list text) :=
  flat_map (fun ir => match snd ir with Some n => [[dec u; dec (fst ir); dec n]] | None => [] end) (combine (seq i (List.length l)) l).
Lemma sushi_ratings_ok : forall int_of u l i, (forall n, int_of (dec n) = Ok (Z.of_nat n)) -> int_of (t "-1") = Ok (-1)%Z ->
  sushi_ratings int_of u i (map sushi_field l) = Ok (map print_fields (sushi_rows u i l)).
Proof.
  intros int_of u l. induction l as [|r l IH]; intros i HI H1; auto. cbn [map sushi_ratings].
  destruct r as [n|]; cbn [sushi_field]; [rewrite HI|rewrite H1]; cbn [bind]; rewrite IH by auto; cbn [bind].
  - assert ((0 <=? Z.of_nat n)%Z = true) as -> by (apply Z.leb_le; apply Nat2Z.is_nonneg). reflexivity.
  - reflexivity.
Qed.
Definition all_rows (u : nat) (m : list (list (option nat))) : list (list text) :=
  flat_map (fun ul => sushi_rows (fst ul) 0 (snd ul)) (combine (seq u (List.length m)) m).
Lemma sushi_field_free : forall r c, c = 32%N \/ c = 10%N \/ c = 13%N -> ~ In c (sushi_field r).
Proof.
  intros [n|] c H; cbn [sushi_field].
  - apply dec_free. destruct H as [-> |[-> | ->]]; reflexivity.
  - intros [C|[C|[]]]; destruct H as [-> |[-> | ->]]; discriminate.
Qed.
Lemma sushi_events_ok : forall int_of m u, (forall n, int_of (dec n) = Ok (Z.of_nat n)) -> int_of (t "-1") = Ok (-1)%Z -> Forall (fun l => l <> []) m ->
  sushi_events int_of u (map sushi_line m) = Ok (map print_fields (all_rows u m)).
Proof.
  intros int_of m. induction m as [|l m IH]; intros u HI H1 HF; auto. inversion HF as [|? ? Hl HF']; subst. cbn [map sushi_events].
  unfold sushi_line at 1. rewrite rstrip_line.
  - change (t " ") with [32%N]. rewrite split_join.
    + rewrite sushi_ratings_ok by auto. cbn [bind]. rewrite IH by auto. cbn [bind]. unfold all_rows. cbn [List.length seq combine flat_map fst snd].
      rewrite map_app. auto.
    + destruct l; [congruence|discriminate].
    + apply Forall_map, Forall_forall. intros r _. apply sushi_field_free. auto.
  - apply join_forall; [repeat constructor; discriminate|]. apply Forall_map, Forall_forall. intros r _. apply Forall_forall. intros c Hc.
    split; intros ->; revert Hc; apply sushi_field_free; auto.
Qed.

Theorem C85_sushi : forall F G (int_of : text -> res Z) float_of (feature_of : list text -> G) h (m : list (list (option nat))) d,
  reads_numbers int_of float_of -> int_of (t "-1") = Ok (-1)%Z -> header h -> Forall (fun l => l <> []) m ->
  exists out, sushi_events int_of 0 (map sushi_line m) = Ok out /\
    load_score_file (F := F) int_of float_of feature_of (h ++ out) 2 (OTVec [0; 1]%Z) d 0 =
      Some (load_event_with_score (given G (feature_of []) m) 2 (OTVec [0; 1]%Z) d false).
Proof.
  intros F G int_of float_of feature_of h m d [HI HF] H1 Hh Hm. exists (map print_fields (all_rows 0 m)). split; [apply sushi_events_ok; auto|].
  assert (R : forall f, In f (all_rows 0 m) -> exists u i n, f = [dec u; dec i; dec n]).
  { intros f Hf. unfold all_rows, sushi_rows in Hf. apply in_flat_map in Hf. destruct Hf as [[u l] [_ Hf]]. apply in_flat_map in Hf.
    destruct Hf as [[i r] [_ Hf]]. cbn [fst snd] in Hf. destruct r as [n|]; [|destruct Hf]. destruct Hf as [<-|[]]. eauto. }
  apply (C84_load_scores F G int_of float_of feature_of _ (all_rows 0 m) (given G (feature_of []) m) 2 3 (OTVec [0; 1]%Z) d 0).
  - apply printed_file; auto. apply Forall_forall. intros f Hf. destruct (R f Hf) as [u [i [n ->]]].
    apply (fields_plain u [dec i] (dec n)); [repeat constructor; apply dec_plain|apply dec_plain|intros; apply dec_last].
  - apply Forall_forall. intros f Hf. destruct (R f Hf) as [u [i [n ->]]]. reflexivity.
  - unfold given, all_rows. generalize (combine (seq 0 (List.length m)) m). induction l as [|[u l] ls IH]; [constructor|]. cbn [flat_map fst snd].
    apply Forall2_app; auto. unfold sushi_rows. clear IH. generalize (combine (seq 0 (List.length l)) l). induction l0 as [|[i r] l0 IH]; [constructor|].
    cbn [flat_map fst snd]. apply Forall2_app; auto. destruct r as [n|]; [|constructor]. repeat constructor.
    exists [dec u; dec i], (dec n), [], []. split; auto. split; auto. split; [repeat constructor; apply HI|]. split; [apply HF|reflexivity].
  - apply Forall_forall. intros r Hr. unfold given in Hr. apply in_flat_map in Hr. destruct Hr as [[u l] [_ Hr]]. apply in_flat_map in Hr.
    destruct Hr as [[i o] [_ Hr]]. cbn [fst snd] in Hr. destruct o as [n|]; [|destruct Hr]. destruct Hr as [<-|[]]. reflexivity.
Qed.

(** ** Feature files *)
(** movies: identifier, title, year and 18 flags are read as printed if the
    titles are free of '#' *)
Lemma Forall2_in_l : forall A B (P : A -> B -> Prop) l l' x, Forall2 P l l' -> In x l -> exists y, In y l' /\ P x y.
Proof.
  intros A B P l l' x H. induction H as [|a b l l' Hab _ IH]; [intros []|]. intros [<-|Hx]; [exists b; cbn; auto|].
  destruct (IH Hx) as [y [Hy Py]]. exists y. cbn. auto.
Qed.

Definition movie_line (line : text) (n : nat) (title : text) (genres : list text) : Prop :=
  split (t "::") (rstrip line) = [dec n; title; join (t "|") genres] /\ genres <> [] /\ Forall (fun g => ~ In 124%N g) genres.

Theorem C85_movies : forall F (int_of : text -> res Z) (object_of : list text -> F) h lines out (ms : list (nat * text * list text)),
  (forall n, int_of (dec n) = Ok (Z.of_nat n)) -> header h ->
  Forall2 (fun line m => movie_line line (fst (fst m)) (snd (fst m)) (snd m) /\ dec (fst (fst m)) <> t "3845" /\ Forall plain (snd (fst m))) lines ms ->
  mapM ml1m_item lines = Ok out ->
  exists fs, read_features int_of object_of 20 (h ++ out) = Ok fs /\
    Forall2 (fun m f => exists y o, f = (Z.of_nat (fst (fst m)), object_of (snd (fst m) :: y :: o)) /\
      (exists a, snd (fst m) = a ++ t "(" ++ y ++ t ")") /\ flags_of (snd m) o) ms fs.
Proof.
  intros F int_of object_of h lines out ms HI Hh H2 HM. apply mapM_ok in HM.
  assert (X : exists rows, out = map print_fields rows /\ Forall fields_ok rows /\ Forall (fun f => List.length f = 21) rows /\
    Forall2 (fun m f => exists y o, f = dec (fst (fst m)) :: snd (fst m) :: y :: o /\
      (exists a, snd (fst m) = a ++ t "(" ++ y ++ t ")") /\ flags_of (snd m) o) ms rows).
  { revert ms H2. induction HM as [|line x lines out Hx _ IH]; intros ms H2.
    - inversion H2; subst. exists []. repeat split; constructor.
    - inversion H2 as [|? [[n title] genres] ? ms' [[Hs [Hg Hf]] [Hn Hp]] H2']; subst. cbn [fst snd] in *. destruct (IH ms' H2') as [rows [-> [R1 [R2 R3]]]].
      destruct (C65_ml1m_item line x Hx) as [f0 [f1 [f2 [rest [ti [y [o [E [-> [Et [Ea [Ly [Dy Fo]]]]]]]]]]]]].
      rewrite Hs in E. inversion E; subst f0 f1 f2 rest. clear E.
      assert (ti = title).
      { destruct Et as [Et|Et]; auto. contradiction. }
      subst ti. change (t "|") with [124%N] in Fo. rewrite split_join in Fo by auto.
      assert (O1 : Forall (fun z => z = t "1" \/ z = t "0") o).
      { destruct Fo as [Lo Fo]. apply Forall_forall. intros z Hz. apply In_nth_error in Hz. destruct Hz as [j Hj].
        assert (Lj : j < 18) by (rewrite <- Lo; apply nth_error_Some; congruence).
        destruct (nth_error genre_names j) as [name|] eqn:Eg; [|apply nth_error_None in Eg; cbn in Eg; lia].
        destruct (Fo j name Eg) as [A B]. destruct (in_dec (list_eq_dec N.eq_dec) name genres) as [I|I].
        - rewrite (A I) in Hj. inversion Hj. auto.
        - rewrite (B I) in Hj. inversion Hj. auto. }
      assert (No : o <> []) by (destruct Fo as [Lo _]; destruct o; [discriminate|discriminate]).
      exists ((dec n :: title :: y :: o) :: rows). split.
      { cbn [map]. f_equal. unfold print_fields. f_equal. pose proof (join_nested tab [dec n; title; y] o [] No) as J. rewrite app_nil_r in J. exact J. }
      split; [constructor; auto|split; [constructor; auto; destruct Fo as [Lo _]; cbn; lia|constructor; auto; exists y, o; auto]].
      destruct (exists_last No) as [o' [z Ez]]. rewrite Ez in *. apply Forall_app in O1. destruct O1 as [O1 O2]. inversion O2 as [|? ? Oz _]; subst.
      apply (fields_plain n (title :: y :: o') z).
      + constructor; auto. constructor; [eapply Forall_impl; [|exact Dy]; intros c Hc; cbv beta in Hc; unfold plain; repeat split; lia|].
        eapply Forall_impl; [|exact O1]. intros w [-> | ->]; repeat constructor; discriminate.
      + destruct Oz as [-> | ->]; repeat constructor; discriminate.
      + intros w Ew. destruct Oz as [-> | ->]; (destruct w as [|? [|? ?]]; discriminate). }
  destruct X as [rows [-> [R1 [R2 R3]]]].
  unfold read_features. rewrite (C84_rows (h ++ map print_fields rows) rows 21 (1 + 20)); auto; [|apply printed_file; auto]. cbn [bind].
  assert (Ef : map (firstn (1 + 20)) rows = rows).
  { clear - R2. induction R2 as [|f rows Lf _ IH]; auto. cbn [map]. rewrite IH. f_equal. rewrite <- Lf at 1. apply firstn_all. }
  rewrite Ef. exists (map (fun f => (int_field int_of (nth 0 f []), object_of (skipn 1 f))) rows). split.
  - apply mapM_total. intros f Hf. rewrite Forall_forall in R2. specialize (R2 f Hf). destruct f as [|x f]; [discriminate|]. reflexivity.
  - clear - R3 HI. induction R3 as [|m f ms rows [y [o [-> [A B]]]] _ IH]; constructor; auto. exists y, o. cbn [nth skipn]. unfold int_field. rewrite HI. auto.
Qed.

(** the converter accepts a title with '#', but the loader cannot read the file *)
Theorem C85_hash_refuted : exists lines out, mapM ml1m_item lines = Ok out /\
  lines = [t "1::Toy Story (1995)::Animation|Comedy" ++ nl; t "2::Number #9 (1999)::Drama" ++ nl] /\
  forall F int_of (object_of : list text -> F), read_features int_of object_of 20 out = Raise ValueError.
Proof.
  eexists _, _. split; [|split; [reflexivity|]].
  - vm_compute. reflexivity.
  - intros. vm_compute. reflexivity.
Qed.

(** the one movie of the data set with such a title is treated specially *)
Example C85_special_title : ml1m_item (t "3845::And God&#8230;(1956)::Drama" ++ nl) =
  Ok (join tab (t "3845" :: (t "And God" ++ [8230%N] ++ t "(1956)") :: t "1956" :: repeat (t "0") 7 ++ t "1" :: repeat (t "0") 10) ++ nl).
Proof. vm_compute. reflexivity. Qed.

(** ** Concrete cases *)
Definition float10 (s : text) : option Q := match int10 s with Ok z => Some (inject_Z z) | Raise _ => None end.
Example C85_nonvacuous : reads_numbers int10 float10 /\ int10 (t "-1") = Ok (-1)%Z /\ header [t "# comment" ++ nl].
Proof.
  split; [split; [apply int10_dec|intros n; unfold float10; rewrite int10_dec; auto]|]. split; [reflexivity|].
  constructor; [|constructor]. eexists. reflexivity.
Qed.

(** a converted file in full *)
Example C85_ml1m_example :
  load_score_file (F := unit) int10 float10 (fun l => l)
    ([t "# ratings" ++ nl] ++ map ml1m_event [t "1::1193::5::978300760" ++ nl; t "2::661::3::978302109" ++ nl]) 2 (OTVec [0; 1]%Z) (Some (mkDom 1 5 1)) 1
  = Some (load_event_with_score [mkRow [1; 1193]%Z 5%Q [t "978300760"]; mkRow [2; 661]%Z 3%Q [t "978302109"]] 2 (OTVec [0; 1]%Z) (Some (mkDom 1 5 1)) true).
Proof. vm_compute. reflexivity. Qed.

Print Assumptions C84_rows.
Print Assumptions C84_refused.
Print Assumptions C84_load_scores.
Print Assumptions C84_load_events.
Print Assumptions C84_text_ids_refuted.
Print Assumptions C85_movielens.
Print Assumptions C85_flixster.
Print Assumptions C85_sushi.
Print Assumptions C85_movies.
Print Assumptions C85_hash_refuted.
