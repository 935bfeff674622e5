(** * C84: text files are read as they were meant *)
From Coq Require Import Ascii String List ZArith NArith QArith Lia Bool.
From Verif Require Import M_Py P_Py M_Data M_Score M_Load M_Convert P_Convert M_Text Spec T_Load.
Import ListNotations.
Local Open Scope nat_scope.

(** ** What a file says *)
(** a character that may occur inside a field: not '#', tab or a line end *)
Definition plain (c : N) : Prop := c <> 35%N /\ c <> 9%N /\ c <> 10%N /\ c <> 13%N.
(** the fields of a line: the line does not begin or end with a space *)
Definition fields_ok (f : list text) : Prop :=
  Forall (Forall plain) f /\ (exists c x g, f = (c :: x) :: g /\ c <> 32%N) /\ (forall g x, f <> g ++ [x ++ [32%N]]).
(** what may follow the fields: white space and a comment *)
Definition tail (e : text) : Prop :=
  exists b c, e = b ++ c /\ Forall (fun x => x = 32%N \/ x = 13%N \/ x = 10%N) b /\ (c = [] \/ exists d, c = 35%N :: d).
(** lines of a file and the rows they show *)
Inductive file_of : list text -> list (list text) -> Prop :=
| file_end : file_of [] []
| file_skip : forall e lines rows, tail e -> file_of lines rows -> file_of (e :: lines) rows
| file_row : forall f e lines rows, fields_ok f -> tail e -> file_of lines rows -> file_of ((join tab f ++ e) :: lines) (f :: rows).

(** ** Lemmas *)
Lemma blank_spec : forall c, blank c = true <-> c = 32%N \/ c = 13%N \/ c = 10%N.
Proof.
  intros c. unfold blank. rewrite !orb_true_iff, !N.eqb_eq. tauto.
Qed.

Lemma strip_left_blanks : forall b s, Forall (fun c => blank c = true) b -> strip_left (b ++ s) = strip_left s.
Proof. intros b s H. induction H as [|c b Hc _ IH]; cbn [app strip_left]; auto. rewrite Hc. auto. Qed.

Lemma strip_blanks : forall b, Forall (fun c => blank c = true) b -> strip b = [].
Proof.
  intros b H. unfold strip. rewrite <- (app_nil_r b), strip_left_blanks by auto. reflexivity.
Qed.

Lemma strip_core : forall core b, Forall (fun c => blank c = true) b ->
  (exists c r, core = c :: r /\ blank c = false) -> (exists r c, core = r ++ [c] /\ blank c = false) -> strip (core ++ b) = core.
Proof.
  intros core b Hb [c [r [E Hc]]] [r' [c' [E' Hc']]]. unfold strip.
  assert (strip_left (core ++ b) = core ++ b) as -> by (rewrite E; cbn [app strip_left]; rewrite Hc; auto).
  rewrite rev_app_distr, strip_left_blanks by (apply Forall_rev; auto).
  assert (strip_left (rev core) = rev core) as ->.
  { rewrite E', rev_app_distr. cbn [rev app strip_left]. rewrite Hc'. auto. }
  apply rev_involutive.
Qed.

Lemma split_head : forall c x y, ~ In c x -> exists r, split [c] (x ++ c :: y) = x :: r.
Proof.
  intros c x y H. unfold split. rewrite split_piece by auto. cbn [split_go prefixb]. rewrite N.eqb_refl. cbn [andb].
  rewrite app_nil_r, rev_involutive. eauto.
Qed.

Lemma before_comment : forall x e, ~ In 35%N x -> tail e -> exists b, item (split (t "#") (x ++ e)) 0 = Ok (x ++ b) /\ Forall (fun c => blank c = true) b.
Proof.
  intros x e Hx [b [c [-> [Hb Hc]]]]. exists b.
  assert (Hb' : Forall (fun c => blank c = true) b) by (eapply Forall_impl; [|exact Hb]; intros; apply blank_spec; auto).
  split; auto. assert (Nb : ~ In 35%N (x ++ b)).
  { intros C. apply in_app_or in C. destruct C as [C|C]; auto. rewrite Forall_forall in Hb. destruct (Hb _ C) as [X|[X|X]]; discriminate. }
  change (t "#") with [35%N]. rewrite app_assoc. destruct Hc as [->|[d ->]].
  - rewrite app_nil_r, split_nil_free by auto. reflexivity.
  - destruct (split_head 35%N (x ++ b) d Nb) as [r ->]. reflexivity.
Qed.

Lemma tail_line : forall e, tail e -> split_line e = Ok [].
Proof.
  intros e H. destruct (before_comment [] e (fun C => C) H) as [b [E Hb]]. unfold split_line. cbn [app] in E. rewrite E. cbn [bind].
  rewrite strip_blanks; auto.
Qed.

Lemma join_in : forall sep l c, In c (join sep l) -> In c sep \/ exists x, In x l /\ In c x.
Proof.
  intros sep l c. induction l as [|x l IH]; [intros []|]. destruct l as [|y l].
  - cbn [join]. intros H. right. exists x. cbn. auto.
  - rewrite join_cons by discriminate. intros H. apply in_app_or in H. destruct H as [H|H]; [right; exists x; cbn; auto|].
    apply in_app_or in H. destruct H as [H|H]; auto. destruct (IH H) as [C|[z [Hz Hc]]]; auto. right. exists z. split; auto. right. auto.
Qed.

Lemma join_last : forall f, fields_ok f -> exists r c, join tab f = r ++ [c] /\ blank c = false.
Proof.
  intros f [HF [[c0 [x0 [g0 [E Hc]]]] HL]]. assert (Hne : f <> []) by (rewrite E; discriminate). revert HF HL.
  destruct (exists_last Hne) as [g [z ->]]. intros HF HL.
  assert (J : join tab (g ++ [z]) = match g with [] => z | _ => join tab g ++ tab ++ z end).
  { clear. destruct g as [|y g]; auto. revert y. induction g as [|w g IH]; intros y; auto.
    cbn [app]. rewrite (join_cons tab y (w :: g ++ [z])) by discriminate. rewrite (join_cons tab y (w :: g)) by discriminate.
    change (w :: g ++ [z]) with ((w :: g) ++ [z]). rewrite IH, !app_assoc. auto. }
  destruct z as [|c z].
  - rewrite J. destruct g as [|y g]; [injection E; discriminate|]. exists (join tab (y :: g)), 9%N. rewrite app_nil_r. split; auto.
  - destruct (exists_last (l := c :: z) ltac:(discriminate)) as [w [d Ew]]. rewrite Ew in *.
    assert (blank d = false).
    { destruct (blank d) eqn:Eb; auto. exfalso. apply blank_spec in Eb. apply Forall_app in HF. destruct HF as [_ HF].
      inversion HF; subst. apply Forall_app in H1. destruct H1 as [_ H1]. inversion H1 as [|? ? [_ [_ [P1 P2]]] _]; subst.
      destruct Eb as [-> | [-> | ->]]; [apply (HL g w); auto|congruence|congruence]. }
    rewrite J. destruct g as [|y g]; [exists w, d; auto|]. exists (join tab (y :: g) ++ tab ++ w), d. rewrite <- !app_assoc. auto.
Qed.

Lemma row_line : forall f e, fields_ok f -> tail e -> split_line (join tab f ++ e) = Ok f.
Proof.
  intros f e H He. pose proof (join_last f H) as HL. destruct H as [HF [[c [x [g [E Hc]]]] _]].
  assert (Nf : forall y, In y f -> forall d, In d y -> plain d).
  { rewrite Forall_forall in HF. intros y Hy d Hd. specialize (HF y Hy). rewrite Forall_forall in HF. auto. }
  assert (N35 : ~ In 35%N (join tab f)).
  { intros C. apply join_in in C. destruct C as [[C|[]]|[y [Hy C]]]; [discriminate|]. destruct (Nf y Hy _ C) as [P _]. congruence. }
  destruct (before_comment _ e N35 He) as [b [Eb Hb]]. unfold split_line. rewrite Eb. cbn [bind].
  rewrite strip_core; auto.
  - destruct (join tab f) eqn:Ej.
    + rewrite E in Ej. destruct g; [discriminate|]. rewrite join_cons in Ej by discriminate. discriminate.
    + rewrite <- Ej. f_equal. apply split_join; [rewrite E; discriminate|]. apply Forall_forall. intros y Hy C.
      destruct (Nf y Hy _ C) as [_ [P _]]. congruence.
  - rewrite E. assert (Bc : blank c = false).
    { destruct (blank c) eqn:X; auto. apply blank_spec in X. destruct (Nf (c :: x)) with (d := c) as [_ [_ [P1 P2]]]; [rewrite E; left; auto|left; auto|].
      destruct X as [X|[X|X]]; congruence. }
    exists c. destruct g; [exists x; auto|]. rewrite join_cons by discriminate. cbn [app]. eauto.
Qed.

Lemma file_lines : forall lines rows, file_of lines rows -> exists vs, mapM split_line lines = Ok vs /\ filter non_empty vs = rows.
Proof.
  intros lines rows H. induction H as [|e lines rows He H [vs [IH1 IH2]]|f e lines rows Hf He H [vs [IH1 IH2]]].
  - exists []. auto.
  - exists ([] :: vs). cbn [mapM]. rewrite tail_line by auto. cbn [bind]. rewrite IH1. auto.
  - exists (f :: vs). cbn [mapM]. rewrite row_line by auto. cbn [bind]. rewrite IH1. split; auto. cbn [filter].
    destruct Hf as [_ [[c [x [g [-> _]]]] _]]. cbn [non_empty]. rewrite IH2. auto.
Qed.

(** ** C84 *)
(** comments and empty lines anywhere do no harm; further columns are ignored *)
Theorem C84_rows : forall lines rows n ncol, file_of lines rows -> Forall (fun f => List.length f = n) rows -> ncol <= n ->
  read_rows ncol lines = Ok (map (firstn ncol) rows).
Proof.
  intros lines rows n ncol H HF Hn. destruct (file_lines lines rows H) as [vs [E1 E2]]. unfold read_rows. rewrite E1. cbn [bind]. rewrite E2.
  destruct rows as [|f rows]; auto. inversion HF as [|? ? L HF']; subst.
  assert (forallb (fun w => Nat.eqb (List.length w) (List.length f)) rows = true) as ->.
  { apply forallb_forall. rewrite Forall_forall in HF'. intros w Hw. apply Nat.eqb_eq. auto. }
  assert (Nat.ltb (List.length f) ncol = false) as -> by (apply Nat.ltb_ge; auto). auto.
Qed.

(** a file is refused exactly if two lines differ in the number of fields or
    there are too few *)
Theorem C84_refused : forall lines rows ncol, file_of lines rows ->
  (read_rows ncol lines = Raise ValueError <->
   exists f g, In f rows /\ In g rows /\ (List.length f <> List.length g \/ List.length f < ncol)) /\
  (forall e, read_rows ncol lines = Raise e -> e = ValueError).
Proof.
  intros lines rows ncol H. destruct (file_lines lines rows H) as [vs [E1 E2]]. unfold read_rows. rewrite E1. cbn [bind]. rewrite E2.
  destruct rows as [|v ws]; [split; [split; [discriminate|intros [f [_ [[] _]]]]|discriminate]|].
  destruct (forallb (fun w => Nat.eqb (List.length w) (List.length v)) ws) eqn:Ef.
  - rewrite forallb_forall in Ef. assert (L : forall w, In w (v :: ws) -> List.length w = List.length v).
    { intros w [<-|Hw]; auto. apply Nat.eqb_eq. auto. }
    destruct (Nat.ltb_spec (List.length v) ncol).
    + split; [|congruence]. split; auto. intros _. exists v, v. cbn. auto.
    + split; [|discriminate]. split; [discriminate|]. intros [f [g [Hf [Hg [N|N]]]]]; rewrite (L f Hf) in N; [rewrite (L g Hg) in N; congruence|lia].
  - split; [|congruence]. split; auto. intros _. assert (X : existsb (fun w => negb (Nat.eqb (List.length w) (List.length v))) ws = true).
    { clear - Ef. induction ws as [|w ws IH]; [discriminate|]. cbn in *. destruct (Nat.eqb (List.length w) (List.length v)); auto. }
    apply existsb_exists in X. destruct X as [w [Hw N]]. apply negb_true_iff, Nat.eqb_neq in N. exists w, v. cbn. auto.
Qed.

(** the fields of an event with its score *)
Definition shows {G} (int_of : text -> res Z) (float_of : text -> option Q) (feature_of : list text -> G) (m : nat) (f : list text) (r : frow G) : Prop :=
  exists ids sc g rest, f = ids ++ sc :: g ++ rest /\ List.length g = m /\
    Forall2 (fun x z => int_of x = Ok z) ids (r_ids r) /\ float_of sc = Some (r_score r) /\ r_feat r = feature_of g.

Lemma int_fields : forall int_of ids zs, Forall2 (fun x z => int_of x = Ok z) ids zs -> map (int_field int_of) ids = zs.
Proof. intros int_of ids zs H. induction H as [|x z ids zs Hx _ IH]; auto. cbn [map]. unfold int_field at 1. rewrite Hx, IH. auto. Qed.

Lemma Forall2_len : forall A B (P : A -> B -> Prop) l l', Forall2 P l l' -> List.length l = List.length l'.
Proof. intros A B P l l' H. induction H; cbn; auto. Qed.

Lemma shown_row : forall G (int_of : text -> res Z) float_of (feature_of : list text -> G) s m f r,
  shows int_of float_of feature_of m f r -> List.length (r_ids r) = s -> score_row int_of float_of feature_of s (firstn (s + 1 + m) f) = Some r.
Proof.
  intros G int_of float_of feature_of s m f r [ids [sc [g [rest [-> [Lg [H1 [H2 H3]]]]]]]] L.
  pose proof (Forall2_len _ _ _ _ _ H1) as Li. unfold score_row.
  assert (firstn (s + 1 + m) (ids ++ sc :: g ++ rest) = ids ++ sc :: g) as ->.
  { replace (s + 1 + m) with (List.length (ids ++ sc :: g)) by (rewrite app_length; cbn; lia).
    change (sc :: g ++ rest) with ((sc :: g) ++ rest). rewrite app_assoc, firstn_app, firstn_all, Nat.sub_diag. cbn. apply app_nil_r. }
  replace s with (List.length ids) by lia. rewrite skipn_app, firstn_app, skipn_all, firstn_all, Nat.sub_diag. cbn [skipn firstn app].
  rewrite H2, app_nil_r, (int_fields _ _ _ H1), <- H3. destruct r; auto.
Qed.

(** loading a text file gives the data of its events *)
Theorem C84_load_scores : forall F G (int_of : text -> res Z) float_of (feature_of : list text -> G) lines rows (rs : list (frow G)) n ncol ot sd m,
  file_of lines rows -> Forall (fun f => List.length f = ncol) rows -> Forall2 (shows int_of float_of feature_of m) rows rs ->
  well_formed (s_events n ot) rs ->
  load_score_file (F := F) int_of float_of feature_of lines n ot sd m = Some (load_event_with_score rs n ot sd (negb (Nat.eqb m 0))).
Proof.
  intros F G int_of float_of feature_of lines rows rs n ncol ot sd m H HL HS HW. unfold load_score_file.
  set (s := s_events n ot) in *.
  assert (Hn : rows = [] \/ s + 1 + m <= ncol).
  { inversion HS as [|f r fs rs' Hf _]; subst; auto. right. inversion HL as [|? ? L _]; subst. inversion HW as [|? ? W _]; subst.
    destruct Hf as [ids [sc [g [rest [-> [Lg [H1 _]]]]]]]. rewrite app_length. cbn. rewrite app_length. rewrite (Forall2_len _ _ _ _ _ H1). lia. }
  assert (R : read_rows (s + 1 + m) lines = Ok (map (firstn (s + 1 + m)) rows)).
  { destruct Hn as [->|Hn]; [|apply (C84_rows lines rows ncol); auto].
    apply (C84_rows lines [] (s + 1 + m)); auto. }
  rewrite R. assert (A : all_some (map (score_row int_of float_of feature_of s) (map (firstn (s + 1 + m)) rows)) = Some rs).
  { clear - HS HW. unfold well_formed in HW. induction HS as [|f r fs rs Hf _ IH]; auto. inversion HW; subst. cbn [map].
    rewrite (shown_row G int_of float_of feature_of s m f r); auto. cbn [all_some]. rewrite IH; auto. }
  rewrite A. reflexivity.
Qed.

Definition shows_plain {G} (int_of : text -> res Z) (feature_of : list text -> G) (m : nat) (f : list text) (r : frow G) : Prop :=
  exists ids g rest, f = ids ++ g ++ rest /\ List.length g = m /\
    Forall2 (fun x z => int_of x = Ok z) ids (r_ids r) /\ r_feat r = feature_of g.

(** the score of a row plays no role in load_event *)
Theorem C84_load_events : forall F G (int_of : text -> res Z) (feature_of : list text -> G) lines rows (rs : list (frow G)) n ncol ot m,
  file_of lines rows -> Forall (fun f => List.length f = ncol) rows -> Forall2 (shows_plain int_of feature_of m) rows rs ->
  well_formed (s_events n ot) rs ->
  load_file (F := F) int_of feature_of lines n ot m = load_event rs n ot (negb (Nat.eqb m 0)).
Proof.
  intros F G int_of feature_of lines rows rs n ncol ot m H HL HS HW. unfold load_file.
  set (s := s_events n ot) in *.
  assert (Hn : rows = [] \/ s + m <= ncol).
  { inversion HS as [|f r fs rs' Hf _]; subst; auto. right. inversion HL as [|? ? L _]; subst. inversion HW as [|? ? W _]; subst.
    destruct Hf as [ids [g [rest [-> [Lg [H1 _]]]]]]. rewrite !app_length, (Forall2_len _ _ _ _ _ H1). lia. }
  assert (R : read_rows (s + m) lines = Ok (map (firstn (s + m)) rows)).
  { destruct Hn as [->|Hn]; [|apply (C84_rows lines rows ncol); auto].
    apply (C84_rows lines [] (s + m)); auto. }
  rewrite R. cbn [bind].
  assert (A : map (fun r => (r_ids r, r_feat r)) (map (plain_row int_of feature_of s) (map (firstn (s + m)) rows)) = map (fun r => (r_ids r, r_feat r)) rs).
  { clear - HS HW. unfold well_formed in HW. induction HS as [|f r fs rs Hf _ IH]; auto. inversion HW as [|? ? L HW']; subst. cbn [map]. rewrite IH by auto. f_equal.
    destruct Hf as [ids [g [rest [-> [Lg [H1 H3]]]]]]. pose proof (Forall2_len _ _ _ _ _ H1) as Li. cbn [plain_row r_ids r_feat].
    assert (firstn (s + m) (ids ++ g ++ rest) = ids ++ g) as ->.
    { replace (s + m) with (List.length (ids ++ g)) by (rewrite app_length; lia).
      rewrite app_assoc, firstn_app, firstn_all, Nat.sub_diag. cbn. apply app_nil_r. }
    replace s with (List.length ids) by lia. rewrite skipn_app, firstn_app, skipn_all, firstn_all, Nat.sub_diag. cbn [skipn firstn app].
    rewrite app_nil_r, (int_fields _ _ _ H1), <- H3. auto. }
  unfold load_event. set (q := map (plain_row int_of feature_of s) _) in *.
  assert (M : forall B (h : list Z -> G -> B), map (fun r => h (r_ids r) (r_feat r)) q = map (fun r => h (r_ids r) (r_feat r)) rs).
  { intros B h. pose proof (f_equal (map (fun p => h (fst p) (snd p))) A) as X. rewrite !map_map in X. exact X. }
  assert (Eq : event_field s q = event_field s rs).
  { unfold event_field, field. pose proof (M _ (fun i _ => map IdInt i)) as Mi. 
    destruct q as [|a [|b q]], rs as [|a' [|b' rs]]; cbn [map] in *; try discriminate; try reflexivity; [injection Mi as Mi|]; rewrite Mi; reflexivity. }
  assert (Ef : many (field r_feat q) = many (field r_feat rs)).
  { assert (X : forall l : list (frow G), many (field r_feat l) = map r_feat l) by (intros [|a [|b l]]; reflexivity).
    rewrite !X. apply (M _ (fun _ g => g)). }
  fold s. rewrite Eq, Ef. reflexivity.
Qed.

(** identifiers that are not integers are not refused: all of them become -1 *)
Theorem C84_text_ids_refuted : exists lines rows (sd : sdata unit unit), file_of lines rows /\
  map (fun f => firstn 1 f) rows = [[t "alice"]; [t "bob"]] /\
  load_score_file int10 (fun s => match int10 s with Ok z => Some (inject_Z z) | Raise _ => None end) (fun _ => tt) lines 2 OTNone (Some (mkDom 1 5 1)) 0 = Some (Ok sd) /\
  o_n (d_objs (s_data sd)) = [1; 1]%Z /\ event (s_data sd) = Some [[0; 0]; [0; 0]]%Z /\
  o_eid (d_objs (s_data sd)) = [Some [IdInt (-1)]; Some [IdInt (-1)]].
Proof.
  eexists [t "alice" ++ tab ++ t "apple" ++ tab ++ t "5" ++ nl; t "bob" ++ tab ++ t "pear" ++ tab ++ t "3" ++ nl], [[t "alice"; t "apple"; t "5"]; [t "bob"; t "pear"; t "3"]], _.
  split; [|split; [reflexivity|split; [vm_compute; reflexivity|split; [|split]; vm_compute; reflexivity]]].
  assert (T : tail nl) by (exists nl, []; repeat split; auto; repeat constructor; auto).
  assert (W : forall a b c, Forall plain a -> Forall plain b -> Forall plain c -> (exists x y, a = x :: y /\ x <> 32%N) ->
    (exists x y, c = x ++ [y] /\ y <> 32%N) -> fields_ok [a; b; c]).
  { intros a b c Pa Pb Pc [x [y [-> Hx]]] [u [v [-> Hv]]]. split; [auto|]. split; [exists x, y, [b; u ++ [v]]; auto|].
    intros g z E. change [x :: y; b; u ++ [v]] with ([x :: y; b] ++ [u ++ [v]]) in E. apply app_inj_tail in E. destruct E as [_ E].
    apply app_inj_tail in E. destruct E as [_ E]. auto. }
  apply (file_row [t "alice"; t "apple"; t "5"] nl); [|exact T|apply (file_row [t "bob"; t "pear"; t "3"] nl); [|exact T|constructor]].
  - apply W; try (unfold t, plain; cbn; repeat constructor; discriminate).
    + eexists _, _. split; [reflexivity|]. discriminate.
    + exists [], 53%N. split; [reflexivity|discriminate].
  - apply W; try (unfold t, plain; cbn; repeat constructor; discriminate).
    + eexists _, _. split; [reflexivity|]. discriminate.
    + exists [], 51%N. split; [reflexivity|discriminate].
Qed.
