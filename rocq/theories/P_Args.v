(** * Lemmas about the command lines *)
From Coq Require Import Ascii String List ZArith Bool Lia.
From Verif Require Import M_Py M_Args.
Import ListNotations.
Open Scope string_scope.

Lemma aget_aset : forall X (d : dict string (val X)) k v k', aget (aset d k v) k' = if String.eqb k' k then Some v else aget d k'.
Proof.
  intros X d k v k'. unfold aget, aset. induction d as [|[a b] d IH]; cbn.
  - reflexivity.
  - destruct (String.eqb k a) eqn:E; cbn.
    + apply String.eqb_eq in E. subst a. destruct (String.eqb k' k); reflexivity.
    + destruct (String.eqb k' a) eqn:E2; [|exact IH].
      apply String.eqb_eq in E2. subst a. rewrite String.eqb_sym, E. reflexivity.
Qed.

Lemma span_length : forall A (f : A -> bool) l, length (fst (span f l)) + length (snd (span f l)) = length l.
Proof. induction l as [|x l IH]; cbn; [reflexivity|]. destruct (f x); cbn; [rewrite <- IH|]; lia. Qed.

Section P.
  Context {X : Type} (to_int to_float : string -> option X) (can_read can_write : string -> bool).
  Notation CO := (consume_optional to_int to_float can_read can_write).
  Notation CP := (consume_positionals to_int to_float can_read can_write).
  Notation LP := (loop to_int to_float can_read can_write).
  Notation TO := (take_opt to_int to_float can_read can_write).
  Notation TA := (take_all to_int to_float can_read can_write).
  Notation CV := (convert to_int to_float can_read can_write).
  Implicit Types (p : parser X) (s : state X).

  Lemma grab_length : forall n l a r, grab n l = Some (a, r) -> (length r <= length l)%nat.
  Proof.
    induction n as [|n IH]; intros l a r E; cbn in E; [injection E as _ <-; lia|].
    destruct l as [|x l]; [discriminate|]. destruct (is_arg x); [|discriminate].
    destruct (grab n l) as [[a' r']|] eqn:G; [|discriminate]. injection E as _ <-. apply IH in G. cbn. lia.
  Qed.

  Lemma consume_optional_length : forall p x rest s e r s' e', CO p x rest s e = Go (r, s', e') -> (length r <= length rest)%nat.
  Proof.
    intros p x rest s e r s' e' E. unfold consume_optional in E.
    destruct (snd x) as [| |a nm ex]; [injection E as <- _ _; lia|injection E as <- _ _; lia|].
    destruct a as [i|]; [|injection E as <- _ _; lia].
    assert (After : forall d j, match nth_error (pr_opts p) j with
          | None => Stop 1 (s_opened s)
          | Some op => match grab (arity (o_action op)) rest with
                       | None => Stop 2 (s_opened s)
                       | Some (args, rest) => andthen (TA p (d ++ [(j, args)])%list s) (fun s => Go (rest, s, e))
                       end
          end = Go (r, s', e') -> (length r <= length rest)%nat).
    { intros d j H. destruct (nth_error (pr_opts p) j) as [op|]; [|discriminate].
      destruct (grab (arity (o_action op)) rest) as [[a' r']|] eqn:G; [|discriminate].
      destruct (TA p (d ++ [(j, a')])%list s) eqn:T; cbn in H; [|discriminate]. injection H as <- _ _. eapply grab_length; eauto. }
    destruct ex as [ex|]; [|eapply After; exact E].
    destruct (cluster p i nm ex) as [[l [j|]]|]; [eapply After; exact E| |discriminate].
    destruct (TA p l s); cbn in E; [|discriminate]. injection E as <- _ _. lia.
  Qed.

  Lemma match_pos_length : forall q l a r, match_pos q l = Some (a, r) -> (length r <= length l)%nat.
  Proof.
    intros q l a r E. unfold match_pos in E. pose proof (span_length _ is_dash l) as SL.
    destruct (p_n q).
    - injection E as _ <-.
      destruct (snd (span is_dash l)) as [|x r']; cbn; [lia|].
      destruct (is_arg x); cbn.
      + pose proof (span_length _ is_dash r'). cbn in SL. lia.
      + destruct (is_dash x) eqn:D; cbn; [pose proof (span_length _ is_dash r'); cbn in SL; lia|cbn in SL; lia].
    - destruct (snd (span is_dash l)) as [|x r']; [discriminate|]. destruct (is_arg x); [|discriminate].
      injection E as _ <-. pose proof (span_length _ (fun y => is_arg y || is_dash y) r'). cbn in SL. lia.
  Qed.

  Lemma consume_positionals_length : forall p qs l s qs' r s', CP p qs l s = Go (qs', r, s') -> (length r <= length l)%nat.
  Proof.
    intros p. induction qs as [|q qs IH]; intros l s qs' r s' E; cbn in E; [injection E as _ <- _; lia|].
    destruct (match_pos q l) as [[a r1]|] eqn:M; [|injection E as _ <- _; lia].
    destruct (take_pos to_int to_float can_read can_write p q (map fst a) s); cbn in E; [|discriminate].
    apply IH in E. apply match_pos_length in M. lia.
  Qed.

  (** enough fuel is enough *)
  Lemma loop_fuel : forall p f f' qs l s e, (length l < f)%nat -> (length l < f')%nat ->
    LP p f qs l s e = LP p f' qs l s e /\ LP p f qs l s e <> None.
  Proof.
    intros p. induction f as [|f IH]; intros f' qs l s e L L'; [lia|]. destruct f' as [|f']; [lia|]. cbn [loop].
    destruct (existsb is_opt l); [|split; [reflexivity|discriminate]].
    assert (STEP : forall qs l' s e, (length l' <= length l)%nat ->
       match l' with [] => Some (Stop 1 (s_opened s)) | x :: rest => match CO p x rest s e with Stop c o => Some (Stop c o) | Go (rest, s, e) => LP p f qs rest s e end end
       = match l' with [] => Some (Stop 1 (s_opened s)) | x :: rest => match CO p x rest s e with Stop c o => Some (Stop c o) | Go (rest, s, e) => LP p f' qs rest s e end end
       /\ match l' with [] => Some (Stop 1 (s_opened s)) | x :: rest => match CO p x rest s e with Stop c o => Some (Stop c o) | Go (rest, s, e) => LP p f qs rest s e end end <> None).
    { intros qs' l' s' e' Ll. destruct l' as [|x rest]; [split; [reflexivity|discriminate]|].
      destruct (CO p x rest s' e') as [[[r s1] e1]|c o] eqn:C; [|split; [reflexivity|discriminate]].
      apply consume_optional_length in C. cbn in Ll. apply IH; lia. }
    destruct l as [|x l]; [split; [reflexivity|discriminate]|].
    destruct (is_opt x) eqn:O; [exact (STEP qs (x :: l) s e ltac:(lia))|].
    destruct (CP p qs (x :: l) s) as [[[qs1 r] s1]|c o] eqn:C; [|split; [reflexivity|discriminate]].
    destruct (Nat.ltb_spec (length r) (length (x :: l))) as [Hl|Hl].
    - cbn in L, L', Hl. apply IH; lia.
    - apply STEP. pose proof (consume_positionals_length _ _ _ _ _ _ _ C).
      pose proof (span_length _ (fun x => negb (is_opt x)) r). cbn [length] in *. lia.
  Qed.

  (** the loop with the fuel [parse_args] gives it *)
  Definition rn p qs l s e := LP p (S (length l)) qs l s e.

  Lemma rn_opt : forall p qs x rest s e, is_opt x = true ->
    rn p qs (x :: rest) s e = match CO p x rest s e with Stop c o => Some (Stop c o) | Go (r, s, e) => rn p qs r s e end.
  Proof.
    intros p qs x rest s e O. unfold rn at 1. cbn [loop]. cbn [existsb]. rewrite O. cbn [orb].
    destruct (CO p x rest s e) as [[[r s1] e1]|c o] eqn:C; [|reflexivity].
    apply consume_optional_length in C. unfold rn. apply loop_fuel; cbn [length]; lia.
  Qed.

  Lemma rn_end : forall p qs l s e, existsb is_opt l = false ->
    rn p qs l s e = Some (andthen (CP p qs l s) (fun r => Go (fst (fst r), snd r, (e ++ map fst (snd (fst r)))%list))).
  Proof. intros p qs l s e H. unfold rn. cbn [loop]. rewrite H. reflexivity. Qed.

  Lemma rn_pos : forall p qs x l s e, is_opt x = false -> existsb is_opt l = true ->
    rn p qs (x :: l) s e = match CP p qs (x :: l) s with
      | Stop c o => Some (Stop c o)
      | Go (qs', r, s') => if Nat.ltb (length r) (length (x :: l)) then rn p qs' r s' e
          else let sp := span (fun x => negb (is_opt x)) r in rn p qs' (snd sp) s' (e ++ map fst (fst sp))%list end.
  Proof.
    intros p qs x l s e O H. unfold rn at 1. cbn [loop]. cbn [existsb]. rewrite O, H. cbn [orb].
    destruct (CP p qs (x :: l) s) as [[[qs1 r] s1]|c o] eqn:C; [|reflexivity].
    pose proof (consume_positionals_length _ _ _ _ _ _ _ C) as CL.
    destruct (Nat.ltb_spec (length r) (length (x :: l))) as [Hl|Hl].
    - unfold rn. apply loop_fuel; cbn [length] in *; lia.
    - cbv zeta. pose proof (span_length _ (fun x => negb (is_opt x)) r) as SL.
      assert (CPsame : r = x :: l).
      { clear - C Hl. revert C Hl. generalize (x :: l) as L. intros L.
        assert (G : forall qs L s qs1 r s1, CP p qs L s = Go (qs1, r, s1) -> exists u, L = (u ++ r)%list).
        { clear. induction qs as [|q qs IH]; intros L s qs1 r s1 E; cbn in E; [injection E as _ <- _; exists []; reflexivity|].
          destruct (match_pos q L) as [[a r1]|] eqn:M; [|injection E as _ <- _; exists []; reflexivity].
          destruct (take_pos to_int to_float can_read can_write p q (map fst a) s); cbn in E; [|discriminate].
          apply IH in E. destruct E as [u ->].
          assert (Hm : exists v, L = (v ++ (u ++ r))%list).
          { clear - M. unfold match_pos in M.
            assert (SP : forall (f : string * cls -> bool) l, exists v, l = (v ++ snd (span f l))%list).
            { clear. induction l as [|x l [v IH]]; cbn; [exists []; reflexivity|]. destruct (f x); cbn; [exists (x :: v); cbn; congruence|exists []; reflexivity]. }
            destruct (SP is_dash L) as [v0 E0].
            destruct (p_n q).
            - injection M as _ M. destruct (snd (span is_dash L)) as [|x r'] eqn:SD.
              + cbn in M. rewrite <- M. rewrite app_nil_r in E0. exists L. rewrite app_nil_r. reflexivity.
              + destruct (is_arg x).
                * cbn in M. destruct (SP is_dash r') as [v1 E1]. rewrite M in E1. exists (v0 ++ x :: v1)%list.
                  rewrite <- app_assoc. cbn. congruence.
                * change (snd ([], x :: r')) with (x :: r') in M. destruct (SP is_dash (x :: r')) as [v1 E1]. rewrite M in E1.
                  exists (v0 ++ v1)%list. rewrite <- app_assoc. congruence.
            - destruct (snd (span is_dash L)) as [|x r'] eqn:SD; [discriminate|]. destruct (is_arg x); [|discriminate].
              injection M as _ M. destruct (SP (fun y => is_arg y || is_dash y) r') as [v1 E1]. rewrite M in E1.
              exists (v0 ++ x :: v1)%list. rewrite <- app_assoc. cbn. congruence. }
          destruct Hm as [v ->]. exists (v ++ u)%list. rewrite app_assoc. reflexivity. }
        intros C Hl. apply G in C. destruct C as [u ->]. rewrite app_length in Hl. destruct u; [reflexivity|cbn in Hl; lia]. }
      subst r.
      assert (EO : exists y t, snd (span (fun x => negb (is_opt x)) (x :: l)) = y :: t /\ is_opt y = true).
      { cbn [span]. rewrite O. cbn [negb snd]. clear - H. induction l as [|z l IH]; [discriminate|]. cbn in H. cbn [span].
        destruct (is_opt z) eqn:Z; cbn [negb snd]; [eauto|]. apply IH. exact H. }
      destruct EO as (y & t & EY & OY). rewrite EY in *. rewrite rn_opt by exact OY.
      destruct (CO p y t s1 _) as [[[r2 s2] e2]|c o] eqn:C2; [|reflexivity].
      apply consume_optional_length in C2. unfold rn. apply loop_fuel; cbn [length] in *; lia.
  Qed.

End P.

Section N.
  Context {X : Type}.
  Implicit Types (p : parser X).
  (** ** Names *)
  (** option [i] has the option string [n] *)
  Definition has p (n : string) (i : nat) : Prop := exists op, nth_error (pr_opts p) i = Some op /\ In n (o_names op).

  Lemma in_names : forall p n i, In (n, i) (names p) <-> has p n i.
  Proof.
    intros p n i. unfold names, has.
    assert (G : forall (l : list opt) b, In (n, i) (concat (map (fun io : nat * opt => map (fun m => (m, fst io)) (o_names (snd io))) (combine (seq b (length l)) l)))
                <-> exists op, (b <= i)%nat /\ nth_error l (i - b) = Some op /\ In n (o_names op)).
    { induction l as [|o l IH]; intros b.
      - cbn. split; [tauto|]. intros (op & _ & H & _). destruct (i - b)%nat; discriminate.
      - cbn [length seq combine map concat fst snd]. rewrite in_app_iff, IH, in_map_iff. split.
        + intros [(m & E & H)|(op & H1 & H2 & H3)].
          * injection E as -> <-. exists o. rewrite Nat.sub_diag. cbn. auto with arith.
          * exists op. split; [lia|]. replace (i - b)%nat with (S (i - S b)) by lia. auto.
        + intros (op & H1 & H2 & H3). destruct (Nat.eq_dec i b) as [->|N].
          * left. rewrite Nat.sub_diag in H2. cbn in H2. injection H2 as ->. eauto.
          * right. exists op. replace (i - b)%nat with (S (i - S b)) in H2 by lia. cbn in H2. split; [lia|auto]. }
    rewrite (G (pr_opts p) 0%nat), Nat.sub_0_r. split; intros (op & H); exists op; intuition lia.
  Qed.

  Fixpoint no_eq (s : string) : bool := match s with EmptyString => true | String c s => negb (Ascii.eqb c "=") && no_eq s end.
  (** '-c', where c is no digit, point or '=', or '--...' without '=' *)
  Definition good_name (n : string) : bool :=
    match n with
    | String d (String c tl) => Ascii.eqb d "-" &&
        if Ascii.eqb c "-" then negb (String.eqb tl "") && no_eq tl
        else String.eqb tl "" && negb (digit c) && negb (Ascii.eqb c ".") && negb (Ascii.eqb c "=")
    | _ => false
    end.
  (** what holds of the option tables of the scripts: such names, none twice;
      options and positional arguments have attributes of their own *)
  Definition stored (a : action) : list string := match a with AStore d _ _ => [d] | AFlag d _ => [d] | AQuit => [] end.
  Definition table_ok p : Prop :=
    (forall n i, has p n i -> good_name n = true) /\ NoDup (map fst (names p)) /\
    (forall op d, In op (pr_opts p) -> In d (stored (o_action op)) -> ~ In d (map p_dest (pr_pos p))) /\ NoDup (map p_dest (pr_pos p)).

  Lemma find_name_in : forall p n i, NoDup (map fst (names p)) -> In (n, i) (names p) -> find_name p n = Some i.
  Proof.
    intros p n i. unfold find_name. generalize (names p). induction l as [|[a b] l IH]; intros N H; [destruct H|].
    cbn in N. inversion N; subst. cbn. destruct H as [H|H].
    - injection H as -> ->. rewrite String.eqb_refl. reflexivity.
    - destruct (String.eqb n a) eqn:E; [|auto]. apply String.eqb_eq in E. subst a. exfalso. apply H2. apply in_map_iff. exists (n, i). auto.
  Qed.
  Lemma find_name_some : forall p n i, find_name p n = Some i -> In (n, i) (names p).
  Proof.
    intros p n i. unfold find_name. generalize (names p). induction l as [|[a b] l IH]; intros H; [discriminate|]. cbn in *.
    destruct (String.eqb n a) eqn:E; [|auto]. apply String.eqb_eq in E. left. congruence.
  Qed.
  Lemma find_name_none : forall p n, (forall i, ~ has p n i) -> find_name p n = None.
  Proof. intros p n H. destruct (find_name p n) eqn:E; [|reflexivity]. apply find_name_some, in_names in E. destruct (H _ E). Qed.

  Lemma split_eq_app : forall a b, no_eq a = true -> split_eq (a ++ "=" ++ b) = Some (a, b).
  Proof.
    induction a as [|c a IH]; intros b H; [reflexivity|]. cbn in H. apply andb_true_iff in H as [H1 H2]. apply negb_true_iff in H1.
    cbn [append split_eq]. rewrite H1. change (split_eq (a ++ String "=" b)) with (split_eq (a ++ "=" ++ b)). rewrite IH by exact H2. reflexivity.
  Qed.
  Lemma split_eq_none : forall a, no_eq a = true -> split_eq a = None.
  Proof. induction a as [|c a IH]; intros H; [reflexivity|]. cbn in *. apply andb_true_iff in H as [H1 H2]. apply negb_true_iff in H1. rewrite H1, IH; auto. Qed.
  Lemma split_eq_some : forall (s : string) a b, split_eq s = Some (a, b) -> s = a ++ "=" ++ b.
  Proof.
    induction s as [|c s IH]; intros a b H; [discriminate|]. cbn in H. destruct (Ascii.eqb c "=") eqn:E.
    - injection H as <- <-. apply Ascii.eqb_eq in E. subst c. reflexivity.
    - destruct (split_eq s) as [[a' b']|]; [|discriminate]. injection H as <- <-. rewrite (IH a' b' eq_refl). reflexivity.
  Qed.
  Lemma no_eq_app : forall a b, no_eq (a ++ b) = no_eq a && no_eq b.
  Proof. induction a as [|c a IH]; intros b; [reflexivity|]. cbn. rewrite IH, andb_assoc. reflexivity. Qed.
  Lemma good_no_eq : forall n, good_name n = true -> no_eq n = true.
  Proof.
    intros [|d [|c tl]] H; try discriminate. cbn in H. apply andb_true_iff in H as [Hd H]. apply Ascii.eqb_eq in Hd. subst d. cbn.
    destruct (Ascii.eqb c "-") eqn:E.
    - apply Ascii.eqb_eq in E. subst c. apply andb_true_iff in H. cbn. apply H.
    - apply andb_true_iff in H as [H H4]. apply andb_true_iff in H as [H _]. apply andb_true_iff in H as [H _].
      apply String.eqb_eq in H. subst tl. rewrite H4. reflexivity.
  Qed.

  (** a name or the beginning of exactly one *)
  Definition abbreviates p (n full : string) : Prop :=
    (exists tl, n = "--" ++ tl /\ tl <> "") /\ no_eq n = true /\ (forall i, ~ has p n i) /\
    prefix n full = true /\ (forall n' j, has p n' j -> prefix n n' = true -> n' = full).
  Definition called p (n : string) (i : nat) : Prop := has p n i \/ exists full, has p full i /\ abbreviates p n full.

  Lemma filter_single : forall (l : list (string * nat)) (f : string * nat -> bool) x, NoDup (map fst l) -> In x l -> f x = true ->
    (forall y, In y l -> f y = true -> fst y = fst x) -> filter f l = [x].
  Proof.
    induction l as [|y l IH]; intros f x N I F U; [destruct I|]. cbn in N. inversion N as [|? ? N1 N2]; subst. cbn.
    destruct I as [->|I].
    - rewrite F. f_equal.
      assert (Z : forall l', (forall y, In y l' -> f y = false) -> filter f l' = []).
      { clear. induction l' as [|y l' IH]; intros H; [reflexivity|]. cbn. rewrite (H y (or_introl eq_refl)). apply IH. intros z Hz. apply H. right. exact Hz. }
      apply Z. intros y Hy. destruct (f y) eqn:E; [|reflexivity]. exfalso. apply N1. rewrite <- (U y (or_intror Hy) E). apply in_map. exact Hy.
    - destruct (f y) eqn:E.
      + exfalso. apply N1. rewrite (U y (or_introl eq_refl) E). apply in_map. exact I.
      + apply IH; auto. intros z Hz. apply U. right. exact Hz.
  Qed.

  (** an argument that does not look like an option *)
  Definition plain (a : string) : Prop :=
    match a with
    | String d tl => d <> "-"%char \/ tl = "" \/ negative_number a = true
    | EmptyString => True
    end.

  Lemma plain_not_dashes : forall a, plain a -> a <> "--".
  Proof. intros a H ->. cbn in H. destruct H as [H|[H|H]]; try congruence. vm_compute in H. discriminate. Qed.

  Lemma negative_shape : forall (s : string), negative_number s = true -> exists c tl, s = String "-" (String c tl) /\ (digit c = true \/ c = "."%char).
  Proof.
    intros [|d s] H; [discriminate|]. cbn in H. apply andb_true_iff in H as [Hd H]. apply Ascii.eqb_eq in Hd. subst d.
    destruct s as [|c tl]; [vm_compute in H; discriminate|]. exists c, tl. split; [reflexivity|].
    assert (G : forall w, chomp (String c tl) = w -> w = "" \/ exists w', w = String c w').
    { intros w <-. cbn. destruct tl; [destruct (Ascii.eqb c "010"); [left; reflexivity|right; eexists; reflexivity]|right; eexists; reflexivity]. }
    destruct (G _ eq_refl) as [E|[w' E]]; rewrite E in H; [vm_compute in H; discriminate|].
    apply orb_true_iff in H as [H|H].
    - cbn in H. apply andb_true_iff in H. left. apply H.
    - cbn in H. destruct (Ascii.eqb c ".") eqn:EC; [right; apply Ascii.eqb_eq; exact EC|]. apply andb_true_iff in H. left. apply H.
  Qed.

  Lemma negative_no_eq : forall (s : string), negative_number s = true -> no_eq s = true.
  Proof.
    assert (D : forall s : string, digits s = true -> no_eq s = true).
    { induction s as [|c s IH]; intros H; [reflexivity|]. cbn in H. apply andb_true_iff in H as [H1 H2]. cbn. rewrite IH by exact H2.
      destruct (Ascii.eqb c "=") eqn:E; [|reflexivity]. apply Ascii.eqb_eq in E. subst c. vm_compute in H1. discriminate. }
    assert (F : forall s : string, fraction s = true -> no_eq s = true).
    { induction s as [|c s IH]; intros H; [reflexivity|]. cbn in H. cbn. destruct (Ascii.eqb c ".") eqn:E.
      - apply Ascii.eqb_eq in E. subst c. cbn. destruct s; [discriminate|]. apply D. exact H.
      - apply andb_true_iff in H as [H1 H2]. rewrite IH by exact H2.
        destruct (Ascii.eqb c "=") eqn:E2; [|reflexivity]. apply Ascii.eqb_eq in E2. subst c. vm_compute in H1. discriminate. }
    assert (C : forall s : string, no_eq (chomp s) = true -> no_eq s = true).
    { induction s as [|c s IH]; intros H; [reflexivity|]. destruct s as [|c' s'].
      - cbn in H. destruct (Ascii.eqb c "010") eqn:E; [apply Ascii.eqb_eq in E; subst c; reflexivity|exact H].
      - change (chomp (String c (String c' s'))) with (String c (chomp (String c' s'))) in H.
        cbn [no_eq] in H. apply andb_true_iff in H as [H1 H2]. specialize (IH H2). cbn [no_eq]. rewrite H1. exact IH. }
    intros [|d s] H; [reflexivity|]. cbn in H. apply andb_true_iff in H as [Hd H]. apply Ascii.eqb_eq in Hd. subst d. cbn.
    apply C. apply orb_true_iff in H as [H|H]; [apply andb_true_iff in H; apply D, H|apply F, H].
  Qed.

  Lemma good_second : forall d c tl, good_name (String d (String c tl)) = true ->
    d = "-"%char /\ (c = "-"%char /\ tl <> "" \/ c <> "-"%char /\ tl = "" /\ digit c = false /\ c <> "."%char /\ c <> "="%char).
  Proof.
    intros d c tl H. cbn in H. apply andb_true_iff in H as [Hd H]. apply Ascii.eqb_eq in Hd. split; [exact Hd|].
    destruct (Ascii.eqb c "-") eqn:E.
    - left. apply Ascii.eqb_eq in E. apply andb_true_iff in H as [H _]. split; [exact E|]. intros ->. discriminate.
    - right. apply andb_true_iff in H as [H H4]. apply andb_true_iff in H as [H H3]. apply andb_true_iff in H as [H H2].
      apply Ascii.eqb_neq in E. apply String.eqb_eq in H. apply negb_true_iff in H2, H3, H4. apply Ascii.eqb_neq in H3, H4. auto 6.
  Qed.

  (** strings '-cx...' with c no dash are no option strings *)
  Lemma glued_no_name : forall p c x tl i, table_ok p -> c <> "-"%char -> ~ has p (String "-" (String c (String x tl))) i.
  Proof.
    intros p c x tl i (G & _) N H. apply G in H. apply good_second in H as [_ [[H _]|(_ & H & _)]]; [auto|discriminate].
  Qed.

  Lemma classify_plain : forall p a, table_ok p -> plain a -> classify p a = Some KArg.
  Proof.
    intros p a W H. destruct a as [|d tl]; [reflexivity|]. cbn [plain] in H. unfold classify.
    destruct (Ascii.eqb d "-") eqn:E; cbn [negb]; [|reflexivity]. apply Ascii.eqb_eq in E. subst d.
    destruct H as [H|[H|H]]; [congruence| |].
    - subst tl. rewrite find_name_none; [reflexivity|]. intros i Hi. apply (proj1 W) in Hi. discriminate.
    - pose proof (negative_no_eq _ H) as NE. pose proof H as H'. apply negative_shape in H as (c & t & E & D). injection E as ->.
      assert (Nd : c <> "-"%char) by (intros ->; destruct D as [D|D]; [vm_compute in D|]; discriminate).
      rewrite find_name_none.
      2:{ intros i Hi. apply (proj1 W) in Hi. apply good_second in Hi as [_ [[Hi _]|(_ & _ & Hi & Hp & _)]]; [auto|]. destruct D; congruence. }
      cbn [String.eqb]. rewrite split_eq_none by exact NE.
      assert (OT : option_tuples p (String "-" (String c t)) = []).
      { cbn [option_tuples]. rewrite (proj2 (Ascii.eqb_neq _ _) Nd).
        assert (Z : forall (l : list (string * nat)), (forall n i, In (n, i) l -> good_name n = true) ->
          concat (map (fun ni => if String.eqb (fst ni) (String "-" (String c "")) then [KOpt (Some (snd ni)) (fst ni) (Some t)]
                                 else if prefix (String "-" (String c t)) (fst ni) then [KOpt (Some (snd ni)) (fst ni) None] else []) l) = []).
        { clear - D Nd. induction l as [|[n i] l IH]; intros H; [reflexivity|]. cbn [map concat fst snd].
          rewrite IH by (intros; eapply H; right; eauto). specialize (H n i (or_introl eq_refl)).
          destruct n as [|d [|c' tl]]; try discriminate. apply good_second in H as [-> [[-> H2]|(H1 & -> & H3 & H4 & H5)]].
          - replace (String.eqb (String "-" (String "-" tl)) (String "-" (String c ""))) with false.
            2:{ symmetry. apply String.eqb_neq. congruence. }
            cbn [prefix]. destruct (ascii_dec "-" "-"); [|reflexivity]. destruct (ascii_dec c "-"); [congruence|reflexivity].
          - assert (c <> c') by (intros ->; destruct D; congruence).
            replace (String.eqb (String "-" (String c' "")) (String "-" (String c ""))) with false.
            2:{ symmetry. apply String.eqb_neq. congruence. }
            cbn [prefix]. destruct (ascii_dec "-" "-"); [|reflexivity]. destruct (ascii_dec c c'); [congruence|reflexivity]. }
        apply Z. intros n i Hn. apply in_names in Hn. eapply (proj1 W); eauto. }
      rewrite OT, H'. reflexivity.
  Qed.

  Lemma classify_called : forall p n i, table_ok p -> called p n i -> exists full, classify p n = Some (KOpt (Some i) full None) /\ has p full i.
  Proof.
    intros p n i W [H|(full & Hf & (tl & -> & NT) & NE & NN & PF & U)].
    - exists n. split; [|exact H]. pose proof (proj1 W _ _ H) as G. destruct n as [|d tl]; [discriminate|]. unfold classify.
      assert (d = "-"%char) by (destruct tl; [discriminate|]; apply good_second in G; tauto). subst d. cbn [Ascii.eqb negb].
      change (negb (Ascii.eqb "-" "-")) with false. cbv iota.
      rewrite (find_name_in _ _ i (proj1 (proj2 W)) (proj2 (in_names _ _ _) H)). reflexivity.
    - exists full. split; [|exact Hf]. unfold classify. cbn [append]. change (negb (Ascii.eqb "-" "-")) with false. cbv iota.
      change (String "-" (String "-" tl)) with ("--" ++ tl). rewrite (find_name_none p _ NN).
      cbn [String.eqb]. rewrite split_eq_none by exact NE.
      assert (OT : option_tuples p ("--" ++ tl) = [KOpt (Some i) full None]).
      { cbn [append option_tuples]. change (Ascii.eqb "-" "-") with true. cbv iota.
        change (String "-" (String "-" tl)) with ("--" ++ tl). rewrite split_eq_none by exact NE. cbn [fst snd].
        rewrite (filter_single (names p) (fun ni => prefix ("--" ++ tl) (fst ni)) (full, i)); [reflexivity|apply W|apply in_names; exact Hf|exact PF|].
        intros [n' j] Hn Hp. cbn in *. apply (U n' j); [apply in_names; exact Hn|exact Hp]. }
      rewrite OT. reflexivity.
  Qed.

  Lemma has_shape : forall p n i, table_ok p -> has p n i -> exists c tl, n = String "-" (String c tl).
  Proof.
    intros p n i W H. apply (proj1 W) in H. destruct n as [|d [|c tl]]; try discriminate.
    apply good_second in H as [-> _]. eauto.
  Qed.

  Lemma called_shape : forall p n i, table_ok p -> called p n i -> exists c tl, n = String "-" (String c tl) /\ no_eq n = true /\ n <> "--".
  Proof.
    intros p n i W [H|(full & Hf & (tl & -> & NT) & NE & _)].
    - destruct (has_shape _ _ _ W H) as (c & tl & E). exists c, tl. split; [exact E|]. split; [apply good_no_eq; eapply (proj1 W); eauto|].
      intros ->. apply (proj1 W) in H. discriminate.
    - exists "-"%char, tl. split; [reflexivity|]. split; [exact NE|]. destruct tl; [congruence|discriminate].
  Qed.

  Lemma classify_eq : forall p n i a, table_ok p -> called p n i -> exists full, classify p (n ++ "=" ++ a) = Some (KOpt (Some i) full (Some a)) /\ has p full i.
  Proof.
    intros p n i a W C. destruct (called_shape _ _ _ W C) as (c & tl & EN & NE & _).
    assert (NF : find_name p (n ++ "=" ++ a) = None).
    { apply find_name_none. intros j Hj. apply (proj1 W), good_no_eq in Hj. rewrite no_eq_app in Hj. apply andb_true_iff in Hj as [_ Hj]. discriminate. }
    assert (SE := split_eq_app n a NE).
    assert (CL : classify p (n ++ "=" ++ a) = match find_name p n with Some i => Some (KOpt (Some i) n (Some a)) | None =>
        match option_tuples p (n ++ "=" ++ a) with [k] => Some k | _ :: _ :: _ => None
        | [] => if negative_number (n ++ "=" ++ a) then Some KArg else if has_space (n ++ "=" ++ a) then Some KArg else Some (KOpt None (n ++ "=" ++ a) None) end end).
    { rewrite EN in *. unfold classify. cbn [append] in *. change (negb (Ascii.eqb "-" "-")) with false. cbv iota. rewrite NF. cbn [String.eqb].
      rewrite SE. destruct (find_name p (String "-" (String c tl))); reflexivity. }
    rewrite CL. destruct C as [H|(full & Hf & (tl' & EN' & NT) & _ & NN & PF & U)].
    - exists n. split; [|exact H]. rewrite (find_name_in _ _ i (proj1 (proj2 W)) (proj2 (in_names _ _ _) H)). reflexivity.
    - exists full. split; [|exact Hf]. rewrite (find_name_none p _ NN).
      assert (OT : option_tuples p (n ++ "=" ++ a) = [KOpt (Some i) full (Some a)]).
      { rewrite EN' in *. cbn [append option_tuples] in *. change (Ascii.eqb "-" "-") with true. cbv iota.
        rewrite SE. cbn [fst snd].
        rewrite (filter_single (names p) (fun ni => prefix (String "-" (String "-" tl')) (fst ni)) (full, i)); [reflexivity|apply W|apply in_names; exact Hf|exact PF|].
        intros [n' j] Hn Hp. cbn in *. apply (U n' j); [apply in_names; exact Hn|exact Hp]. }
      rewrite OT. reflexivity.
  Qed.

  Lemma classify_glue : forall p c i a, table_ok p -> has p (String "-" (String c "")) i -> a <> "" -> (forall a', a <> String "=" a') ->
    classify p (String "-" (String c a)) = Some (KOpt (Some i) (String "-" (String c "")) (Some a)).
  Proof.
    intros p c i a W H NA NQ. pose proof (proj1 W _ _ H) as G. apply good_second in G as [_ [[_ G]|(Nc & _ & Dc & Pc & Qc)]]; [congruence|].
    destruct a as [|x a']; [congruence|].
    unfold classify. change (negb (Ascii.eqb "-" "-")) with false. cbv iota.
    rewrite find_name_none by (intros j; apply glued_no_name; assumption). cbn [String.eqb].
    assert (SP : match split_eq (String "-" (String c (String x a'))) with Some (a0, b) => match find_name p a0 with Some i0 => Some (KOpt (Some i0) a0 (Some b)) | None => None end | None => None end = None).
    { destruct (split_eq (String "-" (String c (String x a')))) as [[u v]|] eqn:SE; [|reflexivity].
      apply split_eq_some in SE. rewrite find_name_none; [reflexivity|]. intros j Hj.
      destruct (has_shape _ _ _ W Hj) as (c' & tl & EU). rewrite EU in *. cbn [append] in SE. injection SE as <- SE.
      destruct tl as [|y tl]; [|apply (glued_no_name p c y tl j W Nc Hj)].
      cbn [append] in SE. injection SE as Ex _. subst x. eapply NQ. reflexivity. }
    rewrite SP.
    assert (OT : option_tuples p (String "-" (String c (String x a'))) = [KOpt (Some i) (String "-" (String c "")) (Some (String x a'))]).
    { cbn [option_tuples]. rewrite (proj2 (Ascii.eqb_neq _ _) Nc).
      assert (Z : forall (l : list (string * nat)), (forall n i, In (n, i) l -> good_name n = true) ->
          concat (map (fun ni => if String.eqb (fst ni) (String "-" (String c "")) then [KOpt (Some (snd ni)) (fst ni) (Some (String x a'))]
                                 else if prefix (String "-" (String c (String x a'))) (fst ni) then [KOpt (Some (snd ni)) (fst ni) None] else []) l)
          = map (fun ni => KOpt (Some (snd ni)) (fst ni) (Some (String x a'))) (filter (fun ni => String.eqb (fst ni) (String "-" (String c ""))) l)).
      { clear - Nc. induction l as [|[n j] l IH]; intros H; [reflexivity|]. cbn [map concat fst snd filter].
        rewrite IH by (intros; eapply H; right; eauto). specialize (H n j (or_introl eq_refl)).
        destruct (String.eqb n (String "-" (String c ""))) eqn:E; [reflexivity|].
        destruct n as [|d [|c' tl]]; try discriminate. apply good_second in H as [-> [[-> H2]|(H1 & -> & _)]].
        - cbn [prefix]. destruct (ascii_dec "-" "-"); [|reflexivity]. destruct (ascii_dec c "-"); [congruence|reflexivity].
        - cbn [prefix]. destruct (ascii_dec "-" "-"); [|reflexivity]. destruct (ascii_dec c c'); reflexivity. }
      rewrite Z by (intros n j Hn; apply in_names in Hn; eapply (proj1 W); eauto).
      rewrite (filter_single (names p) _ (String "-" (String c ""), i)); [reflexivity|apply W|apply in_names; exact H|apply String.eqb_refl|].
      intros [n' j] _ Hp. cbn in *. apply String.eqb_eq. exact Hp. }
    rewrite OT. reflexivity.
  Qed.
End N.
