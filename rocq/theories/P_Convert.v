(** * Lemmas about text *)
From Coq Require Import Decimal Ascii String List ZArith NArith Bool Lia DecimalNat.
From Verif Require Import M_Py P_Py M_Convert.
Import ListNotations.

Lemma text_eqb_eq : forall a b, text_eqb a b = true <-> a = b.
Proof.
  induction a as [|x a IH]; intros [|y b]; cbn; split; intros H; try congruence; auto.
  - apply andb_true_iff in H. destruct H as [H1 H2]. apply N.eqb_eq in H1. apply IH in H2. congruence.
  - inversion H; subst. rewrite N.eqb_refl. apply IH. auto.
Qed.
Lemma prefixb_ok : forall p s, prefixb p s = true <-> exists r, s = p ++ r.
Proof.
  induction p as [|x p IH]; intros s; cbn; [split; eauto|]. destruct s as [|y s].
  - split; [discriminate|]. intros [r H]. discriminate.
  - rewrite andb_true_iff, N.eqb_eq, IH. split.
    + intros [-> [r ->]]. eauto.
    + intros [r H]. inversion H; subst. eauto.
Qed.

Lemma split_skip : forall sep k s cur, k <= List.length s -> split_go sep k cur s = split_go sep 0 cur (skipn k s).
Proof.
  intros sep k s. revert k. induction s as [|c s IH]; intros [|k] cur H; cbn [List.length] in H; try lia; auto.
  cbn [split_go skipn]. apply IH. lia.
Qed.
Lemma split_nonempty : forall sep s k cur, split_go sep k cur s <> [].
Proof. induction s as [|c s IH]; intros k cur; cbn [split_go]; [discriminate|]. destruct k; auto. destruct (prefixb sep (c :: s)); [discriminate|auto]. Qed.

Lemma join_cons : forall sep x l, l <> [] -> join sep (x :: l) = x ++ sep ++ join sep l.
Proof. intros sep x [|y l] H; [congruence|]. auto. Qed.

Lemma join_split_go : forall sep, sep <> [] -> forall n s cur, List.length s <= n -> join sep (split_go sep 0 cur s) = rev cur ++ s.
Proof.
  intros sep Hs. induction n as [|n IH]; intros s cur H.
  - destruct s; [|cbn in H; lia]. cbn. rewrite app_nil_r. auto.
  - destruct s as [|c s]; [cbn; rewrite app_nil_r; auto|]. cbn [split_go]. destruct (prefixb sep (c :: s)) eqn:E.
    + rewrite join_cons by apply split_nonempty. f_equal. apply prefixb_ok in E. destruct E as [r E].
      destruct sep as [|x sep]; [congruence|]. cbn [app] in E. inversion E; subst x s. cbn [List.length]. replace (S (List.length sep) - 1) with (List.length sep) by lia.
      rewrite split_skip by (rewrite app_length; lia). rewrite skipn_app, skipn_all, Nat.sub_diag. cbn [skipn app].
      rewrite IH by (cbn [List.length] in H; rewrite app_length in H; lia). auto.
    + rewrite IH by (cbn in H; lia). cbn [rev]. rewrite <- app_assoc. auto.
Qed.
Lemma join_split : forall sep s, sep <> [] -> join sep (split sep s) = s.
Proof. intros sep s H. unfold split. rewrite (join_split_go sep H (List.length s)); auto. Qed.

Lemma split_char_go : forall c s cur, ~ In c cur -> Forall (fun p => ~ In c p) (split_go [c] 0 cur s).
Proof.
  intros c. induction s as [|x s IH]; intros cur H; cbn [split_go].
  - constructor; auto. rewrite <- in_rev. auto.
  - cbn [prefixb]. destruct (N.eqb_spec c x) as [E|E]; cbn [andb].
    + constructor; [rewrite <- in_rev; auto|]. apply IH. intros [].
    + apply IH. intros [C|C]; auto.
Qed.
Lemma split_char : forall c s, Forall (fun p => ~ In c p) (split [c] s).
Proof. intros. apply split_char_go. intros []. Qed.

Lemma split_piece : forall c x cur s, ~ In c x -> split_go [c] 0 cur (x ++ s) = split_go [c] 0 (rev x ++ cur) s.
Proof.
  intros c. induction x as [|a x IH]; intros cur s H; auto. cbn [app split_go prefixb].
  destruct (N.eqb_spec c a) as [E|E]; [exfalso; apply H; left; auto|]. cbn [andb]. rewrite IH by (intros C; apply H; right; auto).
  cbn [rev]. rewrite <- app_assoc. auto.
Qed.
Lemma split_join : forall c l, l <> [] -> Forall (fun p => ~ In c p) l -> split [c] (join [c] l) = l.
Proof.
  intros c l Hne HF. unfold split. induction HF as [|x l Hx HF IH]; [congruence|]. destruct l as [|y l].
  - cbn [join]. rewrite <- (app_nil_r x) at 1. rewrite split_piece by auto. cbn. rewrite app_nil_r, rev_involutive. auto.
  - rewrite join_cons by discriminate. rewrite split_piece by auto. rewrite app_nil_r. cbn [app split_go prefixb]. rewrite N.eqb_refl. cbn [andb Nat.sub List.length].
    rewrite rev_involutive. f_equal. apply IH. discriminate.
Qed.
Lemma split_nil_free : forall c s, ~ In c s -> split [c] s = [s].
Proof. intros c s H. unfold split. rewrite <- (app_nil_r s) at 1. rewrite split_piece by auto. cbn. rewrite app_nil_r, rev_involutive. auto. Qed.

(** pieces are parts of the text *)
Lemma split_incl : forall sep s p x, sep <> [] -> In p (split sep s) -> In x p -> In x s.
Proof.
  intros sep s p x Hs Hp Hx. rewrite <- (join_split sep s Hs). revert Hp. generalize (split sep s). induction l as [|y l IH]; [intros []|]; intros [->|Hp].
  - destruct l; [auto|]. rewrite join_cons by discriminate. apply in_or_app. auto.
  - destruct l as [|z l]; [destruct Hp|]. rewrite join_cons by discriminate. apply in_or_app. right. apply in_or_app. right. auto.
Qed.

Definition newline (c : N) : Prop := c = 13%N \/ c = 10%N.
Lemma rstrip_spec : forall s, exists e, s = rstrip s ++ e /\ Forall newline e /\ forall x c, newline c -> rstrip s <> x ++ [c].
Proof.
  assert (HN : forall x (c : N), [] <> x ++ [c]) by (intros [|y x] c; discriminate).
  induction s as [|c s [e [E [HF HL]]]]; [exists []; split; [|split]; auto|]. cbn [rstrip].
  destruct (rstrip s) as [|a r] eqn:Er.
  - cbn in E. subst s. destruct (N.eqb_spec c 13) as [->|E1]; [|destruct (N.eqb_spec c 10) as [->|E2]]; cbn [orb].
    + exists (13%N :: e). split; [|split]; auto. constructor; auto. left; auto.
    + exists (10%N :: e). split; [|split]; auto. constructor; auto. right; auto.
    + exists e. split; [|split]; auto. intros x d Hd C. destruct x as [|y [|z x]]; inversion C; subst. destruct Hd; congruence.
  - exists e. split; [rewrite E at 1; auto|]. split; auto. intros x d Hd C. destruct x as [|y x]; [inversion C|]. inversion C. eapply HL; eauto.
Qed.
Lemma rstrip_incl : forall s x, In x (rstrip s) -> In x s.
Proof. intros s x H. destruct (rstrip_spec s) as [e [E _]]. rewrite E. apply in_or_app. auto. Qed.

Lemma item_ok : forall A (l : list A) k x, item l k = Ok x <-> nth_error l k = Some x.
Proof. intros. apply np_get_nat. Qed.
Lemma lookup_ok : forall A (d : dict text A) k v, lookup d k = Ok v -> In (k, v) d.
Proof.
  intros A d k v H. unfold lookup in H. induction d as [|[k' v'] d IH]; cbn in H; [discriminate|].
  destruct (text_eqb k k') eqn:E; [apply text_eqb_eq in E; inversion H; subst; left; auto|right; auto].
Qed.
Lemma lookup_in : forall A (d : dict text A) k v, NoDup (map fst d) -> In (k, v) d -> lookup d k = Ok v.
Proof.
  intros A d k v N H. unfold lookup. induction d as [|[k' v'] d IH]; cbn in *; [contradiction|]. apply NoDup_cons_iff in N. destruct N as [N1 N2].
  destruct H as [H|H]; [inversion H; subst; assert (text_eqb k k = true) as -> by (apply text_eqb_eq; auto); auto|].
  destruct (text_eqb k k') eqn:E; [apply text_eqb_eq in E; subst; exfalso; apply N1; apply (in_map fst) in H; auto|auto].
Qed.
Lemma lookup_raise : forall A (d : dict text A) k e, lookup d k = Raise e -> e = KeyError /\ ~ In k (map fst d).
Proof.
  intros A d k e H. unfold lookup in H. destruct (dict_get text_eqb d k) eqn:E; [discriminate|]. inversion H. split; auto. clear H.
  induction d as [|[k' v'] d IH]; cbn in *; [auto|]. destruct (text_eqb k k') eqn:E'; [discriminate|].
  intros [->|C]; [|apply IH; auto]. assert (text_eqb k k = true) by (apply text_eqb_eq; auto). congruence.
Qed.

(** decimal numbers consist of digits *)
Lemma of_uint_digits : forall d, Forall (fun c => digit c = true) (of_uint d).
Proof. induction d; constructor; auto. Qed.
Lemma dec_digits : forall n, Forall (fun c => digit c = true) (dec n).
Proof. intros. apply of_uint_digits. Qed.
Lemma dec_free : forall n c, digit c = false -> ~ In c (dec n).
Proof. intros n c H C. pose proof (dec_digits n) as D. rewrite Forall_forall in D. rewrite (D c C) in H. discriminate. Qed.

(** an instance of [int_of]: white space around, a sign, digits *)
Fixpoint lstrip (s : text) : text :=
  match s with c :: s' => if N.eqb c 32 || N.leb 9 c && N.leb c 13 then lstrip s' else s | [] => [] end.
Fixpoint to_uint (s : text) : option uint :=
  match s with
  | [] => Some Nil
  | c :: s => match to_uint s with
              | None => None
              | Some d => match (c - 48)%N, digit c with
                          | 0%N, true => Some (D0 d) | 1%N, true => Some (D1 d) | 2%N, true => Some (D2 d) | 3%N, true => Some (D3 d)
                          | 4%N, true => Some (D4 d) | 5%N, true => Some (D5 d) | 6%N, true => Some (D6 d) | 7%N, true => Some (D7 d)
                          | 8%N, true => Some (D8 d) | 9%N, true => Some (D9 d) | _, _ => None end
              end
  end.
Definition unsigned (s : text) : res Z :=
  match s with [] => Raise ValueError | _ => match to_uint s with Some d => Ok (Z.of_nat (Nat.of_uint d)) | None => Raise ValueError end end.
Definition int10 (s : text) : res Z :=
  match rev (lstrip (rev (lstrip s))) with
  | c :: s => if N.eqb c 45 then do z <- unsigned s; Ok (- z)%Z else if N.eqb c 43 then unsigned s else unsigned (c :: s)
  | [] => Raise ValueError
  end.
Lemma to_uint_of : forall d, to_uint (of_uint d) = Some d.
Proof. induction d; cbn [of_uint to_uint]; auto; rewrite IHd; reflexivity. Qed.
Lemma lstrip_digits : forall s, Forall (fun c => digit c = true) s -> lstrip s = s.
Proof.
  intros [|c s] H; auto. inversion H; subst. cbn [lstrip]. unfold digit in H2. apply andb_true_iff in H2. destruct H2 as [H1 H2].
  apply N.leb_le in H1. apply N.leb_le in H2. assert (N.eqb c 32 = false) as -> by (apply N.eqb_neq; lia).
  assert (N.leb c 13 = false) as -> by (apply N.leb_gt; lia). rewrite andb_false_r. auto.
Qed.
Lemma to_uint_nonnil : forall n, Nat.to_uint n <> Nil.
Proof.
  intros n C. destruct n; [discriminate|]. assert (H : Nat.of_uint (Nat.to_uint (S n)) = S n) by apply Unsigned.of_to. rewrite C in H. discriminate.
Qed.
Lemma int10_dec : forall n, int10 (dec n) = Ok (Z.of_nat n).
Proof.
  intros n. unfold int10. pose proof (dec_digits n) as D. rewrite (lstrip_digits _ D). rewrite (lstrip_digits (rev (dec n))) by (apply Forall_rev; auto).
  rewrite rev_involutive. assert (E : unsigned (dec n) = Ok (Z.of_nat n)).
  { unfold unsigned, dec. pose proof (to_uint_nonnil n) as Hn. destruct (of_uint (Nat.to_uint n)) eqn:Eu; [destruct (Nat.to_uint n); discriminate || congruence|].
    rewrite <- Eu, to_uint_of, Unsigned.of_to. auto. }
  destruct (dec n) as [|c s]; auto. inversion D; subst. unfold digit in H1. apply andb_true_iff in H1. destruct H1 as [H1 H1'].
  apply N.leb_le in H1. apply N.leb_le in H1'. destruct (N.eqb_spec c 45); [lia|]. destruct (N.eqb_spec c 43); [lia|]. auto.
Qed.
