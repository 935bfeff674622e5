(** * Proofs about the data containers *)
From Coq Require Import List ZArith Lia Bool Sorted Permutation.
From Verif Require Import M_Py P_Py M_Data Spec.
Import ListNotations.

Definition U (ot : list nat) (t : nat) (rows : list (list ext_id)) : list ext_id :=
  np_unique idcmp (type_entries ot t rows).

Definition enc1 (ot : list nat) (base : list (list ext_id)) (tx : nat * ext_id) : Z :=
  Z.of_nat (pos (snd tx) (U ot (fst tx) base)).

Definition enc (ot : list nat) (base : list (list ext_id)) (row : list ext_id) : list Z :=
  map (enc1 ot base) (combine ot row).

Lemma U_sorted : forall ot t rows, ssorted idcmp (U ot t rows).
Proof. intros; apply np_unique_sorted, idcmp_laws. Qed.

Lemma U_nodup : forall ot t rows, NoDup (U ot t rows).
Proof. intros; eapply ssorted_NoDup; [apply idcmp_laws | apply U_sorted]. Qed.

Lemma bselect_mask_in : forall A ot t (row : list A) x,
  In x (bselect (otype_mask ot t) row) <-> In (t, x) (combine ot row).
Proof.
  induction ot as [|t' ot IH]; intros t [|y row] x; simpl; try tauto.
  destruct (Nat.eqb t' t) eqn:E; simpl; rewrite IH.
  - apply Nat.eqb_eq in E; subst. split; intros [H|H]; auto; [subst; auto | inversion H; auto].
  - apply Nat.eqb_neq in E. split; auto. intros [H|H]; auto. inversion H; congruence.
Qed.

Lemma combine_nth_in : forall A B (l : list A) (l' : list B) a b,
  In (a, b) (combine l l') <-> exists e, nth_error l e = Some a /\ nth_error l' e = Some b.
Proof.
  intros; split.
  - intros H. apply In_nth_error in H. destruct H as [e H]. exists e.
    rewrite nth_error_combine in H. destruct (nth_error l e), (nth_error l' e); try discriminate.
    inversion H; auto.
  - intros [e [H1 H2]]. apply nth_error_In with e. rewrite nth_error_combine, H1, H2; auto.
Qed.

Lemma type_entries_in : forall A ot t (rows : list (list A)) x,
  In x (type_entries ot t rows) <-> exists row, In row rows /\ In (t, x) (combine ot row).
Proof.
  intros. unfold type_entries. rewrite in_concat. split.
  - intros [l [H1 H2]]. apply in_map_iff in H1. destruct H1 as [row [<- H1]].
    exists row; split; auto. apply bselect_mask_in; auto.
  - intros [row [H1 H2]]. exists (bselect (otype_mask ot t) row). split.
    + apply in_map; auto.
    + apply bselect_mask_in; auto.
Qed.

Lemma type_entries_occurs : forall A ot t (rows : list (list A)) x,
  In x (type_entries ot t rows) <-> occurs ot t rows x.
Proof.
  intros. rewrite type_entries_in. unfold occurs. split.
  - intros [row [H1 H2]]. apply combine_nth_in in H2. destruct H2 as [e [H2 H3]].
    exists row, e; auto.
  - intros [row [e [H1 [H2 H3]]]]. exists row; split; auto. apply combine_nth_in; eauto.
Qed.

Lemma U_in : forall ot t rows x, In x (U ot t rows) <-> occurs ot t rows x.
Proof.
  intros. unfold U. rewrite (np_unique_in _ idcmp_laws idcmp_eq). apply type_entries_occurs.
Qed.

Lemma U_row : forall ot rows row t x, In row rows -> In (t, x) (combine ot row) ->
  In x (U ot t rows).
Proof.
  intros. apply (np_unique_in _ idcmp_laws idcmp_eq). apply type_entries_in; eauto.
Qed.

(** ** generated tables *)

Lemma gen_o_n : forall n ot rows,
  o_n (gen_objs n ot rows) = map (fun t => Z.of_nat (length (U ot t rows))) (seq 0 n).
Proof. intros; unfold gen_objs; simpl. rewrite map_map; auto. Qed.

Lemma gen_o_eid : forall n ot rows,
  o_eid (gen_objs n ot rows) = map (fun t => Some (U ot t rows)) (seq 0 n).
Proof. intros; unfold gen_objs; simpl. rewrite map_map; auto. Qed.

Lemma gen_o_iid : forall n ot rows,
  o_iid (gen_objs n ot rows) = map (fun t => Some (id_dict (U ot t rows))) (seq 0 n).
Proof. intros; unfold gen_objs; simpl. rewrite map_map; auto. Qed.

Lemma np_get_map_seq : forall A (f : nat -> A) n t, t < n ->
  np_get (map f (seq 0 n)) (Z.of_nat t) = Ok (f t).
Proof. intros. apply np_get_nat. apply nth_error_map_seq; auto. Qed.

Lemma id_dict_some : forall l x, NoDup l -> In x l ->
  dict_get id_eqb (id_dict l) x = Some (Z.of_nat (pos x l)).
Proof.
  intros. unfold id_dict. rewrite id_dict_get by auto.
  destruct (in_dec id_eq_dec x l); tauto.
Qed.

Lemma id_dict_none : forall l x, NoDup l -> ~ In x l -> dict_get id_eqb (id_dict l) x = None.
Proof.
  intros. unfold id_dict. rewrite id_dict_get by auto.
  destruct (in_dec id_eq_dec x l); tauto.
Qed.

Lemma set_entry_ok : forall n ot rows t x, t < n -> In x (U ot t rows) ->
  set_entry (gen_objs n ot rows) (t, x) = Ok (enc1 ot rows (t, x)).
Proof.
  intros. unfold set_entry. rewrite gen_o_iid. cbn [fst snd].
  rewrite np_get_map_seq by auto. simpl.
  rewrite id_dict_some by auto using U_nodup. reflexivity.
Qed.

Lemma in_combine_fst : forall A B (l : list A) (l' : list B) x, In x (combine l l') -> In (fst x) l.
Proof. intros A B l l' [a b] H; simpl. eapply in_combine_l; eauto. Qed.

Lemma set_rows_ok : forall n ot rows base, Forall (fun t => t < n) ot ->
  (forall row, In row rows -> In row base) ->
  mapM (fun row => mapM (set_entry (gen_objs n ot base)) (combine ot row)) rows
  = Ok (map (enc ot base) rows).
Proof.
  intros n ot rows base Hot Hin. apply mapM_total. intros row Hrow.
  apply mapM_total. intros [t x] Htx. apply set_entry_ok.
  - rewrite Forall_forall in Hot. apply Hot. apply in_combine_fst in Htx; auto.
  - eapply U_row; eauto.
Qed.

Lemma enc_length : forall ot base row, length row = length ot -> length (enc ot base row) = length ot.
Proof. intros. unfold enc. rewrite map_length, combine_length. lia. Qed.

(** ** container built from rows *)

Section Rep.
  Context {F G : Type}.
  Implicit Types (d : data F G).

  Definition rep d (rows : list (list ext_id)) : Prop :=
    d_objs d = gen_objs (n_otypes d) (event_otypes d) rows /\
    event d = Some (map (enc (event_otypes d) rows) rows) /\
    n_events d = length rows /\
    rect (length (event_otypes d)) rows.

  Definition types_ok d : Prop :=
    Forall (fun t => t < n_otypes d) (event_otypes d) /\ event_otypes d <> [] /\ 0 < n_otypes d.

  Lemma set_event_rep : forall d ev ef d', types_ok d -> nd_ok ev ->
    set_event d ev ef = Ok d' ->
    exists rows, ev = A2 (length (event_otypes d)) rows /\ rep d' rows /\
      n_otypes d' = n_otypes d /\ event_otypes d' = event_otypes d /\
      feature d' = feature d /\ event_feature d' = ef.
  Proof.
    intros d ev ef d' [Hot _] Hnd H. destruct ev as [v|c rows|]; simpl in H; try discriminate.
    destruct (Nat.eqb c (length (event_otypes d))) eqn:E; [|discriminate].
    apply Nat.eqb_eq in E; subst c.
    rewrite set_rows_ok in H by auto. simpl in H. inversion H; subst; clear H.
    exists rows. unfold rep; simpl. rewrite map_length. repeat split; auto.
  Qed.

  Lemma set_event_total : forall d rows ef, types_ok d ->
    exists d', set_event d (A2 (length (event_otypes d)) rows) ef = Ok d'.
  Proof.
    intros d rows ef [Hot _]. simpl. rewrite Nat.eqb_refl. rewrite set_rows_ok by auto.
    simpl. eauto.
  Qed.

  (** *** the substitution table *)

  Lemma np_put_spec : forall (ixv : list (Z * Z)) (l l' : list Z),
    (forall i v, In (i, v) ixv -> exists k, i = Z.of_nat k /\ k < length l) ->
    NoDup (map fst ixv) ->
    np_put l ixv = Ok l' ->
    length l' = length l /\
    (forall k v, In (Z.of_nat k, v) ixv -> nth_error l' k = Some v) /\
    (forall k, ~ In (Z.of_nat k) (map fst ixv) -> nth_error l' k = nth_error l k).
  Proof.
    induction ixv as [|[i v] ixv IH]; intros l l' Hr Hn H.
    - cbn in H. inversion H; subst. repeat split; auto. intros k v [].
    - cbn in H. apply bind_ok in H. destruct H as [l1 [H1 H2]].
      destruct (Hr i v) as [k0 [-> Hk0]]; [left; auto|].
      simpl in H1. rewrite np_set_nat in H1 by auto. inversion H1; subst l1; clear H1.
      simpl in Hn. inversion Hn as [|? ? Hnotin Hn']; subst.
      destruct (IH (set_nth l k0 v) l') as [A1' [A2' A3']]; auto.
      { intros j w Hj. rewrite set_nth_length. apply (Hr j w). right; auto. }
      rewrite set_nth_length in A1'. split; [auto|]. split.
      + intros k w [Hk|Hk].
        * inversion Hk as [[E1 E2]]. apply Nat2Z.inj in E1. subst.
          rewrite A3' by auto. rewrite nth_error_set_nth, Nat.eqb_refl.
          destruct (Nat.ltb_spec k (length l)); auto; lia.
        * apply A2'; auto.
      + intros k Hk. simpl in Hk. rewrite A3' by tauto. rewrite nth_error_set_nth.
        destruct (Nat.eqb_spec k k0); auto. subst. exfalso; apply Hk; auto.
  Qed.

  Lemma np_put_total : forall (ixv : list (Z * Z)) (l : list Z),
    (forall i v, In (i, v) ixv -> exists k, i = Z.of_nat k /\ k < length l) ->
    exists l', np_put l ixv = Ok l'.
  Proof.
    induction ixv as [|[i v] ixv IH]; intros l Hr.
    - exists l; reflexivity.
    - destruct (Hr i v) as [k0 [-> Hk0]]; [left; auto|].
      unfold np_put. simpl. rewrite np_set_nat by auto. simpl.
      apply IH. intros j w Hj. rewrite set_nth_length. apply (Hr j w). right; auto.
  Qed.

  Lemma gen_table_spec : forall n (sub : list nat), NoDup sub -> Forall (fun k => k < n) sub ->
    exists table, gen_table n (map Z.of_nat sub) = Ok table /\ length table = n /\
      (forall j k, nth_error sub j = Some k -> nth_error table k = Some (Z.of_nat j)) /\
      (forall k, k < n -> ~ In k sub -> nth_error table k = Some (-1)%Z).
  Proof.
    intros n sub Hn Hlt. unfold gen_table.
    set (ixv := combine _ _).
    assert (Hlen : length (map Z.of_nat sub) = length (map Z.of_nat (seq 0 (length (map Z.of_nat sub)))))
      by (rewrite !map_length, seq_length; auto).
    assert (Hr : forall i v, In (i, v) ixv -> exists k, i = Z.of_nat k /\ k < length (repeat (-1)%Z n)).
    { intros i v H. apply in_combine_l in H. apply in_map_iff in H. destruct H as [k [<- Hk]].
      exists k. rewrite repeat_length. rewrite Forall_forall in Hlt. auto. }
    assert (Hf : map fst ixv = map Z.of_nat sub) by (apply map_fst_combine; auto).
    destruct (np_put_total ixv _ Hr) as [table Ht].
    exists table. split; auto.
    destruct (np_put_spec ixv _ table Hr) as [B1 [B2 B3]]; auto.
    { rewrite Hf. apply FinFun.Injective_map_NoDup; auto. intros a b; apply Nat2Z.inj. }
    rewrite repeat_length in B1. split; auto. split.
    - intros j k Hj. apply B2. apply combine_nth_in. exists j.
      rewrite !nth_error_map, Hj. simpl. split; auto.
      rewrite nth_error_seq, map_length.
      assert (j < length sub) by (apply nth_error_Some; congruence).
      destruct (Nat.ltb_spec j (length sub)); [auto|lia].
    - intros k Hk Hnin. rewrite B3.
      + apply nth_error_repeat; auto.
      + rewrite Hf. intros H. apply in_map_iff in H. destruct H as [k' [E H]].
        apply Nat2Z.inj in E; subst; auto.
  Qed.
End Rep.
