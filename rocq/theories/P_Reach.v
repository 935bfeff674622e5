(** * Invariant of reachable containers, refinement of set_event *)
From Coq Require Import List ZArith Lia Bool Sorted Permutation.
From Verif Require Import M_Py P_Py M_Data Spec P_Data P_Filter.
Import ListNotations.

Lemma combine_map_map : forall A B C (f : A -> B) (g : A -> C) l,
  combine (map f l) (map g l) = map (fun x => (f x, g x)) l.
Proof. induction l; simpl; auto. f_equal; auto. Qed.

Section Reach.
  Context {F G : Type}.
  Implicit Types (d : data F G).

  Definition fresh d : Prop :=
    event d = None /\ n_events d = 0 /\
    d_objs d = mkObjs (repeat 0%Z (n_otypes d)) (repeat None (n_otypes d)) (repeat None (n_otypes d)).

  Definition inv d : Prop :=
    types_ok d /\ length (feature d) = n_otypes d /\ (fresh d \/ exists rows, rep d rows).

  Lemma init_cases : forall n a d, init n a = Ok d ->
    exists m ot, d = new_data m ot /\ n = Z.of_nat m /\ 0 < m /\ ot <> [] /\ Forall (fun t => t < m) ot /\
      match a with
      | OTNone => ot = seq 0 m
      | OTVec l => l = map Z.of_nat ot
      | OTBad => False
      end.
  Proof.
    intros n a d H. unfold init in H.
    destruct (n <? 1)%Z eqn:En; [discriminate|].
    assert (Hn : n = Z.of_nat (Z.to_nat n)) by lia.
    destruct a as [|l|].
    - inversion H; subst. exists (Z.to_nat n), (seq 0 (Z.to_nat n)).
      repeat split; auto; try lia.
      + intros E. assert (length (seq 0 (Z.to_nat n)) = 0) by (rewrite E; auto).
        rewrite seq_length in H0. lia.
      + apply Forall_forall. intros t Ht. apply in_seq in Ht. lia.
    - destruct l as [|x l]; [discriminate|].
      remember (x :: l) as l0.
      destruct (existsb (fun x => (x <? 0)%Z) l0 || existsb (fun x => (n <=? x)%Z) l0) eqn:E;
        [discriminate|].
      apply orb_false_iff in E. destruct E as [E1 E2].
      assert (Hr : Forall (fun x => (0 <= x < n)%Z) l0).
      { apply Forall_forall. intros y Hy.
        assert ((y <? 0)%Z = false).
        { destruct (y <? 0)%Z eqn:Ey; auto. rewrite <- E1. symmetry. apply existsb_exists; eauto. }
        assert ((n <=? y)%Z = false).
        { destruct (n <=? y)%Z eqn:Ey; auto. rewrite <- E2. symmetry. apply existsb_exists; eauto. }
        lia. }
      assert (d = new_data (Z.to_nat n) (map Z.to_nat l0)) by congruence.
      exists (Z.to_nat n), (map Z.to_nat l0). repeat split; auto; try lia.
      + subst l0; discriminate.
      + apply Forall_forall. intros t Ht. apply in_map_iff in Ht. destruct Ht as [y [<- Hy]].
        rewrite Forall_forall in Hr. specialize (Hr _ Hy). lia.
      + rewrite map_map. rewrite <- (map_id l0) at 1. apply map_ext_in. intros y Hy.
        rewrite Forall_forall in Hr. specialize (Hr _ Hy). lia.
    - discriminate.
  Qed.

  Lemma rect_select : forall c (rows sel : list (list ext_id)),
    rect c rows -> (forall r, In r sel -> In r rows) -> rect c sel.
  Proof.
    unfold rect. intros c rows sel H Hs. apply Forall_forall. intros r Hr.
    rewrite Forall_forall in H. auto.
  Qed.

  Lemma reachable_inv : forall d, reachable d -> inv d.
  Proof.
    intros d H; induction H as [n a d H | d ev ef d' H IH Hnd Hs | d c d' H IH Hf | d t ids f d' H IH Hs].
    - destruct (init_cases _ _ _ H) as [m [ot [-> [-> [Hm [Hne [Hot _]]]]]]].
      unfold inv, types_ok, fresh; simpl. rewrite repeat_length. repeat split; auto.
    - destruct IH as [Ht [Hl _]].
      destruct (set_event_rep d ev ef d' Ht Hnd Hs) as [rows [E [Hrep [E1 [E2 [E3 E4]]]]]].
      unfold inv, types_ok in *. rewrite E1, E2, E3. repeat split; try tauto. right; eauto.
    - destruct IH as [Ht [Hl Hc]]. destruct Hc as [Hfr|[rows Hrep]].
      + unfold filter_event in Hf. destruct Hfr as [Hev _]. rewrite Hev in Hf. discriminate.
      + destruct (filter_event_inv d rows c d' Ht Hl Hrep Hf) as [sel [ef' [S1 [S2 [S3 [S4 ->]]]]]].
        unfold inv, types_ok, rep in *; simpl. rewrite map_length, seq_length.
        repeat split; try tauto. right. exists sel. repeat split; auto.
        destruct Hrep as [_ [_ [_ Hr]]]. eapply rect_select; eauto.
    - unfold set_feature in Hs. apply bind_ok in Hs. destruct Hs as [[iid|] [_ Hs]]; [|discriminate].
      apply bind_ok in Hs. destruct Hs as [index [_ Hs]].
      apply bind_ok in Hs. destruct Hs as [rows [_ Hs]].
      apply bind_ok in Hs. destruct Hs as [fs [E Hs]]. inversion Hs; subst; clear Hs.
      apply np_set_length in E. unfold inv, types_ok, fresh, rep in *; simpl. rewrite E. auto.
  Qed.

  (** ** refinement of set_event by its statement-level version *)

  Definition table_len d : Prop :=
    length (o_n (d_objs d)) = n_otypes d /\ length (o_eid (d_objs d)) = n_otypes d /\
    length (o_iid (d_objs d)) = n_otypes d.

  Lemma gen_table_len : forall n ot rows,
    let o := gen_objs n ot rows in
    length (o_n o) = n /\ length (o_eid o) = n /\ length (o_iid o) = n.
  Proof.
    intros. unfold o. rewrite gen_o_n, gen_o_eid, gen_o_iid, !map_length, seq_length. auto.
  Qed.

  Lemma inv_table_len : forall d, inv d -> table_len d.
  Proof.
    intros d [_ [_ [[_ [_ Ho]] | [rows [Ho _]]]]]; unfold table_len; rewrite Ho.
    - simpl. rewrite !repeat_length; auto.
    - apply gen_table_len.
  Qed.

  Definition part_objs (d : data F G) (rows : list (list ext_id)) (t : nat) : objs :=
    let n := n_otypes d in
    mkObjs (map (fun j => if Nat.ltb j t then Z.of_nat (length (U (event_otypes d) j rows))
                          else nth j (o_n (d_objs d)) 0%Z) (seq 0 n))
           (map (fun j => if Nat.ltb j t then Some (U (event_otypes d) j rows)
                          else nth j (o_eid (d_objs d)) None) (seq 0 n))
           (map (fun j => if Nat.ltb j t then Some (id_dict (U (event_otypes d) j rows))
                          else nth j (o_iid (d_objs d)) None) (seq 0 n)).

  Definition with_objs d o := @mkData F G (n_otypes d) o (feature d) (event_otypes d) (n_events d)
                                     (event d) (event_feature d).

  Lemma ltb_step : forall A (x y : A) j t,
    (if Nat.eqb j t then x else if Nat.ltb j t then x else y) = if Nat.ltb j (S t) then x else y.
  Proof.
    intros. destruct (Nat.eqb_spec j t), (Nat.ltb_spec j t), (Nat.ltb_spec j (S t)); auto; lia.
  Qed.

  Lemma if_ext : forall A (f : nat -> A) (g : nat -> A) j t,
    (if Nat.eqb j t then f t else if Nat.ltb j t then f j else g j)
    = if Nat.ltb j (S t) then f j else g j.
  Proof.
    intros. destruct (Nat.eqb_spec j t), (Nat.ltb_spec j t), (Nat.ltb_spec j (S t));
      subst; auto; lia.
  Qed.

  Lemma imp_tables_ok : forall d rows m t, t + m = n_otypes d ->
    imp_tables (seq t m) (length (event_otypes d)) rows (with_objs d (part_objs d rows t))
    = (with_objs d (part_objs d rows (n_otypes d)), None).
  Proof.
    intros d rows m; induction m as [|m IH]; intros t E; simpl.
    - replace t with (n_otypes d) by lia. reflexivity.
    - rewrite Nat.eqb_refl.
      replace (put_objs (with_objs d (part_objs d rows t)) t (gen_id (type_entries (event_otypes d) t rows)))
        with (with_objs d (part_objs d rows (S t))).
      + apply IH; lia.
      + unfold put_objs, with_objs. cbn. f_equal. unfold part_objs. cbn.
        rewrite !set_nth_map_seq. unfold U.
        f_equal; apply map_ext; intros j; symmetry.
        * apply (if_ext _ (fun j => Z.of_nat (length (np_unique idcmp (type_entries (event_otypes d) j rows))))
                          (fun j => nth j (o_n (d_objs d)) 0%Z)).
        * apply (if_ext _ (fun j => Some (np_unique idcmp (type_entries (event_otypes d) j rows)))
                          (fun j => nth j (o_eid (d_objs d)) None)).
        * apply (if_ext _ (fun j => Some (id_dict (np_unique idcmp (type_entries (event_otypes d) j rows))))
                          (fun j => nth j (o_iid (d_objs d)) None)).
  Qed.

  Lemma part_objs_0 : forall d rows, table_len d -> part_objs d rows 0 = d_objs d.
  Proof.
    intros d rows [H1 [H2 H3]]. unfold part_objs. simpl.
    rewrite !map_nth_seq by auto. destruct (d_objs d); auto.
  Qed.

  Lemma part_objs_n : forall d rows, part_objs d rows (n_otypes d) = gen_objs (n_otypes d) (event_otypes d) rows.
  Proof.
    intros. unfold part_objs, gen_objs. rewrite !map_map. unfold U.
    f_equal; apply map_ext_in; intros j Hj; apply in_seq in Hj;
      destruct (Nat.ltb_spec j (n_otypes d)); auto; lia.
  Qed.

  Definition dumm : ext_id := IdInt 0.

  Definition encj (ot : list nat) (rows : list (list ext_id)) (row : list ext_id) (j : nat) : Z :=
    Z.of_nat (pos (nth j row dumm) (U ot (nth j ot 0) rows)).

  Definition part_row (ot : list nat) rows (e : nat) (row : list ext_id) : list Z :=
    map (fun j => if Nat.ltb j e then encj ot rows row j else 0%Z) (seq 0 (length ot)).

  Lemma part_row_0 : forall ot rows row, part_row ot rows 0 row = repeat 0%Z (length ot).
  Proof.
    intros. unfold part_row. simpl. generalize 0 as b. induction (length ot); intros; simpl; auto.
    f_equal; auto.
  Qed.

  Lemma part_row_n : forall ot rows row, length row = length ot ->
    part_row ot rows (length ot) row = enc ot rows row.
  Proof.
    intros ot rows row H. unfold part_row, enc. apply list_ext. intros k.
    destruct (Nat.ltb_spec k (length ot)).
    - rewrite nth_error_map_seq by auto. rewrite nth_error_map, nth_error_combine.
      rewrite (nth_error_nth' ot 0), (nth_error_nth' row dumm) by lia.
      destruct (Nat.ltb_spec k (length ot)); auto; lia.
    - rewrite nth_error_map_seq_ge by auto. rewrite nth_error_map, nth_error_combine.
      rewrite (proj2 (nth_error_None ot k)) by lia. auto.
  Qed.

  Definition col_state d rows e :=
    put_event (with_objs d (gen_objs (n_otypes d) (event_otypes d) rows))
              (map (part_row (event_otypes d) rows e) rows).

  Lemma imp_column_ok : forall d rows e, types_ok d -> rect (length (event_otypes d)) rows ->
    e < length (event_otypes d) ->
    imp_column rows (col_state d rows e) e = Ok (col_state d rows (S e)).
  Proof.
    intros d rows e [Hot _] Hr He. unfold imp_column. cbn [event col_state put_event event_otypes with_objs].
    rewrite (np_get_nth _ _ e 0) by auto. cbn [bind d_objs col_state put_event with_objs].
    rewrite gen_o_iid. rewrite np_get_map_seq.
    2:{ rewrite Forall_forall in Hot. apply Hot. apply nth_In; auto. }
    cbn [bind].
    rewrite (mapM_total _ _ _ (fun row => encj (event_otypes d) rows row e)).
    - cbn [bind]. rewrite combine_map_map, map_map. unfold col_state, put_event. cbn. do 3 f_equal.
      apply map_ext. intros row. unfold part_row. simpl. rewrite set_nth_map_seq. apply map_ext. intros j.
      destruct (Nat.eqb_spec j e), (Nat.ltb_spec j e), (Nat.ltb_spec j (S e)); subst; auto; lia.
    - intros row Hrow. unfold rect in Hr. rewrite Forall_forall in Hr. specialize (Hr _ Hrow).
      rewrite (np_get_nth _ row e dumm) by lia. cbn [bind].
      rewrite id_dict_some; [reflexivity | apply U_nodup |].
      eapply U_row; eauto. apply combine_nth_in. exists e.
      rewrite (nth_error_nth' _ 0), (nth_error_nth' row dumm) by lia. auto.
  Qed.

  Lemma imp_columns_ok : forall d rows m e, types_ok d -> rect (length (event_otypes d)) rows ->
    e + m = length (event_otypes d) ->
    imp_columns (seq e m) rows (col_state d rows e) = (col_state d rows (length (event_otypes d)), None).
  Proof.
    intros d rows m; induction m as [|m IH]; intros e Ht Hr E; cbn [seq imp_columns].
    - replace e with (length (event_otypes d)) by lia; auto.
    - rewrite imp_column_ok by (auto; lia). apply IH; auto; lia.
  Qed.

  Lemma set_event_imp_ok : forall d ev ef, inv d -> nd_ok ev ->
    set_event_imp d ev ef =
    match set_event d ev ef with
    | Ok d' => (d', None)
    | Raise e => (d, Some e)
    end.
  Proof.
    intros d ev ef Hi Hnd. pose proof (inv_table_len d Hi) as Htl.
    destruct Hi as [Ht [Hlf _]]. destruct ev as [v|c rows|]; cbn [set_event set_event_imp]; auto.
    destruct (Nat.eqb_spec c (length (event_otypes d))) as [->|Hc].
    - assert (E0 : d = with_objs d (part_objs d rows 0)).
      { rewrite part_objs_0 by auto. destruct d; reflexivity. }
      pose proof (imp_tables_ok d rows (n_otypes d) 0 eq_refl) as HT.
      rewrite <- E0 in HT. rewrite HT.
      rewrite part_objs_n.
      replace (put_event (with_objs d (gen_objs (n_otypes d) (event_otypes d) rows))
          (map (fun _ => repeat 0%Z (length (event_otypes d))) rows))
        with (col_state d rows 0).
      2:{ unfold col_state. f_equal. apply map_ext. intros; apply part_row_0. }
      rewrite imp_columns_ok by auto.
      rewrite set_rows_ok by (auto; apply Ht). cbn [bind].
      unfold col_state. cbn. rewrite map_length. do 3 f_equal.
      apply map_ext_in. intros row Hrow. apply part_row_n.
      simpl in Hnd. rewrite Forall_forall in Hnd; auto.
    - destruct Ht as [_ [_ Hpos]]. destruct (n_otypes d); [lia|]. simpl.
      destruct (Nat.eqb_spec c (length (event_otypes d))); [contradiction|]. auto.
  Qed.
End Reach.
