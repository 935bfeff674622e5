(** * Container properties in the vocabulary of Spec *)
From Coq Require Import List ZArith Lia Bool Sorted Permutation.
From Verif Require Import M_Py P_Py M_Data Spec P_Data P_Filter P_Reach.
Import ListNotations.

Lemma gen_to_eid : forall n ot rows t i, t < n ->
  to_eid (gen_objs n ot rows) (Z.of_nat t) i =
  match np_get (U ot t rows) i with Ok x => Ok x | Raise _ => Raise ValueError end.
Proof.
  intros. unfold to_eid. rewrite gen_o_eid, np_get_map_seq by auto.
  destruct (np_get (U ot t rows) i) eqn:E; auto.
  apply np_get_raise in E. destruct E as [-> _]; auto.
Qed.

Lemma gen_to_iid : forall n ot rows t x, t < n ->
  to_iid (gen_objs n ot rows) (Z.of_nat t) x =
  if in_dec id_eq_dec x (U ot t rows) then Ok (Z.of_nat (pos x (U ot t rows))) else Raise ValueError.
Proof.
  intros. unfold to_iid. rewrite gen_o_iid, np_get_map_seq by auto. simpl.
  unfold id_dict. rewrite id_dict_get by apply U_nodup.
  destruct (in_dec id_eq_dec x (U ot t rows)); auto.
Qed.

Lemma ssorted_nth : forall l a b, ssorted idcmp l -> a < b -> b < length l ->
  idcmp (nth a l dumm) (nth b l dumm) = Lt.
Proof.
  intros l a b Hs. revert a b.
  induction Hs as [|z l Hs IH Hf]; intros a b Hab Hb; simpl in *; [lia|].
  destruct b; [lia|]. destruct a.
  - rewrite Forall_forall in Hf. apply Hf. apply nth_In; lia.
  - apply IH; lia.
Qed.

Lemma gen_bijective : forall n ot rows t, t < n ->
  bijective_tables (gen_objs n ot rows) t (occurs ot t rows).
Proof.
  intros n ot rows t Ht. exists (length (U ot t rows)).
  pose proof (U_nodup ot t rows) as Hn. pose proof (U_sorted ot t rows) as Hs.
  rewrite gen_o_n. rewrite nth_error_map_seq by auto. split; [auto|].
  split; [|split; [|split]].
  - intros i Hi. rewrite gen_to_eid by auto.
    replace i with (Z.of_nat (Z.to_nat i)) by lia.
    rewrite (np_get_nth _ _ _ dumm) by lia.
    set (k := Z.to_nat i) in *. set (x := nth k (U ot t rows) dumm).
    assert (Hx : nth_error (U ot t rows) k = Some x) by (apply nth_error_nth'; lia).
    assert (Hin : In x (U ot t rows)) by (eapply nth_error_In; eauto).
    exists x. split; auto. split.
    + apply U_in; auto.
    + rewrite gen_to_iid by auto. destruct (in_dec id_eq_dec x (U ot t rows)); [|contradiction].
      f_equal. f_equal. apply nth_pos; auto.
  - intros x Hx. apply U_in in Hx. exists (Z.of_nat (pos x (U ot t rows))).
    pose proof (pos_lt _ _ Hx). split; [lia|]. split.
    + rewrite gen_to_iid by auto. destruct (in_dec id_eq_dec x (U ot t rows)); [auto|contradiction].
    + rewrite gen_to_eid by auto.
      rewrite (proj2 (np_get_nat _ _ _ _) (pos_nth _ _ Hx)). auto.
  - intros x Hx. rewrite gen_to_iid by auto.
    destruct (in_dec id_eq_dec x (U ot t rows)); auto. exfalso; apply Hx, U_in; auto.
  - intros i j x y Hij Hj. rewrite !gen_to_eid by auto.
    replace i with (Z.of_nat (Z.to_nat i)) by lia. replace j with (Z.of_nat (Z.to_nat j)) by lia.
    set (a := Z.to_nat i) in *. set (b := Z.to_nat j) in *.
    assert (Hab : a < b) by lia. assert (Hb : b < length (U ot t rows)) by lia.
    rewrite !(np_get_nth _ _ _ dumm) by lia. intros E1 E2. inversion E1; inversion E2.
    apply ssorted_nth; auto.
Qed.

Section Thms.
  Context {F G : Type}.
  Implicit Types (d : data F G).

  Lemma rep_types : forall d rows, rep d rows -> d_objs d = gen_objs (n_otypes d) (event_otypes d) rows.
  Proof. intros d rows [H _]; auto. Qed.

  (** decoding the encoded rows *)
  Lemma decode_row : forall n ot rows row, Forall (fun t => t < n) ot -> In row rows ->
    length row = length ot ->
    mapM (eid_entry (gen_objs n ot rows)) (combine ot (enc ot rows row)) = Ok row.
  Proof.
    intros n ot rows row Hot Hrow Hlen. unfold enc. rewrite combine_enc, mapM_map.
    rewrite (mapM_total _ _ _ snd).
    - rewrite map_snd_combine by lia; auto.
    - intros [t x] Htx. unfold eid_entry. cbn [fst snd]. rewrite gen_o_eid.
      rewrite np_get_map_seq. 2:{ rewrite Forall_forall in Hot. apply Hot. apply in_combine_l in Htx; auto. }
      cbn [bind]. apply np_get_nat. apply pos_nth. eapply U_row; eauto.
  Qed.

  Lemma decode_rows : forall n ot base rows, Forall (fun t => t < n) ot -> 0 < n ->
    (forall r, In r rows -> In r base) -> rect (length ot) rows ->
    to_eid_event (gen_objs n ot base) ot (A2 (length ot) (map (enc ot base) rows))
    = Ok (A2 (length ot) rows).
  Proof.
    intros n ot base rows Hot Hn Hsub Hr. unfold to_eid_event. rewrite Nat.eqb_refl.
    rewrite gen_o_eid.
    pose proof (np_get_map_seq _ (fun t => Some (U ot t base)) n 0 Hn) as E0.
    change (Z.of_nat 0) with 0%Z in E0. rewrite E0.
    cbn [bind]. rewrite mapM_map.
    rewrite (mapM_total _ _ _ (fun r => r)).
    - rewrite map_id; auto.
    - intros row Hrow. apply decode_row; auto. unfold rect in Hr. rewrite Forall_forall in Hr; auto.
  Qed.

  Lemma rep_decode : forall d rows, types_ok d -> rep d rows ->
    exists ev, event d = Some ev /\
      to_eid_event (d_objs d) (event_otypes d) (A2 (length (event_otypes d)) ev)
      = Ok (A2 (length (event_otypes d)) rows).
  Proof.
    intros d rows [Hot [Hne Hp]] [Ho [Hev [Hn Hr]]]. eexists; split; eauto.
    rewrite Ho. apply decode_rows; auto.
  Qed.

  (** to_iid on one entry, default missing values *)
  Definition missing_of (n : nat) ot rows (m : missing) (e t : nat) : res Z :=
    match m with
    | MVNone => Ok (Z.of_nat (length (U ot t rows)))
    | MVInt _ => Raise TypeError
    | MVArr l => np_get l (Z.of_nat e)
    end.

  Lemma iid_entry_ok : forall n ot rows m mv e t x, t < n ->
    mv_get m e = Ok mv ->
    iid_entry (gen_objs n ot rows) m (e, (t, x)) =
    Ok (if in_dec id_eq_dec x (U ot t rows) then Z.of_nat (pos x (U ot t rows)) else mv).
  Proof.
    intros n ot rows m mv e t x Ht Hm. unfold iid_entry. rewrite gen_o_iid, np_get_map_seq by auto.
    cbn [bind]. rewrite Hm. cbn [bind]. unfold id_dict. rewrite id_dict_get by apply U_nodup.
    destruct (in_dec id_eq_dec x (U ot t rows)); auto.
  Qed.

  Definition dec1 (ot : list nat) rows (mvs : list Z) (etx : nat * (nat * ext_id)) : Z :=
    let '(e, (t, x)) := etx in
    if in_dec id_eq_dec x (U ot t rows) then Z.of_nat (pos x (U ot t rows)) else nth e mvs 0%Z.

  Lemma iid_row_ok : forall n ot rows mvs row, Forall (fun t => t < n) ot ->
    length ot <= length mvs ->
    iid_row (gen_objs n ot rows) ot (MVArr mvs) row =
    Ok (map (dec1 ot rows mvs) (combine (seq 0 (length ot)) (combine ot row))).
  Proof.
    intros n ot rows mvs row Hot Hm. unfold iid_row. apply mapM_total. intros [e [t x]] H.
    assert (e < length ot) by (apply in_combine_l, in_seq in H; lia).
    apply iid_entry_ok.
    - rewrite Forall_forall in Hot. apply Hot. apply in_combine_r, in_combine_l in H; auto.
    - cbn [mv_get]. apply np_get_nth; lia.
  Qed.

  Definition default_mv (n : nat) (ot : list nat) rows : list Z :=
    map (fun t => Z.of_nat (length (U ot t rows))) ot.

  Lemma default_missing : forall n ot rows, Forall (fun t => t < n) ot ->
    np_take (o_n (gen_objs n ot rows)) (map Z.of_nat ot) = Ok (default_mv n ot rows).
  Proof.
    intros n ot rows Hot. unfold np_take. rewrite gen_o_n, mapM_map.
    rewrite (mapM_total _ _ _ (fun t => Z.of_nat (length (U ot t rows)))); auto.
    intros t Ht. rewrite np_get_map_seq; auto. rewrite Forall_forall in Hot; auto.
  Qed.

  Lemma nth_default_mv : forall n ot rows e t, nth_error ot e = Some t ->
    nth e (default_mv n ot rows) 0%Z = Z.of_nat (length (U ot t rows)).
  Proof.
    intros n ot rows e t H. apply nth_error_nth. unfold default_mv. rewrite nth_error_map, H; auto.
  Qed.

  Lemma row_entry : forall (ot : list nat) (row : list ext_id) e t x,
    nth_error ot e = Some t -> nth_error row e = Some x ->
    nth_error (combine (seq 0 (length ot)) (combine ot row)) e = Some (e, (t, x)).
  Proof.
    intros ot row e t x H1 H2. rewrite !nth_error_combine, nth_error_seq, H1, H2.
    assert (e < length ot) by (apply nth_error_Some; congruence).
    destruct (Nat.ltb_spec e (length ot)); auto; lia.
  Qed.

  Lemma row_dec_length : forall ot rows mvs (row : list ext_id), length row = length ot ->
    length (map (dec1 ot rows mvs) (combine (seq 0 (length ot)) (combine ot row))) = length row.
  Proof.
    intros. rewrite map_length, !combine_length, seq_length. lia.
  Qed.

  Lemma nth_error_dec : forall ot rows mvs row e t x,
    nth_error ot e = Some t -> nth_error row e = Some x ->
    nth_error (map (dec1 ot rows mvs) (combine (seq 0 (length ot)) (combine ot row))) e
    = Some (if in_dec id_eq_dec x (U ot t rows) then Z.of_nat (pos x (U ot t rows)) else nth e mvs 0%Z).
  Proof.
    intros. rewrite nth_error_map, (row_entry _ _ _ _ _ H H0). reflexivity.
  Qed.

  (** the complete behaviour of to_iid_event on a container with events *)
  Lemma to_iid_event_full : forall n ot rows a mvs, Forall (fun t => t < n) ot ->
    nd_ok a -> shape_ok (length ot) a -> length ot <= length mvs ->
    exists r, to_iid_event (gen_objs n ot rows) ot a (MVArr mvs) = Ok r /\ same_shape a r /\
      forall k e t x, nth_error ot e = Some t -> entry_at a e k x ->
        entry_at r e k (if in_dec id_eq_dec x (U ot t rows)
                        then Z.of_nat (pos x (U ot t rows)) else nth e mvs 0%Z).
  Proof.
    intros n ot rows a mvs Hot Hnd Hsh Hm. destruct a as [v|c arr|]; simpl in Hsh; [| |tauto].
    - unfold to_iid_event. cbn [bind]. rewrite (proj2 (Nat.eqb_eq _ _) Hsh).
      rewrite iid_row_ok by auto. cbn [bind].
      eexists; split; [reflexivity|]. split.
      + cbn [same_shape]. symmetry. apply row_dec_length; auto.
      + intros k e t x Ht [-> Hx]. split; auto. apply nth_error_dec; auto.
    - subst c. unfold to_iid_event. cbn [bind]. rewrite Nat.eqb_refl.
      rewrite (mapM_total _ _ _ (fun row => map (dec1 ot rows mvs) (combine (seq 0 (length ot)) (combine ot row))))
        by (intros; apply iid_row_ok; auto).
      cbn [bind]. eexists; split; [reflexivity|]. split.
      + cbn [same_shape]. split; auto. simpl in Hnd. clear - Hnd. induction Hnd; cbn [map]; constructor; auto.
        symmetry; apply row_dec_length; auto.
      + intros k e t x Ht [row [H1 H2]]. exists (map (dec1 ot rows mvs) (combine (seq 0 (length ot)) (combine ot row))).
        split.
        * rewrite nth_error_map, H1; auto.
        * apply nth_error_dec; auto.
  Qed.

  Lemma to_iid_event_default : forall n ot rows a, Forall (fun t => t < n) ot ->
    to_iid_event (gen_objs n ot rows) ot a MVNone
    = to_iid_event (gen_objs n ot rows) ot a (MVArr (default_mv n ot rows)).
  Proof.
    intros n ot rows a Hot. unfold to_iid_event. rewrite default_missing by auto. reflexivity.
  Qed.

  Lemma enc_dec : forall n ot rows mvs row, Forall (fun t => t < n) ot -> In row rows ->
    length row = length ot ->
    map (dec1 ot rows mvs) (combine (seq 0 (length ot)) (combine ot row)) = enc ot rows row.
  Proof.
    intros n ot rows mvs row Hot Hrow Hlen. unfold enc. apply list_ext. intros k.
    rewrite !nth_error_map, !nth_error_combine, nth_error_seq.
    destruct (Nat.ltb_spec k (length ot)).
    - destruct (nth_error ot k) eqn:E1, (nth_error row k) eqn:E2; simpl; auto.
      unfold enc1; simpl. destruct (in_dec id_eq_dec e (U ot n0 rows)) as [|Hnin]; auto.
      exfalso; apply Hnin. eapply U_row; eauto. apply combine_nth_in; eauto.
    - rewrite (proj2 (nth_error_None ot k)) by lia; auto.
  Qed.

  Lemma encode_rows : forall n ot rows, Forall (fun t => t < n) ot -> rect (length ot) rows ->
    to_iid_event (gen_objs n ot rows) ot (A2 (length ot) rows) MVNone
    = Ok (A2 (length ot) (map (enc ot rows) rows)).
  Proof.
    intros n ot rows Hot Hr. rewrite to_iid_event_default by auto.
    unfold to_iid_event. cbn [bind]. rewrite Nat.eqb_refl.
    rewrite (mapM_total _ _ _ (enc ot rows)); auto.
    intros row Hrow. unfold rect in Hr; rewrite Forall_forall in Hr.
    rewrite iid_row_ok; auto.
    - f_equal. eapply enc_dec; eauto.
    - unfold default_mv. rewrite map_length; auto.
  Qed.

  (** ** selection *)

  Lemma true_positions_cons : forall b m,
    true_positions (b :: m) = (if b then [0] else []) ++ map S (true_positions m).
  Proof.
    intros. unfold true_positions. cbn [length seq].
    assert (E : filter (fun k => nth k (b :: m) false) (seq 1 (length m))
                = map S (filter (fun k => nth k m false) (seq 0 (length m)))).
    { rewrite <- seq_shift. induction (seq 0 (length m)) as [|k l IH]; auto.
      cbn [map filter]. change (nth (S k) (b :: m) false) with (nth k m false).
      destruct (nth k m false); cbn [map]; [f_equal|]; exact IH. }
    transitivity ((if b then [0] else []) ++ filter (fun k => nth k (b :: m) false) (seq 1 (length m))).
    - destruct b; reflexivity.
    - rewrite E; reflexivity.
  Qed.

  Lemma bselect_picks : forall A m (l : list A), length m = length l ->
    picks l (true_positions m) (bselect m l).
  Proof.
    induction m as [|b m IH]; intros [|x l] H; try discriminate; cbn [bselect].
    - constructor.
    - rewrite true_positions_cons.
      assert (Hs : forall ks l', picks l ks l' -> picks (x :: l) (map S ks) l').
      { intros ks l' Hp; induction Hp; constructor; auto. }
      destruct b; simpl; [constructor; auto|]; apply Hs; apply IH; simpl in H; lia.
  Qed.

  Lemma picks_fun : forall A (l : list A) ks l1 l2, picks l ks l1 -> picks l ks l2 -> l1 = l2.
  Proof.
    intros A l ks l1 l2 H; revert l2; induction H; intros l2 H2; inversion H2; subst; auto.
    f_equal; [congruence|auto].
  Qed.

  Lemma np_select_selects : forall A (l : list A) c l',
    np_select l c = Ok l' <-> exists ks, selects (length l) c ks /\ picks l ks l'.
  Proof.
    intros A l c l'. destruct c as [m|ix]; simpl.
    - unfold np_mask. destruct (Nat.eqb_spec (length m) (length l)) as [E|E].
      + split.
        * intros H; inversion H; subst. exists (true_positions m). split; auto.
          apply bselect_picks; auto.
        * intros [ks [[_ ->] Hp]]. f_equal. eapply picks_fun; eauto. apply bselect_picks; auto.
      + split; [discriminate|]. intros [ks [[H _] _]]; contradiction.
    - unfold np_take. rewrite mapM_ok. split.
      + intros H. induction H as [|i x ix l' Hx H IH].
        * exists []; split; constructor.
        * destruct IH as [ks [H1 H2]]. apply np_get_norm in Hx. destruct Hx as [k [E1 E2]].
          apply np_norm_spec in E1.
          exists (k :: ks). split; constructor; auto. lia.
      + intros [ks [H1 H2]]. revert l' H2. induction H1 as [|i k ix ks Hk H1 IH]; intros l' H2.
        * inversion H2; constructor.
        * inversion H2; subst. constructor; auto.
          apply np_get_norm. exists k. split; auto. apply np_norm_spec. lia.
  Qed.

  Lemma selects_fun : forall n c ks1 ks2, selects n c ks1 -> selects n c ks2 -> ks1 = ks2.
  Proof.
    intros n [m|ix]; simpl.
    - intros ks1 ks2 [_ ->] [_ ->]; auto.
    - intros ks1 ks2 H; revert ks2; induction H as [|i k ix ks1 H0 H1 IH]; intros ks2 H2; inversion H2; subst; auto.
      f_equal; [lia|auto].
  Qed.

  Lemma selects_lt : forall n c ks, selects n c ks -> Forall (fun k => k < n) ks.
  Proof.
    intros n [m|ix] ks; simpl.
    - intros [<- ->]. unfold true_positions. apply Forall_forall. intros k H.
      apply filter_In in H. destruct H as [H _]. apply in_seq in H; lia.
    - intros H; induction H; constructor; auto; lia.
  Qed.

  Lemma picks_total : forall A (l : list A) ks, Forall (fun k => k < length l) ks ->
    exists l', picks l ks l'.
  Proof.
    intros A l ks H; induction H as [|k ks Hk H IH].
    - exists []; constructor.
    - destruct IH as [l' Hl]. destruct (nth_error l k) eqn:E.
      + exists (a :: l'); constructor; auto.
      + apply nth_error_None in E; lia.
  Qed.

  Lemma picks_length : forall A (l : list A) ks l', picks l ks l' -> length l' = length ks.
  Proof. intros A l ks l' H; induction H; simpl; auto. Qed.
End Thms.
