(** * filter_event computes the container of the selected rows *)
From Coq Require Import List ZArith Lia Bool Sorted Permutation.
From Verif Require Import M_Py P_Py M_Data Spec P_Data.
Import ListNotations.

Lemma bselect_enc : forall A B (g : nat * A -> B) ot t row,
  bselect (otype_mask ot t) (map g (combine ot row))
  = map (fun x => g (t, x)) (bselect (otype_mask ot t) row).
Proof.
  induction ot as [|t' ot IH]; intros t [|x row]; simpl; auto.
  rewrite IH. destruct (Nat.eqb t' t) eqn:E; simpl; auto.
  apply Nat.eqb_eq in E; subst; auto.
Qed.

Lemma type_entries_enc : forall A B (g : nat * A -> B) ot t rows,
  type_entries ot t (map (fun row => map g (combine ot row)) rows)
  = map (fun x => g (t, x)) (type_entries ot t rows).
Proof.
  intros. unfold type_entries. rewrite concat_map, !map_map. f_equal.
  apply map_ext; intros; apply bselect_enc.
Qed.

Lemma combine_enc : forall A B (g : nat * A -> B) ot row,
  combine ot (map g (combine ot row)) = map (fun tx => (fst tx, g tx)) (combine ot row).
Proof.
  induction ot as [|t ot IH]; intros [|x row]; simpl; auto. rewrite IH; auto.
Qed.

Section Filter.
  Context {F G : Type}.
  Variable ot : list nat.
  Variable n : nat.
  Variables base sel : list (list ext_id).
  Hypothesis Hot : Forall (fun t => t < n) ot.
  Hypothesis Hsub : forall row, In row sel -> In row base.

  Definition mixU (t ty : nat) : list ext_id :=
    if Nat.ltb ty t then U ot ty sel else U ot ty base.

  Definition mix1 (t : nat) (tx : nat * ext_id) : Z := Z.of_nat (pos (snd tx) (mixU t (fst tx))).

  Definition mixrow (t : nat) (row : list ext_id) : list Z := map (mix1 t) (combine ot row).

  Definition mixobjs (t : nat) : objs :=
    mkObjs (map (fun j => Z.of_nat (length (mixU t j))) (seq 0 n))
           (map (fun j => Some (mixU t j)) (seq 0 n))
           (map (fun j => Some (id_dict (mixU t j))) (seq 0 n)).

  Lemma U_sub : forall t x, In x (U ot t sel) -> In x (U ot t base).
  Proof.
    intros t x. unfold U. rewrite !(np_unique_in _ idcmp_laws idcmp_eq).
    rewrite !type_entries_in. intros [row [H1 H2]]; eauto.
  Qed.

  Definition posb (t : nat) (x : ext_id) : nat := pos x (U ot t base).

  Lemma sub_index_eq : forall t,
    np_unique Z.compare (type_entries ot t (map (mixrow t) sel))
    = map Z.of_nat (map (posb t) (U ot t sel)).
  Proof.
    intros t. unfold mixrow. rewrite type_entries_enc. rewrite map_map.
    unfold mix1, mixU; simpl. rewrite Nat.ltb_irrefl.
    rewrite (np_unique_map _ _ idcmp Z.compare idcmp_laws Z_laws idcmp_eq Z_leibniz).
    - reflexivity.
    - intros x y Hx Hy Hlt. apply Z.compare_lt_iff. apply inj_lt.
      apply pos_mono; auto using U_sorted;
        apply U_sub; unfold U; rewrite (np_unique_in _ idcmp_laws idcmp_eq); auto.
  Qed.

  Lemma posb_nodup : forall t, NoDup (map (posb t) (U ot t sel)).
  Proof.
    intros t. pose proof (U_nodup ot t sel) as Hn.
    assert (Hs : forall x, In x (U ot t sel) -> In x (U ot t base)) by apply U_sub.
    revert Hn Hs. generalize (U ot t sel) as l.
    induction l as [|x l IH]; intros Hn Hs; simpl; constructor.
    - inversion Hn as [|? ? Hnin Hn']; subst. intros H. apply in_map_iff in H.
      destruct H as [y [E Hy]]. apply Hnin.
      assert (x = y); [|subst; auto].
      pose proof (pos_nth x (U ot t base) (Hs x (or_introl eq_refl))) as P1.
      pose proof (pos_nth y (U ot t base) (Hs y (or_intror Hy))) as P2.
      unfold posb in E. rewrite E in P2. congruence.
    - inversion Hn; subst. apply IH; auto. intros; apply Hs; right; auto.
  Qed.

  Lemma posb_lt : forall t, Forall (fun k => k < length (U ot t base)) (map (posb t) (U ot t sel)).
  Proof.
    intros t. apply Forall_forall. intros k H. apply in_map_iff in H. destruct H as [x [<- Hx]].
    apply pos_lt. apply U_sub; auto.
  Qed.

  Lemma take_posb : forall t,
    np_take (U ot t base) (map Z.of_nat (map (posb t) (U ot t sel))) = Ok (U ot t sel).
  Proof.
    intros t. unfold np_take. rewrite map_map, mapM_map.
    rewrite (mapM_total _ _ _ (fun x => x)).
    - rewrite map_id; auto.
    - intros x Hx. apply np_get_nat. apply pos_nth. apply U_sub; auto.
  Qed.

  Lemma subst_row_ok : forall t table row, In row sel ->
    (forall j k, nth_error (map (posb t) (U ot t sel)) j = Some k ->
                 nth_error table k = Some (Z.of_nat j)) ->
    subst_row ot t table (mixrow t row) = Ok (mixrow (S t) row).
  Proof.
    intros t table row Hrow Ht. unfold subst_row, mixrow. rewrite combine_enc, mapM_map.
    apply mapM_total. intros [ty x] Htx. simpl.
    destruct (Nat.eqb_spec ty t).
    - subst ty. unfold mix1, mixU; simpl.
      replace (Nat.ltb t t) with false by (symmetry; apply Nat.ltb_irrefl).
      replace (Nat.ltb t (S t)) with true by (symmetry; apply Nat.ltb_lt; lia).
      apply np_get_nat. apply (Ht (pos x (U ot t sel))).
      rewrite nth_error_map. rewrite pos_nth; [reflexivity|]. eapply U_row; eauto.
    - unfold mix1, mixU; simpl.
      destruct (Nat.ltb_spec ty t), (Nat.ltb_spec ty (S t)); auto; lia.
  Qed.

  Lemma mixU_step : forall t j,
    mixU (S t) j = if Nat.eqb j t then U ot t sel else mixU t j.
  Proof.
    intros t j. unfold mixU.
    destruct (Nat.eqb_spec j t); [subst|].
    - replace (Nat.ltb t (S t)) with true by (symmetry; apply Nat.ltb_lt; lia); auto.
    - destruct (Nat.ltb_spec j t), (Nat.ltb_spec j (S t)); auto; lia.
  Qed.

  Variable self : data F G.
  Hypothesis Hself_n : n_otypes self = n.
  Hypothesis Hself_ot : event_otypes self = ot.
  Hypothesis Hself_o : d_objs self = gen_objs n ot base.
  Hypothesis Hself_f : length (feature self) = n.

  (** feature rows of the surviving objects *)
  Definition feat_at (fs' : nat -> option (list F)) (t : nat) : Prop :=
    match nth t (feature self) None with
    | None => fs' t = None
    | Some f => exists f', np_take f (map Z.of_nat (map (posb t) (U ot t sel))) = Ok f' /\ fs' t = Some f'
    end.

  Definition feat_ok (fs' : nat -> option (list F)) : Prop :=
    forall t, t < n -> feat_at fs' t.

  Definition stage (fs' : nat -> option (list F)) (t : nat) : data F G :=
    mkData n (mixobjs t)
           (map (fun j => if Nat.ltb j t then fs' j else nth j (feature self) None) (seq 0 n))
           ot (length sel) (Some (map (mixrow t) sel)) (event_feature self).

  Lemma filter_type_stage : forall fs' t, t < n -> feat_at fs' t ->
    filter_type self (stage fs' t) t = Ok (stage fs' (S t)).
  Proof.
    intros fs' t Ht Hf. unfold filter_type. simpl event. cbn [event_otypes stage].
    rewrite sub_index_eq. rewrite Hself_o, gen_o_eid, np_get_map_seq by auto.
    cbn [bind].
    destruct (gen_table_spec (length (U ot t base)) (map (posb t) (U ot t sel)) (posb_nodup t) (posb_lt t))
      as [table [T1 [T2 [T3 T4]]]].
    rewrite T1. cbn [bind]. rewrite Hself_ot.
    rewrite mapM_map.
    rewrite (mapM_total _ _ _ (mixrow (S t))) by (intros; apply subst_row_ok; auto).
    cbn [bind]. rewrite take_posb. cbn [bind d_objs o_eid o_iid o_n mixobjs stage].
    rewrite !np_set_nat by (rewrite map_length, seq_length; auto). cbn [bind].
    rewrite !set_nth_map_seq.
    assert (E1 : map (fun j => if Nat.eqb j t then Some (U ot t sel) else Some (mixU t j)) (seq 0 n)
                 = map (fun j => Some (mixU (S t) j)) (seq 0 n)).
    { apply map_ext; intros j. rewrite mixU_step. destruct (Nat.eqb j t); auto. }
    assert (E2 : map (fun j => if Nat.eqb j t then Some (id_dict (U ot t sel)) else Some (id_dict (mixU t j))) (seq 0 n)
                 = map (fun j => Some (id_dict (mixU (S t) j))) (seq 0 n)).
    { apply map_ext; intros j. rewrite mixU_step. destruct (Nat.eqb j t); auto. }
    assert (E3 : map (fun j => if Nat.eqb j t then Z.of_nat (length (U ot t sel)) else Z.of_nat (length (mixU t j))) (seq 0 n)
                 = map (fun j => Z.of_nat (length (mixU (S t) j))) (seq 0 n)).
    { apply map_ext; intros j. rewrite mixU_step. destruct (Nat.eqb j t); auto. }
    rewrite E1, E2, E3.
    rewrite (np_get_nth _ (feature self) t None) by lia. cbn [bind].
    unfold feat_at in Hf.
    assert (Efs : match nth t (feature self) None with
                  | None => Ok (feature (stage fs' t))
                  | Some f => bind (np_take f (map Z.of_nat (map (posb t) (U ot t sel))))
                                (fun f' => np_set (feature (stage fs' t)) (Z.of_nat t) (Some f'))
                  end = Ok (feature (stage fs' (S t)))).
    { destruct (nth t (feature self) None) as [f|] eqn:Ef.
      - destruct Hf as [f' [Hf1 Hf2]]. rewrite Hf1. cbn [bind stage feature].
        rewrite np_set_nat by (rewrite map_length, seq_length; auto).
        rewrite set_nth_map_seq. f_equal. apply map_ext. intros j.
        destruct (Nat.eqb_spec j t); [subst|].
        + replace (Nat.ltb t (S t)) with true by (symmetry; apply Nat.ltb_lt; lia); auto.
        + destruct (Nat.ltb_spec j t), (Nat.ltb_spec j (S t)); auto; lia.
      - cbn [stage feature]. f_equal. apply map_ext. intros j.
        destruct (Nat.ltb_spec j t), (Nat.ltb_spec j (S t)); auto; try lia.
        assert (j = t) by lia. subst. congruence. }
    cbn [stage feature] in Efs |- *. rewrite Efs. cbn [bind]. reflexivity.
  Qed.

  Lemma filter_loop : forall fs' m t, t + m = n -> feat_ok fs' ->
    foldM (filter_type self) (seq t m) (stage fs' t) = Ok (stage fs' n).
  Proof.
    intros fs' m; induction m as [|m IH]; intros t E Hf; simpl.
    - replace t with n by lia; auto.
    - rewrite filter_type_stage by (try apply Hf; lia). cbn [bind]. apply IH; auto; lia.
  Qed.

  (** failure of the loop: only through features *)
  Lemma filter_type_fail : forall fs' t f e, t < n ->
    nth t (feature self) None = Some f ->
    np_take f (map Z.of_nat (map (posb t) (U ot t sel))) = Raise e ->
    filter_type self (stage fs' t) t = Raise e.
  Proof.
    intros fs' t f e Ht Ef Hf. unfold filter_type. simpl event. cbn [event_otypes stage].
    rewrite sub_index_eq. rewrite Hself_o, gen_o_eid, np_get_map_seq by auto.
    cbn [bind].
    destruct (gen_table_spec (length (U ot t base)) (map (posb t) (U ot t sel)) (posb_nodup t) (posb_lt t))
      as [table [T1 [T2 [T3 T4]]]].
    rewrite T1. cbn [bind]. rewrite Hself_ot.
    rewrite mapM_map.
    rewrite (mapM_total _ _ _ (mixrow (S t))) by (intros; apply subst_row_ok; auto).
    cbn [bind]. rewrite take_posb. cbn [bind d_objs o_eid o_iid o_n mixobjs stage].
    rewrite !np_set_nat by (rewrite map_length, seq_length; auto). cbn [bind].
    rewrite (np_get_nth _ (feature self) t None) by lia. cbn [bind].
    rewrite Ef, Hf. reflexivity.
  Qed.

  Definition ffun (t : nat) : option (list F) :=
    match nth t (feature self) None with
    | None => None
    | Some f => match np_take f (map Z.of_nat (map (posb t) (U ot t sel))) with
                | Ok f' => Some f'
                | Raise _ => None
                end
    end.

  Lemma filter_loop_inv : forall m t s, t + m = n ->
    foldM (filter_type self) (seq t m) (stage ffun t) = Ok s ->
    s = stage ffun n /\ forall j, t <= j < n -> feat_at ffun j.
  Proof.
    induction m as [|m IH]; intros t s E H; simpl in H.
    - inversion H; subst. replace t with n by lia. split; auto. intros; lia.
    - apply bind_ok in H. destruct H as [s1 [H1 H2]].
      assert (Ha : feat_at ffun t).
      { unfold feat_at. destruct (nth t (feature self) None) as [f|] eqn:Ef.
        - destruct (np_take f (map Z.of_nat (map (posb t) (U ot t sel)))) as [f'|e] eqn:Et.
          + exists f'; split; auto. unfold ffun. rewrite Ef, Et; auto.
          + rewrite (filter_type_fail _ _ f e) in H1 by (auto; lia). discriminate.
        - unfold ffun; rewrite Ef; auto. }
      rewrite filter_type_stage in H1 by (auto; lia). inversion H1; subst s1.
      destruct (IH (S t) s) as [A B]; [lia | auto |]. split; auto.
      intros j Hj. destruct (Nat.eq_dec j t); [subst; auto | apply B; lia].
  Qed.
End Filter.

Section FilterMain.
  Context {F G : Type}.
  Implicit Types (d : data F G).

  Lemma mix_0 : forall ot base sel row, mixrow ot base sel 0 row = enc ot base row.
  Proof. reflexivity. Qed.

  Lemma mixU_n : forall ot n base sel j, j < n -> mixU ot base sel n j = U ot j sel.
  Proof.
    intros. unfold mixU. destruct (Nat.ltb_spec j n); auto; lia.
  Qed.

  Lemma mix_n : forall ot n base sel row, Forall (fun t => t < n) ot ->
    mixrow ot base sel n row = enc ot sel row.
  Proof.
    intros ot n base sel row H. unfold mixrow, enc. apply map_ext_in. intros [ty x] Hin.
    unfold mix1, enc1. simpl. rewrite mixU_n; auto.
    rewrite Forall_forall in H. apply H. apply in_combine_l in Hin; auto.
  Qed.

  Lemma mixobjs_n : forall ot n base sel, mixobjs ot n base sel n = gen_objs n ot sel.
  Proof.
    intros. unfold mixobjs, gen_objs. rewrite !map_map.
    f_equal; apply map_ext_in; intros j Hj; apply in_seq in Hj; rewrite mixU_n by lia; reflexivity.
  Qed.

  Lemma mixobjs_0 : forall ot n base sel, mixobjs ot n base sel 0 = gen_objs n ot base.
  Proof. intros. unfold mixobjs, gen_objs. rewrite !map_map. reflexivity. Qed.

  Lemma map_nth_seq : forall A (l : list A) dv n, n = length l ->
    map (fun j => nth j l dv) (seq 0 n) = l.
  Proof.
    intros A l dv n ->. apply list_ext. intros k.
    destruct (Nat.ltb_spec k (length l)).
    - rewrite nth_error_map_seq by auto. symmetry; apply nth_error_nth'; auto.
    - rewrite nth_error_map_seq_ge by auto. symmetry; apply nth_error_None; auto.
  Qed.

  Lemma stage_0 : forall d base sel fs', length (feature d) = n_otypes d ->
    d_objs d = gen_objs (n_otypes d) (event_otypes d) base ->
    mkData (n_otypes d) (d_objs d) (feature d) (event_otypes d) (length sel)
           (Some (map (enc (event_otypes d) base) sel)) (event_feature d)
    = stage (event_otypes d) (n_otypes d) base sel d fs' 0.
  Proof.
    intros d base sel fs' Hf Ho. unfold stage. rewrite mixobjs_0, <- Ho.
    f_equal. symmetry. simpl. apply map_nth_seq; auto.
  Qed.

  (** surviving rows determine the outcome completely *)
  Lemma filter_event_ok : forall d base c sel fs',
    types_ok d -> length (feature d) = n_otypes d -> rep d base ->
    np_select base c = Ok sel ->
    feat_ok (event_otypes d) (n_otypes d) base sel d fs' ->
    forall ef', match event_feature d with
                | None => ef' = None
                | Some ef => exists e', np_select ef c = Ok e' /\ ef' = Some e'
                end ->
    filter_event d c = Ok (Some (mkData (n_otypes d) (gen_objs (n_otypes d) (event_otypes d) sel)
        (map fs' (seq 0 (n_otypes d))) (event_otypes d) (length sel)
        (Some (map (enc (event_otypes d) sel) sel)) ef')).
  Proof.
    intros d base c sel fs' [Hot [_ _]] Hf [Ho [Hev [Hn Hr]]] Hsel Hfs ef' Hef.
    unfold filter_event. rewrite Hev. rewrite np_select_map, Hsel. cbn [rmap bind].
    rewrite map_length.
    rewrite (stage_0 d base sel fs') by auto.
    assert (Hsub : forall row, In row sel -> In row base)
      by (intros; eapply np_select_in; eauto).
    rewrite (filter_loop (event_otypes d) (n_otypes d) base sel Hot Hsub d) by auto.
    cbn [bind].
    assert (Efin : match event_feature d with
                   | None => Ok (event_feature (stage (event_otypes d) (n_otypes d) base sel d fs' (n_otypes d)))
                   | Some ef => bind (np_select ef c) (fun e' => Ok (Some e'))
                   end = Ok ef').
    { destruct (event_feature d) as [ef|] eqn:Eef.
      - destruct Hef as [e' [He ->]]. rewrite He. reflexivity.
      - subst ef'. simpl. rewrite Eef. reflexivity. }
    rewrite Efin. cbn [bind]. f_equal. f_equal.
    unfold stage. cbn [n_otypes d_objs feature event_otypes n_events event].
    f_equal.
    - apply mixobjs_n.
    - apply map_ext_in. intros j Hj. apply in_seq in Hj. destruct (Nat.ltb_spec j (n_otypes d)); auto; lia.
    - f_equal. apply map_ext. intros row. apply mix_n; auto.
  Qed.

  Lemma filter_event_inv : forall d base c d',
    types_ok d -> length (feature d) = n_otypes d -> rep d base ->
    filter_event d c = Ok (Some d') ->
    exists sel ef',
      np_select base c = Ok sel /\
      (forall row, In row sel -> In row base) /\
      feat_ok (event_otypes d) (n_otypes d) base sel d (ffun (event_otypes d) base sel d) /\
      match event_feature d with
      | None => ef' = None
      | Some ef => exists e', np_select ef c = Ok e' /\ ef' = Some e'
      end /\
      d' = mkData (n_otypes d) (gen_objs (n_otypes d) (event_otypes d) sel)
        (map (ffun (event_otypes d) base sel d) (seq 0 (n_otypes d))) (event_otypes d) (length sel)
        (Some (map (enc (event_otypes d) sel) sel)) ef'.
  Proof.
    intros d base c d' Ht Hf Hrep H.
    pose proof Ht as [Hot [Hne Hpos]]. pose proof Hrep as [Ho [Hev [Hn Hr]]].
    destruct (np_select base c) as [sel|e] eqn:Hsel.
    2:{ unfold filter_event in H. rewrite Hev, np_select_map, Hsel in H. discriminate. }
    assert (Hsub : forall row, In row sel -> In row base)
      by (intros; eapply np_select_in; eauto).
    assert (Hfe : exists s, foldM (filter_type d) (seq 0 (n_otypes d))
               (stage (event_otypes d) (n_otypes d) base sel d (ffun (event_otypes d) base sel d) 0) = Ok s).
    { unfold filter_event in H. rewrite Hev, np_select_map, Hsel in H. cbn [rmap bind] in H.
      rewrite map_length in H.
      rewrite (stage_0 d base sel (ffun (event_otypes d) base sel d)) in H by auto.
      apply bind_ok in H. destruct H as [s [H1 _]]. eauto. }
    destruct Hfe as [s Hs].
    apply (filter_loop_inv (event_otypes d) (n_otypes d) base sel Hot Hsub d) in Hs; auto.
    destruct Hs as [-> Hfok].
    assert (Hfeat : feat_ok (event_otypes d) (n_otypes d) base sel d (ffun (event_otypes d) base sel d)).
    { intros t Hlt. apply Hfok; lia. }
    assert (Hefe : exists ef', match event_feature d with
      | None => ef' = None
      | Some ef => exists e', np_select ef c = Ok e' /\ ef' = Some e'
      end).
    { destruct (event_feature d) as [ef|] eqn:Eef; [|eauto].
      destruct (np_select ef c) as [e'|e] eqn:Ese; [eauto|].
      exfalso. unfold filter_event in H. rewrite Hev, np_select_map, Hsel in H. cbn [rmap bind] in H.
      rewrite map_length in H.
      rewrite (stage_0 d base sel (ffun (event_otypes d) base sel d)) in H by auto.
      rewrite (filter_loop (event_otypes d) (n_otypes d) base sel Hot Hsub d) in H by auto.
      cbn [bind] in H. rewrite Eef, Ese in H. discriminate. }
    destruct Hefe as [ef' Hef]. exists sel, ef'.
    repeat split; auto.
    rewrite (filter_event_ok d base c sel _ Ht Hf Hrep Hsel Hfeat ef' Hef) in H.
    inversion H; auto.
  Qed.
End FilterMain.
