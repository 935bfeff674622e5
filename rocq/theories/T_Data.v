(** * Theorems about data containers (C01 - C09) *)
From Coq Require Import List ZArith Lia Bool Sorted Permutation.
From Verif Require Import M_Py P_Py M_Data Spec P_Data P_Filter P_Reach P_DataThms P_Feature.
Import ListNotations.
Open Scope Z_scope.

(** ** a sample container used in the examples: types (user, item), ids of
    both kinds, events with repeated users and items *)
Definition ex_rows : list (list ext_id) :=
  [[IdInt 7; IdStr [98%N]]; [IdInt 3; IdStr [97%N]]; [IdInt 7; IdStr [97%N]]; [IdInt 5; IdStr [99%N; 97%N]]].

Definition ex_d0 : data nat nat := new_data 2 [0%nat; 1%nat].
Definition ex_d : data nat nat :=
  match set_event ex_d0 (A2 2 ex_rows) (Some [10; 11; 12; 13]%nat) with Ok d => d | Raise _ => ex_d0 end.

Lemma ex_d0_reachable : reachable ex_d0.
Proof. apply (r_init 2 OTNone). reflexivity. Qed.

Lemma ex_d_set : set_event ex_d0 (A2 2 ex_rows) (Some [10; 11; 12; 13]%nat) = Ok ex_d.
Proof. reflexivity. Qed.

Lemma ex_d_reachable : reachable ex_d.
Proof.
  eapply r_set_event; [apply ex_d0_reachable | | apply ex_d_set]. repeat constructor.
Qed.

(** ** C01 *)
Theorem C01_id_bijection : forall F G (d d' : data F G) ev ef,
  reachable d -> nd_ok ev -> set_event d ev ef = Ok d' ->
  exists c rows, ev = A2 c rows /\
    forall t, (t < n_otypes d')%nat ->
      bijective_tables (d_objs d') t (occurs (event_otypes d') t rows).
Proof.
  intros F G d d' ev ef Hr Hnd Hs.
  destruct (reachable_inv d Hr) as [Ht _].
  destruct (set_event_rep d ev ef d' Ht Hnd Hs) as [rows [-> [Hrep _]]].
  eexists _, rows. split; [reflexivity|]. intros t Hlt.
  rewrite (rep_types _ _ Hrep). apply gen_bijective; auto.
Qed.

Example C01_nonvacuous : reachable ex_d0 /\ nd_ok (A2 2 ex_rows) /\
  set_event ex_d0 (A2 2 ex_rows) (Some [10; 11; 12; 13]%nat) = Ok ex_d /\
  to_iid (d_objs ex_d) 0 (IdInt 5) = Ok 1 /\ to_eid (d_objs ex_d) 1 2 = Ok (IdStr [99%N; 97%N]) /\
  to_iid (d_objs ex_d) 0 (IdInt 4) = Raise ValueError.
Proof. split; [apply ex_d0_reachable|]. repeat split; repeat constructor. Qed.
Print Assumptions C01_id_bijection.

(** ** C02 *)
Theorem C02_event_roundtrip : forall F G (d d' : data F G) c rows ef,
  reachable d -> rect c rows -> set_event d (A2 c rows) ef = Ok d' ->
  exists ev, event d' = Some ev /\
    to_eid_event (d_objs d') (event_otypes d') (A2 c ev) = Ok (A2 c rows) /\
    to_iid_event (d_objs d') (event_otypes d') (A2 c rows) MVNone = Ok (A2 c ev) /\
    n_events d' = length rows /\ length ev = length rows /\ event_feature d' = ef.
Proof.
  intros F G d d' c rows ef Hr Hrect Hs.
  destruct (reachable_inv d Hr) as [Ht _].
  destruct (set_event_rep d (A2 c rows) ef d' Ht Hrect Hs) as [rows' [E [Hrep [E1 [E2 [E3 E4]]]]]].
  inversion E; subst rows' c. rewrite <- E2 in *.
  assert (Ht' : types_ok d') by (unfold types_ok in *; rewrite E1, E2; auto).
  destruct (rep_decode d' rows Ht' Hrep) as [ev [Hev Hdec]].
  exists ev. repeat split; auto.
  - pose proof Hrep as [Ho [Hev' [_ _]]]. rewrite Hev in Hev'. inversion Hev'; subst ev.
    rewrite Ho at 1. apply encode_rows; [apply Ht' | auto].
  - apply Hrep.
  - destruct Hrep as [_ [Hev' _]]. rewrite Hev in Hev'; inversion Hev'; apply map_length.
Qed.

Example C02_nonvacuous : rect 2 ex_rows /\
  set_event ex_d0 (A2 2 ex_rows) (Some [10; 11; 12; 13]%nat) = Ok ex_d /\
  event ex_d = Some [[2; 1]; [0; 0]; [2; 0]; [1; 2]].
Proof. repeat split; repeat constructor. Qed.
Print Assumptions C02_event_roundtrip.

(** ** C03: a query event is translated entry by entry; an id that is not in
    the data becomes n_objects of its type, or the caller's missing value *)
Theorem C03_unknown_ids : forall F G (d : data F G) a,
  reachable d -> event d <> None -> nd_ok a -> shape_ok (s_event d) a ->
  exists r, to_iid_event (d_objs d) (event_otypes d) a MVNone = Ok r /\ same_shape a r /\
    forall k e t x, nth_error (event_otypes d) e = Some t -> entry_at a e k x ->
      exists n i, nth_error (o_n (d_objs d)) t = Some n /\ entry_at r e k i /\
        ((to_iid (d_objs d) (Z.of_nat t) x = Ok i /\ 0 <= i < n) \/
         (to_iid (d_objs d) (Z.of_nat t) x = Raise ValueError /\ i = n)).
Proof.
  intros F G d a Hr Hev Hnd Hsh.
  destruct (reachable_inv d Hr) as [[Hot _] [_ [[Hf _]|[rows Hrep]]]]; [congruence|].
  destruct Hrep as [Ho _]. rewrite Ho. rewrite to_iid_event_default by auto.
  destruct (to_iid_event_full (n_otypes d) (event_otypes d) rows a (default_mv (n_otypes d) (event_otypes d) rows))
    as [r [H1 [H2 H3]]]; auto.
  { unfold default_mv; rewrite map_length; auto. }
  exists r. repeat split; auto. intros k e t x Ht Hx.
  assert (Hlt : (t < n_otypes d)%nat).
  { rewrite Forall_forall in Hot. apply Hot. eapply nth_error_In; eauto. }
  eexists _, _. split; [|split; [apply (H3 k e t x Ht Hx)|]].
  - rewrite gen_o_n. apply nth_error_map_seq; auto.
  - rewrite gen_to_iid by auto. destruct (in_dec id_eq_dec x (U (event_otypes d) t rows)) as [Hin|Hin].
    + left. split; auto. pose proof (pos_lt _ _ Hin). lia.
    + right. split; auto. apply nth_default_mv; auto.
Qed.

Theorem C03_missing_array : forall F G (d : data F G) a mvs,
  reachable d -> event d <> None -> nd_ok a -> shape_ok (s_event d) a -> length mvs = s_event d ->
  exists r, to_iid_event (d_objs d) (event_otypes d) a (MVArr mvs) = Ok r /\ same_shape a r /\
    forall k e t x, nth_error (event_otypes d) e = Some t -> entry_at a e k x ->
      exists i, entry_at r e k i /\
        (to_iid (d_objs d) (Z.of_nat t) x = Ok i \/
         (to_iid (d_objs d) (Z.of_nat t) x = Raise ValueError /\ nth_error mvs e = Some i)).
Proof.
  intros F G d a mvs Hr Hev Hnd Hsh Hm.
  destruct (reachable_inv d Hr) as [[Hot _] [_ [[Hf _]|[rows Hrep]]]]; [congruence|].
  destruct Hrep as [Ho _]. rewrite Ho. unfold s_event in *.
  destruct (to_iid_event_full (n_otypes d) (event_otypes d) rows a mvs)
    as [r [H1 [H2 H3]]]; auto; [lia|].
  exists r. repeat split; auto. intros k e t x Ht Hx.
  assert (Hlt : (t < n_otypes d)%nat).
  { rewrite Forall_forall in Hot. apply Hot. eapply nth_error_In; eauto. }
  eexists. split; [apply (H3 k e t x Ht Hx)|].
  rewrite gen_to_iid by auto. destruct (in_dec id_eq_dec x (U (event_otypes d) t rows)) as [Hin|Hin]; auto.
  right. split; auto. apply nth_error_nth'. rewrite Hm. apply nth_error_Some. congruence.
Qed.

Example C03_nonvacuous : reachable ex_d /\ event ex_d <> None /\
  to_iid_event (d_objs ex_d) (event_otypes ex_d)
    (A2 2 [[IdInt 5; IdStr [122%N]]; [IdInt 6; IdStr [97%N]]]) MVNone = Ok (A2 2 [[1; 3]; [3; 0]]) /\
  to_iid_event (d_objs ex_d) (event_otypes ex_d) (A1 [IdInt 6; IdStr [97%N]]) (MVArr [-1; -2]) = Ok (A1 [-1; 0]).
Proof. split; [apply ex_d_reachable|]. repeat split; discriminate. Qed.
Print Assumptions C03_unknown_ids.
Print Assumptions C03_missing_array.

(** ** C04: shapes *)
Theorem C04_shapes : forall F G (d : data F G),
  reachable d -> event d <> None ->
  (forall a, nd_ok a -> (to_eid_event (d_objs d) (event_otypes d) a = Raise TypeError <-> ~ shape_ok (s_event d) a)) /\
  (forall a, nd_ok a -> (to_iid_event (d_objs d) (event_otypes d) a MVNone = Raise TypeError <-> ~ shape_ok (s_event d) a)) /\
  (forall a mvs, nd_ok a -> length mvs = s_event d ->
     (to_iid_event (d_objs d) (event_otypes d) a (MVArr mvs) = Raise TypeError <-> ~ shape_ok (s_event d) a)).
Proof.
  intros F G d Hr Hev.
  destruct (reachable_inv d Hr) as [[Hot [Hne Hpos]] [_ [[Hf _]|[rows Hrep]]]]; [congruence|].
  destruct Hrep as [Ho _]. unfold s_event.
  assert (Hent : forall tx, In (fst tx) (event_otypes d) -> forall e, eid_entry (d_objs d) tx = Raise e -> e = IndexError).
  { intros [t x] Hin e H. rewrite Ho in H. unfold eid_entry in H. rewrite gen_o_eid in H. cbn [fst] in H.
    rewrite np_get_map_seq in H.
    - cbn [bind fst snd] in H. apply np_get_raise in H. tauto.
    - simpl in Hin. rewrite Forall_forall in Hot; auto. }
  assert (Hiid : forall a mvs, nd_ok a -> (length (event_otypes d) <= length mvs)%nat ->
     (to_iid_event (d_objs d) (event_otypes d) a (MVArr mvs) = Raise TypeError
      <-> ~ shape_ok (length (event_otypes d)) a)).
  { intros a mvs Hnd Hm. split.
    - intros H Hsh. rewrite Ho in H.
      destruct (to_iid_event_full (n_otypes d) (event_otypes d) rows a mvs Hot Hnd Hsh Hm) as [r [H1 _]].
      congruence.
    - intros Hsh. unfold to_iid_event. cbn [bind]. destruct a as [v|c arr|]; auto; simpl in Hsh.
      + destruct (Nat.eqb_spec (length v) (length (event_otypes d))); [contradiction|auto].
      + destruct (Nat.eqb_spec c (length (event_otypes d))); [contradiction|auto]. }
  split; [|split].
  - intros a Hnd. destruct a as [v|c arr|]; simpl.
    + destruct (Nat.eqb_spec (length v) (length (event_otypes d))) as [E|E]; [|split; auto].
      split; [|tauto]. intros H. apply bind_raise in H. destruct H as [H|[r [_ H]]]; [|discriminate].
      apply mapM_raise in H. destruct H as [tx [Hin H]]. apply Hent in H; [discriminate|].
      destruct tx; apply in_combine_l in Hin; auto.
    + destruct (Nat.eqb_spec c (length (event_otypes d))) as [E|E]; [|split; auto].
      split; [|tauto]. intros H. rewrite Ho in H at 1. rewrite gen_o_eid in H.
      pose proof (np_get_map_seq _ (fun t => Some (U (event_otypes d) t rows)) (n_otypes d) 0 Hpos) as E0.
      change (Z.of_nat 0) with 0 in E0. rewrite E0 in H. cbn [bind] in H.
      apply bind_raise in H. destruct H as [H|[r [_ H]]]; [|discriminate].
      apply mapM_raise in H. destruct H as [row [_ H]].
      apply mapM_raise in H. destruct H as [tx [Hin H]]. apply Hent in H; [discriminate|].
      destruct tx; apply in_combine_l in Hin; auto.
    + split; auto.
  - intros a Hnd. rewrite Ho at 1. rewrite to_iid_event_default by auto. rewrite <- Ho.
    apply Hiid; auto. unfold default_mv; rewrite map_length; auto.
  - intros a mvs Hnd Hm. apply Hiid; auto. unfold s_event in Hm. lia.
Qed.

(** a scalar missing value, documented as allowed, makes every query fail *)
Theorem C04_scalar_missing_refuted :
  exists (d : data nat nat) a z, reachable d /\ event d <> None /\ nd_ok a /\ shape_ok (s_event d) a /\
    to_iid_event (d_objs d) (event_otypes d) a (MVInt z) = Raise TypeError.
Proof.
  exists ex_d, (A1 [IdInt 7; IdStr [97%N]]), (-1). split; [apply ex_d_reachable|].
  repeat split; discriminate.
Qed.

Theorem C04_scalar_missing_always_fails : forall F G (d : data F G) v z,
  reachable d -> event d <> None -> length v = s_event d ->
  to_iid_event (d_objs d) (event_otypes d) (A1 v) (MVInt z) = Raise TypeError.
Proof.
  intros F G d v z Hr Hev Hl.
  destruct (reachable_inv d Hr) as [[Hot [Hne Hpos]] [_ [[Hf _]|[rows Hrep]]]]; [congruence|].
  destruct Hrep as [Ho _]. unfold to_iid_event. cbn [bind]. unfold s_event in Hl.
  rewrite (proj2 (Nat.eqb_eq _ _) Hl). unfold iid_row.
  destruct (event_otypes d) as [|t ot] eqn:E; [congruence|]. destruct v as [|x v]; [discriminate|].
  cbn [length seq combine mapM iid_entry]. rewrite Ho, gen_o_iid.
  rewrite np_get_map_seq by (inversion Hot; auto). reflexivity.
Qed.
Print Assumptions C04_shapes.
Print Assumptions C04_scalar_missing_refuted.
Print Assumptions C04_scalar_missing_always_fails.

(** ** C05: internal ids out of range.  n = n_objects[t].  Ids i >= n and
    i < -n are rejected; ids -n..-1 are wrongly accepted. *)
Theorem C05_to_eid_range_partial : forall F G (d : data F G) t n,
  reachable d -> event d <> None -> (t < n_otypes d)%nat ->
  nth_error (o_n (d_objs d)) t = Some n ->
  forall i, (i < - n \/ n <= i) -> to_eid (d_objs d) (Z.of_nat t) i = Raise ValueError.
Proof.
  intros F G d t n Hr Hev Hlt Hn i Hi.
  destruct (reachable_inv d Hr) as [[Hot [Hne Hpos]] [_ [[Hf _]|[rows Hrep]]]]; [congruence|].
  destruct Hrep as [Ho _]. rewrite Ho in *. rewrite gen_to_eid by auto.
  rewrite gen_o_n, nth_error_map_seq in Hn by auto. inversion Hn; subst.
  rewrite (proj2 (np_get_raise _ _ _ IndexError)); auto.
Qed.

Theorem C05_negative_wraps : forall F G (d : data F G) t n,
  reachable d -> event d <> None -> (t < n_otypes d)%nat ->
  nth_error (o_n (d_objs d)) t = Some n ->
  forall i, - n <= i < 0 -> to_eid (d_objs d) (Z.of_nat t) i = to_eid (d_objs d) (Z.of_nat t) (i + n).
Proof.
  intros F G d t n Hr Hev Hlt Hn i Hi.
  destruct (reachable_inv d Hr) as [[Hot [Hne Hpos]] [_ [[Hf _]|[rows Hrep]]]]; [congruence|].
  destruct Hrep as [Ho _]. rewrite Ho in *. rewrite !gen_to_eid by auto.
  rewrite gen_o_n, nth_error_map_seq in Hn by auto. inversion Hn; subst.
  set (u := U (event_otypes d) t rows) in *.
  assert (E1 : np_norm (length u) i = Some (Z.to_nat (i + Z.of_nat (length u)))) by (apply np_norm_spec; lia).
  assert (E2 : np_norm (length u) (i + Z.of_nat (length u)) = Some (Z.to_nat (i + Z.of_nat (length u))))
    by (apply np_norm_spec; lia).
  unfold np_get. rewrite E1, E2. reflexivity.
Qed.

Theorem C05_to_eid_negative_refuted :
  exists (d : data nat nat) t n i x, reachable d /\ (t < n_otypes d)%nat /\
    nth_error (o_n (d_objs d)) t = Some n /\ ~ (0 <= i < n) /\ to_eid (d_objs d) (Z.of_nat t) i = Ok x.
Proof.
  exists ex_d, 0%nat, 3, (-1), (IdInt 7). split; [apply ex_d_reachable|].
  split; [simpl; lia|]. split; [reflexivity|]. split; [lia | reflexivity].
Qed.

Example C05_nonvacuous : reachable ex_d /\ event ex_d <> None /\ nth_error (o_n (d_objs ex_d)) 0 = Some 3 /\
  to_eid (d_objs ex_d) 0 3 = Raise ValueError /\ to_eid (d_objs ex_d) 0 (-4) = Raise ValueError.
Proof. split; [apply ex_d_reachable|]. repeat split; discriminate. Qed.
Print Assumptions C05_to_eid_range_partial.
Print Assumptions C05_to_eid_negative_refuted.

(** ** C06 *)
Theorem C06_ids_depend_on_set : forall F G (d1 d2 d1' d2' : data F G) c1 c2 rows1 rows2 ef1 ef2 t,
  reachable d1 -> reachable d2 -> rect c1 rows1 -> rect c2 rows2 ->
  set_event d1 (A2 c1 rows1) ef1 = Ok d1' -> set_event d2 (A2 c2 rows2) ef2 = Ok d2' ->
  (t < n_otypes d1)%nat -> (t < n_otypes d2)%nat ->
  (forall x, occurs (event_otypes d1) t rows1 x <-> occurs (event_otypes d2) t rows2 x) ->
  nth_error (o_n (d_objs d1')) t = nth_error (o_n (d_objs d2')) t /\
  (forall i, to_eid (d_objs d1') (Z.of_nat t) i = to_eid (d_objs d2') (Z.of_nat t) i) /\
  (forall x, to_iid (d_objs d1') (Z.of_nat t) x = to_iid (d_objs d2') (Z.of_nat t) x).
Proof.
  intros F G d1 d2 d1' d2' c1 c2 rows1 rows2 ef1 ef2 t R1 R2 Q1 Q2 S1 S2 L1 L2 H.
  destruct (reachable_inv _ R1) as [T1 _]. destruct (reachable_inv _ R2) as [T2 _].
  destruct (set_event_rep _ (A2 c1 rows1) _ _ T1 Q1 S1) as [r1 [E1 [P1 [N1 [O1 _]]]]].
  destruct (set_event_rep _ (A2 c2 rows2) _ _ T2 Q2 S2) as [r2 [E2 [P2 [N2 [O2 _]]]]].
  inversion E1; inversion E2; subst r1 r2.
  rewrite (rep_types _ _ P1), (rep_types _ _ P2), N1, N2, O1, O2.
  assert (EU : U (event_otypes d1) t rows1 = U (event_otypes d2) t rows2).
  { apply (np_unique_ext _ idcmp_laws idcmp_eq). intros x. rewrite !type_entries_occurs. apply H. }
  split; [|split].
  - rewrite !gen_o_n, !nth_error_map_seq by auto. rewrite EU; auto.
  - intros i. rewrite !gen_to_eid by auto. rewrite EU; auto.
  - intros x. rewrite !gen_to_iid by auto. rewrite EU; auto.
Qed.

(** in particular the order of the events is irrelevant *)
Theorem C06_event_order_irrelevant : forall F G (d d1' d2' : data F G) c rows1 rows2 ef1 ef2,
  reachable d -> rect c rows1 -> Permutation rows1 rows2 ->
  set_event d (A2 c rows1) ef1 = Ok d1' -> set_event d (A2 c rows2) ef2 = Ok d2' ->
  d_objs d1' = d_objs d2'.
Proof.
  intros F G d d1' d2' c rows1 rows2 ef1 ef2 R Q P S1 S2.
  assert (Q2 : rect c rows2) by (unfold rect in *; eapply Permutation_Forall; eauto).
  destruct (reachable_inv _ R) as [T _].
  destruct (set_event_rep _ (A2 c rows1) _ _ T Q S1) as [r1 [E1 [P1 [N1 [O1 _]]]]].
  destruct (set_event_rep _ (A2 c rows2) _ _ T Q2 S2) as [r2 [E2 [P2 [N2 [O2 _]]]]].
  inversion E1; inversion E2; subst r1 r2.
  rewrite (rep_types _ _ P1), (rep_types _ _ P2), N1, N2, O1, O2.
  unfold gen_objs. f_equal; f_equal; apply map_ext; intros t; unfold gen_id;
    rewrite (np_unique_ext _ idcmp_laws idcmp_eq (type_entries (event_otypes d) t rows1)
               (type_entries (event_otypes d) t rows2)); auto;
    intros x; rewrite !type_entries_in; split; intros [row [A B]]; exists row; split; auto;
    (eapply Permutation_in; [|eassumption]); auto using Permutation_sym.
Qed.

Example C06_nonvacuous :
  exists (d1' d2' : data nat nat), Permutation ex_rows (rev ex_rows) /\
   set_event ex_d0 (A2 2 ex_rows) None = Ok d1' /\ set_event ex_d0 (A2 2 (rev ex_rows)) None = Ok d2' /\
   event d1' <> event d2'.
Proof.
  eexists _, _. split; [apply Permutation_rev|]. split; [reflexivity|]. split; [reflexivity|].
  vm_compute. discriminate.
Qed.
Print Assumptions C06_ids_depend_on_set.
Print Assumptions C06_event_order_irrelevant.

(** ** C07 *)
Definition otypes_valid (n : Z) (a : otypes_arg) : Prop :=
  match a with
  | OTNone => True
  | OTVec l => l <> [] /\ Forall (fun x => 0 <= x < n) l
  | OTBad => False
  end.

Theorem C07_constructor : forall F G n a,
  (1 <= n /\ otypes_valid n a ->
     exists d : data F G, init n a = Ok d /\ n_otypes d = Z.to_nat n /\
       event_otypes d = match a with OTVec l => map Z.to_nat l | _ => seq 0 (Z.to_nat n) end /\
       event d = None /\ n_events d = 0%nat /\ event_feature d = None /\
       Forall (fun k => k = 0) (o_n (d_objs d)) /\ Forall (fun f => f = None) (feature d)) /\
  (~ (1 <= n /\ otypes_valid n a) -> @init F G n a = Raise ValueError).
Proof.
  intros F G n a. split.
  - intros [Hn Hv]. unfold init. destruct (n <? 1) eqn:E; [lia|].
    assert (Hrep : forall A (x : A) k, Forall (fun y => y = x) (repeat x k)).
    { intros. apply Forall_forall. intros y Hy. apply repeat_spec in Hy; auto. }
    destruct a as [|l|].
    + eexists. split; [reflexivity|]. simpl. repeat split; auto.
    + destruct Hv as [Hne Hall]. destruct l as [|z l]; [congruence|].
      replace (existsb (fun x => x <? 0) (z :: l) || existsb (fun x => n <=? x) (z :: l)) with false.
      * eexists. split; [reflexivity|]. simpl. repeat split; auto.
      * symmetry. apply orb_false_iff. rewrite Forall_forall in Hall.
        split; apply not_true_is_false; intros H; apply existsb_exists in H;
          destruct H as [y [Hy1 Hy2]]; specialize (Hall _ Hy1); lia.
    + simpl in Hv; tauto.
  - intros Hno. unfold init. destruct (n <? 1) eqn:E; auto.
    destruct a as [|l|]; auto.
    + exfalso; apply Hno; split; simpl; auto; lia.
    + destruct l as [|z l]; auto.
      destruct (existsb (fun x => x <? 0) (z :: l) || existsb (fun x => n <=? x) (z :: l)) eqn:E2; auto.
      exfalso; apply Hno. split; [lia|]. split; [discriminate|].
      apply orb_false_iff in E2. destruct E2 as [E3 E4]. apply Forall_forall. intros y Hy.
      assert (~ (y <? 0) = true).
      { intros H. assert (existsb (fun x => x <? 0) (z :: l) = true) by (apply existsb_exists; eauto). congruence. }
      assert (~ (n <=? y) = true).
      { intros H'. assert (existsb (fun x => n <=? x) (z :: l) = true) by (apply existsb_exists; eauto). congruence. }
      lia.
Qed.

Example C07_nonvacuous : otypes_valid 3 (OTVec [2; 0; 2]) /\ ~ otypes_valid 2 (OTVec [0; 2]) /\
  ~ otypes_valid 2 (OTVec []) /\ ~ otypes_valid 2 (OTVec [-1; 0]).
Proof.
  repeat split; try discriminate.
  - repeat constructor; lia.
  - intros [_ H]. inversion H; subst. inversion H3; subst. lia.
  - intros [H _]. apply H; auto.
  - intros [_ H]. inversion H; subst. lia.
Qed.
Print Assumptions C07_constructor.

(** ** C08: the statement-by-statement method either completes or, on a badly
    shaped array, raises IndexError leaving the container as it was *)
Theorem C08_set_event_atomic : forall F G (d : data F G) ev ef,
  reachable d -> nd_ok ev ->
  (forall rows, ev = A2 (s_event d) rows ->
     exists d', set_event_imp d ev ef = (d', None) /\ set_event d ev ef = Ok d') /\
  ((forall rows, ev <> A2 (s_event d) rows) -> set_event_imp d ev ef = (d, Some IndexError)).
Proof.
  intros F G d ev ef Hr Hnd. pose proof (reachable_inv d Hr) as Hi.
  rewrite (set_event_imp_ok d ev ef Hi Hnd). destruct Hi as [Ht _]. split.
  - intros rows ->. destruct (set_event_total d rows ef Ht) as [d' Hd]. unfold s_event in *.
    rewrite Hd. eauto.
  - intros Hno. destruct ev as [v|c rows|]; auto. simpl.
    destruct (Nat.eqb_spec c (length (event_otypes d))); auto.
    exfalso. apply (Hno rows). unfold s_event; congruence.
Qed.

Example C08_nonvacuous : reachable ex_d /\ nd_ok (A2 2 ex_rows) /\
  A2 2 ex_rows = A2 (s_event ex_d) ex_rows /\
  (forall rows, A2 3 [[IdInt 1; IdInt 2; IdInt 3]] <> A2 (s_event ex_d) rows) /\
  set_event_imp ex_d (A2 3 [[IdInt 1; IdInt 2; IdInt 3]]) None = (ex_d, Some IndexError).
Proof. split; [apply ex_d_reachable|]. repeat split; repeat constructor; discriminate. Qed.
Print Assumptions C08_set_event_atomic.

(** ** C09 *)
Theorem C09_set_feature : forall F G (d d' : data F G) t ids f,
  reachable d -> event d <> None -> (t < n_otypes d)%nat ->
  set_feature d (Z.of_nat t) ids f = Ok d' ->
  d_objs d' = d_objs d /\ event d' = event d /\
  (forall t', t' <> t -> nth_error (feature d') t' = nth_error (feature d) t') /\
  exists rows, nth_error (feature d') t = Some (Some rows) /\
    nth_error (o_n (d_objs d)) t = Some (Z.of_nat (length rows)) /\
    forall x i, to_iid (d_objs d) (Z.of_nat t) x = Ok i ->
      exists k row, (last_position ids x k \/ (~ In x ids /\ k = length ids)) /\
        nth_error f k = Some row /\ nth_error rows (Z.to_nat i) = Some row.
Proof.
  intros F G d d' t ids f Hr Hev Hlt H.
  destruct (reachable_inv d Hr) as [[Hot [Hne Hpos]] [Hlen [[Hf _]|[rows Hrep]]]]; [congruence|].
  destruct Hrep as [Ho _].
  set (u := U (event_otypes d) t rows) in *.
  destruct (feature_index_spec u ids (U_nodup _ _ _)) as [idx [I1 [I2 I3]]].
  unfold set_feature in H. rewrite Ho, gen_o_iid, np_get_map_seq in H by auto. fold u in H. cbn [bind] in H.
  rewrite I1 in H. cbn [bind] in H.
  apply bind_ok in H. destruct H as [fr [Hfr H]].
  rewrite np_set_nat in H by lia. cbn [bind] in H. inversion H; subst d'; clear H. simpl.
  split; [rewrite <- Ho; auto|]. split; [auto|]. split.
  { intros t' Ht'. rewrite nth_error_set_nth. destruct (Nat.eqb_spec t' t); [contradiction|auto]. }
  exists fr. split.
  { rewrite nth_error_set_nth, Nat.eqb_refl. destruct (Nat.ltb_spec t (length (feature d))); auto; lia. }
  pose proof (mapM_length _ _ _ _ _ Hfr) as Lfr. split.
  { rewrite Ho, gen_o_n, nth_error_map_seq by auto. fold u. rewrite Lfr, I2; auto. }
  intros x i Hi. rewrite Ho, gen_to_iid in Hi by auto. fold u in Hi.
  destruct (in_dec id_eq_dec x u) as [Hin|]; [|discriminate]. inversion Hi; subst i.
  destruct (I3 x Hin) as [k [K1 K2]].
  destruct (mapM_nth _ _ _ _ _ _ _ Hfr K1) as [row [R1 R2]].
  exists k, row. split; auto. apply np_get_nat in R2. split; auto. rewrite Nat2Z.id; auto.
Qed.

Theorem C09_set_feature_total : forall F G (d : data F G) t ids f,
  reachable d -> event d <> None -> (t < n_otypes d)%nat -> length f = length ids ->
  ((forall x i, to_iid (d_objs d) (Z.of_nat t) x = Ok i -> In x ids) ->
     exists d', set_feature d (Z.of_nat t) ids f = Ok d') /\
  ((exists x i, to_iid (d_objs d) (Z.of_nat t) x = Ok i /\ ~ In x ids) ->
     set_feature d (Z.of_nat t) ids f = Raise IndexError).
Proof.
  intros F G d t ids f Hr Hev Hlt Hlf.
  destruct (reachable_inv d Hr) as [[Hot [Hne Hpos]] [Hlen [[Hf _]|[rows Hrep]]]]; [congruence|].
  destruct Hrep as [Ho _].
  set (u := U (event_otypes d) t rows) in *.
  pose proof (U_nodup (event_otypes d) t rows) as Hnd. fold u in Hnd.
  destruct (feature_index_spec u ids Hnd) as [idx [I1 [I2 I3]]].
  assert (Hu : forall k, (k < length u)%nat -> In (nth k u dumm) u /\ pos (nth k u dumm) u = k).
  { intros k Hk. split; [apply nth_In; auto|]. apply nth_pos; auto. apply nth_error_nth'; auto. }
  unfold set_feature. rewrite Ho, gen_o_iid, np_get_map_seq by auto. fold u. cbn [bind].
  rewrite I1. cbn [bind]. split.
  - intros Hall.
    assert (Hi : forall i, In i idx -> exists k, i = Z.of_nat k /\ (k < length f)%nat).
    { intros i Hi. apply In_nth_error in Hi. destruct Hi as [p Hp].
      assert (Hpl : (p < length u)%nat) by (rewrite <- I2; apply nth_error_Some; congruence).
      destruct (Hu p Hpl) as [Hin Epos]. destruct (I3 _ Hin) as [k [K1 K2]]. rewrite Epos in K1.
      exists k. split; [congruence|]. destruct K2 as [[K2 _]|[K2 _]].
      - rewrite Hlf. apply nth_error_Some. congruence.
      - exfalso; apply K2. apply (Hall _ (Z.of_nat p)). rewrite gen_to_iid by auto. fold u.
        destruct (in_dec id_eq_dec (nth p u dumm) u); [|contradiction]. rewrite Epos; auto. }
    unfold np_take.
    destruct (mapM (np_get f) idx) as [fr|e] eqn:Em.
    + cbn [bind]. rewrite np_set_nat by lia. cbn [bind]. eauto.
    + apply mapM_raise in Em. destruct Em as [i [Hin Hg]]. destruct (Hi i Hin) as [k [-> Hk]].
      apply np_get_raise in Hg. lia.
  - intros [x [i [Hx Hnin]]]. rewrite gen_to_iid in Hx by auto. fold u in Hx.
    destruct (in_dec id_eq_dec x u) as [Hin|]; [|discriminate].
    destruct (I3 x Hin) as [k [K1 [[K2 _]|[_ ->]]]].
    + exfalso. apply Hnin. eapply nth_error_In; eauto.
    + assert (Hbad : np_get f (Z.of_nat (length ids)) = Raise IndexError) by (apply np_get_raise; split; auto; lia).
      destruct (mapM_fail _ _ (np_get f) idx _ _ (nth_error_In _ _ K1) Hbad) as [e He].
      unfold np_take. rewrite He. cbn [bind].
      apply mapM_raise in He. destruct He as [j [_ He]]. apply np_get_raise in He. destruct He as [-> _]; auto.
Qed.

Example C09_nonvacuous :
  exists d', set_feature ex_d 0 [IdInt 9; IdInt 7; IdInt 3; IdInt 7; IdInt 5] [90; 70; 30; 71; 50]%nat = Ok d' /\
    nth_error (feature d') 0 = Some (Some [30; 50; 71]%nat) /\
    set_feature ex_d 0 [IdInt 7; IdInt 3] [70; 30]%nat = Raise IndexError.
Proof. eexists. split; [reflexivity|]. split; reflexivity. Qed.
Print Assumptions C09_set_feature.
Print Assumptions C09_set_feature_total.
