(** * Theorems about the loaders (C66) *)
From Coq Require Import List ZArith QArith Lia Lqa Bool.
From Verif Require Import M_Py P_Py M_Data Spec P_Data P_Filter P_Reach P_DataThms T_Data T_Filter M_Score P_Score T_Score M_Load.
Import ListNotations.

(** what a file holds: every row has one identifier for each position of an
    event *)
Definition ids_of {G} (rows : list (frow G)) : list (list ext_id) := map (fun r => map IdInt (r_ids r)) rows.
Definition well_formed {G} (s : nat) (rows : list (frow G)) : Prop := Forall (fun r => length (r_ids r) = s) rows.

(** constructor arguments that are accepted, with [s] positions *)
Definition types_arg_ok (n : Z) (ot : otypes_arg) : Prop :=
  (1 <= n)%Z /\ match ot with
                | OTNone => True
                | OTVec l => l <> [] /\ Forall (fun t => 0 <= t < n)%Z l
                | OTBad => False
                end.

Lemma init_ok : forall F G n ot, types_arg_ok n ot -> exists d : data F G, init n ot = Ok d /\ s_event d = s_events n ot /\
  n_otypes d = Z.to_nat n.
Proof.
  intros F G n ot [Hn Ho]. unfold init. assert ((n <? 1)%Z = false) as -> by lia. destruct ot as [|l|]; [| |tauto].
  - eexists. split; [reflexivity|]. cbn [n_otypes s_events]. unfold s_event. cbn [event_otypes new_data]. rewrite seq_length. auto.
  - destruct Ho as [Hne Hl]. destruct l as [|x l]; [congruence|]. remember (x :: l) as l0.
    assert (existsb (fun x => (x <? 0)%Z) l0 || existsb (fun x => (n <=? x)%Z) l0 = false) as ->.
    { apply orb_false_iff. split; (destruct (existsb _ l0) eqn:E; [|reflexivity]); apply existsb_exists in E;
        destruct E as [y [Hy E]]; rewrite Forall_forall in Hl; specialize (Hl _ Hy); cbv beta in *; lia. }
    eexists. split; [reflexivity|]. unfold s_event; cbn [event_otypes new_data n_otypes s_events]. rewrite map_length. auto.
Qed.

Lemma field_many : forall G A (f : frow G -> A) rows, (2 <= length rows)%nat -> field f rows = Many (map f rows).
Proof. intros G A f [|a [|b l]] H; cbn in *; auto; lia. Qed.
Lemma event_field_many : forall G s (rows : list (frow G)), (2 <= s)%nat -> (2 <= length rows)%nat -> event_field s rows = A2 s (ids_of rows).
Proof.
  intros G s rows Hs Hl. unfold event_field. rewrite field_many by auto.
  assert (Nat.eqb s 1 = false) as -> by (apply Nat.eqb_neq; lia). reflexivity.
Qed.
Lemma ids_rect : forall G s (rows : list (frow G)), well_formed s rows -> rect s (ids_of rows).
Proof.
  intros G s rows H. unfold rect, ids_of. apply Forall_map. eapply Forall_impl; [|exact H]. cbv beta. intros. rewrite map_length. auto.
Qed.

(** ** C66 *)
(** files with two lines or more, events with two identifiers or more *)
Theorem C66_load_event_partial : forall F G (rows : list (frow G)) n ot hf,
  types_arg_ok n ot -> (2 <= s_events n ot)%nat -> well_formed (s_events n ot) rows -> (2 <= length rows)%nat ->
  exists d : data F G, load_event rows n ot hf = Ok d /\ decoded d (map (fun r => map IdInt (r_ids r)) rows) /\
    n_events d = length rows /\ n_otypes d = Z.to_nat n /\
    event_feature d = (if hf then Some (map r_feat rows) else None).
Proof.
  intros F G rows n ot hf Ha Hs Hw Hl. destruct (init_ok F G n ot Ha) as [d0 [Hi [Es En]]].
  unfold load_event. rewrite Hi. cbn [bind]. rewrite event_field_many, field_many by auto. cbn [many].
  pose proof (r_init n ot d0 Hi) as Hr. pose proof (ids_rect _ _ _ Hw) as Hrect.
  destruct (C08_set_event_atomic _ _ d0 (A2 (s_events n ot) (ids_of rows)) (if hf then Some (map r_feat rows) else None) Hr Hrect) as [P _].
  destruct (P (ids_of rows) ltac:(congruence)) as [d [_ E]]. exists d. split; auto.
  destruct (C02_event_roundtrip _ _ _ _ _ _ _ Hr Hrect E) as [ev [E1 [E2 [_ [E3 [_ E4]]]]]].
  destruct (reachable_inv d0 Hr) as [Ht _].
  destruct (set_event_rep _ (A2 _ _) _ _ Ht Hrect E) as [rows' [_ [Hrep [F1 [F2 _]]]]].
  repeat split; auto; try congruence.
  - exists ev. split; auto. unfold s_event. rewrite F2. unfold s_event in Es. rewrite Es, <- F2. exact E2.
  - rewrite E3. unfold ids_of. rewrite map_length. auto.
Qed.

Theorem C66_load_scores_partial : forall F G (rows : list (frow G)) n ot sd hf,
  types_arg_ok n ot -> (2 <= s_events n ot)%nat -> well_formed (s_events n ot) rows -> (2 <= length rows)%nat ->
  match sd with
  | Some d => ~ st d == 0
  | None => exists r r', In r rows /\ In r' rows /\ r_score r < r_score r'
  end ->
  exists s : sdata F G, load_event_with_score rows n ot sd hf = Ok s /\
    decoded (s_data s) (map (fun r => map IdInt (r_ids r)) rows) /\
    score s = Some (map r_score rows) /\ n_events (s_data s) = length rows /\
    event_feature (s_data s) = (if hf then Some (map r_feat rows) else None) /\
    (forall d, sd = Some d -> score_domain s = Some d) /\
    (sd = None -> exists d, score_domain s = Some d /\ infer_domain (map r_score rows) = Ok d).
Proof.
  intros F G rows n ot sd hf Ha Hs Hw Hl Hd.
  destruct (C66_load_event_partial F G rows n ot hf Ha Hs Hw Hl) as [d [E [D1 [D2 [D3 D4]]]]].
  destruct (init_ok F G n ot Ha) as [d0 [Hi [Es En]]].
  unfold load_event in E. unfold load_event_with_score, s_init. rewrite Hi in *. cbn [bind] in *.
  rewrite event_field_many, !field_many in * by auto. cbn [many] in *.
  set (s0 := mkSData d0 None None None). set (ef := if hf then Some (map r_feat rows) else None) in *.
  pose proof (r_init n ot d0 Hi) as Hr. pose proof (ids_rect _ _ _ Hw) as Hrect.
  assert (Hh : shistory s0) by (apply (sh_init n ot); unfold s_init; rewrite Hi; reflexivity).
  destruct (C24_failures_partial _ _ s0 (A2 (s_events n ot) (ids_of rows)) (map r_score rows) sd ef Hh Hrect) as [_ P].
  specialize (P (ids_of rows) ltac:(cbn [s_data s0]; congruence)). cbv zeta in P.
  destruct (C08_set_event_atomic _ _ d0 (A2 (s_events n ot) (ids_of rows)) ef Hr Hrect) as [P1 _].
  destruct (P1 (ids_of rows) ltac:(congruence)) as [d' [I1 I2]].
  assert (d' = d) by (rewrite I2 in E; congruence). subst d'.
  assert (Hd' : match sd with Some d => ~ st d == 0 | None => exists x y, In x (map r_score rows) /\ In y (map r_score rows) /\ x < y end).
  { destruct sd; auto. destruct Hd as [r [r' [H1 [H2 H3]]]]. exists (r_score r), (r_score r'). auto using in_map. }
  apply P in Hd'. unfold s_set_event in *. cbn [s_data s0] in *. rewrite I1 in *.
  destruct (match sd with Some d => Ok d | None => infer_domain (map r_score rows) end) as [dm|] eqn:Edm; [|discriminate].
  destruct (n_levels_of dm) as [nl|]; [|discriminate]. eexists. split; [reflexivity|]. cbn [s_data score score_domain].
  repeat split; auto.
  - intros x ->. congruence.
  - intros ->. eauto.
Qed.

(** one-line files and events of a single identifier cannot be loaded *)
Theorem C66_one_line_raises : forall F G (r : frow G) n ot sd hf, types_arg_ok n ot ->
  load_event (F := F) [r] n ot hf = Raise IndexError /\ load_event_with_score (F := F) [r] n ot sd hf = Raise IndexError.
Proof.
  intros F G r n ot sd hf Ha. destruct (init_ok F G n ot Ha) as [d0 [Hi _]].
  unfold load_event, load_event_with_score, s_init. rewrite Hi. cbn [bind]. unfold event_field; cbn [field].
  destruct (Nat.eqb (s_events n ot) 1); split; reflexivity.
Qed.
Theorem C66_one_type_raises : forall F G (rows : list (frow G)) n ot sd hf, types_arg_ok n ot -> s_events n ot = 1%nat ->
  load_event (F := F) rows n ot hf = Raise IndexError /\ load_event_with_score (F := F) rows n ot sd hf = Raise IndexError.
Proof.
  intros F G rows n ot sd hf Ha E. destruct (init_ok F G n ot Ha) as [d0 [Hi _]].
  unfold load_event, load_event_with_score, s_init. rewrite Hi. cbn [bind]. unfold event_field. rewrite E. cbn [Nat.eqb].
  destruct (field (fun r => map IdInt (r_ids r)) rows); split; reflexivity.
Qed.

(** hence the property fails *)
Theorem C66_one_line_refuted : exists (rows : list (frow nat)) n ot, types_arg_ok n ot /\ well_formed (s_events n ot) rows /\ rows <> [] /\
  (forall hf (d : data nat nat), load_event rows n ot hf <> Ok d) /\
  (forall sd hf (s : sdata nat nat), load_event_with_score rows n ot sd hf <> Ok s).
Proof.
  exists [mkRow [7; 3]%Z 4 0%nat], 2%Z, OTNone.
  assert (Ha : types_arg_ok 2 OTNone) by (split; [lia|exact I]).
  split; auto. split; [repeat constructor|]. split; [discriminate|]. split.
  - intros hf d. rewrite (proj1 (C66_one_line_raises nat nat _ 2%Z OTNone None hf Ha)). discriminate.
  - intros sd hf s. rewrite (proj2 (C66_one_line_raises nat nat _ 2%Z OTNone sd hf Ha)). discriminate.
Qed.

Definition ex_file : list (frow nat) :=
  [mkRow [7; 30]%Z 4 100%nat; mkRow [2; 30]%Z 1 101%nat; mkRow [7; 10]%Z (5#2) 102%nat; mkRow [7; 30]%Z 4 103%nat].
Example C66_nonvacuous : types_arg_ok 2 OTNone /\ well_formed (s_events 2 OTNone) ex_file /\
  exists s : sdata nat nat, load_event_with_score ex_file 2 OTNone None true = Ok s /\
    event (s_data s) = Some [[1; 1]; [0; 1]; [1; 0]; [1; 1]]%Z /\ event_feature (s_data s) = Some [100; 101; 102; 103]%nat.
Proof.
  split; [split; [lia|exact I]|]. split; [repeat constructor|]. eexists. split; [vm_compute; reflexivity|]. split; reflexivity.
Qed.
Print Assumptions C66_load_event_partial.
Print Assumptions C66_load_scores_partial.
Print Assumptions C66_one_line_raises.
Print Assumptions C66_one_type_raises.
Print Assumptions C66_one_line_refuted.
