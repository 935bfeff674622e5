(** * Theorems about the loaders of bundled data sets (C75) *)
From Coq Require Import List ZArith QArith Lia Lqa Bool.
From Verif Require Import M_Py P_Py M_Data Spec P_Data P_Filter P_Reach P_DataThms T_Data T_Filter M_Score P_Score T_Score M_Load T_Load M_Datasets.
Import ListNotations.

(** line [k] of the file is the last one about object [x]; [f] is its record *)
Definition last_line {F} (file : list (Z * F)) (x : Z) (f : F) : Prop :=
  exists k, nth_error file k = Some (x, f) /\ forall k' f', (k < k')%nat -> nth_error file k' <> Some (x, f').

(** the features of type [t] are those of the file *)
Definition features_from {F G} (s : sdata F G) (t : nat) (ids : list Z) (file : list (Z * F)) : Prop :=
  exists fs, nth_error (feature (s_data s)) t = Some (Some fs) /\
    forall x, In x ids -> exists i f, to_iid (d_objs (s_data s)) (Z.of_nat t) (IdInt x) = Ok i /\ (0 <= i)%Z /\
      last_line file x f /\ nth_error fs (Z.to_nat i) = Some f.

(** the scored container holds the events of the file *)
Definition holds_file {F G} (s : sdata F G) (rows : list (frow G)) (d : dom) (n : Z) (hf : bool) : Prop :=
  decoded (s_data s) (map (fun r => map IdInt (r_ids r)) rows) /\ n_events (s_data s) = length rows /\
  score s = Some (map r_score rows) /\ score_domain s = Some d /\ n_score_levels s = Some n /\
  event_feature (s_data s) = (if hf then Some (map r_feat rows) else None).

Definition users_of {G} (rows : list (frow G)) : list Z := flat_map (fun r => firstn 1 (r_ids r)) rows.
Definition items_of {G} (rows : list (frow G)) : list Z := flat_map (fun r => skipn 1 (r_ids r)) rows.

Lemma loaded : forall F G (rows : list (frow G)) d n hf, well_formed 2 rows -> (2 <= length rows)%nat -> 0 < st d -> n_levels_of d = Ok n ->
  exists s : sdata F G, load_event_with_score rows 2 (OTVec [0; 1]%Z) (Some d) hf = Ok s /\ reachable (s_data s) /\
    n_otypes (s_data s) = 2%nat /\ event_otypes (s_data s) = [0; 1]%nat /\ rep (s_data s) (ids_of rows) /\ holds_file s rows d n hf /\
    feature (s_data s) = [None; None].
Proof.
  intros F G rows d n hf Hw Hl Hs Hn.
  assert (Ha : types_arg_ok 2 (OTVec [0; 1]%Z)) by (split; [lia|]; split; [discriminate|]; repeat constructor; lia).
  destruct (C66_load_scores_partial F G rows 2 (OTVec [0; 1]%Z) (Some d) hf Ha ltac:(cbn; lia) Hw Hl ltac:(cbv beta iota; lra)) as [s [E [D1 [D2 [D3 [D4 [D5 _]]]]]]].
  exists s. split; [exact E|].
  unfold load_event_with_score, s_init in E. destruct (init_ok F G 2 (OTVec [0; 1]%Z) Ha) as [d0 [Hi [Es En]]]. rewrite Hi in E. cbn [bind] in E.
  rewrite event_field_many, !field_many in E by (auto; cbn; lia). cbn [many s_events length] in E.
  pose proof (r_init 2 _ d0 Hi) as Hr. pose proof (ids_rect _ _ _ Hw) as Hq. destruct (reachable_inv _ Hr) as [Ht _].
  set (ef := if hf then Some (map r_feat rows) else None) in *.
  assert (Ho : event_otypes d0 = [0; 1]%nat /\ feature d0 = [None; None]).
  { unfold init in Hi. cbn in Hi. injection Hi as <-. split; reflexivity. }
  unfold s_set_event in E. cbn [s_data] in E. rewrite (set_event_imp_ok d0 (A2 2 (ids_of rows)) ef (reachable_inv _ Hr) Hq) in E.
  destruct (set_event d0 (A2 2 (ids_of rows)) ef) as [d1|] eqn:S1; [|discriminate]. cbn in E. rewrite Hn in E. injection E as <-.
  cbn [s_data] in *. destruct (set_event_rep _ (A2 2 (ids_of rows)) _ _ Ht Hq S1) as [r [Er [R1 [R2 [R3 [R4 _]]]]]].
  assert (r = ids_of rows) by congruence. subst r. change (Z.to_nat 2) with 2%nat in En.
  split; [apply (r_set_event d0 (A2 2 (ids_of rows)) ef); auto|]. split; [congruence|]. destruct Ho as [Ho Hf]. split; [congruence|].
  split; [exact R1|]. split; [|congruence]. repeat split; auto.
Qed.

Lemma file_nth : forall F (file : list (Z * F)) k, nth_error (map (fun r => IdInt (fst r)) file) k = option_map (fun r => IdInt (fst r)) (nth_error file k).
Proof. intros. apply nth_error_map. Qed.

Lemma last_position_line : forall F (file : list (Z * F)) x k f, last_position (map (fun r => IdInt (fst r)) file) (IdInt x) k ->
  nth_error (map snd file) k = Some f -> last_line file x f.
Proof.
  intros F file x k f [H1 H2] Hf. rewrite nth_error_map in H1, Hf. destruct (nth_error file k) as [[y g]|] eqn:E; [|discriminate].
  injection H1 as <-. injection Hf as <-. exists k. split; [exact E|]. intros k' f' Hk C. apply (H2 k' Hk). rewrite nth_error_map, C. reflexivity.
Qed.

Lemma set_feature_frame : forall F G (d d' : data F G) t ids f, set_feature d t ids f = Ok d' ->
  n_otypes d' = n_otypes d /\ d_objs d' = d_objs d /\ event_otypes d' = event_otypes d /\ n_events d' = n_events d /\ event d' = event d /\
  event_feature d' = event_feature d.
Proof.
  intros F G d d' t ids f H. unfold set_feature in H. apply bind_ok in H. destruct H as [[iid|] [_ H]]; [|discriminate].
  apply bind_ok in H. destruct H as [ix [_ H]]. apply bind_ok in H. destruct H as [r [_ H]]. apply bind_ok in H. destruct H as [fs [_ H]].
  injection H as <-. repeat split.
Qed.

(** everything but the features *)
Definition same_frame {F G} (s s' : sdata F G) : Prop :=
  n_otypes (s_data s') = n_otypes (s_data s) /\ d_objs (s_data s') = d_objs (s_data s) /\ event_otypes (s_data s') = event_otypes (s_data s) /\
  n_events (s_data s') = n_events (s_data s) /\ event (s_data s') = event (s_data s) /\ event_feature (s_data s') = event_feature (s_data s) /\
  score s' = score s /\ score_domain s' = score_domain s /\ n_score_levels s' = n_score_levels s.

Lemma attach_long : forall F G (s : sdata F G) t (file : list (Z * F)), (2 <= length file)%nat ->
  attach s t file = s_set_feature s t (map (fun r => IdInt (fst r)) file) (map snd file).
Proof. intros F G s t [|a [|b l]] H; cbn in H; try lia. reflexivity. Qed.

(** attaching one file *)
Lemma attach_ok : forall F G (s : sdata F G) t ids (file : list (Z * F)), reachable (s_data s) -> event (s_data s) <> None -> (t < n_otypes (s_data s))%nat ->
  (2 <= length file)%nat ->
  (forall x i, to_iid (d_objs (s_data s)) (Z.of_nat t) x = Ok i -> exists z, x = IdInt z /\ In z ids) ->
  (forall z, In z ids -> exists i, to_iid (d_objs (s_data s)) (Z.of_nat t) (IdInt z) = Ok i /\ (0 <= i)%Z) ->
  ((forall z, In z ids -> In z (map fst file)) ->
    exists s', attach s (Z.of_nat t) file = Ok s' /\ reachable (s_data s') /\ same_frame s s' /\
      (forall t', t' <> t -> nth_error (feature (s_data s')) t' = nth_error (feature (s_data s)) t') /\ features_from s' t ids file) /\
  ((exists z, In z ids /\ ~ In z (map fst file)) -> attach s (Z.of_nat t) file = Raise IndexError).
Proof.
  intros F G s t ids file Hr Hev Hlt Hl Hto Hof. rewrite attach_long by auto. unfold s_set_feature.
  set (es := map (fun r => IdInt (fst r)) file). assert (Hes : forall z, In (IdInt z) es <-> In z (map fst file)).
  { intros z. unfold es. rewrite !in_map_iff. split; intros [r [E H]]; exists r; split; auto; congruence. }
  destruct (C09_set_feature_total F G (s_data s) t es (map snd file) Hr Hev Hlt ltac:(unfold es; rewrite !map_length; auto)) as [T1 T2].
  split.
  - intros Hin. destruct T1 as [d' E]. { intros x i H. destruct (Hto x i H) as [z [-> Hz]]. apply Hes. auto. }
    rewrite E. cbn [bind]. eexists. split; [reflexivity|]. cbn [s_data]. split; [apply (r_set_feature (s_data s) (Z.of_nat t) es (map snd file)); auto|].
    destruct (set_feature_frame _ _ _ _ _ _ _ E) as [A1 [A2' [A3 [A4 [A5 A6]]]]].
    destruct (C09_set_feature F G _ _ _ _ _ Hr Hev Hlt E) as [_ [_ [B1 [fs [B2 [_ B4]]]]]].
    split; [unfold same_frame; cbn [s_data score score_domain n_score_levels]; repeat split; auto|]. split; [exact B1|].
    exists fs. cbn [s_data]. split; [exact B2|]. intros z Hz. destruct (Hof z Hz) as [i [Hi Hpos]]. exists i.
    destruct (B4 _ _ Hi) as [k [f [K1 [K2 K3]]]]. exists f. rewrite A2'. split; [exact Hi|]. split; [exact Hpos|]. split; [|exact K3].
    destruct K1 as [K1|[K1 _]]; [|exfalso; apply K1; apply Hes; auto]. eapply last_position_line; eauto.
  - intros [z [Hz Hno]]. rewrite T2; [reflexivity|]. destruct (Hof z Hz) as [i [Hi _]]. exists (IdInt z), i. split; [exact Hi|]. rewrite Hes. exact Hno.
Qed.

Lemma occurs_type : forall G (rows : list (frow G)) x, well_formed 2 rows ->
  (occurs [0; 1]%nat 0 (ids_of rows) x <-> exists z, x = IdInt z /\ In z (users_of rows)) /\
  (occurs [0; 1]%nat 1 (ids_of rows) x <-> exists z, x = IdInt z /\ In z (items_of rows)).
Proof.
  intros G rows x Hw. rewrite <- !U_in. unfold U. rewrite !(np_unique_in _ idcmp_laws idcmp_eq).
  induction Hw as [|r rows Hr Hw IH].
  - cbn. split; (split; [tauto|intros [z [_ []]]]).
  - destruct r as [ids sc f]. cbn in Hr. destruct ids as [|u [|i [|? ids]]]; try discriminate.
    destruct IH as [I1 I2].
    change (type_entries [0; 1]%nat 0 (ids_of (mkRow [u; i] sc f :: rows))) with (IdInt u :: type_entries [0; 1]%nat 0 (ids_of rows)).
    change (type_entries [0; 1]%nat 1 (ids_of (mkRow [u; i] sc f :: rows))) with (IdInt i :: type_entries [0; 1]%nat 1 (ids_of rows)).
    change (users_of (mkRow [u; i] sc f :: rows)) with (u :: users_of rows). change (items_of (mkRow [u; i] sc f :: rows)) with (i :: items_of rows).
    cbn [In]. rewrite I1, I2. split; split.
    + intros [<-|[z [-> H]]]; eauto.
    + intros [z [-> [<-|H]]]; eauto.
    + intros [<-|[z [-> H]]]; eauto.
    + intros [z [-> [<-|H]]]; eauto.
Qed.

Lemma holds_frame : forall F G (s s' : sdata F G) rows d n hf, same_frame s s' -> holds_file s rows d n hf -> holds_file s' rows d n hf.
Proof.
  intros F G s s' rows d n hf [A1 [A2' [A3 [A4 [A5 [A6 [A7 [A8 A9]]]]]]]] [B1 [B2 [B3 [B4 [B5 B6]]]]]. unfold holds_file, decoded, s_event in *.
  rewrite A2', A3, A4, A5, A6, A7, A8, A9. repeat split; auto.
Qed.

Lemma rep_known : forall F G (s : sdata F G) (rows : list (frow G)) t ids, rep (s_data s) (ids_of rows) -> (t < n_otypes (s_data s))%nat ->
  (forall x, occurs (event_otypes (s_data s)) t (ids_of rows) x <-> exists z, x = IdInt z /\ In z ids) ->
  (forall x i, to_iid (d_objs (s_data s)) (Z.of_nat t) x = Ok i -> exists z, x = IdInt z /\ In z ids) /\
  (forall z, In z ids -> exists i, to_iid (d_objs (s_data s)) (Z.of_nat t) (IdInt z) = Ok i /\ (0 <= i)%Z).
Proof.
  intros F G s rows t ids [Ho _] Hlt Hocc. rewrite Ho. split.
  - intros x i H. rewrite gen_to_iid in H by auto. destruct (in_dec id_eq_dec x _) as [Hi|]; [|discriminate]. apply U_in in Hi. apply Hocc; auto.
  - intros z Hz. rewrite gen_to_iid by auto. destruct (in_dec id_eq_dec (IdInt z) _) as [Hi|Hi]; [eexists; split; [reflexivity|lia]|].
    exfalso. apply Hi. apply U_in, Hocc. eauto.
Qed.

(** ** C75 *)
Lemma load_features : forall F G (rows : list (frow G)) (users items : list (Z * F)) d n hf,
  well_formed 2 rows -> (2 <= length rows)%nat -> (2 <= length users)%nat -> (2 <= length items)%nat -> 0 < st d -> n_levels_of d = Ok n ->
  ((forall x, In x (users_of rows) -> In x (map fst users)) -> (forall x, In x (items_of rows) -> In x (map fst items)) ->
     exists s, load_with_features d rows users items hf = Ok s /\ holds_file s rows d n hf /\
       features_from s 0 (users_of rows) users /\ features_from s 1 (items_of rows) items) /\
  ((exists x, In x (users_of rows) /\ ~ In x (map fst users)) \/ (exists x, In x (items_of rows) /\ ~ In x (map fst items)) ->
     load_with_features d rows users items hf = Raise IndexError).
Proof.
  intros F G rows users items d n hf Hw Hl Hu Hi Hs Hn.
  destruct (loaded F G rows d n hf Hw Hl Hs Hn) as [s [E [Hr [Hno [Hot [Hrep [Hh Hf]]]]]]].
  unfold load_with_features. rewrite E. cbn [bind].
  assert (Hev : event (s_data s) <> None) by (destruct Hrep as [_ [V _]]; congruence).
  assert (O0 : forall x, occurs (event_otypes (s_data s)) 0 (ids_of rows) x <-> exists z, x = IdInt z /\ In z (users_of rows)) by (intros; rewrite Hot; apply occurs_type; auto).
  assert (O1 : forall x, occurs (event_otypes (s_data s)) 1 (ids_of rows) x <-> exists z, x = IdInt z /\ In z (items_of rows)) by (intros; rewrite Hot; apply occurs_type; auto).
  destruct (rep_known F G s rows 0 _ Hrep ltac:(lia) O0) as [P1 P2]. destruct (rep_known F G s rows 1 _ Hrep ltac:(lia) O1) as [P3 P4].
  destruct (attach_ok F G s 0 (users_of rows) users Hr Hev ltac:(lia) Hu P1 P2) as [A1 A2'].
  assert (Hdec : forall (l : list Z) (m : list Z), (forall x, In x l -> In x m) \/ (exists x, In x l /\ ~ In x m)).
  { intros l m. induction l as [|x l [IH|[y [IH IH']]]]; [left; cbn; tauto| |right; exists y; split; [right|]; auto].
    destruct (in_dec Z.eq_dec x m); [left; intros y [<-|Hy]; auto|right; exists x; split; [left|]; auto]. }
  split.
  - intros H1 H2. destruct (A1 H1) as [s1 [E1 [R1 [F1 [G1 U1]]]]]. change (Z.of_nat 0) with 0%Z in E1. rewrite E1. cbn [bind].
    pose proof F1 as [N1 [B1 [B2 [B3 [B4 _]]]]].
    destruct (attach_ok F G s1 1 (items_of rows) items R1 ltac:(congruence) ltac:(rewrite N1; lia) Hi ltac:(rewrite B1; exact P3) ltac:(rewrite B1; exact P4)) as [C1 _].
    destruct (C1 H2) as [s2 [E2 [R2 [F2 [G2 U2]]]]]. exists s2. split; [exact E2|]. split; [eapply holds_frame; [exact F2|]; eapply holds_frame; eauto|].
    split; [|exact U2]. destruct U1 as [fs [V1 V2]]. exists fs. rewrite G2 by lia. split; [exact V1|].
    destruct F2 as [_ [D1 _]]. rewrite D1. exact V2.
  - intros H. destruct (Hdec (users_of rows) (map fst users)) as [H1|H1].
    2:{ change 0%Z with (Z.of_nat 0). rewrite (A2' H1). reflexivity. }
    destruct H as [[x [X1 X2]]|H]; [exfalso; apply X2; auto|].
    destruct (A1 H1) as [s1 [E1 [R1 [F1 [G1 U1]]]]]. change (Z.of_nat 0) with 0%Z in E1. rewrite E1. cbn [bind].
    pose proof F1 as [N1 [B1 [B2 [B3 [B4 _]]]]].
    destruct (attach_ok F G s1 1 (items_of rows) items R1 ltac:(congruence) ltac:(rewrite N1; lia) Hi ltac:(rewrite B1; exact P3) ltac:(rewrite B1; exact P4)) as [_ C2].
    exact (C2 H).
Qed.

(** the three loaders with features: [loads] is the behaviour of a loader with
    domain [d] of [n] levels *)
Definition loads {F G} (load : list (frow G) -> list (Z * F) -> list (Z * F) -> bool -> res (sdata F G)) (d : dom) (n : Z) : Prop :=
  forall rows users items hf, well_formed 2 rows -> (2 <= length rows)%nat -> (2 <= length users)%nat -> (2 <= length items)%nat ->
  ((forall x, In x (users_of rows) -> In x (map fst users)) -> (forall x, In x (items_of rows) -> In x (map fst items)) ->
     exists s, load rows users items hf = Ok s /\ holds_file s rows d n hf /\
       features_from s 0 (users_of rows) users /\ features_from s 1 (items_of rows) items) /\
  ((exists x, In x (users_of rows) /\ ~ In x (map fst users)) \/ (exists x, In x (items_of rows) /\ ~ In x (map fst items)) ->
     load rows users items hf = Raise IndexError).

Theorem C75_features : forall F G, loads (@load_movielens100k F G) (mkDom 1 5 1) 5 /\ loads (@load_movielens1m F G) (mkDom 1 5 1) 5 /\
  loads (@load_sushi3b_score F G) (mkDom 0 4 1) 5 /\
  loads (fun rows users items hf => if hf then @load_movielens_mini F G rows users items else @load_movielens100k F G rows users items false) (mkDom 1 5 1) 5.
Proof.
  intros F G. assert (forall d n, 0 < st d -> n_levels_of d = Ok n -> loads (@load_with_features F G d) d n).
  { intros d n Hs Hn rows users items hf Hw H1 H2 H3. apply load_features; auto. }
  split; [|split; [|split]]; try (apply H; reflexivity).
  intros rows users items [|] Hw H1 H2 H3; apply load_features; auto; reflexivity.
Qed.

(** one-line feature files cannot be loaded *)
Theorem C75_one_line_raises : forall F G (rows : list (frow G)) (users items : list (Z * F)) d hf,
  well_formed 2 rows -> (2 <= length rows)%nat -> 0 < st d -> length users = 1%nat ->
  load_with_features d rows users items hf = Raise TypeError.
Proof.
  intros F G rows users items d hf Hw Hl Hs Hu. 
  destruct (n_levels_of d) as [n|] eqn:Hn.
  2:{ unfold n_levels_of in Hn. rewrite stride_bool in Hn by auto. discriminate. }
  destruct (loaded F G rows d n hf Hw Hl Hs Hn) as [s [E _]]. unfold load_with_features. rewrite E. destruct users as [|u [|]]; try discriminate. reflexivity.
Qed.

Theorem C75_flixster : forall F G (rows : list (frow G)) hf, well_formed 2 rows -> (2 <= length rows)%nat ->
  exists s : sdata F G, load_flixster_rating rows hf = Ok s /\ holds_file s rows (mkDom (1#2) 5 (1#2)) 10 hf.
Proof.
  intros F G rows hf Hw Hl. destruct (loaded F G rows (mkDom (1#2) 5 (1#2)) 10 hf Hw Hl ltac:(reflexivity) ltac:(reflexivity)) as [s [E [_ [_ [_ [_ [H _]]]]]]]. eauto.
Qed.

(** ** C76: the sample of "Programming Collective Intelligence": names longer than 18
    characters are cut, the documented five levels are nine *)
Theorem C76_pci_partial : forall F G (rows : list (list (list N) * Q)), Forall (fun r => length (fst r) = 2%nat) rows -> (2 <= length rows)%nat ->
  exists s : sdata F G, load_pci_sample rows = Ok s /\
    decoded (s_data s) (map (fun r => map (fun x => IdStr (firstn 18 x)) (fst r)) rows) /\
    score s = Some (map snd rows) /\ n_score_levels s = Some 9%Z.
Proof.
  intros F G rows Hw Hl. unfold load_pci_sample. cbn [s_init init bind].
  assert (Ha : types_arg_ok 2 (OTVec [0; 1]%Z)) by (split; [lia|]; split; [discriminate|]; repeat constructor; lia).
  unfold s_init. destruct (init_ok F G 2 (OTVec [0; 1]%Z) Ha) as [d0 [Hi [Es En]]]. rewrite Hi. cbn [bind].
  set (ids := map (fun r => map (fun x => IdStr (firstn 18 x)) (fst r)) rows).
  assert (Hp : pci_event rows = A2 2 ids). { unfold pci_event. fold ids. unfold ids. destruct rows as [|a [|b l]]; cbn in Hl; try lia; reflexivity. }
  rewrite Hp. pose proof (r_init 2 _ d0 Hi) as Hr. destruct (reachable_inv _ Hr) as [Ht _].
  assert (Hq : rect 2 ids). { unfold rect, ids. apply Forall_map. eapply Forall_impl; [|exact Hw]. intros r E. cbn beta. rewrite map_length. exact E. }
  unfold s_set_event. cbn [s_data]. rewrite (set_event_imp_ok d0 (A2 2 ids) None (reachable_inv _ Hr) Hq).
  destruct (C08_set_event_atomic _ _ d0 (A2 2 ids) None Hr Hq) as [P1 _]. cbn in Es.
  destruct (P1 ids ltac:(rewrite Es; reflexivity)) as [d1 [_ S1]]. rewrite S1. cbn [bind].
  eexists. split; [reflexivity|]. cbn [s_data score n_score_levels]. split; [|split; reflexivity].
  destruct (C02_event_roundtrip _ _ _ _ _ _ _ Hr Hq S1) as [ev [E1 [E2 _]]]. exists ev. split; [exact E1|].
  destruct (set_event_rep _ (A2 2 ids) _ _ Ht Hq S1) as [r [_ [_ [_ [R3 _]]]]]. unfold s_event in *. rewrite R3, Es in *. exact E2.
Qed.

(** two names that differ after the 18th character become one object *)
Definition name (l : list N) (c : N) : list N := l ++ [c].
Theorem C76_pci_names_refuted : exists rows, Forall (fun r : list (list N) * Q => length (fst r) = 2%nat) rows /\
  NoDup (map (fun r => nth 1 (fst r) []) rows) /\ length rows = 2%nat /\
  exists s : sdata nat nat, load_pci_sample rows = Ok s /\ nth_error (o_n (d_objs (s_data s))) 1 = Some 1%Z.
Proof.
  exists [([[65%N]; name (repeat 97%N 18) 98%N], 1); ([[65%N]; name (repeat 97%N 18) 99%N], 2)].
  split; [repeat constructor|]. split. { constructor; [|constructor; [tauto|constructor]]. cbn. intros [E|[]]. discriminate. }
  split; [reflexivity|]. eexists. split; [vm_compute; reflexivity|reflexivity].
Qed.

(** levels: the documented domain is 1, 2, 3, 4, 5 *)
Theorem C76_pci_levels_refuted : exists rows, Forall (fun r : list (list N) * Q => length (fst r) = 2%nat) rows /\ rows <> [] /\
  exists s : sdata nat nat, load_pci_sample rows = Ok s /\ n_score_levels s <> Some 5%Z.
Proof.
  exists [([[65%N]; [66%N]], 1); ([[65%N]; [67%N]], 2)]. split; [repeat constructor|]. split; [discriminate|].
  eexists. split; [vm_compute; reflexivity|discriminate].
Qed.

Example C75_nonvacuous :
  exists s, load_movielens100k ex_file [(2%Z, 20%nat); (9%Z, 90%nat); (7%Z, 70%nat)] [(30%Z, 300%nat); (10%Z, 100%nat); (30%Z, 301%nat)] true = Ok s /\
    feature (s_data s) = [Some [20; 70]; Some [100; 301]]%nat /\ n_score_levels s = Some 5%Z /\
    load_movielens100k ex_file [(2%Z, 20%nat); (9%Z, 90%nat)] [(30%Z, 300%nat); (10%Z, 100%nat)] true = Raise IndexError.
Proof. eexists. split; [vm_compute; reflexivity|]. repeat split. Qed.
Print Assumptions C75_features.
Print Assumptions C75_one_line_raises.
Print Assumptions C75_flixster.
Print Assumptions C76_pci_partial.
Print Assumptions C76_pci_names_refuted.
Print Assumptions C76_pci_levels_refuted.
