(** * Names of users and items (C74): only the order of the identifiers enters
    the internal codes, hence training *)
From Coq Require Import List ZArith QArith Qreals Reals Lra Lia Bool.
From Verif Require Import M_Py P_Py M_Data Spec P_Data P_Filter P_Reach P_DataThms T_Data M_Score P_Score T_Score.
From Verif Require Import M_Rec P_Rec T_Rec M_Sigmoid P_RSum P_Exp T_Sigmoid M_MF P_MF T_MF T_MF2 T_MFInit T_Implicit M_MFRec T_MFRec.
From Verif Require Import M_PLSA P_PLSA P_PLSA2 T_PLSA T_PLSA2 T_MF3 T_PLSA3 T_MFRec2.
Import ListNotations.

(** a renaming that keeps the order of identifiers *)
Definition order_preserving (g : ext_id -> ext_id) : Prop := forall x y, idcmp (g x) (g y) = idcmp x y.

(** an event with the objects of each type renamed *)
Definition rename (ot : list nat) (g : nat -> ext_id -> ext_id) (row : list ext_id) : list ext_id :=
  map (fun tx => g (fst tx) (snd tx)) (combine ot row).

Lemma order_inj : forall g, order_preserving g -> forall x y, g x = g y -> x = y.
Proof. intros g H x y E. apply idcmp_eq. rewrite <- H, E. apply (cmp_refl _ idcmp_laws). Qed.

Lemma pos_map : forall g x l, order_preserving g -> pos (g x) (map g l) = pos x l.
Proof.
  intros g x l H. induction l as [|y l IH]; cbn; auto. rewrite IH.
  assert (E : id_eqb (g x) (g y) = id_eqb x y).
  { apply eq_true_iff_eq. split; intros Q; apply id_eqb_eq in Q; apply id_eqb_eq; [eapply order_inj; eauto|congruence]. }
  rewrite E. auto.
Qed.

Lemma combine_rename : forall ot g row, combine ot (rename ot g row) = map (fun tx => (fst tx, g (fst tx) (snd tx))) (combine ot row).
Proof. unfold rename. induction ot as [|t ot IH]; intros g [|x row]; cbn; auto. f_equal. apply IH. Qed.

Lemma U_rename : forall ot g t rows, (forall t, order_preserving (g t)) -> U ot t (map (rename ot g) rows) = map (g t) (U ot t rows).
Proof.
  intros ot g t rows H. unfold U. rewrite <- (np_unique_map _ _ _ _ idcmp_laws idcmp_laws idcmp_eq idcmp_eq (g t)).
  2:{ intros x y _ _ Hc. rewrite H. auto. }
  apply (np_unique_ext _ idcmp_laws idcmp_eq). intros x. rewrite in_map_iff. rewrite type_entries_in. split.
  - intros [row [Hr Hx]]. apply in_map_iff in Hr. destruct Hr as [row0 [<- Hr]]. rewrite combine_rename in Hx.
    apply in_map_iff in Hx. destruct Hx as [[t' y] [E Hy]]. cbn in E. injection E as -> <-. exists y. split; auto.
    apply type_entries_in. eauto.
  - intros [y [<- Hy]]. apply type_entries_in in Hy. destruct Hy as [row [Hr Hy]]. exists (rename ot g row). split; [apply in_map; auto|].
    rewrite combine_rename. apply in_map_iff. exists (t, y). auto.
Qed.

Lemma enc_rename : forall ot g rows row, (forall t, order_preserving (g t)) ->
  enc ot (map (rename ot g) rows) (rename ot g row) = enc ot rows row.
Proof.
  intros ot g rows row H. unfold enc. rewrite combine_rename, map_map. apply map_ext. intros [t x]. unfold enc1. cbn [fst snd].
  rewrite U_rename by auto. rewrite pos_map by auto. auto.
Qed.

Lemma rename_length : forall ot g row, length row = length ot -> length (rename ot g row) = length ot.
Proof. intros. unfold rename. rewrite map_length, combine_length. lia. Qed.

Lemma rename_rect : forall ot g rows, rect (length ot) rows -> rect (length ot) (map (rename ot g) rows).
Proof. intros ot g rows H. unfold rect in *. induction H; constructor; auto. apply rename_length. auto. Qed.

(** ** Tables and events of the renamed data *)
Theorem C74_tables : forall F G (d d1 : data F G) g rows ef, reachable d -> (forall t, order_preserving (g t)) ->
  let c := length (event_otypes d) in rect c rows -> set_event d (A2 c rows) ef = Ok d1 ->
  exists d2, set_event d (A2 c (map (rename (event_otypes d) g) rows)) ef = Ok d2 /\
    event d2 = event d1 /\ n_events d2 = n_events d1 /\ o_n (d_objs d2) = o_n (d_objs d1) /\
    feature d2 = feature d1 /\ event_feature d2 = event_feature d1 /\
    forall t, (t < n_otypes d)%nat ->
      (forall x, to_iid (d_objs d2) (Z.of_nat t) (g t x) = to_iid (d_objs d1) (Z.of_nat t) x) /\
      (forall i, to_eid (d_objs d2) (Z.of_nat t) i =
                 match to_eid (d_objs d1) (Z.of_nat t) i with Ok x => Ok (g t x) | Raise e => Raise e end).
Proof.
  intros F G d d1 g rows ef Hr Hg c Hq S1. pose proof (rename_rect _ g rows Hq) as Hq2.
  destruct (reachable_inv _ Hr) as [Ht _].
  destruct (set_event_total d (map (rename (event_otypes d) g) rows) ef Ht) as [d2 S2]. exists d2. split; [exact S2|].
  destruct (set_event_rep _ (A2 c rows) _ _ Ht Hq S1) as [r1 [E1 [P1 [N1 [O1 [K1 L1]]]]]].
  destruct (set_event_rep _ (A2 c (map (rename (event_otypes d) g) rows)) _ _ Ht Hq2 S2) as [r2 [E2 [P2 [N2 [O2 [K2 L2]]]]]].
  injection E1 as <-. injection E2 as <-. destruct P1 as [A1 [A2' [A3 _]]]. destruct P2 as [B1 [B2 [B3 _]]].
  rewrite N1, O1 in *. rewrite N2, O2 in *.
  split. { rewrite A2', B2. f_equal. rewrite map_map. apply map_ext. intros row. apply enc_rename. auto. }
  split. { rewrite A3, B3. apply map_length. }
  split. { rewrite A1, B1, !gen_o_n. apply map_ext. intros t. rewrite U_rename by auto. rewrite map_length. auto. }
  split; [congruence|]. split; [congruence|].
  intros t Hlt. rewrite A1, B1. split.
  - intros x. rewrite !gen_to_iid by auto. rewrite U_rename, pos_map by auto.
    destruct (in_dec id_eq_dec (g t x) (map (g t) (U (event_otypes d) t rows))) as [H|H],
      (in_dec id_eq_dec x (U (event_otypes d) t rows)) as [H'|H']; auto; exfalso.
    + apply in_map_iff in H. destruct H as [y [E Hy]]. apply order_inj in E; auto. subst y. auto.
    + apply H. apply in_map. auto.
  - intros i. rewrite !gen_to_eid by auto. rewrite U_rename by auto.
    assert (M : forall l, np_get (map (g t) l) i = match np_get l i with Ok x => Ok (g t x) | Raise e => Raise e end).
    { intros l. unfold np_get. rewrite map_length. destruct (np_norm (length l) i) as [k|]; cbn [bind]; auto.
      rewrite nth_error_map. destruct (nth_error l k); reflexivity. }
    rewrite M. destruct (np_get (U (event_otypes d) t rows) i); reflexivity.
Qed.

(** ** Recommenders *)

(** the training part of fit reads numbers of objects but no identifiers *)
Definition retable {G Par} (r : rec G Par) (e : list (option (list ext_id))) (i : list (option (dict ext_id Z))) : rec G Par :=
  mkRec (match r_objs r with Some o => Some (mkObjs (o_n o) e i) | None => None end) (r_otypes r) (r_n_events r) (r_event r)
    (r_feature r) (r_index r) (r_rng r) (r_domain r) (r_score r) (r_levels r) (r_par r).

(** containers that differ in the identifiers only *)
Definition alike {F G} (d1 d2 : data F G) : Prop :=
  event_otypes d2 = event_otypes d1 /\ event d2 = event d1 /\ n_events d2 = n_events d1 /\
  o_n (d_objs d2) = o_n (d_objs d1) /\ event_feature d2 = event_feature d1.

Lemma base_fit_alike : forall F G Par (r : rec G Par) (d1 d2 : data F G) ix, alike d1 d2 ->
  base_fit r d2 ix = (retable (fst (base_fit r d1 ix)) (o_eid (d_objs d2)) (o_iid (d_objs d2)), snd (base_fit r d1 ix)).
Proof.
  intros F G Par r d1 d2 ix [E1 [E2 [E3 [E4 E5]]]].
  destruct d2 as [m2 [on oe oi] f2 ot2 ne2 ev2 ef2]. cbn [event_otypes event n_events d_objs o_n o_eid o_iid event_feature] in *. subst.
  unfold base_fit, set_object_info, set_event_info. cbn [event_otypes event n_events d_objs o_n o_eid o_iid event_feature].
  destruct (event d1) as [ev|]; [|reflexivity].
  destruct (mapM _ ev) as [ev'|]; [|reflexivity]. destruct (np_take (o_n (d_objs d1)) _) as [n1|]; [|reflexivity].
  destruct (np_take n1 _) as [n2|]; reflexivity.
Qed.

Lemma named_fun : forall F G (d : data F G) rows u1 u2, reachable d -> event d <> None -> event_otypes d = [0; 1]%nat ->
  Forall2 (named d) rows u1 -> Forall2 (named d) rows u2 -> u1 = u2.
Proof.
  intros F G d rows u1 u2 Hd He Hot V1 V2. destruct (reach_rep d Hd He) as [[Hty _] _]. rewrite Hot in Hty. rewrite Forall_forall in Hty.
  revert u2 V2. induction V1 as [|row [a b] rows u1 [x [y [E [C1 C2]]]] _ IH]; intros u2 V2; inversion V2 as [|? [a' b'] ? u2' [x' [y' [E' [C1' C2']]]] V']; subst; auto.
  injection E' as <- <-. cbn [fst snd] in *.
  destruct (C25_code F G d 0 x Hd He ltac:(apply Hty; cbn; auto)) as [n0 [i0 [_ [_ [Q1 _]]]]].
  destruct (C25_code F G d 1 y Hd He ltac:(apply Hty; cbn; auto)) as [n1 [i1 [_ [_ [Q3 _]]]]].
  apply Q1 in C1, C1'. apply Q3 in C2, C2'. f_equal; [|auto]. f_equal; lia.
Qed.

(** renaming of integer identifiers in a query *)
Definition rename_query (h : nat -> Z -> Z) (row : list Z) : list Z := map (fun tx => h (fst tx) (snd tx)) (combine [0; 1]%nat row).

(** two fits end the same way; if they succeed, the second recommender answers
    renamed queries as the first one answers queries *)
Definition same_up_to_names {G Par} (h : nat -> Z -> Z) (f1 f2 : rec G Par * option exn) : Prop :=
  snd f2 = snd f1 /\
  (snd f1 = None -> r_par (fst f2) = r_par (fst f1) /\
   forall V (raw : Par -> list (list Z) -> res (list V)) rows, rows <> [] -> rect 2 rows ->
     predict raw (fst f2) (A2 2 (map (rename_query h) rows)) = predict raw (fst f1) (A2 2 rows)).

(** [d2] is [d1] with the identifiers renamed by [h] *)
Definition relabelled {F G} (h : nat -> Z -> Z) (d1 d2 : data F G) : Prop :=
  alike d1 d2 /\ forall t x, (t < n_otypes d1)%nat -> to_iid (d_objs d2) (Z.of_nat t) (IdInt (h t x)) = to_iid (d_objs d1) (Z.of_nat t) (IdInt x).

Lemma predict_relabelled : forall F G Par V (raw : Par -> list (list Z) -> res (list V)) h (d1 d2 : data F G) ix t (r1 r2 : rec G Par) rows,
  user_item d1 ix -> user_item d2 ix -> relabelled h d1 d2 -> fit_from d1 ix r1 -> fit_from d2 ix r2 ->
  r_par r1 = Some t -> r_par r2 = Some t -> rows <> [] -> rect 2 rows ->
  predict raw r2 (A2 2 (map (rename_query h) rows)) = predict raw r1 (A2 2 rows).
Proof.
  intros F G Par V raw h d1 d2 ix t r1 r2 rows U1 U2 [[A1 [A2' [A3 [A4 A5]]]] Hl] F1 F2 P1 P2 Hne Hq.
  destruct (training_view F G Par r1 d1 ix U1) as [_ [_ [nu [ni [_ [_ [_ [_ [_ [_ [_ [Hnu [Hni _]]]]]]]]]]]]].
  destruct (predict_codes F G Par V d1 ix nu ni t r1 U1 F1 Hnu Hni P1 rows Hne Hq) as [uis1 [N1 [_ E1]]].
  destruct (predict_codes F G Par V d2 ix nu ni t r2 U2 F2) with (rows := map (rename_query h) rows) as [uis2 [N2 [_ E2]]]; auto; try congruence.
  { destruct rows; [congruence|discriminate]. }
  { unfold rect in *. clear - Hq. induction Hq as [|row rows Hr _ IH]; constructor; auto. destruct row as [|a [|b [|c row]]]; try discriminate. reflexivity. }
  rewrite E1, E2. destruct U1 as [R1 [Ev1 [O1 _]]]. destruct U2 as [R2 [Ev2 [O2 _]]].
  destruct (reach_rep d1 R1 Ev1) as [[Hty _] _]. rewrite O1 in Hty. rewrite Forall_forall in Hty.
  assert (N : Forall2 (named d2) (map (rename_query h) rows) uis1).
  { clear - N1 Hl A4 Hty. induction N1 as [|row [u i] rows uis [x [y [-> [C1 C2]]]] _ IH]; constructor; auto.
    exists (h 0%nat x), (h 1%nat y). split; [reflexivity|]. unfold code in *. cbn [fst snd] in *.
    rewrite A4, !Hl by (apply Hty; cbn; auto). auto. }
  rewrite (named_fun F G d2 _ _ _ R2 Ev2 O2 N2 N). reflexivity.
Qed.

(** the two containers *)
Lemma relabelled_view : forall F G (s s1 s2 : sdata F G) g h rows sc sd ef ix, reachable (s_data s) -> event_otypes (s_data s) = [0; 1]%nat ->
  (ix = None \/ ix = Some [0; 1]%Z) -> (forall t, order_preserving (g t)) -> (forall t x, g t (IdInt x) = IdInt (h t x)) -> rect 2 rows ->
  s_set_event s (A2 2 rows) sc sd ef = (s1, None) -> s_set_event s (A2 2 (map (rename [0; 1]%nat g) rows)) sc sd ef = (s2, None) ->
  user_item (s_data s1) ix /\ user_item (s_data s2) ix /\ relabelled h (s_data s1) (s_data s2) /\
  score s2 = score s1 /\ score_domain s2 = score_domain s1 /\ n_score_levels s2 = n_score_levels s1.
Proof.
  intros F G s s1 s2 g h rows sc sd ef ix Hr Hot Hix Hg Hh Hq S1 S2.
  assert (Hq2 : rect 2 (map (rename [0; 1]%nat g) rows)) by (apply (rename_rect [0; 1]%nat); auto).
  destruct (set_scored_inv F G s s1 rows sc sd ef Hr Hq S1) as [T1 [C1 _]].
  destruct (set_scored_inv F G s s2 _ sc sd ef Hr Hq2 S2) as [T2 [C2 _]].
  destruct (C74_tables F G (s_data s) (s_data s1) g rows ef Hr Hg) as [d2 [T [K1 [K2 [K3 [K4 [K5 K6]]]]]]].
  { rewrite Hot. exact Hq. } { rewrite Hot. exact T1. }
  rewrite Hot in T. cbn [length] in T. rewrite T2 in T. injection T as <-.
  destruct (reachable_inv _ Hr) as [Ht _].
  destruct (set_event_rep _ (A2 2 rows) _ _ Ht Hq T1) as [r1 [_ [R1 [N1 [O1 _]]]]].
  destruct (set_event_rep _ (A2 2 (map (rename [0; 1]%nat g) rows)) _ _ Ht Hq2 T2) as [r2 [_ [R2 [N2 [O2 _]]]]].
  destruct R1 as [_ [V1 _]]. destruct R2 as [_ [V2 _]].
  split. { repeat split; auto; [|congruence|congruence]. apply (r_set_event (s_data s) (A2 2 rows) ef); auto. }
  split. { repeat split; auto; [|congruence|congruence]. apply (r_set_event (s_data s) (A2 2 (map (rename [0; 1]%nat g) rows)) ef); auto. }
  split. { split; [repeat split; auto; congruence|]. intros t x Hlt. rewrite <- Hh. apply K6. congruence. }
  split; [congruence|].
  assert (E : forall x, set_event_imp (s_data s) (A2 2 x) ef = match set_event (s_data s) (A2 2 x) ef with Ok d' => (d', None) | Raise e => (s_data s, Some e) end -> True) by auto.
  clear E. unfold s_set_event in S1, S2. rewrite set_event_imp_ok in S1, S2 by (auto using reachable_inv). rewrite T1 in S1. rewrite T2 in S2.
  destruct (match sd with Some d => Ok d | None => infer_domain sc end) as [dm|e]; [|discriminate].
  destruct (n_levels_of dm) as [n|]; [|discriminate]. injection S1 as <-. injection S2 as <-. auto.
Qed.

Lemma set_par_retable : forall G Par (r : rec G Par) p e i, set_par (retable r e i) p = retable (set_par r p) e i.
Proof. reflexivity. Qed.

Section Fits.
  Variables (F G : Type) (s s1 s2 : sdata F G) (g : nat -> ext_id -> ext_id) (h : nat -> Z -> Z) (rows : list (list ext_id))
    (sc : list Q) (sd : option dom) (ef : option (list G)) (ix : option (list Z)).
  Hypotheses (Hr : reachable (s_data s)) (Hot : event_otypes (s_data s) = [0; 1]%nat) (Hix : ix = None \/ ix = Some [0; 1]%Z)
    (Hg : forall t, order_preserving (g t)) (Hh : forall t x, g t (IdInt x) = IdInt (h t x)) (Hq : rect 2 rows)
    (S1 : s_set_event s (A2 2 rows) sc sd ef = (s1, None))
    (S2 : s_set_event s (A2 2 (map (rename [0; 1]%nat g) rows)) sc sd ef = (s2, None)).

  Lemma score_fit_names : forall Par (train1 train2 : rec G Par -> option Par * option exn) r,
    (forall r e i, train2 (retable r e i) = train1 r) -> (forall r p, train1 r = (p, None) -> p <> None) ->
    same_up_to_names h (model_fit score_fit train1 r s1 ix) (model_fit score_fit train2 r s2 ix).
  Proof.
    intros Par train1 train2 r Ht Hp.
    destruct (relabelled_view F G s s1 s2 g h rows sc sd ef ix Hr Hot Hix Hg Hh Hq S1 S2) as [U1 [U2 [Hl [E1 [E2 E3]]]]].
    pose proof Hl as [Ha _]. pose proof (base_fit_alike F G Par r (s_data s1) (s_data s2) ix Ha) as B.
    destruct (model_fit score_fit train1 r s1 ix) as [r1 x1] eqn:M1. destruct (model_fit score_fit train2 r s2 ix) as [r2 x2] eqn:M2.
    pose proof M1 as M1'. pose proof M2 as M2'.
    unfold model_fit, score_fit in M1, M2. rewrite B in M2. destruct (base_fit r (s_data s1) ix) as [a [e|]]; cbn [fst snd] in M2.
    { injection M1 as <- <-. injection M2 as <- <-. split; [reflexivity|discriminate]. }
    assert (Es : set_score_info (retable a (o_eid (d_objs (s_data s2))) (o_iid (d_objs (s_data s2)))) s2 =
                 retable (set_score_info a s1) (o_eid (d_objs (s_data s2))) (o_iid (d_objs (s_data s2)))).
    { unfold set_score_info. rewrite E1, E2, E3. reflexivity. }
    rewrite Es, Ht in M2. destruct (train1 (set_score_info a s1)) as [p [e|]] eqn:Et.
    { injection M1 as <- <-. injection M2 as <- <-. split; [reflexivity|discriminate]. }
    injection M1 as <- <-. injection M2 as <- <-. split; [reflexivity|]. intros _. cbn [fst snd]. split; [reflexivity|].
    intros V raw q Hn Hr2. destruct p as [t|]; [|exfalso; eapply Hp; eauto].
    refine (predict_relabelled F G Par V raw h _ _ ix t _ _ q U1 U2 Hl _ _ _ _ Hn Hr2); [eapply ff_score; [reflexivity|exact M1']|eapply ff_score; [reflexivity|exact M2']|reflexivity|reflexivity].
  Qed.

  Lemma explicit_fit_names : forall Par (train1 train2 : rec G Par -> option Par * option exn) r,
    (forall r e i, train2 (retable r e i) = train1 r) -> (forall r p, train1 r = (p, None) -> p <> None) ->
    same_up_to_names h (model_fit explicit_fit train1 r s1 ix) (model_fit explicit_fit train2 r s2 ix).
  Proof.
    intros Par train1 train2 r Ht Hp.
    destruct (relabelled_view F G s s1 s2 g h rows sc sd ef ix Hr Hot Hix Hg Hh Hq S1 S2) as [U1 [U2 [Hl [E1 [E2 E3]]]]].
    pose proof Hl as [Ha _]. pose proof (base_fit_alike F G Par r (s_data s1) (s_data s2) ix Ha) as B.
    destruct (model_fit explicit_fit train1 r s1 ix) as [r1 x1] eqn:M1. destruct (model_fit explicit_fit train2 r s2 ix) as [r2 x2] eqn:M2.
    pose proof M1 as M1'. pose proof M2 as M2'.
    assert (Eb : binary_check s2 = binary_check s1) by (unfold binary_check; rewrite E1, E2, E3; reflexivity).
    unfold model_fit, explicit_fit in M1, M2. rewrite B, Eb in M2. destruct (base_fit r (s_data s1) ix) as [a [e|]]; cbn [fst snd] in M2.
    { injection M1 as <- <-. injection M2 as <- <-. split; [reflexivity|discriminate]. }
    destruct (binary_check s1). 2:{ injection M1 as <- <-. injection M2 as <- <-. split; [reflexivity|discriminate]. }
    assert (Es : set_score_info (retable a (o_eid (d_objs (s_data s2))) (o_iid (d_objs (s_data s2)))) s2 =
                 retable (set_score_info a s1) (o_eid (d_objs (s_data s2))) (o_iid (d_objs (s_data s2)))).
    { unfold set_score_info. rewrite E1, E2, E3. reflexivity. }
    rewrite Es, Ht in M2. destruct (train1 (set_score_info a s1)) as [p [e|]] eqn:Et.
    { injection M1 as <- <-. injection M2 as <- <-. split; [reflexivity|discriminate]. }
    injection M1 as <- <-. injection M2 as <- <-. split; [reflexivity|]. intros _. cbn [fst snd]. split; [reflexivity|].
    intros V raw q Hn Hr2. destruct p as [t|]; [|exfalso; eapply Hp; eauto].
    refine (predict_relabelled F G Par V raw h _ _ ix t _ _ q U1 U2 Hl _ _ _ _ Hn Hr2); [eapply ff_explicit; [reflexivity|exact M1']|eapply ff_explicit; [reflexivity|exact M2']|reflexivity|reflexivity].
  Qed.

  Lemma event_fit_names : forall Par (train1 train2 : rec G Par -> option Par * option exn) r,
    (forall r e i, train2 (retable r e i) = train1 r) -> (forall r p, train1 r = (p, None) -> p <> None) ->
    same_up_to_names h (model_fit base_fit train1 r (s_data s1) ix) (model_fit base_fit train2 r (s_data s2) ix).
  Proof.
    intros Par train1 train2 r Ht Hp.
    destruct (relabelled_view F G s s1 s2 g h rows sc sd ef ix Hr Hot Hix Hg Hh Hq S1 S2) as [U1 [U2 [Hl _]]].
    pose proof Hl as [Ha _]. pose proof (base_fit_alike F G Par r (s_data s1) (s_data s2) ix Ha) as B.
    destruct (model_fit base_fit train1 r (s_data s1) ix) as [r1 x1] eqn:M1. destruct (model_fit base_fit train2 r (s_data s2) ix) as [r2 x2] eqn:M2.
    pose proof M1 as M1'. pose proof M2 as M2'.
    unfold model_fit in M1, M2. rewrite B in M2. destruct (base_fit r (s_data s1) ix) as [a [e|]]; cbn [fst snd] in M2.
    { injection M1 as <- <-. injection M2 as <- <-. split; [reflexivity|discriminate]. }
    rewrite Ht in M2. destruct (train1 a) as [p [e|]] eqn:Et.
    { injection M1 as <- <-. injection M2 as <- <-. split; [reflexivity|discriminate]. }
    injection M1 as <- <-. injection M2 as <- <-. split; [reflexivity|]. intros _. cbn [fst snd]. split; [reflexivity|].
    intros V raw q Hn Hr2. destruct p as [t|]; [|exfalso; eapply Hp; eauto].
    refine (predict_relabelled F G Par V raw h _ _ ix t _ _ q U1 U2 Hl _ _ _ _ Hn Hr2); [eapply ff_event; exact M1'|eapply ff_event; exact M2'|reflexivity|reflexivity].
  Qed.

  (** the fits of all four models *)
  Theorem C74_fit : forall C k draw1 draw2 e1 e2 i1 i2 min junk (r : rec G par) alpha tol maxiter dirichlet pjunk (q : rec G plsa),
    same_up_to_names h (pmf_fit C k draw1 draw2 min junk r s1 ix) (pmf_fit C k draw1 draw2 min junk r s2 ix) /\
    same_up_to_names h (lpmf_fit C k e1 e2 min junk r s1 ix) (lpmf_fit C k e1 e2 min junk r s2 ix) /\
    same_up_to_names h (imp_fit C k i1 i2 min junk r (s_data s1) ix) (imp_fit C k i1 i2 min junk r (s_data s2) ix) /\
    same_up_to_names h (plsa_fit alpha tol k maxiter dirichlet pjunk q s1 ix) (plsa_fit alpha tol k maxiter dirichlet pjunk q s2 ix).
  Proof.
    intros C k draw1 draw2 e1 e2 i1 i2 min junk r alpha tol maxiter dirichlet pjunk q.
    destruct (relabelled_view F G s s1 s2 g h rows sc sd ef ix Hr Hot Hix Hg Hh Hq S1 S2) as [_ [_ [_ [E1 [E2 _]]]]].
    split; [|split; [|split]].
    - apply score_fit_names.
      + intros [[o|] ? ? ? ? ? ? ? ? ? ?] e i; reflexivity.
      + intros r0 p H. unfold pmf_train in H. repeat match type of H with match ?y with _ => _ end = _ => destruct y; try discriminate end.
        apply finish_inv in H. destruct H as [t [_ ->]]. discriminate.
    - apply explicit_fit_names.
      + intros [[o|] ? ? ? ? ? ? ? ? ? ?] e i; reflexivity.
      + intros r0 p H. unfold lpmf_train in H. repeat match type of H with match ?y with _ => _ end = _ => destruct y; try discriminate end.
        apply finish_inv in H. destruct H as [t [_ ->]]. discriminate.
    - apply event_fit_names.
      + intros [[o|] ? ? ? ? ? ? ? ? ? ?] e i; reflexivity.
      + intros r0 p H. unfold imp_train in H. repeat match type of H with match ?y with _ => _ end = _ => destruct y; try discriminate end.
        apply finish_inv in H. destruct H as [t [_ ->]]. discriminate.
    - apply score_fit_names.
      + intros [[o|] ? ? ? ? ? ? ? ? ? ?] e i; unfold plsa_train, plsa_learn, digitize_score; rewrite E1, E2; reflexivity.
      + intros r0 p H. unfold plsa_train in H. destruct (plsa_learn _ _ _ _ _ _ _) as [[m rep]|]; [|discriminate]. injection H as <-. discriminate.
  Qed.
End Fits.

(** doubling every user id and shifting the item ids *)
Definition gx (t : nat) (x : ext_id) : ext_id :=
  match x with IdInt z => IdInt (if Nat.eqb t 0 then 2 * z else z + 100) | IdStr _ => x end.
Definition hx (t : nat) (z : Z) : Z := if Nat.eqb t 0 then (2 * z)%Z else (z + 100)%Z.

Example C74_nonvacuous : (forall t, order_preserving (gx t)) /\ (forall t x, gx t (IdInt x) = IdInt (hx t x)) /\
  map (rename [0; 1]%nat gx) px_rows = [[IdInt 20; IdInt 120]; [IdInt 24; IdInt 121]; [IdInt 22; IdInt 120]] /\
  (exists s1 s2, s_set_event px_new (A2 2 px_rows) [1; 3; 5]%Q None None = (s1, None) /\
    s_set_event px_new (A2 2 (map (rename [0; 1]%nat gx) px_rows)) [1; 3; 5]%Q None None = (s2, None) /\
    d_objs (s_data s1) <> d_objs (s_data s2) /\
    exists r, pmf_fit 1 3 (fun _ => fixed_draw 3) (fun _ => fixed_draw 3) (fun _ _ x => Ok x) None new_rec s1 None = (r, None)) /\
  map (rename_query hx) [[10; 21]; [99; 20]]%Z = [[20; 121]; [198; 120]]%Z.
Proof.
  split. { intros t x y. unfold gx. destruct x as [x|x], y as [y|y]; cbn [idcmp]; auto. destruct (Nat.eqb t 0); [|rewrite !(Z.add_comm _ 100); apply Zcompare_plus_compat].
    symmetry. apply Zmult_compare_compat_l. lia. }
  split; [reflexivity|]. split; [reflexivity|]. split; [|reflexivity].
  eexists _, _. split; [reflexivity|]. split; [reflexivity|]. split; [discriminate|].
  destruct C71_fit_nonvacuous as [_ [_ [_ [_ [_ [_ [_ [_ [H _]]]]]]]]]. exact H.
Qed.
Print Assumptions C74_tables.
Print Assumptions C74_fit.
