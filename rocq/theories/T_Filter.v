(** * Theorems about filtering and about histories of a container (C10 - C13, C16) *)
From Coq Require Import List ZArith Lia Bool Sorted Permutation.
From Verif Require Import M_Py P_Py M_Data Spec P_Data P_Filter P_Reach P_DataThms P_Feature T_Data.
Import ListNotations.
Open Scope Z_scope.

(** what a container holds, read through external ids *)
Definition decoded {F G} (d : data F G) (rows : list (list ext_id)) : Prop :=
  exists ev, event d = Some ev /\
    to_eid_event (d_objs d) (event_otypes d) (A2 (s_event d) ev) = Ok (A2 (s_event d) rows).

Definition selected_feature {G} (ks : list nat) (ef ef' : option (list G)) : Prop :=
  match ef, ef' with
  | None, None => True
  | Some e, Some e' => picks e ks e'
  | _, _ => False
  end.

Lemma rep_decoded : forall F G (d : data F G) rows, types_ok d -> rep d rows -> decoded d rows.
Proof. intros. apply rep_decode; auto. Qed.

Lemma decoded_fun : forall F G (d : data F G) r1 r2, decoded d r1 -> decoded d r2 -> r1 = r2.
Proof. intros F G d r1 r2 [e1 [A B]] [e2 [C D]]. rewrite A in C; inversion C; subst. congruence. Qed.

Lemma filtered_rep : forall F G (d d' : data F G) base sel fs ef,
  types_ok d -> rep d base -> (forall row, In row sel -> In row base) ->
  d' = mkData (n_otypes d) (gen_objs (n_otypes d) (event_otypes d) sel) fs (event_otypes d)
         (length sel) (Some (map (enc (event_otypes d) sel) sel)) ef ->
  types_ok d' /\ rep d' sel.
Proof.
  intros F G d d' base sel fs ef Ht [_ [_ [_ Hr]]] Hsub ->. split; [exact Ht|].
  repeat split. simpl. unfold rect in *. rewrite Forall_forall in *. auto.
Qed.

Lemma filter_none : forall F G (d : data F G) c d', fresh d -> filter_event d c = Ok (Some d') -> False.
Proof. intros F G d c d' [H _] Hf. unfold filter_event in Hf. rewrite H in Hf. discriminate. Qed.

(** ** C10 *)
Theorem C10_filter_selects : forall F G (d d' : data F G) c,
  reachable d -> filter_event d c = Ok (Some d') ->
  exists ks rows rows', selects (n_events d) c ks /\
    decoded d rows /\ decoded d' rows' /\ picks rows ks rows' /\
    length rows = n_events d /\ n_events d' = length ks /\
    n_otypes d' = n_otypes d /\ event_otypes d' = event_otypes d /\
    (event_features_aligned d -> selected_feature ks (event_feature d) (event_feature d')).
Proof.
  intros F G d d' c Hr H. destruct (reachable_inv d Hr) as [Ht [Hfl [Hf|[base Hrep]]]].
  { exfalso; eapply filter_none; eauto. }
  destruct (filter_event_inv d base c d' Ht Hfl Hrep H) as [sel [ef' [Hsel [Hsub [_ [Hef Hd]]]]]].
  destruct (filtered_rep _ _ d d' base sel _ _ Ht Hrep Hsub Hd) as [Ht' Hrep'].
  apply np_select_selects in Hsel. destruct Hsel as [ks [Hs Hp]].
  assert (Hn : length base = n_events d) by (symmetry; apply Hrep).
  rewrite Hn in Hs. exists ks, base, sel. subst d'; cbn [n_events n_otypes event_otypes event_feature] in *.
  repeat split; auto using rep_decoded.
  - eapply picks_length; eauto.
  - intros Hal. unfold selected_feature, event_features_aligned in *. destruct (event_feature d) as [ef|].
    + destruct Hef as [e' [He ->]]. apply np_select_selects in He. destruct He as [ks' [Hs' Hp']].
      rewrite Hal in Hs'. rewrite (selects_fun _ _ _ _ Hs Hs'). auto.
    + subst ef'; auto.
Qed.

(** filtering succeeds exactly for valid conditions *)
Theorem C10_filter_total : forall F G (d : data F G) c,
  reachable d -> event d <> None -> features_aligned d -> event_features_aligned d ->
  ((exists ks, selects (n_events d) c ks) <-> exists d', filter_event d c = Ok (Some d')).
Proof.
  intros F G d c Hr Hev Hfa Hea. destruct (reachable_inv d Hr) as [Ht [Hfl [[Hf _]|[base Hrep]]]]; [congruence|].
  assert (Hn : length base = n_events d) by (symmetry; apply Hrep).
  split.
  - intros [ks Hs]. destruct (picks_total _ base ks) as [sel Hp]; [rewrite Hn; eapply selects_lt; eauto|].
    assert (Hsel : np_select base c = Ok sel) by (apply np_select_selects; exists ks; rewrite Hn; auto).
    assert (Hsub : forall row, In row sel -> In row base) by (intros; eapply np_select_in; eauto).
    set (ot := event_otypes d).
    assert (Hfeat : feat_ok ot (n_otypes d) base sel d (ffun ot base sel d)).
    { intros t Ht0. unfold feat_at, ffun. destruct (nth t (feature d) None) as [f|] eqn:Ef; auto.
      assert (Hf : nth_error (feature d) t = Some (Some f)).
      { rewrite <- Ef. apply nth_error_nth'. lia. }
      apply Hfa in Hf. destruct Hrep as [Ho _]. rewrite Ho, gen_o_n, nth_error_map_seq in Hf by auto.
      inversion Hf as [Hlen]. fold ot in Hlen. apply Nat2Z.inj in Hlen.
      assert (exists r, np_take f (map Z.of_nat (map (posb ot base t) (U ot t sel))) = Ok r) as [r Er].
      { unfold np_take. rewrite map_map. rewrite mapM_map.
        destruct (mapM (fun x => np_get f (Z.of_nat (posb ot base t x))) (U ot t sel)) as [r|e] eqn:Em; eauto.
        apply mapM_raise in Em. destruct Em as [x [Hx Hg]]. apply np_get_raise in Hg.
        unfold posb in Hg. pose proof (pos_lt x (U ot t base) (U_sub ot base sel Hsub t x Hx)). lia. }
      rewrite Er. eauto. }
    destruct (event_feature d) as [ef|] eqn:Eef.
    + unfold event_features_aligned in Hea. rewrite Eef in Hea.
      destruct (picks_total _ ef ks) as [ef' Hp']; [rewrite Hea; eapply selects_lt; eauto|].
      eexists. eapply filter_event_ok with (ef' := Some ef'); eauto. rewrite Eef. exists ef'. split; auto.
      apply np_select_selects. exists ks. rewrite Hea; auto.
    + eexists. eapply filter_event_ok with (ef' := None); eauto. rewrite Eef; auto.
  - intros [d' H]. destruct (C10_filter_selects _ _ _ _ _ Hr H) as [ks [_ [_ [Hs _]]]]. eauto.
Qed.

Definition ex_c1 : fcond := FIdx [2; -1; 2; 0].
Definition ex_c2 : fcond := FMask [true; false; false; true].
Definition ex_f1 : data nat nat :=
  match filter_event ex_d ex_c1 with Ok (Some d) => d | _ => ex_d0 end.
Definition ex_f2 : data nat nat :=
  match filter_event ex_f1 ex_c2 with Ok (Some d) => d | _ => ex_d0 end.

Example C10_nonvacuous : reachable ex_d /\ filter_event ex_d ex_c1 = Ok (Some ex_f1) /\
  n_events ex_f1 = 4%nat /\ event ex_f1 = Some [[1; 0]; [0; 2]; [1; 0]; [1; 1]] /\
  event_feature ex_f1 = Some [12; 13; 12; 10]%nat /\
  features_aligned ex_d /\ event_features_aligned ex_d /\ filter_event ex_d (FMask [true]) = Raise IndexError.
Proof.
  split; [apply ex_d_reachable|]. repeat split.
  intros t f H. destruct t as [|[|[|t]]]; discriminate.
Qed.
Print Assumptions C10_filter_selects.
Print Assumptions C10_filter_total.

(** ** C11 *)
Theorem C11_filter_objects : forall F G (d d' : data F G) c rows',
  reachable d -> filter_event d c = Ok (Some d') -> decoded d' rows' ->
  forall t, (t < n_otypes d)%nat ->
    bijective_tables (d_objs d') t (occurs (event_otypes d) t rows').
Proof.
  intros F G d d' c rows' Hr H Hdec t Hlt. destruct (reachable_inv d Hr) as [Ht [Hfl [Hf|[base Hrep]]]].
  { exfalso; eapply filter_none; eauto. }
  destruct (filter_event_inv d base c d' Ht Hfl Hrep H) as [sel [ef' [Hsel [Hsub [_ [Hef Hd]]]]]].
  destruct (filtered_rep _ _ d d' base sel _ _ Ht Hrep Hsub Hd) as [Ht' Hrep'].
  rewrite (decoded_fun _ _ _ _ _ Hdec (rep_decoded _ _ _ _ Ht' Hrep')).
  subst d'. apply gen_bijective; auto.
Qed.

Example C11_nonvacuous : reachable ex_d /\ filter_event ex_d ex_c1 = Ok (Some ex_f1) /\
  decoded ex_f1 [[IdInt 7; IdStr [97%N]]; [IdInt 5; IdStr [99%N; 97%N]]; [IdInt 7; IdStr [97%N]]; [IdInt 7; IdStr [98%N]]] /\
  to_iid (d_objs ex_f1) 0 (IdInt 3) = Raise ValueError /\ o_n (d_objs ex_f1) = [2; 3].
Proof.
  split; [apply ex_d_reachable|]. repeat split. eexists. split; reflexivity.
Qed.
Print Assumptions C11_filter_objects.

(** ** C12 *)
Theorem C12_features_follow : forall F G (d d' : data F G) c t,
  reachable d -> filter_event d c = Ok (Some d') -> (t < n_otypes d)%nat ->
  match nth_error (feature d) t with
  | Some (Some f) =>
      exists f', nth_error (feature d') t = Some (Some f') /\
        nth_error (o_n (d_objs d')) t = Some (Z.of_nat (length f')) /\
        forall x i', to_iid (d_objs d') (Z.of_nat t) x = Ok i' ->
          exists i row, to_iid (d_objs d) (Z.of_nat t) x = Ok i /\
            nth_error f (Z.to_nat i) = Some row /\ nth_error f' (Z.to_nat i') = Some row
  | _ => nth_error (feature d') t = Some None
  end.
Proof.
  intros F G d d' c t Hr H Hlt. destruct (reachable_inv d Hr) as [Ht [Hfl [Hf|[base Hrep]]]].
  { exfalso; eapply filter_none; eauto. }
  destruct (filter_event_inv d base c d' Ht Hfl Hrep H) as [sel [ef' [Hsel [Hsub [Hfeat [Hef Hd]]]]]].
  set (ot := event_otypes d) in *. specialize (Hfeat t Hlt). unfold feat_at in Hfeat.
  assert (Hnf : nth_error (feature d) t = Some (nth t (feature d) None)) by (apply nth_error_nth'; lia).
  rewrite Hnf. subst d'. cbn [feature d_objs]. rewrite nth_error_map_seq by auto.
  destruct Hrep as [Ho _]. rewrite Ho. fold ot.
  destruct (nth t (feature d) None) as [f|] eqn:Ef; [|rewrite Hfeat; auto].
  destruct Hfeat as [f' [Hf' ->]]. exists f'. split; auto.
  pose proof (mapM_length _ _ _ _ _ Hf') as Hl. rewrite !map_length in Hl. split.
  { rewrite gen_o_n, nth_error_map_seq by auto. rewrite Hl; auto. }
  intros x i' Hi. rewrite gen_to_iid in Hi by auto.
  destruct (in_dec id_eq_dec x (U ot t sel)) as [Hin|]; [|discriminate]. inversion Hi; subst i'.
  pose proof (U_sub ot base sel Hsub t x Hin) as Hin0.
  assert (Hk : nth_error (map Z.of_nat (map (posb ot base t) (U ot t sel))) (pos x (U ot t sel))
               = Some (Z.of_nat (pos x (U ot t base)))).
  { rewrite !nth_error_map. rewrite pos_nth by auto. reflexivity. }
  destruct (mapM_nth _ _ _ _ _ _ _ Hf' Hk) as [row [R1 R2]]. apply np_get_nat in R2.
  exists (Z.of_nat (pos x (U ot t base))), row. rewrite gen_to_iid by auto.
  destruct (in_dec id_eq_dec x (U ot t base)); [|contradiction]. rewrite !Nat2Z.id. auto.
Qed.

Definition ex_g : data nat nat :=
  match set_feature ex_d 0 [IdInt 9; IdInt 7; IdInt 3; IdInt 7; IdInt 5] [90; 70; 30; 71; 50]%nat with
  | Ok d => d | Raise _ => ex_d end.

Lemma ex_g_reachable : reachable ex_g.
Proof.
  eapply (r_set_feature ex_d 0 [IdInt 9; IdInt 7; IdInt 3; IdInt 7; IdInt 5] [90; 70; 30; 71; 50]%nat);
    [apply ex_d_reachable | reflexivity].
Qed.

Example C12_nonvacuous : reachable ex_g /\ feature ex_g = [Some [30; 50; 71]%nat; None] /\
  exists d', filter_event ex_g ex_c1 = Ok (Some d') /\ feature d' = [Some [50; 71]%nat; None].
Proof. split; [apply ex_g_reachable|]. split; [reflexivity|]. eexists. split; reflexivity. Qed.
Print Assumptions C12_features_follow.

(** ** C13 *)
Theorem C13_filter_is_rebuild : forall F G (d d' d0 : data F G) c rows' ef,
  reachable d -> filter_event d c = Ok (Some d') -> decoded d' rows' ->
  reachable d0 -> n_otypes d0 = n_otypes d -> event_otypes d0 = event_otypes d ->
  exists d1, set_event d0 (A2 (s_event d0) rows') ef = Ok d1 /\
    d_objs d1 = d_objs d' /\ event d1 = event d' /\ n_events d1 = n_events d'.
Proof.
  intros F G d d' d0 c rows' ef Hr H Hdec Hr0 Hn0 Hot0. destruct (reachable_inv d Hr) as [Ht [Hfl [Hf|[base Hrep]]]].
  { exfalso; eapply filter_none; eauto. }
  destruct (filter_event_inv d base c d' Ht Hfl Hrep H) as [sel [ef' [Hsel [Hsub [_ [Hef Hd]]]]]].
  destruct (filtered_rep _ _ d d' base sel _ _ Ht Hrep Hsub Hd) as [Ht' Hrep'].
  rewrite (decoded_fun _ _ _ _ _ Hdec (rep_decoded _ _ _ _ Ht' Hrep')).
  destruct (reachable_inv d0 Hr0) as [Ht0 _].
  assert (Hrect : rect (s_event d0) sel).
  { unfold s_event. rewrite Hot0. subst d'. apply Hrep'. }
  destruct (set_event_total d0 sel ef Ht0) as [d1 Hs].
  exists d1. split; auto.
  destruct (set_event_rep d0 (A2 (s_event d0) sel) ef d1 Ht0 Hrect Hs) as [sel' [E [[P1 [P2 [P3 _]]] [N1 [O1 _]]]]].
  inversion E; subst sel'. destruct Hrep' as [Q1 [Q2 [Q3 _]]].
  rewrite P1, P2, P3, Q1, Q2, Q3, N1, O1, Hn0, Hot0. subst d'; auto.
Qed.

Lemma picks_comp : forall A (l l1 l2 : list A) k1 k2 k,
  picks l k1 l1 -> picks l1 k2 l2 -> picks k1 k2 k -> picks l k l2.
Proof.
  intros A l l1 l2 k1 k2 k H1 H2 H3. unfold picks in *. revert l2 H2.
  assert (P : forall j y x, nth_error k1 j = Some y -> nth_error l1 j = Some x -> nth_error l y = Some x).
  { clear - H1. induction H1; intros j y0 x0; destruct j; simpl; intros; try discriminate.
    - congruence.
    - eauto. }
  induction H3 as [|j y k2 k Hj H3 IH]; intros l2 H2; inversion H2; subst; constructor; eauto.
Qed.

Theorem C13_filter_composes : forall F G (d d1 d2 : data F G) c1 c2 c ks1 ks2 ks,
  reachable d -> event_features_aligned d ->
  filter_event d c1 = Ok (Some d1) -> filter_event d1 c2 = Ok (Some d2) ->
  selects (n_events d) c1 ks1 -> selects (n_events d1) c2 ks2 -> picks ks1 ks2 ks ->
  selects (n_events d) c ks ->
  filter_event d c = Ok (Some d2).
Proof.
  intros F G d d1 d2 c1 c2 c ks1 ks2 ks Hr Hea H1 H2 S1 S2 Pk S3.
  destruct (reachable_inv d Hr) as [Ht [Hfl [Hf|[base Hrep]]]].
  { exfalso; eapply filter_none; eauto. }
  destruct (filter_event_inv d base c1 d1 Ht Hfl Hrep H1) as [sel1 [ef1 [Hsel1 [Hsub1 [Hfeat1 [Hef1 Hd1]]]]]].
  destruct (filtered_rep _ _ d d1 base sel1 _ _ Ht Hrep Hsub1 Hd1) as [Ht1 Hrep1].
  assert (Hr1 : reachable d1) by (eapply r_filter; eauto).
  destruct (reachable_inv d1 Hr1) as [_ [Hfl1 _]].
  destruct (filter_event_inv d1 sel1 c2 d2 Ht1 Hfl1 Hrep1 H2) as [sel2 [ef2 [Hsel2 [Hsub2 [Hfeat2 [Hef2 Hd2]]]]]].
  assert (Hn : length base = n_events d) by (symmetry; apply Hrep).
  assert (Hn1 : length sel1 = n_events d1) by (symmetry; apply Hrep1).
  assert (Ot1 : event_otypes d1 = event_otypes d) by (subst d1; auto).
  assert (Nt1 : n_otypes d1 = n_otypes d) by (subst d1; auto).
  assert (Ef1 : event_feature d1 = ef1) by (subst d1; auto).
  assert (Fe1 : feature d1 = map (ffun (event_otypes d) base sel1 d) (seq 0 (n_otypes d))) by (subst d1; auto).
  apply np_select_selects in Hsel1. destruct Hsel1 as [k1 [A1 B1]]. rewrite Hn in A1.
  rewrite (selects_fun _ _ _ _ A1 S1) in *. clear A1 k1.
  apply np_select_selects in Hsel2. destruct Hsel2 as [k2 [A2 B2]]. rewrite Hn1 in A2.
  rewrite (selects_fun _ _ _ _ A2 S2) in *. clear A2 k2.
  pose proof (picks_comp _ _ _ _ _ _ _ B1 B2 Pk) as B3.
  assert (Hsel3 : np_select base c = Ok sel2) by (apply np_select_selects; exists ks; rewrite Hn; auto).
  assert (Hsub3 : forall row, In row sel2 -> In row base) by auto.
  rewrite Hd2. rewrite Nt1, Ot1 in *. set (ot := event_otypes d) in *.
  assert (Hn1' : n_events d1 = length ks1) by (rewrite <- Hn1; eapply picks_length; eauto).
  apply filter_event_ok with (base := base) (sel := sel2); auto.
  - intros t Hlt. specialize (Hfeat1 t Hlt). specialize (Hfeat2 t Hlt). unfold feat_at in *.
    assert (Hnt : nth t (feature d1) None = ffun ot base sel1 d t)
      by (apply nth_error_nth; rewrite Fe1; apply nth_error_map_seq; auto).
    rewrite Hnt in Hfeat2.
    destruct (nth t (feature d) None) as [f|] eqn:Ef.
    + destruct Hfeat1 as [f1 [T1 E1]]. rewrite E1 in Hfeat2. destruct Hfeat2 as [f2 [T2 E2]].
      exists f2. split; auto.
      assert (forall x, In x (U ot t sel2) ->
               np_get f (Z.of_nat (posb ot base t x)) = np_get f1 (Z.of_nat (posb ot sel1 t x))).
      { intros x Hx. unfold posb.
        pose proof (U_sub ot sel1 sel2 Hsub2 t x Hx) as Hx1.
        assert (Hk : nth_error (map Z.of_nat (map (posb ot base t) (U ot t sel1))) (pos x (U ot t sel1))
               = Some (Z.of_nat (pos x (U ot t base)))).
        { rewrite !nth_error_map. rewrite pos_nth by auto. reflexivity. }
        destruct (mapM_nth _ _ _ _ _ _ _ T1 Hk) as [row [R1 R2]].
        rewrite R2. symmetry. apply np_get_nat. auto. }
      unfold np_take in *. rewrite map_map, mapM_map in *. rewrite <- T2. apply mapM_ext. auto.
    + rewrite Hfeat1 in Hfeat2. auto.
  - rewrite Ef1 in Hef2. unfold event_features_aligned in Hea. destruct (event_feature d) as [ef|].
    + destruct Hef1 as [e1 [X1 ->]]. destruct Hef2 as [e2 [X2 ->]]. exists e2. split; auto.
      apply np_select_selects in X1. destruct X1 as [k1 [Y1 Z1]]. rewrite Hea in Y1.
      rewrite (selects_fun _ _ _ _ Y1 S1) in *. clear Y1.
      apply np_select_selects in X2. destruct X2 as [k2 [Y2 Z2]].
      rewrite (picks_length _ _ _ _ Z1), <- Hn1' in Y2.
      rewrite (selects_fun _ _ _ _ Y2 S2) in *. clear Y2.
      apply np_select_selects. exists ks. split; [rewrite Hea; auto|]. eapply picks_comp; eauto.
    + subst ef1. auto.
Qed.

Lemma selects_idx : forall n ks, Forall (fun k => (k < n)%nat) ks -> selects n (FIdx (map Z.of_nat ks)) ks.
Proof. intros n ks H; induction H; simpl in *; constructor; auto. repeat split; auto; lia. Qed.

(** the composed selection always exists *)
Theorem C13_composition_exists : forall F G (d d1 d2 : data F G) c1 c2,
  reachable d -> event_features_aligned d ->
  filter_event d c1 = Ok (Some d1) -> filter_event d1 c2 = Ok (Some d2) ->
  exists ix, filter_event d (FIdx ix) = Ok (Some d2).
Proof.
  intros F G d d1 d2 c1 c2 Hr Hea H1 H2.
  assert (Hr1 : reachable d1) by (eapply r_filter; eauto).
  destruct (C10_filter_selects _ _ _ _ _ Hr H1) as [ks1 [_ [_ [S1 [_ [_ [_ [_ [N1 _]]]]]]]]].
  destruct (C10_filter_selects _ _ _ _ _ Hr1 H2) as [ks2 [_ [_ [S2 _]]]].
  destruct (picks_total _ ks1 ks2) as [ks Hk]; [rewrite <- N1; eapply selects_lt; eauto|].
  exists (map Z.of_nat ks). eapply C13_filter_composes; eauto. apply selects_idx.
  pose proof (selects_lt _ _ _ S1) as L. rewrite Forall_forall in *. intros k Hin.
  clear - Hk L Hin. induction Hk; simpl in *; [tauto|]. destruct Hin as [->|Hin]; auto.
  apply L. eapply nth_error_In; eauto.
Qed.

Lemma picks_seq : forall A (l l' : list A), picks l (seq 0 (length l)) l' -> l' = l.
Proof.
  intros A l l' H. apply (picks_fun _ l (seq 0 (length l))); auto. clear H l'.
  assert (G : forall (p l : list A), picks (p ++ l) (seq (length p) (length l)) l).
  { intros p l0; revert p; induction l0 as [|x l0 IH]; intros p; simpl; constructor.
    - rewrite nth_error_app2, Nat.sub_diag by lia; auto.
    - specialize (IH (p ++ [x])). rewrite <- app_assoc, app_length in IH. simpl in IH.
      rewrite Nat.add_1_r in IH. auto. }
  apply (G [] l).
Qed.

Theorem C13_filter_all_is_identity : forall F G (d : data F G) c,
  reachable d -> event d <> None -> features_aligned d -> event_features_aligned d ->
  selects (n_events d) c (seq 0 (n_events d)) ->
  filter_event d c = Ok (Some d).
Proof.
  intros F G d c Hr Hev Hfa Hea Hs.
  destruct (C10_filter_total _ _ d c Hr Hev Hfa Hea) as [Hex _].
  destruct (Hex (ex_intro _ _ Hs)) as [d' H]. rewrite H. do 2 f_equal.
  destruct (reachable_inv d Hr) as [Ht [Hfl [[Hf _]|[base Hrep]]]]; [congruence|].
  destruct (filter_event_inv d base c d' Ht Hfl Hrep H) as [sel [ef' [Hsel [Hsub [Hfeat [Hef Hd]]]]]].
  pose proof Hrep as [Ho [He [Hn _]]].
  apply np_select_selects in Hsel. destruct Hsel as [ks [A B]]. rewrite <- Hn in A.
  rewrite (selects_fun _ _ _ _ A Hs) in B. rewrite Hn in B. apply picks_seq in B. subst sel.
  assert (Eef : ef' = event_feature d).
  { unfold event_features_aligned in Hea. destruct (event_feature d) as [ef|]; auto.
    destruct Hef as [e' [X ->]]. apply np_select_selects in X. destruct X as [k [Y Z]].
    rewrite Hea in Y. rewrite (selects_fun _ _ _ _ Y Hs), <- Hea in Z. apply picks_seq in Z. congruence. }
  assert (Ef : map (ffun (event_otypes d) base base d) (seq 0 (n_otypes d)) = feature d).
  { apply list_ext. intros t. destruct (Nat.lt_ge_cases t (n_otypes d)) as [Hlt|Hge].
    - rewrite nth_error_map_seq by auto.
      assert (Hnf : nth_error (feature d) t = Some (nth t (feature d) None)) by (apply nth_error_nth'; lia).
      rewrite Hnf. specialize (Hfeat t Hlt). unfold feat_at in Hfeat.
      destruct (nth t (feature d) None) as [f|] eqn:Ef; [|congruence].
      destruct Hfeat as [f' [T ->]]. do 2 f_equal.
      apply Hfa in Hnf. rewrite Ho, gen_o_n, nth_error_map_seq in Hnf by auto. inversion Hnf as [Hl].
      apply Nat2Z.inj in Hl.
      pose proof (mapM_length _ _ _ _ _ T) as Hl'. rewrite !map_length in Hl'.
      apply list_ext. intros k. destruct (Nat.lt_ge_cases k (length f)) as [Hk|Hk].
      + destruct (nth_error (U (event_otypes d) t base) k) as [x|] eqn:Ex;
          [|apply nth_error_None in Ex; lia].
        assert (Hi : nth_error (map Z.of_nat (map (posb (event_otypes d) base t) (U (event_otypes d) t base))) k
                     = Some (Z.of_nat k)).
        { rewrite !nth_error_map, Ex. simpl. unfold posb.
          rewrite (nth_pos _ k x (U_nodup _ _ _) Ex). auto. }
        destruct (mapM_nth _ _ _ _ _ _ _ T Hi) as [row [R1 R2]]. apply np_get_nat in R2. congruence.
      + rewrite (proj2 (nth_error_None f' k)) by lia. rewrite (proj2 (nth_error_None f k)) by lia. auto.
    - rewrite (proj2 (nth_error_None _ t)) by (rewrite map_length, seq_length; lia).
      rewrite (proj2 (nth_error_None _ t)) by lia. auto. }
  rewrite Hd, Ef, Eef, <- Ho, <- He, <- Hn. destruct d; auto.
Qed.

Example C13_nonvacuous : reachable ex_d /\ event_features_aligned ex_d /\
  filter_event ex_d ex_c1 = Ok (Some ex_f1) /\ filter_event ex_f1 ex_c2 = Ok (Some ex_f2) /\
  selects (n_events ex_d) ex_c1 [2; 3; 2; 0]%nat /\ selects (n_events ex_f1) ex_c2 [0; 3]%nat /\
  picks [2; 3; 2; 0]%nat [0; 3]%nat [2; 0]%nat /\ filter_event ex_d (FIdx [2; 0]) = Ok (Some ex_f2) /\
  selects (n_events ex_d) (FMask [true; true; true; true]) (seq 0 (n_events ex_d)).
Proof.
  split; [apply ex_d_reachable|]. split; [reflexivity|]. split; [reflexivity|]. split; [reflexivity|].
  split; [repeat constructor; vm_compute; intuition congruence|]. split; [simpl; split; reflexivity|].
  split; [repeat constructor|]. split; [reflexivity|]. split; reflexivity.
Qed.
Print Assumptions C13_filter_is_rebuild.
Print Assumptions C13_filter_composes.
Print Assumptions C13_composition_exists.
Print Assumptions C13_filter_all_is_identity.

(** ** C16: histories of calls, failing ones included *)
Inductive history {F G : Type} : data F G -> Prop :=
| h_init : forall n a d, init n a = Ok d -> history d
| h_set_event : forall d ev ef, history d -> nd_ok ev -> history (fst (set_event_imp d ev ef))
| h_filter : forall d c d', history d -> filter_event d c = Ok (Some d') -> history d'
| h_set_feature : forall d t ids f d', history d -> set_feature d t ids f = Ok d' -> history d'.

Lemma history_reachable : forall F G (d : data F G), history d -> reachable d.
Proof.
  intros F G d H. induction H as [n a d H|d ev ef H IH Hnd|d c d' H IH Hf|d t ids f d' H IH Hf].
  - eapply r_init; eauto.
  - rewrite (set_event_imp_ok d ev ef (reachable_inv d IH) Hnd).
    destruct (set_event d ev ef) eqn:E; simpl; auto. eapply r_set_event; eauto.
  - eapply r_filter; eauto.
  - eapply r_set_feature; eauto.
Qed.

Theorem C16_consistent_histories_partial : forall F G (d : data F G), history d ->
  (event d = None /\ n_events d = 0%nat) \/
  exists ev rows, event d = Some ev /\ n_events d = length ev /\ decoded d rows /\
    length rows = length ev /\
    (forall k e t row i, nth_error ev k = Some row -> nth_error (event_otypes d) e = Some t ->
       nth_error row e = Some i ->
       exists n, nth_error (o_n (d_objs d)) t = Some n /\ 0 <= i < n) /\
    (forall t, (t < n_otypes d)%nat -> bijective_tables (d_objs d) t (occurs (event_otypes d) t rows)).
Proof.
  intros F G d Hh. apply history_reachable in Hh.
  destruct (reachable_inv d Hh) as [Ht [_ [[Hf [Hn _]]|[rows Hrep]]]]; [left; auto|right].
  pose proof Hrep as [Ho [Hev [Hn Hr]]]. eexists _, rows. split; [apply Hev|].
  rewrite map_length. repeat split; auto using rep_decoded.
  - intros k e t row i Hk Ht0 Hi.
    assert (Hlt : (t < n_otypes d)%nat).
    { destruct Ht as [Hot _]. rewrite Forall_forall in Hot. apply Hot. eapply nth_error_In; eauto. }
    exists (Z.of_nat (length (U (event_otypes d) t rows))).
    rewrite Ho, gen_o_n, nth_error_map_seq by auto. split; auto.
    rewrite nth_error_map in Hk. destruct (nth_error rows k) as [r|] eqn:Er; [|discriminate].
    inversion Hk; subst row. unfold enc in Hi. rewrite nth_error_map, nth_error_combine, Ht0 in Hi.
    destruct (nth_error r e) as [x|] eqn:Ex; [|discriminate]. inversion Hi; subst i.
    unfold enc1. cbn [fst snd].
    assert (In x (U (event_otypes d) t rows)).
    { apply (proj2 (np_unique_in _ idcmp_laws idcmp_eq _ _)). apply type_entries_occurs. exists r, e.
      repeat split; auto. eapply nth_error_In; eauto. }
    pose proof (pos_lt _ _ H). lia.
  - intros t Hlt. rewrite Ho. apply gen_bijective; auto.
Qed.

(** a negative type number counts from the end *)
Lemma set_feature_norm : forall F G (d d' : data F G) z ids f,
  reachable d -> set_feature d z ids f = Ok d' ->
  exists t, (t < n_otypes d)%nat /\ set_feature d (Z.of_nat t) ids f = Ok d'.
Proof.
  intros F G d d' z ids f Hr H. pose proof (reachable_inv d Hr) as Hi.
  pose proof (inv_table_len d Hi) as [_ [_ Hl]]. destruct Hi as [_ [Hfl _]].
  unfold set_feature in H. pose proof H as H0. apply bind_ok in H. destruct H as [iid [H _]].
  apply np_get_norm in H. destruct H as [t [Ht _]]. rewrite Hl in Ht.
  exists t. pose proof (np_norm_lt _ _ _ Ht) as Hlt. split; auto.
  rewrite <- H0. unfold set_feature, np_get, np_set.
  rewrite Hl, Hfl, Ht, np_norm_nat by auto. reflexivity.
Qed.

(** feature arrays: aligned initially, kept aligned by filter_event and
    set_feature, and by set_event as long as no features are stored *)
Theorem C16_features_aligned_partial : forall F G,
  (forall n a (d : data F G), init n a = Ok d -> features_aligned d) /\
  (forall (d d' : data F G) c, reachable d -> features_aligned d -> filter_event d c = Ok (Some d') -> features_aligned d') /\
  (forall (d d' : data F G) z ids f, reachable d -> features_aligned d ->
      set_feature d z ids f = Ok d' -> features_aligned d') /\
  (forall (d d' : data F G) ev ef, reachable d -> nd_ok ev -> Forall (fun f => f = None) (feature d) ->
      set_event d ev ef = Ok d' -> features_aligned d').
Proof.
  intros F G. repeat split.
  - intros n a d H t f Hf. apply init_cases in H. destruct H as [m [ot [-> _]]]. simpl in Hf.
    apply nth_error_In, repeat_spec in Hf. discriminate.
  - intros d d' c Hr Hfa H t f Hf.
    destruct (reachable_inv d Hr) as [_ [Hfl _]].
    assert (Hlt : (t < n_otypes d)%nat).
    { destruct (C10_filter_selects _ _ _ _ _ Hr H) as [_ [_ [_ [_ [_ [_ [_ [_ [_ [E _]]]]]]]]]].
      rewrite <- E. destruct (reachable_inv d' (r_filter _ _ _ Hr H)) as [_ [Hfl' _]]. rewrite <- Hfl'.
      apply nth_error_Some. congruence. }
    pose proof (C12_features_follow _ _ d d' c t Hr H Hlt) as C12.
    destruct (nth_error (feature d) t) as [[f0|]|]; try congruence.
    destruct C12 as [f' [E1 [E2 _]]]. congruence.
  - intros d d' z ids f Hr Hfa H t' g Hg.
    destruct (set_feature_norm _ _ d d' z ids f Hr H) as [t [Hlt H']]. clear H. rename H' into H.
    assert (Hev : event d <> None).
    { intros E. destruct (reachable_inv d Hr) as [Ht [_ [[_ [_ Ho]]|[rows [_ [Hev _]]]]]]; [|congruence].
      unfold set_feature in H. rewrite Ho in H. simpl in H.
      assert (Hg' : np_get (repeat (@None (dict ext_id Z)) (n_otypes d)) (Z.of_nat t) = Ok None).
      { apply np_get_nat. apply nth_error_repeat; auto. }
      rewrite Hg' in H. discriminate. }
    destruct (C09_set_feature _ _ d d' t ids f Hr Hev Hlt H) as [E1 [E2 [E3 [rows [E4 [E5 _]]]]]].
    rewrite E1. destruct (Nat.eq_dec t' t) as [->|Hne].
    + rewrite E4 in Hg. inversion Hg; subst; auto.
    + apply Hfa. rewrite <- E3; auto.
  - intros d d' ev ef Hr Hnd Hall H t f Hf. destruct (reachable_inv d Hr) as [Ht _].
    destruct (set_event_rep d ev ef d' Ht Hnd H) as [rows [_ [_ [_ [_ [E _]]]]]].
    rewrite E in Hf. apply nth_error_In in Hf. rewrite Forall_forall in Hall. apply Hall in Hf. discriminate.
Qed.

(** stale features: a second set_event keeps the old feature array *)
Theorem C16_features_aligned_refuted :
  exists (d : data nat nat), history d /\ ~ features_aligned d /\
    exists c ks, selects (n_events d) c ks /\ filter_event d c = Raise IndexError.
Proof.
  assert (Hg : history ex_g).
  { eapply (h_set_feature ex_d 0 [IdInt 9; IdInt 7; IdInt 3; IdInt 7; IdInt 5] [90; 70; 30; 71; 50]%nat); [|reflexivity].
    change ex_d with (fst (set_event_imp ex_d0 (A2 2 ex_rows) (Some [10; 11; 12; 13]%nat))).
    apply h_set_event; [apply (h_init 2 OTNone); reflexivity|]. repeat constructor. }
  exists (fst (set_event_imp ex_g (A2 2 [[IdInt 1; IdInt 1]; [IdInt 2; IdInt 1]; [IdInt 3; IdInt 1]; [IdInt 4; IdInt 1]]) None)).
  split; [apply h_set_event; [auto|repeat constructor]|]. split.
  - intros H. specialize (H 0%nat [30; 50; 71]%nat eq_refl). vm_compute in H. discriminate.
  - exists (FMask [false; false; false; true]), [3%nat]. split; [split; reflexivity|]. reflexivity.
Qed.

Example C16_nonvacuous : history ex_d /\ event ex_d = Some [[2; 1]; [0; 0]; [2; 0]; [1; 2]].
Proof.
  split; [|reflexivity].
  change ex_d with (fst (set_event_imp ex_d0 (A2 2 ex_rows) (Some [10; 11; 12; 13]%nat))).
  apply h_set_event; [apply (h_init 2 OTNone); reflexivity|]. repeat constructor.
Qed.
Print Assumptions C16_consistent_histories_partial.
Print Assumptions C16_features_aligned_partial.
Print Assumptions C16_features_aligned_refuted.
