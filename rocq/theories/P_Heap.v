(** * The heap programs refine the functional containers *)
From Coq Require Import List ZArith QArith Lia Bool.
From Verif Require Import M_Py P_Py M_Data M_Score M_Heap.
Import ListNotations.
Open Scope nat_scope.

Section PHeap.
  Context {F G : Type}.
  Implicit Types (h : @heap F) (p : pobj G) (d : data F G) (s : sdata F G).

  Lemma rd_upd_same : forall h a c, a < length h -> nth_error (set_nth h a c) a = Some c.
  Proof.
    intros. rewrite nth_error_set_nth. rewrite Nat.eqb_refl.
    destruct (Nat.ltb_spec a (length h)); auto; lia.
  Qed.
  Lemma rd_upd_other : forall h a b c, b <> a -> nth_error (set_nth h a c) b = nth_error h b.
  Proof.
    intros. rewrite nth_error_set_nth. destruct (Nat.eqb_spec b a); try lia; auto.
  Qed.

  Definition foot p : list nat :=
    [p_n p; p_eid p; p_iid p; p_feat p] ++ match p_event p with Some r => [r] | None => [] end.

  (** the object [p] in heap [h] shows the container [d] *)
  Record views h p d : Prop := mkViews {
    v_n : nth_error h (p_n p) = Some (CN (o_n (d_objs d)));
    v_e : nth_error h (p_eid p) = Some (CE (o_eid (d_objs d)));
    v_i : nth_error h (p_iid p) = Some (CD (o_iid (d_objs d)));
    v_f : nth_error h (p_feat p) = Some (CF (feature d));
    v_v : match p_event p, event d with
          | Some r, Some rows => nth_error h r = Some (CV rows)
          | None, None => True
          | _, _ => False
          end;
    v_nt : p_notypes p = n_otypes d;
    v_ot : p_ot p = event_otypes d;
    v_nev : p_nev p = n_events d;
    v_ef : p_ef p = event_feature d }.

  Definition sviews h p s : Prop :=
    views h p (s_data s) /\ p_dom p = score_domain s /\ p_score p = score s /\
    p_levels p = n_score_levels s.

  (** [h'] extends [h], and agrees with it outside [fp] *)
  Definition frame (fp : list nat) h h' : Prop :=
    length h <= length h' /\
    forall a, a < length h -> ~ In a fp -> nth_error h' a = nth_error h a.

  Lemma frame_refl : forall fp h, frame fp h h.
  Proof. split; auto. Qed.

  Lemma frame_trans : forall fp h1 h2 h3, frame fp h1 h2 -> frame fp h2 h3 -> frame fp h1 h3.
  Proof.
    intros fp h1 h2 h3 [A B] [C D]. split; [lia|]. intros a Ha Hn.
    rewrite D by (auto; lia). auto.
  Qed.

  Lemma frame_weak : forall fp fp' h h', frame fp h h' -> (forall a, In a fp -> In a fp') -> frame fp' h h'.
  Proof. intros fp fp' h h' [A B] H. split; auto. Qed.

  Lemma frame_upd : forall fp h a c, In a fp -> frame fp h (set_nth h a c).
  Proof.
    intros. split; [rewrite set_nth_length; lia|]. intros b Hb Hn. apply rd_upd_other. congruence.
  Qed.

  Lemma frame_app : forall fp h l, frame fp h (h ++ l).
  Proof.
    intros. split; [rewrite app_length; lia|]. intros b Hb _. apply nth_error_app1; auto.
  Qed.

  Lemma nth_error_lt : forall A (l : list A) k x, nth_error l k = Some x -> k < length l.
  Proof. intros. apply nth_error_Some. congruence. Qed.

  Lemma views_foot_lt : forall h p d, views h p d -> Forall (fun a => a < length h) (foot p).
  Proof.
    intros h p d [].
    apply Forall_app. split.
    - repeat constructor; eapply nth_error_lt; eauto.
    - destruct (p_event p); [|constructor]. destruct (event d); [|tauto].
      repeat constructor. eapply nth_error_lt; eauto.
  Qed.

  Lemma views_frame : forall fp h h' p d, views h p d -> frame fp h h' ->
    (forall a, In a (foot p) -> ~ In a fp) -> views h' p d.
  Proof.
    intros fp h h' p d Hv [Hl Hf] Hd.
    pose proof (views_foot_lt _ _ _ Hv) as Hlt. rewrite Forall_forall in Hlt.
    assert (K : forall a c, In a (foot p) -> nth_error h a = Some c -> nth_error h' a = Some c).
    { intros a c Hi E. rewrite Hf; auto. }
    destruct Hv. constructor; auto.
    1-4: apply K; auto; unfold foot; simpl; tauto.
    destruct (p_event p) as [r|] eqn:E; auto. destruct (event d); auto.
    apply K; auto. unfold foot. rewrite E. simpl. tauto.
  Qed.

  Lemma foot_neq : forall p, NoDup (foot p) ->
    (p_n p <> p_eid p /\ p_n p <> p_iid p /\ p_n p <> p_feat p /\ p_eid p <> p_iid p /\
     p_eid p <> p_feat p /\ p_iid p <> p_feat p) /\
    (p_eid p <> p_n p /\ p_iid p <> p_n p /\ p_feat p <> p_n p /\ p_iid p <> p_eid p /\
     p_feat p <> p_eid p /\ p_feat p <> p_iid p) /\
    match p_event p with
    | Some r => (r <> p_n p /\ r <> p_eid p /\ r <> p_iid p /\ r <> p_feat p) /\
                (p_n p <> r /\ p_eid p <> r /\ p_iid p <> r /\ p_feat p <> r)
    | None => True
    end.
  Proof.
    intros p H. unfold foot in H. destruct (p_event p) as [r|]; simpl in H;
      inversion H as [|? ? H1 H2]; subst; inversion H2 as [|? ? H3 H4]; subst;
      inversion H4 as [|? ? H5 H6]; subst; inversion H6 as [|? ? H7 H8]; subst; simpl in *;
      repeat split; intros E; try rewrite E in *; tauto.
  Qed.

  Ltac heapstep :=
    repeat (unfold hbind, hret, hlift, hraise, alloc, write, rd_n, rd_e, rd_d, rd_f, rd_v; cbv beta;
      first
      [ rewrite rd_upd_same by (rewrite ?set_nth_length; eauto using nth_error_lt)
      | rewrite rd_upd_other by tauto
      | match goal with H : nth_error ?h ?a = Some _ |- context [nth_error ?h ?a] => rewrite H end ]).

  Ltac frames :=
    repeat (eapply frame_trans; [|apply frame_upd; assumption]); apply frame_refl.

  (** ** set_event *)
  Lemma h_tables_sim : forall ts c rows h p d, views h p d -> NoDup (foot p) ->
    exists h' r, h_tables p ts c rows h = Some (h', r) /\
      views h' p (fst (imp_tables ts c rows d)) /\
      r = match snd (imp_tables ts c rows d) with None => Ok tt | Some x => Raise x end /\
      frame [p_n p; p_eid p; p_iid p] h h' /\ length h' = length h.
  Proof.
    induction ts as [|t ts IH]; intros c rows h p d Hv Hnd.
    - simpl. exists h, (Ok tt). repeat split; auto; apply Hv.
    - cbn [h_tables imp_tables]. rewrite (v_ot _ _ _ Hv).
      destruct (Nat.eqb c (length (event_otypes d))).
      2:{ exists h, (Raise IndexError). repeat split; auto; apply Hv. }
      set (g := gen_id (type_entries (event_otypes d) t rows)).
      pose proof (foot_neq p Hnd) as [D1 [D2 D3]].
      pose proof (v_n _ _ _ Hv) as En. pose proof (v_e _ _ _ Hv) as Ee. pose proof (v_i _ _ _ Hv) as Ei.
      pose proof (v_f _ _ _ Hv) as Ef. pose proof (v_v _ _ _ Hv) as Ev.
      pose proof (nth_error_lt _ _ _ _ En) as Ln. pose proof (nth_error_lt _ _ _ _ Ee) as Le.
      pose proof (nth_error_lt _ _ _ _ Ei) as Li.
      heapstep.
      match goal with |- context [h_tables p ts c rows ?x] => set (h1 := x) end.
      assert (Hv1 : views h1 p (put_objs d t g)).
      { unfold put_objs. destruct Hv. constructor; cbn; auto; unfold h1.
        - rewrite rd_upd_other, rd_upd_other, rd_upd_same by tauto. reflexivity.
        - rewrite rd_upd_other, rd_upd_same by (rewrite ?set_nth_length; tauto). reflexivity.
        - rewrite rd_upd_same by (rewrite ?set_nth_length; tauto). reflexivity.
        - rewrite !rd_upd_other by tauto. auto.
        - destruct (p_event p) as [r|]; auto. destruct (event d); auto.
          rewrite !rd_upd_other by tauto. auto. }
      destruct (IH c rows h1 p _ Hv1 Hnd) as [h' [r [E1 [E2 [E3 [E4 E5]]]]]].
      exists h', r. split; [auto|]. split; [auto|]. split; [auto|]. split.
      + eapply frame_trans; [|eauto]. unfold h1.
        eapply frame_trans; [apply frame_upd with (a := p_n p); simpl; auto|].
        eapply frame_trans; [apply frame_upd with (a := p_eid p); simpl; auto|].
        apply frame_upd; simpl; auto.
      + rewrite E5. unfold h1. rewrite !set_nth_length. auto.
  Qed.

  Lemma h_column_sim : forall rows e rv h p d, views h p d -> NoDup (foot p) -> p_event p = Some rv ->
    exists h' r, h_column p rv rows e h = Some (h', r) /\
      match imp_column rows d e with
      | Ok d' => r = Ok tt /\ views h' p d'
      | Raise x => r = Raise x /\ h' = h
      end /\
      frame [rv] h h' /\ length h' = length h.
  Proof.
    intros rows e rv h p d Hv Hnd Er.
    pose proof (foot_neq p Hnd) as [D1 [D2 D3]].
    pose proof (v_i _ _ _ Hv) as Ei. pose proof (v_v _ _ _ Hv) as Ev. rewrite Er in Ev, D3.
    unfold h_column, imp_column. destruct (event d) as [ev|] eqn:Eev; [|tauto].
    rewrite (v_ot _ _ _ Hv). unfold hbind at 1, hlift at 1.
    destruct (np_get (event_otypes d) (Z.of_nat e)) as [t|x]; cbn [bind].
    2:{ exists h, (Raise x). repeat split; auto. }
    heapstep. destruct (np_get (o_iid (d_objs d)) (Z.of_nat t)) as [iid|x]; cbn [bind].
    2:{ exists h, (Raise x). repeat split; auto. }
    destruct iid as [iid|].
    2:{ exists h, (Raise TypeError). repeat split; auto. }
    destruct (mapM _ rows) as [col|x]; cbn [bind].
    2:{ exists h, (Raise x). repeat split; auto. }
    heapstep.
    eexists _, _. split; [reflexivity|]. split; [|split; [apply frame_upd; simpl; auto | apply set_nth_length]].
    split; [auto|]. destruct Hv. unfold put_event. constructor; cbn; auto.
    1-4: rewrite rd_upd_other by tauto; auto.
    rewrite Er. apply rd_upd_same. eapply nth_error_lt; eauto.
  Qed.

  Lemma h_columns_sim : forall es rows rv h p d, views h p d -> NoDup (foot p) -> p_event p = Some rv ->
    exists h' r, h_columns p rv es rows h = Some (h', r) /\
      views h' p (fst (imp_columns es rows d)) /\
      r = match snd (imp_columns es rows d) with None => Ok tt | Some x => Raise x end /\
      frame [rv] h h' /\ length h' = length h.
  Proof.
    induction es as [|e es IH]; intros rows rv h p d Hv Hnd Er.
    - exists h, (Ok tt). repeat split; auto; apply Hv.
    - cbn [h_columns imp_columns]. unfold hbind.
      destruct (h_column_sim rows e rv h p d Hv Hnd Er) as [h1 [r [E1 [E2 [E3 E4]]]]]. rewrite E1.
      destruct (imp_column rows d e) as [d'|x]; destruct E2 as [-> E2].
      + destruct (IH rows rv h1 p d' E2 Hnd Er) as [h' [r [F1 [F2 [F3 [F4 F5]]]]]].
        exists h', r. split; [auto|]. split; [auto|]. split; [auto|]. split; [|lia].
        eapply frame_trans; eauto.
      + subst h1. exists h, (Raise x). repeat split; auto; apply Hv.
  Qed.

  Definition same_scores p p' : Prop :=
    p_dom p' = p_dom p /\ p_score p' = p_score p /\ p_levels p' = p_levels p.

  (** the new footprint: old references, or fresh ones *)
  Definition moves h p p' : Prop :=
    p_n p' = p_n p /\ p_eid p' = p_eid p /\ p_iid p' = p_iid p /\ p_feat p' = p_feat p /\ (p_event p' = p_event p \/ p_event p' = Some (length h)).

  Lemma foot_moves : forall h p p', moves h p p' -> NoDup (foot p) -> Forall (fun a => a < length h) (foot p) ->
    NoDup (foot p') /\ forall a, In a (foot p') -> In a (foot p) \/ a = length h.
  Proof.
    intros h p p' [E1 [E2 [E3 [E4 E5]]]] Hnd Hlt. unfold foot in *. rewrite E1, E2, E3, E4.
    destruct E5 as [-> | ->].
    - split; auto.
    - split; [|intros a Ha; apply in_app_or in Ha; simpl in Ha; rewrite in_app_iff; simpl; intuition].
      apply NoDup_app_remove_r in Hnd || idtac.
      assert (Hn : NoDup [p_n p; p_eid p; p_iid p; p_feat p]).
      { clear -Hnd. induction (match p_event p with Some r => [r] | None => [] end) as [|x l IH].
        - rewrite app_nil_r in Hnd; auto.
        - apply IH. apply NoDup_remove_1 in Hnd. auto. }
      apply Forall_app in Hlt. destruct Hlt as [Hlt _]. rewrite Forall_forall in Hlt.
      apply (NoDup_Add (a := length h) (l := [p_n p; p_eid p; p_iid p; p_feat p])).
      + rewrite <- (app_nil_r [p_n p; p_eid p; p_iid p; p_feat p]) at 1. apply Add_app.
      + split; auto. intros Hi. apply Hlt in Hi. lia.
  Qed.

  Lemma h_set_event_base_sim : forall ev ef h p d, views h p d -> NoDup (foot p) ->
    exists h' p', h_set_event_base p ev ef h = Some (h', (p', snd (set_event_imp d ev ef))) /\
      views h' p' (fst (set_event_imp d ev ef)) /\ same_scores p p' /\ moves h p p' /\
      frame [p_n p; p_eid p; p_iid p] h h'.
  Proof.
    intros ev ef h p d Hv Hnd.
    destruct ev as [v|c rows|]; cbn [h_set_event_base set_event_imp].
    1,3: exists h, p; unfold same_scores, moves; repeat split; auto; apply Hv.
    rewrite (v_nt _ _ _ Hv).
    destruct (h_tables_sim (seq 0 (n_otypes d)) c rows h p d Hv Hnd) as [h1 [r [E1 [E2 [E3 [E4 E5]]]]]].
    rewrite E1, E3. destruct (imp_tables (seq 0 (n_otypes d)) c rows d) as [d1 [x|]]; cbn [fst snd] in *.
    { exists h1, p. unfold same_scores, moves; repeat split; auto; try apply E2; apply E4. }
    set (p2 := mkP _ _ _ _ _ _ _ _ _ _ _ _).
    set (h2 := h1 ++ _).
    assert (Hm : moves h p p2) by (unfold moves, p2; cbn; rewrite E5; auto 10).
    destruct (foot_moves h p p2 Hm Hnd (views_foot_lt _ _ _ Hv)) as [Hnd2 _].
    assert (Hv2 : views h2 p2 (put_event d1 (map (fun _ => repeat 0%Z c) rows))).
    { assert (K : forall a x, nth_error h1 a = Some x -> nth_error h2 a = Some x).
      { intros a x Ex. unfold h2. rewrite nth_error_app1; eauto using nth_error_lt. }
      destruct E2. unfold put_event, p2. constructor; cbn; auto.
      - unfold h2. rewrite nth_error_app2, Nat.sub_diag; auto.
      - rewrite <- v_nt0. symmetry. apply (v_nt _ _ _ Hv). }
    rewrite (v_ot _ _ _ Hv).
    destruct (h_columns_sim (seq 0 (length (event_otypes d))) rows (length h1) h2 p2 _ Hv2 Hnd2 eq_refl)
      as [h3 [r2 [F1 [F2 [F3 [F4 F5]]]]]].
    rewrite F1, F3.
    assert (Fr : frame [p_n p; p_eid p; p_iid p] h h3).
    { destruct E4 as [G1 G2]. destruct F4 as [G3 G4]. unfold h2 in G3, G4. rewrite app_length in G3.
      split; [lia|]. intros a Ha Hn. rewrite G4, nth_error_app1.
      - apply G2; auto.
      - lia.
      - rewrite app_length; lia.
      - simpl. lia. }
    destruct (imp_columns _ rows _) as [d3 [x|]]; cbn [fst snd] in *.
    - exists h3, p2. split; [reflexivity|]. split; [auto|]. split; [|split; auto]. unfold same_scores; auto.
    - eexists h3, _. split; [reflexivity|]. split.
      + destruct F2. constructor; cbn in *; auto. rewrite <- v_ot0. symmetry; apply (v_ot _ _ _ Hv).
      + unfold same_scores, moves; cbn. rewrite E5. repeat split; auto; apply Fr.
  Qed.

  Lemma h_set_event_sim : forall ev sc sd ef h p s, sviews h p s -> NoDup (foot p) ->
    exists h' p', h_set_event p ev sc sd ef h = Some (h', (p', snd (s_set_event s ev sc sd ef))) /\
      sviews h' p' (fst (s_set_event s ev sc sd ef)) /\ moves h p p' /\
      frame [p_n p; p_eid p; p_iid p] h h'.
  Proof.
    intros ev sc sd ef h p s [Hv [S1 [S2 S3]]] Hnd.
    destruct (h_set_event_base_sim ev ef h p _ Hv Hnd) as [h' [p' [E1 [E2 [E3 [E4 E5]]]]]].
    unfold h_set_event, s_set_event. rewrite E1.
    destruct E3 as [T1 [T2 T3]].
    destruct (set_event_imp (s_data s) ev ef) as [d1 [x|]]; cbn [fst snd] in *.
    { exists h', p'. split; [reflexivity|]. split; [|auto]. unfold sviews; cbn. split; auto. repeat split; congruence. }
    assert (Hps : forall a b c, views h' (p_set_scores p' a b c) d1).
    { intros. destruct E2. constructor; cbn; auto. }
    destruct (match sd with Some d => Ok d | None => infer_domain sc end) as [dm|x].
    2:{ eexists h', _. split; [reflexivity|]. unfold sviews; cbn. repeat split; auto; try congruence; try apply E4; try apply E5; apply (Hps _ _ _). }
    destruct (n_levels_of dm) as [n|x].
    all: eexists h', _; split; [reflexivity|]; unfold sviews; cbn; repeat split; auto; try congruence; try apply E4; try apply E5; apply (Hps _ _ _).
  Qed.

  (** ** set_feature *)
  Lemma h_set_feature_sim : forall t ids f h p s, sviews h p s -> NoDup (foot p) ->
    exists h' r, h_set_feature p t ids f h = Some (h', r) /\
      match s_set_feature s t ids f with
      | Ok s' => r = Ok tt /\ sviews h' p s'
      | Raise x => r = Raise x /\ h' = h
      end /\ frame [p_feat p] h h'.
  Proof.
    intros t ids f h p s [Hv HS] Hnd.
    pose proof (foot_neq p Hnd) as [D1 [D2 D3]].
    pose proof (v_i _ _ _ Hv) as Ei. pose proof (v_f _ _ _ Hv) as Ef.
    unfold h_set_feature, s_set_feature, set_feature.
    heapstep. destruct (np_get (o_iid (d_objs (s_data s))) t) as [iid|x]; cbn [bind].
    2:{ exists h, (Raise x). repeat split; auto. }
    destruct iid as [iid|].
    2:{ exists h, (Raise TypeError). repeat split; auto. }
    destruct (feature_index iid ids) as [index|x]; cbn [bind].
    2:{ exists h, (Raise x). repeat split; auto. }
    destruct (np_take f index) as [rows|x]; cbn [bind].
    2:{ exists h, (Raise x). repeat split; auto. }
    heapstep. destruct (np_set (feature (s_data s)) t (Some rows)) as [fs|x]; cbn [bind].
    2:{ exists h, (Raise x). repeat split; auto. }
    eexists _, _. split; [reflexivity|]. split; [|apply frame_upd; simpl; auto].
    split; [auto|]. split; [|apply HS]. destruct Hv. constructor; cbn; auto.
    1-3: rewrite rd_upd_other by tauto; auto.
    - apply rd_upd_same. eapply nth_error_lt; eauto.
    - destruct (p_event p) as [r|]; auto. destruct (event (s_data s)); auto.
      rewrite rd_upd_other by tauto. auto.
  Qed.

  (** ** binarize_score *)
  Lemma h_binarize_sim : forall th h p s, sviews h p s ->
    match binarize_score s th, h_binarize p th with
    | Ok s', Ok p' => sviews h p' s' /\ foot p' = foot p
    | Raise x, Raise y => x = y
    | _, _ => False
    end.
  Proof.
    intros th h p s [Hv [S1 [S2 S3]]]. unfold binarize_score, h_binarize. rewrite S1, S2.
    destruct (match th with Some t => Ok t | None => _ end) as [t|x]; cbn [bind]; auto.
    destruct (score s) as [sc|]; auto. split; auto.
    unfold sviews, p_set_scores; cbn. repeat split; auto; try apply Hv.
  Qed.

  (** ** filter_event *)
  Lemma h_filter_type_sim : forall t rv h self (d : pobj G) (s sd : data F G), views h self s -> views h d sd ->
    NoDup (foot d) -> p_event d = Some rv -> (forall a, In a (foot self) -> ~ In a (foot d)) ->
    exists h' r, h_filter_type self d rv t h = Some (h', r) /\
      match filter_type s sd t with
      | Ok sd' => r = Ok tt /\ views h' d sd'
      | Raise x => r = Raise x
      end /\ frame (foot d) h h'.
  Proof.
    intros t rv h self d s sd Hs Hv Hnd Er Hdis.
    pose proof (foot_neq d Hnd) as [D1 [D2 D3]]. rewrite Er in D3.
    pose proof (v_n _ _ _ Hv) as En. pose proof (v_e _ _ _ Hv) as Ee. pose proof (v_i _ _ _ Hv) as Ei.
    pose proof (v_f _ _ _ Hv) as Ef. pose proof (v_v _ _ _ Hv) as Ev. rewrite Er in Ev.
    pose proof (nth_error_lt _ _ _ _ En) as Ln. pose proof (nth_error_lt _ _ _ _ Ee) as Le.
    pose proof (nth_error_lt _ _ _ _ Ei) as Li. pose proof (nth_error_lt _ _ _ _ Ef) as Lf.
    pose proof (v_e _ _ _ Hs) as Se. pose proof (v_f _ _ _ Hs) as Sf.
    assert (Dis : forall a, In a (foot self) -> a <> rv /\ a <> p_n d /\ a <> p_eid d /\ a <> p_iid d /\ a <> p_feat d).
    { intros a Ha. apply Hdis in Ha. unfold foot in Ha. rewrite Er in Ha. simpl in Ha.
      repeat split; intros E; apply Ha; rewrite E; auto 10. }
    assert (De : p_eid self <> rv /\ p_eid self <> p_n d /\ p_eid self <> p_eid d /\ p_eid self <> p_iid d /\ p_eid self <> p_feat d)
      by (apply Dis; unfold foot; simpl; auto 10).
    assert (Df : p_feat self <> rv /\ p_feat self <> p_n d /\ p_feat self <> p_eid d /\ p_feat self <> p_iid d /\ p_feat self <> p_feat d)
      by (apply Dis; unfold foot; simpl; auto 10).
    assert (Ir : In rv (foot d)) by (unfold foot; rewrite Er; simpl; auto 10).
    assert (In_ : In (p_n d) (foot d)) by (unfold foot; simpl; auto 10).
    assert (Ie : In (p_eid d) (foot d)) by (unfold foot; simpl; auto 10).
    assert (Ii : In (p_iid d) (foot d)) by (unfold foot; simpl; auto 10).
    assert (If : In (p_feat d) (foot d)) by (unfold foot; simpl; auto 10).
    unfold h_filter_type, filter_type.
    destruct (event sd) as [rows|] eqn:Eev; [|tauto].
    pose proof (nth_error_lt _ _ _ _ Ev) as Lv.
    heapstep. rewrite (v_ot _ _ _ Hv), (v_ot _ _ _ Hs).
    destruct (np_get (o_eid (d_objs s)) (Z.of_nat t)) as [eid_t|x]; cbn [bind].
    2:{ exists h, (Raise x). repeat split; auto. }
    destruct eid_t as [eid_t|].
    2:{ exists h, (Raise AttributeError). repeat split; auto. }
    set (sub := np_unique Z.compare _).
    destruct (gen_table (length eid_t) sub) as [table|x]; cbn [bind].
    2:{ exists h, (Raise x). repeat split; auto. }
    destruct (mapM (subst_row (event_otypes s) t table) rows) as [rows'|x]; cbn [bind].
    2:{ exists h, (Raise x). repeat split; auto. }
    destruct (np_take eid_t sub) as [eid'|x]; cbn [bind].
    2:{ eexists _, (Raise x). split; [reflexivity|]. split; auto. apply frame_upd; auto. }
    heapstep.
    destruct (np_set (o_eid (d_objs sd)) (Z.of_nat t) (Some eid')) as [eids|x]; cbn [bind].
    2:{ eexists _, (Raise x). split; [reflexivity|]. split; auto. apply frame_upd; auto. }
    heapstep.
    destruct (np_set (o_iid (d_objs sd)) (Z.of_nat t) (Some (id_dict eid'))) as [iids|x]; cbn [bind].
    2:{ eexists _, (Raise x). split; [reflexivity|]. split; auto.
        frames. }
    heapstep.
    destruct (np_set (o_n (d_objs sd)) (Z.of_nat t) (Z.of_nat (length eid'))) as [ns|x]; cbn [bind].
    2:{ eexists _, (Raise x). split; [reflexivity|]. split; auto.
        frames. }
    heapstep.
    set (h1 := set_nth (set_nth (set_nth (set_nth h rv (CV rows')) (p_eid d) (CE eids)) (p_iid d) (CD iids)) (p_n d) (CN ns)).
    assert (Fr : frame (foot d) h h1).
    { unfold h1. frames. }
    assert (Hv1 : views h1 d (mkData (n_otypes sd) (mkObjs ns eids iids) (feature sd) (event_otypes sd)
                       (n_events sd) (Some rows') (event_feature sd))).
    { destruct Hv. constructor; cbn; auto; unfold h1.
      - apply rd_upd_same. rewrite !set_nth_length; auto.
      - rewrite rd_upd_other, rd_upd_other by tauto. apply rd_upd_same. rewrite !set_nth_length; auto.
      - rewrite rd_upd_other by tauto. apply rd_upd_same. rewrite !set_nth_length; auto.
      - rewrite !rd_upd_other by tauto. auto.
      - rewrite Er. rewrite !rd_upd_other by tauto. apply rd_upd_same; auto. }
    assert (Sf1 : nth_error h1 (p_feat self) = Some (CF (feature s))).
    { unfold h1. rewrite !rd_upd_other by tauto. auto. }
    destruct (np_get (feature s) (Z.of_nat t)) as [f|x]; cbn [bind].
    2:{ exists h1, (Raise x). repeat split; auto; apply Fr. }
    destruct f as [f|].
    2:{ exists h1, (Ok tt). cbn [bind]. repeat split; auto; try apply Hv1; apply Fr. }
    destruct (np_take f sub) as [f'|x]; cbn [bind].
    2:{ exists h1, (Raise x). repeat split; auto; apply Fr. }
    pose proof (v_f _ _ _ Hv1) as Ef1. cbn in Ef1.
    heapstep.
    destruct (np_set (feature sd) (Z.of_nat t) (Some f')) as [fs|x]; cbn [bind].
    2:{ exists h1, (Raise x). repeat split; auto; apply Fr. }
    eexists _, _. split; [reflexivity|]. split.
    - split; auto. destruct Hv1. cbn in *. constructor; cbn; auto.
      1-3: rewrite rd_upd_other by (clear -D1 D2; tauto); auto.
      + apply rd_upd_same. eapply nth_error_lt; eauto.
      + rewrite Er in *. rewrite rd_upd_other by (clear -D3; tauto). auto.
    - eapply frame_trans; [apply Fr|apply frame_upd; auto].
  Qed.

  Lemma h_filter_loop_sim : forall ts rv h self (d : pobj G) (s sd : data F G), views h self s -> views h d sd ->
    NoDup (foot d) -> p_event d = Some rv -> (forall a, In a (foot self) -> ~ In a (foot d)) ->
    exists h' r, h_filter_loop self d rv ts h = Some (h', r) /\
      match foldM (filter_type s) ts sd with
      | Ok sd' => r = Ok tt /\ views h' d sd'
      | Raise x => r = Raise x
      end /\ frame (foot d) h h'.
  Proof.
    induction ts as [|t ts IH]; intros rv h self d s sd Hs Hv Hnd Er Hdis.
    - exists h, (Ok tt). repeat split; auto; apply Hv.
    - cbn [h_filter_loop foldM]. unfold hbind.
      destruct (h_filter_type_sim t rv h self d s sd Hs Hv Hnd Er Hdis) as [h1 [r [E1 [E2 E3]]]].
      rewrite E1. destruct (filter_type s sd t) as [sd1|x]; cbn [bind].
      2:{ subst r. exists h1, (Raise x). auto. }
      destruct E2 as [-> E2].
      destruct (IH rv h1 self d s sd1) as [h' [r [F1 [F2 F3]]]]; auto.
      { eapply views_frame; eauto. }
      exists h', r. split; auto. split; auto. eapply frame_trans; eauto.
  Qed.

  Definition new_refs h (l : list nat) : Prop := Forall (fun a => length h <= a) l.

  Lemma h_filter_sim : forall c h p s, sviews h p s ->
    exists h' r, h_filter p c h = Some (h', r) /\ frame [] h h' /\
      match s_filter_event s c, r with
      | Ok None, Ok None => True
      | Ok (Some s'), Ok (Some p') => sviews h' p' s' /\ NoDup (foot p') /\ new_refs h (foot p')
      | Raise x, Raise y => x = y
      | _, _ => False
      end.
  Proof.
    intros c h p s [Hv [S1 [S2 S3]]]. unfold h_filter, s_filter_event, filter_event.
    pose proof (v_v _ _ _ Hv) as Ev.
    destruct (p_event p) as [rev|] eqn:Er, (event (s_data s)) as [rows|] eqn:Eev; try tauto.
    2:{ exists h, (Ok None). split; [reflexivity|]. split; [apply frame_refl|auto]. }
    heapstep. destruct (np_select rows c) as [rows'|x] eqn:Esel; cbn [bind].
    2:{ exists h, (Raise x). split; [reflexivity|]. split; [apply frame_refl|auto]. }
    assert (K : forall (hh : @heap F) a x y, nth_error hh a = Some x -> nth_error (hh ++ [y]) a = Some x).
    { intros hh a x y E. rewrite nth_error_app1; eauto using nth_error_lt. }
    assert (K2 : forall (hh : @heap F) y, nth_error (hh ++ [y]) (length hh) = Some y).
    { intros. rewrite nth_error_app2, Nat.sub_diag; auto. }
    pose proof (v_n _ _ _ Hv) as En. pose proof (v_e _ _ _ Hv) as Ee. pose proof (v_i _ _ _ Hv) as Ei.
    pose proof (v_f _ _ _ Hv) as Ef.
    rewrite (K _ _ _ _ En). 
    rewrite (K _ _ _ _ (K _ _ _ _ Ee)).
    rewrite (K _ _ _ _ (K _ _ _ _ (K _ _ _ _ Ei))).
    rewrite (K _ _ _ _ (K _ _ _ _ (K _ _ _ _ (K _ _ _ _ Ef)))).
    match goal with |- context [h_filter_loop p ?x ?y ?z ?w] => set (d := x); set (h5 := w) end.
    rewrite (v_nt _ _ _ Hv).
    assert (Fr5 : frame [] h h5).
    { unfold h5. repeat (eapply frame_trans; [|apply frame_app]). apply frame_refl. }
    assert (Hs5 : views h5 p (s_data s)) by (eapply views_frame; eauto; simpl; tauto).
    set (sd0 := mkData (n_otypes (s_data s)) (d_objs (s_data s)) (feature (s_data s))
                  (event_otypes (s_data s)) (length rows') (Some rows') (event_feature (s_data s))).
    assert (Hd5 : views h5 d sd0).
    { destruct Hv. unfold d, sd0, h5. constructor; cbn; auto 10. }
    assert (Hnew : new_refs h (foot d)).
    { unfold new_refs, foot, d; cbn. rewrite !app_length; cbn. repeat constructor; lia. }
    assert (Hnd : NoDup (foot d)).
    { unfold foot, d; cbn. rewrite !app_length; cbn.
      repeat constructor; simpl; intuition lia. }
    assert (Hdis : forall a, In a (foot p) -> ~ In a (foot d)).
    { intros a Ha Hb. pose proof (views_foot_lt _ _ _ Hv) as Hl. unfold new_refs in Hnew.
      rewrite Forall_forall in Hl, Hnew. apply Hl in Ha. apply Hnew in Hb. lia. }
    destruct (h_filter_loop_sim (seq 0 (n_otypes (s_data s))) (length h) h5 p d (s_data s) sd0 Hs5 Hd5 Hnd eq_refl Hdis)
      as [h' [r [E1 [E2 E3]]]].
    assert (Fr : frame [] h h').
    { destruct Fr5 as [A B], E3 as [C D]. split; [lia|]. intros a Ha _. rewrite D; auto; try lia.
      unfold new_refs in Hnew. rewrite Forall_forall in Hnew. intros Hi. apply Hnew in Hi. lia. }
    rewrite E1.
    destruct (foldM (filter_type (s_data s)) (seq 0 (n_otypes (s_data s))) sd0) as [sd1|x]; cbn [bind].
    2:{ subst r. exists h', (Raise x). auto. }
    destruct E2 as [-> E2]. rewrite (v_ef _ _ _ Hv), S2.
    pose proof (v_ef _ _ _ E2) as Eef. unfold d in Eef. cbn in Eef. rewrite (v_ef _ _ _ Hv) in Eef.
    assert (Fin : forall ef sc,
      sviews h' (mkP (p_notypes p) (p_n d) (p_eid d) (p_iid d) (p_feat d) (p_ot p) (length rows')
                     (Some (length h)) ef (p_dom p) sc (p_levels p))
        (mkSData (mkData (n_otypes sd1) (d_objs sd1) (feature sd1) (event_otypes sd1) (n_events sd1) (event sd1) ef)
                 (score_domain s) sc (n_score_levels s))).
    { intros ef sc. destruct E2. unfold sviews; cbn. split; auto.
      cbn in *. constructor; cbn; auto. }
    destruct (event_feature (s_data s)) as [ef|] eqn:Eef0.
    - destruct (np_select ef c) as [ef'|x] eqn:Esf; cbn [bind].
      2:{ exists h', (Raise x). auto. }
      destruct (score s) as [sc|].
      + destruct (np_select sc c) as [sc'|x]; cbn [bind].
        2:{ exists h', (Raise x). auto. }
        eexists h', _. split; [reflexivity|]. split; [auto|]. split; [apply Fin|]. split; [exact Hnd|exact Hnew].
      + cbn [bind]. eexists h', _. split; [reflexivity|]. split; [auto|]. split; [apply Fin|]. split; [exact Hnd|exact Hnew].
    - rewrite <- Eef. cbn [bind]. destruct (score s) as [sc|].
      + destruct (np_select sc c) as [sc'|x]; cbn [bind].
        2:{ exists h', (Raise x). auto. }
        eexists h', _. split; [reflexivity|]. split; [auto|]. split; [apply Fin|]. split; [exact Hnd|exact Hnew].
      + cbn [bind]. eexists h', _. split; [reflexivity|]. split; [auto|]. split; [apply Fin|]. split; [exact Hnd|exact Hnew].
  Qed.

  (** ** constructor and fit *)
  Lemma h_new_sim : forall n a h,
    exists h' r, @h_new F G n a h = Some (h', r) /\ frame [] h h' /\
      match @s_init F G n a, r with
      | Ok s, Ok p => sviews h' p s /\ NoDup (foot p) /\ new_refs h (foot p)
      | Raise x, Raise y => x = y
      | _, _ => False
      end.
  Proof.
    intros n a h. unfold h_new, s_init.
    destruct (@init F G n a) as [d|x] eqn:Ei; cbn [bind].
    2:{ exists h, (Raise x). split; [reflexivity|]. split; [apply frame_refl|auto]. }
    heapstep. eexists _, _. split; [reflexivity|]. split.
    { do 4 (eapply frame_trans; [|apply frame_app]). apply frame_refl. }
    assert (K : forall (hh : @heap F) a x y, nth_error hh a = Some x -> nth_error (hh ++ [y]) a = Some x).
    { intros hh b x y E. rewrite nth_error_app1; eauto using nth_error_lt. }
    assert (K2 : forall (hh : @heap F) y, nth_error (hh ++ [y]) (length hh) = Some y).
    { intros. rewrite nth_error_app2, Nat.sub_diag; auto. }
    assert (Hd : exists m ot, d = new_data m ot).
    { unfold init in Ei. destruct (n <? 1)%Z; [discriminate|]. destruct a as [|l|]; try discriminate.
      - inversion Ei; eauto.
      - destruct l; [discriminate|]. destruct (_ || _); [discriminate|]. inversion Ei; eauto. }
    destruct Hd as [m [ot ->]]. split; [|split].
    - unfold sviews; cbn. split; auto. constructor; cbn; auto 10.
    - unfold foot; cbn. rewrite !app_length; cbn. repeat constructor; simpl; intuition lia.
    - unfold new_refs, foot; cbn. rewrite !app_length; cbn. repeat constructor; lia.
  Qed.

  (** fit computed on the value of the container *)
  Definition fit_arrays (s : sdata F G) (event_index : option (list Z))
    : res (list (list Z) * list Z * list Z) :=
    let ix := match event_index with
              | None => map Z.of_nat (seq 0 (length (event_otypes (s_data s))))
              | Some ix => ix
              end in
    match event (s_data s) with
    | None => Raise AttributeError
    | Some rows =>
        do rows' <- mapM (fun row => np_take row ix) rows;
        do l1 <- np_take (o_n (d_objs (s_data s))) (map Z.of_nat (event_otypes (s_data s)));
        do l2 <- np_take l1 ix;
        Ok (rows', l2, ix)
    end.

  Lemma h_fit_sim : forall ix h p s, sviews h p s ->
    exists h' r, h_fit p ix h = Some (h', r) /\ frame [] h h' /\
      match fit_arrays s ix, r with
      | Ok (rows, ns, ix'), Ok q =>
          q_eid q = p_eid p /\ q_iid q = p_iid p /\ q_ot q = event_otypes (s_data s) /\
          q_index q = ix' /\ nth_error h' (q_event q) = Some (CV rows) /\
          nth_error h' (q_n q) = Some (CN ns) /\ new_refs h [q_event q; q_n q]
      | Raise x, Raise y => x = y
      | _, _ => False
      end.
  Proof.
    intros ix h p s [Hv [S1 [S2 S3]]]. unfold h_fit, fit_arrays.
    pose proof (v_v _ _ _ Hv) as Ev. pose proof (v_n _ _ _ Hv) as En.
    rewrite (v_ot _ _ _ Hv).
    destruct (p_event p) as [rev|] eqn:Er, (event (s_data s)) as [rows|] eqn:Eev; try tauto.
    2:{ exists h, (Raise AttributeError). split; [reflexivity|]. split; [apply frame_refl|auto]. }
    set (ix' := match ix with None => _ | Some _ => _ end).
    heapstep. destruct (mapM (fun row => np_take row ix') rows) as [rows'|x]; cbn [bind].
    2:{ exists h, (Raise x). split; [reflexivity|]. split; [apply frame_refl|auto]. }
    assert (En1 : nth_error (h ++ [CV rows']) (p_n p) = Some (CN (o_n (d_objs (s_data s))))).
    { rewrite nth_error_app1; eauto using nth_error_lt. }
    heapstep. destruct (np_take (o_n (d_objs (s_data s))) (map Z.of_nat (event_otypes (s_data s)))) as [l1|x]; cbn [bind].
    2:{ eexists _, (Raise x). split; [reflexivity|]. split; [apply frame_app|auto]. }
    destruct (np_take l1 ix') as [l2|x]; cbn [bind].
    2:{ eexists _, (Raise x). split; [reflexivity|]. split; [apply frame_app|auto]. }
    eexists _, _. split; [reflexivity|]. split.
    { eapply frame_trans; [|apply frame_app]. apply frame_app. }
    cbn. repeat split; auto.
    - rewrite <- app_assoc. rewrite nth_error_app2, Nat.sub_diag; auto.
    - rewrite nth_error_app2, Nat.sub_diag; auto.
    - unfold new_refs. rewrite app_length; cbn. repeat constructor; lia.
  Qed.
End PHeap.
