(** * Theorems about sharing (C14, C15)

    The specification is a program whose containers are independent values:
    [value_step] applies the functional operations of M_Score to the one
    container named by the call, and leaves all others alone.  The theorems
    say that the heap programs cannot be told from it. *)
From Coq Require Import List ZArith QArith Lia Bool.
From Verif Require Import M_Py P_Py M_Data Spec M_Score M_Heap P_Heap T_Data T_Score.
Import ListNotations.
Open Scope nat_scope.

Section THeap.
  Context {F G : Type}.
  Notation world := (world F G).
  Notation op := (op F G).

  (** everything observable on container number [i] *)
  Definition observe (w : world) (i : nat) : option (sdata F G) :=
    match nth_error (w_data w) i with
    | None => None
    | Some p =>
        let h := w_heap w in
        match nth_error h (p_n p), nth_error h (p_eid p), nth_error h (p_iid p), nth_error h (p_feat p) with
        | Some (CN n), Some (CE e), Some (CD di), Some (CF f) =>
            let mk ev := mkSData (mkData (p_notypes p) (mkObjs n e di) f (p_ot p) (p_nev p) ev (p_ef p))
                                 (p_dom p) (p_score p) (p_levels p) in
            match p_event p with
            | None => Some (mk None)
            | Some r => match nth_error h r with
                        | Some (CV rows) => Some (mk (Some rows))
                        | _ => None
                        end
            end
        | _, _, _, _ => None
        end
    end.

  (** a recommender as seen by predict: id tables, number of objects, event
      columns; and its training events *)
  Record rec_view := mkRV {
    rv_eid : list (option (list ext_id));
    rv_iid : list (option (dict ext_id Z));
    rv_n : list Z;
    rv_ot : list nat;
    rv_index : list Z;
    rv_event : list (list Z) }.

  Definition observe_rec (w : world) (k : nat) : option rec_view :=
    match nth_error (w_rec w) k with
    | None => None
    | Some q =>
        let h := w_heap w in
        match nth_error h (q_n q), nth_error h (q_eid q), nth_error h (q_iid q), nth_error h (q_event q) with
        | Some (CN n), Some (CE e), Some (CD di), Some (CV ev) =>
            Some (mkRV e di n (q_ot q) (q_index q) ev)
        | _, _, _, _ => None
        end
    end.

  (** ** Specification: containers as independent values *)
  Definition on {A} (l : list A) (i : nat) (f : A -> list A * option exn) : option (list A * option exn) :=
    match nth_error l i with None => None | Some s => Some (f s) end.

  Definition value_step (ss : list (sdata F G)) (o : op) : option (list (sdata F G) * option exn) :=
    match o with
    | ONew n a => Some (match s_init n a with
                        | Ok s => (ss ++ [s], None)
                        | Raise e => (ss, Some e)
                        end)
    | OSetEvent i ev sc sd ef =>
        on ss i (fun s => (set_nth ss i (fst (s_set_event s ev sc sd ef)), snd (s_set_event s ev sc sd ef)))
    | OSetFeature i t ids f =>
        on ss i (fun s => match s_set_feature s t ids f with
                          | Ok s' => (set_nth ss i s', None)
                          | Raise e => (ss, Some e)
                          end)
    | OBinarize i th =>
        on ss i (fun s => match binarize_score s th with
                          | Ok s' => (set_nth ss i s', None)
                          | Raise e => (ss, Some e)
                          end)
    | OFilter i c =>
        on ss i (fun s => match s_filter_event s c with
                          | Ok (Some s') => (ss ++ [s'], None)
                          | Ok None => (ss, None)
                          | Raise e => (ss, Some e)
                          end)
    | OFit i ix =>
        on ss i (fun s => (ss, match fit_arrays s ix with Ok _ => None | Raise e => Some e end))
    end.

  (** runs of any length; exceptions are caught by the caller *)
  Fixpoint run (w : world) (os : list op) : option world :=
    match os with
    | [] => Some w
    | o :: os' => match step w o with Some (w', _) => run w' os' | None => None end
    end.

  Definition reachable_world (w : world) : Prop := exists os, run init_world os = Some w.

  (** the containers of [w] are the values [ss] *)
  Definition shows (w : world) (ss : list (sdata F G)) : Prop :=
    length (w_data w) = length ss /\
    forall i, i < length ss -> observe w i = nth_error ss i.

  (** ** Invariant *)
  Record winv (w : world) (ss : list (sdata F G)) : Prop := mkWinv {
    wi_views : Forall2 (sviews (w_heap w)) (w_data w) ss;
    wi_nodup : forall i p, nth_error (w_data w) i = Some p -> NoDup (foot p);
    wi_disj : forall i j p q a, i <> j -> nth_error (w_data w) i = Some p ->
      nth_error (w_data w) j = Some q -> In a (foot p) -> ~ In a (foot q);
    wi_rec : forall k q, nth_error (w_rec w) k = Some q ->
      (exists i p, nth_error (w_data w) i = Some p /\ q_eid q = p_eid p /\ q_iid q = p_iid p) /\
      (exists n ev, nth_error (w_heap w) (q_n q) = Some (CN n) /\
                    nth_error (w_heap w) (q_event q) = Some (CV ev)) /\
      (forall i p a, nth_error (w_data w) i = Some p -> In a [q_n q; q_event q] -> ~ In a (foot p)) }.

  (** what a step keeps of the containers and recommenders already there *)
  Record extends (w w' : world) : Prop := mkExt {
    ex_refs : forall i p, nth_error (w_data w) i = Some p ->
      exists p', nth_error (w_data w') i = Some p' /\ p_eid p' = p_eid p /\ p_iid p' = p_iid p;
    ex_rec : forall k q, nth_error (w_rec w) k = Some q -> nth_error (w_rec w') k = Some q;
    ex_cells : forall k q a, nth_error (w_rec w) k = Some q -> In a [q_n q; q_event q] ->
      nth_error (w_heap w') a = nth_error (w_heap w) a }.

  Lemma Forall2_length : forall A B (R : A -> B -> Prop) l l', Forall2 R l l' -> length l = length l'.
  Proof. intros A B R l l' H. induction H; simpl; auto. Qed.

  Lemma Forall2_nth : forall A B (R : A -> B -> Prop) l l', Forall2 R l l' -> forall i a,
    nth_error l i = Some a -> exists b, nth_error l' i = Some b /\ R a b.
  Proof.
    intros A B R l l' H. induction H; intros [|i] a E; simpl in *; try discriminate.
    - inversion E; subst; eauto.
    - eauto.
  Qed.

  Lemma Forall2_nth_r : forall A B (R : A -> B -> Prop) l l', Forall2 R l l' -> forall i b,
    nth_error l' i = Some b -> exists a, nth_error l i = Some a /\ R a b.
  Proof.
    intros A B R l l' H. induction H; intros [|i] b E; simpl in *; try discriminate.
    - inversion E; subst; eauto.
    - eauto.
  Qed.

  Lemma Forall2_build : forall A B (R : A -> B -> Prop) l l', length l = length l' ->
    (forall i a b, nth_error l i = Some a -> nth_error l' i = Some b -> R a b) -> Forall2 R l l'.
  Proof.
    induction l as [|x l IH]; intros [|y l'] E H; try discriminate; constructor.
    - apply (H 0); auto.
    - apply IH; auto. intros i a b Ea Eb. apply (H (S i)); auto.
  Qed.

  Lemma observe_views : forall w i p s, nth_error (w_data w) i = Some p ->
    sviews (w_heap w) p s -> observe w i = Some s.
  Proof.
    intros w i p s E [[] [S1 [S2 S3]]]. unfold observe. rewrite E, v_n, v_e, v_i, v_f.
    destruct s as [[nt [on oe oi] fe ot ne ev ef] dm sc lv]. cbn in *. subst.
    destruct (p_event p) as [r|], ev as [rows|]; try tauto. rewrite v_v. reflexivity.
  Qed.

  Lemma winv_shows : forall w ss, winv w ss -> shows w ss.
  Proof.
    intros w ss [Hv _ _ _]. split; [eapply Forall2_length; eauto|].
    intros i Hi. destruct (nth_error ss i) as [s|] eqn:E; [|apply nth_error_None in E; lia].
    destruct (Forall2_nth_r _ _ _ _ _ Hv _ _ E) as [p [Ep Hp]].
    apply (observe_views w i p s Ep Hp).
  Qed.

  Lemma sviews_frame : forall fp h h' p (s : sdata F G), sviews h p s -> frame fp h h' ->
    (forall a, In a (foot p) -> ~ In a fp) -> sviews h' p s.
  Proof. intros fp h h' p s [Hv Hs] Hf Hd. split; auto. eapply views_frame; eauto. Qed.

  Lemma sviews_lt : forall h p (s : sdata F G), sviews h p s -> forall a, In a (foot p) -> a < length h.
  Proof.
    intros h p s [Hv _] a Ha. apply views_foot_lt in Hv. rewrite Forall_forall in Hv. auto.
  Qed.

  (** the heap grows, nothing else changes *)
  Lemma winv_heap : forall w ss h', winv w ss -> frame [] (w_heap w) h' ->
    winv (mkW h' (w_data w) (w_rec w)) ss /\ extends w (mkW h' (w_data w) (w_rec w)).
  Proof.
    intros w ss h' [Hv Hn Hd Hr] Hf. split; constructor; cbn [w_data w_heap w_rec]; eauto.
    - eapply Forall2_build; [eapply Forall2_length; eauto|]. intros i p s Ep Es.
      destruct (Forall2_nth _ _ _ _ _ Hv _ _ Ep) as [s' [Es' Hs]]. assert (s' = s) by congruence. subst s'.
      eapply sviews_frame; eauto.
    - intros k q Ek. destruct (Hr k q Ek) as [A [[n [ev [B1 B2]]] C]]. split; auto. split; auto.
      destruct Hf as [_ Hf]. exists n, ev. rewrite !Hf; eauto using nth_error_lt.
    - intros k q a Ek Ha. destruct (Hr k q Ek) as [_ [[n [ev [B1 B2]]] _]]. destruct Hf as [_ Hf].
      apply Hf; auto. destruct Ha as [<-|[<-|[]]]; eapply nth_error_lt; eauto.
  Qed.

  Lemma nth_error_snoc : forall A (l : list A) x i y, nth_error (l ++ [x]) i = Some y ->
    nth_error l i = Some y \/ (i = length l /\ y = x).
  Proof.
    intros A l x i y E. destruct (Nat.lt_ge_cases i (length l)) as [H|H].
    - rewrite nth_error_app1 in E; auto.
    - rewrite nth_error_app2 in E; auto. destruct (i - length l) as [|k] eqn:Ek; simpl in E.
      + inversion E. right. split; auto. lia.
      + destruct k; discriminate.
  Qed.

  (** a new container in fresh memory *)
  Lemma winv_add : forall w ss h' p s, winv w ss -> frame [] (w_heap w) h' ->
    sviews h' p s -> NoDup (foot p) -> new_refs (w_heap w) (foot p) ->
    winv (mkW h' (w_data w ++ [p]) (w_rec w)) (ss ++ [s]) /\
    extends w (mkW h' (w_data w ++ [p]) (w_rec w)).
  Proof.
    intros w ss h' p s Hw Hf Hp Hnd Hnew.
    unfold new_refs in Hnew. rewrite Forall_forall in Hnew.
    pose proof Hw as [Hv0 _ _ _].
    destruct (winv_heap _ _ _ Hw Hf) as [[Hv Hn Hd Hr] [X1 X2 X3]]. cbn [w_data w_heap w_rec] in *.
    assert (Old : forall i q a, nth_error (w_data w) i = Some q -> In a (foot q) -> a < length (w_heap w)).
    { intros i q a Eq Ha. destruct (Forall2_nth _ _ _ _ _ Hv0 _ _ Eq) as [s' [_ Hs]]. eapply sviews_lt; eauto. }
    split; constructor; cbn [w_data w_heap w_rec]; auto.
    - apply Forall2_app; auto.
    - intros i q Eq. apply nth_error_snoc in Eq. destruct Eq as [Eq|[_ ->]]; eauto.
    - intros i j q q' a Hij Ei Ej Ha Hb. apply nth_error_snoc in Ei. apply nth_error_snoc in Ej.
      destruct Ei as [Ei|[Ei ->]], Ej as [Ej|[Ej ->]].
      + eapply Hd; eauto.
      + apply Hnew in Hb. eapply Old in Ha; eauto. lia.
      + apply Hnew in Ha. eapply Old in Hb; eauto. lia.
      + lia.
    - intros k q Ek. destruct (Hr k q Ek) as [[i [p0 [A1 A2]]] [B C]]. split.
      + exists i, p0. split; auto. rewrite nth_error_app1; eauto using nth_error_lt.
      + split; auto. intros j p1 a Ej Ha. apply nth_error_snoc in Ej. destruct Ej as [Ej|[_ ->]]; eauto.
        intros Hb. apply Hnew in Hb. destruct Hw as [_ _ _ Hr0].
        destruct (Hr0 k q Ek) as [_ [[n [ev [B1 B2]]] _]].
        destruct Ha as [<-|[<-|[]]]; apply nth_error_lt in B1; apply nth_error_lt in B2; lia.
    - intros i q Eq. exists q. split; auto. rewrite nth_error_app1; eauto using nth_error_lt.
  Qed.

  Lemma set_nth_error : forall A (l : list A) i x j y, nth_error (set_nth l i x) j = Some y ->
    (j = i /\ y = x /\ i < length l) \/ (j <> i /\ nth_error l j = Some y).
  Proof.
    intros A l i x j y E. rewrite nth_error_set_nth in E. destruct (Nat.eqb_spec j i); auto.
    destruct (Nat.ltb_spec i (length l)); inversion E; subst; auto.
  Qed.

  (** container [i] is replaced, writing only into its own arrays *)
  Lemma winv_upd : forall w ss h' i p p' s', winv w ss -> nth_error (w_data w) i = Some p ->
    frame (foot p) (w_heap w) h' -> sviews h' p' s' -> moves (w_heap w) p p' ->
    winv (mkW h' (set_nth (w_data w) i p') (w_rec w)) (set_nth ss i s') /\
    extends w (mkW h' (set_nth (w_data w) i p') (w_rec w)).
  Proof.
    intros w ss h' i p p' s' Hw Ep Hf Hp Hm.
    pose proof Hw as [Hv Hn Hd Hr].
    destruct (Forall2_nth _ _ _ _ _ Hv _ _ Ep) as [s [Es Hs]].
    assert (Hlt : Forall (fun a => a < length (w_heap w)) (foot p)).
    { apply Forall_forall. intros a Ha. eapply sviews_lt; eauto. }
    destruct (foot_moves _ p p' Hm (Hn _ _ Ep) Hlt) as [Hnd' Hin].
    assert (Old : forall i q a, nth_error (w_data w) i = Some q -> In a (foot q) -> a < length (w_heap w)).
    { intros i0 q a Eq Ha. destruct (Forall2_nth _ _ _ _ _ Hv _ _ Eq) as [s1 [_ Hs1]]. eapply sviews_lt; eauto. }
    assert (Oth : forall j q a, j <> i -> nth_error (w_data w) j = Some q -> In a (foot p') -> ~ In a (foot q)).
    { intros j q a Hj Eq Ha Hb. destruct (Hin a Ha) as [Ha'| -> ].
      - eapply (Hd i j); eauto.
      - eapply Old in Hb; eauto. lia. }
    assert (Rc : forall k q a, nth_error (w_rec w) k = Some q -> In a [q_n q; q_event q] ->
      a < length (w_heap w) /\ ~ In a (foot p)).
    { intros k q a Ek Ha. destruct (Hr k q Ek) as [_ [[n [ev [B1 B2]]] C]]. split; eauto.
      destruct Ha as [<-|[<-|[]]]; eapply nth_error_lt; eauto. }
    assert (Cells : forall k q a, nth_error (w_rec w) k = Some q -> In a [q_n q; q_event q] ->
      nth_error h' a = nth_error (w_heap w) a).
    { intros k q a Ek Ha. destruct (Rc k q a Ek Ha). apply Hf; auto. }
    assert (Refs : forall j q, nth_error (w_data w) j = Some q ->
      exists q', nth_error (set_nth (w_data w) i p') j = Some q' /\ p_eid q' = p_eid q /\ p_iid q' = p_iid q).
    { intros j q Eq. rewrite nth_error_set_nth. destruct (Nat.eqb_spec j i) as [->|Hj].
      - destruct (Nat.ltb_spec i (length (w_data w))); [|apply nth_error_lt in Ep; lia].
        exists p'. destruct Hm as [_ [M1 [M2 _]]]. assert (q = p) by congruence. subst q. auto.
      - exists q. auto. }
    split; constructor; cbn [w_data w_heap w_rec]; auto.
    - apply Forall2_build.
      + rewrite !set_nth_length. eapply Forall2_length; eauto.
      + intros j q u Eq Eu. apply set_nth_error in Eq. apply set_nth_error in Eu.
        destruct Eq as [[-> [-> _]]|[Hj Eq]], Eu as [[Hj' [-> _]]|[Hj' Eu]]; try lia; auto.
        destruct (Forall2_nth _ _ _ _ _ Hv _ _ Eq) as [u' [Eu' Hu]].
        assert (u' = u) by congruence. subst u'. eapply (sviews_frame (foot p)); eauto.
    - intros j q Eq. apply set_nth_error in Eq. destruct Eq as [[-> [-> _]]|[Hj Eq]]; eauto.
    - intros j k q r a Hjk Ej Ek Ha Hb. apply set_nth_error in Ej. apply set_nth_error in Ek.
      destruct Ej as [[-> [-> _]]|[Hj Ej]], Ek as [[-> [-> _]]|[Hk Ek]]; try lia.
      + eapply (Oth k); eauto.
      + eapply (Oth j); eauto.
      + eapply (Hd j k); eauto.
    - intros k q Ek. destruct (Hr k q Ek) as [[j [p0 [A1 [A2 A3]]]] [[n [ev [B1 B2]]] C]]. split; [|split].
      + destruct (Refs _ _ A1) as [q' [R1 [R2 R3]]]. exists j, q'. repeat split; congruence.
      + exists n, ev. rewrite !(Cells k q); simpl; auto.
      + intros j0 p1 a Ej Ha Hb. apply set_nth_error in Ej. destruct Ej as [[-> [-> _]]|[Hj Ej]].
        * destruct (Rc k q a Ek Ha) as [R1 R2]. destruct (Hin a Hb) as [Hc| ->]; [auto|lia].
        * eapply C; eauto.
  Qed.

  Lemma moves_refl : forall h p, @moves F G h p p.
  Proof. unfold moves; intuition. Qed.

  Lemma set_nth_same : forall A (l : list A) i x, nth_error l i = Some x -> set_nth l i x = l.
  Proof.
    induction l as [|y l IH]; intros [|i] x E; simpl in *; try discriminate.
    - congruence.
    - f_equal; auto.
  Qed.

  Lemma extends_refl : forall w, extends w w.
  Proof. constructor; eauto. Qed.

  Lemma step_sim : forall w ss o ss' x, winv w ss -> value_step ss o = Some (ss', x) ->
    exists w', step w o = Some (w', x) /\ winv w' ss' /\ extends w w'.
  Proof.
    intros w ss o ss' x Hw Hs. pose proof Hw as [Hv Hn Hd Hr].
    destruct o as [n a|i ev sc sd ef|i t ids f|i th|i c|i ix]; cbn [value_step step] in *; unfold on in Hs.
    - destruct (@h_new_sim F G n a (w_heap w)) as [h' [r [E1 [E2 E3]]]]. rewrite E1.
      destruct (s_init n a) as [s|e], r as [p|e']; try tauto; inversion Hs; subst; clear Hs.
      + eexists. split; [reflexivity|]. destruct E3 as [A [B C]]. apply winv_add; auto.
      + eexists. split; [reflexivity|]. apply winv_heap; auto.
    - destruct (nth_error ss i) as [s|] eqn:Es; [|discriminate].
      destruct (Forall2_nth_r _ _ _ _ _ Hv _ _ Es) as [p [Ep Hp]]. rewrite Ep.
      destruct (h_set_event_sim ev sc sd ef _ p s Hp (Hn _ _ Ep)) as [h' [p' [E1 [E2 [E3 E4]]]]].
      rewrite E1. inversion Hs; subst; clear Hs. eexists. split; [reflexivity|].
      eapply winv_upd; eauto. eapply frame_weak; eauto. unfold foot; simpl; intuition.
    - destruct (nth_error ss i) as [s|] eqn:Es; [|discriminate].
      destruct (Forall2_nth_r _ _ _ _ _ Hv _ _ Es) as [p [Ep Hp]]. rewrite Ep.
      destruct (h_set_feature_sim t ids f _ p s Hp (Hn _ _ Ep)) as [h' [r [E1 [E2 E3]]]]. rewrite E1.
      destruct (s_set_feature s t ids f) as [s'|e]; destruct E2 as [-> E2]; inversion Hs; subst; clear Hs.
      + eexists. split; [reflexivity|].
        destruct (winv_upd w ss h' i p p s' Hw Ep) as [A B]; auto.
        { eapply frame_weak; eauto. unfold foot; simpl; intuition. }
        { apply moves_refl. }
        rewrite (set_nth_same _ _ _ _ Ep) in A, B. auto.
      + eexists. split; [reflexivity|]. destruct w; auto using extends_refl.
    - destruct (nth_error ss i) as [s|] eqn:Es; [|discriminate].
      destruct (Forall2_nth_r _ _ _ _ _ Hv _ _ Es) as [p [Ep Hp]]. rewrite Ep.
      pose proof (h_binarize_sim th _ p s Hp) as E2.
      destruct (binarize_score s th) as [s'|e] eqn:Eb, (h_binarize p th) as [p'|e'] eqn:Eh; try tauto;
        inversion Hs; subst; clear Hs.
      + eexists. split; [reflexivity|]. destruct E2 as [E2 E3].
        eapply winv_upd; eauto using frame_refl.
        unfold h_binarize in Eh. apply bind_ok in Eh. destruct Eh as [u [_ Eh]].
        destruct (p_score p); inversion Eh; subst. unfold moves; cbn; auto 10.
      + eexists. split; [reflexivity|]. auto using extends_refl.
    - destruct (nth_error ss i) as [s|] eqn:Es; [|discriminate].
      destruct (Forall2_nth_r _ _ _ _ _ Hv _ _ Es) as [p [Ep Hp]]. rewrite Ep.
      destruct (h_filter_sim c _ p s Hp) as [h' [r [E1 [E2 E3]]]]. rewrite E1.
      destruct (s_filter_event s c) as [[s'|]|e], r as [[p'|]|e']; try tauto; inversion Hs; subst; clear Hs.
      + eexists. split; [reflexivity|]. destruct E3 as [A [B C]]. apply winv_add; auto.
      + eexists. split; [reflexivity|]. apply winv_heap; auto.
      + eexists. split; [reflexivity|]. apply winv_heap; auto.
    - destruct (nth_error ss i) as [s|] eqn:Es; [|discriminate].
      destruct (Forall2_nth_r _ _ _ _ _ Hv _ _ Es) as [p [Ep Hp]]. rewrite Ep.
      destruct (h_fit_sim ix _ p s Hp) as [h' [r [E1 [E2 E3]]]]. rewrite E1.
      destruct (winv_heap _ _ _ Hw E2) as [[Hv1 Hn1 Hd1 Hr1] [X1 X2 X3]].
      destruct (fit_arrays s ix) as [[[rows ns] ix']|e], r as [q|e']; try tauto; inversion Hs; subst; clear Hs.
      + eexists. split; [reflexivity|]. destruct E3 as [Q1 [Q2 [Q3 [Q4 [Q5 [Q6 Q7]]]]]]. cbn [w_data w_heap w_rec] in *.
        unfold new_refs in Q7. rewrite Forall_forall in Q7.
        split; constructor; cbn [w_data w_heap w_rec]; auto.
        * intros k q0 Ek. apply nth_error_snoc in Ek. destruct Ek as [Ek|[_ ->]]; [apply (Hr1 k); auto|].
          split; [exists i, p; auto|]. split; [exists ns, rows; auto|].
          intros j p0 a Ej Ha Hb.
          destruct (Forall2_nth _ _ _ _ _ Hv _ _ Ej) as [u [_ Hu]].
          pose proof (sviews_lt _ _ _ Hu _ Hb). 
          assert (length (w_heap w) <= a) by (apply Q7; simpl in *; tauto). lia.
        * intros k q0 Ek. rewrite nth_error_app1; eauto using nth_error_lt.
      + eexists. split; [reflexivity|]. split; constructor; auto.
  Qed.

  Lemma step_none : forall w ss o, winv w ss -> value_step ss o = None -> step w o = None.
  Proof.
    intros w ss o [Hv _ _ _] H.
    assert (K : forall i, nth_error ss i = None -> nth_error (w_data w) i = None).
    { intros i E. apply nth_error_None. apply nth_error_None in E. apply Forall2_length in Hv. lia. }
    destruct o as [n a|i ev sc sd ef|i t ids f|i th|i c|i ix]; cbn [value_step step] in *; unfold on in H;
      try discriminate; destruct (nth_error ss i) eqn:E; try discriminate; rewrite (K _ E); auto.
  Qed.

  Lemma winv_init : winv init_world [].
  Proof.
    constructor; unfold init_world; cbn [w_data w_heap w_rec].
    - constructor.
    - intros i p E; destruct i; discriminate.
    - intros i j p q a _ E; destruct i; discriminate.
    - intros k q E; destruct k; discriminate.
  Qed.

  Lemma extends_trans : forall w1 w2 w3, extends w1 w2 -> extends w2 w3 -> extends w1 w3.
  Proof.
    intros w1 w2 w3 [A B C] [A' B' C']. constructor; auto.
    - intros i p E. destruct (A _ _ E) as [p' [E1 [E2 E3]]]. destruct (A' _ _ E1) as [p2 [E4 [E5 E6]]].
      exists p2. repeat split; congruence.
    - intros k q a Ek Ha. rewrite (C' k q); eauto.
  Qed.

  Lemma run_sim : forall os w ss, winv w ss -> forall w', run w os = Some w' ->
    exists ss', winv w' ss' /\ extends w w'.
  Proof.
    induction os as [|o os IH]; intros w ss Hw w' H; simpl in H.
    - inversion H; subst. eauto using extends_refl.
    - destruct (value_step ss o) as [[ss1 x]|] eqn:Ev.
      + destruct (step_sim _ _ _ _ _ Hw Ev) as [w1 [E1 [E2 E3]]]. rewrite E1 in H.
        destruct (IH _ _ E2 _ H) as [ss' [F1 F2]]. eauto using extends_trans.
      + rewrite (step_none _ _ _ Hw Ev) in H. discriminate.
  Qed.

  Lemma reachable_winv : forall w, reachable_world w -> exists ss, winv w ss.
  Proof.
    intros w [os H]. destruct (run_sim _ _ _ winv_init _ H) as [ss [Hw _]]. eauto.
  Qed.

  (** ** C14 *)

  (** The heap program is observably the program on independent values: it
      never meets a dangling reference, raises the same exceptions, and after
      every call every container shows exactly the value that the functional
      operation gives. *)
  Theorem C14_value_semantics : forall (w : world), reachable_world w ->
    exists ss, shows w ss /\
      forall o, match value_step ss o with
                | Some (ss', x) => exists w', step w o = Some (w', x) /\ shows w' ss'
                | None => step w o = None
                end.
  Proof.
    intros w Hr. destruct (reachable_winv _ Hr) as [ss Hw]. exists ss. split; [apply winv_shows; auto|].
    intros o. destruct (value_step ss o) as [[ss' x]|] eqn:Ev.
    - destruct (step_sim _ _ _ _ _ Hw Ev) as [w' [E1 [E2 _]]]. exists w'. split; auto. apply winv_shows; auto.
    - eapply step_none; eauto.
  Qed.

  (** the container whose value a call may change *)
  Definition changes (o : op) (i : nat) : Prop :=
    match o with
    | OSetEvent j _ _ _ _ | OSetFeature j _ _ _ | OBinarize j _ => i = j
    | ONew _ _ | OFilter _ _ | OFit _ _ => False
    end.

  Lemma value_step_other : forall ss o ss' x i, value_step ss o = Some (ss', x) -> ~ changes o i ->
    i < length ss -> nth_error ss' i = nth_error ss i.
  Proof.
    intros ss o ss' x i H Hc Hi.
    destruct o as [n a|j ev sc sd ef|j t ids f|j th|j c|j ix]; cbn [value_step changes] in *; unfold on in H;
      try (destruct (nth_error ss j) as [s|]; [|discriminate]).
    - destruct (s_init n a); inversion H; subst; auto. apply nth_error_app1; auto.
    - inversion H; subst. rewrite nth_error_set_nth. destruct (Nat.eqb_spec i j); tauto.
    - destruct (s_set_feature s t ids f); inversion H; subst; auto.
      rewrite nth_error_set_nth. destruct (Nat.eqb_spec i j); tauto.
    - destruct (binarize_score s th); inversion H; subst; auto.
      rewrite nth_error_set_nth. destruct (Nat.eqb_spec i j); tauto.
    - destruct (s_filter_event s c) as [[s'|]|e]; inversion H; subst; auto. apply nth_error_app1; auto.
    - inversion H; subst. auto.
  Qed.

  (** No sequence of calls on other containers (filtered copies, originals,
      unrelated ones), nor filtering or fitting on this one, changes anything
      observable on container [i]. *)
  Theorem C14_independent : forall (w w' : world) i os, reachable_world w ->
    i < length (w_data w) -> Forall (fun o => ~ changes o i) os -> run w os = Some w' ->
    observe w' i = observe w i /\ exists s, observe w i = Some s.
  Proof.
    intros w w' i os Hr Hi Hos H. destruct (reachable_winv _ Hr) as [ss Hw]. clear Hr.
    revert w ss Hw Hi H. induction Hos as [|o os Ho Hos IH]; intros w ss Hw Hi H; simpl in H.
    - inversion H; subst. split; auto. destruct (winv_shows _ _ Hw) as [L O].
      rewrite O by lia. destruct (nth_error ss i) eqn:E; eauto. apply nth_error_None in E. lia.
    - destruct (value_step ss o) as [[ss1 x]|] eqn:Ev.
      2:{ rewrite (step_none _ _ _ Hw Ev) in H. discriminate. }
      destruct (step_sim _ _ _ _ _ Hw Ev) as [w1 [E1 [E2 E3]]]. rewrite E1 in H.
      destruct (winv_shows _ _ Hw) as [L O]. destruct (winv_shows _ _ E2) as [L1 O1].
      pose proof (value_step_other _ _ _ _ i Ev Ho ltac:(lia)) as K.
      assert (Hs : exists s, nth_error ss i = Some s).
      { destruct (nth_error ss i) eqn:E; eauto. apply nth_error_None in E. lia. }
      destruct Hs as [s Hs].
      assert (Hi1 : i < length ss1). { apply nth_error_Some. rewrite K, Hs. discriminate. }
      destruct (IH w1 ss1 E2) as [F1 F2]; auto; try lia.
      rewrite F1, O1, O, K by lia. eauto.
  Qed.

  (** every container of every reachable world has a history of the
      functional operations, so the theorems about histories apply to it *)
  Definition op_ok (o : op) : Prop := match o with OSetEvent _ ev _ _ _ => nd_ok ev | _ => True end.

  Theorem C14_histories : forall (w : world) os i s, Forall op_ok os -> run init_world os = Some w ->
    observe w i = Some s -> shistory s.
  Proof.
    intros w os i s Hok H Ho.
    assert (G0 : forall os w0 ss0, Forall op_ok os -> winv w0 ss0 -> Forall shistory ss0 ->
      run w0 os = Some w -> exists ss, winv w ss /\ Forall shistory ss).
    { clear. induction os as [|o os IH]; intros w0 ss0 Hok Hw Hh H; simpl in H.
      - inversion H; subst. eauto.
      - inversion Hok as [|? ? Ho Hok']; subst.
        destruct (value_step ss0 o) as [[ss1 x]|] eqn:Ev.
        2:{ rewrite (step_none _ _ _ Hw Ev) in H. discriminate. }
        destruct (step_sim _ _ _ _ _ Hw Ev) as [w1 [E1 [E2 E3]]]. rewrite E1 in H.
        apply (IH w1 ss1); auto. clear -Ev Hh Ho.
        assert (Nth : forall i s, nth_error ss0 i = Some s -> shistory s).
        { intros i s E. rewrite Forall_forall in Hh. apply Hh. eapply nth_error_In; eauto. }
        assert (Set_ : forall i s, shistory s -> Forall shistory (set_nth ss0 i s)).
        { intros i s Hs. apply Forall_forall. intros y Hy. apply In_nth_error in Hy. destruct Hy as [k Hk].
          apply set_nth_error in Hk. destruct Hk as [[_ [-> _]]|[_ Hk]]; eauto. }
        destruct o as [n a|j ev sc sd ef|j t ids f|j th|j c|j ix]; cbn [value_step op_ok] in *; unfold on in Ev;
          try (destruct (nth_error ss0 j) as [s|] eqn:Es; [|discriminate]).
        + destruct (s_init n a) eqn:E; inversion Ev; subst; auto. apply Forall_app; split; auto.
          repeat constructor. eapply sh_init; eauto.
        + inversion Ev; subst. apply Set_. apply sh_set_event; eauto.
        + destruct (s_set_feature s t ids f) eqn:E; inversion Ev; subst; auto.
          apply Set_. eapply sh_set_feature; eauto.
        + destruct (binarize_score s th) eqn:E; inversion Ev; subst; auto.
          apply Set_. eapply sh_binarize; eauto.
        + destruct (s_filter_event s c) as [[s'|]|e] eqn:E; inversion Ev; subst; auto.
          apply Forall_app; split; auto. repeat constructor. eapply sh_filter; eauto.
        + inversion Ev; subst. auto. }
    destruct (G0 os init_world [] Hok winv_init (Forall_nil _) H) as [ss [Hw Hh]].
    destruct (winv_shows _ _ Hw) as [L O].
    assert (Hi : i < length ss).
    { rewrite <- L. unfold observe in Ho. destruct (nth_error (w_data w) i) eqn:E; [|discriminate].
      eapply nth_error_lt; eauto. }
    rewrite O in Ho by auto. rewrite Forall_forall in Hh. apply Hh. eapply nth_error_In; eauto.
  Qed.

  (** ** C15 *)

  (** What is true: whatever is called later, a recommender translates ids by
      the tables that the container it was fitted on has at that moment; its
      object counts and training events never change. *)
  Theorem C15_tables_alias_partial : forall (w w1 w2 : world) i ix os, reachable_world w ->
    step w (OFit i ix) = Some (w1, None) -> run w1 os = Some w2 ->
    exists v1 v2 s1 s2,
      observe_rec w1 (length (w_rec w)) = Some v1 /\ observe_rec w2 (length (w_rec w)) = Some v2 /\
      observe w1 i = Some s1 /\ observe w2 i = Some s2 /\
      rv_eid v1 = o_eid (d_objs (s_data s1)) /\ rv_iid v1 = o_iid (d_objs (s_data s1)) /\
      rv_eid v2 = o_eid (d_objs (s_data s2)) /\ rv_iid v2 = o_iid (d_objs (s_data s2)) /\
      rv_n v2 = rv_n v1 /\ rv_event v2 = rv_event v1 /\ rv_ot v2 = rv_ot v1 /\ rv_index v2 = rv_index v1.
  Proof.
    intros w w1 w2 i ix os Hr H1 H2. destruct (reachable_winv _ Hr) as [ss Hw].
    destruct (value_step ss (OFit i ix)) as [[ss1 x]|] eqn:Ev.
    2:{ rewrite (step_none _ _ _ Hw Ev) in H1. discriminate. }
    destruct (step_sim _ _ _ _ _ Hw Ev) as [w1' [E1 [Hw1 _]]]. rewrite H1 in E1. inversion E1; subst w1' x; clear E1.
    destruct (run_sim _ _ _ Hw1 _ H2) as [ss2 [Hw2 Hx]].
    cbn [step] in H1. destruct (nth_error (w_data w) i) as [p|] eqn:Ep; [|discriminate].
    destruct (Forall2_nth _ _ _ _ _ (wi_views _ _ Hw) _ _ Ep) as [s [Es Hs]].
    destruct (h_fit_sim ix _ p s Hs) as [h' [r [E1 [E2 E3]]]]. rewrite E1 in H1.
    destruct r as [q|e]; [|discriminate]. inversion H1; subst w1; clear H1.
    destruct (fit_arrays s ix) as [[[rows ns] ix']|e]; [|tauto].
    destruct E3 as [Q1 [Q2 [Q3 [Q4 [Q5 [Q6 _]]]]]].
    assert (Eq1 : nth_error (w_rec w ++ [q]) (length (w_rec w)) = Some q).
    { rewrite nth_error_app2, Nat.sub_diag; auto. }
    destruct (ex_refs _ _ Hx i p Ep) as [p2 [Ep2 [R1 R2]]].
    pose proof (ex_rec _ _ Hx _ _ Eq1) as Eq2.
    pose proof (ex_cells _ _ Hx _ _ (q_n q) Eq1 ltac:(simpl; auto)) as C1.
    pose proof (ex_cells _ _ Hx _ _ (q_event q) Eq1 ltac:(simpl; auto)) as C2. cbn in C1, C2.
    destruct (Forall2_nth _ _ _ _ _ (wi_views _ _ Hw1) i p Ep) as [s1 [_ Hs1]]. cbn in Hs1.
    destruct (Forall2_nth _ _ _ _ _ (wi_views _ _ Hw2) i p2 Ep2) as [s2 [_ Hs2]].
    exists (mkRV (o_eid (d_objs (s_data s1))) (o_iid (d_objs (s_data s1))) ns (q_ot q) (q_index q) rows).
    exists (mkRV (o_eid (d_objs (s_data s2))) (o_iid (d_objs (s_data s2))) ns (q_ot q) (q_index q) rows).
    exists s1, s2. split; [|split; [|split; [|split]]].
    - unfold observe_rec. cbn. rewrite Eq1, Q6, Q5, Q1, Q2.
      rewrite (v_e _ _ _ (proj1 Hs1)), (v_i _ _ _ (proj1 Hs1)). reflexivity.
    - unfold observe_rec. rewrite Eq2, C1, C2, Q6, Q5, Q1, Q2, <- R1, <- R2.
      rewrite (v_e _ _ _ (proj1 Hs2)), (v_i _ _ _ (proj1 Hs2)). reflexivity.
    - eapply observe_views; eauto.
    - eapply observe_views; eauto.
    - cbn. auto 10.
  Qed.

  (** hence a recommender is insulated from everything except set_event on
      the container it was fitted on *)
  Definition sets_event (o : op) (i : nat) : Prop :=
    match o with OSetEvent j _ _ _ _ => i = j | _ => False end.

  Lemma value_step_tables : forall ss o ss' x i s, value_step ss o = Some (ss', x) -> ~ sets_event o i ->
    nth_error ss i = Some s -> exists s', nth_error ss' i = Some s' /\ d_objs (s_data s') = d_objs (s_data s).
  Proof.
    intros ss o ss' x i s H Hc Es. pose proof (nth_error_lt _ _ _ _ Es) as Hi.
    destruct o as [n a|j ev sc sd ef|j t ids f|j th|j c|j ix];
      try (rewrite <- (value_step_other _ _ _ _ i H) in Es; [eauto| cbn in *; tauto | auto]; fail).
    - cbn in H. unfold on in H. destruct (nth_error ss j) as [s0|] eqn:Ej; [|discriminate].
      destruct (s_set_feature s0 t ids f) as [s0'|] eqn:E; inversion H; subst; eauto.
      destruct (Nat.eq_dec i j) as [->|Hij].
      + assert (s0 = s) by congruence. subst s0.
        exists s0'. split.
        * rewrite nth_error_set_nth, Nat.eqb_refl. destruct (Nat.ltb_spec j (length ss)); auto; lia.
        * unfold s_set_feature in E. apply bind_ok in E. destruct E as [d [E E']].
          inversion E'; subst. cbn. unfold set_feature in E.
          apply bind_ok in E. destruct E as [[iid|] [_ E]]; [|discriminate].
          apply bind_ok in E. destruct E as [index [_ E]]. apply bind_ok in E. destruct E as [rows [_ E]].
          apply bind_ok in E. destruct E as [fs [_ E]]. inversion E; reflexivity.
      + exists s. rewrite nth_error_set_nth. destruct (Nat.eqb_spec i j); tauto.
    - cbn in H. unfold on in H. destruct (nth_error ss j) as [s0|] eqn:Ej; [|discriminate].
      destruct (binarize_score s0 th) as [s0'|] eqn:E; inversion H; subst; eauto.
      destruct (Nat.eq_dec i j) as [->|Hij].
      + assert (s0 = s) by congruence. subst s0. exists s0'. split.
        * rewrite nth_error_set_nth, Nat.eqb_refl. destruct (Nat.ltb_spec j (length ss)); auto; lia.
        * unfold binarize_score in E. apply bind_ok in E. destruct E as [u [_ E]].
          destruct (score s); inversion E; reflexivity.
      + exists s. rewrite nth_error_set_nth. destruct (Nat.eqb_spec i j); tauto.
  Qed.

  Theorem C15_insulated_partial : forall (w w1 w2 : world) i ix os, reachable_world w ->
    step w (OFit i ix) = Some (w1, None) -> Forall (fun o => ~ sets_event o i) os ->
    run w1 os = Some w2 ->
    observe_rec w2 (length (w_rec w)) = observe_rec w1 (length (w_rec w)) /\
    observe_rec w1 (length (w_rec w)) <> None.
  Proof.
    intros w w1 w2 i ix os Hr H1 Hos H2.
    destruct (C15_tables_alias_partial w w1 w2 i ix os Hr H1 H2)
      as [[e1 i1 n1 o1 x1 v1] [[e2 i2 n2 o2 x2 v2] [s1 [s2 [E1 [E2 [E3 [E4 [A [B [C [D [K1 [K2 [K3 K4]]]]]]]]]]]]]]].
    cbn [rv_eid rv_iid rv_n rv_ot rv_index rv_event] in *. rewrite E1, E2. split; [|discriminate].
    assert (d_objs (s_data s2) = d_objs (s_data s1)).
    { destruct (reachable_winv _ Hr) as [ss Hw].
      destruct (value_step ss (OFit i ix)) as [[ss1 x]|] eqn:Ev.
      2:{ rewrite (step_none _ _ _ Hw Ev) in H1. discriminate. }
      destruct (step_sim _ _ _ _ _ Hw Ev) as [w1' [F1 [Hw1 _]]]. rewrite H1 in F1. inversion F1; subst w1' x.
      assert (Es1 : nth_error ss1 i = Some s1).
      { destruct (winv_shows _ _ Hw1) as [L O]. rewrite <- O; auto. rewrite <- L.
        unfold observe in E3. destruct (nth_error (w_data w1) i) eqn:E; [|discriminate].
        eapply nth_error_lt; eauto. }
      clear -Hw1 Es1 Hos H2 E4. revert w1 ss1 s1 Hw1 Es1 H2.
      induction Hos as [|o os Ho Hos IH]; intros w1 ss1 s1 Hw1 Es1 H2; simpl in H2.
      - inversion H2; subst. destruct (winv_shows _ _ Hw1) as [L O].
        rewrite O in E4 by (eapply nth_error_lt; eauto). congruence.
      - destruct (value_step ss1 o) as [[ss2 x]|] eqn:Ev.
        2:{ rewrite (step_none _ _ _ Hw1 Ev) in H2. discriminate. }
        destruct (step_sim _ _ _ _ _ Hw1 Ev) as [w3 [G1 [Hw3 _]]]. rewrite G1 in H2.
        destruct (value_step_tables _ _ _ _ _ _ Ev Ho Es1) as [s3 [G2 G3]].
        rewrite <- G3. eapply IH; eauto. }
    subst. rewrite H. reflexivity.
  Qed.
End THeap.

(** ** Witnesses *)
Definition ex_ev1 : nd ext_id := A2 2 [[IdInt 1; IdInt 10]; [IdInt 2; IdInt 11]].
Definition ex_ev2 : nd ext_id := A2 2 [[IdInt 2; IdInt 11]; [IdInt 3; IdInt 12]].
Definition ex_run : list (op nat nat) :=
  [ONew 2 OTNone; OSetEvent 0 ex_ev1 [(1#1)%Q; (2#1)%Q] None None; OFit 0 None].

(** C15 fails: user 2 is number 1 for the recommender until the container is
    filled again; afterwards it is number 0, and user 1 is unknown *)
Theorem C15_insulated_refuted :
  exists (w w1 w2 : world nat nat) os v1 v2, reachable_world w /\
    step w (OFit 0 None) = Some (w1, None) /\ run w1 os = Some w2 /\
    observe_rec w1 (length (w_rec w)) = Some v1 /\ observe_rec w2 (length (w_rec w)) = Some v2 /\
    rv_iid v2 <> rv_iid v1 /\
    to_iid (mkObjs (rv_n v1) (rv_eid v1) (rv_iid v1)) 0 (IdInt 2) = Ok 1%Z /\
    to_iid (mkObjs (rv_n v2) (rv_eid v2) (rv_iid v2)) 0 (IdInt 2) = Ok 0%Z.
Proof.
  destruct (run (@init_world nat nat) (removelast ex_run)) as [w|] eqn:E; [|vm_compute in E; discriminate].
  pose (os := [OSetEvent 0 ex_ev2 [(1#1)%Q; (2#1)%Q] None (@None (list nat))] : list (op nat nat)).
  exists w. assert (R : reachable_world w) by (exists (removelast ex_run); auto).
  vm_compute in E. inversion E; subst w; clear E.
  eexists _, _, os, _, _. split; [exact R|]. split; [vm_compute; reflexivity|].
  split; [vm_compute; reflexivity|]. split; [vm_compute; reflexivity|]. split; [vm_compute; reflexivity|].
  vm_compute. repeat split; discriminate.
Qed.

(** a run with a filtered copy: the copy is refilled, the original keeps its
    events; and a recommender survives binarisation and filtering *)
Example C14_nonvacuous :
  exists (w w' : world nat nat) s, reachable_world w /\ length (w_data w) = 2 /\
    Forall (fun o : op nat nat => ~ changes o 0)
      [OSetEvent 1 ex_ev2 [(1#1)%Q; (2#1)%Q] None None; OFilter 0 (FIdx [1%Z])] /\
    run w [OSetEvent 1 ex_ev2 [(1#1)%Q; (2#1)%Q] None None; OFilter 0 (FIdx [1%Z])] = Some w' /\
    observe w' 0 = Some s /\ event (s_data s) = Some [[0; 0]; [1; 1]]%Z.
Proof.
  destruct (run (@init_world nat nat) (removelast ex_run ++ [OFilter 0 (FMask [true; false])])) as [w|] eqn:E;
    [|vm_compute in E; discriminate].
  exists w. assert (R : reachable_world w) by (eexists; eauto).
  vm_compute in E. inversion E; subst w; clear E.
  eexists _, _. split; [exact R|]. split; [reflexivity|].
  split; [repeat constructor; cbn; lia|]. split; [vm_compute; reflexivity|].
  split; vm_compute; reflexivity.
Qed.

Example C15_nonvacuous :
  exists (w w1 w2 : world nat nat), reachable_world w /\ step w (OFit 0 None) = Some (w1, None) /\
    Forall (fun o : op nat nat => ~ sets_event o 0) [OBinarize 0 None; OFilter 0 (FIdx [1%Z])] /\
    run w1 [OBinarize 0 None; OFilter 0 (FIdx [1%Z])] = Some w2.
Proof.
  destruct (run (@init_world nat nat) (removelast ex_run)) as [w|] eqn:E; [|vm_compute in E; discriminate].
  exists w. assert (R : reachable_world w) by (eexists; eauto).
  vm_compute in E. inversion E; subst w; clear E.
  eexists _, _. split; [exact R|]. split; [vm_compute; reflexivity|].
  split; [repeat constructor; cbn; lia|]. vm_compute; reflexivity.
Qed.
Print Assumptions C14_value_semantics.
Print Assumptions C14_independent.
Print Assumptions C14_histories.
Print Assumptions C15_tables_alias_partial.
Print Assumptions C15_insulated_partial.
Print Assumptions C15_insulated_refuted.
