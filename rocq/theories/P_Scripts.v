(** * Lemmas about the loop of cv_test *)
From Coq Require Import List ZArith QArith Bool Lia.
From Verif Require Import M_Py P_Py M_Data M_Score M_Rec M_Split M_Scripts.
Import ListNotations.
Open Scope nat_scope.

(** ** dictionaries of folds *)
Section FDict.
  Context {A : Type}.
  Implicit Types (d : fdict A).

  Lemma fget_set : forall d k v k', fget (fset d k v) k' = if Nat.eqb k' k then Some v else fget d k'.
  Proof.
    unfold fget, fset. induction d as [|[k0 v0] d IH]; intros k v k'; cbn [dict_set dict_get]; auto.
    destruct (Nat.eqb_spec k k0) as [->|N]; cbn [dict_get].
    - destruct (Nat.eqb_spec k' k0); auto.
    - destruct (Nat.eqb_spec k' k0) as [->|N']; auto. destruct (Nat.eqb_spec k0 k); [congruence|auto].
  Qed.
  Lemma fget_none : forall d k, ~ In k (map fst d) -> fget d k = None.
  Proof.
    unfold fget. induction d as [|[k0 v0] d IH]; intros k H; cbn [dict_get]; auto.
    cbn in H. destruct (Nat.eqb_spec k k0); [subst; tauto|]. apply IH. tauto.
  Qed.
  Lemma fget_some : forall d k v, NoDup (map fst d) -> In (k, v) d -> fget d k = Some v.
  Proof.
    unfold fget. induction d as [|[k0 v0] d IH]; intros k v N H; [destruct H|]. cbn in N. inversion N; subst.
    cbn [dict_get]. destruct H as [E|H].
    - inversion E; subst. rewrite Nat.eqb_refl. auto.
    - destruct (Nat.eqb_spec k k0); [|auto]. subst. exfalso. apply H2. change k0 with (fst (k0, v)). apply in_map. auto.
  Qed.
  Lemma fget_in : forall d k v, fget d k = Some v -> In (k, v) d.
  Proof.
    unfold fget. induction d as [|[k0 v0] d IH]; intros k v H; [discriminate|]. cbn [dict_get] in H.
    destruct (Nat.eqb_spec k k0); [left; congruence | right; auto].
  Qed.
  Lemma fset_new : forall d k v, ~ In k (map fst d) -> fset d k v = d ++ [(k, v)].
  Proof.
    unfold fset. induction d as [|[k0 v0] d IH]; intros k v H; [reflexivity|]. cbn [dict_set]. cbn in H.
    destruct (Nat.eqb_spec k k0); [subst; tauto|]. rewrite IH by tauto. reflexivity.
  Qed.
End FDict.

Lemma fget_map : forall A B (g : A -> B) (d : fdict A) k,
  fget (map (fun kv => (fst kv, g (snd kv))) d) k = option_map g (fget d k).
Proof.
  unfold fget. induction d as [|[k0 v0] d IH]; intros k; cbn [map dict_get fst snd]; auto. destruct (Nat.eqb k k0); auto.
Qed.

(** ** masks *)
Lemma np_set_length : forall A (l l' : list A) i v, np_set l i v = Ok l' -> length l' = length l.
Proof.
  intros A l l' i v H. unfold np_set in H. destruct (np_norm (length l) i); [|discriminate]. inversion H.
  clear. revert n. induction l as [|x l IH]; intros [|n]; cbn; auto.
Qed.
Lemma put_true_length : forall idx m m', put_true m idx = Ok m' -> length m' = length m.
Proof.
  unfold put_true, np_put. induction idx as [|i idx IH]; intros m m' H; cbn [map foldM] in H; [congruence|].
  apply bind_ok in H. destruct H as [m1 [H1 H2]]. apply np_set_length in H1. apply IH in H2. congruence.
Qed.
Lemma ssg_mask_length : forall S (shuffle : S -> list nat -> list nat * S) fmul te tr sh n gs us s ms,
  ssg_mask shuffle fmul te tr sh n gs us s = Ok ms -> length (fst ms) = n.
Proof.
  intros S shuffle fmul te tr sh n gs us s ms. unfold ssg_mask.
  assert (Hg : forall us mask s, foldM (fun ms g =>
             do m <- members n gs g;
             do ts <- tts_test shuffle fmul m te tr sh (snd ms);
             do mask <- put_true (fst ms) (fst ts);
             Ok (mask, snd ts)) us (mask, s) = Ok ms -> length (fst ms) = length mask).
  { clear us s. induction us as [|g us IH]; intros mask s H; cbn [foldM] in H; [inversion H; auto|].
    apply bind_ok in H. destruct H as [[m1 s1] [H1 H2]]. apply IH in H2.
    apply bind_ok in H1. destruct H1 as [mm [_ H1]]. apply bind_ok in H1. destruct H1 as [ts [_ H1]].
    apply bind_ok in H1. destruct H1 as [m2 [H1 E]]. inversion E; subst. apply put_true_length in H1. cbn [fst] in *. congruence. }
  intros H. apply Hg in H. rewrite repeat_length in H. auto.
Qed.

(** ** what one fold contributes *)
Record entry (FR G V : Type) := mkEntry {
  e_train : FR; e_tested : nat; e_event : list (list Z); e_true : list Q; e_predicted : pred V;
  e_mask : list nat; e_feature : option (list G) }.
Arguments mkEntry {FR G V}. Arguments e_train {FR G V}. Arguments e_tested {FR G V}. Arguments e_event {FR G V}.
Arguments e_true {FR G V}. Arguments e_predicted {FR G V}. Arguments e_mask {FR G V}. Arguments e_feature {FR G V}.

(** the recorded results, times left out, are those of the folds [fes] in
    this order; [hf]: the data have event features *)
Definition matches {FR G V} (hf : bool) (i : cv_info FR G V) (fes : list (nat * entry FR G V)) : Prop :=
  map (fun kv => (fst kv, run_info (snd kv))) (c_training i) = map (fun fe => (fst fe, e_train (snd fe))) fes /\
  map (fun kv => (fst kv, run_info (snd kv))) (c_test i) = map (fun fe => (fst fe, e_tested (snd fe))) fes /\
  p_event (c_pred i) = map (fun fe => (fst fe, e_event (snd fe))) fes /\
  p_true (c_pred i) = map (fun fe => (fst fe, e_true (snd fe))) fes /\
  p_predicted (c_pred i) = map (fun fe => (fst fe, e_predicted (snd fe))) fes /\
  p_mask (c_pred i) = map (fun fe => (fst fe, e_mask (snd fe))) fes /\
  match p_feature (c_pred i) with
  | None => hf = false
  | Some pf => hf = true /\ map (fun kv => (fst kv, Some (snd kv))) pf = map (fun fe => (fst fe, e_feature (snd fe))) fes
  end.

Lemma matches_keys : forall FR G V hf (i : cv_info FR G V) fes, matches hf i fes ->
  map fst (c_training i) = map fst fes /\ map fst (c_test i) = map fst fes /\ map fst (p_event (c_pred i)) = map fst fes /\
  map fst (p_true (c_pred i)) = map fst fes /\ map fst (p_predicted (c_pred i)) = map fst fes /\
  map fst (p_mask (c_pred i)) = map fst fes /\
  match p_feature (c_pred i) with None => True | Some pf => map fst pf = map fst fes end.
Proof.
  intros FR G V hf i fes [H1 [H2 [H3 [H4 [H5 [H6 H7]]]]]]. apply (f_equal (map fst)) in H1, H2, H3, H4, H5, H6.
  rewrite !map_map in H1, H2. rewrite !map_map in H3, H4, H5, H6. cbn [fst] in *. repeat split; auto.
  destruct (p_feature (c_pred i)); auto. destruct H7 as [_ H7]. apply (f_equal (map fst)) in H7. rewrite !map_map in H7. auto.
Qed.

Lemma in_keys : forall A B (l : list (nat * A)) (g : A -> B) k, ~ In k (map fst l) <-> ~ In k (map fst (map (fun kv => (fst kv, g (snd kv))) l)).
Proof. intros. rewrite map_map. cbn [fst]. tauto. Qed.

Section Loop.
  Context {W F G Rc FR V : Type}.
  Context (now : W -> Z * W) (shuffle : W -> list nat -> list nat * W) (fmul : Q -> nat -> Q).
  Context (fit : W -> sdata F G -> res (Rc * FR * W)) (predict : Rc -> list (list Z) -> res (pred V)).
  Variables (d : sdata F G) (ev : list (list Z)).

  Definition has_feature : bool := match event_feature (s_data d) with Some _ => true | None => false end.

  (** [e] is what training on [fst tt] in world [w0] and testing on [snd tt] give *)
  Definition fold_rec (tt : list nat * list nat) (e : entry FR G V) (w0 w1 : W) : Prop :=
    exists td r sc,
      s_filter_event d (FIdx (map Z.of_nat (fst tt))) = Ok (Some td) /\ fit w0 td = Ok (r, e_train e, w1) /\
      take ev (snd tt) = Ok (e_event e) /\ predict r (e_event e) = Ok (e_predicted e) /\
      score d = Some sc /\ take sc (snd tt) = Ok (e_true e) /\ e_mask e = snd tt /\ e_tested e = length (e_event e) /\
      match event_feature (s_data d), e_feature e with
      | Some ef, Some x => take ef (snd tt) = Ok x
      | None, None => True
      | _, _ => False
      end.

  Lemma cv_fold_spec : forall fold tt i w i' w' fes, matches has_feature i fes -> ~ In fold (map fst fes) ->
    cv_fold now fit predict d ev fold tt i w = Ok (i', w') ->
    exists e w1 sw, fold_rec tt e (snd (now w)) w1 /\ matches has_feature i' (fes ++ [(fold, e)]) /\
      w' = snd (now (snd (now (snd (now w1))))) /\
      (c_n_events i', c_n_users i', c_n_items i') = (c_n_events i, c_n_users i, c_n_items i) /\
      fget (c_training i') fold = Some sw.
  Proof.
    intros fold tt i w i' w' fes M N H. unfold cv_fold in H.
    apply bind_ok in H. destruct H as [[td|] [Htd H]]; [|discriminate].
    apply bind_ok in H. destruct H as [[[r tr] w1] [Ht H]].
    apply bind_ok in H. destruct H as [ev_t [He H]].
    apply bind_ok in H. destruct H as [[[esc te] w2] [Hte H]].
    apply bind_ok in H. destruct H as [sct [Hs H]].
    apply bind_ok in H. destruct H as [ef [Hf H]]. inversion H; subst i' w'; clear H.
    unfold training in Ht. destruct (now w) as [t0 wa] eqn:En.
    apply bind_ok in Ht. destruct Ht as [[[r0 fr] wb] [Hfit Ht]]. destruct (now wb) as [t1 wc] eqn:En1. inversion Ht; subst r0 tr w1; clear Ht.
    unfold testing in Hte. destruct (now wc) as [t2 wd] eqn:En2.
    apply bind_ok in Hte. destruct Hte as [esc0 [Hp Hte]]. destruct (now wd) as [t3 we] eqn:En3. inversion Hte; subst esc0 te w2; clear Hte.
    destruct (score d) as [sc|] eqn:Esc; [|discriminate].
    assert (Hef : exists x, match event_feature (s_data d), x with Some ef, Some x => take ef (snd tt) = Ok x | None, None => True | _, _ => False end /\
      ef = match x, p_feature (c_pred i) with Some x, Some pf => Some (fset pf fold x) | _, pf => pf end).
    { destruct M as [_ [_ [_ [_ [_ [_ M]]]]]]. unfold has_feature in M.
      destruct (event_feature (s_data d)) as [ef0|]; destruct (p_feature (c_pred i)) as [pf|]; try (destruct M; discriminate); try discriminate.
      - apply bind_ok in Hf. destruct Hf as [x [Hx Hf]]. inversion Hf. exists (Some x). auto.
      - exists None. inversion Hf. auto. }
    destruct Hef as [x [Hx ->]].
    exists (mkEntry fr (length ev_t) ev_t sct esc (snd tt) x), wb, (mkRun t0 t1 (t1 - t0)%Z fr). split; [|split; [|split; [|split]]].
    - exists td, r, sc. cbn. repeat split; auto.
    - destruct (matches_keys _ _ _ _ _ _ M) as [K1 [K2 [K3 [K4 [K5 [K6 K7]]]]]]. destruct M as [M1 [M2 [M3 [M4 [M5 [M6 M7]]]]]].
      unfold matches; cbn [c_training c_test c_pred p_event p_true p_predicted p_mask p_feature].
      rewrite !fset_new by congruence. rewrite !map_app, M1, M2, M3, M4, M5, M6. cbn [map fst snd run_info e_train e_tested e_event e_true e_predicted e_mask].
      repeat split; auto.
      unfold has_feature in *. destruct (p_feature (c_pred i)) as [pf|].
      + destruct M7 as [M7 M8]. destruct (event_feature (s_data d)); [|discriminate]. destruct x as [x|]; [|contradiction].
        split; auto. rewrite fset_new by congruence. rewrite !map_app, M8. reflexivity.
      + destruct (event_feature (s_data d)); [discriminate|]. destruct x; [contradiction|]. auto.
    - rewrite En1. cbn [snd]. rewrite En2. cbn [snd]. rewrite En3. reflexivity.
    - reflexivity.
    - cbn [c_training]. rewrite fget_set, Nat.eqb_refl. reflexivity.
  Qed.

  Lemma cv_fold_ok : forall fold tt i w e w1, (p_feature (c_pred i) <> None <-> has_feature = true) ->
    fold_rec tt e (snd (now w)) w1 -> exists i' w', cv_fold now fit predict d ev fold tt i w = Ok (i', w').
  Proof.
    intros fold tt i w e w1 Hp [td [r [sc [H1 [H2 [H3 [H4 [H5 [H6 [H7 [H8 H9]]]]]]]]]]].
    unfold cv_fold. rewrite H1. cbn [bind]. unfold training. destruct (now w) as [t0 wa]. cbn [snd] in H2. rewrite H2. cbn [bind].
    destruct (now w1) as [t1 wc]. cbn [bind]. rewrite H3. cbn [bind]. unfold testing. destruct (now wc) as [t2 wd].
    rewrite H4. cbn [bind]. destruct (now wd) as [t3 we]. cbn [bind]. rewrite H5, H6. cbn [bind].
    unfold has_feature in Hp. destruct (event_feature (s_data d)) as [ef|].
    - destruct (e_feature e); [|contradiction]. destruct (p_feature (c_pred i)); [|destruct (proj2 Hp eq_refl); auto].
      rewrite H9. cbn [bind]. eauto.
    - cbn [bind]. eauto.
  Qed.

  Definition wanted (target : option Z) (fold : nat) : bool :=
    match target with Some t => (Z.of_nat fold =? t)%Z | None => true end.

  (** ** the loop *)
  Lemma cv_loop_spec : forall gs us target k fold i w i' w' fes,
    matches has_feature i fes -> Forall (fun fe => fst fe < fold) fes ->
    cv_loop now shuffle fmul fit predict d ev gs us target k fold i w = Ok (i', w') ->
    exists fes', matches has_feature i' (fes ++ fes') /\
      map fst fes' = filter (wanted target) (seq fold k) /\
      (c_n_events i', c_n_users i', c_n_items i') = (c_n_events i, c_n_users i, c_n_items i) /\
      Forall (fun fe => exists tt ms w w0 w1,
                ssg_mask shuffle fmul (Some (Frac fifth)) None true (length ev) gs us w = Ok ms /\ of_mask (length ev) (fst ms) = Ok tt /\
                fold_rec tt (snd fe) w0 w1) fes'.
  Proof.
    induction k as [|k IH]; intros fold i w i' w' fes M L H; cbn [cv_loop] in H.
    - inversion H; subst. exists []. rewrite app_nil_r. repeat split; auto; try constructor; apply M.
    - apply bind_ok in H. destruct H as [ms [Hm H]]. apply bind_ok in H. destruct H as [tt [Htt H]].
      assert (E : match target with Some t => negb (Z.of_nat fold =? t)%Z | None => false end = negb (wanted target fold)) by (destruct target; auto).
      rewrite E in H. cbn [seq filter]. destruct (wanted target fold); cbn [negb] in H.
      + apply bind_ok in H. destruct H as [[i1 w1] [Hf H]]. cbn [fst snd] in H.
        assert (Nin : ~ In fold (map fst fes)).
        { intros C. apply in_map_iff in C. destruct C as [fe [Ef C]]. rewrite Forall_forall in L. specialize (L _ C). lia. }
        destruct (cv_fold_spec _ _ _ _ _ _ _ M Nin Hf) as [e [wb [sw [R [M1 [_ [C _]]]]]]].
        apply (IH (S fold) i1 w1 i' w' (fes ++ [(fold, e)])) in H; auto.
        * destruct H as [fes' [M2 [K [C2 A]]]]. exists ((fold, e) :: fes').
          rewrite <- app_assoc in M2. split; [exact M2|]. split; [cbn; f_equal; auto|]. split; [congruence|]. constructor; auto.
          exists tt, ms, w, (snd (now (snd ms))), wb. cbn [snd]. auto.
        * apply Forall_app. split; [eapply Forall_impl; [|exact L]; cbv beta; intros; lia | constructor; cbn; auto].
      + apply (IH (S fold) i (snd ms) i' w' fes) in H; auto. eapply Forall_impl; [|exact L]; cbv beta; intros; lia.
  Qed.
End Loop.
