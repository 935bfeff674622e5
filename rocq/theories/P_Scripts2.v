(** * Runs over single folds, merging *)
From Coq Require Import List ZArith QArith Bool Lia Permutation.
From Verif Require Import M_Py P_Py M_Data M_Score M_Rec M_Split M_Scripts P_Scripts.
Import ListNotations.
Open Scope nat_scope.

(** the clock and training do not touch the random generator [rng], shuffling
    depends on nothing else, training depends on the data only *)
Definition clock_apart {W S} (rng : W -> S) (now : W -> Z * W) : Prop := forall w, rng (snd (now w)) = rng w.
Definition random_from {W S} (rng : W -> S) (shuffle : W -> list nat -> list nat * W) : Prop :=
  forall w1 w2 l, rng w1 = rng w2 ->
    fst (shuffle w1 l) = fst (shuffle w2 l) /\ rng (snd (shuffle w1 l)) = rng (snd (shuffle w2 l)).
Definition deterministic {W S D Rc FR} (rng : W -> S) (fit : W -> D -> res (Rc * FR * W)) : Prop :=
  forall d w1 w2, match fit w1 d, fit w2 d with
                  | Ok (r1, f1, w1'), Ok (r2, f2, _) => r1 = r2 /\ f1 = f2 /\ rng w1' = rng w1
                  | Raise e1, Raise e2 => e1 = e2
                  | _, _ => False
                  end.

Section Sim.
  Context {W S F G Rc FR V : Type} (rng : W -> S).
  Context (now : W -> Z * W) (shuffle : W -> list nat -> list nat * W) (fmul : Q -> nat -> Q).
  Context (fit : W -> sdata F G -> res (Rc * FR * W)) (predict : Rc -> list (list Z) -> res (pred V)).
  Hypotheses (Hnow : clock_apart rng now) (Hsh : random_from rng shuffle) (Hfit : deterministic rng fit).
  Variables (d : sdata F G) (ev : list (list Z)).
  Notation rec := (fold_rec fit predict d ev).
  Notation hf := (has_feature d).

  Lemma ssg_mask_det : forall te tr sh n gs us w1 w2 m1, rng w1 = rng w2 ->
    ssg_mask shuffle fmul te tr sh n gs us w1 = Ok m1 ->
    exists w', ssg_mask shuffle fmul te tr sh n gs us w2 = Ok (fst m1, w') /\ rng w' = rng (snd m1).
  Proof.
    intros te tr sh n gs us w1 w2 m1 E H. unfold ssg_mask in *. revert H. generalize (repeat false n). revert w1 w2 E.
    induction us as [|g us IH]; intros w1 w2 E mask H; cbn [foldM] in *.
    - inversion H; subst. eexists. split; [reflexivity|]. auto.
    - apply bind_ok in H. destruct H as [[mk ws] [H1 H2]]. cbn [fst snd] in *.
      destruct (members n gs g) as [m|]; [|discriminate]. cbn [bind] in *.
      assert (T : forall ts ws1, tts_test shuffle fmul m te tr sh w1 = Ok (ts, ws1) -> exists ws2, tts_test shuffle fmul m te tr sh w2 = Ok (ts, ws2) /\ rng ws1 = rng ws2).
      { intros ts ws1 T. unfold tts_test in *. destruct (split_sizes fmul (length m) te tr) as [nn|]; [|discriminate]. cbn [bind] in *. destruct sh.
        - destruct (Hsh w1 w2 (arange (length m)) E) as [S1 S2].
          destruct (shuffle w1 (arange (length m))) as [p1 v1], (shuffle w2 (arange (length m))) as [p2 v2]. cbn [fst snd] in *. subst p2.
          destruct (take m (upto p1 (snd nn))); [|discriminate]. cbn [bind] in *. inversion T; subst. eauto.
        - destruct (np_take m (arange_from (fst nn) (fst nn + snd nn))); [|discriminate]. cbn [bind] in *. inversion T; subst. eauto. }
      destruct (tts_test shuffle fmul m te tr sh w1) as [[ts ws1]|]; [|discriminate]. destruct (T ts ws1 eq_refl) as [ws2 [-> E2]].
      cbn [bind fst snd] in *. destruct (put_true mask ts) as [mask'|]; [|discriminate]. cbn [bind] in *.
      inversion H1; subst mk ws. eapply IH; eauto.
  Qed.

  Lemma rec_det : forall tt e w0 w1 w2, rec tt e w0 w1 -> rng w1 = rng w0 /\ exists w3, rec tt e w2 w3.
  Proof.
    intros tt e w0 w1 w2 [td [r [sc [H1 [H2 H3]]]]]. pose proof (Hfit td w0 w2) as D. rewrite H2 in D.
    destruct (fit w2 td) as [[[r2 f2] w3]|] eqn:E; [|contradiction]. destruct D as [Er [Ef D]]. split; auto.
    exists w3, td, r, sc. split; auto. split; [rewrite Er, Ef; exact E|auto].
  Qed.

  Lemma matches_feature : forall (i : cv_info FR G V) fes, matches hf i fes -> (p_feature (c_pred i) <> None <-> hf = true).
  Proof.
    intros i fes [_ [_ [_ [_ [_ [_ M]]]]]]. destruct (p_feature (c_pred i)); [destruct M; split; auto; discriminate|].
    split; [intros C; exfalso; apply C; auto | congruence].
  Qed.

  Lemma rec_entry : forall tt e e' w0 w1 w2 w3, rec tt e w0 w1 -> rec tt e' w2 w3 -> e' = e.
  Proof.
    intros tt e e' w0 w1 w2 w3 [td [r [sc [H1 [H2 [H3 [H4 [H5 [H6 [H7 [H8 H9]]]]]]]]]]]
      [td' [r' [sc' [I1 [I2 [I3 [I4 [I5 [I6 [I7 [I8 I9]]]]]]]]]]].
    assert (td' = td) by congruence. subst td'. pose proof (Hfit td w0 w2) as D. rewrite H2, I2 in D. destruct D as [-> [D _]].
    destruct e as [a b c e f g h], e' as [a' b' c' e' f' g' h']; cbn in *. subst a'.
    assert (c' = c) by congruence. subst c'. assert (f' = f) by congruence. subst f'. assert (sc' = sc) by congruence. subst sc'.
    assert (e' = e) by congruence. subst. f_equal. destruct (event_feature (s_data d)); destruct h, h'; try contradiction; auto. congruence.
  Qed.

  (** the same fold in another world *)
  Lemma fold_again : forall fold tt i w i' w' fes e w1 wa i2 w2 fes2,
    matches hf i fes -> ~ In fold (map fst fes) -> cv_fold now fit predict d ev fold tt i w = Ok (i', w') ->
    rec tt e wa w1 -> rng wa = rng w ->
    rng w2 = rng w -> matches hf i2 fes2 -> ~ In fold (map fst fes2) ->
    rng w' = rng w /\
    exists i2' w2', cv_fold now fit predict d ev fold tt i2 w2 = Ok (i2', w2') /\ matches hf i2' (fes2 ++ [(fold, e)]) /\
      rng w2' = rng w2 /\ (c_n_events i2', c_n_users i2', c_n_items i2') = (c_n_events i2, c_n_users i2, c_n_items i2).
  Proof.
    intros fold tt i w i' w' fes e w1 wa i2 w2 fes2 M N H R Ewa E M2 N2.
    destruct (cv_fold_spec _ _ _ _ _ _ _ _ _ _ _ _ M N H) as [e0 [wb [sw [R0 [M1 [-> [C _]]]]]]].
    destruct (rec_det _ _ _ _ wa R0) as [E0 _]. split; [rewrite !Hnow, E0, Hnow; auto|].
    destruct (rec_det _ _ _ _ (snd (now w2)) R) as [_ [w3 R3]].
    destruct (cv_fold_ok now fit predict d ev fold tt i2 w2 e w3 (matches_feature _ _ M2) R3) as [i2' [w2' H2]].
    exists i2', w2'. split; auto.
    destruct (cv_fold_spec _ _ _ _ _ _ _ _ _ _ _ _ M2 N2 H2) as [e2 [wc [sw2 [R2 [M3 [-> [C2 _]]]]]]].
    rewrite (rec_entry _ _ _ _ _ _ _ R R2) in M3. destruct (rec_det _ _ _ _ wa R2) as [E2 _].
    split; auto. split; auto. rewrite !Hnow, E2, Hnow. auto.
  Qed.

  Notation loop := (cv_loop now shuffle fmul fit predict d ev).

  Lemma loop_other : forall gs us t k fold i w iw, loop gs us None k fold i w = Ok iw ->
    (forall fes, matches hf i fes -> Forall (fun fe => fst fe < fold) fes ->
     forall i2 w2, rng w2 = rng w -> (forall f, fold <= f < fold + k -> Z.of_nat f <> t) ->
     exists w2', loop gs us (Some t) k fold i2 w2 = Ok (i2, w2')).
  Proof.
    induction k as [|k IH]; intros fold i w iw H fes M L i2 w2 E Ht; cbn [cv_loop] in *; [eauto|].
    apply bind_ok in H. destruct H as [ms [Hm H]]. apply bind_ok in H. destruct H as [tt [Htt H]].
    apply bind_ok in H. destruct H as [[i1 w1] [Hf H]]. cbn [fst snd] in H.
    destruct (ssg_mask_det _ _ _ _ _ _ _ w2 _ (eq_sym E) Hm) as [wm [-> Em]]. cbn [bind fst snd]. rewrite Htt. cbn [bind].
    assert ((Z.of_nat fold =? t)%Z = false) as -> by (apply Z.eqb_neq; apply Ht; lia). cbn [negb].
    assert (Nin : ~ In fold (map fst fes)).
    { intros C. apply in_map_iff in C. destruct C as [fe [Ef C]]. rewrite Forall_forall in L. specialize (L _ C). lia. }
    destruct (cv_fold_spec _ _ _ _ _ _ _ _ _ _ _ _ M Nin Hf) as [e [wb [sw [R [M1 [E1 [C _]]]]]]].
    eapply (IH (Datatypes.S fold) i1 w1); eauto.
    - apply Forall_app. split; [eapply Forall_impl; [|exact L]; cbv beta; intros; lia | constructor; cbn; auto].
    - subst w1. destruct (rec_det _ _ _ _ w R) as [Er _]. rewrite !Hnow, Er, Hnow. auto.
    - intros f Hf'. apply Ht. lia.
  Qed.

  (** a full run contains every single run *)
  Lemma loop_single : forall gs us k fold i w i' w' fes, matches hf i fes -> Forall (fun fe => fst fe < fold) fes ->
    loop gs us None k fold i w = Ok (i', w') ->
    exists fes', matches hf i' (fes ++ fes') /\ map fst fes' = seq fold k /\
      (c_n_events i', c_n_users i', c_n_items i') = (c_n_events i, c_n_users i, c_n_items i) /\
      forall f e, In (f, e) fes' -> forall i2 w2 fes2, rng w2 = rng w -> matches hf i2 fes2 -> ~ In f (map fst fes2) ->
        exists i2' w2', loop gs us (Some (Z.of_nat f)) k fold i2 w2 = Ok (i2', w2') /\ matches hf i2' (fes2 ++ [(f, e)]) /\
          (c_n_events i2', c_n_users i2', c_n_items i2') = (c_n_events i2, c_n_users i2, c_n_items i2).
  Proof.
    induction k as [|k IH]; intros fold i w i' w' fes M L H; cbn [cv_loop] in H.
    - inversion H; subst. exists []. rewrite app_nil_r. repeat split; auto; try apply M. intros f e [].
    - apply bind_ok in H. destruct H as [ms [Hm H]]. apply bind_ok in H. destruct H as [tt [Htt H]].
      apply bind_ok in H. destruct H as [[i1 w1] [Hf H]]. cbn [fst snd] in H.
      assert (Nin : ~ In fold (map fst fes)).
      { intros C. apply in_map_iff in C. destruct C as [fe [Ef C]]. rewrite Forall_forall in L. specialize (L _ C). lia. }
      destruct (cv_fold_spec _ _ _ _ _ _ _ _ _ _ _ _ M Nin Hf) as [e [wb [sw [R [M1 [E1 [C _]]]]]]].
      assert (L1 : Forall (fun fe : nat * entry FR G V => fst fe < Datatypes.S fold) (fes ++ [(fold, e)])).
      { apply Forall_app. split; [eapply Forall_impl; [|exact L]; cbv beta; intros; lia | constructor; cbn; auto]. }
      assert (Ew1 : rng w1 = rng (snd ms)) by (subst w1; destruct (rec_det _ _ _ _ w R) as [Er _]; rewrite !Hnow, Er, Hnow; auto).
      destruct (IH _ _ _ _ _ _ M1 L1 H) as [fes' [M2 [K [C2 A]]]]. exists ((fold, e) :: fes').
      rewrite <- app_assoc in M2. split; [exact M2|]. split; [cbn; f_equal; auto|]. split; [congruence|].
      intros f e0 Hin i2 w2 fes2 E2 Mi2 Ni2. cbn [cv_loop].
      destruct (ssg_mask_det _ _ _ _ _ _ _ w2 _ (eq_sym E2) Hm) as [wm [-> Em]]. cbn [bind fst snd]. rewrite Htt. cbn [bind].
      destruct Hin as [Hin|Hin].
      + inversion Hin; subst f e0. rewrite Z.eqb_refl. cbn [negb].
        destruct (fold_again _ _ _ _ _ _ _ _ _ _ _ wm _ M Nin Hf R (Hnow _) Em Mi2 Ni2) as [_ [i3 [w3 [E3 [M3 [E4 C3]]]]]].
        rewrite E3. cbn [bind fst snd].
        destruct (loop_other gs us (Z.of_nat fold) k (Datatypes.S fold) i1 w1 (i', w') H _ M1 L1 i3 w3) as [w4 E5].
        * congruence.
        * intros f Hf'. lia.
        * exists i3, w4. repeat split; auto; apply M3.
      + assert (Hf' : In f (seq (Datatypes.S fold) k)) by (rewrite <- K; apply (in_map fst) in Hin; auto).
        apply in_seq in Hf'. assert ((Z.of_nat fold =? Z.of_nat f)%Z = false) as -> by (apply Z.eqb_neq; lia). cbn [negb].
        apply A; auto. congruence.
  Qed.

  (** single runs make a full run *)
  Lemma loop_full : forall gs us k fold i w fes, matches hf i fes -> Forall (fun fe => fst fe < fold) fes ->
    (forall f, fold <= f < fold + k -> exists i2 w2 fes2, rng w2 = rng w /\ matches hf i2 fes2 /\ ~ In f (map fst fes2) /\
       exists r, loop gs us (Some (Z.of_nat f)) k fold i2 w2 = Ok r) ->
    exists r, loop gs us None k fold i w = Ok r.
  Proof.
    induction k as [|k IH]; intros fold i w fes M L H; cbn [cv_loop]; [eauto|].
    destruct (H fold ltac:(lia)) as [i2 [w2 [fes2 [E2 [M2 [N2 [r2 H2]]]]]]]. cbn [cv_loop] in H2.
    apply bind_ok in H2. destruct H2 as [ms [Hm H2]]. apply bind_ok in H2. destruct H2 as [tt [Htt H2]].
    rewrite Z.eqb_refl in H2. cbn [negb] in H2. apply bind_ok in H2. destruct H2 as [[i3 w3] [Hf2 _]].
    destruct (ssg_mask_det _ _ _ _ _ _ _ w _ E2 Hm) as [wm [-> Em]]. cbn [bind fst snd]. rewrite Htt. cbn [bind].
    assert (Nin : ~ In fold (map fst fes)).
    { intros C. apply in_map_iff in C. destruct C as [fe [Ef C]]. rewrite Forall_forall in L. specialize (L _ C). lia. }
    destruct (cv_fold_spec _ _ _ _ _ _ _ _ _ _ _ _ M2 N2 Hf2) as [e [wb [sw [R _]]]].
    destruct (fold_again _ _ _ _ _ _ _ _ _ _ _ wm _ M2 N2 Hf2 R (Hnow _) Em M Nin) as [_ [i1 [w1 [E1 [M1 [Ew1 _]]]]]].
    rewrite E1. cbn [bind fst snd]. apply (IH (Datatypes.S fold) i1 w1 _ M1).
    - apply Forall_app. split; [eapply Forall_impl; [|exact L]; cbv beta; intros; lia | constructor; cbn; auto].
    - intros f Hf. destruct (H f ltac:(lia)) as [i4 [w4 [fes4 [E4 [M4 [N4 [r4 H4]]]]]]]. cbn [cv_loop] in H4.
      apply bind_ok in H4. destruct H4 as [ms' [Hm' H4]]. apply bind_ok in H4. destruct H4 as [tt' [Htt' H4]].
      assert ((Z.of_nat fold =? Z.of_nat f)%Z = false) as Ef by (apply Z.eqb_neq; lia). rewrite Ef in H4. cbn [negb] in H4.
      exists i4, (snd ms'), fes4. repeat split; auto; try apply M4; [|eauto].
      destruct (ssg_mask_det _ _ _ _ _ _ _ w4 _ (eq_trans E2 (eq_sym E4)) Hm) as [wm' [Hm'' Em']].
      rewrite Hm'' in Hm'. inversion Hm'; subst ms'. cbn [snd]. congruence.
  Qed.
End Sim.

(** ** merging *)
Section Merging.
  Context {FR G V : Type}.
  Implicit Types (i m : cv_info FR G V).

  Lemma fitem_one : forall A (d : fdict A) f x, d = [(f, x)] -> fitem d f = Ok x.
  Proof. intros A d f x ->. unfold fitem, fget. cbn. rewrite Nat.eqb_refl. auto. Qed.

  Lemma rest_fold_spec : forall hf i m f e fes, matches hf i [(f, e)] -> matches hf m fes -> ~ In f (map fst fes) ->
    exists m', rest_fold i m = Ok m' /\ matches hf m' (fes ++ [(f, e)]) /\
      (c_n_events m', c_n_users m', c_n_items m') = (c_n_events m, c_n_users m, c_n_items m).
  Proof.
    intros hf i m f e fes [I1 [I2 [I3 [I4 [I5 [I6 I7]]]]]] M N.
    destruct (matches_keys _ _ _ _ _ _ M) as [K1 [K2 [K3 [K4 [K5 [K6 K7]]]]]]. destruct M as [M1 [M2 [M3 [M4 [M5 [M6 M7]]]]]].
    cbn [map fst snd] in I1, I2, I3, I4, I5, I6. unfold rest_fold.
    destruct (c_training i) as [|[f0 tr] [|? ?]]; try discriminate. cbn in I1. inversion I1; subst f0.
    destruct (c_test i) as [|[f0 te] [|? ?]] eqn:Ete; try discriminate. cbn in I2. inversion I2; subst f0.
    rewrite (fitem_one _ [(f, te)] f te eq_refl). cbn [bind].
    rewrite (fitem_one _ _ _ _ I3), (fitem_one _ _ _ _ I4), (fitem_one _ _ _ _ I5), (fitem_one _ _ _ _ I6). cbn [bind].
    assert (Hef : exists ef, match p_feature (c_pred m) with
                 | None => Ok None
                 | Some qf => match p_feature (c_pred i) with
                              | None => Raise KeyError
                              | Some pf => do x <- fitem pf f; Ok (Some (fset qf f x))
                              end
                 end = Ok ef /\ match ef with None => hf = false
                    | Some pf => hf = true /\ map (fun kv => (fst kv, Some (snd kv))) pf = map (fun fe => (fst fe, e_feature (snd fe))) (fes ++ [(f, e)]) end).
    { destruct (p_feature (c_pred m)) as [qf|]; [|exists None; auto]. destruct M7 as [-> M7].
      destruct (p_feature (c_pred i)) as [pf|]; [|discriminate]. destruct I7 as [_ I7]. cbn [map fst snd] in I7.
      destruct pf as [|[f0 x] [|? ?]]; try discriminate. cbn in I7. inversion I7; subst f0.
      rewrite (fitem_one _ [(f, x)] f x eq_refl). cbn [bind]. eexists. split; [reflexivity|]. split; auto.
      rewrite fset_new by congruence. rewrite !map_app, M7. cbn. congruence. }
    destruct Hef as [ef [-> Hef]]. cbn [bind]. eexists. split; [reflexivity|]. split; [|reflexivity].
    unfold matches; cbn [c_training c_test c_pred p_event p_true p_predicted p_mask p_feature].
    rewrite !fset_new by congruence. rewrite !map_app, M1, M2, M3, M4, M5, M6. cbn [map fst snd].
    repeat split; try congruence. destruct ef; [rewrite map_app in Hef|]; exact Hef.
  Qed.

  Lemma merge_spec : forall hf files fes, files <> [] -> Forall2 (fun i fe => matches hf i [fe]) files fes -> NoDup (map fst fes) ->
    exists m, merge files = Ok m /\ matches hf m fes /\
      forall i0, hd_error files = Some i0 -> (c_n_events m, c_n_users m, c_n_items m) = (c_n_events i0, c_n_users i0, c_n_items i0).
  Proof.
    intros hf files fes Hne HF HN. destruct HF as [|i [f e] files fes Hi HF]; [congruence|]. unfold merge.
    assert (Hgo : forall files fes, Forall2 (fun i fe => matches hf i [fe]) files fes -> forall m fes0, matches hf m fes0 -> NoDup (map fst (fes0 ++ fes)) ->
      exists m', foldM (fun m i => rest_fold i m) files m = Ok m' /\ matches hf m' (fes0 ++ fes) /\
        (c_n_events m', c_n_users m', c_n_items m') = (c_n_events m, c_n_users m, c_n_items m)).
    { clear. intros files fes HF. induction HF as [|i [f e] files fes Hi HF IH]; intros m fes0 M N; cbn [foldM].
      - exists m. rewrite app_nil_r. auto.
      - assert (Nf : ~ In f (map fst fes0)).
        { rewrite map_app in N. apply NoDup_remove_2 in N. intros C. apply N. apply in_or_app. auto. }
        destruct (rest_fold_spec hf i m f e fes0 Hi M Nf) as [m1 [-> [M1 C1]]]. cbn [bind].
        destruct (IH m1 (fes0 ++ [(f, e)]) M1) as [m2 [E2 [M2 C2]]]; [rewrite <- app_assoc; exact N|].
        rewrite <- app_assoc in M2. exists m2. repeat split; auto; try apply M2. congruence. }
    destruct (c_training i) eqn:Et.
    { destruct Hi as [Hi _]. rewrite Et in Hi. discriminate. }
    destruct (Hgo files fes HF i [(f, e)] Hi HN) as [m [E [M C]]]. exists m. split; auto. split; auto.
    intros i0 Hi0. inversion Hi0; subst. auto.
  Qed.

  (** looking up *)
  Lemma matches_get : forall hf i fes, matches hf i fes ->
    (forall f, option_map run_info (fget (c_training i) f) = option_map e_train (fget fes f)) /\
    (forall f, option_map run_info (fget (c_test i) f) = option_map e_tested (fget fes f)) /\
    (forall f, fget (p_event (c_pred i)) f = option_map e_event (fget fes f)) /\
    (forall f, fget (p_true (c_pred i)) f = option_map e_true (fget fes f)) /\
    (forall f, fget (p_predicted (c_pred i)) f = option_map e_predicted (fget fes f)) /\
    (forall f, fget (p_mask (c_pred i)) f = option_map e_mask (fget fes f)) /\
    match p_feature (c_pred i) with
    | None => hf = false
    | Some pf => hf = true /\ forall f, option_map Some (fget pf f) = option_map e_feature (fget fes f)
    end.
  Proof.
    intros hf i fes [H1 [H2 [H3 [H4 [H5 [H6 H7]]]]]]. rewrite H3, H4, H5, H6.
    repeat split; intros; rewrite <- ?fget_map; try (rewrite ?H1, ?H2; reflexivity).
    destruct (p_feature (c_pred i)); auto. destruct H7 as [-> H7]. split; auto. intros f. rewrite <- !fget_map, H7. auto.
  Qed.

  Lemma fget_perm : forall A (d d' : fdict A) f, Permutation d d' -> NoDup (map fst d) -> fget d f = fget d' f.
  Proof.
    intros A d d' f P N. assert (N' : NoDup (map fst d')) by (eapply Permutation_NoDup; [apply Permutation_map, P|auto]).
    destruct (fget d f) as [x|] eqn:E.
    - symmetry. apply fget_some; auto. eapply Permutation_in; [exact P|]. apply fget_in; auto.
    - destruct (fget d' f) as [x|] eqn:E'; auto. exfalso. apply fget_in in E'. apply (Permutation_in _ (Permutation_sym P)) in E'.
      apply fget_some in E'; auto. congruence.
  Qed.
End Merging.
