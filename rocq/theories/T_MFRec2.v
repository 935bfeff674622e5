(** * Fits of reordered containers (C71) and repeated fits (C73) *)
From Coq Require Import List ZArith QArith Qreals Reals Lra Lia Bool Permutation FunctionalExtensionality.
From Verif Require Import M_Py P_Py M_Data Spec P_Data P_Filter P_Reach P_DataThms T_Data M_Score P_Score T_Score.
From Verif Require Import M_Rec P_Rec T_Rec M_Sigmoid P_RSum P_Exp T_Sigmoid M_MF P_MF T_MF T_MF2 T_MFInit T_Implicit M_MFRec T_MFRec.
From Verif Require Import M_PLSA P_PLSA P_PLSA2 T_PLSA T_PLSA2 T_MF3 T_PLSA3.
Import ListNotations.
Open Scope R_scope.

(** two calls of fit end the same way; if they succeed they leave the same
    recommender behind *)
Definition same_fit {G Par} (f g : rec G Par * option exn) : Prop := snd f = snd g /\ (snd f = None -> f = g).

(** ** C73 *)
Lemma base_fit_forgets : forall F G Par (r r' : rec G Par) (d : data F G) ix,
  base_fit r' d ix =
  let a := fst (base_fit r d ix) in
  (mkRec (r_objs a) (r_otypes a) (r_n_events a) (r_event a) (r_feature a) (r_index a) (r_rng a)
     (r_domain r') (r_score r') (r_levels r') (r_par r'), snd (base_fit r d ix)).
Proof.
  intros F G Par r r' d ix. unfold base_fit. destruct (event d) as [ev|]; [|reflexivity].
  destruct (mapM _ ev) as [ev'|]; [|reflexivity]. destruct (np_take (o_n (d_objs d)) _) as [n1|]; [|reflexivity].
  destruct (np_take n1 _) as [n2|]; reflexivity.
Qed.

(** [train] does not look at the parameters of an earlier training *)
Definition fresh_start {G Par} (train : rec G Par -> option Par * option exn) : Prop :=
  forall r p, train (set_par r p) = train r.

Lemma model_fit_forgets_score : forall F G Par train (r r' : rec G Par) (s : sdata F G) ix, fresh_start train ->
  same_fit (model_fit score_fit train r s ix) (model_fit score_fit train r' s ix).
Proof.
  intros F G Par train r r' s ix H. unfold same_fit, model_fit, score_fit.
  rewrite (base_fit_forgets F G Par r r' (s_data s) ix). destruct (base_fit r (s_data s) ix) as [a [e|]]; cbn [fst snd].
  - split; [reflexivity|discriminate].
  - match goal with |- context [train (set_score_info ?b s)] =>
      match b with mkRec _ _ _ _ _ _ _ _ _ _ _ => assert (E : train (set_score_info b s) = train (set_score_info a s)) by apply (H (set_score_info a s) (r_par r')) end end.
    rewrite E. destruct (train (set_score_info a s)) as [p [x|]]; cbn [fst snd]; (split; [reflexivity|]); [discriminate|reflexivity].
Qed.

Lemma model_fit_forgets_explicit : forall F G Par train (r r' : rec G Par) (s : sdata F G) ix, fresh_start train ->
  same_fit (model_fit explicit_fit train r s ix) (model_fit explicit_fit train r' s ix).
Proof.
  intros F G Par train r r' s ix H. unfold same_fit, model_fit, explicit_fit.
  rewrite (base_fit_forgets F G Par r r' (s_data s) ix). destruct (base_fit r (s_data s) ix) as [a [e|]]; cbn [fst snd].
  - split; [reflexivity|discriminate].
  - destruct (binary_check s); [|split; [reflexivity|discriminate]].
    match goal with |- context [train (set_score_info ?b s)] =>
      match b with mkRec _ _ _ _ _ _ _ _ _ _ _ => assert (E : train (set_score_info b s) = train (set_score_info a s)) by apply (H (set_score_info a s) (r_par r')) end end.
    rewrite E. destruct (train (set_score_info a s)) as [p [x|]]; cbn [fst snd]; (split; [reflexivity|]); [discriminate|reflexivity].
Qed.

Theorem C73_pmf : forall F G C k draw1 draw2 min junk (r r' : rec G par) (s : sdata F G) ix,
  same_fit (pmf_fit C k draw1 draw2 min junk r s ix) (pmf_fit C k draw1 draw2 min junk r' s ix).
Proof. intros. apply model_fit_forgets_score. intros [] p. reflexivity. Qed.

Theorem C73_logistic : forall F G C k draw1 draw2 min junk (r r' : rec G par) (s : sdata F G) ix,
  same_fit (lpmf_fit C k draw1 draw2 min junk r s ix) (lpmf_fit C k draw1 draw2 min junk r' s ix).
Proof. intros. apply model_fit_forgets_explicit. intros [] p. reflexivity. Qed.

Theorem C73_plsa : forall F G alpha tol k maxiter dirichlet junk (r r' : rec G plsa) (s : sdata F G) ix,
  same_fit (plsa_fit alpha tol k maxiter dirichlet junk r s ix) (plsa_fit alpha tol k maxiter dirichlet junk r' s ix).
Proof. intros. apply model_fit_forgets_score. intros [] p. reflexivity. Qed.

(** implicit item finders have no score attributes *)
Theorem C73_implicit : forall F G C k draw1 draw2 min junk (r r' : rec G par) (d : data F G) ix,
  r_domain r = r_domain r' -> r_score r = r_score r' -> r_levels r = r_levels r' ->
  same_fit (imp_fit C k draw1 draw2 min junk r d ix) (imp_fit C k draw1 draw2 min junk r' d ix).
Proof.
  intros F G C k draw1 draw2 min junk r r' d ix H1 H2 H3. unfold same_fit, imp_fit, model_fit.
  rewrite (base_fit_forgets F G par r r' d ix).
  assert (E0 : base_fit r d ix = (mkRec (r_objs (fst (base_fit r d ix))) (r_otypes (fst (base_fit r d ix)))
    (r_n_events (fst (base_fit r d ix))) (r_event (fst (base_fit r d ix))) (r_feature (fst (base_fit r d ix)))
    (r_index (fst (base_fit r d ix))) (r_rng (fst (base_fit r d ix))) (r_domain r) (r_score r) (r_levels r) (r_par r), snd (base_fit r d ix))).
  { apply (base_fit_forgets F G par r r d ix). }
  destruct (base_fit r d ix) as [a [e|]]; cbn [fst snd] in *.
  - split; [reflexivity|discriminate].
  - injection E0 as E0. rewrite <- H1, <- H2, <- H3.
    assert (E : forall t, imp_train C k draw1 draw2 min junk (set_par a t) = imp_train C k draw1 draw2 min junk a) by (intros; reflexivity).
    assert (Ea : mkRec (r_objs a) (r_otypes a) (r_n_events a) (r_event a) (r_feature a) (r_index a) (r_rng a) (r_domain r) (r_score r) (r_levels r) (r_par r') = set_par a (r_par r')).
    { rewrite E0 at 8. unfold set_par. rewrite E0. reflexivity. }
    rewrite Ea, E. destruct (imp_train C k draw1 draw2 min junk a) as [p [x|]]; cbn [fst snd]; (split; [reflexivity|]); [discriminate|reflexivity].
Qed.

(** predictions after a repeated fit do not depend on what was fitted before *)
Theorem C73_predict : forall F G C k draw1 draw2 min junk (r : rec G par) (s : sdata F G) ix a b,
  pmf_fit C k draw1 draw2 min junk r s ix = (a, None) -> pmf_fit C k draw1 draw2 min junk new_rec s ix = (b, None) ->
  forall q, predict pmf_raw_predict a q = predict pmf_raw_predict b q.
Proof.
  intros F G C k draw1 draw2 min junk r s ix a b Ha Hb q.
  destruct (C73_pmf F G C k draw1 draw2 min junk r new_rec s ix) as [_ H]. rewrite Ha, Hb in H. specialize (H eq_refl). congruence.
Qed.

(** ** C71 *)

(** [s1] and [s2] got the same events with the same scores in another order *)
Definition same_but_order {F G} (s s1 s2 : sdata F G) : Prop :=
  exists rows1 rows2 sc1 sc2 sd1 sd2 ef1 ef2,
    rect 2 rows1 /\ length sc1 = length rows1 /\ length sc2 = length rows2 /\
    Permutation (combine rows1 sc1) (combine rows2 sc2) /\
    s_set_event s (A2 2 rows1) sc1 sd1 ef1 = (s1, None) /\ s_set_event s (A2 2 rows2) sc2 sd2 ef2 = (s2, None) /\
    score_domain s1 = score_domain s2.

Lemma set_scored_inv : forall F G (s s1 : sdata F G) rows sc sd ef, reachable (s_data s) -> rect 2 rows ->
  s_set_event s (A2 2 rows) sc sd ef = (s1, None) ->
  set_event (s_data s) (A2 2 rows) ef = Ok (s_data s1) /\ score s1 = Some sc /\
  exists dm n, score_domain s1 = Some dm /\ n_levels_of dm = Ok n /\ n_score_levels s1 = Some n.
Proof.
  intros F G s s1 rows sc sd ef Hr Hrect H. unfold s_set_event in H.
  rewrite set_event_imp_ok in H by (auto using reachable_inv).
  destruct (set_event (s_data s) (A2 2 rows) ef) as [d1|e]; [|discriminate].
  destruct (match sd with Some d => Ok d | None => infer_domain sc end) as [dm|e] eqn:E; [|discriminate].
  destruct (n_levels_of dm) as [n|] eqn:En; [|discriminate]. injection H as <-. cbn. eauto 8.
Qed.

Lemma enc_perm : forall ot rows1 rows2, Permutation rows1 rows2 -> forall row, enc ot rows1 row = enc ot rows2 row.
Proof.
  intros ot rows1 rows2 P row. unfold enc. apply map_ext. intros [t x]. unfold enc1. cbn [fst snd]. f_equal. f_equal.
  unfold U. apply (np_unique_ext _ idcmp_laws idcmp_eq). intros y. rewrite !type_entries_in.
  split; intros [r [A B]]; exists r; split; auto; (eapply Permutation_in; [|eassumption]); auto using Permutation_sym.
Qed.

Lemma map_combine_l : forall A B C (f : A -> B) (a : list A) (c : list C),
  combine (map f a) c = map (fun x => (f (fst x), snd x)) (combine a c).
Proof. induction a as [|x a IH]; intros [|y c]; cbn; auto. f_equal. auto. Qed.

(** the state of the two containers *)
Lemma reorder_view : forall F G (s s1 s2 : sdata F G) ix, reachable (s_data s) -> event_otypes (s_data s) = [0; 1]%nat ->
  (ix = None \/ ix = Some [0; 1]%Z) -> same_but_order s s1 s2 ->
  user_item (s_data s1) ix /\ user_item (s_data s2) ix /\ d_objs (s_data s1) = d_objs (s_data s2) /\
  n_events (s_data s1) = n_events (s_data s2) /\ n_score_levels s1 = n_score_levels s2 /\ score_domain s1 = score_domain s2 /\
  exists ev1 ev2 sc1 sc2, event (s_data s1) = Some ev1 /\ event (s_data s2) = Some ev2 /\
    score s1 = Some sc1 /\ score s2 = Some sc2 /\ length sc1 = length ev1 /\ length sc2 = length ev2 /\
    Permutation (combine ev1 sc1) (combine ev2 sc2).
Proof.
  intros F G s s1 s2 ix Hr Hot Hix [rows1 [rows2 [sc1 [sc2 [sd1 [sd2 [ef1 [ef2 [Q1 [L1 [L2 [P [S1 [S2 Hdm]]]]]]]]]]]]]].
  assert (Pr : Permutation rows1 rows2).
  { apply (Permutation_map fst) in P. rewrite !fst_combine in P; auto. }
  assert (Q2 : rect 2 rows2) by (unfold rect in *; eapply Permutation_Forall; eauto).
  destruct (set_scored_inv F G s s1 rows1 sc1 sd1 ef1 Hr Q1 S1) as [T1 [C1 [dm1 [n1 [D1 [N1 K1]]]]]].
  destruct (set_scored_inv F G s s2 rows2 sc2 sd2 ef2 Hr Q2 S2) as [T2 [C2 [dm2 [n2 [D2 [N2 K2]]]]]].
  destruct (reachable_inv _ Hr) as [Ht _].
  destruct (set_event_rep _ (A2 2 rows1) _ _ Ht Q1 T1) as [r1 [E1 [R1 [_ [O1 _]]]]].
  destruct (set_event_rep _ (A2 2 rows2) _ _ Ht Q2 T2) as [r2 [E2 [R2 [_ [O2 _]]]]].
  injection E1 as _ <-. injection E2 as _ <-.
  pose proof (C06_event_order_irrelevant F G (s_data s) (s_data s1) (s_data s2) 2 rows1 rows2 ef1 ef2 Hr Q1 Pr T1 T2) as Eo.
  destruct R1 as [_ [V1 [M1 _]]]. destruct R2 as [_ [V2 [M2 _]]]. rewrite O1, Hot in V1. rewrite O2, Hot in V2.
  assert (U1 : user_item (s_data s1) ix).
  { repeat split; auto; [|congruence|congruence]. apply (r_set_event (s_data s) (A2 2 rows1) ef1); auto. }
  assert (U2 : user_item (s_data s2) ix).
  { repeat split; auto; [|congruence|congruence]. apply (r_set_event (s_data s) (A2 2 rows2) ef2); auto. }
  split; [auto|]. split; [auto|]. split; [auto|]. split; [rewrite M1, M2; apply Permutation_length; auto|].
  split; [congruence|]. split; [auto|].
  eexists _, _, sc1, sc2. split; [exact V1|]. split; [exact V2|]. split; [auto|]. split; [auto|]. rewrite !map_length.
  split; [auto|]. split; [auto|].
  rewrite (map_ext _ _ (fun row => eq_sym (enc_perm [0; 1]%nat rows1 rows2 Pr row)) rows2).
  rewrite !map_combine_l. apply Permutation_map. auto.
Qed.

Definition dec2 (row : list Z) : nat * nat := (Z.to_nat (nth 0 row 0%Z), Z.to_nat (nth 1 row 0%Z)).
Lemma dec_ev_of : forall uis, map dec2 (ev_of uis) = uis.
Proof. intros uis. unfold ev_of. rewrite map_map. rewrite <- (map_id uis) at 2. apply map_ext. intros [u i]. unfold dec2. cbn [nth fst snd]. rewrite !Nat2Z.id. auto. Qed.

Lemma ev_of_perm : forall A (uis1 uis2 : list (nat * nat)) (sc1 sc2 : list A),
  Permutation (combine (ev_of uis1) sc1) (combine (ev_of uis2) sc2) -> Permutation (combine uis1 sc1) (combine uis2 sc2).
Proof.
  intros A uis1 uis2 sc1 sc2 P. apply (Permutation_map (fun x => (dec2 (fst x), snd x))) in P.
  rewrite <- !map_combine_l, !dec_ev_of in P. auto.
Qed.

Lemma ev_of_length : forall uis, length (ev_of uis) = length uis.
Proof. intros. unfold ev_of. apply map_length. Qed.

Lemma real_scores : forall (uis1 uis2 : list (nat * nat)) sc1 sc2, Permutation (combine uis1 sc1) (combine uis2 sc2) ->
  Permutation (combine uis1 (map Q2R sc1)) (combine uis2 (map Q2R sc2)).
Proof.
  intros uis1 uis2 sc1 sc2 P. apply (Permutation_map (fun x => (fst x, Q2R (snd x)))) in P.
  assert (M : forall (a : list (nat * nat)) b, map (fun x => (fst x, Q2R (snd x))) (combine a b) = combine a (map Q2R b)).
  { induction a as [|x a IH]; intros [|y b]; cbn; auto. f_equal. auto. }
  rewrite !M in P. auto.
Qed.

(** what two fits see of the containers *)
Lemma reorder_training : forall F G Par (r : rec G Par) (s s1 s2 : sdata F G) ix, reachable (s_data s) ->
  event_otypes (s_data s) = [0; 1]%nat -> (ix = None \/ ix = Some [0; 1]%Z) -> same_but_order s s1 s2 ->
  exists nu ni uis1 uis2 sc1 sc2 (o : objs),
    base_fit r (s_data s1) ix = (fitted r (s_data s1) ix (ev_of uis1) [Z.of_nat nu; Z.of_nat ni], None) /\
    base_fit r (s_data s2) ix = (fitted r (s_data s2) ix (ev_of uis2) [Z.of_nat nu; Z.of_nat ni], None) /\
    in_range nu ni uis1 /\ score s1 = Some sc1 /\ score s2 = Some sc2 /\ length sc1 = length uis1 /\ length sc2 = length uis2 /\
    event (s_data s1) = Some (ev_of uis1) /\ event (s_data s2) = Some (ev_of uis2) /\
    n_events (s_data s1) = length uis1 /\ n_events (s_data s2) = length uis2 /\
    Permutation (combine uis1 sc1) (combine uis2 sc2) /\
    forall ev1 ev2, remove_data (set_score_info (fitted r (s_data s1) ix ev1 [Z.of_nat nu; Z.of_nat ni]) s1) =
      remove_data (set_score_info (fitted r (s_data s2) ix ev2 [Z.of_nat nu; Z.of_nat ni]) s2) /\
      remove_data (fitted r (s_data s1) ix ev1 [Z.of_nat nu; Z.of_nat ni]) =
      remove_data (fitted r (s_data s2) ix ev2 [Z.of_nat nu; Z.of_nat ni]).
Proof.
  intros F G Par r s s1 s2 ix Hr Hot Hix HS.
  destruct (reorder_view F G s s1 s2 ix Hr Hot Hix HS) as [U1 [U2 [Eo [En [El [Ed [ev1 [ev2 [sc1 [sc2 [V1 [V2 [C1 [C2 [L1 [L2 P]]]]]]]]]]]]]]]].
  destruct (training_view F G Par r (s_data s1) ix U1) as [r1 [uis1 [nu [ni [o1 [B1 [E1 [E2 [E3 [E4 [E5 [E6 [E7 E8]]]]]]]]]]]]].
  destruct (training_view F G Par r (s_data s2) ix U2) as [r2 [uis2 [nu' [ni' [o2 [D1 [D2 [D3 [D4 [D5 [D6 [D7 [D8 D9]]]]]]]]]]]]].
  rewrite <- Eo, E6 in D7. rewrite <- Eo, E7 in D8. injection D7 as D7. injection D8 as D8. apply Nat2Z.inj in D7, D8. subst nu' ni'.
  assert (ev1 = ev_of uis1) by congruence. assert (ev2 = ev_of uis2) by congruence. subst ev1 ev2.
  rewrite ev_of_length in L1, L2.
  destruct (base_fit_inv _ _ _ _ B1) as [a1 [a2 [a3 [a4 [A1 [A2 [A3 [A4 A5]]]]]]]].
  destruct (base_fit_inv _ _ _ _ D1) as [b1 [b2 [b3 [b4 [G1 [G2 [G3 [G4 G5]]]]]]]].
  assert (a2 = ev_of uis1) by (rewrite A5 in E2; cbn in E2; congruence). assert (b2 = ev_of uis2) by (rewrite G5 in D3; cbn in D3; congruence). subst a2 b2.
  assert (a4 = [Z.of_nat nu; Z.of_nat ni]) by (rewrite A5 in E3; cbn in E3; injection E3 as <-; auto).
  assert (b4 = [Z.of_nat nu; Z.of_nat ni]) by (rewrite G5 in D4; cbn in D4; injection D4 as <-; auto). subst a4 b4.
  rewrite A5 in B1. rewrite G5 in D1.
  exists nu, ni, uis1, uis2, sc1, sc2, o1. do 11 (split; [auto|]). split; [apply ev_of_perm; auto|].
  intros x1 x2. destruct U1 as [_ [_ [O1 _]]]. destruct U2 as [_ [_ [O2 _]]].
  unfold remove_data, set_score_info, fitted, index_of.
  cbn [r_objs r_otypes r_n_events r_event r_feature r_index r_rng r_domain r_score r_levels r_par].
  rewrite O1, O2, Eo, En, El, Ed. auto.
Qed.

Lemma objective_same : forall C nu ni k uis1 uis2 sc1 sc2 d1 d2 e1 e2, in_range nu ni uis1 -> length sc1 = length uis1 -> length sc2 = length uis2 ->
  Permutation (combine uis1 sc1) (combine uis2 sc2) ->
  (fun c => pmf_loss C nu ni k c (ev_of uis1) (map Q2R sc1)) = (fun c => pmf_loss C nu ni k c (ev_of uis2) (map Q2R sc2)) /\
  (fun c => pmf_grad C nu ni k c (ev_of uis1) (map Q2R sc1)) = (fun c => pmf_grad C nu ni k c (ev_of uis2) (map Q2R sc2)) /\
  (fun c => lpmf_loss C nu ni k c (ev_of uis1) (map Q2R sc1)) = (fun c => lpmf_loss C nu ni k c (ev_of uis2) (map Q2R sc2)) /\
  (fun c => lpmf_grad C nu ni k c (ev_of uis1) (map Q2R sc1)) = (fun c => lpmf_grad C nu ni k c (ev_of uis2) (map Q2R sc2)) /\
  pmf_init nu ni k (ev_of uis1) (map Q2R sc1) d1 d2 = pmf_init nu ni k (ev_of uis2) (map Q2R sc2) d1 d2 /\
  lpmf_init nu ni k (ev_of uis1) (map Q2R sc1) e1 e2 = lpmf_init nu ni k (ev_of uis2) (map Q2R sc2) e1 e2.
Proof.
  intros C nu ni k uis1 uis2 sc1 sc2 d1 d2 e1 e2 Hin L1 L2 P. apply real_scores in P.
  assert (F1 : map fst (combine uis1 (map Q2R sc1)) = uis1) by (apply fst_combine; rewrite map_length; auto).
  assert (F2 : map fst (combine uis2 (map Q2R sc2)) = uis2) by (apply fst_combine; rewrite map_length; auto).
  assert (S1 : map snd (combine uis1 (map Q2R sc1)) = map Q2R sc1) by (apply snd_combine; rewrite map_length; auto).
  assert (S2 : map snd (combine uis2 (map Q2R sc2)) = map Q2R sc2) by (apply snd_combine; rewrite map_length; auto).
  rewrite <- F1 in Hin.
  pose proof (fun c => C71_objective C nu ni k c _ _ Hin P) as O. pose proof (C71_start nu ni k _ _ d1 d2 e1 e2 Hin P) as St.
  rewrite F1, F2, S1, S2 in *.
  split; [apply functional_extensionality; intros c; apply (O c)|]. split; [apply functional_extensionality; intros c; apply (O c)|].
  split; [apply functional_extensionality; intros c; apply (O c)|]. split; [apply functional_extensionality; intros c; apply (O c)|]. exact St.
Qed.

(** training on the events in another order ends the same way: with the same
    exception or with the same recommender *)
Theorem C71_pmf_fit : forall F G C k draw1 draw2 min junk (r : rec G par) (s s1 s2 : sdata F G) ix,
  reachable (s_data s) -> event_otypes (s_data s) = [0; 1]%nat -> (ix = None \/ ix = Some [0; 1]%Z) -> same_but_order s s1 s2 ->
  same_fit (pmf_fit C k draw1 draw2 min junk r s1 ix) (pmf_fit C k draw1 draw2 min junk r s2 ix).
Proof.
  intros F G C k draw1 draw2 min junk r s s1 s2 ix Hr Hot Hix HS.
  destruct (reorder_training F G par r s s1 s2 ix Hr Hot Hix HS) as [nu [ni [uis1 [uis2 [sc1 [sc2 [_ [B1 [B2 [Hin [C1 [C2 [L1 [L2 [_ [_ [_ [_ [P E]]]]]]]]]]]]]]]]]]].
  destruct (objective_same C nu ni k uis1 uis2 sc1 sc2 draw1 draw2 (fun _ => []) (fun _ => []) Hin L1 L2 P) as [O1 [O2 [_ [_ [O3 _]]]]].
  unfold pmf_fit, model_fit, score_fit. rewrite B1, B2. destruct (E (ev_of uis1) (ev_of uis2)) as [E1 _].
  unfold pmf_train. cbn [set_score_info fitted r_event r_objs r_score o_n]. rewrite C1, C2, !Nat2Z.id, <- O1, <- O2, <- O3.
  destruct (finish junk _) as [p [e|]]; unfold same_fit; cbn [fst snd]; (split; [reflexivity|]); [discriminate|].
  intros _. f_equal. apply (f_equal (fun x => set_par x p)) in E1. exact E1.
Qed.

Theorem C71_logistic_fit : forall F G C k draw1 draw2 min junk (r : rec G par) (s s1 s2 : sdata F G) ix,
  reachable (s_data s) -> event_otypes (s_data s) = [0; 1]%nat -> (ix = None \/ ix = Some [0; 1]%Z) -> same_but_order s s1 s2 ->
  same_fit (lpmf_fit C k draw1 draw2 min junk r s1 ix) (lpmf_fit C k draw1 draw2 min junk r s2 ix).
Proof.
  intros F G C k draw1 draw2 min junk r s s1 s2 ix Hr Hot Hix HS.
  destruct (reorder_view F G s s1 s2 ix Hr Hot Hix HS) as [_ [_ [_ [_ [El [Ed _]]]]]].
  destruct (reorder_training F G par r s s1 s2 ix Hr Hot Hix HS) as [nu [ni [uis1 [uis2 [sc1 [sc2 [_ [B1 [B2 [Hin [C1 [C2 [L1 [L2 [_ [_ [_ [_ [P E]]]]]]]]]]]]]]]]]]].
  assert (Hb : binary_check s1 = binary_check s2).
  { assert (Ps : Permutation sc1 sc2).
    { apply (Permutation_map snd) in P. rewrite !snd_combine in P; auto. }
    apply eq_true_iff_eq. rewrite !binary_check_iff. unfold binary_scored. rewrite El, Ed, C1, C2.
    assert (I : forall x, In x sc1 <-> In x sc2) by (intros x; split; apply Permutation_in; auto using Permutation_sym).
    split; intros [H1 [[sc [Esc [H2 [[x [X1 X2]] [y [Y1 Y2]]]]]] H3]]; injection Esc as <-; (split; [auto|]); (split; [|auto]); eexists; (split; [reflexivity|]);
      (split; [intros z Hz; apply H2, I, Hz|]); (split; [exists x|exists y]); split; auto; apply I; auto. }
  destruct (objective_same C nu ni k uis1 uis2 sc1 sc2 (fun _ _ => []) (fun _ _ => []) draw1 draw2 Hin L1 L2 P) as [_ [_ [O1 [O2 [_ O3]]]]].
  unfold lpmf_fit, model_fit, explicit_fit. rewrite B1, B2, Hb. destruct (binary_check s2); [|split; [reflexivity|discriminate]].
  destruct (E (ev_of uis1) (ev_of uis2)) as [E1 _].
  unfold lpmf_train. cbn [set_score_info fitted r_event r_objs r_score o_n]. rewrite C1, C2, !Nat2Z.id, <- O1, <- O2, <- O3.
  destruct (finish junk _) as [p [e|]]; unfold same_fit; cbn [fst snd]; (split; [reflexivity|]); [discriminate|].
  intros _. f_equal. apply (f_equal (fun x => set_par x p)) in E1. exact E1.
Qed.

Theorem C71_implicit_fit : forall F G C k draw1 draw2 min junk (r : rec G par) (d d1 d2 : data F G) rows1 rows2 ef1 ef2 ix,
  reachable d -> event_otypes d = [0; 1]%nat -> (ix = None \/ ix = Some [0; 1]%Z) ->
  rect 2 rows1 -> Permutation rows1 rows2 ->
  set_event d (A2 2 rows1) ef1 = Ok d1 -> set_event d (A2 2 rows2) ef2 = Ok d2 ->
  same_fit (imp_fit C k draw1 draw2 min junk r d1 ix) (imp_fit C k draw1 draw2 min junk r d2 ix).
Proof.
  intros F G C k draw1 draw2 min junk r d d1 d2 rows1 rows2 ef1 ef2 ix Hr Hot Hix Q1 P T1 T2.
  assert (Q2 : rect 2 rows2) by (unfold rect in *; eapply Permutation_Forall; eauto).
  pose (z := fun n : nat => repeat 0%Q n).
  pose (mk := fun (x : data F G) n => mkSData x (Some binary_dom) (Some (z n)) (Some 2%Z)).
  assert (Hset : forall rows ef x, rect 2 rows -> set_event d (A2 2 rows) ef = Ok x ->
    s_set_event (mkSData d None None None) (A2 2 rows) (z (length rows)) (Some binary_dom) ef = (mk x (length rows), None)).
  { intros rows ef x Hq T. unfold s_set_event. rewrite set_event_imp_ok by (cbn; auto using reachable_inv). cbn [s_data]. rewrite T. reflexivity. }
  assert (HS : same_but_order (mkSData d None None None) (mk d1 (length rows1)) (mk d2 (length rows2))).
  { exists rows1, rows2, (z (length rows1)), (z (length rows2)), (Some binary_dom), (Some binary_dom), ef1, ef2.
    split; [auto|]. split; [apply repeat_length|]. split; [apply repeat_length|].
    split; [|split; [apply Hset; auto|split; [apply Hset; auto|reflexivity]]].
    assert (M : forall rows : list (list ext_id), combine rows (z (length rows)) = map (fun r => (r, 0%Q)) rows).
    { unfold z. induction rows; cbn; f_equal; auto. }
    rewrite !M. apply Permutation_map. auto. }
  destruct (reorder_training F G par r (mkSData d None None None) _ _ ix Hr Hot Hix HS) as [nu [ni [uis1 [uis2 [sc1 [sc2 [_ [B1 [B2 [Hin [C1 [C2 [L1 [L2 [V1 [V2 [_ [_ [P' E]]]]]]]]]]]]]]]]]]].
  destruct (reorder_view F G (mkSData d None None None) _ _ ix Hr Hot Hix HS) as [U1 [U2 _]].
  cbn [s_data mk] in *.
  destruct (event_array_ok F G par r d1 ix U1) as [r1 [u1 [nu1 [ni1 [m1 [K1 [K2 [K3 [K4 [K5 [K6 K7]]]]]]]]]]].
  destruct (event_array_ok F G par r d2 ix U2) as [r2 [u2 [nu2 [ni2 [m2 [J1 [J2 [J3 [J4 [J5 [J6 J7]]]]]]]]]]].
  assert (Inj : forall a b, ev_of a = ev_of b -> a = b) by (intros a b Hab; rewrite <- (dec_ev_of a), <- (dec_ev_of b), Hab; auto).
  assert (u1 = uis1) by (apply Inj; congruence). assert (u2 = uis2) by (apply Inj; congruence). subst u1 u2.
  pose proof (C06_event_order_irrelevant F G d d1 d2 2 rows1 rows2 ef1 ef2 Hr Q1 P T1 T2) as Eo.
  rewrite Eo in K4, K5. assert (nu1 = nu2) by (apply Nat2Z.inj; congruence). assert (ni1 = ni2) by (apply Nat2Z.inj; congruence). subst nu2 ni2.
  assert (Pu : Permutation (zp uis1) (zp uis2)).
  { unfold zp. apply Permutation_map. apply (Permutation_map fst) in P'. rewrite !fst_combine in P'; auto. }
  rewrite (C71_matrix nu1 ni1 _ _ Pu), J7 in K7. injection K7 as ->.
  rewrite B1 in K1. injection K1 as <-. rewrite B2 in J1. injection J1 as <-.
  unfold imp_fit, model_fit. rewrite B1, B2. destruct (E (ev_of uis1) (ev_of uis2)) as [_ E1].
  unfold imp_train. rewrite K6, J6.
  destruct (finish junk _) as [p [e|]]; unfold same_fit; cbn [fst snd]; (split; [reflexivity|]); [discriminate|].
  intros _. f_equal. apply (f_equal (fun x => set_par x p)) in E1. exact E1.
Qed.

(** ** C71 for MultinomialPLSA: the initial responsibilities of an event are
    drawn when the event is visited, so they have to move along with it *)
Lemma nth_seq_id : forall X (d : X) l, map (fun k => nth k l d) (seq 0 (length l)) = l.
Proof.
  induction l as [|x l IH]; cbn [length seq map nth]; [reflexivity|]. f_equal. rewrite <- seq_shift, map_map. exact IH.
Qed.

Lemma picks_sel : forall A (d : A) l ks l', picks l ks l' -> l' = map (fun k => nth k l d) ks.
Proof. intros A d l ks l' H. induction H; cbn; f_equal; auto. symmetry. apply nth_error_nth; auto. Qed.

Lemma sel_picks : forall A (d : A) l ks, Forall (fun k => k < length l)%nat ks -> picks l ks (map (fun k => nth k l d) ks).
Proof. intros A d l ks H. induction H; cbn; constructor; auto. apply nth_error_nth'. auto. Qed.

Lemma picks_mapM : forall A B (f : A -> res B) l ys ks l', mapM f l = Ok ys -> picks l ks l' ->
  exists ys', mapM f l' = Ok ys' /\ picks ys ks ys'.
Proof.
  intros A B f l ys ks l' H Hp. apply P_Py.mapM_ok in H. induction Hp as [|k x ks l' Hk _ [ys' [E1 E2]]].
  - exists []. split; [reflexivity|constructor].
  - destruct (Forall2_nth _ _ _ _ _ k x H Hk) as [y [Hy Fy]]. exists (y :: ys'). split; [|constructor; auto].
    cbn [mapM]. rewrite Fy. cbn [bind]. rewrite E1. reflexivity.
Qed.

Lemma picks_map : forall A B (f : A -> B) l ks l', picks l ks l' -> picks (map f l) ks (map f l').
Proof. intros A B f l ks l' H. induction H; cbn; constructor; auto. rewrite nth_error_map, H. auto. Qed.

Lemma picks_combine : forall A B (a : list A) (b : list B) ks a' b', picks a ks a' -> picks b ks b' -> picks (combine a b) ks (combine a' b').
Proof.
  intros A B a b ks a' b' H. revert b'. induction H as [|k x ks a' Hk _ IH]; intros b' Hb; inversion Hb as [|? y ? b'' Hy Hb']; subst; cbn; constructor; [|apply IH; exact Hb'].
  clear - Hk Hy. revert a b Hk Hy. induction k as [|k IH]; intros [|p a] [|q b] Hk Hy; cbn in *; try discriminate; [congruence|auto].
Qed.

Lemma picks_perm : forall A (l : list A) ks l', Permutation ks (seq 0 (length l)) -> picks l ks l' -> Permutation l l'.
Proof.
  intros A [|d l] ks l' P H.
  - apply Permutation_sym, Permutation_nil in P. subst ks. inversion H. constructor.
  - rewrite (picks_sel A d _ _ _ H). rewrite <- (nth_seq_id A d (d :: l)) at 1. apply Permutation_map, Permutation_sym. auto.
Qed.

Lemma picks_len : forall A (l : list A) ks l', picks l ks l' -> length l' = length ks.
Proof. intros. symmetry. eapply F2_length; eauto. Qed.

Lemma init_moves : forall dir nl k n ys q ks ys', Permutation ks (seq 0 n) -> length ys = n -> picks ys ks ys' ->
  init_params dir nl k n ys = Ok q ->
  exists q', init_params (fun j => dir (nth j ks 0%nat)) nl k n ys' = Ok q' /\ picks q ks q'.
Proof.
  intros dir nl k n ys q ks ys' P L Hp H. unfold init_params in *. destruct (nl <? 0)%Z; [discriminate|].
  assert (Ln : length ks = n) by (rewrite (Permutation_length P), seq_length; auto).
  assert (Hk : Forall (fun k => k < n)%nat ks).
  { eapply Permutation_Forall; [apply Permutation_sym, P|]. apply Forall_forall. intros x Hx. apply in_seq in Hx. lia. }
  assert (Hks : picks (seq 0 n) ks ks).
  { clear - Hk. induction Hk; constructor; auto. rewrite (nth_error_nth' _ 0%nat), seq_nth by (rewrite ?seq_length; lia). auto. }
  destruct (picks_mapM _ _ _ _ _ _ _ H Hks) as [q' [E1 E2]]. exists q'. split; auto. rewrite <- E1.
  assert (Es : map (fun k => nth k ks 0%nat) (seq 0 n) = ks) by (rewrite <- Ln; apply nth_seq_id).
  assert (K : forall l, Forall (fun j => j < n)%nat l ->
    mapM (fun i => do r <- np_get ys' (Z.of_nat i); do row <- np_get (init_alpha (Z.to_nat nl) k) r; assign k (dir (nth i ks 0%nat) row)) l =
    mapM (fun i => do r <- np_get ys (Z.of_nat i); do row <- np_get (init_alpha (Z.to_nat nl) k) r; assign k (dir i row)) (map (fun k => nth k ks 0%nat) l)).
  { intros l Hl. induction Hl as [|j l Hj _ IH]; [reflexivity|]. cbn [map mapM].
    destruct (nth_error ys' j) as [y|] eqn:Ej; [|apply nth_error_None in Ej; pose proof (picks_len _ _ _ _ Hp); lia].
    assert (nth_error ys (nth j ks 0%nat) = Some y) as Ey.
    { destruct (nth_error ks j) as [k0|] eqn:Ek; [|apply nth_error_None in Ek; lia].
      destruct (Forall2_nth _ _ _ _ _ j k0 Hp Ek) as [y' [Y1 Y2]]. rewrite (nth_error_nth _ _ 0%nat Ek). congruence. }
    rewrite (proj2 (np_get_nat _ ys' j y) Ej), (proj2 (np_get_nat _ ys _ y) Ey). cbn [bind]. rewrite IH. reflexivity. }
  rewrite K by (apply Forall_forall; intros x Hx; apply in_seq in Hx; lia). rewrite Es. reflexivity.
Qed.

Lemma events_coded : forall F G (s s1 s2 : sdata F G) rows1 rows2 sc1 sc2 sd1 sd2 ef1 ef2, reachable (s_data s) ->
  event_otypes (s_data s) = [0; 1]%nat -> rect 2 rows1 -> Permutation rows1 rows2 ->
  s_set_event s (A2 2 rows1) sc1 sd1 ef1 = (s1, None) -> s_set_event s (A2 2 rows2) sc2 sd2 ef2 = (s2, None) ->
  exists f, event (s_data s1) = Some (map f rows1) /\ event (s_data s2) = Some (map f rows2).
Proof.
  intros F G s s1 s2 rows1 rows2 sc1 sc2 sd1 sd2 ef1 ef2 Hr Hot Q1 P S1 S2.
  assert (Q2 : rect 2 rows2) by (unfold rect in *; eapply Permutation_Forall; eauto).
  destruct (set_scored_inv F G s s1 rows1 sc1 sd1 ef1 Hr Q1 S1) as [T1 _]. destruct (set_scored_inv F G s s2 rows2 sc2 sd2 ef2 Hr Q2 S2) as [T2 _].
  destruct (reachable_inv _ Hr) as [Ht _].
  destruct (set_event_rep _ (A2 2 rows1) _ _ Ht Q1 T1) as [r1 [E1 [R1 [_ [O1 _]]]]].
  destruct (set_event_rep _ (A2 2 rows2) _ _ Ht Q2 T2) as [r2 [E2 [R2 [_ [O2 _]]]]].
  injection E1 as _ <-. injection E2 as _ <-. destruct R1 as [_ [V1 _]]. destruct R2 as [_ [V2 _]].
  exists (enc [0; 1]%nat rows1). rewrite O1, Hot in V1. rewrite O2, Hot in V2. split; auto.
  rewrite V2. f_equal. apply map_ext. intros row. symmetry. apply enc_perm. auto.
Qed.

Lemma combine_codes : forall (uis : list (nat * nat)) ys, length ys = length uis -> Forall (fun y => (0 <= y)%Z) ys ->
  map fst (combine uis (map Z.to_nat ys)) = uis /\ sc_of (combine uis (map Z.to_nat ys)) = ys.
Proof.
  intros uis ys L N. split; [apply fst_combine; rewrite map_length; auto|]. unfold sc_of.
  revert ys L N. induction uis as [|a uis IH]; intros [|y ys] H N; try discriminate; cbn; [reflexivity|].
  inversion N; subst. f_equal; [lia|]. apply IH; auto.
Qed.

Theorem C71_plsa_fit : forall F G alpha tol k maxiter dirichlet junk (r r' : rec G plsa) (s s1 s2 : sdata F G) ix
    rows1 rows2 sc1 sc2 sd1 sd2 ef1 ef2 ks,
  reachable (s_data s) -> event_otypes (s_data s) = [0; 1]%nat -> (ix = None \/ ix = Some [0; 1]%Z) ->
  rect 2 rows1 -> length sc1 = length rows1 ->
  Permutation ks (seq 0 (length rows1)) -> picks rows1 ks rows2 -> picks sc1 ks sc2 ->
  s_set_event s (A2 2 rows1) sc1 sd1 ef1 = (s1, None) -> s_set_event s (A2 2 rows2) sc2 sd2 ef2 = (s2, None) ->
  score_domain s1 = score_domain s2 -> dirichlet_ok dirichlet -> 0 <= alpha ->
  plsa_fit alpha tol k maxiter dirichlet junk r s1 ix = (r', None) ->
  plsa_fit alpha tol k maxiter (fun j => dirichlet (nth j ks 0%nat)) junk r s2 ix = (r', None).
Proof.
  intros F G alpha tol k maxiter dirichlet junk r r' s s1 s2 ix rows1 rows2 sc1 sc2 sd1 sd2 ef1 ef2 ks
    Hr Hot Hix Q1 L1 Pk Hrows Hsc S1 S2 Hdm Hdir Ha H.
  assert (Prows : Permutation rows1 rows2) by (eapply picks_perm; eauto).
  assert (L2 : length sc2 = length rows2) by (rewrite (picks_len _ _ _ _ Hsc), (picks_len _ _ _ _ Hrows); auto).
  assert (HS : same_but_order s s1 s2).
  { exists rows1, rows2, sc1, sc2, sd1, sd2, ef1, ef2. repeat (split; [assumption|]). split; [|auto].
    eapply picks_perm; [|apply picks_combine; eauto]. rewrite combine_length, L1, Nat.min_id. auto. }
  destruct (reorder_view F G s s1 s2 ix Hr Hot Hix HS) as [_ [_ [_ [En [El [Ed _]]]]]].
  destruct (reorder_training F G plsa r s s1 s2 ix Hr Hot Hix HS) as [nu [ni [uis1 [uis2 [sc1' [sc2' [_ [B1 [B2 [Hin [C1 [C2 [K1 [K2 [V1 [V2 [M1 [M2 [P E]]]]]]]]]]]]]]]]]]].
  assert (sc1' = sc1 /\ sc2' = sc2) as [-> ->].
  { assert (Q2 : rect 2 rows2) by (unfold rect in *; eapply Permutation_Forall; eauto).
    destruct (set_scored_inv F G s s1 rows1 sc1 sd1 ef1 Hr Q1 S1) as [_ [X1 _]]. destruct (set_scored_inv F G s s2 rows2 sc2 sd2 ef2 Hr Q2 S2) as [_ [X2 _]].
    split; congruence. }
  destruct (events_coded F G s s1 s2 rows1 rows2 sc1 sc2 sd1 sd2 ef1 ef2 Hr Hot Q1 Prows S1 S2) as [f [W1 W2]].
  assert (Hu : picks uis1 ks uis2).
  { rewrite <- (dec_ev_of uis1), <- (dec_ev_of uis2). apply picks_map.
    assert (ev_of uis1 = map f rows1) as -> by congruence. assert (ev_of uis2 = map f rows2) as -> by congruence. apply picks_map. auto. }
  destruct (E (ev_of uis1) (ev_of uis2)) as [E1 _]. clear E.
  unfold plsa_fit, model_fit, score_fit in *. rewrite B1 in H. rewrite B2. unfold plsa_train in *.
  destruct (plsa_learn alpha tol k maxiter dirichlet s1 _) as [[m rep]|e] eqn:Le; [|discriminate].
  injection H as Hr'. unfold plsa_learn in Le.
  cbn [set_score_info fitted r_event r_objs r_domain r_levels r_score r_n_events o_n] in Le.
  destruct (score_domain s1) as [dm|] eqn:Edm; [|discriminate]. destruct (n_score_levels s1) as [nl|] eqn:Enl; [|discriminate].
  apply bind_ok in Le. destruct Le as [lv [Elv Le]]. apply bind_ok in Le. destruct Le as [ys [Eys Le]].
  apply bind_ok in Le. destruct Le as [q [Eq Le]]. rewrite pairs_ok in Le. cbn [bind] in Le. rewrite !Nat2Z.id in Le.
  apply bind_ok in Le. destruct Le as [[p rep'] [Efit Le]]. cbn [fst snd] in Le. injection Le as <- <-.
  unfold digitize_score in Eys. rewrite Edm, C1 in Eys. rewrite M1 in *.
  destruct (digitize_nonneg _ _ _ Eys) as [Ly Ny]. destruct (init_inv _ _ _ _ _ _ Eq) as [Hnl [Lq [_ Rsc]]].
  assert (Lr : length uis1 = length rows1) by congruence.
  assert (exists ys', digitize dm sc2 = Ok ys' /\ picks ys ks ys') as [ys' [Eys' Hys]].
  { unfold digitize in *. apply bind_ok in Eys. destruct Eys as [bins [Eb Eys]]. rewrite Eb. cbn [bind]. eapply picks_mapM; eauto. }
  destruct (digitize_nonneg _ _ _ Eys') as [Ly' Ny'].
  rewrite <- Lr in Pk.
  destruct (init_moves dirichlet nl k (length uis1) ys q ks ys' Pk ltac:(congruence) Hys Eq) as [q' [Eq' Hq]].
  assert (Lu : length uis2 = length uis1).
  { rewrite (picks_len _ _ _ _ Hu), (Permutation_length Pk), seq_length. auto. }
  (* the two problems *)
  pose proof Efit as Efit0. unfold em_fit in Efit0. apply bind_ok in Efit0. destruct Efit0 as [p0 [M0 Efit0]].
  apply bind_ok in Efit0. destruct Efit0 as [l0 [L0 _]].
  unfold m_step in M0. apply bind_ok in M0. destruct M0 as [mr [M0 _]]. apply smoothed_inv in M0. destruct M0 as [Hk Hlen].
  assert (Lys : length ys = length uis1) by congruence. assert (Lys' : length ys' = length uis2) by congruence.
  destruct (combine_codes uis1 ys Lys Ny) as [Ef Es]. destruct (combine_codes uis2 ys' Lys' Ny') as [Ef' Es'].
  set (evs := combine uis1 (map Z.to_nat ys) : list rating) in *. set (evs' := combine uis2 (map Z.to_nat ys') : list rating) in *.
  assert (Lev : @length rating evs = length uis1) by (unfold evs; etransitivity; [apply combine_length|]; rewrite map_length; lia).
  assert (Lev' : @length rating evs' = length uis2) by (unfold evs'; etransitivity; [apply combine_length|]; rewrite map_length; lia).
  assert (Hev : Forall (fun x : rating => fst (fst x) < nu /\ snd (fst x) < ni /\ snd x < Z.to_nat nl)%nat evs).
  { apply Forall_forall. intros [[a b] y] Hi. cbn [fst snd].
    assert (Hab : In (a, b) uis1) by (unfold evs in Hi; eapply in_combine_l; eauto).
    unfold in_range in Hin. rewrite Forall_forall in Hin. specialize (Hin _ Hab). cbn in Hin.
    assert (Hy : In y (map Z.to_nat ys)) by (unfold evs in Hi; eapply in_combine_r; eauto).
    apply in_map_iff in Hy. destruct Hy as [y' [<- Hy]]. apply In_nth_error in Hy as [j Hj].
    assert (j < length ys)%nat by (apply nth_error_Some; congruence).
    specialize (Rsc j y' ltac:(lia) Hj). rewrite Forall_forall in Ny. specialize (Ny y' ltac:(eapply nth_error_In; eauto)). lia. }
  assert (Hne : evs <> []).
  { intros Ee. rewrite Ee in Lev. cbn in Lev. rewrite <- Lev in L0. unfold plsa_loss in L0. apply bind_ok in L0. destruct L0 as [j [_ L0]].
    apply bind_ok in L0. destruct L0 as [l [_ L0]]. unfold np_div in L0. cbn [INR] in L0. destruct (Req_EM_T 0 0); [discriminate|lra]. }
  pose (P1 := mkProblem alpha k (Z.to_nat nl) nu ni evs q). pose (P2 := mkProblem alpha k (Z.to_nat nl) nu ni evs' q').
  assert (HP : problem_ok P1).
  { apply (C46_problem alpha k (Z.to_nat nl) nu ni evs dirichlet q); auto. rewrite Z2Nat.id by lia. rewrite Lev, Es. auto. }
  assert (HR : reordered P1 P2).
  { unfold reordered, P1, P2. cbn [q_alpha q_k q_nl q_nu q_ni q_evs q_start]. repeat (split; [reflexivity|]). split.
    - transitivity (length uis1); [|congruence]. rewrite (picks_len _ _ _ _ Hq), (Permutation_length Pk), seq_length. auto.
    - eapply picks_perm; [|apply picks_combine; [|exact Hq]].
      + rewrite combine_length. replace (Nat.min _ _) with (length uis1); [exact Pk|]. rewrite Lq. symmetry. transitivity (Nat.min (length uis1) (length uis1)); [f_equal; exact Lev|apply Nat.min_id].
      + unfold evs, evs'. apply picks_combine; auto. apply picks_map. auto. }
  assert (HF : fit_of P1 tol maxiter = Ok (p, rep')).
  { unfold fit_of, P1. cbn [q_alpha q_k q_nl q_nu q_ni q_evs q_start]. unfold uis_of. rewrite Ef, Es, Lev. exact Efit. }
  rewrite (C71_plsa P1 P2 tol maxiter HP HR) in HF.
  unfold fit_of, P2 in HF. cbn [q_alpha q_k q_nl q_nu q_ni q_evs q_start] in HF. unfold uis_of in HF. rewrite Ef', Es', Lev' in HF.
  assert (Le2 : plsa_learn alpha tol k maxiter (fun j => dirichlet (nth j ks 0%nat)) s2
     (set_score_info (fitted r (s_data s2) ix (ev_of uis2) [Z.of_nat nu; Z.of_nat ni]) s2) = Ok (mkPlsa (with_unknown k p) (map Q2R lv), rep')).
  { unfold plsa_learn. cbn [set_score_info fitted r_event r_objs r_domain r_levels r_score r_n_events o_n].
    rewrite <- Ed, <- El, Elv. cbn [bind]. unfold digitize_score. rewrite <- Ed, C2, Eys'. cbn [bind].
    rewrite M2, Lu, Eq'. cbn [bind]. rewrite pairs_ok. cbn [bind]. rewrite !Nat2Z.id. rewrite Lu in HF. rewrite HF. reflexivity. }
  rewrite Le2. f_equal. rewrite <- Hr'.
  apply (f_equal (fun x => set_par x (Some (mkPlsa (with_unknown k p) (map Q2R lv))))) in E1. symmetry. exact E1.
Qed.

(** ** Concrete cases *)
Definition px_rows2 : list (list ext_id) := [[IdInt 11; IdInt 20]; [IdInt 10; IdInt 20]; [IdInt 12; IdInt 21]].
Definition px2 : sdata nat nat := fst (s_set_event px_new (A2 2 px_rows2) [5; 1; 3]%Q (Some (mkDom 1 5 (3 - 1))) None).

Example C71_fit_nonvacuous :
  reachable (s_data px_new) /\ event_otypes (s_data px_new) = [0; 1]%nat /\ same_but_order px_new px px2 /\
  event (s_data px) <> event (s_data px2) /\ score px <> score px2 /\
  Permutation [2; 0; 1]%nat (seq 0 (length px_rows)) /\ picks px_rows [2; 0; 1]%nat px_rows2 /\ picks [1; 3; 5]%Q [2; 0; 1]%nat [5; 1; 3]%Q /\
  (exists r, pmf_fit 1 3 (fun _ => fixed_draw 3) (fun _ => fixed_draw 3) (fun _ _ x => Ok x) None new_rec px None = (r, None)) /\
  (forall alpha, 0 <= alpha -> exists r, plsa_fit alpha (1 / 100) 2 20 even None new_rec px None = (r, None)).
Proof.
  assert (Pk : Permutation [2; 0; 1]%nat (seq 0 (length px_rows))).
  { cbn. apply perm_trans with [0; 2; 1]%nat; [apply perm_swap|apply perm_skip, perm_swap]. }
  assert (Hpr : picks px_rows [2; 0; 1]%nat px_rows2) by (repeat constructor).
  assert (Hps : picks [1; 3; 5]%Q [2; 0; 1]%nat [5; 1; 3]%Q) by (repeat constructor).
  assert (Hu : user_item (s_data px) None).
  { repeat split; auto; [|discriminate]. change (reachable (build 2 OTNone 2 px_rows)). eapply build_reachable; [reflexivity|repeat constructor]. }
  split; [eapply build_reachable; [reflexivity|repeat constructor]|]. split; [reflexivity|]. split.
  { exists px_rows, px_rows2, [1; 3; 5]%Q, [5; 1; 3]%Q, None, (Some (mkDom 1 5 (3 - 1))), None, None.
    split; [repeat constructor|]. split; [reflexivity|]. split; [reflexivity|]. split.
    - apply picks_perm with [2; 0; 1]%nat; [exact Pk|]. apply picks_combine; auto.
    - repeat split. }
  split; [discriminate|]. split; [discriminate|]. split; [auto|]. split; [auto|]. split; [auto|]. split.
  - apply (C25_pmf_fit_succeeds nat nat) with (sc := [1; 3; 5]%Q); auto using fixed_draw_ok; try discriminate; [lra|]. intros l g x; eauto.
  - intros alpha Ha. apply (C25_plsa_fit_succeeds nat nat) with (sc := [1; 3; 5]%Q) (dm := mkDom 1 5 (3 - 1)) (m := 2%nat) (nl := 3%Z);
      auto; try reflexivity; try discriminate; exact even_ok.
Qed.

Example C71_implicit_nonvacuous : exists d1 d2, Permutation px_rows px_rows2 /\
  set_event (s_data px_new) (A2 2 px_rows) None = Ok d1 /\ set_event (s_data px_new) (A2 2 px_rows2) None = Ok d2 /\ event d1 <> event d2 /\
  exists r, imp_fit 1 3 (fixed_draw 3 3) (fixed_draw 3 2) (fun _ _ x => Ok x) None new_rec d1 None = (r, None).
Proof.
  eexists _, _. split; [apply picks_perm with [2; 0; 1]%nat; [|repeat constructor]|].
  { cbn. apply perm_trans with [0; 2; 1]%nat; [apply perm_swap|apply perm_skip, perm_swap]. }
  split; [reflexivity|]. split; [reflexivity|]. split; [discriminate|].
  apply C25_implicit_fit_succeeds; try reflexivity; try discriminate; try (repeat constructor).
  - change (reachable (build 2 OTNone 2 px_rows)). eapply build_reachable; [reflexivity|repeat constructor].
  - discriminate.
  - intros l g x; eauto.
Qed.

(** a recommender fitted to other data, fitted again *)
Example C73_nonvacuous : exists r0 r1 r2,
  pmf_fit 1 3 (fun _ => fixed_draw 3) (fun _ => fixed_draw 3) (fun _ _ x => Ok x) None new_rec bx None = (r0, None) /\ r_par r0 <> None /\
  pmf_fit 1 3 (fun _ => fixed_draw 3) (fun _ => fixed_draw 3) (fun _ _ x => Ok x) None r0 px None = (r1, None) /\
  pmf_fit 1 3 (fun _ => fixed_draw 3) (fun _ => fixed_draw 3) (fun _ _ x => Ok x) None new_rec px None = (r2, None) /\
  r_index r0 <> None /\ r_domain r0 <> r_domain r1 /\ r1 = r2.
Proof.
  destruct C25_fit_nonvacuous as [_ [_ [_ [r0 [_ [H0 _]]]]]].
  destruct C71_fit_nonvacuous as [_ [_ [_ [_ [_ [_ [_ [_ [[r2 H2] _]]]]]]]]].
  destruct (C73_pmf nat nat 1 3 (fun _ => fixed_draw 3) (fun _ => fixed_draw 3) (fun _ _ x => Ok x) None new_rec r0 px None) as [E1 E2].
  rewrite H2 in E1, E2. specialize (E2 eq_refl).
  assert (D : forall (s : sdata nat nat) (r : rec nat par) r', pmf_fit 1 3 (fun _ => fixed_draw 3) (fun _ => fixed_draw 3) (fun _ _ x => Ok x) None r s None = (r', None) ->
    r_domain r' = score_domain s /\ r_index r' <> None /\ r_par r' <> None).
  { intros s r r' H. unfold pmf_fit, model_fit, score_fit in H. destruct (base_fit r (s_data s) None) as [a [x|]] eqn:B; [discriminate|].
    destruct (base_fit_inv _ _ _ _ B) as [? [? [? [? [_ [_ [_ [_ Er]]]]]]]].
    destruct (pmf_train 1 3 _ _ _ None _) as [p [x9|]] eqn:T; [discriminate|]. injection H as <-. split; [reflexivity|]. split; [rewrite Er; discriminate|].
    cbn. intros ->. unfold pmf_train in T. repeat match type of T with match ?y with _ => _ end = _ => destruct y; try discriminate end.
    apply finish_inv in T. destruct T as [t [_ T]]. discriminate. }
  exists r0, r2, r2. destruct (D _ _ _ H0) as [D1 [D2 D3]]. destruct (D _ _ _ H2) as [D4 _].
  repeat (split; [auto; fail|]). split; [rewrite D1, D4; discriminate|reflexivity].
Qed.

Print Assumptions C71_pmf_fit.
Print Assumptions C71_logistic_fit.
Print Assumptions C71_implicit_fit.
Print Assumptions C71_plsa_fit.
Print Assumptions C73_pmf.
Print Assumptions C73_logistic.
Print Assumptions C73_plsa.
Print Assumptions C73_implicit.
Print Assumptions C73_predict.
