(** * Data with a single user or a single item (C114) *)
From Coq Require Import List ZArith QArith Qreals Reals Lra Lia Bool.
From Verif Require Import M_Py P_Py M_Data Spec P_Data P_Filter P_Reach P_DataThms M_Score P_Score T_Score.
From Verif Require Import M_Rec P_Rec T_Rec M_Sigmoid P_RSum P_Exp T_Sigmoid M_MF P_MF T_MF T_MF2 T_MFInit T_Implicit M_MFRec T_MFRec M_View.
Import ListNotations.
Open Scope R_scope.

(** ** filling an array in place is computing its entries *)

Definition store (val : nat -> res (option R)) (f : field) (i : nat) : res field :=
  do o <- val i; match o with None => Ok f | Some v => set_item f i v end.
Definition entry (val : nat -> res (option R)) (i : nat) : res R :=
  do o <- val i; Ok (match o with None => 0 | Some v => v end).

Lemma set_nth_mid : forall A (pre : list A) x post v, set_nth (pre ++ x :: post) (length pre) v = pre ++ v :: post.
Proof. induction pre; intros; cbn; [reflexivity|]. rewrite IHpre. reflexivity. Qed.

Lemma store_entries : forall val n pre,
  foldM (store val) (seq (length pre) n) (Array (pre ++ repeat 0 n)) = do ys <- mapM (entry val) (seq (length pre) n); Ok (Array (pre ++ ys)).
Proof.
  intros val n. induction n as [|n IH]; intros pre; [reflexivity|]. cbn [seq foldM mapM repeat]. unfold store at 1, entry at 1.
  assert (Step : forall v, foldM (store val) (seq (S (length pre)) n) (Array (pre ++ v :: repeat 0 n)) =
    do ys <- mapM (entry val) (seq (S (length pre)) n); Ok (Array (pre ++ v :: ys))).
  { intros v. specialize (IH (pre ++ [v])). rewrite app_length, Nat.add_comm in IH. cbn [length plus] in IH. rewrite <- !app_assoc in IH. cbn [app] in IH.
    rewrite IH. destruct (mapM (entry val) (seq (S (length pre)) n)); cbn [bind]; [rewrite <- app_assoc|]; reflexivity. }
  destruct (val (length pre)) as [[v|]|e]; cbn [bind]; [| |reflexivity].
  - unfold set_item, np_set, np_norm. rewrite app_length. cbn [length].
    destruct (Z.leb_spec 0 (Z.of_nat (length pre))); [|lia].
    destruct (Z.ltb_spec (Z.of_nat (length pre)) (Z.of_nat (length pre + S (length (repeat 0 n))))); [|lia].
    rewrite Nat2Z.id. cbn [bind]. rewrite set_nth_mid, Step. destruct (mapM (entry val) (seq (S (length pre)) n)); reflexivity.
  - rewrite Step. destruct (mapM (entry val) (seq (S (length pre)) n)); reflexivity.
Qed.

Lemma foldM_ext : forall A S (f g : S -> A -> res S) l s, (forall s x, f s x = g s x) -> foldM f l s = foldM g l s.
Proof. intros A S f g l. induction l as [|x l IH]; intros s H; cbn; [reflexivity|]. rewrite H. destruct (g s x); cbn; auto. Qed.

Definition val_u (m : R) (us : list Z) (sc : list R) (i : nat) : res (option R) :=
  match positions us i with
  | [] => Ok None
  | j => do s <- np_take sc j; Ok (Some (rsum (map (fun x => x - m) s) / INR (length j)))
  end.
Definition val_i (m : R) (b : list R) (us is : list Z) (sc : list R) (i : nat) : res (option R) :=
  match positions is i with
  | [] => Ok None
  | j => do s <- np_take sc j; do u <- np_take us j; do bs <- np_take b u;
         Ok (Some (rsum (map (fun x => fst x - (m + snd x)) (combine s bs)) / INR (length j)))
  end.

Lemma zero_array : forall n, n <> 1%nat -> zero_field n = Array (repeat 0 n).
Proof. intros n H. unfold zero_field. rewrite (proj2 (Nat.eqb_neq _ _) H). reflexivity. Qed.

Lemma fill_bu_same : forall m us sc nu, nu <> 1%nat -> fill_bu m us sc nu = do b <- init_bu m us sc nu; Ok (Array b).
Proof.
  intros m us sc nu H. unfold fill_bu. rewrite zero_array by exact H.
  rewrite (foldM_ext _ _ _ (store (val_u m us sc))).
  - pose proof (store_entries (val_u m us sc) nu []) as K. cbn [app length] in K. rewrite K. f_equal. unfold init_bu. apply P_Py.mapM_ext. intros i _. unfold entry, val_u.
    destruct (positions us i) as [|z l]; [reflexivity|]. destruct (np_take sc (z :: l)); reflexivity.
  - intros f i. unfold store, val_u. destruct (positions us i) as [|z l]; [reflexivity|]. destruct (np_take sc (z :: l)); reflexivity.
Qed.
Lemma fill_bi_same : forall m b us is sc ni, ni <> 1%nat -> fill_bi m (Array b) us is sc ni = do c <- init_bi m b us is sc ni; Ok (Array c).
Proof.
  intros m b us is sc ni H. unfold fill_bi. rewrite zero_array by exact H.
  rewrite (foldM_ext _ _ _ (store (val_i m b us is sc))).
  - pose proof (store_entries (val_i m b us is sc) ni []) as K. cbn [app length] in K. rewrite K. f_equal. unfold init_bi. apply P_Py.mapM_ext. intros i _. unfold entry, val_i.
    destruct (positions is i) as [|z l]; [reflexivity|]. destruct (np_take sc (z :: l)); cbn [bind]; [|reflexivity].
    destruct (np_take us (z :: l)); cbn [bind]; [|reflexivity]. destruct (np_take b _); reflexivity.
  - intros f i. unfold store, val_i. destruct (positions is i) as [|z l]; [reflexivity|]. destruct (np_take sc (z :: l)); cbn [bind]; [|reflexivity].
    destruct (np_take us (z :: l)); cbn [bind items]; [|reflexivity]. destruct (np_take b _); reflexivity.
Qed.

Theorem C114_same_init : forall nu ni k ev sc, nu <> 1%nat -> ni <> 1%nat ->
  (forall draw1 draw2, pmf_init1 nu ni k ev sc draw1 draw2 = pmf_init nu ni k ev sc draw1 draw2) /\
  (forall draw1 draw2, lpmf_init1 nu ni k ev sc draw1 draw2 = lpmf_init nu ni k ev sc draw1 draw2) /\
  (forall m draw1 draw2, imp_init1 nu ni k m draw1 draw2 = imp_init nu ni k m draw1 draw2).
Proof.
  intros nu ni k ev sc Hu Hi. split; [|split]; intros.
  - unfold pmf_init1, pmf_init. destruct (pairs ev) as [uis|]; [|reflexivity]. cbn [bind]. destruct (Nat.eqb (length uis) 0); [reflexivity|]. cbn zeta.
    rewrite fill_bu_same by exact Hu. destruct (init_bu _ _ _ nu) as [b|]; [|reflexivity]. cbn [bind].
    rewrite fill_bi_same by exact Hi. destruct (init_bi _ _ _ _ _ ni) as [c|]; reflexivity.
  - unfold lpmf_init1, lpmf_init. destruct (pairs ev) as [uis|]; [|reflexivity]. cbn [bind]. destruct (Nat.eqb (length uis) 0); [reflexivity|]. cbn zeta.
    rewrite fill_bu_same by exact Hu. destruct (init_bu _ _ _ nu) as [b|]; [|reflexivity]. cbn [bind].
    rewrite fill_bi_same by exact Hi. destruct (init_bi _ _ _ _ _ ni) as [c|]; [|reflexivity]. cbn [bind items].
    destruct (seen _ nu) as [mk|]; [|reflexivity]. cbn [bind]. destruct (fill nu k mk _) as [p|]; [|reflexivity]. cbn [bind].
    destruct (seen _ ni) as [mk'|]; [|reflexivity]. cbn [bind]. destruct (fill ni k mk' _) as [q|]; reflexivity.
  - unfold imp_init1, imp_init. destruct (Nat.eqb (nu * ni) 0); [reflexivity|]. rewrite !zero_array by auto. cbn [set_all]. rewrite !repeat_length.
    destruct (assign nu _) as [b|]; [|reflexivity]. cbn [bind]. destruct (mapM _ (seq 0 ni)) as [sums|]; [|reflexivity]. cbn [bind].
    destruct (assign ni sums); reflexivity.
Qed.

(** with two or more users and items (or none) numpy 1.x and M_MFRec agree,
    so every theorem about fit holds *)
Theorem C114_same_fit : forall F G C k min junk (r : rec G par) (s : sdata F G) ix nu ni,
  user_item (s_data s) ix -> nth_error (o_n (d_objs (s_data s))) 0 = Some nu -> nth_error (o_n (d_objs (s_data s))) 1 = Some ni ->
  nu <> 1%Z -> ni <> 1%Z ->
  (forall draw1 draw2, pmf_fit1 C k draw1 draw2 min junk r s ix = pmf_fit C k draw1 draw2 min junk r s ix) /\
  (forall draw1 draw2, lpmf_fit1 C k draw1 draw2 min junk r s ix = lpmf_fit C k draw1 draw2 min junk r s ix) /\
  (forall draw1 draw2, imp_fit1 C k draw1 draw2 min junk r (s_data s) ix = imp_fit C k draw1 draw2 min junk r (s_data s) ix).
Proof.
  intros F G C k min junk r s ix nu0 ni0 Hui Nu Ni Hu Hi.
  destruct (training_view F G par r (s_data s) ix Hui) as [r1 [uis [nu [ni [o [B [E1 [E2 [E3 [E4 [E5 [E6 [E7 E8]]]]]]]]]]]]].
  rewrite E6 in Nu. rewrite E7 in Ni. assert (Hnu : nu <> 1%nat) by (injection Nu; lia). assert (Hni : ni <> 1%nat) by (injection Ni; lia).
  assert (W : forall A (f : list R -> res A), with_arrays nu ni f = f).
  { intros A f. unfold with_arrays. rewrite !zero_array by auto. cbn [items bind]. reflexivity. }
  split; [|split]; intros draw1 draw2.
  - unfold pmf_fit1, pmf_fit, model_fit, score_fit. rewrite B. unfold pmf_train1, pmf_train. cbn [set_score_info r_event r_objs r_score].
    rewrite E2, E3, E4, !Nat2Z.id. destruct (score s); [|reflexivity]. rewrite !W, (proj1 (C114_same_init nu ni k _ _ Hnu Hni)). reflexivity.
  - unfold lpmf_fit1, lpmf_fit, model_fit, explicit_fit. rewrite B. destruct (binary_check s); [|reflexivity].
    unfold lpmf_train1, lpmf_train. cbn [set_score_info r_event r_objs r_score].
    rewrite E2, E3, E4, !Nat2Z.id. destruct (score s); [|reflexivity]. rewrite !W, (proj1 (proj2 (C114_same_init nu ni k _ _ Hnu Hni))). reflexivity.
  - destruct (event_array_ok F G par r (s_data s) ix Hui) as [r1' [uis' [nu' [ni' [m [B' [_ [_ [E3' [E4' [E5' _]]]]]]]]]]].
    unfold imp_fit1, imp_fit, model_fit. rewrite B'. unfold imp_train1, imp_train. rewrite E5', !Nat2Z.id.
    assert (nu' = nu) by (rewrite E6 in E3'; injection E3'; lia). assert (ni' = ni) by (rewrite E7 in E4'; injection E4'; lia). subst nu' ni'.
    rewrite !W, (proj2 (proj2 (C114_same_init nu ni k [] [] Hnu Hni))). reflexivity.
Qed.

(** ** one user or one item *)

Lemma hits : forall (h : scored -> nat) (E : list scored), E <> [] -> (forall e, In e E -> (h e < 1)%nat) ->
  exists z l, positions (map (fun e => Z.of_nat (h e)) E) 0 = z :: l.
Proof.
  intros h E Hne H. pose proof (positions_len _ h E 0) as L. destruct (positions _ 0) as [|z l]; [|eauto]. exfalso.
  destruct E as [|e E]; [congruence|]. cbn [filter] in L. specialize (H e (or_introl eq_refl)). destruct (Nat.eqb_spec (h e) 0); [discriminate|lia].
Qed.

Lemma fill_bu_number : forall m (E : list scored), E <> [] -> (forall e, In e E -> (user e < 1)%nat) ->
  fill_bu m (map (fun e => Z.of_nat (user e)) E) (map snd E) 1 = Raise TypeError.
Proof.
  intros m E Hne H. unfold fill_bu. cbn [seq foldM]. destruct (hits user E Hne H) as [z [l P]].
  pose proof (positions_take _ _ user snd E 0) as T. rewrite P in *. rewrite T. reflexivity.
Qed.
Lemma fill_bi_number : forall m b (E : list scored) nu, E <> [] -> length b = nu -> (forall e, In e E -> (user e < nu)%nat) -> (forall e, In e E -> (item e < 1)%nat) ->
  fill_bi m (Array b) (map (fun e => Z.of_nat (user e)) E) (map (fun e => Z.of_nat (item e)) E) (map snd E) 1 = Raise TypeError.
Proof.
  intros m b E nu Hne Hb Hu Hi. unfold fill_bi. cbn [seq foldM items]. destruct (hits item E Hne Hi) as [z [l P]].
  pose proof (positions_take _ _ item snd E 0) as T. pose proof (positions_take _ _ item (fun e => Z.of_nat (user e)) E 0) as T'. rewrite P in *. rewrite T, T'. cbn [bind].
  rewrite <- (map_map user Z.of_nat). rewrite (take_at b nu); [reflexivity|exact Hb|].
  apply Forall_forall. intros x Hx. apply in_map_iff in Hx. destruct Hx as [e [<- He]]. apply filter_In in He. apply Hu, He.
Qed.

Lemma init_number : forall nu ni k (E : list scored), in_range nu ni (map fst E) -> E <> [] -> nu = 1%nat \/ ni = 1%nat ->
  (forall draw1 draw2, pmf_init1 nu ni k (ev_of (map fst E)) (map snd E) draw1 draw2 = Raise TypeError) /\
  (forall draw1 draw2, lpmf_init1 nu ni k (ev_of (map fst E)) (map snd E) draw1 draw2 = Raise TypeError).
Proof.
  intros nu ni k E Hr Hne Hone. unfold in_range in Hr. rewrite Forall_map, Forall_forall in Hr.
  assert (Eu : map fst (zp (map fst E)) = map (fun e => Z.of_nat (user e)) E) by (unfold zp; rewrite !map_map; reflexivity).
  assert (Ei : map snd (zp (map fst E)) = map (fun e => Z.of_nat (item e)) E) by (unfold zp; rewrite !map_map; reflexivity).
  assert (L : Nat.eqb (length (zp (map fst E))) 0 = false) by (unfold zp; rewrite !map_length; destruct E; [congruence|reflexivity]).
  assert (K : forall m, exists b, fill_bu m (map (fun e => Z.of_nat (user e)) E) (map snd E) nu = Raise TypeError \/
    fill_bu m (map (fun e => Z.of_nat (user e)) E) (map snd E) nu = Ok (Array b) /\
    fill_bi m (Array b) (map (fun e => Z.of_nat (user e)) E) (map (fun e => Z.of_nat (item e)) E) (map snd E) ni = Raise TypeError).
  { intros m. destruct (Nat.eq_dec nu 1) as [->|Hn].
    - exists []. left. apply fill_bu_number; auto. intros e He. apply (Hr e He).
    - destruct Hone as [Hone|Hone]; [congruence|]. subst ni. rewrite fill_bu_same by exact Hn. rewrite init_bu_ok. cbn [bind]. eexists. right. split; [reflexivity|].
      apply (fill_bi_number _ _ _ nu); auto; [rewrite map_length, seq_length; reflexivity| |]; intros e He; apply (Hr e He). }
  split; intros draw1 draw2; unfold pmf_init1, lpmf_init1; rewrite pairs_ok; cbn [bind]; rewrite L, Eu, Ei; cbn zeta;
    destruct (K (rsum (map snd E) / INR (length (zp (map fst E))))) as [b [K1|[K1 K2]]]; rewrite K1; cbn [bind]; rewrite ?K2; reflexivity.
Qed.

Lemma imp_number : forall nu ni k m draw1 draw2, shaped nu ni m -> (0 < nu)%nat -> (0 < ni)%nat -> nu = 1%nat \/ ni = 1%nat ->
  imp_init1 nu ni k m draw1 draw2 = Raise TypeError.
Proof.
  intros nu ni k m draw1 draw2 [Hm1 Hm2] Hu Hi Hone. unfold imp_init1. destruct (Nat.eqb_spec (nu * ni) 0); [nia|].
  destruct (Nat.eq_dec nu 1) as [->|Hn]; [reflexivity|]. destruct Hone as [Hc| ->]; [congruence|].
  rewrite (zero_array nu) by exact Hn. cbn [set_all]. rewrite repeat_length, assign_eq by (rewrite map_length; exact Hm1). cbn [bind].
  rewrite (mapM_total _ _ _ (fun j => rsum (map (fun row => nth j row 0) m) / INR nu)); [reflexivity|].
  intros j Hj. apply in_seq in Hj. unfold column. rewrite (mapM_total _ _ _ (fun row => nth j row 0)); [reflexivity|].
  intros row Hrow. rewrite Forall_forall in Hm2. apply np_get_nth. rewrite (Hm2 row Hrow). lia.
Qed.

(** fit of all three models fails on data with a single user or a single
    item, whatever the optimiser and the random numbers *)
Theorem C114_single : forall F G C k min junk (r : rec G par) (s : sdata F G) ix sc,
  user_item (s_data s) ix -> score s = Some sc -> length sc = n_events (s_data s) -> sc <> [] ->
  nth_error (o_n (d_objs (s_data s))) 0 = Some 1%Z \/ nth_error (o_n (d_objs (s_data s))) 1 = Some 1%Z ->
  (forall draw1 draw2, snd (pmf_fit1 C k draw1 draw2 min junk r s ix) = Some TypeError) /\
  (binary_scored s -> forall draw1 draw2, snd (lpmf_fit1 C k draw1 draw2 min junk r s ix) = Some TypeError) /\
  (forall draw1 draw2, snd (imp_fit1 C k draw1 draw2 min junk r (s_data s) ix) = Some TypeError).
Proof.
  intros F G C k min junk r s ix sc Hui Hs Hl Hne Hone.
  destruct (training_view F G par r (s_data s) ix Hui) as [r1 [uis [nu [ni [o [B [E1 [E2 [E3 [E4 [E5 [E6 [E7 E8]]]]]]]]]]]]].
  rewrite E8 in Hl. destruct (scored_view F G s uis sc E1 Hl) as [V1 V2].
  assert (One : nu = 1%nat \/ ni = 1%nat) by (destruct Hone as [H|H]; [left; rewrite E6 in H|right; rewrite E7 in H]; injection H; lia).
  assert (Hu : uis <> []) by (intros ->; destruct sc; [congruence|discriminate]).
  destruct (init_number nu ni k (combine uis (map Q2R sc))) as [N1 N2]; auto.
  { rewrite V1; auto. }
  { destruct uis, sc; cbn in *; try congruence; discriminate. }
  rewrite V1, V2 in N1, N2. split; [|split].
  - intros draw1 draw2. unfold pmf_fit1, model_fit, score_fit. rewrite B. unfold pmf_train1. cbn [set_score_info r_event r_objs r_score].
    rewrite E2, E3, E4, Hs, !Nat2Z.id. unfold optimise. rewrite N1. reflexivity.
  - intros Hb draw1 draw2. unfold lpmf_fit1, model_fit, explicit_fit. rewrite B. rewrite (proj2 (binary_check_iff _ _ s) Hb).
    unfold lpmf_train1. cbn [set_score_info r_event r_objs r_score]. rewrite E2, E3, E4, Hs, !Nat2Z.id. unfold optimise. rewrite N2. reflexivity.
  - intros draw1 draw2. destruct (event_array_ok F G par r (s_data s) ix Hui) as [r1' [uis' [nu' [ni' [m [B' [_ [_ [E3' [E4' [E5' C6]]]]]]]]]]].
    unfold imp_fit1, model_fit. rewrite B'. unfold imp_train1. rewrite E5', !Nat2Z.id.
    assert (nu' = nu) by (rewrite E6 in E3'; injection E3'; lia). assert (ni' = ni) by (rewrite E7 in E4'; injection E4'; lia). subst nu' ni'.
    destruct (coo_times _ _ _ _ C6) as [L1 [L2 _]]. unfold optimise. rewrite imp_number; [reflexivity| | | |exact One].
    + split; [rewrite map_length; auto|]. apply Forall_forall. intros row Hr. apply in_map_iff in Hr. destruct Hr as [row' [<- Hr]].
      rewrite map_length. rewrite Forall_forall in L2. auto.
    + destruct uis as [|[u i] uis]; [congruence|]. unfold in_range in E5. inversion E5 as [|? ? [H1 H2] _]. cbn [fst snd] in *. lia.
    + destruct uis as [|[u i] uis]; [congruence|]. unfold in_range in E5. inversion E5 as [|? ? [H1 H2] _]. cbn [fst snd] in *. lia.
Qed.

(** otherwise it succeeds, as in C25 *)
Theorem C114_fit_succeeds_partial : forall F G C k min junk (r : rec G par) (s : sdata F G) ix sc nu ni,
  user_item (s_data s) ix -> score s = Some sc -> length sc = n_events (s_data s) -> sc <> [] -> 0 <= C -> length_preserving min ->
  nth_error (o_n (d_objs (s_data s))) 0 = Some nu -> nth_error (o_n (d_objs (s_data s))) 1 = Some ni -> nu <> 1%Z -> ni <> 1%Z ->
  (forall draw1 draw2, (forall sd, draws_ok k (draw1 sd)) -> (forall sd, draws_ok k (draw2 sd)) -> exists r', pmf_fit1 C k draw1 draw2 min junk r s ix = (r', None)) /\
  (binary_scored s -> forall draw1 draw2, draws_ok k draw1 -> draws_ok k draw2 -> exists r', lpmf_fit1 C k draw1 draw2 min junk r s ix = (r', None)) /\
  (forall draw1 draw2, nu = Z.of_nat (length draw1) -> Forall (fun r => length r = k) draw1 -> ni = Z.of_nat (length draw2) -> Forall (fun r => length r = k) draw2 ->
    exists r', imp_fit1 C k draw1 draw2 min junk r (s_data s) ix = (r', None)).
Proof.
  intros F G C k min junk r s ix sc nu ni Hui Hs Hl Hne HC Hmin Nu Ni Hu Hi.
  destruct (C114_same_fit F G C k min junk r s ix nu ni Hui Nu Ni Hu Hi) as [S1 [S2 S3]]. split; [|split].
  - intros. rewrite S1. eapply C25_pmf_fit_succeeds; eauto.
  - intros. rewrite S2. eapply C25_logistic_fit_succeeds; eauto.
  - intros draw1 draw2 -> F1 -> F2. rewrite S3. apply C25_implicit_fit_succeeds; auto. rewrite <- Hl. destruct sc; [congruence|discriminate].
Qed.

(** one user who has given the scores 1 and 0 to two items *)
Definition one_user : sdata nat nat :=
  mkSData (build 2 OTNone 2 [[IdInt 5; IdInt 1]; [IdInt 5; IdInt 2]]) (Some binary_dom) (Some [1; 0]%Q) (Some 2%Z).

Theorem C114_refuted : exists (s : sdata nat nat) sc, user_item (s_data s) None /\ binary_scored s /\
  score s = Some sc /\ length sc = n_events (s_data s) /\ sc <> [] /\
  forall C k draw1 draw2 draw1' draw2' d1 d2 min junk (r : rec nat par),
    snd (pmf_fit1 C k draw1 draw2 min junk r s None) = Some TypeError /\
    snd (lpmf_fit1 C k draw1' draw2' min junk r s None) = Some TypeError /\
    snd (imp_fit1 C k d1 d2 min junk r (s_data s) None) = Some TypeError.
Proof.
  assert (U1 : user_item (s_data one_user) None).
  { repeat split; auto; [eapply build_reachable; [reflexivity|repeat constructor]|discriminate]. }
  assert (U2 : binary_scored one_user) by (apply binary_check_iff; reflexivity).
  exists one_user, [1; 0]%Q. do 4 (split; [assumption || reflexivity|]). split; [discriminate|].
  intros. destruct (C114_single nat nat C k min junk r one_user None [1; 0]%Q) as [H1 [H2 H3]]; auto; discriminate.
Qed.

Example C114_nonvacuous : user_item (s_data bx) None /\ binary_scored bx /\ length_preserving (fun _ _ x => Ok x) /\
  nth_error (o_n (d_objs (s_data bx))) 0 = Some 3%Z /\ nth_error (o_n (d_objs (s_data bx))) 1 = Some 2%Z /\ score bx = Some [1; 0; 0; 1]%Q.
Proof.
  split; [repeat split; auto; [apply rx_reachable|discriminate]|]. split; [apply binary_check_iff; reflexivity|]. split; [intros l g x; eauto|].
  split; [reflexivity|]. split; reflexivity.
Qed.
Print Assumptions C114_same_init.
Print Assumptions C114_same_fit.
Print Assumptions C114_single.
Print Assumptions C114_fit_succeeds_partial.
Print Assumptions C114_refuted.
