(** * Arrays that a caller passes and writes later (C131) *)
From Coq Require Import List ZArith QArith Lia Bool.
From Verif Require Import M_Py P_Py P_Filter M_Data M_Score M_Heap T_Heap M_Alias.
Import ListNotations.
Open Scope nat_scope.

Section TAlias.
  Context {F G : Type}.
  Notation world := (world F G).
  Notation op := (op F G).
  Notation aop := (aop F G).

  (** ** Specification: the same program with arguments passed by value *)
  Fixpoint by_value (arrs : list carr) (os : list aop) : option (list op) :=
    match os with
    | [] => Some []
    | ACall o :: os' => match by_value arrs os' with Some vs => Some (o :: vs) | None => None end
    | AArr c :: os' => by_value (arrs ++ [c]) os'
    | ASetEvent i ev sc r ef :: os' =>
        match nth_error arrs r, by_value arrs os' with
        | Some (CDom d), Some vs => Some (OSetEvent i ev sc (Some d) ef :: vs)
        | _, _ => None
        end
    | AFit i r :: os' =>
        match nth_error arrs r, by_value arrs os' with
        | Some (CIdx l), Some vs => Some (OFit i (Some l) :: vs)
        | _, _ => None
        end
    | APutDom r k v :: os' =>
        match nth_error arrs r with Some (CDom d) => by_value (set_nth arrs r (CDom (put_dom d k v))) os' | _ => None end
    | APutIdx r k v :: os' =>
        match nth_error arrs r with
        | Some (CIdx l) => by_value (if k <? length l then set_nth arrs r (CIdx (set_nth l k v)) else arrs) os'
        | _ => None
        end
    end.

  (** no array is written after it was passed *)
  Fixpoint untouched (passed : list nat) (os : list aop) : Prop :=
    match os with
    | [] => True
    | ASetEvent _ _ _ r _ :: os' | AFit _ r :: os' => untouched (r :: passed) os'
    | APutDom r _ _ :: os' | APutIdx r _ _ :: os' => ~ In r passed /\ untouched passed os'
    | _ :: os' => untouched passed os'
    end.

  (** ** Numbers of containers and recommenders *)
  Lemma set_nth_len : forall A (l : list A) i x, length (set_nth l i x) = length l.
  Proof. intros A l. induction l; intros [|i] x; cbn; auto. Qed.

  Definition same_length (a : aworld F G) : Prop :=
    length (a_dref a) = length (w_data (a_w a)) /\ length (a_iref a) = length (w_rec (a_w a)).

  Lemma step_lengths : forall (w : world) o ref dref iref w' x, step w o = Some (w', x) ->
    length dref = length (w_data w) -> length iref = length (w_rec w) ->
    length (new_dref w dref o ref w' x) = length (w_data w') /\ length (new_iref iref o ref x) = length (w_rec w').
  Proof.
    intros w o ref dref iref w' x E D I. destruct o as [n a|i ev sc sd ef|i t ids f|i th|i c|i ix]; cbn [step new_dref new_iref] in *.
    - destruct (h_new n a (w_heap w)) as [[h [p|e]]|]; inversion E; subst; cbn [w_data w_rec]; rewrite ?app_length; cbn; lia.
    - destruct (nth_error (w_data w) i); [|discriminate]. destruct (h_set_event _ _ _ _ _ _) as [[h [p' y]]|]; inversion E; subst.
      cbn [w_data w_rec]. destruct (rebinds _ _ _ _ _ _); rewrite ?set_nth_len; auto.
    - destruct (nth_error (w_data w) i); [|discriminate]. destruct (h_set_feature _ _ _ _ _) as [[h [p'|y]]|]; inversion E; subst; auto.
    - destruct (nth_error (w_data w) i); [|discriminate]. destruct (h_binarize _ _); inversion E; subst; cbn [w_data w_rec]; rewrite ?set_nth_len; auto.
    - destruct (nth_error (w_data w) i); [|discriminate].
      destruct (h_filter _ _ _) as [[h [[p'|]|y]]|]; inversion E; subst; cbn [w_data w_rec]; rewrite ?app_length; cbn [length].
      + destruct (Nat.eqb_spec (length (w_data w) + 1) (length (w_data w))); [lia|]. rewrite app_length. cbn. lia.
      + rewrite Nat.eqb_refl. auto.
      + rewrite Nat.eqb_refl. auto.
    - destruct (nth_error (w_data w) i); [|discriminate]. destruct (h_fit _ _ _) as [[h [q|y]]|]; inversion E; subst; cbn [w_data w_rec]; rewrite ?app_length; cbn; lia.
  Qed.

  Lemma call_same_length : forall a o ref a' x, call a o ref = Some (a', x) -> same_length a -> same_length a'.
  Proof.
    intros a o ref a' x E [D I]. unfold call in E. destruct (step (a_w a) o) as [[w' y]|] eqn:S; inversion E; subst.
    unfold same_length. cbn [a_w a_dref a_iref]. eapply step_lengths; eauto.
  Qed.

  Lemma zip_length : forall A B (f : A -> option nat -> B) l refs, length refs = length l -> length (zip_with f l refs) = length l.
  Proof. intros. unfold zip_with. rewrite map_length, combine_length. lia. Qed.

  Lemma astep_same_length : forall a o a' x, astep a o = Some (a', x) -> same_length a -> same_length a'.
  Proof.
    intros a o a' x E H. destruct o as [o|c|i ev sc r ef|i r|r k v|r k v]; cbn [astep] in E.
    - eapply call_same_length; eauto.
    - inversion E; subst. exact H.
    - destruct (nth_error (a_arr a) r) as [[d|l]|]; try discriminate. eapply call_same_length; eauto.
    - destruct (nth_error (a_arr a) r) as [[d|l]|]; try discriminate. eapply call_same_length; eauto.
    - destruct (nth_error (a_arr a) r) as [[d|l]|]; try discriminate. inversion E; subst. destruct H as [D I].
      unfold same_length. cbn [a_w a_dref a_iref w_data w_rec]. rewrite zip_length; auto.
    - destruct (nth_error (a_arr a) r) as [[d|l]|]; try discriminate. destruct (k <? length l); inversion E; subst; auto.
      destruct H as [D I]. unfold same_length. cbn [a_w a_dref a_iref w_data w_rec]. rewrite zip_length; auto.
  Qed.

  (** ** Programs that do not write into arrays they passed *)
  Definition refs_in (passed : list nat) (l : list (option nat)) : Prop :=
    Forall (fun x => match x with Some r => In r passed | None => True end) l.

  Lemma refs_weaken : forall p q l, (forall r, In r p -> In r q) -> refs_in p l -> refs_in q l.
  Proof. intros p q l H. apply Forall_impl. intros [r|]; auto. Qed.

  Lemma set_nth_forall : forall A (P : A -> Prop) l i x, Forall P l -> P x -> Forall P (set_nth l i x).
  Proof. intros A P l. induction l; intros [|i] x H Hx; cbn; auto; inversion H; subst; constructor; auto. Qed.

  Lemma new_refs_in : forall passed (w : world) dref iref (o : op) ref w' x, refs_in passed dref -> refs_in passed iref ->
    match ref with Some r => In r passed | None => True end ->
    refs_in passed (new_dref w dref o ref w' x) /\ refs_in passed (new_iref iref o ref x).
  Proof.
    intros passed w dref iref o ref w' x D I R. unfold refs_in in *.
    assert (N : forall i, match nth i dref None with Some r => In r passed | None => True end).
    { intros i. destruct (Nat.lt_ge_cases i (length dref)) as [H|H].
      - rewrite Forall_forall in D. apply D, nth_In, H.
      - rewrite nth_overflow by auto. exact Logic.I. }
    split.
    - destruct o; cbn [new_dref]; auto.
      + destruct x; auto. apply Forall_app. split; [auto|repeat constructor].
      + destruct (rebinds _ _ _ _ _ _); auto. apply set_nth_forall; auto.
      + destruct x; auto. apply set_nth_forall; auto.
      + destruct (Nat.eqb _ _); auto. apply Forall_app. split; [auto|constructor; [apply N|constructor]].
    - destruct o; cbn [new_iref]; auto. destruct x; auto. apply Forall_app. split; [auto|constructor; [exact R|constructor]].
  Qed.

  Lemma zip_same : forall A (f : A -> option nat -> A) passed r l refs, length refs = length l -> refs_in passed refs -> ~ In r passed ->
    (forall x y, (forall r', y = Some r' -> r' <> r) -> f x y = x) -> zip_with f l refs = l.
  Proof.
    intros A f passed r l refs L H N Hf. unfold zip_with. revert refs L H. induction l as [|x l IH]; intros [|y refs] L H; try discriminate; [reflexivity|].
    inversion H; subst. cbn. f_equal; [|apply IH; auto]. apply Hf. intros r' -> ->. auto.
  Qed.

  Lemma by_value_run : forall os a passed a', same_length a -> refs_in passed (a_dref a) -> refs_in passed (a_iref a) ->
    untouched passed os -> arun a os = Some a' -> exists vs, by_value (a_arr a) os = Some vs /\ run (a_w a) vs = Some (a_w a').
  Proof.
    induction os as [|o os IH]; intros a passed a' SL D I U E.
    { inversion E; subst. exists []. auto. }
    cbn [arun] in E. destruct (astep a o) as [[a1 x]|] eqn:S; [|discriminate].
    pose proof (astep_same_length _ _ _ _ S SL) as SL1.
    assert (C : forall o ref passed', call a o ref = Some (a1, x) -> (forall r, In r passed -> In r passed') ->
      match ref with Some r => In r passed' | None => True end -> untouched passed' os ->
      exists vs, by_value (a_arr a) os = Some vs /\ run (a_w a) (o :: vs) = Some (a_w a')).
    { intros o' ref passed' Ec Hp Hr Hu. unfold call in Ec. destruct (step (a_w a) o') as [[w' y]|] eqn:St; [|discriminate].
      inversion Ec; subst. clear Ec.
      destruct (new_refs_in passed' (a_w a) (a_dref a) (a_iref a) o' ref w' x) as [D' I']; eauto using refs_weaken.
      destruct (IH _ passed' a' SL1 D' I' Hu E) as [vs [B R]]. cbn [a_arr a_w] in B, R. exists vs. split; auto. cbn [run]. rewrite St. auto. }
    destruct o as [o|c|i ev sc r ef|i r|r k v|r k v]; cbn [astep untouched by_value] in *.
    - destruct (C o None passed) as [vs [B R]]; auto. rewrite B. eauto.
    - inversion S; subst. apply (IH _ passed a' SL1) in E; auto.
    - destruct (nth_error (a_arr a) r) as [[d|l]|]; try discriminate.
      destruct (C _ (Some r) (r :: passed) S) as [vs [B R]]; auto; [intros; right; auto|left; auto|]. rewrite B. eauto.
    - destruct (nth_error (a_arr a) r) as [[d|l]|]; try discriminate.
      destruct (C _ (Some r) (r :: passed) S) as [vs [B R]]; auto; [intros; right; auto|left; auto|]. rewrite B. eauto.
    - destruct U as [N U]. destruct (nth_error (a_arr a) r) as [[d|l]|]; try discriminate. inversion S; subst.
      destruct (IH _ passed a' SL1 D I U E) as [vs [B R]]. cbn [a_arr a_w] in *. exists vs. split; auto.
      rewrite (zip_same _ _ passed r) in R; auto; try apply SL. 1:{ destruct (a_w a); exact R. }
      intros p [r'|] Hr; [|reflexivity]. cbn. destruct (Nat.eqb_spec r r'); auto. subst. exfalso. apply (Hr r'); auto.
    - destruct U as [N U]. destruct (nth_error (a_arr a) r) as [[d|l]|]; try discriminate. destruct (k <? length l); inversion S; subst.
      + destruct (IH _ passed a' SL1 D I U E) as [vs [B R]]. cbn [a_arr a_w] in *. exists vs. split; auto.
        rewrite (zip_same _ _ passed r) in R; auto; try apply SL. 1:{ destruct (a_w a); exact R. }
        intros p [r'|] Hr; [|reflexivity]. cbn. destruct (Nat.eqb_spec r r'); auto. subst. exfalso. apply (Hr r'); auto.
      + apply (IH _ passed a' SL1); auto.
  Qed.

  (** a caller who never writes into an array after passing it cannot tell
      that it is kept: the objects are those of the program that passes values *)
  Theorem C131_by_value_partial : forall os a, untouched [] os -> arun a_init os = Some a ->
    exists vs, by_value [] os = Some vs /\ run init_world vs = Some (a_w a).
  Proof.
    intros os a U E. apply (by_value_run os a_init [] a); auto.
    - split; reflexivity.
    - constructor.
    - constructor.
  Qed.

  (** ** What no write of a caller can change *)
  (** the same container but for score_domain, the values of the scores and
      n_score_levels *)
  Definition like (p p' : pobj G) : Prop :=
    p_notypes p' = p_notypes p /\ p_n p' = p_n p /\ p_eid p' = p_eid p /\ p_iid p' = p_iid p /\ p_feat p' = p_feat p /\
    p_ot p' = p_ot p /\ p_nev p' = p_nev p /\ p_event p' = p_event p /\ p_ef p' = p_ef p /\
    (p_dom p = None <-> p_dom p' = None) /\ option_map (@length Q) (p_score p') = option_map (@length Q) (p_score p).
  (** the same recommender but for event_index *)
  Definition rlike (q q' : prec) : Prop :=
    q_notypes q' = q_notypes q /\ q_n q' = q_n q /\ q_eid q' = q_eid q /\ q_iid q' = q_iid q /\ q_ot q' = q_ot q /\ q_event q' = q_event q.
  Definition wlike (w w' : world) : Prop :=
    w_heap w' = w_heap w /\ Forall2 like (w_data w) (w_data w') /\ Forall2 rlike (w_rec w) (w_rec w').

  Lemma like_refl : forall p, like p p.
  Proof. intros. unfold like. tauto. Qed.
  Lemma rlike_refl : forall p, rlike p p.
  Proof. intros. unfold rlike. tauto. Qed.

  Definition hrel {A} (R : A -> A -> Prop) (m m' : HM (F := F) A) : Prop := forall h,
    match m h, m' h with
    | None, None => True
    | Some (h1, Ok x), Some (h2, Ok y) => h2 = h1 /\ R x y
    | Some (h1, Raise e), Some (h2, Raise e') => h2 = h1 /\ e' = e
    | _, _ => False
    end.
  Lemma hrel_bind : forall A B (R : A -> A -> Prop) (T : B -> B -> Prop) m m' f f', hrel R m m' ->
    (forall x y, R x y -> hrel T (f x) (f' y)) -> hrel T (hbind m f) (hbind m' f').
  Proof.
    intros A B R T m m' f f' H Hf h. unfold hbind. specialize (H h).
    destruct (m h) as [[h1 [x|e]]|], (m' h) as [[h2 [y|e']]|]; try contradiction; auto.
    destruct H as [-> H]. apply (Hf x y H).
  Qed.
  Lemma hrel_eq : forall A (R : A -> A -> Prop) m m', (forall x, R x x) -> m = m' -> hrel R m m'.
  Proof. intros A R m m' HR -> h. destruct (m' h) as [[h1 [x|e]]|]; auto. Qed.
  Lemma hrel_same : forall A B (T : B -> B -> Prop) (m : HM A) f f', (forall x, hrel T (f x) (f' x)) -> hrel T (hbind m f) (hbind m f').
  Proof. intros. apply hrel_bind with (R := eq); [apply hrel_eq; auto|intros x y ->; auto]. Qed.

  Lemma tables_like : forall (p p' : pobj G) ts c rows, like p p' -> h_tables (F := F) p' ts c rows = h_tables p ts c rows.
  Proof.
    intros p p' ts c rows [E1 [E2 [E3 [E4 [E5 [E6 _]]]]]]. induction ts as [|t ts IH]; [reflexivity|].
    cbn [h_tables]. rewrite E2, E3, E4, E6, IH. reflexivity.
  Qed.
  Lemma columns_like : forall (p p' : pobj G) rv es rows, p_ot p' = p_ot p -> p_iid p' = p_iid p ->
    h_columns (F := F) p' rv es rows = h_columns p rv es rows.
  Proof.
    intros p p' rv es rows E6 E4. induction es as [|e es IH]; [reflexivity|].
    cbn [h_columns]. rewrite IH. unfold h_column. rewrite E4, E6. reflexivity.
  Qed.

  Lemma set_event_base_like : forall (p p' : pobj G) ev ef (h : heap), like p p' ->
    match h_set_event_base (F := F) p ev ef h, h_set_event_base p' ev ef h with
    | None, None => True
    | Some (h1, (p1, x)), Some (h2, (p2, y)) => h2 = h1 /\ y = x /\ like p1 p2
    | _, _ => False
    end.
  Proof.
    intros p p' ev ef h L. unfold h_set_event_base. destruct ev as [|c rows|]; auto.
    rewrite (tables_like p p') by auto. pose proof L as [E1 [E2 [E3 [E4 [E5 [E6 [E7 [E8 [E9 [E10 E11]]]]]]]]]]. rewrite E1, E6.
    destruct (h_tables _ _ _ _ _) as [[h1 [[]|e]]|]; auto.
    match goal with |- context [h_columns ?a ?b ?c ?d ?e] => match goal with |- context [h_columns ?a' b c d e] => assert_fails (constr_eq a a'); rewrite (columns_like a a') by (cbn; auto) end end.
    destruct (h_columns _ _ _ _ _) as [[h2 [[]|e]]|]; auto; do 2 (split; [reflexivity|]); unfold like; cbn; tauto.
  Qed.

  Lemma select_length : forall A B (l : list A) (l' : list B) c, length l' = length l ->
    match np_select l c, np_select l' c with
    | Ok a, Ok b => length b = length a
    | Raise e, Raise e' => e' = e
    | _, _ => False
    end.
  Proof.
    intros A B l l' c H.
    assert (E : map (fun _ => tt) l = map (fun _ => tt) l').
    { revert l' H. induction l as [|x l IH]; intros [|y l'] H; try discriminate; [reflexivity|]. cbn. f_equal. apply IH. auto. }
    pose proof (np_select_map _ _ (fun _ => tt) l c) as E1. pose proof (np_select_map _ _ (fun _ => tt) l' c) as E2.
    rewrite E, E2 in E1. destruct (np_select l c), (np_select l' c); cbn in E1; inversion E1; auto.
    apply (f_equal (@length _)) in H1. rewrite !map_length in H1. auto.
  Qed.

  Definition olike (a b : option (pobj G)) : Prop :=
    match a, b with Some p, Some q => like p q | None, None => True | _, _ => False end.

  Lemma filter_loop_like : forall (p p' d d' : pobj G) rv ts, like p p' -> like d d' ->
    h_filter_loop (F := F) p' d' rv ts = h_filter_loop p d rv ts.
  Proof.
    intros p p' d d' rv ts [E1 [E2 [E3 [E4 [E5 [E6 _]]]]]] [D1 [D2 [D3 [D4 [D5 [D6 _]]]]]].
    induction ts as [|t ts IH]; [reflexivity|]. cbn [h_filter_loop]. rewrite IH. unfold h_filter_type.
    rewrite E3, E5, E6, D2, D3, D4, D5, D6. reflexivity.
  Qed.

  Lemma filter_like : forall (p p' : pobj G) c, like p p' -> hrel olike (h_filter (F := F) p c) (h_filter p' c).
  Proof.
    intros p p' c L. pose proof L as [E1 [E2 [E3 [E4 [E5 [E6 [E7 [E8 [E9 [E10 E11]]]]]]]]]].
    unfold h_filter. rewrite E8. destruct (p_event p) as [rev|]; [|intros h; cbn; auto].
    rewrite E1, E2, E3, E4, E5, E6, E9.
    do 11 (apply hrel_same; intros ?).
    match goal with |- hrel _ (hbind (h_filter_loop p ?d ?r ?t) _) (hbind (h_filter_loop p' ?d' _ _) _) =>
      assert (Ld : like d d') by (unfold like; cbn; tauto); rewrite (filter_loop_like p p' d d' r t L Ld) end.
    do 2 (apply hrel_same; intros ?).
    apply hrel_bind with (R := fun a b => option_map (@length Q) b = option_map (@length Q) a).
    - intros h. unfold hlift. destruct (p_score p) as [sc|], (p_score p') as [sc'|]; cbn in E11; try discriminate; auto.
      inversion E11 as [H]. pose proof (select_length _ _ sc sc' c H) as SL.
      destruct (np_select sc c), (np_select sc' c); try contradiction; cbn [bind]; auto. cbn. rewrite SL. auto.
    - intros sc sc' H h. cbn. split; auto. unfold like. cbn. tauto.
  Qed.

  Lemma fit_like : forall (p p' : pobj G) ix ix', like p p' -> ix' = ix -> hrel rlike (h_fit (F := F) p ix) (h_fit p' ix').
  Proof.
    intros p p' ix ix' [E1 [E2 [E3 [E4 [E5 [E6 [E7 [E8 _]]]]]]]] ->. unfold h_fit. rewrite E8, E1, E2, E3, E4, E6.
    apply hrel_eq; auto using rlike_refl.
  Qed.

  Lemma F2_nth : forall A B (R : A -> B -> Prop) l l' i, Forall2 R l l' ->
    match nth_error l i, nth_error l' i with Some x, Some y => R x y | None, None => True | _, _ => False end.
  Proof. intros A B R l l' i H. revert i. induction H; intros [|i]; cbn; auto. apply IHForall2. Qed.
  Lemma F2_set : forall A B (R : A -> B -> Prop) l l' i x y, Forall2 R l l' -> R x y -> Forall2 R (set_nth l i x) (set_nth l' i y).
  Proof. intros A B R l l' i x y H. revert i. induction H; intros [|i] HR; cbn; auto. Qed.
  Lemma F2_last : forall A B (R : A -> B -> Prop) l l' x y, Forall2 R l l' -> R x y -> Forall2 R (l ++ [x]) (l' ++ [y]).
  Proof. intros. apply Forall2_app; auto. Qed.

  Lemma step_like : forall (w w' : world) o, wlike w w' ->
    match step w o, step w' o with
    | None, None => True
    | Some (w1, x), Some (w2, y) => y = x /\ wlike w1 w2
    | _, _ => False
    end.
  Proof.
    intros w w' o [Hh [Hd Hr]]. destruct o as [n a|i ev sc sd ef|i t ids f|i th|i c|i ix]; cbn [step]; rewrite Hh.
    - destruct (h_new n a (w_heap w)) as [[h [p|e]]|]; auto; split; auto; split; cbn; auto.
      split; auto. apply F2_last; auto using like_refl.
    - pose proof (F2_nth _ _ _ _ _ i Hd) as N. destruct (nth_error (w_data w) i) as [p|], (nth_error (w_data w') i) as [p'|]; try contradiction; auto.
      pose proof (set_event_base_like p p' ev ef (w_heap w) N) as B. unfold h_set_event.
      destruct (h_set_event_base p ev ef (w_heap w)) as [[h1 [p1 x]]|], (h_set_event_base p' ev ef (w_heap w)) as [[h2 [p2 y]]|]; try contradiction; auto.
      destruct B as [-> [-> L]]. destruct x as [x|].
      + split; auto. split; cbn; auto. split; auto using F2_set.
      + assert (K : forall dm dm' l n n', (dm = None <-> dm' = None) -> like (p_set_scores p1 dm l n) (p_set_scores p2 dm' l n')).
        { intros. unfold like in *. cbn. tauto. }
        destruct (match sd with Some d => Ok d | None => infer_domain sc end) as [dm|e].
        * destruct (n_levels_of dm) as [n|e]; (split; auto; split; cbn; auto; split; auto; apply F2_set; auto; apply K; split; discriminate).
        * split; auto; split; cbn; auto; split; auto; apply F2_set; auto; apply K. unfold like in L. tauto.
    - pose proof (F2_nth _ _ _ _ _ i Hd) as N. destruct (nth_error (w_data w) i) as [p|], (nth_error (w_data w') i) as [p'|]; try contradiction; auto.
      destruct N as [E1 [E2 [E3 [E4 [E5 _]]]]]. unfold h_set_feature. rewrite E4, E5.
      match goal with |- context [hbind ?m ?f (w_heap w)] => destruct (hbind m f (w_heap w)) as [[h [u|e]]|] end; auto; split; auto; split; cbn; auto.
    - pose proof (F2_nth _ _ _ _ _ i Hd) as N. destruct (nth_error (w_data w) i) as [p|], (nth_error (w_data w') i) as [p'|]; try contradiction; auto.
      pose proof N as [E1 [E2 [E3 [E4 [E5 [E6 [E7 [E8 [E9 [E10 E11]]]]]]]]]].
      assert (Same : wlike w w') by (split; auto).
      unfold h_binarize. destruct th as [t|]; [|destruct (p_dom p) as [d|] eqn:D1, (p_dom p') as [d'|] eqn:D2].
      + cbn [bind]. destruct (p_score p) as [s|], (p_score p') as [s'|]; cbn in E11; try discriminate; auto.
        inversion E11. split; auto. split; cbn; auto. split; auto. apply F2_set; auto. unfold like. cbn. unfold binarize. rewrite !map_length.
        repeat split; congruence.
      + cbn [bind]. destruct (p_score p) as [s|], (p_score p') as [s'|]; cbn in E11; try discriminate; auto.
        inversion E11. split; auto. split; cbn; auto. split; auto. apply F2_set; auto. unfold like. cbn. unfold binarize. rewrite !map_length.
        repeat split; congruence.
      + destruct E10 as [_ E10]. discriminate (E10 eq_refl).
      + destruct E10 as [E10 _]. discriminate (E10 eq_refl).
      + cbn [bind]. auto.
    - pose proof (F2_nth _ _ _ _ _ i Hd) as N. destruct (nth_error (w_data w) i) as [p|], (nth_error (w_data w') i) as [p'|]; try contradiction; auto.
      pose proof (filter_like p p' c N (w_heap w)) as B.
      destruct (h_filter p c (w_heap w)) as [[h1 [[q|]|e]]|], (h_filter p' c (w_heap w)) as [[h2 [[q'|]|e']]|]; try contradiction; auto;
        destruct B as [-> B]; try contradiction; subst; split; auto; split; cbn; auto. split; auto. apply F2_last; auto.
    - pose proof (F2_nth _ _ _ _ _ i Hd) as N. destruct (nth_error (w_data w) i) as [p|], (nth_error (w_data w') i) as [p'|]; try contradiction; auto.
      pose proof (fit_like p p' ix ix N eq_refl (w_heap w)) as B.
      destruct (h_fit p ix (w_heap w)) as [[h1 [q|e]]|], (h_fit p' ix (w_heap w)) as [[h2 [q'|e']]|]; try contradiction; auto;
        destruct B as [-> B]; subst; split; auto; split; cbn; auto. split; auto. apply F2_last; auto.
  Qed.

  Lemma sees_dom_like : forall r d p ref, p_dom p <> None -> like p (sees_dom r d p ref).
  Proof.
    intros r d p [r'|] H; cbn; [|apply like_refl]. destruct (Nat.eqb r r'); [|apply like_refl]. unfold like. cbn.
    repeat (split; [reflexivity|]). split; [|reflexivity]. split; intros; [contradiction|discriminate].
  Qed.
  Lemma zip_rel : forall A (R : A -> A -> Prop) f l refs, length refs = length l ->
    (forall i x y, nth_error l i = Some x -> nth_error refs i = Some y -> R x (f x y)) -> Forall2 R l (zip_with f l refs).
  Proof.
    intros A R f l. unfold zip_with. induction l as [|x l IH]; intros [|y refs] L H; try discriminate; [constructor|].
    cbn. constructor; [apply (H 0); auto|]. apply IH; [auto|]. intros i. apply (H (S i)).
  Qed.

  (** an attribute that is an array of the caller is not None *)
  Definition named (a : aworld F G) : Prop := forall i p r, nth_error (w_data (a_w a)) i = Some p ->
    nth_error (a_dref a) i = Some (Some r) -> p_dom p <> None.

  Lemma base_dom : forall (p p' : pobj G) ev ef (h h' : heap) x, h_set_event_base (F := F) p ev ef h = Some (h', (p', x)) -> p_dom p' = p_dom p.
  Proof.
    intros p p' ev ef h h' x E. unfold h_set_event_base in E. destruct ev; try (inversion E; subst; reflexivity).
    destruct (h_tables _ _ _ _ _) as [[h1 [[]|e]]|]; try (inversion E; subst; reflexivity).
    destruct (h_columns _ _ _ _ _) as [[h2 [[]|e]]|]; inversion E; subst; reflexivity.
  Qed.

  Lemma nth_set : forall A (l : list A) i j x y, nth_error (set_nth l i x) j = Some y -> (j = i /\ y = x /\ i < length l) \/ (j <> i /\ nth_error l j = Some y).
  Proof.
    intros A l. induction l as [|z l IH]; intros [|i] [|j] x y H; cbn in *; try discriminate; auto.
    - inversion H. left. split; [auto|split; auto; lia].
    - destruct (IH i j x y H) as [[-> [-> L]]|[N E]]; [left; split; [auto|split; [auto|lia]]|right; split; auto].
  Qed.
  Lemma nth_app1 : forall A (l : list A) x j y, nth_error (l ++ [x]) j = Some y -> (j < length l /\ nth_error l j = Some y) \/ (j = length l /\ y = x).
  Proof.
    intros A l x j y H. destruct (Nat.lt_ge_cases j (length l)) as [L|L].
    - rewrite nth_error_app1 in H by auto. auto.
    - rewrite nth_error_app2 in H by auto. destruct (j - length l) as [|k] eqn:K; cbn in H; [|destruct k; discriminate].
      inversion H. right. split; [lia|auto].
  Qed.

  Lemma filter_dom : forall (p q : pobj G) c (h h' : heap), h_filter (F := F) p c h = Some (h', Ok (Some q)) -> p_dom q = p_dom p.
  Proof.
    intros p q c h h' E. unfold h_filter in E. destruct (p_event p) as [rev|]; [|discriminate].
    assert (B : forall A B (m : HM (F := F) A) (f : A -> HM B) h h' y, hbind m f h = Some (h', Ok y) -> exists h1 a, f a h1 = Some (h', Ok y)).
    { intros A B m f h0 h0' y H. unfold hbind in H. destruct (m h0) as [[h1 [a|e]]|]; try discriminate. eauto. }
    repeat (apply B in E; destruct E as [? [? E]]). unfold hret in E. inversion E; subst. reflexivity.
  Qed.

  Lemma call_named : forall a o ref a' x, call a o ref = Some (a', x) -> same_length a -> named a -> named a'.
  Proof.
    intros a o ref a' x E [SL _] H. unfold call in E. destruct (step (a_w a) o) as [[w' y]|] eqn:S; inversion E; subst. clear E.
    unfold named in *. cbn [a_w a_dref]. intros j q r Eq Er.
    destruct o as [n b|i ev sc sd ef|i t ids f|i th|i c|i ix]; cbn [step new_dref] in *.
    - destruct (h_new n b (w_heap (a_w a))) as [[h [p|e]]|]; inversion S; subst; cbn [w_data] in *; [|eauto].
      apply nth_app1 in Er. destruct Er as [[L Er]|[-> Er]]; [|discriminate]. apply nth_app1 in Eq. destruct Eq as [[_ Eq]|[-> _]]; [eauto|lia].
    - unfold rebinds in Er. destruct (nth_error (w_data (a_w a)) i) as [p|] eqn:Ep; [|discriminate]. unfold h_set_event in S.
      destruct (h_set_event_base p ev ef (w_heap (a_w a))) as [[h1 [p1 z]]|] eqn:EB; [|discriminate].
      pose proof (base_dom _ _ _ _ _ _ _ EB) as BD. destruct z as [z|].
      { inversion S; subst. cbn [w_data] in Eq. apply nth_set in Eq. destruct Eq as [[-> [-> _]]|[N Eq]]; [|eauto]. rewrite BD. eauto. }
      destruct sd as [d|].
      { destruct (n_levels_of d); inversion S; subst; cbn [w_data] in Eq; (apply nth_set in Eq; destruct Eq as [[-> [-> _]]|[N Eq]];
          [discriminate|apply nth_set in Er; destruct Er as [[-> _]|[_ Er]]; [contradiction|eauto]]). }
      destruct (infer_domain sc) as [d|e].
      { destruct (n_levels_of d); inversion S; subst; cbn [w_data] in Eq; (apply nth_set in Eq; destruct Eq as [[-> [-> _]]|[N Eq]];
          [discriminate|apply nth_set in Er; destruct Er as [[-> _]|[_ Er]]; [contradiction|eauto]]). }
      inversion S; subst; cbn [w_data] in Eq. apply nth_set in Eq. destruct Eq as [[-> [-> _]]|[N Eq]]; [|eauto]. cbn. rewrite BD. eauto.
    - destruct (nth_error (w_data (a_w a)) i); [|discriminate]. destruct (h_set_feature _ _ _ _ _) as [[h [u|e]]|]; inversion S; subst; eauto.
    - destruct (nth_error (w_data (a_w a)) i) as [p|] eqn:Ep; [|discriminate]. destruct (h_binarize p th) as [p'|e] eqn:EB; inversion S; subst; cbn [w_data] in *; [|eauto].
      apply nth_set in Er. destruct Er as [[_ [Er _]]|[N Er]]; [discriminate|]. apply nth_set in Eq. destruct Eq as [[-> _]|[_ Eq]]; [contradiction|eauto].
    - destruct (nth_error (w_data (a_w a)) i) as [p|] eqn:Ep; [|discriminate].
      destruct (h_filter p c (w_heap (a_w a))) as [[h [[p'|]|e]]|] eqn:EF; inversion S; subst; cbn [w_data] in *.
      + rewrite app_length in Er. cbn [length] in Er. destruct (Nat.eqb_spec (length (w_data (a_w a)) + 1) (length (w_data (a_w a)))) as [C|_]; [lia|].
        apply nth_app1 in Er. apply nth_app1 in Eq. destruct Er as [[L Er]|[-> Er]], Eq as [[L' Eq]|[Ej ->]]; try lia; [eauto|].
        rewrite (filter_dom _ _ _ _ _ EF). apply (H i p r Ep). rewrite (nth_error_nth' _ None), <- Er; auto. rewrite SL. apply nth_error_Some. congruence.
      + rewrite Nat.eqb_refl in Er. eauto.
      + rewrite Nat.eqb_refl in Er. eauto.
    - destruct (nth_error (w_data (a_w a)) i); [|discriminate]. destruct (h_fit _ _ _) as [[h [u|e]]|]; inversion S; subst; eauto.
  Qed.

  Lemma astep_named : forall a o a' x, astep a o = Some (a', x) -> same_length a -> named a -> named a'.
  Proof.
    intros a o a' x E SL H. destruct o as [o|c|i ev sc r ef|i r|r k v|r k v]; cbn [astep] in E.
    - eapply call_named; eauto.
    - inversion E; subst. exact H.
    - destruct (nth_error (a_arr a) r) as [[d|l]|]; try discriminate. eapply call_named; eauto.
    - destruct (nth_error (a_arr a) r) as [[d|l]|]; try discriminate. eapply call_named; eauto.
    - destruct (nth_error (a_arr a) r) as [[d|l]|]; try discriminate. inversion E; subst. unfold named in *. cbn [a_w a_dref w_data].
      intros j q r' Eq Er. unfold zip_with in Eq. rewrite nth_error_map in Eq. destruct (nth_error (combine _ _) j) as [[p y]|] eqn:EC; [|discriminate].
      cbn [option_map fst snd] in Eq. inversion Eq; subst.
      assert (Ep : nth_error (w_data (a_w a)) j = Some p /\ nth_error (a_dref a) j = Some y).
      { clear - EC. revert j EC. generalize (a_dref a). induction (w_data (a_w a)) as [|p0 l IH]; intros [|y0 ys] [|j] EC; cbn in *; try discriminate; [inversion EC; auto|eauto]. }
      destruct Ep as [Ep Ey]. assert (p_dom p <> None) by eauto. destruct y as [r''|]; cbn; [|auto]. destruct (Nat.eqb r r''); [discriminate|auto].
    - destruct (nth_error (a_arr a) r) as [[d|l]|]; try discriminate. destruct (k <? length l); inversion E; subst; auto.
  Qed.

  Lemma like_trans : forall a b c, like a b -> like b c -> like a c.
  Proof. unfold like. intros a b c H1 H2. intuition congruence. Qed.
  Lemma rlike_trans : forall a b c, rlike a b -> rlike b c -> rlike a c.
  Proof. unfold rlike. intros a b c H1 H2. intuition congruence. Qed.
  Lemma F2_trans : forall A (R : A -> A -> Prop), (forall a b c, R a b -> R b c -> R a c) -> forall l1 l2 l3, Forall2 R l1 l2 -> Forall2 R l2 l3 -> Forall2 R l1 l3.
  Proof. intros A R HR l1 l2 l3 H. revert l3. induction H; intros l3 H3; inversion H3; subst; constructor; eauto. Qed.

  Lemma sim_run : forall os a w a', same_length a -> named a -> wlike w (a_w a) -> arun a os = Some a' ->
    exists vs w', by_value (a_arr a) os = Some vs /\ run w vs = Some w' /\ wlike w' (a_w a').
  Proof.
    induction os as [|o os IH]; intros a w a' SL NM W E.
    { inversion E; subst. exists [], w. auto. }
    cbn [arun] in E. destruct (astep a o) as [[a1 x]|] eqn:S; [|discriminate].
    pose proof (astep_same_length _ _ _ _ S SL) as SL1. pose proof (astep_named _ _ _ _ S SL NM) as NM1.
    assert (C : forall o ref, call a o ref = Some (a1, x) ->
      exists vs w', by_value (a_arr a) os = Some vs /\ run w (o :: vs) = Some w' /\ wlike w' (a_w a')).
    { intros o' ref Ec. unfold call in Ec. pose proof (step_like w (a_w a) o' W) as SLk.
      destruct (step (a_w a) o') as [[w2 y]|]; [|discriminate]. inversion Ec; subst. clear Ec.
      destruct (step w o') as [[w1 z]|] eqn:St; [|contradiction]. destruct SLk as [_ W1].
      destruct (IH _ w1 a' SL1 NM1 W1 E) as [vs [w' [B [R W']]]]. cbn [a_arr] in B. exists vs, w'. cbn [run]. rewrite St. auto. }
    destruct o as [o|c|i ev sc r ef|i r|r k v|r k v]; cbn [astep by_value] in *.
    - destruct (C o None S) as [vs [w' [B [R W']]]]. rewrite B. eauto.
    - inversion S; subst. apply (IH _ w a' SL1 NM1) in E; auto.
    - destruct (nth_error (a_arr a) r) as [[d|l]|]; try discriminate. destruct (C _ _ S) as [vs [w' [B [R W']]]]. rewrite B. eauto.
    - destruct (nth_error (a_arr a) r) as [[d|l]|]; try discriminate. destruct (C _ _ S) as [vs [w' [B [R W']]]]. rewrite B. eauto.
    - destruct (nth_error (a_arr a) r) as [[d|l]|]; try discriminate. inversion S; subst.
      apply (IH _ w a' SL1 NM1) in E; auto. cbn [a_w]. destruct W as [Wh [Wd Wr]]. split; [exact Wh|]. split; [|exact Wr]. cbn [w_data].
      eapply F2_trans; [exact like_trans|exact Wd|]. apply zip_rel; [apply SL|]. intros i p [r'|] Ep Er; [|apply like_refl].
      apply sees_dom_like. eauto.
    - destruct (nth_error (a_arr a) r) as [[d|l]|]; try discriminate. destruct (k <? length l); inversion S; subst.
      + apply (IH _ w a' SL1 NM1) in E; auto. cbn [a_w]. destruct W as [Wh [Wd Wr]]. split; [exact Wh|]. split; [exact Wd|]. cbn [w_rec].
        eapply F2_trans; [exact rlike_trans|exact Wr|]. apply zip_rel; [apply SL|]. intros i q [r'|] _ _; [|apply rlike_refl].
        cbn. destruct (Nat.eqb r r'); [|apply rlike_refl]. unfold rlike. cbn. auto 10.
      + apply (IH _ w a' SL1 NM1); auto.
  Qed.

  (** whatever a caller writes into its arrays and when, events, identifiers,
      numbers of objects, features and the number of scores of every container
      are those of the program that passes values; only score_domain, the
      default threshold taken from it, and n_score_levels are exposed *)
  Theorem C131_events_partial : forall os a i s, arun a_init os = Some a -> observe (a_w a) i = Some s ->
    exists vs w s', by_value [] os = Some vs /\ run init_world vs = Some w /\ observe w i = Some s' /\
      s_data s' = s_data s /\ option_map (@length Q) (score s') = option_map (@length Q) (score s).
  Proof.
    intros os a i s E Ho. destruct (sim_run os a_init init_world a) as [vs [w [B [R [Wh [Wd Wr]]]]]]; auto.
    - split; reflexivity.
    - intros [|j] p r H; discriminate.
    - split; [reflexivity|]. split; constructor.
    - exists vs, w. pose proof (F2_nth _ _ _ _ _ i Wd) as N. unfold observe in *. rewrite Wh in Ho.
      destruct (nth_error (w_data (a_w a)) i) as [p'|]; [|discriminate]. destruct (nth_error (w_data w) i) as [p|]; [|contradiction].
      destruct N as [E1 [E2 [E3 [E4 [E5 [E6 [E7 [E8 [E9 [E10 E11]]]]]]]]]]. rewrite E1, E2, E3, E4, E5, E6, E7, E8, E9 in Ho.
      destruct (nth_error (w_heap w) (p_n p)) as [[n| | | |]|]; try discriminate.
      destruct (nth_error (w_heap w) (p_eid p)) as [[|e| | |]|]; try discriminate.
      destruct (nth_error (w_heap w) (p_iid p)) as [[| |d| |]|]; try discriminate.
      destruct (nth_error (w_heap w) (p_feat p)) as [[| | |f|]|]; try discriminate.
      destruct (p_event p) as [rv|]; [destruct (nth_error (w_heap w) rv) as [[| | | |v]|]; try discriminate|];
        inversion Ho; subst; eexists; (split; [exact B|]; split; [exact R|]; split; [reflexivity|]); cbn; auto.
  Qed.
End TAlias.

(** ** Witnesses *)
Definition ex_prog : list (aop nat nat) :=
  [AArr (CDom (mkDom 1 5 1)); ACall (ONew 2 OTNone); ASetEvent 0 ex_ev1 [(1#1)%Q; (5#1)%Q] 0 None;
   ACall (OFilter 0 (FMask [true; false])); AArr (CIdx [0%Z; 1%Z]); AFit 0 1].

(** a caller passes the domain of scores 1 to 5 as an array and reuses the
    array for scores 1 to 10: the container and its filtered copy follow;
    n_score_levels does not, and the topic model would meet a level that is
    none.  A recommender looks at other columns of a query after a write into
    the event_index it was fitted with. *)
Theorem C131_refuted :
  exists (a a' : aworld nat nat) s s' c c' v v', arun a_init ex_prog = Some a /\
    arun a [APutDom 0 Hi 10; APutIdx 1 0 1%Z] = Some a' /\
    observe (a_w a) 0 = Some s /\ observe (a_w a') 0 = Some s' /\
    score_domain s = Some (mkDom 1 5 1) /\ score_domain s' = Some (mkDom 1 10 1) /\ n_score_levels s' = Some 5%Z /\
    digitize_score s (Some [10%Q]) = Ok [4%Z] /\ digitize_score s' (Some [10%Q]) = Ok [9%Z] /\
    observe (a_w a) 1 = Some c /\ observe (a_w a') 1 = Some c' /\ score_domain c = Some (mkDom 1 5 1) /\ score_domain c' = Some (mkDom 1 10 1) /\
    observe_rec (a_w a) 0 = Some v /\ observe_rec (a_w a') 0 = Some v' /\ rv_index v = [0; 1]%Z /\ rv_index v' = [1; 1]%Z.
Proof.
  destruct (arun (@a_init nat nat) ex_prog) as [a|] eqn:E; [|vm_compute in E; discriminate].
  vm_compute in E. inversion E; subst a; clear E.
  eexists _, _, _, _, _, _, _, _. split; [vm_compute; reflexivity|].
  repeat (split; [vm_compute; reflexivity|]). vm_compute; reflexivity.
Qed.

(** a program that writes into its array before passing it, and into another
    one afterwards *)
Definition ex_prog2 : list (aop nat nat) :=
  [AArr (CDom (mkDom 1 9 1)); APutDom 0 Hi 5; ACall (ONew 2 OTNone); ASetEvent 0 ex_ev1 [(1#1)%Q; (5#1)%Q] 0 None;
   AArr (CDom (mkDom 1 5 1)); APutDom 1 Lo 0; ACall (OFilter 0 (FMask [true; false])); ACall (OBinarize 0 None)].
Example C131_nonvacuous : exists a : aworld nat nat, untouched [] ex_prog2 /\ arun a_init ex_prog2 = Some a /\
  by_value [] ex_prog2 = Some [ONew 2 OTNone; OSetEvent 0 ex_ev1 [(1#1)%Q; (5#1)%Q] (Some (mkDom 1 5 1)) None;
                               OFilter 0 (FMask [true; false]); OBinarize 0 None] /\ length (w_data (a_w a)) = 2.
Proof.
  eexists. split; [cbn; intuition lia|]. split; [vm_compute; reflexivity|]. split; vm_compute; reflexivity.
Qed.

Print Assumptions C131_by_value_partial.
Print Assumptions C131_events_partial.
Print Assumptions C131_refuted.
