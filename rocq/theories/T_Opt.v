(** * C80, C81, C82: what the constructors pass to the optimiser *)
From Coq Require Import String List ZArith QArith Qround Bool Lia.
From Verif Require Import M_Py P_Py M_Opt.
Import ListNotations.
Open Scope string_scope.

Section Thms.
  Context {X : Type} (v_false v_cg v_1 v_one v_100 v_tol v_true : X) (to_float : X -> res Q) (to_int : X -> res Z).
  Notation kval := (kval X).
  Notation kdict := (dict string kval).
  Notation mf_new := (mf_new v_false to_float to_int).
  Notation minimize_call := (minimize_call v_cg).
  Notation pl_new := (pl_new v_1 v_one v_100 v_tol v_true).
  Notation init_model := (init_model v_false v_true).
  Implicit Types (d kw : kdict) (h : oheap X).

  Lemma kget_kset : forall d k v k', kget (kset d k v) k' = if String.eqb k' k then Some v else kget d k'.
  Proof.
    unfold kget, kset. induction d as [|[k0 v0] d IH]; intros k v k'; cbn [dict_get dict_set].
    - destruct (String.eqb k' k); auto.
    - destruct (String.eqb_spec k k0) as [->|N]; cbn [dict_get].
      + destruct (String.eqb k' k0); auto.
      + destruct (String.eqb_spec k' k0) as [->|N2]; [|apply IH].
        destruct (String.eqb_spec k0 k); congruence.
  Qed.

  Lemma kget_kdel : forall d k k', kget (kdel d k) k' = if String.eqb k' k then None else kget d k'.
  Proof.
    unfold kget, kdel. induction d as [|[k0 v0] d IH]; intros k k'; cbn [dict_get filter fst].
    - destruct (String.eqb k' k); auto.
    - destruct (String.eqb_spec k k0) as [->|N]; cbn [negb dict_get].
      + rewrite IH. destruct (String.eqb k' k0); auto.
      + destruct (String.eqb_spec k' k0) as [->|N2]; [|apply IH].
        destruct (String.eqb_spec k0 k); congruence.
  Qed.

  Lemma kset_keys : forall d k v x, In x (map fst (kset d k v)) <-> x = k \/ In x (map fst d).
  Proof.
    unfold kset. induction d as [|[k0 v0] d IH]; intros k v x; cbn [dict_set].
    - simpl. intuition.
    - destruct (String.eqb_spec k k0) as [->|N]; simpl; [intuition|]. rewrite IH. intuition.
  Qed.

  Lemma kdel_keys : forall d k x, In x (map fst (kdel d k)) <-> x <> k /\ In x (map fst d).
  Proof.
    unfold kdel. induction d as [|[k0 v0] d IH]; intros k x; cbn [filter fst map].
    - simpl. intuition.
    - destruct (String.eqb_spec k k0) as [->|N]; cbn [negb map fst]; simpl; rewrite IH.
      + split; [tauto|]. intros [A [B|B]]; [congruence|tauto].
      + split; [|tauto]. intros [A|A]; [subst; split; auto|tauto].
  Qed.

  Definition eqb_refl := String.eqb_refl.

  (** the options dictionary the caller passed, if any *)
  Definition given_options kw h : option kdict :=
    match kget kw "options" with
    | None => Some []
    | Some (KRef a) => nth_error h a
    | Some _ => None
    end.

  (** the whole effect of a constructor, read off by lookups *)
  Lemma mf_new_spec : forall kw h m h', mf_new kw h = Ok (m, h') ->
    match kget kw "C" with None => mf_C m = 1%Q | Some v => exists x, v = KX x /\ to_float x = Ok (mf_C m) end /\
    match kget kw "k" with None => mf_k m = 1%Z | Some v => exists x, v = KX x /\ to_int x = Ok (mf_k m) end /\
    mf_state m = match kget kw "random_state" with None => KNone | Some v => v end /\
    exists a o given,
      given_options kw h = Some given /\
      nth_error h' a = Some o /\
      (kget kw "options" = Some (KRef a) /\ length h' = length h \/
       kget kw "options" = None /\ a = length h /\ length h' = S (length h)) /\
      (forall b, b < length h -> b <> a -> nth_error h' b = nth_error h b)%nat /\
      kget (mf_kwargs m) "options" = Some (KRef a) /\
      (forall n, n <> "options" -> kget (mf_kwargs m) n =
        if existsb (String.eqb n) ["C"; "k"; "random_state"; "maxiter"] then None else kget kw n) /\
      (forall n, In n (map fst (mf_kwargs m)) <->
        n = "options" \/ (n <> "C" /\ n <> "k" /\ n <> "random_state" /\ n <> "maxiter" /\ In n (map fst kw))) /\
      (forall n, kget o n =
        if String.eqb n "maxiter" then
          match kget kw "maxiter" with Some KNone | None => kget given n | Some v => Some v end
        else if String.eqb n "disp" then
          Some (match kget given n with Some v => v | None => KX v_false end)
        else kget given n).
  Proof.
    intros kw h m h' H. unfold M_Opt.mf_new in H.
    apply bind_ok in H as (c & Hc & H). apply bind_ok in H as (k & Hk & H).
    rewrite !kget_kdel in H. cbn [String.eqb Ascii.eqb Bool.eqb] in H. change (kget kw "options") with (kget kw "options") in H.
    set (ok := kdel (kdel (kdel kw "C") "k") "random_state") in *.
    assert (Hok : forall n, kget ok n = if existsb (String.eqb n) ["C"; "k"; "random_state"] then None else kget kw n).
    { intros n. unfold ok. rewrite !kget_kdel. cbn [existsb].
      destruct (String.eqb n "C"), (String.eqb n "k"), (String.eqb n "random_state"); reflexivity. }
    assert (Hkeys : forall n, In n (map fst ok) <-> n <> "C" /\ n <> "k" /\ n <> "random_state" /\ In n (map fst kw)).
    { intros n. unfold ok. rewrite !kdel_keys. tauto. }
    clearbody ok.
    set (hr := match kget kw "options" with None => ((h ++ [[]])%list, KRef (length h)) | Some v => (h, v) end) in *.
    destruct (snd hr) as [x| |a] eqn:Ea; try discriminate.
    destruct (nth_error (fst hr) a) as [given|] eqn:Eg; [|discriminate].
    injection H as <- <-. cbn [mf_C mf_k mf_state mf_kwargs].
    assert (Hgiven : given_options kw h = Some given /\
       ((kget kw "options" = Some (KRef a) /\ fst hr = h) \/ (kget kw "options" = None /\ a = length h /\ fst hr = (h ++ [[]])%list))).
    { unfold given_options, hr in *. destruct (kget kw "options") as [v|]; cbn [fst snd] in *.
      - subst v. auto.
      - injection Ea as <-. rewrite nth_error_app2, Nat.sub_diag in Eg by lia. cbn in Eg. injection Eg as <-. auto. }
    destruct Hgiven as [Hgiven Hhr].
    assert (Hlen : (a < length (fst hr))%nat) by (apply nth_error_Some; congruence).
    split; [|split; [|split]].
    - destruct (kget kw "C") as [[x| |]|]; cbn [kfloat] in Hc; try discriminate; [eauto|congruence].
    - destruct (kget kw "k") as [[x| |]|]; cbn [kint] in Hk; try discriminate; [eauto|congruence].
    - reflexivity.
    - eexists a, _, given. split; [auto|]. split; [|split; [|split; [|split; [|split; [|split]]]]].
      + rewrite nth_error_set_nth, Nat.eqb_refl. rewrite (proj2 (Nat.ltb_lt _ _) Hlen). reflexivity.
      + rewrite set_nth_length. destruct Hhr as [[A B]|(A & B & E)]; [left; rewrite B; auto|].
        right. rewrite E, app_length. cbn [length]. repeat split; auto; lia.
      + intros b Hb N. rewrite nth_error_set_nth.
        destruct (Nat.eqb_spec b a); [congruence|].
        destruct Hhr as [[A B]|(A & B & E)]; [rewrite B; auto|]. rewrite E. apply nth_error_app1; auto.
      + rewrite kget_kdel, kget_kset. reflexivity.
      + intros n Hn. rewrite kget_kdel, kget_kset, Hok.
        destruct (String.eqb_spec n "options"); [congruence|]. cbn [existsb].
        destruct (String.eqb n "C"), (String.eqb n "k"), (String.eqb n "random_state"), (String.eqb n "maxiter"); reflexivity.
      + intros n. rewrite kdel_keys, kset_keys, Hkeys. split; [tauto|].
        intros [->|A]; [split; [discriminate|auto]|tauto].
      + intros n. rewrite kget_kset, Hok. cbn [String.eqb Ascii.eqb Bool.eqb existsb orb].
        destruct (kget kw "maxiter") as [[x| |b]|]; rewrite ?kget_kset;
          destruct (String.eqb_spec n "maxiter") as [->|N]; cbn [String.eqb Ascii.eqb Bool.eqb]; rewrite ?kget_kset; auto;
          destruct (String.eqb_spec n "disp") as [->|N2]; auto.
  Qed.

  (** when the constructor returns *)
  Lemma mf_new_ok : forall kw h,
    (exists r, mf_new kw h = Ok r) <->
    (forall v, kget kw "C" = Some v -> exists x c, v = KX x /\ to_float x = Ok c) /\
    (forall v, kget kw "k" = Some v -> exists x k, v = KX x /\ to_int x = Ok k) /\
    (forall v, kget kw "options" = Some v -> exists a, v = KRef a /\ (a < length h)%nat).
  Proof.
    intros kw h. split.
    - intros [[m h'] H]. destruct (mf_new_spec _ _ _ _ H) as (HC & Hk & _ & a & o & g & Hg & Ha & Hor & _).
      split; [|split]; intros v E; rewrite E in *.
      + destruct HC as (x & -> & HC); eauto.
      + destruct Hk as (x & -> & Hk); eauto.
      + destruct Hor as [[A B]|[A B]]; [|discriminate]. injection A as ->. exists a. split; auto.
        rewrite <- B. apply nth_error_Some; congruence.
    - intros (HC & Hk & Ho). unfold M_Opt.mf_new.
      assert (exists c, match kget kw "C" with None => Ok 1%Q | Some v => kfloat to_float v end = Ok c) as [c ->].
      { destruct (kget kw "C") as [v|]; [|eauto]. destruct (HC _ eq_refl) as (x & c & -> & E); exists c; exact E. }
      assert (exists c, match kget kw "k" with None => Ok 1%Z | Some v => kint to_int v end = Ok c) as [k ->].
      { destruct (kget kw "k") as [v|]; [|eauto]. destruct (Hk _ eq_refl) as (x & j & -> & E); exists j; exact E. }
      cbn [bind]. rewrite !kget_kdel. cbn [String.eqb Ascii.eqb Bool.eqb].
      destruct (kget kw "options") as [v|]; cbn [fst snd].
      + destruct (Ho _ eq_refl) as (a & -> & Ha). cbn [fst snd].
        destruct (nth_error h a) eqn:E; [eauto|]. apply nth_error_None in E; lia.
      + rewrite nth_error_app2, Nat.sub_diag by lia. cbn [nth_error]. eauto.
  Qed.

  Definition own_names : list string := ["C"; "k"; "random_state"; "maxiter"; "method"].

  (** C80: keyword arguments of the constructors reach the model and the
      optimiser.  C and k are the converted arguments with default 1, the seed
      has default None.  fit calls minimize with the given method ('CG' if none
      is given); 'tol', 'callback' and its other arguments are handed on as
      they are; the options are the given ones, with disp False unless set
      there, and with maxiter where it is given and not None. *)
  Theorem C80_arguments : forall kw h m h', mf_new kw h = Ok (m, h') ->
    (forall n, In n (map fst kw) -> In n own_names \/ In n minimize_names) ->
    match kget kw "C" with None => mf_C m = 1%Q | Some v => exists x, v = KX x /\ to_float x = Ok (mf_C m) end /\
    match kget kw "k" with None => mf_k m = 1%Z | Some v => exists x, v = KX x /\ to_int x = Ok (mf_k m) end /\
    mf_state m = match kget kw "random_state" with None => KNone | Some v => v end /\
    exists method args opts given,
      minimize_call m h' = Ok (method, args, opts) /\
      method = match kget kw "method" with None => KX v_cg | Some v => v end /\
      (forall n, n <> "options" -> kget args n = if in_dec string_dec n minimize_names then kget kw n else None) /\
      given_options kw h = Some given /\
      kget opts "disp" = Some (match kget given "disp" with None => KX v_false | Some v => v end) /\
      kget opts "maxiter" =
        match kget kw "maxiter" with None | Some KNone => kget given "maxiter" | Some v => Some v end /\
      (forall n, n <> "disp" -> n <> "maxiter" -> kget opts n = kget given n).
  Proof.
    intros kw h m h' H Hn.
    destruct (mf_new_spec _ _ _ _ H) as (HC & Hk & Hs & a & o & g & Hg & Ha & Hor & _ & Hopt & Hget & Hkeys & Ho).
    split; [auto|]. split; [auto|]. split; [auto|].
    exists (match kget kw "method" with None => KX v_cg | Some v => v end), (kdel (mf_kwargs m) "method"), o, g.
    split; [|split; [|split; [|split; [|split; [|split]]]]].
    - unfold M_Opt.minimize_call. rewrite !kget_kdel, Hopt. cbn [String.eqb Ascii.eqb Bool.eqb]. rewrite Ha.
      rewrite (proj2 (forallb_forall _ _)).
      + rewrite Hget by discriminate. cbn [existsb String.eqb Ascii.eqb Bool.eqb orb]. reflexivity.
      + intros [n v] Hin. cbn [fst]. apply existsb_exists. exists n. split; [|apply String.eqb_refl].
        assert (Hi : In n (map fst (kdel (mf_kwargs m) "method"))) by (apply in_map_iff; exists (n, v); auto).
        rewrite kdel_keys, Hkeys in Hi. destruct Hi as [N [->|(N1 & N2 & N3 & N4 & Hi)]]; [cbn; tauto|].
        destruct (Hn _ Hi) as [Hi2|]; [|auto]. cbn in Hi2. intuition congruence.
    - reflexivity.
    - intros n Nn. rewrite kget_kdel, Hget by auto.
      destruct (in_dec string_dec n minimize_names) as [Hi|Hi].
      + cbn in Hi. intuition subst; try reflexivity. 
      + destruct (String.eqb_spec n "method") as [->|N]; auto. cbn [existsb].
        destruct (String.eqb_spec n "C"); auto. destruct (String.eqb_spec n "k"); auto.
        destruct (String.eqb_spec n "random_state"); auto. destruct (String.eqb_spec n "maxiter"); auto. cbn [orb].
        unfold kget. destruct (dict_get String.eqb kw n) eqn:E; auto. exfalso.
        assert (Hin : In n (map fst kw)).
        { clear - E. induction kw as [|[k0 v0] kw IH]; [discriminate|]. cbn [dict_get] in E.
          destruct (String.eqb_spec n k0) as [->|]; [left; auto|right; auto]. }
        destruct (Hn _ Hin) as [Hi2|]; [|auto]. cbn in Hi2. intuition congruence.
    - auto.
    - rewrite Ho. cbn [String.eqb Ascii.eqb Bool.eqb]. destruct (kget g "disp"); auto.
    - rewrite Ho. cbn [String.eqb Ascii.eqb Bool.eqb]. destruct (kget kw "maxiter") as [[]|]; auto.
    - intros n N1 N2. rewrite Ho. destruct (String.eqb_spec n "maxiter"); [congruence|].
      destruct (String.eqb_spec n "disp"); congruence.
  Qed.

  (** C80: a keyword that neither the constructor nor minimize knows is
      accepted by the constructor, and every fit raises TypeError *)
  Theorem C80_unknown_keyword : forall kw h m h' n, mf_new kw h = Ok (m, h') ->
    In n (map fst kw) -> ~ In n own_names -> ~ In n minimize_names ->
    forall h'', minimize_call m h'' = Raise TypeError.
  Proof.
    intros kw h m h' n H Hin N1 N2 h''.
    destruct (mf_new_spec _ _ _ _ H) as (_ & _ & _ & a & o & g & _ & _ & _ & _ & _ & _ & Hkeys & _).
    unfold M_Opt.minimize_call.
    destruct (forallb _ _) eqn:E; [|reflexivity]. exfalso. rewrite forallb_forall in E.
    assert (Hi : In n (map fst (kdel (mf_kwargs m) "method"))).
    { rewrite kdel_keys, Hkeys. cbn in N1. split; [intuition congruence|]. right. repeat split; auto; intro; apply N1; subst; tauto. }
    apply in_map_iff in Hi as ([n' v] & En & Hi). cbn in En; subst n'.
    specialize (E _ Hi). apply existsb_exists in E as (y & Hy & Ey). cbn [fst] in Ey.
    apply String.eqb_eq in Ey; subst; auto.
  Qed.

  (** C81: a recommender built later does not change what the optimiser of an
      earlier one gets, provided they were not given the same options
      dictionary *)
  Theorem C81_own_options : forall kw1 kw2 h m1 h1 m2 h2,
    mf_new kw1 h = Ok (m1, h1) -> mf_new kw2 h1 = Ok (m2, h2) ->
    (forall a, kget kw2 "options" = Some (KRef a) -> (a < length h)%nat /\ kget kw1 "options" <> Some (KRef a)) ->
    minimize_call m1 h2 = minimize_call m1 h1.
  Proof.
    intros kw1 kw2 h m1 h1 m2 h2 H1 H2 Hd.
    destruct (mf_new_spec _ _ _ _ H1) as (_ & _ & _ & a & o & g & _ & Ha & Hor & _ & Hopt & _).
    destruct (mf_new_spec _ _ _ _ H2) as (_ & _ & _ & a2 & o2 & g2 & _ & Ha2 & Hor2 & Hold & _).
    unfold M_Opt.minimize_call. rewrite !kget_kdel, Hopt. cbn [String.eqb Ascii.eqb Bool.eqb].
    rewrite (Hold a); auto.
    - apply nth_error_Some; congruence.
    - intros ->. assert ((a2 < length h1)%nat) by (apply nth_error_Some; congruence).
      destruct Hor2 as [[E _]|(_ & E & _)]; [|lia].
      destruct (Hd _ E) as [L N]. destruct Hor as [[E1 _]|(_ & -> & _)]; [auto|lia].
  Qed.

  (** C81: a constructor without options changes no dictionary of the caller,
      one with options no other *)
  Theorem C81_other_dictionaries : forall kw h m h' b, mf_new kw h = Ok (m, h') ->
    (b < length h)%nat -> kget kw "options" <> Some (KRef b) -> nth_error h' b = nth_error h b.
  Proof.
    intros kw h m h' b H L N.
    destruct (mf_new_spec _ _ _ _ H) as (_ & _ & _ & a & o & g & _ & _ & Hor & Hold & _).
    apply Hold; auto. intros ->. destruct Hor as [[E _]|(_ & -> & _)]; [auto|lia].
  Qed.

  (** C82: the options of the command line reach the model and the optimiser *)
  Theorem C82_factorization : forall o h c k, opt_method o = Mpmf \/ opt_method o = Mlpmf ->
    to_float (opt_C o) = Ok c -> to_int (opt_k o) = Ok k ->
    fst (init_model o) = match opt_method o with Mpmf => PMF | _ => LogisticPMF end /\
    exists m h' args opts,
      mf_new (snd (init_model o)) h = Ok (m, h') /\ (forall b, (b < length h)%nat -> nth_error h' b = nth_error h b) /\
      mf_C m = c /\ mf_k m = k /\ mf_state m = match opt_rseed o with Some s => KX s | None => KNone end /\
      minimize_call m h' = Ok (KX v_cg, args, opts) /\
      (forall n, n <> "options" -> kget args n = if String.eqb n "tol" then Some (KX (opt_tol o)) else None) /\
      (forall n, kget opts n = if String.eqb n "disp" then Some (KX v_false)
        else if String.eqb n "maxiter" then option_map KX (opt_maxiter o) else None).
  Proof.
    intros o h c k Hm HC Hk. split; [unfold M_Opt.init_model; destruct Hm as [ -> | -> ]; reflexivity|].
    assert (HI : snd (init_model o) =
      ([("C", KX (opt_C o)); ("k", KX (opt_k o)); ("tol", KX (opt_tol o))] ++
      match opt_maxiter o with Some m => [("maxiter", KX m)] | None => [] end ++
      [("random_state", match opt_rseed o with Some s => KX s | None => KNone end)])%list).
    { unfold M_Opt.init_model. destruct Hm as [ -> | -> ]; destruct (opt_maxiter o); reflexivity. }
    rewrite HI. clear HI Hm.
    set (kw := (_ ++ _)%list).
    destruct (proj2 (mf_new_ok kw h)) as [[m h'] H].
    { subst kw. destruct (opt_maxiter o); repeat split; intros v E; cbn in E; try discriminate; injection E as <-; eauto. }
    assert (Hnames : forall n, In n (map fst kw) -> In n own_names \/ In n minimize_names).
    { subst kw. destruct (opt_maxiter o); cbn; intros n; intuition subst; tauto. }
    destruct (C80_arguments _ _ _ _ H Hnames) as (E1 & E2 & E3 & me & args & opts & g & Hcall & -> & Hargs & Hg & Hd & Hmi & Hoth).
    assert (G : kget kw "C" = Some (KX (opt_C o)) /\ kget kw "k" = Some (KX (opt_k o)) /\ kget kw "options" = None /\
      kget kw "method" = None /\ kget kw "maxiter" = option_map KX (opt_maxiter o) /\
      kget kw "random_state" = Some (match opt_rseed o with Some s => KX s | None => KNone end) /\
      kget kw "tol" = Some (KX (opt_tol o)) /\ kget kw "hess" = None /\ kget kw "hessp" = None /\ kget kw "bounds" = None /\
      kget kw "constraints" = None /\ kget kw "callback" = None).
    { subst kw. destruct (opt_maxiter o); repeat split; reflexivity. }
    destruct G as (G1 & G2 & G3 & G4 & G5 & G6 & G7 & G8 & G9 & G10 & G11 & G12).
    rewrite G1 in E1. rewrite G2 in E2. rewrite G6 in E3. rewrite G4 in Hcall. unfold given_options in Hg. rewrite G3 in Hg.
    injection Hg as <-. rewrite G5 in Hmi.
    destruct E1 as (x & Ex & E1). injection Ex as <-. destruct E2 as (x & Ex & E2). injection Ex as <-.
    exists m, h', args, opts. split; [auto|]. split; [intros b L; apply (C81_other_dictionaries _ _ _ _ _ H L); congruence|].
    split; [congruence|]. split; [congruence|]. split; [auto|]. split; [auto|]. split.
    - intros n N. rewrite Hargs by auto. destruct (in_dec string_dec n minimize_names) as [Hi|Hi].
      + cbn in Hi. decompose [or] Hi; subst; cbn [String.eqb Ascii.eqb Bool.eqb]; auto; tauto.
      + destruct (String.eqb_spec n "tol") as [->|]; auto. exfalso; apply Hi; cbn; tauto.
    - intros n. destruct (String.eqb_spec n "disp") as [->|N1]; [auto|].
      destruct (String.eqb_spec n "maxiter") as [->|N2]; [|rewrite Hoth by auto; reflexivity].
      rewrite Hmi. destruct (opt_maxiter o); reflexivity.
  Qed.

  (** C82: the same for the topic model: at most 100 iterations unless the
      command line says otherwise, and the mode of the distribution is
      predicted for plsamm alone *)
  Theorem C82_topic : forall o, opt_method o = Mplsam \/ opt_method o = Mplsamm ->
    fst (init_model o) = MultinomialPLSA /\
    let m := pl_new (snd (init_model o)) in
    pl_k m = KX (opt_k o) /\ pl_alpha m = KX (opt_alpha o) /\
    pl_expectation m = KX (match opt_method o with Mplsam => v_true | _ => v_false end) /\
    pl_state m = match opt_rseed o with Some s => KX s | None => KNone end /\
    (forall n, kget (pl_kwargs m) n = if String.eqb n "tol" then Some (KX (opt_tol o))
       else if String.eqb n "maxiter" then Some (match opt_maxiter o with Some x => KX x | None => KX v_100 end) else None).
  Proof.
    intros o Hm. split; [unfold M_Opt.init_model; destruct Hm as [ -> | -> ]; reflexivity|]. cbv zeta.
    unfold M_Opt.init_model, M_Opt.pl_new.
    destruct Hm as [ -> | -> ]; destruct (opt_maxiter o); repeat split; try reflexivity; intros n;
      destruct (String.eqb_spec n "tol") as [->|N]; try reflexivity;
      destruct (String.eqb_spec n "maxiter") as [->|N2]; try reflexivity;
      cbn; destruct (String.eqb_spec n "tol"); try congruence; destruct (String.eqb_spec n "maxiter"); congruence.
  Qed.

  (** C80: the topic model built by hand *)
  Theorem C80_topic_arguments : forall kw,
    let m := pl_new kw in
    let arg n v := match kget kw n with Some v => v | None => v end in
    pl_k m = arg "k" (KX v_1) /\ pl_alpha m = arg "alpha" (KX v_one) /\
    pl_expectation m = arg "use_expectation" (KX v_true) /\ pl_state m = arg "random_state" KNone /\
    kget (pl_kwargs m) "maxiter" = Some (arg "maxiter" (KX v_100)) /\
    kget (pl_kwargs m) "tol" = Some (arg "tol" (KX v_tol)).
  Proof.
    intros kw. cbv zeta. unfold M_Opt.pl_new. cbn [pl_k pl_alpha pl_expectation pl_state pl_kwargs].
    repeat split; rewrite !kget_kset; cbn [String.eqb Ascii.eqb Bool.eqb]; rewrite ?kget_kset; cbn [String.eqb Ascii.eqb Bool.eqb];
      unfold or_default; rewrite ?kget_kset, ?kget_kdel; cbn [String.eqb Ascii.eqb Bool.eqb]; auto.
  Qed.
End Thms.

(** ** refutations and concrete cases: numbers are Q, False is 0, 'CG' is 77 *)
Definition q_int (x : Q) : res Z := Ok (Qfloor x).
Notation new_q := (mf_new 0%Q Ok q_int).
Notation call_q := (minimize_call 77%Q).

(** C81: two recommenders given the same options dictionary share it, so that
    the number of iterations allowed to the second replaces that of the first;
    and the caller's dictionary is changed *)
Theorem C81_shared_refuted : exists (kw1 kw2 : dict string (kval Q)) (h h1 h2 : oheap Q) m1 m2 args o1 o2,
  new_q kw1 h = Ok (m1, h1) /\ new_q kw2 h1 = Ok (m2, h2) /\
  kget kw1 "maxiter" = Some (KX 5%Q) /\
  call_q m1 h1 = Ok (KX 77%Q, args, o1) /\ kget o1 "maxiter" = Some (KX 5%Q) /\
  call_q m1 h2 = Ok (KX 77%Q, args, o2) /\ kget o2 "maxiter" = Some (KX 9%Q).
Proof.
  exists [("maxiter", KX 5%Q); ("options", KRef 0)], [("maxiter", KX 9%Q); ("options", KRef 0)], [[("gtol", KX 1%Q)]].
  do 7 eexists. repeat split; try (vm_compute; reflexivity).
Qed.

Theorem C81_callers_options_refuted : exists (kw : dict string (kval Q)) (h h' : oheap Q) m,
  new_q kw h = Ok (m, h') /\ nth_error h 0 = Some [] /\ nth_error h' 0 = Some [("disp", KX 0%Q); ("maxiter", KX 5%Q)].
Proof.
  exists [("maxiter", KX 5%Q); ("options", KRef 0)], [[]]. do 2 eexists. repeat split; vm_compute; reflexivity.
Qed.

(** PMF(C=2, k=3, maxiter=5, tol=1/8, options={'gtol': 1}) *)
Example C80_nonvacuous : exists m h',
  let kw := [("C", KX 2%Q); ("k", KX 3%Q); ("maxiter", KX 5%Q); ("tol", KX (1#8)%Q); ("options", KRef 0)] in
  new_q kw [[("gtol", KX 1%Q)]] = Ok (m, h') /\
  (forall n, In n (map fst kw) -> In n own_names \/ In n minimize_names) /\
  mf_C m = 2%Q /\ mf_k m = 3%Z /\
  call_q m h' = Ok (KX 77%Q, [("tol", KX (1#8)%Q); ("options", KRef 0)],
                    [("gtol", KX 1%Q); ("disp", KX 0%Q); ("maxiter", KX 5%Q)]).
Proof.
  do 2 eexists. cbv zeta. split; [vm_compute; reflexivity|].
  split; [cbn; intros n; intuition subst; tauto|]. repeat split; vm_compute; reflexivity.
Qed.

(** PMF(maxitr=5) is constructed, fit raises *)
Example C80_unknown_nonvacuous : exists m h',
  new_q [("maxitr", KX 5%Q)] [] = Ok (m, h') /\
  (~ In "maxitr" own_names /\ ~ In "maxitr" minimize_names) /\ call_q m h' = Raise TypeError.
Proof.
  do 2 eexists. split; [vm_compute; reflexivity|]. split; [|vm_compute; reflexivity].
  split; cbn; intuition discriminate.
Qed.

Example C81_nonvacuous : exists m1 h1 m2 h2,
  new_q [("maxiter", KX 5%Q)] [] = Ok (m1, h1) /\ new_q [("maxiter", KX 9%Q)] h1 = Ok (m2, h2) /\
  call_q m1 h2 = call_q m1 h1 /\ call_q m2 h2 <> call_q m1 h2.
Proof.
  do 4 eexists. split; [vm_compute; reflexivity|]. split; [vm_compute; reflexivity|].
  split; [vm_compute; reflexivity|]. vm_compute. discriminate.
Qed.

(** exp_recsys_sp.py -m pmf -C 0.5 -k 2 --tol 0.125 --maxiter 7, and -m plsamm *)
Example C82_nonvacuous :
  let o := mkOpts Mpmf (1#2)%Q 2%Q 1%Q (1#8)%Q (Some 7%Q) None in
  (exists m h', new_q (snd (init_model 0%Q 1%Q o)) [] = Ok (m, h') /\
     call_q m h' = Ok (KX 77%Q, [("tol", KX (1#8)%Q); ("options", KRef 0)], [("disp", KX 0%Q); ("maxiter", KX 7%Q)])) /\
  pl_kwargs (pl_new 1%Q 1%Q 100%Q (1#10)%Q 1%Q (snd (init_model 0%Q 1%Q (mkOpts Mplsamm (1#2)%Q 2%Q 1%Q (1#8)%Q None (Some 3%Q))))) =
    [("tol", KX (1#8)%Q); ("maxiter", KX 100%Q)].
Proof.
  cbv zeta. split; [do 2 eexists; split; vm_compute; reflexivity|vm_compute; reflexivity].
Qed.

Print Assumptions C80_arguments.
Print Assumptions C80_unknown_keyword.
Print Assumptions C80_topic_arguments.
Print Assumptions C81_own_options.
Print Assumptions C81_other_dictionaries.
Print Assumptions C81_shared_refuted.
Print Assumptions C81_callers_options_refuted.
Print Assumptions C82_factorization.
Print Assumptions C82_topic.
