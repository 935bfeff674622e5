(** * Merging one-fold result files and evaluating result files

    C147: what exp_recsys_fold_merge.py puts into the merged file.
    C148: what stats_recsys.py adds to a file, and that it finds the same
    statistics in a merged file as in that of a complete cross validation. *)
From Coq Require Import String List ZArith NArith Bool Lia.
From Verif Require Import M_Py M_Json M_Convert P_Convert M_JsonText M_Tree T_Json T_JsonText.
Import ListNotations.

Section Tree.
  Context {Fl Cx Ob : Type}.
  Notation V := (value Fl Cx Ob text).
  Notation key := (jkey Ob text).

  (** ** Vocabulary *)
  (** what one finds in a tree by following keys *)
  Definition called (k : text) (kv : key * V) : bool := match fst kv with KStr s => text_eqb s k | _ => false end.
  Fixpoint path (v : V) (p : list text) : option V :=
    match p with
    | [] => Some v
    | k :: p => match v with VDict d => match find (called k) d with Some kv => path (snd kv) p | None => None end | _ => None end
    end.
  (** places of which neither contains the other *)
  Definition apart (r p : list text) : Prop := forall q q', r ++ q <> p ++ q'.

  (** where results are kept fold by fold *)
  Inductive by_fold (v : V) : list text -> Prop :=
  | bf_training : by_fold v [t "training"; t "results"]
  | bf_test : by_fold v [t "test"; t "results"]
  | bf_prediction sub x : sub <> t "event_feature" -> path v [t "prediction"; sub] = Some x -> by_fold v [t "prediction"; sub]
  | bf_feature k x : path v [t "prediction"; t "event_feature"; k] = Some x -> by_fold v [t "prediction"; t "event_feature"; k].
  (** the fold a file is about: the first one with training results *)
  Definition about (v : V) (f : text) : Prop := exists x d, path v [t "training"; t "results"] = Some (VDict ((KStr f, x) :: d)).

  (** ** Lemmas *)
  Lemma text_eqb_refl' : forall k, text_eqb k k = true. Proof. intros k. apply text_eqb_eq. reflexivity. Qed.
  Lemma text_dec : forall a b : text, {a = b} + {a <> b}. Proof. intros a b. destruct (text_eqb a b) eqn:E; [left; apply text_eqb_eq; exact E|right; intros ->; rewrite text_eqb_refl' in E; discriminate]. Qed.
  Lemma text_neqb : forall a b, a <> b -> text_eqb a b = false.
  Proof. intros a b N. destruct (text_eqb a b) eqn:E; [apply text_eqb_eq in E; contradiction|reflexivity]. Qed.
  Lemma text_eqb_sym' : forall a b, text_eqb a b = text_eqb b a.
  Proof. intros a b. destruct (text_dec a b) as [->|N]; [reflexivity|]. rewrite !text_neqb; auto. Qed.

  Lemma lookup_find : forall d k, lookup d k = match find (called k) d with Some kv => Some (snd kv) | None => None end.
  Proof.
    induction d as [|[x v] d IH]; intros k; [reflexivity|]. cbn [lookup find called is_key fst]. destruct x as [s| | |]; cbn; rewrite ?IH; try reflexivity.
    rewrite (text_eqb_sym' k s). destruct (text_eqb s k); reflexivity.
  Qed.
  Lemma item_path : forall v k x, item v k = Ok x <-> path v [k] = Some x.
  Proof.
    intros v k x. unfold item. cbn [path]. destruct v; try (split; discriminate). rewrite lookup_find. destruct (find (called k) d) as [kv|]; [|split; discriminate].
    split; intros E; injection E as ->; reflexivity.
  Qed.
  Lemma path_app : forall p q v, path v (p ++ q) = match path v p with Some x => path x q | None => None end.
  Proof.
    induction p as [|k p IH]; intros q v; [reflexivity|]. cbn [app path]. destruct v; try reflexivity. destruct (find (called k) d) as [kv|]; [apply IH|reflexivity].
  Qed.
  Lemma path_cons : forall k p v, path v (k :: p) = match path v [k] with Some x => path x p | None => None end.
  Proof. intros k p v. exact (path_app [k] p v). Qed.
  Lemma fetch_path : forall p v x, fetch v p = Ok x <-> path v p = Some x.
  Proof.
    induction p as [|k p IH]; intros v x; [cbn; split; intros E; injection E as ->; reflexivity|]. cbn [fetch]. rewrite path_cons. destruct (item v k) as [y|] eqn:E; cbn [bind].
    - apply item_path in E. rewrite E. apply IH.
    - split; [discriminate|]. destruct (path v [k]) as [y|] eqn:E'; [|discriminate]. apply item_path in E'. congruence.
  Qed.

  Lemma find_store : forall d k x k', find (called k') (store d k x) = if text_eqb k k' then match find (called k) d with Some kv => Some (fst kv, x) | None => Some (KStr k, x) end else find (called k') d.
  Proof.
    induction d as [|[y v] d IH]; intros k x k'.
    - cbn [store find called fst]. destruct (text_eqb k k'); reflexivity.
    - destruct y as [s| | |]; cbn [store is_key find called fst]; [|rewrite IH; reflexivity|rewrite IH; reflexivity|rewrite IH; reflexivity].
      rewrite (text_eqb_sym' k s). destruct (text_eqb s k) eqn:E.
      + apply text_eqb_eq in E. subst s. cbn [find called fst]. destruct (text_eqb k k'); reflexivity.
      + cbn [find called fst]. rewrite IH. destruct (text_eqb s k') eqn:E'; [|reflexivity]. apply text_eqb_eq in E'. subst s. rewrite (text_eqb_sym' k k'), E. reflexivity.
  Qed.
  Lemma set_item_path : forall v k x w k', set_item v k x = Ok w -> path w [k'] = if text_eqb k k' then Some x else path v [k'].
  Proof.
    intros v k x w k' E. unfold set_item in E. destruct v; try discriminate. injection E as <-. cbn [path]. rewrite find_store. destruct (text_eqb k k'); [|reflexivity].
    destruct (find (called k) d); reflexivity.
  Qed.

  Lemma apart_cons : forall k r p, apart (k :: r) (k :: p) -> apart r p.
  Proof. intros k r p A q q' E. apply (A q q'). cbn [app]. f_equal. exact E. Qed.
  Lemma apart_sym : forall r p, apart r p -> apart p r.
  Proof. intros r p A q q' E. apply (A q' q). auto. Qed.
  Lemma apart_tail : forall r p, apart r p -> apart r (p ++ []) .
  Proof. intros r p A. rewrite app_nil_r. exact A. Qed.
  Lemma apart_prefix : forall r p s, apart r p -> apart r (p ++ s).
  Proof. intros r p s A q q' E. rewrite <- app_assoc in E. exact (A _ _ E). Qed.
  Lemma apart_head : forall k k' r p, k <> k' -> apart (k :: r) (k' :: p).
  Proof. intros k k' r p N q q' E. injection E as E _. contradiction. Qed.
  Lemma apart_same : forall k r p, apart r p -> apart (k :: r) (k :: p).
  Proof. intros k r p A q q' E. injection E as E. exact (A q q' E). Qed.

  Lemma put_at : forall p v x w, put v p x = Ok w -> forall q, path w (p ++ q) = path x q.
  Proof.
    induction p as [|k p IH]; intros v x w E q; [injection E as ->; reflexivity|]. cbn [app]. destruct p as [|k' p].
    - cbn [put] in E. cbn [app]. rewrite path_cons, (set_item_path _ _ _ _ _ E), text_eqb_refl'. reflexivity.
    - change (put v (k :: k' :: p) x) with (do y <- item v k; do z <- put y (k' :: p) x; set_item v k z) in E.
      destruct (item v k) as [y|] eqn:E1; [|discriminate]. cbn [bind] in E. destruct (put y (k' :: p) x) as [z|] eqn:E2; [|discriminate]. cbn [bind] in E.
      rewrite path_cons, (set_item_path _ _ _ _ _ E), text_eqb_refl'. exact (IH y x z E2 q).
  Qed.
  Lemma put_frame : forall p v x w, put v p x = Ok w -> forall r, apart r p -> path w r = path v r.
  Proof.
    induction p as [|k p IH]; intros v x w E r A; [exfalso; apply (A [] r); rewrite app_nil_r; reflexivity|].
    destruct r as [|k0 r]; [exfalso; apply (A (k :: p) []); rewrite app_nil_r; reflexivity|].
    destruct p as [|k' p].
    - cbn [put] in E. rewrite (path_cons k0 r w), (path_cons k0 r v), (set_item_path _ _ _ _ _ E). rewrite text_neqb; [reflexivity|]. intros ->. apply (A [] r). cbn. rewrite app_nil_r. reflexivity.
    - change (put v (k :: k' :: p) x) with (do y <- item v k; do z <- put y (k' :: p) x; set_item v k z) in E.
      destruct (item v k) as [y|] eqn:E1; [|discriminate]. cbn [bind] in E. destruct (put y (k' :: p) x) as [z|] eqn:E2; [|discriminate]. cbn [bind] in E.
      rewrite (path_cons k0 r w), (path_cons k0 r v), (set_item_path _ _ _ _ _ E). destruct (text_dec k k0) as [->|N]; [|rewrite text_neqb by exact N; reflexivity].
      rewrite text_eqb_refl'. apply item_path in E1. rewrite E1. apply (IH y x z E2). exact (apart_cons _ _ _ A).
  Qed.
  (** the dictionary that holds the entry *)
  Lemma put_parent : forall p k v x w, put v (p ++ [k]) x = Ok w -> exists d, path v p = Some (VDict d) /\ path w p = Some (VDict (store d k x)).
  Proof.
    induction p as [|k' p IH]; intros k v x w E.
    - cbn [app put] in E. unfold set_item in E. destruct v; try discriminate. injection E as <-. exists d. split; reflexivity.
    - assert (NE : exists a b, p ++ [k] = a :: b) by (destruct p; cbn; eauto). destruct NE as (a & b & NE). cbn [app] in E. rewrite NE in E.
      change (put v (k' :: a :: b) x) with (do y <- item v k'; do z <- put y (a :: b) x; set_item v k' z) in E. rewrite <- NE in E.
      destruct (item v k') as [y|] eqn:E1; [|discriminate]. cbn [bind] in E. destruct (put y (p ++ [k]) x) as [z|] eqn:E2; [|discriminate]. cbn [bind] in E.
      destruct (IH k y x z E2) as (d & P1 & P2). exists d. rewrite !(path_cons k' p). apply item_path in E1. rewrite E1, (set_item_path _ _ _ _ _ E), text_eqb_refl'. auto.
  Qed.
  Lemma put_ok : forall p k v x d, path v p = Some (VDict d) -> exists w, put v (p ++ [k]) x = Ok w.
  Proof.
    induction p as [|k' p IH]; intros k v x d P.
    - injection P as ->. eexists. reflexivity.
    - assert (NE : exists a b, p ++ [k] = a :: b) by (destruct p; cbn; eauto). destruct NE as (a & b & NE). rewrite path_cons in P. destruct (path v [k']) as [y|] eqn:E1; [|discriminate].
      destruct (IH k y x d P) as (z & E2). assert (EV : exists dv, v = VDict dv) by (destruct v; try discriminate; eauto). destruct EV as (dv & ->).
      apply item_path in E1. cbn [app]. rewrite NE. change (put (VDict dv) (k' :: a :: b) x) with (do y <- item (VDict dv) k'; do z <- put y (a :: b) x; set_item (VDict dv) k' z).
      rewrite E1. cbn [bind]. rewrite <- NE, E2. cbn [bind set_item]. eauto.
  Qed.
  (** dictionaries above keep their keys *)
  Lemma keys_store : forall d k x (y : V), find (called k) d = Some (KStr k, y) -> map fst (store d k x) = map fst d.
  Proof.
    induction d as [|[s v] d IH]; intros k x y E; [discriminate|]. destruct s as [s| | |]; cbn [store is_key find called fst map] in *; try (f_equal; eapply IH; exact E).
    rewrite (text_eqb_sym' k s) in *. destruct (text_eqb s k); [reflexivity|]. cbn [map fst]. f_equal. eapply IH. exact E.
  Qed.
  Lemma find_called : forall d k kv, find (called k) d = Some kv -> fst kv = KStr k.
  Proof.
    intros d k kv E. apply find_some in E as [_ E]. unfold called in E. destruct (fst kv); try discriminate. apply text_eqb_eq in E. subst. reflexivity.
  Qed.
  Lemma put_keys : forall r k p v x w d, put v (r ++ k :: p) x = Ok w -> p <> [] -> path v r = Some (VDict d) -> exists d', path w r = Some (VDict d') /\ map fst d' = map fst d.
  Proof.
    induction r as [|k' r IH]; intros k p v x w d E N P.
    - injection P as ->. cbn [app] in E. destruct p as [|a p]; [congruence|]. change (put (VDict d) (k :: a :: p) x) with (do y <- item (VDict d) k; do z <- put y (a :: p) x; set_item (VDict d) k z) in E.
      destruct (item (VDict d) k) as [y|] eqn:E1; [|discriminate]. cbn [bind] in E. destruct (put y (a :: p) x) as [z|] eqn:E2; [|discriminate]. cbn [bind set_item] in E. injection E as <-.
      eexists. split; [reflexivity|]. apply item_path in E1. cbn [path] in E1. destruct (find (called k) d) as [[s y']|] eqn:F; [|discriminate]. pose proof (find_called _ _ _ F) as FC. cbn in FC. subst s.
      eapply keys_store. exact F.
    - assert (NE : exists a b, r ++ k :: p = a :: b) by (destruct r; cbn; eauto). destruct NE as (a & b & NE). cbn [app] in E. rewrite NE in E.
      change (put v (k' :: a :: b) x) with (do y <- item v k'; do z <- put y (a :: b) x; set_item v k' z) in E. rewrite <- NE in E.
      destruct (item v k') as [y|] eqn:E1; [|discriminate]. cbn [bind] in E. destruct (put y (r ++ k :: p) x) as [z|] eqn:E2; [|discriminate]. cbn [bind] in E.
      apply item_path in E1. rewrite path_cons, E1 in P. destruct (IH k p y x z d E2 N P) as (d' & P' & K). exists d'. rewrite path_cons, (set_item_path _ _ _ _ _ E), text_eqb_refl'. auto.
  Qed.

  Lemma keys_in : forall d ks k, keys (VDict d : V) = Ok ks -> (In k ks <-> exists x, path (VDict d : V) [k] = Some x).
  Proof.
    intros d ks k E. cbn [keys] in E. revert ks E. induction d as [|[s v] d IH]; intros ks E; cbn [mapM fst] in E.
    - injection E as <-. split; [intros []|intros (x & P); discriminate].
    - destruct s as [s| | |]; try discriminate. cbn [bind] in E. match type of E with (do r <- ?g; _) = _ => destruct g as [ks'|] eqn:E'; [|discriminate] end. cbn [bind] in E. injection E as <-.
      specialize (IH ks' eq_refl). cbn [path find called fst]. destruct (text_eqb s k) eqn:EK.
      + apply text_eqb_eq in EK. subst s. split; [intros _; cbn; eauto|intros _; left; reflexivity].
      + cbn [In]. cbn [path] in IH. rewrite <- IH. split; [intros [->|I]; [rewrite text_eqb_refl' in EK; discriminate|exact I]|auto].
  Qed.
  Lemma keys_map : forall d d', map fst d' = map fst d -> keys (VDict d' : V) = keys (VDict d : V).
  Proof.
    cbn [keys]. induction d as [|[s v] d IH]; intros [|[s' v'] d'] E; try discriminate; [reflexivity|]. cbn [map fst] in E. injection E as -> E. cbn [mapM fst]. rewrite (IH _ E). reflexivity.
  Qed.
  Lemma keys_dict : forall (v : V) ks, keys v = Ok ks -> exists d, v = VDict d.
  Proof. intros [] ks E; try discriminate. eauto. Qed.
  Lemma store_idem : forall d k x (y : V), store (store d k y) k x = store d k x.
  Proof.
    induction d as [|[s v] d IH]; intros k x y; cbn [store is_key]; [rewrite text_eqb_refl'; reflexivity|].
    destruct s as [s| | |]; cbn [store is_key]; try (rewrite IH; reflexivity). destruct (text_eqb k s) eqn:E; cbn [store is_key]; rewrite E; [reflexivity|]. rewrite IH. reflexivity.
  Qed.

  (** ** One more file *)
  Ltac tneq := let E := fresh in intros E; vm_compute in E; discriminate E.
  Ltac aparts := first [apply apart_head; solve [tneq | congruence | (let E := fresh in intros E; subst; congruence)] | apply apart_same; aparts].
  Lemma by_fold_apart : forall v w p p' f, by_fold v p -> by_fold w p' -> p' <> p -> apart p' (p ++ [f]).
  Proof. intros v w p p' f B B' N. destruct B; destruct B'; cbn [app]; try congruence; try aparts. Qed.

  Definition done (cv info w : V) (fold : text) (p : list text) : Prop :=
    exists d x, path cv p = Some (VDict d) /\ path info (p ++ [fold]) = Some x /\ path w p = Some (VDict (store d fold x)).
  Definition keeps_keys (cv w : V) (r : list text) : Prop := forall d, path cv r = Some (VDict d) -> exists d', path w r = Some (VDict d') /\ map fst d' = map fst d.
  Definition under (cv info w : V) (fold : text) : Prop :=
    (forall r, (forall p, by_fold cv p -> apart r (p ++ [fold])) -> path w r = path cv r) /\
    (forall p, by_fold cv p -> path w p = path cv p \/ done cv info w fold p) /\
    keeps_keys cv w [t "prediction"] /\ keeps_keys cv w [t "prediction"; t "event_feature"].

  Lemma under_refl : forall cv info fold, under cv info cv fold.
  Proof. intros cv info fold. split; [auto|]. split; [auto|]. split; intros d P; eauto. Qed.
  Lemma under_step : forall cv info w fold p x w', under cv info w fold -> by_fold cv p -> path info (p ++ [fold]) = Some x -> put w (p ++ [fold]) x = Ok w' ->
    under cv info w' fold /\ done cv info w' fold p /\ forall p', by_fold cv p' -> done cv info w fold p' -> done cv info w' fold p'.
  Proof.
    intros cv info w fold p x w' (UF & UP & UK1 & UK2) B PX E.
    destruct (put_parent _ _ _ _ _ E) as (d & PW & PW').
    assert (DN : done cv info w' fold p).
    { destruct (UP p B) as [S|(d0 & x0 & C0 & I0 & W0)].
      - exists d, x. rewrite <- S. auto.
      - rewrite PX in I0. injection I0 as <-. rewrite PW in W0. injection W0 as ->. exists d0, x. rewrite store_idem in PW'. auto. }
    assert (OT : forall p', by_fold cv p' -> p' <> p -> path w' p' = path w p') by (intros p' B' N; apply (put_frame _ _ _ _ E); eapply by_fold_apart; eauto).
    split; [|split; [exact DN|]].
    - split; [|split; [|split]].
      + intros r A. rewrite (put_frame _ _ _ _ E) by (apply A; exact B). apply UF. exact A.
      + intros p' B'. destruct (list_eq_dec text_dec p' p) as [->|N]; [right; exact DN|]. rewrite (OT p' B' N). destruct (UP p' B') as [S|D]; [left; exact S|right].
        destruct D as (d0 & x0 & C0 & I0 & W0). exists d0, x0. rewrite (OT p' B' N). auto.
      + intros d0 P0. destruct (UK1 d0 P0) as (d1 & P1 & M1). destruct B.
        * exists d1. rewrite (put_frame _ _ _ _ E) by aparts. auto.
        * exists d1. rewrite (put_frame _ _ _ _ E) by aparts. auto.
        * destruct (put_keys [t "prediction"] sub [fold] w x w' d1 E ltac:(discriminate) P1) as (d2 & P2 & M2). exists d2. split; [exact P2|congruence].
        * destruct (put_keys [t "prediction"] (t "event_feature") [k; fold] w x w' d1 E ltac:(discriminate) P1) as (d2 & P2 & M2). exists d2. split; [exact P2|congruence].
      + intros d0 P0. destruct (UK2 d0 P0) as (d1 & P1 & M1). destruct B.
        * exists d1. rewrite (put_frame _ _ _ _ E) by aparts. auto.
        * exists d1. rewrite (put_frame _ _ _ _ E) by aparts. auto.
        * exists d1. rewrite (put_frame _ _ _ _ E) by aparts. auto.
        * destruct (put_keys [t "prediction"; t "event_feature"] k [fold] w x w' d1 E ltac:(discriminate) P1) as (d2 & P2 & M2). exists d2. split; [exact P2|congruence].
    - intros p' B' D. destruct (list_eq_dec text_dec p' p) as [->|N]; [exact DN|]. destruct D as (d0 & x0 & C0 & I0 & W0). exists d0, x0. rewrite (OT p' B' N). auto.
  Qed.

  Lemma features_spec : forall ks cv info w fold w', under cv info w fold -> (forall k, In k ks -> by_fold cv [t "prediction"; t "event_feature"; k]) ->
    foldM (copy_feature fold info) ks w = Ok w' ->
    under cv info w' fold /\ (forall k, In k ks -> done cv info w' fold [t "prediction"; t "event_feature"; k]) /\ forall p', by_fold cv p' -> done cv info w fold p' -> done cv info w' fold p'.
  Proof.
    induction ks as [|k ks IH]; intros cv info w fold w' U B E; cbn [foldM] in E.
    - injection E as <-. split; [exact U|]. split; [intros k []|auto].
    - unfold copy_feature at 1 in E. destruct (fetch info [t "prediction"; t "event_feature"; k; fold]) as [x|] eqn:EX; [|discriminate]. cbn [bind] in E. apply fetch_path in EX.
      destruct (put w [t "prediction"; t "event_feature"; k; fold] x) as [w1|] eqn:EP; [|discriminate]. cbn [bind] in E.
      destruct (under_step cv info w fold [t "prediction"; t "event_feature"; k] x w1 U (B k (or_introl eq_refl)) EX EP) as (U1 & D1 & T1).
      destruct (IH cv info w1 fold w' U1 (fun k' I => B k' (or_intror I)) E) as (U2 & D2 & T2).
      split; [exact U2|]. split; [|intros p' B' D; apply T2; auto]. intros k' [<-|I]; [apply T2; [apply B; left; reflexivity|exact D1]|apply D2; exact I].
  Qed.

  Lemma subs_spec : forall subs cv info w fold w', under cv info w fold -> (forall s, In s subs -> exists x, path cv [t "prediction"; s] = Some x) ->
    foldM (copy_sub fold info) subs w = Ok w' ->
    under cv info w' fold /\ (forall s p, In s subs -> by_fold cv p -> (exists q, p = t "prediction" :: s :: q) -> done cv info w' fold p) /\ forall p', by_fold cv p' -> done cv info w fold p' -> done cv info w' fold p'.
  Proof.
    induction subs as [|s subs IH]; intros cv info w fold w' U B E; cbn [foldM] in E.
    - injection E as <-. split; [exact U|]. split; [intros s p []|auto].
    - destruct (copy_sub fold info w s) as [w1|] eqn:EC; [|discriminate]. cbn [bind] in E.
      assert (ST : under cv info w1 fold /\ (forall p, by_fold cv p -> (exists q, p = t "prediction" :: s :: q) -> done cv info w1 fold p) /\ forall p', by_fold cv p' -> done cv info w fold p' -> done cv info w1 fold p').
      { unfold copy_sub in EC. destruct (text_eqb s (t "event_feature")) eqn:ES.
        - apply text_eqb_eq in ES. subst s. destruct (fetch w [t "prediction"; t "event_feature"]) as [ef|] eqn:EF; [|discriminate]. cbn [bind] in EC. apply fetch_path in EF.
          destruct (keys ef) as [ks|] eqn:EK; [|discriminate]. cbn [bind] in EC.
          destruct (B (t "event_feature") (or_introl eq_refl)) as (x0 & P0).
          assert (KS : forall k, In k ks <-> exists x, path cv [t "prediction"; t "event_feature"; k] = Some x).
          { destruct U as (UF & UP & UK1 & UK2). destruct (keys_dict _ _ EK) as (d & ->).
            assert (X0 : exists d0, x0 = VDict d0 /\ map fst d = map fst d0).
            { destruct x0 as [| | | | | | | | | | | |d0]; try (exfalso; rewrite UF in EF; [congruence|]; intros p BP; destruct BP; cbn [app]; try aparts;
                match goal with H : path cv [_; _; _] = Some _ |- _ => change ([t "prediction"; t "event_feature"; k]) with ([t "prediction"; t "event_feature"] ++ [k]) in H; rewrite path_app, P0 in H; discriminate end).
              exists d0. split; [reflexivity|]. destruct (UK2 d0 P0) as (d' & P' & M). rewrite EF in P'. injection P' as ->. exact M. }
            destruct X0 as (d0 & -> & M). intros k. rewrite (keys_map d0 d M) in EK. rewrite (keys_in d0 ks k EK). change ([t "prediction"; t "event_feature"; k]) with ([t "prediction"; t "event_feature"] ++ [k]). rewrite path_app, P0. reflexivity. }
          destruct (features_spec ks cv info w fold w1 U) as (U1 & D1 & T1); [intros k I; apply KS in I as (x & P); eapply bf_feature; exact P|exact EC|].
          split; [exact U1|]. split; [|exact T1]. intros p BP (q & EQ). destruct BP; try (exfalso; clear - EQ; vm_compute in EQ; discriminate EQ); [exfalso; match goal with H : _ <> t "event_feature" |- _ => apply H end; injection EQ; auto|].
          apply D1. apply KS. eauto.
        - assert (NS : s <> t "event_feature") by (intros ->; rewrite text_eqb_refl' in ES; discriminate).
          destruct (fetch info [t "prediction"; s; fold]) as [x|] eqn:EX; [|discriminate]. cbn [bind] in EC. apply fetch_path in EX.
          destruct (B s (or_introl eq_refl)) as (x0 & P0). pose proof (bf_prediction cv s x0 NS P0) as BF.
          destruct (under_step cv info w fold [t "prediction"; s] x w1 U BF EX EC) as (U1 & D1 & T1). split; [exact U1|]. split; [|exact T1].
          intros p BP (q & EQ). destruct BP; try (exfalso; clear - EQ; vm_compute in EQ; discriminate EQ); [injection EQ as E1 E2; subst; exact D1|exfalso; apply NS; injection EQ; auto]. }
      destruct ST as (U1 & D1 & T1). destruct (IH cv info w1 fold w' U1 (fun s' I => B s' (or_intror I)) E) as (U2 & D2 & T2).
      split; [exact U2|]. split; [|intros p' B' D; apply T2; auto]. intros s' p [<-|I] BP Q; [apply T2; [exact BP|apply D1; assumption]|eapply D2; eauto].
  Qed.

  Lemma about_inj : forall v f g, about v f -> about v g -> f = g.
  Proof. intros v f g (x & d & P) (y & e & Q). rewrite P in Q. injection Q as -> _ _. reflexivity. Qed.
  Lemma first_key_about : forall v rs f, path v [t "training"; t "results"] = Some rs -> first_key rs = Ok f -> about v f.
  Proof.
    intros v rs f P E. unfold first_key in E. destruct (keys rs) as [ks|] eqn:EK; [|discriminate]. cbn [bind] in E. destruct ks as [|k ks]; [discriminate|]. injection E as ->.
    destruct (keys_dict _ _ EK) as (d & ->). cbn [keys] in EK. destruct d as [|[s x] d]; cbn [mapM fst] in EK; [discriminate|]. destruct s as [s| | |]; try discriminate. cbn [bind] in EK.
    match type of EK with (do r <- ?g; _) = _ => destruct g; [|discriminate] end. cbn [bind] in EK. injection EK as -> _. exists x, d. exact P.
  Qed.

  Notation environments := [t "environment"; t "environment_fold"].
  Lemma by_fold_env : forall v p f, by_fold v p -> apart p (environments ++ [f]) /\ apart environments (p ++ [f]).
  Proof. intros v p f B. destruct B; cbn [app]; split; aparts. Qed.
  Lemma by_fold_same : forall v w, (forall s, s <> t "event_feature" -> ((exists x, path w [t "prediction"; s] = Some x) <-> exists x, path v [t "prediction"; s] = Some x)) ->
    (forall k, (exists x, path w [t "prediction"; t "event_feature"; k] = Some x) <-> exists x, path v [t "prediction"; t "event_feature"; k] = Some x) -> forall p, by_fold w p <-> by_fold v p.
  Proof.
    intros v w H1 H2 p. split; intros B; destruct B as [| |s x N P|k x P]; try constructor.
    - destruct (proj1 (H1 s N) (ex_intro _ x P)) as (y & Q). econstructor; eauto.
    - destruct (proj1 (H2 k) (ex_intro _ x P)) as (y & Q). econstructor; eauto.
    - destruct (proj2 (H1 s N) (ex_intro _ x P)) as (y & Q). econstructor; eauto.
    - destruct (proj2 (H2 k) (ex_intro _ x P)) as (y & Q). econstructor; eauto.
  Qed.
  Lemma by_fold_frame : forall v w, (forall r, (exists a q, r = a :: q /\ a = t "prediction") -> path w r = path v r) -> forall p, by_fold w p <-> by_fold v p.
  Proof. intros v w H. apply by_fold_same; intros; rewrite H by eauto; tauto. Qed.

  Lemma rest_step : forall cv info w, rest_fold cv info = Ok w -> exists fold, about info fold /\
    (forall p, by_fold cv p -> done cv info w fold p) /\
    (exists d e, path cv environments = Some (VDict d) /\ path info [t "environment"] = Some e /\ path w environments = Some (VDict (store d fold e))) /\
    (forall r, apart r (environments ++ [fold]) -> (forall p, by_fold cv p -> apart r (p ++ [fold])) -> path w r = path cv r) /\
    (forall p, by_fold w p <-> by_fold cv p) /\ keeps_keys cv w [t "prediction"] /\ keeps_keys cv w [t "prediction"; t "event_feature"].
  Proof.
    intros cv info w E. unfold rest_fold in E.
    destruct (fetch info [t "training"; t "results"]) as [rs|] eqn:E1; [|discriminate]. cbn [bind] in E. apply fetch_path in E1.
    destruct (first_key rs) as [fold|] eqn:E2; [|discriminate]. cbn [bind] in E. pose proof (first_key_about _ _ _ E1 E2) as AB.
    destruct (fetch info [t "environment"]) as [env|] eqn:E3; [|discriminate]. cbn [bind] in E. apply fetch_path in E3.
    destruct (put cv [t "environment"; t "environment_fold"; fold] env) as [cv0|] eqn:E4; [|discriminate]. cbn [bind] in E.
    destruct (fetch info [t "training"; t "results"; fold]) as [x1|] eqn:E5; [|discriminate]. cbn [bind] in E. apply fetch_path in E5.
    destruct (put cv0 [t "training"; t "results"; fold] x1) as [cv1|] eqn:E6; [|discriminate]. cbn [bind] in E.
    destruct (fetch info [t "test"; t "results"; fold]) as [x2|] eqn:E7; [|discriminate]. cbn [bind] in E. apply fetch_path in E7.
    destruct (put cv1 [t "test"; t "results"; fold] x2) as [cv2|] eqn:E8; [|discriminate]. cbn [bind] in E.
    destruct (fetch cv2 [t "prediction"]) as [pr|] eqn:E9; [|discriminate]. cbn [bind] in E. apply fetch_path in E9.
    destruct (keys pr) as [subs|] eqn:E10; [|discriminate]. cbn [bind] in E.
    assert (F0 : forall r, apart r (environments ++ [fold]) -> path cv0 r = path cv r) by (exact (put_frame _ _ _ _ E4)).
    assert (B0 : forall p, by_fold cv0 p <-> by_fold cv p) by (apply by_fold_frame; intros r (a & q & -> & ->); apply F0; cbn [app]; aparts).
    destruct (under_step cv0 info cv0 fold _ x1 cv1 (under_refl cv0 info fold) (bf_training cv0) E5 E6) as (U1 & D1 & T1).
    destruct (under_step cv0 info cv1 fold _ x2 cv2 U1 (bf_test cv0) E7 E8) as (U2 & D2 & T2).
    assert (P0 : path cv0 [t "prediction"] = Some pr).
    { rewrite <- E9. rewrite (put_frame _ _ _ _ E8) by (aparts). rewrite (put_frame _ _ _ _ E6) by aparts. reflexivity. }
    destruct (keys_dict _ _ E10) as (dp & ->).
    assert (SU : forall s, In s subs <-> exists x, path cv0 [t "prediction"; s] = Some x).
    { intros s. rewrite (keys_in dp subs s E10). change [t "prediction"; s] with ([t "prediction"] ++ [s]). rewrite path_app, P0. reflexivity. }
    destruct (subs_spec subs cv0 info cv2 fold w U2 (fun s I => proj1 (SU s) I) E) as (U3 & D3 & T3).
    assert (DA : forall p, by_fold cv0 p -> done cv0 info w fold p).
    { intros p B. pose proof B as B'. destruct B as [| |s x N P|k x P].
      - apply T3; [exact B'|]. apply T2; [exact B'|exact D1].
      - apply T3; [exact B'|exact D2].
      - apply (D3 s); [apply SU; eauto|exact B'|eauto].
      - apply (D3 (t "event_feature")); [|exact B'|eauto]. apply SU. change [t "prediction"; t "event_feature"; k] with ([t "prediction"; t "event_feature"] ++ [k]) in P. rewrite path_app in P.
        destruct (path cv0 [t "prediction"; t "event_feature"]) eqn:PE; [|discriminate]. eauto. }
    exists fold. split; [exact AB|]. split; [|split; [|split; [|split]]].
    - intros p B. destruct (DA p (proj2 (B0 p) B)) as (d & x & C & I & W). exists d, x. rewrite <- (F0 p) by (apply (by_fold_env cv p fold B)). auto.
    - destruct (put_parent environments fold cv env cv0 E4) as (d & P1 & P2). exists d, env. split; [exact P1|]. split; [exact E3|]. rewrite <- P2. destruct U3 as (UF & _). apply UF.
      intros p B. apply (by_fold_env cv0 p fold B).
    - intros r A1 A2. destruct U3 as (UF & _). rewrite UF by (intros p B; apply A2; apply B0; exact B). apply F0. exact A1.
    - intros p. rewrite <- B0. destruct U3 as (UF & UP & _). revert p. apply by_fold_same.
      + intros s N. split; intros (x & P).
        * destruct (path cv0 [t "prediction"; s]) as [y|] eqn:PC; [eauto|]. rewrite UF in P; [congruence|]. intros p B. destruct B; cbn [app]; aparts.
        * destruct (DA _ (bf_prediction cv0 s x N P)) as (d & y & _ & _ & W). eauto.
      + intros k. split; intros (x & P).
        * destruct (path cv0 [t "prediction"; t "event_feature"; k]) as [y|] eqn:PC; [eauto|]. rewrite UF in P; [congruence|]. intros p B. destruct B; cbn [app]; aparts.
        * destruct (DA _ (bf_feature cv0 k x P)) as (d & y & _ & _ & W). eauto.
    - destruct U3 as (_ & _ & K1 & K2). split; intros d P; [apply K1|apply K2]; rewrite F0; try exact P; cbn [app]; aparts.
  Qed.

  Lemma done_path : forall cv info w f p q, done cv info w f p -> path w (p ++ f :: q) = path info (p ++ f :: q).
  Proof.
    intros cv info w f p q (d & x & _ & I & W). rewrite path_app, W. change (f :: q) with ([f] ++ q). rewrite (app_assoc p [f] q), (path_app (p ++ [f])), I. cbn [app path].
    rewrite find_store, text_eqb_refl'. destruct (find (called f) d); reflexivity.
  Qed.
  Lemma fold_apart : forall v w p p' f g q, by_fold v p -> by_fold w p' -> f <> g -> apart (p' ++ f :: q) (p ++ [g]).
  Proof.
    intros v w p p' f g q B B' N. destruct (list_eq_dec text_dec p' p) as [->|NP].
    - clear - N. induction p as [|k p IH]; [apply apart_head; exact N|apply apart_same; exact IH].
    - apply apart_sym. pose proof (by_fold_apart w v p' p f B' B (fun E => NP (eq_sym E))) as A. apply apart_sym. intros s s' E. eapply (by_fold_apart v w p p' g B B' NP). rewrite <- app_assoc in E. exact E.
  Qed.
  Lemma env_apart : forall v p f g q, by_fold v p -> apart (p ++ f :: q) (environments ++ [g]) /\ apart (t "environment" :: t "environment_fold" :: f :: q) (p ++ [g]).
  Proof. intros v p f g q B. destruct B; cbn [app]; split; aparts. Qed.

  (** several files *)
  Lemma rest_files : forall rest cv m, foldM rest_fold rest cv = Ok m ->
    (forall p, by_fold m p <-> by_fold cv p) /\ (forall d, In d rest -> exists f, about d f) /\
    (forall r, (forall f, (exists d, In d rest /\ about d f) -> apart r (environments ++ [f]) /\ forall p, by_fold cv p -> apart r (p ++ [f])) -> path m r = path cv r).
  Proof.
    induction rest as [|d rest IH]; intros cv m E; cbn [foldM] in E.
    - injection E as <-. split; [tauto|]. split; [intros d []|auto].
    - destruct (rest_fold cv d) as [w|] eqn:EW; [|discriminate]. cbn [bind] in E. destruct (rest_step cv d w EW) as (f & AB & _ & _ & FR & BF & _). destruct (IH w m E) as (I1 & I2 & I3).
      split; [intros p; rewrite I1; apply BF|]. split; [intros d' [<-|I]; [eauto|apply I2; exact I]|].
      intros r H. destruct (H f (ex_intro _ d (conj (or_introl eq_refl) AB))) as [HA HB]. rewrite I3; [apply FR; assumption|].
      + intros g (d' & I & A). destruct (H g) as [H1 H2]; [exists d'; split; [right; exact I|exact A]|]. split; [exact H1|]. intros p B. apply H2. apply BF. exact B.
  Qed.
  Lemma foldM_split : forall {A S} (g : S -> A -> res S) a b s, foldM g (a ++ b) s = do s' <- foldM g a s; foldM g b s'.
  Proof. intros A S g a. induction a as [|x a IH]; intros b s; [reflexivity|]. cbn [app foldM]. destruct (g s x); [apply IH|reflexivity]. Qed.

  Lemma first_step : forall v w, first_fold v = Ok w -> exists f e, about v f /\ path v [t "environment"] = Some e /\ path w environments = Some (VDict [(KStr f, e)]) /\ path w [t "condition"; t "merged"] = Some (VBool true) /\
    (forall r, apart r [t "condition"; t "merged"] -> apart r environments -> path w r = path v r) /\ (forall p, by_fold w p <-> by_fold v p).
  Proof.
    intros v w E. unfold first_fold in E.
    destruct (put v [t "condition"; t "merged"] (VBool true)) as [v1|] eqn:E1; [|discriminate]. cbn [bind] in E.
    destruct (fetch v1 [t "training"; t "results"]) as [rs|] eqn:E2; [|discriminate]. cbn [bind] in E. apply fetch_path in E2.
    destruct (first_key rs) as [f|] eqn:E3; [|discriminate]. cbn [bind] in E. pose proof (first_key_about _ _ _ E2 E3) as (x & d & P).
    destruct (fetch v1 [t "environment"]) as [e|] eqn:E4; [|discriminate]. cbn [bind] in E. apply fetch_path in E4.
    exists f, e. split; [exists x, d; rewrite <- P; symmetry; apply (put_frame _ _ _ _ E1); aparts|].
    split; [rewrite <- E4; symmetry; apply (put_frame _ _ _ _ E1); aparts|].
    split; [pose proof (put_at _ _ _ _ E []) as A; rewrite app_nil_r in A; exact A|].
    split; [rewrite (put_frame _ _ _ _ E) by aparts; pose proof (put_at _ _ _ _ E1 []) as A; rewrite app_nil_r in A; exact A|].
    assert (FR : forall r, apart r [t "condition"; t "merged"] -> apart r environments -> path w r = path v r).
    { intros r A1 A2. rewrite (put_frame _ _ _ _ E) by exact A2. apply (put_frame _ _ _ _ E1). exact A1. }
    split; [exact FR|]. apply by_fold_frame. intros r (a & q & -> & ->). apply FR; aparts.
  Qed.

  Lemma merge_steps : forall out (f0 : V) rest m, merge_trees out (f0 :: rest) = Ok m -> exists cv w : V, first_fold f0 = Ok cv /\ foldM rest_fold rest cv = Ok w /\ put w [t "condition"; t "out_file"] (VStr out) = Ok m.
  Proof.
    intros out f0 rest m E. unfold merge_trees in E. destruct (first_fold f0) as [cv|] eqn:E1; [|discriminate]. cbn [bind] in E. destruct (foldM rest_fold rest cv) as [w|] eqn:E2; [|discriminate]. cbn [bind] in E. exists cv, w. auto.
  Qed.

  (** ** C147: the merged tree *)
  (** the results of a fold and the environment of its run come from the last
      file about that fold *)
  Theorem C147_fold : forall out f0 before d after m f, merge_trees out (f0 :: before ++ d :: after) = Ok m -> about d f -> (forall d', In d' after -> ~ about d' f) ->
    (forall p q, by_fold f0 p -> path m (p ++ f :: q) = path d (p ++ f :: q)) /\
    (forall q, path m (t "environment" :: t "environment_fold" :: f :: q) = path d (t "environment" :: q)).
  Proof.
    intros out f0 before d after m f E AB NA. destruct (merge_steps _ _ _ _ E) as (cv & w & E1 & E2 & E3). destruct (first_step _ _ E1) as (f1 & e1 & _ & _ & _ & _ & _ & BF1).
    rewrite foldM_split in E2. destruct (foldM rest_fold before cv) as [c1|] eqn:EB; [|discriminate]. cbn [bind foldM] in E2. destruct (rest_fold c1 d) as [c2|] eqn:ED; [|discriminate]. cbn [bind] in E2.
    destruct (rest_files _ _ _ EB) as (BF2 & _ & _). destruct (rest_step _ _ _ ED) as (f' & AB' & DN & (de & e & PE1 & PE2 & PE3) & FR & BF3 & _). rewrite (about_inj _ _ _ AB' AB) in *. destruct (rest_files _ _ _ E2) as (BF4 & _ & FR4).
    assert (BA : forall p, by_fold f0 p -> by_fold c1 p) by (intros p B; apply BF2, BF1; exact B).
    assert (NG : forall g, (exists d', In d' after /\ about d' g) -> f <> g) by (intros g (d' & I & A) ->; exact (NA d' I A)).
    split.
    - intros p q B. rewrite (put_frame _ _ _ _ E3) by (destruct B; cbn [app]; aparts). rewrite FR4.
      + apply done_path with (cv := c1). apply DN. auto.
      + intros g G. split; [apply (env_apart f0 p f g q B)|]. intros p' B'. eapply fold_apart; eauto.
    - intros q. rewrite (put_frame _ _ _ _ E3) by aparts. rewrite FR4.
      + change (t "environment" :: t "environment_fold" :: f :: q) with (environments ++ f :: q). rewrite path_app, PE3. change (t "environment" :: q) with ([t "environment"] ++ q). rewrite path_app, PE2.
        cbn [path]. rewrite find_store, text_eqb_refl'. destruct (find (called f) de); reflexivity.
      + intros g G. split; [cbn [app]; do 2 apply apart_same; apply apart_head; apply NG; exact G|]. intros p' B'. apply (env_apart c2 p' f g q B').
  Qed.
  (** folds of which no further file tells stay as in the first file *)
  Theorem C147_first : forall out f0 rest m g, merge_trees out (f0 :: rest) = Ok m -> (forall d, In d rest -> ~ about d g) ->
    (forall p q, by_fold f0 p -> path m (p ++ g :: q) = path f0 (p ++ g :: q)) /\
    (about f0 g -> forall q, path m (t "environment" :: t "environment_fold" :: g :: q) = path f0 (t "environment" :: q)).
  Proof.
    intros out f0 rest m g E NA. destruct (merge_steps _ _ _ _ E) as (cv & w & E1 & E2 & E3). destruct (first_step _ _ E1) as (f1 & e1 & AB1 & PE & PEF & _ & FR1 & BF1). destruct (rest_files _ _ _ E2) as (BF2 & _ & FR2).
    assert (NG : forall h, (exists d', In d' rest /\ about d' h) -> g <> h) by (intros h (d' & I & A) ->; exact (NA d' I A)).
    split.
    - intros p q B. rewrite (put_frame _ _ _ _ E3) by (destruct B; cbn [app]; aparts). rewrite FR2.
      + apply FR1; destruct B; cbn [app]; aparts.
      + intros h H. split; [apply (env_apart f0 p g h q B)|]. intros p' B'. eapply fold_apart; eauto.
    - intros AB q. rewrite (about_inj _ _ _ AB1 AB) in *. rewrite (put_frame _ _ _ _ E3) by aparts. rewrite FR2.
      + change (t "environment" :: t "environment_fold" :: g :: q) with (environments ++ g :: q). rewrite path_app, PEF. change (t "environment" :: q) with ([t "environment"] ++ q). rewrite path_app, PE.
        cbn [path find called fst]. rewrite text_eqb_refl'. reflexivity.
      + intros h H. split; [cbn [app]; do 2 apply apart_same; apply apart_head; apply NG; exact H|]. intros p' B'. apply (env_apart cv p' g h q B').
  Qed.
  (** everything else is as in the first file, but for three notes *)
  Theorem C147_rest : forall out f0 rest m r, merge_trees out (f0 :: rest) = Ok m ->
    apart r [t "condition"; t "merged"] -> apart r [t "condition"; t "out_file"] -> apart r [t "environment"; t "environment_fold"] ->
    (forall d f p, In d rest -> about d f -> by_fold f0 p -> apart r (p ++ [f])) -> path m r = path f0 r.
  Proof.
    intros out f0 rest m r E A1 A2 A3 A4. destruct (merge_steps _ _ _ _ E) as (cv & w & E1 & E2 & E3). destruct (first_step _ _ E1) as (f1 & e1 & AB1 & PE & PEF & _ & FR1 & BF1). destruct (rest_files _ _ _ E2) as (BF2 & _ & FR2).
    rewrite (put_frame _ _ _ _ E3) by exact A2. rewrite FR2; [apply FR1; assumption|]. intros f (d & I & A). split; [apply apart_prefix; exact A3|]. intros p B. eapply A4; eauto. apply BF1. exact B.
  Qed.
  Theorem C147_notes : forall out f0 rest m, merge_trees out (f0 :: rest) = Ok m ->
    path m [t "condition"; t "merged"] = Some (VBool true) /\ path m [t "condition"; t "out_file"] = Some (VStr out).
  Proof.
    intros out f0 rest m E. destruct (merge_steps _ _ _ _ E) as (cv & w & E1 & E2 & E3). destruct (first_step _ _ E1) as (f1 & e1 & AB1 & PE & PEF & PM & FR1 & BF1). destruct (rest_files _ _ _ E2) as (BF2 & _ & FR2). split.
    - rewrite (put_frame _ _ _ _ E3) by aparts. rewrite FR2; [exact PM|]. intros f _. split; [cbn [app]; aparts|]. intros p B. destruct B; cbn [app]; aparts.
    - pose proof (put_at _ _ _ _ E3 []) as A. rewrite app_nil_r in A. exact A.
  Qed.

  (** files of one fold each: the folds appear in the order of the files *)
  Lemma store_new : forall (d : list (key * V)) k x, ~ In (KStr k) (map fst d) -> store d k x = d ++ [(KStr k, x)].
  Proof.
    induction d as [|[s v] d IH]; intros k x N; [reflexivity|]. cbn [map fst In] in N. destruct s as [s| | |]; cbn [store is_key app]; try (f_equal; apply IH; tauto).
    rewrite text_neqb by (intros ->; tauto). f_equal. apply IH. tauto.
  Qed.
  Lemma rest_order : forall rest gs cv m p (X : text -> V) pre, foldM rest_fold rest cv = Ok m -> by_fold cv p ->
    Forall2 (fun d f => about d f /\ path d p = Some (VDict [(KStr f, X f)])) rest gs -> NoDup (pre ++ gs) ->
    path cv p = Some (VDict (map (fun f => (KStr f, X f)) pre)) -> path m p = Some (VDict (map (fun f => (KStr f, X f)) (pre ++ gs))).
  Proof.
    induction rest as [|d rest IH]; intros gs cv m p X pre E B F N P; inversion F; subst; cbn [foldM] in E.
    - injection E as <-. rewrite app_nil_r. exact P.
    - destruct H1 as (AB & PD). destruct (rest_fold cv d) as [w|] eqn:EW; [|discriminate]. cbn [bind] in E. destruct (rest_step cv d w EW) as (f & AB' & DN & _ & _ & BF & _).
      rewrite (about_inj _ _ _ AB' AB) in *. destruct (DN p B) as (d0 & x & P1 & P2 & P3). rewrite P in P1. injection P1 as <-.
      rewrite path_app, PD in P2. cbn [path find called fst snd] in P2. rewrite text_eqb_refl' in P2. injection P2 as <-.
      rewrite store_new in P3.
      + change (y :: l') with ([y] ++ l') in *. rewrite app_assoc in *. apply (IH l' w m p X (pre ++ [y]) E); [apply BF; exact B|assumption|exact N|]. rewrite P3, map_app. reflexivity.
      + rewrite map_map. cbn [fst]. intros I. apply in_map_iff in I as (z & EZ & I). injection EZ as ->. apply NoDup_remove_2 in N. apply N. apply in_or_app. left. exact I.
  Qed.
  Theorem C147_order : forall out f0 rest fs m p (X : text -> V), merge_trees out (f0 :: rest) = Ok m -> NoDup fs -> by_fold f0 p ->
    Forall2 (fun d f => about d f /\ path d p = Some (VDict [(KStr f, X f)])) (f0 :: rest) fs ->
    path m p = Some (VDict (map (fun f => (KStr f, X f)) fs)).
  Proof.
    intros out f0 rest fs m p X E N B F. destruct (merge_steps _ _ _ _ E) as (cv & w & E1 & E2 & E3). destruct (first_step _ _ E1) as (f1 & e1 & AB1 & PE & PEF & PM & FR1 & BF1).
    inversion F as [|? y ? l' (A1 & P1) F']; subst. rewrite (put_frame _ _ _ _ E3) by (destruct B; aparts). change (y :: l') with ([y] ++ l') in *. eapply rest_order; eauto.
    - apply BF1. exact B.
    - rewrite FR1 by (destruct B; aparts). exact P1.
  Qed.

  (** when merging succeeds *)
  Definition text_keyed (v : V) : Prop := exists d, v = VDict d /\ Forall (fun kv => exists s, fst kv = KStr s) d.
  Definition mergeable (v : V) : Prop :=
    (exists d, path v [t "condition"] = Some (VDict d)) /\ (exists d, path v [t "environment"] = Some (VDict d)) /\
    (forall p, by_fold v p -> exists d, path v p = Some (VDict d)) /\
    (exists x, path v [t "prediction"] = Some x /\ text_keyed x) /\ (forall x, path v [t "prediction"; t "event_feature"] = Some x -> text_keyed x).
  (** the file has what is to be copied into [v] *)
  Definition supplies (v d : V) : Prop :=
    exists f x, about d f /\ path d [t "training"; t "results"] = Some x /\ text_keyed x /\ (exists e, path d [t "environment"] = Some e) /\ forall p, by_fold v p -> exists y, path d (p ++ [f]) = Some y.

  Lemma text_keyed_keys : forall v, text_keyed v -> exists ks, keys v = Ok ks.
  Proof.
    intros v (d & -> & F). cbn [keys]. induction F as [|[s x] d (k & E) F (ks & IH)]; [exists []; reflexivity|]. cbn [fst] in E. subst s. cbn [mapM fst bind]. rewrite IH. cbn [bind]. eauto.
  Qed.
  Lemma about_first : forall d f x, about d f -> path d [t "training"; t "results"] = Some x -> text_keyed x -> first_key x = Ok f.
  Proof.
    intros d f x (y & l & P) Q T. rewrite P in Q. injection Q as <-. unfold first_key. destruct (text_keyed_keys _ T) as (ks & K). rewrite K. cbn [bind]. cbn [keys mapM fst bind] in K.
    match type of K with (do r <- ?g; _) = _ => destruct g; [|discriminate] end. cbn [bind] in K. injection K as <-. reflexivity.
  Qed.
  Lemma under_dict : forall cv info w fold p d, under cv info w fold -> by_fold cv p -> path cv p = Some (VDict d) -> exists d', path w p = Some (VDict d').
  Proof. intros cv info w fold p d (_ & UP & _) B P. destruct (UP p B) as [S|(d0 & x & _ & _ & W)]; [rewrite S; eauto|eauto]. Qed.
  Lemma features_ok : forall ks cv info w fold, under cv info w fold ->
    (forall k, In k ks -> by_fold cv [t "prediction"; t "event_feature"; k]) -> (forall p, by_fold cv p -> exists d, path cv p = Some (VDict d)) -> (forall p, by_fold cv p -> exists y, path info (p ++ [fold]) = Some y) ->
    exists w', foldM (copy_feature fold info) ks w = Ok w'.
  Proof.
    induction ks as [|k ks IH]; intros cv info w fold U B D S; [eexists; reflexivity|]. pose proof (B k (or_introl eq_refl)) as BK. destruct (D _ BK) as (d & P). destruct (S _ BK) as (y & Q).
    destruct (under_dict _ _ _ _ _ _ U BK P) as (d' & P'). destruct (put_ok [t "prediction"; t "event_feature"; k] fold w y d' P') as (w1 & E).
    destruct (under_step cv info w fold _ y w1 U BK Q E) as (U1 & _ & _). destruct (IH cv info w1 fold U1 (fun k' I => B k' (or_intror I)) D S) as (w' & E').
    exists w'. cbn [foldM]. unfold copy_feature at 1. apply fetch_path in Q. cbn [app] in Q, E. rewrite Q. cbn [bind]. rewrite E. cbn [bind]. exact E'.
  Qed.
  Lemma subs_ok : forall subs cv info w fold, under cv info w fold -> (forall s, In s subs -> exists x, path cv [t "prediction"; s] = Some x) ->
    (forall p, by_fold cv p -> exists d, path cv p = Some (VDict d)) -> (forall p, by_fold cv p -> exists y, path info (p ++ [fold]) = Some y) -> (forall x, path cv [t "prediction"; t "event_feature"] = Some x -> text_keyed x) ->
    exists w', foldM (copy_sub fold info) subs w = Ok w'.
  Proof.
    induction subs as [|s subs IH]; intros cv info w fold U B D S TK; [eexists; reflexivity|].
    assert (ST : exists w1, copy_sub fold info w s = Ok w1).
    { unfold copy_sub. destruct (B s (or_introl eq_refl)) as (x0 & P0). destruct (text_eqb s (t "event_feature")) eqn:ES.
      - apply text_eqb_eq in ES. subst s. pose proof (TK x0 P0) as T0. destruct (text_keyed_keys _ T0) as (ks & K). destruct T0 as (d0 & -> & _).
        destruct U as (U1 & U2 & U3 & U4). destruct (U4 d0 P0) as (d1 & P1 & M1). rewrite (proj2 (fetch_path _ _ _) P1). cbn [bind]. rewrite (keys_map _ _ M1), K. cbn [bind].
        apply (features_ok ks cv info w fold); [split; auto|intros k I|exact D|exact S]. apply (keys_in d0 ks k K) in I as (x & PX). apply (bf_feature cv k x).
        change [t "prediction"; t "event_feature"; k] with ([t "prediction"; t "event_feature"] ++ [k]). rewrite path_app, P0. exact PX.
      - assert (NS : s <> t "event_feature") by (intros ->; rewrite text_eqb_refl' in ES; discriminate). pose proof (bf_prediction cv s x0 NS P0) as BK. destruct (D _ BK) as (d & P). destruct (S _ BK) as (y & Q).
        destruct (under_dict _ _ _ _ _ _ U BK P) as (d' & P'). destruct (put_ok [t "prediction"; s] fold w y d' P') as (w1 & E). apply fetch_path in Q. cbn [app] in Q, E. rewrite Q. cbn [bind]. rewrite E. eauto. }
    destruct ST as (w1 & E1). assert (SU : foldM (copy_sub fold info) [s] w = Ok w1) by (cbn [foldM]; rewrite E1; reflexivity).
    destruct (subs_spec [s] cv info w fold w1 U (fun s' I => B s' (match I with or_introl e => or_introl e | or_intror f => False_ind _ f end)) SU) as (U1 & _ & _).
    destruct (IH cv info w1 fold U1 (fun s' I => B s' (or_intror I)) D S TK) as (w' & E'). exists w'. cbn [foldM]. rewrite E1. exact E'.
  Qed.

  Definition merging (v : V) : Prop :=
    (exists d, path v [t "condition"] = Some (VDict d)) /\ (exists d, path v environments = Some (VDict d)) /\
    (forall p, by_fold v p -> exists d, path v p = Some (VDict d)) /\
    (exists x, path v [t "prediction"] = Some x /\ text_keyed x) /\ (forall x, path v [t "prediction"; t "event_feature"] = Some x -> text_keyed x).
  Lemma text_keyed_map : forall d d', map fst d' = map fst d -> text_keyed (VDict d) -> text_keyed (VDict d').
  Proof.
    intros d d' M (d0 & E & F). injection E as <-. exists d'. split; [reflexivity|]. revert d' M. induction F as [|[s x] d H F IH]; intros [|[s' x'] d'] M; try discriminate; [constructor|].
    cbn [map fst] in M. injection M as -> M. constructor; [exact H|apply IH; exact M].
  Qed.

  Lemma rest_ok : forall cv d, merging cv -> supplies cv d -> exists w, rest_fold cv d = Ok w /\ merging w.
  Proof.
    intros cv d MG SP. pose proof MG as ((dc & PC) & (de & PE) & D & (pr & PP & TP) & TE). destruct SP as (f & rs & AB & PR & TR & (e & PEN) & S).
    assert (EX : exists w, rest_fold cv d = Ok w).
    { unfold rest_fold. rewrite (proj2 (fetch_path _ _ _) PR). cbn [bind]. rewrite (about_first _ _ _ AB PR TR). cbn [bind]. rewrite (proj2 (fetch_path _ _ _) PEN). cbn [bind].
      destruct (put_ok environments f cv e de PE) as (cv0 & E0). cbn [app] in E0. rewrite E0. cbn [bind].
      assert (F0 : forall r, apart r (environments ++ [f]) -> path cv0 r = path cv r) by (exact (put_frame _ _ _ _ E0)).
      assert (B0 : forall p, by_fold cv0 p <-> by_fold cv p) by (apply by_fold_frame; intros r (a & q & -> & ->); apply F0; cbn [app]; aparts).
      assert (D0 : forall p, by_fold cv0 p -> exists d, path cv0 p = Some (VDict d)) by (intros p B; rewrite F0; [apply D, B0; exact B|apply (by_fold_env cv0 p f B)]).
      assert (S0 : forall p, by_fold cv0 p -> exists y, path d (p ++ [f]) = Some y) by (intros p B; apply S, B0; exact B).
      destruct (S0 _ (bf_training cv0)) as (x1 & Q1). destruct (S0 _ (bf_test cv0)) as (x2 & Q2). cbn [app] in Q1, Q2.
      destruct (D0 _ (bf_training cv0)) as (d1 & P1). destruct (put_ok [t "training"; t "results"] f cv0 x1 d1 P1) as (cv1 & E1). cbn [app] in E1.
      rewrite (proj2 (fetch_path _ _ _) Q1). cbn [bind]. rewrite E1. cbn [bind]. rewrite (proj2 (fetch_path _ _ _) Q2). cbn [bind].
      destruct (under_step cv0 d cv0 f _ x1 cv1 (under_refl cv0 d f) (bf_training cv0) Q1 E1) as (U1 & _ & _).
      destruct (D0 _ (bf_test cv0)) as (d2 & P2). destruct (under_dict _ _ _ _ _ _ U1 (bf_test cv0) P2) as (d2' & P2'). destruct (put_ok [t "test"; t "results"] f cv1 x2 d2' P2') as (cv2 & E2). cbn [app] in E2. rewrite E2. cbn [bind].
      destruct (under_step cv0 d cv1 f _ x2 cv2 U1 (bf_test cv0) Q2 E2) as (U2 & _ & _).
      assert (PP0 : path cv0 [t "prediction"] = Some pr) by (rewrite F0; [exact PP|cbn [app]; aparts]).
      assert (PP2 : path cv2 [t "prediction"] = Some pr) by (rewrite (put_frame _ _ _ _ E2) by aparts; rewrite (put_frame _ _ _ _ E1) by aparts; exact PP0).
      rewrite (proj2 (fetch_path _ _ _) PP2). cbn [bind]. destruct (text_keyed_keys _ TP) as (subs & KS). rewrite KS. cbn [bind]. destruct TP as (dp & -> & _).
      apply (subs_ok subs cv0 d cv2 f U2); [|exact D0|exact S0|].
      - intros s I. apply (keys_in dp subs s KS) in I as (x & PX). exists x. change [t "prediction"; s] with ([t "prediction"] ++ [s]). rewrite path_app, PP0. exact PX.
      - intros x PX. apply TE. rewrite <- PX. symmetry. apply F0. cbn [app]. aparts. }
    destruct EX as (w & E). exists w. split; [exact E|]. destruct (rest_step cv d w E) as (f' & AB' & DN & (d0 & e0 & PE1 & PE2 & PE3) & FR & BF & K1 & K2).
    split; [exists dc; rewrite FR; [exact PC|cbn [app]; aparts|intros p B; destruct B; cbn [app]; aparts]|]. split; [eauto|].
    split; [intros p B; destruct (DN p (proj1 (BF p) B)) as (d1 & x1 & _ & _ & W); eauto|]. split.
    - pose proof TP as (dp & -> & _). destruct (K1 dp PP) as (d' & P' & M). exists (VDict d'). split; [exact P'|]. eapply text_keyed_map; eauto.
    - intros x PX. destruct (path cv [t "prediction"; t "event_feature"]) as [y|] eqn:PY.
      + pose proof (TE y eq_refl) as T. pose proof T as (dy & -> & _). destruct (K2 dy PY) as (d' & P' & M). rewrite PX in P'. injection P' as ->. eapply text_keyed_map; eauto.
      + exfalso. rewrite FR in PX; [congruence|cbn [app]; aparts|]. intros p B. destruct B; cbn [app]; try aparts.
        change [t "prediction"; t "event_feature"; k] with ([t "prediction"; t "event_feature"] ++ [k]) in H. rewrite path_app, PY in H. discriminate.
  Qed.

  Theorem C147_runs : forall out f0 rest, mergeable f0 -> supplies f0 f0 -> Forall (supplies f0) rest -> exists m, merge_trees out (f0 :: rest) = Ok m.
  Proof.
    intros out f0 rest ((dc & PC) & (de & PE) & D & (pr & PP & TP) & TE) (f & rs & AB & PR & TR & _) F.
    assert (E1 : exists cv, first_fold f0 = Ok cv).
    { unfold first_fold. destruct (put_ok [t "condition"] (t "merged") f0 (VBool true) dc PC) as (v1 & E1). cbn [app] in E1. rewrite E1. cbn [bind].
      assert (F1 : forall r, apart r [t "condition"; t "merged"] -> path v1 r = path f0 r) by (exact (put_frame _ _ _ _ E1)).
      assert (Q1 : path v1 [t "training"; t "results"] = Some rs) by (rewrite F1; [exact PR|aparts]). rewrite (proj2 (fetch_path _ _ _) Q1). cbn [bind]. rewrite (about_first _ _ _ AB PR TR). cbn [bind].
      assert (Q2 : path v1 [t "environment"] = Some (VDict de)) by (rewrite F1; [exact PE|aparts]). rewrite (proj2 (fetch_path _ _ _) Q2). cbn [bind].
      apply (put_ok [t "environment"] (t "environment_fold") v1 _ de Q2). }
    destruct E1 as (cv & E1). destruct (first_step _ _ E1) as (f1 & e1 & AB1 & PE1 & PEF & PM & FR1 & BF1).
    assert (MG : merging cv).
    { split; [change [t "condition"; t "merged"] with ([t "condition"] ++ [t "merged"]) in PM; rewrite path_app in PM; destruct (path cv [t "condition"]) as [[| | | | | | | | | | | |d]|]; try discriminate PM; eauto|].
      split; [eauto|]. split; [intros p B; rewrite FR1; [apply D, BF1; exact B|destruct B; aparts|destruct B; aparts]|].
      split; [exists pr; split; [rewrite FR1; [exact PP|aparts|aparts]|exact TP]|]. intros x PX. apply TE. rewrite <- PX. symmetry. apply FR1; aparts. }
    assert (F' : Forall (supplies cv) rest).
    { eapply Forall_impl; [|exact F]. intros d (g & x & A1 & A2 & A3 & A4 & A5). exists g, x. repeat split; auto. intros p B. apply A5, BF1. exact B. }
    assert (E2 : exists w, foldM rest_fold rest cv = Ok w /\ merging w).
    { clear - MG F'. revert cv MG F'. induction rest as [|d rest IH]; intros cv MG F; [exists cv; split; [reflexivity|exact MG]|]. destruct (rest_ok cv d MG (Forall_inv F)) as (w & E & MG').
      destruct (IH w MG') as (w' & E' & MG2).
      - destruct (rest_step cv d w E) as (_ & _ & _ & _ & _ & BF & _). eapply Forall_impl; [|exact (Forall_inv_tail F)]. intros d' (g & x & A1 & A2 & A3 & A4 & A5). exists g, x. repeat split; auto. intros p B. apply A5, BF. exact B.
      - exists w'. cbn [foldM]. rewrite E. cbn [bind]. auto. }
    destruct E2 as (w & E2 & ((dw & PW) & _)). unfold merge_trees. rewrite E1. cbn [bind]. rewrite E2. cbn [bind]. apply (put_ok [t "condition"] (t "out_file") w _ dw PW).
  Qed.

  (** ** Texts of files *)
  Variable repr : Fl -> frepr.
  Variables (read_float : text -> Fl) (f_nan f_inf f_neginf : Fl) (none : Ob).
  Variable str : Ob -> text.
  Notation writable := (T_JsonText.writable (Cx := Cx) (Ob := Ob) repr read_float f_nan f_inf f_neginf).
  Notation dumps := (@M_JsonText.dumps Fl Cx Ob repr).
  Notation loads := (@M_JsonText.loads Fl Cx Ob read_float f_nan f_inf f_neginf none).
  Notation load := (@M_Tree.load Fl Cx Ob read_float f_nan f_inf f_neginf none).
  Notation merge_files := (@M_Tree.merge_files Fl Cx Ob repr read_float f_nan f_inf f_neginf none str).
  Definition fine (v : V) : Prop := writable v /\ text_keys v.
  (** the file [s] is what json.dumps makes of the tree [v] *)
  Definition file_of (s : text) (v : V) : Prop := writable v /\ text_keys v /\ dumps v = Ok s.

  Definition kt (kv : key * V) : text := key_text (fst kv).
  Lemma fine_dict : forall d, fine (VDict d) <-> Forall (fun kv => exists k, fst kv = KStr k /\ unicode k /\ fine (snd kv)) d /\ NoDup (map kt d).
  Proof.
    intros d. split.
    - intros (W & T). inversion W as [| | | | |d0 FW ND]; subst. inversion T as [v L|l F|d0 FT]; subst; [contradiction|]. split; [|exact ND]. rewrite Forall_forall in *. intros kv I.
      destruct (FW kv I) as (_ & U & WX). destruct (FT kv I) as ((k & E) & TX). exists k. rewrite E in U. split; [exact E|]. split; [exact U|split; assumption].
    - intros (F & ND). split; [apply wr_dict; [|exact ND]|apply tk_dict]; rewrite Forall_forall in *; intros kv I; destruct (F kv I) as (k & E & U & (WX & TX)).
      + rewrite E. repeat split; auto.
      + split; [eauto|exact TX].
  Qed.
  Lemma store_in : forall d k (x : V) s, Forall (fun kv => exists k, fst kv = KStr k) d -> In s (map kt (store d k x)) -> s = k \/ In s (map kt d).
  Proof.
    induction d as [|[a v] d IH]; intros k x s F I; cbn [store is_key] in I; [destruct I as [<-|[]]; left; reflexivity|].
    destruct (Forall_inv F) as (k' & E). cbn [fst] in E. subst a. cbn [is_key] in I. destruct (text_eqb k k') eqn:EK; cbn [map In] in *; [tauto|]. destruct I as [I|I]; [auto|]. destruct (IH k x s (Forall_inv_tail F) I); auto.
  Qed.
  Lemma fine_store : forall d k x, fine (VDict d) -> unicode k -> fine x -> fine (VDict (store d k x)).
  Proof.
    intros d k x F U X. apply fine_dict in F as (F & ND). apply fine_dict.
    assert (FK : Forall (fun kv : key * V => exists k, fst kv = KStr k) d) by (eapply Forall_impl; [|exact F]; intros kv (s & E & _); eauto).
    induction d as [|[a v] d IH]; [split; [constructor; [exists k; cbn; auto|constructor]|constructor; [intros []|constructor]]|].
    destruct (Forall_inv F) as (k' & E & U' & FV). cbn [fst snd] in *. subst a. cbn [store is_key]. destruct (text_eqb k k') eqn:EK.
    - split; [constructor; [cbn; eauto|exact (Forall_inv_tail F)]|exact ND].
    - cbn [map] in ND. inversion ND as [|? ? NI ND']; subst. destruct (IH (Forall_inv_tail F) ND' (Forall_inv_tail FK)) as (F1 & N1). split; [constructor; [cbn; eauto|exact F1]|].
      cbn [map]. constructor; [|exact N1]. intros I. apply store_in in I as [I|I]; [|contradiction|exact (Forall_inv_tail FK)]. cbn in I. subst k'. rewrite text_eqb_refl' in EK. discriminate.
  Qed.
  Lemma fine_item : forall v k x, fine v -> item v k = Ok x -> fine x.
  Proof.
    intros v k x F E. apply item_path in E. cbn [path] in E. destruct v; try discriminate. destruct (find (called k) d) as [kv|] eqn:FD; [|discriminate]. injection E as <-. apply find_some in FD as (I & _).
    apply fine_dict in F as (F & _). rewrite Forall_forall in F. destruct (F kv I) as (s & _ & _ & X). exact X.
  Qed.
  Lemma fine_fetch : forall p v x, fine v -> fetch v p = Ok x -> fine x.
  Proof. induction p as [|k p IH]; intros v x F E; cbn [fetch] in E; [injection E as <-; exact F|]. destruct (item v k) as [y|] eqn:EI; [|discriminate]. eapply IH; [|exact E]. eapply fine_item; eauto. Qed.
  Lemma fine_put : forall p v x w, Forall unicode p -> fine v -> fine x -> put v p x = Ok w -> fine w.
  Proof.
    induction p as [|k p IH]; intros v x w U F X E; [injection E as <-; exact X|]. destruct p as [|k' p].
    - cbn [put] in E. destruct v; try discriminate. injection E as <-. apply fine_store; [exact F|exact (Forall_inv U)|exact X].
    - change (put v (k :: k' :: p) x) with (do y <- item v k; do z <- put y (k' :: p) x; set_item v k z) in E.
      destruct (item v k) as [y|] eqn:E1; [|discriminate]. cbn [bind] in E. destruct (put y (k' :: p) x) as [z|] eqn:E2; [|discriminate]. cbn [bind] in E.
      destruct v; try discriminate. injection E as <-. apply fine_store; [exact F|exact (Forall_inv U)|]. apply (IH y x z); [exact (Forall_inv_tail U)|eapply fine_item; [exact F|exact E1]|exact X|exact E2].
  Qed.
  Lemma fine_keys : forall v ks, fine v -> keys v = Ok ks -> Forall unicode ks.
  Proof.
    intros v ks F E. destruct (keys_dict _ _ E) as (d & ->). apply fine_dict in F as (F & _). cbn [keys] in E. revert ks E. induction F as [|[a v] d (k & EK & U & _) F IH]; intros ks E; cbn [mapM fst] in *; [injection E as <-; constructor|].
    subst a. cbn [bind] in E. match type of E with (do r <- ?g; _) = _ => destruct g as [ks'|] eqn:E'; [|discriminate] end. cbn [bind] in E. injection E as <-. constructor; [exact U|]. apply IH. reflexivity.
  Qed.
  Lemma unicode_ascii : forall s, forallb (fun c => N.ltb c 128) s = true -> unicode s.
  Proof. intros s H. rewrite forallb_forall in H. apply Forall_forall. intros c I. apply H in I. apply N.ltb_lt in I. lia. Qed.
  Ltac uni := repeat match goal with |- Forall unicode _ => constructor end; first [assumption | apply unicode_ascii; reflexivity].
  Lemma fine_foldM : forall {A} (g : V -> A -> res V) l v w, (forall a v w, In a l -> fine v -> g v a = Ok w -> fine w) -> fine v -> foldM g l v = Ok w -> fine w.
  Proof.
    intros A g l. induction l as [|a l IH]; intros v w H F E; cbn [foldM] in E; [injection E as <-; exact F|]. destruct (g v a) as [v1|] eqn:EG; [|discriminate]. cbn [bind] in E.
    eapply IH; [|eapply H; [left; reflexivity|exact F|exact EG]|exact E]. intros; eapply H; [right; eassumption| |]; eauto.
  Qed.
  Lemma fine_first_key : forall v k, fine v -> first_key v = Ok k -> unicode k.
  Proof.
    intros v k F E. unfold first_key in E. destruct (keys v) as [ks|] eqn:EK; [|discriminate]. cbn [bind] in E. destruct ks; [discriminate|]. injection E as ->. exact (Forall_inv (fine_keys _ _ F EK)).
  Qed.
  Lemma fine_first : forall v w, fine v -> first_fold v = Ok w -> fine w.
  Proof.
    intros v w F E. unfold first_fold in E. destruct (put v [t "condition"; t "merged"] (VBool true)) as [v1|] eqn:E1; [|discriminate]. cbn [bind] in E.
    assert (F1 : fine v1) by (eapply fine_put; [|exact F| |exact E1]; [uni|split; [constructor|apply tk_leaf; exact I]]).
    destruct (fetch v1 [t "training"; t "results"]) as [rs|] eqn:E2; [|discriminate]. cbn [bind] in E. destruct (first_key rs) as [f|] eqn:E3; [|discriminate]. cbn [bind] in E.
    destruct (fetch v1 [t "environment"]) as [e|] eqn:E4; [|discriminate]. cbn [bind] in E. eapply fine_put; [|exact F1| |exact E]; [uni|]. apply fine_dict. split; [|constructor; [intros []|constructor]].
    constructor; [|constructor]. exists f. split; [reflexivity|]. split; [eapply fine_first_key; [|exact E3]; eapply fine_fetch; [|exact E2]; exact F1|eapply fine_fetch; [|exact E4]; exact F1].
  Qed.
  Lemma fine_rest : forall cv info w, fine cv -> fine info -> rest_fold cv info = Ok w -> fine w.
  Proof.
    intros cv info w F G E. unfold rest_fold in E.
    destruct (fetch info [t "training"; t "results"]) as [rs|] eqn:E1; [|discriminate]. cbn [bind] in E.
    destruct (first_key rs) as [fold|] eqn:E2; [|discriminate]. cbn [bind] in E. assert (U : unicode fold) by (eapply fine_first_key; [|exact E2]; eapply fine_fetch; [|exact E1]; exact G).
    destruct (fetch info [t "environment"]) as [env|] eqn:E3; [|discriminate]. cbn [bind] in E.
    destruct (put cv [t "environment"; t "environment_fold"; fold] env) as [cv0|] eqn:E4; [|discriminate]. cbn [bind] in E.
    destruct (fetch info [t "training"; t "results"; fold]) as [x1|] eqn:E5; [|discriminate]. cbn [bind] in E.
    destruct (put cv0 [t "training"; t "results"; fold] x1) as [cv1|] eqn:E6; [|discriminate]. cbn [bind] in E.
    destruct (fetch info [t "test"; t "results"; fold]) as [x2|] eqn:E7; [|discriminate]. cbn [bind] in E.
    destruct (put cv1 [t "test"; t "results"; fold] x2) as [cv2|] eqn:E8; [|discriminate]. cbn [bind] in E.
    destruct (fetch cv2 [t "prediction"]) as [pr|] eqn:E9; [|discriminate]. cbn [bind] in E.
    destruct (keys pr) as [subs|] eqn:E10; [|discriminate]. cbn [bind] in E.
    assert (F0 : fine cv0) by (eapply fine_put; [|exact F|eapply fine_fetch; [exact G|exact E3]|exact E4]; uni).
    assert (F1 : fine cv1) by (eapply fine_put; [|exact F0|eapply fine_fetch; [exact G|exact E5]|exact E6]; uni).
    assert (F2 : fine cv2) by (eapply fine_put; [|exact F1|eapply fine_fetch; [exact G|exact E7]|exact E8]; uni).
    assert (US : Forall unicode subs) by (eapply fine_keys; [|exact E10]; eapply fine_fetch; [exact F2|exact E9]).
    eapply fine_foldM; [|exact F2|exact E]. intros s v v' I FV ES. unfold copy_sub in ES. rewrite Forall_forall in US. pose proof (US s I) as Us. destruct (text_eqb s (t "event_feature")).
    - destruct (fetch v [t "prediction"; t "event_feature"]) as [ef|] eqn:EF; [|discriminate]. cbn [bind] in ES. destruct (keys ef) as [ks|] eqn:EK; [|discriminate]. cbn [bind] in ES.
      assert (UK : Forall unicode ks) by (eapply fine_keys; [|exact EK]; eapply fine_fetch; [exact FV|exact EF]).
      eapply fine_foldM; [|exact FV|exact ES]. intros k u u' I' FU EC. rewrite Forall_forall in UK. pose proof (UK k I') as Uk. unfold copy_feature in EC.
      destruct (fetch info [t "prediction"; t "event_feature"; k; fold]) as [x|] eqn:EX; [|discriminate]. cbn [bind] in EC. eapply fine_put; [|exact FU|eapply fine_fetch; [exact G|exact EX]|exact EC]. uni.
    - destruct (fetch info [t "prediction"; s; fold]) as [x|] eqn:EX; [|discriminate]. cbn [bind] in ES. eapply fine_put; [|exact FV|eapply fine_fetch; [exact G|exact EX]|exact ES]. uni.
  Qed.
  Lemma fine_merge : forall out files m, unicode out -> Forall fine files -> merge_trees out files = Ok m -> fine m.
  Proof.
    intros out files m U F E. destruct files as [|f0 rest]; [discriminate|]. destruct (merge_steps _ _ _ _ E) as (cv & w & E1 & E2 & E3). pose proof (fine_first _ _ (Forall_inv F) E1) as FC.
    assert (FW : fine w). { pose proof (Forall_inv_tail F) as FR. rewrite Forall_forall in FR. eapply fine_foldM; [|exact FC|exact E2]. intros a v v' I FV ER. eapply fine_rest; [exact FV|apply FR; exact I|exact ER]. }
    eapply fine_put; [|exact FW| |exact E3]; [uni|]. split; [constructor; exact U|apply tk_leaf; exact I].
  Qed.

  Lemma load_file : forall python s v, before39 python -> file_of s v -> load python s = Ok v.
  Proof.
    intros [a b] s v B (W & T & D). unfold M_Tree.load, M_JsonText.json_load. cbn [fst snd]. unfold before39 in B. cbn [fst snd] in B.
    destruct (C146_same repr read_float f_nan f_inf f_neginf none v W T) as (s' & D' & L). rewrite D in D'. injection D' as <-. rewrite L.
    destruct (Nat.ltb_spec 3 a); [lia|]. destruct (Nat.eqb_spec a 3); [|reflexivity]. destruct (Nat.leb_spec 9 b); [lia|]. reflexivity.
  Qed.
  Lemma writable_serialisable : forall v, writable v -> serialisable v.
  Proof.
    induction v using value_ind'; intros W; inversion W as [| | | |l0 FL|d0 FD ND]; subst; constructor; rewrite Forall_forall in *; intros y I; auto. destruct (FD y I) as (K & _ & WX). split; auto.
  Qed.
  (** the merged file holds the merged tree; the script fails just when merging
      the trees does *)
  Theorem C147_files : forall python out texts trees, before39 python -> unicode out -> Forall2 file_of texts trees ->
    match merge_trees out trees with
    | Ok m => exists s, merge_files python out texts = Ok s /\ file_of s m /\ loads s = Some m
    | Raise e => merge_files python out texts = Raise e
    end.
  Proof.
    intros python out texts trees B U F. destruct F as [|s v texts trees H F]; [reflexivity|].
    assert (FF : Forall fine (v :: trees)). { constructor; [destruct H as (W & T & _); split; assumption|]. clear - F. induction F as [|s v l l' (W & T & _) F IH]; constructor; auto. split; assumption. }
    assert (EQ : forall cv, foldM (fun cv s => do v <- load python s; rest_fold cv v) texts cv = foldM rest_fold trees cv).
    { clear - B F. induction F as [|s v l l' H F IH]; intros cv; [reflexivity|]. cbn [foldM]. rewrite (load_file python s v B H). cbn [bind]. destruct (rest_fold cv v); cbn [bind]; auto. }
    pose proof (fine_merge out (v :: trees)) as FM. unfold M_Tree.merge_files, merge_trees in *. rewrite (load_file python s v B H). cbn [bind]. destruct (first_fold v) as [cv|]; [|reflexivity]. cbn [bind] in *. rewrite EQ.
    destruct (foldM rest_fold trees cv) as [w|]; [|reflexivity]. cbn [bind] in *. destruct (put w [t "condition"; t "out_file"] (VStr out)) as [m|] eqn:EP; [|reflexivity]. cbn [bind] in *.
    destruct (FM m U FF eq_refl) as (W & T). rewrite (C61_fixed str m (writable_serialisable m W)). destruct (C146_same repr read_float f_nan f_inf f_neginf none m W T) as (s' & D & L). exists s'. repeat split; assumption.
  Qed.
  (** with Python 3.9 or later nothing can be merged *)
  Theorem C147_python39_refuted : exists python, forall out texts s, merge_files python out texts <> Ok s.
  Proof. exists (3, 9)%nat. intros out [|f rest] s; discriminate. Qed.

  (** ** C148: stats_recsys.py *)
  Variable score_statistics : V -> V -> V -> res V.
  Variable finder_statistics : V -> V -> res V.
  Notation stats_tree := (@M_Tree.stats_tree Fl Cx Ob score_statistics finder_statistics).
  Notation stats_file := (@M_Tree.stats_file Fl Cx Ob score_statistics finder_statistics repr read_float f_nan f_inf f_neginf none).

  (** the lists of all folds, one after the other *)
  Definition folded (info : V) (p : list text) (l : list V) : Prop :=
    exists d ls, path info p = Some (VDict d) /\ d <> [] /\ Forall2 (fun kv r => snd kv = VList r) d ls /\ l = concat ls.
  (** true and predicted values of the experiment: of all folds, or of the one
      test set *)
  Definition inputs (info a b : V) : Prop :=
    (exists d la lb, path info [t "prediction"; t "event"] = Some (VDict d) /\ folded info [t "prediction"; t "true"] la /\ folded info [t "prediction"; t "predicted"] lb /\ a = VList la /\ b = VList lb) \/
    (exists ev, path info [t "prediction"; t "event"] = Some ev /\ (forall d, ev <> VDict d) /\ path info [t "prediction"; t "true"] = Some a /\ path info [t "prediction"; t "predicted"] = Some b).
  (** the statistics its task asks for *)
  Definition asked (info : V) (g : V -> V -> res V) : Prop :=
    (path info [t "model"; t "task_type"] = Some (VStr (t "score_predictor")) /\ exists dom, path info [t "condition"; t "score_domain"] = Some dom /\ g = (fun a b => score_statistics a b dom)) \/
    (path info [t "model"; t "task_type"] = Some (VStr (t "item_finder")) /\ g = finder_statistics).

  Lemma folded_concatenate : forall info p l, folded info p l -> exists v, fetch info p = Ok v /\ np_concatenate v = Ok (VList l).
  Proof.
    intros info p l (d & ls & P & N & F & ->). exists (VDict d). split; [apply fetch_path; exact P|]. unfold np_concatenate. destruct d as [|kv d]; [contradiction|].
    assert (E : mapM (fun kv : key * V => rows (snd kv)) (kv :: d) = Ok ls). { clear N P. revert F. generalize (kv :: d). intros dd F. induction F as [|kv0 r dd ls E F IH]; [reflexivity|]. cbn [mapM]. rewrite E. cbn [rows bind]. rewrite IH. reflexivity. }
    rewrite E. reflexivity.
  Qed.
  Lemma finish : forall (keepdata : bool) (info st x : V), path info [t "prediction"] = Some x -> exists m, (do i <- put info [t "statistics"] st; if keepdata then Ok i else del_item i (t "prediction")) = Ok m /\ path m [t "statistics"] = Some st.
  Proof.
    intros keepdata info st x P. destruct info as [| | | | | | | | | | | |d]; try discriminate. cbn [put set_item bind].
    assert (PS : path (VDict (store d (t "statistics") st)) [t "statistics"] = Some st).
    { pose proof (put_at [t "statistics"] (VDict d) st (VDict (store d (t "statistics") st)) eq_refl []) as A. exact A. }
    assert (PP : path (VDict (store d (t "statistics") st)) [t "prediction"] = Some x).
    { rewrite (put_frame [t "statistics"] (VDict d) st (VDict (store d (t "statistics") st)) eq_refl) by aparts. exact P. }
    destruct keepdata; [eauto|]. unfold del_item. apply item_path in PP. unfold item in PP. destruct (lookup (store d (t "statistics") st) (t "prediction")) as [y|]; [|discriminate]. eexists. split; [reflexivity|].
    revert PS. generalize (store d (t "statistics") st). intros l PS. cbn [path] in *. replace (find (called (t "statistics")) (delete l (t "prediction"))) with (find (called (t "statistics")) l); [exact PS|].
    clear. induction l as [|[s v] l IH]; [reflexivity|]. cbn [delete is_key]. destruct s as [s| | |]; cbn [find called fst is_key]; try exact IH.
    destruct (text_eqb (t "prediction") s) eqn:E; [apply text_eqb_eq in E; subst s; reflexivity|]. cbn [find called fst]. destruct (text_eqb s (t "statistics")); [reflexivity|exact IH].
  Qed.
  Theorem C148_statistics : forall keepdata info a b g, inputs info a b -> asked info g ->
    match g a b with
    | Ok st => exists m, stats_tree keepdata info = Ok m /\ path m [t "statistics"] = Some st
    | Raise e => stats_tree keepdata info = Raise e
    end.
  Proof.
    intros keepdata info a b g IN AS.
    assert (PP : exists x, path info [t "prediction"] = Some x).
    { assert (PE : exists ev, path info ([t "prediction"] ++ [t "event"]) = Some ev) by (destruct IN as [(d & _ & _ & P & _)|(ev & P & _)]; eauto). destruct PE as (ev & PE). rewrite path_app in PE. destruct (path info [t "prediction"]); [eauto|discriminate]. }
    destruct PP as (pr & PP).
    assert (E : stats_tree keepdata info = do st <- g a b; do i <- put info [t "statistics"] st; if keepdata then Ok i else del_item i (t "prediction")).
    { unfold M_Tree.stats_tree. destruct IN as [(d & la & lb & PE & FA & FB & -> & ->)|(ev & PE & NE & PA & PB)].
      - rewrite (proj2 (fetch_path _ _ _) PE). cbn [bind]. destruct (folded_concatenate _ _ _ FA) as (va & E1 & E2). destruct (folded_concatenate _ _ _ FB) as (vb & E3 & E4). rewrite E1. cbn [bind]. rewrite E2. cbn [bind]. rewrite E3. cbn [bind]. rewrite E4. cbn [bind fst snd].
        destruct AS as [(PT & dom & PD & ->)|(PT & ->)]; rewrite (proj2 (fetch_path _ _ _) PT); cbn [bind].
        + change (text_eqb (t "score_predictor") (t "score_predictor")) with true. cbn iota. rewrite (proj2 (fetch_path _ _ _) PD). reflexivity.
        + reflexivity.
      - rewrite (proj2 (fetch_path _ _ _) PE). cbn [bind].
        destruct ev; try (exfalso; eapply NE; reflexivity); rewrite (proj2 (fetch_path _ _ _) PA); cbn [bind]; rewrite (proj2 (fetch_path _ _ _) PB); cbn [bind fst snd];
          (destruct AS as [(PT & dom & PD & ->)|(PT & ->)]; rewrite (proj2 (fetch_path _ _ _) PT); cbn [bind]; [change (text_eqb (t "score_predictor") (t "score_predictor")) with true; cbn iota; rewrite (proj2 (fetch_path _ _ _) PD); reflexivity|reflexivity]). }
    rewrite E. destruct (g a b) as [st|e]; [|reflexivity]. cbn [bind]. eapply finish. exact PP.
  Qed.

  Lemma stats_steps : forall keepdata info m, stats_tree keepdata info = Ok m -> exists st d, info = VDict d /\ (if keepdata then m = VDict (store d (t "statistics") st) else m = VDict (delete (store d (t "statistics") st) (t "prediction"))).
  Proof.
    intros keepdata info m E. unfold M_Tree.stats_tree in E. destruct (fetch info [t "prediction"; t "event"]) as [ev|]; [|discriminate]. cbn [bind] in E.
    match type of E with (do tp <- ?g; _) = _ => destruct g as [tp|]; [|discriminate] end. cbn [bind] in E. destruct (fetch info [t "model"; t "task_type"]) as [ty|]; [|discriminate]. cbn [bind] in E.
    match type of E with (do st <- ?g; _) = _ => destruct g as [st|]; [|discriminate] end. cbn [bind] in E. cbn [put] in E. destruct info as [| | | | | | | | | | | |d]; try discriminate. cbn [set_item bind] in E.
    exists st, d. split; [reflexivity|]. destruct keepdata; [injection E as <-; reflexivity|]. unfold del_item in E. destruct (lookup (store d (t "statistics") st) (t "prediction")); [|discriminate]. injection E as <-. reflexivity.
  Qed.
  Lemma find_delete : forall (l : list (key * V)) k k', k <> k' -> find (called k) (delete l k') = find (called k) l.
  Proof.
    induction l as [|[s v] l IH]; intros k k' N; [reflexivity|]. destruct s as [s| | |]; cbn [delete is_key]; cbn [find called fst]; try (apply IH; exact N).
    destruct (text_eqb k' s) eqn:E; [apply text_eqb_eq in E; subst s; rewrite text_neqb by congruence; reflexivity|]. cbn [find called fst]. destruct (text_eqb s k); [reflexivity|apply IH; exact N].
  Qed.
  (** everything else stays *)
  Theorem C148_rest : forall keepdata info m, stats_tree keepdata info = Ok m ->
    forall r, apart r [t "statistics"] -> (keepdata = false -> apart r [t "prediction"]) -> path m r = path info r.
  Proof.
    intros keepdata info m E r A1 A2. destruct (stats_steps _ _ _ E) as (st & d & -> & M).
    pose proof (put_frame [t "statistics"] (VDict d) st (VDict (store d (t "statistics") st)) eq_refl r A1) as F. destruct keepdata; subst m; [exact F|]. rewrite <- F. specialize (A2 eq_refl).
    destruct r as [|k r]; [exfalso; apply (A1 [t "statistics"] []); reflexivity|]. cbn [path]. rewrite find_delete; [reflexivity|]. intros ->. apply (A2 [] r). rewrite app_nil_r. reflexivity.
  Qed.
  (** without --keep the predictions are gone *)
  Theorem C148_removed : forall info m d, stats_tree false info = Ok m -> info = VDict d -> NoDup (map fst d) -> forall q, path m (t "prediction" :: q) = None.
  Proof.
    intros info m d E -> ND q. destruct (stats_steps _ _ _ E) as (st & d' & ED & ->). injection ED as <-. cbn [path].
    assert (X : forall (l : list (key * V)) k, NoDup (map fst l) -> find (called k) (delete l k) = None).
    { clear. induction l as [|[s v] l IH]; intros k N; [reflexivity|]. inversion N as [|? ? NI N']; subst. destruct s as [s| | |]; cbn [delete is_key]; cbn [find called fst]; try (apply IH; exact N').
      destruct (text_eqb k s) eqn:EK; [|cbn [find called fst]; rewrite text_eqb_sym', EK; apply IH; exact N']. apply text_eqb_eq in EK. subst s. cbn [fst] in NI. clear - NI. induction l as [|[s v] l IH]; [reflexivity|].
      cbn [map fst In] in NI. destruct s as [s| | |]; cbn [find called fst]; try (apply IH; tauto). rewrite text_neqb by (intros ->; tauto). apply IH. tauto. }
    assert (NS : NoDup (map fst (store d (t "statistics") st))).
    { clear - ND. induction d as [|[s v] d IH]; [constructor; [intros []|constructor]|]. cbn [map fst] in ND. inversion ND as [|? ? NI N']; subst. specialize (IH N').
      assert (Y : forall k z (l : list (key * V)), In z (map fst (store l k st)) -> z = KStr k \/ In z (map fst l)).
      { clear. intros k z. induction l as [|[s v] l IH]; [intros [<-|[]]; auto|]. destruct s as [s| | |]; cbn [store is_key]; [destruct (text_eqb k s)| | |]; cbn [map fst In]; try tauto; intros [I|I]; auto; destruct (IH I); auto. }
      destruct s as [s| | |]; cbn [store is_key]; [destruct (text_eqb (t "statistics") s) eqn:EK; [constructor; assumption|]| | |]; cbn [map fst]; constructor; auto; intros I; apply Y in I as [I|I]; try contradiction; try discriminate.
      injection I as ->. rewrite text_eqb_refl' in EK. discriminate. }
    rewrite (X _ _ NS). reflexivity.
  Qed.

  (** the statistics come from five places in the file *)
  Definition same_statistics (x y : res V) : Prop :=
    match x, y with Ok m, Ok m' => exists st, path m [t "statistics"] = Some st /\ path m' [t "statistics"] = Some st | Raise e, Raise e' => e = e' | _, _ => False end.
  Theorem C148_depends : forall keepdata v w,
    (forall p, In p [[t "prediction"; t "event"]; [t "prediction"; t "true"]; [t "prediction"; t "predicted"]; [t "model"; t "task_type"]; [t "condition"; t "score_domain"]] -> exists x, path v p = Some x /\ path w p = Some x) ->
    same_statistics (stats_tree keepdata v) (stats_tree keepdata w).
  Proof.
    intros keepdata v w H. destruct (H [t "prediction"; t "event"]) as (ev & V1 & W1); [cbn; auto|]. destruct (H [t "prediction"; t "true"]) as (a & V2 & W2); [cbn; auto|]. destruct (H [t "prediction"; t "predicted"]) as (b & V3 & W3); [cbn; auto|].
    destruct (H [t "model"; t "task_type"]) as (ty & V4 & W4); [cbn; auto|]. destruct (H [t "condition"; t "score_domain"]) as (dom & V5 & W5); [cbn; auto 6|].
    assert (PP : forall u, path u [t "prediction"; t "event"] = Some ev -> exists x, path u [t "prediction"] = Some x).
    { intros u P. change [t "prediction"; t "event"] with ([t "prediction"] ++ [t "event"]) in P. rewrite path_app in P. destruct (path u [t "prediction"]); [eauto|discriminate]. }
    destruct (PP v V1) as (xv & PV). destruct (PP w W1) as (xw & PW).
    unfold M_Tree.stats_tree. rewrite (proj2 (fetch_path _ _ _) V1), (proj2 (fetch_path _ _ _) W1), (proj2 (fetch_path _ _ _) V2), (proj2 (fetch_path _ _ _) W2), (proj2 (fetch_path _ _ _) V3), (proj2 (fetch_path _ _ _) W3),
      (proj2 (fetch_path _ _ _) V4), (proj2 (fetch_path _ _ _) W4), (proj2 (fetch_path _ _ _) V5), (proj2 (fetch_path _ _ _) W5). cbn [bind].
    match goal with |- same_statistics (do tp <- ?g; _) _ => destruct g as [tp|]; [|reflexivity] end. cbn [bind].
    match goal with |- same_statistics (do st <- ?g; _) _ => destruct g as [st|]; [|reflexivity] end. cbn [bind].
    destruct (finish keepdata v st xv PV) as (m1 & -> & P1). destruct (finish keepdata w st xw PW) as (m2 & -> & P2). cbn [same_statistics]. eauto.
  Qed.
  (** a merged file gets the statistics of the complete cross validation *)
  Theorem C148_merged : forall out f0 rest fs m c keepdata (X : text -> text -> V) dom ty, merge_trees out (f0 :: rest) = Ok m -> NoDup fs ->
    Forall2 (fun d f => about d f /\ forall sub, In sub [t "event"; t "true"; t "predicted"] -> path d [t "prediction"; sub] = Some (VDict [(KStr f, X sub f)])) (f0 :: rest) fs ->
    (forall sub, In sub [t "event"; t "true"; t "predicted"] -> path c [t "prediction"; sub] = Some (VDict (map (fun f => (KStr f, X sub f)) fs))) ->
    path c [t "model"; t "task_type"] = Some ty -> path f0 [t "model"; t "task_type"] = Some ty -> path c [t "condition"; t "score_domain"] = Some dom -> path f0 [t "condition"; t "score_domain"] = Some dom ->
    same_statistics (stats_tree keepdata m) (stats_tree keepdata c).
  Proof.
    intros out f0 rest fs m c keepdata X dom ty E ND F C T1 T2 D1 D2.
    assert (O3 : forall sub, In sub [t "event"; t "true"; t "predicted"] -> exists x, path m [t "prediction"; sub] = Some x /\ path c [t "prediction"; sub] = Some x).
    { intros sub I. rewrite (C sub I). eexists. split; [|reflexivity]. apply (C147_order out f0 rest fs m [t "prediction"; sub] (X sub) E ND).
      - inversion F as [|? y ? l' (A1 & P1) F']; subst. eapply bf_prediction; [|apply P1; exact I]. cbn [In] in I. destruct I as [<-|[<-|[<-|[]]]]; tneq.
      - clear - F I. induction F as [|d f l l' (A & P) F IH]; constructor; auto. }
    assert (OR : forall a b, In [a; b] [[t "model"; t "task_type"]; [t "condition"; t "score_domain"]] -> path m [a; b] = path f0 [a; b]).
    { intros a b I. apply (C147_rest out f0 rest m _ E); cbn [In] in I; destruct I as [I|[I|[]]]; injection I as <- <-; try aparts; intros d f p _ _ B; destruct B; cbn [app]; aparts. }
    apply C148_depends. intros p I. cbn [In] in I. destruct I as [<-|[<-|[<-|[<-|[<-|[]]]]]]; try (apply O3; cbn [In]; auto).
    - exists ty. rewrite OR by (cbn; auto). auto.
    - exists dom. rewrite OR by (cbn; auto). auto.
  Qed.

  (** on files: the written file holds the resulting tree *)
  Lemma fine_delete : forall d k, fine (VDict d) -> fine (VDict (delete d k)).
  Proof.
    intros d k F. apply fine_dict in F as (F & ND). apply fine_dict.
    assert (SUB : forall kv (l : list (key * V)), In kv (delete l k) -> In kv l).
    { clear. intros kv. induction l as [|[s v] l IH]; [auto|]. cbn [delete]. destruct (is_key k s); cbn [In]; [auto|]. intros [I|I]; auto. }
    split; [rewrite Forall_forall in *; auto|]. clear F. induction d as [|[s v] d IH]; [constructor|]. cbn [map] in ND. inversion ND as [|? ? NI N']; subst. cbn [delete]. destruct (is_key k s); [exact N'|]. cbn [map]. constructor; [|apply IH; exact N'].
    intros I. apply NI. apply in_map_iff in I as (kv & E & I). rewrite <- E. apply in_map. apply SUB. exact I.
  Qed.
  Theorem C148_files : forall python keepdata s v, before39 python -> file_of s v ->
    (forall a b dom st, score_statistics a b dom = Ok st -> writable st /\ text_keys st) -> (forall a b st, finder_statistics a b = Ok st -> writable st /\ text_keys st) ->
    match stats_tree keepdata v with
    | Ok m => exists s', stats_file python keepdata s = Ok s' /\ file_of s' m /\ loads s' = Some m
    | Raise e => stats_file python keepdata s = Raise e
    end.
  Proof.
    intros python keepdata s v B F H1 H2. unfold M_Tree.stats_file. rewrite (load_file python s v B F). cbn [bind]. destruct (stats_tree keepdata v) as [m|e] eqn:E; [|reflexivity]. cbn [bind].
    assert (FM : fine m).
    { destruct F as (W & T & _). assert (FV : fine v) by (split; assumption). unfold M_Tree.stats_tree in E. destruct (fetch v [t "prediction"; t "event"]) as [ev|]; [|discriminate]. cbn [bind] in E.
      match type of E with (do tp <- ?g; _) = _ => destruct g as [tp|]; [|discriminate] end. cbn [bind] in E. destruct (fetch v [t "model"; t "task_type"]) as [ty|]; [|discriminate]. cbn [bind] in E.
      match type of E with (do st <- ?g; _) = _ => destruct g as [st|] eqn:ES; [|discriminate] end. cbn [bind] in E.
      assert (FS : fine st).
      { destruct ty; try discriminate. destruct (text_eqb s0 (t "score_predictor")); [destruct (fetch v [t "condition"; t "score_domain"]) as [dom|]; [|discriminate]; eapply H1; exact ES|]. destruct (text_eqb s0 (t "item_finder")); [eapply H2; exact ES|discriminate]. }
      destruct (put v [t "statistics"] st) as [i|] eqn:EP; [|discriminate]. cbn [bind] in E. assert (FI : fine i) by (eapply fine_put; [|exact FV|exact FS|exact EP]; uni).
      destruct keepdata; [injection E as <-; exact FI|]. unfold del_item in E. destruct i; try discriminate. destruct (lookup d (t "prediction")); [|discriminate]. injection E as <-. apply fine_delete. exact FI. }
    destruct FM as (W & T). destruct (C146_same repr read_float f_nan f_inf f_neginf none m W T) as (s' & D & L). exists s'. repeat split; assumption.
  Qed.

  (** ** What merging does not notice *)
  Definition fold_file (name fold : text) (shift : Z) (extra : list (key * V)) : V :=
    VDict [(KStr (t "model"), VDict [(KStr (t "task_type"), VStr (t "score_predictor")); (KStr (t "name"), VStr name)]);
           (KStr (t "condition"), VDict [(KStr (t "score_domain"), VList [VInt 1; VInt 5; VInt 1])]);
           (KStr (t "environment"), VDict [(KStr (t "node"), VStr (t "host" ++ fold))]);
           (KStr (t "training"), VDict [(KStr (t "results"), VDict [(KStr fold, VInt shift)])]);
           (KStr (t "test"), VDict [(KStr (t "results"), VDict [(KStr fold, VInt (shift + 1))])]);
           (KStr (t "prediction"), VDict ([(KStr (t "event"), VDict [(KStr fold, VList [VList [VInt 3; VInt 4]; VList [VInt 5; VInt shift]])]);
                                           (KStr (t "true"), VDict [(KStr fold, VList [VInt shift; VInt 2])]);
                                           (KStr (t "predicted"), VDict [(KStr fold, VList [VInt 3; VInt shift])])] ++ extra))].
  (** results of different methods are merged as one experiment *)
  Theorem C147_mixed_refuted : exists out f0 d m, merge_trees out [f0; d] = Ok m /\ path f0 [t "model"; t "name"] = Some (VStr (t "a")) /\ path d [t "model"; t "name"] = Some (VStr (t "b")) /\
    path m [t "model"; t "name"] = Some (VStr (t "a")) /\ exists x y, path m [t "prediction"; t "predicted"] = Some (VDict [(KStr (t "0"), x); (KStr (t "1"), y)]) /\
      path f0 [t "prediction"; t "predicted"; t "0"] = Some x /\ path d [t "prediction"; t "predicted"; t "1"] = Some y.
  Proof. exists (t "out"), (fold_file (t "a") (t "0") 1 []), (fold_file (t "b") (t "1") 2 []). eexists. split; [vm_compute; reflexivity|]. repeat (split; [vm_compute; reflexivity|]). eexists. eexists. repeat (split; [vm_compute; reflexivity|]). vm_compute. reflexivity. Qed.
  (** predictions the first file does not have are dropped *)
  Theorem C147_dropped_refuted : exists out f0 d m x, merge_trees out [f0; d] = Ok m /\ path d [t "prediction"; t "event_feature"; t "timestamp"; t "1"] = Some x /\ path m [t "prediction"; t "event_feature"] = None.
  Proof.
    exists (t "out"), (fold_file (t "a") (t "0") 1 []), (fold_file (t "a") (t "1") 2 [(KStr (t "event_feature"), VDict [(KStr (t "timestamp"), VDict [(KStr (t "1"), VList [VInt 7])])])]). eexists. eexists.
    split; [vm_compute; reflexivity|]. split; vm_compute; reflexivity.
  Qed.
  (** of two files about the same fold the first is lost *)
  Theorem C147_again_refuted : exists out f0 d m x y, merge_trees out [f0; d] = Ok m /\ path f0 [t "prediction"; t "true"] = Some (VDict [(KStr (t "0"), x)]) /\ x <> y /\
    path m [t "prediction"; t "true"] = Some (VDict [(KStr (t "0"), y)]).
  Proof.
    exists (t "out"), (fold_file (t "a") (t "0") 1 []), (fold_file (t "a") (t "0") 2 []). eexists. eexists. eexists. split; [vm_compute; reflexivity|]. split; [vm_compute; reflexivity|]. split; [|vm_compute; reflexivity]. discriminate.
  Qed.
End Tree.

(** ** Two folds, merged and evaluated *)
Definition ex_feature (fold : text) (z : Z) : list (jkey nat text * value (option Z) Empty_set nat text) :=
  [(KStr (t "event_feature"), VDict [(KStr (t "timestamp"), VDict [(KStr fold, VList [VInt z; VInt 9])])])].
Definition ex_f0 : value (option Z) Empty_set nat text := fold_file (t "a") (t "0") 1 (ex_feature (t "0") 7).
Definition ex_f1 : value (option Z) Empty_set nat text := fold_file (t "a") (t "1") 4 (ex_feature (t "1") 8).
Definition ex_X (p : list text) (f : text) : value (option Z) Empty_set nat text :=
  match path (if text_eqb f (t "0") then ex_f0 else ex_f1) (p ++ [f]) with Some x => x | None => VBool false end.
Definition ex_scores (a b dom : value (option Z) Empty_set nat text) : res (value (option Z) Empty_set nat text) :=
  match a, b with VList x, VList y => Ok (VDict [(KStr (t "n"), VInt (Z.of_nat (length x))); (KStr (t "true"), a); (KStr (t "predicted"), b)]) | _, _ => Raise ValueError end.
(** the file of the complete cross validation *)
Definition ex_cv : value (option Z) Empty_set nat text :=
  VDict [(KStr (t "model"), VDict [(KStr (t "task_type"), VStr (t "score_predictor"))]); (KStr (t "condition"), VDict [(KStr (t "score_domain"), VList [VInt 1; VInt 5; VInt 1])]);
         (KStr (t "training"), VDict [(KStr (t "results"), VDict [(KStr (t "0"), VInt 1); (KStr (t "1"), VInt 4)])]);
         (KStr (t "test"), VDict [(KStr (t "results"), VDict [(KStr (t "0"), VInt 2); (KStr (t "1"), VInt 5)])]);
         (KStr (t "prediction"), VDict (map (fun s => (KStr s, VDict (map (fun f => (KStr f, ex_X [t "prediction"; s] f)) [t "0"; t "1"]))) [t "event"; t "true"; t "predicted"] ++
            [(KStr (t "event_feature"), VDict [(KStr (t "timestamp"), VDict (map (fun f => (KStr f, ex_X [t "prediction"; t "event_feature"; t "timestamp"] f)) [t "0"; t "1"]))])]))].

Lemma ex_by_fold : forall p, by_fold ex_f0 p -> In p [[t "training"; t "results"]; [t "test"; t "results"]; [t "prediction"; t "event"]; [t "prediction"; t "true"]; [t "prediction"; t "predicted"]; [t "prediction"; t "event_feature"; t "timestamp"]].
Proof.
  intros p B. destruct B as [| |s x N P|k x P]; [cbn; auto|cbn; auto| |].
  - change [t "prediction"; s] with ([t "prediction"] ++ [s]) in P. rewrite path_app in P.
    cbn [In]. destruct (path ex_f0 [t "prediction"]) as [v|] eqn:E; [|discriminate]. vm_compute in E. injection E as <-. cbn [path find called fst] in P.
    repeat match type of P with context [text_eqb ?a s] => destruct (text_eqb a s) eqn:?; [match goal with H : text_eqb _ _ = true |- _ => apply text_eqb_eq in H; subst s end|] end; try discriminate P; try (exfalso; apply N; reflexivity); [right; right; left; reflexivity|right; right; right; left; reflexivity|right; right; right; right; left; reflexivity].
  - change [t "prediction"; t "event_feature"; k] with ([t "prediction"; t "event_feature"] ++ [k]) in P. rewrite path_app in P. destruct (path ex_f0 [t "prediction"; t "event_feature"]) as [v|] eqn:E; [|discriminate]. vm_compute in E. injection E as <-. cbn [path find called fst] in P.
    match type of P with context [text_eqb ?a k] => destruct (text_eqb a k) eqn:EK; [|discriminate P] end. apply text_eqb_eq in EK. subst k. cbn [In]. do 5 right. left. reflexivity.
Qed.

Ltac each_fold := let p := fresh "p" in let B := fresh "B" in intros p B; apply ex_by_fold in B; cbn [In] in B; repeat destruct B as [<-|B]; try contradiction.
Example C147_nonvacuous : mergeable ex_f0 /\ supplies ex_f0 ex_f0 /\ supplies ex_f0 ex_f1 /\ NoDup [t "0"; t "1"] /\
  (forall p, by_fold ex_f0 p -> Forall2 (fun d f => about d f /\ path d p = Some (VDict [(KStr f, ex_X p f)])) [ex_f0; ex_f1] [t "0"; t "1"]) /\
  exists m, merge_trees (t "out") [ex_f0; ex_f1] = Ok m /\ about ex_f1 (t "1") /\ by_fold ex_f0 [t "prediction"; t "event_feature"; t "timestamp"] /\
    path m [t "prediction"; t "event_feature"; t "timestamp"] = Some (VDict [(KStr (t "0"), VList [VInt 7; VInt 9]); (KStr (t "1"), VList [VInt 8; VInt 9])]) /\
    path m [t "environment"; t "environment_fold"; t "1"; t "node"] = Some (VStr (t "host1")).
Proof.
  assert (TK : forall d, forallb (fun kv => match fst kv with KStr _ => true | _ => false end) d = true -> text_keyed (VDict d : value (option Z) Empty_set nat text)).
  { intros d H. exists d. split; [reflexivity|]. rewrite forallb_forall in H. apply Forall_forall. intros [s x] I. apply H in I. cbn in I. destruct s; try discriminate. eexists. reflexivity. }
  assert (SU : forall f d, d = ex_f0 /\ f = t "0" \/ d = ex_f1 /\ f = t "1" -> supplies ex_f0 d).
  { intros f d H. destruct H as [(-> & ->)|(-> & ->)]; [exists (t "0")|exists (t "1")]; eexists.
    - split; [eexists; eexists; vm_compute; reflexivity|]. split; [vm_compute; reflexivity|]. split; [apply TK; reflexivity|]. split; [eexists; vm_compute; reflexivity|]. each_fold; eexists; vm_compute; reflexivity.
    - split; [eexists; eexists; vm_compute; reflexivity|]. split; [vm_compute; reflexivity|]. split; [apply TK; reflexivity|]. split; [eexists; vm_compute; reflexivity|]. each_fold; eexists; vm_compute; reflexivity. }
  split.
  { split; [eexists; vm_compute; reflexivity|]. split; [eexists; vm_compute; reflexivity|]. split; [each_fold; eexists; vm_compute; reflexivity|].
    split; [eexists; split; [vm_compute; reflexivity|]; apply TK; reflexivity|]. intros x P. vm_compute in P. injection P as <-. apply TK. reflexivity. }
  split; [eapply SU; left; split; reflexivity|]. split; [eapply SU; right; split; reflexivity|]. split; [repeat constructor; cbn; intuition discriminate|]. split.
  { each_fold; (constructor; [|constructor; [|constructor]]); (split; [eexists; eexists; vm_compute; reflexivity|vm_compute; reflexivity]). }
  eexists. split; [vm_compute; reflexivity|]. split; [eexists; eexists; vm_compute; reflexivity|]. split; [eapply bf_feature; vm_compute; reflexivity|]. split; vm_compute; reflexivity.
Qed.

Notation ex_stats := (stats_tree ex_scores (fun _ _ => Raise ValueError)).
Example C148_nonvacuous : exists m a b g, merge_trees (t "out") [ex_f0; ex_f1] = Ok m /\
  (forall p, by_fold ex_f0 p -> path ex_cv p = Some (VDict (map (fun f => (KStr f, ex_X p f)) [t "0"; t "1"]))) /\
  inputs ex_cv a b /\ asked ex_scores (fun _ _ => Raise ValueError) ex_cv g /\
  (do r <- ex_stats true m; fetch r [t "statistics"]) = Ok (VDict [(KStr (t "n"), VInt 4); (KStr (t "true"), VList [VInt 1; VInt 2; VInt 4; VInt 2]); (KStr (t "predicted"), VList [VInt 3; VInt 1; VInt 3; VInt 4])]) /\
  (do r <- ex_stats false ex_cv; fetch r [t "statistics"]) = (do r <- ex_stats true m; fetch r [t "statistics"]) /\
  (do r <- ex_stats false m; fetch r [t "prediction"]) = Raise KeyError.
Proof.
  eexists. eexists. eexists. eexists. split; [vm_compute; reflexivity|]. split; [each_fold; vm_compute; reflexivity|]. split.
  { left. eexists. exists (map VInt [1; 2; 4; 2]%Z), (map VInt [3; 1; 3; 4]%Z). split; [vm_compute; reflexivity|].
    split; [exists [(KStr (t "0"), VList (map VInt [1; 2]%Z)); (KStr (t "1"), VList (map VInt [4; 2]%Z))], [map VInt [1; 2]%Z; map VInt [4; 2]%Z]; split; [vm_compute; reflexivity|]; split; [discriminate|]; split; [repeat constructor|reflexivity]|].
    split; [exists [(KStr (t "0"), VList (map VInt [3; 1]%Z)); (KStr (t "1"), VList (map VInt [3; 4]%Z))], [map VInt [3; 1]%Z; map VInt [3; 4]%Z]; split; [vm_compute; reflexivity|]; split; [discriminate|]; split; [repeat constructor|reflexivity]|]. split; reflexivity. }
  split. { left. split; [vm_compute; reflexivity|]. eexists. split; [vm_compute; reflexivity|reflexivity]. }
  split; [vm_compute; reflexivity|]. split; vm_compute; reflexivity.
Qed.
(** the same on the text of the files *)
Definition ex_text (v : value (option Z) Empty_set nat text) : text := match dumps ex_repr v with Ok s => s | Raise _ => [] end.
Notation ex_merge := (merge_files (Fl := option Z) (Cx := Empty_set) (Ob := nat) ex_repr ex_read None (Some 0%Z) (Some 0%Z) 7%nat ex_str).
Notation ex_stats_file := (stats_file (Fl := option Z) (Cx := Empty_set) (Ob := nat) ex_scores (fun _ _ => Raise ValueError) ex_repr ex_read None (Some 0%Z) (Some 0%Z) 7%nat).
Example C147_text : (do s <- ex_merge (3, 8)%nat (t "out") [ex_text ex_f0; ex_text ex_f1]; ex_stats_file (3, 8)%nat false s) =
    Ok (t "{""model"": {""task_type"": ""score_predictor"", ""name"": ""a""}, ""condition"": {""score_domain"": [1, 5, 1], ""merged"": true, ""out_file"": ""out""}, ""environment"": {""node"": ""host0"", ""environment_fold"": {""0"": {""node"": ""host0""}, ""1"": {""node"": ""host1""}}}, ""training"": {""results"": {""0"": 1, ""1"": 4}}, ""test"": {""results"": {""0"": 2, ""1"": 5}}, ""statistics"": {""n"": 4, ""true"": [1, 2, 4, 2], ""predicted"": [3, 1, 3, 4]}}") /\
  ex_merge (3, 9)%nat (t "out") [ex_text ex_f0; ex_text ex_f1] = Raise TypeError.
Proof. split; vm_compute; reflexivity. Qed.

Print Assumptions C147_fold.
Print Assumptions C147_first.
Print Assumptions C147_rest.
Print Assumptions C147_notes.
Print Assumptions C147_order.
Print Assumptions C147_runs.
Print Assumptions C147_files.
Print Assumptions C147_python39_refuted.
Print Assumptions C147_mixed_refuted.
Print Assumptions C147_dropped_refuted.
Print Assumptions C147_again_refuted.
Print Assumptions C148_statistics.
Print Assumptions C148_rest.
Print Assumptions C148_removed.
Print Assumptions C148_depends.
Print Assumptions C148_merged.
Print Assumptions C148_files.
