(** * Statistics of predictions: C21 (densities), C54, C55, C56, C70 *)
From Coq Require Import List ZArith QArith Qreals Reals Lra Lia Bool Permutation Sorted.
From Verif Require Import M_Py P_Py M_Score P_Score T_Score M_Rec P_Rec T_Rec P_RSum M_Metrics T_Metrics.
Import ListNotations.
Open Scope R_scope.

(** ** C54 *)
Lemma lookup_in : forall A (d : list (Z * A)) k v, NoDup (map fst d) -> In (k, v) d -> lookup k d = Ok v.
Proof.
  induction d as [|[k' v'] d IH]; intros k v N H; [contradiction|]. cbn in N. inversion N; subst. cbn [lookup].
  destruct H as [H|H].
  - inversion H; subst. rewrite Z.eqb_refl. auto.
  - destruct (Z.eqb_spec k' k); [|apply IH; auto]. subst. exfalso. apply H2. apply in_map_iff. exists (k, v). auto.
Qed.
Lemma lookup_not : forall A (d : list (Z * A)) k, ~ In k (map fst d) -> lookup k d = Raise KeyError.
Proof.
  induction d as [|[k' v'] d IH]; intros k H; [auto|]. cbn in *. destruct (Z.eqb_spec k' k); [tauto|]. apply IH. tauto.
Qed.
Lemma lookup_perm : forall A (d d' : list (Z * A)) k, NoDup (map fst d) -> Permutation d d' -> lookup k d = lookup k d'.
Proof.
  intros A d d' k N P. assert (N' : NoDup (map fst d')) by (apply (Permutation_NoDup (Permutation_map fst P)); auto).
  destruct (in_dec Z.eq_dec k (map fst d)) as [I|I].
  - apply in_map_iff in I. destruct I as [[k' v] [E I]]. cbn in E. subst. rewrite (lookup_in _ d k v), (lookup_in _ d' k v); auto.
    apply (Permutation_in _ P). auto.
  - rewrite !lookup_not; auto. intros I'. apply I. apply (Permutation_in _ (Permutation_sym (Permutation_map fst P))). auto.
Qed.

Lemma mapM_ext : forall A B (f g : A -> res B) l, (forall x, In x l -> f x = g x) -> mapM f l = mapM g l.
Proof.
  induction l as [|x l IH]; intros H; [auto|]. cbn [mapM]. rewrite H by (left; auto). rewrite IH; auto. intros; apply H; right; auto.
Qed.
Lemma mapM_all : forall A B (f : A -> res B) g l, (forall x, In x l -> f x = Ok (g x)) -> mapM f l = Ok (map g l).
Proof. induction l as [|x l IH]; intros H; [auto|]. cbn [mapM map]. rewrite H by (left; auto). cbn [bind]. rewrite IH; auto. intros; apply H; right; auto. Qed.

Lemma sorted_keys_perm : forall A (d : list (Z * A)) ks, NoDup (map fst d) -> Permutation ks (map fst d) ->
  Permutation ks (np_unique Z.compare (map fst d)).
Proof.
  intros A d ks N P. apply Permutation_trans with (map fst d); auto. apply NoDup_Permutation; auto.
  - apply (ssorted_NoDup _ Z_laws), (np_unique_sorted _ Z_laws).
  - intros x. symmetry. apply (np_unique_in _ Z_laws Z_leibniz).
Qed.

Lemma values_of : forall A (ds : list (list (Z * A))) vals k, Forall (fun c => NoDup (map fst c)) ds ->
  Forall2 (fun c v => In (k, v) c) ds vals -> mapM (fun c => getitem c k) (map CDict ds) = Ok vals.
Proof.
  intros A ds vals k N F. induction F as [|c v ds vals H F IH]; [auto|]. inversion N; subst. cbn [map mapM getitem].
  rewrite (lookup_in _ c k v) by auto. cbn [bind]. rewrite IH; auto.
Qed.

Lemma scalars_map : forall A (g : A -> R) l, scalars (map (fun x => Sc (g x)) l) = Some (map g l).
Proof. induction l as [|x l IH]; cbn; [auto|]. rewrite IH. auto. Qed.
Lemma vectors_map : forall A (g : A -> list R) n l, (forall x, In x l -> length (g x) = n) -> vectors n (map (fun x => Vec (g x)) l) = Some (map g l).
Proof.
  induction l as [|x l IH]; intros H; cbn; [auto|]. rewrite H by (left; auto). rewrite Nat.eqb_refl, IH; auto. intros; apply H; right; auto.
Qed.

(** dictionaries [d :: ds] (distinct keys each); [ks] are the keys of the first
    in any order, [vals k] the values stored under k in all of them *)
Theorem C54_dicts : forall A (f : list A -> res stat) (g : list A -> R) d ds ks vals,
  Forall (fun c => NoDup (map fst c)) (d :: ds) -> Permutation ks (map fst d) -> ks <> [] ->
  (forall k, In k ks -> Forall2 (fun c v => In (k, v) c) (d :: ds) (vals k)) ->
  (forall k, In k ks -> f (vals k) = Ok (Sc (g (vals k)))) ->
  statistics_mean f (map CDict (d :: ds)) = Ok (MSc (Some (average (map (fun k => g (vals k)) ks)))).
Proof.
  intros A f g d ds ks vals N P Ne V F. inversion N; subst. pose proof (sorted_keys_perm _ _ _ H1 P) as Q.
  unfold statistics_mean. cbn [map]. change (CDict d :: map CDict ds) with (map CDict (d :: ds)).
  set (us := np_unique Z.compare (map fst d)) in *.
  rewrite (mapM_all _ _ _ (fun k => Sc (g (vals k)))).
  2:{ intros k Hk. apply (Permutation_in _ (Permutation_sym Q)) in Hk. rewrite (values_of _ _ (vals k)); auto. cbn [bind]. auto. }
  cbn [bind]. unfold mean_axis0. rewrite scalars_map.
  destruct us as [|u us'] eqn:E; [apply Permutation_sym, Permutation_nil in Q; contradiction|]. cbn [map].
  change (g (vals u) :: map (fun k => g (vals k)) us') with (map (fun k => g (vals k)) (u :: us')). rewrite np_mean_ok by discriminate.
  do 3 f_equal. unfold average. rewrite !map_length, (Permutation_length Q).
  rewrite (rsum_perm _ _ (Permutation_map (fun k => g (vals k)) Q)). reflexivity.
Qed.

Theorem C54_vectors : forall A (f : list A -> res stat) (g : list A -> list R) n d ds ks vals,
  Forall (fun c => NoDup (map fst c)) (d :: ds) -> Permutation ks (map fst d) -> ks <> [] ->
  (forall k, In k ks -> Forall2 (fun c v => In (k, v) c) (d :: ds) (vals k)) ->
  (forall k, In k ks -> f (vals k) = Ok (Vec (g (vals k))) /\ length (g (vals k)) = n) ->
  exists m, statistics_mean f (map CDict (d :: ds)) = Ok (MVec m) /\ length m = n /\
    forall j, (j < n)%nat -> nth j m 0 = average (map (fun k => nth j (g (vals k)) 0) ks).
Proof.
  intros A f g n d ds ks vals N P Ne V F. inversion N; subst. pose proof (sorted_keys_perm _ _ _ H1 P) as Q.
  unfold statistics_mean. cbn [map]. change (CDict d :: map CDict ds) with (map CDict (d :: ds)).
  set (us := np_unique Z.compare (map fst d)) in *.
  assert (Fu : forall k, In k us -> f (vals k) = Ok (Vec (g (vals k))) /\ length (g (vals k)) = n) by (intros k Hk; apply F, (Permutation_in _ (Permutation_sym Q)); auto).
  rewrite (mapM_all _ _ _ (fun k => Vec (g (vals k)))).
  2:{ intros k Hk. rewrite (values_of _ _ (vals k)); auto; [cbn [bind]; apply Fu; auto|]. apply V, (Permutation_in _ (Permutation_sym Q)); auto. }
  cbn [bind]. unfold mean_axis0.
  destruct us as [|u us'] eqn:E; [apply Permutation_sym, Permutation_nil in Q; contradiction|]. cbn [map].
  change (Vec (g (vals u)) :: map (fun k => Vec (g (vals k))) us') with (map (fun k => Vec (g (vals k))) (u :: us')).
  destruct (Fu u ltac:(left; auto)) as [_ ->]. rewrite vectors_map by (intros; apply Fu; auto).
  eexists. split; [reflexivity|]. split; [rewrite map_length, seq_length; auto|]. intros j Hj.
  rewrite (nth_indep _ 0 (rsum (map (fun r => nth 0 r 0) (map (fun k => g (vals k)) (u :: us'))) / INR (length (map (fun k => g (vals k)) (u :: us')))))
    by (rewrite map_length, seq_length; auto).
  rewrite (map_nth (fun j => rsum (map (fun r => nth j r 0) (map (fun k => g (vals k)) (u :: us'))) / INR (length (map (fun k => g (vals k)) (u :: us'))))).
  rewrite seq_nth by auto. cbn [plus]. rewrite map_map. unfold average. rewrite !map_length, (Permutation_length Q).
  rewrite (rsum_perm _ _ (Permutation_map (fun k => nth j (g (vals k)) 0) Q)). reflexivity.
Qed.

(** the order of insertion is irrelevant, whatever the function does *)
Theorem C54_order : forall A (f : list A -> res stat) ds ds', Forall (fun c => NoDup (map fst c)) ds ->
  Forall2 (@Permutation (Z * A)) ds ds' -> statistics_mean f (map CDict ds) = statistics_mean f (map CDict ds').
Proof.
  intros A f ds ds' N F. unfold statistics_mean. destruct F as [|d d' ds ds' P F]; [auto|]. inversion N; subst. cbn [map].
  change (CDict d :: map CDict ds) with (map CDict (d :: ds)). change (CDict d' :: map CDict ds') with (map CDict (d' :: ds')).
  assert (E : np_unique Z.compare (map fst d) = np_unique Z.compare (map fst d')).
  { apply (np_unique_ext _ Z_laws Z_leibniz). intros x. split; apply Permutation_in; [|apply Permutation_sym]; apply Permutation_map; auto. }
  rewrite <- E. f_equal. apply mapM_ext. intros k _.
  assert (Q : mapM (fun c => getitem c k) (map CDict (d :: ds)) = mapM (fun c => getitem c k) (map CDict (d' :: ds'))).
  { cbn [map mapM getitem]. rewrite (lookup_perm _ d d'); auto. destruct (lookup k d'); auto. cbn [bind].
    assert (Q : mapM (fun c => getitem c k) (map CDict ds) = mapM (fun c => getitem c k) (map CDict ds')); [|rewrite Q; auto].
    clear - F H2. induction F as [|x y l l' Px F IH]; [auto|]. inversion H2; subst. cbn [map mapM getitem]. rewrite (lookup_perm _ x y); auto.
    destruct (lookup k y); auto. cbn [bind]. rewrite IH; auto. }
  rewrite Q. auto.
Qed.

(** a key of the first dictionary that another one lacks is a KeyError *)
Theorem C54_missing_key : forall A (f : list A -> res stat) d ds, (forall args, exists v, f args = Ok v) ->
  (exists k c, In k (map fst d) /\ In c ds /\ ~ In k (map fst c)) -> statistics_mean f (map CDict (d :: ds)) = Raise KeyError.
Proof.
  intros A f d ds T [k [c [Hk [Hc Hn]]]]. unfold statistics_mean. cbn [map]. change (CDict d :: map CDict ds) with (map CDict (d :: ds)).
  assert (G : forall x l, (exists vs, mapM (fun c : coll A => getitem c x) (map CDict l) = Ok vs) \/ mapM (fun c => getitem c x) (map CDict l) = Raise KeyError).
  { intros x l. induction l as [|y l IH]; cbn [map mapM getitem]; [left; eexists; reflexivity|].
    destruct (lookup x y) as [v|e] eqn:E; cbn [bind].
    - destruct IH as [[vs ->]| ->]; [left; eexists; reflexivity|right; auto].
    - right. clear - E. induction y as [|[a b] y IH]; cbn in E; [congruence|]. destruct (Z.eqb a x); [discriminate|auto]. }
  assert (B : mapM (fun c : coll A => getitem c k) (map CDict (d :: ds)) = Raise KeyError).
  { destruct (G k (d :: ds)) as [[vs E]|E]; auto. exfalso. apply P_Py.mapM_ok in E.
    assert (I : In (CDict c) (map CDict (d :: ds))) by (apply in_map; right; auto).
    clear - E I Hn. induction E as [|x y l l' H E IH]; [contradiction|]. destruct I as [->|I]; auto. cbn in H. rewrite lookup_not in H by auto. discriminate. }
  assert (I : In k (np_unique Z.compare (map fst d))) by (apply (np_unique_in _ Z_laws Z_leibniz); auto).
  assert (M : mapM (fun k => do args <- mapM (fun c => getitem c k) (map CDict (d :: ds)); f args) (np_unique Z.compare (map fst d)) = Raise KeyError); [|rewrite M; auto].
  clear Hk. induction (np_unique Z.compare (map fst d)) as [|x us IH]; [contradiction|]. cbn [mapM].
  destruct I as [->|I]; [rewrite B; auto|]. destruct (G x (d :: ds)) as [[vs ->]| ->]; [|auto]. cbn [bind].
  destruct (T vs) as [v ->]. cbn [bind]. rewrite IH; auto.
Qed.

(** lists, documented as possible arguments, are never accepted *)
Theorem C54_lists_refuted : exists (f : list R -> res stat) a b,
  (exists v, f [1; 2] = Ok v) /\ length a = length b /\ a <> [] /\ statistics_mean f [CList a; CList b] = Raise TypeError.
Proof. exists (fun l => Ok (Sc (rsum l))), [1], [2]. repeat split; [eexists; reflexivity|discriminate]. Qed.
Theorem C54_lists_never : forall A (f : list A -> res stat) l args, statistics_mean f (CList l :: args) = Raise TypeError.
Proof. reflexivity. Qed.

Example C54_nonvacuous :
  statistics_mean (fun l => Ok (Sc (rsum l))) (map CDict [[(5%Z, 1); (2%Z, 3)]; [(2%Z, 10); (9%Z, 7); (5%Z, 20)]]) = Ok (MSc (Some 17)).
Proof.
  set (vals := fun k => if Z.eqb k 5 then [1; 20] else [3; 10]).
  rewrite (C54_dicts _ _ (fun l => rsum l) _ _ [5; 2]%Z vals).
  - do 3 f_equal. unfold average, vals. cbn. field.
  - repeat constructor; cbn; intuition discriminate.
  - apply Permutation_refl.
  - discriminate.
  - intros k [<-|[<-|[]]]; unfold vals; cbn [Z.eqb Pos.eqb]; (constructor; [cbn; auto|constructor; [cbn; auto|constructor]]).
  - reflexivity.
Qed.

(** ** C55 *)
Definition is_zero (e : option Q) : Prop := exists q, e = Some q /\ (q == 0)%Q.
Definition is_one (e : option Q) : Prop := exists q, e = Some q /\ (q == 1)%Q.

Lemma binary_both : forall sc, is_binary_score sc false = true <->
  (forall x, In x sc -> x == 0 \/ x == 1)%Q /\ (exists x, In x sc /\ x == 0)%Q /\ (exists x, In x sc /\ x == 1)%Q.
Proof.
  intros sc. unfold is_binary_score. rewrite array_equal_iff.
  assert (I : forall x, In x (np_unique Qcompare sc) -> In x sc) by (apply (np_unique_incl _ Q_laws)).
  assert (C : forall x, In x sc -> exists y, In y (np_unique Qcompare sc) /\ (y == x)%Q).
  { intros x Hx. destruct (np_unique_has _ Q_laws _ _ Hx) as [y [Hy E]]. exists y. split; auto. apply Qeq_alt in E. symmetry; auto. }
  split.
  - intros H. inversion H as [|e0 ? l0 ? E1 H1 EL]; subst. inversion H1 as [|e1 ? l1 ? E2 H2 EL2]; subst. inversion H2; subst.
    rewrite <- EL in *. split; [|split].
    + intros x Hx. destruct (C x Hx) as [y [[<-|[<-|[]]] Hy]]; rewrite <- Hy; auto.
    + exists e0. split; auto. apply I. left; auto.
    + exists e1. split; auto. apply I. right; left; auto.
  - intros [H1 [[x0 [H2 E0]] [x1 [H3 E1]]]]. apply sorted_two.
    + apply (np_unique_sorted _ Q_laws).
    + intros x Hx. apply H1. auto.
    + destruct (C x0 H2) as [y [Hy Ey]]. exists y. split; auto. rewrite Ey; auto.
    + destruct (C x1 H3) as [y [Hy Ey]]. exists y. split; auto. rewrite Ey; auto.
Qed.

Lemma all_same : forall l (c : Q), ssorted Qcompare l -> l <> [] -> (forall x, In x l -> x == c)%Q -> Forall2 Qeq l [c].
Proof.
  intros [|a [|b l]] c S N H; [congruence|constructor; [apply H; left; auto|constructor]|]. exfalso.
  inversion S as [|? ? S' F]; subst. inversion F as [|? ? L _]; subst. apply Qlt_alt in L. rewrite (H a), (H b) in L by (cbn; auto).
  apply Qlt_irrefl in L. auto.
Qed.

Lemma binary_uniform : forall sc, is_binary_score sc true = true <-> sc <> [] /\ (forall x, In x sc -> x == 0 \/ x == 1)%Q.
Proof.
  intros sc. unfold is_binary_score. rewrite !orb_true_iff. pose proof (binary_both sc) as B. unfold is_binary_score in B. rewrite B. clear B.
  rewrite !array_equal_iff.
  assert (I : forall x, In x (np_unique Qcompare sc) -> In x sc) by (apply (np_unique_incl _ Q_laws)).
  assert (C : forall x, In x sc -> exists y, In y (np_unique Qcompare sc) /\ (y == x)%Q).
  { intros x Hx. destruct (np_unique_has _ Q_laws _ _ Hx) as [y [Hy E]]. exists y. split; auto. apply Qeq_alt in E. symmetry; auto. }
  assert (One : forall c, Forall2 Qeq (np_unique Qcompare sc) [c] -> sc <> [] /\ forall x, In x sc -> (x == c)%Q).
  { intros c H. inversion H as [|e ? l ? E H1 EL]; subst. inversion H1; subst. rewrite <- EL in *. split.
    - intros ->. apply (I e). left; auto.
    - intros x Hx. destruct (C x Hx) as [y [[<-|[]] Hy]]. rewrite <- Hy. auto. }
  split.
  - intros [[[H1 [[x [Hx _]] _]]|H]|H].
    + split; auto. intros ->. contradiction.
    + destruct (One _ H). split; auto.
    + destruct (One _ H). split; auto.
  - intros [N H]. assert (D : forall c : Q, (exists x, In x sc /\ (x == c)%Q) \/ forall x, In x sc -> ~ (x == c)%Q).
    { intros c. clear. induction sc as [|a sc IH]; [right; intros; contradiction|]. destruct (Qeq_dec a c).
      - left. exists a. split; [left|]; auto.
      - destruct IH as [[x [Hx E]]|IH]; [left; exists x; split; [right|]; auto|right]. intros x [<-|Hx]; auto. }
    assert (Nu : np_unique Qcompare sc <> []).
    { destruct sc as [|a sc]; [congruence|]. destruct (C a ltac:(left; auto)) as [y [Hy _]]. intros E. rewrite E in Hy. contradiction. }
    destruct (D 0%Q) as [Z|Z].
    + destruct (D 1%Q) as [O|O].
      * left; left. auto.
      * left; right. apply all_same; auto; [apply (np_unique_sorted _ Q_laws)|]. intros x Hx. destruct (H x (I x Hx)); auto. exfalso. apply (O x); auto.
    + right. apply all_same; auto; [apply (np_unique_sorted _ Q_laws)|]. intros x Hx. destruct (H x (I x Hx)); auto. exfalso. apply (Z x); auto.
Qed.

Lemma entries_some : forall (r : list Q) (P : Q -> Prop), (forall e, In e (map Some r) -> exists q, e = Some q /\ P q) <-> (forall x, In x r -> P x).
Proof.
  intros r P. split.
  - intros H x Hx. destruct (H (Some x) (in_map _ _ _ Hx)) as [q [E Hq]]. inversion E; subst; auto.
  - intros H e He. apply in_map_iff in He. destruct He as [x [<- Hx]]. exists x. auto.
Qed.

Theorem C55_is_binary : forall l,
  (is_binary l false = true <-> (forall e, In e l -> is_zero e \/ is_one e) /\ (exists e, In e l /\ is_zero e) /\ (exists e, In e l /\ is_one e)) /\
  (is_binary l true = true <-> l <> [] /\ (forall e, In e l -> is_zero e \/ is_one e)).
Proof.
  intros l. unfold is_binary. destruct (finite_cases _ l) as [[r ->]|N].
  - rewrite finite_ok, binary_both, binary_uniform.
    assert (A : (forall x, In x r -> x == 0 \/ x == 1)%Q <-> (forall e, In e (map Some r) -> is_zero e \/ is_one e)).
    { split.
      - intros H e He. apply in_map_iff in He. destruct He as [x [<- Hx]]. destruct (H x Hx); [left|right]; exists x; auto.
      - intros H x Hx. destruct (H (Some x) (in_map _ _ _ Hx)) as [[q [E Hq]]|[q [E Hq]]]; inversion E; subst; auto. }
    assert (B : forall c : Q, (exists x, In x r /\ (x == c)%Q) <-> exists e, In e (map Some r) /\ exists q, e = Some q /\ (q == c)%Q).
    { intros c. split.
      - intros [x [Hx E]]. exists (Some x). split; [apply in_map; auto|exists x; auto].
      - intros [e [He [q [-> E]]]]. apply in_map_iff in He. destruct He as [x [Ex Hx]]. inversion Ex; subst. exists q. auto. }
    split.
    + rewrite A, (B 0%Q), (B 1%Q). reflexivity.
    + rewrite A. split; intros [H1 H2]; (split; [|auto]); intros E; apply H1; [apply map_eq_nil in E; auto|subst; auto].
  - rewrite (proj1 (finite_err _ _) N).
    assert (F : ~ forall e : option Q, In e l -> is_zero e \/ is_one e) by (intros H; destruct (H _ N) as [[q [E _]]|[q [E _]]]; discriminate).
    split; (split; [discriminate|]); tauto.
Qed.
Example C55_nonvacuous : is_binary [Some 0; Some (2 # 2); Some 0]%Q false = true /\ is_binary [Some 1; Some 1]%Q true = true /\
  is_binary [Some 1; Some 1]%Q false = false /\ is_binary [] true = false /\ is_binary [Some 0; None]%Q true = false /\ is_binary [Some 0; Some 1; Some 2]%Q true = false.
Proof. repeat split; vm_compute; reflexivity. Qed.

(** ** C56 *)
Definition both_classes (l : list (option Q)) : Prop := (exists e, In e l /\ is_zero e) /\ (exists e, In e l /\ is_one e).
Definition acceptable (y_true : list (option Q)) (y_pred : list (option R)) : Prop :=
  y_true <> [] /\ (forall e, In e y_true -> is_zero e \/ is_one e) /\ ~ In None y_pred /\ length y_true = length y_pred.

Lemma finite_stats : forall auc t p, acceptable t p <-> exists s, item_finder_statistics auc t p = Ok s.
Proof.
  intros auc t p. unfold acceptable, item_finder_statistics. destruct (C55_is_binary t) as [_ B]. unfold is_binary in B.
  destruct (finite_cases _ t) as [[r ->]|N].
  2:{ rewrite (proj1 (finite_err _ _) N). cbn [bind]. split; [|intros [s E]; discriminate].
      intros [_ [H _]]. destruct (H _ N) as [[q [E _]]|[q [E _]]]; discriminate. }
  rewrite finite_ok in *. cbn [bind]. destruct (is_binary_score r true); cbn [negb].
  2:{ split; [intros [H1 [H2 _]]; assert (false = true) by (apply B; auto); discriminate|intros [s E]; discriminate]. }
  destruct (finite_cases _ p) as [[q ->]|N].
  2:{ rewrite (proj1 (finite_err _ _) N). cbn [bind]. split; [tauto|intros [s E]; discriminate]. }
  rewrite finite_ok, !map_length. cbn [bind]. unfold check_consistent_length. destruct (Nat.eqb_spec (length r) (length q)); cbn [bind].
  - split; [eauto|]. intros _. destruct B as [B _]. destruct (B eq_refl). repeat split; auto. intros H'. apply in_map_iff in H'. destruct H' as [? [? _]]. discriminate.
  - split; [intros [_ [_ [_ H]]]; contradiction|intros [s E]; discriminate].
Qed.

Theorem C56_refuses : forall auc t p, (item_finder_statistics auc t p = Raise ValueError <-> ~ acceptable t p) /\
  (acceptable t p -> exists s, item_finder_statistics auc t p = Ok s) /\ item_finder_report auc t p = item_finder_statistics auc t p.
Proof.
  intros auc t p. pose proof (finite_stats auc t p) as F. split; [|split; [apply F|]].
  - split.
    + intros H A. apply F in A. destruct A as [s E]. congruence.
    + intros H. assert (G : forall s, item_finder_statistics auc t p <> Ok s) by (intros s E; apply H, F; eauto). clear F H.
      unfold item_finder_statistics in *. destruct (finite_cases _ t) as [[r ->]|N]; [|rewrite (proj1 (finite_err _ _) N); auto].
      rewrite finite_ok in *. cbn [bind] in *. destruct (negb (is_binary_score r true)); auto.
      destruct (finite_cases _ p) as [[q ->]|N]; [|rewrite (proj1 (finite_err _ _) N); auto]. rewrite finite_ok in *. cbn [bind] in *.
      unfold check_consistent_length in *. destruct (Nat.eqb (length r) (length q)); cbn [bind] in *; auto. exfalso. eapply G; eauto.
  - unfold item_finder_report, item_finder_statistics. destruct (assert_all_finite t); auto. cbn [bind]. destruct (negb _); auto.
    destruct (assert_all_finite p); auto. cbn [bind]. destruct (check_consistent_length _ _); auto. cbn [bind].
    destruct (is_binary_score _ false); auto.
Qed.

(** the positives among the true scores *)
Definition positives (l : list (option Q)) : nat :=
  length (filter (fun e => match e with Some q => Qeq_bool q 1 | None => false end) l).

Lemma sum_positives : forall r : list Q, (forall x, In x r -> x == 0 \/ x == 1)%Q ->
  rsum (map Q2R r) = INR (positives (map Some r)).
Proof.
  intros r H. unfold positives. induction r as [|x r IH]; [reflexivity|]. cbn [map filter]. rewrite rsum_cons, IH by (intros; apply H; right; auto).
  destruct (H x ltac:(left; auto)) as [E|E]; apply Qeq_eqR in E.
  - destruct (Qeq_bool x 1) eqn:Eb; [apply Qeq_bool_eq, Qeq_eqR in Eb; rewrite E in Eb; unfold Q2R in Eb; cbn in Eb; lra|].
    rewrite E. unfold Q2R. cbn [Qnum Qden]. lra.
  - destruct (Qeq_bool x 1) eqn:Eb; [|exfalso; apply eqR_Qeq in E; apply Qeq_eq_bool in E; congruence].
    cbn [length]. rewrite S_INR, E. unfold Q2R. cbn [Qnum Qden]. lra.
Qed.
Lemma sum_sq_positives : forall r : list Q, (forall x, In x r -> x == 0 \/ x == 1)%Q ->
  map (fun v => v ^ 2) (map Q2R r) = map Q2R r.
Proof.
  intros r H. rewrite map_map. apply map_ext_in. intros x Hx. destruct (H x Hx) as [E|E]; apply Qeq_eqR in E; rewrite E; unfold Q2R; cbn [Qnum Qden]; lra.
Qed.

Theorem C56_statistics : forall auc t p s, item_finder_statistics auc t p = Ok s ->
  if_n_samples s = length t /\
  (if_auc s <> None <-> both_classes t) /\
  exists m sd, if_true s = mkMS (Some m) (Some sd) /\ m = INR (positives t) / INR (length t) /\ 0 <= m <= 1 /\
    0 <= sd /\ sd ^ 2 = m * (1 - m) /\ sd <= 1 / 2.
Proof.
  intros auc t p s H. assert (A : acceptable t p) by (apply (finite_stats auc); eauto). destruct A as [Nt [Bt [Np L]]].
  unfold item_finder_statistics in H. destruct (finite_cases _ t) as [[r ->]|N]; [|exfalso; destruct (Bt _ N) as [[q [E _]]|[q [E _]]]; discriminate].
  rewrite finite_ok in H. cbn [bind] in H. destruct (negb (is_binary_score r true)); [discriminate|].
  destruct (finite_cases _ p) as [[q ->]|N]; [|contradiction]. rewrite finite_ok in H. cbn [bind] in H. rewrite !map_length in L.
  unfold check_consistent_length in H. rewrite L, Nat.eqb_refl in H. cbn [bind] in H.
  assert (Es : s = mkIF (length q) (describe (map Q2R r)) (describe q) (if is_binary_score r false then Some (auc r q) else None)) by congruence.
  clear H. subst s. cbn [if_n_samples if_auc if_true]. rewrite map_length, L.
  assert (Br : forall x, In x r -> (x == 0 \/ x == 1)%Q).
  { intros x Hx. destruct (Bt (Some x) (in_map _ _ _ Hx)) as [[y [E Hy]]|[y [E Hy]]]; inversion E; subst; auto. }
  assert (Nr : r <> []) by (intros ->; apply Nt; auto).
  split; [auto|]. split.
  - destruct (C55_is_binary (map Some r)) as [B _]. unfold is_binary in B. rewrite finite_ok in B. unfold both_classes.
    destruct (is_binary_score r false).
    + split; [intros _; apply B; auto|discriminate].
    + split; [congruence|]. intros H. assert (false = true) by (apply B; auto). discriminate.
  - set (m := INR (positives (map Some r)) / INR (length q)).
    assert (Nx : map Q2R r <> []) by (destruct r; [congruence|discriminate]).
    exists m, (sqrt (spread (map Q2R r))). unfold describe. rewrite np_mean_ok, np_std_ok by auto.
    assert (Em : average (map Q2R r) = m) by (unfold average, m; rewrite map_length, L, sum_positives by auto; auto).
    rewrite Em. split; auto. split; auto.
    pose proof (INR_pos _ r Nr) as P. rewrite L in P.
    assert (Pl : (positives (map Some r) <= length q)%nat).
    { unfold positives. rewrite <- L. rewrite <- (map_length Some r). generalize (map Some r). intros l. induction l as [|e l IH]; cbn; [lia|].
      destruct e as [y|]; [destruct (Qeq_bool y 1)|]; cbn; lia. }
    assert (M : 0 <= m <= 1).
    { unfold m. split; [apply Rmult_le_pos; [apply pos_INR|left; apply Rinv_0_lt_compat; auto]|].
      apply Rmult_le_reg_r with (INR (length q)); auto. unfold Rdiv. rewrite Rmult_assoc, Rinv_l, Rmult_1_r, Rmult_1_l by lra. apply le_INR; auto. }
    assert (V : spread (map Q2R r) = m * (1 - m)) by (rewrite spread_moments by auto; rewrite sum_sq_positives by auto; rewrite Em; ring).
    split; auto. split; [apply sqrt_pos|]. rewrite pow2_sqrt by (apply spread_nonneg; auto). split; auto.
    rewrite V. replace (1 / 2) with (sqrt ((1 / 2) ^ 2)) by (apply sqrt_pow2; lra). apply sqrt_le_1_alt. pose proof (pow2_ge_0 (m - 1 / 2)) as Sq. clear - Sq. generalize dependent m. intros x Sq. lra.
Qed.

Example C56_nonvacuous : acceptable [Some 1; Some 0; Some 1]%Q [Some 3; Some 1; Some 2] /\ both_classes [Some 1; Some 0; Some 1]%Q /\
  positives [Some 1; Some 0; Some 1]%Q = 2%nat /\ ~ acceptable [Some 1; Some 2]%Q [Some 3; Some 1].
Proof.
  assert (Z : is_zero (Some 0%Q)) by (exists 0%Q; split; reflexivity). assert (O : is_one (Some 1%Q)) by (exists 1%Q; split; reflexivity).
  repeat split.
  - discriminate.
  - intros e [<-|[<-|[<-|[]]]]; auto.
  - intros [H|[H|[H|[]]]]; discriminate.
  - exists (Some 0%Q). split; [cbn|]; auto.
  - exists (Some 1%Q). split; [cbn|]; auto.
  - intros [_ [H _]]. destruct (H (Some 2%Q) ltac:(cbn; auto)) as [[q [E Hq]]|[q [E Hq]]]; inversion E; subst; discriminate.
Qed.

(** ** C21: densities, and C70: the report agrees with the statistics *)
Definition qsum (l : list Q) : Q := fold_right Qplus 0%Q l.

Lemma qsum_ratio : forall h s, (s <> 0)%Z -> (qsum (map (fun x => inject_Z x / inject_Z s) h) == inject_Z (fold_right Z.add 0%Z h) / inject_Z s)%Q.
Proof.
  intros h s Hs. assert (N : ~ (inject_Z s == 0)%Q) by (unfold Qeq; cbn; lia).
  induction h as [|x h IH]; cbn [map qsum fold_right]; [field; auto|]. change (fold_right Qplus 0%Q (map (fun x => (inject_Z x / inject_Z s)%Q) h)) with (qsum (map (fun x => (inject_Z x / inject_Z s)%Q) h)).
  rewrite IH, inject_Z_plus. field. auto.
Qed.

Definition reals (l : list Q) : list (option R) := map (fun x => Some (Q2R x)) l.
Lemma reals_finite : forall l, reals l = finite (map Q2R l).
Proof. intros. unfold reals, finite. rewrite map_map. auto. Qed.

(** histogram of scores [l] in the statistics *)
Definition histogram_of (d : dom) (l : list Q) (x : scores_desc) : Prop :=
  exists ys, digitize d l = Ok ys /\
    (forall k, (k < length (de_hist x))%nat -> nth_error (de_hist x) k = Some (Z.of_nat (count_occ Z.eq_dec ys (Z.of_nat k)))) /\
    exists dens, de_density x = map Some dens /\ length dens = length (de_hist x) /\ (qsum dens == 1)%Q /\
      (forall k h q, nth_error (de_hist x) k = Some h -> nth_error dens k = Some q -> (q == inject_Z h / inject_Z (Z.of_nat (length l)))%Q /\ (0 <= q /\ q <= 1)%Q).

Lemma describe_ok : forall d l, (0 < st d)%Q -> l <> [] -> exists x, describe_scores d l = Ok x /\ histogram_of d l x /\
  de_ms x = mkMS (Some (average (map Q2R l))) (Some (sqrt (spread (map Q2R l)))) /\
  exists lv, np_arange (lo d) (hi d) (st d) = Ok lv /\ length (de_hist x) = length (lv ++ [hi d]).
Proof.
  intros d l Hs N. destruct (C21_histogram d l Hs) as [h [sc [ys [E [D [L [S C]]]]]]]. unfold describe_scores. rewrite E. cbn [bind fst].
  eexists. split; [reflexivity|]. cbn [de_ms de_hist de_density]. unfold histogram_of. cbn [de_ms de_hist de_density].
  assert (Nz : Z.of_nat (length l) <> 0%Z) by (destruct l; [congruence|cbn; lia]).
  split; [|split].
  - exists ys. split; auto. split; auto. exists (map (fun x => (inject_Z x / inject_Z (Z.of_nat (length l)))%Q) h). unfold density. rewrite S.
    destruct (Z.eqb_spec (Z.of_nat (length l)) 0); [lia|]. split; [rewrite map_map; auto|]. split; [rewrite map_length; auto|]. split.
    { rewrite qsum_ratio by auto. rewrite S. assert (~ (inject_Z (Z.of_nat (length l)) == 0)%Q) by (unfold Qeq; cbn; lia). field. auto. }
    intros k x q Hx Hq. rewrite nth_error_map, Hx in Hq. inversion Hq; subst. split; [reflexivity|].
    assert (Hk : (k < length h)%nat) by (apply nth_error_Some; congruence). rewrite C in Hx by auto. inversion Hx; subst.
    assert (Pn : (0 < inject_Z (Z.of_nat (length l)))%Q) by (change 0%Q with (inject_Z 0); rewrite <- Zlt_Qlt; lia).
    assert (Cn : (count_occ Z.eq_dec ys (Z.of_nat k) <= length l)%nat).
    { assert (Ly : length ys = length l).
      { unfold digitize in D. destruct (generate_score_bins d); [|discriminate]. cbn [bind] in D. apply P_Py.mapM_ok in D. symmetry. eapply F2_length; eauto. }
      rewrite <- Ly. clear. induction ys as [|y ys IH]; cbn; [lia|]. destruct (Z.eq_dec y (Z.of_nat k)); lia. }
    split.
    + apply Qle_shift_div_l; auto. rewrite Qmult_0_l. change 0%Q with (inject_Z 0). rewrite <- Zle_Qle. lia.
    + apply Qle_shift_div_r; auto. rewrite Qmult_1_l. rewrite <- Zle_Qle. lia.
  - unfold describe. assert (Nx : map Q2R l <> []) by (destruct l; [congruence|discriminate]). rewrite np_mean_ok, np_std_ok by auto. auto.
  - unfold score_histogram in E. destruct (generate_score_bins d); [|discriminate]. cbn [bind] in E. destruct (np_histogram l a); [|discriminate]. cbn [bind] in E.
    destruct (np_arange (lo d) (hi d) (st d)) as [lv|]; [|discriminate]. cbn [bind] in E. inversion E; subst. exists lv. split; auto.
Qed.

Theorem C21_statistics : forall t p d, (0 < st d)%Q -> length t = length p -> t <> [] ->
  exists s, score_predictor_statistics (map Some t) (map Some p) d = Ok s /\
    histogram_of d t (sp_true s) /\ histogram_of d p (sp_predicted s) /\
    length (de_hist (sp_true s)) = length (sp_levels s) /\ length (de_hist (sp_predicted s)) = length (sp_levels s) /\
    sp_n_samples s = length t.
Proof.
  intros t p d Hs L N. assert (Np : p <> []) by (destruct t, p; try discriminate; congruence).
  destruct (describe_ok d t Hs N) as [x [Ex [Hx [_ [lv [El Lx]]]]]]. destruct (describe_ok d p Hs Np) as [y [Ey [Hy [_ [lv' [El' Ly]]]]]].
  assert (lv' = lv) by congruence. subst lv'. unfold score_predictor_statistics. rewrite !finite_ok. cbn [bind].
  unfold check_consistent_length. rewrite L, Nat.eqb_refl. cbn [bind]. rewrite El. cbn [bind].
  fold (reals t). fold (reals p). rewrite !reals_finite.
  assert (Lr : length (map Q2R t) = length (map Q2R p)) by (rewrite !map_length; auto). assert (Nr : map Q2R t <> []) by (destruct t; [congruence|discriminate]).
  destruct (C52_mean_absolute_error _ _ Lr Nr) as [m [sd [-> _]]]. destruct (C52_mean_squared_error _ _ Lr Nr) as [rm [ms [sd2 [-> _]]]]. cbn [bind].
  rewrite Ex, Ey. cbn [bind]. eexists. split; [reflexivity|]. cbn. repeat split; auto.
Qed.

(** the brief report and the full statistics give the same numbers *)
Theorem C70_report_agrees : forall t p d s, (0 < st d)%Q -> length t = length p -> t <> [] ->
  score_predictor_statistics (map Some t) (map Some p) d = Ok s ->
  exists r, score_predictor_report (reals t) (reals p) = Ok r /\
    fst (sp_mae s) = Some (rp_mae r) /\ fst (fst (sp_mse s)) = Some (rp_rmse r) /\ sp_n_samples s = rp_n_samples r /\
    de_ms (sp_true s) = rp_true r /\ de_ms (sp_predicted s) = rp_predicted r.
Proof.
  intros t p d s Hs L N H. assert (Np : p <> []) by (destruct t, p; try discriminate; congruence).
  destruct (describe_ok d t Hs N) as [x [Ex [_ [Mx [lv [El _]]]]]]. destruct (describe_ok d p Hs Np) as [y [Ey [_ [My _]]]].
  unfold score_predictor_statistics in H. rewrite !finite_ok in H. cbn [bind] in H. unfold check_consistent_length in H. rewrite L, Nat.eqb_refl in H. cbn [bind] in H.
  rewrite El in H. cbn [bind] in H. fold (reals t) in H. fold (reals p) in H. rewrite !reals_finite in *.
  assert (Lr : length (map Q2R t) = length (map Q2R p)) by (rewrite !map_length; auto). assert (Nr : map Q2R t <> []) by (destruct t; [congruence|discriminate]).
  assert (Nq : map Q2R p <> []) by (destruct p; [congruence|discriminate]).
  unfold mean_absolute_error, mean_squared_error, score_predictor_report, finite in *. rewrite !finite_ok in *. cbn [bind] in *.
  unfold check_consistent_length in *. rewrite Lr, Nat.eqb_refl in *. cbn [bind] in *.
  set (T := map Q2R t) in *. set (P := map Q2R p) in *. rewrite Ex, Ey in H. cbn [bind] in H.
  assert (Ld : length (differences T P) = length T) by (apply length_differences; auto).
  assert (Nd : differences T P <> []) by (intros E; rewrite E in Ld; destruct T; [congruence|discriminate]).
  assert (Na : map Rabs (differences T P) <> []) by (destruct (differences T P); [congruence|discriminate]).
  assert (Ns : map (fun e => e ^ 2) (differences T P) <> []) by (destruct (differences T P); [congruence|discriminate]).
  rewrite !np_mean_ok in H by auto. assert (A : skm_mae T P = Ok (average (map Rabs (differences T P)))).
  { unfold skm_mae. rewrite (differences_swap P T). unfold average. rewrite map_length, Ld. destruct T; [congruence|reflexivity]. }
  assert (B : skm_mse T P = Ok (average (map (fun e => e ^ 2) (differences T P)))).
  { unfold skm_mse. unfold average. rewrite map_length, Ld. destruct T; [congruence|reflexivity]. }
  rewrite A, B. cbn [bind]. eexists. split; [reflexivity|].
  assert (Es : s = mkSP (length p) (lv ++ [hi d]) (Some (average (map Rabs (differences T P))), np_std (map Rabs (differences T P)))
     (Some (sqrt (Rmax (average (map (fun e => e ^ 2) (differences T P))) 0)), Some (average (map (fun e => e ^ 2) (differences T P))), np_std (map (fun e => e ^ 2) (differences T P))) x y) by congruence.
  subst s. cbn [sp_mae sp_mse sp_n_samples sp_true sp_predicted fst snd rp_mae rp_rmse rp_n_samples rp_true rp_predicted].
  repeat split.
  - unfold P. rewrite map_length. auto.
  - rewrite Mx. unfold describe. rewrite np_mean_ok, np_std_ok by auto. auto.
  - rewrite My. unfold describe. rewrite np_mean_ok, np_std_ok by auto. auto.
Qed.

(** without samples the report fails while the statistics are NaN *)
Theorem C70_empty : score_predictor_report [] [] = Raise ValueError /\
  exists s, score_predictor_statistics [] [] (mkDom 1 5 1) = Ok s /\ fst (sp_mae s) = None.
Proof. split; [reflexivity|]. eexists. split; [vm_compute; reflexivity|reflexivity]. Qed.

Example C21_statistics_nonvacuous : exists s, score_predictor_statistics (map Some [1; 5; 4]%Q) (map Some [(9 # 2); 7; 0]%Q) (mkDom 1 5 1) = Ok s /\
  sp_n_samples s = 3%nat /\ de_hist (sp_true s) = [1; 0; 0; 1; 1]%Z /\ de_hist (sp_predicted s) = [1; 0; 0; 0; 2]%Z /\
  sp_levels s = [1; 2; 3; 4; 5]%Q.
Proof.
  eexists. split; [cbv - [Rabs sqrt Rmax Rplus Rminus Rmult Rdiv Rinv IZR]; reflexivity|]. repeat split.
Qed.

Print Assumptions C54_dicts.
Print Assumptions C55_is_binary.
Print Assumptions C56_refuses.
Print Assumptions C56_statistics.
Print Assumptions C21_statistics.
Print Assumptions C70_report_agrees.
