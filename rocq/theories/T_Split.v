(** * Theorems about the splitters (C47 - C51) *)
From Coq Require Import List ZArith QArith Qround Bool Lia Permutation Sorted.
From Verif Require Import M_Py P_Py M_Split P_Split.
Import ListNotations.
Open Scope nat_scope.

(** a pair of increasing lists that together contain every sample once *)
Definition complementary (n : nat) (tt : list nat * list nat) : Prop :=
  StronglySorted lt (fst tt) /\ StronglySorted lt (snd tt) /\
  (forall i, In i (fst tt) <-> i < n /\ ~ In i (snd tt)) /\ (forall i, In i (snd tt) -> i < n).

(** every sample is tested in exactly one fold *)
Definition partition (n : nat) (folds : list (list nat * list nat)) : Prop :=
  forall i, i < n -> exists f, (exists tt, nth_error folds f = Some tt /\ In i (snd tt)) /\
    forall f', (exists tt, nth_error folds f' = Some tt /\ In i (snd tt)) -> f' = f.

(** label of a sample; without labels there is one group *)
Definition label (groups : option (list Z)) (i : nat) : Z := match groups with Some g => nth i g 0%Z | None => 0%Z end.
(** number of the samples among [l] in group [g] *)
Definition count (groups : option (list Z)) (g : Z) (l : list nat) : nat := length (filter (fun i => Z.eqb (label groups i) g) l).
Definition group_size (n : nat) (groups : option (list Z)) (g : Z) : nat := count groups g (seq 0 n).

Definition labelled (n : nat) (groups : option (list Z)) : Prop := match groups with Some g => length g = n | None => True end.

Lemma labelled_of : forall n groups, labelled n groups -> length (labels_of n groups) = n /\ forall i, i < n -> nth i (labels_of n groups) 0%Z = label groups i.
Proof.
  intros n [g|] H; cbn in *; split; auto; try apply repeat_length. intros. apply nth_repeat.
Qed.

Lemma count_of : forall n groups g l, labelled n groups -> Forall (fun i => i < n) l -> count groups g l = length (filter (in_group (labels_of n groups) g) l).
Proof.
  intros n groups g l Hg Hl. unfold count. f_equal. apply filter_ext_in. intros i Hi. rewrite Forall_forall in Hl. unfold in_group.
  destruct (labelled_of n groups Hg) as [_ H]. rewrite H; auto.
Qed.

Lemma indexable_ok : forall n groups, (labelled n groups -> indexable n groups = Ok tt) /\ (~ labelled n groups -> indexable n groups = Raise ValueError).
Proof.
  intros n [g|]; cbn; [|split; auto; tauto]. destruct (Nat.eqb_spec (length g) n); split; intros; auto; contradiction.
Qed.

Lemma indexable_inv : forall n groups, indexable n groups = Ok tt -> labelled n groups.
Proof.
  intros n [g|]; cbn; auto. destruct (Nat.eqb_spec (length g) n); [auto|discriminate].
Qed.

Lemma of_mask_complementary : forall n mask tt, length mask = n -> of_mask n mask = Ok tt -> complementary n tt.
Proof.
  intros n mask tt L H. rewrite of_mask_ok in H by auto. inversion H; subst tt. unfold complementary. cbn [fst snd].
  split; [apply filter_seq_sorted|]. split; [apply filter_seq_sorted|]. split.
  - intros i. rewrite !filter_In, in_seq, negb_true_iff. split.
    + intros [Hi E]. split; [lia|]. intros [_ E']. congruence.
    + intros [Hi N]. split; [lia|]. destruct (nth i mask false) eqn:E; auto. exfalso. apply N. split; auto. lia.
  - intros i Hi. apply filter_In in Hi. destruct Hi as [Hi _]. apply in_seq in Hi. lia.
Qed.

Lemma NoDup_app_intro : forall A (l l' : list A), NoDup l -> NoDup l' -> (forall x, In x l -> In x l' -> False) -> NoDup (l ++ l').
Proof.
  induction l as [|x l IH]; intros l' H H' D; cbn; auto. inversion H; subst. constructor.
  - rewrite in_app_iff. intros [I|I]; auto. apply (D x); cbn; auto.
  - apply IH; auto. intros y Y1 Y2. apply (D y); cbn; auto.
Qed.

(** ** KFoldWithinGroups *)
Section KFG.
  Context {S : Type} (shuffle : S -> list nat -> list nat * S) (Hs : shuffles shuffle).
  Variables (k : nat) (sh : bool) (gs : list Z).
  Hypothesis Hk : 0 < k.
  Notation n := (length gs).

  Definition tests_for (g : Z) (tests : list (list nat)) : Prop :=
    k <= length (group gs g) /\ exists perm, Permutation (seq 0 (length (group gs g))) perm /\
    tests = map (fun p => filter (memb p) (seq 0 (length (group gs g)))) (parts (fold_sizes k (length (group gs g))) perm).

  Lemma group_tests_spec : forall us s,
    (Forall (fun g => k <= length (group gs g)) us ->
       exists ts s', group_tests shuffle k sh n gs us s = Ok (ts, s') /\ Forall2 tests_for us ts) /\
    (~ Forall (fun g => k <= length (group gs g)) us -> group_tests shuffle k sh n gs us s = Raise ValueError).
  Proof.
    induction us as [|g us IH]; intros s.
    - split; [|intros H; exfalso; apply H; constructor]. intros _. exists [], s. split; [reflexivity|constructor].
    - cbn [group_tests]. rewrite members_ok. cbn [bind]. destruct (kfold_ok S shuffle k sh (length (group gs g)) s Hs Hk) as [K1 K2].
      destruct (le_lt_dec k (length (group gs g))) as [Hg|Hg].
      + destruct (K2 Hg) as [perm [s' [P ->]]]. cbn [bind fst snd]. destruct (IH s') as [I1 I2]. split.
        * intros F. inversion F; subst. destruct (I1 H2) as [ts [s2 [-> F2]]]. cbn [bind fst snd]. eexists _, _. split; [reflexivity|].
          constructor; auto. split; auto. exists perm. auto.
        * intros F. rewrite I2; [reflexivity|]. intros F'. apply F. constructor; auto.
      + rewrite (K1 Hg). split; [|reflexivity]. intros F. inversion F; subst. lia.
  Qed.

  Definition fold_pairs (us : list Z) (ts : list (list (list nat))) (f : nat) : list (Z * list nat) :=
    combine us (map (fun t => nth f t []) ts).

  Lemma tests_at : forall g tests f, tests_for g tests -> f < k ->
    nth_error tests f = Some (nth f tests []) /\ NoDup (nth f tests []) /\ Forall (fun p => p < length (group gs g)) (nth f tests []) /\
    length (nth f tests []) = length (group gs g) / k + (if f <? length (group gs g) mod k then 1 else 0).
  Proof.
    intros g tests f [_ [perm [P ->]]] Hf. destruct (kfold_parts k (length (group gs g)) perm Hk P) as [L [A _]]. cbn zeta in *.
    assert (E : nth_error (map (fun p => filter (memb p) (seq 0 (length (group gs g)))) (parts (fold_sizes k (length (group gs g))) perm)) f =
      Some (nth f (map (fun p => filter (memb p) (seq 0 (length (group gs g)))) (parts (fold_sizes k (length (group gs g))) perm)) []))
      by (apply nth_error_nth'; rewrite L; auto).
    split; [exact E|apply (A f _ E)].
  Qed.

  Lemma kfg_mask_spec : forall f us ts mask, f < k -> length mask = n -> Forall2 tests_for us ts ->
    exists mask', foldM (fun mask gt =>
             do t <- np_get (snd gt) (Z.of_nat f);
             do m <- members n gs (fst gt);
             do idx <- take m t;
             put_true mask idx) (combine us ts) mask = Ok mask' /\ length mask' = n /\
      forall i, nth i mask' false = nth i mask false || memb (picked gs (fold_pairs us ts f)) i.
  Proof.
    intros f us ts mask Hf L F. revert mask L. induction F as [|g t us ts Hg F IH]; intros mask L.
    - exists mask. split; [reflexivity|]. split; [auto|]. intros i. cbn. rewrite orb_false_r. reflexivity.
    - cbn [combine foldM fst snd]. destruct (tests_at g t f Hg Hf) as [E [N [B _]]].
      apply np_get_nat in E. rewrite E. cbn [bind]. rewrite members_ok. cbn [bind].
      rewrite (take_ok _ 0) by auto. cbn [bind].
      destruct (put_true_ok (map (fun i => nth i (group gs g) 0) (nth f t [])) mask) as [m1 [E1 [L1 N1]]].
      { apply Forall_map, Forall_forall. intros p Hp. rewrite Forall_forall in B. specialize (B _ Hp).
        pose proof (nth_In (group gs g) 0 B) as I. apply group_in in I. lia. }
      rewrite E1. cbn [bind]. destruct (IH m1 ltac:(congruence)) as [m2 [E2 [L2 N2]]]. exists m2. split; auto. split; auto.
      intros i. rewrite N2, N1. rewrite <- orb_assoc. f_equal. unfold picked, fold_pairs. cbn [map combine flat_map fst snd].
      unfold memb. rewrite existsb_app. reflexivity.
  Qed.

  Lemma fold_pairs_ok : forall us ts f, f < k -> NoDup us -> Forall2 tests_for us ts -> pairs_ok gs (fold_pairs us ts f).
  Proof.
    intros us ts f Hf Hn F. assert (E : map fst (fold_pairs us ts f) = us).
    { unfold fold_pairs. clear Hn. induction F; cbn; [auto|]. f_equal. auto. }
    split; [rewrite E; auto|]. clear E Hn. unfold fold_pairs. induction F as [|g t us ts Hg F IH]; cbn; constructor; auto.
    cbn [fst snd]. destruct (tests_at g t f Hg Hf) as [_ [N [B _]]]. auto.
  Qed.

  Lemma pair_for : forall us ts g, Forall2 tests_for us ts -> In g us -> exists t, tests_for g t /\ forall f, In (g, nth f t []) (fold_pairs us ts f).
  Proof.
    intros us ts g F Hin. induction F as [|g' t us ts Hg F IH]; [contradiction|]. destruct Hin as [->|Hin].
    - exists t. split; auto. intros f'. left. reflexivity.
    - destruct (IH Hin) as [t' [A B]]. exists t'. split; auto. intros f'. right. apply B.
  Qed.
End KFG.

Section KFGSplit.
  Context {S : Type} (shuffle : S -> list nat -> list nat * S) (Hs : shuffles shuffle).
  Variables (n_splits : Z) (sh : bool) (n : nat) (groups : option (list Z)) (s : S).
  Hypothesis Hk : (2 <= n_splits)%Z.
  Notation k := (Z.to_nat n_splits).
  Notation gs := (labels_of n groups).
  Notation us := (np_unique Z.compare gs).

  (** the splits as a function of the test positions in the groups *)
  Lemma kfg_shape : labelled n groups -> (n_splits <= Z.of_nat n)%Z -> Forall (fun g => k <= length (group gs g)) us ->
    exists ts folds, Forall2 (tests_for k gs) us ts /\ kfg_split shuffle n_splits sh n groups s = Ok folds /\
      length folds = k /\ forall f, f < k -> exists tr te, nth_error folds f = Some (tr, te) /\
        te = filter (memb (picked gs (fold_pairs us ts f))) (seq 0 n) /\ complementary n (tr, te).
  Proof.
    intros Hl Hn Hg. destruct (labelled_of n groups Hl) as [L _].
    unfold kfg_split. rewrite (proj1 (indexable_ok n groups) Hl). cbn [bind]. destruct (Z.gtb_spec n_splits (Z.of_nat n)); [lia|].
    destruct (group_tests_spec shuffle Hs k sh gs ltac:(lia) us s) as [A _]. rewrite L in A.
    destruct (A Hg) as [ts [s' [E F]]]. cbn zeta. rewrite E. cbn [bind fst].
    assert (M : forall f, f < k -> exists mask, kfg_mask n gs us ts f = Ok mask /\ length mask = n /\ forall i, nth i mask false = memb (picked gs (fold_pairs us ts f)) i).
    { intros f Hf. destruct (kfg_mask_spec k gs ltac:(lia) f us ts (repeat false n) Hf ltac:(rewrite repeat_length; auto) F) as [mask [E1 [E2 E3]]].
      rewrite L in E1, E2. exists mask. split; auto. split; auto. intros i. rewrite E3, nth_repeat. auto. }
    set (fold := fun f => (filter (fun i => negb (memb (picked gs (fold_pairs us ts f)) i)) (seq 0 n),
                           filter (memb (picked gs (fold_pairs us ts f))) (seq 0 n))).
    exists ts, (map fold (seq 0 k)). split; auto. split; [|split].
    - apply mapM_total_in. intros f Hf. apply in_seq in Hf. destruct (M f ltac:(lia)) as [mask [-> [L1 N]]]. cbn [bind].
      rewrite of_mask_ok by auto. unfold fold. do 2 f_equal; apply filter_ext; intros i; rewrite N; auto.
    - rewrite map_length, seq_length. auto.
    - intros f Hf. eexists _, _. split; [rewrite nth_error_map_seq by auto; reflexivity|]. split; [reflexivity|].
      destruct (M f Hf) as [mask [_ [L1 N]]]. apply of_mask_complementary with mask; auto. rewrite of_mask_ok by auto.
      do 2 f_equal; apply filter_ext; intros i; rewrite N; auto.
  Qed.

  Lemma kfg_raises : labelled n groups -> (n_splits <= Z.of_nat n)%Z -> ~ Forall (fun g => k <= length (group gs g)) us ->
    kfg_split shuffle n_splits sh n groups s = Raise ValueError.
  Proof.
    intros Hl Hn Hg. destruct (labelled_of n groups Hl) as [L _].
    unfold kfg_split. rewrite (proj1 (indexable_ok n groups) Hl). cbn [bind]. destruct (Z.gtb_spec n_splits (Z.of_nat n)); [lia|].
    destruct (group_tests_spec shuffle Hs k sh gs ltac:(lia) us s) as [_ A]. rewrite L in A. cbn zeta. rewrite (A Hg). reflexivity.
  Qed.

  Lemma group_size_of : labelled n groups -> forall g, group_size n groups g = length (group gs g).
  Proof.
    intros Hl g. unfold group_size. rewrite (count_of n); auto; [|apply Forall_forall; intros i Hi; apply in_seq in Hi; lia].
    unfold group. destruct (labelled_of n groups Hl) as [-> _]. reflexivity.
  Qed.

  Lemma groups_large : labelled n groups ->
    (Forall (fun g => k <= length (group gs g)) us <-> forall i, i < n -> k <= group_size n groups (label groups i)).
  Proof.
    intros Hl. destruct (labelled_of n groups Hl) as [L N]. rewrite Forall_forall. split.
    - intros H i Hi. rewrite group_size_of by auto. apply H. apply labels_in. rewrite <- N by auto. apply nth_In. lia.
    - intros H g Hg. apply (proj1 (labels_in _ _)) in Hg. apply (In_nth _ _ 0%Z) in Hg. destruct Hg as [i [Hi <-]]. rewrite L in Hi.
      rewrite N, <- group_size_of by auto. apply H. auto.
  Qed.
End KFGSplit.

(** ** C47 *)
Theorem C47_partition : forall S (shuffle : S -> list nat -> list nat * S) n_splits sh n groups s folds,
  shuffles shuffle -> (2 <= n_splits)%Z -> kfg_split shuffle n_splits sh n groups s = Ok folds ->
  Z.of_nat (length folds) = n_splits /\ Forall (complementary n) folds /\ partition n folds.
Proof.
  intros S shuffle n_splits sh n groups s folds Hs Hk H.
  assert (Hl : labelled n groups).
  { apply indexable_inv. unfold kfg_split in H. apply bind_ok in H. destruct H as [[] [H _]]. exact H. }
  assert (Hn : (n_splits <= Z.of_nat n)%Z).
  { unfold kfg_split in H. rewrite (proj1 (indexable_ok n groups) Hl) in H. cbn [bind] in H.
    destruct (Z.gtb_spec n_splits (Z.of_nat n)); [discriminate|lia]. }
  set (us := np_unique Z.compare (labels_of n groups)).
  destruct (Forall_dec (fun g => Z.to_nat n_splits <= length (group (labels_of n groups) g)) (fun g => le_dec _ _) us) as [Hg|Hg].
  2:{ rewrite (kfg_raises shuffle Hs n_splits sh n groups s Hk Hl Hn Hg) in H. discriminate. }
  destruct (kfg_shape shuffle Hs n_splits sh n groups s Hk Hl Hn Hg) as [ts [folds' [F [E [L A]]]]].
  assert (folds' = folds) by congruence. subst folds'. fold us in F, A. split; [lia|]. split.
  - apply Forall_forall. intros tt Hin. apply In_nth_error in Hin. destruct Hin as [f Hf].
    assert (f < length folds) by (apply nth_error_Some; congruence). destruct (A f ltac:(lia)) as [tr [te [E1 [_ C]]]]. congruence.
  - intros i Hi. destruct (labelled_of n groups Hl) as [Lg Ng].
    set (gs := labels_of n groups) in *. set (g := nth i gs 0%Z).
    assert (Hgu : In g us) by (apply labels_in, nth_In; lia).
    destruct (pair_for (Z.to_nat n_splits) gs us ts g F Hgu) as [t [Ht Hp]].
    assert (Hig : In i (group gs g)) by (apply group_in; split; [lia|reflexivity]).
    apply In_nth_error in Hig. destruct Hig as [p Hpi].
    assert (Hpm : p < length (group gs g)) by (apply nth_error_Some; congruence).
    destruct Ht as [Hsz [perm [P Et]]].
    destruct (kfold_parts (Z.to_nat n_splits) _ perm ltac:(lia) P) as [K1 [K2 K3]]. cbn zeta in *. rewrite <- Et in *.
    destruct (K3 p Hpm) as [f [[q [Q1 Q2]] U]].
    assert (Key : forall f' tt, nth_error folds f' = Some tt -> (In i (snd tt) <-> exists q, nth_error t f' = Some q /\ In p q)).
    { intros f' tt Hf'. assert (Hlt : f' < length folds) by (apply nth_error_Some; congruence).
      destruct (A f' ltac:(lia)) as [tr [te [E1 [E2 _]]]]. assert (tt = (tr, te)) by congruence. subst tt. cbn [snd]. rewrite E2, filter_In, memb_in, in_seq.
      assert (Hok : pairs_ok gs (fold_pairs us ts f')) by (apply (fold_pairs_ok (Z.to_nat n_splits)); auto; [lia|lia|apply labels_nodup]).
      rewrite picked_in by auto. fold g. split.
      - intros [_ [_ [t' [p' [I1 [I2 I3]]]]]]. assert (t' = nth f' t []) by (destruct Hok as [Hnd _]; eapply NoDup_fst; eauto). subst t'.
        assert (p' = p).
        { apply (proj1 (NoDup_nth_error (group gs g)) (group_nodup gs g)); [apply nth_error_Some; congruence|congruence]. }
        subst p'. exists (nth f' t []). split; auto. apply nth_error_nth'. lia.
      - intros [q' [I1 I2]]. split; [lia|]. split; [lia|]. exists q', p. split; auto. rewrite <- (nth_error_nth t f' [] I1). apply Hp. }
    assert (Hf : f < Z.to_nat n_splits) by (rewrite <- K1; apply nth_error_Some; congruence).
    destruct (A f Hf) as [tr [te [E1 _]]]. exists f. split.
    + exists (tr, te). split; auto. apply (Key f _ E1). eauto.
    + intros f' [tt [I1 I2]]. apply U. apply (Key f' _ I1). auto.
Qed.

(** ** C48 *)
Theorem C48_balance : forall S (shuffle : S -> list nat -> list nat * S) n_splits sh n groups s folds,
  shuffles shuffle -> (2 <= n_splits)%Z -> kfg_split shuffle n_splits sh n groups s = Ok folds ->
  forall i f tr te, i < n -> nth_error folds f = Some (tr, te) ->
    let g := label groups i in
    let m := group_size n groups g in let k := Z.to_nat n_splits in
    1 <= count groups g te /\ (m / k <= count groups g te <= m / k + 1) /\
    count groups g te = m / k + (if f <? m mod k then 1 else 0) /\ count groups g tr + count groups g te = m.
Proof.
  intros S shuffle n_splits sh n groups s folds Hs Hk H i f tr te Hi Hf. cbn zeta.
  assert (Hl : labelled n groups).
  { apply indexable_inv. unfold kfg_split in H. apply bind_ok in H. destruct H as [[] [H _]]. exact H. }
  assert (Hn : (n_splits <= Z.of_nat n)%Z).
  { unfold kfg_split in H. rewrite (proj1 (indexable_ok n groups) Hl) in H. cbn [bind] in H.
    destruct (Z.gtb_spec n_splits (Z.of_nat n)); [discriminate|lia]. }
  set (us := np_unique Z.compare (labels_of n groups)).
  destruct (Forall_dec (fun g => Z.to_nat n_splits <= length (group (labels_of n groups) g)) (fun g => le_dec _ _) us) as [Hg|Hg].
  2:{ rewrite (kfg_raises shuffle Hs n_splits sh n groups s Hk Hl Hn Hg) in H. discriminate. }
  destruct (kfg_shape shuffle Hs n_splits sh n groups s Hk Hl Hn Hg) as [ts [folds' [F [E [L A]]]]].
  assert (folds' = folds) by congruence. subst folds'. fold us in F, A.
  destruct (labelled_of n groups Hl) as [Lg Ng]. rewrite (group_size_of n groups Hl). rewrite <- Ng by auto.
  set (gs := labels_of n groups) in *. set (g := nth i gs 0%Z).
  assert (Hgu : In g us) by (apply labels_in, nth_In; lia).
  destruct (pair_for (Z.to_nat n_splits) gs us ts g F Hgu) as [t [Ht Hp]].
  assert (Hlt : f < length folds) by (apply nth_error_Some; congruence).
  destruct (A f ltac:(lia)) as [tr' [te' [E1 [E2 [_ [_ [C1 C2]]]]]]]. assert (tr' = tr /\ te' = te) as [-> ->] by (split; congruence).
  cbn [fst snd] in *.
  assert (Hok : pairs_ok gs (fold_pairs us ts f)) by (apply (fold_pairs_ok (Z.to_nat n_splits)); auto; [lia|lia|apply labels_nodup]).
  assert (Cte : count groups g te = length (nth f t [])).
  { rewrite (count_of n) by (auto; apply Forall_forall; auto). fold gs. rewrite E2, <- Lg. apply picked_count; auto. }
  destruct (tests_at (Z.to_nat n_splits) gs ltac:(lia) g t f Ht ltac:(lia)) as [_ [_ [_ Len]]].
  rewrite Cte, Len. destruct Ht as [Hsz _].
  assert (1 <= length (group gs g) / Z.to_nat n_splits).
  { apply Nat.div_le_lower_bound; lia. }
  assert (D : (if f <? length (group gs g) mod Z.to_nat n_splits then 1 else 0) <= 1) by (destruct (_ <? _); lia).
  split; [lia|]. split; [lia|]. split; [reflexivity|].
  rewrite <- Len, <- Cte. rewrite (count_of n) by (auto; apply Forall_forall; intros j Hj; apply C1 in Hj; lia).
  rewrite (count_of n) by (auto; apply Forall_forall; auto). fold gs. unfold group. rewrite Lg.
  rewrite <- app_length, <- filter_app. apply Permutation_length.
  assert (Pm : Permutation (tr ++ te) (seq 0 n)).
  { destruct (A f ltac:(lia)) as [tr2 [te2 [E3 [_ [S1 [S2 _]]]]]]. assert (tr2 = tr /\ te2 = te) as [-> ->] by (split; congruence). cbn [fst snd] in *.
    apply NoDup_Permutation; [|apply seq_NoDup|].
    - apply NoDup_app_intro; [apply sorted_nodup; auto|apply sorted_nodup; auto|]. intros j J1 J2. apply C1 in J1. tauto.
    - intros j. rewrite in_app_iff, in_seq, C1. split.
      + intros [[J _]|J]; [lia|]. apply C2 in J. lia.
      + intros J. destruct (in_dec Nat.eq_dec j te); [auto|left; split; [lia|auto]]. }
  clear - Pm. induction Pm; cbn; auto.
  - destruct (in_group gs g x); auto.
  - destruct (in_group gs g x), (in_group gs g y); auto. apply perm_swap.
  - eapply Permutation_trans; eauto.
Qed.

Theorem C48_errors : forall S (shuffle : S -> list nat -> list nat * S) n_splits sh n groups s, shuffles shuffle ->
  (kfg_init n_splits = Raise ValueError <-> (n_splits <= 1)%Z) /\
  ((2 <= n_splits)%Z -> labelled n groups ->
   let large := (n_splits <= Z.of_nat n)%Z /\ forall i, i < n -> (n_splits <= Z.of_nat (group_size n groups (label groups i)))%Z in
   (large -> exists folds, kfg_split shuffle n_splits sh n groups s = Ok folds) /\
   (~ large -> kfg_split shuffle n_splits sh n groups s = Raise ValueError)).
Proof.
  intros S shuffle n_splits sh n groups s Hs. split.
  { unfold kfg_init. destruct (Z.leb_spec n_splits 1); split; intros; auto; try discriminate; lia. }
  intros Hk Hl. cbn zeta. set (us := np_unique Z.compare (labels_of n groups)).
  assert (Eq : Forall (fun g => Z.to_nat n_splits <= length (group (labels_of n groups) g)) us <->
    forall i, i < n -> (n_splits <= Z.of_nat (group_size n groups (label groups i)))%Z).
  { unfold us. rewrite (groups_large n_splits n groups Hl). split; intros H i Hi; specialize (H i Hi); lia. }
  destruct (Forall_dec (fun g => Z.to_nat n_splits <= length (group (labels_of n groups) g)) (fun g => le_dec _ _) us) as [Hg|Hg].
  - split.
    + intros [H1 H2]. destruct (kfg_shape shuffle Hs n_splits sh n groups s Hk Hl H1 Hg) as [ts [folds [_ [E _]]]]. eauto.
    + intros H. unfold kfg_split. rewrite (proj1 (indexable_ok n groups) Hl). cbn [bind].
      destruct (Z.gtb_spec n_splits (Z.of_nat n)); auto. exfalso. apply H. split; [lia|]. apply Eq. auto.
  - split.
    + intros [_ H2]. exfalso. apply Hg, Eq. auto.
    + intros _. destruct (Z_le_gt_dec n_splits (Z.of_nat n)) as [H1|H1].
      * apply (kfg_raises shuffle Hs n_splits sh n groups s Hk Hl H1 Hg).
      * unfold kfg_split. rewrite (proj1 (indexable_ok n groups) Hl). cbn [bind].
        destruct (Z.gtb_spec n_splits (Z.of_nat n)); auto. lia.
Qed.

(** ** ShuffleSplitWithinGroups *)
(** sizes that make sense, and a product that does not leave the interval *)
Definition size_ok (x : option size) : Prop :=
  match x with Some (Frac q) => (0 <= q /\ q < 1)%Q | Some (Count c) => (0 <= c)%Z | None => True end.
Definition product_ok (fmul : Q -> nat -> Q) : Prop :=
  forall x m, (0 <= x /\ x < 1)%Q -> (0 <= fmul x m /\ fmul x m <= inject_Z (Z.of_nat m))%Q.

(** what the documentation asks for a group of [m] samples *)
Definition asked_test (fmul : Q -> nat -> Q) (test train : option size) (m : nat) : Z :=
  match test, train with
  | Some (Frac x), _ => Qceiling (fmul x m)
  | Some (Count c), _ => c
  | None, Some (Frac x) => (Z.of_nat m - Qfloor (fmul x m))%Z
  | None, Some (Count c) => (Z.of_nat m - c)%Z
  | None, None => 0%Z
  end.
Definition asked_train (fmul : Q -> nat -> Q) (test train : option size) (m : nat) : Z :=
  match train with
  | Some (Frac x) => Qfloor (fmul x m)
  | Some (Count c) => c
  | None => (Z.of_nat m - asked_test fmul test train m)%Z
  end.
(** the sizes are possible for a group of [m] samples *)
Definition fits (fmul : Q -> nat -> Q) (test train : option size) (m : nat) : Prop :=
  match test with Some (Count c) => (c < Z.of_nat m)%Z | _ => True end /\
  match train with Some (Count c) => (c < Z.of_nat m)%Z | _ => True end /\
  (asked_train fmul test train m + asked_test fmul test train m <= Z.of_nat m)%Z.

Section SSG.
  Context {S : Type} (shuffle : S -> list nat -> list nat * S) (Hs : shuffles shuffle).
  Context (fmul : Q -> nat -> Q) (Hf : product_ok fmul) (test train : option size) (sh : bool).
  Hypothesis Ht : size_ok test.
  Hypothesis Hr : size_ok train.
  Hypothesis Hsome : test <> None \/ train <> None.
  Notation AT := (asked_test fmul test train).
  Notation AR := (asked_train fmul test train).

  Lemma ceil_range : forall x m, (0 <= x /\ x < 1)%Q -> (0 <= Qceiling (fmul x m) <= Z.of_nat m)%Z.
  Proof.
    intros x m H. destruct (Hf x m H) as [A B]. split.
    - apply (Qceiling_resp_le 0) in A. exact A.
    - apply Qceiling_resp_le in B. rewrite Qceiling_Z in B. exact B.
  Qed.
  Lemma floor_range : forall x m, (0 <= x /\ x < 1)%Q -> (0 <= Qfloor (fmul x m) <= Z.of_nat m)%Z.
  Proof.
    intros x m H. destruct (Hf x m H) as [A B]. split.
    - apply (Qfloor_resp_le 0) in A. exact A.
    - apply Qfloor_resp_le in B. rewrite Qfloor_Z in B. exact B.
  Qed.

  Lemma split_sizes_spec : forall m,
    (fits fmul test train m -> split_sizes fmul m test train = Ok (AR m, AT m) /\ (0 <= AT m <= Z.of_nat m)%Z /\ (0 <= AR m)%Z) /\
    (~ fits fmul test train m -> split_sizes fmul m test train = Raise ValueError).
  Proof.
    intros m. unfold split_sizes, fits, asked_train, asked_test, too_large.
    destruct test as [[x|c]|], train as [[y|e]|]; cbn [size_ok] in *; try (destruct Hsome; congruence);
      repeat match goal with
      | H : (0 <= ?z /\ ?z < 1)%Q |- _ => pose proof (ceil_range z m H); pose proof (floor_range z m H); clear H
      end;
      repeat match goal with
      | |- context [(?a <=? ?b)%Z] => destruct (Z.leb_spec a b)
      | |- context [(?a >? ?b)%Z] => destruct (Z.gtb_spec a b)
      end; cbn [bind fst snd];
      repeat match goal with
      | |- context [(?a <=? ?b)%Z] => destruct (Z.leb_spec a b)
      | |- context [(?a >? ?b)%Z] => destruct (Z.gtb_spec a b)
      end;
      split; intros Hx; try lia; try (split; [reflexivity|lia]); try reflexivity.
  Qed.

  Lemma tts_spec : forall a s, (fits fmul test train (length a) -> exists t s', NoDup t /\ Forall (fun p => p < length a) t /\
       Z.of_nat (length t) = AT (length a) /\ tts_test shuffle fmul a test train sh s = Ok (map (fun p => nth p a 0) t, s')) /\
    (~ fits fmul test train (length a) -> tts_test shuffle fmul a test train sh s = Raise ValueError).
  Proof.
    intros a s. unfold tts_test. destruct (split_sizes_spec (length a)) as [A B]. split; intros H.
    2:{ rewrite (B H). reflexivity. }
    destruct (A H) as [-> [R1 R2]]. cbn [bind fst snd]. destruct H as [_ [_ H]].
    set (b := AT (length a)) in *. set (r := AR (length a)) in *. destruct sh.
    - pose proof (Hs s (arange (length a))) as P. cbn zeta. set (ps := shuffle s (arange (length a))) in *.
      assert (Lp : length (fst ps) = length a) by (rewrite <- (Permutation_length P); unfold arange; apply seq_length).
      assert (Np : NoDup (fst ps)) by (apply (Permutation_NoDup P), seq_NoDup).
      assert (Ip : forall p, In p (fst ps) -> p < length a).
      { intros p Hp. apply (Permutation_in _ (Permutation_sym P)) in Hp. apply in_seq in Hp. lia. }
      exists (firstn (Z.to_nat b) (fst ps)), (snd ps). split; [|split; [|split]].
      + rewrite <- (firstn_skipn (Z.to_nat b) (fst ps)) in Np. clear - Np. induction (firstn (Z.to_nat b) (fst ps)) as [|x l IH]; constructor; inversion Np; subst; auto.
        intros I. apply H1, in_or_app. auto.
      + apply Forall_forall. intros p Hp. apply Ip. rewrite <- (firstn_skipn (Z.to_nat b) (fst ps)). apply in_or_app. auto.
      + rewrite firstn_length, Lp. lia.
      + unfold upto. destruct (Z.ltb_spec b 0); [lia|]. rewrite (take_ok _ 0); [reflexivity|].
        apply Forall_forall. intros p Hp. apply Ip. rewrite <- (firstn_skipn (Z.to_nat b) (fst ps)). apply in_or_app. auto.
    - exists (seq (Z.to_nat r) (Z.to_nat b)), s. split; [apply seq_NoDup|]. split; [apply Forall_forall; intros p Hp; apply in_seq in Hp; lia|].
      split; [rewrite seq_length; lia|].
      assert (E : arange_from r (r + b) = map Z.of_nat (seq (Z.to_nat r) (Z.to_nat b))).
      { unfold arange_from. replace (r + b - r)%Z with b by lia. assert (Q : forall j c, map (fun i => (r + Z.of_nat i)%Z) (seq j c) = map Z.of_nat (seq (Z.to_nat r + j) c)).
        { intros j c. revert j. induction c as [|c IH]; intros j; cbn; [auto|]. f_equal; [lia|]. rewrite IH. f_equal. f_equal. lia. }
        rewrite Q. f_equal. f_equal. lia. }
      rewrite E. pose proof (take_ok _ 0 a (seq (Z.to_nat r) (Z.to_nat b))) as T. unfold take in T. rewrite T; [reflexivity|].
      apply Forall_forall; intros p Hp; apply in_seq in Hp; lia.
  Qed.

  Variable gs : list Z.
  Notation n := (length gs).
  Definition picks_for (g : Z) (gt : Z * list nat) : Prop :=
    fst gt = g /\ NoDup (snd gt) /\ Forall (fun p => p < length (group gs g)) (snd gt) /\
    Z.of_nat (length (snd gt)) = AT (length (group gs g)).

  Lemma ssg_mask_spec : forall us mask s, length mask = n ->
    let loop := foldM (fun ms g =>
             do m <- members n gs g;
             do ts <- tts_test shuffle fmul m test train sh (snd ms);
             do mask <- put_true (fst ms) (fst ts);
             Ok (mask, snd ts)) us (mask, s) in
    (Forall (fun g => fits fmul test train (length (group gs g))) us -> exists mask' s' pairs, loop = Ok (mask', s') /\ length mask' = n /\
       Forall2 picks_for us pairs /\ forall i, nth i mask' false = nth i mask false || memb (picked gs pairs) i) /\
    (~ Forall (fun g => fits fmul test train (length (group gs g))) us -> loop = Raise ValueError).
  Proof.
    induction us as [|g us IH]; intros mask s L; cbn zeta.
    - split; [|intros F; exfalso; apply F; constructor]. intros _. exists mask, s, []. split; [reflexivity|]. split; auto. split; [constructor|].
      intros i. cbn. rewrite orb_false_r. auto.
    - cbn [foldM fst snd]. rewrite members_ok. cbn [bind]. destruct (tts_spec (group gs g) s) as [T1 T2].
      assert (Dec : fits fmul test train (length (group gs g)) \/ ~ fits fmul test train (length (group gs g))).
      { unfold fits. destruct (Z_lt_le_dec (Z.of_nat (length (group gs g))) (AR (length (group gs g)) + AT (length (group gs g)))); [right; lia|].
        destruct test as [[x|c]|]; [|destruct (Z_lt_le_dec c (Z.of_nat (length (group gs g)))); [|right; lia]|];
          (destruct train as [[y|e]|]; [|destruct (Z_lt_le_dec e (Z.of_nat (length (group gs g)))); [|right; lia]|]; left; auto). }
      destruct Dec as [Fg|Fg].
      + destruct (T1 Fg) as [t [s' [N [B [Len ->]]]]]. cbn [bind fst snd].
        destruct (put_true_ok (map (fun p => nth p (group gs g) 0) t) mask) as [m1 [-> [L1 N1]]].
        { apply Forall_map, Forall_forall. intros p Hp. rewrite Forall_forall in B. specialize (B _ Hp).
          pose proof (nth_In (group gs g) 0 B) as I. apply group_in in I. lia. }
        cbn [bind]. destruct (IH m1 s' ltac:(congruence)) as [I1 I2]. cbn zeta in *. split.
        * intros F. inversion F; subst. destruct (I1 H2) as [m2 [s2 [pairs [E [L2 [F2 N2]]]]]]. exists m2, s2, ((g, t) :: pairs).
          split; auto. split; auto. split; [constructor; [repeat split; auto|auto]|]. intros i. rewrite N2, N1, <- orb_assoc. f_equal.
          unfold picked. cbn [flat_map fst snd]. unfold memb. rewrite existsb_app. reflexivity.
        * intros F. apply I2. intros F'. apply F. constructor; auto.
      + rewrite (T2 Fg). split; [|reflexivity]. intros F. inversion F; contradiction.
  Qed.

  Lemma picks_ok : forall us pairs, NoDup us -> Forall2 picks_for us pairs -> pairs_ok gs pairs /\
    forall g, In g us -> exists t, In (g, t) pairs /\ Z.of_nat (length t) = AT (length (group gs g)).
  Proof.
    intros us pairs Hn F. assert (E : map fst pairs = us).
    { clear Hn. induction F as [|g gt us pairs [Hg _] F IH]; cbn; [auto|]. f_equal; auto. }
    split.
    - split; [rewrite E; auto|]. clear E Hn. induction F as [|g gt us pairs [Hg [N [B _]]] F IH]; constructor; auto. rewrite Hg. auto.
    - clear E Hn. intros g Hin. induction F as [|g' [h t] us pairs [Hg [_ [_ Len]]] F IH]; [contradiction|]. cbn [fst snd] in *. subst h. destruct Hin as [->|Hin].
      + exists t. split; [left; auto|auto].
      + destruct (IH Hin) as [t' [A B]]. exists t'. split; [right; auto|auto].
  Qed.

  Lemma ssg_folds_spec : forall k s,
    let us := np_unique Z.compare gs in
    (Forall (fun g => fits fmul test train (length (group gs g))) us -> exists folds, ssg_folds shuffle fmul test train sh n gs us k s = Ok folds /\
       length folds = k /\ Forall (fun tt => complementary n tt /\ exists pairs, Forall2 picks_for us pairs /\
         snd tt = filter (memb (picked gs pairs)) (seq 0 n)) folds) /\
    (~ Forall (fun g => fits fmul test train (length (group gs g))) us -> 0 < k -> ssg_folds shuffle fmul test train sh n gs us k s = Raise ValueError).
  Proof.
    intros k s us. split.
    - intros F. revert s. induction k as [|k IH]; intros s.
      + exists []. repeat split; auto.
      + cbn [ssg_folds]. unfold ssg_mask. destruct (ssg_mask_spec us (repeat false n) s ltac:(apply repeat_length)) as [A _]. cbn zeta in A.
        destruct (A F) as [mask [s' [pairs [-> [L [P N]]]]]]. cbn [bind fst snd].
        pose proof (of_mask_ok n mask L) as E. rewrite E. cbn [bind]. destruct (IH s') as [folds [-> [Lf Ff]]]. cbn [bind].
        eexists. split; [reflexivity|]. split; [cbn; auto|]. constructor; auto. split; [apply of_mask_complementary with mask; auto|].
        exists pairs. split; auto. cbn [snd]. apply filter_ext. intros i. rewrite N, nth_repeat. auto.
    - intros F Hk. destruct k as [|k]; [lia|]. cbn [ssg_folds]. unfold ssg_mask.
      destruct (ssg_mask_spec us (repeat false n) s ltac:(apply repeat_length)) as [_ A]. cbn zeta in A. rewrite (A F). reflexivity.
  Qed.
End SSG.

Lemma count_split : forall n groups g tr te, labelled n groups -> complementary n (tr, te) ->
  count groups g tr + count groups g te = group_size n groups g.
Proof.
  intros n groups g tr te Hl [S1 [S2 [C1 C2]]]. cbn [fst snd] in *. unfold group_size, count.
  rewrite <- app_length, <- filter_app. apply Permutation_length.
  assert (Pm : Permutation (tr ++ te) (seq 0 n)).
  { apply NoDup_Permutation; [|apply seq_NoDup|].
    - apply NoDup_app_intro; [apply sorted_nodup; auto|apply sorted_nodup; auto|]. intros j J1 J2. apply C1 in J1. tauto.
    - intros j. rewrite in_app_iff, in_seq, C1. split.
      + intros [[J _]|J]; [lia|]. apply C2 in J. lia.
      + intros J. destruct (in_dec Nat.eq_dec j te); [auto|left; split; [lia|auto]]. }
  clear - Pm. set (f := fun i => Z.eqb (label groups i) g). induction Pm; cbn; auto.
  - destruct (f x); auto.
  - destruct (f x), (f y); auto. apply perm_swap.
  - eapply Permutation_trans; eauto.
Qed.

Theorem C49_test_share : forall S (shuffle : S -> list nat -> list nat * S) fmul n_splits test train sh n groups s folds,
  shuffles shuffle -> product_ok fmul -> size_ok test -> size_ok train -> test <> None \/ train <> None ->
  ssg_split shuffle fmul n_splits test train sh n groups s = Ok folds ->
  length folds = Z.to_nat n_splits /\ Forall (complementary n) folds /\
  forall i tr te, i < n -> In (tr, te) folds ->
    let g := label groups i in let m := group_size n groups g in
    Z.of_nat (count groups g te) = asked_test fmul test train m /\
    Z.of_nat (count groups g tr) = (Z.of_nat m - asked_test fmul test train m)%Z.
Proof.
  intros S shuffle fmul n_splits test train sh n groups s folds Hs Hf Ht Hr Hsome H.
  assert (Hl : labelled n groups).
  { apply indexable_inv. unfold ssg_split in H. apply bind_ok in H. destruct H as [[] [H _]]. exact H. }
  destruct (labelled_of n groups Hl) as [Lg Ng]. unfold ssg_split in H. rewrite (proj1 (indexable_ok n groups) Hl) in H. cbn [bind] in H. cbn zeta in H.
  destruct (ssg_folds_spec shuffle Hs fmul Hf test train sh Ht Hr Hsome (labels_of n groups) (Z.to_nat n_splits) s) as [A B]. cbn zeta in *. rewrite Lg in *.
  destruct (Z.to_nat n_splits) as [|k] eqn:Ek.
  { cbn in H. inversion H; subst. repeat split; auto; contradiction. }
  set (gs := labels_of n groups) in *.
  assert (Dec : Forall (fun g => fits fmul test train (length (group gs g))) (np_unique Z.compare gs) \/ ~ Forall (fun g => fits fmul test train (length (group gs g))) (np_unique Z.compare gs)).
  { assert (D : forall m, fits fmul test train m \/ ~ fits fmul test train m).
    { intros m. unfold fits. destruct (Z_lt_le_dec (Z.of_nat m) (asked_train fmul test train m + asked_test fmul test train m)); [right; lia|].
      destruct test as [[x|c]|]; [|destruct (Z_lt_le_dec c (Z.of_nat m)); [|right; lia]|];
        (destruct train as [[y|e]|]; [|destruct (Z_lt_le_dec e (Z.of_nat m)); [|right; lia]|]; left; auto). }
    clear - D. induction (np_unique Z.compare gs) as [|u l [IH|IH]]; [left; constructor| |right; intros F; inversion F; auto].
    destruct (D (length (group gs u))); [left; constructor; auto|right; intros F; inversion F; auto]. }
  destruct Dec as [F|F]; [|rewrite (B F ltac:(lia)) in H; discriminate].
  destruct (A F) as [folds' [E [L Fa]]]. assert (folds' = folds) by congruence. subst folds'. rewrite Forall_forall in Fa.
  split; auto. split; [apply Forall_forall; intros tt Hin; apply Fa; auto|].
  intros i tr te Hi Hin. destruct (Fa _ Hin) as [C [pairs [P Ete]]]. cbn [snd] in Ete. cbn zeta.
  rewrite <- Ng by auto. set (g := nth i gs 0%Z).
  assert (Hgu : In g (np_unique Z.compare gs)) by (apply labels_in, nth_In; lia).
  destruct (picks_ok fmul test train gs _ pairs (labels_nodup gs) P) as [Hok Hp]. destruct (Hp g Hgu) as [t [It Lt]].
  assert (Gs : group_size n groups g = length (group gs g)) by (apply (group_size_of n groups Hl)).
  assert (Cte : Z.of_nat (count groups g te) = asked_test fmul test train (group_size n groups g)).
  { rewrite Gs, <- Lt. rewrite (count_of n); auto; [|apply Forall_forall; intros j Hj; destruct C as [_ [_ [_ C]]]; apply C; auto].
    fold gs. rewrite Ete, <- Lg. f_equal. apply picked_count; auto. }
  split; auto. pose proof (count_split n groups g tr te Hl C). lia.
Qed.

Theorem C49_errors : forall S (shuffle : S -> list nat -> list nat * S) fmul n_splits test train sh n groups s,
  shuffles shuffle -> product_ok fmul -> size_ok test -> size_ok train -> test <> None \/ train <> None -> labelled n groups ->
  let possible := forall i, i < n -> fits fmul test train (group_size n groups (label groups i)) in
  (possible -> exists folds, ssg_split shuffle fmul n_splits test train sh n groups s = Ok folds) /\
  (~ possible -> (1 <= n_splits)%Z -> ssg_split shuffle fmul n_splits test train sh n groups s = Raise ValueError).
Proof.
  intros S shuffle fmul n_splits test train sh n groups s Hs Hf Ht Hr Hsome Hl. cbn zeta.
  destruct (labelled_of n groups Hl) as [Lg Ng]. unfold ssg_split. rewrite (proj1 (indexable_ok n groups) Hl). cbn [bind]. cbn zeta.
  destruct (ssg_folds_spec shuffle Hs fmul Hf test train sh Ht Hr Hsome (labels_of n groups) (Z.to_nat n_splits) s) as [A B]. cbn zeta in *. rewrite Lg in *.
  assert (Eq : Forall (fun g => fits fmul test train (length (group (labels_of n groups) g))) (np_unique Z.compare (labels_of n groups)) <->
    forall i, i < n -> fits fmul test train (group_size n groups (label groups i))).
  { rewrite Forall_forall. split.
    - intros H i Hi. rewrite (group_size_of n groups Hl). apply H. apply labels_in. rewrite <- Ng by auto. apply nth_In. lia.
    - intros H g Hg. apply (proj1 (labels_in _ _)) in Hg. apply (In_nth _ _ 0%Z) in Hg. destruct Hg as [i [Hi <-]]. rewrite Lg in Hi.
      rewrite Ng, <- (group_size_of n groups Hl) by auto. apply H. auto. }
  split.
  - intros H. apply Eq in H. destruct (A H) as [folds [E _]]. eauto.
  - intros H Hk. apply B; [|lia]. intros F. apply H, Eq. auto.
Qed.

(** ** C50 *)
(** full statement: the training set has the size asked for.  It is false when
    both sizes are given and do not fill the group: everything that is not
    tested is used for training. *)
Definition exact (x : Q) (m : nat) : Q := (x * inject_Z (Z.of_nat m))%Q.
Lemma exact_ok : product_ok exact.
Proof.
  intros x m [H1 H2]. unfold exact. assert (Hm : (0 <= inject_Z (Z.of_nat m))%Q) by (change 0%Q with (inject_Z 0); rewrite <- Zle_Qle; lia).
  split; [apply Qmult_le_0_compat; auto|]. rewrite <- (Qmult_1_l (inject_Z (Z.of_nat m))) at 2. apply Qmult_le_compat_r; auto. apply Qlt_le_weak; auto.
Qed.

Theorem C50_train_size_partial : forall S (shuffle : S -> list nat -> list nat * S) fmul n_splits test train sh n groups s folds,
  shuffles shuffle -> product_ok fmul -> size_ok test -> size_ok train -> test <> None \/ train <> None ->
  ssg_split shuffle fmul n_splits test train sh n groups s = Ok folds ->
  forall i tr te, i < n -> In (tr, te) folds ->
    let g := label groups i in let m := group_size n groups g in
    (Z.of_nat (count groups g tr) = asked_train fmul test train m <->
     (asked_train fmul test train m + asked_test fmul test train m = Z.of_nat m)%Z) /\
    (test = None -> Z.of_nat (count groups g tr) = asked_train fmul test train m).
Proof.
  intros S shuffle fmul n_splits test train sh n groups s folds Hs Hf Ht Hr Hsome H i tr te Hi Hin.
  destruct (C49_test_share S shuffle fmul n_splits test train sh n groups s folds Hs Hf Ht Hr Hsome H) as [_ [_ C]].
  destruct (C i tr te Hi Hin) as [C1 C2]. cbn zeta. split; [lia|]. intros ->. rewrite C2. unfold asked_train, asked_test.
  destruct train as [[x|c]|]; try lia.
Qed.

Theorem C50_train_size_refuted : exists (shuffle : unit -> list nat -> list nat * unit) test train folds,
  shuffles shuffle /\ product_ok exact /\ size_ok test /\ size_ok train /\
  ssg_split shuffle exact 1 test train true 10 None tt = Ok folds /\
  exists tr te, In (tr, te) folds /\ Z.of_nat (count None 0 tr) <> asked_train exact test train 10.
Proof.
  exists (fun s l => (l, s)), (Some (Frac (1 # 10))), (Some (Frac (1 # 2))), [([1; 2; 3; 4; 5; 6; 7; 8; 9], [0])].
  split; [intros s l; apply Permutation_refl|]. split; [apply exact_ok|]. split; [cbn; split; [discriminate|reflexivity]|].
  split; [cbn; split; [discriminate|reflexivity]|]. split; [vm_compute; reflexivity|].
  exists [1; 2; 3; 4; 5; 6; 7; 8; 9], [0]. split; [left; reflexivity|]. vm_compute. discriminate.
Qed.

(** ** C51 *)
Lemma count_mod : forall k f n, f < k -> length (filter (fun i => Nat.eqb (i mod k) f) (seq 0 n)) = n / k + (if f <? n mod k then 1 else 0).
Proof.
  intros k f n Hf. induction n as [|n IH].
  - cbn [seq filter length]. rewrite Nat.div_0_l, Nat.mod_0_l by lia. destruct (Nat.ltb_spec f 0); lia.
  - rewrite seq_S, filter_app, app_length, IH. cbn [plus filter].
    pose proof (Nat.div_mod n k ltac:(lia)) as D. pose proof (Nat.mod_upper_bound n k ltac:(lia)) as M.
    set (q := n / k) in *. set (r := n mod k) in *.
    destruct (Nat.eq_dec (S r) k) as [E|E].
    + assert (Dq : S q = S n / k) by (apply (Nat.div_unique (S n) k (S q) 0); [lia|nia]).
      assert (Mr : 0 = S n mod k) by (apply (Nat.mod_unique (S n) k (S q) 0); [lia|nia]).
      rewrite <- Dq, <- Mr. destruct (Nat.eqb_spec r f), (Nat.ltb_spec f r), (Nat.ltb_spec f 0); cbn [length]; lia.
    + assert (Dq : q = S n / k) by (apply (Nat.div_unique (S n) k q (S r)); lia).
      assert (Mr : S r = S n mod k) by (apply (Nat.mod_unique (S n) k q (S r)); lia).
      rewrite <- Dq, <- Mr. destruct (Nat.eqb_spec r f), (Nat.ltb_spec f r), (Nat.ltb_spec f (S r)); cbn [length]; lia.
Qed.

Theorem C51_interlaced : forall n_splits n groups, (2 <= n_splits)%Z -> labelled n groups -> let k := Z.to_nat n_splits in
  ((Z.of_nat n < n_splits)%Z -> ikf_split n_splits n groups = Raise ValueError) /\
  ((n_splits <= Z.of_nat n)%Z -> exists folds, ikf_split n_splits n groups = Ok folds /\ length folds = k /\
     Forall (complementary n) folds /\ partition n folds /\
     forall f tr te, nth_error folds f = Some (tr, te) ->
       (forall i, In i te <-> i < n /\ i mod k = f) /\
       length te = n / k + (if f <? n mod k then 1 else 0) /\
       (forall i j, In i te -> In j te -> i < j -> i + k <= j)).
Proof.
  intros n_splits n groups Hk Hl. cbn zeta. set (k := Z.to_nat n_splits). assert (Ek : n_splits = Z.of_nat k) by (unfold k; lia).
  unfold ikf_split. rewrite (proj1 (indexable_ok n groups) Hl). cbn [bind]. destruct (Z.gtb_spec n_splits (Z.of_nat n)); split; intros H'; try lia; auto.
  assert (Et : map (fun i => (Z.of_nat i mod n_splits)%Z) (arange n) = map (fun i => Z.of_nat (i mod k)) (seq 0 n)).
  { unfold arange. apply map_ext. intros i. rewrite Ek, Nat2Z.inj_mod. auto. }
  rewrite Et. unfold predefined. set (tf := map (fun i => Z.of_nat (i mod k)) (seq 0 n)).
  assert (Ltf : length tf = n) by (unfold tf; rewrite map_length, seq_length; auto).
  assert (Eu : np_unique Z.compare tf = map Z.of_nat (seq 0 k)).
  { rewrite (np_unique_ext _ Z_laws Z_leibniz tf (map Z.of_nat (seq 0 k))).
    - apply (np_unique_fix _ Z_laws Z_leibniz). generalize 0. clear. induction k as [|k IH]; intros a; cbn; constructor; [apply IH|].
      apply Forall_forall. intros x Hx. apply in_map_iff in Hx. destruct Hx as [j [<- Hj]]. apply in_seq in Hj. apply Z.compare_lt_iff. lia.
    - intros x. unfold tf. rewrite !in_map_iff. split.
      + intros [i [<- Hi]]. exists (i mod k). split; auto. apply in_seq. pose proof (Nat.mod_upper_bound i k). lia.
      + intros [f [<- Hf]]. apply in_seq in Hf. exists f. rewrite Nat.mod_small by lia. split; auto. apply in_seq. lia. }
  assert (Ef : filter (fun x => negb (x =? -1)%Z) (map Z.of_nat (seq 0 k)) = map Z.of_nat (seq 0 k)).
  { clear. generalize 0. induction k as [|k IH]; intros a; cbn; auto. destruct (Z.eqb_spec (Z.of_nat a) (-1)); [lia|]. cbn. f_equal. apply IH. }
  cbn zeta. rewrite Eu, Ef, Ltf.
  set (mask := fun f => map (fun x => (x =? Z.of_nat f)%Z) tf).
  assert (Lm : forall f, length (mask f) = n) by (intros; unfold mask; rewrite map_length; auto).
  assert (Nm : forall f i, i < n -> nth i (mask f) false = Nat.eqb (i mod k) f).
  { intros f i Hi. unfold mask. rewrite (nth_map_in _ _ _ _ _ 0%Z) by lia. unfold tf. rewrite (nth_map_in _ _ _ _ _ 0) by (rewrite seq_length; auto).
    rewrite seq_nth by auto. cbn [plus]. destruct (Nat.eqb_spec (i mod k) f), (Z.eqb_spec (Z.of_nat (i mod k)) (Z.of_nat f)); auto; lia. }
  set (fold := fun f => (filter (fun i => negb (nth i (mask f) false)) (seq 0 n), filter (fun i => nth i (mask f) false) (seq 0 n))).
  exists (map fold (seq 0 k)).
  assert (In_te : forall f i, In i (snd (fold f)) <-> i < n /\ i mod k = f).
  { intros f i. unfold fold. cbn [snd]. rewrite filter_In, in_seq. split.
    - intros [Hi E]. rewrite Nm in E by lia. apply Nat.eqb_eq in E. split; [lia|auto].
    - intros [Hi E]. rewrite Nm by lia. split; [lia|]. apply Nat.eqb_eq; auto. }
  assert (At : forall f tt, nth_error (map fold (seq 0 k)) f = Some tt -> f < k /\ tt = fold f).
  { intros f tt E. assert (f < k) by (assert (f < length (map fold (seq 0 k))) by (apply nth_error_Some; congruence); rewrite map_length, seq_length in *; auto).
    rewrite nth_error_map_seq in E by auto. inversion E; auto. }
  split.
  { assert (Q : forall l, mapM (fun f => of_mask n (map (fun x => (x =? f)%Z) tf)) (map Z.of_nat l) = Ok (map fold l)).
    { induction l as [|f l IH]; [reflexivity|]. cbn [map mapM]. fold (mask f). rewrite of_mask_ok by auto. cbn [bind]. rewrite IH. reflexivity. }
    apply Q. }
  split; [rewrite map_length, seq_length; auto|]. split.
  { apply Forall_map, Forall_forall. intros f _. apply of_mask_complementary with (mask f); auto. apply of_mask_ok; auto. }
  split.
  - intros i Hi. pose proof (Nat.mod_upper_bound i k ltac:(lia)) as Hm. exists (i mod k). split.
    + exists (fold (i mod k)). split; [rewrite nth_error_map_seq by auto; auto|]. apply In_te. auto.
    + intros f' [tt [E I]]. apply At in E. destruct E as [_ ->]. apply In_te in I. destruct I as [_ ->]. auto.
  - intros f tr te E. apply At in E. destruct E as [Hf E]. assert (Ete : te = snd (fold f)) by (rewrite <- E; auto). rewrite Ete.
    split; [apply In_te|]. split.
    + rewrite <- count_mod by auto. unfold fold. cbn [snd]. f_equal. apply filter_ext_in. intros i Hi. apply in_seq in Hi. apply Nm. lia.
    + intros i j Hi Hj Hij. apply In_te in Hi, Hj. destruct Hi as [_ Hi], Hj as [_ Hj].
      pose proof (Nat.div_mod i k ltac:(lia)). pose proof (Nat.div_mod j k ltac:(lia)).
      assert (i / k < j / k) by (rewrite Hi in *; rewrite Hj in *; nia). nia.
Qed.

Theorem C51_init : forall n_splits, ikf_init n_splits = Raise ValueError <-> (n_splits <= 1)%Z.
Proof. intros. unfold ikf_init. destruct (Z.leb_spec n_splits 1); split; intros; auto; try discriminate; lia. Qed.

(** ** Concrete cases *)
(** a generator that reverses the samples *)
Definition backwards (s : nat) (l : list nat) : list nat * nat := (rev l, S s).
Lemma backwards_ok : shuffles backwards.
Proof. intros s l. apply Permutation_rev. Qed.

Example C47_nonvacuous : shuffles backwards /\
  kfg_split backwards 2 true 7 (Some [5; 3; 5; 3; 5; 3; 3]%Z) 0 =
  Ok [([0; 1; 3], [2; 4; 5; 6]); ([2; 4; 5; 6], [0; 1; 3])] /\
  kfg_split backwards 4 true 7 (Some [5; 3; 5; 3; 5; 3; 3]%Z) 0 = Raise ValueError.
Proof. split; [apply backwards_ok|]. split; vm_compute; reflexivity. Qed.

Example C49_nonvacuous : product_ok exact /\ size_ok (Some (Frac (1 # 3))) /\
  ssg_split backwards exact 2 (Some (Frac (1 # 3))) None true 7 (Some [5; 3; 5; 3; 5; 3; 3]%Z) 0 =
  Ok [([0; 1; 2; 3], [4; 5; 6]); ([0; 1; 2; 3], [4; 5; 6])].
Proof. split; [apply exact_ok|]. split; [cbn; split; [discriminate|reflexivity]|]. vm_compute. reflexivity. Qed.

Example C51_nonvacuous : ikf_split 3 7 None = Ok [([1; 2; 4; 5], [0; 3; 6]); ([0; 2; 3; 5; 6], [1; 4]); ([0; 1; 3; 4; 6], [2; 5])].
Proof. vm_compute. reflexivity. Qed.

Print Assumptions C47_partition.
Print Assumptions C48_balance.
Print Assumptions C48_errors.
Print Assumptions C49_test_share.
Print Assumptions C49_errors.
Print Assumptions C50_train_size_partial.
Print Assumptions C50_train_size_refuted.
Print Assumptions C51_interlaced.
