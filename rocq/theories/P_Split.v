(** * Lemmas about masks, parts and groups *)
From Coq Require Import List ZArith QArith Bool Lia Permutation Sorted.
From Verif Require Import M_Py P_Py M_Split.
Import ListNotations.
Open Scope nat_scope.

Definition memb (l : list nat) (i : nat) : bool := existsb (Nat.eqb i) l.
Lemma memb_in : forall l i, memb l i = true <-> In i l.
Proof.
  intros l i. unfold memb. rewrite existsb_exists. split.
  - intros [x [H E]]. apply Nat.eqb_eq in E. subst; auto.
  - intros H. exists i. split; auto. apply Nat.eqb_refl.
Qed.

Lemma bselect_filter : forall mask a, bselect mask (seq a (length mask)) = filter (fun i => nth (i - a) mask false) (seq a (length mask)).
Proof.
  induction mask as [|b mask IH]; intros a; [reflexivity|]. cbn [length seq bselect filter]. rewrite Nat.sub_diag. change (nth 0 (b :: mask) false) with b.
  assert (E : filter (fun i => nth (i - a) (b :: mask) false) (seq (S a) (length mask)) = bselect mask (seq (S a) (length mask))).
  { rewrite IH. apply filter_ext_in. intros i Hi. apply in_seq in Hi. replace (i - a) with (S (i - S a)) by lia. reflexivity. }
  rewrite E. reflexivity.
Qed.

Lemma np_mask_ok : forall n mask, length mask = n -> np_mask (arange n) mask = Ok (filter (fun i => nth i mask false) (seq 0 n)).
Proof.
  intros n mask <-. unfold np_mask, arange. rewrite seq_length, Nat.eqb_refl, bselect_filter. f_equal.
  apply filter_ext. intros i. rewrite Nat.sub_0_r. reflexivity.
Qed.

Lemma nth_map_in : forall A B (f : A -> B) l i a b, i < length l -> nth i (map f l) b = f (nth i l a).
Proof. intros. rewrite (nth_indep _ b (f a)) by (rewrite map_length; auto). apply map_nth. Qed.

Lemma of_mask_ok : forall n mask, length mask = n -> of_mask n mask =
  Ok (filter (fun i => negb (nth i mask false)) (seq 0 n), filter (fun i => nth i mask false) (seq 0 n)).
Proof.
  intros n mask L. unfold of_mask. rewrite np_mask_ok by (rewrite map_length; auto). cbn [bind]. rewrite np_mask_ok by auto. cbn [bind].
  do 2 f_equal. apply filter_ext_in. intros i Hi. apply in_seq in Hi. apply nth_map_in. lia.
Qed.

Lemma set_nth_length : forall A (l : list A) k v, length (set_nth l k v) = length l.
Proof. induction l as [|x l IH]; intros [|k] v; cbn; auto. Qed.
Lemma set_nth_nth : forall A (l : list A) k v i d, k < length l -> nth i (set_nth l k v) d = if Nat.eqb i k then v else nth i l d.
Proof.
  induction l as [|x l IH]; intros [|k] v [|i] d H; cbn in *; try lia; auto. apply IH. lia.
Qed.

Lemma put_true_ok : forall idx m, Forall (fun i => i < length m) idx ->
  exists m', put_true m idx = Ok m' /\ length m' = length m /\ forall i, nth i m' false = nth i m false || memb idx i.
Proof.
  unfold put_true, np_put. induction idx as [|k idx IH]; intros m H.
  - exists m. cbn. repeat split; auto. intros i. rewrite orb_false_r. auto.
  - inversion H; subst. cbn [map foldM fst snd]. unfold np_set at 1.
    assert (np_norm (length m) (Z.of_nat k) = Some k) as ->.
    { unfold np_norm. destruct (Z.leb_spec 0 (Z.of_nat k)); [|lia]. destruct (Z.ltb_spec (Z.of_nat k) (Z.of_nat (length m))); [|lia].
      rewrite Nat2Z.id. auto. }
    cbn [bind]. destruct (IH (set_nth m k true)) as [m' [E [L N]]].
    { rewrite set_nth_length. auto. }
    exists m'. rewrite set_nth_length in L. repeat split; auto. intros i. rewrite N, set_nth_nth by auto. cbn.
    destruct (Nat.eqb i k); cbn; [rewrite orb_true_r|]; auto.
Qed.

Lemma take_ok : forall A (d : A) a idx, Forall (fun i => i < length a) idx -> take a idx = Ok (map (fun i => nth i a d) idx).
Proof.
  intros A d a idx H. unfold take, np_take. induction H as [|i idx Hi _ IH]; [reflexivity|]. cbn [map mapM].
  assert (np_get a (Z.of_nat i) = Ok (nth i a d)) as -> by (apply np_get_nat, nth_error_nth'; auto).
  cbn [bind]. rewrite IH. reflexivity.
Qed.

(** ** Sorted lists of positions *)
Definition increasing_list (l : list nat) : Prop := StronglySorted lt l.
Lemma filter_seq_sorted : forall f n a, increasing_list (filter f (seq a n)).
Proof.
  intros f n. induction n as [|n IH]; intros a; cbn; [constructor|].
  destruct (f a); [|apply IH]. constructor; [apply IH|]. apply Forall_forall. intros x Hx. apply filter_In in Hx. destruct Hx as [Hx _].
  apply in_seq in Hx. lia.
Qed.
Lemma sorted_nodup : forall l, increasing_list l -> NoDup l.
Proof.
  intros l H. induction H as [|x l _ IH F]; constructor; auto. intros Hx. rewrite Forall_forall in F. specialize (F _ Hx). lia.
Qed.

(** ** Parts of a list *)
Lemma parts_length : forall sizes l, length (parts sizes l) = length sizes.
Proof. induction sizes; intros; cbn; auto. Qed.
Lemma parts_concat : forall sizes l, length l = list_sum sizes -> concat (parts sizes l) = l.
Proof.
  induction sizes as [|s sizes IH]; intros l H; [destruct l; [auto|discriminate]|].
  change (length l = s + list_sum sizes) in H. cbn [parts concat].
  rewrite IH by (rewrite skipn_length; lia). apply firstn_skipn.
Qed.
Lemma parts_size : forall sizes l f s p, length l = list_sum sizes -> nth_error sizes f = Some s -> nth_error (parts sizes l) f = Some p -> length p = s.
Proof.
  induction sizes as [|z sizes IH]; intros l [|f] s p H Hs Hp; try discriminate;
    change (length l = z + list_sum sizes) in H; cbn [parts nth_error] in *.
  - inversion Hs; inversion Hp; subst. rewrite firstn_length. lia.
  - eapply IH; [|eauto|eauto]. rewrite skipn_length. lia.
Qed.

Lemma sum_indicator : forall n r a, r <= n -> list_sum (map (fun f => if f <? a + r then 1 else 0) (seq a n)) = r.
Proof.
  induction n as [|n IH]; intros r a H; [cbn; lia|]. cbn [seq map].
  match goal with |- list_sum (?x :: ?y) = _ => change (x + list_sum y = r) end. destruct r as [|r].
  - destruct (Nat.ltb_spec a (a + 0)); [lia|]. cbn [Nat.add]. etransitivity; [|apply (IH 0 (S a)); lia]. f_equal. apply map_ext_in. intros f Hf.
    apply in_seq in Hf. destruct (Nat.ltb_spec f (a + 0)), (Nat.ltb_spec f (S a + 0)); lia.
  - destruct (Nat.ltb_spec a (a + S r)); [|lia]. cbn [Nat.add]. f_equal. etransitivity; [|apply (IH r (S a)); lia]. f_equal.
    apply map_ext. intros f. replace (a + S r) with (S a + r) by lia. auto.
Qed.

Lemma sum_const_plus : forall (c : nat) (g : nat -> nat) l, list_sum (map (fun f => c + g f) l) = c * length l + list_sum (map g l).
Proof. induction l as [|x l IH]; cbn; [lia|]. unfold list_sum in IH. rewrite IH. lia. Qed.

Lemma fold_sizes_sum : forall k m, 0 < k -> list_sum (fold_sizes k m) = m.
Proof.
  intros k m Hk. unfold fold_sizes. rewrite (sum_const_plus (m / k) (fun f => if f <? m mod k then 1 else 0)), seq_length.
  pose proof (Nat.mod_upper_bound m k ltac:(lia)). pose proof (sum_indicator k (m mod k) 0 ltac:(lia)) as E. cbn [Nat.add] in E. rewrite E.
  pose proof (Nat.div_mod m k ltac:(lia)). lia.
Qed.

Lemma fold_sizes_at : forall k m f, f < k -> nth_error (fold_sizes k m) f = Some (m / k + if f <? m mod k then 1 else 0).
Proof. intros. unfold fold_sizes. rewrite nth_error_map_seq by auto. auto. Qed.

(** an element of a list without repetitions lies in exactly one part *)
Lemma in_one_part : forall A (ps : list (list A)) x, NoDup (concat ps) -> In x (concat ps) ->
  exists f, (exists p, nth_error ps f = Some p /\ In x p) /\ forall f', (exists p, nth_error ps f' = Some p /\ In x p) -> f' = f.
Proof.
  induction ps as [|p ps IH]; intros x Hn Hx; cbn in *; [contradiction|].
  apply in_app_or in Hx. assert (Hn2 : NoDup (concat ps)).
  { clear - Hn. induction p; cbn in Hn; auto. inversion Hn; auto. }
  assert (D : In x p -> In x (concat ps) -> False).
  { clear - Hn. induction p as [|y p IH]; cbn in *; [tauto|]. inversion Hn; subst. intros [->|Hp] Hc; [apply H1, in_or_app; auto|]. auto. }
  destruct Hx as [Hp|Hp].
  - exists 0. split; [exists p; auto|]. intros [|f'] [q [E Hq]]; auto. exfalso. apply D; auto. cbn in E. apply in_concat. exists q. split; auto.
    eapply nth_error_In; eauto.
  - destruct (IH x Hn2 Hp) as [f [[q [E Hq]] U]]. exists (S f). split; [exists q; auto|].
    intros [|f'] [q' [E' Hq']]; cbn in E'.
    + exfalso. inversion E'; subst. auto.
    + f_equal. apply U. eauto.
Qed.

(** ** Groups *)
Definition in_group (gs : list Z) (g : Z) (i : nat) : bool := Z.eqb (nth i gs 0%Z) g.
Definition group (gs : list Z) (g : Z) : list nat := filter (in_group gs g) (seq 0 (length gs)).

Lemma members_ok : forall gs g, members (length gs) gs g = Ok (group gs g).
Proof.
  intros. unfold members. rewrite np_mask_ok by (rewrite map_length; auto). f_equal. apply filter_ext_in. intros i Hi. apply in_seq in Hi.
  rewrite (nth_map_in _ _ _ _ _ 0%Z) by lia. reflexivity.
Qed.

Lemma group_in : forall gs g i, In i (group gs g) <-> i < length gs /\ nth i gs 0%Z = g.
Proof. intros. unfold group. rewrite filter_In, in_seq. unfold in_group. rewrite Z.eqb_eq. split; intros [? ?]; split; auto; lia. Qed.
Lemma group_nodup : forall gs g, NoDup (group gs g).
Proof. intros. apply sorted_nodup, filter_seq_sorted. Qed.

Lemma labels_nodup : forall l, NoDup (np_unique Z.compare l).
Proof. intros. eapply ssorted_NoDup; [apply Z_laws|apply np_unique_sorted, Z_laws]. Qed.
Lemma labels_in : forall l x, In x (np_unique Z.compare l) <-> In x l.
Proof. intros. apply (np_unique_in _ Z_laws Z_leibniz). Qed.

(** the samples picked when positions [snd] of group [fst] are picked *)
Definition picked (gs : list Z) (pairs : list (Z * list nat)) : list nat :=
  flat_map (fun gt => map (fun p => nth p (group gs (fst gt)) 0) (snd gt)) pairs.
Definition pairs_ok (gs : list Z) (pairs : list (Z * list nat)) : Prop :=
  NoDup (map fst pairs) /\ Forall (fun gt => NoDup (snd gt) /\ Forall (fun p => p < length (group gs (fst gt))) (snd gt)) pairs.

Lemma picked_in : forall gs pairs i, pairs_ok gs pairs ->
  (In i (picked gs pairs) <-> i < length gs /\ exists t p, In (nth i gs 0%Z, t) pairs /\ In p t /\ nth_error (group gs (nth i gs 0%Z)) p = Some i).
Proof.
  intros gs pairs i [_ H]. unfold picked. rewrite in_flat_map. rewrite Forall_forall in H. split.
  - intros [[g t] [Hin Hi]]. cbn [fst snd] in *. apply in_map_iff in Hi. destruct Hi as [p [E Hp]].
    destruct (H _ Hin) as [_ L]. cbn [fst snd] in L. rewrite Forall_forall in L. specialize (L _ Hp).
    assert (Hn : nth_error (group gs g) p = Some i) by (rewrite <- E; apply nth_error_nth'; auto).
    assert (Hg : In i (group gs g)) by (eapply nth_error_In; eauto). apply group_in in Hg. destruct Hg as [Hl Hg]. split; auto.
    exists t, p. rewrite Hg. auto.
  - intros [_ [t [p [Hin [Hp E]]]]]. eexists. split; [exact Hin|]. cbn [fst snd]. apply in_map_iff. exists p. split; auto.
    apply nth_error_nth. auto.
Qed.

Lemma NoDup_fst : forall A B (l : list (A * B)) a b b', NoDup (map fst l) -> In (a, b) l -> In (a, b') l -> b = b'.
Proof.
  induction l as [|[x y] l IH]; intros a b b' Hn H H'; cbn in *; [contradiction|]. inversion Hn as [|? ? Hx Hn']; subst.
  destruct H as [E|H], H' as [E'|H'].
  - congruence.
  - inversion E; subst. exfalso. apply Hx, in_map_iff. exists (a, b'). auto.
  - inversion E'; subst. exfalso. apply Hx, in_map_iff. exists (a, b). auto.
  - eauto.
Qed.

Lemma picked_count : forall gs pairs g t, pairs_ok gs pairs -> In (g, t) pairs ->
  length (filter (in_group gs g) (filter (memb (picked gs pairs)) (seq 0 (length gs)))) = length t.
Proof.
  intros gs pairs g t Hok Hin. pose proof Hok as [Hn H]. rewrite Forall_forall in H. destruct (H _ Hin) as [Ht L]. cbn [fst snd] in *.
  rewrite Forall_forall in L.
  rewrite <- (map_length (fun p => nth p (group gs g) 0) t). apply Permutation_length, NoDup_Permutation.
  - apply NoDup_filter, NoDup_filter, seq_NoDup.
  - clear Hin. induction Ht as [|p t Hp Ht IH]; cbn; constructor; [|apply IH; intros; apply L; right; auto].
    intros Hi. apply in_map_iff in Hi. destruct Hi as [p' [E Hp']]. apply Hp.
    replace p with p'; auto. apply (proj1 (NoDup_nth (group gs g) 0) (group_nodup gs g)); auto; apply L; cbn; auto.
  - intros i. rewrite !filter_In, memb_in, in_seq, picked_in by auto. unfold in_group. rewrite Z.eqb_eq. split.
    + intros [[Hi [_ [t' [p [Hin' [Hp E]]]]]] Hg]. rewrite Hg in *. assert (t' = t) by (eapply NoDup_fst; eauto). subst.
      apply in_map_iff. exists p. split; auto. apply nth_error_nth; auto.
    + intros Hi. apply in_map_iff in Hi. destruct Hi as [p [E Hp]]. specialize (L _ Hp).
      assert (Hn' : nth_error (group gs g) p = Some i) by (rewrite <- E; apply nth_error_nth'; auto).
      assert (Hg : In i (group gs g)) by (eapply nth_error_In; eauto). apply group_in in Hg. destruct Hg as [Hl Hg].
      repeat split; auto; try lia. exists t, p. rewrite Hg. auto.
Qed.

(** ** Test positions of KFold *)
Definition shuffles {S} (shuffle : S -> list nat -> list nat * S) : Prop :=
  forall s l, Permutation l (fst (shuffle s l)).

Lemma mapM_total_in : forall A B (f : A -> res B) (g : A -> B) l, (forall x, In x l -> f x = Ok (g x)) -> mapM f l = Ok (map g l).
Proof.
  intros A B f g l. induction l as [|x l IH]; intros H; [reflexivity|]. cbn [mapM map]. rewrite H by (left; auto). cbn [bind].
  rewrite IH by (intros; apply H; right; auto). reflexivity.
Qed.

Lemma kfold_ok : forall S (shuffle : S -> list nat -> list nat * S) k sh m s, shuffles shuffle -> 0 < k ->
  (m < k -> kfold shuffle k sh m s = Raise ValueError) /\
  (k <= m -> exists perm s', Permutation (seq 0 m) perm /\
     kfold shuffle k sh m s = Ok (map (fun p => filter (memb p) (seq 0 m)) (parts (fold_sizes k m) perm), s')).
Proof.
  intros S shuffle k sh m s Hs Hk. unfold kfold. destruct (Nat.ltb_spec m k) as [H|H]; split; intros H'; try lia; auto.
  set (ps := if sh then shuffle s (arange m) else (arange m, s)).
  assert (P : Permutation (seq 0 m) (fst ps)) by (unfold ps; destruct sh; [apply Hs|apply Permutation_refl]).
  exists (fst ps), (snd ps). split; auto. cbn zeta.
  rewrite (mapM_total_in _ _ _ (fun p => filter (memb p) (seq 0 m))); [reflexivity|].
  intros p Hp. destruct (put_true_ok p (repeat false m)) as [mask [-> [L N]]].
  { rewrite repeat_length. apply Forall_forall. intros i Hi.
    assert (Hc : In i (concat (parts (fold_sizes k m) (fst ps)))) by (apply in_concat; eauto).
    rewrite parts_concat in Hc by (rewrite fold_sizes_sum, <- (Permutation_length P), seq_length; auto).
    apply (Permutation_in _ (Permutation_sym P)) in Hc. apply in_seq in Hc. lia. }
  rewrite repeat_length in L. cbn [bind]. rewrite of_mask_ok by auto. cbn [bind snd]. f_equal. apply filter_ext. intros i. rewrite N.
  rewrite nth_repeat. auto.
Qed.

(** what is needed about the parts of one group *)
Lemma kfold_parts : forall k m perm, 0 < k -> Permutation (seq 0 m) perm ->
  let tests := map (fun p => filter (memb p) (seq 0 m)) (parts (fold_sizes k m) perm) in
  length tests = k /\
  (forall f t, nth_error tests f = Some t -> NoDup t /\ Forall (fun p => p < m) t /\
     length t = m / k + (if f <? m mod k then 1 else 0)) /\
  (forall p, p < m -> exists f, (exists t, nth_error tests f = Some t /\ In p t) /\
     forall f', (exists t, nth_error tests f' = Some t /\ In p t) -> f' = f).
Proof.
  intros k m perm Hk P. cbn zeta. assert (Lp : length perm = m) by (rewrite <- (Permutation_length P), seq_length; auto).
  assert (Np : NoDup perm) by (apply (Permutation_NoDup P), seq_NoDup).
  assert (C : concat (parts (fold_sizes k m) perm) = perm) by (apply parts_concat; rewrite fold_sizes_sum; auto).
  assert (Hp : forall q, In q (parts (fold_sizes k m) perm) -> NoDup q /\ forall i, In i q -> i < m).
  { intros q Hq. split.
    - rewrite <- C in Np. clear - Np Hq. induction (parts (fold_sizes k m) perm) as [|a l IH]; [contradiction|]. cbn in Np. destruct Hq as [->|Hq].
      + clear IH. induction q as [|x q IH]; constructor; inversion Np; subst; auto. intros H. apply H1, in_or_app. auto.
      + apply IH; auto. clear - Np. induction a; cbn in Np; auto. inversion Np; auto.
    - intros i Hi. assert (Hc : In i perm) by (rewrite <- C; apply in_concat; eauto).
      apply (Permutation_in _ (Permutation_sym P)) in Hc. apply in_seq in Hc. lia. }
  assert (Fi : forall q i, In q (parts (fold_sizes k m) perm) -> (In i (filter (memb q) (seq 0 m)) <-> In i q)).
  { intros q i Hq. rewrite filter_In, memb_in, in_seq. split; [tauto|]. intros Hi. destruct (Hp _ Hq) as [_ L]. specialize (L _ Hi). split; auto. lia. }
  split; [|split].
  - rewrite map_length, parts_length. unfold fold_sizes. rewrite map_length, seq_length. auto.
  - intros f t Ht. rewrite nth_error_map in Ht. destruct (nth_error (parts (fold_sizes k m) perm) f) as [q|] eqn:E; [|discriminate].
    inversion Ht; subst t. assert (Hq : In q (parts (fold_sizes k m) perm)) by (eapply nth_error_In; eauto).
    assert (Nf : NoDup (filter (memb q) (seq 0 m))) by (apply NoDup_filter, seq_NoDup).
    split; auto. split.
    + apply Forall_forall. intros i Hi. apply filter_In in Hi. destruct Hi as [Hi _]. apply in_seq in Hi. lia.
    + assert (Hf : f < k).
      { assert (f < length (parts (fold_sizes k m) perm)) by (apply nth_error_Some; congruence). rewrite parts_length in H. unfold fold_sizes in H.
        rewrite map_length, seq_length in H. auto. }
      rewrite <- (parts_size (fold_sizes k m) perm f _ q ltac:(rewrite fold_sizes_sum; auto) (fold_sizes_at k m f Hf) E).
      apply Permutation_length. apply NoDup_Permutation; [auto|apply Hp; auto|]. intros i. apply Fi; auto.
  - intros p Hpm. assert (Hin : In p perm) by (apply (Permutation_in _ P), in_seq; lia).
    destruct (in_one_part _ (parts (fold_sizes k m) perm) p ltac:(rewrite C; auto) ltac:(rewrite C; auto)) as [f [[q [E Hq]] U]].
    exists f. split.
    + exists (filter (memb q) (seq 0 m)). split; [rewrite nth_error_map, E; reflexivity|]. apply Fi; auto. eapply nth_error_In; eauto.
    + intros f' [t [Et Ht]]. apply U. rewrite nth_error_map in Et.
      destruct (nth_error (parts (fold_sizes k m) perm) f') as [q'|] eqn:E'; [|discriminate]. inversion Et; subst t. exists q'. split; auto.
      apply (Fi q' p); auto. eapply nth_error_In; eauto.
Qed.
