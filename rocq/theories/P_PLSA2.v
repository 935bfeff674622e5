(** * The arrays of M_PLSA as functions *)
From Coq Require Import List ZArith Reals Lra Lia Bool.
From Verif Require Import M_Py P_Py P_RSum M_MF P_MF M_PLSA P_PLSA.
Import ListNotations.
Open Scope R_scope.

(** [n] rows and [k] columns *)
Definition shape2 (n k : nat) (m : list (list R)) : Prop := length m = n /\ Forall (fun r => length r = k) m.

Definition tab2 (n k : nat) (f : nat -> nat -> R) : list (list R) :=
  map (fun i => map (f i) (seq 0 k)) (seq 0 n).

Lemma tab2_shape : forall n k f, shape2 n k (tab2 n k f).
Proof.
  intros. unfold shape2, tab2. rewrite map_length, seq_length. split; auto.
  apply Forall_map, Forall_forall. intros. rewrite map_length, seq_length. auto.
Qed.

Lemma tab2_at : forall n k f i j, (i < n)%nat -> (j < k)%nat -> at2 (tab2 n k f) i j = f i j.
Proof. intros. unfold at2, tab2. rewrite nth_map_seq by auto. apply nth_map_seq; auto. Qed.

Lemma shape2_tab : forall n k m, shape2 n k m -> m = tab2 n k (at2 m).
Proof.
  intros n k m [H1 H2]. rewrite (list_as_map _ m []) at 1. unfold tab2. rewrite H1. apply map_ext_in.
  intros i Hi. apply in_seq in Hi. rewrite (list_as_map _ (nth i m []) 0) at 1. rewrite (wf_row n k) by (auto; lia). auto.
Qed.

Lemma tab2_ext : forall n k f g, (forall i j, (i < n)%nat -> (j < k)%nat -> f i j = g i j) -> tab2 n k f = tab2 n k g.
Proof.
  intros. unfold tab2. apply map_ext_in. intros i Hi. apply in_seq in Hi. apply map_ext_in. intros j Hj. apply in_seq in Hj.
  apply H; lia.
Qed.

(** a rating: user, item, level *)
Definition rating : Type := nat * nat * nat.
Definition uis_of (evs : list rating) : list (Z * Z) := zp (map fst evs).
Definition sc_of (evs : list rating) : list Z := map Z.of_nat (map snd evs).
Definition ratings_ok (nl nu ni : nat) (evs : list rating) : Prop :=
  Forall (fun x => fst (fst x) < nu /\ snd (fst x) < ni /\ snd x < nl)%nat evs.

Definition dr : rating := (0, 0, 0)%nat.
Definition ue (evs : list rating) (e : nat) : nat := fst (fst (nth e evs dr)).
Definition ie (evs : list rating) (e : nat) : nat := snd (fst (nth e evs dr)).
Definition se (evs : list rating) (e : nat) : nat := snd (nth e evs dr).

Lemma ratings_range : forall nl nu ni evs, ratings_ok nl nu ni evs ->
  (forall e, (e < length evs)%nat -> (se evs e < nl)%nat) /\
  (forall e, (e < length evs)%nat -> (ue evs e < nu)%nat) /\
  (forall e, (e < length evs)%nat -> (ie evs e < ni)%nat).
Proof.
  intros nl nu ni evs H. unfold ratings_ok in H. rewrite Forall_forall in H.
  repeat split; intros e He; destruct (H _ (nth_In evs dr He)) as [H1 [H2 H3]]; auto.
Qed.

Lemma as_seq : forall A (f : rating -> A) evs, map f evs = map (fun e => f (nth e evs dr)) (seq 0 (length evs)).
Proof. intros. rewrite (list_as_map _ evs dr) at 1. rewrite map_map. auto. Qed.

(** the parameters as functions *)
Definition fun_of (p : params) : fpar := mkF (at1 (pZ p)) (at2 (pRgZ p)) (at2 (pXgZ p)) (at2 (pYgZ p)).
Definition tab_of (k nl nu ni : nat) (t : fpar) : params :=
  mkParams (map (fz t) (seq 0 k)) (tab2 nl k (fr t)) (tab2 nu k (fx t)) (tab2 ni k (fy t)).
Definition params_shape (k nl nu ni : nat) (p : params) : Prop :=
  length (pZ p) = k /\ shape2 nl k (pRgZ p) /\ shape2 nu k (pXgZ p) /\ shape2 ni k (pYgZ p).

Lemma tab_of_shape : forall k nl nu ni t, params_shape k nl nu ni (tab_of k nl nu ni t).
Proof.
  intros. split; [|split; [|split]]; cbn; try apply tab2_shape. rewrite map_length, seq_length. auto.
Qed.

Lemma take_nat : forall A (l : list A) ids d, Forall (fun i => i < length l)%nat ids ->
  np_take l (map Z.of_nat ids) = Ok (map (fun i => nth i l d) ids).
Proof.
  intros A l ids d H. unfold np_take. induction H as [|i ids Hi _ IH]; cbn [map mapM]; [reflexivity|].
  rewrite (np_get_at _ _ _ d) by auto. cbn [bind]. rewrite IH. reflexivity.
Qed.

Lemma mul_rows_ok : forall k a b, length a = k -> length b = k ->
  mul_rows a b = Ok (map (fun z => at1 a z * at1 b z) (seq 0 k)).
Proof.
  intros k a b Ha Hb. unfold mul_rows. rewrite bcast_eq by congruence. cbn [bind]. f_equal.
  rewrite (combine_as_map _ _ a b 0 0) by congruence. rewrite map_map, Ha. reflexivity.
Qed.

Lemma mul4_ok : forall k a b c d, length a = k -> length b = k -> length c = k -> length d = k ->
  (do x <- mul_rows a b; do y <- mul_rows x c; mul_rows y d) =
  Ok (map (fun z => at1 a z * at1 b z * at1 c z * at1 d z) (seq 0 k)).
Proof.
  intros k a b c d Ha Hb Hc Hd. rewrite (mul_rows_ok k) by auto. cbn [bind].
  rewrite (mul_rows_ok k) by (auto; rewrite map_length, seq_length; auto). cbn [bind].
  rewrite (mul_rows_ok k) by (auto; rewrite map_length, seq_length; auto). f_equal.
  apply map_ext_in. intros z Hz. apply in_seq in Hz. unfold at1. rewrite !nth_map_seq by lia. reflexivity.
Qed.

Section Lists.
  Variables (k nl nu ni : nat) (evs : list rating).
  Hypothesis Hev : ratings_ok nl nu ni evs.
  Notation N := (length evs).
  Notation JJ := (J (se evs) (ue evs) (ie evs)).

  Lemma joint_ok : forall p, params_shape k nl nu ni p ->
    joint_rows p (uis_of evs) (sc_of evs) = Ok (tab2 N k (JJ (fun_of p))).
  Proof.
    intros p [Hz [[Hr1 Hr2] [[Hx1 Hx2] [Hy1 Hy2]]]]. destruct (ratings_range _ _ _ _ Hev) as [R1 [R2 R3]].
    unfold joint_rows, sc_of, uis_of, zp. rewrite !map_map. cbn [fst snd].
    rewrite <- (map_map snd Z.of_nat), <- (map_map (fun x : rating => fst (fst x)) Z.of_nat),
            <- (map_map (fun x : rating => snd (fst x)) Z.of_nat).
    rewrite (as_seq _ snd), (as_seq _ (fun x => fst (fst x))), (as_seq _ (fun x => snd (fst x))).
    rewrite !(take_nat _ _ _ []).
    2-4: apply Forall_map, Forall_forall; intros e He; apply in_seq in He; rewrite ?Hr1, ?Hx1, ?Hy1; first [apply R1|apply R2|apply R3]; lia.
    cbn [bind]. rewrite bcast_eq by (rewrite !map_length; auto). cbn [bind].
    rewrite bcast_eq by (rewrite combine_length, !map_length; lia). cbn [bind]. rewrite !map_map.
    rewrite (combine_as_map _ _ _ _ [] []) by (rewrite !map_length; auto).
    rewrite map_length, seq_length.
    rewrite (combine_as_map _ _ _ _ ([], []) []) by (rewrite !map_length; auto).
    rewrite map_length, seq_length.
    rewrite (mapM_total _ _ _ (fun t => map (fun z => at1 (pZ p) z * at1 (fst (fst t)) z * at1 (snd (fst t)) z * at1 (snd t) z) (seq 0 k))).
    - f_equal. rewrite map_map. unfold tab2. apply map_ext_in. intros e He. apply in_seq in He. cbn [fst snd].
      rewrite !nth_map_seq by lia. cbn [fst snd]. reflexivity.
    - intros t Ht. apply in_map_iff in Ht. destruct Ht as [e [<- He]]. apply in_seq in He. cbn [fst snd].
      rewrite !nth_map_seq by lia. cbn [fst snd]. apply mul4_ok; auto;
      [apply wf_row with nl|apply wf_row with nu|apply wf_row with ni]; auto; [apply R1|apply R2|apply R3]; lia.
  Qed.

  Lemma np_div_ok : forall x y, y <> 0 -> np_div x y = Ok (x / y).
  Proof. intros. unfold np_div. destruct (Req_EM_T y 0); [contradiction|auto]. Qed.

  Lemma normalise_ok : forall n f, sm n f <> 0 -> normalise (map f (seq 0 n)) = Ok (map (fun i => f i / sm n f) (seq 0 n)).
  Proof.
    intros n f H. unfold normalise. rewrite (mapM_total _ _ _ (fun x => x / sm n f)).
    - rewrite map_map. auto.
    - intros x _. apply np_div_ok. auto.
  Qed.

  Lemma e_step_ok : forall p, params_shape k nl nu ni p -> (forall e, (e < N)%nat -> sm k (JJ (fun_of p) e) <> 0) ->
    e_step p (uis_of evs) (sc_of evs) = Ok (tab2 N k (post k (se evs) (ue evs) (ie evs) (fun_of p))).
  Proof.
    intros p Hp Hs. unfold e_step. rewrite joint_ok by auto. cbn [bind]. unfold tab2.
    rewrite (mapM_total _ _ _ (fun row => map (fun x => x / rsum row) row)).
    - f_equal. rewrite map_map. apply map_ext. intros e. rewrite map_map. reflexivity.
    - intros row Hr. apply in_map_iff in Hr. destruct Hr as [e [<- He]]. apply in_seq in He.
      rewrite normalise_ok by (apply Hs; lia). rewrite map_map. reflexivity.
  Qed.

  Lemma loss_ok : forall p, params_shape k nl nu ni p -> (0 < N)%nat -> (forall e, (e < N)%nat -> 0 < sm k (JJ (fun_of p) e)) ->
    plsa_loss N p (uis_of evs) (sc_of evs) = Ok (nll k N (se evs) (ue evs) (ie evs) (fun_of p) / INR N).
  Proof.
    intros p Hp HN Hs. unfold plsa_loss. rewrite joint_ok by auto. cbn [bind]. unfold tab2.
    rewrite (mapM_total _ _ _ (fun row => ln (rsum row))).
    - cbn [bind]. rewrite np_div_ok by (apply not_0_INR; lia). rewrite map_map. reflexivity.
    - intros row Hr. apply in_map_iff in Hr. destruct Hr as [e [<- He]]. apply in_seq in He. unfold np_log.
      pose proof (Hs e ltac:(lia)) as P. unfold sm in P. destruct (Rlt_dec 0 _); [auto|contradiction].
  Qed.

  Lemma column_tab : forall n q z, shape2 n k q -> (z < k)%nat -> column q z = Ok (map (fun e => at2 q e z) (seq 0 n)).
  Proof.
    intros n q z [H1 H2] Hz. unfold column. rewrite (mapM_total _ _ _ (fun r => nth z r 0)).
    - f_equal. rewrite (list_as_map _ q []) at 1. rewrite map_map, H1. reflexivity.
    - intros r Hr. apply np_get_at. rewrite Forall_forall in H2. rewrite (H2 r Hr). auto.
  Qed.

  Lemma transpose_ok : forall n f, (0 < k)%nat -> transpose (map (fun z => map (fun v => f v z) (seq 0 n)) (seq 0 k)) = Ok (tab2 n k f).
  Proof.
    intros n f Hk. unfold transpose. destruct k as [|k']; [lia|]. cbn [seq map].
    rewrite map_length, seq_length.
    rewrite (mapM_total _ _ _ (fun i => map (f i) (seq 0 (S k')))).
    - reflexivity.
    - intros i Hi. apply in_seq in Hi. change (map _ (seq 0 n) :: map _ (seq 1 k')) with (map (fun z => map (fun v => f v z) (seq 0 n)) (seq 0 (S k'))).
      rewrite (mapM_total _ _ _ (fun col => nth i col 0)).
      + rewrite map_map. f_equal. apply map_ext. intros z. apply (nth_map_seq _ (fun v => f v z)). lia.
      + intros col Hc. apply in_map_iff in Hc. destruct Hc as [z [<- _]]. apply np_get_at. rewrite map_length, seq_length. lia.
  Qed.

  Lemma smoothed_ok : forall alpha q n g, (0 < k)%nat -> shape2 N k q -> (forall e, (e < N)%nat -> (g e < n)%nat) ->
    (forall z, (z < k)%nat -> sm n (fun v => wc N g (at2 q) v z + alpha) <> 0) ->
    smoothed alpha k q (map Z.of_nat (map g (seq 0 N))) n = Ok (tab2 n k (sd alpha N n g (at2 q))).
  Proof.
    intros alpha q n g Hk Hq Hg Hs. unfold smoothed.
    rewrite (mapM_total _ _ _ (fun z => map (fun v => sd alpha N n g (at2 q) v z) (seq 0 n))).
    - cbn [bind]. apply transpose_ok. auto.
    - intros z Hz. apply in_seq in Hz. rewrite (column_tab N) by (auto; lia). cbn [bind].
      rewrite bincount_ok.
      + cbn [bind]. rewrite map_map.
        rewrite (map_ext _ (fun v => wc N g (at2 q) v z + alpha)).
        * rewrite normalise_ok by (apply Hs; lia). reflexivity.
        * intros v. f_equal. unfold wc, sm. f_equal.
          rewrite (combine_as_map _ _ (map g (seq 0 N)) _ 0%nat 0) by (rewrite !map_length; auto).
          rewrite map_map, map_length, seq_length. apply map_ext_in. intros e He. apply in_seq in He. cbn [fst snd].
          rewrite !nth_map_seq by lia. reflexivity.
      + apply Forall_map, Forall_forall. intros e He. apply in_seq in He. apply Hg. lia.
      + rewrite !map_length. auto.
  Qed.

  Lemma m_step_ok : forall alpha q, (0 < k)%nat -> (0 < N)%nat -> 0 <= alpha -> shape2 N k q -> weights_ok alpha k N (at2 q) ->
    m_step alpha k nl nu ni q (uis_of evs) (sc_of evs) =
    Ok (tab_of k nl nu ni (mfun alpha k nl nu ni N (se evs) (ue evs) (ie evs) (at2 q))).
  Proof.
    intros alpha q Hk HN Ha Hq Hw. destruct (ratings_range _ _ _ _ Hev) as [R1 [R2 R3]].
    unfold m_step.
    replace (sc_of evs) with (map Z.of_nat (map (se evs) (seq 0 N))).
    2:{ unfold sc_of. rewrite (as_seq _ snd). reflexivity. }
    replace (map fst (uis_of evs)) with (map Z.of_nat (map (ue evs) (seq 0 N))).
    2:{ unfold uis_of, zp. rewrite !map_map. cbn [fst]. rewrite (as_seq _ (fun x => Z.of_nat (fst (fst x)))). reflexivity. }
    replace (map snd (uis_of evs)) with (map Z.of_nat (map (ie evs) (seq 0 N))).
    2:{ unfold uis_of, zp. rewrite !map_map. cbn [snd]. rewrite (as_seq _ (fun x => Z.of_nat (snd (fst x)))). reflexivity. }
    assert (W : forall n g, (forall e, (e < N)%nat -> (g e < n)%nat) ->
      forall z, (z < k)%nat -> sm n (fun v => wc N g (at2 q) v z + alpha) <> 0).
    { intros n g Hg z Hz. pose proof (wsum_pos alpha k N Ha HN n g (at2 q) z Hg Hw Hz). lra. }
    rewrite !smoothed_ok by auto. cbn [bind].
    rewrite (mapM_total _ _ _ (fun z => sm N (fun e => at2 q e z) + alpha)).
    - cbn [bind]. rewrite normalise_ok.
      + cbn [bind]. reflexivity.
      + pose proof (zsum_all_pos alpha k N Ha Hk HN (at2 q) Hw). lra.
    - intros z Hz. apply in_seq in Hz. rewrite (column_tab N) by (auto; lia). reflexivity.
  Qed.
End Lists.
