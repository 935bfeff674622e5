(** * The arrays of M_FloatTopic as functions *)
From Coq Require Import List ZArith Reals Lra Lia Bool Floats.SpecFloat.
From Verif Require Import M_Py P_Py P_RSum M_MF P_MF M_PLSA P_PLSA P_PLSA2 M_Float M_FloatBins M_FloatOps M_FloatTopic.
Import ListNotations.

Notation fz0 := f64_zero.
Definition f64_at (l : list f64) (i : nat) : f64 := nth i l fz0.
Definition f64_at2 (m : list (list f64)) (i j : nat) : f64 := nth j (nth i m []) fz0.
Definition fshape (n k : nat) (m : list (list f64)) : Prop := length m = n /\ Forall (fun r => length r = k) m.
Definition ftab (n k : nat) (f : nat -> nat -> f64) : list (list f64) := map (fun i => map (f i) (seq 0 k)) (seq 0 n).

Lemma ftab_shape : forall n k f, fshape n k (ftab n k f).
Proof.
  intros. unfold fshape, ftab. rewrite map_length, seq_length. split; auto.
  apply Forall_map, Forall_forall. intros. rewrite map_length, seq_length. auto.
Qed.

Lemma ftab_at : forall n k f i j, (i < n)%nat -> (j < k)%nat -> f64_at2 (ftab n k f) i j = f i j.
Proof. intros. unfold f64_at2, ftab. rewrite nth_map_seq by auto. apply nth_map_seq; auto. Qed.

Lemma fshape_row : forall n k m i, fshape n k m -> (i < n)%nat -> length (nth i m []) = k.
Proof. intros n k m i [H1 H2] Hi. rewrite Forall_forall in H2. apply H2, nth_In. lia. Qed.

(** parameters as functions *)
Record gpars := mkG { hz : nat -> f64; hr : nat -> nat -> f64; hx : nat -> nat -> f64; hy : nat -> nat -> f64 }.
Definition gfun (p : fparams) : gpars := mkG (f64_at (gZ p)) (f64_at2 (gR p)) (f64_at2 (gX p)) (f64_at2 (gY p)).
Definition gtab (k nl nu ni : nat) (t : gpars) : fparams :=
  mkFP (map (hz t) (seq 0 k)) (ftab nl k (hr t)) (ftab nu k (hx t)) (ftab ni k (hy t)).
Definition gshape (k nl nu ni : nat) (p : fparams) : Prop :=
  length (gZ p) = k /\ fshape nl k (gR p) /\ fshape nu k (gX p) /\ fshape ni k (gY p).

Lemma gtab_shape : forall k nl nu ni t, gshape k nl nu ni (gtab k nl nu ni t).
Proof.
  intros. split; [|split; [|split]]; cbn; try apply ftab_shape. rewrite map_length, seq_length. auto.
Qed.

Lemma fmul_rows_ok : forall k a b, length a = k -> length b = k ->
  f64_mul_rows a b = Ok (map (fun z => f64_mul (f64_at a z) (f64_at b z)) (seq 0 k)).
Proof.
  intros k a b Ha Hb. unfold f64_mul_rows. rewrite bcast_eq by congruence. cbn [bind]. f_equal.
  rewrite (combine_as_map _ _ a b fz0 fz0) by congruence. rewrite map_map, Ha. reflexivity.
Qed.

Definition mul4 (a b c d : f64) : f64 := f64_mul (f64_mul (f64_mul a b) c) d.

Lemma fmul4_ok : forall k a b c d, length a = k -> length b = k -> length c = k -> length d = k ->
  (do x <- f64_mul_rows a b; do y <- f64_mul_rows x c; f64_mul_rows y d) =
  Ok (map (fun z => mul4 (f64_at a z) (f64_at b z) (f64_at c z) (f64_at d z)) (seq 0 k)).
Proof.
  intros k a b c d Ha Hb Hc Hd. rewrite (fmul_rows_ok k) by auto. cbn [bind].
  rewrite (fmul_rows_ok k) by (auto; rewrite map_length, seq_length; auto). cbn [bind].
  rewrite (fmul_rows_ok k) by (auto; rewrite map_length, seq_length; auto). f_equal.
  apply map_ext_in. intros z Hz. apply in_seq in Hz. unfold f64_at. rewrite !nth_map_seq by lia. reflexivity.
Qed.

Section Lists.
  Variable sum : place -> list f64 -> f64.
  Variable log64 : f64 -> f64.
  Variables (k nl nu ni : nat) (evs : list rating).
  Hypothesis Hev : ratings_ok nl nu ni evs.
  Notation N := (length evs).
  Notation SE := (se evs). Notation UE := (ue evs). Notation IE := (ie evs).

  (** [gsum w n f]: the sum of [f 0], …, [f (n - 1)] *)
  Definition gsum (w : place) (n : nat) (f : nat -> f64) : f64 := sum w (map f (seq 0 n)).
  Definition gJ (t : gpars) (e z : nat) : f64 := mul4 (hz t z) (hr t (SE e) z) (hx t (UE e) z) (hy t (IE e) z).
  Definition gpost (t : gpars) (e z : nat) : f64 := f64_div (gJ t e z) (gsum AtE k (gJ t e)).
  Definition gwc (g : nat -> nat) (q : nat -> nat -> f64) (v z : nat) : f64 :=
    fold_left f64_add (map (fun e => q e z) (filter (fun e => Nat.eqb (g e) v) (seq 0 N))) fz0.
  Definition gsd (alpha : f64) (w : place) (n : nat) (g : nat -> nat) (q : nat -> nat -> f64) (v z : nat) : f64 :=
    f64_div (f64_add (gwc g q v z) alpha) (gsum w n (fun v => f64_add (gwc g q v z) alpha)).
  Definition gmass (alpha : f64) (q : nat -> nat -> f64) (z : nat) : f64 := f64_add (gsum AtQ N (fun e => q e z)) alpha.
  Definition gm (alpha : f64) (q : nat -> nat -> f64) : gpars :=
    mkG (fun z => f64_div (gmass alpha q z) (gsum AtZ k (gmass alpha q)))
        (gsd alpha AtR nl SE q) (gsd alpha AtX nu UE q) (gsd alpha AtY ni IE q).
  Definition gloss (t : gpars) : f64 :=
    f64_div (SFopp (gsum AtLog N (fun e => log64 (gsum AtL k (gJ t e))))) (f64_of_Z (Z.of_nat N)).

  Lemma fjoint_ok : forall p, gshape k nl nu ni p ->
    f64_joint_rows p (uis_of evs) (sc_of evs) = Ok (ftab N k (gJ (gfun p))).
  Proof.
    intros p [Hz [[Hr1 Hr2] [[Hx1 Hx2] [Hy1 Hy2]]]]. destruct (ratings_range _ _ _ _ Hev) as [R1 [R2 R3]].
    unfold f64_joint_rows, sc_of, uis_of, zp. rewrite !map_map. cbn [fst snd].
    rewrite <- (map_map snd Z.of_nat), <- (map_map (fun x : rating => fst (fst x)) Z.of_nat),
            <- (map_map (fun x : rating => snd (fst x)) Z.of_nat).
    rewrite (as_seq _ snd), (as_seq _ (fun x => fst (fst x))), (as_seq _ (fun x => snd (fst x))).
    rewrite !(take_nat _ _ _ []).
    2-4: apply Forall_map, Forall_forall; intros e He; apply in_seq in He; rewrite ?Hr1, ?Hx1, ?Hy1; first [apply R1|apply R2|apply R3]; lia.
    cbn [bind]. rewrite bcast_eq by (rewrite !map_length; auto). cbn [bind].
    rewrite bcast_eq by (rewrite combine_length, !map_length; lia). cbn [bind]. rewrite !map_map.
    rewrite (combine_as_map _ _ _ _ [] []) by (rewrite !map_length; auto).
    rewrite map_length, seq_length.
    rewrite (combine_as_map _ _ _ _ ([], []) []) by (rewrite !map_length; auto).
    rewrite map_length, seq_length.
    rewrite (mapM_total _ _ _ (fun t => map (fun z => mul4 (f64_at (gZ p) z) (f64_at (fst (fst t)) z) (f64_at (snd (fst t)) z) (f64_at (snd t) z)) (seq 0 k))).
    - f_equal. rewrite map_map. unfold ftab. apply map_ext_in. intros e He. apply in_seq in He. cbn [fst snd].
      rewrite !nth_map_seq by lia. cbn [fst snd]. reflexivity.
    - intros t Ht. apply in_map_iff in Ht. destruct Ht as [e [<- He]]. apply in_seq in He. cbn [fst snd].
      rewrite !nth_map_seq by lia. cbn [fst snd]. apply fmul4_ok; auto;
      [apply fshape_row with nl|apply fshape_row with nu|apply fshape_row with ni]; auto;
      first [split; auto; fail|apply R1; lia|apply R2; lia|apply R3; lia].
  Qed.

  Lemma fe_step_ok : forall p, gshape k nl nu ni p ->
    f64_e_step sum p (uis_of evs) (sc_of evs) = Ok (ftab N k (gpost (gfun p))).
  Proof.
    intros p Hp. unfold f64_e_step. rewrite fjoint_ok by auto. cbn [bind]. unfold ftab. f_equal.
    rewrite map_map. apply map_ext. intros e. unfold f64_normalise. rewrite map_map. reflexivity.
  Qed.

  Lemma floss_ok : forall p, gshape k nl nu ni p ->
    f64_plsa_loss sum log64 N p (uis_of evs) (sc_of evs) = Ok (gloss (gfun p)).
  Proof.
    intros p Hp. unfold f64_plsa_loss. rewrite fjoint_ok by auto. cbn [bind]. unfold ftab. rewrite map_map. reflexivity.
  Qed.

  Lemma fcolumn_ok : forall n q z, fshape n k q -> (z < k)%nat -> f64_column q z = Ok (map (fun e => f64_at2 q e z) (seq 0 n)).
  Proof.
    intros n q z [H1 H2] Hz. unfold f64_column. rewrite (mapM_total _ _ _ (fun r => nth z r fz0)).
    - f_equal. rewrite (list_as_map _ q []) at 1. rewrite map_map, H1. reflexivity.
    - intros r Hr. apply np_get_at. rewrite Forall_forall in H2. rewrite (H2 r Hr). auto.
  Qed.

  Lemma ftranspose_ok : forall n f, (0 < k)%nat -> f64_transpose (map (fun z => map (fun v => f v z) (seq 0 n)) (seq 0 k)) = Ok (ftab n k f).
  Proof.
    intros n f Hk. unfold f64_transpose. destruct k as [|k']; [lia|]. cbn [seq map].
    rewrite map_length, seq_length.
    rewrite (mapM_total _ _ _ (fun i => map (f i) (seq 0 (S k')))).
    - reflexivity.
    - intros i Hi. apply in_seq in Hi. change (map _ (seq 0 n) :: map _ (seq 1 k')) with (map (fun z => map (fun v => f v z) (seq 0 n)) (seq 0 (S k'))).
      rewrite (mapM_total _ _ _ (fun col => nth i col fz0)).
      + rewrite map_map. f_equal. apply map_ext. intros z. apply (nth_map_seq _ (fun v => f v z)). lia.
      + intros col Hc. apply in_map_iff in Hc. destruct Hc as [z [<- _]]. apply np_get_at. rewrite map_length, seq_length. lia.
  Qed.

  Lemma filter_pairs : forall (g : nat -> nat) (f : nat -> f64) v l,
    map snd (filter (fun xw => (fst xw =? Z.of_nat v)%Z) (combine (map Z.of_nat (map g l)) (map f l))) =
    map f (filter (fun e => Nat.eqb (g e) v) l).
  Proof.
    induction l as [|e l IH]; [reflexivity|]. cbn [map combine filter fst].
    destruct (Z.eqb_spec (Z.of_nat (g e)) (Z.of_nat v)), (Nat.eqb_spec (g e) v); try lia; cbn [map snd]; [f_equal|]; apply IH.
  Qed.

  Lemma fbincount_ok : forall (g : nat -> nat) (f : nat -> f64) n, (forall e, (e < N)%nat -> (g e < n)%nat) ->
    f64_bincount (map Z.of_nat (map g (seq 0 N))) (map f (seq 0 N)) n =
    Ok (map (fun v => fold_left f64_add (map f (filter (fun e => Nat.eqb (g e) v) (seq 0 N))) fz0) (seq 0 n)).
  Proof.
    intros g f n Hg. unfold f64_bincount. rewrite existsb_nonneg, !map_length, Nat.eqb_refl. cbn [negb].
    assert (Hf : Forall (fun x => x < n)%nat (map g (seq 0 N))).
    { apply Forall_map, Forall_forall. intros e He. apply in_seq in He. apply Hg. lia. }
    pose proof (zmax_lt _ n Hf).
    replace (Nat.max n (Z.to_nat (zmax (map Z.of_nat (map g (seq 0 N))) + 1))) with n by lia.
    f_equal. apply map_ext. intros v. rewrite filter_pairs. reflexivity.
  Qed.

  Lemma fsmoothed_ok : forall w alpha q n g, (0 < k)%nat -> fshape N k q -> (forall e, (e < N)%nat -> (g e < n)%nat) ->
    f64_smoothed sum w alpha k q (map Z.of_nat (map g (seq 0 N))) n = Ok (ftab n k (gsd alpha w n g (f64_at2 q))).
  Proof.
    intros w alpha q n g Hk Hq Hg. unfold f64_smoothed.
    rewrite (mapM_total _ _ _ (fun z => map (fun v => gsd alpha w n g (f64_at2 q) v z) (seq 0 n))).
    - cbn [bind]. apply ftranspose_ok. auto.
    - intros z Hz. apply in_seq in Hz. rewrite (fcolumn_ok N) by (auto; lia). cbn [bind].
      rewrite fbincount_ok by auto. cbn [bind]. unfold f64_normalise. rewrite !map_map. reflexivity.
  Qed.

  Lemma fm_step_ok : forall alpha q, (0 < k)%nat -> fshape N k q ->
    f64_m_step sum alpha k nl nu ni q (uis_of evs) (sc_of evs) = Ok (gtab k nl nu ni (gm alpha (f64_at2 q))).
  Proof.
    intros alpha q Hk Hq. destruct (ratings_range _ _ _ _ Hev) as [R1 [R2 R3]].
    unfold f64_m_step.
    replace (sc_of evs) with (map Z.of_nat (map (se evs) (seq 0 N))).
    2:{ unfold sc_of. rewrite (as_seq _ snd). reflexivity. }
    replace (map fst (uis_of evs)) with (map Z.of_nat (map (ue evs) (seq 0 N))).
    2:{ unfold uis_of, zp. rewrite !map_map. cbn [fst]. rewrite (as_seq _ (fun x => Z.of_nat (fst (fst x)))). reflexivity. }
    replace (map snd (uis_of evs)) with (map Z.of_nat (map (ie evs) (seq 0 N))).
    2:{ unfold uis_of, zp. rewrite !map_map. cbn [snd]. rewrite (as_seq _ (fun x => Z.of_nat (snd (fst x)))). reflexivity. }
    rewrite !fsmoothed_ok by auto. cbn [bind].
    rewrite (mapM_total _ _ _ (gmass alpha (f64_at2 q))).
    - cbn [bind]. unfold f64_normalise. rewrite map_map. reflexivity.
    - intros z Hz. apply in_seq in Hz. rewrite (fcolumn_ok N) by (auto; lia). reflexivity.
  Qed.

  Definition gstep (alpha : f64) (p : fparams) : fparams := gtab k nl nu ni (gm alpha (f64_at2 (ftab N k (gpost (gfun p))))).

  Lemma fiteration_ok : forall alpha p, (0 < k)%nat -> gshape k nl nu ni p ->
    f64_em_iteration sum log64 alpha k nl nu ni N (uis_of evs) (sc_of evs) p = Ok (gstep alpha p, gloss (gfun (gstep alpha p))).
  Proof.
    intros alpha p Hk Hp. unfold f64_em_iteration. rewrite fe_step_ok by auto. cbn [bind].
    rewrite fm_step_ok by (auto; apply ftab_shape). cbn [bind]. rewrite floss_ok by apply gtab_shape. reflexivity.
  Qed.
End Lists.
