(** * The implicit-feedback model in binary64 (C132) *)
From Coq Require Import List ZArith Reals Lia Lra Floats.SpecFloat Bool Permutation.
From Flocq Require Import Core BinarySingleNaN.
From Verif Require Import M_Py P_Py M_Sigmoid P_RSum M_MF P_MF T_MF T_MF2 T_MFInit T_MF3 T_Implicit P_Lip T_Convex T_Exist M_Float P_Float M_FloatBins M_FloatOps T_Float T_Float2 T_FloatBins P_Fl
  P_FloatRel P_FloatAe T_Sigmoid T_FloatSig T_FloatHist T_FloatMet M_FloatTopic T_FloatTopic2 M_FloatMF P_FloatMF T_FloatMF T_FloatMF2 T_FloatMF3 M_FloatImp.
Import ListNotations.
Open Scope R_scope.

(** ** The loop *)
Definition zat (m : list (list Z)) (i j : nat) : Z := nth j (nth i m []) 0%Z.
Definition zshaped (nu ni : nat) (m : list (list Z)) : Prop := length m = nu /\ Forall (fun r => length r = ni) m.

Lemma seq_sum_S : forall (F : nat -> f64) n, seq_sum (map F (seq 0 (S n))) = f64_add (seq_sum (map F (seq 0 n))) (F n).
Proof. intros. rewrite seq_S, map_app. unfold seq_sum. rewrite fold_left_app. reflexivity. Qed.

Lemma zrow_ok : forall nu ni (m : list (list Z)) i, zshaped nu ni m -> (i < nu)%nat -> np_get m (Z.of_nat i) = Ok (map (zat m i) (seq 0 ni)).
Proof.
  intros nu ni m i [Hl Hf] Hi. rewrite (np_get_at _ _ _ []) by lia. f_equal. unfold zat.
  assert (L : length (nth i m []) = ni) by (rewrite Forall_forall in Hf; apply Hf, nth_In; lia).
  rewrite <- L. apply list_as_map.
Qed.

Section Loop.
  Variable sum : msum -> list f64 -> f64.
  Variable rows : isum -> list f64 -> f64.
  Variable ex : f64 -> f64.

  Lemma f64_imp_scores_ok : forall nu ni k t i, fshape nu ni k t -> (i < nu)%nat ->
    f64_imp_scores sum t i = Ok (map (fun j => F_ sum k t (i, j)) (seq 0 ni)).
  Proof.
    intros nu ni k t i [H1 [H2 [H3 [H4 [H5 H6]]]]] Hi. unfold f64_imp_scores.
    rewrite (np_get_at _ _ _ f64_zero), (np_get_at _ _ _ []) by lia. cbn [bind].
    rewrite bcast_eq by lia. cbn [bind]. rewrite (combine_as_map _ _ _ _ f64_zero []) by lia.
    rewrite mapM_map, H2. apply mapM_total. intros j Hj. apply in_seq in Hj. cbn [fst snd].
    assert (L1 : length (nth i (fpu t) []) = k) by (apply frow_len with nu; auto).
    assert (L2 : length (nth j (fqi t) []) = k) by (apply frow_len with ni; auto; lia).
    unfold f64_mul_rows. rewrite bcast_eq by congruence. cbn [bind]. f_equal. unfold F_, fa1. cbn [fst snd]. f_equal.
    rewrite (combine_as_map _ _ _ _ f64_zero f64_zero) by congruence. rewrite map_map, L1. reflexivity.
  Qed.

  (** the weight of a cell *)
  Definition fom (k : nat) (t : fpar) (m : list (list Z)) (x : nat * nat) : f64 :=
    f64_residual ex (F_ sum k t x) (f64_of_Z (zat m (fst x) (snd x))).

  Definition facc (nu ni k : nat) (t : fpar) (h : nat * nat -> f64) (n : nat) : fpar :=
    mkFPar (seq_sum (map (fun i => rows OfMu (map (fun j => h (i, j)) (seq 0 ni))) (seq 0 n)))
      (map (fun i => if Nat.ltb i n then rows OfBu (map (fun j => h (i, j)) (seq 0 ni)) else f64_zero) (seq 0 nu))
      (map (fun j => seq_sum (map (fun i => h (i, j)) (seq 0 n))) (seq 0 ni))
      (map (fun i => if Nat.ltb i n then map (fun f => rows OfP (map (fun j => f64_mul (h (i, j)) (fa2 (fqi t) j f)) (seq 0 ni))) (seq 0 k)
                     else repeat f64_zero k) (seq 0 nu))
      (map (fun j => map (fun f => seq_sum (map (fun i => f64_mul (h (i, j)) (fa2 (fpu t) i f)) (seq 0 n))) (seq 0 k)) (seq 0 ni)).

  Lemma f64_add_into_maps : forall A (f g : A -> f64) l, f64_add_into (map f l) (map g l) = Ok (map (fun x => f64_add (f x) (g x)) l).
  Proof.
    intros. unfold f64_add_into. rewrite assign_eq by (rewrite !map_length; auto). cbn [bind].
    rewrite combine_maps, map_map. reflexivity.
  Qed.

  Lemma f64_imp_step_ok : forall nu ni k t m n, fshape nu ni k t -> zshaped nu ni m -> (n < nu)%nat ->
    f64_imp_grad_step sum rows ex k t m (facc nu ni k t (fom k t m) n) n = Ok (facc nu ni k t (fom k t m) (S n)).
  Proof.
    intros nu ni k t m n Ht Hm Hn. pose proof Ht as [H1 [H2 [H3 [H4 [H5 H6]]]]].
    unfold f64_imp_grad_step.
    rewrite (zrow_ok nu ni) by auto. cbn [bind]. rewrite (f64_imp_scores_ok nu ni k) by auto. cbn [bind].
    rewrite map_map. rewrite bcast_eq by (rewrite !map_length; auto). cbn [bind].
    rewrite combine_maps, map_map. cbn [fst snd]. set (h := fom k t m).
    change (map (fun x => f64_residual ex (F_ sum k t (n, x)) (f64_of_Z (zat m n x))) (seq 0 ni)) with (map (fun j => h (n, j)) (seq 0 ni)).
    cbn [facc fbu fbi fpu fqi fmu]. rewrite set_seq by auto. cbn [bind]. rewrite f64_add_into_maps. cbn [bind].
    rewrite bcast_eq by (rewrite map_length, seq_length; auto). cbn [bind].
    assert (Ewq : combine (map (fun j => h (n, j)) (seq 0 ni)) (fqi t) = map (fun j => (h (n, j), nth j (fqi t) [])) (seq 0 ni)).
    { transitivity (combine (map (fun j => h (n, j)) (seq 0 ni)) (map (fun j => nth j (fqi t) []) (seq 0 ni))).
      - f_equal. rewrite <- H4. apply list_as_map.
      - apply combine_maps. }
    rewrite Ewq.
    rewrite (mapM_total _ _ _ (fun f => rows OfP (map (fun j => f64_mul (h (n, j)) (fa2 (fqi t) j f)) (seq 0 ni)))).
    2:{ intros f Hf. apply in_seq in Hf. rewrite mapM_map.
        rewrite (mapM_total _ _ _ (fun j => f64_mul (h (n, j)) (fa2 (fqi t) j f))); [reflexivity|].
        intros j Hj. apply in_seq in Hj. cbn [fst snd].
        rewrite (np_get_at _ _ _ f64_zero) by (rewrite (frow_len ni k); auto; lia). reflexivity. }
    cbn [bind]. rewrite set_seq by auto. cbn [bind]. rewrite (np_get_at _ _ _ []) by lia. cbn [bind].
    rewrite assign_eq by (rewrite !map_length; auto). cbn [bind].
    rewrite combine_maps, mapM_map.
    assert (Ep : nth n (fpu t) [] = map (fa2 (fpu t) n) (seq 0 k)).
    { unfold fa2. assert (Lk : k = length (nth n (fpu t) [])) by (rewrite (frow_len nu k); auto).
      rewrite Lk. apply list_as_map. }
    rewrite (mapM_total _ _ _ (fun j => map (fun f => seq_sum (map (fun i => f64_mul (h (i, j)) (fa2 (fpu t) i f)) (seq 0 (S n)))) (seq 0 k))).
    2:{ intros j Hj. cbn [fst snd]. rewrite Ep, map_map, f64_add_into_maps. f_equal. apply map_ext. intros f.
        rewrite seq_sum_S. reflexivity. }
    cbn [bind]. unfold facc. f_equal. f_equal.
    - rewrite seq_sum_S. reflexivity.
    - apply map_ext. intros i. destruct (Nat.eqb_spec i n); subst.
      + destruct (Nat.ltb_spec n (S n)); auto; lia.
      + destruct (Nat.ltb_spec i n), (Nat.ltb_spec i (S n)); auto; lia.
    - apply map_ext. intros j. rewrite seq_sum_S. reflexivity.
    - apply map_ext. intros i. destruct (Nat.eqb_spec i n); subst.
      + destruct (Nat.ltb_spec n (S n)); auto; lia.
      + destruct (Nat.ltb_spec i n), (Nat.ltb_spec i (S n)); auto; lia.
  Qed.

  Lemma f64_imp_fold_ok : forall nu ni k t m, fshape nu ni k t -> zshaped nu ni m ->
    foldM (f64_imp_grad_step sum rows ex k t m) (seq 0 nu) (f64_zero_par nu ni k) = Ok (facc nu ni k t (fom k t m) nu).
  Proof.
    intros nu ni k t m Ht Hm.
    assert (Z0 : f64_zero_par nu ni k = facc nu ni k t (fom k t m) 0).
    { unfold f64_zero_par, facc. cbn [seq map]. rewrite (repeat_as_map _ f64_zero nu 0), (repeat_as_map _ f64_zero ni 0).
      rewrite (repeat_as_map _ (repeat f64_zero k) nu 0), (repeat_as_map _ (repeat f64_zero k) ni 0). f_equal.
      apply map_ext. intros i. rewrite (repeat_as_map _ f64_zero k 0). reflexivity. }
    rewrite Z0.
    assert (F : forall n s, (s + n = nu)%nat -> foldM (f64_imp_grad_step sum rows ex k t m) (seq s n) (facc nu ni k t (fom k t m) s) = Ok (facc nu ni k t (fom k t m) nu)).
    { induction n; intros s Hs; [cbn; do 2 f_equal; lia|]. cbn [seq foldM].
      rewrite f64_imp_step_ok by (auto; lia). cbn [bind]. apply IHn. lia. }
    apply F. lia.
  Qed.

  (** one entry *)
  Definition fival (nu ni : nat) (C : f64) (t : fpar) (h : nat * nat -> f64) (s : slot) : f64 :=
    match s with
    | SMu => seq_sum (map (fun i => rows OfMu (map (fun j => h (i, j)) (seq 0 ni))) (seq 0 nu))
    | SBu u => f64_add (rows OfBu (map (fun j => h (u, j)) (seq 0 ni))) (f64_mul C (fa1 (fbu t) u))
    | SBi i => f64_add (seq_sum (map (fun u => h (u, i)) (seq 0 nu))) (f64_mul C (fa1 (fbi t) i))
    | SP u f => f64_add (rows OfP (map (fun j => f64_mul (h (u, j)) (fa2 (fqi t) j f)) (seq 0 ni))) (f64_mul C (fa2 (fpu t) u f))
    | SQ i f => f64_add (seq_sum (map (fun u => f64_mul (h (u, i)) (fa2 (fpu t) u f)) (seq 0 nu))) (f64_mul C (fa2 (fqi t) i f))
    end.

  Lemma f64_imp_grad_ok : forall C nu ni k c t m, f64_view nu ni k c = Ok t -> fshape nu ni k t -> zshaped nu ni m ->
    f64_imp_grad sum rows ex C nu ni k c m = Ok (map (fival nu ni C t (fom k t m)) (slots nu ni k)).
  Proof.
    intros C nu ni k c t m E Ht Hm. pose proof Ht as [H1 [H2 [H3 [H4 [H5 H6]]]]]. unfold f64_imp_grad. rewrite E. cbn [bind].
    rewrite f64_imp_fold_ok by auto. cbn [bind]. f_equal. unfold facc. cbn [fmu fbu fbi fpu fqi]. set (h := fom k t m).
    unfold f64_flatten, slots. cbn [fmu fbu fbi fpu fqi map]. rewrite !map_app, !concat_map_map, !map_map. f_equal. f_equal; [|f_equal; [|f_equal]].
    - rewrite f64_add_reg_map by auto. apply map_ext_in. intros i Hi. apply in_seq in Hi. destruct (Nat.ltb_spec i nu); [reflexivity|lia].
    - rewrite f64_add_reg_map by auto. reflexivity.
    - f_equal. transitivity (f64_add_reg2 C (map (fun i => map (fun f => rows OfP (map (fun j => f64_mul (h (i, j)) (fa2 (fqi t) j f)) (seq 0 ni))) (seq 0 k)) (seq 0 nu)) (fpu t)).
      + f_equal. apply map_ext_in. intros i Hi. apply in_seq in Hi. destruct (Nat.ltb_spec i nu); [reflexivity|lia].
      + rewrite f64_add_reg2_map by auto. reflexivity.
    - f_equal. rewrite f64_add_reg2_map by auto. reflexivity.
  Qed.
End Loop.

(** ** Rows and columns of the table of all cells *)
Lemma byu_cells : forall nu ni u, (u < nu)%nat -> byu (nat * nat) (fun x => x) (cells nu ni) u = map (fun j => (u, j)) (seq 0 ni).
Proof.
  intros nu ni u Hu. unfold byu, cells.
  assert (K : forall l, NoDup l -> filter (fun e : nat * nat => Nat.eqb (fst e) u) (list_prod l (seq 0 ni)) = if in_dec Nat.eq_dec u l then map (fun j => (u, j)) (seq 0 ni) else []).
  { assert (Y : forall a l, filter (fun e : nat * nat => Nat.eqb (fst e) u) (map (fun y : nat => (a, y)) l) = if Nat.eqb a u then map (fun y => (a, y)) l else []).
    { intros a l. induction l as [|y l IH]; cbn [map filter fst]; [destruct (Nat.eqb a u); auto|]. rewrite IH. destruct (Nat.eqb a u); auto. }
    induction l as [|a l IH]; intros N; [reflexivity|]. inversion N; subst. cbn [list_prod]. rewrite filter_app, Y, IH by auto.
    destruct (Nat.eqb_spec a u) as [->|D].
    - destruct (in_dec Nat.eq_dec u l); [contradiction|]. destruct (in_dec Nat.eq_dec u (u :: l)) as [|F]; [apply app_nil_r|]. exfalso. apply F. left; auto.
    - cbn [app]. destruct (in_dec Nat.eq_dec u l) as [I|I], (in_dec Nat.eq_dec u (a :: l)) as [I'|I']; auto.
      + exfalso. apply I'. right; auto.
      + destruct I'; contradiction. }
  rewrite K by apply seq_NoDup. destruct (in_dec Nat.eq_dec u (seq 0 nu)) as [|F]; auto. exfalso. apply F, in_seq. lia.
Qed.
Lemma byi_cells : forall nu ni v, (v < ni)%nat -> byi (nat * nat) (fun x => x) (cells nu ni) v = map (fun i => (i, v)) (seq 0 nu).
Proof.
  intros nu ni v Hv. unfold byi, cells. induction (seq 0 nu) as [|a l IH]; [reflexivity|]. cbn [list_prod map]. rewrite filter_app, IH.
  assert (Y : forall l', NoDup l' -> filter (fun e : nat * nat => Nat.eqb (snd e) v) (map (fun y : nat => (a, y)) l') = if in_dec Nat.eq_dec v l' then [(a, v)] else []).
  { induction l' as [|y l' IH']; intros N; [reflexivity|]. inversion N; subst. cbn [map filter snd]. rewrite IH' by auto.
    destruct (Nat.eqb_spec y v) as [->|D].
    - destruct (in_dec Nat.eq_dec v l'); [contradiction|]. destruct (in_dec Nat.eq_dec v (v :: l')) as [|F]; auto. exfalso. apply F. left; auto.
    - destruct (in_dec Nat.eq_dec v l') as [I|I], (in_dec Nat.eq_dec v (y :: l')) as [I'|I']; auto.
      + exfalso. apply I'. right; auto.
      + destruct I'; contradiction. }
  rewrite Y by apply seq_NoDup. destruct (in_dec Nat.eq_dec v (seq 0 ni)) as [|F]; auto. exfalso. apply F, in_seq. lia.
Qed.

(** ** Every entry *)
Section Entries.
  Variables (nu ni d n : nat) (rows : isum -> list f64 -> f64).
  Variables (C : f64) (vC : R) (t : fpar) (r : par) (hf : nat * nat -> f64) (hv hm : nat * nat -> R).
  Let E := cells nu ni.
  Hypothesis HC : fl C vC.
  Hypothesis Ht : same t r.
  Hypothesis Hs : forall w l, length l = ni -> sum_of d l (rows w l).
  Hypothesis Hw : forall e, In e E -> ae n (hf e) (hv e) (hm e).

  Lemma cell_in : forall u i, (u < nu)%nat -> (i < ni)%nat -> In (u, i) E.
  Proof. intros. apply in_prod_iff. rewrite !in_seq. lia. Qed.

  Lemma hm_cell : forall u i, (u < nu)%nat -> (i < ni)%nat -> 0 <= hm (u, i).
  Proof. intros. eapply ae_nn. apply Hw, cell_in; auto. Qed.

  Lemma imp_entry : forall D l m s (f : nat -> f64) (v g : nat -> R) c w, sum_of D (map f l) s -> (forall e, In e l -> ae m (f e) (v e) (g e)) -> fl c w ->
    up (m + D + 2) * (rsum (map g l) + (Rabs (vC * w) + tinyn)) < big ->
    ae (m + D + 2) (f64_add s (f64_mul C c)) (rsum (map v l) + vC * w) (rsum (map g l) + (Rabs (vC * w) + tinyn)).
  Proof.
    intros D l m s f v g c w Hsum Hf Hc HB. pose proof tiny_pos. pose proof (Rabs_pos (vC * w)).
    assert (P : 0 <= rsum (map g l)) by (apply rsum_nonneg; intros e He; eapply ae_nn; apply Hf; auto).
    replace (m + D + 2)%nat with (S (m + D + 1)) in * by lia. apply ae_add; auto.
    - eapply ae_weaken; [apply (sum_map_ae nat D l s m f v g)| |apply Rle_refl]; auto; [|lia].
      apply up_big with (1 := HB); [lia|]. lra.
    - apply (prod_ae nat l C vC HC); auto; [lia|]. apply up_big with (1 := HB); [lia|]. lra.
  Qed.

  Lemma imp_entry2 : forall D l s (e : nat -> nat * nat) (g : nat -> f64) (q : nat -> R) c w,
    sum_of D (map (fun x => f64_mul (hf (e x)) (g x)) l) s -> (forall x, In x l -> In (e x) E) -> (forall x, fl (g x) (q x)) -> fl c w ->
    up (n + D + 3) * (rsum (map (fun x => hm (e x) * Rabs (q x) + tinyn) l) + (Rabs (vC * w) + tinyn)) < big ->
    ae (n + D + 3) (f64_add s (f64_mul C c)) (rsum (map (fun x => hv (e x) * q x) l) + vC * w)
       (rsum (map (fun x => hm (e x) * Rabs (q x) + tinyn) l) + (Rabs (vC * w) + tinyn)).
  Proof.
    intros D l s e g q c w Hsum Hin Hg Hc HB. pose proof tiny_pos as T0. pose proof (Rabs_pos (vC * w)) as P0.
    assert (N : forall x, In x l -> 0 <= hm (e x)) by (intros x Hx; eapply ae_nn; apply Hw; auto).
    assert (P : forall x, In x l -> 0 <= hm (e x) * Rabs (q x) + tinyn).
    { intros x Hx. pose proof (Rmult_le_pos _ _ (N x Hx) (Rabs_pos (q x))). lra. }
    replace (n + D + 3)%nat with (S n + D + 2)%nat in * by lia. apply imp_entry with (f := fun x => f64_mul (hf (e x)) (g x)); auto.
    intros x Hx. pose proof (N x Hx) as Q1. pose proof (Rabs_pos (q x)) as Q2. pose proof (Rmult_le_pos _ _ Q1 Q2) as Q3.
    replace (S n) with (S (n + 0)) by lia. apply (ae_mul n 0 _ _ _ _ (hm (e x)) (Rabs (q x))).
    - apply Hw; auto.
    - apply ae_exact; [auto|lra].
    - lra.
    - lra.
    - apply up_big with (1 := HB); [lia|]. split; [apply P; auto|].
      pose proof (rsum_member nat (fun x => hm (e x) * Rabs (q x) + tinyn) l x P Hx). lra.
  Qed.

  Let Id := fun x : nat * nat => x.
  Lemma imp_ae : forall k s, slot_ok nu ni k s -> up (n + d + nu + 3) * gsize _ Id E vC r hm s < big ->
    ae (n + d + nu + 3) (fival rows nu ni C t hf s) (gval _ Id E vC r hv s) (gsize _ Id E vC r hm s).
  Proof.
    destruct Ht as [S0 [S1 [S2 [S3 S4]]]]. pose proof tiny_pos as T0. intros k s Hk HB.
    pose proof (gsize_nn _ Id E vC r hm (fun e He => ae_nn _ _ _ _ (Hw e He)) s) as G0.
    destruct s as [|u|i|u f|i f]; cbn [fival gval gsize slot_ok] in *; unfold Id, E in *; rewrite ?byu_cells, ?byi_cells, ?map_map in * by tauto; cbn [fst snd] in *.
    - unfold cells in *. rewrite !(rsum_prod nat nat) in *.
      assert (R : forall i, In i (seq 0 nu) -> 0 <= rsum (map (fun j => hm (i, j)) (seq 0 ni))).
      { intros i Hi. apply rsum_nonneg. intros j Hj. apply in_seq in Hi, Hj. apply hm_cell; lia. }
      eapply ae_weaken; [apply (sum_map_ae nat nu (seq 0 nu) _ (n + d) (fun i => rows OfMu (map (fun j => hf (i, j)) (seq 0 ni)))
        (fun i => rsum (map (fun j => hv (i, j)) (seq 0 ni))) (fun i => rsum (map (fun j => hm (i, j)) (seq 0 ni))))| |apply Rle_refl].
      + pose proof (seq_sum_depth (map (fun i => rows OfMu (map (fun j => hf (i, j)) (seq 0 ni))) (seq 0 nu))) as K. rewrite map_length, seq_length in K. exact K.
      + intros i Hi. apply (sum_map_ae nat d (seq 0 ni) _ n (fun j => hf (i, j)) (fun j => hv (i, j)) (fun j => hm (i, j))).
        * apply Hs. rewrite map_length, seq_length. auto.
        * intros j Hj. apply in_seq in Hi, Hj. apply Hw, cell_in; lia.
        * apply up_big with (1 := HB); [lia|]. split; [auto|]. apply (rsum_member nat (fun i => rsum (map (fun j => hm (i, j)) (seq 0 ni)))); auto.
      + apply up_big with (1 := HB); [lia|]. lra.
      + lia.
    - eapply ae_weaken; [apply (imp_entry d (seq 0 ni) n _ (fun j => hf (u, j)) (fun j => hv (u, j)) (fun j => hm (u, j)) _ (at1 (bu r) u))| |apply Rle_refl].
      + apply Hs. rewrite map_length, seq_length. auto.
      + intros j Hj. apply in_seq in Hj. apply Hw, cell_in; lia.
      + apply same_at1. auto.
      + apply up_big with (1 := HB); [lia|lra].
      + lia.
    - eapply ae_weaken; [apply (imp_entry nu (seq 0 nu) n _ (fun j => hf (j, i)) (fun j => hv (j, i)) (fun j => hm (j, i)) _ (at1 (bi r) i))| |apply Rle_refl].
      + pose proof (seq_sum_depth (map (fun u => hf (u, i)) (seq 0 nu))) as K. rewrite map_length, seq_length in K. exact K.
      + intros j Hj. apply in_seq in Hj. apply Hw, cell_in; lia.
      + apply same_at1. auto.
      + apply up_big with (1 := HB); [lia|lra].
      + lia.
    - eapply ae_weaken; [apply (imp_entry2 d (seq 0 ni) _ (fun j => (u, j)) (fun j => fa2 (fqi t) j f) (fun j => at2 (qi r) j f) _ (at2 (pu r) u f))| |apply Rle_refl].
      + apply Hs. rewrite map_length, seq_length. auto.
      + intros j Hj. apply in_seq in Hj. apply cell_in; lia.
      + intros. apply same_at2. auto.
      + apply same_at2. auto.
      + apply up_big with (1 := HB); [lia|lra].
      + lia.
    - eapply ae_weaken; [apply (imp_entry2 nu (seq 0 nu) _ (fun j => (j, i)) (fun j => fa2 (fpu t) j f) (fun j => at2 (pu r) j f) _ (at2 (qi r) i f))| |apply Rle_refl].
      + pose proof (seq_sum_depth (map (fun u => f64_mul (hf (u, i)) (fa2 (fpu t) u f)) (seq 0 nu))) as K. rewrite map_length, seq_length in K. exact K.
      + intros j Hj. apply in_seq in Hj. apply cell_in; lia.
      + intros. apply same_at2. auto.
      + apply same_at2. auto.
      + apply up_big with (1 := HB); [lia|lra].
      + lia.
  Qed.
End Entries.

Lemma slots_ok : forall nu ni k s, In s (slots nu ni k) -> slot_ok nu ni k s.
Proof.
  intros nu ni k s H. unfold slots in H. destruct H as [<-|H]; [exact I|]. rewrite !in_app_iff in H. destruct H as [H|[H|[H|H]]].
  - apply in_map_iff in H. destruct H as [u [<- Hu]]. apply in_seq in Hu. cbn. lia.
  - apply in_map_iff in H. destruct H as [u [<- Hu]]. apply in_seq in Hu. cbn. lia.
  - apply in_concat in H. destruct H as [l [Hl H]]. apply in_map_iff in Hl. destruct Hl as [u [<- Hu]]. apply in_map_iff in H. destruct H as [f [<- Hf]]. apply in_seq in Hu, Hf. cbn. lia.
  - apply in_concat in H. destruct H as [l [Hl H]]. apply in_map_iff in Hl. destruct Hl as [u [<- Hu]]. apply in_map_iff in H. destruct H as [f [<- Hf]]. apply in_seq in Hu, Hf. cbn. lia.
Qed.

(** ** C132 *)
Lemma at2_map : forall (g : Z -> R) nu ni (m : list (list Z)) i j, zshaped nu ni m -> (i < nu)%nat -> (j < ni)%nat -> at2 (map (map g) m) i j = g (zat m i j).
Proof.
  intros g nu ni m i j [Hl Hf] Hi Hj. unfold at2, zat. change (@nil R) with (map g []). rewrite map_nth.
  assert (L : length (nth i m []) = ni) by (rewrite Forall_forall in Hf; apply Hf, nth_In; lia).
  rewrite (nth_indep _ 0 (g 0%Z)) by (rewrite map_length; lia). apply map_nth.
Qed.
Lemma map_shaped : forall (g : Z -> R) nu ni m, zshaped nu ni m -> shaped nu ni (map (map g) m).
Proof.
  intros g nu ni m [Hl Hf]. split; [rewrite map_length; auto|]. apply Forall_forall. intros x Hx. apply in_map_iff in Hx. destruct Hx as [y [<- Hy]].
  rewrite map_length. rewrite Forall_forall in Hf. auto.
Qed.

Theorem C132_gradient : forall sum rows d ex C vC nu ni k c vc m B G A, expit_ok ex ->
  fl C vC -> Forall2 fl c vc -> length vc = coef_size nu ni k ->
  length m = nu -> Forall (fun r => length r = ni) m -> Forall (Forall (fun z => 0 <= z <= 2 ^ 53)%Z) m ->
  (forall l, length l = k -> sum_of d l (sum AtDot l)) -> (forall w l, length l = ni -> sum_of d l (rows w l)) ->
  Forall (fun v => Rabs v <= B) vc -> 1 <= B ->
  imp_grad vC nu ni k vc (map (map IZR) m) = Ok G ->
  pmf_grad (Rabs vC) nu ni k (map Rabs vc) (ev_of (list_prod (seq 0 nu) (seq 0 ni))) (map (fun z => - (1 + IZR z)) (concat m)) = Ok A ->
  let b := (1 + u64) ^ (2 * d + nu + 15) in
  let s := fun j => nth j A 0 + (INR (nu * ni) * (INR k * B + 1) + 1) * tinyn in
  b * s 0%nat < big ->
  exists g, f64_imp_grad sum rows ex C nu ni k c m = Ok g /\ length g = coef_size nu ni k /\ length G = coef_size nu ni k /\
    forall j, (j < coef_size nu ni k)%nat -> b * s j < big -> exists v, fl (nth j g f64_zero) v /\ Rabs (v - nth j G 0) <= (b - 1) * s j.
Proof.
  intros sum rows d ex C vC nu ni k c vc m B G A He HC Hc Hl M1 M2 M3 Hs Hrows HB B1 EG EA b s H0.
  assert (Hm : zshaped nu ni m) by (split; auto). pose proof (map_shaped IZR nu ni m Hm) as HmR.
  destruct (both_views nu ni k c vc Hc Hl) as [t [r [E1 [Hw [S [F1 [F2 Hwa]]]]]]].
  pose proof (fun x Hx => proj1 (Forall_forall _ _) (cells_in_range nu ni) x Hx) as Hin. cbn in Hin.
  set (Id := fun x : nat * nat => x). fold (cells nu ni) in EA. set (E := cells nu ni) in *.
  set (hf := fom sum ex k t m).
  set (hv := fun e : nat * nat => safe_sigmoid (S_ k r e) - IZR (zat m (fst e) (snd e))).
  set (hm := fun e : nat * nat => (1 + size k r e) + IZR (zat m (fst e) (snd e))).
  set (ha := fun e : nat * nat => S_ k (abs_par r) e - - (1 + IZR (zat m (fst e) (snd e)))).
  assert (EG' : map (gval (nat * nat) Id E vC r hv) (slots nu ni k) = G).
  { rewrite <- F1 in EG. rewrite imp_grad_ok in EG by auto. apply ok_inj in EG. rewrite <- EG, <- gpar_slots. unfold Id. rewrite map_id. do 2 f_equal.
    rewrite (combine_cells nu ni) by auto. rewrite map_map. apply map_ext_in. intros x Hx. destruct (Hin x Hx). cbn [fst snd].
    rewrite (at2_map IZR nu ni) by auto. reflexivity. }
  assert (EA' : map (gval (nat * nat) Id E (Rabs vC) (abs_par r) ha) (slots nu ni k) = A).
  { set (E' := map (fun x : nat * nat => (x, - (1 + IZR (zat m (fst x) (snd x))))) E).
    assert (P1 : map fst E' = E) by (unfold E'; rewrite map_map; apply map_id).
    assert (P2 : map snd E' = map (fun z => - (1 + IZR z)) (concat m)).
    { rewrite concat_map. rewrite (concat_cells nu ni) by (apply (map_shaped (fun z => - (1 + IZR z))); auto). unfold E'. rewrite map_map. cbn [snd].
      apply map_ext_in. intros x Hx. destruct (Hin x Hx). rewrite (at2_map (fun z => - (1 + IZR z)) nu ni) by auto. reflexivity. }
    rewrite <- P2, <- F2 in EA. rewrite <- P1 in EA at 1. pose proof (pmf_grad_closed (Rabs vC) nu ni k (abs_par r) E' Hwa) as PC. rewrite PC in EA by (rewrite P1; exact (cells_in_range nu ni)). apply ok_inj in EA.
    rewrite <- EA, <- gpar_slots. unfold Id. rewrite map_id, P1. unfold E'. rewrite map_map. cbn [fst snd]. do 2 f_equal. apply map_ext. intros x. unfold ha. ring. }
  assert (Zr : forall e, In e E -> (0 <= zat m (fst e) (snd e) <= 2 ^ 53)%Z).
  { intros e Hx. destruct (Hin e Hx) as [I1 I2]. unfold zat. rewrite Forall_forall in M3.
    pose proof (M3 (nth (fst e) m []) ltac:(apply nth_In; lia)) as Q. rewrite Forall_forall in Q. apply Q, nth_In.
    rewrite Forall_forall in M2. rewrite M2 by (apply nth_In; lia). auto. }
  assert (Mm : forall e, In e E -> 0 <= hm e <= ha e + INR k * tinyn).
  { intros e Hx. pose proof (size_nn k r e) as P. assert (0 <= IZR (zat m (fst e) (snd e))) by (apply IZR_le; apply Zr; auto). unfold hm, ha. rewrite size_abs in *. split; lra. }
  rewrite <- F1 in HB.
  pose proof (gsize_abs (nat * nat) Id E vC r hm ha (INR k) B Mm (pos_INR k) (flatten_bound B r HB ltac:(lra)) B1) as GA.
  assert (LE : length E = (nu * ni)%nat) by (unfold E, cells; rewrite prod_length, !seq_length; auto). rewrite LE in GA.
  assert (NA : forall j, (j < coef_size nu ni k)%nat -> nth j A 0 = gval (nat * nat) Id E (Rabs vC) (abs_par r) ha (nth j (slots nu ni k) SMu)).
  { intros j Hj. rewrite <- EA'. rewrite <- (map_nth (gval (nat * nat) Id E (Rabs vC) (abs_par r) ha)). apply nth_indep. rewrite map_length, slots_length. auto. }
  assert (NG : forall j, (j < coef_size nu ni k)%nat -> nth j G 0 = gval (nat * nat) Id E vC r hv (nth j (slots nu ni k) SMu)).
  { intros j Hj. rewrite <- EG'. rewrite <- (map_nth (gval (nat * nat) Id E vC r hv)). apply nth_indep. rewrite map_length, slots_length. auto. }
  assert (W : forall e, In e E -> ae (d + 12) (hf e) (hv e) (hm e)).
  { intros e Hx. pose proof (Zr e Hx) as Q. assert (Q0 : 0 <= IZR (zat m (fst e) (snd e))) by (apply IZR_le; lia).
    assert (U : up (d + 12) * hm e < big).
    { apply up_big with (1 := H0); [lia|]. split; [apply Mm; auto|]. unfold s. rewrite NA by (unfold coef_size; lia).
      eapply Rle_trans; [|apply GA]. cbn [nth slots gsize]. apply (rsum_member _ hm); auto. intros; apply Mm; auto. }
    unfold hf, hv, fom, f64_residual. replace (d + 12)%nat with (Datatypes.S (d + 3 + 8)) in * by lia. apply ae_sub; auto.
    - apply sigmoid_ae; auto. apply score_ae; auto. apply up_big with (1 := U); [lia|]. unfold hm. pose proof (size_nn k r e). split; lra.
    - eapply ae_weaken; [apply ae_exact; [apply fl_Z; lia|rewrite Rabs_pos_eq by lra; apply Rle_refl]|lia|lra]. }
  pose proof (imp_ae nu ni d (d + 12) rows C vC t r hf hv hm HC S Hrows W k) as GR. fold Id in GR. fold E in GR.
  exists (map (fival rows nu ni C t hf) (slots nu ni k)). split; [|split; [|split]].
  - apply f64_imp_grad_ok; auto. eapply same_shape; eauto.
  - rewrite map_length, slots_length. auto.
  - rewrite <- EG', map_length, slots_length. auto.
  - intros j Hj HBj.
    replace (nth j (map (fival rows nu ni C t hf) (slots nu ni k)) f64_zero) with (fival rows nu ni C t hf (nth j (slots nu ni k) SMu)).
    2:{ rewrite <- (map_nth (fival rows nu ni C t hf)). apply nth_indep. rewrite map_length, slots_length. auto. }
    rewrite NG by auto. set (x := nth j (slots nu ni k) SMu) in *.
    assert (Ox : slot_ok nu ni k x) by (apply slots_ok, nth_In; rewrite slots_length; auto).
    unfold b, s in *. rewrite NA in * by auto. fold x in HBj |- *.
    replace (2 * d + nu + 15)%nat with (d + 12 + d + nu + 3)%nat in * by lia.
    assert (Gn : 0 <= gsize (nat * nat) Id E vC r hm x) by (apply gsize_nn; intros; apply Mm; auto).
    destruct (GR x Ox) as [v [V1 [V2 V3]]]. { apply up_big with (1 := HBj); [lia|]. split; [auto|apply GA]. }
    exists v. split; auto. eapply Rle_trans; [exact V3|]. apply Rmult_le_compat_l; [pose proof (up_ge (d + 12 + d + nu + 3)); lra|apply GA].
Qed.

(** two users, one item, one factor; the first user has bought the item twice *)
Definition exi_par : par := mkPar 1 [2; 0] [-3] [[2]; [0]] [[5]].
Example C132_nonvacuous : let vc := flatten exi_par in let c := map f64_of_Z [1; 2; 0; -3; 2; 0; 5]%Z in let m := [[2]; [0]]%Z in exists G A,
  expit_ok rounded_expit /\ fl (f64_of_Z 1) 1 /\ Forall2 fl c vc /\ length vc = coef_size 2 1 1 /\
  Forall (Forall (fun z => 0 <= z <= 2 ^ 53)%Z) m /\
  (forall l, length l = 1%nat -> sum_of 1 l (seq_sum l)) /\ Forall (fun v => Rabs v <= 5) vc /\
  imp_grad 1 2 1 1 vc (map (map IZR) m) = Ok G /\
  pmf_grad (Rabs 1) 2 1 1 (map Rabs vc) (ev_of (list_prod (seq 0 2) (seq 0 1))) (map (fun z => - (1 + IZR z)) (concat m)) = Ok A /\
  (1 + u64) ^ (2 * 1 + 2 + 15) * (nth 0 A 0 + (INR (2 * 1) * (INR 1 * 5 + 1) + 1) * tinyn) < big /\
  (exists g, f64_imp_grad (fun _ => seq_sum) (fun _ => seq_sum) rounded_expit (f64_of_Z 1) 2 1 1 c m = Ok g /\ exists v, fl (nth 3 g f64_zero) v /\ -51 / 10 < v < -29 / 10).
Proof.
  intros vc c m.
  assert (W : wf 2 1 1 exi_par) by (unfold wf, exi_par; cbn; auto 10 using Forall_cons, Forall_nil).
  assert (Wa : wf 2 1 1 (abs_par exi_par)) by (unfold wf, exi_par; cbn; auto 10 using Forall_cons, Forall_nil).
  pose proof big_large as BL. pose proof tn_small as TN.
  assert (Fc : Forall2 fl c vc) by (repeat (constructor; [apply fl_Z; vm_compute; discriminate|]); constructor).
  assert (Mm : Forall (Forall (fun z => 0 <= z <= 2 ^ 53)%Z) m) by (repeat constructor; vm_compute; discriminate).
  assert (HS : forall l : list f64, length l = 1%nat -> sum_of 1 l (seq_sum l)) by (intros l Hl; rewrite <- Hl; apply seq_sum_depth).
  assert (Sh : shaped 2 1 (map (map IZR) m)) by (split; repeat constructor).
  set (E := [((0, 0)%nat, (f64_zero, -3)); ((1, 0)%nat, (f64_zero, -1))] : list fscored).
  assert (PA : pmf_grad (Rabs 1) 2 1 1 (map Rabs vc) (ev_of (list_prod (seq 0 2) (seq 0 1))) (map (fun z => - (1 + IZR z)) (concat m)) =
    Ok (map (gval fscored fst E (Rabs 1) (abs_par exi_par) (fun e => S_ 1 (abs_par exi_par) (fst e) - rscore e)) (slots 2 1 1))).
  { change (map Rabs vc) with (flatten (abs_par exi_par)). rewrite <- pmf_grad_slots by (auto; repeat constructor). f_equal. cbn [concat app map m E rscore snd]. assert (T1 : - (1 + 2) = -3) by lra. assert (T2 : - (1 + 0) = -1) by lra. rewrite T1, T2. reflexivity. }
  pose proof (imp_grad_ok 1 2 1 1 exi_par (map (map IZR) m) W Sh) as PG.
  assert (FB : Forall (fun v => Rabs v <= 5) vc) by (unfold vc, flatten, exi_par; cbn; repeat (apply Forall_cons; [apply Rabs_le; lra|]); apply Forall_nil).
  assert (U : forall x, 0 <= x <= 100 -> up (2 * 1 + 2 + 15) * x < big).
  { intros x Hx. assert (1 <= up (2 * 1 + 2 + 15) <= 2) by (split; [apply up_ge|apply ex_up; lia]). nra. }
  set (A := map (gval fscored fst E (Rabs 1) (abs_par exi_par) (fun e => S_ 1 (abs_par exi_par) (fst e) - rscore e)) (slots 2 1 1)) in *.
  assert (A0 : nth 0 A 0 = 24 /\ nth 3 A 0 = 27).
  { unfold A, E, slots, gval, byu, byi, S_, at1, at2, rsum, rscore, abs_par, exi_par. cbn [map fst snd nth fold_right seq filter Nat.eqb concat app mu bu bi pu qi].
    rewrite ?Rabs_R0. repeat match goal with |- context [Rabs (IZR (Zpos ?p))] => rewrite (Rabs_pos_eq (IZR (Zpos p))) by lra end. rewrite (Rabs_left (-3)) by lra. lra. }
  destruct A0 as [A0 A3].
  eexists. exists A. split; [apply C99_rounded_expit|]. split; [apply fl_Z; vm_compute; discriminate|]. split; [exact Fc|]. split; [reflexivity|]. split; [exact Mm|].
  split; [exact HS|]. split; [exact FB|]. split; [exact PG|]. split; [exact PA|]. split.
  - rewrite A0. apply U. change (INR (2 * 1)) with (1 + 1). change (INR 1) with 1. nra.
  - assert (T0 : forall x, 0 <= x <= 27 -> up (2 * 1 + 2 + 15) * (x + (INR (2 * 1) * (INR 1 * 5 + 1) + 1) * tinyn) < big).
    { intros x Hx. apply U. change (INR (2 * 1)) with (1 + 1). change (INR 1) with 1. nra. }
    destruct (C132_gradient (fun _ => seq_sum) (fun _ => seq_sum) 1 rounded_expit (f64_of_Z 1) 1 2 1 1 c vc m 5 _ A C99_rounded_expit ltac:(apply fl_Z; vm_compute; discriminate)
      Fc eq_refl eq_refl ltac:(repeat constructor) Mm HS (fun _ => HS) FB ltac:(lra) PG PA ltac:(cbv beta zeta; rewrite A0; apply T0; lra)) as [g [Eg [_ [_ Hg]]]].
    exists g. split; [exact Eg|]. destruct (Hg 3%nat ltac:(cbn; lia) ltac:(cbv beta; rewrite A3; apply T0; lra)) as [v [V1 V2]]. exists v. split; auto.
    rewrite A3 in V2. apply Rabs_le_inv in V2.
    assert (D : (up (2 * 1 + 2 + 15) - 1) * (27 + (INR (2 * 1) * (INR 1 * 5 + 1) + 1) * tinyn) <= / 1000).
    { destruct (up_linear (2 * 1 + 2 + 15)) as [K _]. { replace (INR (2 * 1 + 2 + 15)) with 19 by (rewrite INR_IZR_INZ; reflexivity). lra. }
      replace (INR (2 * 1 + 2 + 15)) with 19 in K by (rewrite INR_IZR_INZ; reflexivity). change (INR (2 * 1)) with (1 + 1). change (INR 1) with 1. pose proof (up_ge (2 * 1 + 2 + 15)). nra. }
    assert (V : nth 3 (flatten (gpar 1 2 1 1 exi_par (cells 2 1) (map (fun es => safe_sigmoid (S_ 1 exi_par (fst es)) - snd es) (combine (cells 2 1) (concat (map (map IZR) m)))))) 0
      = safe_sigmoid 10 + safe_sigmoid (-2) - 5).
    { unfold gpar, flatten, cells, wcount, S_, at1, at2, rsum, exi_par. cbn [list_prod map fst snd nth fold_right seq filter Nat.eqb concat app combine mu bu bi pu qi m].
      replace (1 + 2 + -3 + (2 * 5 + 0)) with 10 by ring. replace (1 + 0 + -3 + (0 * 5 + 0)) with (-2) by ring. ring. }
    rewrite V in V2.
    pose proof (C38_probability 10). pose proof (C38_probability (-2)).
    lra.
Qed.

Print Assumptions C132_gradient.
