(** * Theorems about the explicit matrix factorisation models
    (C32 - C34, C36, C37, C39, C40) *)
From Coq Require Import List ZArith Reals Lra Lia Bool.
From Verif Require Import M_Py P_Py M_Sigmoid P_RSum P_Exp T_Sigmoid M_MF P_MF.
Import ListNotations.
Open Scope R_scope.

(** In the statements below, events are given by pairs of internal ids:
    [ev_of uis] is the event array, [in_range nu ni uis] says that all ids are
    below the numbers of users and items (theorem C30 shows that fit provides
    such arrays).  [along c v s] is the vector c + s * v, [dotl] the inner
    product. *)

(** a parameter entry by name *)
Inductive slot := SMu | SBu (u : nat) | SBi (i : nat) | SP (u f : nat) | SQ (i f : nat).

Definition slot_ok (nu ni k : nat) (s : slot) : Prop :=
  match s with
  | SMu => True
  | SBu u => u < nu
  | SBi i => i < ni
  | SP u f => u < nu /\ f < k
  | SQ i f => i < ni /\ f < k
  end%nat.

Definition entry2 (m : list (list R)) (i f : nat) : option R :=
  match nth_error m i with Some r => nth_error r f | None => None end.

Definition slot_entry (t : par) (s : slot) : option R :=
  match s with
  | SMu => Some (mu t)
  | SBu u => nth_error (bu t) u
  | SBi i => nth_error (bi t) i
  | SP u f => entry2 (pu t) u f
  | SQ i f => entry2 (qi t) i f
  end.

Definition offset (nu ni k : nat) (s : slot) : nat :=
  match s with
  | SMu => 0
  | SBu u => 1 + u
  | SBi i => 1 + nu + i
  | SP u f => 1 + nu + ni + (u * k + f)
  | SQ i f => 1 + nu + ni + nu * k + (i * k + f)
  end.

Lemma entry2_concat : forall k (m : list (list R)) i f, Forall (fun r => length r = k) m ->
  (i < length m)%nat -> (f < k)%nat -> nth_error (concat m) (i * k + f) = entry2 m i f.
Proof.
  intros k m i f H. revert i. induction H; intros i Hi Hf; [cbn in Hi; lia|].
  destruct i; cbn [concat].
  - rewrite nth_error_app1 by lia. reflexivity.
  - rewrite nth_error_app2 by lia. replace (S i * k + f - length x)%nat with (i * k + f)%nat by lia.
    rewrite IHForall by (cbn in Hi; lia). reflexivity.
Qed.

Lemma offset_entry : forall nu ni k t s, wf nu ni k t -> slot_ok nu ni k s ->
  nth_error (flatten t) (offset nu ni k s) = slot_entry t s.
Proof.
  intros nu ni k t s [H1 [H2 [H3 [H4 [H5 H6]]]]] Hs. unfold flatten.
  pose proof (concat_rect_length _ k _ H5) as Lp. rewrite H3 in Lp.
  destruct s; cbn [offset slot_ok slot_entry] in *; try reflexivity.
  - cbn [Nat.add nth_error]. rewrite nth_error_app1 by lia. reflexivity.
  - cbn [Nat.add nth_error]. rewrite nth_error_app2 by lia. rewrite nth_error_app1 by lia. f_equal. lia.
  - cbn [Nat.add nth_error]. rewrite nth_error_app2 by lia. rewrite nth_error_app2 by lia.
    destruct Hs as [Hu Hf]. assert (u * k + f < nu * k)%nat by nia.
    rewrite nth_error_app1 by lia.
    replace (nu + ni + (u * k + f) - length (bu t) - length (bi t))%nat with (u * k + f)%nat by lia.
    apply entry2_concat; auto. lia.
  - cbn [Nat.add nth_error]. rewrite nth_error_app2 by lia. rewrite nth_error_app2 by lia.
    rewrite nth_error_app2 by lia. destruct Hs as [Hu Hf].
    replace (nu + ni + nu * k + (i * k + f) - length (bu t) - length (bi t) - length (concat (pu t)))%nat
      with (i * k + f)%nat by lia.
    apply entry2_concat; auto. lia.
Qed.

Lemma mul_add_inj : forall k a b c d, (b < k)%nat -> (d < k)%nat -> (a * k + b = c * k + d)%nat -> a = c /\ b = d.
Proof.
  intros k a b c d Hb Hd H. assert (a = c) by nia. subst. split; auto. lia.
Qed.

Lemma slot_bound : forall k a b n, (b < k)%nat -> (a < n)%nat -> (a * k + b < n * k)%nat.
Proof. intros. nia. Qed.

Lemma slot_region : forall nu ni k s, slot_ok nu ni k s ->
  match s with SP u f => (u * k + f < nu * k)%nat | SQ i f => (i * k + f < ni * k)%nat
             | SBu u => (u < nu)%nat | SBi i => (i < ni)%nat | _ => True end.
Proof. intros nu ni k [ | | | u f | i f] H; cbn in *; auto; destruct H; apply slot_bound; auto. Qed.

(** ** C32: positions and named entries correspond one to one; the views read
    and write exactly these positions *)
Theorem C32_layout : forall nu ni k, exists off : slot -> nat,
  (forall s, slot_ok nu ni k s -> (off s < 1 + nu + ni + k * (nu + ni))%nat) /\
  (forall s s', slot_ok nu ni k s -> slot_ok nu ni k s' -> off s = off s' -> s = s') /\
  (forall j, (j < 1 + nu + ni + k * (nu + ni))%nat -> exists s, slot_ok nu ni k s /\ off s = j) /\
  (forall c, length c = (1 + nu + ni + k * (nu + ni))%nat ->
     exists t, view nu ni k c = Ok t /\
       length (bu t) = nu /\ length (bi t) = ni /\ length (pu t) = nu /\ length (qi t) = ni /\
       Forall (fun r => length r = k) (pu t) /\ Forall (fun r => length r = k) (qi t) /\
       forall s, slot_ok nu ni k s -> nth_error c (off s) = slot_entry t s) /\
  (forall t, length (bu t) = nu -> length (bi t) = ni -> length (pu t) = nu -> length (qi t) = ni ->
     Forall (fun r => length r = k) (pu t) -> Forall (fun r => length r = k) (qi t) ->
     length (flatten t) = (1 + nu + ni + k * (nu + ni))%nat /\ view nu ni k (flatten t) = Ok t) /\
  (forall c, length c <> (1 + nu + ni + k * (nu + ni))%nat -> view nu ni k c = Raise ValueError).
Proof.
  intros nu ni k. exists (offset nu ni k).
  assert (Esz : coef_size nu ni k = (1 + nu + ni + k * (nu + ni))%nat) by (unfold coef_size; lia).
  split; [|split; [|split; [|split; [|split]]]].
  - intros s Hs. destruct s; cbn [offset slot_ok] in *; try lia; destruct Hs as [Ha Hb];
      pose proof (slot_bound _ _ _ _ Hb Ha); lia.
  - intros s s' H H' E. pose proof (slot_region _ _ _ _ H) as B. pose proof (slot_region _ _ _ _ H') as B'.
    destruct s, s'; cbn [offset slot_ok] in *;
      repeat match goal with Hx : _ /\ _ |- _ => destruct Hx end;
      try (exfalso; clear H H'; lia); try (f_equal; lia); try reflexivity.
    + assert (X : (u * k + f = u0 * k + f0)%nat) by lia. apply mul_add_inj in X; auto. destruct X; congruence.
    + assert (X : (i * k + f = i0 * k + f0)%nat) by lia. apply mul_add_inj in X; auto. destruct X; congruence.
  - intros j Hj.
    destruct (Nat.eq_dec j 0); [exists SMu; split; cbn; auto|].
    destruct (Nat.lt_ge_cases j (1 + nu)); [exists (SBu (j - 1)); cbn; split; lia|].
    destruct (Nat.lt_ge_cases j (1 + nu + ni)); [exists (SBi (j - 1 - nu)); cbn; split; lia|].
    assert (k <> 0)%nat by nia.
    destruct (Nat.lt_ge_cases j (1 + nu + ni + nu * k)).
    + set (r := (j - (1 + nu + ni))%nat).
      pose proof (Nat.div_mod r k ltac:(auto)). pose proof (Nat.mod_upper_bound r k ltac:(auto)).
      exists (SP (r / k) (r mod k)). cbn [slot_ok offset]. repeat split; auto.
      * apply Nat.div_lt_upper_bound; auto. unfold r. lia.
      * unfold r in *. nia.
    + set (r := (j - (1 + nu + ni + nu * k))%nat).
      pose proof (Nat.div_mod r k ltac:(auto)). pose proof (Nat.mod_upper_bound r k ltac:(auto)).
      exists (SQ (r / k) (r mod k)). cbn [slot_ok offset]. repeat split; auto.
      * apply Nat.div_lt_upper_bound; auto. unfold r. lia.
      * unfold r in *. nia.
  - intros c Hc. destruct (view_ok nu ni k c ltac:(lia)) as [t [E [Hw Hf]]].
    exists t. split; auto. pose proof Hw as [H1 [H2 [H3 [H4 [H5 H6]]]]]. repeat split; auto.
    intros s Hs. rewrite <- Hf. apply offset_entry; auto.
  - intros t H1 H2 H3 H4 H5 H6. assert (Hw : wf nu ni k t) by (unfold wf; auto 10).
    split; [rewrite (flatten_length nu ni k); auto | apply view_flatten; auto].
  - intros c Hc. unfold view. destruct (Nat.eqb_spec (length c) (coef_size nu ni k)); auto. lia.
Qed.

Example C32_nonvacuous :
  view 2 1 2 [1; 2; 3; 4; 5; 6; 7; 8; 9; 10] = Ok (mkPar 1 [2; 3] [4] [[5; 6]; [7; 8]] [[9; 10]]).
Proof. reflexivity. Qed.
Print Assumptions C32_layout.

(** ** C33 *)
Lemma deriv_square : forall f f' x, derivable_pt_lim f x f' ->
  forall a, derivable_pt_lim (fun s => (a - f s) * (a - f s)) x (2 * (- (a - f x)) * f').
Proof.
  intros f f' x H a.
  replace (2 * (- (a - f x)) * f') with ((0 - f') * (a - f x) + (a - f x) * (0 - f')) by ring.
  apply (derivable_pt_lim_mult (fun s => a - f s) (fun s => a - f s));
    apply (derivable_pt_lim_minus (fun _ => a) f); auto; apply derivable_pt_lim_const.
Qed.

Lemma deriv_scal : forall f f' x c, derivable_pt_lim f x f' -> derivable_pt_lim (fun s => c * f s) x (c * f').
Proof. intros. apply (derivable_pt_lim_scal f c x f'); auto. Qed.

(** a loss that is a sum over the events, plus the regulariser *)
Lemma deriv_loss : forall (phi phi' : R -> R -> R) C nu ni k t v uis sc,
  wf nu ni k t -> wf nu ni k v -> in_range nu ni uis -> length sc = length uis ->
  (forall e s, In (e, s) (combine uis sc) -> forall (f : R -> R) f', f 0 = S_ k t e -> derivable_pt_lim f 0 f' ->
     derivable_pt_lim (fun z => phi s (f z)) 0 (phi' s (S_ k t e) * f')) ->
  derivable_pt_lim
    (fun z => rsum (map (fun es => phi (snd es) (S_ k (palong t v z) (fst es))) (combine uis sc)) +
              1 / 2 * C * reg (palong t v z)) 0
    (dotl (flatten (gpar C nu ni k t uis (map (fun es => phi' (snd es) (S_ k t (fst es))) (combine uis sc)))) (flatten v)).
Proof.
  intros phi phi' C nu ni k t v uis sc Ht Hv Hr Hl Hphi.
  rewrite (grad_dot C nu ni k t v uis) by (auto; rewrite map_length, combine_length; lia).
  replace (C * regdot t v) with (1 / 2 * C * (2 * regdot t v)) by field.
  apply derivable_pt_lim_plus.
  - replace (combine uis (map (fun es => phi' (snd es) (S_ k t (fst es))) (combine uis sc)))
      with (map (fun es => (fst es, phi' (snd es) (S_ k t (fst es)))) (combine uis sc)).
    2:{ rewrite <- (map_id uis) at 2. rewrite (combine3 _ _ _ (fun x => x) (fun es => phi' (snd es) (S_ k t (fst es)))) by auto. reflexivity. }
    rewrite map_map. cbn [fst snd].
    apply (derivable_rsum (fun es z => phi (snd es) (S_ k (palong t v z) (fst es)))
            (fun es => phi' (snd es) (S_ k t (fst es)) * D_ k t v (fst es))).
    intros [e s] Hin. cbn [fst snd]. apply (Hphi e s Hin (fun z => S_ k (palong t v z) e)).
    + unfold S_, palong. cbn [mu bu bi pu qi].
      destruct Ht as [H1 [H2 [H3 [H4 [H5 H6]]]]]. destruct Hv as [V1 [V2 [V3 [V4 [V5 V6]]]]].
      rewrite !at1_along by congruence.
      rewrite (rsum_ext_in _ (fun f => at2 (pu t) (fst e) f * at2 (qi t) (snd e) f)).
      * ring.
      * intros f _. rewrite !(at2_along k) by (auto; congruence). ring.
    + apply (deriv_score nu ni); auto.
  - apply deriv_scal with (f := fun z => reg (palong t v z)). apply (deriv_reg nu ni k); auto.
Qed.

Lemma weights_eq : forall (h : R -> R -> R) (g : nat * nat -> R) sc uis,
  map (fun x => h (fst x) (snd x)) (combine sc (map g uis)) =
  map (fun es => h (snd es) (g (fst es))) (combine uis sc).
Proof.
  induction sc; intros uis; destruct uis; try reflexivity. cbn [combine map]. rewrite IHsc. reflexivity.
Qed.

Lemma weights_eq' : forall (h : R -> R -> R) (g : nat * nat -> R) sc uis,
  map (fun x => h (snd x) (fst x)) (combine (map g uis) sc) =
  map (fun es => h (snd es) (g (fst es))) (combine uis sc).
Proof.
  induction sc; intros uis; destruct uis; try reflexivity. cbn [combine map]. rewrite IHsc. reflexivity.
Qed.

Theorem C33_pmf_gradient : forall C nu ni k c v uis sc,
  length c = coef_size nu ni k -> length v = coef_size nu ni k ->
  in_range nu ni uis -> length sc = length uis ->
  exists g f, pmf_grad C nu ni k c (ev_of uis) sc = Ok g /\ length g = coef_size nu ni k /\
    (forall s, pmf_loss C nu ni k (along c v s) (ev_of uis) sc = Ok (f s)) /\
    derivable_pt_lim f 0 (dotl g v).
Proof.
  intros C nu ni k c v uis sc Hc Hv Hr Hl.
  destruct (view_ok nu ni k c Hc) as [t [Et [Ht <-]]].
  destruct (view_ok nu ni k v Hv) as [w [Ew [Hw <-]]].
  pose proof (fun s => palong_wf nu ni k t w s Ht Hw) as Hp.
  assert (Ls : forall t, length sc = length (map (S_ k t) uis)) by (intros; rewrite map_length; auto).
  eexists _, (fun z => rsum (map (fun es => / 2 * ((snd es - S_ k (palong t w z) (fst es)) * (snd es - S_ k (palong t w z) (fst es)))) (combine uis sc)) +
              1 / 2 * C * reg (palong t w z)).
  split; [|split; [|split]].
  - unfold pmf_grad. rewrite Et. cbn [bind]. rewrite pairs_ok. cbn [bind].
    rewrite (scores_ok nu ni k) by auto. cbn [bind]. rewrite bcast_eq by auto. cbn [bind].
    rewrite mf_grad_ok by (auto; rewrite map_length, combine_length, map_length; lia). reflexivity.
  - apply flatten_length, gpar_wf.
  - intros s. unfold pmf_loss. rewrite (view_along nu ni k) by auto. cbn [bind]. rewrite pairs_ok. cbn [bind].
    rewrite (scores_ok nu ni k) by auto. cbn [bind]. rewrite bcast_eq by auto. cbn [bind].
    f_equal. f_equal. rewrite rsum_scal. replace (1 / 2) with (/ 2) by field. f_equal.
    rewrite (weights_eq (fun a b => (a - b) * (a - b))). reflexivity.
  - rewrite (weights_eq (fun a b => - (a - b))).
    apply (deriv_loss (fun s x => / 2 * ((s - x) * (s - x))) (fun s x => - (s - x)) C nu ni k t w uis sc); auto.
    intros e s _ f f' Hf0 Hf.
    replace (- (s - S_ k t e) * f') with (/ 2 * (2 * (- (s - f 0)) * f')) by (rewrite Hf0; field).
    apply (deriv_scal (fun z => (s - f z) * (s - f z))). apply deriv_square; auto.
Qed.

Example C33_nonvacuous :
  in_range 2 1 [(0, 0); (1, 0)]%nat /\
  pmf_grad 2 2 1 1 [1; 2; 3; 4; 5; 6; 7] (ev_of [(0, 0); (1, 0)]%nat) [3; 4] = Ok [85; 43; 52; 93; 283; 334; 485].
Proof.
  split; [repeat constructor|].
  destruct (view_ok 2 1 1 [1; 2; 3; 4; 5; 6; 7] eq_refl) as [t [Et [Ht _]]].
  vm_compute in Et. injection Et as <-.
  unfold pmf_grad. change (view 2 1 1 [1; 2; 3; 4; 5; 6; 7]) with (Ok (mkPar 1 [2; 3] [4] [[5]; [6]] [[7]])). cbn [bind].
  rewrite pairs_ok. cbn [bind].
  rewrite (scores_ok 2 1 1) by (auto; repeat constructor). cbn [bind].
  rewrite bcast_eq by reflexivity. cbn [bind].
  rewrite mf_grad_ok by (auto; repeat constructor).
  f_equal. unfold flatten, gpar, wcount, S_, at1, at2. cbn. repeat (f_equal; try lra).
Qed.
Print Assumptions C33_pmf_gradient.

(** ** C34 *)
Lemma np_log_pos : forall x, 0 < x -> np_log x = Ok (ln x).
Proof. intros. unfold np_log. destruct (Rlt_dec 0 x); [auto|lra]. Qed.

Definition xe (s x : R) : R := - (s * ln (safe_sigmoid x) + (1 - s) * ln (1 - safe_sigmoid x)).

Lemma xent_ok : forall s x, xent (s, safe_sigmoid x) = Ok (- xe s x).
Proof.
  intros. unfold xent, xe. cbn [fst snd]. pose proof (C38_probability x).
  rewrite !np_log_pos by lra. cbn [bind]. f_equal. ring.
Qed.

Lemma mapM_xent : forall sc (x : list R), length sc = length x ->
  mapM xent (combine sc (map safe_sigmoid x)) = Ok (map (fun sx => - xe (fst sx) (snd sx)) (combine sc x)).
Proof.
  induction sc; intros x H; destruct x; try discriminate; [reflexivity|].
  cbn [map combine mapM]. rewrite xent_ok. cbn [bind]. rewrite IHsc by (cbn in H; lia). reflexivity.
Qed.

Lemma lpmf_loss_ok : forall C nu ni k t uis sc, wf nu ni k t -> in_range nu ni uis -> length sc = length uis ->
  lpmf_loss C nu ni k (flatten t) (ev_of uis) sc =
  Ok (rsum (map (fun es => xe (snd es) (S_ k t (fst es))) (combine uis sc)) + 1 / 2 * C * reg t).
Proof.
  intros C nu ni k t uis sc Ht Hr Hl. unfold lpmf_loss.
  rewrite view_flatten by auto. cbn [bind]. rewrite pairs_ok. cbn [bind].
  rewrite (scores_ok nu ni k) by auto. cbn [bind].
  rewrite bcast_eq by (rewrite !map_length; auto). cbn [bind].
  rewrite mapM_xent by (rewrite map_length; auto). cbn [bind]. f_equal. f_equal.
  rewrite (weights_eq (fun a b => - xe a b)), rsum_opp. ring.
Qed.

Lemma lpmf_grad_ok : forall C nu ni k t uis sc, wf nu ni k t -> in_range nu ni uis -> length sc = length uis ->
  lpmf_grad C nu ni k (flatten t) (ev_of uis) sc =
  Ok (flatten (gpar C nu ni k t uis (map (fun es => safe_sigmoid (S_ k t (fst es)) - snd es) (combine uis sc)))).
Proof.
  intros C nu ni k t uis sc Ht Hr Hl. unfold lpmf_grad.
  rewrite view_flatten by auto. cbn [bind]. rewrite pairs_ok. cbn [bind].
  rewrite (scores_ok nu ni k) by auto. cbn [bind].
  rewrite bcast_eq by (rewrite !map_length; auto). cbn [bind].
  rewrite map_map, (weights_eq' (fun a b => b - a) (fun x => safe_sigmoid (S_ k t x))).
  apply mf_grad_ok; auto. rewrite map_length, combine_length. lia.
Qed.

(** derivative of the summand *)
Lemma expit_pos : forall x, 0 < expit x.
Proof. intros. unfold expit. pose proof (exp_pos (- x)). apply Rinv_0_lt_compat. lra. Qed.

Lemma expit_deriv : forall x, derivable_pt_lim expit x (expit x * (1 - expit x)).
Proof.
  intros x. unfold expit.
  pose proof (exp_pos (- x)) as Hp.
  assert (H1 : derivable_pt_lim (fun y => 1 + exp (- y)) x (- exp (- x))).
  { replace (- exp (- x)) with (0 + - exp (- x)) by ring.
    apply (derivable_pt_lim_plus (fun _ => 1) (fun y => exp (- y))).
    - apply derivable_pt_lim_const.
    - apply exp_neg_deriv. }
  replace (/ (1 + exp (- x)) * (1 - / (1 + exp (- x)))) with ((0 * (1 + exp (- x)) - - exp (- x) * 1) / Rsqr (1 + exp (- x))).
  - apply derivable_pt_lim_ext with (div_fct (fun _ => 1) (fun y => 1 + exp (- y))).
    { intros t. unfold div_fct. field. pose proof (exp_pos (- t)). lra. }
    apply (derivable_pt_lim_div (fun _ => 1) (fun y => 1 + exp (- y)) x 0 (- exp (- x)));
      [apply derivable_pt_lim_const | apply H1 | lra].
  - unfold Rsqr. field. lra.
Qed.

Lemma ln_expit_deriv : forall f f' x, derivable_pt_lim f x f' ->
  derivable_pt_lim (fun z => ln (expit (f z))) x ((1 - expit (f x)) * f').
Proof.
  intros f f' x H. pose proof (expit_pos (f x)).
  replace ((1 - expit (f x)) * f') with (/ expit (f x) * (expit (f x) * (1 - expit (f x)) * f')) by (field; lra).
  apply (derivable_pt_lim_comp (fun z => expit (f z)) ln).
  - apply (derivable_pt_lim_comp f expit); auto. apply expit_deriv.
  - apply derivable_pt_lim_ln. auto.
Qed.

Lemma ln_1_expit_deriv : forall f f' x, derivable_pt_lim f x f' ->
  derivable_pt_lim (fun z => ln (1 - expit (f z))) x (- expit (f x) * f').
Proof.
  intros f f' x H.
  apply derivable_pt_lim_ext with (fun z => ln (expit (- f z))).
  { intros t. rewrite expit_sym. auto. }
  replace (- expit (f x) * f') with ((1 - expit (- f x)) * - f').
  - apply (ln_expit_deriv (fun z => - f z)). apply derivable_pt_lim_opp; auto.
  - rewrite expit_sym. ring.
Qed.

Lemma safe_in : forall x, Rabs x < sig_dom -> safe_sigmoid x = expit x.
Proof. intros. rewrite C38_exact_inside by lra. reflexivity. Qed.

Lemma cont_near : forall f f' e, derivable_pt_lim f 0 f' -> 0 < e ->
  exists d, 0 < d /\ forall t, Rabs (t - 0) < d -> Rabs (f t - f 0) < e.
Proof.
  intros f f' e H He. pose proof (derivable_continuous_pt f 0 (exist _ f' H)) as Hc.
  unfold continuity_pt, continue_in, limit1_in, limit_in in Hc.
  destruct (Hc e He) as [d [Hd1 Hd2]]. exists d. split; [apply Hd1|].
  intros t Ht. destruct (Req_dec t 0) as [->|Hne].
  - replace (f 0 - f 0) with 0 by ring. rewrite Rabs_R0. auto.
  - apply (Hd2 t). split; [|apply Ht]. split; [exact I | auto].
Qed.

Lemma xe_deriv_in : forall s f f', Rabs (f 0) < sig_dom -> derivable_pt_lim f 0 f' ->
  derivable_pt_lim (fun z => xe s (f z)) 0 ((safe_sigmoid (f 0) - s) * f').
Proof.
  intros s f f' Hx Hf.
  destruct (cont_near f f' (sig_dom - Rabs (f 0)) Hf ltac:(lra)) as [d [Hd Hn]].
  apply (derivable_pt_lim_ext_near (fun z => - (s * ln (expit (f z)) + (1 - s) * ln (1 - expit (f z)))) _ 0 _ d Hd).
  { intros t Ht. specialize (Hn t Ht). unfold xe.
    rewrite safe_in; auto.
    pose proof (Rabs_triang (f t - f 0) (f 0)). replace (f t - f 0 + f 0) with (f t) in * by ring. lra. }
  rewrite safe_in by auto.
  replace ((expit (f 0) - s) * f') with (- (s * ((1 - expit (f 0)) * f') + (1 - s) * (- expit (f 0) * f'))) by ring.
  apply (derivable_pt_lim_opp (fun z => s * ln (expit (f z)) + (1 - s) * ln (1 - expit (f z)))).
  apply derivable_pt_lim_plus.
  - apply (deriv_scal (fun z => ln (expit (f z)))). apply ln_expit_deriv; auto.
  - apply (deriv_scal (fun z => ln (1 - expit (f z)))). apply ln_1_expit_deriv; auto.
Qed.

Lemma safe_clipped : forall x y, sig_dom <= x -> sig_dom <= y -> safe_sigmoid x = safe_sigmoid y.
Proof.
  intros. pose proof sig_dom_pos. unfold safe_sigmoid, np_clip. rewrite !Rmax_left, !Rmin_right; lra.
Qed.

Lemma xe_deriv_out : forall s f f', sig_dom < Rabs (f 0) -> derivable_pt_lim f 0 f' ->
  derivable_pt_lim (fun z => xe s (f z)) 0 0.
Proof.
  intros s f f' Hx Hf.
  destruct (cont_near f f' (Rabs (f 0) - sig_dom) Hf ltac:(lra)) as [d [Hd Hn]].
  apply (derivable_pt_lim_ext_near (fun _ => xe s (f 0)) _ 0 _ d Hd).
  - intros t Ht. specialize (Hn t Ht). unfold xe.
    assert (E : safe_sigmoid (f 0) = safe_sigmoid (f t)); [|rewrite E; reflexivity].
    apply Rabs_def2 in Hn. pose proof sig_dom_pos.
    destruct (Rle_lt_dec 0 (f 0)) as [Hp|Hp].
    + rewrite Rabs_right in * by lra. apply safe_clipped; lra.
    + rewrite Rabs_left in * by lra.
      rewrite <- (Ropp_involutive (f 0)), <- (Ropp_involutive (f t)).
      rewrite (C38_symmetric (- f 0)), (C38_symmetric (- f t)). f_equal. apply safe_clipped; lra.
  - apply derivable_pt_lim_const.
Qed.

(** raw scores of the events for a coefficient vector *)
Definition scores_at (nu ni k : nat) (c : list R) (uis : list (nat * nat)) : res (list R) :=
  do t <- view nu ni k c; scores t (zp uis).

(** The full statement of C34 (gradient at every coefficient vector) is
    refuted below.  Away from the kinks of the clipped sigmoid, the derivative
    of the loss is the inner product with grad_loss minus the contributions of
    the clipped events: there the loss is flat but grad_loss is not. *)
Theorem C34_clipping_gap_partial : forall C nu ni k c v uis sc x,
  length c = coef_size nu ni k -> length v = coef_size nu ni k ->
  in_range nu ni uis -> length sc = length uis ->
  scores_at nu ni k c uis = Ok x -> Forall (fun r => Rabs r <> sig_dom) x ->
  exists g f X d, lpmf_grad C nu ni k c (ev_of uis) sc = Ok g /\ length g = coef_size nu ni k /\
    (forall s, lpmf_loss C nu ni k (along c v s) (ev_of uis) sc = Ok (f s)) /\
    (forall s, scores_at nu ni k (along c v s) uis = Ok (X s)) /\ length d = length uis /\
    (forall j, (j < length uis)%nat -> derivable_pt_lim (fun s => nth j (X s) 0) 0 (nth j d 0)) /\
    derivable_pt_lim f 0
      (dotl g v - rsum (map (fun j => if Rlt_dec (Rabs (nth j x 0)) sig_dom then 0
                                      else (safe_sigmoid (nth j x 0) - nth j sc 0) * nth j d 0)
                            (seq 0 (length uis)))).
Proof.
  intros C nu ni k c v uis sc x Hc Hv Hr Hl Hx Hk.
  destruct (view_ok nu ni k c Hc) as [t [Et [Ht <-]]].
  destruct (view_ok nu ni k v Hv) as [w [Ew [Hw <-]]].
  pose proof (fun s => palong_wf nu ni k t w s Ht Hw) as Hp.
  unfold scores_at in Hx. rewrite Et in Hx. cbn [bind] in Hx. rewrite (scores_ok nu ni k) in Hx by auto.
  injection Hx as <-.
  set (w1 := map (fun es => safe_sigmoid (S_ k t (fst es)) - snd es) (combine uis sc)).
  set (ph := fun s r => if Rlt_dec (Rabs r) sig_dom then safe_sigmoid r - s else 0).
  set (w2 := map (fun es => ph (snd es) (S_ k t (fst es))) (combine uis sc)).
  exists (flatten (gpar C nu ni k t uis w1)).
  exists (fun z => rsum (map (fun es => xe (snd es) (S_ k (palong t w z) (fst es))) (combine uis sc)) +
              1 / 2 * C * reg (palong t w z)).
  exists (fun s => map (S_ k (palong t w s)) uis), (map (D_ k t w) uis).
  split; [|split; [|split; [|split; [|split; [|split]]]]].
  - apply lpmf_grad_ok; auto.
  - apply flatten_length, gpar_wf.
  - intros s. rewrite (along_flatten nu ni k) by auto. apply lpmf_loss_ok; auto.
  - intros s. unfold scores_at. rewrite (view_along nu ni k) by auto. cbn [bind]. apply (scores_ok nu ni k); auto.
  - apply map_length.
  - intros j Hj.
    apply derivable_pt_lim_ext with (fun s => S_ k (palong t w s) (nth j uis (0, 0)%nat)).
    { intros s. rewrite nth_indep with (d' := S_ k (palong t w s) (0, 0)%nat) by (rewrite map_length; auto).
      rewrite map_nth. auto. }
    rewrite nth_indep with (d' := D_ k t w (0, 0)%nat) by (rewrite map_length; auto). rewrite map_nth.
    apply (deriv_score nu ni); auto.
  - assert (L1 : length w1 = length uis) by (unfold w1; rewrite map_length, combine_length; lia).
    assert (L2 : length w2 = length uis) by (unfold w2; rewrite map_length, combine_length; lia).
    match goal with |- derivable_pt_lim _ _ (_ - ?S) =>
      assert (E : dotl (flatten (gpar C nu ni k t uis w1)) (flatten w) - S =
                  dotl (flatten (gpar C nu ni k t uis w2)) (flatten w)) end.
    { rewrite !(grad_dot C nu ni k) by auto.
      assert (Ecomb : forall (h : R -> R -> R),
        rsum (map (fun xw => snd xw * D_ k t w (fst xw))
          (combine uis (map (fun es => h (snd es) (S_ k t (fst es))) (combine uis sc)))) =
        rsum (map (fun j => h (nth j sc 0) (nth j (map (S_ k t) uis) 0) * nth j (map (D_ k t w) uis) 0) (seq 0 (length uis)))).
      { intros h. clear -Hl. revert sc Hl. induction uis; intros sc Hl; destruct sc; try discriminate; [reflexivity|].
        cbn [combine map length seq fst snd]. rewrite !rsum_cons. cbn [nth]. f_equal.
        rewrite <- seq_shift, map_map. cbn [nth]. apply IHuis. cbn in Hl; lia. }
      unfold w1, w2. rewrite (Ecomb (fun s r => safe_sigmoid r - s)), (Ecomb ph).
      match goal with |- ?A + ?B - ?D = ?E + ?B => assert (A - D = E); [|lra] end.
      rewrite <- rsum_minus. apply rsum_ext_in. intros j _. unfold ph.
      destruct (Rlt_dec (Rabs (nth j (map (S_ k t) uis) 0)) sig_dom); ring. }
    rewrite E. apply (deriv_loss xe ph); auto.
    intros e s Hin f f' Hf0 Hf. unfold ph. rewrite <- Hf0.
    destruct (Rlt_dec (Rabs (f 0)) sig_dom) as [Hlt|Hge].
    + apply xe_deriv_in; auto.
    + rewrite Rmult_0_l. apply xe_deriv_out with f'; auto.
      assert (Rabs (f 0) <> sig_dom); [|lra]. rewrite Hf0.
      rewrite Forall_forall in Hk. apply Hk. apply in_map. apply in_combine_l in Hin. auto.
Qed.

(** C34 where no event is clipped *)
Theorem C34_logistic_gradient_partial : forall C nu ni k c v uis sc x,
  length c = coef_size nu ni k -> length v = coef_size nu ni k ->
  in_range nu ni uis -> length sc = length uis ->
  scores_at nu ni k c uis = Ok x -> Forall (fun r => Rabs r < sig_dom) x ->
  exists g f, lpmf_grad C nu ni k c (ev_of uis) sc = Ok g /\ length g = coef_size nu ni k /\
    (forall s, lpmf_loss C nu ni k (along c v s) (ev_of uis) sc = Ok (f s)) /\
    derivable_pt_lim f 0 (dotl g v).
Proof.
  intros C nu ni k c v uis sc x Hc Hv Hr Hl Hx Hk.
  destruct (C34_clipping_gap_partial C nu ni k c v uis sc x Hc Hv Hr Hl Hx) as [g [f [X [d [H1 [H2 [H3 [H4 [H5 [H6 H7]]]]]]]]]].
  { eapply Forall_impl; [|apply Hk]. cbn. intros; lra. }
  exists g, f. repeat split; auto.
  rewrite rsum_zero in H7; [rewrite Rminus_0_r in H7; auto|].
  intros j Hj. apply in_seq in Hj.
  assert (Lx : length x = length uis).
  { unfold scores_at in Hx. destruct (view_ok nu ni k c Hc) as [t [Et [Ht _]]]. rewrite Et in Hx. cbn [bind] in Hx.
    rewrite (scores_ok nu ni k) in Hx by auto. injection Hx as <-. apply map_length. }
  destruct (Rlt_dec (Rabs (nth j x 0)) sig_dom) as [|n]; auto. exfalso. apply n.
  rewrite Forall_forall in Hk. apply Hk. apply nth_In. lia.
Qed.

Example C34_nonvacuous : in_range 1 1 [(0, 0)]%nat /\
  scores_at 1 1 1 [1; 2; 3; 4; 5] [(0, 0)]%nat = Ok [26] /\ Forall (fun r => Rabs r < sig_dom) [26].
Proof.
  split; [repeat constructor|]. split.
  - unfold scores_at. change (view 1 1 1 [1; 2; 3; 4; 5]) with (Ok (mkPar 1 [2] [3] [[4]] [[5]])). cbn [bind].
    rewrite (scores_ok 1 1 1); [|repeat split; repeat constructor | repeat constructor].
    unfold S_, at1, at2. cbn. f_equal. f_equal. lra.
  - constructor; [|constructor]. rewrite Rabs_right by lra. pose proof C38_nonvacuous. lra.
Qed.

(** at a clipped event the computed gradient is not the gradient: one event
    with score 0 and mu = 40 *)
Theorem C34_logistic_gradient_refuted : exists C nu ni k c v uis sc g f,
  length c = coef_size nu ni k /\ length v = coef_size nu ni k /\
  in_range nu ni uis /\ length sc = length uis /\ (forall s, In s sc -> s = 0 \/ s = 1) /\ 0 <= C /\
  lpmf_grad C nu ni k c (ev_of uis) sc = Ok g /\
  (forall s, lpmf_loss C nu ni k (along c v s) (ev_of uis) sc = Ok (f s)) /\
  derivable_pt_lim f 0 0 /\ 1 / 2 < dotl g v.
Proof.
  pose proof C38_nonvacuous as [S0 [_ [_ Hd]]].
  set (c := [40; 0; 0]). set (v := [1; 0; 0]).
  assert (Hx : scores_at 1 1 0 c [(0, 0)]%nat = Ok [40]).
  { unfold scores_at. change (view 1 1 0 c) with (Ok (mkPar 40 [0] [0] [[]] [[]])). cbn [bind].
    rewrite (scores_ok 1 1 0); [|repeat split; repeat constructor | repeat constructor].
    unfold S_, at1, at2. cbn. f_equal. f_equal. lra. }
  destruct (C34_clipping_gap_partial 1 1 1 0 c v [(0, 0)]%nat [0] [40]) as [g [f [X [d [H1 [H2 [H3 [H4 [H5 [H6 H7]]]]]]]]]];
    try reflexivity; auto.
  { repeat constructor. }
  { constructor; [|constructor]. rewrite Rabs_right by lra. lra. }
  assert (Ed : nth 0 d 0 = 1).
  { apply (uniqueness_limite (fun s => nth 0 (X s) 0) 0); [apply H6; cbn; lia|].
    apply derivable_pt_lim_ext with (fun s => 40 + s * 1).
    2:{ apply deriv_affine. }
    intros s. specialize (H4 s). unfold scores_at in H4.
    change (view 1 1 0 (along c v s)) with (Ok (mkPar (40 + s * 1) [0 + s * 0] [0 + s * 0] [[]] [[]])) in H4. cbn [bind] in H4.
    rewrite (scores_ok 1 1 0) in H4; [|repeat split; repeat constructor | repeat constructor].
    injection H4 as <-. unfold S_, at1, at2. cbn. lra. }
  assert (Eg : dotl g v = safe_sigmoid 40).
  { assert (Hg : lpmf_grad 1 1 1 0 (flatten (mkPar 40 [0] [0] [[]] [[]])) (ev_of [(0, 0)]%nat) [0] = Ok g) by exact H1.
    rewrite lpmf_grad_ok in Hg; [|repeat split; repeat constructor | repeat constructor | reflexivity].
    injection Hg as <-. unfold dotl, flatten, gpar, S_, at1, at2, wcount, rmul2. cbn.
    replace (40 + 0 + 0 + 0) with 40 by ring. ring. }
  assert (Hs : 1 / 2 < safe_sigmoid 40).
  { replace (1 / 2) with (safe_sigmoid 0) by lra.
    apply Rlt_le_trans with (safe_sigmoid 1); [apply C38_strict_inside; lra | apply C38_monotone; lra]. }
  exists 1, 1%nat, 1%nat, 0%nat, c, v, [(0, 0)]%nat, [0], g, f.
  split; [reflexivity|]. split; [reflexivity|]. split; [repeat constructor|]. split; [reflexivity|].
  split; [intros s [<-|[]]; auto|]. split; [lra|]. split; [exact H1|]. split; [exact H3|].
  split; [|lra].
  replace 0 with (dotl g v - rsum (map (fun j => if Rlt_dec (Rabs (nth j [40] 0)) sig_dom then 0
     else (safe_sigmoid (nth j [40] 0) - nth j [0] 0) * nth j d 0) (seq 0 (length [(0, 0)%nat])))) at 2; [exact H7|].
  cbn [length seq map nth]. rewrite rsum_cons, Ed, Eg.
  destruct (Rlt_dec (Rabs 40) sig_dom) as [Hb|_]; [rewrite Rabs_right in Hb; lra|]. cbn. lra.
Qed.
Print Assumptions C34_clipping_gap_partial.
Print Assumptions C34_logistic_gradient_partial.
Print Assumptions C34_logistic_gradient_refuted.
