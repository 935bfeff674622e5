(** * Score scale of PMF (C86): adding a constant to every score adds it to the
    global bias and to every prediction, and to nothing else *)
From Coq Require Import List ZArith QArith Qreals Reals Lra Lia Bool.
From Verif Require Import M_Py P_Py M_Data Spec P_Data P_Reach M_Score P_Score M_Rec P_Rec T_Rec.
From Verif Require Import M_Sigmoid P_RSum M_MF P_MF T_MF T_MF2 T_MFInit M_MFRec T_MFRec.
Import ListNotations.
Open Scope R_scope.

(** the coefficients with [a] added to the first entry, which is mu *)
Definition shift (a : R) (c : list R) : list R := match c with [] => [] | m :: l => (m + a) :: l end.

(** the result of a computation with [f] applied to its value *)
Definition rmap {A B} (f : A -> B) (x : res A) : res B := match x with Ok v => Ok (f v) | Raise e => Raise e end.

Definition tshift (a : R) (t : par) : par := mkPar (mu t + a) (bu t) (bi t) (pu t) (qi t).

Lemma view_shift : forall a nu ni k c, view nu ni k (shift a c) = rmap (tshift a) (view nu ni k c).
Proof.
  intros a nu ni k c. destruct c as [|m l]; [reflexivity|]. unfold view. cbn [shift length].
  destruct (Nat.eqb (S (length l)) (coef_size nu ni k)); [|reflexivity]. cbn [rmap]. unfold tshift. cbn [mu bu bi pu qi].
  reflexivity.
Qed.

Lemma bind_rmap : forall A B D (f : A -> B) (x : res A) (g : B -> res D), bind (rmap f x) g = bind x (fun v => g (f v)).
Proof. destruct x; reflexivity. Qed.
Lemma rmap_bind : forall A B D (f : B -> D) (x : res A) (g : A -> res B), rmap f (bind x g) = bind x (fun v => rmap f (g v)).
Proof. destruct x; reflexivity. Qed.
Lemma bind_ext : forall A B (x : res A) (f g : A -> res B), (forall v, x = Ok v -> f v = g v) -> bind x f = bind x g.
Proof. intros A B [v|e] f g H; cbn [bind]; auto. Qed.

Lemma mapM_rmap : forall A B D (h : B -> D) (f : A -> res B) l, mapM (fun x => rmap h (f x)) l = rmap (map h) (mapM f l).
Proof.
  induction l; [reflexivity|]. cbn [mapM]. destruct (f a); cbn [rmap bind]; [|reflexivity].
  rewrite IHl. destruct (mapM f l); reflexivity.
Qed.

Lemma score_shift : forall a t ui, pair_score (tshift a t) ui = rmap (fun y => y + a) (pair_score t ui).
Proof.
  intros a t ui. unfold pair_score, tshift. cbn [mu bu bi pu qi].
  rewrite !rmap_bind. apply bind_ext; intros. rewrite rmap_bind. apply bind_ext; intros.
  rewrite rmap_bind. apply bind_ext; intros. rewrite rmap_bind. apply bind_ext; intros.
  rewrite rmap_bind. apply bind_ext; intros. cbn [rmap]. f_equal. ring.
Qed.

Lemma scores_shift : forall a t uis, scores (tshift a t) uis = rmap (map (fun y => y + a)) (scores t uis).
Proof.
  intros. unfold scores. rewrite <- mapM_rmap. apply P_Py.mapM_ext. intros. apply score_shift.
Qed.

Lemma bcast_map : forall A B A' B' (f : A -> A') (g : B -> B') a b,
  bcast (map f a) (map g b) = rmap (map (fun x => (f (fst x), g (snd x)))) (bcast a b).
Proof.
  intros A B A' B' f g a b. unfold bcast. rewrite !map_length. destruct (Nat.eqb (length a) (length b)).
  - cbn [rmap]. f_equal. revert b. induction a as [|x a IH]; intros [|y b]; cbn; auto. f_equal. apply IH.
  - destruct a as [|x [|x' a]], b as [|y [|y' b]]; cbn [map rmap]; rewrite ?map_map; reflexivity.
Qed.

(** loss and gradient are unchanged, errors included *)
Theorem C86_objective : forall C nu ni k c ev sc a,
  pmf_loss C nu ni k (shift a c) ev (map (fun s => s + a) sc) = pmf_loss C nu ni k c ev sc /\
  pmf_grad C nu ni k (shift a c) ev (map (fun s => s + a) sc) = pmf_grad C nu ni k c ev sc.
Proof.
  intros C nu ni k c ev sc a. unfold pmf_loss, pmf_grad. rewrite view_shift, !bind_rmap.
  split; apply bind_ext; intros t _; apply bind_ext; intros uis _; rewrite scores_shift, bind_rmap; apply bind_ext; intros esc _;
    rewrite bcast_map, bind_rmap; apply bind_ext; intros se _.
  - f_equal. f_equal. f_equal. rewrite map_map. apply rsum_ext_in. intros [x y] _. cbn [fst snd]. ring.
  - rewrite map_map. rewrite (map_ext _ (fun x => - (fst x - snd x))) by (intros [x y]; cbn [fst snd]; ring).
    unfold mf_grad, tshift. cbn [bu bi pu qi]. reflexivity.
Qed.

Lemma np_get_map : forall A B (f : A -> B) l i, np_get (map f l) i = rmap f (np_get l i).
Proof.
  intros A B f l i. unfold np_get. rewrite map_length. destruct (np_norm (length l) i); [|reflexivity].
  rewrite nth_error_map. destruct (nth_error l n); reflexivity.
Qed.
Lemma np_take_map : forall A B (f : A -> B) l ix, np_take (map f l) ix = rmap (map f) (np_take l ix).
Proof. intros. unfold np_take. rewrite <- mapM_rmap. apply P_Py.mapM_ext. intros. apply np_get_map. Qed.

Lemma sum_shift : forall a l, rsum (map (fun s => s + a) l) = rsum l + a * INR (length l).
Proof.
  intros a l. rewrite (rsum_plus (fun s => s) (fun _ => a)), map_id, rsum_const. reflexivity.
Qed.

Lemma init_bu_shift : forall a m us sc nu, init_bu (m + a) us (map (fun s => s + a) sc) nu = init_bu m us sc nu.
Proof.
  intros. unfold init_bu. apply P_Py.mapM_ext. intros i _. destruct (positions us i); [reflexivity|].
  rewrite np_take_map, bind_rmap. apply bind_ext. intros v _. rewrite map_map. f_equal. f_equal.
  apply rsum_ext_in. intros. ring.
Qed.

Lemma init_bi_shift : forall a m b us is sc ni, init_bi (m + a) b us is (map (fun s => s + a) sc) ni = init_bi m b us is sc ni.
Proof.
  intros. unfold init_bi. apply P_Py.mapM_ext. intros i _. destruct (positions is i); [reflexivity|].
  rewrite np_take_map, bind_rmap. apply bind_ext. intros v _. apply bind_ext. intros u _. apply bind_ext. intros bs _.
  rewrite combine_map_l, map_map. f_equal. f_equal. apply rsum_ext_in. intros [x y] _. cbn [fst snd]. ring.
Qed.

Lemma residual_shift : forall a m b c uis sc, residual_var (m + a) b c uis (map (fun s => s + a) sc) = residual_var m b c uis sc.
Proof.
  intros. unfold residual_var. f_equal. apply P_Py.mapM_ext. intros i _. rewrite np_get_map, bind_rmap.
  apply bind_ext. intros x _. apply bind_ext. intros ui _. apply bind_ext. intros bx _. apply bind_ext. intros cx _.
  f_equal. ring.
Qed.

Lemma pairs_len : forall ev uis, pairs ev = Ok uis -> length uis = length ev.
Proof. intros ev uis H. apply P_Py.mapM_length in H. auto. Qed.

(** the same draws start from the shifted point: the residuals, hence the
    standard deviation asked from the generator, do not change *)
Theorem C86_start : forall nu ni k ev sc draw1 draw2 a, length sc = length ev ->
  pmf_init nu ni k ev (map (fun s => s + a) sc) draw1 draw2 = rmap (shift a) (pmf_init nu ni k ev sc draw1 draw2).
Proof.
  intros nu ni k ev sc draw1 draw2 a Hl. unfold pmf_init. rewrite rmap_bind. apply bind_ext. intros uis Eu.
  apply pairs_len in Eu. destruct (Nat.eqb_spec (length uis) 0) as [|Hn]; [reflexivity|].
  rewrite sum_shift. replace (length sc) with (length uis) by congruence.
  replace ((rsum sc + a * INR (length uis)) / INR (length uis)) with (rsum sc / INR (length uis) + a)
    by (field; apply not_0_INR; auto).
  rewrite init_bu_shift, !rmap_bind. apply bind_ext. intros b _. rewrite init_bi_shift, !rmap_bind. apply bind_ext. intros c _.
  rewrite residual_shift, !rmap_bind. apply bind_ext. intros v _.
  rewrite !rmap_bind. apply bind_ext. intros m1 _. rewrite !rmap_bind. apply bind_ext. intros p _.
  rewrite !rmap_bind. apply bind_ext. intros m2 _. rewrite !rmap_bind. apply bind_ext. intros q _. reflexivity.
Qed.

Lemma learned_shift : forall nu ni k x a, length x = coef_size nu ni k ->
  learned nu ni k (shift a x) = rmap (tshift a) (learned nu ni k x).
Proof.
  intros nu ni k x a Hx. unfold learned. rewrite !assign_eq by (auto; destruct x; auto). cbn [bind].
  rewrite view_shift, bind_rmap, rmap_bind. apply bind_ext. intros. reflexivity.
Qed.

(** predictions, for known and unknown users and items, move by the constant *)
Theorem C86_predictions : forall nu ni k x a t, length x = coef_size nu ni k -> learned nu ni k x = Ok t ->
  exists t', learned nu ni k (shift a x) = Ok t' /\
  forall ev, pmf_raw_predict t' ev = rmap (map (fun y => y + a)) (pmf_raw_predict t ev).
Proof.
  intros nu ni k x a t Hx E. exists (tshift a t). split; [rewrite learned_shift, E; auto|].
  intros ev. unfold pmf_raw_predict. rewrite rmap_bind. apply bind_ext. intros uis _. apply scores_shift.
Qed.

(** ** The whole fit *)

(** an optimiser that has no preferred origin for the first coordinate: moving
    the problem and the starting point moves the answer.  Gradient methods
    are of this kind, see [descent_translates] *)
Definition translates (a : R) (min : minimizer) : Prop :=
  forall l g l' g' x, (forall c, l' (shift a c) = l c) -> (forall c, g' (shift a c) = g c) ->
  min l' g' (shift a x) = rmap (shift a) (min l g x).

(** the optimiser returns vectors of the length it is given *)
Definition keeps_length (min : minimizer) : Prop :=
  forall l g x y, min l g x = Ok y -> length y = length x.

Definition pshift (a : R) (y : pred R) : pred R :=
  match y with Scalar v => Scalar (v + a) | Vector l => Vector (map (fun v => v + a) l) end.

Lemma squeeze_shift : forall a l, squeeze (map (fun v => v + a) l) = pshift a (squeeze l).
Proof. intros a [|v [|w l]]; reflexivity. Qed.

Lemma view_len : forall nu ni k c t, view nu ni k c = Ok t -> length c = coef_size nu ni k.
Proof. intros nu ni k c t H. unfold view in H. destruct (Nat.eqb_spec (length c) (coef_size nu ni k)); [auto|discriminate]. Qed.

Lemma optimise_shift : forall C nu ni k ev sc draw1 draw2 min a, translates a min -> keeps_length min -> length sc = length ev ->
  optimise nu ni k (fun c => pmf_loss C nu ni k c ev (map (fun s => s + a) sc)) (fun c => pmf_grad C nu ni k c ev (map (fun s => s + a) sc))
    min (pmf_init nu ni k ev (map (fun s => s + a) sc) draw1 draw2) =
  rmap (tshift a) (optimise nu ni k (fun c => pmf_loss C nu ni k c ev sc) (fun c => pmf_grad C nu ni k c ev sc)
    min (pmf_init nu ni k ev sc draw1 draw2)).
Proof.
  intros C nu ni k ev sc draw1 draw2 min a Hm Hk Hl. unfold optimise. rewrite C86_start by auto.
  rewrite bind_rmap, rmap_bind. apply bind_ext. intros x0 _. rewrite (proj1 (C86_objective C nu ni k x0 ev sc a)).
  rewrite rmap_bind. apply bind_ext. intros l El.
  rewrite (Hm (fun c => pmf_loss C nu ni k c ev sc) (fun c => pmf_grad C nu ni k c ev sc))
    by (intros; apply C86_objective).
  rewrite bind_rmap, rmap_bind. apply bind_ext. intros x Ex. apply Hk in Ex. apply learned_shift. rewrite Ex.
  unfold pmf_loss in El. apply bind_ok in El. destruct El as [t [Ev _]]. eapply view_len; eauto.
Qed.

(** fitting a container whose scores are all larger by [q] ends in the same
    way, and every query is answered as before with [q] added *)
Theorem C86_fit : forall F G C k draw1 draw2 min junk (r : rec G par) (s s' : sdata F G) ix ev sc q,
  translates (Q2R q) min -> keeps_length min ->
  event (s_data s) = Some ev -> score s = Some sc -> length sc = length ev ->
  s_data s' = s_data s -> score s' = Some (map (fun x => x + q)%Q sc) ->
  let fit1 := pmf_fit C k draw1 draw2 min junk r s ix in
  let fit2 := pmf_fit C k draw1 draw2 min junk r s' ix in
  snd fit2 = snd fit1 /\
  (snd fit1 = None -> forall query, predict pmf_raw_predict (fst fit2) query =
    rmap (pshift (Q2R q)) (predict pmf_raw_predict (fst fit1) query)).
Proof.
  intros F G C k draw1 draw2 min junk r s s' ix ev sc q Hm Hk He Hs Hl Hd Hs' fit1 fit2.
  unfold fit1, fit2, pmf_fit, model_fit, score_fit. rewrite Hd.
  destruct (base_fit r (s_data s) ix) as [r1 [e|]] eqn:B; [split; [reflexivity|discriminate]|].
  assert (L : forall ev', r_event r1 = Some ev' -> length sc = length ev').
  { intros ev' E'. unfold base_fit in B. rewrite He in B. destruct (mapM _ ev) as [ev''|e] eqn:M; [|discriminate].
    destruct (np_take (o_n (d_objs (s_data s))) _) as [n1|e]; [|discriminate]. destruct (np_take n1 _) as [n2|e]; [|discriminate].
    injection B as <-. assert (ev'' = ev') by (cbn in E'; congruence). subst.
    apply P_Py.mapM_length in M. congruence. }
  unfold pmf_train. cbn [set_score_info r_event r_objs r_score]. rewrite Hs, Hs'.
  destruct (r_event r1) as [ev'|]; [|split; [reflexivity|discriminate]]. specialize (L _ eq_refl).
  destruct (r_objs r1) as [o|]; [|split; [reflexivity|discriminate]].
  destruct (o_n o) as [|nu [|ni ns]]; try (split; [reflexivity|discriminate]).
  rewrite map_map. rewrite (map_ext (fun x => Q2R (x + q)) (fun x => Q2R x + Q2R q)) by (intros; apply Q2R_plus).
  rewrite <- (map_map Q2R (fun x => x + Q2R q)).
  rewrite optimise_shift by (auto; rewrite map_length; auto).
  destruct (optimise _ _ _ _ _ _ _) as [t|e]; cbn [rmap finish]; [|split; [reflexivity|discriminate]].
  split; [reflexivity|]. intros _ query. cbn [fst]. unfold predict, remove_data, set_par. cbn [r_index r_objs r_otypes r_par].
  rewrite rmap_bind. apply bind_ext. intros rows _.
  destruct (r_index _) as [jx|]; [|reflexivity]. destruct (r_objs _) as [o'|]; [|reflexivity]. destruct (r_otypes _) as [ot|]; [|reflexivity].
  rewrite rmap_bind. apply bind_ext. intros sel _. rewrite rmap_bind. apply bind_ext. intros iev _.
  destruct iev as [v|c irows|]; try reflexivity.
  assert (E : pmf_raw_predict (tshift (Q2R q) t) irows = rmap (map (fun y => y + Q2R q)) (pmf_raw_predict t irows)).
  { unfold pmf_raw_predict. rewrite rmap_bind. apply bind_ext. intros. apply scores_shift. }
  rewrite E, bind_rmap, rmap_bind. apply bind_ext. intros v _. cbn [rmap]. f_equal. apply squeeze_shift.
Qed.

(** ** The hypotheses can be met: [n] steps of gradient descent, ending early
    when there is no gradient *)
Fixpoint descent (eta : R) (n : nat) : minimizer := fun l g x =>
  match n with
  | O => Ok x
  | S n => match g x with
           | Ok d => if Nat.eqb (length d) (length x) then descent eta n l g (along x d (- eta)) else Ok x
           | Raise _ => Ok x
           end
  end.

Lemma along_shift : forall a x d s, length d = length x -> along (shift a x) d s = shift a (along x d s).
Proof. intros a [|x0 x] [|d0 d] s H; try discriminate; auto. unfold along. cbn [shift combine map fst snd]. f_equal. ring. Qed.

Lemma shift_length : forall a x, length (shift a x) = length x.
Proof. intros a [|]; reflexivity. Qed.

Lemma descent_translates : forall eta n a, translates a (descent eta n).
Proof.
  intros eta n a. induction n as [|n IH]; intros l g l' g' x Hl Hg; [reflexivity|]. cbn [descent].
  rewrite Hg. destruct (g x) as [d|e]; [|reflexivity]. rewrite shift_length.
  destruct (Nat.eqb_spec (length d) (length x)); [|reflexivity]. rewrite along_shift by auto. apply IH; auto.
Qed.

Lemma descent_total : forall eta n, length_preserving (descent eta n).
Proof.
  intros eta n. induction n as [|n IH]; intros l g x; cbn [descent]; [eauto|].
  destruct (g x) as [d|e]; [|eauto]. destruct (Nat.eqb_spec (length d) (length x)) as [Hd|]; [|eauto].
  destruct (IH l g (along x d (- eta))) as [y [Ey Hy]]. exists y. split; auto. rewrite Hy. apply P_MF.along_length. auto.
Qed.

Lemma total_keeps : forall min, length_preserving min -> keeps_length min.
Proof. intros min H l g x y E. destruct (H l g x) as [z [Ez Hz]]. congruence. Qed.

(** the scores 1, 0, 0, 1 moved to 3, 2, 2, 3 *)
Example C86_nonvacuous : let min := descent (1 / 10) 5 in
  let s' := mkSData (s_data bx) (score_domain bx) (Some [3; 2; 2; 3]%Q) (n_score_levels bx) in
  exists ev, translates (Q2R 2) min /\ keeps_length min /\
  event (s_data bx) = Some ev /\ score bx = Some [1; 0; 0; 1]%Q /\ length [1; 0; 0; 1]%Q = length ev /\
  s_data s' = s_data bx /\ score s' = Some (map (fun x => x + 2)%Q [1; 0; 0; 1]%Q) /\
  snd (pmf_fit 1 3 (fun _ => fixed_draw 3) (fun _ => fixed_draw 3) min None new_rec bx None) = None.
Proof.
  intros min s'. destruct (event (s_data bx)) as [ev|] eqn:E; [|discriminate]. exists ev.
  split; [apply descent_translates|]. split; [apply total_keeps, descent_total|]. split; auto. split; [reflexivity|].
  split; [injection E as <-; reflexivity|]. split; [reflexivity|]. split; [reflexivity|].
  destruct C25_fit_nonvacuous as [U [_ _]].
  destruct (C25_pmf_fit_succeeds nat nat 1 3 (fun _ => fixed_draw 3) (fun _ => fixed_draw 3) min None new_rec bx None [1; 0; 0; 1]%Q)
    as [r1 H1]; auto using fixed_draw_ok; [discriminate|lra|apply descent_total]. 
Qed.
Print Assumptions C86_objective.
Print Assumptions C86_start.
Print Assumptions C86_predictions.
Print Assumptions C86_fit.
