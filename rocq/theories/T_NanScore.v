(** * NaN and infinite scores (C125-C128) *)
From Coq Require Import String List ZArith NArith QArith Reals Lia Lra Floats.SpecFloat Bool.
From Verif Require Import M_Py P_Py P_Convert M_Data P_Data Spec P_Reach M_Score M_Load M_Convert M_Text T_Text M_Float M_FloatBins M_FloatOps T_FloatBins M_NanScore M_Rec M_PLSA M_MF P_MF M_FloatTopic M_FloatMF.
Import ListNotations.
Notation length := List.length.
Open Scope list_scope.
Open Scope Z_scope.

(** ** C125: what becomes of malformed scores *)

(** [f] are the fields of a line: identifiers that are integers, the text of
    the score, event features and perhaps more *)
Definition line_of {G} (int_of : text -> res Z) (float_of : text -> res f64) (feature_of : list text -> G) (m : nat) (f : list text) (r : xrow G) : Prop :=
  exists ids sc g rest, f = ids ++ sc :: g ++ rest /\ length g = m /\
    Forall2 (fun x z => int_of x = Ok z) ids (x_ids r) /\ x_feat r = feature_of g /\
    (float_of sc = Ok (x_sc r) \/ (exists e, float_of sc = Raise e) /\ x_sc r = S754_nan).

Lemma line_row : forall G int_of float_of (feature_of : list text -> G) s m f r, line_of int_of float_of feature_of m f r -> length (x_ids r) = s ->
  x_row int_of float_of feature_of s (firstn (s + 1 + m) f) = Ok r.
Proof.
  intros G int_of float_of feature_of s m f r [ids [sc [g [rest [-> [Lg [H1 [H3 H2]]]]]]]] L.
  pose proof (Forall2_len _ _ _ _ _ H1) as Li. unfold x_row.
  assert (firstn (s + 1 + m) (ids ++ sc :: g ++ rest) = ids ++ sc :: g) as ->.
  { replace (s + 1 + m)%nat with (length (ids ++ sc :: g)) by (rewrite app_length; cbn; lia).
    change (sc :: g ++ rest) with ((sc :: g) ++ rest). rewrite app_assoc, firstn_app, firstn_all, Nat.sub_diag. cbn. apply app_nil_r. }
  replace s with (length ids) by lia. rewrite skipn_app, firstn_app, skipn_all, firstn_all, Nat.sub_diag. cbn [skipn firstn app].
  rewrite app_nil_r, (int_fields _ _ _ H1), <- H3. unfold float_field. f_equal.
  assert (match float_of sc with Ok x => x | Raise _ => S754_nan end = x_sc r) as ->; [|destruct r; auto].
  destruct H2 as [H2|[[e H2] H4]]; rewrite H2; auto.
Qed.

(** with a given domain a file with scores that are no numbers is read like
    any other: the events are those of the file without its scores, and each
    malformed or missing score is NaN *)
Theorem C125_loaded : forall F G int_of float_of (feature_of : list text -> G) one lines rows (rs : list (xrow G)) n ncol ot d lv m,
  file_of lines rows -> Forall (fun f => length f = ncol) rows -> Forall2 (line_of int_of float_of feature_of m) rows rs ->
  Forall (fun r => length (x_ids r) = s_events n ot) rs -> f64_levels (xlo d) (xhi d) (xst d) = Ok lv ->
  x_load_file (F := F) int_of float_of feature_of one lines n ot (Some d) m =
  match load_event (map (fun r => mkRow (x_ids r) 0%Q (x_feat r)) rs) n ot (negb (Nat.eqb m 0)) with
  | Ok dt => Ok (mkXData dt (Some d) (Some (map x_sc rs)) (Some lv))
  | Raise e => Raise e
  end.
Proof.
  intros F G int_of float_of feature_of one lines rows rs n ncol ot d lv m H HL HS HW HV. unfold x_load_file.
  set (s := s_events n ot) in *.
  assert (Hn : rows = [] \/ (s + 1 + m <= ncol)%nat).
  { inversion HS as [|f r fs rs' Hf _]; subst; auto. right. inversion HL as [|? ? L _]; subst. inversion HW as [|? ? W _]; subst.
    destruct Hf as [ids [sc [g [rest [-> [Lg [H1 _]]]]]]]. rewrite app_length. cbn. rewrite app_length. rewrite (Forall2_len _ _ _ _ _ H1). lia. }
  assert (R : read_rows (s + 1 + m) lines = Ok (map (firstn (s + 1 + m)) rows)).
  { destruct Hn as [->|Hn]; [|apply (C84_rows lines rows ncol); auto].
    apply (C84_rows lines [] (s + 1 + m)%nat); auto. }
  rewrite R. cbn [bind].
  assert (A : mapM (x_row int_of float_of feature_of s) (map (firstn (s + 1 + m)) rows) = Ok rs).
  { clear - HS HW. induction HS as [|f r fs rs Hf _ IH]; auto. inversion HW; subst. cbn [map mapM].
    rewrite (line_row G int_of float_of feature_of s m f r); auto. cbn [bind]. rewrite IH; auto. }
  rewrite A. cbn [bind]. unfold x_load, x_init, load_event. destruct (init n ot) as [d0|e] eqn:Ei; cbn [bind]; [|reflexivity].
  fold s. change id_row with (fun r : xrow G => mkRow (x_ids r) 0%Q (x_feat r)).
  set (q := map (fun r => mkRow (x_ids r) 0%Q (x_feat r)) rs).
  assert (X : many (field r_feat q) = map x_feat rs).
  { assert (X : forall l : list (frow G), many (field r_feat l) = map r_feat l) by (intros [|a [|b l]]; reflexivity).
    rewrite X. unfold q. rewrite map_map. reflexivity. }
  rewrite X. unfold x_set_event. cbn [x_data].
  assert (Hq : nd_ok (event_field s q)).
  { unfold event_field, field. assert (Hl : Forall (fun r => length r = s) (map (fun r => map IdInt (r_ids r)) q)).
    { unfold q. rewrite map_map. apply Forall_forall. intros y Hy. apply in_map_iff in Hy. destruct Hy as [r [<- Hr]]. cbn [r_ids].
      rewrite map_length. rewrite Forall_forall in HW. auto. }
    destruct q as [|a [|b q']]; destruct (Nat.eqb s 1); cbn; auto. }
  rewrite set_event_imp_ok by (auto; apply reachable_inv; eapply r_init; eauto).
  destruct (set_event d0 _ _) as [d1|e]; [|reflexivity]. rewrite HV. reflexivity.
Qed.

(** ** C126: estimating the domain *)
Lemma min_nan : forall l a, f64_isnan a = true \/ In S754_nan l -> f64_isnan (fold_left f64_min2 l a) = true.
Proof.
  induction l as [|x l IH]; intros a H; cbn [fold_left]; [destruct H as [H|[]]; auto|].
  apply IH. unfold f64_min2. destruct H as [H|[->|H]]; [|left; destruct (f64_isnan a) eqn:E; auto|auto]. rewrite H. auto.
Qed.

Lemma max_nan : forall l a, f64_isnan a = true \/ In S754_nan l -> f64_isnan (fold_left f64_max2 l a) = true.
Proof.
  induction l as [|x l IH]; intros a H; cbn [fold_left]; [destruct H as [H|[]]; auto|].
  apply IH. unfold f64_max2. destruct H as [H|[->|H]]; [|left; destruct (f64_isnan a) eqn:E; auto|auto]. rewrite H. auto.
Qed.

Lemma isnan_eq : forall x, f64_isnan x = true -> x = S754_nan.
Proof. destruct x; cbn; congruence. Qed.

Lemma infer_nan : forall one sc, In S754_nan sc ->
  match f64_infer one sc with Ok d => f64_levels (xlo d) (xhi d) (xst d) = Raise ValueError | Raise e => e = ValueError end.
Proof.
  intros one sc H. unfold f64_infer. destruct sc as [|x sc]; [destruct H|]. cbn [f64_min f64_max bind].
  assert (H' : f64_isnan x = true \/ In S754_nan sc) by (destruct H as [->|H]; auto).
  rewrite (isnan_eq _ (min_nan _ _ H')). rewrite (isnan_eq _ (max_nan _ _ H')).
  destruct (f64_min (f64_diff _)) as [s|e] eqn:E; cbn [bind].
  - reflexivity.
  - unfold f64_min in E. destruct (f64_diff _); congruence.
Qed.

Lemma max_inf : forall l a, f64_isnan a = false -> Forall (fun x => f64_isnan x = false) l ->
  a = S754_infinity false \/ In (S754_infinity false) l -> fold_left f64_max2 l a = S754_infinity false.
Proof.
  induction l as [|x l IH]; intros a Ha Hl H; cbn [fold_left]; [destruct H as [H|[]]; auto|].
  inversion Hl as [|? ? Hx Hl']; subst. apply IH; auto; unfold f64_max2; rewrite Ha, Hx.
  - destruct (SFleb a x); auto.
  - destruct H as [->|[ -> |H]]; [|left|auto].
    + left. destruct x as [[]|[]| |[] m e]; cbn; auto; discriminate.
    + destruct a as [[]|[]| |[] m e]; cbn; auto; discriminate.
Qed.

Lemma min_inf : forall l a, f64_isnan a = false -> Forall (fun x => f64_isnan x = false) l ->
  a = S754_infinity true \/ In (S754_infinity true) l -> fold_left f64_min2 l a = S754_infinity true.
Proof.
  induction l as [|x l IH]; intros a Ha Hl H; cbn [fold_left]; [destruct H as [H|[]]; auto|].
  inversion Hl as [|? ? Hx Hl']; subst. apply IH; auto; unfold f64_min2; rewrite Ha, Hx.
  - destruct (SFleb a x); auto.
  - destruct H as [->|[ -> |H]]; [|left|auto].
    + left. destruct x as [[]|[]| |[] m e]; cbn; auto; discriminate.
    + destruct a as [[]|[]| |[] m e]; cbn; auto; discriminate.
Qed.

Lemma levels_inf : forall a b s, a = S754_infinity true \/ b = S754_infinity false -> exists e, f64_levels a b s = Raise e.
Proof.
  intros a b s H. assert (K : exists sg, f64_sub b a = S754_infinity sg \/ f64_sub b a = S754_nan).
  { destruct H as [-> | -> ]; [destruct b as [[]|[]| |[] m e]|destruct a as [[]|[]| |[] m e]]; cbn; first [exists true; auto; fail|exists false; auto; fail|exists true; auto]. }
  unfold f64_levels. destruct K as [sg [->| ->]]; destruct s as [[]|[]| |[] m e]; destruct sg; cbn; eauto.
Qed.

(** without a domain, set_event refuses NaN and infinite scores *)
Theorem C126_nan : forall F G one (s : xdata F G) ev sc ef, snd (set_event_imp (x_data s) ev ef) = None ->
  In S754_nan sc -> snd (x_set_event one s ev sc None ef) = Some ValueError.
Proof.
  intros F G one s ev sc ef H Hn. unfold x_set_event. destruct (set_event_imp (x_data s) ev ef) as [d1 o]. cbn [snd] in H. subst o.
  pose proof (infer_nan one sc Hn) as K. destruct (f64_infer one sc) as [d|e]; [rewrite K|subst e]; reflexivity.
Qed.

Theorem C126_infinite : forall F G one (s : xdata F G) ev sc ef, snd (set_event_imp (x_data s) ev ef) = None ->
  (exists sg, In (S754_infinity sg) sc) -> exists e, snd (x_set_event one s ev sc None ef) = Some e.
Proof.
  intros F G one s ev sc ef H [sg Hn].
  destruct (existsb f64_isnan sc) eqn:En.
  { apply existsb_exists in En. destruct En as [x [Hx Ex]]. apply isnan_eq in Ex. subst x. exists ValueError. apply C126_nan; auto. }
  assert (NN : Forall (fun x => f64_isnan x = false) sc).
  { apply Forall_forall. intros x Hx. destruct (f64_isnan x) eqn:E; auto. exfalso. rewrite <- Bool.not_true_iff_false in En. apply En, existsb_exists. eauto. }
  unfold x_set_event. destruct (set_event_imp (x_data s) ev ef) as [d1 o]. cbn [snd] in H. subst o.
  destruct (f64_infer one sc) as [d|e] eqn:E; [|exists e; reflexivity].
  assert (K : exists e, f64_levels (xlo d) (xhi d) (xst d) = Raise e).
  { apply levels_inf. unfold f64_infer in E. destruct sc as [|x sc]; [destruct Hn|]. cbn [f64_min f64_max bind] in E.
    inversion NN as [|? ? Hx NN']; subst.
    destruct (f64_min (f64_diff _)) as [t|]; cbn [bind] in E; [|discriminate]. apply ok_inj in E. subst d. cbn [xlo xhi].
    destruct sg; [left; apply min_inf|right; apply max_inf]; auto; destruct Hn; auto. }
  destruct K as [e ->]. exists e. reflexivity.
Qed.

(** ** C127: digitising *)
Lemma right_nan : forall l, right_of S754_nan l = length l.
Proof.
  induction l as [|b l IH]; auto. cbn [right_of length]. assert (np_lt64 S754_nan b = false) as ->; [|congruence].
  unfold np_lt64. rewrite andb_false_r. destruct b; reflexivity.
Qed.

Lemma right_inf : forall l, Forall (fun x => f64_isnan x = false) l -> right_of (S754_infinity false) l = length l.
Proof.
  induction l as [|b l IH]; intros H; auto. inversion H; subst. cbn [right_of length]. rewrite IH by auto.
  destruct b as [[]|[]| |[] m e]; cbn; auto; discriminate.
Qed.

Lemma right_first : forall x l, right_of x (S754_infinity true :: l) = S (right_of x l).
Proof. intros. cbn [right_of]. destruct x as [[]|[]| |[] m e]; reflexivity. Qed.

Lemma right_last : forall x l, f64_isnan x = false -> x <> S754_infinity false -> (right_of x (l ++ [S754_infinity false]) <= length l)%nat.
Proof.
  induction l as [|b l IH]; intros H1 H2; cbn [app right_of length].
  - assert (np_lt64 x (S754_infinity false) = true) as ->; auto. destruct x as [[]|[]| |[] m e]; cbn in *; congruence.
  - destruct (np_lt64 x b); [lia|]. specialize (IH H1 H2). lia.
Qed.

Lemma increasing_no_nan : forall a b l, f64_increasing (a :: b :: l) = true -> Forall (fun x => f64_isnan x = false) (a :: b :: l).
Proof.
  intros a b l; revert a b. induction l as [|c l IH]; intros a b H.
  - cbn in H. rewrite andb_true_r in H. constructor; [|constructor; auto]; destruct a as [[]|[]| |[] ma ea], b as [[]|[]| |[] mb eb]; cbn in *; congruence.
  - cbn [f64_increasing] in H. apply andb_prop in H. destruct H as [H1 H2]. constructor; [|apply IH; auto].
    destruct a; cbn in *; congruence.
Qed.

Lemma bins_shape : forall a b s bins, f64_bins a b s = Ok bins -> exists l, bins = S754_infinity true :: l ++ [S754_infinity false].
Proof. intros a b s bins H. unfold f64_bins in H. destruct (f64_arange a b s); cbn [bind] in H; [|discriminate]. apply ok_inj in H. subst. eauto. Qed.

(** a NaN or an infinite score gets the first number that is no class *)
Theorem C127_classes : forall d sc ys c, x_digitize d sc = Ok ys -> f64_classes (xlo d) (xhi d) (xst d) = Ok c ->
  Forall2 (fun x y => (x = S754_nan \/ x = S754_infinity false -> y = c) /\ (x <> S754_nan -> x <> S754_infinity false -> 0 <= y < c)) sc ys.
Proof.
  intros d sc ys c H Hc. unfold x_digitize, f64_classes in *. destruct (f64_bins _ _ _) as [bins|] eqn:Eb; cbn [bind] in *; [|discriminate].
  apply ok_inj in Hc. subst c. apply bins_shape in Eb. destruct Eb as [l ->].
  apply P_Py.mapM_ok in H. induction H as [|x y sc ys Hx _ IH]; constructor; auto. clear IH.
  destruct (f64_increasing _) eqn:Ei; [|discriminate]. apply ok_inj in Hx. subst y. cbn [length]. rewrite app_length. cbn [length].
  rewrite right_first. split.
  - intros [->| ->].
    + rewrite right_nan, app_length. cbn [length]. lia.
    + rewrite right_inf; [rewrite app_length; cbn [length]; lia|].
      assert (K : exists b m, l ++ [S754_infinity false] = b :: m) by (destruct l; cbn; eauto). destruct K as [b [m K]]. rewrite K in *.
      apply increasing_no_nan in Ei. inversion Ei; auto.
  - intros N1 N2. assert (f64_isnan x = false) by (destruct x; cbn; congruence).
    pose proof (right_last x l H N2). lia.
Qed.

Lemma levels_le_classes : forall a b s m c, f64_levels a b s = Ok m -> f64_classes a b s = Ok c -> m <= c.
Proof. intros a b s m c H1 H2. destruct (C79_at_most_one_more _ _ _ _ _ H1 H2) as [A B]. lia. Qed.

(** on scores other than NaN this is the function of M_FloatBins *)
Theorem C127_numbers : forall d x, f64_isnan x = false -> x_digitize d [x] = do y <- f64_digitize (xlo d) (xhi d) (xst d) x; Ok [y].
Proof.
  intros d x Hx. unfold x_digitize, f64_digitize. destruct (f64_bins _ _ _) as [bins|e] eqn:Eb; cbn [bind]; [|reflexivity].
  apply bins_shape in Eb. destruct Eb as [l ->]. cbn [mapM].
  destruct (f64_increasing _) eqn:Ei; cbn [bind]; [|reflexivity].
  assert (K : exists b m, l ++ [S754_infinity false] = b :: m) by (destruct l; cbn; eauto). destruct K as [b [m K]]. rewrite K in *.
  apply increasing_no_nan in Ei. do 4 f_equal. clear K l.
  assert (Hall : forall zs : list f64, Forall (fun z => f64_isnan z = false) zs -> right_of x zs = f64_count_le x zs); [|apply Hall, Ei].
  clear Ei. intros zs Hzs. induction Hzs as [|z bs Hz _ IH]; auto. cbn [right_of f64_count_le].
  assert (E : np_lt64 x z = negb (SFleb z x)).
  { unfold np_lt64. rewrite Hz. cbn [andb]. rewrite orb_false_r. unfold SFltb, SFleb.
    destruct x as [[]|[]| |[] mx ex], z as [[]|[]| |[] mz ez]; cbn in *; try reflexivity; try discriminate.
    - destruct (Z.compare_spec ex ez), (Z.compare_spec ez ex); subst; try lia; cbn; auto.
      pose proof (Pos.compare_antisym mz mx) as A. unfold Pos.compare in A. rewrite A. destruct (Pos.compare_cont Eq mz mx); reflexivity.
    - destruct (Z.compare_spec ex ez), (Z.compare_spec ez ex); subst; try lia; cbn; auto.
      pose proof (Pos.compare_antisym mz mx) as A. unfold Pos.compare in A. rewrite A. destruct (Pos.compare_cont Eq mz mx); reflexivity. }
  rewrite E. destruct (SFleb z x); cbn [negb]; congruence.
Qed.

Lemma mapM_index : forall A B (f : A -> res B) l, (forall x, In x l -> (exists y, f x = Ok y) \/ f x = Raise IndexError) ->
  (exists x, In x l /\ f x = Raise IndexError) -> mapM f l = Raise IndexError.
Proof.
  intros A B f. induction l as [|a l IH]; intros H [x [Hx Ex]]; [destruct Hx|]. cbn [mapM].
  destruct (H a (or_introl eq_refl)) as [[y Ey]|Ey]; rewrite Ey; cbn [bind]; [|reflexivity].
  rewrite IH; [reflexivity| |]; [intros z Hz; apply H; right; auto|].
  destruct Hx as [->|Hx]; [congruence|eauto].
Qed.

Lemma get_in_range : forall A (l : list A) i, (i < length l)%nat -> exists x, np_get l (Z.of_nat i) = Ok x /\ nth_error l i = Some x.
Proof.
  intros A l i H. unfold np_get, np_norm. destruct (Z.leb_spec 0 (Z.of_nat i)); [|lia]. destruct (Z.ltb_spec (Z.of_nat i) (Z.of_nat (length l))); [|lia].
  rewrite Nat2Z.id. destruct (nth_error l i) eqn:E; [eauto|]. apply nth_error_None in E. lia.
Qed.

(** MultinomialPLSA.fit ends with an IndexError: already the first estimate of
    the topics of the events fails *)
Theorem C127_fit_refused : forall d sc ys lv k dirichlet, x_digitize d sc = Ok ys -> f64_levels (xlo d) (xhi d) (xst d) = Ok lv -> 0 <= lv ->
  In S754_nan sc \/ In (S754_infinity false) sc -> (forall i a, length (dirichlet i a) = k) ->
  init_params dirichlet lv k (length sc) ys = Raise IndexError.
Proof.
  intros d sc ys lv k dirichlet H Hl Hp Hin Hd.
  assert (Hc : exists c, f64_classes (xlo d) (xhi d) (xst d) = Ok c).
  { unfold x_digitize in H. unfold f64_classes. destruct (f64_bins _ _ _); cbn [bind] in *; [eauto|discriminate]. }
  destruct Hc as [c Hc]. pose proof (levels_le_classes _ _ _ _ _ Hl Hc) as Hle. pose proof (C127_classes _ _ _ _ H Hc) as F.
  assert (Ln : length ys = length sc) by (symmetry; eapply Forall2_len; eauto).
  unfold init_params. destruct (Z.ltb_spec lv 0); [lia|].
  assert (La : length (init_alpha (Z.to_nat lv) k) = Z.to_nat lv) by (unfold init_alpha; rewrite map_length, seq_length; auto).
  apply mapM_index.
  - intros i Hi. apply in_seq in Hi. destruct (get_in_range _ ys i ltac:(lia)) as [r [Er _]]. rewrite Er. cbn [bind].
    unfold np_get at 1. unfold np_get at 1. destruct (np_norm _ r) as [j|]; [|right; reflexivity].
    destruct (nth_error _ j); [|right; reflexivity]. left. cbn [bind]. unfold assign. rewrite Hd, Nat.eqb_refl. eauto.
  - assert (I : In c ys /\ c >= lv).
    { split; [|lia]. assert (Hx : exists x, In x sc /\ (x = S754_nan \/ x = S754_infinity false)) by (destruct Hin; eauto).
      destruct Hx as [x [Hx Ex]]. clear - F Hx Ex. induction F as [|x' y sc ys Hy _ IH]; [destruct Hx|].
      destruct Hx as [->|Hx]; [left; symmetry; apply Hy in Ex; auto|right; auto]. }
    destruct I as [I Hge]. apply In_nth_error in I. destruct I as [i Ei]. assert (Hi : (i < length ys)%nat) by (apply nth_error_Some; congruence).
    exists i. split; [apply in_seq; lia|]. destruct (get_in_range _ ys i Hi) as [r [Er Er']]. rewrite Er. assert (r = c) by congruence. subst r. cbn [bind].
    unfold np_get, np_norm. rewrite La. destruct (Z.leb_spec 0 c); [|lia]. destruct (Z.ltb_spec c (Z.of_nat (Z.to_nat lv))); [lia|]. reflexivity.
Qed.

(** ** C128: binarising *)
(** full statement, false of the code: a score is 1 after binarize_score only
    if it lies above the threshold.  A file with an empty score field gives
    an event that counts as positive, and the data pass the test of the item
    finders. *)
Definition digits (s : text) : res f64 := match int10 s with Ok z => Ok (f64_of_Z z) | Raise e => Raise e end.
Definition gap_lines : list text :=
  [(t "1" ++ tab ++ t "10" ++ tab ++ t "5" ++ nl)%list; (t "1" ++ tab ++ t "20" ++ tab ++ nl)%list; (t "2" ++ tab ++ t "10" ++ tab ++ t "1" ++ nl)%list].
Theorem C128_missing_is_positive_refuted : exists rows (s : xdata unit unit) b, file_of gap_lines rows /\ nth_error rows 1 = Some [t "1"; t "20"; []] /\
  x_load_file int10 digits (fun _ => tt) true gap_lines 2 OTNone (Some (mkXDom (f64_of_Z 1) (f64_of_Z 5) (f64_of_Z 1))) 0 = Ok s /\
  x_score s = Some [f64_of_Z 5; S754_nan; f64_of_Z 1] /\
  x_binarize_score s None = Ok b /\ score b = Some [1; 1; 0]%Q /\ binary_check b = true.
Proof.
  eexists [[t "1"; t "10"; t "5"]; [t "1"; t "20"; []]; [t "2"; t "10"; t "1"]], _, _.
  split; [|split; [reflexivity|split; [vm_compute; reflexivity|split; [vm_compute; reflexivity|split; [vm_compute; reflexivity|split; vm_compute; reflexivity]]]]].
  assert (T : tail nl) by (exists nl, []; repeat split; auto; repeat constructor; auto).
  unfold gap_lines.
  assert (W : forall a b c, Forall plain a -> Forall plain b -> Forall plain c -> (exists x y, a = x :: y /\ x <> 32%N) ->
    (forall x, c <> x ++ [32%N]) -> fields_ok [a; b; c]).
  { intros a b c Pa Pb Pc [x [y [-> Hx]]] Hc. split; [auto|]. split; [exists x, y, [b; c]; auto|].
    intros g z E. change [x :: y; b; c] with ([x :: y; b] ++ [c]) in E. apply app_inj_tail in E. destruct E as [_ E]. eapply Hc; eauto. }
  apply (file_row [t "1"; t "10"; t "5"] nl); [|exact T|apply (file_row [t "1"; t "20"; []] nl); [|exact T|apply (file_row [t "2"; t "10"; t "1"] nl); [|exact T|constructor]]].
  1,3: apply W; try (unfold t, plain; cbn; repeat constructor; discriminate); [eexists _, _; split; [reflexivity|discriminate]|
    intros x E; unfold t in E; cbn in E; destruct x as [|? [|? ?]]; discriminate].
  apply W; try (unfold t, plain; cbn; repeat constructor; discriminate); [eexists _, _; split; [reflexivity|discriminate]|
    intros x E; destruct x; discriminate].
Qed.

(** on numbers the statement holds *)
Theorem C128_numbers_partial : forall F G (s : xdata F G) th b t sc, x_binarize_score s th = Ok b -> x_score s = Some sc ->
  match th with Some t' => t' = t | None => exists d, x_domain s = Some d /\ x_thresh d = t end ->
  f64_isnan t = false -> Forall (fun x => f64_isnan x = false) sc ->
  exists l, score b = Some l /\ Forall2 (fun x q => (q = 1%Q /\ SFltb t x = true) \/ (q = 0%Q /\ SFleb x t = true)) sc l.
Proof.
  intros F G s th b t sc H Hs Ht Nt Ns. unfold x_binarize_score in H.
  assert (E : match th with Some t' => Ok t' | None => match x_domain s with Some d => Ok (x_thresh d) | None => Raise TypeError end end = Ok t).
  { destruct th as [t'|]; [congruence|]. destruct Ht as [d [-> ->]]. reflexivity. }
  rewrite E in H. cbn [bind] in H. rewrite Hs in H. apply ok_inj in H. subst b. cbn [score]. eexists. split; [reflexivity|].
  clear - Nt Ns. induction Ns as [|x sc Hx _ IH]; [constructor|]. cbn [x_binarize map]. constructor; [|exact IH].
  destruct (SFleb x t) eqn:E; [right; auto|left; split; auto]. unfold SFleb, SFltb in *.
  destruct x as [[]|[]| |[] mx ex], t as [[]|[]| |[] mt et]; cbn in *; try reflexivity; try discriminate.
  - destruct (Z.compare_spec ex et), (Z.compare_spec et ex); subst; try lia; cbn in *; auto; try discriminate.
    pose proof (Pos.compare_antisym mt mx) as A. unfold Pos.compare in A. rewrite A in E. destruct (Pos.compare_cont Eq mt mx); auto; discriminate.
  - destruct (Z.compare_spec ex et), (Z.compare_spec et ex); subst; try lia; cbn in *; auto; try discriminate.
    pose proof (Pos.compare_antisym mt mx) as A. unfold Pos.compare in A. rewrite A in E. destruct (Pos.compare_cont Eq mt mx); auto; discriminate.
Qed.

(** ** C129: the loss of matrix factorisation *)
Lemma add_nan_l : forall x, f64_add S754_nan x = S754_nan. Proof. destruct x; reflexivity. Qed.
Lemma add_nan_r : forall x, f64_add x S754_nan = S754_nan. Proof. destruct x; reflexivity. Qed.
Lemma tree_nan : forall t, In S754_nan (leaves t) -> tvalue t = S754_nan.
Proof.
  induction t as [x|l IHl r IHr]; cbn [leaves tvalue]; intros H; [destruct H as [H|[]]; auto|].
  apply in_app_or in H. destruct H as [H|H]; [rewrite IHl by auto; apply add_nan_l|rewrite IHr by auto; apply add_nan_r].
Qed.
Lemma sum_nan : forall d l s, sum_of d l s -> In S754_nan l -> s = S754_nan.
Proof.
  intros d l s [t [k [P [_ <-]]]] H. apply tree_nan. eapply Permutation.Permutation_in; [apply Permutation.Permutation_sym, P|].
  apply in_or_app. auto.
Qed.

Lemma zip_nan : forall (g : f64 * f64 -> f64) (sc esc : list f64), (forall y, g (S754_nan, y) = S754_nan) -> length sc = length esc -> In S754_nan sc ->
  In S754_nan (map g (combine sc esc)).
Proof.
  intros g sc. induction sc as [|x sc IH]; intros [|y esc] Hg L H; try discriminate; [destruct H|]. cbn [combine map].
  destruct H as [->|H]; [left; apply Hg|right; apply IH; auto].
Qed.

Lemma scores_len : forall sum t uis esc, f64_scores sum t uis = Ok esc -> length esc = length uis.
Proof. intros sum t uis esc H. unfold f64_scores in H. apply P_Py.mapM_ok in H. symmetry. eapply Forall2_len; eauto. Qed.
Lemma pairs_len : forall ev uis, pairs ev = Ok uis -> length uis = length ev.
Proof. intros ev uis H. unfold pairs in H. apply P_Py.mapM_ok in H. symmetry. eapply Forall2_len; eauto. Qed.
Lemma bcast_len : forall A B (a : list A) (b : list B) ab, length a = length b -> bcast a b = Ok ab -> ab = combine a b.
Proof. intros A B a b ab L H. unfold bcast in H. rewrite L, Nat.eqb_refl in H. apply ok_inj in H. auto. Qed.

Section Loss.
  Variable sum : msum -> list f64 -> f64.
  Hypothesis Hsum : forall w l, exists d, sum_of d l (sum w l).

  (** one NaN score makes the loss NaN wherever it is evaluated, and the
      derivative by the global bias too *)
  Theorem C129_loss : forall C nu ni k c ev (sc : list f64) v, length sc = length ev -> In S754_nan sc ->
    f64_pmf_loss sum C nu ni k c ev sc = Ok v -> v = S754_nan.
  Proof.
    intros C nu ni k c ev sc v L Hn H. unfold f64_pmf_loss in H.
    destruct (f64_view nu ni k c) as [t|]; cbn [bind] in H; [|discriminate].
    destruct (pairs ev) as [uis|] eqn:Ep; cbn [bind] in H; [|discriminate].
    destruct (f64_scores sum t uis) as [esc|] eqn:Es; cbn [bind] in H; [|discriminate].
    destruct (bcast sc esc) as [se|] eqn:Eb; cbn [bind] in H; [|discriminate].
    assert (Le : length sc = length esc) by (rewrite (scores_len _ _ _ _ Es), (pairs_len _ _ Ep); auto).
    apply bcast_len in Eb; auto. subst se. apply ok_inj in H. subst v.
    destruct (Hsum AtLoss (map (fun x => f64_sq (f64_sub (fst x) (snd x))) (combine sc esc))) as [d Hd].
    rewrite (sum_nan _ _ _ Hd).
    - replace (f64_mul f64_half S754_nan) with S754_nan by reflexivity. apply add_nan_l.
    - apply zip_nan; auto.
  Qed.

  Theorem C129_gradient : forall C nu ni k c ev (sc : list f64) g, length sc = length ev -> In S754_nan sc ->
    f64_pmf_grad sum C nu ni k c ev sc = Ok g -> exists g', g = S754_nan :: g'.
  Proof.
    intros C nu ni k c ev sc g L Hn H. unfold f64_pmf_grad in H.
    destruct (f64_view nu ni k c) as [t|]; cbn [bind] in H; [|discriminate].
    destruct (pairs ev) as [uis|] eqn:Ep; cbn [bind] in H; [|discriminate].
    destruct (f64_scores sum t uis) as [esc|] eqn:Es; cbn [bind] in H; [|discriminate].
    destruct (bcast sc esc) as [se|] eqn:Eb; cbn [bind] in H; [|discriminate].
    assert (Le : length sc = length esc) by (rewrite (scores_len _ _ _ _ Es), (pairs_len _ _ Ep); auto).
    apply bcast_len in Eb; auto. subst se. unfold f64_mf_grad in H.
    repeat match type of H with bind ?x _ = _ => destruct x; cbn beta iota delta [bind] in H; [|discriminate H] end.
    apply ok_inj in H. subst g. unfold f64_flatten. cbn [fmu]. eexists. f_equal.
    destruct (Hsum AtMu (map (fun x => SFopp (f64_sub (fst x) (snd x))) (combine sc esc))) as [d Hd]. apply (sum_nan _ _ _ Hd).
    apply zip_nan; auto.
  Qed.
End Loss.

(** ** Cases *)
Definition five : xdom := mkXDom (f64_of_Z 1) (f64_of_Z 5) (f64_of_Z 1).
Example C125_nonvacuous : exists rs : list (xrow unit),
  Forall2 (line_of int10 digits (fun _ => tt) 0) [[t "1"; t "10"; t "5"]; [t "1"; t "20"; []]; [t "2"; t "10"; t "x"]] rs /\
  map x_sc rs = [f64_of_Z 5; S754_nan; S754_nan] /\ f64_levels (xlo five) (xhi five) (xst five) = Ok 5.
Proof.
  exists [mkXRow [1; 10] (f64_of_Z 5) tt; mkXRow [1; 20] S754_nan tt; mkXRow [2; 10] S754_nan tt].
  split; [|split; vm_compute; reflexivity].
  repeat constructor.
  - exists [t "1"; t "10"], (t "5"), [], []. repeat split; auto. repeat constructor.
  - exists [t "1"; t "20"], [], [], []. repeat split; [repeat constructor|]. right. split; auto. eexists. reflexivity.
  - exists [t "2"; t "10"], (t "x"), [], []. repeat split; [repeat constructor|]. right. split; auto. eexists. reflexivity.
Qed.

Definition xd0 : xdata unit unit := match x_init 2 OTNone with Ok s => s | Raise _ => mkXData (mkData 0 (mkObjs [] [] []) [] [] 0 None None) None None None end.
Definition xev : nd ext_id := A2 2 [[IdInt 1; IdInt 10]; [IdInt 1; IdInt 20]; [IdInt 2; IdInt 10]].
Example C126_nonvacuous : snd (set_event_imp (x_data xd0) xev None) = None /\
  snd (x_set_event true xd0 xev [f64_of_Z 5; S754_nan; f64_of_Z 1] None None) = Some ValueError /\
  snd (x_set_event true xd0 xev [f64_of_Z 5; S754_infinity false; f64_of_Z 1] None None) = Some OverflowError /\
  snd (x_set_event true xd0 xev [f64_of_Z 5; f64_of_Z 2; f64_of_Z 1] None None) = None.
Proof. repeat split; vm_compute; reflexivity. Qed.

Example C127_nonvacuous : x_digitize five [f64_of_Z 5; S754_nan; S754_infinity true; S754_infinity false; f64_of_Z 1] = Ok [4; 5; 0; 5; 0] /\
  f64_classes (xlo five) (xhi five) (xst five) = Ok 5.
Proof. split; vm_compute; reflexivity. Qed.

Definition left_sum (w : msum) (l : list f64) : f64 := fold_left f64_add l f64_zero.
Example C129_nonvacuous :
  f64_pmf_loss left_sum (f64_of_Z 1) 1 1 1 (repeat (f64_of_Z 1) 5) [[0; 0]; [0; 0]] [f64_of_Z 3; S754_nan] = Ok S754_nan /\
  f64_pmf_loss left_sum (f64_of_Z 1) 1 1 1 (repeat (f64_of_Z 1) 5) [[0; 0]; [0; 0]] [f64_of_Z 3; f64_of_Z 5] = Ok (f64_of_Z 3).
Proof. split; vm_compute; reflexivity. Qed.

Print Assumptions C125_loaded.
Print Assumptions C126_nan.
Print Assumptions C126_infinite.
Print Assumptions C127_classes.
Print Assumptions C127_numbers.
Print Assumptions C127_fit_refused.
Print Assumptions C128_missing_is_positive_refuted.
Print Assumptions C128_numbers_partial.
Print Assumptions C129_loss.
Print Assumptions C129_gradient.
