(** * Result files: what is written is what is read

    C146: a result tree written by an experiment script is read back by the
    scripts that merge and evaluate, up to keys that are numbers; and when it
    is not. *)
From Coq Require Import String Decimal DecimalFacts DecimalN List ZArith NArith Bool Lia.
From Verif Require Import M_Py M_Json M_Convert P_Convert M_JsonText T_Json.
Import ListNotations.
Open Scope N_scope.

(** ** Vocabulary *)
(** proper Unicode: no halves of surrogate pairs *)
Definition unicode (s : text) : Prop := Forall (fun c => c < 1114112 /\ ~ (55296 <= c <= 57343)) s.
Definition printable (s : text) : Prop := Forall (fun c => 32 <= c <= 126) s.

(** numbers of JSON: integer part, fraction and exponent *)
Definition numeral (s : text) : Prop := s <> [] /\ Forall (fun c => 48 <= c <= 57) s.
Definition integral (s : text) : Prop := exists g d, s = g ++ d /\ (g = [] \/ g = [45]) /\ numeral d /\ (d = [48] \/ forall r, d <> 48 :: r).
Definition fractional (s : text) : Prop := s = [] \/ exists d, s = 46 :: d /\ numeral d.
Definition exponential (s : text) : Prop := s = [] \/ exists e g d, s = e :: g ++ d /\ (e = 101 \/ e = 69) /\ (g = [] \/ g = [43] \/ g = [45]) /\ numeral d.
(** a text like 1.5, 1e-05 or 1.0 *)
Definition float_numeral (s : text) : Prop := exists i f e, s = i ++ f ++ e /\ integral i /\ fractional f /\ exponential e /\ (f <> [] \/ e <> []).

(** ** Strings *)
Lemma hex_inv : forall d, d < 16 -> unhexd (hexd d) = Some d.
Proof.
  intros d H. unfold hexd, unhexd. destruct (N.ltb_spec d 10).
  - destruct (N.leb_spec 48 (48 + d)); [|lia]. destruct (N.leb_spec (48 + d) 57); [|lia]. cbn [andb]. f_equal. lia.
  - destruct (N.leb_spec 48 (87 + d)); [|lia]. destruct (N.leb_spec (87 + d) 57); [lia|]. cbn [andb].
    destruct (N.leb_spec 97 (87 + d)); [|lia]. destruct (N.leb_spec (87 + d) 102); [|lia]. cbn [andb]. f_equal. lia.
Qed.
Lemma hexd_printable : forall d, d < 16 -> 32 <= hexd d <= 126.
Proof. intros d H. unfold hexd. destruct (N.ltb_spec d 10); lia. Qed.

Lemma hex4_inv : forall n, n < 65536 -> unhex4 (hexd (n / 4096)) (hexd (n / 256 mod 16)) (hexd (n / 16 mod 16)) (hexd (n mod 16)) = Some n.
Proof.
  intros n H. unfold unhex4.
  rewrite !hex_inv; try (apply N.mod_lt; lia); [|apply N.div_lt_upper_bound; lia]. f_equal.
  assert (E1 := N.div_mod n 16 ltac:(lia)). assert (E2 := N.div_mod (n / 16) 16 ltac:(lia)). assert (E3 := N.div_mod (n / 256) 16 ltac:(lia)).
  rewrite N.div_div in E2 by lia. change (16 * 16) with 256 in E2. rewrite N.div_div in E3 by lia. change (256 * 16) with 4096 in E3. lia.
Qed.
Lemma hex4_printable : forall n, n < 65536 -> printable (hex4 n).
Proof. intros n H. unfold hex4. repeat constructor; try (apply hexd_printable; try (apply N.mod_lt; lia); apply N.div_lt_upper_bound; lia). Qed.

Definition consed (c : N) (o : option (text * text)) : option (text * text) := match o with Some (x, q) => Some (c :: x, q) | None => None end.

Lemma scan_u : forall a b g d r n, unhex4 a b g d = Some n -> leading n = false -> scan (92 :: 117 :: a :: b :: g :: d :: r) = consed n (scan r).
Proof. intros a b g d r n H L. cbn [scan]. change (92 =? 34) with false. change (92 =? 92) with true. change (117 =? 117) with true. cbn iota. rewrite H, L. reflexivity. Qed.
Lemma scan_uu : forall a b g d a' b' g' d' r n m, unhex4 a b g d = Some n -> leading n = true -> unhex4 a' b' g' d' = Some m -> trailing m = true ->
  scan (92 :: 117 :: a :: b :: g :: d :: 92 :: 117 :: a' :: b' :: g' :: d' :: r) = consed (65536 + ((n - 55296) * 1024 + (m - 56320))) (scan r).
Proof.
  intros a b g d a' b' g' d' r n m H L H' L'. cbn [scan]. change (92 =? 34) with false. change (92 =? 92) with true. change (117 =? 117) with true. cbn [andb]. cbn iota.
  rewrite H, L, H', L'. reflexivity.
Qed.

Lemma scan_escape : forall c r, c < 1114112 -> ~ (55296 <= c <= 57343) -> scan (escape c ++ r) = consed c (scan r).
Proof.
  intros c r H1 H2. unfold escape.
  destruct (N.eqb_spec c 92) as [->|N1]; [reflexivity|]. destruct (N.eqb_spec c 34) as [->|N2]; [reflexivity|].
  destruct (N.eqb_spec c 10) as [->|N3]; [reflexivity|]. destruct (N.eqb_spec c 13) as [->|N4]; [reflexivity|].
  destruct (N.eqb_spec c 9) as [->|N5]; [reflexivity|]. destruct (N.eqb_spec c 12) as [->|N6]; [reflexivity|]. destruct (N.eqb_spec c 8) as [->|N7]; [reflexivity|].
  destruct ((32 <=? c) && (c <=? 126)) eqn:P.
  - apply andb_true_iff in P as [P1 P2]. apply N.leb_le in P1. apply N.leb_le in P2. cbn [app scan].
    rewrite (proj2 (N.eqb_neq c 34) N2), (proj2 (N.eqb_neq c 92) N1). destruct (N.ltb_spec c 32); [lia|]. reflexivity.
  - destruct (N.ltb_spec c 65536) as [L|L].
    + unfold hex4. cbn [app]. apply scan_u; [apply hex4_inv; exact L|]. unfold leading. destruct (N.leb_spec 55296 c); [|reflexivity]. destruct (N.leb_spec c 56319); [lia|reflexivity].
    + set (m := c - 65536). assert (M : m < 1048576) by (unfold m; lia). assert (C : c = 65536 + m) by (unfold m; lia). clearbody m.
      assert (D : m / 1024 < 1024) by (apply N.div_lt_upper_bound; lia). rewrite (N.mod_small _ _ D).
      assert (E := N.div_mod m 1024 ltac:(lia)). assert (R := N.mod_lt m 1024 ltac:(lia)).
      unfold hex4. cbn [app].
      rewrite (scan_uu _ _ _ _ _ _ _ _ r (55296 + m / 1024) (56320 + m mod 1024)).
      * generalize dependent (m mod 1024). generalize dependent (m / 1024). intros q D rr E R. f_equal. lia.
      * apply hex4_inv. lia.
      * unfold leading. destruct (N.leb_spec 55296 (55296 + m / 1024)); [|lia]. destruct (N.leb_spec (55296 + m / 1024) 56319); [reflexivity|lia].
      * apply hex4_inv. lia.
      * unfold trailing. clear E. generalize dependent (m mod 1024). intros x Hx. destruct (N.leb_spec 56320 (56320 + x)); [|lia]. destruct (N.leb_spec (56320 + x) 57343); [reflexivity|lia].
Qed.

Lemma escape_printable : forall c, c < 1114112 -> printable (escape c).
Proof.
  intros c H1. unfold escape.
  repeat match goal with |- printable (if ?x =? ?y then _ else _) => destruct (N.eqb_spec x y); [repeat constructor; lia|] end.
  destruct ((32 <=? c) && (c <=? 126)) eqn:P.
  - apply andb_true_iff in P as [P1 P2]. apply N.leb_le in P1. apply N.leb_le in P2. repeat constructor; lia.
  - destruct (N.ltb_spec c 65536) as [L|L]; [constructor; [lia|constructor; [lia|apply hex4_printable; exact L]]|].
    assert (D1 := N.mod_lt ((c - 65536) / 1024) 1024 ltac:(lia)). assert (D2 := N.mod_lt (c - 65536) 1024 ltac:(lia)).
    constructor; [lia|constructor; [lia|]]. apply Forall_app. split; [apply hex4_printable; lia|]. constructor; [lia|constructor; [lia|apply hex4_printable; lia]].
Qed.

Lemma scan_string : forall s r, unicode s -> scan (concat (map escape s) ++ 34 :: r) = Some (s, r).
Proof.
  induction s as [|c s IH]; intros r H; [reflexivity|]. cbn [map concat]. rewrite <- app_assoc. destruct (Forall_inv H) as [H1 H2].
  rewrite scan_escape by assumption. rewrite IH by exact (Forall_inv_tail H). reflexivity.
Qed.
Lemma dump_str_printable : forall s, unicode s -> printable (dump_str s).
Proof.
  intros s H. constructor; [lia|]. apply Forall_app. split; [|repeat constructor; lia].
  induction s as [|c s IH]; [constructor|]. cbn [map concat]. apply Forall_app. split; [apply escape_printable; apply (Forall_inv H)|apply IH; exact (Forall_inv_tail H)].
Qed.

(** ** Numbers *)
(** what may follow a value *)
Definition delim (r : text) : Prop := r = [] \/ exists c q, r = c :: q /\ (c = 44 \/ c = 93 \/ c = 125).

Lemma isdig_iff : forall c, isdig c = true <-> 48 <= c <= 57.
Proof. intros c. unfold isdig. rewrite andb_true_iff, !N.leb_le. tauto. Qed.
Lemma isdig_not : forall c, ~ (48 <= c <= 57) -> isdig c = false.
Proof. intros c H. destruct (isdig c) eqn:E; [apply isdig_iff in E; tauto|reflexivity]. Qed.

Lemma spand_app : forall d r, Forall (fun c => 48 <= c <= 57) d -> (r = [] \/ exists c q, r = c :: q /\ ~ (48 <= c <= 57)) -> spand (d ++ r) = (d, r).
Proof.
  induction d as [|c d IH]; intros r F R.
  - destruct R as [->|(c & q & -> & N)]; [reflexivity|]. cbn [app spand]. rewrite isdig_not by exact N. reflexivity.
  - cbn [app spand]. rewrite (proj2 (isdig_iff c) (Forall_inv F)), (IH r (Forall_inv_tail F) R). reflexivity.
Qed.

Lemma integer_app : forall i r, integral i -> (r = [] \/ exists c q, r = c :: q /\ ~ (48 <= c <= 57)) -> integer (i ++ r) = Some (i, r).
Proof.
  intros i r (g & d & -> & G & (ND & FD) & Z) R.
  assert (A : forall q, next 45 (d ++ q) = None).
  { intros q. destruct d as [|c d]; [congruence|]. cbn. destruct (N.eqb_spec c 45); [|reflexivity]. pose proof (Forall_inv FD) as HC. cbn beta in HC. lia. }
  assert (B : match d ++ r with c :: r0 => if c =? 48 then Some (g ++ [48], r0) else if isdig c then Some (g ++ fst (spand (d ++ r)), snd (spand (d ++ r))) else None | [] => None end = Some (g ++ d, r)).
  { destruct d as [|c d]; [congruence|]. cbn [app]. destruct (N.eqb_spec c 48) as [->|N].
    - destruct Z as [Z|Z]; [injection Z as ->; reflexivity|destruct (Z d eq_refl)].
    - rewrite (proj2 (isdig_iff c) (Forall_inv FD)). change (c :: d ++ r) with ((c :: d) ++ r). rewrite spand_app by assumption. reflexivity. }
  unfold integer. destruct G as [->| ->].
  - cbn [app] in B |- *. rewrite A. cbn [fst snd app]. exact B.
  - cbn [app next]. change (45 =? 45) with true. cbn iota. cbn [fst snd]. exact B.
Qed.

Lemma fraction_app : forall f r, fractional f -> (r = [] \/ exists c q, r = c :: q /\ ~ (48 <= c <= 57) /\ c <> 46) -> fraction (f ++ r) = (f, r).
Proof.
  intros f r [->|(d & -> & ND & FD)] R.
  - cbn [app]. unfold fraction. destruct R as [->|(c & q & -> & N & N')]; [reflexivity|]. cbn. rewrite (proj2 (N.eqb_neq c 46) N'). reflexivity.
  - unfold fraction. cbn [app next]. change (46 =? 46) with true. cbn iota. rewrite spand_app; [|exact FD|destruct R as [->|(c & q & -> & N & _)]; [left; reflexivity|right; eauto]].
    cbn [fst snd]. destruct d; [congruence|reflexivity].
Qed.

Lemma exponent_app : forall e r, exponential e -> (r = [] \/ exists c q, r = c :: q /\ ~ (48 <= c <= 57) /\ c <> 101 /\ c <> 69) -> exponent (e ++ r) = (e, r).
Proof.
  intros e r [->|(x & g & d & -> & X & G & ND & FD)] R.
  - cbn [app]. unfold exponent. destruct R as [->|(c & q & -> & N & N1 & N2)]; [reflexivity|].
    rewrite (proj2 (N.eqb_neq c 101) N1), (proj2 (N.eqb_neq c 69) N2). reflexivity.
  - assert (SP : spand (d ++ r) = (d, r)) by (apply spand_app; [exact FD|destruct R as [->|(c & q & -> & N & _)]; [left; reflexivity|right; eauto]]).
    cbn [app]. rewrite <- app_assoc. unfold exponent.
    assert (EX : (x =? 101) || (x =? 69) = true) by (destruct X as [->| ->]; reflexivity). rewrite EX.
    assert (SG : match g ++ d ++ r with c :: r' => if (c =? 43) || (c =? 45) then ([c], r') else ([], g ++ d ++ r) | [] => ([], g ++ d ++ r) end = (g, d ++ r)).
    { destruct G as [->|[->| ->]]; [|reflexivity|reflexivity]. cbn [app]. destruct d as [|c d]; [congruence|]. cbn [app]. pose proof (Forall_inv FD) as HC. cbn in HC.
      destruct (N.eqb_spec c 43); [lia|]. destruct (N.eqb_spec c 45); [lia|]. reflexivity. }
    rewrite SG. cbn [snd fst]. rewrite SP. cbn [fst snd]. destruct d; [congruence|reflexivity].
Qed.

Lemma number_app : forall i f e r, integral i -> fractional f -> exponential e -> delim r -> number (i ++ f ++ e ++ r) = Some (i, f, e, r).
Proof.
  intros i f e r I F E D. unfold number.
  assert (RE : r = [] \/ exists c q, r = c :: q /\ ~ (48 <= c <= 57) /\ c <> 101 /\ c <> 69).
  { destruct D as [->|(c & q & -> & D)]; [left; reflexivity|right; exists c, q; split; [reflexivity|lia]]. }
  assert (RF : e ++ r = [] \/ exists c q, e ++ r = c :: q /\ ~ (48 <= c <= 57) /\ c <> 46).
  { destruct E as [->|(x & g & d & -> & X & _)].
    - cbn [app]. destruct D as [->|(c & q & -> & D)]; [left; reflexivity|right; exists c, q; split; [reflexivity|lia]].
    - right. cbn [app]. eexists. eexists. split; [reflexivity|]. lia. }
  rewrite integer_app; [|exact I|].
  - rewrite (fraction_app f (e ++ r)) by assumption. cbn [fst snd]. rewrite (exponent_app e r) by assumption. reflexivity.
  - destruct F as [->|(d & -> & _)]; [|right; cbn [app]; eexists; eexists; split; [reflexivity|lia]].
    cbn [app]. destruct RF as [->|(c & q & -> & N & _)]; [left; reflexivity|right; eauto].
Qed.

Lemma uint_text_digits : forall u, Forall (fun c => 48 <= c <= 57) (uint_text u).
Proof. induction u; cbn [uint_text]; constructor; auto; lia. Qed.
Lemma text_uint_inv : forall u, text_uint (uint_text u) = u.
Proof. induction u; cbn [uint_text text_uint]; [reflexivity|..]; rewrite IHu; reflexivity. Qed.

Lemma to_uint_normal : forall n, uint_text (N.to_uint n) = [48] \/ uint_text (N.to_uint n) <> [] /\ forall r, uint_text (N.to_uint n) <> 48 :: r.
Proof.
  intros n. assert (U : N.to_uint n = unorm (N.to_uint n)) by (rewrite <- (DecimalN.Unsigned.to_of (N.to_uint n)), DecimalN.Unsigned.of_to; reflexivity).
  rewrite U. unfold unorm. pose proof (nzhead_nonzero (N.to_uint n)) as Z. destruct (nzhead (N.to_uint n)) eqn:E; cbn [uint_text]; [left; reflexivity|..]; try (right; split; [discriminate|intros r; discriminate]).
  destruct (Z u eq_refl).
Qed.

Lemma int_text_integral : forall z, integral (int_text z).
Proof.
  intros z. assert (A : forall n, numeral (uint_text (N.to_uint n)) /\ (uint_text (N.to_uint n) = [48] \/ forall r, uint_text (N.to_uint n) <> 48 :: r)).
  { intros n. destruct (to_uint_normal n) as [E|[E1 E2]]; (split; [split; [|apply uint_text_digits]|]).
    - rewrite E. discriminate.
    - left. exact E.
    - exact E1.
    - right. exact E2. }
  destruct z as [|p|p]; cbn [int_text].
  - exists [], (uint_text (N.to_uint (Z.to_N 0))). repeat split; try apply A. left. reflexivity.
  - exists [], (uint_text (N.to_uint (Z.to_N (Zpos p)))). repeat split; try apply A. left. reflexivity.
  - exists [45], (uint_text (N.to_uint (Npos p))). repeat split; try apply A. right. reflexivity.
Qed.
Lemma text_int_inv : forall z, text_int (int_text z) = z.
Proof.
  intros z. unfold text_int. destruct z as [|p|p]; cbn [int_text].
  - reflexivity.
  - assert (NX : next 45 (uint_text (N.to_uint (Z.to_N (Zpos p)))) = None).
    { pose proof (uint_text_digits (N.to_uint (Z.to_N (Zpos p)))) as F. destruct (uint_text (N.to_uint (Z.to_N (Zpos p)))) as [|c l]; [reflexivity|].
      pose proof (Forall_inv F) as HC. cbn in HC |- *. destruct (N.eqb_spec c 45); [lia|reflexivity]. }
    rewrite NX, text_uint_inv, DecimalN.Unsigned.of_to. reflexivity.
  - cbn [next]. change (45 =? 45) with true. cbn iota. rewrite text_uint_inv, DecimalN.Unsigned.of_to. reflexivity.
Qed.

Lemma numeral_printable : forall d, Forall (fun c => 48 <= c <= 57) d -> printable d.
Proof. intros d H. eapply Forall_impl; [|exact H]. cbn. intros; lia. Qed.
Lemma integral_printable : forall i, integral i -> printable i.
Proof. intros i (g & d & -> & G & (_ & F) & _). apply Forall_app. split; [destruct G as [->| ->]; repeat constructor; lia|apply numeral_printable; exact F]. Qed.
Lemma float_numeral_printable : forall s, float_numeral s -> printable s.
Proof.
  intros s (i & f & e & -> & I & F & E & _). apply Forall_app. split; [apply integral_printable; exact I|]. apply Forall_app. split.
  - destruct F as [->|(d & -> & _ & FD)]; [constructor|constructor; [lia|apply numeral_printable; exact FD]].
  - destruct E as [->|(x & g & d & -> & X & G & _ & FD)]; [constructor|]. constructor; [lia|]. apply Forall_app. split; [destruct G as [->|[->| ->]]; repeat constructor; lia|apply numeral_printable; exact FD].
Qed.
Lemma int_text_unicode : forall z, unicode (int_text z).
Proof. intros z. eapply Forall_impl; [|apply integral_printable; apply int_text_integral]. cbn. intros; lia. Qed.

(** ** Enough fuel *)
Definition shorter (r s : text) : Prop := (length r < length s)%nat.
Lemma ws_le : forall s, (length (ws s) <= length s)%nat.
Proof. induction s as [|c s IH]; cbn [ws]; [lia|]. destruct ((c =? 32) || (c =? 9) || (c =? 10) || (c =? 13)); cbn [length]; lia. Qed.
Lemma next_lt : forall c s r, next c s = Some r -> shorter r s.
Proof. intros c [|x s] r H; cbn in H; [discriminate|]. destruct (x =? c); [|discriminate]. injection H as ->. unfold shorter. cbn. lia. Qed.
Lemma behind_le : forall w s r, behind w s = Some r -> (length r + length w = length s)%nat.
Proof.
  induction w as [|c w IH]; intros s r H; cbn in H; [injection H as ->; cbn; lia|]. destruct s as [|x s]; [discriminate|]. destruct (x =? c); [|discriminate].
  apply IH in H. cbn. lia.
Qed.
Lemma scan_lt : forall n s x r, (length s <= n)%nat -> scan s = Some (x, r) -> shorter r s.
Proof.
  unfold shorter. induction n as [|n IH]; intros s x r L H; (destruct s as [|c s]; [discriminate|]); cbn [length] in *; [lia|].
  assert (G : forall c' q, (length q <= length s)%nat -> match scan q with Some (x, q) => Some (c' :: x, q) | None => None end = Some (x, r) -> (length r < S (length s))%nat).
  { intros c' q Q E. destruct (scan q) as [[x' q']|] eqn:E'; [|discriminate]. injection E as <- <-. apply IH in E'; lia. }
  cbn [scan] in H. destruct (c =? 34); [injection H as <- <-; lia|]. destruct (c =? 92).
  - destruct s as [|e s]; [discriminate|]. destruct (e =? 117).
    + destruct s as [|a [|b [|g [|d s]]]]; try discriminate. destruct (unhex4 a b g d) as [k|]; [|discriminate]. cbn [length] in *.
      cbv zeta in H. destruct (leading k); [|apply G in H; lia]. destruct s as [|x1 [|x2 s]]; try (apply G in H; cbn [length] in *; lia).
      destruct ((x1 =? 92) && (x2 =? 117)); [|apply G in H; cbn [length] in *; lia].
      destruct s as [|a' [|b' [|g' [|d' s]]]]; try discriminate. destruct (unhex4 a' b' g' d') as [k'|]; [|discriminate].
      destruct (trailing k'); apply G in H; cbn [length] in *; lia.
    + destruct (backslash e); [|discriminate]. apply G in H; cbn [length] in *; lia.
  - destruct (c <? 32); [discriminate|]. apply G in H; lia.
Qed.
Lemma spand_le : forall s, (length (fst (spand s)) + length (snd (spand s)) = length s)%nat.
Proof. induction s as [|c s IH]; [reflexivity|]. cbn [spand]. destruct (isdig c); cbn [fst snd length]; lia. Qed.
Lemma fraction_le : forall s, (length (snd (fraction s)) <= length s)%nat.
Proof.
  intros s. unfold fraction. destruct (next 46 s) as [r|] eqn:E; [|cbn; lia]. apply next_lt in E. unfold shorter in E. pose proof (spand_le r).
  destruct (fst (spand r)) eqn:E'; cbn [snd length] in *; lia.
Qed.
Lemma exponent_le : forall s, (length (snd (exponent s)) <= length s)%nat.
Proof.
  intros [|c r]; [cbn; lia|]. unfold exponent. destruct ((c =? 101) || (c =? 69)); [|cbn; lia].
  set (g := match r with c0 :: r' => if (c0 =? 43) || (c0 =? 45) then ([c0], r') else ([], r) | [] => ([], r) end).
  assert (G : (length (snd g) <= length r)%nat) by (unfold g; destruct r as [|c0 r]; [cbn; lia|]; destruct ((c0 =? 43) || (c0 =? 45)); cbn; lia).
  pose proof (spand_le (snd g)). cbv zeta. destruct (fst (spand (snd g))); cbn [snd length] in *; lia.
Qed.
Lemma number_lt : forall s i f e r, number s = Some (i, f, e, r) -> shorter r s.
Proof.
  unfold shorter. intros s i f e r H. unfold number in H. destruct (integer s) as [[i' q]|] eqn:E; [|discriminate]. cbv zeta in H. injection H as <- <- <- <-.
  pose proof (fraction_le q). pose proof (exponent_le (snd (fraction q))). assert (length q < length s)%nat; [|lia].
  unfold integer in E. set (g := match next 45 s with Some r => ([45], r) | None => ([], s) end) in E.
  assert (G : (length (snd g) <= length s)%nat) by (unfold g; destruct (next 45 s) eqn:E'; [apply next_lt in E'; unfold shorter in E'; cbn; lia|cbn; lia]).
  pose proof (spand_le (snd g)) as P. cbv zeta in E. destruct (snd g) as [|c l]; [discriminate|]. cbn [length] in *.
  destruct (c =? 48); [injection E as <- <-; lia|]. destruct (isdig c) eqn:D; [|discriminate]. injection E as <- <-.
  cbn [spand] in *. rewrite D in *. cbn [fst snd length] in *. lia.
Qed.

(** ** Values *)
Section Values.
  Context {Fl Cx Ob : Type}.
  Notation V := (value Fl Cx Ob text).
  Notation key := (jkey Ob text).
  Variable repr : Fl -> frepr.
  Variables (read_float : text -> Fl) (f_nan f_inf f_neginf : Fl) (none : Ob).
  Notation dumps := (@dumps Fl Cx Ob repr).
  Notation pv := (@pv Fl Cx Ob read_float f_nan f_inf f_neginf none).
  Notation elements := (@elements Fl Cx Ob read_float f_nan f_inf f_neginf none).
  Notation members := (@members Fl Cx Ob read_float f_nan f_inf f_neginf none).
  Notation loads := (@loads Fl Cx Ob read_float f_nan f_inf f_neginf none).
  Notation json_load := (@json_load Fl Cx Ob read_float f_nan f_inf f_neginf none).

  (** the float is written as a number with fraction or exponent and this
      number is read as the same float *)
  Definition faithful (f : Fl) : Prop :=
    match repr f with Digits s => float_numeral s /\ read_float s = f | FNaN => f = f_nan | FInf => f = f_inf | FNegInf => f = f_neginf end.
  Definition key_text (k : key) : text := match k with KStr s => s | KInt z => int_text z | _ => [] end.
  Inductive writable : V -> Prop :=
  | wr_bool b : writable (VBool b)
  | wr_int z : writable (VInt z)
  | wr_float f : faithful f -> writable (VFloat f)
  | wr_str s : unicode s -> writable (VStr s)
  | wr_list l : Forall writable l -> writable (VList l)
  | wr_dict d : Forall (fun kv => key_ok (fst kv) /\ unicode (key_text (fst kv)) /\ writable (snd kv)) d -> NoDup (map (fun kv => key_text (fst kv)) d) -> writable (VDict d).
  (** keys that are numbers become texts *)
  Fixpoint as_read (v : V) : V :=
    match v with
    | VList l => VList (map as_read l)
    | VDict d => VDict (map (fun kv => (KStr (key_text (fst kv)), as_read (snd kv))) d)
    | _ => v
    end.

  Lemma pv_S : forall n s, pv (S n) s =
        match s with
        | [] => None
        | c :: r =>
            if c =? 34 then match scan r with Some (x, q) => Some (VStr x, q) | None => None end
            else if c =? 123 then
              match next 125 (ws r) with Some q => Some (of_pairs [], q)
              | None => match members n (ws r) with Some (l, q) => Some (of_pairs l, q) | None => None end end
            else if c =? 91 then
              match next 93 (ws r) with Some q => Some (VList [], q)
              | None => match elements n (ws r) with Some (l, q) => Some (VList l, q) | None => None end end
            else match behind (t "null") s with Some q => Some (VOther none, q)
            | None => match behind (t "true") s with Some q => Some (VBool true, q)
            | None => match behind (t "false") s with Some q => Some (VBool false, q)
            | None => match number s with
                      | Some (i, f, e, q) => match f, e with [], [] => Some (VInt (text_int i), q) | _, _ => Some (VFloat (read_float (i ++ f ++ e)), q) end
                      | None => match behind (t "NaN") s with Some q => Some (VFloat f_nan, q)
                      | None => match behind (t "Infinity") s with Some q => Some (VFloat f_inf, q)
                      | None => match behind (t "-Infinity") s with Some q => Some (VFloat f_neginf, q)
                      | None => None end end end end end end end
        end.
  Proof. reflexivity. Qed.
  Lemma elements_S : forall n s, elements (S n) s =
        match pv n s with
        | None => None
        | Some (v, r) =>
            match next 93 (ws r) with
            | Some q => Some ([v], q)
            | None => match next 44 (ws r) with
                      | None => None
                      | Some q => match elements n (ws q) with Some (l, q) => Some (v :: l, q) | None => None end
                      end
            end
        end.
  Proof. reflexivity. Qed.
  Lemma members_S : forall n s, members (S n) s =
        match next 34 s with
        | None => None
        | Some r =>
            match scan r with
            | None => None
            | Some (k, r) =>
                match next 58 (ws r) with
                | None => None
                | Some r =>
                    match pv n (ws r) with
                    | None => None
                    | Some (v, r) =>
                        match next 125 (ws r) with
                        | Some q => Some ([(k, v)], q)
                        | None => match next 44 (ws r) with
                                  | None => None
                                  | Some q => match members n (ws q) with Some (l, q) => Some ((k, v) :: l, q) | None => None end
                                  end
                        end
                    end
                end
            end
        end.
  Proof. reflexivity. Qed.

  Lemma shrink : forall n s, (forall v r, pv n s = Some (v, r) -> shorter r s) /\ (forall l r, elements n s = Some (l, r) -> shorter r s) /\ (forall l r, members n s = Some (l, r) -> shorter r s).
  Proof.
    unfold shorter. induction n as [|n IH]; intros s; (split; [|split]); intros v r H; try discriminate.
    - destruct s as [|c s]; [discriminate|]. rewrite pv_S in H. cbn [length]. pose proof (ws_le s).
      destruct (c =? 34); [destruct (scan s) as [[x q]|] eqn:E; [|discriminate]; injection H as <- <-; apply scan_lt with (n := length s) in E; [unfold shorter in E|]; lia|].
      destruct (c =? 123).
      { destruct (next 125 (ws s)) eqn:E; [injection H as <- <-; apply next_lt in E; unfold shorter in E; lia|].
        destruct (members n (ws s)) as [[l q]|] eqn:E'; [|discriminate]. injection H as <- <-. apply IH in E'. lia. }
      destruct (c =? 91).
      { destruct (next 93 (ws s)) eqn:E; [injection H as <- <-; apply next_lt in E; unfold shorter in E; lia|].
        destruct (elements n (ws s)) as [[l q]|] eqn:E'; [|discriminate]. injection H as <- <-. apply IH in E'. lia. }
      destruct (behind (t "null") (c :: s)) eqn:B1; [injection H as <- <-; apply behind_le in B1; cbn in B1; lia|].
      destruct (behind (t "true") (c :: s)) eqn:B2; [injection H as <- <-; apply behind_le in B2; cbn in B2; lia|].
      destruct (behind (t "false") (c :: s)) eqn:B3; [injection H as <- <-; apply behind_le in B3; cbn in B3; lia|].
      destruct (number (c :: s)) as [[[[i f] e] q]|] eqn:B4.
      { apply number_lt in B4. unfold shorter in B4. cbn [length] in B4. destruct f; [destruct e|]; injection H as <- <-; lia. }
      destruct (behind (t "NaN") (c :: s)) eqn:B5; [injection H as <- <-; apply behind_le in B5; cbn in B5; lia|].
      destruct (behind (t "Infinity") (c :: s)) eqn:B6; [injection H as <- <-; apply behind_le in B6; cbn in B6; lia|].
      destruct (behind (t "-Infinity") (c :: s)) eqn:B7; [injection H as <- <-; apply behind_le in B7; cbn in B7; lia|discriminate].
    - rewrite elements_S in H. destruct (pv n s) as [[x q]|] eqn:E; [|discriminate]. apply IH in E. pose proof (ws_le q).
      destruct (next 93 (ws q)) eqn:E1; [injection H as <- <-; apply next_lt in E1; unfold shorter in E1; lia|].
      destruct (next 44 (ws q)) as [q'|] eqn:E2; [|discriminate]. apply next_lt in E2. unfold shorter in E2. pose proof (ws_le q').
      destruct (elements n (ws q')) as [[l q'']|] eqn:E3; [|discriminate]. injection H as <- <-. apply IH in E3. lia.
    - rewrite members_S in H. destruct (next 34 s) as [s1|] eqn:E0; [|discriminate]. apply next_lt in E0. unfold shorter in E0.
      destruct (scan s1) as [[k s2]|] eqn:ES; [|discriminate]. apply scan_lt with (n := length s1) in ES; [|lia]. unfold shorter in ES. pose proof (ws_le s2).
      destruct (next 58 (ws s2)) as [s3|] eqn:E4; [|discriminate]. apply next_lt in E4. unfold shorter in E4. pose proof (ws_le s3).
      destruct (pv n (ws s3)) as [[x q]|] eqn:E; [|discriminate]. apply IH in E. pose proof (ws_le q).
      destruct (next 125 (ws q)) eqn:E1; [injection H as <- <-; apply next_lt in E1; unfold shorter in E1; lia|].
      destruct (next 44 (ws q)) as [q'|] eqn:E2; [|discriminate]. apply next_lt in E2. unfold shorter in E2. pose proof (ws_le q').
      destruct (members n (ws q')) as [[l q'']|] eqn:E3; [|discriminate]. injection H as <- <-. apply IH in E3. lia.
  Qed.

  Lemma fuel : forall n m s,
    ((2 * length s < n)%nat -> (2 * length s < m)%nat -> pv n s = pv m s) /\
    ((2 * length s + 1 < n)%nat -> (2 * length s + 1 < m)%nat -> elements n s = elements m s) /\
    ((2 * length s + 1 < n)%nat -> (2 * length s + 1 < m)%nat -> members n s = members m s).
  Proof.
    induction n as [|n IH]; intros m s; (split; [|split]); intros Hn Hm; try lia; (destruct m as [|m]; [lia|]).
    - destruct s as [|c s]; [reflexivity|]. rewrite !pv_S. cbn [length] in *. pose proof (ws_le s).
      destruct (IH m (ws s)) as (_ & IE & IM). rewrite IE, IM by lia. reflexivity.
    - rewrite !elements_S. destruct (IH m s) as (IP & _ & _). rewrite IP by lia.
      destruct (pv m s) as [[x q]|] eqn:E; [|reflexivity]. apply (proj1 (shrink m s)) in E. unfold shorter in E. pose proof (ws_le q).
      destruct (next 93 (ws q)); [reflexivity|]. destruct (next 44 (ws q)) as [q'|] eqn:E2; [|reflexivity]. apply next_lt in E2. unfold shorter in E2. pose proof (ws_le q').
      destruct (IH m (ws q')) as (_ & IE & _). rewrite IE by lia. reflexivity.
    - rewrite !members_S. destruct (next 34 s) as [s1|] eqn:E0; [|reflexivity]. apply next_lt in E0. unfold shorter in E0.
      destruct (scan s1) as [[k s2]|] eqn:ES; [|reflexivity]. apply scan_lt with (n := length s1) in ES; [|lia]. unfold shorter in ES. pose proof (ws_le s2).
      destruct (next 58 (ws s2)) as [s3|] eqn:E4; [|reflexivity]. apply next_lt in E4. unfold shorter in E4. pose proof (ws_le s3).
      destruct (IH m (ws s3)) as (IP & _ & _). rewrite IP by lia.
      destruct (pv m (ws s3)) as [[x q]|] eqn:E; [|reflexivity]. apply (proj1 (shrink m (ws s3))) in E. unfold shorter in E. pose proof (ws_le q).
      destruct (next 125 (ws q)); [reflexivity|]. destruct (next 44 (ws q)) as [q'|] eqn:E2; [|reflexivity]. apply next_lt in E2. unfold shorter in E2. pose proof (ws_le q').
      destruct (IH m (ws q')) as (_ & _ & IM). rewrite IM by lia. reflexivity.
  Qed.

  (** the reader never stops for want of fuel *)
  Theorem C146_fuel : forall n s, (2 * length s < n)%nat -> loads s = match pv n (ws s) with Some (v, r) => match ws r with [] => Some v | _ => None end | None => None end.
  Proof. intros n s H. unfold M_JsonText.loads. pose proof (ws_le s). rewrite (proj1 (fuel (S (2 * length s)) n (ws s))) by lia. reflexivity. Qed.

  (** what a value begins with *)
  Definition opens (s : text) : Prop := exists c q, s = c :: q /\ c <> 32 /\ c <> 9 /\ c <> 10 /\ c <> 13 /\ c <> 93 /\ c <> 125.
  Lemma ws_opens : forall s r, opens s -> ws (s ++ r) = s ++ r.
  Proof.
    intros s r (c & q & -> & A1 & A2 & A3 & A4 & _). cbn [app ws].
    rewrite (proj2 (N.eqb_neq c 32) A1), (proj2 (N.eqb_neq c 9) A2), (proj2 (N.eqb_neq c 10) A3), (proj2 (N.eqb_neq c 13) A4). reflexivity.
  Qed.
  Lemma next_opens : forall k s r, opens s -> k = 93 \/ k = 125 -> next k (s ++ r) = None.
  Proof. intros k s r (c & q & -> & _ & _ & _ & _ & A1 & A2) K. cbn [app next]. destruct (N.eqb_spec c k); [lia|reflexivity]. Qed.

  Lemma integral_opens : forall i r, integral i -> exists c q, i ++ r = c :: q /\ (c = 45 \/ 48 <= c <= 57).
  Proof.
    intros i r (g & d & -> & G & (ND & FD) & _). destruct G as [->| ->]; cbn [app]; [|eauto].
    destruct d as [|c d]; [congruence|]. pose proof (Forall_inv FD) as HC. cbn beta in HC. exists c, (d ++ r). auto.
  Qed.

  Lemma pv_number : forall n s c q i f e r, s = c :: q -> (c = 45 \/ 48 <= c <= 57) -> number s = Some (i, f, e, r) ->
    pv (S n) s = match f, e with [], [] => Some (VInt (text_int i), r) | _, _ => Some (VFloat (read_float (i ++ f ++ e)), r) end.
  Proof.
    intros n s c q i f e r E C H. rewrite pv_S. rewrite E. destruct (N.eqb_spec c 34); [lia|]. destruct (N.eqb_spec c 123); [lia|]. destruct (N.eqb_spec c 91); [lia|].
    assert (B : forall x w, x <> c -> behind (x :: w) (c :: q) = None) by (intros x w N; cbn; destruct (N.eqb_spec c x); [congruence|reflexivity]).
    change (t "null") with (110 :: t "ull"). change (t "true") with (116 :: t "rue"). change (t "false") with (102 :: t "alse"). rewrite !B by lia. rewrite <- E, H. reflexivity.
  Qed.

  Lemma F_app : forall (l : list text) sep, printable sep -> Forall printable l -> printable (glue sep l).
  Proof.
    intros [|x l] sep P F; [constructor|]. cbn [glue]. apply Forall_app. split; [exact (Forall_inv F)|]. apply Forall_inv_tail in F.
    induction l as [|y l IH]; [constructor|]. cbn [map concat]. apply Forall_app. split; [apply Forall_app; split; [exact P|exact (Forall_inv F)]|apply IH; exact (Forall_inv_tail F)].
  Qed.
  Lemma glue_cons : forall sep x y l, glue sep (x :: y :: l) = x ++ sep ++ glue sep (y :: l).
  Proof. intros. cbn [glue map concat]. rewrite <- !app_assoc. reflexivity. Qed.

  Notation comma := ([44; 32]%N : text) (only parsing).
  Definition good (v : V) (s : text) : Prop := dumps v = Ok s /\ opens s /\ printable s /\ forall n r, (2 * length s < n)%nat -> delim r -> pv n (s ++ r) = Some (as_read v, r).

  Lemma elements_good : forall l ts, Forall2 good l ts -> l <> [] -> forall n r, (2 * length (glue comma ts) + 1 < n)%nat ->
    elements n (glue [44; 32] ts ++ 93 :: r) = Some (map as_read l, r).
  Proof.
    intros l ts F. induction F as [|v s l ts G F IH]; intros N n r L; [congruence|]. destruct n as [|n]; [lia|]. rewrite elements_S. destruct G as (_ & _ & _ & G).
    destruct F as [|v' s' l ts G' F].
    - cbn [glue map concat] in *. rewrite app_nil_r in *. rewrite G by (first [lia | right; exists 93, r; auto]). reflexivity.
    - rewrite glue_cons in *. rewrite <- !app_assoc. rewrite !app_length in L. cbn [length] in L. rewrite G by (first [lia | right; eexists; eexists; split; [reflexivity|lia]]).
      cbn [app]. change (ws (44 :: ?x)) with (44 :: x). cbn [next ws]. change (44 =? 93) with false. change (44 =? 44) with true. cbn iota. cbn [ws]. change ((32 =? 32) || (32 =? 9) || (32 =? 10) || (32 =? 13)) with true. cbn iota.
      assert (O : ws (glue [44; 32] (s' :: ts) ++ 93 :: r) = glue [44; 32] (s' :: ts) ++ 93 :: r).
      { cbn [glue]. rewrite <- app_assoc. apply ws_opens. apply G'. }
      rewrite O. rewrite IH by (try discriminate; lia). reflexivity.
  Qed.

  Lemma members_good : forall d ts, Forall2 (fun kv x => exists s, x = dump_str (key_text (fst kv)) ++ 58 :: 32 :: s /\ unicode (key_text (fst kv)) /\ good (snd kv) s) d ts -> d <> [] ->
    forall n r, (2 * length (glue comma ts) + 1 < n)%nat ->
    members n (glue [44; 32] ts ++ 125 :: r) = Some (map (fun kv => (key_text (fst kv), as_read (snd kv))) d, r).
  Proof.
    intros d ts F. induction F as [|kv x d ts (s & -> & U & G) F IH]; intros N n r L; [congruence|]. destruct n as [|n]; [lia|]. rewrite members_S.
    destruct G as (_ & O & _ & G).
    assert (H : forall q, next 34 ((dump_str (key_text (fst kv)) ++ 58 :: 32 :: s) ++ q) = Some (concat (map escape (key_text (fst kv))) ++ 34 :: 58 :: 32 :: s ++ q)).
    { intros q. unfold dump_str. cbn [app next]. change (34 =? 34) with true. cbn iota. rewrite <- !app_assoc. reflexivity. }
    assert (H2 : forall q, next 58 (ws (58 :: 32 :: s ++ q)) = Some (32 :: s ++ q)) by reflexivity.
    assert (H3 : forall q, ws (32 :: s ++ q) = s ++ q) by (intros q; cbn [ws]; change ((32 =? 32) || (32 =? 9) || (32 =? 10) || (32 =? 13)) with true; cbn iota; apply ws_opens; exact O).
    assert (LS : forall k, (length s <= length (dump_str k ++ 58%N :: 32%N :: s))%nat) by (intros k; rewrite app_length; cbn [length]; lia). specialize (LS (key_text (fst kv))).
    destruct F as [|kv' x' d ts (s' & -> & U' & G') F].
    - cbn [glue map concat] in *. rewrite app_nil_r in *. rewrite H, scan_string by exact U. rewrite H2, H3. rewrite G by (first [lia | right; exists 125, r; auto]). reflexivity.
    - rewrite glue_cons in *. rewrite <- (app_assoc _ _ (125 :: r)). rewrite H, scan_string by exact U. rewrite H2, H3. rewrite app_length in L. rewrite (app_length [44; 32]) in L.
      rewrite <- app_assoc. rewrite G by (first [lia | right; eexists; eexists; split; [reflexivity|lia]]).
      cbn [app]. change (ws (44 :: ?x)) with (44 :: x). cbn [next]. change (44 =? 125) with false. change (44 =? 44) with true. cbn iota. cbn [ws]. change ((32 =? 32) || (32 =? 9) || (32 =? 10) || (32 =? 13)) with true. cbn iota.
      assert (O' : forall q, ws (glue [44; 32] ((dump_str (key_text (fst kv')) ++ 58 :: 32 :: s') :: ts) ++ q) = glue [44; 32] ((dump_str (key_text (fst kv')) ++ 58 :: 32 :: s') :: ts) ++ q).
      { intros q. cbn [glue]. unfold dump_str. reflexivity. }
      rewrite O'. rewrite IH by (try discriminate; cbn [length] in L; lia). reflexivity.
  Qed.

  Lemma dict_set_new : forall (d : list (text * V)) k v, ~ In k (map fst d) -> dict_set text_eqb d k v = d ++ [(k, v)].
  Proof.
    induction d as [|[k' v'] d IH]; intros k v N; [reflexivity|]. cbn [dict_set map fst] in *. destruct (text_eqb k k') eqn:E.
    - apply text_eqb_eq in E. destruct N. left. auto.
    - cbn [app]. f_equal. apply IH. intros I. apply N. right. exact I.
  Qed.
  Lemma of_pairs_nodup : forall l, NoDup (map fst l) -> of_pairs (Fl:=Fl) (Cx:=Cx) (Ob:=Ob) l = VDict (map (fun kv => (KStr (fst kv), snd kv)) l).
  Proof.
    intros l N. unfold of_pairs. f_equal. f_equal.
    assert (A : forall l d : list (text * V), NoDup (map fst (d ++ l)) -> fold_left (fun d kv => dict_set text_eqb d (fst kv) (snd kv)) l d = d ++ l).
    { clear. induction l as [|[k v] l IH]; intros d N; cbn [fold_left fst snd]; [symmetry; apply app_nil_r|].
      rewrite dict_set_new.
      - rewrite IH; rewrite <- app_assoc; [reflexivity|exact N].
      - rewrite map_app in N. cbn [map fst] in N. apply NoDup_remove_2 in N. intros I. apply N. apply in_or_app. left. exact I. }
    rewrite A by exact N. reflexivity.
  Qed.

  Lemma printable_b : forall s, forallb (fun c => (32 <=? c) && (c <=? 126)) s = true -> printable s.
  Proof. intros s H. rewrite forallb_forall in H. apply Forall_forall. intros c I. apply H in I. apply andb_true_iff in I as [I J]. apply N.leb_le in I. apply N.leb_le in J. auto. Qed.
  Ltac literal := repeat split; let E := fresh in intros E; vm_compute in E; discriminate E.

  Lemma all_good : forall v, writable v -> exists s, good v s.
  Proof.
    induction v using value_ind'; intros W; inversion W; subst.
    - exists (if b then t "true" else t "false"). split; [reflexivity|]. split; [destruct b; eexists; eexists; (split; [reflexivity|literal])|]. split; [destruct b; apply printable_b; reflexivity|].
      intros n r L _. destruct n as [|n]; [destruct b; cbn in L; lia|]. destruct b; reflexivity.
    - exists (int_text z). pose proof (int_text_integral z) as I. split; [reflexivity|]. split.
      { destruct (integral_opens _ [] I) as (c & q & E & C). rewrite app_nil_r in E. exists c, q. split; [exact E|lia]. }
      split; [apply integral_printable; exact I|].
      intros n r L D. destruct n as [|n]; [lia|]. destruct (integral_opens _ r I) as (c & q & E & C).
      rewrite (pv_number n _ c q (int_text z) [] [] r E C); [rewrite text_int_inv; reflexivity|].
      exact (number_app (int_text z) [] [] r I (or_introl eq_refl) (or_introl eq_refl) D).
    - exists (dump_float repr f). unfold faithful in *. split; [reflexivity|]. unfold dump_float. destruct (repr f) as [s| | |].
      + destruct H0 as [NF RF]. pose proof NF as (i & fr & e & -> & I & F & E & NE). split.
        { destruct (integral_opens _ (fr ++ e) I) as (c & q & EQ & C). exists c, q. split; [exact EQ|lia]. }
        split; [apply float_numeral_printable; exact NF|].
        intros n r L D. destruct n as [|n]; [lia|]. rewrite <- !app_assoc. destruct (integral_opens _ (fr ++ e ++ r) I) as (c & q & EQ & C).
        rewrite (pv_number n _ c q i fr e r EQ C (number_app i fr e r I F E D)). rewrite RF. destruct fr; [destruct e|]; try reflexivity. destruct NE; congruence.
      + subst f. split; [eexists; eexists; (split; [reflexivity|literal])|]. split; [apply printable_b; reflexivity|]. intros n r L _. destruct n as [|n]; [lia|]. reflexivity.
      + subst f. split; [eexists; eexists; (split; [reflexivity|literal])|]. split; [apply printable_b; reflexivity|]. intros n r L _. destruct n as [|n]; [lia|]. reflexivity.
      + subst f. split; [eexists; eexists; (split; [reflexivity|literal])|]. split; [apply printable_b; reflexivity|]. intros n r L _. destruct n as [|n]; [lia|]. reflexivity.
    - exists (dump_str s). split; [reflexivity|]. split; [eexists; eexists; (split; [reflexivity|lia])|]. split; [apply dump_str_printable; assumption|].
      intros n r L _. destruct n as [|n]; [lia|]. rewrite pv_S. unfold dump_str. cbn [app]. change (34 =? 34) with true. cbn iota. rewrite <- app_assoc. cbn [app]. rewrite scan_string by assumption. reflexivity.
    - assert (F : exists ts, Forall2 good l ts).
      { clear W. induction l as [|x l IH]; [exists []; constructor|]. destruct (Forall_inv H (Forall_inv H1)) as (s & G). destruct (IH (Forall_inv_tail H) (Forall_inv_tail H1)) as (ts & F). exists (s :: ts). constructor; assumption. }
      destruct F as (ts & F). exists (91 :: glue [44; 32] ts ++ [93]). split; [|split; [|split]].
      + cbn [M_JsonText.dumps]. match goal with |- (do ts <- ?f l; _) = _ => assert (E : f l = Ok ts) end.
        { clear - F. induction F as [|x s l ts (G & _) F IH]; [reflexivity|]. rewrite G, IH. reflexivity. }
        rewrite E. reflexivity.
      + eexists; eexists; (split; [reflexivity|lia]).
      + constructor; [lia|]. apply Forall_app. split; [|repeat constructor; lia]. apply F_app; [repeat constructor; lia|]. clear - F. induction F as [|x s l ts (_ & _ & P & _) F IH]; constructor; assumption.
      + intros n r L D. destruct n as [|n]; [lia|]. cbn [length] in L. rewrite app_length in L. cbn [length] in L. rewrite pv_S. cbn [app]. change (91 =? 34) with false. change (91 =? 123) with false. change (91 =? 91) with true. cbn iota. rewrite <- app_assoc. cbn [app].
        destruct F as [|x s l ts G F]; [reflexivity|].
        assert (O : opens (glue [44; 32] (s :: ts))) by (destruct G as (_ & (c & q & -> & O) & _); cbn [glue app]; eexists; eexists; split; [reflexivity|exact O]).
        rewrite (ws_opens _ _ O), (next_opens _ _ _ O) by auto.
        rewrite (elements_good (x :: l) (s :: ts)); [reflexivity|constructor; assumption|discriminate|lia].
    - assert (F : exists ts, Forall2 (fun kv x => exists s, x = dump_str (key_text (fst kv)) ++ 58 :: 32 :: s /\ unicode (key_text (fst kv)) /\ good (snd kv) s) d ts).
      { clear W H2. induction d as [|x d IH]; [exists []; constructor|]. destruct (Forall_inv H1) as (_ & U & WX). destruct (Forall_inv H WX) as (s & G).
        destruct (IH (Forall_inv_tail H) (Forall_inv_tail H1)) as (ts & F). exists ((dump_str (key_text (fst x)) ++ 58 :: 32 :: s) :: ts). constructor; [exists s; auto|assumption]. }
      destruct F as (ts & F). exists (123 :: glue [44; 32] ts ++ [125]). split; [|split; [|split]].
      + cbn [M_JsonText.dumps]. match goal with |- (do ts <- ?f d; _) = _ => assert (E : f d = Ok ts) end.
        { clear - F H1. induction F as [|[k x] y d ts (s & -> & U & (G & _)) F IH]; [reflexivity|]. cbn [fst snd] in *. rewrite G, (IH (Forall_inv_tail H1)).
          destruct (Forall_inv H1) as (K & _). cbn [fst] in K. destruct k; try contradiction; reflexivity. }
        rewrite E. reflexivity.
      + eexists; eexists; (split; [reflexivity|lia]).
      + constructor; [lia|]. apply Forall_app. split; [|repeat constructor; lia]. apply F_app; [repeat constructor; lia|]. clear - F.
        induction F as [|x y l ts (s & -> & U & (_ & _ & P & _)) F IH]; constructor; [|assumption]. apply Forall_app. split; [apply dump_str_printable; exact U|]. constructor; [lia|constructor; [lia|exact P]].
      + intros n r L D. destruct n as [|n]; [lia|]. cbn [length] in L. rewrite app_length in L. cbn [length] in L. rewrite pv_S. cbn [app]. change (123 =? 34) with false. change (123 =? 123) with true. cbn iota. rewrite <- app_assoc. cbn [app].
        destruct F as [|x y d ts G F]; [reflexivity|].
        assert (O : opens (glue [44; 32] (y :: ts))) by (destruct G as (s & -> & _); eexists; eexists; split; [reflexivity|lia]).
        rewrite (ws_opens _ _ O), (next_opens _ _ _ O) by auto.
        rewrite (members_good (x :: d) (y :: ts)); [|constructor; assumption|discriminate|lia].
        rewrite of_pairs_nodup; [|rewrite map_map; exact H2]. cbn [as_read]. rewrite map_map. reflexivity.
  Qed.

  (** the file is plain ASCII and read as the tree, keys as texts *)
  Theorem C146_round_trip : forall v, writable v -> exists s, dumps v = Ok s /\ printable s /\ loads s = Some (as_read v).
  Proof.
    intros v W. destruct (all_good v W) as (s & D & O & P & G). exists s. split; [exact D|]. split; [exact P|]. unfold M_JsonText.loads.
    pose proof (ws_opens s [] O) as WS. rewrite app_nil_r in WS. rewrite WS. pose proof (G (S (2 * length s)) [] ltac:(lia) (or_introl eq_refl)) as E. rewrite app_nil_r in E. rewrite E. reflexivity.
  Qed.

  (** trees whose keys are all texts, as after reading, come back as they are *)
  Inductive text_keys : V -> Prop :=
  | tk_leaf v : match v with VList _ | VDict _ => False | _ => True end -> text_keys v
  | tk_list l : Forall text_keys l -> text_keys (VList l)
  | tk_dict d : Forall (fun kv => (exists k, fst kv = KStr k) /\ text_keys (snd kv)) d -> text_keys (VDict d).
  Lemma text_keys_same : forall v, text_keys v -> as_read v = v.
  Proof.
    induction v using value_ind'; intros T; try reflexivity; inversion T; subst; try contradiction; cbn [as_read]; f_equal.
    - clear T. induction l as [|x l IH]; [reflexivity|]. cbn [map]. f_equal; [exact (Forall_inv H (Forall_inv H1))|exact (IH (Forall_inv_tail H) (Forall_inv_tail H1))].
    - clear T. induction d as [|[k x] d IH]; [reflexivity|]. cbn [map]. f_equal; [|exact (IH (Forall_inv_tail H) (Forall_inv_tail H1))].
      destruct (Forall_inv H1) as ((k' & E) & T). cbn [fst snd] in *. rewrite E. cbn [key_text]. f_equal. exact (Forall_inv H T).
  Qed.
  Lemma as_read_text_keys : forall v, writable v -> text_keys (as_read v).
  Proof.
    induction v using value_ind'; intros W; inversion W; subst; cbn [as_read]; try (apply tk_leaf; exact I).
    - apply tk_list. clear W. induction l as [|x l IH]; [constructor|]. constructor; [exact (Forall_inv H (Forall_inv H1))|exact (IH (Forall_inv_tail H) (Forall_inv_tail H1))].
    - apply tk_dict. clear W H2. induction d as [|x d IH]; [constructor|]. constructor; [|exact (IH (Forall_inv_tail H) (Forall_inv_tail H1))].
      cbn [fst snd]. split; [eauto|]. destruct (Forall_inv H1) as (_ & _ & WX). exact (Forall_inv H WX).
  Qed.
  Theorem C146_same : forall v, writable v -> text_keys v -> exists s, dumps v = Ok s /\ loads s = Some v.
  Proof. intros v W T. destruct (C146_round_trip v W) as (s & D & _ & L). rewrite (text_keys_same v T) in L. eauto. Qed.

  (** a file that is read and written again stays the same, letter by letter *)
  Theorem C146_rewrite : forall v s w, writable v -> dumps v = Ok s -> loads s = Some w -> dumps w = Ok s.
  Proof.
    intros v s w W D L. destruct (C146_round_trip v W) as (s' & D' & _ & L'). rewrite D in D'. injection D' as <-. rewrite L in L'. injection L' as ->. clear L.
    revert s D. induction v using value_ind'; intros tx D; inversion W; subst; try exact D.
    - cbn [as_read M_JsonText.dumps] in *. match type of D with (do ts <- ?f l; _) = _ => assert (E : f (map as_read l) = f l) end; [|rewrite E; exact D].
      assert (X : Forall (fun x => dumps (as_read x) = dumps x) l).
      { rewrite Forall_forall in *. intros x I. destruct (all_good x (H1 x I)) as (q & G & _). rewrite G. apply H; auto. }
      clear - X. induction X as [|x l E X IH]; [reflexivity|]. cbn [map]. rewrite E, IH. reflexivity.
    - cbn [as_read M_JsonText.dumps] in *. match type of D with (do ts <- ?f d; _) = _ => assert (E : f (map (fun kv => (KStr (key_text (fst kv)), as_read (snd kv))) d) = f d) end; [|rewrite E; exact D].
      assert (X : Forall (fun kv => key_ok (fst kv) /\ dumps (as_read (snd kv)) = dumps (snd kv)) d).
      { rewrite Forall_forall in *. intros x I. destruct (H1 x I) as (K & _ & WX). split; [exact K|]. destruct (all_good _ WX) as (q & G & _). rewrite G. apply H; auto. }
      clear - X. induction X as [|[k x] d (K & E) X IH]; [reflexivity|]. cbn [map fst snd] in *. rewrite E, IH. destruct k; try contradiction; reflexivity.
  Qed.

  (** ** Result files *)
  Variable str : Ob -> text.
  (** what do_task collects: the leaves are numbers, proper texts or objects
      with a proper name *)
  Definition leaf_fine (v : V) : Prop :=
    match v with VFloat f | NFloat f => faithful f | VStr s => unicode s | VOther o => unicode (str o) | VBool _ | VInt _ | NInt _ => True | _ => False end.
  Inductive collected : V -> Prop :=
  | co_leaf v : leaf_fine v -> collected v
  | co_arr l : Forall collected l -> collected (VArr (VList l))
  | co_sparse l : Forall collected l -> collected (VSparse (VList l))
  | co_arr0 v : scalar v -> leaf_fine v -> collected (VArr v)
  | co_list l : Forall collected l -> collected (VList l)
  | co_dict d : Forall (fun kv => key_ok (fst kv) /\ unicode (key_text (fst kv)) /\ collected (snd kv)) d -> NoDup (map (fun kv => key_text (fst kv)) d) -> collected (VDict d).

  Lemma collected_writable : forall v, collected v -> writable (child str v).
  Proof.
    induction v using value_ind'; intros C; inversion C; subst; cbn [leaf_fine] in *; try contradiction; cbn [child]; try (constructor; assumption).
    - apply IHv. apply co_list. assumption.
    - destruct v; try contradiction; constructor; assumption.
    - apply IHv. apply co_list. assumption.
    - constructor. rewrite Forall_forall in *. intros x I. apply in_map_iff in I as (y & <- & I). auto.
    - constructor.
      + rewrite Forall_forall in *. intros x I. apply in_map_iff in I as (y & <- & I). cbn [fst snd]. destruct (H1 y I) as (K & U & CY). auto.
      + rewrite map_map. exact H2.
  Qed.

  Definition before39 (python : nat * nat) : Prop := (fst python < 3 \/ fst python = 3 /\ snd python < 9)%nat.
  Theorem C146_result_file : forall x, container x -> collected x ->
    exists s, dumps (json_decodable str x) = Ok s /\ printable s /\ forall python, before39 python -> json_load python s = Loaded (as_read (json_decodable str x)).
  Proof.
    intros x C R. assert (W : writable (json_decodable str x)) by (destruct x; try contradiction; unfold json_decodable; apply collected_writable; exact R).
    destruct (C146_round_trip _ W) as (s & D & P & L). exists s. split; [exact D|]. split; [exact P|]. intros [a b] B. unfold before39 in B. unfold M_JsonText.json_load. cbn [fst snd] in *. rewrite L.
    destruct (Nat.ltb_spec 3 a); [lia|]. destruct (Nat.eqb_spec a 3); [|reflexivity]. destruct (Nat.leb_spec 9 b); [lia|]. reflexivity.
  Qed.

  (** ** Valid JSON *)
  (** the grammar of RFC 8259: JSON-text, with blanks around the value *)
  Definition blank (s : text) : Prop := Forall (fun c => c = 32 \/ c = 9 \/ c = 10 \/ c = 13) s.
  Definition hexdigit (c : N) : Prop := 48 <= c <= 57 \/ 65 <= c <= 70 \/ 97 <= c <= 102.
  Inductive chars : text -> Prop :=
  | ch_nil : chars []
  | ch_plain c s : 32 <= c < 1114112 -> c <> 34 -> c <> 92 -> chars s -> chars (c :: s)
  | ch_escape c s : In c (t """\/bfnrt") -> chars s -> chars (92 :: c :: s)
  | ch_hex a b g d s : hexdigit a -> hexdigit b -> hexdigit g -> hexdigit d -> chars s -> chars (92 :: 117 :: a :: b :: g :: d :: s).
  Inductive rfc8259 : text -> Prop :=
  | rfc_literal s : s = t "true" \/ s = t "false" \/ s = t "null" -> rfc8259 s
  | rfc_number i f e : integral i -> fractional f -> exponential e -> rfc8259 (i ++ f ++ e)
  | rfc_string s : chars s -> rfc8259 (34 :: s ++ [34])
  | rfc_noarray w : blank w -> rfc8259 (91 :: w ++ [93])
  | rfc_array ts : ts <> [] -> Forall rfc8259 ts -> rfc8259 (91 :: glue [44] ts ++ [93])
  | rfc_noobject w : blank w -> rfc8259 (123 :: w ++ [125])
  | rfc_object ms : ms <> [] -> Forall (fun m => exists w k w' s, m = w ++ 34 :: k ++ 34 :: w' ++ 58 :: s /\ blank w /\ chars k /\ blank w' /\ rfc8259 s) ms -> rfc8259 (123 :: glue [44] ms ++ [125])
  | rfc_blanks w s w' : blank w -> rfc8259 s -> blank w' -> rfc8259 (w ++ s ++ w').

  (** no NaN and no infinity in the tree *)
  Inductive finite : V -> Prop :=
  | fi_float f s : repr f = Digits s -> finite (VFloat f)
  | fi_leaf v : match v with VFloat _ | VList _ | VDict _ => False | _ => True end -> finite v
  | fi_list l : Forall finite l -> finite (VList l)
  | fi_dict d : Forall (fun kv => finite (snd kv)) d -> finite (VDict d).

  Lemma hexd_digit : forall d, d < 16 -> hexdigit (hexd d).
  Proof. intros d H. unfold hexdigit, hexd. destruct (N.ltb_spec d 10); lia. Qed.
  Lemma hex4_chars : forall n s, n < 65536 -> chars s -> chars (92 :: 117 :: hex4 n ++ s).
  Proof. intros n s H C. unfold hex4. cbn [app]. apply ch_hex; try exact C; apply hexd_digit; try (apply N.mod_lt; lia); apply N.div_lt_upper_bound; lia. Qed.
  Lemma escape_chars : forall c s, c < 1114112 -> chars s -> chars (escape c ++ s).
  Proof.
    intros c s H C. unfold escape.
    destruct (N.eqb_spec c 92); [apply ch_escape; [vm_compute; tauto|exact C]|]. destruct (N.eqb_spec c 34); [apply ch_escape; [vm_compute; tauto|exact C]|].
    destruct (N.eqb_spec c 10); [apply ch_escape; [vm_compute; tauto|exact C]|]. destruct (N.eqb_spec c 13); [apply ch_escape; [vm_compute; tauto|exact C]|].
    destruct (N.eqb_spec c 9); [apply ch_escape; [vm_compute; tauto|exact C]|]. destruct (N.eqb_spec c 12); [apply ch_escape; [vm_compute; tauto|exact C]|].
    destruct (N.eqb_spec c 8); [apply ch_escape; [vm_compute; tauto|exact C]|].
    destruct ((32 <=? c) && (c <=? 126)) eqn:P.
    - apply andb_true_iff in P as [P1 P2]. apply N.leb_le in P1. apply N.leb_le in P2. cbn [app]. apply ch_plain; try assumption; lia.
    - destruct (N.ltb_spec c 65536); [apply hex4_chars; assumption|].
      assert (D1 := N.mod_lt ((c - 65536) / 1024) 1024 ltac:(lia)). assert (D2 := N.mod_lt (c - 65536) 1024 ltac:(lia)).
      cbn [app]. rewrite <- app_assoc. apply hex4_chars; [lia|]. cbn [app]. apply hex4_chars; [lia|exact C].
  Qed.
  Lemma string_chars : forall s, unicode s -> chars (concat (map escape s)).
  Proof. induction s as [|c s IH]; intros U; [constructor|]. cbn [map concat]. apply escape_chars; [apply (Forall_inv U)|apply IH; exact (Forall_inv_tail U)]. Qed.
  Lemma glue_blank : forall ts, glue [44; 32] ts = glue [44] (match ts with [] => [] | x :: l => x :: map (cons 32) l end).
  Proof. intros [|x l]; [reflexivity|]. cbn [glue]. f_equal. rewrite map_map. reflexivity. Qed.
  Lemma sep_rfc : forall s, rfc8259 s -> rfc8259 (32 :: s).
  Proof. intros s R. rewrite <- (app_nil_r s). apply (rfc_blanks [32] s []); [repeat constructor; auto|exact R|constructor]. Qed.

  (** without NaN and infinities the file is JSON *)
  Theorem C146_valid : forall v s, writable v -> finite v -> dumps v = Ok s -> rfc8259 s.
  Proof.
    induction v using value_ind'; intros tx W F D; inversion W; subst.
    - injection D as <-. apply rfc_literal. destruct b; auto.
    - injection D as <-. rewrite <- (app_nil_r (int_text z)). apply (rfc_number (int_text z) [] []); [apply int_text_integral|left; reflexivity|left; reflexivity].
    - injection D as <-. inversion F; subst; [|contradiction]. unfold faithful in *. unfold dump_float. rewrite H1 in *. destruct H0 as ((i & fr & e & -> & A1 & A2 & A3 & _) & _). apply rfc_number; assumption.
    - injection D as <-. apply rfc_string. apply string_chars. assumption.
    - inversion F; subst; [contradiction|]. cbn [M_JsonText.dumps] in D.
      match type of D with (do ts <- ?f l; _) = _ => destruct (f l) as [ts|] eqn:E; [|discriminate]; assert (X : Forall rfc8259 ts /\ (l <> [] -> ts <> [])) end.
      { clear D W F. revert ts E. induction l as [|x l IH]; intros ts E; [injection E as <-; split; [constructor|congruence]|].
        destruct (dumps x) as [x'|] eqn:EX; [|discriminate]. cbn [bind] in E. match type of E with (do r <- ?g; _) = _ => destruct g as [r|] eqn:ER; [|discriminate] end. injection E as <-.
        split; [|intros _; discriminate]. constructor; [exact (Forall_inv H x' (Forall_inv H1) (Forall_inv H2) EX)|]. apply (IH (Forall_inv_tail H) (Forall_inv_tail H1) (Forall_inv_tail H2)). reflexivity. }
      cbn [bind] in D. injection D as <-. destruct X as [X NE]. rewrite glue_blank. destruct ts as [|y ts]; [apply (rfc_noarray []); constructor|].
      apply rfc_array; [discriminate|]. constructor; [exact (Forall_inv X)|]. apply Forall_inv_tail in X. clear - X. induction X as [|z ts R X IH]; constructor; [apply sep_rfc; exact R|exact IH].
    - inversion F; subst; [contradiction|]. cbn [M_JsonText.dumps] in D.
      match type of D with (do ts <- ?f d; _) = _ => destruct (f d) as [ts|] eqn:E; [|discriminate]; assert (X : Forall (fun m => exists k s, m = 34 :: k ++ 34 :: 58 :: s /\ chars k /\ rfc8259 s) ts) end.
      { clear D W F H2. revert ts E. induction d as [|[kk x] d IH]; intros ts E; [injection E as <-; constructor|].
        destruct (dump_key kk) as [k'|] eqn:EK; [|discriminate]. cbn [bind] in E.
        destruct (dumps x) as [x'|] eqn:EX; [|discriminate]. cbn [bind] in E. match type of E with (do r <- ?g; _) = _ => destruct g as [r|] eqn:ER; [|discriminate] end. injection E as <-.
        destruct (Forall_inv H1) as (K & U & WX). constructor; [|apply (IH (Forall_inv_tail H) (Forall_inv_tail H1) (Forall_inv_tail H3)); reflexivity].
        cbn [fst snd] in *. exists (concat (map escape (key_text kk))), (32 :: x'). split.
        - destruct kk; try contradiction; injection EK as <-; unfold dump_str; cbn [app key_text]; rewrite <- app_assoc; reflexivity.
        - split; [apply string_chars; exact U|]. apply sep_rfc. exact (Forall_inv H x' WX (Forall_inv H3) EX). }
      cbn [bind] in D. injection D as <-. rewrite glue_blank. destruct ts as [|y ts]; [apply (rfc_noobject []); constructor|].
      apply rfc_object; [discriminate|]. constructor.
      + destruct (Forall_inv X) as (k & s & -> & C & R). exists [], k, [], s. repeat split; try assumption; constructor.
      + apply Forall_inv_tail in X. clear - X. induction X as [|z ts (k & s & -> & C & R) X IH]; constructor; [|exact IH]. exists [32], k, [], s. repeat split; try assumption; repeat constructor; auto.
  Qed.

  Lemma rfc_start : forall s, rfc8259 s -> exists w c q, s = w ++ c :: q /\ blank w /\ c <> 78.
  Proof.
    intros s R. induction R as [s L|i f e I F E|s C|w B|ts N F|w B|ms N F|w s w' B R IH B'].
    - exists []. destruct L as [->|[->| ->]]; eexists; eexists; (split; [reflexivity|split; [constructor|literal]]).
    - destruct (integral_opens i (f ++ e) I) as (c & q & E' & C). exists [], c, q. split; [exact E'|]. split; [constructor|lia].
    - exists []. eexists. eexists. split; [reflexivity|split; [constructor|lia]].
    - exists []. eexists. eexists. split; [reflexivity|split; [constructor|lia]].
    - exists []. eexists. eexists. split; [reflexivity|split; [constructor|lia]].
    - exists []. eexists. eexists. split; [reflexivity|split; [constructor|lia]].
    - exists []. eexists. eexists. split; [reflexivity|split; [constructor|lia]].
    - destruct IH as (v & c & q & -> & BV & N). exists (w ++ v), c, (q ++ w'). split; [rewrite <- !app_assoc; reflexivity|]. split; [apply Forall_app; auto|exact N].
  Qed.
  Lemma not_rfc : forall s, rfc8259 s -> s <> t "[NaN]".
  Proof.
    intros s R. induction R as [s L|i f e I F E|s C|w B|ts N F|w B|ms N F|w s w' B R IH B']; intros E0.
    - destruct L as [->|[->| ->]]; discriminate E0.
    - destruct (integral_opens i (f ++ e) I) as (c & q & E' & C). rewrite E' in E0. assert (E1 : c = 91) by (change (t "[NaN]") with (91 :: t "NaN]") in E0; congruence). lia.
    - discriminate E0.
    - change (t "[NaN]") with (91 :: t "NaN" ++ [93]) in E0. injection E0 as E0. change (w ++ [93] = t "NaN" ++ [93]) in E0. apply app_inj_tail in E0 as [-> _]. pose proof (Forall_inv B) as B0. destruct B0 as [B0|[B0|[B0|B0]]]; vm_compute in B0; discriminate B0.
    - change (t "[NaN]") with (91 :: t "NaN" ++ [93]) in E0. injection E0 as E0. change (glue [44] ts ++ [93] = t "NaN" ++ [93]) in E0. apply app_inj_tail in E0 as [E0 _]. destruct ts as [|x [|y ts]]; [congruence| |].
      + cbn [glue map concat] in E0. rewrite app_nil_r in E0. subst x. destruct (rfc_start _ (Forall_inv F)) as (w & c & q & E & B & NC). destruct w as [|c' w]; injection E as E1 _.
        * apply NC. rewrite <- E1. reflexivity.
        * pose proof (Forall_inv B) as B0. rewrite <- E1 in B0. destruct B0 as [B0|[B0|[B0|B0]]]; vm_compute in B0; discriminate B0.
      + rewrite glue_cons in E0. assert (I : In 44 (t "NaN")) by (rewrite <- E0; apply in_or_app; right; left; reflexivity). vm_compute in I. intuition discriminate.
    - discriminate E0.
    - discriminate E0.
    - destruct w as [|c w].
      + cbn [app] in E0. destruct w' as [|c w'] using rev_ind; [rewrite app_nil_r in E0; exact (IH E0)|]. rewrite app_assoc in E0. change (t "[NaN]") with (t "[NaN" ++ [93]) in E0.
        apply app_inj_tail in E0 as [_ ->]. unfold blank in B'. rewrite Forall_app in B'. destruct B' as [_ B']. pose proof (Forall_inv B'). cbn beta in H. lia.
      + change (t "[NaN]") with (91 :: t "NaN]") in E0. injection E0 as -> _. pose proof (Forall_inv B) as B0. cbn beta in B0. lia.
  Qed.
  (** NaN makes the file invalid, although python reads it *)
  Theorem C146_nan_refuted : forall f, repr f = FNaN -> f = f_nan -> exists v s, container v /\ writable v /\ dumps v = Ok s /\ ~ rfc8259 s.
  Proof.
    intros f E EN. exists (VList [VFloat f]), (t "[NaN]"). split; [exact I|]. split; [constructor; constructor; [constructor; unfold faithful; rewrite E; exact EN|constructor]|].
    split; [cbn [M_JsonText.dumps bind]; unfold dump_float; rewrite E; reflexivity|]. intros R. exact (not_rfc _ R eq_refl).
  Qed.

  (** the scripts that read result files do not work with Python 3.9 or later *)
  Theorem C146_python39_refuted : exists python, forall v s, dumps v = Ok s -> forall w, json_load python s <> Loaded w.
  Proof. exists (3, 9)%nat. intros v s _ w. discriminate. Qed.
  Theorem C146_python39 : forall python s, ~ before39 python -> json_load python s = NoSuchArgument.
  Proof.
    intros [a b] s B. unfold before39 in B. unfold M_JsonText.json_load. cbn [fst snd] in *. destruct (Nat.ltb_spec 3 a); [reflexivity|].
    destruct (Nat.eqb_spec a 3); [|lia]. destruct (Nat.leb_spec 9 b); [reflexivity|lia].
  Qed.

  (** keys that are numbers come back as texts (the scripts use texts); a key
      and its text become one; halves of surrogate pairs merge *)
  Theorem C146_keys_refuted : exists v s, writable v /\ dumps v = Ok s /\ loads s <> Some v.
  Proof.
    exists (VDict [(KInt 0, VBool true)]), (t "{""0"": true}"). split; [|split; [reflexivity|vm_compute; discriminate]].
    constructor; repeat constructor; cbn; try exact I; try lia; auto.
  Qed.
  Theorem C146_same_keys_refuted : exists d s, NoDup (map fst d) /\ dumps (VDict d) = Ok s /\ forall d', loads s = Some (VDict d') -> (length d' < length d)%nat.
  Proof.
    exists [(KInt 1, VBool true); (KStr (t "1"), VBool false)], (t "{""1"": true, ""1"": false}"). split; [|split; [reflexivity|]].
    - repeat constructor; cbn; intuition discriminate.
    - intros d' E. assert (E' : loads (t "{""1"": true, ""1"": false}") = Some (VDict [(KStr (t "1"), VBool false)])) by reflexivity. rewrite E in E'. injection E' as ->. cbn. lia.
  Qed.
  Theorem C146_surrogates_refuted : exists x s, dumps (VStr x) = Ok s /\ loads s <> Some (VStr x).
  Proof. exists [55357; 56832], (t """\ud83d\ude00"""). split; [reflexivity|]. vm_compute. discriminate. Qed.
End Values.

(** ** A result file *)
(** floats that end in a half, and NaN *)
Definition ex_repr (f : option Z) : frepr := match f with Some z => Digits (int_text z ++ t ".5") | None => FNaN end.
Fixpoint ex_head (s : text) : text := match s with c :: r => if c =? 46 then [] else c :: ex_head r | [] => [] end.
Definition ex_read (s : text) : option Z := Some (text_int (ex_head s)).
Definition ex_str (o : nat) : text := t "None".
Definition ex_info : value (option Z) Empty_set nat text :=
  VDict [(KStr (t "model"), VDict [(KStr (t "method"), VStr [233; 34; 128512]); (KStr (t "random_state"), VOther 0%nat)]);
         (KStr (t "prediction"), VDict [(KInt 0, VArr (VList [VList [VFloat (Some (-3)%Z); NInt 12]; VList []])); (KInt 1, NFloat None)])].
Definition ex_file : text := t "{""model"": {""method"": ""\u00e9\""\ud83d\ude00"", ""random_state"": ""None""}, ""prediction"": {""0"": [[-3.5, 12], []], ""1"": NaN}}".
Example C146_nonvacuous :
  container ex_info /\ collected ex_repr ex_read None (Some 0%Z) (Some 0%Z) ex_str ex_info /\
  dumps ex_repr (json_decodable ex_str ex_info) = Ok ex_file /\
  loads (Cx := Empty_set) ex_read None (Some 0%Z) (Some 0%Z) 7%nat ex_file =
    Some (VDict [(KStr (t "model"), VDict [(KStr (t "method"), VStr [233; 34; 128512]); (KStr (t "random_state"), VStr (t "None"))]);
                 (KStr (t "prediction"), VDict [(KStr (t "0"), VList [VList [VFloat (Some (-3)%Z); VInt 12]; VList []]); (KStr (t "1"), VFloat None)])]) /\
  finite ex_repr (VList [VFloat (Some 4%Z) : value (option Z) Empty_set nat text; VStr (t "a")]).
Proof.
  assert (U : forall s, forallb (fun c => (c <? 1114112) && negb ((55296 <=? c) && (c <=? 57343))) s = true -> unicode s).
  { intros s H. rewrite forallb_forall in H. apply Forall_forall. intros c I. apply H in I. apply andb_true_iff in I as [A B]. apply N.ltb_lt in A. apply negb_true_iff, andb_false_iff in B. rewrite !N.leb_gt in B. lia. }
  split; [exact I|]. split; [|split; [vm_compute; reflexivity|split; [vm_compute; reflexivity|]]].
  - apply co_dict; [|repeat constructor; cbn; intuition discriminate]. repeat (apply Forall_cons || apply Forall_nil); cbn [fst snd key_text]; (split; [exact I|]); (split; [apply U; reflexivity|]).
    + apply co_dict; [|repeat constructor; cbn; intuition discriminate]. repeat (apply Forall_cons || apply Forall_nil); cbn [fst snd key_text]; (split; [exact I|]); (split; [apply U; reflexivity|]); apply co_leaf; apply U; reflexivity.
    + apply co_dict; [|repeat constructor; cbn; intuition discriminate]. repeat (apply Forall_cons || apply Forall_nil); cbn [fst snd key_text]; (split; [exact I|]); (split; [apply U; reflexivity|]).
      * apply co_arr. repeat (apply Forall_cons || apply Forall_nil); apply co_list; repeat (apply Forall_cons || apply Forall_nil).
        -- apply co_leaf. split; [|reflexivity]. exists (t "-3"), (t ".5"), []. split; [reflexivity|]. split; [|split; [right; exists (t "5"); split; [reflexivity|split; [discriminate|repeat constructor; vm_compute; discriminate]]|split; [left; reflexivity|left; discriminate]]].
           exists (t "-"), (t "3"). repeat split; try discriminate; [right; reflexivity|repeat constructor; vm_compute; discriminate|right; discriminate].
        -- apply co_leaf. exact I.
      * apply co_leaf. reflexivity.
  - apply fi_list. constructor; [apply (fi_float _ _ (t "4.5")); reflexivity|constructor; [apply fi_leaf; exact I|constructor]].
Qed.
Print Assumptions C146_fuel.
Print Assumptions C146_round_trip.
Print Assumptions C146_same.
Print Assumptions C146_rewrite.
Print Assumptions C146_result_file.
Print Assumptions C146_valid.
Print Assumptions C146_nan_refuted.
Print Assumptions C146_python39_refuted.
Print Assumptions C146_python39.
Print Assumptions C146_keys_refuted.
Print Assumptions C146_same_keys_refuted.
Print Assumptions C146_surrogates_refuted.
