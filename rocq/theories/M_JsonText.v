(** * The text of a result file: json.dumps and json.load

    Python's json module as the scripts call it: [json.dumps(info)] with its
    defaults (exp_recsys_util.py 330, exp_recsys_fold_merge.py 176,
    stats_recsys.py 131) and [json.load(fp, encoding='utf-8')]
    (exp_recsys_fold_merge.py 93 and 124, stats_recsys.py 105).  A text is the
    list of its code points; ensure_ascii makes the files plain ASCII, so their
    encoding does not matter.  Values are those of M_Json.  How a float is
    written and read is an argument.  Integers beyond python's limit of digits
    and recursion beyond its limit are left out. *)
From Coq Require Import String Decimal DecimalN List ZArith NArith Bool.
From Verif Require Import M_Py M_Json M_Convert.
Import ListNotations.
Open Scope N_scope.

(** [float.__repr__] of a finite number, or one of the names in
    json.encoder.floatstr *)
Inductive frepr := Digits (s : text) | FNaN | FInf | FNegInf.

(** ** Writing *)
(** one digit of '{0:04x}' *)
Definition hexd (d : N) : N := if d <? 10 then 48 + d else 87 + d.
Definition hex4 (n : N) : text := [hexd (n / 4096); hexd (n / 256 mod 16); hexd (n / 16 mod 16); hexd (n mod 16)].

(** py_encode_basestring_ascii: the replacement of one character *)
Definition escape (c : N) : text :=
  if c =? 92 then [92; 92] else if c =? 34 then [92; 34]
  else if c =? 10 then [92; 110] else if c =? 13 then [92; 114] else if c =? 9 then [92; 116] else if c =? 12 then [92; 102] else if c =? 8 then [92; 98]
  else if (32 <=? c) && (c <=? 126) then [c]
  else if c <? 65536 then 92 :: 117 :: hex4 c
  else 92 :: 117 :: hex4 (55296 + (c - 65536) / 1024 mod 1024) ++ 92 :: 117 :: hex4 (56320 + (c - 65536) mod 1024).
Definition dump_str (s : text) : text := 34 :: concat (map escape s) ++ [34].

(** [int.__repr__] *)
Fixpoint uint_text (u : uint) : text :=
  match u with
  | Nil => [] | D0 u => 48 :: uint_text u | D1 u => 49 :: uint_text u | D2 u => 50 :: uint_text u | D3 u => 51 :: uint_text u | D4 u => 52 :: uint_text u
  | D5 u => 53 :: uint_text u | D6 u => 54 :: uint_text u | D7 u => 55 :: uint_text u | D8 u => 56 :: uint_text u | D9 u => 57 :: uint_text u
  end.
Definition int_text (z : Z) : text := match z with Zneg p => 45 :: uint_text (N.to_uint (Npos p)) | _ => uint_text (N.to_uint (Z.to_N z)) end.

Definition glue (sep : text) (l : list text) : text :=
  match l with [] => [] | x :: l => x ++ concat (map (fun y => sep ++ y) l) end.

(** ** Reading *)
(** json.decoder.WHITESPACE *)
Fixpoint ws (s : text) : text :=
  match s with c :: r => if (c =? 32) || (c =? 9) || (c =? 10) || (c =? 13) then ws r else s | [] => [] end.
Definition next (c : N) (s : text) : option text := match s with x :: r => if x =? c then Some r else None | [] => None end.

Definition unhexd (c : N) : option N :=
  if (48 <=? c) && (c <=? 57) then Some (c - 48) else if (97 <=? c) && (c <=? 102) then Some (c - 87) else if (65 <=? c) && (c <=? 70) then Some (c - 55) else None.
Definition unhex4 (a b c d : N) : option N :=
  match unhexd a, unhexd b, unhexd c, unhexd d with Some a, Some b, Some c, Some d => Some (((a * 16 + b) * 16 + c) * 16 + d) | _, _, _, _ => None end.
(** json.decoder.BACKSLASH *)
Definition backslash (c : N) : option N :=
  if (c =? 34) || (c =? 92) || (c =? 47) then Some c else if c =? 98 then Some 8 else if c =? 102 then Some 12 else if c =? 110 then Some 10
  else if c =? 114 then Some 13 else if c =? 116 then Some 9 else None.
Definition leading (n : N) : bool := (55296 <=? n) && (n <=? 56319).
Definition trailing (n : N) : bool := (56320 <=? n) && (n <=? 57343).

(** scanstring behind the opening quote, strict *)
Fixpoint scan (s : text) : option (text * text) :=
  match s with
  | [] => None
  | c :: r =>
      if c =? 34 then Some ([], r)
      else if c =? 92 then
        match r with
        | [] => None
        | e :: r1 =>
            if e =? 117 then
              match r1 with
              | a :: b :: g :: d :: r2 =>
                  match unhex4 a b g d with
                  | None => None
                  | Some n =>
                      let alone := match scan r2 with Some (x, q) => Some (n :: x, q) | None => None end in
                      if leading n then
                        match r2 with
                        | x1 :: x2 :: rest =>
                            if (x1 =? 92) && (x2 =? 117) then
                              match rest with
                              | a' :: b' :: g' :: d' :: r3 =>
                                  match unhex4 a' b' g' d' with
                                  | None => None
                                  | Some m => if trailing m then match scan r3 with Some (x, q) => Some (65536 + ((n - 55296) * 1024 + (m - 56320)) :: x, q) | None => None end
                                              else alone
                                  end
                              | _ => None
                              end
                            else alone
                        | _ => alone
                        end
                      else alone
                  end
              | _ => None
              end
            else match backslash e with
                 | None => None
                 | Some n => match scan r1 with Some (x, q) => Some (n :: x, q) | None => None end
                 end
        end
      else if c <? 32 then None
      else match scan r with Some (x, q) => Some (c :: x, q) | None => None end
  end.

(** json.scanner.NUMBER_RE: integer part, fraction, exponent, rest *)
Definition isdig (c : N) : bool := (48 <=? c) && (c <=? 57).
Fixpoint spand (s : text) : text * text :=
  match s with c :: r => if isdig c then let p := spand r in (c :: fst p, snd p) else ([], s) | [] => ([], []) end.
Definition fraction (s : text) : text * text :=
  match next 46 s with
  | Some r => let p := spand r in match fst p with [] => ([], s) | _ => (46 :: fst p, snd p) end
  | None => ([], s)
  end.
Definition exponent (s : text) : text * text :=
  match s with
  | e :: r => if (e =? 101) || (e =? 69) then
                let g := match r with c :: r' => if (c =? 43) || (c =? 45) then ([c], r') else ([], r) | [] => ([], r) end in
                let p := spand (snd g) in match fst p with [] => ([], s) | _ => (e :: fst g ++ fst p, snd p) end
              else ([], s)
  | [] => ([], [])
  end.
Definition integer (s : text) : option (text * text) :=
  let g := match next 45 s with Some r => ([45], r) | None => ([], s) end in
  match snd g with
  | c :: r => if c =? 48 then Some (fst g ++ [48], r) else if isdig c then let p := spand (snd g) in Some (fst g ++ fst p, snd p) else None
  | [] => None
  end.
Definition number (s : text) : option (text * text * text * text) :=
  match integer s with
  | Some (i, r) => let f := fraction r in let e := exponent (snd f) in Some (i, fst f, fst e, snd e)
  | None => None
  end.

(** [int] of the integer part *)
Fixpoint text_uint (s : text) : uint :=
  match s with
  | [] => Nil
  | c :: r => (if c =? 48 then D0 else if c =? 49 then D1 else if c =? 50 then D2 else if c =? 51 then D3 else if c =? 52 then D4
               else if c =? 53 then D5 else if c =? 54 then D6 else if c =? 55 then D7 else if c =? 56 then D8 else D9) (text_uint r)
  end.
Definition text_int (s : text) : Z := match next 45 s with Some r => (- Z.of_N (N.of_uint (text_uint r)))%Z | None => Z.of_N (N.of_uint (text_uint s)) end.

(** the rest of [s] behind [w], if it begins with it *)
Fixpoint behind (w s : text) : option text :=
  match w, s with [], _ => Some s | c :: w, x :: s => if x =? c then behind w s else None | _, [] => None end.

Section Text.
  Context {Fl Cx Ob : Type}.
  Notation V := (value Fl Cx Ob text).
  Notation key := (jkey Ob text).
  Variable repr : Fl -> frepr.
  Variables (read_float : text -> Fl) (f_nan f_inf f_neginf : Fl) (none : Ob).

  Definition dump_float (f : Fl) : text :=
    match repr f with Digits s => s | FNaN => t "NaN" | FInf => t "Infinity" | FNegInf => t "-Infinity" end.

  (** keys: strings and integers *)
  Definition dump_key (k : key) : res text :=
    match k with KStr s => Ok (dump_str s) | KInt z => Ok (dump_str (int_text z)) | _ => Raise TypeError end.

  (** JSONEncoder.iterencode with the separators ', ' and ': '.  Objects that
      json_decodable does not leave behind count as not serialisable (json
      would write None, tuples and np.float64). *)
  Fixpoint dumps (v : V) : res text :=
    match v with
    | VStr s => Ok (dump_str s)
    | VBool b => Ok (if b then t "true" else t "false")
    | VInt z => Ok (int_text z)
    | VFloat f => Ok (dump_float f)
    | VList l => do ts <- (fix items (l : list V) := match l with
                   | [] => Ok []
                   | x :: l => do x' <- dumps x; do r <- items l; Ok (x' :: r)
                   end) l;
                 Ok (91 :: glue [44; 32] ts ++ [93])
    | VDict d => do ts <- (fix items (d : list (key * V)) := match d with
                   | [] => Ok []
                   | (k, x) :: d => do k' <- dump_key k; do x' <- dumps x; do r <- items d; Ok ((k' ++ 58 :: 32 :: x') :: r)
                   end) d;
                 Ok (123 :: glue [44; 32] ts ++ [125])
    | _ => Raise TypeError
    end.

  (** [dict(pairs)] *)
  Definition of_pairs (l : list (text * V)) : V :=
    VDict (map (fun kv => (KStr (fst kv), snd kv)) (fold_left (fun d kv => dict_set text_eqb d (fst kv) (snd kv)) l [])).

  (** py_make_scanner, JSONArray and JSONObject.  None is JSONDecodeError; [n] is
      never used up (T_JsonText). *)
  Fixpoint pv (n : nat) (s : text) : option (V * text) :=
    match n with
    | O => None
    | S n =>
        match s with
        | [] => None
        | c :: r =>
            if c =? 34 then match scan r with Some (x, q) => Some (VStr x, q) | None => None end
            else if c =? 123 then
              match next 125 (ws r) with Some q => Some (of_pairs [], q)
              | None => match members n (ws r) with Some (l, q) => Some (of_pairs l, q) | None => None end end
            else if c =? 91 then
              match next 93 (ws r) with Some q => Some (VList [], q)
              | None => match elements n (ws r) with Some (l, q) => Some (VList l, q) | None => None end end
            else match behind (t "null") s with Some q => Some (VOther none, q)
            | None => match behind (t "true") s with Some q => Some (VBool true, q)
            | None => match behind (t "false") s with Some q => Some (VBool false, q)
            | None => match number s with
                      | Some (i, f, e, q) => match f, e with [], [] => Some (VInt (text_int i), q) | _, _ => Some (VFloat (read_float (i ++ f ++ e)), q) end
                      | None => match behind (t "NaN") s with Some q => Some (VFloat f_nan, q)
                      | None => match behind (t "Infinity") s with Some q => Some (VFloat f_inf, q)
                      | None => match behind (t "-Infinity") s with Some q => Some (VFloat f_neginf, q)
                      | None => None end end end end end end end
        end
    end
  with elements (n : nat) (s : text) : option (list V * text) :=
    match n with
    | O => None
    | S n =>
        match pv n s with
        | None => None
        | Some (v, r) =>
            match next 93 (ws r) with
            | Some q => Some ([v], q)
            | None => match next 44 (ws r) with
                      | None => None
                      | Some q => match elements n (ws q) with Some (l, q) => Some (v :: l, q) | None => None end
                      end
            end
        end
    end
  with members (n : nat) (s : text) : option (list (text * V) * text) :=
    match n with
    | O => None
    | S n =>
        match next 34 s with
        | None => None
        | Some r =>
            match scan r with
            | None => None
            | Some (k, r) =>
                match next 58 (ws r) with
                | None => None
                | Some r =>
                    match pv n (ws r) with
                    | None => None
                    | Some (v, r) =>
                        match next 125 (ws r) with
                        | Some q => Some ([(k, v)], q)
                        | None => match next 44 (ws r) with
                                  | None => None
                                  | Some q => match members n (ws q) with Some (l, q) => Some ((k, v) :: l, q) | None => None end
                                  end
                        end
                    end
                end
            end
        end
    end.

  (** JSONDecoder.decode *)
  Definition loads (s : text) : option V :=
    match pv (S (2 * length s)) (ws s) with Some (v, r) => match ws r with [] => Some v | _ => None end | None => None end.

  (** [json.load(fp, encoding='utf-8')]: since Python 3.9 there is no such
      argument; before, it is ignored *)
  Inductive outcome := Loaded (v : V) | DecodeError | NoSuchArgument.
  Definition json_load (python : nat * nat) (s : text) : outcome :=
    if (Nat.ltb 3 (fst python) || (Nat.eqb (fst python) 3 && Nat.leb 9 (snd python)))%bool then NoSuchArgument
    else match loads s with Some v => Loaded v | None => DecodeError end.
End Text.
