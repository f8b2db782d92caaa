(** json.Number literals: big.Rat.SetString, json.Number.Int64 and the JSON
    number grammar (encoding/json), as used by utils.go:117-169. *)
From Verif Require Export Value.
Open Scope Z_scope.

Definition is_digit (c : ascii) : bool :=
  let n := N_of_ascii c in (N.leb 48 n && N.leb n 57)%bool.
Definition digit_val (c : ascii) : Z := Z.of_N (N_of_ascii c) - 48.

(** Longest prefix of decimal digits, and the rest. *)
Fixpoint take_digits (s : string) : string * string :=
  match s with
  | EmptyString => (EmptyString, EmptyString)
  | String c s' =>
      if is_digit c
      then let '(d, r) := take_digits s' in (String c d, r)
      else (EmptyString, s)
  end.

(** Value of a digit string, most significant digit first. *)
Fixpoint digits_val (acc : Z) (s : string) : Z :=
  match s with
  | EmptyString => acc
  | String c s' => digits_val (acc * 10 + digit_val c) s'
  end.

(** Optional sign. *)
Definition take_sign (s : string) : bool * string :=
  match s with
  | String "-" s' => (true, s')
  | String "+" s' => (false, s')
  | _ => (false, s)
  end.

(** Optional fraction ". digits". *)
Definition take_frac (s : string) : string * string :=
  match s with
  | String "." s' => take_digits s'
  | _ => (EmptyString, s)
  end.

(** Optional exponent "e|E [sign] digits", which must end the literal. *)
Definition take_exp (s : string) : option Z :=
  match s with
  | EmptyString => Some 0
  | String c s' =>
      if (Ascii.eqb c "e" || Ascii.eqb c "E")%bool then
        let '(neg, s1) := take_sign s' in
        let '(ds, r) := take_digits s1 in
        match ds, r with
        | EmptyString, _ => None
        | _, EmptyString => Some (if neg then - digits_val 0 ds else digits_val 0 ds)
        | _, _ => None
        end
      else None
  end.

(** A decimal literal: sign, integer digits, fraction digits, exponent. *)
Record dec := Dec { d_neg : bool; d_int : string; d_frac : string; d_exp : Z }.

(** Syntax accepted by big.Rat.SetString, restricted to decimal literals
    [sign] digits [. digits] [e [sign] digits] with at least one mantissa
    digit.  Simplification: SetString also accepts "a/b", "0x..", "p"
    exponents and "_" separators; no such text is a JSON number, so they can
    only reach the library inside a hand-made json.Number given to
    NewRawLoader, and the model treats them as rejected. *)
Definition parse_dec (s : string) : option dec :=
  let '(neg, s1) := take_sign s in
  let '(ip, s2) := take_digits s1 in
  let '(fp, s3) := take_frac s2 in
  match append ip fp with
  | EmptyString => None
  | _ =>
      match take_exp s3 with
      | None => None
      | Some e => Some (Dec neg ip fp e)
      end
  end.

(** Decimal exponent of the last mantissa digit, and the mantissa. *)
Definition dec_mant (d : dec) : Z := digits_val 0 (append (d_int d) (d_frac d)).
Definition dec_e10 (d : dec) : Z := d_exp d - Z.of_nat (String.length (d_frac d)).

(** m * 10^e as a fraction. *)
Definition q10 (m e : Z) : Q :=
  if 0 <=? e then (m * 10 ^ e) # 1
  else m # (Z.to_pos (10 ^ (- e))).

Definition dec_val (d : dec) : Q :=
  let q := q10 (dec_mant d) (dec_e10 d) in
  if d_neg d then Qopp q else q.

(** new(big.Rat).SetString(s) (utils.go:121,161; validation.go:777).  [lim]
    bounds the magnitude of the decimal exponent: since Go 1.17.7 SetString
    fails when it exceeds 10^6 and the mantissa is not zero; before that the
    bound is the range of int64.  big.Rat keeps fractions in lowest terms:
    [Qred]. *)
Definition rat_of (lim : Z) (s : string) : option Q :=
  match parse_dec s with
  | None => None
  | Some d =>
      if (dec_mant d =? 0) || (Z.abs (dec_e10 d) <=? lim)
      then Some (Qred (dec_val d))
      else None
  end.

(** big.Rat.IsInt: the denominator in lowest terms is 1. *)
Definition rat_is_int (q : Q) : bool := Pos.eqb (Qden (Qred q)) 1.

(** checkJSONInteger, utils.go:117-125. *)
Definition checkJSONInteger (lim : Z) (s : string) : bool :=
  match rat_of lim s with
  | Some q => rat_is_int q
  | None => false
  end.

(** json.Number.Int64 = strconv.ParseInt(s, 10, 64) (utils.go:143). *)
Definition parse_int64 (s : string) : option Z :=
  let '(neg, s1) := take_sign s in
  let '(ds, r) := take_digits s1 in
  match ds, r with
  | EmptyString, _ => None
  | _, EmptyString =>
      let n := if neg then - digits_val 0 ds else digits_val 0 ds in
      if (- 2 ^ 63 <=? n) && (n <? 2 ^ 63) then Some n else None
  | _, _ => None
  end.

(** mustBeInteger, utils.go:133-155 (on 64-bit platforms [int] is int64). *)
Definition mustBeInteger (lim : Z) (v : value) : option Z :=
  match v with
  | VNum s => if checkJSONInteger lim s then parse_int64 s else None
  | _ => None
  end.

(** mustBeNumber, utils.go:157-169. *)
Definition mustBeNumber (lim : Z) (v : value) : option Q :=
  match v with
  | VNum s => rat_of lim s
  | _ => None
  end.

(** The JSON number grammar of encoding/json: scan the longest JSON number at
    the head of the text.  "-"? ("0" | [1-9][0-9]* ) ("." [0-9]+)?
    ([eE] [+-]? [0-9]+)? *)
Definition scan_sign (s : string) : string * string :=
  match s with
  | String "-" s' => ("-"%string, s')
  | _ => (EmptyString, s)
  end.
Definition scan_int (s : string) : option (string * string) :=
  match s with
  | String "0" s' => Some ("0"%string, s')
  | String c _ => if is_digit c then Some (take_digits s) else None
  | EmptyString => None
  end.
Definition scan_frac (s : string) : option (string * string) :=
  match s with
  | String "." s' =>
      let '(d, r) := take_digits s' in
      match d with EmptyString => None | _ => Some (String "." d, r) end
  | _ => Some (EmptyString, s)
  end.
Definition scan_exp (s : string) : option (string * string) :=
  match s with
  | String c s' =>
      if (Ascii.eqb c "e" || Ascii.eqb c "E")%bool then
        match s' with
        | String c2 s2 =>
            if (Ascii.eqb c2 "+" || Ascii.eqb c2 "-")%bool then
              let '(d, r) := take_digits s2 in
              match d with EmptyString => None | _ => Some (String c (String c2 d), r) end
            else
              let '(d, r) := take_digits s' in
              match d with EmptyString => None | _ => Some (String c d, r) end
        | EmptyString => None
        end
      else Some (EmptyString, s)
  | EmptyString => Some (EmptyString, EmptyString)
  end.
Definition scan_number (s : string) : option (string * string) :=
  let '(sg, s1) := scan_sign s in
  match scan_int s1 with
  | None => None
  | Some (ip, s2) =>
      match scan_frac s2 with
      | None => None
      | Some (fp, s3) =>
          match scan_exp s3 with
          | None => None
          | Some (ep, s4) => Some (append sg (append ip (append fp ep)), s4)
          end
      end
  end.

(** encoding/json isValidNumber: the whole text is one JSON number. *)
Definition json_number (s : string) : bool :=
  match scan_number s with
  | Some (_, EmptyString) => true
  | _ => false
  end.
