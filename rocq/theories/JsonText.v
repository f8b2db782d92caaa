(** encoding/json as used by the library: json.Marshal, json.Unmarshal and
    json.Decoder (jsonLoader.go:372-386, utils.go:73-104), and utf8.RuneCount
    (validation.go:728,738). *)
From Verif Require Export Float64.
Open Scope string_scope.
Open Scope list_scope.
Open Scope nat_scope.

(** ** UTF-8 (unicode/utf8) *)

Definition byte_in (lo hi : N) (c : ascii) : bool :=
  (N.leb lo (N_of_ascii c) && N.leb (N_of_ascii c) hi)%bool.
Definition cont (c : ascii) : bool := byte_in 128 191 c.

(** Well-formed 2-, 3- and 4-byte sequences (the acceptRanges table of
    unicode/utf8: no overlong forms, no surrogates, at most U+10FFFF). *)
Definition valid2 (a b : ascii) : bool := byte_in 194 223 a && cont b.
Definition valid3 (a b c : ascii) : bool :=
  (byte_in 224 224 a && byte_in 160 191 b && cont c)
  || ((byte_in 225 236 a || byte_in 238 239 a) && cont b && cont c)
  || (byte_in 237 237 a && byte_in 128 159 b && cont c).
Definition valid4 (a b c d : ascii) : bool :=
  (byte_in 240 240 a && byte_in 144 191 b && cont c && cont d)
  || (byte_in 241 243 a && cont b && cont c && cont d)
  || (byte_in 244 244 a && byte_in 128 143 b && cont c && cont d).

(** One step of utf8.DecodeRune: the bytes of a rune, or one invalid byte. *)
Inductive chunk :=
| C1 (a : ascii)            (* ASCII *)
| C2 (a b : ascii)
| C3 (a b c : ascii)
| C4 (a b c d : ascii)
| CBad (a : ascii).         (* RuneError, width 1 *)

(** Split a byte string as repeated utf8.DecodeRune does. *)
Fixpoint chunks (s : string) : list chunk :=
  match s with
  | EmptyString => []
  | String a r =>
      if byte_in 0 127 a then C1 a :: chunks r else
      match r with
      | EmptyString => CBad a :: chunks r
      | String b r1 =>
          if valid2 a b then C2 a b :: chunks r1 else
          match r1 with
          | EmptyString => CBad a :: chunks r
          | String c r2 =>
              if valid3 a b c then C3 a b c :: chunks r2 else
              match r2 with
              | EmptyString => CBad a :: chunks r
              | String d r3 =>
                  if valid4 a b c d then C4 a b c d :: chunks r3
                  else CBad a :: chunks r
              end
          end
      end
  end.

(** utf8.RuneCount: every rune, and every invalid byte, counts one. *)
Definition rune_count (s : string) : Z := Z.of_nat (length (chunks s)).

(** UTF-8 encoding of a code point (utf8.EncodeRune). *)
Definition byte (n : N) : ascii := ascii_of_N n.
Definition utf8_encode (cp : N) : string :=
  (if cp <? 128 then String (byte cp) ""
   else if cp <? 2048 then
     String (byte (192 + cp / 64)) (String (byte (128 + cp mod 64)) "")
   else if cp <? 65536 then
     String (byte (224 + cp / 4096))
       (String (byte (128 + (cp / 64) mod 64)) (String (byte (128 + cp mod 64)) ""))
   else
     String (byte (240 + cp / 262144))
       (String (byte (128 + (cp / 4096) mod 64))
          (String (byte (128 + (cp / 64) mod 64)) (String (byte (128 + cp mod 64)) ""))))%N.

(** U+FFFD. *)
Definition replacement : string := utf8_encode 65533.

(** ** json.Marshal *)

Definition hex_digit (n : N) : ascii :=
  (if n <? 10 then ascii_of_N (48 + n) else ascii_of_N (87 + n))%N.
Definition u00 (c : ascii) : string :=
  append "\u00" (String (hex_digit (N_of_ascii c / 16)%N) (String (hex_digit (N_of_ascii c mod 16)%N) "")).

(** Escaping done by encoding/json (encodeState.string with escapeHTML).
    Versions of Go from 1.22 on write \b and \f instead of \u0008 and \u000c;
    only equality of two such texts is ever used. *)
Definition enc_ascii (c : ascii) : string :=
  if Ascii.eqb c """" then "\"""
  else if Ascii.eqb c "\" then "\\"
  else if Ascii.eqb c "010" then "\n"
  else if Ascii.eqb c "013" then "\r"
  else if Ascii.eqb c "009" then "\t"
  else if (byte_in 0 31 c || Ascii.eqb c "<" || Ascii.eqb c ">" || Ascii.eqb c "&")%bool then u00 c
  else String c "".

Definition enc_chunk (k : chunk) : string :=
  match k with
  | C1 a => enc_ascii a
  | C2 a b => String a (String b "")
  | C3 a b c =>
      if (Ascii.eqb a "226" && Ascii.eqb b "128" && Ascii.eqb c "168")%bool then "\u2028"
      else if (Ascii.eqb a "226" && Ascii.eqb b "128" && Ascii.eqb c "169")%bool then "\u2029"
      else String a (String b (String c ""))
  | C4 a b c d => String a (String b (String c (String d "")))
  | CBad _ => "\ufffd"
  end.

Definition concat_str (l : list string) : string := fold_right append "" l.
Definition enc_str (s : string) : string :=
  append """" (append (concat_str (map enc_chunk (chunks s))) """").

(** Keys are written in increasing byte order. *)
Fixpoint insert_key {A} (e : string * A) (l : list (string * A)) : list (string * A) :=
  match l with
  | [] => [e]
  | x :: l' => if String.leb (fst e) (fst x) then e :: l else x :: insert_key e l'
  end.
Definition sort_keys {A} (l : list (string * A)) : list (string * A) :=
  fold_right insert_key [] l.

Fixpoint join (sep : string) (l : list string) : string :=
  match l with
  | [] => ""
  | [x] => x
  | x :: l' => append x (append sep (join sep l'))
  end.

Fixpoint opt_all {A} (l : list (option A)) : option (list A) :=
  match l with
  | [] => Some []
  | Some x :: l' => match opt_all l' with Some r => Some (x :: r) | None => None end
  | None :: _ => None
  end.

(** json.Marshal; None is an error (an invalid json.Number, or a
    map[interface{}]interface{}: "json: unsupported type"). *)
Fixpoint marshal (v : value) : option string :=
  match v with
  | VNil => Some "null"
  | VBool true => Some "true"
  | VBool false => Some "false"
  | VNum s =>
      match s with
      | EmptyString => Some "0"
      | _ => if json_number s then Some s else None
      end
  | VFloat f => Some (fmt_float f)
  | VStr s => Some (enc_str s)
  | VArr l =>
      match opt_all (map marshal l) with
      | Some ss => Some (append "[" (append (join "," ss) "]"))
      | None => None
      end
  | VMap m =>
      match opt_all (map (fun e =>
                            match marshal (snd e) with
                            | Some t => Some (fst e, t)
                            | None => None
                            end) m) with
      | Some es =>
          Some (append "{"
                 (append (join "," (map (fun e => append (enc_str (fst e)) (append ":" (snd e)))
                                        (sort_keys es))) "}"))
      | None => None
      end
  | VIMap _ => None
  end.

(** ** json.Unmarshal / json.Decoder *)

Definition is_ws (c : ascii) : bool :=
  (Ascii.eqb c " " || Ascii.eqb c "009" || Ascii.eqb c "010" || Ascii.eqb c "013")%bool.
Fixpoint skip_ws (s : string) : string :=
  match s with
  | String c r => if is_ws c then skip_ws r else s
  | EmptyString => s
  end.

Definition hex_val (c : ascii) : option N :=
  let n := N_of_ascii c in
  if byte_in 48 57 c then Some (n - 48)%N
  else if byte_in 97 102 c then Some (n - 87)%N
  else if byte_in 65 70 c then Some (n - 55)%N
  else None.

(** Four hex digits (getu4, after the "\u"). *)
Definition hex4 (s : string) : option (N * string) :=
  match s with
  | String a (String b (String c (String d r))) =>
      match hex_val a, hex_val b, hex_val c, hex_val d with
      | Some x, Some y, Some z, Some w => Some (x * 4096 + y * 256 + z * 16 + w, r)%N
      | _, _, _, _ => None
      end
  | _ => None
  end.

Definition is_surrogate (n : N) : bool := (N.leb 55296 n && N.ltb n 57344)%bool.
Definition is_high (n : N) : bool := (N.leb 55296 n && N.ltb n 56320)%bool.
Definition is_low (n : N) : bool := (N.leb 56320 n && N.ltb n 57344)%bool.

(** \uXXXX escape, combining surrogate pairs; a lone surrogate is U+FFFD. *)
Definition unescape_u (s : string) : option (string * string) :=
  match hex4 s with
  | None => None
  | Some (n, r) =>
      if is_surrogate n then
        match r with
        | String "\" (String "u" r2) =>
            match hex4 r2 with
            | Some (n2, r3) =>
                if (is_high n && is_low n2)%bool
                then Some (utf8_encode (65536 + (n - 55296) * 1024 + (n2 - 56320))%N, r3)
                else Some (replacement, r)
            | None => Some (replacement, r)
            end
        | _ => Some (replacement, r)
        end
      else Some (utf8_encode n, r)
  end.

Definition unescape (c : ascii) (r : string) : option (string * string) :=
  if Ascii.eqb c """" then Some ("""", r)
  else if Ascii.eqb c "\" then Some ("\", r)
  else if Ascii.eqb c "/" then Some ("/", r)
  else if Ascii.eqb c "b" then Some (String "008" "", r)
  else if Ascii.eqb c "f" then Some (String "012" "", r)
  else if Ascii.eqb c "n" then Some (String "010" "", r)
  else if Ascii.eqb c "r" then Some (String "013" "", r)
  else if Ascii.eqb c "t" then Some (String "009" "", r)
  else if Ascii.eqb c "u" then unescape_u r
  else None.

(** One rune of raw string contents (invalid bytes become U+FFFD). *)
Definition raw_rune (a : ascii) (r : string) : string * string :=
  if byte_in 0 127 a then (String a "", r) else
  match r with
  | EmptyString => (replacement, r)
  | String b r1 =>
      if valid2 a b then (String a (String b ""), r1) else
      match r1 with
      | EmptyString => (replacement, r)
      | String c r2 =>
          if valid3 a b c then (String a (String b (String c "")), r2) else
          match r2 with
          | EmptyString => (replacement, r)
          | String d r3 =>
              if valid4 a b c d then (String a (String b (String c (String d ""))), r3)
              else (replacement, r)
          end
      end
  end.

(** String contents up to the closing quote (decodeState.unquote). *)
Fixpoint parse_str (fuel : nat) (s : string) : option (string * string) :=
  match fuel with
  | O => None
  | S k =>
      match s with
      | EmptyString => None
      | String c r =>
          if Ascii.eqb c """" then Some ("", r)
          else if Ascii.eqb c "\" then
            match r with
            | EmptyString => None
            | String e r' =>
                match unescape e r' with
                | None => None
                | Some (piece, r2) =>
                    match parse_str k r2 with
                    | Some (t, r3) => Some (append piece t, r3)
                    | None => None
                    end
                end
            end
          else if byte_in 0 31 c then None
          else
            let '(piece, r2) := raw_rune c r in
            match parse_str k r2 with
            | Some (t, r3) => Some (append piece t, r3)
            | None => None
            end
      end
  end.
Definition parse_string (s : string) : option (string * string) :=
  parse_str (S (String.length s)) s.

(** Strip a fixed prefix. *)
Fixpoint strip_prefix (p s : string) : option string :=
  match p, s with
  | EmptyString, _ => Some s
  | String a p', String b s' => if Ascii.eqb a b then strip_prefix p' s' else None
  | String _ _, EmptyString => None
  end.

(** JSON numbers: kept as text with UseNumber, otherwise strconv.ParseFloat. *)
Definition parse_number (usenum : bool) (s : string) : option (value * string) :=
  match scan_number s with
  | None => None
  | Some (lit, r) =>
      if usenum then Some (VNum lit, r)
      else match parse_float lit with
           | Some f => Some (VFloat f, r)
           | None => None
           end
  end.

(** The recursive-descent grammar of JSON.  [parr]/[pobj] parse the rest of a
    non-empty array/object after "[" / "{" or ",".  A repeated key overwrites
    the earlier value.  Simplification: the nesting limit of 10000 that
    encoding/json has since Go 1.15 is not modelled. *)
Fixpoint pvalue (fuel : nat) (usenum : bool) (s : string) : option (value * string) :=
  match fuel with
  | O => None
  | S k =>
      match skip_ws s with
      | EmptyString => None
      | String c r =>
          if Ascii.eqb c "{" then
            match skip_ws r with
            | String "}" r2 => Some (VMap [], r2)
            | r1 => match pobj k usenum [] r1 with
                    | Some (m, r2) => Some (VMap m, r2)
                    | None => None
                    end
            end
          else if Ascii.eqb c "[" then
            match skip_ws r with
            | String "]" r2 => Some (VArr [], r2)
            | r1 => match parr k usenum r1 with
                    | Some (l, r2) => Some (VArr l, r2)
                    | None => None
                    end
            end
          else if Ascii.eqb c """" then
            match parse_string r with
            | Some (t, r2) => Some (VStr t, r2)
            | None => None
            end
          else if Ascii.eqb c "t" then
            match strip_prefix "rue" r with Some r2 => Some (VBool true, r2) | None => None end
          else if Ascii.eqb c "f" then
            match strip_prefix "alse" r with Some r2 => Some (VBool false, r2) | None => None end
          else if Ascii.eqb c "n" then
            match strip_prefix "ull" r with Some r2 => Some (VNil, r2) | None => None end
          else parse_number usenum (String c r)
      end
  end
with parr (fuel : nat) (usenum : bool) (s : string) : option (list value * string) :=
  match fuel with
  | O => None
  | S k =>
      match pvalue k usenum s with
      | None => None
      | Some (v, r) =>
          match skip_ws r with
          | String "," r2 =>
              match parr k usenum r2 with
              | Some (l, r3) => Some (v :: l, r3)
              | None => None
              end
          | String "]" r2 => Some ([v], r2)
          | _ => None
          end
      end
  end
with pobj (fuel : nat) (usenum : bool) (acc : list (string * value)) (s : string)
  : option (list (string * value) * string) :=
  match fuel with
  | O => None
  | S k =>
      match skip_ws s with
      | String """" r =>
          match parse_string r with
          | None => None
          | Some (key, r1) =>
              match skip_ws r1 with
              | String ":" r2 =>
                  match pvalue k usenum r2 with
                  | None => None
                  | Some (v, r3) =>
                      match skip_ws r3 with
                      | String "," r4 => pobj k usenum (aset key v acc) r4
                      | String "}" r4 => Some (aset key v acc, r4)
                      | _ => None
                      end
                  end
              | _ => None
              end
          end
      | _ => None
      end
  end.

Definition parse_fuel (s : string) : nat := 2 * String.length s + 2.

(** json.NewDecoder(r) with UseNumber, then one Decode (decodeJSONUsingNumber,
    jsonLoader.go:372-386): the first JSON value of the stream; what follows
    it is not looked at. *)
Definition decode_use_number (s : string) : option value :=
  match pvalue (parse_fuel s) true s with
  | Some (v, _) => Some v
  | None => None
  end.

(** json.Unmarshal into an interface{}: the whole text is one JSON value. *)
Definition unmarshal (s : string) : option value :=
  match pvalue (parse_fuel s) false s with
  | Some (v, r) => match skip_ws r with EmptyString => Some v | _ => None end
  | None => None
  end.

(** marshalWithoutNumber, utils.go:84-104.  None = error (and a nil *string). *)
Definition marshalWithoutNumber (v : value) : option string :=
  match marshal v with
  | None => None
  | Some s =>
      match unmarshal s with
      | None => None
      | Some d => marshal d
      end
  end.
