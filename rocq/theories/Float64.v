(** float64 as used by encoding/json: strconv.ParseFloat and the float encoder. *)
From Verif Require Export Num.
Open Scope Z_scope.

(** Nearest integer to a/b (a >= 0, b > 0), ties to even. *)
Definition div_half_even (a b : Z) : Z :=
  let q := a / b in
  let r := a mod b in
  match Z.compare (2 * r) b with
  | Lt => q
  | Gt => q + 1
  | Eq => if Z.even q then q else q + 1
  end.

(** n/d scaled by 2^(-e), as a fraction of integers. *)
Definition scale_num (n e : Z) : Z := if 0 <=? e then n else n * 2 ^ (- e).
Definition scale_den (d e : Z) : Z := if 0 <=? e then d * 2 ^ e else d.

(** Binary exponent of the last mantissa bit for a positive n/d: the mantissa
    lies in [2^52, 2^53) unless the number is subnormal (exponent -1074). *)
Definition f64_exponent (n d : Z) : Z :=
  let e0 := Z.log2 n - Z.log2 d - 53 in
  let e1 := if scale_num n e0 / scale_den d e0 <? 2 ^ 53 then e0 else e0 + 1 in
  Z.max e1 (-1074).

(** Round a non-negative rational to (mantissa, exponent); None on overflow. *)
Definition round_mag (n d : Z) : option (Z * Z) :=
  if n =? 0 then Some (0, 0) else
  let e := f64_exponent n d in
  let m := div_half_even (scale_num n e) (scale_den d e) in
  let '(m', e') := if m =? 2 ^ 53 then (2 ^ 52, e + 1) else (m, e) in
  if m' =? 0 then Some (0, 0)
  else if 971 <? e' then None
  else Some (m', e').

(** strconv.ParseFloat(s, 64): sign, then round the decimal to nearest even;
    ErrRange (None) on overflow.  A negative sign is kept on zero. *)
Definition round64 (neg : bool) (q : Q) : option f64 :=
  let q' := Qred q in
  match round_mag (Qnum q') (Zpos (Qden q')) with
  | Some (m, e) => Some (F64 neg m e)
  | None => None
  end.

Definition parse_float (s : string) : option f64 :=
  match parse_dec s with
  | None => None
  | Some d => round64 (d_neg d) (q10 (dec_mant d) (dec_e10 d))
  end.

(** Canonical finite float64 values (the ones round64 produces). *)
Definition f64_ok (f : f64) : bool :=
  let '(F64 _ m e) := f in
  ((m =? 0) && (e =? 0))
  || ((0 <? m) && (m <? 2 ^ 53) && (-1074 <=? e) && (e <=? 971)
      && ((2 ^ 52 <=? m) || (e =? -1074))).

(** Magnitude of a float64 as a rational. *)
Definition f64_mag (f : f64) : Q :=
  if 0 <=? f_exp f then (f_man f * 2 ^ f_exp f) # 1
  else f_man f # Z.to_pos (2 ^ (- f_exp f)).

(** Its value. *)
Definition f64_val (f : f64) : Q :=
  if f_neg f then Qopp (f64_mag f) else f64_mag f.

(** Decimal digits of a natural number. *)
Definition digit_char (z : Z) : ascii := ascii_of_N (Z.to_N (48 + z)).
Fixpoint z2s_loop (fuel : nat) (n : Z) (acc : string) : string :=
  match fuel with
  | O => acc
  | S k =>
      let acc' := String (digit_char (n mod 10)) acc in
      if n / 10 =? 0 then acc' else z2s_loop k (n / 10) acc'
  end.
Definition z2s (n : Z) : string := z2s_loop (S (Z.to_nat (Z.log2 n))) n EmptyString.

(** strconv.Itoa. *)
Definition itoa (n : Z) : string :=
  if n <? 0 then String "-" (z2s (- n)) else z2s n.

Fixpoint zeros (n : nat) : string :=
  match n with O => EmptyString | S k => String "0" (zeros k) end.

(** Does the decimal c * 10^p read back as the float64 magnitude (m, e)? *)
Definition reads_back (f : f64) (c p : Z) : bool :=
  match round64 (f_neg f) (q10 c p) with
  | Some g => (f_man g =? f_man f) && (f_exp g =? f_exp f)
  | None => false
  end.

(** floor (x * 10^(-p)) for the positive magnitude of f. *)
Definition dec_floor (f : f64) (p : Z) : Z :=
  let q := f64_mag f in
  let n := Qnum q in let d := Zpos (Qden q) in
  if 0 <=? p then n / (d * 10 ^ p) else (n * 10 ^ (- p)) / d.

(** Distance test: is c closer to f * 10^(-p) than c + 1 is? *)
Definition floor_closer (f : f64) (c p : Z) : bool :=
  let q := f64_mag f in
  Qle_bool (q - q10 c p) (q10 (c + 1) p - q).

(** Estimate of the decimal point: the least dp with mag < 10^dp, found by
    walking from an under-estimate. *)
Fixpoint find_dp (fuel : nat) (f : f64) (dp : Z) : Z :=
  match fuel with
  | O => dp
  | S k => if Qle_bool (q10 1 dp) (f64_mag f) then find_dp k f (dp + 1) else dp
  end.
Definition dec_point (f : f64) : Z :=
  find_dp 12 f ((Z.log2 (f_man f) + f_exp f) * 30103 / 100000 - 3).

(** Shortest decimal c * 10^p that reads back as f; tries 1, 2, ... 17 digits,
    each time the two decimals around f.  (Go: strconv.FormatFloat(f, _, -1, 64).
    If none of those read back the exact decimal expansion is used; that branch
    exists so that the round trip holds by construction.) *)
Fixpoint shortest (fuel : nat) (nd : Z) (f : f64) (dp : Z) : Z * Z :=
  match fuel with
  | O =>
      if 0 <=? f_exp f then (f_man f * 2 ^ f_exp f, 0)
      else (f_man f * 5 ^ (- f_exp f), f_exp f)
  | S k =>
      let p := dp - nd in
      let c := dec_floor f p in
      let lo := reads_back f c p in
      let hi := reads_back f (c + 1) p in
      if lo && hi then (if floor_closer f c p then (c, p) else (c + 1, p))
      else if lo then (c, p)
      else if hi then (c + 1, p)
      else shortest k (nd + 1) f dp
  end.
(** Drop trailing zero digits (a candidate just above 99..9 is 10..0). *)
Fixpoint strip_zeros (fuel : nat) (c p : Z) : Z * Z :=
  match fuel with
  | O => (c, p)
  | S k => if c mod 10 =? 0 then strip_zeros k (c / 10) (p + 1) else (c, p)
  end.
Definition shortest_dec (f : f64) : Z * Z :=
  let '(c, p) := shortest 17 1 f (dec_point f) in strip_zeros 17 c p.

(** First n characters / the rest, padding with zeros on the right. *)
Fixpoint pad_take (n : nat) (s : string) : string :=
  match n, s with
  | O, _ => EmptyString
  | S k, EmptyString => String "0" (pad_take k EmptyString)
  | S k, String c s' => String c (pad_take k s')
  end.
Fixpoint drop (n : nat) (s : string) : string :=
  match n, s with
  | O, _ => s
  | S _, EmptyString => EmptyString
  | S k, String _ s' => drop k s'
  end.

Definition with_frac (s : string) : string :=
  match s with EmptyString => EmptyString | _ => String "." s end.

(** 'f' format of c * 10^p (digits ds of c, dp digits before the point). *)
Definition fmt_f (ds : string) (dp : Z) : string :=
  if 0 <? dp then
    append (pad_take (Z.to_nat dp) ds) (with_frac (drop (Z.to_nat dp) ds))
  else append "0." (append (zeros (Z.to_nat (- dp))) ds).

(** 'e' format, with the exponent clean-up of encoding/json (e-09 -> e-9). *)
Definition fmt_exp (x : Z) : string :=
  if x <? 0 then append "e-" (z2s (- x))
  else if x <? 10 then append "e+0" (z2s x)
  else append "e+" (z2s x).
Definition fmt_e (ds : string) (dp : Z) : string :=
  append (pad_take 1 ds) (append (with_frac (drop 1 ds)) (fmt_exp (dp - 1))).

(** The float64 constants 1e21 and 1e-6 of encoding/json's floatEncoder. *)
Definition f64_1e21 : Q := q10 1 21.
Definition f64_1em6 : Q := 4722366482869645 # Z.to_pos (2 ^ 72).

(** encoding/json floatEncoder: exponent form below 1e-6 and from 1e21 on. *)
Definition fmt_mag (f : f64) : string :=
  if f_man f =? 0 then "0"%string else
  let '(c, p) := shortest_dec f in
  let ds := z2s c in
  let dp := p + Z.of_nat (String.length ds) in
  if Qle_bool f64_1e21 (f64_mag f) || negb (Qle_bool f64_1em6 (f64_mag f))
  then fmt_e ds dp
  else fmt_f ds dp.
Definition fmt_float (f : f64) : string :=
  if f_neg f then String "-" (fmt_mag f) else fmt_mag f.
