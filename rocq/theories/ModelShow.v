(** How text/template prints the details of an error: fmt's %v, and for the
    numeric bounds big.Float (math/big, Go 1.22: float.go, decimal.go, ftoa.go).

    validation.go:787,801,813,827,839 put new(big.Float).SetRat(bound) into the
    details; text/template hands the pointer to fmt.Fprint, which calls
    the method Format of big.Float with verb 'v': format 'g', shortest precision. *)
From Verif Require Export ModelResult.
Open Scope Z_scope.

(** A finite big.Float other than zero: (-1)^neg * b_man * 2^b_exp, where b_man has exactly
    b_prec bits.  (Go keeps the mantissa left aligned in words; exponents
    beyond int32 are not modelled.) *)
Record bfloat := BFloat { b_prec : Z; b_man : Z; b_exp : Z }.

(** Float.round to nearest even, of the fraction n/d (n, d > 0): SetInt and Quo. *)
Definition big_round (prec n d : Z) : bfloat :=
  let e0 := Z.log2 n - Z.log2 d - prec in
  let e := if scale_num n e0 / scale_den d e0 <? 2 ^ prec then e0 else e0 + 1 in
  let m := div_half_even (scale_num n e) (scale_den d e) in
  if m =? 2 ^ prec then BFloat prec (2 ^ (prec - 1)) (e + 1) else BFloat prec m e.

(** Int.BitLen. *)
Definition bit_len (n : Z) : Z := if n =? 0 then 0 else Z.log2 n + 1.

(** new(big.Float).SetRat(q) for q = n/d > 0 in lowest terms; the precision is
    that of the operands, at least 64. *)
Definition set_rat (n d : Z) : bfloat :=
  big_round (if d =? 1 then Z.max (bit_len n) 64 else Z.max (Z.max (bit_len n) 64) (Z.max (bit_len d) 64)) n d.

(** decimal.go: 0.d1d2d3... * 10^de; no leading and no trailing zero. *)
Record decimal := Decimal { dm : list Z; de : Z }.

Fixpoint digits10 (fuel : nat) (n : Z) (acc : list Z) : list Z :=
  match fuel with
  | O => acc
  | S k => if n =? 0 then acc else digits10 k (n / 10) (n mod 10 :: acc)
  end.
(** nat.utoa(10), without the digit 0 for 0. *)
Definition utoa (n : Z) : list Z := digits10 (S (Z.to_nat (Z.log2 n))) n [].
Fixpoint drop_zeros (l : list Z) : list Z :=
  match l with 0 :: l' => drop_zeros l' | _ => l end.
(** trim, decimal.go. *)
Definition trim (l : list Z) : list Z := rev (drop_zeros (rev l)).

(** decimal.init(m, shift): m * 2^shift, exactly.  Shifting right by k digits
    bit by bit (rsh) is multiplying by 5^k and moving the point by k. *)
Definition dec_init (m shift : Z) : decimal :=
  if m =? 0 then Decimal [] 0
  else if 0 <=? shift then let ds := utoa (m * 2 ^ shift) in Decimal (trim ds) (Z.of_nat (length ds))
  else let ds := utoa (m * 5 ^ (- shift)) in Decimal (trim ds) (Z.of_nat (length ds) + shift).

(** decimal.at. *)
Definition dec_at (d : decimal) (i : nat) : Z := nth i (dm d) 0.

(** decimal.roundUp: the digits kept, without their trailing nines, plus one. *)
Fixpoint bump (r : list Z) : option (list Z) :=
  match r with
  | [] => None
  | x :: r' => if 9 <=? x then bump r' else Some (x + 1 :: r')
  end.
Definition round_up (d : decimal) (n : nat) : decimal :=
  if (length (dm d) <=? n)%nat then d else
  match bump (rev (firstn n (dm d))) with
  | None => Decimal [1] (de d + 1)
  | Some r => Decimal (rev r) (de d)
  end.
(** decimal.roundDown. *)
Definition round_down (d : decimal) (n : nat) : decimal :=
  if (length (dm d) <=? n)%nat then d else
  let ds := trim (firstn n (dm d)) in Decimal ds (match ds with [] => 0 | _ => de d end).
(** shouldRoundUp. *)
Definition should_round_up (d : decimal) (n : nat) : bool :=
  if ((dec_at d n =? 5) && (S n =? length (dm d))%nat)%bool
  then ((0 <? n)%nat && Z.odd (dec_at d (n - 1)))%bool
  else 5 <=? dec_at d n.
(** decimal.round. *)
Definition round_dec (d : decimal) (n : nat) : decimal :=
  if (length (dm d) <=? n)%nat then d
  else if should_round_up d n then round_up d n else round_down d n.

(** roundShortest, ftoa.go: the digits of x up to the first place where
    cutting off, or the next decimal up, stays between lower and upper. *)
Fixpoint shortest_from (incl : bool) (lower d upper : decimal) (rest : list Z) (i : nat) : decimal :=
  match rest with
  | [] => d
  | m :: rest' =>
      let l := dec_at lower i in
      let u := dec_at upper i in
      let okdown := (negb (l =? m) || (incl && (S i =? length (dm lower))%nat))%bool in
      let okup := (negb (m =? u) && (incl || (m + 1 <? u) || (S i <? length (dm upper))%nat))%bool in
      if (okdown && okup)%bool then round_dec d (S i)
      else if okdown then round_down d (S i)
      else if okup then round_up d (S i)
      else shortest_from incl lower d upper rest' (S i)
  end.
Definition round_shortest (x : bfloat) : decimal :=
  let d := dec_init (b_man x) (b_exp x) in
  let mant := 2 * b_man x in
  let exp := b_exp x - 1 in
  shortest_from (Z.even (b_man x)) (dec_init (mant - 1) exp) d (dec_init (mant + 1) exp) (dm d) 0.

(** fmtE, ftoa.go: at least two digits of exponent. *)
Definition dec_text (l : list Z) : string := string_of_list_ascii (map digit_char l).
Definition big_exp (x : Z) : string :=
  (if x <? 0 then "e-" else "e+") ++ (if Z.abs x <? 10 then "0" else "") ++ z2s (Z.abs x).
(** Float.Append with format 'g' and the shortest precision: exponents below -4
    and from 6 on (the precision is taken to be 6 for this) use fmtE. *)
Definition show_dec (d : decimal) : string :=
  match dm d with
  | [] => "0"
  | _ =>
      let ds := dec_text (dm d) in
      let exp := de d - 1 in
      if ((exp <? -4) || (6 <=? exp))%bool
      then pad_take 1 ds ++ with_frac (drop 1 ds) ++ big_exp exp
      else fmt_f ds (de d)
  end.

(** %v of new(big.Float).SetRat(q). *)
Definition show_rat (q : Q) : string :=
  let q' := Qred q in
  let n := Qnum q' in
  if n =? 0 then "0" else
  (if n <? 0 then "-" else "") ++ show_dec (round_shortest (set_rat (Z.abs n) (Zpos (Qden q')))).

(** %v of a detail: a string and *regexp.Regexp (its String method gives the
    expression) as they are, an int in decimal.  [DError], the error of a failed
    json.Marshal, never occurs on decoded instances. *)
Definition go_show (d : dval) : string :=
  match d with
  | DStr s => s
  | DInt z => itoa z
  | DRat q => show_rat q
  | DRegexp p => p
  | DError => "error"
  end.
