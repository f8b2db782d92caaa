(** Specification: Unicode text, the JSON grammar (RFC 8259) and equality of
    JSON values.  Independent of the decoder and encoder of JsonText.v. *)
From Verif Require Export Value.
Open Scope string_scope.
Open Scope list_scope.

(** ** UTF-8 (RFC 3629): the byte sequences of the Unicode scalar values *)
Section Utf8.
  Local Open Scope N_scope.
  Inductive utf8_of : N -> string -> Prop :=
  | utf8_1 x : x < 128 -> utf8_of x (String (ascii_of_N x) "")
  | utf8_2 x y : x < 32 -> y < 64 -> 128 <= x * 64 + y ->
      utf8_of (x * 64 + y) (String (ascii_of_N (192 + x)) (String (ascii_of_N (128 + y)) ""))
  | utf8_3 x y z : x < 16 -> y < 64 -> z < 64 -> 2048 <= (x * 64 + y) * 64 + z ->
      ~ (55296 <= (x * 64 + y) * 64 + z <= 57343) ->
      utf8_of ((x * 64 + y) * 64 + z)
        (String (ascii_of_N (224 + x)) (String (ascii_of_N (128 + y)) (String (ascii_of_N (128 + z)) "")))
  | utf8_4 x y z w : x < 8 -> y < 64 -> z < 64 -> w < 64 ->
      65536 <= ((x * 64 + y) * 64 + z) * 64 + w <= 1114111 ->
      utf8_of (((x * 64 + y) * 64 + z) * 64 + w)
        (String (ascii_of_N (240 + x)) (String (ascii_of_N (128 + y))
           (String (ascii_of_N (128 + z)) (String (ascii_of_N (128 + w)) "")))).

  (** The Unicode scalar values. *)
  Definition scalar (n : N) : Prop := n <= 1114111 /\ ~ (55296 <= n <= 57343).
End Utf8.

(** [text cps s]: s is the UTF-8 form of the code points cps. *)
Inductive text : list N -> string -> Prop :=
| text_nil : text [] ""
| text_cons c cps b s : utf8_of c b -> text cps s -> text (c :: cps) (append b s).

Definition utf8_text (s : string) : Prop := exists cps, text cps s.

(** ** JSON numbers (RFC 8259 section 6) and their mathematical value *)

(** [digit_string s k n]: s consists of k decimal digits and reads n. *)
Inductive digit_string : string -> nat -> Z -> Prop :=
| ds_nil : digit_string "" 0 0
| ds_cons d s k n : (0 <= d <= 9)%Z -> digit_string s k n ->
    digit_string (String (ascii_of_N (48 + Z.to_N d)) s) (S k) (d * 10 ^ Z.of_nat k + n).

Definition sign_of (s : string) (x : Z) : Prop := s = "" /\ x = 1%Z \/ s = "-" /\ x = (-1)%Z.

(** int = zero / ( digit1-9 *DIGIT ) *)
Definition int_of (s : string) (n : Z) : Prop :=
  s = "0" /\ n = 0%Z \/
  (exists k, digit_string s (S k) n) /\ forall r, s <> String "0" r.

(** frac = decimal-point 1*DIGIT *)
Definition frac_of (s : string) (k : nat) (n : Z) : Prop :=
  s = "" /\ k = O /\ n = 0%Z \/ exists d, s = String "." d /\ digit_string d k n /\ k <> O.

(** exp = e [ minus / plus ] 1*DIGIT *)
Definition exp_of (s : string) (x : Z) : Prop :=
  s = "" /\ x = 0%Z \/
  exists c g d k n, s = String c (append g d) /\ (c = "e"%char \/ c = "E"%char) /\
    digit_string d (S k) n /\ ((g = "" \/ g = "+") /\ x = n \/ g = "-" /\ x = (- n)%Z).

(** [denotes s q]: the JSON number s has the value q. *)
Definition denotes (s : string) (q : Q) : Prop :=
  exists g sg i ni f k nf e x,
    s = append g (append i (append f e)) /\
    sign_of g sg /\ int_of i ni /\ frac_of f k nf /\ exp_of e x /\
    (q == inject_Z sg * (inject_Z ni + inject_Z nf / inject_Z (10 ^ Z.of_nat k)) * Qpower (10 # 1) x)%Q.

Definition number (s : string) : Prop := exists q, denotes s q.

(** The power of ten the last digit of the mantissa counts: -2 for 1.50, 3 for
    7e3, -1 for 1.5e0. *)
Definition last_digit_exponent (s : string) (x : Z) : Prop :=
  exists g sg i ni f k nf e y,
    s = append g (append i (append f e)) /\
    sign_of g sg /\ int_of i ni /\ frac_of f k nf /\ exp_of e y /\ x = (y - Z.of_nat k)%Z.

(** Zero, or written with an exponent of magnitude at most lim. *)
Definition moderate (lim : Z) (s : string) : Prop :=
  number s /\ (denotes s 0 \/ exists x, last_digit_exponent s x /\ (Z.abs x <= lim)%Z).

(** ** JSON strings (RFC 8259 section 7) *)

Definition escape_table : list (ascii * ascii) :=
  [("""", """"); ("\", "\"); ("/", "/"); ("b", "008"); ("f", "012");
   ("n", "010"); ("r", "013"); ("t", "009")]%char.

Definition hex_char (c : ascii) (n : N) : Prop :=
  ((n <= 9 /\ c = ascii_of_N (48 + n)) \/
   (10 <= n <= 15 /\ (c = ascii_of_N (87 + n) \/ c = ascii_of_N (55 + n))))%N.
Definition hex_quad (h : string) (n : N) : Prop :=
  exists a b c d x y z w, h = String a (String b (String c (String d ""))) /\
    hex_char a x /\ hex_char b y /\ hex_char c z /\ hex_char d w /\
    n = (((x * 16 + y) * 16 + z) * 16 + w)%N.
Definition high_surrogate (n : N) : Prop := (55296 <= n <= 56319)%N.
Definition low_surrogate (n : N) : Prop := (56320 <= n <= 57343)%N.

(** U+FFFD REPLACEMENT CHARACTER. *)
Definition fffd : string := String "239" (String "191" (String "189" "")).

(** [chars s t]: s, between quotes, is the text t.  A surrogate escape that is
    not part of a pair stands for U+FFFD, as encoding/json documents. *)
Inductive chars : string -> string -> Prop :=
| chars_nil : chars "" ""
| chars_raw c b s t : utf8_of c b -> (32 <= c)%N -> c <> 34%N -> c <> 92%N ->
    chars s t -> chars (append b s) (append b t)
| chars_esc e x s t : In (e, x) escape_table -> chars s t ->
    chars (String "\" (String e s)) (String x t)
| chars_u h n b s t : hex_quad h n -> utf8_of n b -> chars s t ->
    chars (String "\" (String "u" (append h s))) (append b t)
| chars_pair h1 n1 h2 n2 b s t : hex_quad h1 n1 -> high_surrogate n1 ->
    hex_quad h2 n2 -> low_surrogate n2 ->
    utf8_of (65536 + (n1 - 55296) * 1024 + (n2 - 56320))%N b -> chars s t ->
    chars (String "\" (String "u" (append h1 (String "\" (String "u" (append h2 s)))))) (append b t)
| chars_lone h n s t : hex_quad h n -> (high_surrogate n \/ low_surrogate n) ->
    (high_surrogate n -> forall h2 n2 s2, s = String "\" (String "u" (append h2 s2)) ->
       hex_quad h2 n2 -> ~ low_surrogate n2) ->
    chars s t -> chars (String "\" (String "u" (append h s))) (append fffd t).

(** ** JSON values (RFC 8259 sections 2-5) *)

Inductive ws : string -> Prop :=
| ws_nil : ws ""
| ws_cons c s : In c [" "; "009"; "010"; "013"]%char -> ws s -> ws (String c s).

(** The members of an object in the order written; a later one with the same
    name replaces the earlier. *)
Definition members (ms : list (string * value)) : list (string * value) :=
  fold_left (fun m e => aset (fst e) (snd e) m) ms [].

Section Grammar.
  (** What a number text becomes. *)
  Variable num : string -> value -> Prop.

  (** [json s v]: s is optional white space followed by a JSON text for v. *)
  Inductive json : string -> value -> Prop :=
  | json_null w : ws w -> json (append w "null") VNil
  | json_true w : ws w -> json (append w "true") (VBool true)
  | json_false w : ws w -> json (append w "false") (VBool false)
  | json_num w s v : ws w -> number s -> num s v -> json (append w s) v
  | json_str w s t : ws w -> chars s t -> json (append w (String """" (append s """"))) (VStr t)
  | json_arr0 w w1 : ws w -> ws w1 -> json (append w (String "[" (append w1 "]"))) (VArr [])
  | json_arr w s l : ws w -> elements s l -> json (append w (String "[" (append s "]"))) (VArr l)
  | json_obj0 w w1 : ws w -> ws w1 -> json (append w (String "{" (append w1 "}"))) (VMap [])
  | json_obj w s ms : ws w -> mems s ms -> json (append w (String "{" (append s "}"))) (VMap (members ms))
  with elements : string -> list value -> Prop :=
  | elements_one s v w : json s v -> ws w -> elements (append s w) [v]
  | elements_cons s v w s' l : json s v -> ws w -> elements s' l ->
      elements (append s (append w (String "," s'))) (v :: l)
  with mems : string -> list (string * value) -> Prop :=
  | mems_one w k key w1 s v w2 : ws w -> chars k key -> ws w1 -> json s v -> ws w2 ->
      mems (append w (String """" (append k (String """" (append w1 (String ":" (append s w2)))))))
           [(key, v)]
  | mems_cons w k key w1 s v w2 s' ms : ws w -> chars k key -> ws w1 -> json s v -> ws w2 -> mems s' ms ->
      mems (append w (String """" (append k (String """" (append w1 (String ":"
              (append s (append w2 (String "," s')))))))))
           ((key, v) :: ms).
End Grammar.

(** Numbers kept verbatim. *)
Definition verbatim (s : string) (v : value) : Prop := v = VNum s.
