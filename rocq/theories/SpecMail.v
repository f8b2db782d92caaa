(** Mail addresses: the grammar of RFC 5322 (mailbox, group, comments) with the
    liberties net/mail takes, over the code points of a text.  Nothing here
    refers to the model. *)
From Coq Require Import String Ascii List NArith.
Import ListNotations.
Open Scope list_scope.
Open Scope N_scope.

Definition codes (s : string) : list N := map N_of_ascii (list_ascii_of_string s).
Notation DQUOTE := 34 (only parsing).
Notation LPAREN := 40 (only parsing).
Notation RPAREN := 41 (only parsing).
Notation COMMA := 44 (only parsing).
Notation DOT := 46 (only parsing).
Notation COLON := 58 (only parsing).
Notation SEMICOLON := 59 (only parsing).
Notation LESS := 60 (only parsing).
Notation GREATER := 62 (only parsing).
Notation AT := 64 (only parsing).
Notation BACKSLASH := 92 (only parsing).

Definition wsp (c : N) : Prop := c = 32 \/ c = 9.
(** Printable, and everything beyond ASCII (RFC 6532). *)
Definition vchar (c : N) : Prop := 33 <= c <= 126 \/ 128 <= c <= 1114111.
Definition special (c : N) : Prop := In c (codes "()<>[]:;@\,""").
Definition atext (c : N) : Prop := vchar c /\ ~ special c /\ c <> DOT.
Definition spaces (s : list N) : Prop := Forall wsp s.

(** 1*atext *("." 1*atext) *)
Inductive dot_atom : list N -> Prop :=
| dot_one l : l <> [] -> Forall atext l -> dot_atom l
| dot_more l w : l <> [] -> Forall atext l -> dot_atom w -> dot_atom (l ++ DOT :: w).
(** What stands between the quotes of a quoted-string. *)
Inductive qcontent : list N -> Prop :=
| q_nil : qcontent []
| q_char c r : vchar c \/ wsp c -> c <> DQUOTE -> c <> BACKSLASH -> qcontent r -> qcontent (c :: r)
| q_pair c r : vchar c \/ wsp c -> qcontent r -> qcontent (BACKSLASH :: c :: r).
Definition quoted_string (w : list N) : Prop := exists q, qcontent q /\ w = DQUOTE :: q ++ [DQUOTE].
(** What stands between the parentheses of a comment, and the text it is. *)
Inductive ccontent : list N -> list N -> Prop :=
| c_nil : ccontent [] []
| c_char c r t : ~ In c (codes "()\") -> ccontent r t -> ccontent (c :: r) (c :: t)
| c_pair c r t : ccontent r t -> ccontent (BACKSLASH :: c :: r) (c :: t)
| c_nested r1 t1 r t : ccontent r1 t1 -> ccontent r t -> ccontent (LPAREN :: r1 ++ RPAREN :: r) (LPAREN :: t1 ++ RPAREN :: t).
(** Comments and white space, possibly none. *)
Inductive cfws : list N -> Prop :=
| cfws_nil : cfws []
| cfws_space c r : wsp c -> cfws r -> cfws (c :: r)
| cfws_comment a t r : ccontent a t -> cfws r -> cfws (LPAREN :: a ++ RPAREN :: r).

(** addr-spec; the local part must not be an empty quoted-string, and the domain
    may be preceded by spaces. *)
Definition local_part (w : list N) : Prop := dot_atom w \/ quoted_string w /\ w <> codes """""".
Definition addr_spec (w : list N) : Prop :=
  exists l s d, local_part l /\ spaces s /\ dot_atom d /\ w = l ++ AT :: s ++ d.

(** ** Encoded words of a character set that is not known (RFC 2047) *)
Definition hexdigit (c : N) : Prop := In c (codes "0123456789abcdefABCDEF").
Inductive q_encoded : list N -> Prop :=
| qe_nil : q_encoded []
| qe_char c r : 32 <= c <= 126 \/ In c [9; 10; 13] -> c <> 61 -> q_encoded r -> q_encoded (c :: r)
| qe_hex a b r : hexdigit a -> hexdigit b -> q_encoded r -> q_encoded (61 :: a :: b :: r).
Definition b64digit (c : N) : Prop := In c (codes "ABCDEFGHIJKLMNOPQRSTUVWXYZabcdefghijklmnopqrstuvwxyz0123456789+/").
Inductive b64_groups : list N -> Prop :=
| b64_nil : b64_groups []
| b64_two a b : b64digit a -> b64digit b -> b64_groups [a; b; 61; 61]
| b64_three a b c : b64digit a -> b64digit b -> b64digit c -> b64_groups [a; b; c; 61]
| b64_four a b c d r : b64digit a -> b64digit b -> b64digit c -> b64digit d -> b64_groups r -> b64_groups (a :: b :: c :: d :: r).
(** Line ends between the digits do not count. *)
Inductive without_ends : list N -> list N -> Prop :=
| we_nil : without_ends [] []
| we_end c r s : c = 10 \/ c = 13 -> without_ends r s -> without_ends (c :: r) s
| we_char c r s : c <> 10 -> c <> 13 -> without_ends r s -> without_ends (c :: r) (c :: s).
(** The same letter but for its case; U+017F is a form of "s". *)
Definition same_letter (c x : N) : Prop := c = x \/ 97 <= x <= 122 /\ c + 32 = x \/ x = 115 /\ c = 383.
Definition known_charset (w : list N) : Prop :=
  exists name, In name ["utf-8"; "iso-8859-1"; "us-ascii"]%string /\ Forall2 same_letter w (codes name).
Definition unreadable (w : list N) : Prop :=
  exists charset e t, w = codes "=?" ++ charset ++ 63 :: e :: 63 :: t ++ codes "?=" /\
    charset <> [] /\ ~ In 63 charset /\ ~ In 63 t /\ ~ known_charset charset /\
    (In e (codes "qQ") /\ q_encoded t \/ In e (codes "bB") /\ exists u, without_ends t u /\ b64_groups u).

(** ** Display names *)
Definition atom_char (c : N) : Prop := atext c \/ c = DOT.
Definition atom (w : list N) : Prop := w <> [] /\ Forall atom_char w.
Definition word (w : list N) : Prop := atom w /\ ~ unreadable w \/ quoted_string w.
(** An atom goes on as far as it can. *)
Definition ends_before (w r : list N) : Prop := atom w -> forall c r', r = c :: r' -> ~ atom_char c.
(** What may follow the first word: more of them, comments; an unreadable word
    only at the end. *)
Inductive words : list N -> Prop :=
| words_end g : cfws g -> words g
| words_unreadable g y s : cfws g -> atom y -> unreadable y -> spaces s -> words (g ++ y ++ s)
| words_more g x r : cfws g -> word x -> words r -> ends_before x r -> words (g ++ x ++ r).
Definition phrase (p : list N) : Prop := exists x r, word x /\ words r /\ ends_before x r /\ p = x ++ r.

(** ** Addresses *)
(** The words of a text are separated by white space. *)
Definition word_in (x t : list N) : Prop :=
  x <> [] /\ Forall (fun c => ~ wsp c) x /\
  exists a b, t = a ++ x ++ b /\ (a = [] \/ exists a' c, a = a' ++ [c] /\ wsp c) /\ (b = [] \/ exists c b', b = c :: b' /\ wsp c).
(** Behind an address: the first comment is read as a name. *)
Definition remark (z : list N) : Prop :=
  spaces z \/
  exists s c t g, z = s ++ LPAREN :: c ++ RPAREN :: g /\ spaces s /\ ccontent c t /\ cfws g /\ forall x, word_in x t -> ~ unreadable x.
Definition mailbox (m : list N) : Prop :=
  (exists a z, m = a ++ z /\ addr_spec a /\ remark z) \/
  (exists p s a g, m = p ++ LESS :: s ++ a ++ GREATER :: g /\ (p = [] \/ phrase p) /\ spaces s /\ addr_spec a /\ cfws g).
(** A group of one. *)
Definition group (m : list N) : Prop :=
  exists p s b g, m = p ++ COLON :: s ++ b ++ SEMICOLON :: g /\ phrase p /\ spaces s /\ mailbox b /\ cfws g.
Definition mail_address (cps : list N) : Prop :=
  exists s m, cps = s ++ m /\ spaces s /\ (mailbox m \/ group m).
