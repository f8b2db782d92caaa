(** Regular expressions in the notation that ECMA-262 and package regexp share:
    what they are written like and which pieces of a text they match.  Nothing
    here is taken from the model. *)
From Coq Require Import List NArith Arith.
Import ListNotations.
Open Scope N_scope.
Open Scope list_scope.

(** ** What an expression is *)
Inductive pat :=
| Nothing
| Chars (P : N -> Prop)
| Seq (a b : pat)
| Alt (a b : pat)
| Rep (min : nat) (max : option nat) (a : pat)
| Start | Finish | Edge | Interior.

(** ** What it matches: the text between places i and j of s *)
Definition letter (c : N) : Prop := 97 <= c <= 122 \/ 65 <= c <= 90.
Definition digit (c : N) : Prop := 48 <= c <= 57.
Definition wordly (c : N) : Prop := letter c \/ digit c \/ c = 95.
Definition blank (c : N) : Prop := In c [9; 10; 12; 13; 32].
(** A word character stands right before, right after place i. *)
Definition word_left (s : list N) (i : nat) : Prop := exists j c, i = S j /\ nth_error s j = Some c /\ wordly c.
Definition word_right (s : list N) (i : nat) : Prop := exists c, nth_error s i = Some c /\ wordly c.
Definition edge (s : list N) (i : nat) : Prop := word_left s i /\ ~ word_right s i \/ ~ word_left s i /\ word_right s i.

Fixpoint iter (n : nat) (R : nat -> nat -> Prop) (i j : nat) : Prop :=
  match n with O => i = j | S n' => exists k, R i k /\ iter n' R k j end.
Definition at_most (n : nat) (m : option nat) : Prop := match m with Some m => (n <= m)%nat | None => True end.
Fixpoint matches (s : list N) (r : pat) (i j : nat) : Prop :=
  match r with
  | Nothing => i = j
  | Chars P => j = S i /\ exists c, nth_error s i = Some c /\ P c
  | Seq a b => exists k, matches s a i k /\ matches s b k j
  | Alt a b => matches s a i j \/ matches s b i j
  | Rep min max a => exists n, (min <= n)%nat /\ at_most n max /\ iter n (matches s a) i j
  | Start => i = j /\ i = 0%nat
  | Finish => i = j /\ i = length s
  | Edge => i = j /\ edge s i
  | Interior => i = j /\ ~ edge s i
  end.
(** The expression matches somewhere in s. *)
Definition found (r : pat) (s : list N) : Prop := exists i j, (i <= length s)%nat /\ matches s r i j.

(** ** How it is written *)
(** ^ $ \ . * + ? ( ) [ ] { } | *)
Definition syntax_chars : list N := [94; 36; 92; 46; 42; 43; 63; 40; 41; 91; 93; 123; 125; 124].
Definition plain (c : N) : Prop := c <= 1114111 /\ ~ In c syntax_chars.

Definition hexval (c v : N) : Prop :=
  digit c /\ v = c - 48 \/ 97 <= c <= 102 /\ v = c - 87 \/ 65 <= c <= 70 /\ v = c - 55.
(** What follows the backslash of a character. *)
Inductive char_escape : N -> list N -> Prop :=
| e_self c : c < 128 -> ~ letter c -> ~ digit c -> char_escape c [c]
| e_t : char_escape 9 [116]
| e_n : char_escape 10 [110]
| e_v : char_escape 11 [118]
| e_f : char_escape 12 [102]
| e_r : char_escape 13 [114]
| e_x a b x y : hexval a x -> hexval b y -> char_escape (x * 16 + y) [120; a; b].
(** \d \D \w \W \s \S *)
Inductive set_escape : (N -> Prop) -> N -> Prop :=
| s_d : set_escape digit 100
| s_D : set_escape (fun c => ~ digit c) 68
| s_w : set_escape wordly 119
| s_W : set_escape (fun c => ~ wordly c) 87
| s_s : set_escape blank 115
| s_S : set_escape (fun c => ~ blank c) 83.

(** Inside brackets: \ ] [ - and ^ are written with a backslash. *)
Inductive class_char : N -> list N -> Prop :=
| k_plain c : c <= 1114111 -> ~ In c [92; 93; 91; 45; 94] -> class_char c [c]
| k_escape c q : char_escape c q -> class_char c (92 :: q).
Inductive class_item : (N -> Prop) -> list N -> Prop :=
| i_one c q : class_char c q -> class_item (eq c) q
| i_range a b p q : class_char a p -> class_char b q -> a <= b -> class_item (fun c => a <= c <= b) (p ++ [45] ++ q)
| i_set P c : set_escape P c -> class_item P [92; c].
Inductive class_items : (N -> Prop) -> list N -> Prop :=
| l_one P q : class_item P q -> class_items P q
| l_more P p Q q : class_item P p -> class_items Q q -> class_items (fun c => P c \/ Q c) (p ++ q).

(** A number up to 1000 in decimal, without leading zeros. *)
Definition value (ds : list N) : N := fold_left (fun n d => n * 10 + (d - 48)) ds 0.
Definition numeral (n : nat) (ds : list N) : Prop :=
  ds <> [] /\ Forall digit ds /\ (hd 0 ds = 48 -> ds = [48]) /\ value ds = N.of_nat n /\ (n <= 1000)%nat.
Inductive quantity : nat -> option nat -> list N -> Prop :=
| q_star : quantity 0 None [42]
| q_plus : quantity 1 None [43]
| q_quest : quantity 0 (Some 1%nat) [63]
| q_exactly n p : numeral n p -> quantity n (Some n) ([123] ++ p ++ [125])
| q_least n p : numeral n p -> quantity n None ([123] ++ p ++ [44; 125])
| q_range n m p q : numeral n p -> numeral m q -> (n <= m)%nat -> quantity n (Some m) ([123] ++ p ++ [44] ++ q ++ [125]).
Inductive quantifier : nat -> option nat -> list N -> Prop :=
| q_greedy n m p : quantity n m p -> quantifier n m p
| q_lazy n m p : quantity n m p -> quantifier n m (p ++ [63]).

(** How often the innermost piece is repeated at most, by nested counts: package
    regexp stops at 1000. *)
Fixpoint load (r : pat) : nat :=
  match r with
  | Seq a b | Alt a b => Nat.max (load a) (load b)
  | Rep min max a =>
      match max with
      | Some O => 1
      | Some m => m * load a
      | None => Nat.max 1 min * load a
      end
  | _ => 1
  end%nat.

Inductive disjunction : pat -> list N -> Prop :=
| d_one a p : alternative a p -> disjunction a p
| d_more a p d q : alternative a p -> disjunction d q -> disjunction (Alt a d) (p ++ [124] ++ q)
with alternative : pat -> list N -> Prop :=
| a_none : alternative Nothing []
| a_more t p a q : term t p -> alternative a q -> alternative (Seq t a) (p ++ q)
with term : pat -> list N -> Prop :=
| t_start : term Start [94]
| t_finish : term Finish [36]
| t_edge : term Edge [92; 98]
| t_interior : term Interior [92; 66]
| t_atom r p : atom r p -> term r p
| t_rep r p n m q : atom r p -> quantifier n m q -> (load (Rep n m r) <= 1000)%nat -> term (Rep n m r) (p ++ q)
with atom : pat -> list N -> Prop :=
| m_char c : plain c -> atom (Chars (eq c)) [c]
| m_dot : atom (Chars (fun c => c <> 10)) [46]
| m_escape c q : char_escape c q -> atom (Chars (eq c)) (92 :: q)
| m_set P c : set_escape P c -> atom (Chars P) [92; c]
| m_class P q : class_items P q -> atom (Chars P) ([91] ++ q ++ [93])
| m_other P q : class_items P q -> atom (Chars (fun c => ~ P c)) ([91; 94] ++ q ++ [93])
| m_group r p : disjunction r p -> atom r ([40] ++ p ++ [41])
| m_plain_group r p : disjunction r p -> atom r ([40; 63; 58] ++ p ++ [41]).
