(** The built-in formats by their documents: RFC 4122 (uuid), RFC 1034/1123
    (hostname), RFC 6901 (JSON pointers), RFC 3339 (dates and times), RFC 2673
    and RFC 4291 (addresses).  Nothing here refers to the model. *)
From Coq Require Import String Ascii List Arith.
Import ListNotations.
Open Scope string_scope.
Open Scope list_scope.
Open Scope nat_scope.

Definition among (set : string) (c : ascii) : Prop := In c (list_ascii_of_string set).
Definition DIGITS : string := "0123456789".
Definition HEXDIGITS : string := "0123456789abcdefABCDEF".
Definition LETTERS : string := "abcdefghijklmnopqrstuvwxyzABCDEFGHIJKLMNOPQRSTUVWXYZ".
Definition all (P : ascii -> Prop) (s : string) : Prop := forall i c, get i s = Some c -> P c.

(** 8-4-4-4-12 hexadecimal digits. *)
Definition uuid (s : string) : Prop :=
  String.length s = 36 /\
  forall i c, get i s = Some c -> if in_dec Nat.eq_dec i [8; 13; 18; 23] then c = "-"%char else among HEXDIGITS c.

(** Labels of 1 to 63 letters, digits and hyphens, not starting nor ending in
    a hyphen, separated by dots; at most 255 characters in all. *)
Definition label (l : string) : Prop :=
  1 <= String.length l <= 63 /\
  all (fun c => among LETTERS c \/ among DIGITS c \/ c = "-"%char) l /\
  get 0 l <> Some "-"%char /\ get (String.length l - 1) l <> Some "-"%char.
Definition hostname (s : string) : Prop :=
  exists l ls, s = String.concat "." (l :: ls) /\ Forall label (l :: ls) /\ String.length s <= 255.

(** Empty or starting with a slash; ~ only in ~0 and ~1. *)
Definition pointer (s : string) : Prop :=
  (s = "" \/ get 0 s = Some "/"%char) /\
  forall i, get i s = Some "~"%char -> get (S i) s = Some "0"%char \/ get (S i) s = Some "1"%char.
(** A number without leading zeros, then # or a pointer. *)
Definition relative_pointer (s : string) : Prop :=
  exists d r, s = (d ++ r)%string /\ d <> "" /\ all (among DIGITS) d /\ (get 0 d = Some "0"%char -> d = "0") /\
              (r = "#" \/ pointer r).

(** Every opening brace of a URI template is followed by a closing one. *)
Definition closed (s : string) : Prop := forall i, get i s = Some "{"%char -> exists j, i < j /\ get j s = Some "}"%char.

(** Numbers written with a given number of decimal digits. *)
Definition digit (n : nat) : string := String (nth n (list_ascii_of_string DIGITS) "0"%char) "".
Definition two (n : nat) : string := (digit (n / 10) ++ digit (n mod 10))%string.
Definition four (n : nat) : string := (two (n / 100) ++ two (n mod 100))%string.
(** The Gregorian calendar. *)
Definition leap (y : nat) : Prop := (Nat.divide 4 y /\ ~ Nat.divide 100 y) \/ Nat.divide 400 y.
Definition last_day (y m d : nat) : Prop :=
  match m with
  | 4 | 6 | 9 | 11 => d = 30
  | 2 => (leap y /\ d = 29) \/ (~ leap y /\ d = 28)
  | _ => d = 31
  end.
(** full-date *)
Definition full_date (s : string) : Prop :=
  exists y m d e, s = (four y ++ "-" ++ two m ++ "-" ++ two d)%string /\
    y < 100 * 100 /\ 1 <= m <= 12 /\ last_day y m e /\ 1 <= d <= e.
(** time-secfrac with the given point, optional *)
Definition secfrac (point : ascii -> Prop) (s : string) : Prop :=
  s = "" \/ exists p ds, s = String p ds /\ point p /\ ds <> "" /\ all (among DIGITS) ds.
(** time-offset, with bounds on its hours and minutes *)
Definition offset (z : string -> Prop) (h m : nat) (s : string) : Prop :=
  z s \/ exists g a b, s = (g ++ two a ++ ":" ++ two b)%string /\ (g = "+" \/ g = "-") /\ a <= h /\ b <= m.
(** partial-time; the hours by [hh], seconds up to [sec] *)
Definition clock (hh : nat -> string -> Prop) (sec : nat) (point : ascii -> Prop) (s : string) : Prop :=
  exists h x m n f, s = (x ++ ":" ++ two m ++ ":" ++ two n ++ f)%string /\
    hh h x /\ h <= 23 /\ m <= 59 /\ n <= sec /\ secfrac point f.
Definition followed (A B : string -> Prop) (s : string) : Prop := exists a b, s = (a ++ b)%string /\ A a /\ B b.
(** RFC 3339 without the leap second (whose presence depends on the day); T
    and Z may be in lower case: *)
Definition rfc_clock : string -> Prop := clock (fun h x => x = two h) 59 (fun p => p = "."%char).
Definition full_time : string -> Prop := followed rfc_clock (offset (fun z => z = "Z" \/ z = "z") 23 59).
Definition date_time : string -> Prop := followed full_date (followed (fun t => t = "T" \/ t = "t") full_time).
(** What this implementation takes: the hours may be one digit, the fraction
    may follow a comma, and the offset goes up to 24:60. *)
Definition lax_clock : string -> Prop :=
  clock (fun h x => x = two h \/ (h <= 9 /\ x = digit h)) 59 (fun p => p = "."%char \/ p = ","%char).
Definition lax_offset : string -> Prop := offset (fun z => z = "Z") 24 60.

(** Four numbers up to 255 without leading zeros. *)
Definition octet (s : string) : Prop :=
  exists n, n <= 255 /\ s = if n <? 10 then digit n else if n <? 100 then two n else (digit (n / 100) ++ two (n mod 100))%string.
Definition dotted (s : string) : Prop :=
  exists a b c d, s = (a ++ "." ++ b ++ "." ++ c ++ "." ++ d)%string /\ octet a /\ octet b /\ octet c /\ octet d.
(** Groups of one to four hexadecimal digits. *)
Definition h16 (s : string) : Prop := 1 <= String.length s <= 4 /\ all (among HEXDIGITS) s.
(** [n] groups separated by colons, the last two possibly a dotted quad. *)
Definition pieces (s : string) (n : nat) : Prop :=
  (exists l, s = String.concat ":" l /\ Forall h16 l /\ List.length l = n) \/
  (exists l q, s = String.concat ":" (l ++ [q]) /\ Forall h16 l /\ dotted q /\ List.length l + 2 = n).
Definition ipv6 (s : string) : Prop :=
  pieces s 8 \/
  exists l r n, s = (String.concat ":" l ++ "::" ++ r)%string /\ Forall h16 l /\ pieces r n /\ List.length l + n <= 7.
