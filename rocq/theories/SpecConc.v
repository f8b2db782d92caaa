(** What it means that goroutines using a map from names to checkers at the same
    time get the results they would get one after the other. *)
From Verif Require Import ModelConc.
From Coq Require Import List.
Open Scope string_scope.
Open Scope list_scope.

(** The map, and one call on it at a time. *)
Definition names := string -> option checker.
Definition plus (m : names) (n : string) (f : checker) : names := fun k => if String.eqb k n then Some f else m k.
Definition minus (m : names) (n : string) : names := fun k => if String.eqb k n then None else m k.
Inductive alone : names -> op -> answer -> names -> Prop :=
| al_add m n f : alone m (OAdd n f) AChain (plus m n f)
| al_remove m n : alone m (ORemove n) AChain (minus m n)
| al_has_yes m n f : m n = Some f -> alone m (OHas n) (ABool true) m
| al_has_no m n : m n = None -> alone m (OHas n) (ABool false) m
| al_unknown m n v : m n = None -> alone m (OIsFormat n v) (ABool true) m
| al_known m n v f : m n = Some f -> alone m (OIsFormat n v) (ABool (f v)) m.

(** An observation with the moments at which the calls take effect. *)
Inductive moment := MInv (t : tid) (o : op) | MNow (t : tid) (o : op) (a : answer) | MRet (t : tid) (o : op) (a : answer).
Definition visible (m : moment) : list event :=
  match m with MInv t o => [Inv t o] | MNow _ _ _ => [] | MRet t o a => [Ret t o a] end.
(** The effects of [h], one after the other, are those of calls made alone. *)
Inductive in_turn : names -> list moment -> names -> Prop :=
| it_nil m : in_turn m [] m
| it_inv m t o h m' : in_turn m h m' -> in_turn m (MInv t o :: h) m'
| it_ret m t o a h m' : in_turn m h m' -> in_turn m (MRet t o a :: h) m'
| it_now m m1 t o a h m' : alone m o a m1 -> in_turn m1 h m' -> in_turn m (MNow t o a :: h) m'.
(** Every goroutine makes one call at a time, which takes effect once, between
    its invocation and its return, with the result that is returned. *)
Inductive stage := Out | Entered (o : op) | Effected (o : op) (a : answer).
Inductive proper (t : tid) : list moment -> stage -> Prop :=
| pr_nil : proper t [] Out
| pr_inv h o : proper t h Out -> proper t (h ++ [MInv t o]) (Entered o)
| pr_now h o a : proper t h (Entered o) -> proper t (h ++ [MNow t o a]) (Effected o a)
| pr_ret h o a : proper t h (Effected o a) -> proper t (h ++ [MRet t o a]) Out
| pr_inv' h u o s : u <> t -> proper t h s -> proper t (h ++ [MInv u o]) s
| pr_now' h u o a s : u <> t -> proper t h s -> proper t (h ++ [MNow u o a]) s
| pr_ret' h u o a s : u <> t -> proper t h s -> proper t (h ++ [MRet u o a]) s.

(** An execution and what is observed of it. *)
Inductive runs {S E} (st : S -> list E -> S -> Prop) (s : S) : list E -> S -> Prop :=
| runs_nil : runs st s [] s
| runs_step h s1 e s2 : runs st s h s1 -> st s1 e s2 -> runs st s (h ++ e) s2.

(** Descriptions: every goroutine asks for one at a time, and is given the text
    of its own template and its own details. *)
Inductive answered {data} (right : string -> data -> string -> Prop) (t : tid) : list (tevent data) -> option (string * data) -> Prop :=
| de_nil : answered right t [] None
| de_inv h s d : answered right t h None -> answered right t (h ++ [TInv data t s d]) (Some (s, d))
| de_ret h s d y : answered right t h (Some (s, d)) -> right s d y -> answered right t (h ++ [TRet data t s d y]) None
| de_inv' h u s d x : u <> t -> answered right t h x -> answered right t (h ++ [TInv data u s d]) x
| de_ret' h u s d y x : u <> t -> answered right t h x -> answered right t (h ++ [TRet data u s d y]) x.
(** The text: that of the template with the details, or what is wrong with the template. *)
Definition right_text (tree data : Type) (t_parse : string -> string + tree) (t_exec : tree -> data -> string)
  (s : string) (d : data) (y : string) : Prop :=
  match t_parse s with inl e => y = e | inr tr => y = t_exec tr d end.
