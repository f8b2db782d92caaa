(** Goroutines sharing the registry of formats (format_checkers.go:147-188) and
    the error templates (errors.go:332-364).

    A goroutine is a thread that may make one call after another; a call is cut
    into the steps between which other goroutines can run.  sync.RWMutex is
    modelled by who holds it; a waiting Lock does not keep new readers out,
    which allows more interleavings than Go does.  Maps of Go must not be
    accessed while they are written: accesses have a beginning and an end, and
    an access that begins during a conflicting one crashes the program (Go's
    "concurrent map read and map write"). *)
From Verif Require Export ModelValidate ModelTemplate ModelFormat.
From Coq Require Import Arith.
Open Scope string_scope.
Open Scope list_scope.

Definition tid := nat.
(** sync.RWMutex: the writer, the readers. *)
Record rwmutex := Rw { rw_writer : option tid; rw_readers : list tid }.
Definition unlocked : rwmutex := Rw None [].
Definition leave (t : tid) (l : list tid) : list tid := remove Nat.eq_dec t l.
Definition upd {A} (f : tid -> A) (t : tid) (x : A) : tid -> A := fun u => if Nat.eq_dec u t then x else f u.

(** ** FormatCheckerChain *)
Inductive op := OAdd (name : string) (f : checker) | ORemove (name : string) | OHas (name : string) | OIsFormat (name : string) (v : value).
Inductive answer := AChain | ABool (b : bool).
Definition writes (o : op) : bool := match o with OAdd _ _ | ORemove _ => true | _ => false end.
Definition op_name (o : op) : string := match o with OAdd n _ | ORemove n | OHas n | OIsFormat n _ => n end.
(** Where a goroutine stands within a call. *)
Inductive at_ :=
| Idle
| Called (o : op)                        (** before lock.Lock() / lock.RLock() *)
| Locked (o : op)                        (** holding the lock *)
| Busy (o : op)                          (** during the access to the map *)
| Done (o : op) (x : option checker)     (** after it, with what was read *)
| Released (o : op) (x : option checker). (** after lock.Unlock() / lock.RUnlock() *)
Record chain := Chain {
  ch_map : registry;
  ch_writing : option tid;
  ch_reading : list tid;
  ch_lock : rwmutex;
  ch_at : tid -> at_;
  ch_crashed : bool
}.
Definition start (r : registry) : chain := Chain r None [] unlocked (fun _ => Idle) false.
Inductive event := Inv (t : tid) (o : op) | Ret (t : tid) (o : op) (a : answer).
(** What the call returns, given what was read. *)
Definition returns (o : op) (x : option checker) : answer :=
  match o with
  | OAdd _ _ | ORemove _ => AChain
  | OHas _ => ABool (match x with Some _ => true | None => false end)
  | OIsFormat _ v => ABool (match x with None => true | Some f => f v end)
  end.
Definition write (o : op) (r : registry) : registry :=
  match o with OAdd n f => Add n f r | ORemove n => Remove n r | _ => r end.

Inductive step : chain -> list event -> chain -> Prop :=
| s_call r w rd l a t o : a t = Idle ->
    step (Chain r w rd l a false) [Inv t o] (Chain r w rd l (upd a t (Called o)) false)
| s_lock r w rd a t o : a t = Called o -> writes o = true ->
    step (Chain r w rd unlocked a false) [] (Chain r w rd (Rw (Some t) []) (upd a t (Locked o)) false)
| s_rlock r w rd l a t o : a t = Called o -> writes o = false ->
    step (Chain r w rd (Rw None l) a false) [] (Chain r w rd (Rw None (t :: l)) (upd a t (Locked o)) false)
| s_begin_write r l a t o : a t = Locked o -> writes o = true ->
    step (Chain r None [] l a false) [] (Chain r (Some t) [] l (upd a t (Busy o)) false)
| s_crash_write r w rd l a t o : a t = Locked o -> writes o = true -> (w <> None \/ rd <> []) ->
    step (Chain r w rd l a false) [] (Chain r w rd l a true)
| s_begin_read r rd l a t o : a t = Locked o -> writes o = false ->
    step (Chain r None rd l a false) [] (Chain r None (t :: rd) l (upd a t (Busy o)) false)
| s_crash_read r w rd l a t o : a t = Locked o -> writes o = false -> w <> None ->
    step (Chain r w rd l a false) [] (Chain r w rd l a true)
| s_end_write r w rd l a t o : a t = Busy o -> writes o = true ->
    step (Chain r w rd l a false) [] (Chain (write o r) None rd l (upd a t (Done o None)) false)
| s_end_read r w rd l a t o : a t = Busy o -> writes o = false ->
    step (Chain r w rd l a false) [] (Chain r w (leave t rd) l (upd a t (Done o (assoc (op_name o) r))) false)
| s_unlock r w rd l a t o x : a t = Done o x -> writes o = true ->
    step (Chain r w rd l a false) [] (Chain r w rd (Rw None (rw_readers l)) (upd a t (Released o x)) false)
| s_runlock r w rd l a t o x : a t = Done o x -> writes o = false ->
    step (Chain r w rd l a false) [] (Chain r w rd (Rw (rw_writer l) (leave t (rw_readers l))) (upd a t (Released o x)) false)
| s_return r w rd l a t o x : a t = Released o x ->
    step (Chain r w rd l a false) [Ret t o (returns o x)] (Chain r w rd l (upd a t Idle) false).

(** ** formatErrorDescription *)
(** text/template: [t_parse] the trees or the message of an error, [t_exec] what
    Execute writes.  A template is an object; Parse first puts it in the map,
    then sets its tree (text/template AddParseTree). *)
Section Templates.
  Variable tree data : Type.
  Variable t_parse : string -> string + tree.
  Variable t_exec : tree -> data -> string.
  (** Execute of a template without a tree. *)
  Definition incomplete (s : string) : string := s ++ " is an incomplete or empty template".

  Inductive tat :=
  | TIdle
  | TCalled (s : string) (d : data)
  | TReading (s : string) (d : data) (begun : bool)          (** holding RLock *)
  | TRead (s : string) (d : data) (x : option nat)           (** holding RLock *)
  | TLooked (s : string) (d : data) (x : option nat)
  | TLocked (s : string) (d : data)                          (** holding Lock: New, Parse *)
  | TAdding (s : string) (d : data) (id : nat) (tr : tree)   (** writing the map *)
  | TAdded (s : string) (d : data) (id : nat) (tr : tree)    (** in the map, without tree *)
  | TParsed (s : string) (d : data) (y : string + nat)       (** before Unlock *)
  | TReady (s : string) (d : data) (y : string + nat)
  | TGot (s : string) (d : data) (y : string).
  Record temps := Temps {
    tm_map : list (string * nat);
    tm_objs : list (string * option tree);
    tm_writing : option tid;
    tm_reading : list tid;
    tm_lock : rwmutex;
    tm_at : tid -> tat;
    tm_crashed : bool
  }.
  Definition tstart : temps := Temps [] [] None [] unlocked (fun _ => TIdle) false.
  Inductive tevent := TInv (t : tid) (s : string) (d : data) | TRet (t : tid) (s : string) (d : data) (y : string).
  Definition set_tree (id : nat) (tr : tree) (l : list (string * option tree)) : list (string * option tree) :=
    mapi (fun i o => if Nat.eqb i id then (fst o, Some tr) else o) 0 l.
  Definition execute (l : list (string * option tree)) (id : nat) (d : data) : string :=
    match nth_error l id with Some (_, Some tr) => t_exec tr d | Some (n, None) => incomplete n | None => "" end.

  Inductive tstep : temps -> list tevent -> temps -> Prop :=
  | t_call m ob w rd l a t s d : a t = TIdle ->
      tstep (Temps m ob w rd l a false) [TInv t s d] (Temps m ob w rd l (upd a t (TCalled s d)) false)
  | t_rlock m ob w rd l a t s d : a t = TCalled s d ->
      tstep (Temps m ob w rd (Rw None l) a false) [] (Temps m ob w rd (Rw None (t :: l)) (upd a t (TReading s d false)) false)
  | t_begin_read m ob rd l a t s d : a t = TReading s d false ->
      tstep (Temps m ob None rd l a false) [] (Temps m ob None (t :: rd) l (upd a t (TReading s d true)) false)
  | t_crash_read m ob w rd l a t s d : a t = TReading s d false -> w <> None ->
      tstep (Temps m ob w rd l a false) [] (Temps m ob w rd l a true)
  (** Lookup *)
  | t_end_read m ob w rd l a t s d : a t = TReading s d true ->
      tstep (Temps m ob w rd l a false) [] (Temps m ob w (leave t rd) l (upd a t (TRead s d (assoc s m))) false)
  | t_runlock m ob w rd l a t s d x : a t = TRead s d x ->
      tstep (Temps m ob w rd l a false) [] (Temps m ob w rd (Rw (rw_writer l) (leave t (rw_readers l))) (upd a t (TLooked s d x)) false)
  (** tpl != nil *)
  | t_found m ob w rd l a t s d id : a t = TLooked s d (Some id) ->
      tstep (Temps m ob w rd l a false) [] (Temps m ob w rd l (upd a t (TReady s d (inr id))) false)
  | t_lock m ob w rd a t s d : a t = TLooked s d None ->
      tstep (Temps m ob w rd unlocked a false) [] (Temps m ob w rd (Rw (Some t) []) (upd a t (TLocked s d)) false)
  (** New, and Parse failing *)
  | t_bad m ob w rd l a t s d e : a t = TLocked s d -> t_parse s = inl e ->
      tstep (Temps m ob w rd l a false) [] (Temps m (ob ++ [(s, None)]) w rd l (upd a t (TParsed s d (inl e))) false)
  (** New, and Parse up to the assignment to the map *)
  | t_begin_add m ob l a t s d tr : a t = TLocked s d -> t_parse s = inr tr ->
      tstep (Temps m ob None [] l a false) [] (Temps m (ob ++ [(s, None)]) (Some t) [] l (upd a t (TAdding s d (List.length ob) tr)) false)
  | t_crash_add m ob w rd l a t s d tr : a t = TLocked s d -> t_parse s = inr tr -> (w <> None \/ rd <> []) ->
      tstep (Temps m ob w rd l a false) [] (Temps m ob w rd l a true)
  | t_end_add m ob w rd l a t s d id tr : a t = TAdding s d id tr ->
      tstep (Temps m ob w rd l a false) [] (Temps (aset s id m) ob None rd l (upd a t (TAdded s d id tr)) false)
  | t_tree m ob w rd l a t s d id tr : a t = TAdded s d id tr ->
      tstep (Temps m ob w rd l a false) [] (Temps m (set_tree id tr ob) w rd l (upd a t (TParsed s d (inr id))) false)
  | t_unlock m ob w rd l a t s d y : a t = TParsed s d y ->
      tstep (Temps m ob w rd l a false) [] (Temps m ob w rd (Rw None (rw_readers l)) (upd a t (TReady s d y)) false)
  (** return err.Error(), or Execute outside the lock *)
  | t_error m ob w rd l a t s d e : a t = TReady s d (inl e) ->
      tstep (Temps m ob w rd l a false) [] (Temps m ob w rd l (upd a t (TGot s d e)) false)
  | t_execute m ob w rd l a t s d id : a t = TReady s d (inr id) ->
      tstep (Temps m ob w rd l a false) [] (Temps m ob w rd l (upd a t (TGot s d (execute ob id d))) false)
  | t_return m ob w rd l a t s d y : a t = TGot s d y ->
      tstep (Temps m ob w rd l a false) [TRet t s d y] (Temps m ob w rd l (upd a t TIdle) false).
End Templates.

(** ** Validate beside other goroutines *)
(** validation.go reads the schema and writes nothing but its own Result; the one
    thing it shares with other goroutines is the registry, asked once in a visit
    of a sub-schema (validation.go:446).  The registry may be another one at each
    visit: [seen] says which ones are found. *)
Definition with_registry (go : goenv) (r : registry) : goenv := GoEnv (e_ratlim go) (e_re_ok go) (e_re_match go) (IsFormat r).
Inductive during (go : goenv) (hp : heap) (seen : registry -> Prop) : nat -> oracle -> nat -> value -> ctx -> out result -> Prop :=
| du_stop o id v c : during go hp seen 0 o id v c NoFuel
| du_nil k o id v c : nth_error hp id = None -> during go hp seen (S k) o id v c Panic
| du_visit k o id v c n r rec : nth_error hp id = Some n -> seen r ->
    (forall o' id' v' c', during go hp seen k o' id' v' c' (rec o' id' v' c')) ->
    during go hp seen (S k) o id v c (validateNode (with_registry go r) hp rec o n v c).

(** A program: calls of Validate on one schema, and changes of the registry. *)
Inductive use := UValidate (o : oracle) (v : value) | UAdd (name : string) (f : checker) | URemove (name : string).
Fixpoint uses (go : goenv) (hp : heap) (root fuel : nat) (r : registry) (l : list use) : list (out result) :=
  match l with
  | [] => []
  | UValidate o v :: l' => validateDocument (with_registry go r) hp fuel o root v :: uses go hp root fuel r l'
  | UAdd n f :: l' => uses go hp root fuel (Add n f r) l'
  | URemove n :: l' => uses go hp root fuel (Remove n r) l'
  end.
