(** Go values held in an [interface{}] and manipulated by the library. *)
From Verif Require Export Base.

(** A finite IEEE-754 binary64 number: (-1)^neg * man * 2^exp.  Canonical ones
    are characterised in Float64.v. *)
Record f64 := F64 { f_neg : bool; f_man : Z; f_exp : Z }.

(** The dynamic values the code distinguishes (validation.go:98-262,
    schema.go:77-, utils.go:171-197):
    - [VNil]   nil
    - [VBool]  bool
    - [VNum]   json.Number, carrying its literal (decoder in UseNumber mode, jsonLoader.go:372-386)
    - [VFloat] float64 (what encoding/json yields without UseNumber: utils.go:98;
               or handed in through NewRawLoader)
    - [VStr]   string (a byte string, as in Go)
    - [VArr]   []interface{}
    - [VMap]   map[string]interface{}
    - [VIMap]  map[interface{}]interface{} (YAML decoders); a key is [Some s]
               for a string key, [None] for a key of any other type.
    Not represented: other Go types (ints, structs, typed slices), reachable
    only through NewRawLoader. *)
Inductive value : Type :=
| VNil
| VBool (b : bool)
| VNum (lit : string)
| VFloat (f : f64)
| VStr (s : string)
| VArr (l : list value)
| VMap (m : list (string * value))
| VIMap (m : list (option string * value)).

(** Induction principle reaching through the nested lists. *)
Section ValueInd.
  Variable P : value -> Prop.
  Hypothesis Hnil : P VNil.
  Hypothesis Hbool : forall b, P (VBool b).
  Hypothesis Hnum : forall s, P (VNum s).
  Hypothesis Hfloat : forall f, P (VFloat f).
  Hypothesis Hstr : forall s, P (VStr s).
  Hypothesis Harr : forall l, Forall P l -> P (VArr l).
  Hypothesis Hmap : forall m, Forall (fun e => P (snd e)) m -> P (VMap m).
  Hypothesis Himap : forall m, Forall (fun e => P (snd e)) m -> P (VIMap m).
  Fixpoint value_ind' (v : value) : P v :=
    match v with
    | VNil => Hnil
    | VBool b => Hbool b
    | VNum s => Hnum s
    | VFloat f => Hfloat f
    | VStr s => Hstr s
    | VArr l =>
        Harr l ((fix go (l : list value) : Forall P l :=
                   match l with
                   | [] => Forall_nil _
                   | x :: l' => Forall_cons _ (value_ind' x) (go l')
                   end) l)
    | VMap m =>
        Hmap m ((fix go (m : list (string * value)) : Forall (fun e => P (snd e)) m :=
                   match m with
                   | [] => Forall_nil _
                   | e :: m' => Forall_cons _ (value_ind' (snd e)) (go m')
                   end) m)
    | VIMap m =>
        Himap m ((fix go (m : list (option string * value)) : Forall (fun e => P (snd e)) m :=
                    match m with
                    | [] => Forall_nil _
                    | e :: m' => Forall_cons _ (value_ind' (snd e)) (go m')
                    end) m)
    end.
End ValueInd.

(** Number of constructors: the measure used for termination arguments. *)
Fixpoint vsize (v : value) : nat :=
  match v with
  | VArr l => S (list_sum (map vsize l))
  | VMap m => S (list_sum (map (fun e => S (vsize (snd e))) m))
  | VIMap m => S (list_sum (map (fun e => S (vsize (snd e))) m))
  | _ => 1
  end.

(** A Go map has each key once. *)
Inductive wf_value : value -> Prop :=
| wf_nil : wf_value VNil
| wf_bool b : wf_value (VBool b)
| wf_num s : wf_value (VNum s)
| wf_float f : wf_value (VFloat f)
| wf_str s : wf_value (VStr s)
| wf_arr l : Forall wf_value l -> wf_value (VArr l)
| wf_map m : NoDup (map fst m) -> Forall (fun e => wf_value (snd e)) m -> wf_value (VMap m)
| wf_imap m : NoDup (map fst m) -> Forall (fun e => wf_value (snd e)) m -> wf_value (VIMap m).
