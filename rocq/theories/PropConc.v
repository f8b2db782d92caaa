(** C34, C36, C38: goroutines. *)
From Coq Require Import List.
From Verif Require Import FormatProps ModelConc SpecConc ConcChain ConcTemplate ConcShared World0.
Open Scope string_scope.
Open Scope list_scope.

(** C34: the registry used by any number of goroutines: no access conflicts with a
    write, and there are moments, one in each call, at which the calls took effect
    one after the other. *)
Theorem C34_linearizable : forall r h s, runs step (start r) h s ->
  ch_crashed s = false /\
  exists H m, flat_map visible H = h /\ in_turn (fun k => assoc k r) H m /\
    (forall k, m k = assoc k (ch_map s)) /\ forall t, exists st, proper t H st.
Proof.
  intros r h s R. destruct (runs_sound r h s R) as [Ok _ _ _ _ _ (H & m & E & I & K & P)].
  split; [exact Ok|]. exists H, m. repeat split; eauto.
Qed.
Print Assumptions C34_linearizable.

(** C34: nobody waits for ever: as long as a call is unfinished, some call can go on. *)
Theorem C34_progress : forall r h s, runs step (start r) h s -> (exists t, ch_at s t <> Idle) ->
  exists e s', step s e s' /\ (forall t o, e <> [Inv t o]).
Proof. exact never_stuck. Qed.
Print Assumptions C34_progress.

(** C34: what is answered about a name that nobody adds or removes. *)
Theorem C34_steady : forall r h s n v t a, runs step (start r) h s ->
  (forall t o, In (Inv t o) h -> writes o = true -> op_name o <> n) ->
  In (Ret t (OIsFormat n v) a) h -> a = ABool (IsFormat r n v).
Proof. exact steady_answer. Qed.
Print Assumptions C34_steady.

Tactic Notation "next" uconstr(c) := match goal with R : runs ?st ?s ?h ?s1 |- _ =>
  let R' := fresh in eassert (R' : runs st s (h ++ _) _) by (eapply runs_step; [exact R|eapply c; reflexivity]); clear R; rename R' into R; cbn [app] in R end.
(** Two goroutines: Has is called before Add, and answered by what Add did. *)
Example two_goroutines : exists h s, runs step (start []) h s /\
  h = [Inv 0 (OHas "x"); Inv 1 (OAdd "x" (fun _ => true)); Ret 1 (OAdd "x" (fun _ => true)) AChain; Ret 0 (OHas "x") (ABool true)].
Proof.
  pose proof (runs_nil step (start [])) as R. unfold start, unlocked in R.
  next (s_call [] None [] (Rw None []) (fun _ => Idle) 0 (OHas "x")).
  next (s_call [] None [] (Rw None []) (upd (fun _ => Idle) 0 (Called (OHas "x"))) 1 (OAdd "x" (fun _ => true))).
  next (s_lock _ _ _ _ 1).
  next (s_begin_write _ _ _ 1).
  next (s_end_write _ _ _ _ _ 1).
  next (s_unlock _ _ _ _ _ 1).
  next (s_return _ _ _ _ _ 1).
  next (s_rlock _ _ _ _ _ 0).
  next (s_begin_read _ _ _ _ 0).
  next (s_end_read _ _ _ _ _ 0).
  next (s_runlock _ _ _ _ _ 0).
  next (s_return _ _ _ _ _ 0).
  eexists _, _. split; [exact R|reflexivity].
Qed.

(** C36: any number of goroutines asking for descriptions: each is given the text of
    its own template and details, and the templates are never read while written. *)
Theorem C36_own_text : forall (tree data : Type) (t_parse : string -> string + tree) (t_exec : tree -> data -> string) h s,
  runs (tstep tree data t_parse t_exec) (tstart tree data) h s ->
  tm_crashed _ _ s = false /\ forall t, exists q, answered (right_text tree data t_parse t_exec) t h q.
Proof.
  intros tree data p e h s R. pose proof (truns_sound tree data p e h s R) as T.
  split; [exact (ts_ok _ _ _ _ _ _ T)|]. intros t. eexists. exact (ts_h _ _ _ _ _ _ T t).
Qed.
Print Assumptions C36_own_text.

(** C36 for the library's own templates: the description is [render] of the model. *)
Theorem C36_description : forall (show : dval -> string) h s,
  runs (tstep (list tok) details (fun s => inr (template s)) (fun l d => concat_str (map (fun t => match t with
                            | TText c => String c EmptyString
                            | TVar x => match assoc x d with Some v => show v | None => "<no value>" end end) l)))
       (tstart (list tok) details) h s ->
  forall t f d y, In (TRet _ t f d y) h -> y = render show f d.
Proof.
  intros show h s R t f d y Hi. destruct (C36_own_text _ _ _ _ _ _ R) as [_ A]. destruct (A t) as [q Aq].
  exact (answered_right _ _ _ _ Aq _ _ _ Hi).
Qed.
Print Assumptions C36_description.

(** C36: nobody waits for ever. *)
Theorem C36_progress : forall (tree data : Type) (t_parse : string -> string + tree) (t_exec : tree -> data -> string) h s,
  runs (tstep tree data t_parse t_exec) (tstart tree data) h s -> (exists t, tm_at _ _ s t <> TIdle _ _) ->
  exists e s', tstep tree data t_parse t_exec s e s' /\ (forall t x d, e <> [TInv data t x d]).
Proof. exact tnever_stuck. Qed.
Print Assumptions C36_progress.

(** Two goroutines miss the same template, both parse it, and both get their text. *)
Example both_parse : exists h s, runs (tstep string string inr append) (tstart string string) h s /\
  h = [TInv _ 0 "a" "0"; TInv _ 1 "a" "1"; TRet _ 1 "a" "1" "a1"; TRet _ 0 "a" "0" "a0"] /\
  List.length (tm_objs _ _ s) = 2.
Proof.
  pose proof (runs_nil (tstep string string inr append) (tstart string string)) as R. unfold tstart, unlocked in R.
  next (t_call _ _ _ _ _ _ _ _ _ _ 0 "a" "0").
  next (t_call _ _ _ _ _ _ _ _ _ _ 1 "a" "1").
  next (t_rlock _ _ _ _ _ _ _ _ _ _ 0).
  next (t_rlock _ _ _ _ _ _ _ _ _ _ 1).
  next (t_begin_read _ _ _ _ _ _ _ _ _ 0).
  next (t_begin_read _ _ _ _ _ _ _ _ _ 1).
  next (t_end_read _ _ _ _ _ _ _ _ _ _ 0).
  next (t_end_read _ _ _ _ _ _ _ _ _ _ 1).
  next (t_runlock _ _ _ _ _ _ _ _ _ _ 0).
  next (t_runlock _ _ _ _ _ _ _ _ _ _ 1).
  next (t_lock _ _ _ _ _ _ _ _ _ 1).
  next (t_begin_add _ _ _ _ _ _ _ _ 1).
  next (t_end_add _ _ _ _ _ _ _ _ _ _ 1).
  next (t_tree _ _ _ _ _ _ _ _ _ _ 1).
  next (t_unlock _ _ _ _ _ _ _ _ _ _ 1).
  next (t_lock _ _ _ _ _ _ _ _ _ 0).
  next (t_begin_add _ _ _ _ _ _ _ _ 0).
  next (t_execute _ _ _ _ _ _ _ _ _ _ 1).
  next (t_return _ _ _ _ _ _ _ _ _ _ 1).
  next (t_end_add _ _ _ _ _ _ _ _ _ _ 0).
  next (t_tree _ _ _ _ _ _ _ _ _ _ 0).
  next (t_unlock _ _ _ _ _ _ _ _ _ _ 0).
  next (t_execute _ _ _ _ _ _ _ _ _ _ 0).
  next (t_return _ _ _ _ _ _ _ _ _ _ 0).
  eexists _, _. split; [exact R|split; reflexivity].
Qed.

(** C38: a Validate that finds the registry as other goroutines leave it, at every
    visit anew, returns what it returns alone, if they leave the formats that the
    schema names as they are. *)
Theorem C38_concurrent : forall go hp r0 fuel o root v x,
  during go hp (fun r => exists h s, runs step (start r0) h s /\ ch_map s = r /\
                  forall n, In n hp -> n_format n <> "" ->
                  forall t op, In (Inv t op) h -> writes op = true -> op_name op <> n_format n)
         fuel o root v [STRING_CONTEXT_ROOT] x ->
  x = validateDocument (with_registry go r0) hp fuel o root v.
Proof. exact shared. Qed.
Print Assumptions C38_concurrent.

(** C38: the results of a program that validates documents with one schema, and
    changes other formats in between, do not depend on the calls before. *)
Theorem C38_again : forall go hp root fuel r l,
  (forall u, In u l -> match u with UValidate _ _ => True | UAdd k _ | URemove k => forall n, In n hp -> n_format n <> "" -> n_format n <> k end) ->
  uses go hp root fuel r l = each (fun o v => validateDocument (with_registry go r) hp fuel o root v) l.
Proof. intros go hp root fuel r l H. apply again; [intros ? ? ?; reflexivity|exact H]. Qed.
Print Assumptions C38_again.

(** A schema {"format": "x"}: the checker of "x" counts, another format does not. *)
Definition leaf_x : heap := [Node "" None [] None [] false [] None None None None None None None None "x"
       None None [] [] None [] None None None false None None None [] [] [] []
       None None None None].
Definition never : checker := fun _ => false.
Example another_format :
  map (fun x => match x with Ok r => Some (Valid r) | _ => None end)
    (uses go0 leaf_x 0 5 [("x", never)] [UValidate in_order VNil; UAdd "y" never; UValidate in_order VNil; UValidate in_order (VBool true)]) =
  [Some false; Some false; Some false].
Proof. vm_compute. reflexivity. Qed.
Example same_format :
  map (fun x => match x with Ok r => Some (Valid r) | _ => None end)
    (uses go0 leaf_x 0 5 [("x", never)] [UValidate in_order VNil; URemove "x"; UValidate in_order VNil]) =
  [Some false; Some true].
Proof. vm_compute. reflexivity. Qed.
