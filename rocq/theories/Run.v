(** Vocabulary of the statements about Validate: what a run can do. *)
From Verif Require Export ModelLoader.

(** Schema.Validate on an instance [v] already loaded, for the compiled graph
    [h] with root cell [root] and iteration orders [o]. *)
Definition returns env h root o v (r : result) : Prop :=
  exists fuel, validateDocument env h fuel o root v = Ok r.
Definition panics env h root o v : Prop :=
  exists fuel, validateDocument env h fuel o root v = Panic.
(** The recursion never comes to an end (the Go stack overflows). *)
Definition diverges env h root o v : Prop :=
  forall fuel, validateDocument env h fuel o root v = NoFuel.
