(** Example worlds with files and web pages in them. *)
From Verif Require Export World0 World0Facts.
Open Scope string_scope.
Open Scope list_scope.

(** world0 with some files (file system, path, text) and web pages (URL, text). *)
Definition serving (files : list (nat * string * string)) (pages : list (string * string)) : world :=
  World go0 parse0 inherits0 cut_hash after_hash (fun s => has_sub "://" (cut_hash s)) file0
        (fun fs path => match List.find (fun f => (Nat.eqb (fst (fst f)) fs && String.eqb (snd (fst f)) path)%bool) files with Some f => Some (snd f) | None => None end)
        (fun url => assoc url pages) (fun _ => "").
Lemma serving_laws files pages : url_laws (serving files pages).
Proof. exact world0_laws. Qed.
(** Stripping the fragment leaves none. *)
Lemma fragment_stripped s : after_hash (cut_hash s) = "".
Proof. induction s as [|a s IH]; [reflexivity|]. cbn [cut_hash]. destruct (Ascii.eqb a "#") eqn:E; [reflexivity|]. cbn [after_hash]. rewrite E. exact IH. Qed.
