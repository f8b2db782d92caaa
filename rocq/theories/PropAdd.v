(** Calls of AddSchema and AddSchemas that fail (C53). *)
From Verif Require Import CheckedPool AddFail.

(** ** C53 *)
(** A failing AddSchema leaves the loader as it was, with one exception: when the
    document's own identifier is known already, the document stays in the pool
    under the URL, its references as written. *)
Theorem C53_AddSchema : forall w fuel o url l sl e sl', sl_validate sl = false -> AddSchema w fuel o url l sl = LErr e sl' ->
  sl' = sl \/ exists ref m r d, w_parse w url = Some ref /\ fst (LoadJSON w l) = Some (VMap m) /\ new_scope (w_parse w) (w_inherits w) ref m = Some r /\ e = EExists r /\
    r <> ref /\ assoc r (sl_pool sl) <> None /\ assoc ref (sl_pool sl) = None /\ sl' = with_pool (aset ref (Spd (VMap m) d) (sl_pool sl)) sl.
Proof. exact AddSchema_fails. Qed.
Print Assumptions C53_AddSchema.
(** A failing AddSchemas leaves exactly the documents before the one that failed. *)
Theorem C53_AddSchemas : forall w fuel ls o sl e sl', sl_validate sl = false -> AddSchemas w fuel o ls sl = LErr e sl' ->
  exists ls1 l ls2, ls = ls1 ++ l :: ls2 /\ AddSchemas w fuel o ls1 sl = LOk tt sl'.
Proof. exact AddSchemas_fails. Qed.
Print Assumptions C53_AddSchemas.
Definition C53_sl : sloader := loader_after (AddSchemas world0 FUEL in_order [LString "{""$id"":""http://x/a"",""minimum"":1}"] NewSchemaLoader).
Example C53_example :
  AddSchema world0 FUEL in_order "http://x/b" (LString "{") C53_sl = LErr EDocument C53_sl /\
  AddSchema world0 FUEL in_order "http://x/a" (LString "{}") C53_sl = LErr (EExists "http://x/a") C53_sl /\
  AddSchemas world0 FUEL in_order [LString "{""$id"":""http://x/c""}"; LString "{""$id"":""http://x/a""}"; LString "{""$id"":""http://x/d""}"] C53_sl =
    LErr (EExists "http://x/a") (with_pool (sl_pool C53_sl ++ [("http://x/c", Spd (VMap [("$id", VStr "http://x/c")]) None)]) C53_sl).
Proof. vm_compute. auto. Qed.
(** In the exceptional case the URL is taken: the call fails, yet a corrected
    document cannot be added any more, and references to the URL find the
    document that was refused. *)
Theorem C53_refuted : exists w sl url bad good e sl', sl_validate sl = false /\ AddSchema w FUEL in_order url bad sl = LErr e sl' /\
  (exists sl1, AddSchema w FUEL in_order url good sl = LOk tt sl1) /\
  (exists e', AddSchema w FUEL in_order url good sl' = LErr e' sl') /\
  fst (LoadJSON w bad) = option_map sp_doc (assoc url (sl_pool sl')).
Proof.
  exists world0, C53_sl, "http://x/b", (LString "{""$id"":""http://x/a""}"), (LString "{}"), (EExists "http://x/a").
  eexists. split; [vm_compute; reflexivity|]. split; [vm_compute; reflexivity|]. split; [eexists; vm_compute; reflexivity|]. split; [eexists; vm_compute; reflexivity|]. vm_compute. reflexivity.
Qed.
Print Assumptions C53_refuted.
