(** Schemas in other words (C68).

    [swapped E a b] (SpecSwap.v): b is a with schemas exchanged, anywhere in it,
    each pair being in E; [rewording]: pairs of schemas that ask for the same in
    other words.  [simple], [verdict], [usual], [fitting]: as for C55
    (PropLogic.v). *)
From Verif Require Import World0 World0Facts Checked0 CheckedShape PropLogic PropSplit WordProps.
From Verif Require Import SpecSwap.

(** ** C68 *)
(** Only the verdicts of a subschema matter to the schema around it. *)
Theorem C68_exchange : forall w, url_laws w -> forall E : value -> value -> Prop,
  (forall x y, E x y -> simple w x /\ simple w y /\
    forall v b, usual (e_ratlim (w_go w)) v -> fitting w x v -> fitting w y v -> verdict w x v b -> verdict w y v b) ->
  forall a b v, swapped E a b -> simple w a -> simple w b ->
  usual (e_ratlim (w_go w)) v -> fitting w a v -> fitting w b v -> exists r, verdict w a v r /\ verdict w b v r.
Proof. exact swapped_verdict. Qed.
Print Assumptions C68_exchange.
(** Keywords that can be said in other words. *)
Theorem C68_rewording : forall w, url_laws w -> forall a b v, rewording a b -> simple w a -> simple w b ->
  usual (e_ratlim (w_go w)) v -> fitting w a v -> fitting w b v -> exists r, verdict w a v r /\ verdict w b v r.
Proof. exact rewording_verdict. Qed.
Print Assumptions C68_rewording.
(** ... anywhere in a schema. *)
Theorem C68_reworded : forall w, url_laws w -> forall a b v,
  swapped (fun x y => (rewording x y \/ rewording y x) /\ simple w x /\ simple w y) a b ->
  simple w a -> simple w b -> usual (e_ratlim (w_go w)) v -> fitting w a v -> fitting w b v ->
  exists r, verdict w a v r /\ verdict w b v r.
Proof. exact reworded_verdict. Qed.
Print Assumptions C68_reworded.

Definition C68_text := "{""properties"":{""a"":{""enum"":[1,""x""]}},""not"":{""anyOf"":[{""type"":""string""},{""type"":""null""}]},""minProperties"":1}".
Definition C68_other := "{""minProperties"":1,""not"":{""type"":[""string"",""null""]},""properties"":{""a"":{""anyOf"":[{""const"":1},{""const"":""x""}]}}}".
Definition C68_instances := ["{""a"":1.0}"; "{""a"":""x""}"; "{""a"":2}"; "{}"; "null"; "[1]"].
Example C68_example :
  swapped (fun x y => (rewording x y \/ rewording y x) /\ simple world0 x /\ simple world0 y) (the_doc C68_text) (the_doc C68_other) /\
  simple world0 (the_doc C68_text) /\ simple world0 (the_doc C68_other) /\
  (forall u, In u C68_instances -> usual 1000000 (the_doc u) /\ fitting world0 (the_doc C68_text) (the_doc u) /\ fitting world0 (the_doc C68_other) (the_doc u)) /\
  map (fun t => map (fun u => match validate_text t u with Ok r => Some (Valid r) | _ => None end) C68_instances) [C68_text; C68_other] =
    (let l := [Some true; Some true; Some false; Some false; Some false; Some true] in [l; l]).
Proof.
  assert (S : simple_b C68_text = true) by (vm_compute; reflexivity). assert (S' : simple_b C68_other = true) by (vm_compute; reflexivity).
  assert (X : forall t, simple_b t = true -> simple world0 (the_doc t)) by exact simple_checked.
  assert (X1 : simple world0 (the_doc "{""enum"":[1,""x""]}")) by (apply X; vm_compute; reflexivity).
  assert (X2 : simple world0 (the_doc "{""anyOf"":[{""const"":1},{""const"":""x""}]}")) by (apply X; vm_compute; reflexivity).
  assert (X3 : simple world0 (the_doc "{""anyOf"":[{""type"":""string""},{""type"":""null""}]}")) by (apply X; vm_compute; reflexivity).
  assert (X4 : simple world0 (the_doc "{""type"":[""string"",""null""]}")) by (apply X; vm_compute; reflexivity).
  split; [|split; [|split; [|split; [|vm_compute; reflexivity]]]].
  - let d := eval vm_compute in (the_doc C68_text) in change (the_doc C68_text) with d.
    let d := eval vm_compute in (the_doc C68_other) in change (the_doc C68_other) with d.
    let d := eval vm_compute in (the_doc "{""enum"":[1,""x""]}") in change (simple world0 d) in X1.
    let d := eval vm_compute in (the_doc "{""anyOf"":[{""const"":1},{""const"":""x""}]}") in change (simple world0 d) in X2.
    let d := eval vm_compute in (the_doc "{""anyOf"":[{""type"":""string""},{""type"":""null""}]}") in change (simple world0 d) in X3.
    let d := eval vm_compute in (the_doc "{""type"":[""string"",""null""]}") in change (simple world0 d) in X4.
    apply swap_in; try constructor.
    + intros k Hk. cbn [plain_keywords In] in Hk. decompose [or] Hk; try contradiction; subst k; reflexivity.
    + intros k Hk. cbn [schema_keywords addl_keywords app In] in Hk. decompose [or] Hk; try contradiction; subst k; try (constructor; fail).
      cbn. constructor. apply swap_here. split; [right; exact (word_types ["string"; "null"])|auto].
    + intros k Hk. cbn [list_keywords In] in Hk. decompose [or] Hk; try contradiction; subst k; constructor.
    + intros k Hk. cbn [map_keywords In] in Hk. decompose [or] Hk; try contradiction; subst k; try (constructor; fail).
      cbn. constructor. econstructor; [reflexivity|]. constructor; [|constructor]. split; [reflexivity|]. apply swap_here.
      split; [left; exact (word_enum [VNum "1"; VStr "x"])|auto].
  - exact (X _ S).
  - exact (X _ S').
  - intros u Hu. assert (A : fitting_b C68_text u = true /\ fitting_b C68_other u = true).
    { cbn [C68_instances In] in Hu. decompose [or] Hu; try contradiction; subst u; split; vm_compute; reflexivity. }
    destruct A as [A A']. destruct (fitting_checked _ u S A). destruct (fitting_checked _ u S' A'). auto.
Qed.
