(** Schemas combined by allOf, anyOf, oneOf, not and if/then/else (C55).

    [write s f]: the formula f as a schema, with the schemas s for its atoms;
    [truth b f]: its truth value (SpecLogic.v).  [simple]: a schema NewSchema
    accepts, without references, identifiers and $schema.  [verdict w x v b]: the
    schema x compiles, and however it was compiled, and in whatever order maps are
    walked, validating v returns a result that is valid iff b.  [usual], [fits]:
    see PropCompile.v; [fitting x v]: all of x that v is held against fits. *)
From Verif Require Import World0 World0Facts Checked0 CheckedShape LogicProps.

(** ** C55 *)
Theorem C55_compiles : forall w, url_laws w -> forall s f, proper f -> (forall i, In i (atoms f) -> simple w (s i)) -> simple w (write s f).
Proof. exact formula_compiles. Qed.
Print Assumptions C55_compiles.
Theorem C55_verdict : forall w, url_laws w -> forall s f v b, proper f -> (forall i, In i (atoms f) -> simple w (s i)) -> usual (e_ratlim (w_go w)) v ->
  (forall i, In i (atoms f) -> fitting w (s i) v) -> (forall i, In i (atoms f) -> verdict w (s i) v (b i)) ->
  verdict w (write s f) v (truth b f).
Proof. exact formula_verdict. Qed.
Print Assumptions C55_verdict.
(** Equivalent formulas make schemas with the same verdicts. *)
Theorem C55_equivalent : forall w, url_laws w -> forall s f g v, proper f -> proper g -> (forall b, truth b f = truth b g) ->
  (forall i, In i (atoms f ++ atoms g) -> simple w (s i) /\ fitting w (s i) v) -> usual (e_ratlim (w_go w)) v ->
  exists b, verdict w (write s f) v b /\ verdict w (write s g) v b.
Proof. exact formula_equivalent. Qed.
Print Assumptions C55_equivalent.

(** De Morgan and the conditional, as formulas. *)
Example C55_laws :
  (forall b, truth b (Neg (Any [Atom 0; Atom 1])) = truth b (All [Neg (Atom 0); Neg (Atom 1)])) /\
  (forall b, truth b (Cond (Atom 0) (Atom 1) (Atom 2)) = truth b (Any [All [Atom 0; Atom 1]; All [Neg (Atom 0); Atom 2]])) /\
  (forall b, truth b (One [Atom 0; Atom 1]) = truth b (Any [All [Atom 0; Neg (Atom 1)]; All [Neg (Atom 0); Atom 1]])).
Proof. repeat split; intros b; cbn; destruct (b 0), (b 1), (b 2); reflexivity. Qed.

(** Schema texts, checked. *)
Fixpoint free_b (v : value) : bool :=
  match v with
  | VArr l => forallb free_b l
  | VMap m => forallb (fun e => (negb (existsb (String.eqb (fst e)) ["$ref"; "$id"; "id"] && match snd e with VStr _ => true | _ => false end) && free_b (snd e))%bool) m
  | _ => true
  end.
Lemma free_checked v x : inside v x -> free_b v = true -> free_b x = true.
Proof.
  induction 1 as [|l x y H _ IH|m k x y H _ IH]; auto; cbn [free_b]; rewrite forallb_forall; intros E; apply IH; auto.
  specialize (E _ H). apply andb_prop in E. apply E.
Qed.
Definition simple_b (t : string) : bool :=
  let v := the_doc t in
  (match decode_use_number t with Some _ => true | None => false end && free_b v && match v with VMap m => match assoc "$schema" m with None => true | _ => false end | _ => true end &&
   numbers_b (moderate_b 1000000) v && (enough_fuel world0 NewSchemaLoader v <? FUEL) && match NewSchema world0 FUEL in_order (LString t) with LOk _ _ => true | _ => false end)%bool.
Lemma simple_checked t : simple_b t = true -> simple world0 (the_doc t).
Proof.
  unfold simple_b. rewrite !andb_true_iff. intros (((((H1 & H2) & H3) & H4) & H5) & H6). destruct (decode_use_number t) as [v|] eqn:E; [|discriminate].
  assert (L : fst (LoadJSON world0 (LString t)) = Some (the_doc t)) by (cbn [LoadJSON fst]; unfold the_doc; rewrite E; auto). split; [split|split; [|split]].
  - intros m k x I Hk Hi. pose proof (free_checked _ _ I H2) as F. cbn [free_b] in F. rewrite forallb_forall in F. specialize (F _ Hi). apply andb_prop in F. destruct F as [F _].
    cbn [fst snd] in F. destruct Hk as [<-|[<-|[<-|[]]]]; discriminate F.
  - intros m Em. rewrite Em in H3. destruct (assoc "$schema" m); [discriminate|auto].
  - eapply LoadJSON_doc_ok; [|exact L]. exact I.
  - apply moderate_checked. auto.
  - destruct (NewSchema world0 FUEL in_order (LString t)) as [sch sl'| | |] eqn:EN; try discriminate. exists sch. exists FUEL, in_order, (LString t), sl'.
    split; [apply in_order_fair|]. split; [discriminate|]. split; [exact I|]. split; auto. split; [apply Nat.ltb_lt; auto|auto].
Qed.
Definition fitting_b (t u : string) : bool :=
  let L := collect (fun _ => None) 100 [(Hybrid, the_doc t)] [] in
  (guarded_b (fun _ => None) 20 L (Hybrid, the_doc t) && regulars_b 1000000 L && match decode_use_number u with Some _ => true | None => false end && ordinary_b 1000000 (the_doc u))%bool.
Lemma fitting_checked t u : simple_b t = true -> fitting_b t u = true -> fitting world0 (the_doc t) (the_doc u) /\ usual 1000000 (the_doc u).
Proof.
  unfold fitting_b. rewrite !andb_true_iff. intros S (((H1 & H2) & H3) & H4). destruct (simple_checked t S) as (B & _).
  assert (O : ordinary 1000000 (the_doc u)).
  { apply ordinary_checked; auto. destruct (decode_use_number u) as [x|] eqn:Ex; [|discriminate]. unfold the_doc. rewrite Ex. eapply decode_doc_ok; eauto. }
  split; [|apply ordinary_usual; auto]. refine (regular_fits nowhere 1000000 Hybrid (the_doc t) (the_doc u) O _). eapply regulars_checked; eauto. discriminate.
Qed.
Definition C55_atoms (i : nat) : value := the_doc (nth i ["{""type"":""string""}"; "{""minLength"":2,""items"":{""maximum"":3}}"; "{""const"":{""a"":[1]}}"] "").
Lemma C55_simple i : i < 3 -> simple world0 (C55_atoms i).
Proof. intros H. unfold C55_atoms. destruct i as [|[|[|i]]]; [apply simple_checked; vm_compute; reflexivity..|lia]. Qed.
Definition C55_formula : formula := Cond (Atom 0) (Neg (Neg (Atom 1))) (One [Atom 0; All [Atom 1; Atom 2]; Atom 2]).
(** The hypotheses hold of a formula over three schemas and several instances. *)
Example C55_example :
  proper C55_formula /\ (forall i, In i (atoms C55_formula) -> simple world0 (C55_atoms i)) /\
  forall u, In u ["""x"""; """xy"""; "{""a"":[1.0]}"; "[3]"; "null"] -> usual 1000000 (the_doc u) /\ forall i, In i (atoms C55_formula) -> fitting world0 (C55_atoms i) (the_doc u).
Proof.
  split; [repeat constructor; discriminate|]. split.
  - intros i Hi. apply C55_simple. cbn in Hi. intuition lia.
  - intros u Hu. assert (F : forall i, i < 3 -> fitting world0 (C55_atoms i) (the_doc u) /\ usual 1000000 (the_doc u)).
    { intros i Hi. unfold C55_atoms. destruct i as [|[|[|i]]]; [..|lia]; (apply fitting_checked; [vm_compute; reflexivity|]); cbn [In] in Hu; decompose [or] Hu; try contradiction; subst u; vm_compute; reflexivity. }
    split; [apply (F 0); lia|]. intros i Hi. apply F. cbn in Hi. intuition lia.
Qed.
(** The texts themselves. *)
Definition C55_text := "{""if"":{""type"":""string""},""then"":{""not"":{""not"":{""minLength"":2,""items"":{""maximum"":3}}}},""else"":
  {""oneOf"":[{""type"":""string""},{""allOf"":[{""minLength"":2,""items"":{""maximum"":3}},{""const"":{""a"":[1]}}]},{""const"":{""a"":[1]}}]}}".
Example C55_texts :
  write C55_atoms C55_formula = the_doc C55_text /\
  map (fun u => match validate_text C55_text u with Ok r => Some (Valid r) | _ => None end) ["""x"""; """xy"""; "{""a"":[1.0]}"; "[3]"; "null"] =
  [Some false; Some true; Some false; Some false; Some false].
Proof. vm_compute. auto. Qed.
(** Empty lists, which the drafts forbid: anyOf and oneOf without operands accept
    everything. *)
Theorem C55_refuted : exists f v b sch r, truth b f = false /\
  made world0 (write C55_atoms f) sch /\ returns go0 (s_heap sch) (s_root sch) in_order v r /\ Valid r = true.
Proof.
  destruct (NewSchema world0 FUEL in_order (LString "{""anyOf"":[]}")) as [sch sl'| | |] eqn:E; try (vm_compute in E; discriminate E).
  exists (Any []), VNil, (fun _ => true), sch. eexists. split; [reflexivity|]. split; [|split].
  - exists FUEL, in_order, (LString "{""anyOf"":[]}"), sl'. split; [apply in_order_fair|]. split; [discriminate|]. split; [exact I|]. split; [vm_compute; reflexivity|].
    split; [apply Nat.ltb_lt; vm_compute; reflexivity|exact E].
  - vm_compute in E. injection E as <- _. exists FUEL. vm_compute. reflexivity.
  - reflexivity.
Qed.
Print Assumptions C55_refuted.
