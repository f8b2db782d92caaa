(** The keywords of a schema object taken apart (C67).

    [chosen p m] (SpecSplit.v): the members of the schema object m whose names p
    picks; [keeps_together]: p never separates keywords that are read together
    (the five groups of [bundles]); [covers]: no member is left out;
    [with_its_bundle k]: k and those read together with it.  [simple], [verdict],
    [usual], [fitting]: as for C55 (PropLogic.v). *)
From Verif Require Import World0 World0Facts Checked0 CheckedShape PropLogic SplitProps.
From Verif Require Import SpecSplit.

(** ** C67 *)
Theorem C67_compiles : forall w, url_laws w -> forall p m, keeps_together p -> simple w (VMap m) -> simple w (VMap (chosen p m)).
Proof. exact split_simple. Qed.
Print Assumptions C67_compiles.
(** The verdict is the conjunction of the verdicts of the parts, however the
    keywords are distributed, once or several times. *)
Theorem C67_verdict : forall w, url_laws w -> forall ps m v, Forall keeps_together ps -> covers ps m ->
  simple w (VMap m) -> usual (e_ratlim (w_go w)) v -> fitting w (VMap m) v ->
  exists b, verdict w (VMap m) v b /\ (b = true <-> forall p, In p ps -> verdict w (VMap (chosen p m)) v true).
Proof. exact split_verdict. Qed.
Print Assumptions C67_verdict.
(** Down to the single keywords. *)
Theorem C67_keywords : forall w, url_laws w -> forall m v, simple w (VMap m) -> usual (e_ratlim (w_go w)) v -> fitting w (VMap m) v ->
  exists b, verdict w (VMap m) v b /\ (b = true <-> forall k x, In (k, x) m -> verdict w (VMap (chosen (with_its_bundle k) m)) v true).
Proof. exact each_keyword. Qed.
Print Assumptions C67_keywords.
(** A schema with fewer keywords accepts what the schema accepts. *)
Theorem C67_fewer : forall w, url_laws w -> forall p m v, keeps_together p ->
  simple w (VMap m) -> usual (e_ratlim (w_go w)) v -> fitting w (VMap m) v ->
  verdict w (VMap m) v true -> verdict w (VMap (chosen p m)) v true.
Proof. exact fewer_keywords. Qed.
Print Assumptions C67_fewer.

Definition C67_text := "{""type"":""object"",""maxProperties"":2,""properties"":{""a"":{""minimum"":3,""exclusiveMinimum"":true}},""additionalProperties"":false,
  ""minProperties"":1,""not"":{""required"":[""b""]}}".
Definition C67_members : list (string * value) := match the_doc C67_text with VMap m => m | _ => [] end.
Definition C67_parts : list (string -> bool) := [with_its_bundle "properties"; fun k => negb (existsb (String.eqb k) ["properties"; "patternProperties"; "additionalProperties"])].
Definition C67_instances := ["{""a"":4}"; "{""a"":3}"; "{}"; "{""b"":1}"; "[]"].
(** The hypotheses hold, and there are several verdicts. *)
Example C67_example :
  Forall keeps_together C67_parts /\ covers C67_parts C67_members /\ simple world0 (VMap C67_members) /\
  (forall u, In u C67_instances -> usual 1000000 (the_doc u) /\ fitting world0 (VMap C67_members) (the_doc u)) /\
  map (fun p => map fst (chosen p C67_members)) C67_parts = [["properties"; "additionalProperties"]; ["type"; "maxProperties"; "minProperties"; "not"]] /\
  map (fun u => match validate_text C67_text u with Ok r => Some (Valid r) | _ => None end) C67_instances = [Some true; Some false; Some false; Some false; Some false].
Proof.
  assert (S : simple_b C67_text = true) by (vm_compute; reflexivity).
  split; [|split; [|split; [|split; [|split; vm_compute; reflexivity]]]].
  - constructor; [apply its_bundle|]. constructor; [|constructor]. intros b k k' Hb Hk Hk' E. cbn [bundles In] in Hb.
    decompose [or] Hb; try contradiction; subst; cbn [In] in Hk, Hk'; decompose [or] Hk; try contradiction; subst; try discriminate E; decompose [or] Hk'; try contradiction; subst; reflexivity.
  - intros k x H. assert (A : forallb (fun e => existsb (fun p => p (fst e)) C67_parts) C67_members = true) by (vm_compute; reflexivity).
    rewrite forallb_forall in A. specialize (A _ H). apply existsb_exists in A. exact A.
  - exact (simple_checked C67_text S).
  - intros u Hu. apply and_comm. apply (fitting_checked C67_text u S). cbn [C67_instances In] in Hu. decompose [or] Hu; try contradiction; subst u; vm_compute; reflexivity.
Qed.
(** The groups are needed: "additionalProperties" alone means something else. *)
Lemma verdict_computed t u b : simple_b t = true -> fitting_b t u = true ->
  match NewSchema world0 FUEL in_order (LString t) with
  | LOk sch _ => match validateDocument go0 (s_heap sch) FUEL in_order (s_root sch) (the_doc u) with Ok r => Some (Valid r) | _ => None end
  | _ => None
  end = Some b -> verdict world0 (the_doc t) (the_doc u) b.
Proof.
  intros S F E. destruct (simple_checked t S) as (B & D & N & X). destruct (fitting_checked t u S F) as [F' U].
  destruct (bare_decided world0 world0_laws _ B D N X (the_doc u) U F') as (b' & Vb & _). assert (b' = b); [|subst; auto].
  destruct Vb as [_ V]. destruct (NewSchema world0 FUEL in_order (LString t)) as [sch sl'| | |] eqn:EN; try discriminate.
  unfold simple_b in S. rewrite !andb_true_iff in S. destruct S as (((((S1 & _) & _) & _) & S5) & _). apply Nat.ltb_lt in S5.
  destruct (V sch in_order) as (r & [fu R] & <-); [|apply in_order_fair|].
  - exists FUEL, in_order, (LString t), sl'. split; [apply in_order_fair|]. split; [discriminate|]. split; [exact I|]. split; auto.
    cbn [LoadJSON fst]. unfold the_doc. destruct (decode_use_number t); [auto|discriminate].
  - destruct (validateDocument go0 (s_heap sch) FUEL in_order (s_root sch) (the_doc u)) as [r'| |] eqn:EV; try discriminate. injection E as <-.
    f_equal. apply (returns_unique go0 (s_heap sch) (s_root sch) in_order (the_doc u)); [exists fu; exact R|exists FUEL; exact EV].
Qed.
(** The groups are needed: "additionalProperties" alone means something else. *)
Theorem C67_bundles_needed : exists m v p, simple world0 (VMap m) /\ usual 1000000 v /\ fitting world0 (VMap m) v /\ verdict world0 (VMap m) v true /\
  verdict world0 (VMap (chosen p m)) v false.
Proof.
  exists [("properties", the_doc "{""a"":{}}"); ("additionalProperties", VBool false)], (the_doc "{""a"":1}"), (String.eqb "additionalProperties").
  change (VMap (chosen _ _)) with (the_doc "{""additionalProperties"":false}").
  change (VMap _) with (the_doc "{""properties"":{""a"":{}},""additionalProperties"":false}").
  assert (S : simple_b "{""properties"":{""a"":{}},""additionalProperties"":false}" = true) by (vm_compute; reflexivity).
  assert (F : fitting_b "{""properties"":{""a"":{}},""additionalProperties"":false}" "{""a"":1}" = true) by (vm_compute; reflexivity).
  split; [apply simple_checked; auto|]. destruct (fitting_checked _ _ S F) as [F' U]. split; auto. split; auto.
  split; apply verdict_computed; auto; vm_compute; reflexivity.
Qed.
Print Assumptions C67_bundles_needed.
