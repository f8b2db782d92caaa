(** The whole library: package-level Validate with Go's packages regexp, net/url and
    net/mail behind it (C58).

    [go_libs ud lim]: the libraries, with the registry of formats as it is set up
    (ModelStack.v); [go_world]: PropURL.v.  [pattern_says], [format_says]: what
    expressions and formats say about a text, without any library; [portable]: an
    expression in the notation ECMA-262 and package regexp share (SpecLibrary.v).
    [meaning], [fits], [usual], [source], [covered], [shallow]: PropURL.v, PropFetch.v. *)
From Verif Require Import LogicProps Checked CheckedMeta CheckedFetch CodecRange URLProps.
From Verif Require Import StackProps.
From Verif Require Import World0.
From Verif Require PropRegexp MailProps.
From Coq Require Import Lia.
Open Scope string_scope.
Open Scope list_scope.
Open Scope nat_scope.

(** A schema text without references and an instance text: Validate returns, and
    its verdict is what the drafts say. *)
Theorem C58_texts : forall ud lim fs http rest, serves_plain (go_libs ud lim) fs http rest ->
  forall fuel o s t doc v,
  fair o -> json verbatim s doc -> json verbatim t v ->
  self_contained doc -> all_numbers (moderate lim) doc -> well_formed portable (fun _ => True) same Hybrid doc ->
  (forall m, inside doc (VMap m) -> assoc "format" m <> Some (VStr "regex")) ->
  all_numbers (moderate lim) v ->
  (forall d' m x, needed nowhere Hybrid doc v d' (VMap m) x -> assoc "$ref" m = None -> fits lim m x) ->
  vsize doc < fuel -> vsize v * (weight doc + 2) + weight doc + 1 <= fuel ->
  exists r, Validate (go_world (go_libs ud lim) fs http rest) fuel o (LString s) (LString t) = Ok (Some r) /\
    (Valid r = true <-> meaning pattern_says format_says same nowhere Hybrid doc v).
Proof. exact stack_texts. Qed.
Print Assumptions C58_texts.
(** Any loaders, any draft, references to known and to fetched documents. *)
Theorem C58_validate : forall ud lim fs http rest, let go := go_libs ud lim in serves_plain go fs http rest ->
  let P := plain_world go fs http rest in
  forall fuel o ls ld p doc lib n v,
  fair o -> loader_fit ls -> plain_loader go fs http rest ls -> source P NewSchemaLoader ls p doc ->
  let ce := view P NewSchemaLoader ls in let d := root_draft P NewSchemaLoader doc in let T := heads_to ce p doc d in
  covered ce p lib doc -> lib_fuel doc lib < fuel -> settled_in (SpecFetch.found ce p doc) d ->
  (forall d' x, meets (heads_to ce p doc) d doc d' x -> well_shaped ce d' x) ->
  (forall d' m, within T d doc d' (VMap m) -> assoc "format" m <> Some (VStr "regex")) ->
  CompileDepth.shallow T n d doc ->
  fst (LoadJSON (go_world go fs http rest) ld) = Some v -> usual lim v ->
  (forall d' m x, needed T d doc v d' (VMap m) x -> assoc "$ref" m = None -> fits lim m x) ->
  vsize v * S n + n <= fuel ->
  exists r, Validate (go_world go fs http rest) fuel o ls ld = Ok (Some r) /\
    (Valid r = true <-> meaning pattern_says format_says same T d doc v).
Proof. exact stack_validate. Qed.
Print Assumptions C58_validate.
(** Whatever a SchemaLoader compiled, however deep references nest. *)
Theorem C58_verdict : forall ud lim fs http rest, let go := go_libs ud lim in serves_plain go fs http rest ->
  let P := plain_world go fs http rest in
  forall fuel o sl l p doc sch sl',
  fair o -> loader_fit l -> sl_ok sl -> plain_loader go fs http rest l -> plain_pool go fs http rest (sl_pool sl) -> sl_validate sl = false -> source P sl l p doc ->
  let d := root_draft P sl doc in
  all_found (view P sl l) p doc -> settled_in (SpecFetch.found (view P sl l) p doc) d ->
  Compile (go_world go fs http rest) fuel o sl l = LOk sch sl' ->
  let T := heads_to (view P sl l) p doc d in
  guarded T d doc -> (forall d' m, within T d doc d' (VMap m) -> (forall r, assoc "$ref" m <> Some (VStr r)) -> shared m) ->
  forall v, usual lim v ->
  (forall d' m x, needed T d doc v d' (VMap m) x -> assoc "$ref" m = None -> fits lim m x) ->
  forall o', fair o' ->
  exists r, returns go (s_heap sch) (s_root sch) o' v r /\ (Valid r = true <-> meaning pattern_says format_says same T d doc v).
Proof. exact stack_verdict. Qed.
Print Assumptions C58_verdict.

(** Members with names like "abc12" hold mail addresses, "day" holds a date,
    nothing else is allowed. *)
Definition C58_doc : value := VMap
  [("additionalProperties", VBool false);
   ("patternProperties", VMap [(PropRegexp.C57_text, VMap [("format", VStr "email")])]);
   ("properties", VMap [("day", VMap [("format", VStr "date")])]);
   ("type", VStr "object")].
Definition C58_schema : string := Eval vm_compute in match marshal C58_doc with Some t => t | None => "" end.
Definition C58_good : string := "{""abc12"":""joe@example.com"",""day"":""2020-02-29""}".
Definition C58_bad : string := "{""abc12"":""joe"",""day"":""2019-02-29"",""day2"":""2020-02-29""}".
Notation nofs := (fun (_ : nat) (_ : string) => @None string).
Notation noweb := (fun _ : string => @None string).
Definition C58_libs := go_libs PropRegexp.ud1 1000000.
Definition C58_world := go_world C58_libs nofs noweb (fun _ => "").
Definition C58_run (t : string) : option (bool * list (string * string)) :=
  match Validate C58_world 400 in_order (LString C58_schema) (LString t) with
  | Ok (Some r) => Some (Valid r, error_names (Ok r))
  | _ => None
  end.
Lemma C58_expression_portable : portable PropRegexp.C57_text.
Proof.
  exists PropRegexp.C57_expression, (PropRegexp.codes PropRegexp.C57_text). split; [exact PropRegexp.C57_written|]. apply MailProps.codes_text; repeat constructor.
Qed.
Ltac each_keyword :=
  repeat match goal with
  | |- _ /\ _ => split
  | |- SpecSchema.kw ?m ?k ?P => let x := fresh "x" in let E := fresh "E" in intros x E; vm_compute in E; try discriminate E; injection E as <-
  | |- since6 _ -> _ => intros _
  end.
Lemma C58_well_formed : well_formed portable (fun _ => True) same Hybrid C58_doc.
Proof.
  assert (L : forall f, well_formed portable (fun _ => True) same Hybrid (VMap [("format", VStr f)])).
  { intros f. apply wf_object; [apply (shapes_checked (fun _ => true)); auto|]. intros x S. apply subschema_subs in S. destruct S. }
  apply wf_object.
  - unfold shapes, head_shapes, plain_shapes, schema_shapes, ok_id, ok_ref, ok_type, ok_multipleOf, ok_exclusive, ok_natural, ok_order, ok_pattern, ok_required, ok_const, ok_enum, ok_additional, ok_patternProperties, ok_dependencies, ok_items.
    each_keyword.
    + left. eexists. split; [reflexivity|]. vm_compute. tauto.
    + eexists. reflexivity.
    + left. eexists. reflexivity.
    + eexists. split; [reflexivity|]. intros p x [[= <- _]|[]]. exact C58_expression_portable.
  - intros x S. apply subschema_subs in S. change (In x [VMap [("format", VStr "date")]; VMap [("format", VStr "email")]]) in S. destruct S as [<-|[<-|[]]]; apply L.
Qed.
Lemma C58_inside m : inside C58_doc (VMap m) -> m = match C58_doc with VMap m => m | _ => [] end \/
  m = [(PropRegexp.C57_text, VMap [("format", VStr "email")])] \/ m = [("day", VMap [("format", VStr "date")])] \/ exists f, In f ["email"; "date"] /\ m = [("format", VStr f)].
Proof.
  assert (L : forall f x, inside (VMap [("format", VStr f)]) x -> x = VMap [("format", VStr f)] \/ x = VStr f).
  { intros f x I. inversion I as [|? ? ? Hl|? k y ? Hk I']; subst; auto. destruct Hk as [[= <- <-]|[]]. inversion I'; auto. }
  intros I. inversion I as [|? ? ? Hl|? k y ? Hk I']; subst; auto. right. cbn [In] in Hk.
  destruct Hk as [[= <- <-]|[[= <- <-]|[[= <- <-]|[[= <- <-]|[]]]]].
  - inversion I'.
  - inversion I' as [|? ? ? Hl|? k y ? Hk I2]; subst; auto. destruct Hk as [[= <- <-]|[]]. apply L in I2. destruct I2 as [[= ->]|[=]]. right. right. eexists. split; [|reflexivity]. cbn; auto.
  - inversion I' as [|? ? ? Hl|? k y ? Hk I2]; subst; auto. destruct Hk as [[= <- <-]|[]]. apply L in I2. destruct I2 as [[= ->]|[=]]. right. right. eexists. split; [|reflexivity]. cbn; auto.
  - inversion I'.
Qed.
Lemma C58_self : self_contained C58_doc.
Proof.
  split; [|intros m [= <-]; reflexivity]. intros m k t I Hk Hm. apply C58_inside in I.
  destruct I as [->|[->|[->|(f & _ & ->)]]]; cbn [In C58_doc] in *; intuition (subst; discriminate).
Qed.
Lemma C58_json t v : decode_use_number t = Some v -> marshal v = Some t -> vsort v = v -> json verbatim t v.
Proof.
  intros D M S. destruct (PoolDocs.decode_doc_ok t v D) as [H1 H2]. destruct (marshal_verbatim v H1 H2) as (t' & E & J). rewrite M in E. injection E as <-. rewrite S in J. exact J.
Qed.
Definition C58_value (t : string) : value := match decode_use_number t with Some v => v | None => VNil end.
Lemma C58_fits t : decode_use_number t = Some (C58_value t) -> ordinary_b 1000000 (C58_value t) = true -> forall d m x, needed nowhere Hybrid C58_doc (C58_value t) d (VMap m) x -> assoc "$ref" m = None -> fits 1000000 m x.
Proof.
  intros D O. apply regular_fits; [apply ordinary_checked; [apply (PoolDocs.decode_doc_ok t); exact D|exact O]|]. intros d m W _. apply within_inside in W; [|apply (self_bare _ C58_self)]. apply C58_inside in W.
  apply regular_checked. destruct W as [->|[->|[->|(f & _ & ->)]]]; reflexivity.
Qed.
Example C58_example :
  serves_plain C58_libs nofs noweb (fun _ => "") /\ self_contained C58_doc /\ all_numbers (moderate 1000000) C58_doc /\ well_formed portable (fun _ => True) same Hybrid C58_doc /\
  (forall m, inside C58_doc (VMap m) -> assoc "format" m <> Some (VStr "regex")) /\ json verbatim C58_schema C58_doc /\ vsize C58_doc < 400 /\
  (forall t, In t [C58_good; C58_bad] ->
    json verbatim t (C58_value t) /\ all_numbers (moderate 1000000) (C58_value t) /\
    (forall d m x, needed nowhere Hybrid C58_doc (C58_value t) d (VMap m) x -> assoc "$ref" m = None -> fits 1000000 m x) /\
    vsize (C58_value t) * (weight C58_doc + 2) + weight C58_doc + 1 <= 400) /\
  C58_run C58_good = Some (true, []) /\
  C58_run C58_bad = Some (false, [("format", "abc12"); ("additional_property_not_allowed", "(root)"); ("format", "day")]).
Proof.
  split; [split; discriminate|]. split; [exact C58_self|]. split; [apply moderate_checked; vm_compute; reflexivity|]. split; [exact C58_well_formed|]. split.
  { intros m I. apply C58_inside in I. destruct I as [->|[->|[->|(f & [<-|[<-|[]]] & ->)]]]; discriminate. }
  split; [apply C58_json; vm_compute; reflexivity|]. split; [apply Nat.ltb_lt; reflexivity|]. split; [|split; vm_compute; reflexivity].
  intros t [<-|[<-|[]]].
  all: split; [apply C58_json; vm_compute; reflexivity|]; split; [apply moderate_checked; vm_compute; reflexivity|]; split; [apply C58_fits; vm_compute; reflexivity|apply Nat.leb_le; vm_compute; reflexivity].
Qed.
(** So the first instance satisfies the schema, and the second does not. *)
Example C58_meaning : meaning pattern_says format_says same nowhere Hybrid C58_doc (C58_value C58_good) /\
  ~ meaning pattern_says format_says same nowhere Hybrid C58_doc (C58_value C58_bad).
Proof.
  destruct C58_example as (S & D1 & D2 & D3 & D4 & D5 & D6 & G & R1 & R2). unfold C58_run in R1, R2.
  destruct (G C58_good ltac:(cbn; auto)) as (G1 & G2 & G3 & G4). destruct (G C58_bad ltac:(cbn; auto)) as (B1 & B2 & B3 & B4).
  destruct (C58_texts _ _ _ _ _ S 400 in_order _ _ _ _ in_order_fair D5 G1 D1 D2 D3 D4 G2 G3 D6 G4) as (r & E & M).
  destruct (C58_texts _ _ _ _ _ S 400 in_order _ _ _ _ in_order_fair D5 B1 D1 D2 D3 D4 B2 B3 D6 B4) as (r' & E' & M').
  unfold C58_world, C58_libs in *. rewrite E in R1. rewrite E' in R2. injection R1 as R1 _. injection R2 as R2 _. split; [apply M; exact R1|]. intros H. apply M' in H. congruence.
Qed.

(** Two documents on the web, one referring to the other and to itself. *)
Definition C58_pages := [
  ("http://x/tree", "{""$schema"":""http://json-schema.org/draft-07/schema#"",""$id"":""http://x/tree"",
  ""properties"":{""who"":{""$ref"":""types#/definitions/person""},""kids"":{""items"":{""$ref"":""#""}}}}");
  ("http://x/types", "{""definitions"":{""person"":{""format"":""email""}}}")].
Notation onweb := (fun u => assoc u C58_pages).
Notation C58_plain := (plain_world C58_libs nofs onweb (fun _ => "")).
Definition C58_load := LRef 0 "http://x/tree".
Definition C58_tree : value := Eval vm_compute in match fetched_doc C58_plain NewSchemaLoader C58_load "http://x/tree" with Some q => fst q | None => VNil end.
Definition C58_pool : pool := [("http://x/tree", Spd C58_tree (Some Draft7))].
Definition C58_ce := view C58_plain NewSchemaLoader C58_load.
Definition C58_lib : pool := Eval vm_compute in gather C58_ce C58_pool 20 (mentioned C58_tree) [].
Definition C58_lead := flead C58_ce C58_pool Draft7.
Definition C58_all : list (draft * value) := Eval vm_compute in collect C58_lead 40 [(Draft7, C58_tree)] [].
Definition C58_met : list (draft * value) := Eval vm_compute in collect_met C58_lead 60 [(Draft7, C58_tree)] [].
Lemma C58_covered : covered C58_ce C58_pool C58_lib C58_tree.
Proof. apply covered_checked. vm_compute. reflexivity. Qed.
Definition C58_url (s : string) : bool := match u_parse C58_ce s with Some _ => true | None => false end.
Example C58_validate_example :
  serves_plain C58_libs nofs onweb (fun _ => "") /\ plain_loader C58_libs nofs onweb (fun _ => "") C58_load /\
  source C58_plain NewSchemaLoader C58_load C58_pool C58_tree /\ root_draft C58_plain NewSchemaLoader C58_tree = Draft7 /\
  covered C58_ce C58_pool C58_lib C58_tree /\ lib_fuel C58_tree C58_lib < 400 /\ settled_in (SpecFetch.found C58_ce C58_pool C58_tree) Draft7 /\
  (forall d x, meets (heads_to C58_ce C58_pool C58_tree) Draft7 C58_tree d x -> well_shaped C58_ce d x) /\
  (let T := heads_to C58_ce C58_pool C58_tree Draft7 in
   (forall d m, within T Draft7 C58_tree d (VMap m) -> assoc "format" m <> Some (VStr "regex") /\ (assoc "$ref" m = None -> regular 1000000 m)) /\
   CompileDepth.shallow T 4 Draft7 C58_tree) /\
  match Validate (go_world C58_libs nofs onweb (fun _ => "")) 400 in_order C58_load (LString "{""who"":""joe@example.com"",""kids"":[{},{""kids"":[{""who"":""joe""}]}]}") with
  | Ok (Some r) => error_names (Ok r) = [("format", "kids.1.kids.0.who")]
  | _ => False
  end.
Proof.
  split.
  { split; [discriminate|]. assert (A : forallb (fun p => match decode_use_number (snd p) with Some v => plain_doc C58_libs nofs onweb (fun _ => "") v | None => true end) C58_pages = true) by (vm_compute; reflexivity).
    intros u t v E D. apply assoc_In in E. rewrite forallb_forall in A. apply A in E. cbn [snd] in E. rewrite D in E. exact E. }
  split; [vm_compute; reflexivity|]. split; [apply (fetched_checked C58_plain NewSchemaLoader C58_load "http://x/tree" C58_tree (Some Draft7)); vm_compute; reflexivity|].
  split; [vm_compute; reflexivity|]. split; [exact C58_covered|]. split; [apply Nat.ltb_lt; vm_compute; reflexivity|].
  split; [apply (settled_checked _ _ _ _ _ C58_covered); vm_compute; reflexivity|]. split.
  { apply (meets_well_shaped C58_lead C58_url _ Draft7 (flead_only _ _ _ _)) with (L := C58_met); [discriminate| |vm_compute; reflexivity].
    unfold C58_url. intros s. destruct (u_parse C58_ce s); discriminate. }
  assert (G : guarded_b C58_lead 4 C58_all (Draft7, C58_tree) = true) by (vm_compute; reflexivity).
  assert (R : regulars_b 1000000 C58_all = true) by (vm_compute; reflexivity).
  assert (F : forallb (fun q => match snd q with VMap m => match assoc "format" m with Some (VStr f) => negb (String.eqb f "regex") | _ => true end | _ => true end) C58_all = true) by (vm_compute; reflexivity).
  split; [|vm_compute; reflexivity]. split; [|eapply (shallow_checked C58_lead); [apply flead_only|exact G]].
  intros d m W. split; [|eapply regulars_checked; [apply flead_only|exact G|exact R|exact W]].
  pose proof (within_collected C58_lead _ (flead_only _ _ _ _) _ _ _ G _ _ W) as I. rewrite forallb_forall in F. apply F in I. cbn [snd] in I. intros E. rewrite E in I. discriminate I.
Qed.
