(** What the errors of Validate say (C63, C64).

    The setting is the one of C01_any_loader (PropFetch.v).
    [justified] (SpecReason.v): the error is about a part of the instance to
    which keywords and references of the schema document bring a schema that
    this part breaks, by the keyword the type of the error names, with the
    details it carries.
    [due]: the part has to satisfy that schema for the instance to be valid. *)
From Verif Require Import CheckedFetch ReasonLoad MetaLoad URLProps PropFetch PropURL.
From Verif Require Export SpecReason.
Open Scope string_scope.
Open Scope list_scope.
Open Scope nat_scope.

(** ** C63: every error has its reason in the document *)
Theorem C63_justified : forall w, url_laws w -> web_laws w -> forall fuel o sl l p doc sch sl',
  fair o -> loader_fit l -> sl_ok sl -> sl_validate sl = false -> source w sl l p doc ->
  let d := root_draft w sl doc in
  all_found (view w sl l) p doc -> settled_in (found (view w sl l) p doc) d ->
  Compile w fuel o sl l = LOk sch sl' ->
  let T := heads_to (view w sl l) p doc d in
  guarded T d doc ->
  forall v, usual (e_ratlim (w_go w)) v ->
  (forall d' m x, needed T d doc v d' (VMap m) x -> assoc "$ref" m = None -> fits (e_ratlim (w_go w)) m x) ->
  forall o' r, fair o' -> returns (w_go w) (s_heap sch) (s_root sch) o' v r ->
  Forall (justified (pat (w_go w)) (fmt (w_go w)) same (meaning (pat (w_go w)) (fmt (w_go w)) same T) T d doc v) (errors r).
Proof. exact source_justified. Qed.
Print Assumptions C63_justified.

(** With Go's URL library (see C49). *)
Theorem C63_library : forall go fs http rest, serves_plain go fs http rest -> let P := plain_world go fs http rest in
  forall fuel o sl l p doc sch sl',
  fair o -> loader_fit l -> sl_ok sl -> plain_loader go fs http rest l -> plain_pool go fs http rest (sl_pool sl) -> sl_validate sl = false -> source P sl l p doc ->
  let d := root_draft P sl doc in
  all_found (view P sl l) p doc -> settled_in (found (view P sl l) p doc) d ->
  Compile (go_world go fs http rest) fuel o sl l = LOk sch sl' ->
  let T := heads_to (view P sl l) p doc d in
  guarded T d doc ->
  forall v, usual (e_ratlim go) v ->
  (forall d' m x, needed T d doc v d' (VMap m) x -> assoc "$ref" m = None -> fits (e_ratlim go) m x) ->
  forall o' r, fair o' -> returns go (s_heap sch) (s_root sch) o' v r ->
  Forall (justified (pat go) (fmt go) same (meaning (pat go) (fmt go) same T) T d doc v) (errors r).
Proof. exact plain_justified. Qed.
Print Assumptions C63_library.

(** ** C64: everything that has to be right and is not, is reported *)
Theorem C64_reported : forall w, url_laws w -> web_laws w -> forall fuel o sl l p doc sch sl',
  fair o -> loader_fit l -> sl_ok sl -> sl_validate sl = false -> source w sl l p doc ->
  let d := root_draft w sl doc in
  all_found (view w sl l) p doc -> settled_in (found (view w sl l) p doc) d ->
  Compile w fuel o sl l = LOk sch sl' ->
  let T := heads_to (view w sl l) p doc d in
  guarded T d doc ->
  forall v, usual (e_ratlim (w_go w)) v ->
  (forall d' m x, needed T d doc v d' (VMap m) x -> assoc "$ref" m = None -> fits (e_ratlim (w_go w)) m x) ->
  forall o' r, fair o' -> returns (w_go w) (s_heap sch) (s_root sch) o' v r ->
  reports_due (due (pat (w_go w)) (fmt (w_go w)) same (meaning (pat (w_go w)) (fmt (w_go w)) same T) T d doc v) (errors r).
Proof. exact source_due. Qed.
Print Assumptions C64_reported.

Theorem C64_library : forall go fs http rest, serves_plain go fs http rest -> let P := plain_world go fs http rest in
  forall fuel o sl l p doc sch sl',
  fair o -> loader_fit l -> sl_ok sl -> plain_loader go fs http rest l -> plain_pool go fs http rest (sl_pool sl) -> sl_validate sl = false -> source P sl l p doc ->
  let d := root_draft P sl doc in
  all_found (view P sl l) p doc -> settled_in (found (view P sl l) p doc) d ->
  Compile (go_world go fs http rest) fuel o sl l = LOk sch sl' ->
  let T := heads_to (view P sl l) p doc d in
  guarded T d doc ->
  forall v, usual (e_ratlim go) v ->
  (forall d' m x, needed T d doc v d' (VMap m) x -> assoc "$ref" m = None -> fits (e_ratlim go) m x) ->
  forall o' r, fair o' -> returns go (s_heap sch) (s_root sch) o' v r ->
  reports_due (due (pat go) (fmt go) same (meaning (pat go) (fmt go) same T) T d doc v) (errors r).
Proof. exact plain_due. Qed.
Print Assumptions C64_library.

(** ** Both, for loaders that check documents against their meta-schemas *)
Theorem C64_checked : forall w, url_laws w -> web_laws w -> meta_urls w -> (0 <= e_ratlim (w_go w))%Z ->
  forall fuel o sl l p doc d' sch sl', checking w fuel o sl l p doc d' -> Compile w fuel o sl l = LOk sch sl' ->
  let d := root_draft w sl doc in
  all_found (view w sl l) p doc -> settled_in (found (view w sl l) p doc) d ->
  let T := heads_to (view w sl l) p doc d in
  guarded T d doc ->
  forall v, usual (e_ratlim (w_go w)) v ->
  (forall d' m x, needed T d doc v d' (VMap m) x -> assoc "$ref" m = None -> fits (e_ratlim (w_go w)) m x) ->
  forall o' r, fair o' -> returns (w_go w) (s_heap sch) (s_root sch) o' v r ->
  let V := meaning (pat (w_go w)) (fmt (w_go w)) same T in
  Forall (justified (pat (w_go w)) (fmt (w_go w)) same V T d doc v) (errors r) /\
  reports_due (due (pat (w_go w)) (fmt (w_go w)) same V T d doc v) (errors r).
Proof. exact checked_reasons. Qed.
Print Assumptions C64_checked.

(** The documents of C01_any_loader_example. *)
Definition web_inst : value := Eval vm_compute in the_doc "{""n"":20,""kids"":[{""n"":0},{""n"":21},{}]}".
Definition web_few : rerror := newError ArrayMinPropertiesError ["2"; "kids"; "(root)"] (VMap []) [("min", DInt 1)].
Definition web_low : rerror := newError NumberGTError ["n"; "0"; "kids"; "(root)"] (VNum "0") [("min", DRat 0)].
Definition web_T := heads_to web_ce web_pool web_doc Draft7.
Definition web_V := meaning (pat go0) (fmt go0) same web_T.
Lemma web_leads k x dr : In k (mentioned web_doc) -> u_parse web_ce k = Some k -> (forall e, In (k, e) web_lib -> e = Spd x dr) ->
  web_T k (match dr with Some d => d | None => Draft7 end) x.
Proof.
  intros M P U. assert (R : reached web_ce web_pool web_doc k) by (eapply reached_root; [apply mentioned_mentions; exact M|exact P]).
  destruct (web_covered k R) as (e & I & F). exists k, e. split; [exact P|]. split; [split; auto|]. rewrite (U e I). auto.
Qed.
Lemma web_kid v : In v [VMap [("n", VNum "0")]; VMap [("n", VNum "21")]; VMap []] -> forall i, nth_error [VMap [("n", VNum "0")]; VMap [("n", VNum "21")]; VMap []] i = Some v ->
  must (pat go0) web_V web_T Draft7 web_doc web_inst Draft7 web_doc v [itoa (Z.of_nat i); "kids"; "(root)"].
Proof.
  intros _ i Hi. eapply path_ref with (d := Draft7) (r := "http://x/tree"); [| |apply (web_leads "http://x/tree" web_doc (Some Draft7))].
  - assert (K : must (pat go0) web_V web_T Draft7 web_doc web_inst Draft7 (VMap [("items", VMap [("$ref", VStr "http://x/tree")])]) (VArr [VMap [("n", VNum "0")]; VMap [("n", VNum "21")]; VMap []]) ["kids"; "(root)"]).
    { refine (path_part _ _ _ _ _ Draft7 (match web_doc with VMap m => m | _ => [] end) _ _ _ _ _ (path_root _ _ _ _ _) _ _); [discriminate|]. split; [intros t X; discriminate X|].
      eapply (p_property _ _ _ _ _ _ _ "kids"); [reflexivity|right; left; reflexivity|right; left; reflexivity]. }
    refine (path_part _ _ _ _ _ _ _ _ _ _ _ _ K _ _); [discriminate|]. split; [intros t X; discriminate X|]. eapply p_items; [reflexivity|discriminate|exact Hi].
  - reflexivity.
  - vm_compute. auto.
  - vm_compute. reflexivity.
  - intros e [[= <-]|[[=]|[]]]. reflexivity.
Qed.
Example C64_example :
  due (pat go0) (fmt go0) same web_V web_T Draft7 web_doc web_inst web_few /\
  due (pat go0) (fmt go0) same web_V web_T Draft7 web_doc web_inst web_low /\
  match Compile web FUEL in_order NewSchemaLoader web_load with
  | LOk sch _ => exists r, validateDocument go0 (s_heap sch) FUEL in_order (s_root sch) web_inst = Ok r /\
      map (fun e => (r_type e, r_ctx e)) (errors r) =
        [(NumberGTError, r_ctx web_low); (ConditionThenError, ["n"; "1"; "kids"; "(root)"]); (NumberLTEError, ["n"; "1"; "kids"; "(root)"]); (ArrayMinPropertiesError, r_ctx web_few)]
  | _ => False
  end.
Proof.
  split; [|split].
  - exists Draft7, web_doc, (VMap []), ["2"; "kids"; "(root)"]. split; [apply (web_kid (VMap []) (or_intror (or_intror (or_introl eq_refl))) 2 eq_refl)|]. split; [|intros m [= <-] _ t X; discriminate X].
    split; [reflexivity|]. split; [reflexivity|]. right. eexists. split; [reflexivity|]. split; [reflexivity|].
    exists []. split; [reflexivity|]. exists (VNum "1"), 1%Z. split; [reflexivity|]. split; [|split; [reflexivity|reflexivity]].
    eexists. split; [reflexivity|]. apply (rat_of_denotes 1000000); reflexivity.
  - exists Draft7, (VMap [("exclusiveMinimum", VNum "0"); ("if", VMap [("minimum", VNum "10")]); ("then", VMap [("maximum", VNum "20")])]), (VNum "0"), ["n"; "0"; "kids"; "(root)"].
    split; [|split; [|intros m [= <-] _ t X; discriminate X]].
    + eapply path_ref with (d := Draft7) (r := "http://x/types#/definitions/pos"); [| |apply (web_leads "http://x/types#/definitions/pos" _ None)].
      * refine (path_part _ _ _ _ _ Draft7 (match web_doc with VMap m => m | _ => [] end) _ _ _ _ _ (web_kid (VMap [("n", VNum "0")]) (or_introl eq_refl) 0 eq_refl) _ _); [discriminate|]. split; [intros t X; discriminate X|].
        eapply (p_property _ _ _ _ _ _ _ "n"); [reflexivity|left; reflexivity|left; reflexivity].
      * reflexivity.
      * vm_compute. auto.
      * vm_compute. reflexivity.
      * intros e [[=]|[[= <-]|[]]]. reflexivity.
    + split; [reflexivity|]. split; [reflexivity|]. right. eexists. split; [reflexivity|]. split; [reflexivity|]. left. split; [discriminate|].
      exists (VNum "0"), 0%Q, 0%Q. split; [reflexivity|]. assert (Z0 : is_num (VNum "0") 0) by (eexists; split; [reflexivity|apply (rat_of_denotes 1000000); reflexivity]).
      split; [exact Z0|]. split; [exact Z0|]. split; [apply Qle_refl|reflexivity].
  - vm_compute. eexists. split; reflexivity.
Qed.
