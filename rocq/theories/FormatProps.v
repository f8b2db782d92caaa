(** The registry of formats, and schemas that use it. *)
From Verif Require Import SpecEqual ValidateEq CheckedLeaf.
From Verif Require Import Base ModelFormat SpecFormat FormatRegex FormatTime FormatIP.
From Coq Require Import Lia Bool.
Open Scope string_scope.
Open Scope list_scope.

(** ** A history of Add and Remove *)
Inductive change := CAdd (name : string) (f : checker) | CRemove (name : string).
Definition about (name : string) (c : change) : Prop := match c with CAdd n _ => n = name | CRemove n => n = name end.
Definition change_one (r : registry) (c : change) : registry := match c with CAdd n f => Add n f r | CRemove n => Remove n r end.
Definition changes (l : list change) (r : registry) : registry := fold_left change_one l r.
(** None of these operations concerns the name. *)
Definition untouched (name : string) (l : list change) : Prop := forall c, In c l -> ~ about name c.

Lemma assoc_add : forall n f r k, assoc k (Add n f r) = if String.eqb k n then Some f else assoc k r.
Proof.
  intros n f r k. unfold Add. induction r as [|[a g] r IH]; cbn.
  - reflexivity.
  - destruct (String.eqb n a) eqn:E; cbn.
    + apply String.eqb_eq in E. subst a. destruct (String.eqb k n); reflexivity.
    + destruct (String.eqb k a) eqn:E'; [|exact IH]. apply String.eqb_eq in E'. subst a. rewrite String.eqb_sym, E. reflexivity.
Qed.
Lemma assoc_remove : forall n (r : registry) k, assoc k (Remove n r) = if String.eqb k n then None else assoc k r.
Proof.
  intros n r k. unfold Remove, adel. induction r as [|[a g] r IH]; cbn; [now destruct (String.eqb k n)|].
  destruct (String.eqb n a) eqn:E; cbn.
  - apply String.eqb_eq in E. subst a. destruct (String.eqb k n); exact IH.
  - rewrite IH. destruct (String.eqb k n) eqn:E'; [|reflexivity]. apply String.eqb_eq in E'. subst k. now rewrite E.
Qed.
Lemma assoc_untouched : forall l r n, untouched n l -> assoc n (changes l r) = assoc n r.
Proof.
  induction l as [|c l IH]; intros r n U; [reflexivity|]. cbn. unfold changes in IH. rewrite IH by (intros x Hx; apply U; now right).
  assert (N : ~ about n c) by (apply U; now left). destruct c as [k f|k]; cbn in *.
  - rewrite assoc_add. destruct (String.eqb n k) eqn:E; [apply String.eqb_eq in E; congruence | reflexivity].
  - rewrite assoc_remove. destruct (String.eqb n k) eqn:E; [apply String.eqb_eq in E; congruence | reflexivity].
Qed.
Lemma changes_app : forall a b r, changes (a ++ b) r = changes b (changes a r).
Proof. intros. unfold changes. apply fold_left_app. Qed.

Lemma registry_added : forall before name f after r, untouched name after ->
  let r' := changes (before ++ CAdd name f :: after) r in
  Has name r' = true /\ forall v, IsFormat r' name v = f v.
Proof.
  intros before name f after r U. cbn zeta. unfold Has, IsFormat. rewrite changes_app. cbn [changes fold_left]. fold (changes after).
  change (fold_left change_one after ?x) with (changes after x). rewrite assoc_untouched by exact U. cbn [change_one].
  rewrite assoc_add, String.eqb_refl. split; reflexivity.
Qed.
Lemma registry_removed : forall before name after r, untouched name after ->
  let r' := changes (before ++ CRemove name :: after) r in
  Has name r' = false /\ forall v, IsFormat r' name v = true.
Proof.
  intros before name after r U. cbn zeta. unfold Has, IsFormat. rewrite changes_app. cbn [changes fold_left].
  change (fold_left change_one after ?x) with (changes after x). rewrite assoc_untouched by exact U. cbn [change_one].
  rewrite assoc_remove, String.eqb_refl. split; reflexivity.
Qed.
Lemma registry_untouched : forall l name r, untouched name l ->
  Has name (changes l r) = Has name r /\ forall v, IsFormat (changes l r) name v = IsFormat r name v.
Proof. intros l name r U. unfold Has, IsFormat. rewrite assoc_untouched by exact U. split; reflexivity. Qed.
Lemma registry_unknown : forall r name, Has name r = false -> forall v, IsFormat r name v = true.
Proof. intros r name H v. unfold Has, IsFormat in *. destruct (assoc name r); [discriminate H | reflexivity]. Qed.

(** ** The registry a program starts with *)
Definition FORMATS : list string :=
  ["date"; "time"; "date-time"; "hostname"; "email"; "idn-email"; "ipv4"; "ipv6"; "uri"; "uri-reference"; "iri"; "iri-reference";
   "uri-template"; "uuid"; "regex"; "json-pointer"; "relative-json-pointer"].
Lemma default_names : forall fe name, Has name (FormatCheckers fe) = true <-> In name FORMATS.
Proof.
  intros fe name. unfold Has. change FORMATS with (map fst (FormatCheckers fe)). generalize (FormatCheckers fe). intros r.
  induction r as [|[k f] r IH]; cbn; [split; [discriminate | contradiction]|]. destruct (String.eqb name k) eqn:E.
  - apply String.eqb_eq in E. split; auto.
  - rewrite IH. apply String.eqb_neq in E. split; [auto | intros [H|H]; [congruence | exact H]].
Qed.
(** Checkers that look at strings only. *)
Definition strings_only (r : registry) : Prop :=
  forall name v, (forall s, v <> VStr s) -> IsFormat r name v = true.
Lemma default_strings : forall fe, strings_only (FormatCheckers fe).
Proof.
  intros fe name v N. unfold IsFormat. destruct (assoc name (FormatCheckers fe)) as [f|] eqn:E; [|reflexivity].
  assert (S : exists g, f = on_string g).
  { unfold FormatCheckers in E. cbn [assoc] in E.
    repeat (match type of E with (if ?b then _ else _) = _ => destruct b end; [injection E as <-; eexists; reflexivity|]). discriminate E. }
  destruct S as [g ->]. destruct v; try reflexivity. exfalso. exact (N s eq_refl).
Qed.
Lemma same_strings : forall r (R : value -> value -> Prop), strings_only r ->
  (forall s v, R (VStr s) v -> v = VStr s) -> (forall s v, R v (VStr s) -> v = VStr s) ->
  forall name v v', R v v' -> IsFormat r name v = IsFormat r name v'.
Proof.
  intros r R S R1 R2 name v v' H.
  assert (D : forall x : value, {s | x = VStr s} + {forall s, x <> VStr s}) by (intros []; try (right; intros s' E; discriminate E); left; eauto).
  destruct (D v) as [[s ->]|N]; [now rewrite (R1 s v' H)|]. destruct (D v') as [[s ->]|N']; [now rewrite (R2 s v H)|].
  now rewrite !S.
Qed.
Lemma equal_strings (eqn : value -> value -> Prop) : (forall x y, eqn x y -> (forall s, x <> VStr s) /\ (forall s, y <> VStr s)) ->
  (forall s v, equal eqn (VStr s) v -> v = VStr s) /\ (forall s v, equal eqn v (VStr s) -> v = VStr s).
Proof.
  intros H. split; intros s v E; inversion E; subst; auto; exfalso;
    match goal with X : eqn _ _ |- _ => destruct (H _ _ X) as [H1 H2]; first [exact (H1 _ eq_refl) | exact (H2 _ eq_refl)] end.
Qed.
Lemma respelled_strings : forall x y, respelled x y -> (forall s, x <> VStr s) /\ (forall s, y <> VStr s).
Proof. unfold respelled. intros x y H. decompose [ex and] H. subst. split; discriminate. Qed.
Lemma same_value_strings : forall x y, same_value x y -> (forall s, x <> VStr s) /\ (forall s, y <> VStr s).
Proof. unfold same_value. intros x y H. decompose [ex and] H. subst. split; discriminate. Qed.
Lemma strings_alike : forall r, strings_only r -> forall name v v',
  equal respelled v v' \/ equal same_value v v' \/ veq v v' \/ yaml v v' -> IsFormat r name v = IsFormat r name v'.
Proof.
  intros r S name v v' [H|[H|[H|H]]]; (eapply (same_strings r); [exact S | | | exact H]).
  1,2: apply equal_strings, respelled_strings. 1,2: apply equal_strings, same_value_strings.
  all: intros s x E; inversion E; reflexivity.
Qed.

(** ** The format keyword *)
Lemma format_exact : forall w, url_laws w -> forall sl m sch, schema_of w sl (VMap m) sch -> Forall leaf m ->
  (forall k, In k (map fst m) -> In k ["$schema"; "title"; "description"; "format"]) ->
  forall v, usual (e_ratlim (w_go w)) v ->
  verdict w sch v (forall f, assoc "format" m = Some (VStr f) -> f = "" \/ e_is_format (w_go w) f v = true).
Proof.
  intros w HU sl m sch HS HL HK v U. pose proof (leaf_absent m _ HK) as N.
  assert (FT : fits (e_ratlim (w_go w)) m v).
  { apply (leaf_fits w sl m sch HS HL); try (rewrite N by (vm_compute; reflexivity); discriminate). unfold compares. rewrite !N by (vm_compute; reflexivity). intros [X|[X|X]]; congruence. }
  eapply verdict_ext; [|exact (schema_leaf w HU sl m sch HS HL v U FT)]. unfold keywords. split.
  - intros (_ & _ & _ & K & _) f E. exact (K _ E f eq_refl).
  - intros B.
    repeat match goal with |- _ /\ _ => apply conj end;
      try solve [intros x E; rewrite N in E by (vm_compute; reflexivity); discriminate E];
      try solve [intros _ x E; rewrite N in E by (vm_compute; reflexivity); discriminate E].
    intros x E f ->. exact (B f E).
Qed.

(** ** The example world with a given registry *)
Definition world_of (r : registry) : world :=
  World (GoEnv (e_ratlim go0) (e_re_ok go0) (e_re_match go0) (IsFormat r))
        (w_parse world0) (w_inherits world0) (w_strip world0) (w_fragment world0) (w_canonical world0)
        (w_file world0) (w_fs world0) (w_http world0) (w_rest world0).
Lemma world_of_laws : forall r, url_laws (world_of r).
Proof. intros r. exact world0_laws. Qed.
Definition leaf_in (w : world) (s : string) (ks : list string) : bool :=
  match decode_use_number s, NewSchema w FUEL in_order (LString s) with
  | Some (VMap m), LOk x _ =>
      (forallb leaf_b m && numbers_b (moderate_b (e_ratlim (w_go w))) (VMap m) && forallb (fun k => if in_dec string_dec k ks then true else false) (map fst m))%bool
  | _, _ => false
  end.
Lemma leaf_in_ok w s ks : leaf_in w s ks = true -> exists m sch,
  decode_use_number s = Some (VMap m) /\ schema_of w NewSchemaLoader (VMap m) sch /\ Forall leaf m /\ (forall k, In k (map fst m) -> In k ks).
Proof.
  unfold leaf_in. destruct (decode_use_number s) as [[| | | | | |m|]|] eqn:EV; try discriminate.
  destruct (NewSchema w FUEL in_order (LString s)) as [x sl'| | |] eqn:EN; try discriminate. rewrite !andb_true_iff. intros [[H1 H2] H3].
  exists m, x. split; auto. split; [|split].
  - exists FUEL, in_order, (LString s), sl'. split; [apply in_order_fair|]. split; [discriminate|]. split; [exact I|].
    split; [|split; [|split]].
    + cbn [LoadJSON fst]. now rewrite EV.
    + apply moderate_checked. exact H2.
    + apply sl_ok_new.
    + rewrite <- EN. symmetry. apply NewSchema_Compile.
  - rewrite forallb_forall in H1. apply Forall_forall. intros e He. apply leaf_checked. auto.
  - rewrite forallb_forall in H3. intros k Hk. specialize (H3 k Hk). cbv beta in H3. destruct (in_dec string_dec k ks); [auto|discriminate].
Qed.
Lemma usual_in lim t v : decode_use_number t = Some v -> numbers_b (moderate_b lim) v = true -> usual lim v.
Proof. intros E H. split; [eapply decode_doc_ok; eauto | now apply moderate_checked]. Qed.
(** Libraries of the example: an address has an "@", a URL's scheme ends at
    the first ":", a regular expression has no "(". *)
Fixpoint scheme0 (s : string) : string * string :=
  match s with
  | EmptyString => ("", "")
  | String c s' => if Ascii.eqb c ":" then ("", s') else let '(a, b) := scheme0 s' in (String c a, b)
  end.
Definition fe0 : fmtenv :=
  FmtEnv (has_char "@") (fun s => Some (if has_char ":" s then scheme0 s else ("", s))) (fun s => negb (has_char "(" s)).
Definition checks (r : registry) (name : string) (l : list string) : list bool := map (fun s => IsFormat r name (VStr s)) l.

(** ** The checkers by name *)
Section Named.
  Variable fe : fmtenv.
  Definition accepts (name s : string) : Prop := IsFormat (FormatCheckers fe) name (VStr s) = true.
  Lemma accepts_time s : accepts "time" s <-> lax_clock s \/ followed lax_clock lax_offset s.
  Proof.
    unfold accepts. change (IsFormat (FormatCheckers fe) "time" (VStr s)) with (if time_Parse (CLOCK ++ [KZone]) s then true else time_Parse CLOCK s).
    rewrite <- clock_right, <- zoned_right. destruct (time_Parse (CLOCK ++ [KZone]) s); [tauto|]. split; [auto | intros [H|H]; [exact H | discriminate H]].
  Qed.
  Lemma accepts_date_time s : accepts "date-time" s <-> lax_clock s \/ followed lax_clock lax_offset s \/ full_date s \/ lax_date_time s.
  Proof.
    unfold accepts. change (IsFormat (FormatCheckers fe) "date-time" (VStr s)) with
      (existsb (fun l => time_Parse l s) [CLOCK; CLOCK ++ [KZone]; DATE; RFC3339; RFC3339Nano]).
    cbn [existsb]. rewrite !orb_true_iff, clock_right, zoned_right, date_right, (proj1 (rfc3339_right s)), (proj2 (rfc3339_right s)).
    split; [|tauto]. intros [H|[H|[H|[H|[H|H]]]]]; auto. discriminate H.
  Qed.
  Lemma accepts_template s : accepts "uri-template" s <->
    ~ (exists i, get i s = Some "\"%char) /\ exists scheme path, f_url fe s = Some (scheme, path) /\ closed path.
  Proof.
    unfold accepts. change (IsFormat (FormatCheckers fe) "uri-template" (VStr s)) with
      (match f_url fe s with None => false | Some (_, path) => if has_char "\" s then false else rx rxURITemplate path end).
    rewrite <- has_char_in. destruct (f_url fe s) as [[a b]|].
    - destruct (has_char "\" s); [split; [discriminate | intros [H _]; congruence]|].
      rewrite rx_lang, template_right. split.
      + intros H. split; [discriminate | eauto].
      + intros [_ [x [y [E H]]]]. now injection E as -> ->.
    - split; [discriminate | intros [_ [x [y [E _]]]]; discriminate E].
  Qed.
  Lemma accepts_uri s : accepts "uri" s <-> ~ (exists i, get i s = Some "\"%char) /\ exists scheme path, f_url fe s = Some (scheme, path) /\ scheme <> "".
  Proof.
    unfold accepts. change (IsFormat (FormatCheckers fe) "uri" (VStr s)) with
      (match f_url fe s with None => false | Some (scheme, _) => if String.eqb scheme "" then false else negb (has_char "\" s) end).
    rewrite <- has_char_in. destruct (f_url fe s) as [[a b]|].
    - destruct (String.eqb a "") eqn:E.
      + apply String.eqb_eq in E. split; [discriminate | intros [_ [x [y [H N]]]]; injection H as <- <-; congruence].
      + apply String.eqb_neq in E. rewrite negb_true_iff. split.
        * intros H. split; [congruence | eauto].
        * intros [H _]. destruct (has_char "\" s); [congruence | reflexivity].
    - split; [discriminate | intros [_ [x [y [E _]]]]; discriminate E].
  Qed.
  Lemma accepts_uri_reference s : accepts "uri-reference" s <-> ~ (exists i, get i s = Some "\"%char) /\ f_url fe s <> None.
  Proof.
    unfold accepts. change (IsFormat (FormatCheckers fe) "uri-reference" (VStr s)) with
      (match f_url fe s with None => false | Some _ => negb (has_char "\" s) end).
    rewrite <- has_char_in. destruct (f_url fe s) as [p|]; [|split; [discriminate | intros [_ H]; congruence]].
    rewrite negb_true_iff. split; [intros H; split; [congruence | discriminate] | intros [H _]; destruct (has_char "\" s); [congruence | reflexivity]].
  Qed.
  Lemma accepts_iri s : accepts "iri" s <-> accepts "uri" s.
  Proof. reflexivity. Qed.
  Lemma accepts_iri_reference s : accepts "iri-reference" s <-> accepts "uri-reference" s.
  Proof. reflexivity. Qed.
  Lemma accepts_email s : (accepts "email" s <-> f_mail fe s = true) /\ (accepts "idn-email" s <-> f_mail fe s = true).
  Proof. split; reflexivity. Qed.
  Lemma accepts_regex s : accepts "regex" s <-> s = "" \/ f_regex fe s = true.
  Proof.
    unfold accepts. change (IsFormat (FormatCheckers fe) "regex" (VStr s)) with (if String.eqb s "" then true else f_regex fe s).
    destruct (String.eqb_spec s ""); [tauto|]. split; [auto|intros [H|H]; [contradiction|exact H]].
  Qed.
End Named.
