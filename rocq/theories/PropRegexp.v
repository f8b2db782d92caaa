(** Regular expressions: "pattern", "patternProperties" and the format "regex"
    with Go's package regexp (C57, C35).

    [disjunction r q]: the code points q are the expression r written in the
    notation ECMA-262 and package regexp share; [found r cs]: r matches some piece
    of cs (SpecRegexp.v).  [re_compiles], [re_MatchString]: the model of package
    regexp (ModelRegexp.v), for any tables of package unicode.  [with_regexp]: the
    library uses it.  [simple], [verdict], [fitting]: PropLogic.v. *)
From Verif Require Import World0 World0Facts FormatProps URIFormat RegexpDocs.
From Verif Require Import ModelRegexp.
From Verif Require Import SpecRegexp.
From Verif Require MailProps SpecMail ModelFormat SpecFormat FormatRegex LiteralProps.
From Coq Require Import Lia.
Open Scope string_scope.
Open Scope list_scope.
Open Scope nat_scope.

(** ** C57 *)
Theorem C57_portable : forall ud r q p, disjunction r q -> text q p ->
  re_compiles ud p = true /\ forall cs s, text cs s -> (re_MatchString ud p s = true <-> found r cs).
Proof. intros ud r q p H T. split; [exact (portable_compiles ud r q p H T)|]. intros cs s. exact (portable_matches ud r q p cs s H T). Qed.
Print Assumptions C57_portable.
(** {"pattern": p} *)
Theorem C57_pattern : forall ud w, url_laws w -> with_regexp ud (w_go w) -> forall r q p, disjunction r q -> text q p ->
  simple w (VMap [("pattern", VStr p)]) /\
  forall cs s, text cs s -> exists b, verdict w (VMap [("pattern", VStr p)]) (VStr s) b /\ (b = true <-> found r cs).
Proof. exact pattern_verdict. Qed.
Print Assumptions C57_pattern.
(** {"patternProperties": {p: x}} *)
Theorem C57_patternProperties : forall ud w, url_laws w -> with_regexp ud (w_go w) -> forall r q p x, disjunction r q -> text q p -> simple w x ->
  simple w (VMap [("patternProperties", VMap [(p, x)])]) /\
  forall o, usual (e_ratlim (w_go w)) (VMap o) -> (forall k e, In (k, e) o -> fitting w x e) ->
  exists b, verdict w (VMap [("patternProperties", VMap [(p, x)])]) (VMap o) b /\
    (b = true <-> forall k e cs, In (k, e) o -> text cs k -> found r cs -> verdict w x e true).
Proof. exact members_verdict. Qed.
Print Assumptions C57_patternProperties.

(** An expression with most of the notation: ^a[b-d_]*(\d{2,3}|x.)+?$ *)
Definition C57_text := "^a[b-d_]*(\d{2,3}|x.)+?$".
Definition codes := SpecMail.codes.
Definition C57_expression : pat :=
  Seq Start (Seq (Chars (eq 97%N)) (Seq (Rep 0 None (Chars (fun c => (98 <= c <= 100)%N \/ 95%N = c)))
    (Seq (Rep 1 None (Alt (Seq (Rep 2 (Some 3) (Chars digit)) Nothing) (Seq (Chars (eq 120%N)) (Seq (Chars (fun c => c <> 10%N)) Nothing)))) (Seq Finish Nothing)))).
Lemma C57_written : disjunction C57_expression (codes C57_text).
Proof.
  assert (P : forall c, In c (codes "ax") -> plain c).
  { intros c [<-|[<-|[]]]; (split; vm_compute; [discriminate|intuition discriminate]). }
  assert (K : forall c, In c (codes "bd_") -> SpecRegexp.class_char c [c]).
  { intros c Hc. apply k_plain; [destruct Hc as [<-|[<-|[<-|[]]]]; vm_compute; discriminate|]. destruct Hc as [<-|[<-|[<-|[]]]]; vm_compute; intuition discriminate. }
  assert (D : forall n, n = 2 \/ n = 3 -> numeral n [48 + N.of_nat n]%N).
  { intros n Hn. split; [discriminate|]. split; [constructor; [|constructor]; unfold digit; lia|]. split; [|split]; [|unfold value; cbn [fold_left]; lia|lia].
    cbn [hd]. intros E. lia. }
  apply d_one.
  change (codes C57_text) with (codes "^" ++ codes "a" ++ (codes "[b-d_]" ++ codes "*") ++ (codes "(\d{2,3}|x.)" ++ codes "+?") ++ codes "$" ++ []).
  apply a_more; [constructor|]. apply a_more; [apply t_atom, (m_char 97), P; vm_compute; auto|]. apply a_more; [|apply a_more; [|apply a_more; [constructor|constructor]]].
  - apply t_rep; [|apply q_greedy; constructor|cbn; lia]. change (codes "[b-d_]") with ([91] ++ (([98] ++ [45] ++ [100]) ++ [95]) ++ [93])%N.
    apply m_class. apply l_more; [apply i_range; [apply K; vm_compute; auto..|lia]|apply l_one, i_one, K; vm_compute; auto].
  - apply t_rep; [|exact (q_lazy 1 None _ q_plus)|cbn; lia]. change (codes "(\d{2,3}|x.)") with ([40] ++ ((([92; 100] ++ [123] ++ [50] ++ [44] ++ [51] ++ [125]) ++ []) ++ [124] ++ [120] ++ [46] ++ []) ++ [41])%N.
    apply m_group. apply d_more; [|apply d_one].
    + apply a_more; [|constructor]. apply t_rep; [apply m_set; constructor|apply q_greedy|cbn; lia].
      apply (q_range 2 3 [50] [51])%N; [apply (D 2); auto|apply (D 3); auto|lia].
    + apply a_more; [apply t_atom, m_char, P; vm_compute; auto|]. apply a_more; [apply t_atom, m_dot|constructor].
Qed.
(** A world with package regexp, ASCII letters folding. *)
Definition ascii_fold (c : N) : list N := (if in_rng 97 122 c then [c; c - 32] else if in_rng 65 90 c then [c; c + 32] else [c])%N.
Definition ud0 : unidata := UniData (fun _ => None) ascii_fold.
Definition world_re : world :=
  World (GoEnv 1000000 (re_compiles ud0) (re_MatchString ud0) (fun _ _ => true)) (w_parse world0) (w_inherits world0) (w_strip world0) (w_fragment world0) (w_canonical world0)
    (w_file world0) (w_fs world0) (w_http world0) (w_rest world0).
Example C57_example :
  url_laws world_re /\ with_regexp ud0 (w_go world_re) /\
  disjunction C57_expression (codes C57_text) /\ text (codes C57_text) C57_text /\ simple world_re (VBool false) /\
  map (re_MatchString ud0 C57_text) ["abc12"; "a123xy"; "ax"; "ab1"; "xabc12"; "a12
"; "a_x9"] = [true; true; false; false; false; false; true].
Proof.
  split; [exact world0_laws|]. split; [split; reflexivity|]. split; [exact C57_written|]. split; [apply MailProps.codes_text; repeat constructor|]. split; [|vm_compute; reflexivity].
  split; [split; [|intros m [=]]|split; [split; [constructor|reflexivity]|split; [constructor|]]].
  - intros m k t I. inversion I.
  - apply well_formed_made; [exact world0_laws| | | |apply SpecShape.wf_bool; discriminate].
    + split; [intros m k t I; inversion I|intros m [=]].
    + split; [constructor|reflexivity].
    + constructor.
Qed.
(** What ECMA-262 has beyond that is refused: looking ahead, references to groups.
    And in the shared notation two sets of characters are smaller or larger than in
    ECMA-262: \s does not match a vertical tab, the dot matches a carriage return. *)
Theorem C57_beyond :
  (forall ud q p, text ([40; 63; 61] ++ q)%N p -> re_compiles ud p = false) /\
  (forall ud q p, text ([40; 63; 33] ++ q)%N p -> re_compiles ud p = false) /\
  (forall ud, re_compiles ud "(a)\1" = false) /\
  (forall ud, re_MatchString ud "\s" (String "011" EmptyString) = false /\ re_MatchString ud "." (String "013" EmptyString) = true).
Proof.
  split; [|split; [|split; [reflexivity|split; reflexivity]]]; intros ud q p T; unfold re_compiles; rewrite (MailProps.runes_text _ _ T); reflexivity.
Qed.
Print Assumptions C57_beyond.

(** ** C35 *)
(** The format "regex" takes every expression in the shared notation. *)
Theorem C35_regex : forall mail ud r q p, disjunction r q -> text q p -> accepts (go_fmt mail (re_compiles ud)) "regex" p.
Proof.
  intros mail ud r q p H T. unfold accepts.
  change (IsFormat (FormatCheckers (go_fmt mail (re_compiles ud))) "regex" (VStr p)) with (if String.eqb p "" then true else re_compiles ud p).
  rewrite (portable_compiles ud r q p H T). destruct (String.eqb p ""); reflexivity.
Qed.
Print Assumptions C35_regex.
Example C35_regex_example :
  checks (FormatCheckers (go_fmt (fun _ => false) (re_compiles ud0))) "regex" [C57_text; ""; "a**"; "(a"; "a)"; "[a"; "[z-a]"; "a{2,1}"; "\q"; "(?=a)"; "(?P<n>a)"; "(?i)a"] =
  [true; true; false; false; false; false; false; false; false; false; true; true].
Proof. vm_compute. reflexivity. Qed.

(** The five expressions of format_checkers.go:133-142 as they are written there.  For
    every string, valid UTF-8 or not, MatchString says what the model of the checkers
    (ModelFormat.v) has in its place, and that is the grammar of the format.
    [ascii_orbits]: unicode.SimpleFold on ASCII (LiteralProps.v). *)
Theorem C35_expressions : forall ud s,
  (re_MatchString ud "^([a-zA-Z0-9]|[a-zA-Z0-9][a-zA-Z0-9\-]{0,61}[a-zA-Z0-9])(\.([a-zA-Z0-9]|[a-zA-Z0-9][a-zA-Z0-9\-]{0,61}[a-zA-Z0-9]))*$" s = ModelFormat.rx ModelFormat.rxHostname s) /\
  (re_MatchString ud "^([^{]*({[^}]*})?)*$" s = ModelFormat.rx ModelFormat.rxURITemplate s) /\
  (LiteralProps.ascii_orbits ud -> re_MatchString ud "^(?i)[a-f0-9]{8}-[a-f0-9]{4}-[a-f0-9]{4}-[a-f0-9]{4}-[a-f0-9]{12}$" s = ModelFormat.rx ModelFormat.rxUUID s) /\
  (re_MatchString ud "^(?:/(?:[^~/]|~0|~1)*)*$" s = ModelFormat.rx ModelFormat.rxJSONPointer s) /\
  (re_MatchString ud "^(?:0|[1-9][0-9]*)(?:#|(?:/(?:[^~/]|~0|~1)*)*)$" s = ModelFormat.rx ModelFormat.rxRelJSONPointer s).
Proof.
  intros ud s. repeat split; [| |intros L| |]; apply Bool.eq_true_iff_eq.
  - exact (LiteralProps.hostname_says ud s).
  - exact (LiteralProps.template_says ud s).
  - exact (LiteralProps.uuid_says ud s L).
  - exact (LiteralProps.pointer_says ud s).
  - exact (LiteralProps.relative_says ud s).
Qed.
Print Assumptions C35_expressions.
Theorem C35_expressions_grammar : forall ud s,
  (re_MatchString ud "^([a-zA-Z0-9]|[a-zA-Z0-9][a-zA-Z0-9\-]{0,61}[a-zA-Z0-9])(\.([a-zA-Z0-9]|[a-zA-Z0-9][a-zA-Z0-9\-]{0,61}[a-zA-Z0-9]))*$" s = true /\ String.length s <= 255 <-> SpecFormat.hostname s) /\
  (re_MatchString ud "^([^{]*({[^}]*})?)*$" s = true <-> SpecFormat.closed s) /\
  (LiteralProps.ascii_orbits ud -> (re_MatchString ud "^(?i)[a-f0-9]{8}-[a-f0-9]{4}-[a-f0-9]{4}-[a-f0-9]{4}-[a-f0-9]{12}$" s = true <-> SpecFormat.uuid s)) /\
  (re_MatchString ud "^(?:/(?:[^~/]|~0|~1)*)*$" s = true <-> SpecFormat.pointer s) /\
  (re_MatchString ud "^(?:0|[1-9][0-9]*)(?:#|(?:/(?:[^~/]|~0|~1)*)*)$" s = true <-> SpecFormat.relative_pointer s).
Proof.
  intros ud s. destruct (C35_expressions ud s) as (H & T & U & P & R). rewrite H, T, P, R.
  rewrite <- FormatRegex.hostname_right, Bool.andb_true_iff, Nat.ltb_lt, FormatRegex.rx_lang, FormatRegex.rx_lang, FormatRegex.template_right, FormatRegex.pointer_right, FormatRegex.relative_right.
  split; [|split; [reflexivity|split; [|split; reflexivity]]].
  - split; intros [A B]; (split; [exact A|lia]).
  - intros L. rewrite (U L). apply FormatRegex.uuid_right.
Qed.
Print Assumptions C35_expressions_grammar.
(** Folding as package unicode has it on ASCII and the letters that fold to it. *)
Definition go_fold (c : N) : list N :=
  (if existsb (N.eqb c) [75; 107; 8490] then [75; 107; 8490] else if existsb (N.eqb c) [83; 115; 383] then [83; 115; 383] else ascii_fold c)%N.
Definition ud1 : unidata := UniData (fun _ => None) go_fold.
Example C35_expressions_example :
  LiteralProps.ascii_orbits ud1 /\
  map (re_MatchString ud1 LiteralProps.lit_uuid) ["01234567-89ab-CDEF-0123-456789abcdef"; "01234567-89ab-CDEF-0123-456789abcdeg"; "01234567-89ab-CDEF-0123-456789abcdef
"] = [true; false; false] /\
  map (re_MatchString ud1 LiteralProps.lit_template) ["é{ü}"; "é{ü"] = [true; false].
Proof.
  split; [|vm_compute; auto]. intros c x Hc. unfold LiteralProps.folds. cbn [u_orbit ud1 In]. unfold go_fold, ascii_fold.
  destruct (existsb (N.eqb x) [75; 107; 8490]%N) eqn:E1; [|destruct (existsb (N.eqb x) [83; 115; 383]%N) eqn:E2].
  - cbn [existsb] in E1. rewrite !Bool.orb_true_iff, !N.eqb_eq in E1. cbn [In]. destruct E1 as [->|[->|[->|[=]]]]; lia.
  - cbn [existsb] in E2. rewrite !Bool.orb_true_iff, !N.eqb_eq in E2. cbn [In]. destruct E2 as [->|[->|[->|[=]]]]; lia.
  - cbn [existsb] in E1, E2. rewrite !Bool.orb_false_iff, !N.eqb_neq in E1, E2.
    destruct (in_rng 97 122 x) eqn:E3; [|destruct (in_rng 65 90 x) eqn:E4]; unfold in_rng in *; rewrite ?Bool.andb_true_iff, ?Bool.andb_false_iff, ?N.leb_le, ?N.leb_gt in *; cbn [In]; lia.
Qed.
