(** Plain references: the ordinary URLs, on which net/url and gojsonreference
    behave as RFC 3986 says: [scheme:][//host[:port]][path][?query][#fragment],
    without user information, opaque parts or empty path segments. *)
From Verif Require Export ModelURL.
From Coq Require Import Lia.
Open Scope string_scope.
Open Scope list_scope.
Open Scope nat_scope.

Definition printable (c : ascii) : bool := (Nat.leb 33 (code c) && Nat.leb (code c) 126)%bool.
Definition empty (s : string) : bool := match s with EmptyString => true | _ => false end.
Definition scheme_ok (s : string) : bool :=
  match s with
  | EmptyString => true
  | String c r => (lower_letter c && all_chars (fun c => lower_letter c || decimal c || one_of "+-." c) r)%bool
  end.
Definition host_ok (h : string) : bool :=
  (all_chars (fun c => letter c || decimal c || one_of "-._~:" c) h && match cut_last ":" h with Some (_, p) => all_chars decimal p | None => true end)%bool.
(** No two slashes in a row. *)
Fixpoint no_double (prev : bool) (s : string) : bool :=
  match s with EmptyString => true | String a r => if Ascii.eqb a "/" then (negb prev && no_double true r)%bool else no_double false r end.
Definition path_ok (p : string) : bool :=
  (validEncoded p encodePath && match unescape p encodePath with Some d => negb (String.eqb d "*") | None => false end && no_double false p)%bool.
Definition query_ok (q : string) : bool := all_chars (fun c => printable c && negb (Ascii.eqb c "#"))%bool q.
Definition fragment_ok (f : string) : bool :=
  (empty f || (all_chars printable f &&
    match setFragment f with
    | Some (d, raw) => (negb (empty d) && String.eqb (if raw_ok raw d encodeFragment then raw else escape d encodeFragment) f)%bool
    | None => false
    end))%bool.
Definition rooted (p : string) : bool := (empty p || has_prefix "/" p)%bool.
Definition parts_ok (sc h p q f : string) : bool :=
  (scheme_ok sc && host_ok h && path_ok p && query_ok q && fragment_ok f &&
   (if (empty sc && empty h)%bool then (has_prefix "/" p || negb (contains ":" (fst (fst (cut "/" p))))) else rooted p) &&
   (empty sc || negb (empty h) || negb (empty p)))%bool.
Definition text_of (sc h p q f : string) : string :=
  append (if empty sc then "" else append sc ":") (append (if (empty sc && empty h)%bool then "" else append "//" h)
    (append p (append (if empty q then "" else append "?" q) (if empty f then "" else append "#" f)))).
(** The reference with text s is plain. *)
Definition plain_ref (s : string) : bool :=
  match URL_Parse s with
  | None => false
  | Some u =>
      let f := if empty (Fragment u) then "" else EscapedFragment u in
      (parts_ok (Scheme u) (Host u) (EscapedPath u) (RawQuery u) f && String.eqb s (text_of (Scheme u) (Host u) (EscapedPath u) (RawQuery u) f))%bool
  end.

(** ** Strings *)
Lemma append_nil s : append s "" = s.
Proof. induction s; cbn; congruence. Qed.
Lemma append_assoc a b c : append (append a b) c = append a (append b c).
Proof. induction a; cbn; congruence. Qed.
Lemma eqb_empty s : String.eqb s "" = empty s.
Proof. destruct s; reflexivity. Qed.
Lemma empty_spec s : empty s = true <-> s = "".
Proof. destruct s; cbn; split; congruence. Qed.
Lemma empty_false s : empty s = false <-> s <> "".
Proof. destruct s; cbn; split; congruence. Qed.
Lemma all_app f a b : all_chars f (append a b) = (all_chars f a && all_chars f b)%bool.
Proof. induction a as [|c a IH]; [reflexivity|]. cbn [append all_chars]. rewrite IH, andb_assoc. reflexivity. Qed.
Lemma all_impl (f g : ascii -> bool) s : (forall c, f c = true -> g c = true) -> all_chars f s = true -> all_chars g s = true.
Proof. intros H. induction s as [|c s IH]; [auto|]. cbn [all_chars]. rewrite !andb_true_iff. intros [A B]. auto. Qed.
Lemma contains_app c a b : contains c (append a b) = (contains c a || contains c b)%bool.
Proof. induction a as [|x a IH]; [reflexivity|]. cbn [append contains]. rewrite IH, orb_assoc. reflexivity. Qed.
Lemma not_contains f c s : f c = false -> all_chars f s = true -> contains c s = false.
Proof.
  intros H. induction s as [|x s IH]; [auto|]. cbn [all_chars contains]. rewrite andb_true_iff. intros [A B]. rewrite (IH B), orb_false_r.
  destruct (Ascii.eqb_spec x c); auto. congruence.
Qed.
Lemma cut_app c a b : contains c a = false -> cut c (append a (String c b)) = (a, b, true).
Proof.
  induction a as [|x a IH]; cbn [contains append cut]; intros H; [rewrite Ascii.eqb_refl; reflexivity|]. apply orb_false_iff in H. destruct H as [H1 H2].
  rewrite H1, (IH H2). reflexivity.
Qed.
Lemma cut_none c a : contains c a = false -> cut c a = (a, "", false).
Proof. induction a as [|x a IH]; cbn [contains cut]; intros H; [reflexivity|]. apply orb_false_iff in H. destruct H as [H1 H2]. rewrite H1, (IH H2). reflexivity. Qed.
Lemma cut_last_none c a : contains c a = false -> cut_last c a = None.
Proof. induction a as [|x a IH]; cbn [contains cut_last]; intros H; [reflexivity|]. apply orb_false_iff in H. destruct H as [H1 H2]. rewrite (IH H2), H1. reflexivity. Qed.
Lemma cut_last_spec c s x y : cut_last c s = Some (x, y) -> s = append x (String c y).
Proof.
  revert x y. induction s as [|a s IH]; intros x y; cbn [cut_last]; [discriminate|]. destruct (cut_last c s) as [[x' y']|].
  - intros [= <- <-]. cbn. rewrite <- (IH _ _ eq_refl). reflexivity.
  - destruct (Ascii.eqb_spec a c) as [->|]; [|discriminate]. intros [= <- <-]. reflexivity.
Qed.
Lemma contains_count c s : contains c s = negb (Nat.eqb (count c s) 0).
Proof. induction s as [|a s IH]; [reflexivity|]. cbn [contains count]. destruct (Ascii.eqb a c); [reflexivity|]. cbn [orb]. rewrite IH. reflexivity. Qed.
Lemma count_app c a b : count c (append a b) = count c a + count c b.
Proof. induction a as [|x a IH]; [reflexivity|]. cbn [append count]. rewrite IH. lia. Qed.
Lemma cut_last_app c a b x y : cut_last c b = Some (x, y) -> cut_last c (append a b) = Some (append a x, y).
Proof. intros H. induction a as [|z a IH]; [auto|]. cbn [append cut_last]. rewrite IH. reflexivity. Qed.

(** Facts about all characters, by enumeration. *)
Ltac each_char := let c := fresh in intros c; destruct c as [[] [] [] [] [] [] [] []]; vm_compute; try reflexivity; try discriminate; auto.
Lemma scheme_char c : (lower_letter c || decimal c || one_of "+-." c)%bool = true -> to_lower c = c /\ printable c = true /\ Ascii.eqb c "#" = false /\ Ascii.eqb c ":" = false.
Proof. revert c. each_char. Qed.
Lemma scheme_step c : (lower_letter c || decimal c || one_of "+-." c)%bool = true -> (letter c || (negb false && (decimal c || one_of "+-." c)))%bool = true.
Proof. revert c. each_char. Qed.
Lemma lower_is_letter c : lower_letter c = true -> letter c = true.
Proof. revert c. each_char. Qed.
Lemma lower_is_scheme c : lower_letter c = true -> (lower_letter c || decimal c || one_of "+-." c)%bool = true.
Proof. intros ->. reflexivity. Qed.
Lemma host_char c : (letter c || decimal c || one_of "-._~:" c)%bool = true ->
  printable c = true /\ Ascii.eqb c "#" = false /\ Ascii.eqb c "?" = false /\ Ascii.eqb c "/" = false /\ Ascii.eqb c "@" = false /\ Ascii.eqb c "[" = false /\ Ascii.eqb c "%" = false /\ shouldEscape c encodeHost = false.
Proof. revert c. each_char; repeat split. Qed.
Definition path_char (c : ascii) : bool := (one_of "!$&'()*+,;=:@[]%" c || negb (shouldEscape c encodePath))%bool.
Lemma path_char_ok c : path_char c = true -> printable c = true /\ Ascii.eqb c "#" = false /\ Ascii.eqb c "?" = false.
Proof. revert c. each_char; repeat split. Qed.
Lemma printable_control c : printable c = true -> negb (control c) = true.
Proof. revert c. each_char. Qed.
Lemma valid_path p : validEncoded p encodePath = all_chars path_char p.
Proof. reflexivity. Qed.

Lemma all_not f c s : (forall x, f x = true -> Ascii.eqb x c = false) -> all_chars f s = true -> contains c s = false.
Proof. intros H. apply not_contains. destruct (f c) eqn:E; auto. apply H in E. rewrite Ascii.eqb_refl in E. discriminate. Qed.

(** ** Escapes *)
Inductive encoded : string -> Prop :=
| enc_nil : encoded ""
| enc_char c s : Ascii.eqb c "%" = false -> encoded s -> encoded (String c s)
| enc_hex a b s : is_hex_digit a = true -> is_hex_digit b = true -> encoded s -> encoded (String "%" (String a (String b s))).
Definition free_mode (m : encoding) : bool := match m with encodeHost | encodeZone => false | _ => true end.
Lemma unescape_char c s m : Ascii.eqb c "%" = false -> unescape (String c s) m =
  (if (host_mode m && Nat.ltb (code c) 128 && shouldEscape c m)%bool then None
   else match unescape s m with Some t => Some (String (match m with encodeQueryComponent => if Ascii.eqb c "+" then " "%char else c | _ => c end) t) | None => None end).
Proof.
  intros H. cbn [unescape]. generalize (unescape s m). intros x.
  destruct c as [[] [] [] [] [] [] [] []]; try discriminate H; reflexivity.
Qed.
Lemma unescape_hex a b s m : free_mode m = true -> unescape (String "%" (String a (String b s))) m =
  if (is_hex_digit a && is_hex_digit b)%bool then match unescape s m with Some t => Some (String (ascii_of_nat (unhex a * 16 + unhex b)) t) | None => None end else None.
Proof. intros H. cbn [unescape]. destruct (is_hex_digit a && is_hex_digit b)%bool; [|reflexivity]. cbn [negb]. destruct m; try discriminate H; reflexivity. Qed.
Lemma encoded_unescape s m : free_mode m = true -> (exists d, unescape s m = Some d) <-> encoded s.
Proof.
  intros Hm. split.
  - assert (P : forall n s, String.length s < n -> (exists d, unescape s m = Some d) -> encoded s); [|apply (P (S (String.length s)) s); lia].
    clear s. induction n as [|n IH]; intros s Hn [d E]; [lia|]. destruct s as [|c s]; [constructor|]. cbn [String.length] in Hn.
    destruct (Ascii.eqb c "%") eqn:Ec.
    + apply Ascii.eqb_eq in Ec. subst c. destruct s as [|a [|b s]]; try discriminate E. rewrite unescape_hex in E by auto. cbn [String.length] in Hn.
      destruct (is_hex_digit a) eqn:Ea, (is_hex_digit b) eqn:Eb; cbn [andb] in E; try discriminate E. apply enc_hex; auto. apply IH; [lia|]. destruct (unescape s m); [eauto|discriminate E].
    + rewrite unescape_char in E by auto. constructor; auto. apply IH; [lia|]. destruct m; try discriminate Hm; cbn [host_mode andb] in E; destruct (unescape s _); try discriminate E; eauto.
  - intros H. induction H as [|c s Hc _ [d E]|a b s Ha Hb _ [d E]]; [exists ""; reflexivity| |].
    + rewrite unescape_char by auto. rewrite E. destruct m; try discriminate Hm; cbn [host_mode andb]; eauto.
    + rewrite unescape_hex by auto. rewrite Ha, Hb, E. cbn. eauto.
Qed.
Lemma encoded_app a b : encoded a -> encoded b -> encoded (append a b).
Proof. intros H Hb. induction H; cbn [append]; auto; [apply enc_char|apply enc_hex]; auto. Qed.
Lemma slash_not_hex : is_hex_digit "/" = false. Proof. reflexivity. Qed.
Lemma encoded_split x y : encoded (append x (String "/" y)) -> encoded x /\ encoded y.
Proof.
  remember (append x (String "/" y)) as s eqn:E. intros H. revert x E. induction H as [|c s Hc H IH|a b s Ha Hb H IH]; intros x E.
  - destruct x; discriminate E.
  - destruct x as [|c' x]; cbn [append] in E; injection E as -> E.
    + subst. split; [constructor|auto].
    + destruct (IH x E). split; auto. constructor; auto.
  - destruct x as [|c1 x]; cbn [append] in E; [discriminate E|]. injection E as <- E. destruct x as [|c2 x]; cbn [append] in E; injection E as -> E.
    { rewrite slash_not_hex in Ha. discriminate Ha. }
    destruct x as [|c3 x]; cbn [append] in E; injection E as -> E.
    { rewrite slash_not_hex in Hb. discriminate Hb. }
    destruct (IH x E). split; auto. apply enc_hex; auto.
Qed.

(** ** Slashes *)
Fixpoint ends_slash (prev : bool) (s : string) : bool := match s with EmptyString => prev | String a r => ends_slash (Ascii.eqb a "/") r end.
Lemma no_double_app prev a b : no_double prev (append a b) = (no_double prev a && no_double (ends_slash prev a) b)%bool.
Proof.
  revert prev. induction a as [|x a IH]; intros prev; [reflexivity|]. cbn [append no_double ends_slash]. destruct (Ascii.eqb x "/"); rewrite ?IH, ?andb_assoc; reflexivity.
Qed.
Lemma ends_slash_app prev a b : ends_slash prev (append a b) = ends_slash (ends_slash prev a) b.
Proof. revert prev. induction a as [|x a IH]; intros prev; [reflexivity|]. cbn [append ends_slash]. apply IH. Qed.
Lemma no_slash_no_double prev e : contains "/" e = false -> no_double prev e = true.
Proof. revert prev. induction e as [|x e IH]; intros prev; [auto|]. cbn [contains no_double]. intros H. apply orb_false_iff in H. destruct H as [-> H]. auto. Qed.
Lemma no_slash_end prev e : contains "/" e = false -> e <> "" -> ends_slash prev e = false.
Proof.
  revert prev. induction e as [|x e IH]; intros prev; [congruence|]. cbn [contains ends_slash]. intros H _. apply orb_false_iff in H. destruct H as [-> H].
  destruct e as [|y e]; [reflexivity|]. apply IH; auto. congruence.
Qed.
Lemma no_double_false prev s : no_double prev s = true -> no_double false s = true.
Proof. destruct s as [|a s]; [auto|]. cbn [no_double]. destruct (Ascii.eqb a "/"); auto. rewrite andb_true_iff. intros [_ ->]. reflexivity. Qed.
