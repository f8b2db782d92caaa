(** Ordinary references are plain, and resolving them is what RFC 3986 says. *)
From Verif Require Export URLResolve SpecURI.
From Coq Require Import Lia.
Open Scope string_scope.
Open Scope list_scope.
Open Scope nat_scope.

(** ** Ordinary parts are plain parts *)
Definition or_empty (o : option string) : string := match o with Some s => s | None => "" end.

Lemma each_all f g s : (forall c, f c = true -> g c = true) -> each f s -> all_chars g s = true.
Proof. intros H. induction 1 as [|c s Hc _ IH]; [reflexivity|]. cbn [all_chars]. rewrite (H c Hc), IH. reflexivity. Qed.
Lemma hex_is c : hex c = is_hex_digit c.
Proof. reflexivity. Qed.
Lemma made_all f g s : (forall c, f c = true -> g c = true) -> (forall c, hex c = true -> g c = true) -> g "%"%char = true -> made_of f s -> all_chars g s = true.
Proof.
  intros H Hh Hp. induction 1 as [|c s Hc _ IH|a b s Ha Hb _ IH]; [reflexivity| |]; cbn [all_chars]; [rewrite (H c Hc), IH; reflexivity|].
  rewrite Hp, (Hh a Ha), (Hh b Hb), IH. reflexivity.
Qed.
Lemma made_encoded f s : f "%"%char = false -> made_of f s -> encoded s.
Proof.
  intros Hp. induction 1 as [|c s Hc _ IH|a b s Ha Hb _ IH]; [constructor| |apply enc_hex; auto].
  apply enc_char; auto. destruct (Ascii.eqb_spec c "%"); auto. congruence.
Qed.

Lemma scheme_in s : a_scheme s -> scheme_ok s = true /\ s <> "".
Proof. intros (c & r & -> & Hc & Hr). split; [|discriminate]. cbn [scheme_ok]. apply andb_true_iff. split; [exact Hc|]. eapply each_all; [|exact Hr]. auto. Qed.
Lemma unreserved_char c : unreserved c = true -> (letter c || decimal c || one_of "-._~:" c)%bool = true /\ Ascii.eqb c ":" = false.
Proof. revert c. each_char. Qed.
Lemma numeral_char c : numeral c = true -> (letter c || decimal c || one_of "-._~:" c)%bool = true /\ Ascii.eqb c ":" = false /\ decimal c = true.
Proof. revert c. each_char. Qed.
Lemma host_in a : an_authority a -> host_ok a = true.
Proof.
  intros (h & Hh & Ha). assert (A : all_chars (fun c => letter c || decimal c || one_of "-._~:" c)%bool h = true) by (eapply each_all; [|exact Hh]; intros c Hc; apply unreserved_char in Hc; apply Hc).
  assert (C : contains ":" h = false) by (eapply (all_not unreserved); [intros c Hc; apply unreserved_char in Hc; apply Hc|eapply each_all; [|exact Hh]; auto]).
  unfold host_ok. destruct Ha as [->|(p & Hp & ->)]; [rewrite A, cut_last_none by auto; reflexivity|].
  rewrite all_app, A. cbn [all_chars andb]. assert (Ep : all_chars (fun c => letter c || decimal c || one_of "-._~:" c)%bool p = true) by (eapply each_all; [|exact Hp]; intros c Hc; apply numeral_char in Hc; apply Hc).
  rewrite Ep. cbn [andb]. assert (Cp : contains ":" p = false) by (eapply (all_not numeral); [intros c Hc; apply numeral_char in Hc; apply Hc|eapply each_all; [|exact Hp]; auto]).
  rewrite (cut_last_app ":" h (String ":" p) "" p) by (cbn [cut_last]; rewrite cut_last_none by auto; reflexivity). eapply each_all; [|exact Hp]. intros c Hc; apply numeral_char in Hc; apply Hc.
Qed.

Lemma double_found s : forall prev, no_double prev s = false -> (exists y, prev = true /\ s = String "/" y) \/ exists x y, s = append x (String "/" (String "/" y)).
Proof.
  induction s as [|c s IH]; intros prev H; [discriminate H|]. cbn [no_double] in H. destruct (Ascii.eqb_spec c "/") as [->|N].
  - destruct prev; [left; eauto|]. cbn [negb andb] in H. right. destruct (IH _ H) as [(y & _ & ->)|(x & y & ->)]; [exists "", y; reflexivity|exists (String "/" x), y; reflexivity].
  - right. destruct (IH _ H) as [(y & E & _)|(x & y & ->)]; [discriminate E|exists (String c x), y; reflexivity].
Qed.
Lemma path_pchar c : slash_or pchar c = true -> path_char c = true.
Proof. revert c. each_char. Qed.
Lemma path_hex c : hex c = true -> path_char c = true.
Proof. revert c. each_char. Qed.
Lemma unhex_bound c : is_hex_digit c = true -> unhex c < 16.
Proof. revert c. intros c. destruct c as [[] [] [] [] [] [] [] []]; vm_compute; intros H; try discriminate H; lia. Qed.
Lemma hex_two c : is_hex_digit c = true -> unhex c = 2 -> c = "2"%char.
Proof. intros H. destruct c as [[] [] [] [] [] [] [] []]; vm_compute in H; try discriminate H; vm_compute; intros E; try discriminate E; reflexivity. Qed.
Lemma hex_ten c : is_hex_digit c = true -> unhex c = 10 -> c = "A"%char \/ c = "a"%char.
Proof. intros H. destruct c as [[] [] [] [] [] [] [] []]; vm_compute in H; try discriminate H; vm_compute; intros E; try discriminate E; auto. Qed.
Lemma unescape_empty p m : free_mode m = true -> unescape p m = Some "" -> p = "".
Proof.
  intros Hm E. destruct p as [|c p]; auto. destruct (Ascii.eqb c "%") eqn:Ec.
  - apply Ascii.eqb_eq in Ec. subst c. destruct p as [|a [|b p]]; try discriminate E. rewrite unescape_hex in E by auto. destruct (_ && _)%bool; [|discriminate E]. destruct (unescape p _); discriminate E.
  - rewrite unescape_char in E by auto. destruct (host_mode m && _ && _)%bool; [discriminate E|]. destruct (unescape p _); discriminate E.
Qed.
Lemma star_text p : unescape p encodePath = Some "*" -> p = "*" \/ p = "%2A" \/ p = "%2a".
Proof.
  intros E. destruct p as [|c p]; [discriminate E|]. destruct (Ascii.eqb c "%") eqn:Ec.
  - apply Ascii.eqb_eq in Ec. subst c. destruct p as [|a [|b p]]; try discriminate E. rewrite unescape_hex in E by auto. destruct (is_hex_digit a) eqn:Ha, (is_hex_digit b) eqn:Hb; cbn [andb] in E; try discriminate E.
    destruct (unescape p _) as [t|] eqn:Et; [|discriminate E]. injection E as E ->. apply unescape_empty in Et; auto. subst p.
    pose proof (unhex_bound a Ha). pose proof (unhex_bound b Hb). apply (f_equal nat_of_ascii) in E. rewrite nat_ascii_embedding in E by lia. change (nat_of_ascii "*") with 42 in E.
    assert (unhex a = 2) by lia. assert (unhex b = 10) by lia. rewrite (hex_two a) by auto. destruct (hex_ten b) as [->| ->]; auto.
  - rewrite unescape_char in E by auto. cbn [host_mode andb] in E. destruct (unescape p _) as [t|] eqn:Et; [|discriminate E]. injection E as -> ->. apply unescape_empty in Et; auto. subst. auto.
Qed.
Lemma path_in p : a_path p -> p <> "*" -> p <> "%2A" -> p <> "%2a" -> path_ok p = true.
Proof.
  intros [H D] N1 N2 N3. apply path_ok_iff. split; [split|split].
  - eapply made_all; [apply path_pchar|apply path_hex|reflexivity|exact H].
  - eapply made_encoded; [|exact H]. reflexivity.
  - destruct (no_double false p) eqn:E; auto. exfalso. destruct (double_found p false E) as [(y & X & _)|(x & y & X)]; [discriminate X|]. exact (D x y X).
  - intros E. apply star_text in E. tauto.
Qed.
Lemma query_printable c : query_char c = true -> (printable c && negb (Ascii.eqb c "#"))%bool = true.
Proof. revert c. each_char. Qed.
Lemma hex_printable c : hex c = true -> (printable c && negb (Ascii.eqb c "#"))%bool = true.
Proof. revert c. each_char. Qed.
Lemma query_in q : made_of query_char q -> query_ok q = true.
Proof. intros H. eapply made_all; [apply query_printable|apply hex_printable|reflexivity|exact H]. Qed.
Definition fragment_char (c : ascii) : bool := (one_of "!$&'()*+,;=:@[]%" c || negb (shouldEscape c encodeFragment))%bool.
Lemma query_fragment c : query_char c = true -> fragment_char c = true.
Proof. revert c. each_char. Qed.
Lemma hex_fragment c : hex c = true -> fragment_char c = true.
Proof. revert c. each_char. Qed.
Lemma fragment_in f : made_of query_char f -> fragment_ok f = true.
Proof.
  intros H. unfold fragment_ok. destruct (empty f) eqn:Ef; [reflexivity|]. cbn [orb]. assert (P : all_chars printable f = true) by (eapply all_impl; [|apply query_in; exact H]; cbn beta; intros c E; apply andb_true_iff in E; tauto).
  rewrite P. cbn [andb]. assert (En : encoded f) by (eapply made_encoded; [|exact H]; reflexivity). apply (encoded_unescape f encodeFragment eq_refl) in En. destruct En as [d Ed].
  unfold setFragment. rewrite Ed. assert (Nd : empty d = false) by (apply empty_false; intros ->; apply unescape_empty in Ed; auto; subst; discriminate Ef).
  rewrite Nd. cbn [negb andb]. destruct (String.eqb_spec f (escape d encodeFragment)) as [E|E]; [cbn [raw_ok String.eqb negb andb]; rewrite <- E; apply String.eqb_refl|].
  assert (V : validEncoded f encodeFragment = true) by (eapply made_all; [apply query_fragment|apply hex_fragment|reflexivity|exact H]).
  unfold raw_ok. rewrite Ed, V, eqb_empty, Ef, String.eqb_refl. cbn. apply String.eqb_refl.
Qed.
Lemma first_colon p : (forall x y, p = append x (String ":" y) -> slashed x = true) -> contains ":" (fst (fst (cut "/" p))) = false.
Proof.
  induction p as [|c p IH]; intros H; [reflexivity|]. cbn [cut]. destruct (Ascii.eqb_spec c "/") as [->|N]; [reflexivity|].
  destruct (cut "/" p) as [[x y] b] eqn:Ec. cbn [fst contains] in *. destruct (Ascii.eqb_spec c ":") as [->|N'].
  - specialize (H "" p eq_refl). discriminate H.
  - cbn [orb]. apply IH. intros x' y' ->. specialize (H (String c x') y' eq_refl). cbn [slashed] in H. destruct (Ascii.eqb_spec c "/"); [congruence|exact H].
Qed.
Lemma begins_prefix p : begins_slash p -> has_prefix "/" p = true.
Proof. intros [r ->]. rewrite has_prefix_slash. apply Ascii.eqb_refl. Qed.

Definition text_of_parts (u : uri) : string := text_of (or_empty (u_scheme u)) (or_empty (u_authority u)) (u_path u) (or_empty (u_query u)) (or_empty (u_frag u)).
Lemma ordinary_ok u : common_parts u -> parts_ok (or_empty (u_scheme u)) (or_empty (u_authority u)) (u_path u) (or_empty (u_query u)) (or_empty (u_frag u)) = true /\ recompose u = text_of_parts u.
Proof.
  destruct u as [sc au p q f]. unfold common_parts, text_of_parts, recompose. cbn [u_scheme u_authority u_path u_query u_frag]. intros (Hs & Ha & Hp & N1 & N2 & N3 & Hr & Hq & Hf).
  assert (S : scheme_ok (or_empty sc) = true /\ (empty (or_empty sc) = true <-> sc = None)).
  { destruct sc as [s|]; [|cbn; tauto]. apply scheme_in in Hs. destruct Hs as [S1 S2]. split; [exact S1|]. cbn. apply empty_false in S2. rewrite S2. split; discriminate. }
  assert (A : host_ok (or_empty au) = true) by (destruct au as [a|]; [apply host_in, Ha|reflexivity]).
  assert (Q : query_ok (or_empty q) = true) by (destruct q as [x|]; [apply query_in, Hq|reflexivity]).
  assert (F : fragment_ok (or_empty f) = true) by (destruct f as [x|]; [apply fragment_in, Hf|reflexivity]).
  assert (Z : (empty (or_empty sc) && empty (or_empty au))%bool = match au with Some _ => false | None => true end).
  { destruct au as [a|].
    - destruct sc as [s|]; [destruct S as [_ S]; destruct (empty (or_empty (Some s))) eqn:E; [pose proof (proj1 S eq_refl) as X; discriminate X|reflexivity]|]. destruct a; [|reflexivity]. destruct Ha as [_ Ha]. destruct (Ha eq_refl) as [X _]. congruence.
    - subst sc. reflexivity. }
  split.
  - unfold parts_ok. destruct S as [S1 S2]. rewrite S1, A, (path_in p Hp N1 N2 N3), Q, F, Z. cbn [andb]. apply andb_true_iff. split.
    + destruct au as [a|]; [destruct Hr as [->|Hr]; [reflexivity|unfold rooted; rewrite (begins_prefix _ Hr); apply orb_true_r]|]. rewrite (first_colon p Hr). apply orb_true_r.
    + destruct au as [a|]; [|subst sc; reflexivity]. destruct a as [|c a]; [|cbn; rewrite orb_true_r; reflexivity]. destruct Ha as [_ Ha]. destruct (Ha eq_refl) as [_ X]. apply empty_false in X. rewrite X. apply orb_true_r.
  - unfold text_of. rewrite Z. f_equal; [|f_equal; [|f_equal; f_equal]].
    + destruct sc as [s|]; [|reflexivity]. destruct S as [_ S]. destruct (empty (or_empty (Some s))) eqn:E; [pose proof (proj1 S eq_refl) as X; discriminate X|reflexivity].
    + destruct au; reflexivity.
    + destruct q as [x|]; [|reflexivity]. destruct Hq as [Hq _]. apply empty_false in Hq. cbn [or_empty]. rewrite Hq. reflexivity.
    + destruct f as [x|]; [|reflexivity]. destruct Hf as [Hf _]. apply empty_false in Hf. cbn [or_empty]. rewrite Hf. reflexivity.
Qed.
Lemma ordinary_plain s : common_ref s -> plain_ref s = true.
Proof. intros (u & H & ->). destruct (ordinary_ok u H) as [H1 H2]. rewrite H2. apply parts_plain. exact H1. Qed.

(** ** Splitting *)
Definition stops (f : ascii -> bool) (r : string) : Prop := match r with EmptyString => True | String c _ => f c = false end.
Lemma span_app f x r : all_chars f x = true -> stops f r -> span f (append x r) = (x, r).
Proof.
  intros H S. induction x as [|c x IH]; cbn [append span].
  - destruct r as [|c r]; [reflexivity|]. cbn in S. cbn [span]. rewrite S. reflexivity.
  - cbn [all_chars] in H. apply andb_true_iff in H. destruct H as [H1 H2]. rewrite H1, (IH H2). reflexivity.
Qed.
Lemma scheme_none_of c : (lower_alpha c || numeral c || any_of "+-." c)%bool = true -> none_of ":/?#" c = true.
Proof. revert c. each_char. Qed.
Lemma unreserved_none_of c : unreserved c = true -> none_of "/?#" c = true.
Proof. revert c. each_char. Qed.
Lemma numeral_none_of c : numeral c = true -> none_of "/?#" c = true.
Proof. revert c. each_char. Qed.
Lemma path_none_of c : slash_or pchar c = true -> none_of "?#" c = true.
Proof. revert c. each_char. Qed.
Lemma hex_none_of c : hex c = true -> none_of "?#" c = true.
Proof. revert c. each_char. Qed.
Lemma query_none_of c : query_char c = true -> none_of "#" c = true.
Proof. revert c. each_char. Qed.
Lemma hex_none_of' c : hex c = true -> none_of "#" c = true.
Proof. revert c. each_char. Qed.

Definition tail_text (q f : option string) : string := append (match q with Some q => append "?" q | None => "" end) (match f with Some f => append "#" f | None => "" end).
Lemma tail_cases q f : tail_text q f = "" \/ exists c t, tail_text q f = String c t /\ (c = "?"%char \/ c = "#"%char).
Proof. unfold tail_text. destruct q as [q|]; [right; cbn; eauto 6|]. destruct f as [f|]; [right; cbn; eauto 6|left; reflexivity]. Qed.
Lemma tail_stops g q f : g "?"%char = false -> g "#"%char = false -> stops g (tail_text q f).
Proof. intros A B. destruct (tail_cases q f) as [->|(c & t & -> & [->| ->])]; cbn; auto. Qed.
Lemma split_tail q f : match q with None => True | Some q => made_of query_char q end -> split_query (tail_text q f) = (q, match f with Some f => append "#" f | None => "" end).
Proof.
  intros H. unfold split_query, tail_text. destruct q as [q|].
  - cbn [append after]. rewrite Ascii.eqb_refl. rewrite span_app; [reflexivity| |destruct f; cbn; auto]. eapply made_all; [apply query_none_of|apply hex_none_of'|reflexivity|exact H].
  - destruct f; reflexivity.
Qed.
Lemma no_scheme p q f : (forall x y, p = append x (String ":" y) -> slashed x = true) -> after ":" (snd (span (none_of ":/?#") (append p (tail_text q f)))) = None.
Proof.
  induction p as [|c p IH]; intros H.
  - cbn [append]. destruct (tail_cases q f) as [->|(c & t & -> & [->| ->])]; reflexivity.
  - cbn [append span]. destruct (none_of ":/?#" c) eqn:Ec.
    + destruct (span (none_of ":/?#") (append p (tail_text q f))) as [x y] eqn:Es. cbn [snd] in *. apply IH. intros x' y' ->. specialize (H (String c x') y' eq_refl). cbn [slashed] in H.
      destruct (Ascii.eqb_spec c "/") as [->|]; [discriminate Ec|exact H].
    + cbn [snd after]. destruct (Ascii.eqb_spec ":" c) as [<-|]; [|reflexivity]. specialize (H "" p eq_refl). discriminate H.
Qed.
Lemma split_scheme_none s : after ":" (snd (span (none_of ":/?#") s)) = None -> split_scheme s = (None, s).
Proof. unfold split_scheme. destruct (span _ s) as [x y]. cbn [snd]. intros ->. destruct x; reflexivity. Qed.
Lemma split_recompose u : common_parts u -> split_uri (recompose u) = u.
Proof.
  destruct u as [sc au p q f]. unfold common_parts, recompose. cbn [u_scheme u_authority u_path u_query u_frag]. intros (Hs & Ha & [Hp Hd] & _ & _ & _ & Hr & Hq & Hf).
  fold (tail_text q f). assert (T : forall s, s = append p (tail_text q f) -> (let '(p0, s0) := span (none_of "?#") s in let '(q0, s1) := split_query s0 in Uri sc au p0 q0 (after "#" s1)) = Uri sc au p q f).
  { intros s ->. rewrite span_app; [|eapply made_all; [apply path_none_of|apply hex_none_of|reflexivity|exact Hp]|apply tail_stops; reflexivity].
    rewrite split_tail by (destruct q; auto; apply Hq). f_equal. destruct f; reflexivity. }
  set (rest := append (match au with Some a => append "//" a | None => "" end) (append p (tail_text q f))).
  assert (S : split_scheme (append (match sc with Some s => append s ":" | None => "" end) rest) = (sc, rest)).
  { destruct sc as [s|].
    - rewrite append_assoc. destruct Hs as (c & r & -> & Hc & Hr0). unfold split_scheme. rewrite span_app; [cbn [append after]; rewrite Ascii.eqb_refl; reflexivity| |reflexivity].
      cbn [all_chars]. rewrite scheme_none_of by (rewrite Hc; reflexivity). eapply each_all; [|exact Hr0]. apply scheme_none_of.
    - cbn [append]. apply split_scheme_none. unfold rest. destruct au as [a|]; [reflexivity|]. cbn [append]. apply no_scheme. exact Hr. }
  unfold split_uri. rewrite S. assert (A : split_authority rest = (au, append p (tail_text q f))).
  { unfold split_authority, rest. destruct au as [a|].
    - cbn [append after]. rewrite Ascii.eqb_refl. rewrite span_app; [reflexivity| |].
      + destruct Ha as [(h & Hh & Ha) _]. assert (Ah : all_chars (none_of "/?#") h = true) by (eapply each_all; [apply unreserved_none_of|exact Hh]). destruct Ha as [->|(pt & Hpt & ->)]; auto. rewrite all_app, Ah. cbn [all_chars]. eapply each_all; [apply numeral_none_of|exact Hpt].
      + destruct Hr as [->|[r ->]]; [|reflexivity]. apply tail_stops; reflexivity.
    - cbn [append]. destruct (after "//" (append p (tail_text q f))) eqn:E; [|reflexivity]. exfalso. destruct p as [|c [|c' p]].
      + cbn [append] in E. destruct (tail_cases q f) as [X|(c & t & X & [->| ->])]; rewrite X in E; discriminate E.
      + cbn [append after] in E. destruct (Ascii.eqb "/" c); [|discriminate E]. destruct (tail_cases q f) as [X|(d & t & X & [->| ->])]; rewrite X in E; discriminate E.
      + cbn [append after] in E. destruct (Ascii.eqb_spec "/" c) as [<-|]; [|discriminate E]. destruct (Ascii.eqb_spec "/" c') as [<-|]; [|discriminate E]. exact (Hd "" p eq_refl). }
  rewrite A. apply T. reflexivity.
Qed.

(** ** Dot segments *)
(** A rooted path from its segments. *)
Fixpoint slashes (l : list string) : string := match l with [] => "" | e :: l' => String "/" (append e (slashes l')) end.
Lemma slashes_app a b : slashes (a ++ b) = append (slashes a) (slashes b).
Proof. induction a as [|e a IH]; [reflexivity|]. cbn. rewrite IH, append_assoc. reflexivity. Qed.
Lemma slashes_fold l : forall h, fold_left (fun t e => append t (String "/" e)) l h = append h (slashes l).
Proof. induction l as [|e l IH]; intros h; [symmetry; apply append_nil|]. cbn [fold_left slashes]. rewrite IH, append_assoc. reflexivity. Qed.
(** The segments that remain. *)
Fixpoint norm (out l : list string) : list string :=
  match l with
  | [] => out
  | e :: l' =>
      let out' := if String.eqb e "." then out else if String.eqb e ".." then removelast out else out ++ [e] in
      match l' with
      | [] => if (String.eqb e "." || String.eqb e "..")%bool then out' ++ [""] else out'
      | _ => norm out' l'
      end
  end.
Definition flat (e : string) : Prop := contains "/" e = false.
Lemma slashed_contains s : slashed s = contains "/" s.
Proof. induction s as [|c s IH]; [reflexivity|]. cbn [slashed contains]. rewrite IH. reflexivity. Qed.
Lemma slashes_snoc out e : slashes (out ++ [e]) = append (slashes out) (String "/" e).
Proof. rewrite slashes_app. cbn [slashes]. rewrite append_nil. reflexivity. Qed.
Lemma drop_snoc s e : flat e -> drop_last (append s (String "/" e)) = s.
Proof.
  intros H. induction s as [|c s IH]; cbn [append drop_last].
  - rewrite slashed_contains, H. reflexivity.
  - rewrite slashed_contains, contains_app. cbn [contains]. rewrite Ascii.eqb_refl. rewrite orb_true_r. f_equal. exact IH.
Qed.
Lemma drop_slashes out : Forall flat out -> drop_last (slashes out) = slashes (removelast out).
Proof.
  intros H. destruct out as [|e0 out] using rev_ind; [reflexivity|]. clear IHout. apply Forall_app in H. destruct H as [_ H]. inversion H as [|? ? H1 _]; subst. rewrite removelast_last, slashes_snoc. apply drop_snoc. exact H1.
Qed.
Lemma flat_removelast out : Forall flat out -> Forall flat (removelast out).
Proof. intros H. destruct out as [|e0 out] using rev_ind; [auto|]. clear IHout. rewrite removelast_last. apply Forall_app in H. tauto. Qed.
Lemma flat_snoc out e : Forall flat out -> flat e -> Forall flat (out ++ [e]).
Proof. intros. apply Forall_app. auto. Qed.
Lemma slashes_shape l : slashes l = "" \/ exists t, slashes l = String "/" t.
Proof. destruct l; cbn; eauto. Qed.
Lemma after_not p c s : match p with String a _ => a <> c | _ => False end -> after p (String c s) = None.
Proof. destruct p as [|a p]; [tauto|]. intros H. cbn [after]. destruct (Ascii.eqb_spec a c); [congruence|reflexivity]. Qed.
Lemma flat_none e : flat e -> all_chars (none_of "/") e = true.
Proof.
  unfold flat. induction e as [|c e IH]; [auto|]. cbn [contains all_chars]. intros H. apply orb_false_iff in H. destruct H as [H1 H2]. rewrite (IH H2), andb_true_r. cbn [none_of]. rewrite Ascii.eqb_sym in H1. rewrite H1. reflexivity.
Qed.
(** One step on "/e..." where e is an ordinary segment. *)
Lemma ordinary_segment e r : flat e -> e <> "." -> e <> ".." -> (r = "" \/ exists t, r = String "/" t) ->
  let s := String "/" (append e r) in
  after "../" s = None /\ after "./" s = None /\ after "/./" s = None /\ after "/../" s = None /\ String.eqb s "/." = false /\ String.eqb s "/.." = false /\ String.eqb s "." = false /\ String.eqb s ".." = false /\ first_segment s = (String "/" e, r).
Proof.
  intros F N1 N2 Hr s. unfold s. assert (G : forall d, e <> d -> flat d -> append e r <> d).
  { intros d Nd Fd E. destruct Hr as [->|[t ->]]; [rewrite append_nil in E; auto|]. subst d. unfold flat in Fd. rewrite contains_app in Fd. cbn [contains] in Fd. rewrite Ascii.eqb_refl, orb_true_r in Fd. discriminate Fd. }
  assert (A : forall d, flat d -> e <> d -> after (append d "/") (append e r) = None).
  { clear s G N1 N2. intros d. revert e F. induction d as [|c d IH]; intros e F Fd N.
    - destruct e as [|c e]; [congruence|]. cbn [append after]. unfold flat in F. cbn [contains] in F. apply orb_false_iff in F. destruct F as [F _]. rewrite Ascii.eqb_sym, F. reflexivity.
    - unfold flat in Fd. cbn [contains] in Fd. apply orb_false_iff in Fd. destruct Fd as [Fc Fd]. destruct e as [|c' e].
      + destruct Hr as [->|[t ->]]; [reflexivity|]. cbn [append after]. rewrite Fc. reflexivity.
      + cbn [append after]. destruct (Ascii.eqb_spec c c') as [<-|]; [|reflexivity]. apply IH; auto; [unfold flat in F; cbn [contains] in F; apply orb_false_iff in F; apply F|congruence]. }
  split; [reflexivity|]. split; [reflexivity|]. split; [exact (A "." eq_refl N1)|]. split; [exact (A ".." eq_refl N2)|].
  split; [apply String.eqb_neq; intros X; injection X as X; exact (G "." N1 eq_refl X)|]. split; [apply String.eqb_neq; intros X; injection X as X; exact (G ".." N2 eq_refl X)|]. split; [reflexivity|]. split; [reflexivity|].
  unfold first_segment. rewrite span_app; [reflexivity|apply flat_none; auto|]. destruct Hr as [->|[t ->]]; reflexivity.
Qed.
Lemma remove_step n c s o : remove_dots (S n) (String c s) o =
          match after "../" (String c s), after "./" (String c s), after "/./" (String c s), after "/../" (String c s) with
          | Some r, _, _, _ => remove_dots n r o
          | _, Some r, _, _ => remove_dots n r o
          | _, _, Some r, _ => remove_dots n (String "/" r) o
          | _, _, _, Some r => remove_dots n (String "/" r) (drop_last o)
          | _, _, _, _ =>
              if String.eqb (String c s) "/." then remove_dots n "/" o
              else if String.eqb (String c s) "/.." then remove_dots n "/" (drop_last o)
              else if (String.eqb (String c s) "." || String.eqb (String c s) "..")%bool then remove_dots n "" o
              else let '(x, y) := first_segment (String c s) in remove_dots n y (append o x)
          end.
Proof. reflexivity. Qed.
Lemma remove_nil n o : remove_dots n "" o = o.
Proof. destruct n; reflexivity. Qed.
Lemma len_app a b : String.length (append a b) = String.length a + String.length b.
Proof. induction a; cbn; auto. Qed.
Theorem rfc_norm l : forall n out, Forall flat l -> Forall flat out -> l <> [] -> String.length (slashes l) < n -> remove_dots n (slashes l) (slashes out) = slashes (norm out l).
Proof.
  induction l as [|e l IH]; intros n out Fl Fo Hn L; [congruence|]. inversion Fl as [|? ? Fe Fl']; subst. cbn [slashes] in *. destruct n as [|n]; [lia|]. cbn [String.length] in L. rewrite len_app in L.
  destruct (String.eqb_spec e ".") as [->|N1]; [|destruct (String.eqb_spec e "..") as [->|N2]].
  - destruct l as [|e' l].
    + cbn [slashes append norm String.eqb]. rewrite remove_step. cbn in L. destruct n as [|n]; [lia|]. cbn. rewrite remove_nil. symmetry. apply slashes_snoc.
    + change (remove_dots n (slashes (e' :: l)) (slashes out) = slashes (norm out (e' :: l))). apply IH; auto; [congruence|cbn in L; cbn; lia].
  - destruct l as [|e' l].
    + cbn [slashes append norm String.eqb]. rewrite remove_step. cbn in L. destruct n as [|n]; [lia|]. cbn. rewrite remove_nil, drop_slashes by auto. symmetry. apply slashes_snoc.
    + change (remove_dots n (slashes (e' :: l)) (drop_last (slashes out)) = slashes (norm (removelast out) (e' :: l))). rewrite drop_slashes by auto. apply IH; auto; [apply flat_removelast; auto|congruence|cbn in L; cbn; lia].
  - rewrite remove_step. destruct (ordinary_segment e (slashes l) Fe N1 N2 (slashes_shape l)) as (-> & -> & -> & -> & -> & -> & -> & -> & ->). cbn [orb]. rewrite <- slashes_snoc.
    cbn [norm]. apply String.eqb_neq in N1. apply String.eqb_neq in N2. rewrite N1, N2. cbn [orb]. destruct l as [|e' l]; [apply remove_nil|]. apply IH; auto; [apply flat_snoc; auto|congruence|cbn in L |- *; lia].
Qed.
Lemma rfc_path l : Forall flat l -> l <> [] -> remove_dot_segments (slashes l) = slashes (norm [] l).
Proof. intros H N. unfold remove_dot_segments. apply (rfc_norm l _ []); auto. Qed.

(** The loop of resolvePath keeps the same segments. *)
Definition kept (st : string * bool) (out : list string) : Prop :=
  st = (slashes out, false) \/ (st = ("", true) /\ out = []) \/ exists e out', out = e :: out' /\ st = (append e (slashes out'), false).
Definition step_out (out : list string) (e : string) : list string := if String.eqb e "." then out else if String.eqb e ".." then removelast out else out ++ [e].
Definition solid (e : string) : Prop := flat e /\ e <> "".
Lemma cut_last_snoc s e : flat e -> cut_last "/" (append s (String "/" e)) = Some (s, e).
Proof. intros H. rewrite (cut_last_app "/" s (String "/" e) "" e); [rewrite append_nil; reflexivity|]. cbn [cut_last]. rewrite cut_last_none by exact H. rewrite Ascii.eqb_refl. reflexivity. Qed.
Lemma solid_removelast out : Forall solid out -> Forall solid (removelast out).
Proof. intros H. destruct out as [|e0 out] using rev_ind; [auto|]. clear IHout. rewrite removelast_last. apply Forall_app in H. tauto. Qed.
Lemma step_solid out e : Forall solid out -> solid e -> Forall solid (step_out out e).
Proof. intros H He. unfold step_out. destruct (String.eqb e "."); auto. destruct (String.eqb e ".."); [apply solid_removelast; auto|]. apply Forall_app. auto. Qed.
Lemma put_kept st out e : kept st out -> Forall solid out -> flat e -> kept (put_segment st e) (step_out out e).
Proof.
  intros K So Fe. unfold step_out. destruct st as [t first]. unfold put_segment. destruct (String.eqb e ".").
  - destruct K as [[= -> ->]|[[[= -> ->] ->]|(e0 & out' & -> & [= -> ->])]]; [left; reflexivity|left; reflexivity|right; right; eauto].
  - destruct (String.eqb e "..").
    + destruct K as [[= -> ->]|[[[= -> ->] ->]|(e0 & out' & -> & [= -> ->])]].
      * destruct out as [|x out] using rev_ind; [right; left; auto|]. clear IHout. apply Forall_app in So. destruct So as [_ So]. inversion So as [|? ? [Fx _] _]; subst.
        rewrite slashes_snoc, cut_last_snoc, removelast_last by auto. left. reflexivity.
      * right; left; auto.
      * inversion So as [|? ? [F0 _] So']; subst. destruct out' as [|x out'] using rev_ind.
        -- cbn [slashes]. rewrite append_nil, cut_last_none by exact F0. right; left; auto.
        -- clear IHout'. apply Forall_app in So'. destruct So' as [_ So']. inversion So' as [|? ? [Fx _] _]; subst. rewrite slashes_snoc, <- append_assoc, cut_last_snoc by auto. rewrite app_comm_cons, removelast_last. right; right; eauto.
    + destruct K as [[= -> ->]|[[[= -> ->] ->]|(e0 & out' & -> & [= -> ->])]].
      * left. rewrite slashes_snoc. reflexivity.
      * right; right. exists e, []. cbn [slashes append]. rewrite append_nil. auto.
      * right; right. exists e0, (out' ++ [e]). rewrite slashes_snoc, append_assoc. auto.
Qed.
Definition rooted_text (t : string) : string := if has_prefix "/" t then t else String "/" t.
Lemma rooted_kept st out : kept st out -> out <> [] -> (forall e, In e (removelast out) -> solid e) -> Forall flat out -> rooted_text (fst st) = slashes out.
Proof.
  intros K N S F. unfold rooted_text. rewrite has_prefix_slash. destruct K as [-> |[[-> ->]|(e0 & out' & -> & ->)]].
  - destruct out; [congruence|]. cbn [fst slashes]. rewrite Ascii.eqb_refl. reflexivity.
  - congruence.
  - cbn [fst slashes]. inversion F as [|? ? F0 _]; subst. unfold flat in F0. destruct e0 as [|c e0].
    + destruct out' as [|x out']; [reflexivity|]. destruct (S "") as [_ X]; [left; reflexivity|congruence].
    + cbn [append contains] in *. apply orb_false_iff in F0. destruct F0 as [-> _]. reflexivity.
Qed.
Lemma kept_snoc st out : kept st out -> Forall solid out -> exists b, kept (append (fst st) "/", b) (out ++ [""]) \/ out = [] /\ st = ("", true).
Proof.
  intros K S. destruct K as [-> |[[-> ->]|(e0 & out' & -> & ->)]]; cbn [fst].
  - exists false. left. left. rewrite slashes_snoc. reflexivity.
  - exists false. right. auto.
  - exists false. left. right; right. exists e0, (out' ++ [""]). rewrite slashes_snoc, append_assoc. auto.
Qed.
Lemma solid_flat l : Forall solid l -> Forall flat l.
Proof. intros H. eapply Forall_impl; [|exact H]. intros e [A _]. exact A. Qed.
Lemma removelast_in (l : list string) e : Forall solid l -> In e (removelast (l ++ [""])) -> solid e.
Proof. intros H I. rewrite removelast_last in I. rewrite Forall_forall in H. auto. Qed.
Lemma go_last st out e : kept st out -> Forall solid out -> flat e ->
  rooted_text (if (String.eqb e "." || String.eqb e "..")%bool then append (fst (put_segment st e)) "/" else fst (put_segment st e)) = slashes (norm out [e]).
Proof.
  intros K S F. pose proof (put_kept st out e K S F) as K'. cbn [norm]. unfold step_out in K'. destruct (String.eqb_spec e ".") as [->|N1]; [|destruct (String.eqb_spec e "..") as [->|N2]]; cbn [orb].
  - destruct (kept_snoc _ _ K' S) as [b [X|[-> X]]]; [|rewrite X; reflexivity].
    apply (rooted_kept (append (fst (put_segment st ".")) "/", b)); auto; [intros E; apply app_eq_nil in E; destruct E; discriminate|intros e I; eapply removelast_in; eauto|apply Forall_app; split; [apply solid_flat; auto|repeat constructor]].
  - apply solid_removelast in S. destruct (kept_snoc _ _ K' S) as [b [X|[E X]]]; [|rewrite E, X; reflexivity].
    apply (rooted_kept (append (fst (put_segment st "..")) "/", b)); auto; [intros E; apply app_eq_nil in E; destruct E; discriminate|intros e I; eapply removelast_in; eauto|apply Forall_app; split; [apply solid_flat; auto|repeat constructor]].
  - apply rooted_kept; auto; [intros E; apply app_eq_nil in E; destruct E; discriminate|intros x I; rewrite removelast_last in I; rewrite Forall_forall in S; auto|apply Forall_app; split; [apply solid_flat; auto|repeat constructor; exact F]].
Qed.
Lemma go_norm l : forall x st out, kept st out -> Forall solid out -> Forall flat (x :: l) -> inner (x :: l) ->
  rooted_text (let '(t, _) := fold_left put_segment (x :: l) st in if (String.eqb (last l x) "." || String.eqb (last l x) "..")%bool then append t "/" else t) = slashes (norm out (x :: l)).
Proof.
  induction l as [|y l IH]; intros x st out K S F I; inversion F as [|? ? Fx Fl]; subst.
  - cbn [fold_left last]. pose proof (go_last st out x K S Fx) as G. destruct (put_segment st x) as [t b]. exact G.
  - destruct I as [I1 I2]. change (fold_left put_segment (x :: y :: l) st) with (fold_left put_segment (y :: l) (put_segment st x)). rewrite last_cons.
    change (norm out (x :: y :: l)) with (norm (step_out out x) (y :: l)). apply IH; auto; [apply put_kept; auto|apply step_solid; auto; split; auto].
Qed.

(** resolvePath, from the segments of the path it makes. *)
Lemma resolve_segments base ref l : l <> [] -> Forall flat l -> inner l -> full_path base ref <> "" -> (full_path base ref = slashes l \/ String "/" (full_path base ref) = slashes l) ->
  resolvePath base ref = slashes (norm [] l).
Proof.
  intros Nl F I N H. unfold resolvePath. rewrite !eqb_empty. fold (full_path base ref). generalize dependent (full_path base ref). intros s N H. apply empty_false in N. rewrite N. clear N.
  assert (SEG : forall h l, flat h -> Forall flat l -> segments (append h (slashes l)) = (h, l)).
  { clear. intros h l Fh. revert l. induction h as [|c h IH]; intros l Fl.
    - cbn [append]. induction Fl as [|e l Fe Fl IHl]; [reflexivity|]. cbn [slashes segments]. assert (E : segments (append e (slashes l)) = (e, l)).
      { clear - Fe IHl. induction e as [|c e IH]; [exact IHl|]. unfold flat in Fe. cbn [contains append segments] in *. apply orb_false_iff in Fe. destruct Fe as [Fc Fe]. rewrite (IH Fe), Fc. reflexivity. }
      rewrite E, Ascii.eqb_refl. reflexivity.
    - unfold flat in Fh. cbn [contains append segments] in *. apply orb_false_iff in Fh. destruct Fh as [Fc Fh]. rewrite (IH Fh l Fl), Fc. reflexivity. }
  assert (K0 : kept ("", true) []) by (right; left; auto). assert (K1 : kept ("", false) []) by (left; reflexivity).
  destruct H as [->|H].
  - pose proof (SEG "" l eq_refl F) as SE. cbn [append] in SE. rewrite SE. clear SE. destruct l as [|x l]; [congruence|].
    change (fold_left put_segment ("" :: x :: l) ("", true)) with (fold_left put_segment (x :: l) ("", false)). rewrite last_cons.
    pose proof (go_norm l x ("", false) [] K1 (Forall_nil _) F I) as G. destruct (fold_left put_segment (x :: l) ("", false)) as [t b]. exact G.
  - destruct l as [|x l]; [congruence|]. cbn [slashes] in H. injection H as ->. inversion F as [|? ? Fx Fl]; subst. rewrite (SEG x l); auto.
    pose proof (go_norm l x ("", true) [] K0 (Forall_nil _) F I) as G. destruct (fold_left put_segment (x :: l) ("", true)) as [t b]. exact G.
Qed.
(** The segments of a rooted path without "//". *)
Lemma rooted_segments s : no_double false (String "/" s) = true -> exists l, l <> [] /\ Forall flat l /\ inner l /\ String "/" s = slashes l.
Proof.
  intros D. pose proof (segments_spec s) as H. destruct (segments s) as [h l]. destruct H as (Fh & Fl & E). exists (h :: l). split; [congruence|]. split; [constructor; auto|]. rewrite slashes_fold in E. split; [|rewrite E; reflexivity].
  rewrite E in D. clear - D Fh. assert (G : forall l prev, no_double prev (slashes l) = true -> inner l).
  { clear. induction l as [|e l IH]; intros prev D; [exact I|]. destruct l as [|e' l]; [exact I|]. change (e <> "" /\ inner (e' :: l)). cbn [slashes no_double] in D. rewrite Ascii.eqb_refl in D. apply andb_true_iff in D. destruct D as [_ D].
    split; [intros ->; cbn [append no_double] in D; rewrite Ascii.eqb_refl in D; discriminate D|]. rewrite no_double_app in D. apply andb_true_iff in D. destruct D as [_ D]. apply IH in D. exact D. }
  apply (G (h :: l) false). exact D.
Qed.
Lemma resolve_rfc base ref p : no_double false p = true -> begins_slash p -> full_path base ref <> "" -> (full_path base ref = p \/ String "/" (full_path base ref) = p) -> resolvePath base ref = remove_dot_segments p.
Proof.
  intros D [s ->] N H. destruct (rooted_segments s D) as (l & N1 & F & I & E). rewrite E in *. rewrite rfc_path by auto. apply resolve_segments; auto.
Qed.
Lemma directory_cut p x y : cut_last "/" p = Some (x, y) -> directory p = append x "/".
Proof.
  revert x y. induction p as [|c p IH]; intros x y H; [discriminate H|]. cbn [cut_last] in H. cbn [directory slashed]. destruct (cut_last "/" p) as [[x' y']|] eqn:E.
  - injection H as <- <-. rewrite (IH _ _ eq_refl). assert (C : slashed p = true) by (rewrite slashed_contains; destruct (contains "/" p) eqn:Ep; auto; rewrite cut_last_none in E by auto; discriminate E). rewrite C, orb_true_r. reflexivity.
  - destruct (Ascii.eqb_spec c "/") as [->|]; [|discriminate H]. injection H as <- <-. cbn [orb append]. f_equal. destruct p as [|d p]; [reflexivity|]. cbn [directory].
    destruct (slashed (String d p)) eqn:S; [|reflexivity]. exfalso. rewrite slashed_contains in S. assert (Z : forall s, contains "/" s = true -> cut_last "/" s <> None); [|exact (Z _ S E)].
    clear. induction s as [|c s IH]; cbn [contains cut_last]; [discriminate|]. destruct (Ascii.eqb c "/"); cbn [orb]; [destruct (cut_last "/" s) as [[]|]; congruence|]. intros H. apply IH in H. destruct (cut_last "/" s) as [[]|]; congruence.
Qed.

(** ** Resolution *)
Lemma set_empty o : match o with None => True | Some q => q <> "" end -> match o with Some q => append "?" q | None => "" end = (if empty (or_empty o) then "" else append "?" (or_empty o)).
Proof. destruct o as [q|]; [|reflexivity]. intros H. apply empty_false in H. cbn [or_empty]. rewrite H. reflexivity. Qed.
Theorem resolves b r : common_ref b -> common_ref r -> u_scheme (split_uri b) <> None -> (u_path (split_uri r) <> "" \/ dotless (u_path (split_uri b))) ->
  ref_inherits b r = Some (rfc_resolve b r).
Proof.
  intros (ub & Hb & ->) (ur & Hr & ->). unfold rfc_resolve. rewrite !split_recompose by auto. intros Hsc Hdot.
  destruct (ordinary_ok ub Hb) as [OKb Eb]. destruct (ordinary_ok ur Hr) as [OKr Er]. rewrite Eb, Er. unfold text_of_parts in *.
  destruct (resolve_parts _ _ _ _ _ _ _ _ _ _ OKb OKr) as (sc & h & p & q & OK & E & X). unfold ref_inherits. rewrite !parse_text by auto. rewrite E. rewrite plain_parse by (apply parts_plain; auto). f_equal. clear E Eb Er.
  pose proof (parts _ _ _ _ _ OKb) as (_ & _ & Bp & _ & _ & Br & _). pose proof (parts _ _ _ _ _ OKr) as (_ & _ & Rp & _ & _ & Rr & _). apply path_ok_iff in Bp. apply path_ok_iff in Rp. destruct Bp as (_ & Db & _). destruct Rp as (_ & Dr & _). clear OKb OKr OK.
  destruct ub as [scb ab pb qb fb], ur as [scr ar pr qr fr]. unfold common_parts in *. cbn [u_scheme u_authority u_path u_query u_frag] in *.
  destruct Hb as (Bs & Ba & Bpath & _ & _ & _ & Brt & Bq & Bf). destruct Hr as (Rs & Ra & Rpath & _ & _ & _ & Rrt & Rq & Rf).
  destruct scb as [scb|]; [|congruence]. destruct ab as [ab|]; [|discriminate Ba].
  assert (Hscb : empty scb = false) by (apply empty_false; apply scheme_in in Bs; apply Bs).
  assert (FR : match fr with Some f => append "#" f | None => "" end = (if empty (or_empty fr) then "" else append "#" (or_empty fr))) by (destruct fr as [f|]; [destruct Rf as [Rf _]; apply empty_false in Rf; cbn [or_empty]; rewrite Rf|]; reflexivity).
  assert (QR : match qr with Some q => append "?" q | None => "" end = (if empty (or_empty qr) then "" else append "?" (or_empty qr))) by (apply set_empty; destruct qr; [apply Rq|exact I]).
  assert (QB : match qb with Some q => append "?" q | None => "" end = (if empty (or_empty qb) then "" else append "?" (or_empty qb))) by (apply set_empty; destruct qb; [apply Bq|exact I]).
  assert (EQ : forall o, match o with None => True | Some q => q <> "" end -> empty (or_empty o) = match o with Some _ => false | None => true end) by (intros [o|] Ho; [apply empty_false; exact Ho|reflexivity]).
  unfold transform, recompose. cbn [u_scheme u_authority u_path u_query u_frag or_empty] in *.
  assert (AWAY : (negb (empty (or_empty scr)) || negb (empty (or_empty ar)))%bool = match ar with Some _ => true | None => false end).
  { destruct ar as [ar|]; [|subst scr; reflexivity]. destruct scr as [scr|]; [apply scheme_in in Rs; destruct Rs as [_ Rs]; apply empty_false in Rs; cbn [or_empty]; rewrite Rs; reflexivity|]. cbn [or_empty negb empty orb]. destruct ar; [|reflexivity].
    destruct Ra as [_ Ra]. destruct (Ra eq_refl) as [Z _]. congruence. }
  rewrite AWAY in X. destruct ar as [ar|].
  - (* the reference has an authority *)
    injection X as -> -> -> ->. cbn [or_empty] in *.
    assert (P : resolvePath pr "" = remove_dot_segments pr).
    { destruct Rrt as [->|Rrt]; [reflexivity|]. apply resolve_rfc; [exact Dr|exact Rrt| |left; reflexivity]. destruct Rrt as [z ->]; discriminate. }
    rewrite P. destruct scr as [scr|]; cbn [u_scheme u_authority u_path u_query u_frag or_empty]; unfold text_of; rewrite FR, QR.
    + apply scheme_in in Rs. destruct Rs as [_ Rs]. apply empty_false in Rs. rewrite Rs. cbv iota. rewrite Rs. reflexivity.
    + cbn [empty]. rewrite Hscb. reflexivity.
  - (* it has none *)
    subst scr. injection X as -> -> -> ->. cbn [u_scheme u_authority u_path u_query u_frag or_empty] in *.
    destruct pr as [|c pr].
    + cbn [u_scheme u_authority u_path u_query u_frag]. destruct Hdot as [Hdot|Hdot]; [congruence|].
      assert (P : resolvePath pb "" = pb).
      { destruct Brt as [->|Brt]; [reflexivity|]. rewrite (resolve_rfc pb "" pb); [exact Hdot|exact Db|exact Brt| |left; reflexivity]. destruct Brt as [z ->]; discriminate. }
      rewrite P. unfold text_of. rewrite FR, Hscb. cbn [andb empty]. do 3 f_equal. f_equal. rewrite (EQ qr) by (destruct qr; [apply Rq|exact I]). destruct qr as [qr|]; [exact (eq_sym QR)|exact (eq_sym QB)].
    + assert (Q : (if (empty (String c pr) && empty (or_empty qr))%bool then or_empty qb else or_empty qr) = or_empty qr) by reflexivity. rewrite Q. clear Q.
      destruct (Ascii.eqb_spec c "/") as [->|Nc].
      * assert (P : resolvePath pb (String "/" pr) = remove_dot_segments (String "/" pr)) by (apply resolve_rfc; auto; [exists pr; reflexivity| |]; unfold full_path; cbn [empty]; rewrite has_prefix_slash, Ascii.eqb_refl; [discriminate|auto]).
        rewrite P. cbn [u_scheme u_authority u_path u_query u_frag]. unfold text_of. rewrite FR, QR, Hscb. reflexivity.
      * assert (HP : has_prefix "/" (String c pr) = false) by (rewrite has_prefix_slash; apply Ascii.eqb_neq; exact Nc).
        assert (FP : full_path pb (String c pr) = append (match cut_last "/" pb with Some (x, _) => append x "/" | None => "" end) (String c pr)) by (unfold full_path; cbn [empty]; rewrite HP; reflexivity).
        assert (P : resolvePath pb (String c pr) = remove_dot_segments (merge (Uri (Some scb) (Some ab) pb qb fb) (String c pr))).
        { assert (Dc : forall prev, no_double prev (String c pr) = true) by (intros prev; cbn [no_double] in *; apply Ascii.eqb_neq in Nc; rewrite Nc in *; auto).
          unfold merge. cbn [u_authority u_path]. destruct pb as [|d pb].
          - apply resolve_rfc; [cbn [no_double]; rewrite Ascii.eqb_refl; exact (Dc true)|eexists; reflexivity|rewrite FP; discriminate|rewrite FP; auto].
          - destruct Brt as [Z|[z Z]]; [discriminate Z|]. injection Z as -> ->. destruct (cut_last "/" (String "/" z)) as [[x y]|] eqn:Ec; [|cbn [cut_last] in Ec; destruct (cut_last "/" z) as [[]|]; discriminate Ec].
            rewrite (directory_cut _ _ _ Ec). apply cut_last_spec in Ec. apply resolve_rfc.
            + rewrite append_assoc. cbn [append]. rewrite Ec in Db. rewrite no_double_app in Db |- *. apply andb_true_iff in Db. destruct Db as [D1 D2]. rewrite D1. cbn [no_double andb] in D2 |- *. rewrite Ascii.eqb_refl in *. apply andb_true_iff in D2. destruct D2 as [D2 _]. rewrite D2. exact (Dc true).
            + destruct x as [|d x]; [eexists; reflexivity|]. injection Ec as <- _. eexists; reflexivity.
            + rewrite FP. destruct x; discriminate.
            + rewrite FP. auto. }
        rewrite P. assert (M : match String c pr with | EmptyString => Uri (Some scb) (Some ab) pb (match qr with Some q => Some q | None => qb end) fr
          | String "/" _ => Uri (Some scb) (Some ab) (remove_dot_segments (String c pr)) qr fr
          | _ => Uri (Some scb) (Some ab) (remove_dot_segments (merge (Uri (Some scb) (Some ab) pb qb fb) (String c pr))) qr fr end = Uri (Some scb) (Some ab) (remove_dot_segments (merge (Uri (Some scb) (Some ab) pb qb fb) (String c pr))) qr fr).
        { clear - Nc. generalize (merge (Uri (Some scb) (Some ab) pb qb fb) (String c pr)). intros m. generalize (remove_dot_segments m). generalize (remove_dot_segments (String c pr)). intros.
          destruct c as [[] [] [] [] [] [] [] []]; try reflexivity. congruence. }
        rewrite M. cbn [u_scheme u_authority u_path u_query u_frag]. unfold text_of. rewrite FR, QR, Hscb. reflexivity.
Qed.

(** ** Printing, stripping, fragments, files *)
Theorem ordinary_parse s : common_ref s -> ref_parse s = Some s.
Proof. intros H. apply plain_parse, ordinary_plain, H. Qed.
Lemma ordinary_without u : common_parts u -> common_parts (without_fragment u).
Proof. unfold common_parts, without_fragment. cbn [u_scheme u_authority u_path u_query u_frag]. tauto. Qed.
Theorem ordinary_strip s : common_ref s -> ref_strip s = recompose (without_fragment (split_uri s)).
Proof.
  intros (u & H & ->). rewrite split_recompose by auto. destruct (ordinary_ok u H) as [OK ->]. destruct (ordinary_ok _ (ordinary_without u H)) as [_ ->]. unfold text_of_parts. rewrite strip_text by auto. reflexivity.
Qed.
Lemma hex_value_unhex c : is_hex_digit c = true -> hex_value c = unhex c.
Proof. intros H. destruct c as [[] [] [] [] [] [] [] []]; vm_compute in H; try discriminate H; reflexivity. Qed.
Lemma decode_made f s m : free_mode m = true -> f "%"%char = false -> (m = encodeQueryComponent -> f "+"%char = false) -> made_of f s -> unescape s m = Some (percent_decode s).
Proof.
  intros Hm Hp Hplus. induction 1 as [|c s Hc _ IH|a b s Ha Hb _ IH]; [reflexivity| |].
  - assert (Nc : Ascii.eqb c "%" = false) by (destruct (Ascii.eqb_spec c "%"); auto; congruence). rewrite unescape_char by auto. rewrite IH. cbn [percent_decode]. rewrite Nc.
    destruct m; try discriminate Hm; cbn [host_mode andb]; try reflexivity. destruct (Ascii.eqb_spec c "+") as [->|]; [|reflexivity]. rewrite (Hplus eq_refl) in Hc. discriminate Hc.
  - rewrite unescape_hex by auto. rewrite hex_is in Ha, Hb. rewrite Ha, Hb, IH. cbn [andb percent_decode]. rewrite Ascii.eqb_refl, !hex_value_unhex by auto. reflexivity.
Qed.
Theorem ordinary_fragment s : common_ref s -> ref_fragment s = percent_decode (or_empty (u_frag (split_uri s))).
Proof.
  intros (u & H & ->). rewrite split_recompose by auto. destruct (ordinary_ok u H) as [OK ->]. unfold text_of_parts, ref_fragment. rewrite parse_text by auto. unfold build. cbn [Fragment].
  destruct H as (_ & _ & _ & _ & _ & _ & _ & _ & Hf). destruct (u_frag u) as [f|]; [|reflexivity]. cbn [or_empty]. destruct Hf as [Nf Mf]. apply empty_false in Nf. rewrite Nf. unfold setFragment. rewrite (decode_made query_char f encodeFragment); auto. discriminate.
Qed.
Theorem ordinary_canonical s : common_ref s ->
  (ref_canonical s = true <->
   (u_scheme (split_uri s) = Some "file" /\ u_path (split_uri s) <> "") \/
   (u_scheme (split_uri s) <> None /\ u_scheme (split_uri s) <> Some "file" /\ u_authority (split_uri s) <> Some "")).
Proof.
  intros (u & H & ->). rewrite split_recompose by auto. destruct (ordinary_ok u H) as [OK ->]. unfold text_of_parts, ref_canonical. rewrite parse_text by auto. unfold build. cbn [Scheme Host Path].
  destruct H as (Hs & Ha & Hp & N1 & N2 & N3 & Hr & _). destruct (u_scheme u) as [sc|].
  - cbn [or_empty]. destruct (u_authority u) as [a|]; [|discriminate Ha]. cbn [or_empty]. apply scheme_in in Hs. destruct Hs as [_ Hs]. destruct (String.eqb_spec sc "file") as [->|Nf].
    + destruct Hp as [Hp _]. unfold setPath. rewrite (decode_made (slash_or pchar) _ encodePath) by (auto; discriminate). cbn [fst]. rewrite has_prefix_slash. destruct Hr as [E|[r E]].
      * rewrite E. split; [discriminate|]. intros [[_ X]|(_ & X & _)]; congruence.
      * split; [intros _; left; split; [reflexivity|rewrite E; discriminate]|]. intros _. rewrite E. reflexivity.
    + rewrite !eqb_empty. apply empty_false in Hs. rewrite Hs. cbn [negb andb]. split; [intros E; right; split; [discriminate|split; [congruence|intros [= ->]; discriminate E]]|]. intros [[E _]|(_ & _ & E)]; [congruence|]. destruct a; [congruence|reflexivity].
  - cbn [or_empty String.eqb]. split; [discriminate|]. intros [[E _]|[E _]]; congruence.
Qed.

(** Which file a file URL names, and which address is asked for. *)
Definition no_plus (c : ascii) : bool := (slash_or pchar c && negb (Ascii.eqb c "+"))%bool.
Lemma made_no_plus p : made_of (slash_or pchar) p -> contains "+" p = false -> made_of no_plus p.
Proof.
  induction 1 as [|c s Hc _ IH|a b s Ha Hb _ IH]; cbn [contains]; intros N; [constructor| |].
  - apply orb_false_iff in N. destruct N as [N1 N2]. constructor; auto. unfold no_plus. rewrite Hc, N1. reflexivity.
  - apply orb_false_iff in N. destruct N as [_ N]. apply orb_false_iff in N. destruct N as [_ N]. apply orb_false_iff in N. destruct N as [_ N]. apply made_octet; auto.
Qed.
Theorem file_name s p f : common_ref s -> split_uri s = Uri (Some "file") (Some "") p None f -> contains "+" p = false -> ref_file (ref_strip s) = Some (Some (percent_decode p)).
Proof.
  intros H E N. rewrite ordinary_strip by auto. rewrite E. destruct H as (u & H & ->). rewrite split_recompose in E by auto. subst u. apply ordinary_without in H. unfold without_fragment in *. cbn [u_scheme u_authority u_path u_query u_frag] in *.
  destruct (ordinary_ok _ H) as [OK ->]. unfold text_of_parts. cbn [u_scheme u_authority u_path u_query u_frag or_empty] in *. unfold ref_file. rewrite parse_text by auto. unfold build. cbn [Scheme]. rewrite String.eqb_refl.
  assert (T : trim_file (text_of "file" "" p "" "") = p) by (unfold trim_file, text_of; cbn [empty andb append]; rewrite append_nil; reflexivity). rewrite T.
  destruct H as (_ & _ & [Hp _] & _). cbn [u_path] in Hp. rewrite (decode_made no_plus p encodeQueryComponent); auto. apply made_no_plus; auto.
Qed.
Theorem load_file go fs http rest n s p f : common_ref s -> split_uri s = Uri (Some "file") (Some "") p None f -> contains "+" p = false ->
  loadReference (go_world go fs http rest) n s = match fs n (percent_decode p) with Some t => decode_use_number t | None => None end.
Proof.
  intros H E N. unfold loadReference. cbn [w_parse w_strip w_file go_world]. rewrite ordinary_parse by auto. rewrite (file_name s p f) by auto. reflexivity.
Qed.
Theorem load_web go fs http rest n s : common_ref s -> u_scheme (split_uri s) <> Some "file" ->
  loadReference (go_world go fs http rest) n s = loadFromHTTP (go_world go fs http rest) (recompose (without_fragment (split_uri s))).
Proof.
  intros H E. unfold loadReference. cbn [w_parse w_strip w_file go_world]. rewrite ordinary_parse, ordinary_strip by auto. destruct H as (u & H & ->). rewrite split_recompose in * by auto. apply ordinary_without in H.
  assert (X : ref_file (recompose (without_fragment u)) = None); [|rewrite X; reflexivity].
  destruct (ordinary_ok _ H) as [OK ->]. unfold text_of_parts, ref_file. rewrite parse_text by auto. unfold build. cbn [Scheme without_fragment u_scheme]. destruct (u_scheme u) as [sc|]; [|reflexivity]. cbn [or_empty]. destruct (String.eqb_spec sc "file"); [congruence|reflexivity].
Qed.

(** ** A check, for examples *)
Fixpoint made_b (f : ascii -> bool) (s : string) : bool :=
  match s with
  | EmptyString => true
  | String c r => if f c then made_b f r else
      if Ascii.eqb c "%" then match r with String a (String b r') => (hex a && hex b && made_b f r')%bool | _ => false end else false
  end.
Lemma made_checked f s : made_b f s = true -> made_of f s.
Proof.
  assert (G : forall n s, String.length s < n -> made_b f s = true -> made_of f s); [|intros H; apply (G (S (String.length s))); auto].
  clear s. induction n as [|n IH]; intros s L H; [lia|]. destruct s as [|c s]; [constructor|]. cbn [made_b] in H. cbn [String.length] in L. destruct (f c) eqn:Ec; [constructor; auto; apply IH; auto; lia|].
  destruct (Ascii.eqb_spec c "%") as [->|]; [|discriminate H]. destruct s as [|a [|b s]]; try discriminate H. rewrite !andb_true_iff in H. destruct H as [[A B] C]. cbn [String.length] in L. apply made_octet; auto. apply IH; auto; lia.
Qed.
Lemma each_checked f s : all_chars f s = true -> each f s.
Proof. induction s as [|c s IH]; [constructor|]. cbn [all_chars]. rewrite andb_true_iff. intros [A B]. constructor; auto. Qed.
Definition common_b (s : string) : bool :=
  let u := split_uri s in
  (String.eqb (recompose u) s &&
   match u_scheme u with None => true | Some (String c r) => lower_alpha c && all_chars (fun c => lower_alpha c || numeral c || any_of "+-." c) r | _ => false end &&
   match u_authority u with
   | None => match u_scheme u with None => true | _ => false end
   | Some a => match cut_last ":" a with None => all_chars unreserved a | Some (h, p) => all_chars unreserved h && all_chars numeral p end &&
               (negb (empty a) || (match u_scheme u with None => false | _ => true end && negb (empty (u_path u)))) && rooted (u_path u)
   end &&
   made_b (slash_or pchar) (u_path u) && no_double false (u_path u) && negb (String.eqb (u_path u) "*") && negb (String.eqb (u_path u) "%2A") && negb (String.eqb (u_path u) "%2a") &&
   match u_authority u with None => negb (contains ":" (fst (fst (cut "/" (u_path u))))) | _ => true end &&
   match u_query u with None => true | Some q => negb (empty q) && made_b query_char q end &&
   match u_frag u with None => true | Some q => negb (empty q) && made_b query_char q end)%bool.
Lemma double_absent p x y : no_double false p = true -> p <> append x (String "/" (String "/" y)).
Proof. intros H ->. rewrite no_double_app in H. cbn [no_double] in H. rewrite !Ascii.eqb_refl in H. cbn [negb andb] in H. rewrite !andb_false_r in H. discriminate H. Qed.
Lemma colon_absent p x y : contains ":" (fst (fst (cut "/" p))) = false -> p = append x (String ":" y) -> slashed x = true.
Proof.
  revert p. induction x as [|c x IH]; intros p H ->.
  - cbn [append cut] in H. destruct (cut "/" y) as [[u v] b]. cbn in H. discriminate H.
  - cbn [append cut] in H. cbn [slashed]. destruct (Ascii.eqb c "/"); [reflexivity|]. cbn [orb]. apply (IH (append x (String ":" y))); auto. destruct (cut "/" (append x (String ":" y))) as [[u v] b]. cbn [fst contains] in *. apply orb_false_iff in H. apply H.
Qed.
Lemma common_checked s : common_b s = true -> common_ref s.
Proof.
  unfold common_b. cbv zeta. set (u := split_uri s). rewrite !andb_true_iff, !negb_true_iff, !String.eqb_eq, !String.eqb_neq. intros ((((((((((R & S) & A) & P) & D) & N1) & N2) & N3) & C) & Q) & F).
  exists u. split; [|congruence]. split; [|split; [|split; [|split; [|split; [|split; [|split; [|split]]]]]]]; auto.
  - destruct (u_scheme u) as [[|c r]|]; [discriminate S| |exact I]. apply andb_true_iff in S. destruct S as [S1 S2]. exists c, r. split; auto. split; auto. apply each_checked. exact S2.
  - destruct (u_authority u) as [a|]; [|destruct (u_scheme u); [discriminate A|reflexivity]]. rewrite !andb_true_iff in A. destruct A as [[A B] _]. split.
    + destruct (cut_last ":" a) as [[h p]|] eqn:E; [apply cut_last_spec in E; apply andb_true_iff in A; destruct A as [A1 A2]; exists h; split; [apply each_checked; auto|right; exists p; split; [apply each_checked; auto|auto]]|exists a; split; [apply each_checked; auto|auto]].
    + intros ->. cbn [empty negb orb] in B. apply andb_true_iff in B. destruct B as [B1 B2]. apply negb_true_iff, empty_false in B2. split; auto. destruct (u_scheme u); [discriminate|discriminate B1].
  - split; [apply made_checked; auto|]. intros x y. apply double_absent. exact D.
  - destruct (u_authority u) as [a|]; [|intros x y; apply colon_absent; apply negb_true_iff; exact C]. rewrite !andb_true_iff in A. destruct A as [_ A]. unfold rooted in A. apply orb_true_iff in A. destruct A as [A|A]; [left; apply empty_spec; auto|].
    right. rewrite has_prefix_slash in A. destruct (u_path u) as [|c p]; [discriminate A|]. apply Ascii.eqb_eq in A. rewrite A. eexists; reflexivity.
  - destruct (u_query u) as [q|]; auto. apply andb_true_iff in Q. destruct Q as [Q1 Q2]. apply negb_true_iff, empty_false in Q1. split; auto. apply made_checked; auto.
  - destruct (u_frag u) as [q|]; auto. apply andb_true_iff in F. destruct F as [Q1 Q2]. apply negb_true_iff, empty_false in Q1. split; auto. apply made_checked; auto.
Qed.
