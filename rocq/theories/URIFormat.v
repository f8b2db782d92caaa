(** The formats "uri", "uri-reference" and "uri-template" with net/url. *)
From Coq Require Import Lia.
From Verif Require Export ModelFormat SpecFormat FormatProps.
From Verif Require Export URLRfc SpecReference.
Open Scope string_scope.
Open Scope list_scope.
Open Scope nat_scope.

(** The libraries behind the format checkers, with net/url for f_url. *)
Definition go_url (s : string) : option (string * string) := match URL_Parse s with Some u => Some (Scheme u, Path u) | None => None end.
Definition go_fmt (mail regex : string -> bool) : fmtenv := FmtEnv mail go_url regex.

(** ** Splitting and putting together are inverse *)
Definition proper (u : uri) : Prop :=
  match u_scheme u with None => True | Some s => s <> "" /\ all_chars (none_of ":/?#") s = true end /\
  match u_authority u with None => True | Some a => all_chars (none_of "/?#") a = true end /\
  all_chars (none_of "?#") (u_path u) = true /\
  match u_authority u with
  | Some _ => u_path u = "" \/ begins_slash (u_path u)
  | None => (forall r, u_path u <> String "/" (String "/" r)) /\
            (u_scheme u = None -> forall x y, u_path u = append x (String ":" y) -> x <> "" -> all_chars (none_of ":/?#") x = true -> False)
  end /\
  match u_query u with None => True | Some q => all_chars (none_of "#") q = true end.
Lemma span_spec f s x r : span f s = (x, r) -> s = append x r /\ all_chars f x = true /\ stops f r.
Proof.
  revert x r. induction s as [|c s IH]; intros x r; cbn [span].
  - intros [= <- <-]. cbn. auto.
  - destruct (f c) eqn:E.
    + destruct (span f s) as [x' y] eqn:Es. intros [= <- <-]. destruct (IH _ _ eq_refl) as (-> & A & B). cbn [append all_chars]. rewrite E. auto.
    + intros [= <- <-]. cbn. auto.
Qed.
Lemma after_spec p s r : after p s = Some r -> s = append p r.
Proof.
  revert s. induction p as [|a p IH]; intros s; cbn [after append]; [congruence|]. destruct s as [|b s]; [discriminate|].
  destruct (Ascii.eqb_spec a b) as [->|]; [|discriminate]. intros H. rewrite <- (IH _ H). reflexivity.
Qed.
Lemma after_app p r : after p (append p r) = Some r.
Proof. induction p as [|a p IH]; cbn [append after]; [destruct r; reflexivity|]. rewrite Ascii.eqb_refl. exact IH. Qed.
Lemma colon_prefix x y p t : append x (String ":" y) = append p t -> all_chars (none_of ":/?#") x = true -> (exists p', p = append x (String ":" p')) \/ (exists x', x = append p x' /\ t = append x' (String ":" y)).
Proof.
  revert p. induction x as [|c x IH]; intros p E H.
  - destruct p as [|d p]; [right; exists ""; auto|]. injection E as <- E. left. exists p. reflexivity.
  - cbn [all_chars] in H. apply andb_true_iff in H. destruct H as [H1 H2]. destruct p as [|d p]; [right; exists (String c x); auto|].
    injection E as <- E. destruct (IH p E H2) as [[p' ->]|(x' & -> & ->)]; [left; exists p'; reflexivity|right; exists x'; auto].
Qed.
Lemma none_of_in l c : none_of l c = true <-> any_of l c = false.
Proof. induction l as [|a l IH]; cbn [none_of any_of]; [tauto|]. rewrite andb_true_iff, negb_true_iff, orb_false_iff, IH. tauto. Qed.
Lemma slashed_app a b : slashed (append a b) = (slashed a || slashed b)%bool.
Proof. rewrite !slashed_contains. apply contains_app. Qed.
Lemma none_slash l s : all_chars (none_of l) s = true -> any_of l "/"%char = true -> slashed s = false.
Proof.
  intros H L. rewrite slashed_contains. apply (not_contains (none_of l)); auto. destruct (none_of l "/") eqn:E; auto. apply none_of_in in E. congruence.
Qed.

Lemma hash_only c : none_of "#" c = false -> c = "#"%char.
Proof. revert c. each_char. Qed.
Lemma mark_only c : none_of "?#" c = false -> c = "?"%char \/ c = "#"%char.
Proof. revert c. each_char. Qed.
Lemma slash_only c : none_of "/?#" c = false -> none_of "?#" c = true -> c = "/"%char.
Proof. revert c. each_char. Qed.
Theorem split_proper s : proper (split_uri s) /\ recompose (split_uri s) = s.
Proof.
  unfold split_uri. destruct (split_scheme s) as [sc s1] eqn:E1. destruct (split_authority s1) as [au s2] eqn:E2. destruct (span (none_of "?#") s2) as [p s3] eqn:E3. destruct (split_query s3) as [q s4] eqn:E4.
  apply span_spec in E3. destruct E3 as (-> & P & S3).
  assert (Q : s3 = append (match q with Some q => append "?" q | None => "" end) s4 /\ match q with None => True | Some q => all_chars (none_of "#") q = true end /\ (s4 = "" \/ exists r, s4 = String "#" r)).
  { unfold split_query in E4. destruct (after "?" s3) as [r|] eqn:Ea.
    - apply after_spec in Ea. subst s3. destruct (span (none_of "#") r) as [x y] eqn:Es. injection E4 as <- <-. apply span_spec in Es. destruct Es as (-> & A & B). repeat split; auto.
      destruct y as [|c y]; auto. right. apply hash_only in B. subst c. eauto.
    - injection E4 as <- <-. repeat split; auto. destruct s3 as [|c s3]; auto. right. apply mark_only in S3. destruct S3 as [->| ->]; [discriminate Ea|eauto]. }
  destruct Q as (-> & Q & F). assert (Fr : s4 = match after "#" s4 with Some f => append "#" f | None => "" end) by (destruct F as [->|[r ->]]; reflexivity).
  set (t := append (match q with Some q => append "?" q | None => "" end) s4) in *.
  assert (Tt : stops (none_of "?#") t) by (unfold t; destruct q; [reflexivity|]; destruct F as [->|[r ->]]; cbn; auto).
  assert (A : s1 = append (match au with Some a => append "//" a | None => "" end) (append p t) /\ match au with None => True | Some a => all_chars (none_of "/?#") a = true end /\
              match au with Some _ => p = "" \/ begins_slash p | None => forall r, p <> String "/" (String "/" r) end).
  { unfold split_authority in E2. destruct (after "//" s1) as [r|] eqn:Ea.
    - apply after_spec in Ea. subst s1. destruct (span (none_of "/?#") r) as [x y] eqn:Es. injection E2 as <- ->. apply span_spec in Es. destruct Es as (-> & A & B). split; [cbn; reflexivity|]. split; auto.
      destruct p as [|c p]; auto. right. cbn [append stops] in B. cbn [all_chars] in P. apply andb_true_iff in P. destruct P as [P _]. rewrite (slash_only c B P). eexists; reflexivity.
    - injection E2 as <- ->. split; [reflexivity|]. split; auto. intros r ->. discriminate Ea. }
  destruct A as (-> & A & Ar).
  assert (S : s = append (match sc with Some x => append x ":" | None => "" end) (append (match au with Some a => append "//" a | None => "" end) (append p t)) /\
              match sc with None => True | Some x => x <> "" /\ all_chars (none_of ":/?#") x = true end /\
              (sc = None -> au = None -> forall x y, p = append x (String ":" y) -> x <> "" -> all_chars (none_of ":/?#") x = true -> False)).
  { unfold split_scheme in E1. destruct (span (none_of ":/?#") s) as [x r] eqn:Es.
    assert (D : (exists r', after ":" r = Some r' /\ x <> "" /\ sc = Some x /\ append (match au with Some a => append "//" a | None => "" end) (append p t) = r') \/
                (~ (x <> "" /\ exists r', after ":" r = Some r') /\ sc = None /\ append (match au with Some a => append "//" a | None => "" end) (append p t) = s)).
    { destruct (after ":" r) as [r'|]; destruct x as [|c x]; injection E1 as <- E1; [right|left|right|right].
      - split; [intros [X _]; congruence|auto].
      - exists r'. split; [reflexivity|]. split; [discriminate|auto].
      - split; [intros [X _]; congruence|auto].
      - split; [intros [_ [r' X]]; congruence|auto]. }
    destruct D as [(r' & Er & Nx & -> & D)|(D1 & -> & D2)].
    - apply after_spec in Er. apply span_spec in Es. destruct Es as (-> & X & _). rewrite D, Er. split; [rewrite append_assoc; reflexivity|]. split; [auto|discriminate].
    - split; [symmetry; exact D2|]. split; [auto|]. intros _ -> x' y -> Nx' Hx'. cbn [append] in D2. rewrite append_assoc in D2. subst s. rewrite span_app in Es by (auto; reflexivity). injection Es as <- <-.
      apply D1. split; auto. eexists. reflexivity. }
  destruct S as (-> & S & Sp). split.
  - unfold proper. cbn [u_scheme u_authority u_path u_query]. split; [exact S|]. split; [exact A|]. split; [exact P|]. split; [|exact Q]. destruct au as [a|]; [exact Ar|]. split; [exact Ar|]. intros E. apply Sp; auto.
  - unfold recompose. cbn [u_scheme u_authority u_path u_query u_frag]. rewrite <- Fr. reflexivity.
Qed.
Theorem split_of_proper u : proper u -> split_uri (recompose u) = u.
Proof.
  destruct u as [sc au p q f]. unfold proper, recompose. cbn [u_scheme u_authority u_path u_query u_frag]. intros (Hs & Ha & Hp & Hr & Hq).
  fold (tail_text q f). assert (T : forall s, s = append p (tail_text q f) -> (let '(p0, s0) := span (none_of "?#") s in let '(q0, s1) := split_query s0 in Uri sc au p0 q0 (after "#" s1)) = Uri sc au p q f).
  { intros s ->. rewrite span_app; [|exact Hp|apply tail_stops; reflexivity].
    assert (Q : split_query (tail_text q f) = (q, match f with Some f => append "#" f | None => "" end)).
    { unfold split_query, tail_text. destruct q as [q|]; [|destruct f; reflexivity]. cbn [append after]. rewrite Ascii.eqb_refl. rewrite span_app; [reflexivity|exact Hq|destruct f; cbn; auto]. }
    rewrite Q. f_equal. destruct f; reflexivity. }
  set (rest := append (match au with Some a => append "//" a | None => "" end) (append p (tail_text q f))).
  assert (S : split_scheme (append (match sc with Some s => append s ":" | None => "" end) rest) = (sc, rest)).
  { destruct sc as [s|].
    - rewrite append_assoc. destruct Hs as [Ns Hs]. unfold split_scheme. rewrite span_app; [|exact Hs|reflexivity]. cbn [append after]. rewrite Ascii.eqb_refl. destruct s; [congruence|reflexivity].
    - cbn [append]. unfold split_scheme. destruct (span (none_of ":/?#") rest) as [x r] eqn:Es. apply span_spec in Es. destruct Es as (E & X & _). destruct x as [|c x]; [reflexivity|]. destruct (after ":" r) as [r'|] eqn:Er; [|reflexivity].
      exfalso. apply after_spec in Er. subst r. unfold rest in E. destruct au as [a|].
      + cbn in E. injection E as <- _. discriminate X.
      + cbn [append] in E. change (String c (append x (String ":" r'))) with (append (String c x) (String ":" r')) in E. symmetry in E. destruct (colon_prefix _ _ _ _ E X) as [[p' ->]|(x' & Ex & Et)].
        * destruct Hr as [_ Hr]. apply (Hr eq_refl (String c x) p' eq_refl); [discriminate|exact X].
        * rewrite Ex in X. rewrite all_app in X. apply andb_true_iff in X. destruct X as [_ X]. destruct (tail_cases q f) as [Z|(d & t & Z & Hd)]; rewrite Z in Et; [destruct x'; discriminate Et|].
          destruct x' as [|d' x']; injection Et as -> Et; destruct Hd as [Hd|Hd]; try discriminate Hd; subst; discriminate X. }
  unfold split_uri. rewrite S. assert (A : split_authority rest = (au, append p (tail_text q f))).
  { unfold split_authority, rest. destruct au as [a|].
    - cbn [append after]. rewrite Ascii.eqb_refl. rewrite span_app; [reflexivity|exact Ha|]. destruct Hr as [->|[r ->]]; [|reflexivity]. apply tail_stops; reflexivity.
    - cbn [append]. destruct (after "//" (append p (tail_text q f))) eqn:E; [|reflexivity]. exfalso. destruct Hr as [Hr _]. destruct p as [|c [|c' p]].
      + cbn [append] in E. destruct (tail_cases q f) as [X|(c & t & X & [->| ->])]; rewrite X in E; discriminate E.
      + cbn [append after] in E. destruct (Ascii.eqb "/" c); [|discriminate E]. destruct (tail_cases q f) as [X|(d & t & X & [->| ->])]; rewrite X in E; discriminate E.
      + cbn [append after] in E. destruct (Ascii.eqb_spec "/" c) as [<-|]; [|discriminate E]. destruct (Ascii.eqb_spec "/" c') as [<-|]; [|discriminate E]. exact (Hr p eq_refl). }
  rewrite A. apply T. reflexivity.
Qed.

(** ** Parsing, component by component *)
Definition scheme_tail (c : ascii) : bool := (letter c || decimal c || one_of "+-." c)%bool.
Definition good_scheme (first : bool) (s : string) : bool :=
  if first then match s with EmptyString => false | String c r => (letter c && all_chars scheme_tail r)%bool end else all_chars scheme_tail s.
Lemma scheme_rest_app r sc : forall first, contains ":" sc = false -> (first = true -> sc <> "") ->
  scheme_rest first (append sc (String ":" r)) = Some (if good_scheme first sc then Some (sc, r) else None).
Proof.
  induction sc as [|c sc IH]; intros first C N.
  - destruct first; [exfalso; apply N; reflexivity|]. reflexivity.
  - cbn [contains] in C. apply orb_false_iff in C. destruct C as [C1 C2]. cbn [append scheme_rest]. rewrite C1. specialize (IH false C2). cbn [good_scheme] in IH.
    destruct first; cbn [good_scheme negb andb orb all_chars].
    + rewrite orb_false_r. destruct (letter c); [|reflexivity]. rewrite IH by discriminate. cbn [andb]. destruct (all_chars scheme_tail sc); reflexivity.
    + unfold scheme_tail at 1. rewrite orb_assoc. destruct (letter c || decimal c || one_of "+-." c)%bool; [|reflexivity]. rewrite IH by discriminate. cbn [andb]. destruct (all_chars scheme_tail sc); reflexivity.
Qed.
Lemma scheme_tail_none c : scheme_tail c = true -> none_of ":/?#" c = true /\ negb (control c) = true.
Proof. revert c. each_char. Qed.
Lemma letter_tail c : letter c = true -> scheme_tail c = true.
Proof. intros H. unfold scheme_tail. rewrite H. reflexivity. Qed.
Lemma scheme_rest_inv s : forall first,
  match scheme_rest first s with
  | None => first = true /\ exists r, s = String ":" r
  | Some None => True
  | Some (Some (x, y)) => s = append x (String ":" y) /\ all_chars (none_of ":/?#") x = true /\ (first = true -> x <> "")
  end.
Proof.
  induction s as [|c s IH]; intros first; [exact I|]. cbn [scheme_rest]. destruct (letter c || negb first && (decimal c || one_of "+-." c))%bool eqn:E.
  - assert (T : scheme_tail c = true) by (unfold scheme_tail; destruct (letter c); auto; destruct first; [discriminate E|]; cbn in *; exact E).
    specialize (IH false). destruct (scheme_rest false s) as [[[x y]|]|]; auto.
    + destruct IH as (-> & A & _). split; [reflexivity|]. split; [cbn [all_chars]; rewrite (proj1 (scheme_tail_none c T)); exact A|discriminate].
    + destruct IH as [X _]. discriminate X.
  - destruct (Ascii.eqb_spec c ":") as [->|]; [|exact I]. destruct first; [split; eauto|]. repeat split. discriminate.
Qed.

Definition no_controls (s : string) : bool := all_chars (fun c => negb (control c)) s.
Definition scan_path (u : uri) : option string :=
  match u_authority u with
  | Some a => match parseAuthority a, unescape (u_path u) encodePath with
              | Some _, Some d => Some (if (match u_scheme u with None => true | _ => false end && empty a && has_prefix "/" (u_path u))%bool then append "//" d else d)
              | _, _ => None
              end
  | None => if has_prefix "/" (u_path u) then unescape (u_path u) encodePath
            else match u_scheme u with
                 | Some _ => Some ""
                 | None => if has_prefix ":" (u_path u) then None else unescape (u_path u) encodePath
                 end
  end.
Definition scan (u : uri) : option (string * string) :=
  if negb (match u_scheme u with Some s => good_scheme true s | None => true end) then None
  else if negb (no_controls (or_empty (u_authority u)) && no_controls (u_path u) && no_controls (or_empty (u_query u))) then None
  else match scan_path u, unescape (or_empty (u_frag u)) encodeFragment with
       | Some d, Some _ => Some (lower (or_empty (u_scheme u)), d)
       | _, _ => None
       end.

Definition body (u : uri) : string :=
  append (match u_scheme u with Some s => append s ":" | None => "" end)
    (append (match u_authority u with Some a => append "//" a | None => "" end)
      (append (u_path u) (match u_query u with Some q => append "?" q | None => "" end))).
Lemma recompose_body u : recompose u = append (body u) (match u_frag u with Some f => append "#" f | None => "" end).
Proof. unfold recompose, body. rewrite !append_assoc. reflexivity. Qed.
Lemma none_contains l c s : none_of l c = false -> all_chars (none_of l) s = true -> contains c s = false.
Proof. intros. apply (not_contains (none_of l)); auto. Qed.
Lemma none_weaken l l' s : (forall c, none_of l c = true -> none_of l' c = true) -> all_chars (none_of l) s = true -> all_chars (none_of l') s = true.
Proof. intros H. apply all_impl. exact H. Qed.
Lemma body_hash u : proper u -> contains "#" (body u) = false.
Proof.
  destruct u as [sc au p q f]. unfold proper, body. cbn [u_scheme u_authority u_path u_query u_frag]. intros (Hs & Ha & Hp & _ & Hq). rewrite !contains_app.
  assert (A : contains "#" (match sc with Some s => append s ":" | None => "" end) = false) by (destruct sc; [|reflexivity]; rewrite contains_app; destruct Hs as [_ Hs]; rewrite (none_contains _ _ _ (eq_refl : none_of ":/?#" "#" = false) Hs); reflexivity).
  assert (B : contains "#" (match au with Some a => append "//" a | None => "" end) = false) by (destruct au; [|reflexivity]; cbn; apply (none_contains "/?#"); auto).
  assert (C : contains "#" (match q with Some a => append "?" a | None => "" end) = false) by (destruct q; [|reflexivity]; cbn; apply (none_contains "#"); auto).
  rewrite A, B, C. rewrite (none_contains "?#" "#" p); auto.
Qed.
Definition nofrag_url (u : uri) : option (string * string) :=
  if negb (match u_scheme u with Some s => good_scheme true s | None => true end) then None
  else if negb (no_controls (or_empty (u_authority u)) && no_controls (u_path u) && no_controls (or_empty (u_query u))) then None
  else match scan_path u with Some d => Some (lower (or_empty (u_scheme u)), d) | None => None end.
Definition both (x : option url) : option (string * string) := match x with Some u => Some (Scheme u, Path u) | None => None end.
Lemma no_controls_app a b : no_controls (append a b) = (no_controls a && no_controls b)%bool.
Proof. apply all_app. Qed.
Lemma good_scheme_controls s : good_scheme true s = true -> no_controls s = true /\ s <> "".
Proof.
  destruct s as [|c s]; [discriminate|]. cbn [good_scheme]. rewrite andb_true_iff. intros [A B]. split; [|discriminate]. unfold no_controls. cbn [all_chars]. rewrite (proj2 (scheme_tail_none c (letter_tail c A))).
  eapply all_impl; [|exact B]. intros x Hx. apply scheme_tail_none. exact Hx.
Qed.
Lemma cut_fst c s : fst (fst (cut c s)) = fst (span (fun x => negb (Ascii.eqb x c)) s).
Proof. induction s as [|a s IH]; [reflexivity|]. cbn [cut span]. destruct (Ascii.eqb a c); [reflexivity|]. cbn [negb]. destruct (cut c s) as [[x y] b]. destruct (span _ s) as [x' y']. cbn in *. congruence. Qed.
Lemma cut_query p q : contains "?" p = false -> fst (fst (cut "?" (append p (match q with Some q => append "?" q | None => "" end)))) = p.
Proof. intros H. destruct q as [q|]; [cbn [append]; rewrite (cut_app "?" p q H); reflexivity|]. rewrite append_nil, (cut_none "?" p H). reflexivity. Qed.
Lemma lower_empty s : s <> "" -> String.eqb (lower s) "" = false.
Proof. destruct s; [congruence|reflexivity]. Qed.
Definition hier (sc P : string) : option string :=
  if has_prefix "/" P then
    if ((negb (String.eqb sc "") || negb (has_prefix "///" P)) && has_prefix "//" P)%bool then
      match P with
      | String _ (String _ r) =>
          let '(auth, after, slash) := cut "/" r in
          match parseAuthority auth with
          | None => None
          | Some _ => unescape (if slash then String "/" after else "") encodePath
          end
      | _ => None
      end
    else unescape P encodePath
  else if negb (String.eqb sc "") then Some ""
  else if contains ":" (fst (fst (cut "/" P))) then None
  else unescape P encodePath.
Lemma nofrag_hier s : s <> "*" -> both (parse_nofrag s) =
  if negb (no_controls s) then None
  else match getScheme s with
       | None => None
       | Some (scheme, rest) => match hier (lower scheme) (fst (fst (cut "?" rest))) with Some d => Some (lower scheme, d) | None => None end
       end.
Proof.
  intros N. unfold parse_nofrag, no_controls. destruct (all_chars _ s); [|reflexivity]. cbn [negb]. destruct (String.eqb_spec s "*"); [contradiction|]. destruct (getScheme s) as [[scheme rest]|]; [|reflexivity].
  assert (F : forall P query force,
    both (if has_prefix "/" P then
          if ((negb (String.eqb (lower scheme) "") || negb (has_prefix "///" P)) && has_prefix "//" P)%bool then
            match P with
            | String _ (String _ r) =>
                let '(auth, after, slash) := cut "/" r in
                match parseAuthority auth with
                | None => None
                | Some (user, host) => match setPath (if slash then String "/" after else "") with
          | None => None
          | Some p => Some (Url (lower scheme) "" user host (fst p) (snd p) false force query "" "")
          end
                end
            | _ => None
            end
          else match setPath P with
          | None => None
          | Some p => Some (Url (lower scheme) "" None "" (fst p) (snd p) (negb (String.eqb (lower scheme) "")) force query "" "")
          end
        else if negb (String.eqb (lower scheme) "") then Some (Url (lower scheme) P None "" "" "" false force query "" "")
        else if contains ":" (fst (fst (cut "/" P))) then None
        else match setPath P with
          | None => None
          | Some p => Some (Url (lower scheme) "" None "" (fst p) (snd p) false force query "" "")
          end) = match hier (lower scheme) P with Some d => Some (lower scheme, d) | None => None end).
  { intros P query force. unfold hier, setPath. destruct (has_prefix "/" P).
    - destruct (_ && _)%bool.
      + destruct P as [|a [|b r]]; try reflexivity. destruct (cut "/" r) as [[auth after] slash]. destruct (parseAuthority auth) as [[user host]|]; [|reflexivity]. destruct (unescape _ encodePath); reflexivity.
      + destruct (unescape _ encodePath); reflexivity.
    - destruct (negb _); [reflexivity|]. destruct (contains _ _); [reflexivity|]. destruct (unescape _ encodePath); reflexivity. }
  destruct (ends_with_mark rest && Nat.eqb (count "?" rest) 1)%bool; apply F.
Qed.
Lemma hier_scheme sc sc' P : String.eqb sc "" = String.eqb sc' "" -> hier sc P = hier sc' P.
Proof. intros E. unfold hier. rewrite E. reflexivity. Qed.
Lemma prefix2 P : has_prefix "//" P = match P with String a (String b _) => (Ascii.eqb a "/" && Ascii.eqb b "/")%bool | _ => false end.
Proof.
  unfold has_prefix. destruct P as [|a [|b P]]; cbn [prefix]; [reflexivity|destruct (ascii_dec "/" a); reflexivity|].
  destruct (ascii_dec "/" a) as [<-|N]; [|destruct (Ascii.eqb_spec a "/"); [congruence|reflexivity]]. rewrite Ascii.eqb_refl. destruct (ascii_dec "/" b) as [<-|N]; [destruct P; reflexivity|destruct (Ascii.eqb_spec b "/"); [congruence|reflexivity]].
Qed.
Lemma prefix3 P : has_prefix "///" (String "/" (String "/" P)) = has_prefix "/" P.
Proof. reflexivity. Qed.
Lemma colon_first P : has_prefix ":" P = match P with String a _ => Ascii.eqb a ":" | _ => false end.
Proof. unfold has_prefix. destruct P as [|a P]; [reflexivity|]. cbn [prefix]. destruct (ascii_dec ":" a) as [<-|N]; [destruct P; reflexivity|]. destruct (Ascii.eqb_spec a ":"); congruence. Qed.
(** In a proper reference without scheme and authority the first segment has a colon only at its head. *)
Lemma first_segment_colon p : all_chars (none_of "?#") p = true ->
  (forall x y, p = append x (String ":" y) -> x <> "" -> all_chars (none_of ":/?#") x = true -> False) ->
  contains ":" (fst (fst (cut "/" p))) = has_prefix ":" p.
Proof.
  intros Hp H. rewrite colon_first. destruct p as [|c p]; [reflexivity|]. cbn [cut]. destruct (Ascii.eqb_spec c "/") as [->|N]; [reflexivity|].
  destruct (cut "/" p) as [[x y] b] eqn:Ec. cbn [fst contains]. destruct (Ascii.eqb_spec c ":") as [->|N']; [reflexivity|]. cbn [orb].
  destruct (contains ":" x) eqn:Ex; [exfalso|reflexivity].
  assert (G : forall p x y b, cut "/" p = (x, y, b) -> contains ":" x = true -> all_chars (none_of "?#") p = true -> exists v w, p = append v (String ":" w) /\ all_chars (none_of ":/?#") v = true).
  { clear. induction p as [|d p IH]; intros x y b E C P.
    - injection E as <- <- <-. discriminate C.
    - cbn [cut] in E. cbn [all_chars] in P. apply andb_true_iff in P. destruct P as [P1 P2]. destruct (Ascii.eqb_spec d "/") as [->|N]; [injection E as <- <- <-; discriminate C|].
      destruct (cut "/" p) as [[x' y'] b'] eqn:Ec. injection E as <- <- <-. cbn [contains] in C. destruct (Ascii.eqb_spec d ":") as [->|N']; [exists "", p; auto|]. cbn [orb] in C.
      destruct (IH _ _ _ eq_refl C P2) as (v & w & -> & V). exists (String d v), w. split; [reflexivity|]. cbn [all_chars]. rewrite V, andb_true_r. clear -P1 N N'.
      cbn [none_of] in *. rewrite !andb_true_iff, !negb_true_iff in *. rewrite !Ascii.eqb_neq. rewrite !Ascii.eqb_neq in P1. intuition congruence. }
  cbn [all_chars] in Hp. apply andb_true_iff in Hp. destruct Hp as [Hc Hp]. destruct (G _ _ _ _ Ec Ex Hp) as (v & w & -> & V). apply (H (String c v) w eq_refl); [discriminate|]. cbn [all_chars]. rewrite V, andb_true_r. clear -Hc N N'.
  cbn [none_of] in *. rewrite !andb_true_iff, !negb_true_iff in *. rewrite !Ascii.eqb_neq. rewrite !Ascii.eqb_neq in Hc. intuition congruence.
Qed.
Definition hier_text (u : uri) : string := append (match u_authority u with Some a => append "//" a | None => "" end) (u_path u).
Lemma hier_scan u : proper u -> hier (or_empty (u_scheme u)) (hier_text u) = scan_path u.
Proof.
  destruct u as [sc au p q f]. unfold proper, hier_text, scan_path. cbn [u_scheme u_authority u_path u_query u_frag]. intros (Hs & Ha & Hp & Hr & _).
  assert (S : negb (String.eqb (or_empty sc) "") = match sc with Some _ => true | None => false end) by (destruct sc as [s|]; [destruct Hs as [Hs _]; destruct s; [congruence|reflexivity]|reflexivity]).
  unfold hier. rewrite S. destruct au as [a|].
  - cbn [append]. rewrite has_prefix_slash, prefix2, prefix3, Ascii.eqb_refl. cbn [andb]. rewrite andb_true_r.
    assert (F : forall (k : option string), (let '(auth, after, slash) := cut "/" (append a p) in match parseAuthority auth with None => None | Some _ => unescape (if slash then String "/" after else "") encodePath end) = match parseAuthority a with None => None | Some _ => unescape p encodePath end).
    { intros _. assert (Ca : contains "/" a = false) by (apply (none_contains "/?#"); auto). destruct Hr as [->|[r ->]]; [rewrite append_nil, cut_none by auto|rewrite cut_app by auto]; reflexivity. }
    destruct sc as [s|]; cbn [orb andb].
    + rewrite (F None). destruct (parseAuthority a); [|reflexivity]. destruct (unescape p encodePath); reflexivity.
    + destruct a as [|c a].
      * cbn [append empty andb]. destruct (has_prefix "/" p) eqn:Ep; cbn [negb].
        -- change (parseAuthority "") with (Some (@None userinfo, "")). cbv iota beta. rewrite !unescape_char by reflexivity. cbn [host_mode andb]. destruct (unescape p encodePath); reflexivity.
        -- specialize (F None). cbn [append] in F. rewrite F. destruct (parseAuthority ""); [|reflexivity]. destruct (unescape p encodePath); reflexivity.
      * assert (Ep : has_prefix "/" (append (String c a) p) = false).
        { cbn [append]. rewrite has_prefix_slash. cbn [all_chars] in Ha. apply andb_true_iff in Ha. destruct Ha as [Ha _]. destruct (Ascii.eqb_spec c "/") as [->|]; [discriminate Ha|reflexivity]. }
        rewrite Ep. cbn [negb]. rewrite (F None). cbn [empty andb]. destruct (parseAuthority _); [|reflexivity]. destruct (unescape p encodePath); reflexivity.
  - cbn [append]. destruct Hr as [Hr1 Hr2]. destruct (has_prefix "/" p) eqn:Ep.
    + assert (E2 : has_prefix "//" p = false).
      { rewrite prefix2. destruct p as [|c [|d p]]; auto. destruct (Ascii.eqb_spec c "/") as [->|]; [|reflexivity]. destruct (Ascii.eqb_spec d "/") as [->|]; [|reflexivity]. exfalso. apply (Hr1 p). reflexivity. }
      rewrite E2, andb_false_r. reflexivity.
    + destruct sc as [s|]; [reflexivity|]. rewrite first_segment_colon by (auto; exact (Hr2 eq_refl)). reflexivity.
Qed.
Lemma body_hier u : body u = append (match u_scheme u with Some s => append s ":" | None => "" end) (append (hier_text u) (match u_query u with Some q => append "?" q | None => "" end)).
Proof. unfold body, hier_text. rewrite !append_assoc. reflexivity. Qed.
Lemma hier_mark u : proper u -> contains "?" (hier_text u) = false.
Proof.
  destruct u as [sc au p q f]. unfold proper, hier_text. cbn [u_scheme u_authority u_path u_query u_frag]. intros (_ & Ha & Hp & _). rewrite contains_app, (none_contains "?#" "?" p) by auto. rewrite orb_false_r.
  destruct au as [a|]; [|reflexivity]. cbn. apply (none_contains "/?#"); auto.
Qed.
Lemma body_controls u : no_controls (body u) = (no_controls (match u_scheme u with Some s => s | None => "" end) && (no_controls (or_empty (u_authority u)) && no_controls (u_path u) && no_controls (or_empty (u_query u))))%bool.
Proof.
  unfold body. rewrite !no_controls_app. assert (A : no_controls (match u_scheme u with Some s => append s ":" | None => "" end) = no_controls (match u_scheme u with Some s => s | None => "" end)) by (destruct (u_scheme u); [|reflexivity]; rewrite no_controls_app; apply andb_true_r).
  assert (B : no_controls (match u_authority u with Some s => append "//" s | None => "" end) = no_controls (or_empty (u_authority u))) by (destruct (u_authority u); reflexivity).
  assert (C : no_controls (match u_query u with Some s => append "?" s | None => "" end) = no_controls (or_empty (u_query u))) by (destruct (u_query u); reflexivity).
  rewrite A, B, C, !andb_assoc. reflexivity.
Qed.
Lemma nofrag_scan u : proper u -> both (parse_nofrag (body u)) = nofrag_url u.
Proof.
  intros P. destruct (String.eqb_spec (body u) "*") as [E|N].
  { rewrite E. destruct u as [sc au p q f]. unfold proper, body in *. cbn [u_scheme u_authority u_path u_query u_frag] in *. destruct P as (Hs & _ & _ & _ & _). destruct sc as [[|c s]|]; [destruct Hs; congruence| |].
    - exfalso. cbn in E. injection E as _ E. destruct s; discriminate E.
    - destruct au as [a|]; [discriminate E|]. cbn [append] in E. destruct p as [|c p]; [destruct q; discriminate E|]. injection E as -> E. destruct p; [|discriminate E]. destruct q; [discriminate E|]. reflexivity. }
  rewrite nofrag_hier by auto. unfold nofrag_url. rewrite body_controls. set (ctl := (no_controls (or_empty (u_authority u)) && _ && _)%bool). rewrite body_hier. pose proof (hier_mark u P) as M. pose proof (hier_scan u P) as H.
  assert (Ps := proj1 P). destruct (u_scheme u) as [s|] eqn:Es; cbn [or_empty] in *.
  - destruct Ps as [Ns Hs]. unfold getScheme. rewrite append_assoc. cbn [append]. rewrite scheme_rest_app; [|apply (none_contains ":/?#"); auto|auto]. destruct (good_scheme true s) eqn:G; cbn [negb].
    + destruct (good_scheme_controls s G) as [-> _]. cbn [andb]. destruct (negb ctl); [reflexivity|]. rewrite cut_query by auto. rewrite (hier_scheme (lower s) s) by (destruct s; reflexivity). rewrite H. reflexivity.
    + match goal with |- (if ?b then None else ?r) = None => assert (R : r = None); [|rewrite R; destruct b; reflexivity] end.
      assert (X : hier (lower "") (fst (fst (cut "?" (append s (String ":" (append (hier_text u) (match u_query u with Some q => append "?" q | None => "" end))))))) = None); [|cbn [append] in X |- *; rewrite X; reflexivity].
      change (String ":" (append (hier_text u) (match u_query u with Some q => append "?" q | None => "" end))) with (append (append ":" (hier_text u)) (match u_query u with Some q => append "?" q | None => "" end)).
      rewrite <- append_assoc, cut_query by (rewrite contains_app, (none_contains ":/?#" "?" s) by auto; cbn; exact M).
      destruct s as [|c s]; [congruence|]. unfold hier. assert (Nc : Ascii.eqb c "/" = false) by (cbn [all_chars] in Hs; apply andb_true_iff in Hs; destruct Hs as [Hs _]; destruct (Ascii.eqb_spec c "/") as [->|]; [discriminate Hs|reflexivity]).
      cbn [append]. rewrite has_prefix_slash, Nc. cbn [lower String.eqb negb].
      assert (K : contains ":" (fst (fst (cut "/" (String c (append s (String ":" (hier_text u))))))) = true); [|rewrite K; reflexivity].
      change (String c (append s (String ":" (hier_text u)))) with (append (String c s) (String ":" (hier_text u))). pose proof (none_contains ":/?#" "/" _ eq_refl Hs) as Cs. revert Cs. generalize (String c s). clear.
      induction s as [|c s IH]; intros C; cbn [append cut].
      * cbn [Ascii.eqb]. change (Ascii.eqb ":" "/") with false. cbv iota. destruct (cut "/" (hier_text u)) as [[x y] b]. reflexivity.
      * cbn [contains] in C. apply orb_false_iff in C. destruct C as [C1 C2]. rewrite C1. specialize (IH C2). destruct (cut "/" (append s _)) as [[x y] b]. cbn [fst contains] in *. rewrite IH. apply orb_true_r.
  - cbn [append negb andb]. change (no_controls "") with true. cbn [andb]. destruct (negb ctl); [reflexivity|]. unfold getScheme. set (t := append (hier_text u) _). pose proof (scheme_rest_inv t true) as I. destruct (scheme_rest true t) as [[[x y]|]|].
    + exfalso. destruct I as (E & X & Nx). specialize (Nx eq_refl). destruct u as [sc au p q f]. unfold proper, hier_text in *. cbn [u_scheme u_authority u_path u_query u_frag] in *. destruct P as (_ & _ & _ & Pr & _). unfold t in E. destruct au as [a|].
      * destruct x as [|c x]; [congruence|]. cbn in E. injection E as <- _. discriminate X.
      * cbn [append] in E. destruct Pr as [_ Pr]. symmetry in E. destruct (colon_prefix _ _ _ _ E X) as [[p' ->]|(x' & Ex & Et)]; [apply (Pr Es x p' eq_refl); auto|].
        rewrite Ex, all_app in X. apply andb_true_iff in X. destruct X as [_ X]. destruct q as [q|]; [|destruct x'; discriminate Et]. destruct x' as [|d x']; [discriminate Et|]. injection Et as <- _. discriminate X.
    + unfold t. rewrite cut_query by auto. cbn [lower]. rewrite H. reflexivity.
    + destruct I as [_ [r E]]. assert (X : scan_path u = None); [|rewrite X; reflexivity]. destruct u as [sc au p q f]. unfold hier_text, scan_path in *. cbn [u_scheme u_authority u_path u_query u_frag] in *. subst sc. unfold t in E. destruct au as [a|]; [discriminate E|]. cbn [append] in E.
      destruct p as [|c p]; [destruct q; discriminate E|]. injection E as -> _. rewrite has_prefix_slash, colon_first. reflexivity.
Qed.
Theorem go_url_scan s : go_url s = scan (split_uri s).
Proof.
  destruct (split_proper s) as [P E]. rewrite <- E at 1. set (u := split_uri s) in *. rewrite recompose_body. unfold go_url, URL_Parse.
  assert (C : exists y, cut "#" (append (body u) (match u_frag u with Some f => append "#" f | None => "" end)) = (body u, or_empty (u_frag u), y)).
  { pose proof (body_hash u P). destruct (u_frag u) as [f|]; cbn [append]; [rewrite cut_app by auto|rewrite append_nil, cut_none by auto]; eauto. }
  destruct C as [y C]. rewrite C. pose proof (nofrag_scan u P) as S. unfold scan. unfold nofrag_url in S. revert S. destruct (parse_nofrag (body u)) as [x|]; cbn [both].
  - destruct (negb (match u_scheme u with Some s => good_scheme true s | None => true end)); [discriminate|]. destruct (negb _); [discriminate|]. destruct (scan_path u) as [d|]; [|discriminate]. intros [= E1 E2].
    rewrite eqb_empty. destruct (empty (or_empty (u_frag u))) eqn:Ef; [apply empty_spec in Ef; rewrite Ef; cbn [unescape]; congruence|]. unfold setFragment. destruct (unescape (or_empty (u_frag u)) encodeFragment); [cbn; congruence|reflexivity].
  - destruct (negb (match u_scheme u with Some s => good_scheme true s | None => true end)); [reflexivity|]. destruct (negb _); [reflexivity|]. destruct (scan_path u) as [d|]; [discriminate|reflexivity].
Qed.

(** ** The components, as net/url wants them *)
Lemma each_iff f g s : (forall c, f c = g c) -> each f s <-> all_chars g s = true.
Proof.
  intros H. split; [apply each_all; intros c; rewrite H; auto|]. induction s as [|c s IH]; [constructor|]. cbn [all_chars]. rewrite andb_true_iff. intros [A B]. constructor; auto. rewrite H. exact A.
Qed.
Lemma good_scheme_iff s : good_scheme true s = true <-> uri_scheme s.
Proof.
  destruct s as [|c s]; cbn [good_scheme]; [split; [discriminate|intros (c & r & E & _); discriminate E]|]. rewrite andb_true_iff. split.
  - intros [A B]. exists c, s. repeat split; auto. apply (each_iff _ scheme_tail); auto.
  - intros (c' & r & [= <- <-] & A & B). split; [exact A|]. apply (each_iff _ scheme_tail) in B; auto.
Qed.
Lemma not_control_char c : not_control c = negb (control c).
Proof. revert c. each_char. Qed.
Lemma controls_iff s : no_controls s = true <-> each not_control s.
Proof. symmetry. apply each_iff. apply not_control_char. Qed.
Lemma made_encoded_iff s : made_of anything s <-> encoded s.
Proof.
  split; [apply made_encoded; reflexivity|]. induction 1 as [|c s Hc _ IH|a b s Ha Hb _ IH]; [constructor|apply made_char; auto; unfold anything; rewrite Hc; reflexivity|apply made_octet; auto].
Qed.
Lemma unescape_some s m : free_mode m = true -> m <> encodeQueryComponent -> made_of anything s -> unescape s m = Some (percent_decode s).
Proof. intros A B H. apply (decode_made anything); auto. congruence. Qed.
Lemma unescape_none s m : free_mode m = true -> unescape s m = None -> ~ made_of anything s.
Proof. intros A B H. apply made_encoded_iff, (encoded_unescape s m A) in H. destruct H as [d H]. congruence. Qed.

Lemma lacks_iff c s : lacks c s <-> contains c s = false.
Proof.
  split.
  - intros H. induction s as [|a s IH]; [reflexivity|]. cbn [contains]. destruct (Ascii.eqb_spec a c) as [->|N]; [exfalso; apply (H "" s); reflexivity|]. apply IH. intros x y ->. apply (H (String a x) y). reflexivity.
  - intros H x y ->. rewrite contains_app in H. cbn [contains] in H. rewrite Ascii.eqb_refl, orb_true_r in H. discriminate H.
Qed.
Lemma cut_last_cases c s : match cut_last c s with Some (x, y) => s = append x (String c y) /\ contains c y = false | None => contains c s = false end.
Proof.
  induction s as [|a s IH]; [reflexivity|]. cbn [cut_last]. destruct (cut_last c s) as [[x y]|].
  - destruct IH as [-> H]. auto.
  - destruct (Ascii.eqb_spec a c) as [->|N]; [auto|]. cbn [contains]. rewrite IH, orb_false_r. apply Ascii.eqb_neq. exact N.
Qed.
Lemma cut_last_at c x y : contains c y = false -> cut_last c (append x (String c y)) = Some (x, y).
Proof. intros H. rewrite (cut_last_app c x (String c y) "" y); [rewrite append_nil; reflexivity|]. cbn [cut_last]. rewrite cut_last_none, Ascii.eqb_refl by auto. reflexivity. Qed.

Definition octet_refused (m : encoding) (a b : ascii) : bool :=
  let v := ascii_of_nat (unhex a * 16 + unhex b) in
  let percent := (Ascii.eqb a "2" && Ascii.eqb b "5")%bool in
  match m with
  | encodeHost => (Nat.ltb (unhex a) 8 && negb percent)%bool
  | encodeZone => (negb percent && negb (Ascii.eqb v " ") && shouldEscape v encodeHost)%bool
  | _ => false
  end.
Lemma unescape_octet a b s m : unescape (String "%" (String a (String b s))) m =
  if (is_hex_digit a && is_hex_digit b && negb (octet_refused m a b))%bool then match unescape s m with Some t => Some (String (ascii_of_nat (unhex a * 16 + unhex b)) t) | None => None end else None.
Proof.
  cbn [unescape]. destruct (is_hex_digit a && is_hex_digit b)%bool; [|reflexivity]. unfold octet_refused. cbn [negb andb]. cbv zeta. destruct (match m with encodeHost => _ | _ => _ end); reflexivity.
Qed.
Lemma spelled_unescape m f g s :
  (forall c, c <> "%"%char -> f c = negb (host_mode m && Nat.ltb (code c) 128 && shouldEscape c m)) ->
  (forall a b, hex a = true -> hex b = true -> g a b = negb (octet_refused m a b)) ->
  unescape s m <> None <-> spelled f g s.
Proof.
  intros Hf Hg. split.
  - assert (P : forall n s, String.length s < n -> unescape s m <> None -> spelled f g s); [|apply (P (S (String.length s)) s); lia].
    clear s. induction n as [|n IH]; intros s Hn E; [lia|]. destruct s as [|c s]; [constructor|]. cbn [String.length] in Hn.
    destruct (Ascii.eqb_spec c "%") as [->|N].
    + destruct s as [|a [|b s]]; try (exfalso; apply E; reflexivity). rewrite unescape_octet in E. cbn [String.length] in Hn.
      destruct (is_hex_digit a) eqn:Ea; [|exfalso; apply E; reflexivity]. destruct (is_hex_digit b) eqn:Eb; [|exfalso; apply E; reflexivity]. cbn [andb] in E. destruct (octet_refused m a b) eqn:O; cbn [negb] in E; [congruence|].
      apply spelled_octet; auto; [rewrite Hg by auto; rewrite O; reflexivity|]. apply IH; [lia|]. destruct (unescape s m); [discriminate|congruence].
    + rewrite unescape_char in E by (apply Ascii.eqb_neq; exact N). destruct (host_mode m && _ && _)%bool eqn:H; [congruence|]. apply spelled_char; auto; [rewrite Hf by auto; rewrite H; reflexivity|]. apply IH; [lia|]. destruct (unescape s m); [discriminate|congruence].
  - induction 1 as [|c s Hc N _ IH|a b s Ha Hb Hab _ IH]; [discriminate| |].
    + rewrite unescape_char by (apply Ascii.eqb_neq; exact N). rewrite Hf in Hc by auto. apply negb_true_iff in Hc. rewrite Hc. destruct (unescape s m); [discriminate|congruence].
    + rewrite unescape_octet. rewrite hex_is in Ha, Hb. rewrite Ha, Hb. cbn [andb]. rewrite Hg in Hab by auto. rewrite Hab. destruct (unescape s m); [discriminate|congruence].
Qed.
Lemma loose_host_char_ok m c : host_mode m = true -> c <> "%"%char -> loose_host_char c = negb (host_mode m && Nat.ltb (code c) 128 && shouldEscape c m).
Proof. intros H. destruct m; try discriminate H; destruct c as [[] [] [] [] [] [] [] []]; intros N; try reflexivity; exfalso; apply N; reflexivity. Qed.
Lemma escape_host v : shouldEscape v encodeHost = negb (reg_char v || host_punctuation v).
Proof. revert v. each_char. Qed.
Lemma high_octet_ok a b : hex a = true -> hex b = true -> high_octet a b = negb (octet_refused encodeHost a b).
Proof.
  intros Ha Hb. unfold high_octet, octet_refused, percent_25. rewrite hex_value_unhex by auto. rewrite negb_andb, negb_involutive. f_equal. destruct (Nat.leb_spec 8 (unhex a)), (Nat.ltb_spec (unhex a) 8); try reflexivity; lia.
Qed.
Lemma zone_octet_ok a b : hex a = true -> hex b = true -> zone_octet a b = negb (octet_refused encodeZone a b).
Proof.
  intros Ha Hb. unfold zone_octet, octet_refused, percent_25. rewrite !hex_value_unhex by auto. cbv zeta. rewrite escape_host. destruct (Ascii.eqb a "2" && Ascii.eqb b "5")%bool; [reflexivity|]. cbn [negb andb orb]. rewrite negb_andb, !negb_involutive, orb_assoc. reflexivity.
Qed.
Lemma host_unescape s : unescape s encodeHost <> None <-> spelled loose_host_char high_octet s.
Proof. apply spelled_unescape; [intros c; apply (loose_host_char_ok encodeHost); reflexivity|apply high_octet_ok]. Qed.
Lemma zone_unescape s : unescape s encodeZone <> None <-> spelled loose_host_char zone_octet s.
Proof. apply spelled_unescape; [intros c; apply (loose_host_char_ok encodeZone); reflexivity|apply zone_octet_ok]. Qed.
Lemma spelled_split f g c x y : f c = true -> c <> "%"%char -> hex c = false -> spelled f g (append x (String c y)) <-> spelled f g x /\ spelled f g y.
Proof.
  intros Hf N Hh. split.
  - remember (append x (String c y)) as s eqn:E. intros H. revert x E. induction H as [|d s Hd Nd H IH|a b s Ha Hb Hab H IH]; intros x E.
    + destruct x; discriminate E.
    + destruct x as [|c' x]; cbn [append] in E; injection E as -> E; [subst; split; [constructor|auto]|]. destruct (IH x E). split; auto. apply spelled_char; auto.
    + destruct x as [|c1 x]; cbn [append] in E; [injection E as E _; congruence|]. injection E as <- E. destruct x as [|c2 x]; cbn [append] in E; injection E as -> E; [congruence|].
      destruct x as [|c3 x]; cbn [append] in E; injection E as -> E; [congruence|]. destruct (IH x E). split; auto. apply spelled_octet; auto.
  - intros [H1 H2]. induction H1; cbn [append]; [apply spelled_char; auto|apply spelled_char; auto|apply spelled_octet; auto].
Qed.
Lemma find_25_cases s : match find_25 s with
  | Some (x, y) => s = append x y /\ (exists z, y = append "%25" z) /\ forall v w, x <> append v (append "%25" w)
  | None => forall v w, s <> append v (append "%25" w)
  end.
Proof.
  assert (Pre : forall s, has_prefix "%25" s = true <-> exists z, s = append "%25" z).
  { clear. intros s. unfold has_prefix. split.
    - destruct s as [|a [|b [|c s]]]; cbn [prefix]; intros H; try discriminate H.
      + destruct (ascii_dec "%" a); discriminate H.
      + destruct (ascii_dec "%" a); [|discriminate H]. destruct (ascii_dec "2" b); discriminate H.
      + destruct (ascii_dec "%" a) as [<-|]; [|discriminate H]. destruct (ascii_dec "2" b) as [<-|]; [|discriminate H]. destruct (ascii_dec "5" c) as [<-|]; [|discriminate H]. exists s. reflexivity.
    - intros [z ->]. destruct z; reflexivity. }
  induction s as [|c s IH].
  - cbn. intros v w E. destruct v; discriminate E.
  - cbn [find_25]. destruct (has_prefix "%25" (String c s)) eqn:H.
    + split; [reflexivity|]. split; [apply Pre; exact H|]. intros v w E. destruct v; discriminate E.
    + destruct (find_25 s) as [[x y]|].
      * destruct IH as (-> & [z ->] & IH). split; [reflexivity|]. split; [eauto|]. intros v w E. destruct v as [|d v].
        -- cbn [append] in E. injection E as -> E. assert (X : has_prefix "%25" (String "%" (append x (append "%25" z))) = true); [|congruence]. apply Pre. rewrite E. exists (append w (append "%25" z)). reflexivity.
        -- injection E as -> E. exact (IH v w E).
      * intros v w E. destruct v as [|d v].
        -- assert (X : has_prefix "%25" (String c s) = true) by (apply Pre; exists w; exact E). congruence.
        -- injection E as -> E. exact (IH v w E).
Qed.
Lemma find_25_bracket s : find_25 (String "[" s) = match find_25 s with Some (x, y) => Some (String "[" x, y) | None => None end.
Proof. reflexivity. Qed.
Lemma numeral_iff s : each numeral s <-> all_chars decimal s = true.
Proof. apply each_iff. reflexivity. Qed.
Lemma port_iff p : validOptionalPort p = true <-> p = "" \/ exists d, p = String ":" d /\ each numeral d.
Proof.
  destruct p as [|c p]; cbn [validOptionalPort]; [split; auto|]. rewrite andb_true_iff, Ascii.eqb_eq, <- numeral_iff. split; [intros [-> H]; right; eauto|]. intros [H|(d & [= -> ->] & H)]; [discriminate H|auto].
Qed.
Lemma port_spelled p : (p = "" \/ exists d, p = String ":" d /\ each numeral d) -> spelled loose_host_char high_octet p /\ contains "]" p = false.
Proof.
  assert (N : forall c, numeral c = true -> loose_host_char c = true /\ c <> "%"%char /\ Ascii.eqb c "]" = false) by (intros c; destruct c as [[] [] [] [] [] [] [] []]; vm_compute; intros H; try discriminate H; repeat split; discriminate).
  intros [->|(d & -> & H)]; [split; [constructor|reflexivity]|].
  assert (G : spelled loose_host_char high_octet d /\ contains "]" d = false).
  { induction H as [|c d Hc _ [IH1 IH2]]; [split; [constructor|reflexivity]|]. destruct (N c Hc) as (A & B & C). split; [apply spelled_char; auto|]. cbn [contains]. rewrite C, IH2. reflexivity. }
  destruct G as [G1 G2]. split; [apply spelled_char; [reflexivity|discriminate|exact G1]|]. exact G2.
Qed.
Lemma bracket_spelled a p : spelled loose_host_char high_octet p -> spelled loose_host_char high_octet (String "[" (append a (String "]" p))) <-> spelled loose_host_char high_octet a.
Proof.
  intros Hp. change (String "[" (append a (String "]" p))) with (append "" (String "[" (append a (String "]" p)))). rewrite spelled_split by (try reflexivity; discriminate). rewrite spelled_split by (try reflexivity; discriminate).
  split; [tauto|]. intros H. split; [constructor|auto].
Qed.
Lemma parseHost_iff h : parseHost h <> None <-> loose_host h.
Proof.
  unfold parseHost, loose_host. destruct (has_prefix "[" h) eqn:Eb.
  - assert (B : exists r, h = String "[" r) by (unfold has_prefix in Eb; destruct h as [|c r]; [discriminate Eb|]; cbn [prefix] in Eb; destruct (ascii_dec "[" c) as [<-|]; [eauto|discriminate Eb]). clear Eb. destruct B as [r ->].
    pose proof (cut_last_cases "]" (String "[" r)) as C. destruct (cut_last "]" (String "[" r)) as [[addr port]|].
    2:{ split; [congruence|]. intros [[N _]|(a & p & E & _)]; [exfalso; apply N; eauto|]. injection E as ->. exfalso. cbn [contains] in C. rewrite contains_app in C. cbn [contains] in C. rewrite Ascii.eqb_refl, orb_true_r in C. discriminate C. }
    destruct C as [C1 C2]. destruct addr as [|c a]; [discriminate C1|]. injection C1 as <- ->.
    assert (U : forall a' p, String "[" (append a (String "]" port)) = String "[" (append a' (String "]" p)) -> (p = "" \/ exists d, p = String ":" d /\ each numeral d) -> a' = a /\ p = port).
    { intros a' p E Hp. injection E as E. destruct (port_spelled p Hp) as [_ Np]. pose proof (cut_last_at "]" a port C2) as X. rewrite E, (cut_last_at "]" a' p Np) in X. injection X as -> ->. auto. }
    destruct (validOptionalPort port) eqn:Ev; cbn [negb].
    2:{ split; [congruence|]. intros [[N _]|(a' & p & E & Hp & _)]; [exfalso; apply N; eauto|]. destruct (U _ _ E Hp) as [-> ->]. apply port_iff in Hp. congruence. }
    apply port_iff in Ev. destruct (port_spelled port Ev) as [Sp _]. rewrite find_25_bracket. pose proof (find_25_cases a) as F. destruct (find_25 a) as [[x y]|].
    + destruct F as (-> & [z ->] & F). assert (A1 : unescape (String "[" x) encodeHost <> None <-> spelled loose_host_char high_octet x).
      { rewrite host_unescape. change (String "[" x) with (append "" (String "[" x)). rewrite spelled_split by (try reflexivity; discriminate). split; [tauto|]. intros H; split; [constructor|exact H]. }
      assert (A2 : unescape (append "%25" z) encodeZone <> None <-> spelled loose_host_char zone_octet z).
      { rewrite zone_unescape. cbn [append]. split; [|intros H; apply spelled_octet; auto]. intros H. inversion H; subst; [congruence|assumption]. }
      assert (A3 : unescape (String "]" port) encodeHost <> None) by (apply host_unescape; apply spelled_char; [reflexivity|discriminate|exact Sp]).
      transitivity (unescape (String "[" x) encodeHost <> None /\ unescape (append "%25" z) encodeZone <> None).
      { destruct (unescape (String "[" x) encodeHost); [|split; [congruence|intros [X _]; congruence]]. destruct (unescape (append "%25" z) encodeZone); [|split; [congruence|intros [_ X]; congruence]]. destruct (unescape (String "]" port) encodeHost); [split; [split; discriminate|discriminate]|congruence]. }
      rewrite A1, A2. split.
      * intros [H1 H2]. right. exists (append x (append "%25" z)), port. split; [reflexivity|]. split; [exact Ev|]. right. exists x, z. auto.
      * intros [[N _]|(a' & p & E & Hp & Z)]; [exfalso; apply N; eauto|]. destruct (U _ _ E Hp) as [-> ->]. destruct Z as [[N _]|(x' & z' & E' & F' & S1 & S2)]; [exfalso; apply (N x z); reflexivity|].
        assert (X : x = x' /\ z = z'); [|destruct X as [-> ->]; auto]. clear -F F' E'. revert x' E' F'. induction x as [|c x IH]; intros x' E' F'.
        -- destruct x' as [|d x']; [injection E' as ->; auto|]. exfalso. cbn [append] in E'. injection E' as <- E'. destruct x' as [|d x']; [discriminate E'|]. injection E' as <- E'. destruct x' as [|d x']; [discriminate E'|]. injection E' as <- E'. apply (F' "" x'). reflexivity.
        -- destruct x' as [|d x'].
           ++ exfalso. cbn [append] in E'. injection E' as -> E'. destruct x as [|d x]; [discriminate E'|]. injection E' as -> E'. destruct x as [|d x]; [discriminate E'|]. injection E' as -> E'. apply (F "" x). reflexivity.
           ++ injection E' as <- E'. destruct (IH (fun v w X => F (String c v) w (f_equal (String c) X)) x' E' (fun v w X => F' (String c v) w (f_equal (String c) X))) as [-> ->]. auto.
    + rewrite host_unescape, bracket_spelled by auto. split.
      * intros H. right. exists a, port. split; [reflexivity|]. split; [exact Ev|]. left. auto.
      * intros [[N _]|(a' & p & E & Hp & Z)]; [exfalso; apply N; eauto|]. destruct (U _ _ E Hp) as [-> ->]. destruct Z as [[_ H]|(x' & z' & E' & _)]; [exact H|]. exfalso. exact (F x' z' E').
  - assert (B : ~ exists r, h = String "[" r) by (intros [r ->]; unfold has_prefix in Eb; destruct r; discriminate Eb).
    pose proof (cut_last_cases ":" h) as C. destruct (cut_last ":" h) as [[x p]|].
    + destruct C as [-> C]. destruct (all_chars decimal p) eqn:D.
      * rewrite host_unescape. split.
        -- intros H. left. split; [exact B|]. split; [exact H|]. intros x' p' E N. apply lacks_iff in N. pose proof (cut_last_at ":" x p C) as X. rewrite E, (cut_last_at ":" x' p' N) in X. injection X as -> ->. apply numeral_iff. exact D.
        -- intros [(_ & H & _)|(a & p' & E & _)]; [exact H|]. exfalso. apply B. eauto.
      * split; [congruence|]. intros [(_ & _ & H)|(a & p' & E & _)]; [|exfalso; apply B; eauto]. specialize (H x p eq_refl (proj2 (lacks_iff _ _) C)). apply numeral_iff in H. congruence.
    + rewrite host_unescape. split.
      * intros H. left. split; [exact B|]. split; [exact H|]. intros x' p' -> _. exfalso. rewrite contains_app in C. cbn [contains] in C. rewrite Ascii.eqb_refl, orb_true_r in C. discriminate C.
      * intros [(_ & H & _)|(a & p' & E & _)]; [exact H|]. exfalso. apply B. eauto.
Qed.

(** User information. *)
Definition info_char (c : ascii) : bool := (user_char c || Ascii.eqb c "@")%bool.
Lemma info_valid c : (letter c || decimal c || one_of "-._:~!$&'()*+,;=%@" c)%bool = (info_char c || Ascii.eqb c "%")%bool.
Proof. revert c. each_char. Qed.
Lemma info_hex c : hex c = true -> (letter c || decimal c || one_of "-._:~!$&'()*+,;=%@" c)%bool = true.
Proof. revert c. each_char. Qed.
Lemma info_iff i : made_of info_char i <-> validUserinfo i = true /\ encoded i.
Proof.
  split.
  - intros H. split; [|eapply made_encoded; [|exact H]; reflexivity]. eapply made_all; [|apply info_hex|reflexivity|exact H]. intros c Hc. cbn beta. rewrite info_valid, Hc. reflexivity.
  - intros [V E]. unfold validUserinfo in V. induction E as [|c s Hc E IH|a b s Ha Hb E IH]; [constructor| |].
    + cbn [all_chars] in V. rewrite info_valid, Hc, orb_false_r in V. apply andb_true_iff in V. destruct V as [V1 V2]. apply made_char; auto.
    + cbn [all_chars] in V. rewrite !andb_true_iff in V. destruct V as (_ & _ & _ & V). apply made_octet; auto.
Qed.
Lemma encoded_spelled s : encoded s <-> spelled (fun _ => true) (fun _ _ => true) s.
Proof.
  split; induction 1; [constructor|apply spelled_char; auto; intros ->; discriminate|apply spelled_octet; auto|constructor|apply enc_char; auto; apply Ascii.eqb_neq; auto|apply enc_hex; auto].
Qed.
Lemma encoded_colon x y : encoded (append x (String ":" y)) <-> encoded x /\ encoded y.
Proof. rewrite !encoded_spelled. apply spelled_split; [reflexivity|discriminate|reflexivity]. Qed.
Lemma cut_cases c s : let '(x, y, b) := cut c s in if b then s = append x (String c y) /\ contains c x = false else x = s /\ contains c s = false.
Proof.
  induction s as [|a s IH]; [cbn; auto|]. cbn [cut]. destruct (Ascii.eqb_spec a c) as [->|N]; [cbn; auto|]. destruct (cut c s) as [[x y] b]. destruct b.
  - destruct IH as [-> IH]. split; [reflexivity|]. cbn [contains]. rewrite IH, orb_false_r. apply Ascii.eqb_neq. exact N.
  - destruct IH as [-> IH]. split; [reflexivity|]. cbn [contains]. rewrite IH, orb_false_r. apply Ascii.eqb_neq. exact N.
Qed.
Lemma unescape_iff s m : free_mode m = true -> unescape s m <> None <-> encoded s.
Proof. intros H. rewrite <- (encoded_unescape s m H). destruct (unescape s m); [split; [eauto|discriminate]|split; [congruence|intros [d E]; discriminate E]]. Qed.
Lemma parseAuthority_iff a : parseAuthority a <> None <-> loose_authority a.
Proof.
  unfold parseAuthority, loose_authority. pose proof (cut_last_cases "@" a) as C. destruct (cut_last "@" a) as [[i h]|].
  - destruct C as [-> C]. assert (U : forall i' h', append i (String "@" h) = append i' (String "@" h') -> lacks "@" h' -> i' = i /\ h' = h).
    { intros i' h' E N. apply lacks_iff in N. pose proof (cut_last_at "@" i h C) as X. rewrite E, (cut_last_at "@" i' h' N) in X. injection X as -> ->. auto. }
    transitivity (parseHost h <> None /\ validUserinfo i = true /\ encoded i).
    + destruct (parseHost h) as [hh|]; [|split; [congruence|intros [X _]; congruence]]. destruct (validUserinfo i); cbn [negb]; [|split; [congruence|intros (_ & X & _); congruence]].
      pose proof (cut_cases ":" i) as K. destruct (cut ":" i) as [[n p] colon]. destruct colon.
      * destruct K as [-> K]. rewrite encoded_colon. rewrite <- (unescape_iff n encodeUserPassword), <- (unescape_iff p encodeUserPassword) by reflexivity.
        destruct (unescape n encodeUserPassword), (unescape p encodeUserPassword); (split; [intros X; repeat split; congruence|intros (_ & _ & X & Y); congruence]).
      * rewrite <- (unescape_iff i encodeUserPassword) by reflexivity. destruct (unescape i encodeUserPassword); (split; [intros X; repeat split; congruence|intros (_ & _ & X); congruence]).
    + rewrite parseHost_iff, <- info_iff. split.
      * intros [H1 H2]. right. exists i, h. repeat split; auto. apply lacks_iff. exact C.
      * intros [[N _]|(i' & h' & E & N & H1 & H2)]; [exfalso; apply (N i h); reflexivity|]. destruct (U _ _ E N) as [-> ->]. auto.
  - transitivity (parseHost a <> None); [destruct (parseHost a); split; try congruence; discriminate|]. rewrite parseHost_iff. split.
    + intros H. left. split; auto. apply lacks_iff. exact C.
    + intros [[_ H]|(i & h & -> & _)]; auto. exfalso. rewrite contains_app in C. cbn [contains] in C. rewrite Ascii.eqb_refl, orb_true_r in C. discriminate C.
Qed.
Lemma loose_char_control c : loose_host_char c = true -> negb (control c) = true.
Proof. revert c. each_char. Qed.
Lemma info_control c : info_char c = true -> negb (control c) = true.
Proof. revert c. each_char. Qed.
Lemma hex_control c : hex c = true -> negb (control c) = true.
Proof. revert c. each_char. Qed.
Lemma spelled_controls g s : spelled loose_host_char g s -> no_controls s = true.
Proof.
  unfold no_controls. induction 1 as [|c s Hc _ _ IH|a b s Ha Hb _ _ IH]; [reflexivity|cbn [all_chars]; rewrite loose_char_control, IH by auto; reflexivity|]. cbn [all_chars]. rewrite (hex_control a Ha), (hex_control b Hb), IH. reflexivity.
Qed.
Lemma host_controls h : loose_host h -> no_controls h = true.
Proof.
  intros [(_ & H & _)|(a & p & -> & Hp & H)]; [eapply spelled_controls; exact H|]. apply port_spelled in Hp. destruct Hp as [Hp _]. apply spelled_controls in Hp.
  change (String "[" (append a (String "]" p))) with (append "[" (append a (append "]" p))). rewrite !no_controls_app, Hp. assert (A : no_controls a = true); [|rewrite A; reflexivity].
  destruct H as [[_ H]|(x & z & -> & _ & H1 & H2)]; [eapply spelled_controls; exact H|]. rewrite !no_controls_app. apply spelled_controls in H1, H2. rewrite H1, H2. reflexivity.
Qed.
Lemma authority_controls a : loose_authority a -> no_controls a = true.
Proof.
  intros [[_ H]|(i & h & -> & _ & Hi & H)]; [apply host_controls; exact H|]. change (append i (String "@" h)) with (append i (append "@" h)). rewrite !no_controls_app, (host_controls h H). cbn [andb].
  rewrite andb_true_r. eapply made_all; [apply info_control|apply hex_control|reflexivity|exact Hi].
Qed.

(** ** The formats *)
Lemma begins_iff p : has_prefix "/" p = true <-> begins_slash p.
Proof. split; [|apply begins_prefix]. rewrite has_prefix_slash. destruct p as [|c p]; [discriminate|]. intros H. apply Ascii.eqb_eq in H. subst c. exists p. reflexivity. Qed.
Definition path_text (u : uri) : string :=
  match u_scheme u, u_authority u with
  | None, Some EmptyString => if has_prefix "/" (u_path u) then append "//" (percent_decode (u_path u)) else percent_decode (u_path u)
  | Some _, None => if has_prefix "/" (u_path u) then percent_decode (u_path u) else ""
  | _, _ => percent_decode (u_path u)
  end.
Theorem scan_iff u : scan u <> None <-> loose_parts u.
Proof.
  unfold scan, loose_parts. rewrite <- !controls_iff.
  assert (S : (match u_scheme u with Some s => good_scheme true s | None => true end) = true <-> match u_scheme u with None => True | Some s => uri_scheme s end) by (destruct (u_scheme u); [apply good_scheme_iff|tauto]).
  assert (Q : match u_query u with None => True | Some q => each not_control q end <-> no_controls (or_empty (u_query u)) = true) by (destruct (u_query u); [symmetry; apply controls_iff|cbn; tauto]).
  assert (F : match u_frag u with None => True | Some q => made_of anything q end <-> unescape (or_empty (u_frag u)) encodeFragment <> None) by (destruct (u_frag u); [rewrite unescape_iff by reflexivity; apply made_encoded_iff|cbn; split; [discriminate|tauto]]).
  assert (D : unescape (u_path u) encodePath <> None <-> made_of anything (u_path u)) by (rewrite unescape_iff by reflexivity; symmetry; apply made_encoded_iff).
  rewrite Q, F, <- S, <- D. clear S Q F.
  assert (P : scan_path u <> None /\ no_controls (or_empty (u_authority u)) = true <->
    match u_authority u with None => True | Some a => loose_authority a end /\ (u_scheme u = None -> u_authority u = None -> forall r, u_path u <> String ":" r) /\ (opaque u \/ unescape (u_path u) encodePath <> None)).
  { unfold scan_path, opaque. destruct (u_authority u) as [a|]; cbn [or_empty].
    - rewrite <- parseAuthority_iff. split.
      + intros [H _]. destruct (parseAuthority a); [|congruence]. destruct (unescape (u_path u) encodePath); [|congruence]. split; [discriminate|]. split; [discriminate|right; discriminate].
      + intros (H1 & _ & [(_ & X & _)|H2]); [discriminate X|]. split; [|apply authority_controls, parseAuthority_iff; exact H1]. destruct (parseAuthority a); [|congruence]. destruct (unescape (u_path u) encodePath); [discriminate|congruence].
    - rewrite <- begins_iff. destruct (has_prefix "/" (u_path u)) eqn:B.
      + split; [intros [H _]; repeat split; auto|].
        * intros _ _ r E. rewrite E in B. rewrite has_prefix_slash in B. discriminate B.
        * intros (_ & _ & [(_ & _ & X)|H]); [congruence|auto].
      + destruct (u_scheme u) as [s|].
        * split; [intros _|intros _; split; [discriminate|reflexivity]]. repeat split; try discriminate. left. repeat split; discriminate.
        * rewrite colon_first. split.
          -- intros [H _]. split; [auto|]. split; [intros _ _ r E; rewrite E in H; cbn in H; congruence|]. right. destruct (u_path u) as [|c p]; [exact H|]. destruct (Ascii.eqb c ":"); [congruence|exact H].
          -- intros (_ & H1 & H2). split; [|reflexivity]. destruct H2 as [[X _]|H2]; [congruence|]. destruct (u_path u) as [|c p]; [exact H2|]. destruct (Ascii.eqb_spec c ":") as [->|]; [exfalso; apply (H1 eq_refl eq_refl p); reflexivity|exact H2]. }
  destruct (match u_scheme u with Some s => good_scheme true s | None => true end); cbn [negb]; [|split; [congruence|intros (X & _); discriminate X]].
  destruct (no_controls (u_path u)); [|rewrite andb_false_r; split; [cbn; congruence|intros (_ & _ & _ & X & _); discriminate X]]. rewrite andb_true_r.
  destruct (no_controls (or_empty (u_query u))); [|rewrite andb_false_r; split; [cbn; congruence|intros (_ & _ & _ & _ & _ & X & _); discriminate X]]. rewrite andb_true_r.
  destruct (no_controls (or_empty (u_authority u))) eqn:A; cbn [negb].
  - destruct (scan_path u) as [d|]; [|split; [congruence|intros (_ & H1 & H2 & _ & H3 & _); destruct (proj2 P (conj H1 (conj H2 H3))); congruence]].
    destruct (unescape (or_empty (u_frag u)) encodeFragment); [|split; [congruence|intros (_ & _ & _ & _ & _ & _ & X); congruence]]. split; [intros _|discriminate].
    destruct (proj1 P) as (H1 & H2 & H3); [split; [discriminate|reflexivity]|]. repeat split; auto. discriminate.
  - split; [congruence|]. intros (_ & H1 & H2 & _ & H3 & _). destruct (proj2 P (conj H1 (conj H2 H3))) as [_ X]. discriminate X.
Qed.
Theorem scan_text u sc p : scan u = Some (sc, p) -> (sc = "" <-> match u_scheme u with None => True | Some s => s = "" end) /\ p = path_text u.
Proof.
  intros H. assert (L : loose_parts u) by (apply scan_iff; congruence). unfold scan in H. destruct (negb (match u_scheme u with Some s => good_scheme true s | None => true end)); [discriminate|]. destruct (negb _); [discriminate|].
  destruct (scan_path u) as [d|] eqn:E; [|discriminate H]. destruct (unescape (or_empty (u_frag u)) encodeFragment) as [fr|]; [|discriminate H]. injection H as <- <-. split.
  - destruct (u_scheme u) as [s|]; cbn [or_empty lower]; [|tauto]. destruct s; cbn [lower]; [tauto|split; discriminate].
  - assert (D : forall x, unescape (u_path u) encodePath = Some x -> x = percent_decode (u_path u)).
    { intros x Ex. rewrite unescape_some in Ex; [congruence|reflexivity|discriminate|]. apply made_encoded_iff, (unescape_iff _ encodePath eq_refl). congruence. }
    unfold scan_path in E. unfold path_text. destruct (u_authority u) as [a|].
    + destruct (parseAuthority a); [|discriminate E]. destruct (unescape (u_path u) encodePath) as [x|]; [|discriminate E]. rewrite (D x eq_refl) in E. destruct (u_scheme u); [cbn [andb] in E; congruence|]. destruct a; cbn [empty andb] in E; congruence.
    + destruct (has_prefix "/" (u_path u)); [destruct (u_scheme u); auto|]. destruct (u_scheme u); [congruence|]. destruct (has_prefix ":" (u_path u)); [discriminate E|]. auto.
Qed.
Lemma closed_slash d : closed (String "/" d) <-> closed d.
Proof.
  unfold closed. split.
  - intros H i Hi. destruct (H (S i) Hi) as (j & L & J). destruct j as [|j]; [lia|]. exists j. split; [lia|exact J].
  - intros H i Hi. destruct i as [|i]; [discriminate Hi|]. destruct (H i Hi) as (j & L & J). exists (S j). split; [lia|exact J].
Qed.
Lemma go_uri_reference mail re s : accepts (go_fmt mail re) "uri-reference" s <-> ~ (exists i, get i s = Some "\"%char) /\ loose_parts (split_uri s).
Proof. rewrite accepts_uri_reference, <- scan_iff, <- go_url_scan. reflexivity. Qed.
Lemma go_uri mail re s : accepts (go_fmt mail re) "uri" s <-> accepts (go_fmt mail re) "uri-reference" s /\ u_scheme (split_uri s) <> None.
Proof.
  rewrite accepts_uri, accepts_uri_reference. cbn [go_fmt f_url]. rewrite go_url_scan. destruct (split_proper s) as [P _]. destruct (scan (split_uri s)) as [[sc p]|] eqn:E.
  - destruct (scan_text _ _ _ E) as [S _]. destruct P as [P _]. destruct (u_scheme (split_uri s)) as [x|].
    + destruct P as [P _]. split; [intros [H _]; repeat split; auto; discriminate|]. intros [[H _] _]. split; auto. exists sc, p. split; auto. tauto.
    + split; [intros (_ & sc' & p' & [= <- <-] & N); tauto|]. intros [_ N]. congruence.
  - split; [intros (_ & sc' & p' & X & _); discriminate X|]. intros [[_ N] _]. congruence.
Qed.
Lemma opaque_iff u : opaque u <-> u_scheme u <> None /\ u_authority u = None /\ has_prefix "/" (u_path u) = false.
Proof. unfold opaque. rewrite <- begins_iff, not_true_iff_false. reflexivity. Qed.
Lemma go_template mail re s : accepts (go_fmt mail re) "uri-template" s <->
  accepts (go_fmt mail re) "uri-reference" s /\ (opaque (split_uri s) \/ closed (percent_decode (u_path (split_uri s)))).
Proof.
  rewrite accepts_template, accepts_uri_reference. cbn [go_fmt f_url]. rewrite go_url_scan, opaque_iff. destruct (scan (split_uri s)) as [[sc p]|] eqn:E.
  - destruct (scan_text _ _ _ E) as [_ ->]. assert (K : closed (path_text (split_uri s)) <-> (u_scheme (split_uri s) <> None /\ u_authority (split_uri s) = None /\ has_prefix "/" (u_path (split_uri s)) = false) \/ closed (percent_decode (u_path (split_uri s)))).
    { unfold path_text. destruct (u_scheme (split_uri s)) as [x|], (u_authority (split_uri s)) as [[|c a]|]; try (split; [auto|intros [(A & B & _)|H]; [congruence|exact H]]).
      - destruct (has_prefix "/" (u_path (split_uri s))) eqn:B; [split; [auto|intros [(_ & _ & X)|H]; [congruence|exact H]]|]. split; [intros _; left; repeat split; auto; discriminate|]. intros _ i H. destruct i; discriminate H.
      - destruct (has_prefix "/" (u_path (split_uri s))); [cbn [append]; rewrite !closed_slash|]; (split; [auto|intros [(A & B & _)|H]; [congruence|exact H]]). }
    rewrite <- K. split; [intros (H & sc' & p' & [= <- <-] & C); repeat split; auto; discriminate|]. intros [[H _] C]. eauto 6.
  - split; [intros (_ & sc' & p' & X & _); discriminate X|]. intros [[_ N] _]. congruence.
Qed.

(** ** References of RFC 3986 *)
Lemma made_weaken (f g : ascii -> bool) s : (forall c, f c = true -> g c = true) -> made_of f s -> made_of g s.
Proof. intros H. induction 1; [constructor|apply made_char; auto|apply made_octet; auto]. Qed.
Ltac by_char := let c := fresh in let K := fresh in intros c; destruct c as [[] [] [] [] [] [] [] []]; vm_compute; intros K; try discriminate K; reflexivity.
Lemma authority_chars (host : string -> Prop) g a : (forall h, host h -> uri_host h) -> (forall c, user_char c = true -> g c = true) -> g "%"%char = true -> g "@"%char = true -> g "["%char = true -> g "]"%char = true ->
  uri_authority host a -> all_chars g a = true.
Proof.
  intros Hh G1 G2 G3 G4 G5 (i & h & p & -> & Hi & H & Hp). assert (X : forall c, hex c = true -> g c = true) by (intros c Hc; apply G1; clear -Hc; revert c Hc; by_char).
  assert (N : forall c, numeral c = true -> g c = true) by (intros c Hc; apply G1; clear -Hc; revert c Hc; by_char).
  assert (R : forall c, reg_char c = true -> g c = true) by (intros c Hc; apply G1; unfold user_char; rewrite Hc; reflexivity).
  assert (C : g ":"%char = true) by (apply G1; reflexivity).
  rewrite !all_app. rewrite !andb_true_iff. split; [destruct i as [i|]; [|reflexivity]; rewrite all_app; rewrite (made_all user_char g i); auto; cbn; rewrite G3; reflexivity|].
  split; [|destruct p as [p|]; [|reflexivity]; cbn [all_chars]; rewrite C; eapply each_all; [|exact Hp]; auto].
  destruct (Hh h H) as [M|(b & Hb & ->)]; [eapply made_all; [| | |exact M]; auto|]. cbn [all_chars]. rewrite G4, all_app. cbn [all_chars]. rewrite G5, (each_all user_char g b); auto.
Qed.
Lemma rfc_proper (host : string -> Prop) u : (forall h, host h -> uri_host h) -> uri_parts host u -> proper u.
Proof.
  intros Hh (Hs & Ha & Hp & Hr & Hq & Hf). unfold proper. split; [|split; [|split; [|split]]].
  - destruct (u_scheme u) as [s|]; auto. destruct Hs as (c & r & -> & Hc & Hr0). split; [discriminate|]. cbn [all_chars]. apply andb_true_iff. split; [clear -Hc; revert c Hc; by_char|]. eapply each_all; [|exact Hr0]. by_char.
  - destruct (u_authority u) as [a|]; auto. eapply authority_chars; [exact Hh| | | | | |exact Ha]; try reflexivity. by_char.
  - eapply made_all; [| | |exact Hp]; try reflexivity; by_char.
  - destruct (u_authority u) as [a|]; auto. destruct Hr as [Hr1 Hr2]. split; auto. intros E x y Ex _ Hx. specialize (Hr2 E x y Ex). rewrite (none_slash ":/?#" x) in Hr2; auto. discriminate Hr2.
  - destruct (u_query u) as [q|]; auto. eapply made_all; [| | |exact Hq]; try reflexivity; by_char.
Qed.
Lemma rfc_split (host : string -> Prop) s : (forall h, host h -> uri_host h) -> uri_reference host s <-> uri_parts host (split_uri s).
Proof.
  intros Hh. split; [intros (u & H & ->); rewrite split_of_proper; auto; eapply rfc_proper; eauto|]. intros H. exists (split_uri s). split; auto. symmetry. apply split_proper.
Qed.
(** The hosts that url.Parse can decode. *)
Definition decodable (h : string) : Prop := uri_host h /\ spelled (fun _ => true) high_octet h.
Lemma reg_loose h : made_of reg_char h -> spelled (fun _ => true) high_octet h -> spelled loose_host_char high_octet h.
Proof.
  intros M S. induction S as [|c s _ N S IH|a b s Ha Hb Hab S IH]; [constructor| |].
  - inversion M as [|? ? Hc M'|]; subst; [|congruence]. apply spelled_char; auto. unfold loose_host_char. rewrite Hc, orb_true_r. reflexivity.
  - inversion M as [|? ? Hc M'|? ? ? _ _ M']; subst; [discriminate Hc|]. apply spelled_octet; auto.
Qed.
Lemma user_loose a : each user_char a -> spelled loose_host_char high_octet a /\ contains "%" a = false.
Proof.
  induction 1 as [|c s Hc _ [IH1 IH2]]; [split; [constructor|reflexivity]|]. split.
  - apply spelled_char; auto; [clear -Hc; revert c Hc; by_char|intros ->; discriminate Hc].
  - cbn [contains]. rewrite IH2, orb_false_r. destruct (Ascii.eqb_spec c "%") as [->|]; [discriminate Hc|reflexivity].
Qed.
Lemma host_port_loose h p : decodable h -> match p with Some p => each numeral p | None => True end -> loose_host (append h (match p with Some p => String ":" p | None => "" end)).
Proof.
  intros [Hh Sh] Hp. assert (Sp : spelled loose_host_char high_octet (match p with Some p => String ":" p | None => "" end) /\ contains "]" (match p with Some p => String ":" p | None => "" end) = false).
  { apply port_spelled. destruct p as [p|]; [right; eauto|left; reflexivity]. }
  destruct Hh as [M|(a & Ha & ->)].
  - left. assert (NC : contains ":" h = false) by (apply (not_contains (fun c => negb (Ascii.eqb c ":"))); [reflexivity|]; eapply made_all; [| | |exact M]; try reflexivity; by_char). assert (NB : contains "[" h = false) by (apply (not_contains (fun c => negb (Ascii.eqb c "["))); [reflexivity|]; eapply made_all; [| | |exact M]; try reflexivity; by_char).
    pose proof (reg_loose h M Sh) as L. split; [|split].
    + intros [r E]. destruct h as [|c h]; [destruct p; discriminate E|]. injection E as -> _. discriminate NB.
    + destruct p as [p|]; [|rewrite append_nil; exact L]. apply spelled_split; try reflexivity; [discriminate|]. split; auto. destruct Sp as [Sp _]. inversion Sp; subst; auto.
    + intros x p' E N. apply lacks_iff in N. destruct p as [p|].
      * assert (Np : contains ":" p = false) by (apply (not_contains numeral); [reflexivity|]; eapply each_all; [|exact Hp]; auto). pose proof (cut_last_at ":" h p Np) as X. rewrite E, (cut_last_at ":" x p' N) in X. injection X as -> ->. exact Hp.
      * rewrite append_nil in E. subst h. rewrite contains_app in NC. cbn [contains] in NC. rewrite Ascii.eqb_refl, orb_true_r in NC. discriminate NC.
  - right. destruct (user_loose a Ha) as [L N]. exists a, (match p with Some p => String ":" p | None => "" end). split; [cbn [append]; rewrite append_assoc; reflexivity|]. split; [destruct p as [p|]; [right; eauto|auto]|]. left. split; auto.
    intros x y ->. rewrite contains_app in N. cbn [append contains] in N. rewrite Ascii.eqb_refl, orb_true_r in N. discriminate N.
Qed.
Lemma authority_loose a : uri_authority decodable a -> loose_authority a.
Proof.
  intros (i & h & p & -> & Hi & Hh & Hp). pose proof (host_port_loose h p Hh Hp) as L.
  assert (N : lacks "@" (append h (match p with Some p => String ":" p | None => "" end))).
  { apply lacks_iff. apply (not_contains (fun c => negb (Ascii.eqb c "@"))); [reflexivity|]. rewrite all_app. apply andb_true_iff. split.
    - destruct Hh as [[M|(b & Hb & ->)] _]; [eapply made_all; [| | |exact M]; try reflexivity; by_char|]. cbn [all_chars]. rewrite all_app, (each_all user_char _ b); [reflexivity| |exact Hb]. by_char.
    - destruct p as [p|]; [|reflexivity]. cbn [all_chars]. eapply each_all; [|exact Hp]. by_char. }
  destruct i as [i|]; [|left; auto]. right. exists i. eexists. rewrite append_assoc. split; [reflexivity|]. split; [exact N|]. split; [|exact L]. eapply made_weaken; [|exact Hi]. intros c ->. reflexivity.
Qed.
Lemma rfc_loose u : uri_parts decodable u -> loose_parts u.
Proof.
  intros (Hs & Ha & Hp & Hr & Hq & Hf). unfold loose_parts. split; [exact Hs|]. split; [destruct (u_authority u); auto; apply authority_loose; exact Ha|]. split; [|split; [|split; [|split]]].
  - intros Es Ea r E. rewrite Ea in Hr. destruct Hr as [_ Hr]. specialize (Hr Es "" r E). discriminate Hr.
  - apply (proj2 (each_iff not_control not_control _ (fun c => eq_refl))). eapply made_all; [| | |exact Hp]; try reflexivity; by_char.
  - right. eapply made_weaken; [|exact Hp]. by_char.
  - destruct (u_query u) as [q|]; auto. apply (proj2 (each_iff not_control not_control _ (fun c => eq_refl))). eapply made_all; [| | |exact Hq]; try reflexivity; by_char.
  - destruct (u_frag u) as [f|]; auto. eapply made_weaken; [|exact Hf]. by_char.
Qed.
Lemma rfc_no_backslash s : uri_reference decodable s -> ~ (exists i, get i s = Some "\"%char).
Proof.
  intros (u & H & ->). assert (C : all_chars (fun c => negb (Ascii.eqb c "\")) (recompose u) = true).
  { destruct H as (Hs & Ha & Hp & Hr & Hq & Hf). unfold recompose. rewrite !all_app, !andb_true_iff. repeat split.
    - destruct (u_scheme u) as [s|]; [|reflexivity]. destruct Hs as (c & r & -> & Hc & Hr0). rewrite all_app. cbn [all_chars]. rewrite !andb_true_iff. repeat split; [clear -Hc; revert c Hc; by_char|]. eapply each_all; [|exact Hr0]. by_char.
    - destruct (u_authority u) as [a|]; [|reflexivity]. cbn [append all_chars]. eapply (authority_chars decodable); [intros h Hh; apply Hh| | | | | |exact Ha]; try reflexivity. by_char.
    - eapply made_all; [| | |exact Hp]; try reflexivity; by_char.
    - destruct (u_query u) as [q|]; [|reflexivity]. cbn [append all_chars]. eapply made_all; [| | |exact Hq]; try reflexivity; by_char.
    - destruct (u_frag u) as [q|]; [|reflexivity]. cbn [append all_chars]. eapply made_all; [| | |exact Hf]; try reflexivity; by_char. }
  revert C. generalize (recompose u). clear. intros s C [i E]. revert i E. induction s as [|c s IH]; intros i E; [destruct i; discriminate E|]. cbn [all_chars] in C. apply andb_true_iff in C. destruct C as [C1 C2]. destruct i as [|i]; [injection E as ->; discriminate C1|]. exact (IH C2 i E).
Qed.
Theorem rfc_accepted mail re s : uri_reference decodable s -> accepts (go_fmt mail re) "uri-reference" s.
Proof.
  intros H. apply go_uri_reference. split; [apply rfc_no_backslash; exact H|]. apply rfc_loose. apply rfc_split; auto. intros h Hh; apply Hh.
Qed.
Lemma host_unescape_any h : unescape h encodeHost <> None -> spelled (fun _ => true) high_octet h.
Proof. intros H. apply host_unescape in H. induction H; [constructor|apply spelled_char; auto|apply spelled_octet; auto]. Qed.
