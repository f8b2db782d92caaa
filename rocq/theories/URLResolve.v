(** Plain references: printing and parsing are inverse, and resolving one
    against another gives a plain reference. *)
From Verif Require Export URLPlain.
From Coq Require Import Lia.
Open Scope string_scope.
Open Scope list_scope.
Open Scope nat_scope.

(** ** Paths *)
Definition well (p : string) : Prop := all_chars path_char p = true /\ encoded p.
Lemma well_app a b : well a -> well b -> well (append a b).
Proof. intros [A1 A2] [B1 B2]. split; [rewrite all_app, A1, B1; reflexivity|apply encoded_app; auto]. Qed.
Lemma well_nil : well "".
Proof. split; [reflexivity|constructor]. Qed.
Lemma well_slash s : well s -> well (String "/" s).
Proof. intros [A B]. split; [cbn [all_chars]; rewrite A; reflexivity|apply enc_char; auto]. Qed.
Lemma well_split x y : well (append x (String "/" y)) -> well x /\ well y.
Proof.
  intros [A B]. apply encoded_split in B. destruct B as [B1 B2]. rewrite all_app in A. cbn [all_chars] in A. rewrite !andb_true_iff in A. destruct A as (A1 & _ & A2). repeat split; auto.
Qed.

(** The segments of a path, between slashes. *)
Lemma fold_join (l : list string) : forall a b, append a (fold_left (fun t e => append t (String "/" e)) l b) = fold_left (fun t e => append t (String "/" e)) l (append a b).
Proof. induction l as [|e l IH]; intros a b; [reflexivity|]. cbn [fold_left]. rewrite IH, append_assoc. reflexivity. Qed.
Lemma segments_spec s : let '(h, l) := segments s in
  contains "/" h = false /\ Forall (fun e => contains "/" e = false) l /\ s = fold_left (fun t e => append t (String "/" e)) l h.
Proof.
  induction s as [|c s IH]; [cbn; auto|]. cbn [segments]. destruct (segments s) as [h l]. destruct IH as (H1 & H2 & H3). destruct (Ascii.eqb_spec c "/") as [->|N].
  - split; [reflexivity|]. split; [auto|]. cbn [fold_left append]. rewrite H3. apply (fold_join l "/" h).
  - split; [cbn [contains]; rewrite H1; destruct (Ascii.eqb_spec c "/"); auto; congruence|]. split; auto. rewrite H3. apply (fold_join l (String c "") h).
Qed.
(** All segments but the first and the last are not empty. *)
Fixpoint inner (l : list string) : Prop := match l with [] => True | [_] => True | e :: l' => e <> "" /\ inner l' end.
Lemma joined l : forall h, well (fold_left (fun t e => append t (String "/" e)) l h) -> no_double false (fold_left (fun t e => append t (String "/" e)) l h) = true ->
  well h /\ Forall well l /\ (no_double false h = true) /\ inner l.
Proof.
  induction l as [|e l IH]; intros h W D; [cbn [fold_left inner] in *; split; [auto|split; [constructor|split; auto]]|]. cbn [fold_left] in *. destruct (IH _ W D) as (W1 & W2 & D1 & I).
  apply well_split in W1. destruct W1 as [Wh We]. split; auto. split; auto. rewrite no_double_app in D1. apply andb_true_iff in D1. destruct D1 as [D1 D2]. split; auto.
  destruct l as [|e' l]; cbn [inner]; auto. split; [|exact I]. intros ->. cbn [fold_left] in D.
  assert (G : forall l h, no_double false (fold_left (fun t e => append t (String "/" e)) l h) = true -> no_double false h = true).
  { clear. induction l as [|e l IH]; intros h H; [auto|]. cbn [fold_left] in H. apply IH in H. rewrite no_double_app in H. apply andb_true_iff in H. tauto. }
  apply G in D. rewrite !append_assoc, no_double_app in D. cbn [append no_double] in D. rewrite Ascii.eqb_refl in D. cbn [negb andb] in D. rewrite !andb_false_r in D. discriminate D.
Qed.

(** The state of the loop. *)
Definition sane (st : string * bool) : Prop :=
  well (fst st) /\ no_double false (fst st) = true /\ ends_slash false (fst st) = false /\ (snd st = true -> fst st = "").
Lemma put_sane st e : sane st -> well e -> contains "/" e = false -> (e <> "" \/ snd st = true) -> sane (put_segment st e).
Proof.
  destruct st as [t first]. intros (W & D & E & F) We Ce N. cbn [fst snd] in *. unfold put_segment. destruct (String.eqb e "."); [split; auto; split; auto; split; auto; discriminate|].
  destruct (String.eqb e "..").
  - destruct (cut_last "/" t) as [[x y]|] eqn:Ec; [|repeat split; auto using well_nil; constructor].
    apply cut_last_spec in Ec. subst t. pose proof D as D'. rewrite no_double_app in D'. apply andb_true_iff in D'. destruct D' as [D1 D2]. cbn [no_double] in D2.
    rewrite Ascii.eqb_refl in D2. apply andb_true_iff in D2. destruct D2 as [D2 _]. apply negb_true_iff in D2. apply well_split in W.
    split; [apply W|]. split; auto. split; auto. cbn [snd fst]. intros H. specialize (F H). destruct x; [auto|discriminate F].
  - destruct first.
    + rewrite (F eq_refl). cbn [append]. split; auto. split; [apply no_slash_no_double; auto|]. split; [|discriminate].
      destruct e; [reflexivity|]. apply no_slash_end; auto. discriminate.
    + destruct N as [N|N]; [|discriminate N]. split; [apply well_app; auto; apply well_slash; auto|]. cbn [fst snd]. rewrite no_double_app, ends_slash_app, D, E. cbn [no_double ends_slash].
      rewrite Ascii.eqb_refl. cbn [negb andb]. rewrite no_slash_no_double by auto. rewrite no_slash_end by auto. repeat split; auto. discriminate.
Qed.
(** What the last segment may add. *)
Lemma put_last st e : sane st -> well e -> contains "/" e = false -> well (fst (put_segment st e)) /\ no_double false (fst (put_segment st e)) = true.
Proof.
  intros S We Ce. destruct e as [|c e].
  - destruct st as [t first]. destruct S as (W & D & E & F). cbn [fst snd] in *. cbn [put_segment String.eqb fst]. destruct first.
    + rewrite append_nil. auto.
    + cbn [fst]. split; [apply well_app; auto; apply well_slash, well_nil|]. rewrite no_double_app, D, E. reflexivity.
  - destruct (put_sane st (String c e)) as (A & B & _ & _); auto. left. discriminate.
Qed.
Lemma last_cons (l : list string) : forall x y, last (y :: l) x = last l y.
Proof. induction l as [|z l IH]; intros x y; [reflexivity|]. cbn [last] in *. destruct l; [reflexivity|]. apply (IH x). Qed.
Lemma fold_sane l : forall st x, sane st -> Forall well (x :: l) -> Forall (fun e => contains "/" e = false) (x :: l) -> inner (x :: l) ->
  exists st', sane st' /\ fold_left put_segment (x :: l) st = put_segment st' (last l x).
Proof.
  induction l as [|y l IH]; intros st x S W C I; [exists st; auto|]. inversion W as [|? ? Wx Wl]; inversion C as [|? ? Cx Cl]; subst. destruct I as [I1 I2].
  destruct (IH (put_segment st x) y) as (st' & S' & E'); auto; [apply put_sane; auto|]. exists st'. split; auto. rewrite last_cons. exact E'.
Qed.

Lemma has_prefix_slash t : has_prefix "/" t = match t with String c _ => Ascii.eqb c "/" | _ => false end.
Proof.
  unfold has_prefix. destruct t as [|c t]; [reflexivity|]. cbn [prefix]. destruct (ascii_dec "/" c) as [<-|N]; [destruct t; reflexivity|]. destruct (Ascii.eqb_spec c "/"); congruence.
Qed.
(** What resolvePath is made from. *)
Definition full_path (base ref : string) : string :=
  if empty ref then base else if has_prefix "/" ref then ref else append (match cut_last "/" base with Some (x, _) => append x "/" | None => "" end) ref.
Lemma full_ok base ref : well base -> no_double false base = true -> well ref -> no_double false ref = true -> well (full_path base ref) /\ no_double false (full_path base ref) = true.
Proof.
  intros Wb Db Wr Dr. unfold full_path. destruct (empty ref) eqn:Er; auto. destruct (has_prefix "/" ref) eqn:Ep; auto.
  assert (R : forall prev, no_double prev ref = true).
  { intros prev. rewrite has_prefix_slash in Ep. destruct ref as [|c ref]; [auto|]. cbn [no_double] in *. rewrite Ep in *. auto. }
  destruct (cut_last "/" base) as [[x y]|] eqn:Ec; [|auto]. apply cut_last_spec in Ec. subst base. apply well_split in Wb. rewrite no_double_app in Db. apply andb_true_iff in Db. destruct Db as [D1 D2].
  cbn [no_double] in D2. rewrite Ascii.eqb_refl in D2. apply andb_true_iff in D2. destruct D2 as [D2 _]. rewrite append_assoc. split.
  - apply well_app; [apply Wb|]. cbn [append]. apply well_slash. auto.
  - rewrite no_double_app, D1. cbn [append no_double andb]. rewrite Ascii.eqb_refl, D2. apply R.
Qed.
Lemma resolvePath_ok base ref : well base -> no_double false base = true -> well ref -> no_double false ref = true ->
  well (resolvePath base ref) /\ no_double false (resolvePath base ref) = true /\
  (full_path base ref = "" /\ resolvePath base ref = "" \/ exists t, resolvePath base ref = String "/" t).
Proof.
  intros Wb Db Wr Dr. destruct (full_ok base ref Wb Db Wr Dr) as [W D]. unfold resolvePath. rewrite !eqb_empty. fold (full_path base ref). generalize dependent (full_path base ref). intros s W D.
  destruct (empty s) eqn:Es; [apply empty_spec in Es; subst; split; [apply well_nil|auto]|]. clear Es.
  pose proof (segments_spec s) as Hs. destruct (segments s) as [h l]. destruct Hs as (Ch & Cl & ->). destruct (joined l h W D) as (Wh & Wl & Dh & I).
  assert (S0 : sane ("", true)) by (split; [apply well_nil|auto]).
  assert (S1 : sane (put_segment ("", true) h)) by (apply put_sane; auto).
  assert (G : exists st e, sane st /\ well e /\ contains "/" e = false /\ e = last l h /\ fold_left put_segment (h :: l) ("", true) = put_segment st e).
  { destruct l as [|x l]; [exists ("", true), h; auto|]. cbn [fold_left]. destruct (fold_sane l (put_segment ("", true) h) x) as (st & S & E); auto.
    exists st, (last l x). split; auto. assert (L : In (last l x) (x :: l)).
    { clear. revert x. induction l as [|y l IH]; intros x; [left; auto|]. rewrite last_cons. right. apply IH. }
    rewrite Forall_forall in *. split; [apply Wl; auto|]. split; [apply Cl; auto|]. split; [|exact E]. rewrite last_cons. reflexivity. }
  destruct G as (st & e & S & We & Ce & El & ->). rewrite <- El. pose proof (put_last st e S We Ce) as [W1 D1].
  assert (Q : forall t, well t -> no_double false t = true -> well (if has_prefix "/" t then t else String "/" t) /\ no_double false (if has_prefix "/" t then t else String "/" t) = true /\
            ((fold_left (fun t e => append t (String "/" e)) l h = "" /\ (if has_prefix "/" t then t else String "/" t) = "") \/ exists t', (if has_prefix "/" t then t else String "/" t) = String "/" t')).
  { intros t Wt Dt. destruct (has_prefix "/" t) eqn:Ep.
    - split; auto. split; auto. right. rewrite has_prefix_slash in Ep. destruct t as [|c t]; [discriminate Ep|]. apply Ascii.eqb_eq in Ep. subst. eauto.
    - split; [apply well_slash; auto|]. split; [|eauto]. cbn [no_double]. rewrite Ascii.eqb_refl. cbn [negb andb]. rewrite has_prefix_slash in Ep. destruct t as [|c t]; [auto|]. cbn [no_double] in *. rewrite Ep in *. auto. }
  destruct (String.eqb e "." || String.eqb e "..")%bool eqn:Ee.
  - assert (P : sane (put_segment st e)).
    { apply put_sane; auto. left. intros ->. discriminate Ee. }
    destruct (put_segment st e) as [t b]. destruct P as (P1 & P2 & P3 & _). cbn [fst] in *. apply Q; [apply well_app; auto; apply well_slash, well_nil|]. rewrite no_double_app, P2, P3. reflexivity.
  - destruct (put_segment st e) as [t b]. cbn [fst] in *. apply Q; auto.
Qed.

(** ** Parsing a text made from parts *)
Definition build (sc h p q f : string) : url :=
  let pp := match setPath p with Some x => x | None => ("", "") end in
  let ff := if empty f then ("", "") else match setFragment f with Some x => x | None => ("", "") end in
  Url sc "" None h (fst pp) (snd pp) false false q (fst ff) (snd ff).
Lemma path_ok_iff p : path_ok p = true <-> well p /\ no_double false p = true /\ unescape p encodePath <> Some "*".
Proof.
  unfold path_ok, well. rewrite valid_path, !andb_true_iff. pose proof (encoded_unescape p encodePath eq_refl) as H. split.
  - intros ((A & B) & C). destruct (unescape p encodePath) as [d|] eqn:E; [|discriminate B]. split; [split; auto; apply H; eauto|]. split; auto. intros [= ->]. discriminate B.
  - intros ((A & B) & C & D). apply H in B. destruct B as [d E]. rewrite E in *. split; [split; auto|auto]. destruct (String.eqb_spec d "*"); [congruence|reflexivity].
Qed.
Lemma rooted_not_star t : unescape (String "/" t) encodePath <> Some "*".
Proof. rewrite unescape_char by reflexivity. cbn [host_mode andb]. destruct (unescape t encodePath); congruence. Qed.
Lemma path_set p : path_ok p = true -> exists d, setPath p = Some (d, if String.eqb p (escape d encodePath) then "" else p) /\ (d = "" <-> p = "") /\
  forall sc op us h oh fq q f rf, EscapedPath (Url sc op us h d (if String.eqb p (escape d encodePath) then "" else p) oh fq q f rf) = p.
Proof.
  intros H. apply path_ok_iff in H. destruct H as ((A & B) & _ & N). apply (encoded_unescape p encodePath eq_refl) in B. destruct B as [d E]. exists d. unfold setPath. rewrite E. split; auto.
  assert (Z : d = "" <-> p = "").
  { split; [intros ->|intros ->; cbn in E; congruence]. destruct p as [|c p]; auto. destruct (Ascii.eqb c "%") eqn:Ec.
    - apply Ascii.eqb_eq in Ec. subst c. destruct p as [|a [|b p]]; try discriminate E. rewrite unescape_hex in E by reflexivity. destruct (_ && _)%bool; [|discriminate E]. destruct (unescape p _); discriminate E.
    - rewrite unescape_char in E by auto. cbn [host_mode andb] in E. destruct (unescape p _); discriminate E. }
  split; auto. intros. unfold EscapedPath. cbn [RawPath Path]. destruct (String.eqb_spec p (escape d encodePath)) as [Ep|Ep].
  - cbn [raw_ok String.eqb negb andb]. destruct (String.eqb_spec d "*") as [->|]; congruence.
  - unfold raw_ok. rewrite E, String.eqb_refl, andb_true_r, valid_path, A, andb_true_r. destruct (String.eqb_spec p "") as [->|]; [|reflexivity].
    exfalso. apply Ep. rewrite (proj2 Z eq_refl). reflexivity.
Qed.

Lemma ends_mark_false x q : contains "?" x = false -> q <> "" -> (ends_with_mark (append x (String "?" q)) && Nat.eqb (count "?" (append x (String "?" q))) 1)%bool = false.
Proof.
  intros Hx Hq. destruct (ends_with_mark _) eqn:E; [|reflexivity]. cbn [andb]. rewrite count_app. cbn [count]. rewrite Ascii.eqb_refl. rewrite contains_count in Hx. apply negb_false_iff, Nat.eqb_eq in Hx. rewrite Hx.
  cbn [Nat.add]. destruct (count "?" q) eqn:Ec; [|reflexivity]. exfalso. unfold ends_with_mark in E.
  assert (Cq : contains "?" q = false) by (rewrite contains_count, Ec; reflexivity).
  assert (L : cut_last "?" (String "?" q) = Some ("", q)) by (cbn [cut_last]; rewrite (cut_last_none _ _ Cq); reflexivity).
  rewrite (cut_last_app _ x _ _ _ L) in E. rewrite eqb_empty in E. apply empty_spec in E. auto.
Qed.
Lemma no_mark x : contains "?" x = false -> ends_with_mark x = false.
Proof. intros H. unfold ends_with_mark. rewrite cut_last_none; auto. Qed.

Lemma scheme_parse c s r : lower_letter c = true -> all_chars (fun c => lower_letter c || decimal c || one_of "+-." c)%bool s = true ->
  getScheme (append (String c s) (String ":" r)) = Some (String c s, r) /\ lower (String c s) = String c s.
Proof.
  intros Hc Hs. unfold getScheme. cbn [append scheme_rest]. rewrite (lower_is_letter _ Hc). cbn [orb].
  assert (G : forall s, all_chars (fun c => lower_letter c || decimal c || one_of "+-." c)%bool s = true -> scheme_rest false (append s (String ":" r)) = Some (Some (s, r)) /\ lower s = s).
  { clear. induction s as [|c s IH]; intros H; [split; reflexivity|]. cbn [all_chars] in H. apply andb_true_iff in H. destruct H as [H1 H2]. destruct (IH H2) as [I1 I2].
    cbn [append scheme_rest lower]. rewrite (scheme_step _ H1), I1, I2. destruct (scheme_char _ H1) as (-> & _). auto. }
  destruct (G s Hs) as [G1 G2]. rewrite G1. split; [reflexivity|]. cbn [lower]. rewrite G2. destruct (scheme_char _ (lower_is_scheme _ Hc)) as (-> & _). reflexivity.
Qed.
Lemma no_scheme_chars b s t : contains ":" (fst (fst (cut "/" s))) = false -> (t = "" \/ exists t', t = String "?" t') -> scheme_rest b (append s t) = Some None.
Proof.
  intros H Ht. revert b H. induction s as [|c s IH]; intros b H.
  - destruct Ht as [->|[t' ->]]; [reflexivity|]. cbn [append scheme_rest]. destruct b; reflexivity.
  - cbn [append scheme_rest cut] in *. destruct (Ascii.eqb_spec c "/") as [->|N]; [destruct b; reflexivity|]. destruct (cut "/" s) as [[x y] g]. cbn [fst contains] in H. apply orb_false_iff in H. destruct H as [H1 H2].
    rewrite H1. specialize (IH false H2). rewrite IH. destruct (_ || _)%bool; reflexivity.
Qed.
Lemma slash_scheme s : getScheme (String "/" s) = Some ("", String "/" s).
Proof. reflexivity. Qed.

Lemma host_facts h : host_ok h = true -> all_chars printable h = true /\ contains "#" h = false /\ contains "?" h = false /\ contains "/" h = false /\ parseAuthority h = Some (None, h) /\ escape h encodeHost = h.
Proof.
  intros H. unfold host_ok in H. apply andb_true_iff in H. destruct H as [H P]. set (f := fun c => (letter c || decimal c || one_of "-._~:" c)%bool) in *.
  assert (F : forall c, f c = true -> printable c = true /\ Ascii.eqb c "#" = false /\ Ascii.eqb c "?" = false /\ Ascii.eqb c "/" = false /\ Ascii.eqb c "@" = false /\ Ascii.eqb c "[" = false /\ Ascii.eqb c "%" = false /\ shouldEscape c encodeHost = false) by (intros c; apply host_char).
  split; [apply (all_impl f); auto; intros; apply F; auto|]. split; [apply (all_not f); auto; intros; apply F; auto|]. split; [apply (all_not f); auto; intros; apply F; auto|]. split; [apply (all_not f); auto; intros; apply F; auto|].
  assert (U : forall h, all_chars f h = true -> unescape h encodeHost = Some h /\ escape h encodeHost = h).
  { clear h H P. induction h as [|c h IH]; intros H; [auto|]. cbn [all_chars] in H. apply andb_true_iff in H. destruct H as [H1 H2]. destruct (IH H2) as [I1 I2]. destruct (F c H1) as (_ & _ & _ & _ & _ & _ & F7 & F8).
    rewrite unescape_char by auto. cbn [escape]. rewrite F8, I1, I2, andb_false_r. auto. }
  destruct (U h H) as [U1 U2]. split; auto. unfold parseAuthority. rewrite cut_last_none by (apply (all_not f); auto; intros; apply F; auto).
  unfold parseHost. assert (B : has_prefix "[" h = false).
  { destruct h as [|c h]; [reflexivity|]. cbn [all_chars] in H. apply andb_true_iff in H. destruct H as [H1 _]. destruct (F c H1) as (_ & _ & _ & _ & _ & F6 & _). unfold has_prefix. cbn [prefix]. destruct (ascii_dec "[" c) as [<-|]; [discriminate F6|reflexivity]. }
  rewrite B. destruct (cut_last ":" h) as [[x y]|]; rewrite ?P, U1; reflexivity.
Qed.
Lemma path_facts p : path_ok p = true -> all_chars printable p = true /\ contains "#" p = false /\ contains "?" p = false.
Proof.
  intros H. apply path_ok_iff in H. destruct H as ((A & _) & _). split; [apply (all_impl path_char); auto; intros; apply path_char_ok; auto|]. split; apply (all_not path_char); auto; intros; apply path_char_ok; auto.
Qed.
Lemma query_facts q : query_ok q = true -> all_chars printable q = true /\ contains "#" q = false.
Proof.
  intros H. unfold query_ok in H. split; [eapply all_impl; [|exact H]; cbn beta; intros c E; apply andb_true_iff in E; tauto|].
  eapply all_not; [|exact H]. cbn beta. intros c E. apply andb_true_iff in E. destruct E as [_ E]. apply negb_true_iff in E. auto.
Qed.
Lemma fragment_facts f : fragment_ok f = true -> f = "" \/ f <> "" /\ all_chars printable f = true /\ exists d raw, setFragment f = Some (d, raw) /\ d <> "" /\
  forall sc op us h p rp oh fq q, EscapedFragment (Url sc op us h p rp oh fq q d raw) = f.
Proof.
  unfold fragment_ok. intros H. destruct (empty f) eqn:E; [left; apply empty_spec; auto|]. right. apply empty_false in E. split; auto. cbn [orb] in H. apply andb_true_iff in H. destruct H as [H1 H2]. split; auto.
  destruct (setFragment f) as [[d raw]|]; [|discriminate H2]. apply andb_true_iff in H2. destruct H2 as [H2 H3]. exists d, raw. split; auto. apply negb_true_iff, empty_false in H2. split; auto.
  intros. apply String.eqb_eq in H3. exact H3.
Qed.

Definition front (sc h p : string) : string := append (if empty sc then "" else append sc ":") (append (if (empty sc && empty h)%bool then "" else append "//" h) p).
Definition query_text (q : string) : string := if empty q then "" else append "?" q.
Lemma text_front sc h p q f : text_of sc h p q f = append (append (front sc h p) (query_text q)) (if empty f then "" else append "#" f).
Proof. unfold text_of, front, query_text. rewrite !append_assoc. reflexivity. Qed.

Section Parts.
  Variables sc h p q f : string.
  Hypothesis OK : parts_ok sc h p q f = true.
  Lemma parts : scheme_ok sc = true /\ host_ok h = true /\ path_ok p = true /\ query_ok q = true /\ fragment_ok f = true /\
    (if (empty sc && empty h)%bool then (has_prefix "/" p || negb (contains ":" (fst (fst (cut "/" p)))))%bool else rooted p) = true /\
    (empty sc || negb (empty h) || negb (empty p))%bool = true.
  Proof. pose proof OK as H. unfold parts_ok in H. rewrite !andb_true_iff in H. tauto. Qed.
  Lemma scheme_facts : all_chars printable sc = true /\ contains "#" sc = false.
  Proof.
    destruct parts as (H & _). destruct sc as [|c s]; [auto|]. cbn [scheme_ok] in H. apply andb_true_iff in H. destruct H as [H1 H2].
    assert (G : all_chars (fun c => lower_letter c || decimal c || one_of "+-." c)%bool (String c s) = true) by (cbn [all_chars]; rewrite (lower_is_scheme _ H1), H2; reflexivity).
    split; [eapply all_impl; [|exact G]; intros x E; apply (scheme_char x E)|eapply all_not; [|exact G]; intros x E; apply (scheme_char x E)].
  Qed.
  Lemma front_facts : all_chars printable (append (front sc h p) (query_text q)) = true /\ contains "#" (append (front sc h p) (query_text q)) = false.
  Proof.
    destruct scheme_facts as [S1 S2]. destruct parts as (_ & Hh & Hp & Hq & _). destruct (host_facts h Hh) as (H1 & H2 & _). destruct (path_facts p Hp) as (P1 & P2 & _). destruct (query_facts q Hq) as [Q1 Q2].
    unfold front, query_text. rewrite !all_app, !contains_app, P1, P2, !andb_true_r, !orb_false_r.
    destruct (empty sc), (empty h), (empty q); cbn [andb append all_chars contains]; rewrite ?all_app, ?contains_app, ?S1, ?S2, ?H1, ?H2, ?Q1, ?Q2; split; reflexivity.
  Qed.
  Lemma parse_front : parse_nofrag (append (front sc h p) (query_text q)) = Some (build sc h p q "").
  Proof.
    destruct front_facts as [F1 _]. destruct parts as (Hs & Hh & Hp & Hq & _ & Hr & Hn). destruct (host_facts h Hh) as (_ & _ & H3 & H4 & H5 & _). destruct (path_facts p Hp) as (_ & _ & P3).
    destruct (path_set p Hp) as (d & Es & _ & _).
    unfold parse_nofrag. rewrite (all_impl printable) by (auto using printable_control). cbn [negb].
    assert (NS : String.eqb (append (front sc h p) (query_text q)) "*" = false).
    { destruct (String.eqb_spec (append (front sc h p) (query_text q)) "*") as [E|]; [|reflexivity]. exfalso. revert E. unfold front, query_text.
      destruct sc as [|c s]; cbn [empty andb append].
      - destruct h as [|c s]; cbn [empty append]; [|discriminate]. destruct p as [|c s]; cbn [append]; [destruct q; discriminate|]. intros [= -> E]. destruct s; [|discriminate E]. destruct q; [|discriminate E]. vm_compute in Hp. discriminate Hp.
      - intros [= -> E]. cbn [scheme_ok] in Hs. discriminate Hs. }
    rewrite NS.
    set (rest := append (append (if (empty sc && empty h)%bool then "" else append "//" h) p) (query_text q)).
    assert (GS : getScheme (append (front sc h p) (query_text q)) = Some (sc, rest) /\ lower sc = sc).
    { unfold front, rest. destruct sc as [|c s]; cbn [empty andb append] in *.
      - split; [|reflexivity]. destruct h as [|c s]; cbn [empty append] in *; [|reflexivity]. destruct (has_prefix "/" p) eqn:Ep.
        + rewrite has_prefix_slash in Ep. destruct p as [|c s]; [discriminate Ep|]. apply Ascii.eqb_eq in Ep. subst c. reflexivity.
        + cbn [orb] in Hr. apply negb_true_iff in Hr. unfold getScheme. rewrite (no_scheme_chars true p (query_text q)); auto. unfold query_text. destruct q; cbn; eauto.
      - cbn [scheme_ok] in Hs. apply andb_true_iff in Hs. destruct Hs as [Hs1 Hs2]. 
        destruct (scheme_parse c s rest Hs1 Hs2) as [G1 G2]. split; [|exact G2]. cbn [append] in G1. etransitivity; [|exact G1]. unfold rest. repeat (progress (rewrite ?append_assoc; cbn [append])). reflexivity. }
    destruct GS as [GS GL]. rewrite GS, GL.
    assert (X3 : contains "?" (append (if (empty sc && empty h)%bool then "" else append "//" h) p) = false).
    { rewrite contains_app, P3, orb_false_r. destruct (_ && _)%bool; [reflexivity|]. cbn [append contains]. rewrite H3. reflexivity. }
    assert (CUT : (let '(rest, query, force) :=
          if (ends_with_mark rest && Nat.eqb (count "?" rest) 1)%bool then (fst (fst (cut "?" rest)), "", true)
          else (fst (fst (cut "?" rest)), snd (fst (cut "?" rest)), false) in (rest, query, force)) = (append (if (empty sc && empty h)%bool then "" else append "//" h) p, q, false)).
    { unfold rest, query_text. destruct (empty q) eqn:Eq.
      - apply empty_spec in Eq. subst q. rewrite append_nil, no_mark by auto. cbn [andb]. rewrite cut_none by auto. reflexivity.
      - apply empty_false in Eq. cbn [append]. rewrite ends_mark_false by auto. rewrite cut_app by auto. reflexivity. }
    destruct (if (ends_with_mark rest && Nat.eqb (count "?" rest) 1)%bool then _ else _) as [[r1 q1] f1]. injection CUT as -> -> ->. clear rest GS X3.
    unfold build. cbn [empty fst snd]. rewrite Es. cbn [fst snd].
    destruct (empty sc && empty h)%bool eqn:Eb.
    - apply andb_true_iff in Eb. destruct Eb as [E1 E2]. apply empty_spec in E1. apply empty_spec in E2. cbn [append]. rewrite E1, E2. cbn [String.eqb negb orb].
      apply path_ok_iff in Hp. destruct Hp as (_ & Dp & _). destruct (has_prefix "/" p) eqn:Ep.
      + assert (N2 : has_prefix "//" p = false).
        { rewrite has_prefix_slash in Ep. destruct p as [|a s]; [discriminate Ep|]. apply Ascii.eqb_eq in Ep. subst a. change (has_prefix "//" (String "/" s)) with (has_prefix "/" s). rewrite has_prefix_slash. destruct s as [|b s]; [reflexivity|].
          destruct (Ascii.eqb_spec b "/") as [->|]; [|reflexivity]. cbn in Dp. discriminate Dp. }
        rewrite N2, andb_false_r. rewrite Es. reflexivity.
      + cbn [orb] in Hr. apply negb_true_iff in Hr. rewrite Hr, Es. reflexivity.
    - cbn [append]. assert (HP : has_prefix "/" (String "/" (String "/" (append h p))) = true) by reflexivity. rewrite HP.
      assert (HH : has_prefix "//" (String "/" (String "/" (append h p))) = true) by (unfold has_prefix; destruct (append h p); reflexivity). rewrite HH, andb_true_r.
      assert (H3' : (negb (String.eqb sc "") || negb (has_prefix "///" (String "/" (String "/" (append h p)))))%bool = true).
      { rewrite eqb_empty. destruct (empty sc) eqn:E1; [|reflexivity]. cbn [negb orb andb] in *. apply empty_false in Eb. destruct h as [|c h']; [congruence|]. cbn [contains] in H4. apply orb_false_iff in H4. destruct H4 as [H4 _].
        cbn [append]. change (has_prefix "///" (String "/" (String "/" (String c (append h' p))))) with (has_prefix "/" (String c (append h' p))). rewrite has_prefix_slash, H4. reflexivity. }
      rewrite H3'. unfold rooted in Hr. destruct p as [|c p'].
      + rewrite append_nil, (cut_none _ _ H4), H5, Es. reflexivity.
      + cbn [empty orb] in Hr. rewrite has_prefix_slash in Hr. apply Ascii.eqb_eq in Hr. subst c. rewrite (cut_app _ _ _ H4), H5, Es. reflexivity.
  Qed.
  Lemma parse_text : URL_Parse (text_of sc h p q f) = Some (build sc h p q f).
  Proof.
    destruct front_facts as [_ F2]. destruct parts as (_ & _ & _ & _ & Hf & _). rewrite text_front. unfold URL_Parse. destruct (fragment_facts f Hf) as [E|(E & _ & d & raw & Es & _)].
    - rewrite E. cbn [empty]. rewrite append_nil, cut_none, parse_front by auto. reflexivity.
    - rewrite (proj2 (empty_false f) E). cbn [append]. rewrite cut_app, parse_front by auto. rewrite eqb_empty, (proj2 (empty_false f) E), Es. unfold build, with_fragment. cbn. rewrite (proj2 (empty_false f) E), Es. reflexivity.
  Qed.
  (** Printing: the raw fragment of an absent fragment does not matter. *)
  Lemma print_parts rp rf : (f = "" \/ rf = RawFragment (build sc h p q f)) -> rp = RawPath (build sc h p q f) ->
    URL_String (Url sc "" None h (Path (build sc h p q f)) rp false false q (Fragment (build sc h p q f)) rf) = text_of sc h p q f.
  Proof.
    intros Rf ->. destruct parts as (Hs & Hh & Hp & Hq & Hf & Hr & Hn). destruct (host_facts h Hh) as (_ & _ & _ & _ & _ & H6). destruct (path_set p Hp) as (d & Es & Ed & EP).
    unfold URL_String. cbn [Scheme Opaque UserInfo Host OmitHost ForceQuery RawQuery]. rewrite !eqb_empty. cbn [empty negb].
    assert (PP : Path (build sc h p q f) = d /\ RawPath (build sc h p q f) = if String.eqb p (escape d encodePath) then "" else p) by (unfold build; rewrite Es; cbn; auto).
    destruct PP as [-> ->]. rewrite EP.
    assert (FF : (if empty (Fragment (build sc h p q f)) then "" else append "#" (EscapedFragment (Url sc "" None h d (if String.eqb p (escape d encodePath) then "" else p) false false q (Fragment (build sc h p q f)) rf))) = if empty f then "" else append "#" f).
    { destruct (fragment_facts f Hf) as [E|(E & _ & d' & raw & Es' & Nd & EF)].
      - rewrite E. unfold build. reflexivity.
      - destruct Rf as [Rf| ->]; [congruence|]. unfold build. rewrite (proj2 (empty_false f) E), Es'. cbn [Fragment RawFragment fst snd]. rewrite (proj2 (empty_false d') Nd), EF. reflexivity. }
    cbn [Fragment Path]. rewrite FF. clear FF. unfold text_of. rewrite H6. fold (query_text q). cbn [orb].
    assert (Q : (if negb (empty q) then append "?" q else "") = query_text q) by (unfold query_text; destruct (empty q); reflexivity). rewrite Q. clear Q.
    assert (D : empty d = empty p). { destruct (empty p) eqn:E. - apply empty_spec in E. apply empty_spec. apply Ed. auto. - apply empty_false in E. apply empty_false. intros Hd. apply E, Ed. auto. } rewrite D.
    unfold rooted in Hr. destruct (empty sc) eqn:E1, (empty h) eqn:E2; cbn [negb andb orb] in *.
    - apply empty_spec in E1. apply empty_spec in E2. subst sc h. rewrite andb_false_r. cbn [empty andb].
      assert (C : contains ":" (fst (fst (cut "/" p))) = false).
      { destruct (has_prefix "/" p) eqn:Ep; [|apply negb_true_iff; exact Hr]. rewrite has_prefix_slash in Ep. destruct p as [|c s]; [discriminate Ep|]. apply Ascii.eqb_eq in Ep. subst c. reflexivity. }
      rewrite C. reflexivity.
    - assert (N : (negb (empty p) && negb (has_prefix "/" p) && negb (empty h))%bool = false) by (rewrite E2; destruct (empty p), (has_prefix "/" p); cbn in *; auto; discriminate Hr).
      rewrite E2 in N. cbn [negb] in N. rewrite N. cbn [append empty andb]. rewrite !append_assoc. reflexivity.
    - rewrite andb_false_r. rewrite Hn. cbn [append]. rewrite append_nil.
      assert (N : forall x, empty (append (append sc ":") x) = false) by (intros x; destruct sc; reflexivity). rewrite N. cbn [andb]. apply empty_spec in E2. subst h. rewrite !append_assoc. reflexivity.
    - assert (N : (negb (empty p) && negb (has_prefix "/" p) && true)%bool = false) by (destruct (empty p), (has_prefix "/" p); cbn in *; auto; discriminate Hr).
      rewrite N. cbn [append].
      assert (N2 : forall x, empty (append (append sc ":") x) = false) by (intros x; destruct sc; reflexivity). rewrite N2. cbn [andb]. rewrite !append_assoc. reflexivity.
  Qed.
  Lemma print_build : URL_String (build sc h p q f) = text_of sc h p q f.
  Proof. rewrite <- (print_parts (RawPath (build sc h p q f)) (RawFragment (build sc h p q f))); auto. Qed.
  Lemma parts_plain : plain_ref (text_of sc h p q f) = true.
  Proof.
    destruct parts as (_ & _ & Hp & _ & Hf & _). unfold plain_ref. rewrite parse_text. destruct (path_set p Hp) as (d & Es & Ed & EP).
    assert (E1 : EscapedPath (build sc h p q f) = p) by (unfold build; rewrite Es; apply EP).
    assert (E2 : (if empty (Fragment (build sc h p q f)) then "" else EscapedFragment (build sc h p q f)) = f).
    { destruct (fragment_facts f Hf) as [E|(E & _ & d' & raw & Es' & Nd & EF)]; [rewrite E; reflexivity|]. unfold build. rewrite (proj2 (empty_false f) E), Es'. cbn [Fragment fst snd]. rewrite (proj2 (empty_false d') Nd). apply EF. }
    rewrite E1, E2. cbn [Scheme Host RawQuery build]. rewrite OK, String.eqb_refl. reflexivity.
  Qed.
  Lemma text_printable : all_chars printable (text_of sc h p q f) = true.
  Proof.
    rewrite text_front, all_app. destruct front_facts as [-> _]. destruct parts as (_ & _ & _ & _ & Hf & _). destruct (fragment_facts f Hf) as [E|(E & Pf & _)]; [rewrite E; reflexivity|].
    rewrite (proj2 (empty_false f) E). cbn [append all_chars]. rewrite Pf. reflexivity.
  Qed.
End Parts.

Lemma plain_parts s : plain_ref s = true -> exists sc h p q f, parts_ok sc h p q f = true /\ s = text_of sc h p q f.
Proof.
  unfold plain_ref. destruct (URL_Parse s) as [u|]; [|discriminate]. cbv zeta. rewrite andb_true_iff. intros [H1 H2]. apply String.eqb_eq in H2. eauto 10.
Qed.

(** ** The laws *)
Lemma plain_text s : plain_ref s = true -> all_chars printable s = true.
Proof. intros H. apply plain_parts in H. destruct H as (sc & h & p & q & f & OK & ->). apply text_printable; auto. Qed.
Lemma plain_parse s : plain_ref s = true -> ref_parse s = Some s.
Proof. intros H. apply plain_parts in H. destruct H as (sc & h & p & q & f & OK & ->). unfold ref_parse. rewrite parse_text, print_build; auto. Qed.

Lemma parts_nofrag sc h p q f : parts_ok sc h p q f = true -> parts_ok sc h p q "" = true.
Proof. unfold parts_ok. rewrite !andb_true_iff. intros ((((((A & B) & C) & D) & _) & E) & F). repeat split; auto. Qed.
Lemma strip_text sc h p q f : parts_ok sc h p q f = true -> ref_strip (text_of sc h p q f) = text_of sc h p q "".
Proof.
  intros OK. unfold ref_strip. rewrite parse_text by auto. pose proof (parts_nofrag _ _ _ _ _ OK) as OK0. rewrite <- (print_parts _ _ _ _ _ OK0 (RawPath (build sc h p q "")) (RawFragment (build sc h p q f))); auto.
Qed.
Lemma plain_strip s : plain_ref s = true ->
  plain_ref (ref_strip s) = true /\ ref_strip (ref_strip s) = ref_strip s /\ ref_fragment (ref_strip s) = "" /\ ref_canonical (ref_strip s) = ref_canonical s.
Proof.
  intros H. apply plain_parts in H. destruct H as (sc & h & p & q & f & OK & ->). pose proof (parts_nofrag _ _ _ _ _ OK) as OK0. rewrite (strip_text _ _ _ _ _ OK).
  split; [apply parts_plain; auto|]. split; [apply strip_text; auto|]. unfold ref_fragment, ref_canonical. rewrite !parse_text by auto. split; reflexivity.
Qed.

Lemma resolve_parts scb hb pb qb fb scr hr pr qr fr : parts_ok scb hb pb qb fb = true -> parts_ok scr hr pr qr fr = true ->
  exists sc h p q, parts_ok sc h p q fr = true /\
    URL_String (ResolveReference (no_fragment (build scb hb pb qb fb)) (build scr hr pr qr fr)) = text_of sc h p q fr /\
    (sc, h, p, q) = if (negb (empty scr) || negb (empty hr))%bool then (if empty scr then scb else scr, hr, resolvePath pr "", qr)
                    else (scb, hb, resolvePath pb pr, if (empty pr && empty qr)%bool then qb else qr).
Proof.
  intros OKb OKr. pose proof (parts _ _ _ _ _ OKb) as (Bs & Bh & Bp & Bq & Bf & Br & Bn). pose proof (parts _ _ _ _ _ OKr) as (Rs & Rh & Rp & Rq & Rf & Rr & Rn).
  destruct (path_set pb Bp) as (db & Ebs & Ebd & EBP). destruct (path_set pr Rp) as (dr & Ers & Erd & ERP).
  pose proof (proj1 (path_ok_iff pb) Bp) as (Wb & Db & Nb). pose proof (proj1 (path_ok_iff pr) Rp) as (Wr & Dr & Nr).
  assert (EPr : forall sc h q f, EscapedPath (build sc h pr q f) = pr) by (intros; unfold build; rewrite Ers; apply ERP).
  assert (EPb : EscapedPath (no_fragment (build scb hb pb qb fb)) = pb) by (unfold build; rewrite Ebs; apply EBP).
  unfold ResolveReference. cbn [Scheme Host UserInfo Opaque build no_fragment]. rewrite !eqb_empty. cbn [orb]. rewrite orb_false_r.
  assert (FIN : forall p oth1 oth2 sc h q fg rf, path_ok p = true -> parts_ok sc h p q fr = true -> fg = Fragment (build sc h p q fr) -> (fr = "" \/ rf = RawFragment (build sc h p q fr)) ->
     URL_String (set_path (Url sc "" None h oth1 oth2 false false q fg rf) p) = text_of sc h p q fr).
  { intros p o1 o2 sc h q fg rf Hp OK -> Hrf. rewrite <- (print_parts _ _ _ _ _ OK (RawPath (build sc h p q fr)) rf Hrf eq_refl). unfold set_path. destruct (path_set p Hp) as (d & Es & _ & _). rewrite Es. unfold build. rewrite Es. reflexivity. }
  destruct (negb (empty scr) || negb (empty hr))%bool eqn:EA.
  - rewrite EPr. destruct (resolvePath_ok pr "" Wr Dr well_nil eq_refl) as (Wp & Dp & Fp).
    assert (Hp : path_ok (resolvePath pr "") = true).
    { apply path_ok_iff. split; auto. split; auto. destruct Fp as [[_ ->]|[t ->]]; [cbn; congruence|apply rooted_not_star]. }
    set (sc := if empty scr then scb else scr).
    assert (OK : parts_ok sc hr (resolvePath pr "") qr fr = true).
    { unfold parts_ok. assert (S : scheme_ok sc = true) by (unfold sc; destruct (empty scr); auto). rewrite S, Rh, Hp, Rq, Rf. cbn [andb].
      assert (RT : rooted (resolvePath pr "") = true) by (destruct Fp as [[_ ->]|[t ->]]; [reflexivity|unfold rooted; cbn [empty orb]; rewrite has_prefix_slash; apply Ascii.eqb_refl]).
      assert (Z : (empty sc && empty hr)%bool = false) by (unfold sc; destruct (empty scr) eqn:E; [cbn [negb orb] in EA; destruct (empty hr); [discriminate EA|apply andb_false_r]|rewrite E; reflexivity]).
      rewrite Z, RT. cbn [andb]. destruct (empty hr) eqn:E2; [|rewrite orb_true_r; reflexivity]. cbn [negb orb] in *. rewrite orb_false_r in *.
      assert (E1 : empty scr = false) by (destruct (empty scr); auto). rewrite E1 in Rn. cbn [orb] in Rn. apply negb_true_iff in Rn.
      destruct Fp as [[Fp _]|[t ->]]; [|apply orb_true_r]. unfold full_path in Fp. cbn [empty] in Fp. rewrite Fp in Rn. discriminate Rn. }
    exists sc, hr, (resolvePath pr ""), qr. split; [exact OK|]. split; auto.
  - apply orb_false_iff in EA. destruct EA as [E1 E2]. apply negb_false_iff in E1. apply negb_false_iff in E2. cbn [empty negb]. rewrite E1.
    rewrite EPb, EPr.
    destruct (resolvePath_ok pb pr Wb Db Wr Dr) as (Wp & Dp & Fp).
    assert (Hp : path_ok (resolvePath pb pr) = true).
    { apply path_ok_iff. split; auto. split; auto. destruct Fp as [[_ ->]|[t ->]]; [cbn; congruence|apply rooted_not_star]. }
    assert (DR : empty (Path (build scr hr pr qr fr)) = empty pr).
    { unfold build. rewrite Ers. cbn [Path fst]. destruct (empty pr) eqn:E. - apply empty_spec in E. apply empty_spec, Erd. auto. - apply empty_false in E. apply empty_false. intros Hd. apply E, Erd. auto. }
    set (q := if (empty pr && empty qr)%bool then qb else qr).
    assert (Hq : query_ok q = true) by (unfold q; destruct (empty pr && empty qr)%bool; [exact Bq|exact Rq]).
    assert (OK : parts_ok scb hb (resolvePath pb pr) q fr = true).
    { unfold parts_ok. rewrite Bs, Bh, Hp, Hq, Rf. cbn [andb].
      assert (RT : rooted (resolvePath pb pr) = true) by (destruct Fp as [[_ ->]|[t ->]]; [reflexivity|unfold rooted; cbn [empty orb]; rewrite has_prefix_slash; apply Ascii.eqb_refl]).
      assert (Z : (if (empty scb && empty hb)%bool then (has_prefix "/" (resolvePath pb pr) || negb (contains ":" (fst (fst (cut "/" (resolvePath pb pr))))))%bool else rooted (resolvePath pb pr)) = true).
      { rewrite RT. destruct (empty scb && empty hb)%bool; auto. destruct Fp as [[_ ->]|[t ->]]; [reflexivity|rewrite has_prefix_slash, Ascii.eqb_refl; reflexivity]. }
      rewrite Z. cbn [andb]. destruct (empty scb); [reflexivity|]. destruct (empty hb); [|reflexivity]. cbn [negb orb] in *. destruct Fp as [[Fp _]|[t ->]]; [|reflexivity].
      exfalso. apply negb_true_iff, empty_false in Bn. unfold full_path in Fp. destruct (empty pr) eqn:Er; [auto|]. destruct (has_prefix "/" pr); [apply empty_false in Er; auto|].
      apply empty_false in Er. destruct (cut_last "/" pb) as [[x y]|]; [destruct x; discriminate Fp|]. destruct pr; [congruence|discriminate Fp]. }
    exists scb, hb, (resolvePath pb pr), q. split; [exact OK|]. split; [|reflexivity].
    rewrite DR. change (ForceQuery (build scr hr pr qr fr)) with false. change (RawQuery (build scr hr pr qr fr)) with qr. change (RawQuery (no_fragment (build scb hb pb qb fb))) with qb.
    change (OmitHost (build scr hr pr qr fr)) with false. cbn [negb]. rewrite andb_true_r. fold q.
    destruct (empty pr && empty qr && empty (Fragment (build scr hr pr qr fr)))%bool eqn:EF.
    + assert (F0 : fr = "").
      { apply andb_true_iff in EF. destruct EF as [_ EF]. destruct (fragment_facts fr Rf) as [E|(E & _ & d' & raw & Es' & Nd & _)]; auto. exfalso. apply empty_spec in EF. unfold build in EF. rewrite (proj2 (empty_false fr) E), Es' in EF. apply Nd. exact EF. }
      cbn [fst snd]. subst fr. apply (FIN (resolvePath pb pr) _ _ scb hb q); auto.
    + cbn [fst snd]. apply (FIN (resolvePath pb pr) _ _ scb hb q); auto.
Qed.
Lemma plain_inherits b r : plain_ref b = true -> plain_ref r = true -> exists x, ref_inherits b r = Some x /\ plain_ref x = true.
Proof.
  intros Hb Hr. apply plain_parts in Hb. apply plain_parts in Hr. destruct Hb as (scb & hb & pb & qb & fb & OKb & ->). destruct Hr as (scr & hr & pr & qr & fr & OKr & ->).
  destruct (resolve_parts _ _ _ _ _ _ _ _ _ _ OKb OKr) as (sc & h & p & q & OK & E & _). exists (text_of sc h p q fr). split; [|apply parts_plain; auto].
  unfold ref_inherits. rewrite !parse_text by auto. rewrite E. apply plain_parse. apply parts_plain. auto.
Qed.
