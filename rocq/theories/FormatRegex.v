(** The regular expressions of format_checkers.go against the grammars of
    SpecFormat. *)
From Verif Require Import Base ModelFormat SpecFormat.
From Coq Require Import Lia Bool.
Open Scope string_scope.
Open Scope list_scope.
Open Scope nat_scope.

(** ** Languages *)
Inductive lang : re -> string -> Prop :=
| l_eps : lang REps ""
| l_set f c : f c = true -> lang (RSet f) (String c "")
| l_seq a b s t : lang a s -> lang b t -> lang (RSeq a b) (s ++ t)
| l_left a b s : lang a s -> lang (RAlt a b) s
| l_right a b s : lang b s -> lang (RAlt a b) s
| l_nil a : lang (RStar a) ""
| l_cons a s t : lang a s -> lang (RStar a) t -> lang (RStar a) (s ++ t).

Lemma app_nil_r_s : forall s, (s ++ "")%string = s.
Proof. induction s; cbn; congruence. Qed.
Lemma app_assoc_s : forall a b c, ((a ++ b) ++ c)%string = (a ++ (b ++ c))%string.
Proof. induction a; intros; cbn; congruence. Qed.
Lemma lang_none : forall s, ~ lang RNone s.
Proof. intros s H. inversion H. Qed.
Lemma lang_eps : forall s, lang REps s <-> s = "".
Proof. split; [now inversion 1 | intros ->; constructor]. Qed.
Lemma lang_set : forall f s, lang (RSet f) s <-> exists c, s = String c "" /\ f c = true.
Proof. split; [inversion 1; eauto | intros [c [-> H]]; now constructor]. Qed.
Lemma lang_seq : forall a b u, lang (RSeq a b) u <-> exists s t, u = (s ++ t)%string /\ lang a s /\ lang b t.
Proof. split; [inversion 1; eauto | intros [s [t [-> [? ?]]]]; now constructor]. Qed.
Lemma lang_alt : forall a b u, lang (RAlt a b) u <-> lang a u \/ lang b u.
Proof. split; [inversion 1; auto | intros [?|?]; [now apply l_left | now apply l_right]]. Qed.
Lemma lang_nullable : forall r, nullable r = true <-> lang r "".
Proof.
  induction r; cbn.
  - split; [discriminate | intros H; now apply lang_none in H].
  - split; [intros; constructor | reflexivity].
  - split; [discriminate | inversion 1].
  - rewrite andb_true_iff, IHr1, IHr2, lang_seq. split.
    + intros [H1 H2]. exists "", "". auto.
    + intros [s [t [E [H1 H2]]]]. destruct s; [cbn in E; subst t; auto | discriminate E].
  - rewrite orb_true_iff, IHr1, IHr2, lang_alt. tauto.
  - split; [intros; constructor | reflexivity].
Qed.
Lemma seq_lang : forall a b u, lang (seq a b) u <-> lang (RSeq a b) u.
Proof.
  intros a b u. rewrite lang_seq.
  destruct a, b; cbn; try (rewrite lang_seq; reflexivity);
    split; try (intros H; now apply lang_none in H);
    try (intros [s [t [_ [H H']]]]; (apply lang_none in H || apply lang_none in H'); contradiction);
    try (intros H; exists "", u; repeat split; [constructor | assumption]);
    try (intros H; exists u, ""; rewrite app_nil_r_s; repeat split; [assumption | constructor]);
    intros [s [t [-> [H H']]]];
    try (apply lang_eps in H; subst s; exact H');
    apply lang_eps in H'; subst t; rewrite app_nil_r_s; exact H.
Qed.
Lemma alt_lang : forall a b u, lang (alt a b) u <-> lang (RAlt a b) u.
Proof.
  intros a b u. rewrite lang_alt.
  destruct a, b; cbn; try (rewrite lang_alt; reflexivity);
    split; auto; intros [H|H]; auto; exfalso; exact (lang_none _ H).
Qed.
Lemma star_cons : forall a c u, lang (RStar a) (String c u) -> exists s t, u = (s ++ t)%string /\ lang a (String c s) /\ lang (RStar a) t.
Proof.
  intros a c u H. remember (RStar a) as r eqn:E. remember (String c u) as w eqn:Ew. revert c u Ew.
  induction H; intros d u Ew; try discriminate E; try discriminate Ew.
  injection E as ->. destruct s as [|x s].
  - cbn in Ew. now apply IHlang2.
  - cbn in Ew. injection Ew as <- <-. exists s, t. auto.
Qed.
Lemma deriv_lang : forall r c u, lang (deriv c r) u <-> lang r (String c u).
Proof.
  induction r; intros c u; cbn [deriv].
  - split; intros H; exfalso; revert H; apply lang_none.
  - split; [intros H; exfalso; revert H; apply lang_none | intros H; apply lang_eps in H; discriminate H].
  - rewrite lang_set. destruct (f c) eqn:F.
    + rewrite lang_eps. split; [intros ->; eauto | intros [d [E _]]; now injection E].
    + split; [intros H; exfalso; revert H; apply lang_none | intros [d [E H]]; injection E as -> ->; congruence].
  - assert (S1 : lang (seq (deriv c r1) r2) u <-> exists s t, u = (s ++ t)%string /\ lang r1 (String c s) /\ lang r2 t).
    { rewrite seq_lang, lang_seq. split; intros [s [t [-> [H1 H2]]]]; exists s, t; rewrite IHr1 in *; auto. }
    rewrite (lang_seq r1 r2 (String c u)).
    destruct (nullable r1) eqn:N.
    + rewrite alt_lang, lang_alt, S1, IHr2. split.
      * intros [[s [t [-> [H1 H2]]]] | H].
        { exists (String c s), t. auto. }
        { exists "", (String c u). repeat split; auto. now apply lang_nullable. }
      * intros [s [t [E [H1 H2]]]]. destruct s as [|x s].
        { cbn in E. subst t. auto. }
        { cbn in E. injection E as <- ->. left. exists s, t. auto. }
    + rewrite S1. split.
      * intros [s [t [-> [H1 H2]]]]. exists (String c s), t. auto.
      * intros [s [t [E [H1 H2]]]]. destruct s as [|x s].
        { apply lang_nullable in H1. congruence. }
        { cbn in E. injection E as <- ->. exists s, t. auto. }
  - rewrite alt_lang, !lang_alt, IHr1, IHr2. tauto.
  - rewrite seq_lang, lang_seq. split.
    + intros [s [t [-> [H1 H2]]]]. apply IHr in H1. exact (l_cons _ _ _ H1 H2).
    + intros H. apply star_cons in H. destruct H as [s [t [-> [H1 H2]]]]. exists s, t. rewrite IHr. auto.
Qed.
Theorem rx_lang : forall s r, rx r s = true <-> lang r s.
Proof. induction s; intros r; cbn; [apply lang_nullable | rewrite IHs; apply deriv_lang]. Qed.

(** ** Characters *)
Lemma among_b : forall set c, among set c <-> existsb (Ascii.eqb c) (list_ascii_of_string set) = true.
Proof.
  intros. unfold among. rewrite existsb_exists. split.
  - intros H. exists c. split; [exact H | apply Ascii.eqb_refl].
  - intros [d [H E]]. apply Ascii.eqb_eq in E. now subst d.
Qed.
Lemma digit_char : forall c, is_digit c = true <-> among DIGITS c.
Proof.
  intros c. rewrite among_b. replace (is_digit c) with (existsb (Ascii.eqb c) (list_ascii_of_string DIGITS)); [tauto|].
  destruct c as [[] [] [] [] [] [] [] []]; vm_compute; reflexivity.
Qed.
Lemma hex_char : forall c, is_hex c = true <-> among HEXDIGITS c.
Proof.
  intros c. rewrite among_b. replace (is_hex c) with (existsb (Ascii.eqb c) (list_ascii_of_string HEXDIGITS)); [tauto|].
  destruct c as [[] [] [] [] [] [] [] []]; vm_compute; reflexivity.
Qed.
Lemma alnum_char : forall c, is_alnum c = true <-> among LETTERS c \/ among DIGITS c.
Proof.
  intros c. rewrite !among_b, <- orb_true_iff.
  replace (is_alnum c) with (existsb (Ascii.eqb c) (list_ascii_of_string LETTERS) || existsb (Ascii.eqb c) (list_ascii_of_string DIGITS))%bool; [tauto|].
  destruct c as [[] [] [] [] [] [] [] []]; vm_compute; reflexivity.
Qed.
Lemma is_lang : forall c s, lang (is c) s <-> s = String c "".
Proof.
  intros. unfold is. rewrite lang_set. split.
  - intros [d [-> E]]. apply Ascii.eqb_eq in E. now subst.
  - intros ->. exists c. split; [reflexivity | apply Ascii.eqb_refl].
Qed.
Lemma len_app : forall a b, String.length (a ++ b) = String.length a + String.length b.
Proof. induction a; intros; cbn; [reflexivity | now rewrite IHa]. Qed.
Lemma get_left : forall a b i, i < String.length a -> get i (a ++ b) = get i a.
Proof. induction a; intros b [|i] H; cbn in *; try lia; auto. apply IHa. lia. Qed.
Lemma get_right : forall a b i, get (String.length a + i) (a ++ b) = get i b.
Proof. induction a; intros; cbn; auto. Qed.
Lemma get_some : forall s i c, get i s = Some c -> i < String.length s.
Proof. induction s; intros [|i] c H; cbn in *; try discriminate H; try lia. apply IHs in H. lia. Qed.
Lemma get_lt : forall s i, i < String.length s -> exists c, get i s = Some c.
Proof. induction s; intros [|i] H; cbn in *; try lia; eauto. apply IHs. lia. Qed.
Lemma all_nil : forall P, all P "".
Proof. intros P i c H. destruct i; discriminate H. Qed.
Lemma all_cons : forall P c s, all P (String c s) <-> P c /\ all P s.
Proof.
  intros P c s. split.
  - intros H. split; [exact (H 0 c eq_refl) | intros i d E; exact (H (S i) d E)].
  - intros [H1 H2] [|i] d E; cbn in E; [injection E as <-; exact H1 | exact (H2 i d E)].
Qed.
Lemma all_app : forall P a b, all P (a ++ b) <-> all P a /\ all P b.
Proof.
  induction a; intros b; cbn.
  - split; [intros H; split; [apply all_nil | exact H] | tauto].
  - rewrite !all_cons, IHa. tauto.
Qed.
Lemma all_imp : forall (P Q : ascii -> Prop) s, (forall c, P c -> Q c) -> all P s -> all Q s.
Proof. intros P Q s H A i c E. apply H, (A i c E). Qed.
Lemma star_set : forall f s, lang (RStar (RSet f)) s <-> all (fun c => f c = true) s.
Proof.
  intros f s. split.
  - induction s; intros H; [apply all_nil|].
    apply star_cons in H. destruct H as [u [v [-> [H1 H2]]]]. apply lang_set in H1.
    destruct H1 as [d [E F]]. injection E as -> ->. cbn. rewrite all_cons. auto.
  - induction s; intros H; [constructor|]. rewrite all_cons in H. destruct H as [F A].
    exact (l_cons _ (String a "") s (l_set _ _ F) (IHs A)).
Qed.
Lemma times_set : forall f n s, lang (rtimes n (RSet f)) s <-> String.length s = n /\ all (fun c => f c = true) s.
Proof.
  induction n; intros s; cbn [rtimes].
  - rewrite lang_eps. split; [intros ->; split; [reflexivity | apply all_nil] | intros [H _]; destruct s; [reflexivity | discriminate H]].
  - rewrite lang_seq. split.
    + intros [u [v [-> [H1 H2]]]]. apply lang_set in H1. destruct H1 as [c [-> F]]. apply IHn in H2. destruct H2 as [L A].
      cbn. rewrite all_cons. auto.
    + intros [L A]. destruct s as [|c s]; [discriminate L|]. rewrite all_cons in A. destruct A as [F A].
      exists (String c ""), s. repeat split; [now constructor | apply IHn; cbn in L; auto].
Qed.
Lemma upto_set : forall f n s, lang (rupto n (RSet f)) s <-> String.length s <= n /\ all (fun c => f c = true) s.
Proof.
  induction n; intros s; cbn [rupto].
  - rewrite lang_eps. split; [intros ->; split; [auto | apply all_nil] | intros [H _]; destruct s; [reflexivity | cbn in H; lia]].
  - rewrite lang_alt, lang_eps, lang_seq. split.
    + intros [-> | [u [v [-> [H1 H2]]]]]; [split; [cbn; lia | apply all_nil]|].
      apply lang_set in H1. destruct H1 as [c [-> F]]. apply IHn in H2. destruct H2 as [L A].
      cbn. rewrite all_cons. split; [lia | auto].
    + intros [L A]. destruct s as [|c s]; [auto|]. rewrite all_cons in A. destruct A as [F A]. right.
      exists (String c ""), s. repeat split; [now constructor | apply IHn; cbn in L; split; [lia | exact A]].
Qed.

(** ** uuid *)
Fixpoint fits_chars (fs : list (ascii -> bool)) (s : string) : Prop :=
  match fs, s with [], EmptyString => True | f :: fs', String c s' => f c = true /\ fits_chars fs' s' | _, _ => False end.
Lemma fits_chars_app : forall fs gs s, fits_chars (fs ++ gs) s <-> exists a b, s = (a ++ b)%string /\ fits_chars fs a /\ fits_chars gs b.
Proof.
  induction fs; intros gs s; cbn.
  - split; [intros H; exists "", s; cbn; auto | intros [u [v [-> [H1 H2]]]]; destruct u; [exact H2 | contradiction]].
  - destruct s as [|c s].
    + split; [contradiction | intros [u [v [E [H1 H2]]]]; destruct u; [contradiction | discriminate E]].
    + rewrite IHfs. split.
      * intros [F [u [v [-> [H1 H2]]]]]. exists (String c u), v. cbn. auto.
      * intros [u [v [E [H1 H2]]]]. destruct u; [contradiction|]. destruct H1 as [F H1]. cbn in E. injection E as -> ->. split; [exact F|]. exists u, v. auto.
Qed.
Lemma fits_chars_get : forall fs s, fits_chars fs s <-> String.length s = List.length fs /\ forall i c, get i s = Some c -> nth i fs (fun _ => false) c = true.
Proof.
  induction fs; intros s; destruct s as [|c s]; cbn.
  - split; [intros _; split; [reflexivity | intros [|i] c H; discriminate H] | auto].
  - split; [contradiction | intros [H _]; discriminate H].
  - split; [contradiction | intros [H _]; discriminate H].
  - rewrite IHfs. split.
    + intros [F [L H]]. split; [now rewrite L|]. intros [|i] d E; cbn in E; [injection E as <-; exact F | exact (H i d E)].
    + intros [L H]. repeat split; [exact (H 0 c eq_refl) | now injection L | intros i d E; exact (H (S i) d E)].
Qed.
Definition is_of (r : re) (fs : list (ascii -> bool)) : Prop := forall s, lang r s <-> fits_chars fs s.
Lemma of_seq : forall a b fs gs, is_of a fs -> is_of b gs -> is_of (RSeq a b) (fs ++ gs).
Proof.
  intros a b fs gs A B s. rewrite lang_seq, fits_chars_app. split; intros [u [v [-> [H1 H2]]]]; exists u, v; split; auto; split; (apply A || apply B); assumption.
Qed.
Lemma of_set : forall f, is_of (RSet f) [f].
Proof.
  intros f s. rewrite lang_set. split.
  - intros [c [-> F]]. cbn. auto.
  - destruct s as [|c [|d s]]; cbn; [contradiction | intros [F _]; eauto | tauto].
Qed.
Lemma of_eps : is_of REps [].
Proof. intros s. rewrite lang_eps. destruct s; cbn; split; auto; [discriminate | contradiction]. Qed.
Lemma of_times : forall f n, is_of (rtimes n (RSet f)) (repeat f n).
Proof. induction n; cbn [rtimes repeat]; [apply of_eps | exact (of_seq _ _ [f] (repeat f n) (of_set f) IHn)]. Qed.
Definition UUID : list (ascii -> bool) :=
  let h := repeat is_hex 4 in let d := [Ascii.eqb "-"] in
  repeat is_hex 8 ++ d ++ h ++ d ++ h ++ d ++ h ++ d ++ repeat is_hex 12.
Lemma of_uuid : is_of rxUUID UUID.
Proof. unfold rxUUID, UUID, is. cbv zeta. repeat first [apply of_seq | apply of_set | apply of_times]. Qed.
Lemma UUID_nth : forall i c, i < 36 -> nth i UUID (fun _ => false) c = if in_dec Nat.eq_dec i [8; 13; 18; 23] then Ascii.eqb "-" c else is_hex c.
Proof.
  intros i c H. do 36 (destruct i as [|i]; [reflexivity|]). lia.
Qed.
Theorem uuid_right : forall s, rx rxUUID s = true <-> uuid s.
Proof.
  intros s. rewrite rx_lang, (of_uuid s), fits_chars_get. unfold uuid. change (List.length UUID) with 36.
  split; intros [L H]; (split; [exact L|]); intros i c E; pose proof (get_some _ _ _ E) as Li; rewrite L in Li;
    specialize (H i c E); rewrite (UUID_nth i c Li) in *; destruct (in_dec Nat.eq_dec i [8; 13; 18; 23]).
  - apply Ascii.eqb_eq in H. auto.
  - now apply hex_char.
  - subst c. reflexivity.
  - now apply hex_char.
Qed.

(** ** hostname *)
Lemma last_char : forall s, s <> "" -> exists m b, s = (m ++ String b "")%string /\ get (String.length s - 1) s = Some b.
Proof.
  induction s; intros H; [congruence|]. destruct s as [|c s].
  - exists "", a. auto.
  - destruct IHs as [m [b [E G]]]; [discriminate|]. exists (String a m), b. cbn [append]. rewrite <- E. split; [reflexivity|].
    cbn [String.length] in *. replace (S (S (String.length s)) - 1) with (S (S (String.length s) - 1)) by lia. exact G.
Qed.
Definition name_char (c : ascii) : bool := (is_alnum c || Ascii.eqb c "-")%bool.
Lemma name_char_right : forall c, name_char c = true <-> among LETTERS c \/ among DIGITS c \/ c = "-"%char.
Proof. intros. unfold name_char. rewrite orb_true_iff, alnum_char, Ascii.eqb_eq. tauto. Qed.
Lemma alnum_name : forall c, is_alnum c = true <-> name_char c = true /\ c <> "-"%char.
Proof.
  intros c. unfold name_char. rewrite orb_true_iff, Ascii.eqb_eq. split.
  - intros H. split; [auto | intros ->; discriminate H].
  - tauto.
Qed.
Lemma label_right : forall s, lang host_label s <-> label s.
Proof.
  intros s. unfold host_label, label. rewrite lang_alt, lang_set, lang_seq.
  assert (NC : forall t, all (fun c => name_char c = true) t <-> all (fun c => among LETTERS c \/ among DIGITS c \/ c = "-"%char) t).
  { intros t. split; apply all_imp; intros c; apply name_char_right. }
  split.
  - intros [[c [-> F]] | [u [v [-> [H1 H2]]]]].
    + apply alnum_name in F. destruct F as [F N]. cbn. repeat split; try lia; try congruence.
      apply NC, all_cons. split; [exact F | apply all_nil].
    + apply lang_set in H1. destruct H1 as [a [-> A]]. apply lang_seq in H2. destruct H2 as [m [w [-> [H2 H3]]]].
      apply lang_set in H3. destruct H3 as [b [-> B]]. apply upto_set in H2. destruct H2 as [L M].
      apply alnum_name in A, B. cbn. rewrite len_app. cbn. repeat split; try lia.
      * apply NC, all_cons. split; [tauto|]. apply all_app. split; [exact M|]. apply all_cons. split; [tauto | apply all_nil].
      * destruct A. congruence.
      * pose proof (get_right m (String b "") 0) as G. cbn [get] in G.
        match goal with |- context [match ?k with O => _ | S _ => _ end] => replace k with (S (String.length m + 0)) by lia end.
        rewrite G. destruct B. congruence.
  - intros [L [A [F B]]]. destruct s as [|a s]; [cbn in L; lia|]. apply NC in A. cbn in F.
    apply all_cons in A. destruct A as [Aa As].
    assert (is_alnum a = true) by (apply alnum_name; split; [exact Aa | congruence]).
    destruct s as [|b s]; [left; exists a; auto|]. right.
    destruct (last_char (String b s)) as [m [e [E G]]]; [discriminate|]. rewrite E in *. clear b s E.
    exists (String a ""), (m ++ String e "")%string. split; [reflexivity|]. split; [now constructor|].
    apply all_app in As. destruct As as [Am Ae]. apply all_cons in Ae. destruct Ae as [Ae _].
    apply lang_seq. exists m, (String e ""). split; [reflexivity|]. cbn in L. rewrite len_app in L. cbn in L. split.
    + apply upto_set. split; [lia | exact Am].
    + constructor. apply alnum_name. split; [exact Ae|].
      cbn [String.length] in B. rewrite len_app in B, G. cbn in B, G.
      replace (String.length m + 1 - 1) with (String.length m) in G by lia.
      replace (String.length m + 1 - 0) with (S (String.length m)) in B by lia. cbn in B. congruence.
Qed.
Lemma dots_right : forall t, lang (RStar (RSeq (is ".") host_label)) t <-> exists ls, Forall label ls /\ t = fold_right (fun l r => ("." ++ l ++ r)%string) "" ls.
Proof.
  intros t. split.
  - intros H. remember (RStar (RSeq (is ".") host_label)) as r eqn:E.
    induction H; try discriminate E.
    + exists []. cbn. auto.
    + injection E as ->. destruct (IHlang2 eq_refl) as [ls [F ->]]. apply lang_seq in H. destruct H as [u [l [-> [H1 H2]]]].
      apply is_lang in H1. subst u. exists (l :: ls). split; [constructor; [now apply label_right | exact F]|]. cbn. reflexivity.
  - intros [ls [F ->]]. induction F as [|l ls Hl F IH]; cbn; [constructor|].
    apply (l_cons _ (String "." l)); [|exact IH]. apply (l_seq _ _ (String "." "") l); [now apply is_lang | now apply label_right].
Qed.
Lemma concat_fold : forall ls l, String.concat "." (l :: ls) = (l ++ fold_right (fun l r => ("." ++ l ++ r)%string) "" ls)%string.
Proof.
  induction ls; intros l; [cbn; now rewrite app_nil_r_s|].
  change (String.concat "." (l :: a :: ls)) with (l ++ "." ++ String.concat "." (a :: ls))%string. rewrite IHls. reflexivity.
Qed.
Theorem hostname_right : forall s, (rx rxHostname s && Nat.ltb (String.length s) 256)%bool = true <-> hostname s.
Proof.
  intros s. rewrite andb_true_iff, rx_lang, Nat.ltb_lt. unfold rxHostname, hostname. rewrite lang_seq. split.
  - intros [[l [t [-> [H1 H2]]]] L]. apply label_right in H1. apply dots_right in H2. destruct H2 as [ls [F ->]].
    exists l, ls. rewrite concat_fold. repeat split; [constructor; assumption | lia].
  - intros [l [ls [-> [F L]]]]. rewrite concat_fold in *. inversion F; subst. split; [|lia].
    eexists _, _. split; [reflexivity|]. split; [now apply label_right | apply dots_right; eauto].
Qed.

(** ** JSON pointers *)
Fixpoint tildes (s : string) : bool :=
  match s with
  | EmptyString => true
  | String c s' =>
      if Ascii.eqb c "~" then match s' with String d s'' => ((Ascii.eqb "0" d || Ascii.eqb "1" d) && tildes s'')%bool | EmptyString => false end
      else tildes s'
  end.
Definition refs : re := RStar (RAlt (RSet (fun c => negb (Ascii.eqb c "~" || Ascii.eqb c "/"))) (RAlt (RSeq (is "~") (is "0")) (RSeq (is "~") (is "1")))).
Lemma pointer_step : forall c, deriv c (RSeq refs rxJSONPointer) =
  if Ascii.eqb c "~" then RSeq (RSeq (RAlt (is "0") (is "1")) refs) rxJSONPointer else RSeq refs rxJSONPointer.
Proof.
  intros c. destruct (Ascii.eqb c "~") eqn:T.
  - apply Ascii.eqb_eq in T. subst c. reflexivity.
  - destruct (Ascii.eqb c "/") eqn:U.
    + apply Ascii.eqb_eq in U. subst c. reflexivity.
    + unfold rxJSONPointer, refs, is. cbn [deriv nullable]. rewrite (Ascii.eqb_sym "~" c), (Ascii.eqb_sym "/" c), T, U.
      cbn [seq alt orb negb]. reflexivity.
Qed.
Lemma tilde_step : forall c, deriv c (RSeq (RSeq (RAlt (is "0") (is "1")) refs) rxJSONPointer) =
  if (Ascii.eqb "0" c || Ascii.eqb "1" c)%bool then RSeq refs rxJSONPointer else RNone.
Proof.
  intros c. unfold is at 1 2. cbn [deriv nullable andb orb].
  destruct (Ascii.eqb "0" c) eqn:Z; [apply Ascii.eqb_eq in Z; subst c; reflexivity|].
  destruct (Ascii.eqb "1" c) eqn:O; reflexivity.
Qed.
Lemma rx_none : forall s, rx RNone s = false.
Proof. induction s; cbn; auto. Qed.
Lemma refs_tildes : forall n s, String.length s <= n -> rx (RSeq refs rxJSONPointer) s = tildes s.
Proof.
  induction n; intros s L.
  - destruct s; [reflexivity | cbn in L; lia].
  - destruct s as [|c s]; [reflexivity|]. cbn [rx tildes]. rewrite pointer_step. destruct (Ascii.eqb c "~").
    + destruct s as [|d s]; [reflexivity|]. cbn [rx]. rewrite tilde_step. destruct (Ascii.eqb "0" d || Ascii.eqb "1" d)%bool.
      * apply IHn. cbn in L. lia.
      * apply rx_none.
    + apply IHn. cbn in L. lia.
Qed.
Lemma tildes_right : forall n s, String.length s <= n ->
  (tildes s = true <-> forall i, get i s = Some "~"%char -> get (S i) s = Some "0"%char \/ get (S i) s = Some "1"%char).
Proof.
  induction n; intros s L.
  - destruct s; [|cbn in L; lia]. split; [intros _ [|i] H; discriminate H | reflexivity].
  - destruct s as [|c s]; [split; [intros _ [|i] H; discriminate H | reflexivity]|].
    cbn [tildes]. destruct (Ascii.eqb c "~") eqn:T.
    + apply Ascii.eqb_eq in T. subst c. destruct s as [|d s].
      * split; [discriminate | intros H; destruct (H 0 eq_refl) as [E|E]; discriminate E].
      * rewrite andb_true_iff, orb_true_iff, !Ascii.eqb_eq, IHn by (cbn in L; lia). split.
        { intros [D H] [|[|i]] E.
          - cbn. destruct D; subst; auto.
          - cbn in E. injection E as ->. destruct D as [D|D]; discriminate D.
          - exact (H i E). }
        { intros H. split; [destruct (H 0 eq_refl) as [E|E]; injection E; auto | intros i E; exact (H (S (S i)) E)]. }
    + rewrite IHn by (cbn in L; lia). split.
      * intros H [|i] E; [cbn in E; injection E as ->; discriminate T | exact (H i E)].
      * intros H i E. exact (H (S i) E).
Qed.
Theorem pointer_right : forall s, rx rxJSONPointer s = true <-> pointer s.
Proof.
  intros [|c s]; unfold pointer.
  - split; [intros _; split; [auto | intros [|i] H; discriminate H] | reflexivity].
  - cbn [rx]. replace (deriv c rxJSONPointer) with (if Ascii.eqb "/" c then RSeq refs rxJSONPointer else RNone)
      by (destruct (Ascii.eqb "/" c) eqn:E; unfold rxJSONPointer, is; cbn [deriv nullable]; rewrite E; reflexivity).
    destruct (Ascii.eqb "/" c) eqn:E.
    + apply Ascii.eqb_eq in E. subst c. rewrite (refs_tildes _ s (le_n _)), (tildes_right _ s (le_n _)). split.
      * intros H. split; [auto|]. intros [|i] G; [discriminate G | exact (H i G)].
      * intros [_ H] i G. exact (H (S i) G).
    + rewrite rx_none. split; [discriminate|]. intros [[H|H] _]; [discriminate H|]. cbn in H. injection H as ->. discriminate E.
Qed.
Lemma nonzero_char : forall c, between "1" "9" c = true <-> is_digit c = true /\ c <> "0"%char.
Proof.
  intros c. replace (between "1" "9" c) with (is_digit c && negb (Ascii.eqb c "0"))%bool.
  - rewrite andb_true_iff, negb_true_iff, Ascii.eqb_neq. tauto.
  - destruct c as [[] [] [] [] [] [] [] []]; vm_compute; reflexivity.
Qed.
Theorem relative_right : forall s, rx rxRelJSONPointer s = true <-> relative_pointer s.
Proof.
  intros s. rewrite rx_lang. unfold rxRelJSONPointer, relative_pointer. rewrite lang_seq.
  assert (DC : forall t, all (fun c => is_digit c = true) t <-> all (among DIGITS) t).
  { intros t. split; apply all_imp; intros c; apply digit_char. }
  split.
  - intros [d [r [-> [H1 H2]]]]. exists d, r. split; [reflexivity|]. apply lang_alt in H2. rewrite is_lang, <- rx_lang, pointer_right in H2.
    apply lang_alt in H1. destruct H1 as [H1|H1].
    + apply is_lang in H1. subst d. repeat split; auto; [discriminate|]. apply DC. rewrite all_cons. split; [reflexivity | apply all_nil].
    + apply lang_seq in H1. destruct H1 as [u [v [-> [H1 H3]]]]. apply lang_set in H1. destruct H1 as [c [-> F]]. apply star_set in H3.
      apply nonzero_char in F. destruct F as [F N]. repeat split; auto; [discriminate | | intros E; cbn in E; congruence].
      apply DC. cbn. rewrite all_cons. auto.
  - intros [d [r [-> [N [A [Z H]]]]]]. exists d, r. split; [reflexivity|]. apply DC in A. split.
    + apply lang_alt. destruct d as [|c d]; [congruence|]. destruct (Ascii.ascii_dec c "0"%char) as [->|C].
      * left. apply is_lang. now apply Z.
      * right. apply all_cons in A. destruct A as [A1 A2]. apply (l_seq _ _ (String c "") d); [|now apply star_set].
        constructor. apply nonzero_char. auto.
    + apply lang_alt. rewrite is_lang, <- rx_lang, pointer_right. exact H.
Qed.

(** ** The braces of a URI template *)
Lemma brace_app : forall a b, closed (a ++ b)%string -> closed b.
Proof.
  intros a b H i E. destruct (H (String.length a + i)) as [j [L G]]; [now rewrite get_right|].
  exists (j - String.length a). split; [lia|]. replace j with (String.length a + (j - String.length a)) in G by lia. now rewrite get_right in G.
Qed.
Lemma split_at : forall x s, all (fun c => c <> x) s \/ exists a b, s = (a ++ String x b)%string /\ all (fun c => c <> x) a.
Proof.
  intros x. induction s; [left; apply all_nil|]. destruct (Ascii.ascii_dec a x) as [->|N].
  - right. exists "", s. split; [reflexivity | apply all_nil].
  - destruct IHs as [H | [u [v [-> H]]]]; [left; now apply all_cons|].
    right. exists (String a u), v. split; [reflexivity | now apply all_cons].
Qed.
Lemma not_char : forall x s, all (fun c => negb (Ascii.eqb c x) = true) s <-> all (fun c => c <> x) s.
Proof. intros. split; apply all_imp; intros c; rewrite negb_true_iff, Ascii.eqb_neq; auto. Qed.
Theorem template_right : forall s, lang rxURITemplate s <-> closed s.
Proof.
  assert (APP : forall a b, closed a -> closed b -> closed (a ++ b)%string).
  { intros a b A B i E. destruct (Nat.lt_ge_cases i (String.length a)) as [L|L].
    - rewrite get_left in E by exact L. destruct (A i E) as [j [J G]]. exists j. split; [exact J|].
      rewrite get_left; [exact G | now apply get_some in G].
    - replace i with (String.length a + (i - String.length a)) in E by lia. rewrite get_right in E. destruct (B _ E) as [j [J G]].
      exists (String.length a + j). split; [lia | now rewrite get_right]. }
  intros s. split.
  - intros H. unfold rxURITemplate in H. match type of H with lang (RStar ?a) _ => remember (RStar a) as r eqn:E end.
    induction H; try discriminate E.
    + intros [|i] H; discriminate H.
    + injection E as ->. apply APP; [|exact (IHlang2 eq_refl)]. clear IHlang1 IHlang2 H0.
      apply lang_seq in H. destruct H as [u [v [-> [H1 H2]]]]. apply star_set, not_char in H1. apply APP.
      * intros i E. exfalso. exact (H1 i _ E eq_refl).
      * apply lang_alt in H2. destruct H2 as [H2|H2]; [apply lang_eps in H2; subst v; intros [|i] H; discriminate H|].
        apply lang_seq in H2. destruct H2 as [x [y [-> [H2 H3]]]]. apply is_lang in H2. subst x.
        apply lang_seq in H3. destruct H3 as [x [z [-> [H2 H3]]]]. apply is_lang in H3. subst z.
        intros i E. exists (S (String.length x)). split.
        { apply get_some in E as L. cbn in L. rewrite len_app in L. cbn in L.
          destruct (Nat.eq_dec i (S (String.length x))) as [->|N]; [|lia]. exfalso.
          cbn in E. replace (String.length x) with (String.length x + 0) in E by lia. rewrite get_right in E. discriminate E. }
        { cbn. replace (String.length x) with (String.length x + 0) by lia. now rewrite get_right. }
  - enough (P : forall n s, String.length s <= n -> closed s -> lang rxURITemplate s) by (intros H; exact (P _ _ (le_n _) H)). clear s.
    induction n; intros s L H; [destruct s; [constructor | cbn in L; lia]|].
    destruct (split_at "{"%char s) as [A | [a [b [-> A]]]].
    + rewrite <- (app_nil_r_s s). apply l_cons; [|constructor]. rewrite <- (app_nil_r_s s). apply l_seq; [now apply star_set, not_char | apply l_left; constructor].
    + destruct (split_at "}"%char b) as [B | [c [d [-> C]]]].
      * exfalso. destruct (H (String.length a + 0)) as [j [J G]]; [now rewrite get_right|].
        replace j with (String.length a + S (j - String.length a - 1)) in G by lia. rewrite get_right in G. cbn in G. exact (B _ _ G eq_refl).
      * replace (a ++ String "{" (c ++ String "}" d))%string with ((a ++ String "{" (c ++ "}")) ++ d)%string
          by (rewrite app_assoc_s; cbn; now rewrite app_assoc_s).
        apply l_cons.
        { apply l_seq; [now apply star_set, not_char|]. apply l_right. apply (l_seq _ _ "{" (c ++ "}")); [now apply is_lang|].
          apply l_seq; [now apply star_set, not_char | now apply is_lang]. }
        { apply IHn.
          - rewrite len_app in L. cbn in L. rewrite len_app in L. cbn in L. lia.
          - apply (brace_app (a ++ String "{" (c ++ "}"))%string). rewrite app_assoc_s. cbn. rewrite app_assoc_s. exact H. }
Qed.
