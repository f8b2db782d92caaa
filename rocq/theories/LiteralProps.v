(** The five expressions of format_checkers.go:133-142, as they are written there,
    read by the model of package regexp: what MatchString says of any string. *)
From Coq Require Import List Lia Bool Arith NArith.
From Verif Require Import ModelFormat SpecFormat FormatRegex Utf8 ModelRegexp RegexpProps.
From Verif Require SpecRegexp.
Import SpecRegexp(iter).
Import ListNotations.
Open Scope string_scope.
Open Scope list_scope.
Open Scope nat_scope.

(** ** The literals and their trees *)
Definition lit_hostname := "^([a-zA-Z0-9]|[a-zA-Z0-9][a-zA-Z0-9\-]{0,61}[a-zA-Z0-9])(\.([a-zA-Z0-9]|[a-zA-Z0-9][a-zA-Z0-9\-]{0,61}[a-zA-Z0-9]))*$".
Definition lit_template := "^([^{]*({[^}]*})?)*$".
Definition lit_uuid := "^(?i)[a-f0-9]{8}-[a-f0-9]{4}-[a-f0-9]{4}-[a-f0-9]{4}-[a-f0-9]{12}$".
Definition lit_pointer := "^(?:/(?:[^~/]|~0|~1)*)*$".
Definition lit_relative := "^(?:0|[1-9][0-9]*)(?:#|(?:/(?:[^~/]|~0|~1)*)*)$".

Definition x_anchored (l : list rexp) : rexp := XCat XBeginText (fold_right XCat XEmpty (l ++ [XEndText])).
Definition x_cat (l : list rexp) : rexp := fold_right XCat XEmpty l.
Definition in_alnum (c : N) : bool := (in_rng 97 122 c || in_rng 65 90 c || in_rng 48 57 c)%bool.
Definition x_label : rexp :=
  XAlt (x_cat [XClass in_alnum])
       (x_cat [XClass in_alnum; XRepeat 0 (Some 61) (XClass (fun c => in_alnum c || N.eqb 45 c)%bool); XClass in_alnum]).
Definition x_hostname : rexp := x_anchored [x_label; XStar (x_cat [XLit false 46; x_label])].
Definition x_template : rexp :=
  x_anchored [XStar (x_cat [XStar (XClass (fun c => negb (N.eqb 123 c)));
    XQuest (x_cat [XLit false 123; XStar (XClass (fun c => negb (N.eqb 125 c))); XLit false 125])])].
Definition x_pointer0 : rexp :=
  XStar (x_cat [XLit false 47; XStar (XAlt (x_cat [XClass (fun c => negb (N.eqb 126 c || N.eqb 47 c))])
    (XAlt (x_cat [XLit false 126; XLit false 48]) (x_cat [XLit false 126; XLit false 49])))]).
Definition x_pointer : rexp := x_anchored [x_pointer0].
Definition x_relative : rexp :=
  x_anchored [XAlt (x_cat [XLit false 48]) (x_cat [XClass (in_rng 49 57); XStar (XClass (in_rng 48 57))]);
              XAlt (x_cat [XLit false 35]) (x_cat [x_pointer0])].
Section Unicode.
Variable ud : unidata.
Definition x_hex : rexp := XClass (fun c => (existsb (in_rng 97 102) (u_orbit ud c) || existsb (in_rng 48 57) (u_orbit ud c))%bool).
Definition x_uuid : rexp :=
  x_anchored [XRepeat 8 (Some 8) x_hex; XLit true 45; XRepeat 4 (Some 4) x_hex; XLit true 45; XRepeat 4 (Some 4) x_hex; XLit true 45;
              XRepeat 4 (Some 4) x_hex; XLit true 45; XRepeat 12 (Some 12) x_hex].
Lemma parse_hostname : parse ud (runes lit_hostname) = Some x_hostname.
Proof. vm_compute. reflexivity. Qed.
Lemma parse_template : parse ud (runes lit_template) = Some x_template.
Proof. vm_compute. reflexivity. Qed.
Lemma parse_uuid : parse ud (runes lit_uuid) = Some x_uuid.
Proof. vm_compute. reflexivity. Qed.
Lemma parse_pointer : parse ud (runes lit_pointer) = Some x_pointer.
Proof. vm_compute. reflexivity. Qed.
Lemma parse_relative : parse ud (runes lit_relative) = Some x_relative.
Proof. vm_compute. reflexivity. Qed.

(** ** One byte for every rune *)
Definition squash1 (c : N) : ascii := if (c <? 128)%N then ascii_of_N c else "255"%char.
Fixpoint squash (cs : list N) : string := match cs with [] => "" | c :: r => String (squash1 c) (squash r) end.
Lemma squash_app a b : squash (a ++ b) = append (squash a) (squash b).
Proof. induction a; cbn; congruence. Qed.
Lemma squash_inj_nil cs : squash cs = "" -> cs = [].
Proof. destruct cs; [auto|discriminate]. Qed.
Lemma squash_split cs : forall a b, squash cs = append a b -> exists u v, cs = u ++ v /\ squash u = a /\ squash v = b.
Proof.
  induction cs as [|c cs IH]; intros [|x a] b E; cbn in E.
  - exists [], []. auto.
  - discriminate.
  - exists [], (c :: cs). auto.
  - injection E as <- E. destruct (IH a b E) as (u & v & -> & <- & <-). exists (c :: u), v. auto.
Qed.

(** [den x r]: the places x leads to are the ends of pieces in the language of r. *)
Definition den (x : rexp) (r : re) : Prop :=
  forall u m i, length u = i -> (forall j, In j (ends ud x (u ++ m) i) <-> exists v w, m = v ++ w /\ j = i + length v /\ lang r (squash v)).

Lemma den_empty : den XEmpty REps.
Proof.
  intros u m i L j. cbn. split.
  - intros [<-|[]]. exists [], m. split; [reflexivity|]. split; [cbn; lia|constructor].
  - intros (v & w & -> & -> & H). apply lang_eps, squash_inj_nil in H. subst v. cbn. left. lia.
Qed.
Lemma at_here (u m : list N) i : length u = i -> at_ (u ++ m) i = nth_error m 0.
Proof. intros <-. unfold at_. rewrite nth_error_app2 by lia. now rewrite Nat.sub_diag. Qed.
Lemma den_one x f g : (forall s i, ends ud x s i = one s f i) -> (forall c, f c = g (squash1 c)) -> den x (RSet g).
Proof.
  intros Hx Hf u m i L j. rewrite Hx. unfold one. rewrite (at_here u m i L). destruct m as [|c m]; cbn [nth_error].
  - split; [intros []|]. intros (v & w & E & -> & H). destruct v; [|discriminate]. apply lang_set in H. destruct H as (d & E' & _). discriminate.
  - split.
    + destruct (f c) eqn:F; [|intros []]. intros [<-|[]]. exists [c], m. split; [reflexivity|]. split; [cbn; lia|]. apply lang_set. exists (squash1 c). split; [reflexivity|]. now rewrite <- Hf.
    + intros (v & w & E & -> & H). apply lang_set in H. destruct H as (d & E' & G). destruct v as [|c' v]; [discriminate|]. cbn in E'. injection E' as <- Ev. apply squash_inj_nil in Ev. subst v.
      injection E as <- _. rewrite <- Hf in G. rewrite G. cbn. left. lia.
Qed.
Lemma den_cat a b r q : den a r -> den b q -> den (XCat a b) (RSeq r q).
Proof.
  intros A B u m i L j. cbn [ends]. rewrite in_spread. split.
  - intros (k & Hk & Hj). apply (A u m i L) in Hk. destruct Hk as (v & w & -> & -> & Hv). rewrite app_assoc in Hj.
    apply (B (u ++ v) w (i + length v)) in Hj; [|rewrite app_length; lia]. destruct Hj as (v' & w' & -> & -> & Hv').
    exists (v ++ v'), w'. rewrite app_assoc, app_length. split; [reflexivity|]. split; [lia|]. rewrite squash_app. now constructor.
  - intros (v & w & -> & -> & H). apply lang_seq in H. destruct H as (s & t & E & Hs & Ht). apply squash_split in E. destruct E as (v1 & v2 & -> & <- & <-).
    exists (i + length v1). split.
    + apply (A u _ i L). exists v1, (v2 ++ w). rewrite app_assoc. auto.
    + rewrite <- app_assoc, (app_assoc u). apply (B (u ++ v1) _ (i + length v1)); [rewrite app_length; lia|]. exists v2, w. rewrite app_length. split; [reflexivity|]. split; [lia|exact Ht].
Qed.
Lemma den_ext x r q : (forall s, lang r s <-> lang q s) -> den x r -> den x q.
Proof.
  intros E D u m i L j. rewrite (D u m i L j). split; intros (v & w & H1 & H2 & H3); exists v, w; (split; [exact H1|split; [exact H2|apply E; exact H3]]).
Qed.
Lemma den_last a r : den a r -> den (XCat a XEmpty) r.
Proof.
  intros A. apply (den_ext _ (RSeq r REps)); [|apply den_cat; [exact A|exact den_empty]].
  intros s. rewrite lang_seq. split.
  - intros (x & y & -> & H & H'). apply lang_eps in H'. subst y. now rewrite app_nil_r_s.
  - intros H. exists s, "". rewrite app_nil_r_s. split; [reflexivity|]. split; [exact H|constructor].
Qed.
Lemma den_alt a b r q : den a r -> den b q -> den (XAlt a b) (RAlt r q).
Proof.
  intros A B u m i L j. cbn [ends]. rewrite in_nub, in_app_iff, (A u m i L), (B u m i L). split.
  - intros [(v & w & H1 & H2 & H3)|(v & w & H1 & H2 & H3)]; exists v, w; (split; [exact H1|split; [exact H2|apply lang_alt; auto]]).
  - intros (v & w & H1 & H2 & H3). apply lang_alt in H3. destruct H3; [left|right]; exists v, w; auto.
Qed.
Lemma den_quest a r : den a r -> den (XQuest a) (RAlt REps r).
Proof.
  intros A u m i L j. cbn [ends]. rewrite in_nub. split.
  - intros [<-|H].
    + exists [], m. split; [reflexivity|]. split; [cbn; lia|]. apply l_left. constructor.
    + apply (A u m i L) in H. destruct H as (v & w & H1 & H2 & H3). exists v, w. split; [exact H1|]. split; [exact H2|]. now apply l_right.
  - intros (v & w & H1 & H2 & H3). apply lang_alt in H3. destruct H3 as [H3|H3].
    + left. apply lang_eps, squash_inj_nil in H3. subst v. cbn in H2. lia.
    + right. apply (A u m i L). exists v, w. auto.
Qed.
(** n times *)
Lemma den_iter a r n : den a r -> forall u m i, length u = i ->
  forall j, iter n (rel (ends ud a (u ++ m))) i j <-> exists v w, m = v ++ w /\ j = i + length v /\ lang (rtimes n r) (squash v).
Proof.
  intros A. induction n as [|n IH]; intros u m i L j; cbn [iter rtimes].
  - split.
    + intros <-. exists [], m. split; [reflexivity|]. split; [cbn; lia|constructor].
    + intros (v & w & -> & -> & H). apply lang_eps, squash_inj_nil in H. subst v. cbn. lia.
  - split.
    + intros (k & Hk & Hj). unfold rel in Hk at 1. apply (A u m i L) in Hk. destruct Hk as (v & w & -> & -> & Hv). rewrite app_assoc in Hj.
      apply (IH (u ++ v) w) in Hj; [|rewrite app_length; lia]. destruct Hj as (v' & w' & -> & -> & Hv').
      exists (v ++ v'), w'. rewrite app_assoc, app_length. split; [reflexivity|]. split; [lia|]. rewrite squash_app. now constructor.
    + intros (v & w & -> & -> & H). apply lang_seq in H. destruct H as (s & t & E & Hs & Ht). apply squash_split in E. destruct E as (v1 & v2 & -> & <- & <-).
      exists (i + length v1). split.
      * apply (A u _ i L). exists v1, (v2 ++ w). rewrite app_assoc. auto.
      * rewrite <- app_assoc, (app_assoc u). apply (IH (u ++ v1) _ (i + length v1)); [rewrite app_length; lia|]. exists v2, w. rewrite app_length. split; [reflexivity|]. split; [lia|exact Ht].
Qed.
Lemma star_times r s : lang (RStar r) s <-> exists n, lang (rtimes n r) s.
Proof.
  split.
  - intros H. remember (RStar r) as q eqn:E. induction H; try discriminate E.
    + exists 0. constructor.
    + injection E as ->. destruct (IHlang2 eq_refl) as (n & Hn). exists (S n). now constructor.
  - intros (n & H). revert s H. induction n as [|n IH]; cbn [rtimes]; intros s H.
    + apply lang_eps in H. subst s. constructor.
    + apply lang_seq in H. destruct H as (x & y & -> & Hx & Hy). constructor; auto.
Qed.
(** n non-empty iterations need n characters. *)
Lemma star_short r s : lang (RStar r) s -> exists n, n <= String.length s /\ lang (rtimes n r) s.
Proof.
  intros H. remember (RStar r) as q eqn:E. induction H; try discriminate E.
  - exists 0. split; [cbn; lia|constructor].
  - injection E as ->. destruct (IHlang2 eq_refl) as (n & Hn & Ln). destruct s as [|c s].
    + exists n. auto.
    + exists (S n). split; [|now constructor]. rewrite len_app. cbn. lia.
Qed.
Lemma squash_length cs : String.length (squash cs) = length cs.
Proof. induction cs; cbn; congruence. Qed.
Lemma den_star a r : den a r -> den (XStar a) (RStar r).
Proof.
  intros A u m i L j. cbn [ends]. rewrite in_upto. split.
  - intros (k & i' & _ & [<-|[]] & H). apply (den_iter a r k A u m i L) in H. destruct H as (v & w & H1 & H2 & H3). exists v, w. split; [exact H1|]. split; [exact H2|]. apply star_times. eauto.
  - intros (v & w & H1 & H2 & H3). apply star_short in H3. destruct H3 as (n & Hn & H3). exists n, i. split; [|split; [left; reflexivity|]].
    + rewrite squash_length in Hn. rewrite H1, !app_length. lia.
    + apply (den_iter a r n A u m i L). exists v, w. auto.
Qed.
Lemma den_times n a r : den a r -> den (XRepeat n (Some n) a) (rtimes n r).
Proof.
  intros A u m i L j. cbn [ends]. rewrite Nat.sub_diag. cbn [upto_times]. rewrite in_times, <- (den_iter a r n A u m i L). split.
  - intros (i' & [<-|[]] & H). exact H.
  - intros H. exists i. split; [left; reflexivity|exact H].
Qed.
Lemma upto_lang n r s : lang (rupto n r) s <-> exists k, k <= n /\ lang (rtimes k r) s.
Proof.
  revert s. induction n as [|n IH]; intros s; cbn [rupto].
  - split; [intros H; exists 0; auto|]. intros (k & Hk & H). replace k with 0 in H by lia. exact H.
  - rewrite lang_alt. split.
    + intros [H|H]; [exists 0; split; [lia|exact H]|]. apply lang_seq in H. destruct H as (x & y & -> & Hx & Hy). apply IH in Hy. destruct Hy as (k & Hk & Hy). exists (S k). split; [lia|]. now constructor.
    + intros ([|k] & Hk & H); [left; exact H|]. right. cbn [rtimes] in H. apply lang_seq in H. destruct H as (x & y & -> & Hx & Hy). constructor; [exact Hx|]. apply IH. exists k. split; [lia|exact Hy].
Qed.
Lemma den_upto n a r : den a r -> den (XRepeat 0 (Some n) a) (rupto n r).
Proof.
  intros A u m i L j. cbn [ends times]. rewrite Nat.sub_0_r, in_upto. split.
  - intros (k & i' & Hk & [<-|[]] & H). apply (den_iter a r k A u m i L) in H. destruct H as (v & w & H1 & H2 & H3). exists v, w. split; [exact H1|]. split; [exact H2|]. apply upto_lang. eauto.
  - intros (v & w & H1 & H2 & H3). apply upto_lang in H3. destruct H3 as (k & Hk & H3). exists k, i. split; [exact Hk|]. split; [left; reflexivity|].
    apply (den_iter a r k A u m i L). exists v, w. auto.
Qed.

(** ^...$: the whole text *)
Definition tails (x : rexp) (r : re) : Prop :=
  forall u m i, length u = i -> (exists j, In j (ends ud x (u ++ m) i)) <-> lang r (squash m).
Lemma tails_end a r : den a r -> tails (XCat a (XCat XEndText XEmpty)) r.
Proof.
  intros A u m i L. cbn [ends]. split.
  - intros (j & Hj). apply in_spread in Hj. destruct Hj as (k & Hk & Hj). apply (A u m i L) in Hk. destruct Hk as (v & w & -> & -> & Hv).
    apply in_spread in Hj. destruct Hj as (k & Hk & _). apply in_here in Hk. destruct Hk as [_ Hk]. apply Nat.eqb_eq in Hk. rewrite !app_length in Hk. destruct w; [|cbn in Hk; lia]. rewrite app_nil_r. exact Hv.
  - intros H. exists (i + length m). apply in_spread. exists (i + length m). split.
    + apply (A u m i L). exists m, []. rewrite app_nil_r. auto.
    + apply in_spread. exists (i + length m). split; [|left; reflexivity]. apply in_here. split; [reflexivity|]. apply Nat.eqb_eq. rewrite app_length. lia.
Qed.
Lemma tails_cat a b r q : den a r -> tails b q -> tails (XCat a b) (RSeq r q).
Proof.
  intros A B u m i L. cbn [ends]. split.
  - intros (j & Hj). apply in_spread in Hj. destruct Hj as (k & Hk & Hj). apply (A u m i L) in Hk. destruct Hk as (v & w & -> & -> & Hv). rewrite app_assoc in Hj.
    rewrite squash_app. constructor; [exact Hv|]. apply (B (u ++ v) w (i + length v)); [rewrite app_length; lia|]. eauto.
  - intros H. apply lang_seq in H. destruct H as (s & t & E & Hs & Ht). apply squash_split in E. destruct E as (v1 & v2 & -> & <- & <-).
    apply (B (u ++ v1) v2 (i + length v1)) in Ht; [|rewrite app_length; lia]. destruct Ht as (j & Hj). rewrite <- app_assoc in Hj. exists j. apply in_spread. exists (i + length v1). split; [|exact Hj].
    apply (A u _ i L). exists v1, v2. auto.
Qed.
Lemma whole x r m : tails x r -> (somewhere ud (XCat XBeginText x) m = true <-> lang r (squash m)).
Proof.
  intros T. rewrite <- (T [] m 0 eq_refl). unfold somewhere. rewrite existsb_exists. split.
  - intros (i & _ & H). cbn [ends] in H. destruct (spread (ends ud x m) (here (Nat.eqb i 0) i)) as [|j l] eqn:E; [discriminate|].
    assert (I : In j (spread (ends ud x m) (here (Nat.eqb i 0) i))) by (rewrite E; left; reflexivity).
    apply in_spread in I. destruct I as (k & Hk & Hj). apply in_here in Hk. destruct Hk as [<- Hk]. apply Nat.eqb_eq in Hk. subst i. eauto.
  - intros (j & Hj). exists 0. split; [apply in_seq; lia|]. cbn [ends].
    assert (I : In j (spread (ends ud x m) (here (Nat.eqb 0 0) 0))) by (apply in_spread; exists 0; split; [left; reflexivity|exact Hj]).
    destruct (spread (ends ud x m) (here (Nat.eqb 0 0) 0)); [destruct I|reflexivity].
Qed.

(** ** Sets of runes and sets of bytes *)
Lemma rune_byte (f : N -> bool) g b : g "255"%char = b ->
  forallb (fun n => Bool.eqb (f (N.of_nat n)) (g (ascii_of_N (N.of_nat n)))) (List.seq 0 128) = true ->
  (forall c, (128 <= c)%N -> f c = b) -> forall c, f c = g (squash1 c).
Proof.
  intros G L H c. unfold squash1. destruct (c <? 128)%N eqn:E.
  - apply N.ltb_lt in E. rewrite forallb_forall in L. specialize (L (N.to_nat c)). rewrite N2Nat.id in L. apply eqb_prop, L, in_seq. lia.
  - apply N.ltb_ge in E. rewrite G. apply H. exact E.
Qed.
Lemma den_lit c : (c < 128)%N -> den (XLit false c) (is (ascii_of_N c)).
Proof.
  intros Hc. apply (den_one _ (N.eqb c)); [reflexivity|]. intros d. unfold squash1. destruct (d <? 128)%N eqn:E.
  - apply N.ltb_lt in E. destruct (N.eqb_spec c d) as [->|N]; [symmetry; apply Ascii.eqb_refl|]. symmetry. apply Ascii.eqb_neq. intros X. apply N. rewrite <- (N_ascii_embedding c), <- (N_ascii_embedding d) by lia. now rewrite X.
  - apply N.ltb_ge in E. transitivity false; [apply N.eqb_neq; lia|]. symmetry. apply Ascii.eqb_neq. intros X. assert (Y : N_of_ascii (ascii_of_N c) = 255%N) by now rewrite X. rewrite N_ascii_embedding in Y by lia. lia.
Qed.
Ltac high := intros c Hc; cbv beta; unfold in_alnum, in_rng; rewrite ?orb_false_iff, ?negb_true_iff, ?orb_false_iff, ?andb_false_iff, ?N.leb_gt, ?N.eqb_neq; lia.
Lemma den_class f g : (forall c, f c = g (squash1 c)) -> den (XClass f) (RSet g).
Proof. apply den_one. reflexivity. Qed.
Ltac set_ b := match goal with |- den (XClass ?f) (RSet ?g) => apply (den_class f g), (rune_byte f g b) end; [reflexivity|vm_compute; reflexivity|high].
Ltac lit := match goal with |- den (XLit false ?c) (is ?a) => exact (den_lit c eq_refl) end.
Lemma den_alnum : den (XClass in_alnum) (RSet is_alnum).
Proof. set_ false. Qed.
Lemma den_label : den x_label host_label.
Proof.
  unfold x_label, host_label, x_cat. cbn [fold_right]. apply den_alt; [apply den_last, den_alnum|].
  apply den_cat; [apply den_alnum|]. apply den_cat; [|apply den_last, den_alnum]. apply den_upto. set_ false.
Qed.
Lemma den_hostname m : somewhere ud x_hostname m = true <-> lang rxHostname (squash m).
Proof.
  apply whole. cbn [fold_right app]. unfold rxHostname. apply tails_cat; [apply den_label|]. apply tails_end, den_star. unfold x_cat. cbn [fold_right].
  apply den_cat; [lit|apply den_last, den_label].
Qed.
Lemma den_template m : somewhere ud x_template m = true <-> lang rxURITemplate (squash m).
Proof.
  apply whole. cbn [fold_right app]. apply tails_end, den_star. unfold x_cat. cbn [fold_right]. apply den_cat; [apply den_star; set_ true|].
  apply den_last, den_quest, den_cat; [lit|]. apply den_cat; [apply den_star; set_ true|]. apply den_last. lit.
Qed.
Lemma den_pointer0 : den x_pointer0 rxJSONPointer.
Proof.
  unfold x_pointer0, rxJSONPointer, x_cat. cbn [fold_right]. apply den_star, den_cat; [lit|]. apply den_last, den_star, den_alt; [apply den_last; set_ true|].
  apply den_alt; (apply den_cat; [lit|apply den_last; lit]).
Qed.
Lemma den_pointer m : somewhere ud x_pointer m = true <-> lang rxJSONPointer (squash m).
Proof. apply whole. cbn [fold_right app]. apply tails_end, den_pointer0. Qed.
Lemma den_relative m : somewhere ud x_relative m = true <-> lang rxRelJSONPointer (squash m).
Proof.
  apply whole. cbn [fold_right app]. unfold rxRelJSONPointer, x_cat. cbn [fold_right]. apply tails_cat.
  - apply den_alt; [apply den_last; lit|]. apply den_cat; [set_ false|apply den_last, den_star; set_ false].
  - apply tails_end, den_alt; [apply den_last; lit|apply den_last, den_pointer0].
Qed.

(** unicode.SimpleFold on ASCII: letters in the other case, and the Kelvin sign and
    the long s. *)
Definition folds (c x : N) : Prop :=
  (c = x \/ 97 <= c <= 122 /\ x = c - 32 \/ 65 <= c <= 90 /\ x = c + 32 \/ In c [75; 107] /\ x = 8490 \/ In c [83; 115] /\ x = 383)%N.
Definition ascii_orbits : Prop := forall c x, (c < 128)%N -> (In c (u_orbit ud x) <-> folds c x).
Lemma orbit_test (L : ascii_orbits) lo hi x : (hi < 128)%N -> existsb (in_rng lo hi) (u_orbit ud x) = true <-> exists c, (lo <= c <= hi)%N /\ folds c x.
Proof.
  intros Hh. rewrite existsb_exists. unfold in_rng. split.
  - intros (c & Hc & R). rewrite andb_true_iff, !N.leb_le in R. exists c. split; [exact R|]. apply L; [lia|exact Hc].
  - intros (c & R & F). exists c. split; [apply L; [lia|exact F]|]. rewrite andb_true_iff, !N.leb_le. exact R.
Qed.
Lemma den_hex : ascii_orbits -> den x_hex (RSet is_hex).
Proof.
  intros L. apply den_class. intros c.
  transitivity (in_rng 97 102 c || in_rng 65 70 c || in_rng 48 57 c)%bool.
  - apply eq_true_iff_eq. rewrite !orb_true_iff, !(orbit_test L) by lia. unfold folds. cbn [In]. unfold in_rng. rewrite !andb_true_iff, !N.leb_le. split.
    + intros [(d & R & F)|(d & R & F)]; lia.
    + intros [[R|R]|R]; [left; exists c; lia|left; exists (c + 32)%N; lia|right; exists c; lia].
  - revert c. apply (rune_byte (fun c => (in_rng 97 102 c || in_rng 65 70 c || in_rng 48 57 c)%bool) is_hex false); [reflexivity|vm_compute; reflexivity|high].
Qed.
Lemma den_dash : ascii_orbits -> den (XLit true 45) (is "-").
Proof.
  intros L. apply (den_one _ (fun x => existsb (N.eqb 45) (u_orbit ud x))); [reflexivity|]. intros c.
  transitivity (N.eqb 45 c).
  - apply eq_true_iff_eq. rewrite existsb_exists, N.eqb_eq. split.
    + intros (d & Hd & E). apply N.eqb_eq in E. subst d. apply L in Hd; [|lia]. unfold folds in Hd. cbn [In] in Hd. lia.
    + intros <-. exists 45%N. split; [|apply N.eqb_refl]. apply L; [lia|]. left. reflexivity.
  - revert c. apply (rune_byte (N.eqb 45) (Ascii.eqb "-") false); [reflexivity|vm_compute; reflexivity|high].
Qed.
Lemma den_uuid m : ascii_orbits -> (somewhere ud x_uuid m = true <-> lang rxUUID (squash m)).
Proof.
  intros L. apply whole. cbn [fold_right app]. unfold rxUUID. cbv zeta.
  pose proof (den_hex L) as H. pose proof (den_dash L) as D.
  do 4 (apply tails_cat; [apply den_times; exact H|]; apply tails_cat; [exact D|]).
  apply tails_end, den_times, H.
Qed.
End Unicode.

(** ** Bytes and runes *)
Definition low (c : ascii) : Prop := (N_of_ascii c < 128)%N.
Definition tall (c : ascii) : Prop := (128 <= N_of_ascii c)%N.
Inductive sq : string -> string -> Prop :=
| sq_nil : sq "" ""
| sq_low c s t : low c -> sq s t -> sq (String c s) (String c t)
| sq_high h b s t : all tall (String h b) -> sq s t -> sq (String h (b ++ s)) (String "255" t).
Definition plain_rune (c : N) : N := if bad_rune c then 65533%N else c.
Lemma sq_text s : sq s (squash (text_runes s)).
Proof.
  enough (H : forall n s, String.length s <= n -> sq s (squash (text_runes s))) by (apply (H (String.length s)); lia). clear s.
  induction n as [|n IH]; intros s Hl; destruct s as [|a r]; try constructor; cbn [String.length] in Hl; try lia.
  assert (T : forall k b s, String.length s <= n -> all tall (String a b) -> (128 <= rune_of k)%N -> text_runes (String a r) = plain_rune (rune_of k) :: text_runes s -> String a r = (String a b ++ s)%string -> sq (String a r) (squash (text_runes (String a r)))).
  { intros k b s Ls A R E Es. rewrite E, Es. cbn [squash append]. replace (squash1 (plain_rune (rune_of k))) with "255"%char.
    - apply sq_high; [exact A|]. apply IH. exact Ls.
    - unfold squash1, plain_rune, bad_rune. destruct (1114112 <=? rune_of k)%N; [reflexivity|]. replace (rune_of k <? 128)%N with false; [reflexivity|]. symmetry. apply N.ltb_ge. exact R. }
  unfold text_runes, runes in *. cbn [chunks] in *. destruct (byte_in 0 127 a) eqn:E1.
  - apply byte_in_iff in E1. cbn [map rune_of]. replace (bad_rune (N_of_ascii a)) with false by (symmetry; apply N.leb_gt; lia). cbn [squash].
    unfold squash1 at 1. replace (N_of_ascii a <? 128)%N with true by (symmetry; apply N.ltb_lt; lia). rewrite ascii_N_embedding. apply sq_low; [unfold low; lia|]. apply IH. lia.
  - apply byte_in_out in E1. assert (Ha : tall a) by (unfold tall; lia). assert (H1 : all tall (String a "")) by (apply all_cons; split; [exact Ha|apply all_nil]).
    assert (HB : forall l, l = CBad a :: chunks r -> sq (String a r) (squash (map (fun c => if bad_rune c then 65533%N else c) (map rune_of l)))).
    { intros l ->. cbn [map rune_of squash]. unfold bad_rune at 1. replace (1114112 <=? 1114112 + N_of_ascii a)%N with true by (symmetry; apply N.leb_le; lia).
      change (squash1 65533) with "255"%char. apply (sq_high a "" r); [exact H1|]. apply (IH r). lia. }
    destruct r as [|b r1]; [apply HB; reflexivity|]. cbn [String.length] in Hl.
    destruct (valid2 a b) eqn:E2.
    { apply valid2_iff in E2. apply (T (C2 a b) (String b "") r1); [lia| |cbn [rune_of]; lia|reflexivity|reflexivity].
      rewrite !all_cons. unfold tall. repeat split; try lia. apply all_nil. }
    destruct r1 as [|c r2]; [apply HB; reflexivity|]. cbn [String.length] in Hl.
    destruct (valid3 a b c) eqn:E3.
    { apply valid3_iff in E3. apply (T (C3 a b c) (String b (String c "")) r2); [lia| |cbn [rune_of]; lia|reflexivity|reflexivity].
      rewrite !all_cons. unfold tall. repeat split; try lia. apply all_nil. }
    destruct r2 as [|d r3]; [apply HB; reflexivity|]. cbn [String.length] in Hl.
    destruct (valid4 a b c d) eqn:E4; [|apply HB; reflexivity].
    apply valid4_iff in E4. apply (T (C4 a b c d) (String b (String c (String d ""))) r3); [lia| |cbn [rune_of]; lia|reflexivity|reflexivity].
    rewrite !all_cons. unfold tall. repeat split; try lia. apply all_nil.
Qed.

(** Nothing above 127: *)
Fixpoint ascii_only (r : re) : Prop :=
  match r with
  | RNone | REps => True
  | RSet f => forall c, f c = true -> low c
  | RSeq a b | RAlt a b => ascii_only a /\ ascii_only b
  | RStar a => ascii_only a
  end.
Lemma only_low r s : ascii_only r -> lang r s -> all low s.
Proof.
  intros H L. induction L; cbn [ascii_only] in H; try (apply all_nil); try tauto.
  - apply all_cons. split; [apply H; assumption|apply all_nil].
  - apply all_app. tauto.
  - apply all_app. tauto.
Qed.
Lemma sq_same s t : sq s t -> (all low s \/ all low t) -> s = t.
Proof.
  induction 1 as [|c s t L H IH|h b s t A H IH]; [reflexivity| |]; rewrite !all_cons.
  - intros X. f_equal. apply IH. tauto.
  - apply all_cons in A. destruct A as [A _]. unfold low, tall in *. intros [[X _]|[X _]]; [lia|]. vm_compute in X. discriminate.
Qed.
Lemma sq_ascii r s t : ascii_only r -> sq s t -> (lang r s <-> lang r t).
Proof.
  intros A H. split; intros L; pose proof (only_low r _ A L) as X; [rewrite <- (sq_same s t H)|rewrite (sq_same s t H)]; auto.
Qed.
Lemma low_by (f : ascii -> bool) : forallb (fun n => if f (ascii_of_nat n) then Nat.ltb n 128 else true) (List.seq 0 256) = true -> forall c, f c = true -> low c.
Proof.
  intros H c F. rewrite forallb_forall in H. assert (B : nat_of_ascii c < 256) by (apply nat_ascii_bounded). specialize (H (nat_of_ascii c)). rewrite ascii_nat_embedding, F in H.
  unfold low. assert (X : Nat.ltb (nat_of_ascii c) 128 = true) by (apply H, in_seq; lia). apply Nat.ltb_lt in X. unfold nat_of_ascii in X. lia.
Qed.
Lemma times_ascii n r : ascii_only r -> ascii_only (rtimes n r).
Proof. intros H. induction n; cbn; auto. Qed.
Lemma upto_ascii n r : ascii_only r -> ascii_only (rupto n r).
Proof. intros H. induction n; cbn; auto. Qed.
Lemma uuid_ascii : ascii_only rxUUID.
Proof.
  assert (H : ascii_only (RSet is_hex)) by exact (low_by is_hex eq_refl).
  assert (D : ascii_only (is "-")) by exact (low_by (Ascii.eqb "-") eq_refl).
  unfold rxUUID. cbv zeta. cbn [ascii_only]. pose proof (fun n => times_ascii n _ H). auto 20.
Qed.
Lemma hostname_ascii : ascii_only rxHostname.
Proof.
  assert (H : ascii_only (RSet is_alnum)) by exact (low_by is_alnum eq_refl).
  assert (D : ascii_only (is ".")) by exact (low_by (Ascii.eqb ".") eq_refl).
  assert (X : ascii_only (RSet (fun c => is_alnum c || Ascii.eqb c "-")%bool)) by exact (low_by (fun c => is_alnum c || Ascii.eqb c "-")%bool eq_refl).
  unfold rxHostname, host_label. cbn [ascii_only]. pose proof (upto_ascii 61 _ X). auto 20.
Qed.

(** Braces, tildes *)
Lemma sq_has x s t : low x -> sq s t -> ((exists j, get j s = Some x) <-> (exists j, get j t = Some x)).
Proof.
  intros Hx. induction 1 as [|c s t L H IH|h b s t A H IH]; [reflexivity| |].
  - split; intros ([|j] & E); cbn in E; try (exists 0; exact E).
    + destruct (proj1 IH (ex_intro _ j E)) as (k & Hk). exists (S k). exact Hk.
    + destruct (proj2 IH (ex_intro _ j E)) as (k & Hk). exists (S k). exact Hk.
  - split; intros (j & E).
    + assert (N : String.length (String h b) <= j).
      { destruct (Nat.lt_ge_cases j (String.length (String h b))) as [X|X]; [|exact X]. exfalso. change (String h (b ++ s)) with (String h b ++ s)%string in E. rewrite get_left in E by exact X. apply A in E. unfold low, tall in *. lia. }
      change (String h (b ++ s)) with (String h b ++ s)%string in E. replace j with (String.length (String h b) + (j - String.length (String h b))) in E by lia. rewrite get_right in E.
      destruct (proj1 IH (ex_intro _ _ E)) as (k & Hk). exists (S k). exact Hk.
    + destruct j as [|j]; cbn in E; [injection E as <-; vm_compute in Hx; discriminate|]. destruct (proj2 IH (ex_intro _ _ E)) as (k & Hk).
      exists (String.length (String h b) + k). change (String h (b ++ s)) with (String h b ++ s)%string. rewrite get_right. exact Hk.
Qed.
Lemma closed_cons c s : closed (String c s) <-> (c = "{"%char -> exists j, get j s = Some "}"%char) /\ closed s.
Proof.
  unfold closed. split.
  - intros H. split.
    + intros ->. destruct (H 0 eq_refl) as (j & Lj & Hj). destruct j as [|j]; [lia|]. exists j. exact Hj.
    + intros i Hi. destruct (H (S i) Hi) as (j & Lj & Hj). destruct j as [|j]; [lia|]. exists j. split; [lia|exact Hj].
  - intros [H1 H2] [|i] Hi.
    + cbn in Hi. injection Hi as ->. destruct (H1 eq_refl) as (j & Hj). exists (S j). split; [lia|exact Hj].
    + destruct (H2 i Hi) as (j & Lj & Hj). exists (S j). split; [lia|exact Hj].
Qed.
Lemma closed_tall b s : all tall b -> (closed (b ++ s) <-> closed s).
Proof.
  induction b as [|c b IH]; cbn [append]; [reflexivity|]. rewrite all_cons. intros [C B]. rewrite closed_cons, (IH B). split; [tauto|]. intros H. split; [|exact H]. intros ->. vm_compute in C. exfalso. apply C. reflexivity.
Qed.
Lemma sq_closed s t : sq s t -> (closed s <-> closed t).
Proof.
  induction 1 as [|c s t L H IH|h b s t A H IH]; [reflexivity| |].
  - rewrite !closed_cons, IH, (sq_has "}" s t); [reflexivity|reflexivity|exact H].
  - change (String h (b ++ s)) with (String h b ++ s)%string. rewrite (closed_tall _ s A), IH, closed_cons. split; [|tauto]. intros X. split; [discriminate|exact X].
Qed.
Lemma tildes_tall b s : all tall b -> tildes (b ++ s) = tildes s.
Proof.
  induction b as [|c b IH]; cbn [append]; [reflexivity|]. rewrite all_cons. intros [C B]. cbn [tildes]. replace (Ascii.eqb c "~") with false; [apply IH, B|].
  symmetry. apply Ascii.eqb_neq. intros ->. vm_compute in C. apply C. reflexivity.
Qed.
Lemma sq_tildes s t : sq s t -> tildes s = tildes t.
Proof.
  enough (H : forall n s t, String.length s <= n -> sq s t -> tildes s = tildes t) by (apply (H (String.length s)); lia). clear s t.
  induction n as [|n IH]; intros s t L H; destruct H as [|c s t C H|h b s t A H]; try reflexivity; cbn [String.length] in L; try lia.
  - cbn [tildes]. destruct (Ascii.eqb c "~"); [|apply IH; [lia|exact H]]. destruct H as [|d s t D H|h b s t A H]; [reflexivity| |].
    + f_equal. apply IH; [cbn in L; lia|exact H].
    + apply all_cons in A. destruct A as [A _]. replace (Ascii.eqb "0" h || Ascii.eqb "1" h)%bool with false; [reflexivity|].
      symmetry. apply orb_false_iff. split; apply Ascii.eqb_neq; intros <-; vm_compute in A; apply A; reflexivity.
  - change (String h (b ++ s)) with (String h b ++ s)%string. rewrite (tildes_tall _ s A). cbn [tildes Ascii.eqb]. apply IH; [|exact H]. rewrite len_app in L. lia.
Qed.
Lemma pointer_iff s : pointer s <-> (s = "" \/ get 0 s = Some "/"%char) /\ tildes s = true.
Proof. unfold pointer. rewrite (tildes_right _ s (le_n _)). reflexivity. Qed.
Lemma sq_pointer s t : sq s t -> (pointer s <-> pointer t).
Proof.
  intros H. rewrite !pointer_iff, (sq_tildes s t H). destruct H as [|c s t C H|h b s t A H]; [reflexivity| |].
  - cbn [get]. split; intros [[X|X] Y]; (try discriminate X); split; auto.
  - apply all_cons in A. destruct A as [A _]. cbn [get]. split; intros [[X|X] Y]; try discriminate X. injection X as ->. vm_compute in A. exfalso. apply A. reflexivity.
Qed.
Lemma sq_split d r t : all low d -> sq (d ++ r) t -> exists r', t = (d ++ r')%string /\ sq r r'.
Proof.
  revert t. induction d as [|c d IH]; intros t A H; cbn [append] in *; [exists t; auto|]. apply all_cons in A. destruct A as [C A].
  inversion H as [|x y z X Y E1 E2|h b y z X Y E1 E2]; subst.
  - destruct (IH z A Y) as (r' & -> & S). exists r'. auto.
  - apply all_cons in X. destruct X as [X _]. unfold low, tall in *. lia.
Qed.
Lemma sq_split' d r s : all low d -> sq s (d ++ r) -> exists r', s = (d ++ r')%string /\ sq r' r.
Proof.
  revert s. induction d as [|c d IH]; intros s A H; cbn [append] in *; [exists s; auto|]. apply all_cons in A. destruct A as [C A].
  inversion H as [|x y z X Y E1 E2|h b y z X Y E1 E2]; subst.
  - destruct (IH y A Y) as (r' & -> & S). exists r'. auto.
  - vm_compute in C. discriminate.
Qed.
Lemma digits_low d : all (among DIGITS) d -> all low d.
Proof. apply all_imp. intros c H. cbn in H. repeat (destruct H as [<-|H]; [reflexivity|]). destruct H. Qed.
Lemma hash_low : all low "#".
Proof. apply all_cons. split; [reflexivity|apply all_nil]. Qed.
Lemma sq_relative s t : sq s t -> (relative_pointer s <-> relative_pointer t).
Proof.
  intros H. unfold relative_pointer. split.
  - intros (d & r & -> & D0 & D1 & D2 & R). destruct (sq_split d r t (digits_low d D1) H) as (r' & -> & Q). exists d, r'. repeat (split; [assumption || reflexivity|]). destruct R as [->|R].
    + left. symmetry. apply (sq_same _ _ Q). left. exact hash_low.
    + right. apply (sq_pointer _ _ Q), R.
  - intros (d & r & -> & D0 & D1 & D2 & R). destruct (sq_split' d r s (digits_low d D1) H) as (r' & -> & Q). exists d, r'. repeat (split; [assumption || reflexivity|]). destruct R as [->|R].
    + left. apply (sq_same _ _ Q). right. exact hash_low.
    + right. apply (sq_pointer _ _ Q), R.
Qed.

(** ** MatchString *)
Section Says.
Variable ud : unidata.
Lemma says p x r s : parse ud (runes p) = Some x -> (forall m, somewhere ud x m = true <-> lang r (squash m)) -> (lang r s <-> lang r (squash (text_runes s))) ->
  (re_MatchString ud p s = true <-> rx r s = true).
Proof. intros P D Q. unfold re_MatchString. rewrite P, D, rx_lang. symmetry. exact Q. Qed.
Theorem hostname_says s : re_MatchString ud lit_hostname s = true <-> rx rxHostname s = true.
Proof. apply (says _ x_hostname); [apply parse_hostname|apply den_hostname|]. apply sq_ascii; [exact hostname_ascii|apply sq_text]. Qed.
Theorem uuid_says s : ascii_orbits ud -> (re_MatchString ud lit_uuid s = true <-> rx rxUUID s = true).
Proof. intros L. apply (says _ (x_uuid ud)); [apply parse_uuid|intros m; apply den_uuid, L|]. apply sq_ascii; [exact uuid_ascii|apply sq_text]. Qed.
Theorem template_says s : re_MatchString ud lit_template s = true <-> rx rxURITemplate s = true.
Proof. apply (says _ x_template); [apply parse_template|apply den_template|]. rewrite !template_right. apply sq_closed, sq_text. Qed.
Theorem pointer_says s : re_MatchString ud lit_pointer s = true <-> rx rxJSONPointer s = true.
Proof. apply (says _ x_pointer); [apply parse_pointer|apply den_pointer|]. rewrite <- !rx_lang, !pointer_right. apply sq_pointer, sq_text. Qed.
Theorem relative_says s : re_MatchString ud lit_relative s = true <-> rx rxRelJSONPointer s = true.
Proof. apply (says _ x_relative); [apply parse_relative|apply den_relative|]. rewrite <- !rx_lang, !relative_right. apply sq_relative, sq_text. Qed.
End Says.
