(** The concrete world of the examples obeys the laws asked of a URL library. *)
From Verif Require Export LoadAny World0.
From Coq Require Import Lia.
Open Scope string_scope.
Open Scope list_scope.

Fixpoint bytes_all (P : ascii -> Prop) (s : string) : Prop := match s with EmptyString => True | String a r => P a /\ bytes_all P r end.
Lemma utf8_bytes c b : utf8_of c b -> (exists a, b = String a "") \/ bytes_all (fun a => (128 <= N_of_ascii a)%N) b.
Proof.
  intros H. inversion H; subst; [left; eauto|right..]; cbn [bytes_all]; repeat split; rewrite byte_id by lia; lia.
Qed.
Lemma high_not a x : (128 <= N_of_ascii a)%N -> (N_of_ascii x < 128)%N -> Ascii.eqb a x = false.
Proof. intros H1 H2. destruct (Ascii.eqb_spec a x); auto. subst. lia. Qed.
Lemma utf8_one_text c a r : utf8_of c (String a "") -> utf8_text r -> utf8_text (String a r).
Proof. intros H [cps Hr]. exists (c :: cps). change (String a r) with (append (String a "") r). constructor; auto. Qed.

Lemma cut_hash_text s : utf8_text s -> utf8_text (cut_hash s).
Proof.
  intros [cps H]. induction H as [|c cps b s Hb Hs IH]; [apply utf8_empty|]. destruct (utf8_bytes c b Hb) as [[a ->]|Hi].
  - cbn [append cut_hash]. destruct (Ascii.eqb a "#"); [apply utf8_empty|]. eapply utf8_one_text; eauto.
  - assert (E : cut_hash (append b s) = append b (cut_hash s)).
    { clear Hb. induction b as [|a b IHb]; [reflexivity|]. destruct Hi as [Ha Hi]. cbn [append cut_hash].
      rewrite (high_not a "#" Ha) by reflexivity. rewrite IHb; auto. }
    rewrite E. destruct IH as [cps' IH]. exists (c :: cps'). constructor; auto.
Qed.

Lemma slash_app b s : bytes_all (fun a => (128 <= N_of_ascii a)%N) b -> has_sub "/" (append b s) = has_sub "/" s.
Proof.
  induction b as [|a b IH]; intros H; [reflexivity|]. destruct H as [Ha H]. cbn [append has_sub String.prefix].
  destruct (ascii_dec "/" a) as [<-|]; [simpl in Ha; lia|]. cbn [orb]. auto.
Qed.
Lemma dir_of_app b s : bytes_all (fun a => (128 <= N_of_ascii a)%N) b -> b <> "" ->
  dir_of (append b s) = if has_sub "/" s then append b (dir_of s) else "".
Proof.
  induction b as [|a b IH]; intros H N; [congruence|]. destruct H as [Ha H]. cbn [append dir_of]. rewrite (high_not a "/" Ha) by reflexivity.
  cbn [orb]. rewrite (slash_app b s H). destruct (has_sub "/" s) eqn:Es; [|reflexivity]. destruct b as [|a' b]; [reflexivity|].
  rewrite IH; auto. discriminate.
Qed.
Lemma utf8_nonempty c b : utf8_of c b -> b <> "".
Proof. intros H; inversion H; discriminate. Qed.
Lemma dir_of_text s : utf8_text s -> utf8_text (dir_of s).
Proof.
  intros [cps H]. induction H as [|c cps b s Hb Hs IH]; [apply utf8_empty|]. destruct (utf8_bytes c b Hb) as [[a ->]|Hi].
  - cbn [append dir_of]. destruct (_ || _)%bool; [|apply utf8_empty]. eapply utf8_one_text; eauto.
  - rewrite dir_of_app; auto; [|eapply utf8_nonempty; eauto]. destruct (has_sub "/" s); [|apply utf8_empty].
    destruct IH as [cps' IH]. exists (c :: cps'). constructor; auto.
Qed.

Theorem world0_laws : url_laws world0.
Proof.
  split; [reflexivity|]. split; [|split; [|split]].
  - intros b r s _. cbn [w_inherits world0]. unfold inherits0. destruct (has_sub _ _); [discriminate|]. destruct (String.eqb _ _); discriminate.
  - intros s r H. cbn [w_parse world0]. unfold parse0. destruct (String.prefix _ _); [discriminate|]. intros [= <-].
    destruct (String.eqb _ _); auto using cut_hash_text.
  - intros b r a Hb Hr. cbn [w_inherits world0]. unfold inherits0. destruct (has_sub _ _); [intros [= <-]; auto|].
    destruct (String.eqb _ _); intros [= <-]; apply utf8_text_app; auto using cut_hash_text, dir_of_text.
  - intros r. apply cut_hash_text.
Qed.
