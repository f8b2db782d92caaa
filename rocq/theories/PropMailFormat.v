(** "email" and "idn-email" with Go's mail.ParseAddress (C35).

    [ParseAddress] is the model of net/mail (ModelMail.v); the grammar of
    addresses over code points is in SpecMail.v. *)
From Verif Require Import ModelFormat FormatProps URIFormat SpecJson ModelMail MailProps SpecMail.
From Coq Require Import Lia.
Open Scope string_scope.
Open Scope list_scope.

Definition checker_names : list string := ["email"; "idn-email"].

(** Exactly what is accepted, over all texts. *)
Theorem C35_email_exact : forall re name cps s, In name checker_names -> text cps s ->
  (accepts (go_fmt ParseAddress re) name s <-> mail_address cps).
Proof. intros re name cps s [<-|[<-|[]]] H; exact (ParseAddress_exact cps s H). Qed.
Print Assumptions C35_email_exact.
Example C35_email_exact_example :
  checks (FormatCheckers (go_fmt ParseAddress (fun _ => false))) "email"
    ["joe.bloggs@example.com"; """joe bloggs""@example.com"; " joe@ example.com (Joe)"; "Joe <joe@example.com> (at work)"; "friends: joe@example.com;";
     "Joe =?x?q?y?= <joe@example.com>"] = [true; true; true; true; true; true] /\
  checks (FormatCheckers (go_fmt ParseAddress (fun _ => false))) "idn-email"
    ["joe"; "joe@"; "joe.@example.com"; "joe bloggs@example.com"; """""@example.com"; "joe @example.com"; "joe@example.com (x"; "friends: a@b, c@d;"; "=?x?q?y?= <joe@example.com>"] =
    [false; false; false; false; false; false; false; false; false].
Proof. vm_compute. auto. Qed.

(** Without names, comments, quotes and white space: local part, "@", domain,
    each of them atoms separated by dots. *)
Theorem C35_email_bare : forall re name cps s, In name checker_names -> text cps s -> bare cps ->
  (accepts (go_fmt ParseAddress re) name s <-> exists l d, dot_atom l /\ dot_atom d /\ cps = l ++ AT :: d).
Proof. intros re name cps s Hn H B. rewrite (C35_email_exact re name cps s Hn H). exact (bare_exact cps B). Qed.
Print Assumptions C35_email_bare.
(** Every addr-spec of RFC 5322 without domain literals and comments. *)
Theorem C35_email_complete : forall re name cps s, In name checker_names -> text cps s -> addr_spec cps ->
  accepts (go_fmt ParseAddress re) name s.
Proof. intros re name cps s Hn H A. apply (C35_email_exact re name cps s Hn H). exact (addr_spec_address cps A). Qed.
Print Assumptions C35_email_complete.
Example C35_email_complete_example : text (codes "a.b@c") "a.b@c" /\ bare (codes "a.b@c") /\ addr_spec (codes "a.b@c").
Proof.
  assert (A : forall x, In x (codes "abc") -> atext x).
  { intros x [<-|[<-|[<-|[]]]]; (split; [left; vm_compute; split; discriminate|]); (split; [vm_compute; intuition discriminate|discriminate]). }
  split; [apply codes_text; repeat constructor|]. split.
  - intros x Hx. vm_compute in Hx. repeat (destruct Hx as [<-|Hx]; [split; [intros [K|K]; discriminate|vm_compute; intuition discriminate]|]). destruct Hx.
  - exists (codes "a.b"), [], (codes "c"). split; [|split; [constructor|split; [|reflexivity]]].
    + left. apply (dot_more (codes "a") (codes "b")); [discriminate|constructor; [apply A; vm_compute; auto|constructor]|].
      apply dot_one; [discriminate|constructor; [apply A; vm_compute; auto|constructor]].
    + apply dot_one; [discriminate|constructor; [apply A; vm_compute; auto|constructor]].
Qed.
(** The format is not "an address": a name with an address passes, and so does a
    group; an address whose domain is an IP address does not. *)
Theorem C35_email_refuted :
  (exists s, text (codes s) s /\ ~ addr_spec (codes s) /\ forall re, accepts (go_fmt ParseAddress re) "email" s) /\
  (forall re, accepts (go_fmt ParseAddress re) "email" "x: a@b;") /\
  (forall re, ~ accepts (go_fmt ParseAddress re) "email" "a@[127.0.0.1]").
Proof.
  split; [|split; intros re; vm_compute; [reflexivity|discriminate]].
  exists "B <a@b>". split; [apply codes_text; repeat constructor|]. split; [|intros re; reflexivity].
  intros (l & s & d & Hl & _ & _ & E). change (codes "B <a@b>") with [66; 32; 60; 97; 64; 98; 62]%N in E.
  assert (K : forall x, local_part x -> x = [66; 32; 60; 97]%N -> False).
  { intros x [Hx|[(q & _ & ->) _]] Ex; [|discriminate]. subst x. apply dot_atom_ok in Hx. destruct Hx as [[_ Hx] _].
    inversion Hx as [|? ? _ Hx']; subst. inversion Hx' as [|? ? Hb _]; subst. apply atext_iff in Hb. vm_compute in Hb. discriminate. }
  destruct l as [|x1 l]; [discriminate|]. injection E as <- E. destruct l as [|x2 l]; [discriminate|]. injection E as <- E.
  destruct l as [|x3 l]; [discriminate|]. injection E as <- E. destruct l as [|x4 l]; [discriminate|]. injection E as <- E.
  destruct l as [|x5 l]; [exact (K _ Hl eq_refl)|]. injection E as <- E.
  destruct l as [|x6 l]; [discriminate|]. injection E as <- E. destruct l as [|x7 l]; [discriminate|]. injection E as <- E. destruct l; discriminate.
Qed.
Print Assumptions C35_email_refuted.
