(** "pattern" and "patternProperties" with package regexp. *)
From Coq Require Import Lia.
From Verif Require Export LogicProps.
From Verif Require ModelRegexp RegexpProps RegexpParse SpecRegexp MailProps.
Open Scope string_scope.
Open Scope list_scope.
Open Scope nat_scope.
Import SpecRegexp(disjunction, found).
Import ModelRegexp(unidata, re_compiles, re_MatchString).

Lemma text_runes_text cps s : text cps s -> ModelRegexp.text_runes s = cps.
Proof.
  intros H. unfold ModelRegexp.text_runes. rewrite (MailProps.runes_text cps s H).
  assert (A : Forall (fun c => c <= 1114111)%N cps).
  { induction H as [|c cps b s Hu _ IH]; constructor; auto. inversion Hu; subst; lia. }
  clear H. induction A as [|c cps' Hc _ IH]; [reflexivity|]. cbn [map]. rewrite (RegexpParse.not_bad c Hc). f_equal. exact IH.
Qed.
Theorem portable_compiles ud r q p : disjunction r q -> text q p -> re_compiles ud p = true.
Proof.
  intros H T. destruct (RegexpParse.portable_parses ud r q H) as (x & E & _). unfold re_compiles. rewrite (MailProps.runes_text q p T), E. reflexivity.
Qed.
Theorem portable_matches ud r q p cs s : disjunction r q -> text q p -> text cs s -> (re_MatchString ud p s = true <-> found r cs).
Proof.
  intros H T Ts. destruct (RegexpParse.portable_parses ud r q H) as (x & E & L). unfold re_MatchString.
  rewrite (MailProps.runes_text q p T), E, (text_runes_text cs s Ts). apply RegexpProps.somewhere_iff. exact L.
Qed.

(** A library with package regexp. *)
Definition with_regexp (ud : unidata) (go : goenv) : Prop :=
  (forall p, e_re_ok go p = re_compiles ud p) /\ (forall p s, e_re_match go p s = re_MatchString ud p s).

Section Docs.
  Variable ud : unidata.
  Variable w : world.
  Hypothesis HU : url_laws w.
  Hypothesis HR : with_regexp ud (w_go w).
  Notation go := (w_go w).
  Notation lim := (e_ratlim go).
  Notation M := (meaning (pat go) (fmt go) same nowhere Hybrid).

  Ltac utf8 := apply utf8_checked; vm_compute; reflexivity.
  Ltac absent := first [apply kw_absent; reflexivity | intros _; apply kw_absent; reflexivity].
  Lemma text_utf8 cs s : text cs s -> utf8_text s.
  Proof. intros H. exists cs. exact H. Qed.

  Definition pattern_doc (p : string) : value := VMap [("pattern", VStr p)].
  Lemma pattern_bare p : bare (pattern_doc p).
  Proof.
    split; [|intros m [= <-]; reflexivity]. intros m k t I Hk. inversion I as [| |m' k1 x y H I']; subst.
    - intros [E|[]]. injection E as <- _. destruct Hk as [E|[E|[E|[]]]]; discriminate.
    - destruct H as [E|[]]. injection E as <- <-. inversion I'.
  Qed.
  Lemma pattern_well_formed p : re_compiles ud p = true -> well_formed (fun p => e_re_ok go p = true) (fun s => w_parse w s <> None) same Hybrid (pattern_doc p).
  Proof.
    intros H. constructor.
    - split; [|split]; unfold head_shapes, plain_shapes, schema_shapes; repeat match goal with |- _ /\ _ => split end; try absent.
      eapply kw_present; [reflexivity|]. exists p. split; auto. rewrite (proj1 HR). exact H.
    - intros x Hx. exfalso.
      inversion Hx as [? ? ? E|? ? ? ? Hk E|? ? Hk E|? ? ? E|? E|? ? ? Hk E|? ? ? Hk E|? ? ? Hk E|? E]; subst; simpl in *;
        repeat match goal with H : _ \/ _ |- _ => destruct H as [<-|H] | H : False |- _ => destruct H end; simpl in *; discriminate.
  Qed.
  Lemma pattern_meaning p v : M (pattern_doc p) v <-> forall s, v = VStr s -> e_re_match go p s = true.
  Proof.
    rewrite (free_rules w _ v (proj1 (pattern_bare p))). cbn [schema_sem pattern_doc]. change (assoc "$ref" [("pattern", VStr p)]) with (@None value). cbv iota. split.
    - intros K s ->. unfold keywords in K. repeat match goal with H : _ /\ _ |- _ => destruct H end.
      match goal with H : s_pattern _ _ _ |- _ => exact (H _ eq_refl p s eq_refl eq_refl) end.
    - intros K. unfold keywords. repeat match goal with |- _ /\ _ => split end; try absent. eapply kw_present; [reflexivity|]. intros p' s [= <-] ->. apply K. auto.
  Qed.
  Lemma pattern_fitting p v : fitting w (pattern_doc p) v.
  Proof.
    intros d m x N Hr. apply needed_cases in N. destruct N as [(-> & E & ->)|(d1 & x1 & v1 & A & N)].
    - injection E as ->. split; [|intros [C|[C|C]]; [destruct (C eq_refl)..|discriminate C]]. repeat split; cbn -[moderate]; discriminate.
    - exfalso. apply write_asks in A; [|intros k' Hk'; simpl in Hk'; decompose [or] Hk'; subst; reflexivity || contradiction].
      destruct A as (_ & _ & [A|[(k' & Hk' & A)|(k' & l' & Hk' & A & Hx)]]); [discriminate A|destruct Hk' as [<-|[<-|[<-|[]]]]; discriminate A..].
  Qed.
  Theorem pattern_verdict r q p : disjunction r q -> text q p -> simple w (pattern_doc p) /\
    forall cs s, text cs s -> exists b, verdict w (pattern_doc p) (VStr s) b /\ (b = true <-> found r cs).
  Proof.
    intros H T. pose proof (pattern_bare p) as B.
    assert (D : doc_ok (pattern_doc p)).
    { apply doc_ok_single; [repeat constructor; auto|]. constructor; [|constructor]. split; [utf8|]. split; [constructor; exact (text_utf8 q p T)|reflexivity]. }
    assert (N : all_numbers (moderate lim) (pattern_doc p)) by (repeat constructor).
    assert (X : exists sch, made w (pattern_doc p) sch).
    { apply well_formed_made; auto. apply pattern_well_formed. eapply portable_compiles; eauto. }
    split; [split; auto|]. intros cs s Ts.
    destruct (bare_decided w HU _ B D N X (VStr s)) as (b & V & E).
    - split; [split; [constructor; exact (text_utf8 cs s Ts)|reflexivity]|constructor].
    - apply pattern_fitting.
    - exists b. split; auto. rewrite E, pattern_meaning. rewrite <- (portable_matches ud r q p cs s H T Ts). rewrite <- (proj2 HR). split.
      + intros K. apply K. auto.
      + intros K s' [= <-]. exact K.
  Qed.

  Definition members_doc (p : string) (x : value) : value := VMap [("patternProperties", VMap [(p, x)])].
  Lemma members_bare p x : bare x -> (forall t, x <> VStr t) -> bare (members_doc p x).
  Proof.
    intros [B _] Hs. split; [|intros m [= <-]; reflexivity]. intros m k t I Hk. inversion I as [| |m' k1 x1 y H I']; subst.
    - intros [E|[]]. discriminate.
    - destruct H as [E|[]]. injection E as <- <-. inversion I' as [| |m' k1 x1 y H I2]; subst.
      + intros [E|[]]. injection E as <- E. exact (Hs t E).
      + destruct H as [E|[]]. injection E as <- <-. apply (B m k t I2 Hk).
  Qed.
  Lemma members_well_formed p x : re_compiles ud p = true ->
    well_formed (fun p => e_re_ok go p = true) (fun s => w_parse w s <> None) same Hybrid x ->
    well_formed (fun p => e_re_ok go p = true) (fun s => w_parse w s <> None) same Hybrid (members_doc p x).
  Proof.
    intros H W. constructor.
    - split; [|split]; unfold head_shapes, plain_shapes, schema_shapes; repeat match goal with |- _ /\ _ => split end; try absent.
      eapply kw_present; [reflexivity|]. eexists. split; [reflexivity|]. intros p' s [E|[]]. injection E as <- <-. rewrite (proj1 HR). exact H.
    - intros y Hy.
      inversion Hy as [? ? ? E|? ? ? ? Hk E Hi|? ? Hk E|? ? ? E|? E|? ? ? Hk E|? ? ? Hk E|? ? ? Hk E|? E]; subst; simpl in *;
        repeat match goal with H : _ \/ _ |- _ => destruct H as [<-|H] | H : False |- _ => destruct H end; simpl in *; try discriminate.
      injection E as <-. destruct Hi as [E|[]]. injection E as <- <-. exact W.
  Qed.
  Lemma members_meaning p x o : bare (members_doc p x) -> (M (members_doc p x) (VMap o) <-> forall k e, In (k, e) o -> e_re_match go p k = true -> M x e).
  Proof.
    intros B. rewrite (free_rules w _ (VMap o) (proj1 B)). cbn [schema_sem members_doc].
    change (assoc "$ref" [("patternProperties", VMap [(p, x)])]) with (@None value). cbv iota. split.
    - intros K k e Hi Hm. unfold keywords in K. repeat match goal with H : _ /\ _ |- _ => destruct H end.
      match goal with H : s_patternProperties _ _ _ _ _ |- _ => exact (H _ eq_refl _ o eq_refl eq_refl p x k e (or_introl eq_refl) Hi Hm) end.
    - intros K. unfold keywords. repeat match goal with |- _ /\ _ => split end; try absent.
      eapply kw_present; [reflexivity|]. intros ps o' [= <-] [= <-] p' x' k e [E|[]] Hi Hm. injection E as <- <-. exact (K k e Hi Hm).
  Qed.
  Lemma members_fitting p x o : (forall k e, In (k, e) o -> fitting w x e) -> fitting w (members_doc p x) (VMap o).
  Proof.
    intros F d m y N Hr. apply needed_cases in N. destruct N as [(-> & E & ->)|(d1 & x1 & v1 & A & N)].
    - injection E as ->. split; [|intros [C|[C|C]]; [destruct (C eq_refl)..|discriminate C]]. repeat split; cbn -[moderate]; discriminate.
    - inversion A as [? ? r ? ? ? E T|? ? ? ? Nr P|? ? ? ? ? Nr P He|? ? ? ? ? ? Nr P He|? ? ? ? ? Nr P He]; subst.
      + discriminate E.
      + exfalso. inversion P as [? E|k ? H7 Hk E|k l ? Hk E Hx|ds n ? E Hx]; subst; try discriminate E; destruct Hk as [<-|[<-|[<-|[]]]]; discriminate E.
      + assert (x1 = x); [|subst; eapply F; eauto].
        inversion P as [? E|k1 ? ? ? Hk E Hx]; subst; [discriminate E|]. destruct Hk as [<-|[<-|[]]]; [discriminate E|]. injection E as <-.
        destruct Hx as [E|[]]. congruence.
      + exfalso. destruct P as [_ E]. discriminate E.
  Qed.
  (** Some member satisfies or not, decided for all of them. *)
  Theorem members_verdict r q p x : disjunction r q -> text q p -> simple w x -> simple w (members_doc p x) /\
    forall o, usual lim (VMap o) -> (forall k e, In (k, e) o -> fitting w x e) ->
    exists b, verdict w (members_doc p x) (VMap o) b /\
      (b = true <-> forall k e cs, In (k, e) o -> text cs k -> found r cs -> verdict w x e true).
  Proof.
    intros H T (Bx & Dx & Nx & schx & Mx).
    pose proof (made_well_formed w HU x schx Bx Dx Nx Mx) as Wx.
    assert (Hs : forall t, x <> VStr t) by (intros t ->; inversion Wx).
    pose proof (members_bare p x Bx Hs) as B.
    assert (D : doc_ok (members_doc p x)).
    { apply doc_ok_single; [repeat constructor; auto|]. constructor; [|constructor]. split; [utf8|].
      apply doc_ok_single; [repeat constructor; auto|]. constructor; [|constructor]. split; [exact (text_utf8 q p T)|exact Dx]. }
    assert (N : all_numbers (moderate lim) (members_doc p x)) by (repeat constructor; exact Nx).
    assert (X : exists sch, made w (members_doc p x) sch).
    { apply well_formed_made; auto. apply members_well_formed; auto. eapply portable_compiles; eauto. }
    split; [split; auto|]. intros o U F.
    destruct (bare_decided w HU _ B D N X (VMap o) U (members_fitting p x o F)) as (b & V & E).
    exists b. split; auto. rewrite E, (members_meaning p x o B).
    assert (HV : forall k e, In (k, e) o -> (verdict w x e true <-> M x e)).
    { intros k e Hi. assert (Ue : usual lim e).
      { destruct U as [U1 U2]. split; [apply doc_ok_map in U1; destruct U1 as [_ U1]; rewrite Forall_forall in U1; apply (U1 _ Hi)|].
        inversion U2 as [| | | | | |? FF]; subst. rewrite Forall_forall in FF. apply (FF _ Hi). }
      split.
      - intros Vx. apply (verdict_meaning w HU x e true Bx Dx Nx Ue (F k e Hi) Vx). reflexivity.
      - intros Me. destruct (bare_decided w HU x Bx Dx Nx (ex_intro _ schx Mx) e Ue (F k e Hi)) as (b' & Vx & Ex).
        assert (b' = true) as -> by (apply Ex; exact Me). exact Vx. }
    split.
    - intros K k e cs Hi Tk Hf. apply (HV k e Hi). apply (K k e Hi). rewrite (proj2 HR). apply (portable_matches ud r q p cs k H T Tk). exact Hf.
    - intros K k e Hi Hm. apply (HV k e Hi). rewrite (proj2 HR) in Hm.
      assert (Tk : exists cs, text cs k).
      { destruct U as [U1 _]. apply doc_ok_map_iff in U1. destruct U1 as [_ U1]. rewrite Forall_forall in U1. apply (U1 _ Hi). }
      destruct Tk as [cs Tk]. apply (K k e cs Hi Tk). apply (portable_matches ud r q p cs k H T Tk). exact Hm.
  Qed.
End Docs.
