(** Exchanging schemas for schemas with the same verdicts. *)
From Coq Require Import Lia Permutation.
From Verif Require Export SplitProps SpecSwap.
Open Scope nat_scope.

(** The members of two objects correspond. *)
Definition members (P : value -> value -> Prop) (c c' : list (string * value)) : Prop :=
  (forall k x, In (k, x) c -> exists y, In (k, y) c' /\ P x y) /\ (forall k y, In (k, y) c' -> exists x, In (k, x) c /\ P x y).
Lemma map_members P a b : map_part P a b -> exists c c', a = VMap c /\ b = VMap c' /\ members P c c'.
Proof.
  intros [m m1 m' HP HF]. exists m, m'. split; auto. split; auto.
  assert (A : members P m1 m').
  { clear HP. induction HF as [|[k x] [k' y] l l' [E Hxy] _ [IH1 IH2]]; [split; intros ? ? []|]. cbn [fst snd] in *. subst k'. split.
    - intros k0 z [Ez|Hz]; [injection Ez as <- <-; exists y; split; [left|]; auto|]. destruct (IH1 _ _ Hz) as (u & Hu & Hp). exists u. split; [right|]; auto.
    - intros k0 z [Ez|Hz]; [injection Ez as <- <-; exists x; split; [left|]; auto|]. destruct (IH2 _ _ Hz) as (u & Hu & Hp). exists u. split; [right|]; auto. }
  destruct A as [A1 A2]. split; intros k x Hx.
  - apply A1. eapply Permutation_in; eauto.
  - destruct (A2 _ _ Hx) as (u & Hu & Hp). exists u. split; auto. eapply Permutation_in; [apply Permutation_sym|]; eauto.
Qed.
Lemma both_flip {A} (P Q : A -> A -> Prop) a b : (forall x y, P x y -> Q y x) -> both P a b -> both Q b a.
Proof. intros H [|x y Hp]; constructor; auto. Qed.
Lemma both_mono {A} (P Q : A -> A -> Prop) a b : (forall x y, P x y -> Q x y) -> both P a b -> both Q a b.
Proof. intros H [|x y Hp]; constructor; auto. Qed.
Lemma both_right {A} (P : A -> A -> Prop) a b y : both P a b -> b = Some y -> exists x, a = Some x /\ P x y.
Proof. intros [|x z Hp]; [discriminate|]. intros [= <-]. eauto. Qed.
Lemma F2_flip {A} (P : A -> A -> Prop) l l' : Forall2 P l l' -> Forall2 (fun x y => P y x) l' l.
Proof. induction 1; constructor; auto. Qed.
Lemma F2_right {A} (P : A -> A -> Prop) l l' i y : Forall2 P l l' -> nth_error l' i = Some y -> exists x, nth_error l i = Some x /\ P x y.
Proof. intros H. revert i. induction H; intros [|i] E; try discriminate; cbn in *; [injection E as <-; eauto|eauto]. Qed.
Lemma F2_left {A} (P : A -> A -> Prop) l l' i x : Forall2 P l l' -> nth_error l i = Some x -> exists y, nth_error l' i = Some y /\ P x y.
Proof. intros H. revert i. induction H; intros [|i] E; try discriminate; cbn in *; [injection E as <-; eauto|eauto]. Qed.

Section OneWay.
  Variable pat : string -> string -> Prop.
  Variable fmt : string -> value -> Prop.
  Variable eqv : value -> value -> Prop.
  Variable V : draft -> value -> value -> Prop.
  Variable d : draft.
  Variables m m' : list (string * value).
  Variable v : value.
  Variable R : value -> value -> Prop.
  Definition schema_like (x : value) : Prop := (exists b, x = VBool b) \/ (exists c, x = VMap c).
  Hypothesis HB : forall b e, V d (VBool b) e <-> b = true.
  Hypothesis HL : forall x y, R x y -> x = y \/ (schema_like x /\ schema_like y).
  Hypothesis H1 : forall k, In k plain_keywords -> assoc k m = assoc k m'.
  Hypothesis H2 : forall k, In k (schema_keywords ++ addl_keywords) -> both R (assoc k m) (assoc k m').
  Hypothesis H3 : forall k, In k list_keywords -> both (arr_part R) (assoc k m) (assoc k m').
  Hypothesis H4 : forall k, In k map_keywords -> both (fun a b => exists c c', a = VMap c /\ b = VMap c' /\ members R c c') (assoc k m) (assoc k m').
  Hypothesis H5 : both (item_part R) (assoc "items" m) (assoc "items" m').
  Hypothesis H6 : both (fun a b => exists c c', a = VMap c /\ b = VMap c' /\ members (dep_part R) c c') (assoc "dependencies" m) (assoc "dependencies" m').
  Hypothesis HH : forall x y, R x y -> part_here d m x -> part_here d m' y -> (V d x v <-> V d y v).
  Hypothesis HI : forall l x y e, v = VArr l -> R x y -> part_item d m x -> part_item d m' y -> In e l -> (V d x e <-> V d y e).
  Hypothesis HP : forall o x y k e, v = VMap o -> R x y -> part_prop m x -> part_prop m' y -> In (k, e) o -> (V d x e <-> V d y e).
  Hypothesis HN : forall o x y k, v = VMap o -> R x y -> part_name d m x -> part_name d m' y -> In k (map fst o) -> (V d x (VStr k) <-> V d y (VStr k)).

  Ltac plain k := let x := fresh in let E := fresh in intros x E; rewrite <- (H1 k) in E by (simpl; tauto).
  Lemma plain_clause k P : In k plain_keywords -> kw m k P -> kw m' k P.
  Proof. intros I K x E. rewrite <- (H1 k I) in E. auto. Qed.
  Lemma list_clause k l' : In k list_keywords -> assoc k m' = Some (VArr l') -> exists l, assoc k m = Some (VArr l) /\ Forall2 R l l' /\
    forall x y, R x y -> In x l -> In y l' -> (V d x v <-> V d y v).
  Proof.
    intros I E. destruct (both_right _ _ _ _ (H3 k I) E) as (x & Ex & A). inversion A; subst. exists l. split; auto. split; auto.
    intros x y Hr Hx Hy. assert (I' : In k ["allOf"; "anyOf"; "oneOf"]) by (cbn [list_keywords In] in *; tauto). apply HH; auto; eapply here_element; eauto.
  Qed.
  Lemma addl_like a b e : R a b -> (V d a e <-> V d b e) -> (a = VBool false -> False) /\ ((forall b, a <> VBool b) -> V d a e) ->
    (b = VBool false -> False) /\ ((forall c, b <> VBool c) -> V d b e).
  Proof.
    intros Hr HV [K1 K2]. destruct (HL _ _ Hr) as [->|[La Lb]]; auto.
    assert (Va : V d a e).
    { destruct La as [[c ->]|[c ->]]; [apply HB; destruct c; auto; destruct (K1 eq_refl)|apply K2; discriminate]. }
    apply HV in Va. split; auto. intros ->. apply HB in Va. discriminate.
  Qed.
  Lemma item_list_back ss' : assoc "items" m' = Some (VArr ss') -> exists ss, assoc "items" m = Some (VArr ss) /\ (ss = ss' \/ Forall2 R ss ss').
  Proof.
    intros E. destruct (both_right _ _ _ _ H5 E) as (x & Ex & A). inversion A; subst; eauto.
    destruct (HL _ _ H) as [->|[_ [[b Eb]|[c Ec]]]]; try discriminate. eauto.
  Qed.
  Lemma map_fwd k c : In k map_keywords -> assoc k m = Some (VMap c) -> exists c', assoc k m' = Some (VMap c') /\ members R c c'.
  Proof.
    intros I E. pose proof (H4 k I) as B. rewrite E in B. inversion B as [|x y (c0 & c' & X & Y & M) Ea Eb]; subst. injection X as ->. eauto.
  Qed.
  Lemma additional_back k : additional pat m' k -> additional pat m k.
  Proof.
    intros [A1 A2]. split.
    - intros x E ps -> Hk. apply in_map_iff in Hk. destruct Hk as ([k0 s] & <- & Hs). cbn [fst] in *.
      destruct (map_fwd "properties" _ ltac:(simpl; auto) E) as (c' & Ec & [M1 _]). destruct (M1 _ _ Hs) as (t & Ht & _).
      apply (A1 _ Ec c' eq_refl). apply in_map_iff. exists (k0, t). auto.
    - intros x E ps -> p s Hs Hm. destruct (map_fwd "patternProperties" _ ltac:(simpl; auto) E) as (c' & Ec & [M1 _]). destruct (M1 _ _ Hs) as (t & Ht & _).
      exact (A2 _ Ec c' eq_refl p t Ht Hm).
  Qed.
  Lemma swap_allOf : s_allOf V d m v -> s_allOf V d m' v.
  Proof.
    intros K x E l' -> s Hs. destruct (list_clause "allOf" l' ltac:(simpl; auto) E) as (l & El & F & HV).
    apply In_nth_error in Hs. destruct Hs as [i Hi]. destruct (F2_right _ _ _ _ _ F Hi) as (x & Hx & Hr).
    apply (HV x s); eauto using nth_error_In.
  Qed.
  Lemma swap_anyOf : s_anyOf V d m v -> s_anyOf V d m' v.
  Proof.
    intros K x E l' ->. destruct (list_clause "anyOf" l' ltac:(simpl; auto) E) as (l & El & F & HV).
    destruct (K _ El l eq_refl) as (s & Hs & Vs). apply In_nth_error in Hs. destruct Hs as [i Hi]. destruct (F2_left _ _ _ _ _ F Hi) as (y & Hy & Hr).
    exists y. split; [eauto using nth_error_In|]. apply (HV s y); eauto using nth_error_In.
  Qed.
  Lemma swap_oneOf : s_oneOf V d m v -> s_oneOf V d m' v.
  Proof.
    intros K x E l' ->. destruct (list_clause "oneOf" l' ltac:(simpl; auto) E) as (l & El & F & HV).
    destruct (K _ El l eq_refl) as (i & s & Hi & Vs & U). destruct (F2_left _ _ _ _ _ F Hi) as (y & Hy & Hr).
    exists i, y. split; auto. split; [apply (HV s y); eauto using nth_error_In|]. intros j s' Hj Vj. destruct (F2_right _ _ _ _ _ F Hj) as (x & Hx & Hr').
    apply (U j x Hx). apply (HV x s'); eauto using nth_error_In.
  Qed.
  Lemma one_back k y : In k (schema_keywords ++ addl_keywords) -> assoc k m' = Some y -> exists x, assoc k m = Some x /\ R x y.
  Proof. intros I E. eapply both_right; eauto. Qed.
  Lemma swap_not : s_not V d m v -> s_not V d m' v.
  Proof.
    intros K y E. destruct (one_back "not" _ ltac:(simpl; tauto) E) as (x & Ex & Hr). intros Vy. apply (K x Ex). apply (HH x y); auto; apply here_not; auto.
  Qed.
  Lemma swap_if : s_if V d m v -> s_if V d m' v.
  Proof.
    intros K S7 y E. destruct (one_back "if" _ ltac:(simpl; tauto) E) as (x & Ex & Hr). destruct (K S7 x Ex) as [K1 K2].
    assert (HV : forall k a b, In k ["if"; "then"; "else"] -> assoc k m = Some a -> assoc k m' = Some b -> R a b -> (V d a v <-> V d b v)).
    { intros k a b I Ea Eb Hab. apply HH; auto; eapply here_if; eauto. }
    pose proof (HV "if" x y ltac:(simpl; auto) Ex E Hr) as HX. split; intros Hy z Ez.
    - destruct (one_back "then" _ ltac:(simpl; tauto) Ez) as (u & Eu & Hu). apply (HV "then" u z ltac:(simpl; auto) Eu Ez Hu). apply K1; tauto.
    - destruct (one_back "else" _ ltac:(simpl; tauto) Ez) as (u & Eu & Hu). apply (HV "else" u z ltac:(simpl; auto) Eu Ez Hu). apply K2; tauto.
  Qed.
  Lemma swap_items : s_items V d m v -> s_items V d m' v.
  Proof.
    intros K y E l El. destruct (both_right _ _ _ _ H5 E) as (x & Ex & A). destruct (K x Ex l El) as [K1 K2]. inversion A as [ss ss' F|a b Hr]; subst.
    - split; [|intros X; destruct (X _ eq_refl)]. intros ? [= <-] i s e Hi He. destruct (F2_right _ _ _ _ _ F Hi) as (u & Hu & Hr).
      apply (HI l u s e); eauto using nth_error_In, item_element.
    - destruct (HL _ _ Hr) as [->|[Lx Ly]]; [split; auto|]. split.
      + intros ss ->. destruct Ly as [[c X]|[c X]]; discriminate.
      + intros _ e He. apply (HI l x y e); auto; try (eapply item_value; [|eassumption]; simpl; auto). apply K2; auto.
        intros ss ->. destruct Lx as [[c X]|[c X]]; discriminate.
  Qed.
  Lemma swap_additionalItems : s_additionalItems V d m v -> s_additionalItems V d m' v.
  Proof.
    intros K b E l ss' El Es e He. destruct (one_back "additionalItems" _ ltac:(simpl; tauto) E) as (a & Ea & Hr).
    destruct (item_list_back _ Es) as (ss & Ess & F). assert (L : length ss = length ss') by (destruct F as [->|F]; [auto|eapply Forall2_length; eauto]).
    apply (addl_like a b e Hr).
    - apply (HI l); auto; try (eapply item_value; [|eassumption]; simpl; auto). rewrite <- (firstn_skipn (length ss') l). apply in_or_app. auto.
    - apply (K a Ea l ss El Ess e). rewrite L. auto.
  Qed.
  Lemma swap_contains : s_contains V d m v -> s_contains V d m' v.
  Proof.
    intros K S6 y E l El. destruct (one_back "contains" _ ltac:(simpl; tauto) E) as (x & Ex & Hr). destruct (K S6 x Ex l El) as (e & He & Ve).
    exists e. split; auto. apply (HI l x y e); auto; apply item_contains; auto.
  Qed.
  Lemma map_back k y : In k map_keywords -> assoc k m' = Some y -> exists c c', assoc k m = Some (VMap c) /\ y = VMap c' /\ members R c c'.
  Proof. intros I E. destruct (both_right _ _ _ _ (H4 k I) E) as (x & Ex & c & c' & -> & -> & M). eauto. Qed.
  Lemma swap_properties : s_properties V d m v -> s_properties V d m' v.
  Proof.
    intros K y E ps o -> Eo k s e Hs He. destruct (map_back "properties" _ ltac:(simpl; auto) E) as (c & c' & Ec & [= <-] & [_ M2]).
    destruct (M2 _ _ Hs) as (x & Hx & Hr). apply (HP o x s k e Eo Hr); auto; try (eapply prop_member; [|eassumption|eassumption]; simpl; auto). exact (K _ Ec c o eq_refl Eo k x e Hx He).
  Qed.
  Lemma swap_patternProperties : s_patternProperties pat V d m v -> s_patternProperties pat V d m' v.
  Proof.
    intros K y E ps o -> Eo p s k e Hs He Hm. destruct (map_back "patternProperties" _ ltac:(simpl; auto) E) as (c & c' & Ec & [= <-] & [_ M2]).
    destruct (M2 _ _ Hs) as (x & Hx & Hr). apply (HP o x s k e Eo Hr); auto; try (eapply prop_member; [|eassumption|eassumption]; simpl; auto). exact (K _ Ec c o eq_refl Eo p x k e Hx He Hm).
  Qed.
  Lemma swap_additionalProperties : s_additionalProperties pat V d m v -> s_additionalProperties pat V d m' v.
  Proof.
    intros K b E o Eo k e He Ha. destruct (one_back "additionalProperties" _ ltac:(simpl; tauto) E) as (a & Ea & Hr). apply (addl_like a b e Hr).
    - apply (HP o a b k e Eo Hr); auto; apply prop_value; auto.
    - apply (K a Ea o Eo k e He). apply additional_back. auto.
  Qed.
  Lemma swap_propertyNames : s_propertyNames V d m v -> s_propertyNames V d m' v.
  Proof.
    intros K S6 y E o Eo k Hk. destruct (one_back "propertyNames" _ ltac:(simpl; tauto) E) as (x & Ex & Hr).
    apply (HN o x y k Eo Hr); [split; auto|split; auto|auto|]. exact (K S6 x Ex o Eo k Hk).
  Qed.
  Lemma swap_dependencies : s_dependencies V d m v -> s_dependencies V d m' v.
  Proof.
    intros K y E ds o -> Eo k b Hb Hk. destruct (both_right _ _ _ _ H6 E) as (x & Ex & c & c' & -> & [= <-] & [_ M2]).
    destruct (M2 _ _ Hb) as (a & Ha & Hd). destruct (K _ Ex c o eq_refl Eo k a Ha Hk) as [K1 K2]. inversion Hd as [l|a0 b0 Hr]; subst.
    - split; auto.
    - destruct (HL _ _ Hr) as [->|[La Lb]]; [split; auto|]. split.
      + intros ks ->. destruct Lb as [[z X]|[z X]]; discriminate.
      + intros _. apply (HH a b Hr); try (eapply here_dependency; eauto). apply K2. intros ks ->. destruct La as [[z X]|[z X]]; discriminate.
  Qed.
  Lemma strict_back xk : In xk plain_keywords -> strict d m' xk -> strict d m xk.
  Proof. intros I [S X]. split; auto. rewrite (H1 xk I). auto. Qed.
  Ltac pl := apply plain_clause; [simpl; tauto|assumption].
  Lemma keywords_swap : keywords pat fmt eqv V d m v -> keywords pat fmt eqv V d m' v.
  Proof.
    unfold keywords. intros (K1 & K2 & K3 & K4 & K5 & K6 & K7 & K8 & K9 & K10 & K11 & K12 & K13 & K14 & K15 & K16 & K17 & K18 & K19 & K20 & K21 & K22 & K23 & K24 & K25 & K26 & K27 & K28 & K29 & K30 & K31).
    repeat match goal with |- _ /\ _ => split end;
      auto using swap_allOf, swap_anyOf, swap_oneOf, swap_not, swap_if, swap_items, swap_additionalItems, swap_contains, swap_properties, swap_patternProperties, swap_additionalProperties, swap_propertyNames, swap_dependencies; try pl.
    - intros S. specialize (K2 S). pl.
    - intros x E q b Hq Hb. rewrite <- (H1 "maximum") in E by (simpl; tauto). destruct (K11 x E q b Hq Hb) as [A B]. split; auto. intros S. apply B. apply strict_back; auto. simpl; tauto.
    - intros x E q b Hq Hb. rewrite <- (H1 "minimum") in E by (simpl; tauto). destruct (K12 x E q b Hq Hb) as [A B]. split; auto. intros S. apply B. apply strict_back; auto. simpl; tauto.
    - intros S. specialize (K13 S). pl.
    - intros S. specialize (K14 S). pl.
  Qed.
End OneWay.

Section Equal.
  Variable w : world.
  Hypothesis HU : url_laws w.
  Notation go := (w_go w).
  Notation lim := (e_ratlim go).
  Notation free v := (forall m k t, inside v (VMap m) -> In k ["$ref"; "$id"; "id"] -> ~ In (k, VStr t) m).
  Notation MM := (meaning (pat go) (fmt go) same nowhere).
  Notation M := (MM Hybrid).

  (** Two schemas with the same verdicts. *)
  Definition same_verdicts (x y : value) : Prop :=
    simple w x /\ simple w y /\ forall v b, usual lim v -> fitting w x v -> fitting w y v -> verdict w x v b -> verdict w y v b.

  Lemma simple_like x : simple w x -> schema_like x.
  Proof.
    intros (B & D & N & sch & Hm). pose proof (made_well_formed w HU _ _ B D N Hm) as W. inversion W; [left|right]; eauto.
  Qed.
  Variable Ex : value -> value -> Prop.
  Hypothesis HE : forall x y, Ex x y -> same_verdicts x y.
  Lemma swapped_like x y : swapped Ex x y -> x = y \/ (schema_like x /\ schema_like y).
  Proof.
    intros [a b H|a|m m']; auto; right; [destruct (HE _ _ H) as (S & S' & _); split; apply simple_like; auto|]. split; right; eauto.
  Qed.
  Lemma same_meaning x y v : same_verdicts x y -> usual lim v -> fitting w x v -> fitting w y v -> (M x v <-> M y v).
  Proof.
    intros (S & S' & H) U F F'. pose proof S as (B & D & N & X). pose proof S' as (B' & D' & N' & X').
    destruct (bare_decided w HU _ B D N X v U F) as (b & Vb & E). pose proof (verdict_meaning w HU y v b B' D' N' U F' (H v b U F F' Vb)) as E'.
    tauto.
  Qed.
  Lemma fitting_asks s v d' s' v' : free s -> fitting w s v -> asks nowhere Hybrid s v d' s' v' -> fitting w s' v'.
  Proof.
    intros Fr F A d m x N Hr. destruct (asks_inside _ _ _ _ _ _ _ Fr A) as [-> _]. apply (F d m x); auto.
    clear - A N. induction N as [|d2 s2 v2 d3 s3 v3 N IH A']; [econstructor; [constructor|exact A]|econstructor; eauto].
  Qed.
  Lemma usual_item l e : usual lim (VArr l) -> In e l -> usual lim e.
  Proof. intros [D N] H. assert (I : inside (VArr l) e) by (econstructor; eauto; constructor). split; [eapply inside_doc_ok|eapply inside_numbers]; eauto. Qed.
  Lemma usual_member o k e : usual lim (VMap o) -> In (k, e) o -> usual lim e.
  Proof. intros [D N] H. assert (I : inside (VMap o) e) by (eapply inside_map; eauto; constructor). split; [eapply inside_doc_ok|eapply inside_numbers]; eauto. Qed.
  Lemma usual_name o k : usual lim (VMap o) -> In k (map fst o) -> usual lim (VStr k).
  Proof.
    intros [[D P] N] H. apply in_map_iff in H. destruct H as ([k0 e] & <- & H). inversion D as [| | | | | |? ? F]; subst. rewrite Forall_forall in F.
    split; [split; [constructor; apply (F _ H)|reflexivity]|constructor].
  Qed.
  Lemma bool_means b e : M (VBool b) e <-> b = true.
  Proof. rewrite (free_rules w (VBool b) e); [reflexivity|]. intros m k t I. inversion I. Qed.

  Lemma part_size d m x : part d m x -> vsize x < vsize (VMap m).
  Proof.
    assert (A : forall k x, assoc k m = Some x -> vsize x < vsize (VMap m)) by (intros k y E; apply assoc_In in E; apply vsize_member in E; lia).
    assert (B : forall k l x, assoc k m = Some (VArr l) -> In x l -> vsize x < vsize (VMap m)) by (intros k l y E H; apply A in E; apply vsize_item in H; lia).
    assert (C : forall k c n x, assoc k m = Some (VMap c) -> In (n, x) c -> vsize x < vsize (VMap m)) by (intros k l n y E H; apply A in E; apply vsize_member in H; lia).
    intros [[]|[[]|[[]|[]]]]; eauto.
  Qed.
  Theorem swapped_means n : forall a b v, vsize a < n -> swapped Ex a b -> free a -> free b -> usual lim v ->
    fitting w a v -> fitting w b v -> (M a v <-> M b v).
  Proof.
    induction n as [|n IH]; intros a b v L S Fa Fb U Ta Tb; [lia|]. inversion S as [x y Exy|x|m m' P1 P2 P3 P4 P5 P6]; subst; [apply same_meaning; auto|reflexivity|].
    rewrite (free_rules w _ v Fa), (free_rules w _ v Fb). cbn [schema_sem].
    pose proof (fun r => free_no_ref (VMap m) m r Fa (inside_refl _)) as Na.
    pose proof (fun r => free_no_ref (VMap m') m' r Fb (inside_refl _)) as Nb.
    assert (HQ : forall x y v', swapped Ex x y -> part Hybrid m x -> part Hybrid m' y ->
      asks nowhere Hybrid (VMap m) v Hybrid x v' -> asks nowhere Hybrid (VMap m') v Hybrid y v' -> usual lim v' -> (M x v' <-> M y v')).
    { intros x y v' Hs Px Py Ax Ay Uv. pose proof (part_inside _ _ _ Px) as Ix. pose proof (part_inside _ _ _ Py) as Iy. apply (IH x y v'); [|exact Hs| | |exact Uv| |].
      - pose proof (part_size _ _ _ Px). lia.
      - exact (free_inside _ _ Fa Ix).
      - exact (free_inside _ _ Fb Iy).
      - exact (fitting_asks _ _ _ _ _ Fa Ta Ax).
      - exact (fitting_asks _ _ _ _ _ Fb Tb Ay). }
    assert (HH : forall x y, swapped Ex x y -> part_here Hybrid m x -> part_here Hybrid m' y -> (M x v <-> M y v)).
    { intros x y Hs Px Py. apply HQ; auto; try (left; auto); apply ask_here; auto. }
    assert (HI : forall l x y e, v = VArr l -> swapped Ex x y -> part_item Hybrid m x -> part_item Hybrid m' y -> In e l -> (M x e <-> M y e)).
    { intros l x y e -> Hs Px Py He. apply HQ; auto; try (right; left; auto); try (apply ask_item; auto). eapply usual_item; eauto. }
    assert (HP : forall o x y k e, v = VMap o -> swapped Ex x y -> part_prop m x -> part_prop m' y -> In (k, e) o -> (M x e <-> M y e)).
    { intros o x y k e -> Hs Px Py He. apply HQ; auto; try (right; right; left; auto); try (eapply ask_prop; eauto). eapply usual_member; eauto. }
    assert (HN : forall o x y k, v = VMap o -> swapped Ex x y -> part_name Hybrid m x -> part_name Hybrid m' y -> In k (map fst o) -> (M x (VStr k) <-> M y (VStr k))).
    { intros o x y k -> Hs Px Py Hk. apply HQ; auto; try (right; right; right; auto); try (eapply ask_name; eauto). eapply usual_name; eauto. }
    assert (K : keywords (pat go) (fmt go) same MM Hybrid m v <-> keywords (pat go) (fmt go) same MM Hybrid m' v).
    { split.
      - apply keywords_swap with (R := swapped Ex); auto; try (apply bool_means); try (intros x y; apply swapped_like).
        + intros k Hk. eapply both_mono; [|apply P4; auto]. intros x y. apply map_members.
        + eapply both_mono; [|apply P6; auto]. intros x y. apply map_members.
      - apply keywords_swap with (R := fun x y => swapped Ex y x).
        + intros b e. apply bool_means.
        + intros x y Hs. destruct (swapped_like _ _ Hs) as [->|[A B]]; auto.
        + intros k Hk. symmetry. apply P1. exact Hk.
        + intros k Hk. eapply both_flip; [|apply P2; auto]. auto.
        + intros k Hk. eapply both_flip; [|apply P3; auto]. intros x y [l l' F]. constructor. apply F2_flip. exact F.
        + intros k Hk. eapply both_flip; [|apply P4; auto]. intros x y HM. destruct (map_members _ _ _ HM) as (c & c' & -> & -> & [M1 M2]). exists c', c. split; auto. split; auto. split; [exact M2|exact M1].
        + eapply both_flip; [|apply P5; auto]. intros x y [l l' F|x0 y0 Hs]; [apply item_list; apply F2_flip; exact F|apply item_schema; auto].
        + eapply both_flip; [|apply P6; auto]. intros x y HM. destruct (map_members _ _ _ HM) as (c & c' & -> & -> & [M1 M2]). exists c', c. split; auto. split; auto.
          split; intros k z Hz; [destruct (M2 _ _ Hz) as (u & Hu & Hd)|destruct (M1 _ _ Hz) as (u & Hu & Hd)]; exists u; (split; [auto|]); destruct Hd; constructor; auto.
        + intros x y Hs Px Py. symmetry. exact (HH y x Hs Py Px).
        + intros l x y e El Hs Px Py He. symmetry. exact (HI l y x e El Hs Py Px He).
        + intros o x y k e Eo Hs Px Py He. symmetry. exact (HP o y x k e Eo Hs Py Px He).
        + intros o x y k Eo Hs Px Py Hk. symmetry. exact (HN o y x k Eo Hs Py Px Hk). }
    destruct (assoc "$ref" m) as [z|] eqn:Ez; [destruct z as [| | | |r0| | |]; try (destruct (Na r0 eq_refl); fail)|];
    (destruct (assoc "$ref" m') as [z'|] eqn:Ez'; [destruct z' as [| | | |r1| | |]; try (destruct (Nb r1 eq_refl); fail)|]); exact K.
  Qed.

  Theorem swapped_verdict a b v : swapped Ex a b -> simple w a -> simple w b -> usual lim v -> fitting w a v -> fitting w b v ->
    exists r, verdict w a v r /\ verdict w b v r.
  Proof.
    intros S (B & D & N & X) (B' & D' & N' & X') U F F'.
    destruct (bare_decided w HU _ B D N X v U F) as (r & H & Hr). destruct (bare_decided w HU _ B' D' N' X' v U F') as (r' & H' & Hr').
    exists r. split; auto. replace r with r'; auto. pose proof (swapped_means (Datatypes.S (vsize a)) a b v ltac:(lia) S (proj1 B) (proj1 B') U F F') as Eq.
    destruct r, r'; auto; [apply Hr', Eq, Hr; reflexivity|symmetry; apply Hr, Eq, Hr'; reflexivity].
  Qed.
End Equal.
