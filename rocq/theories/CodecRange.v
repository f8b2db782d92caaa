(** A value that marshalWithoutNumber accepts has all its numbers within the
    range of float64. *)
From Verif Require Export JsonEqual.
Open Scope nat_scope.

(** The value with the members of its objects in key order: what its encoding
    is an encoding of. *)
Fixpoint vsort (v : value) : value :=
  match v with
  | VArr l => VArr (map vsort l)
  | VMap m => VMap (sort_keys (map (fun e => (fst e, vsort (snd e))) m))
  | _ => v
  end.

Lemma join_elements_u u ts cs : ts <> [] ->
  Forall2 (fun t c => json (lit u) t c) ts cs -> elements (lit u) (join "," ts) cs.
Proof.
  intros Hne H. induction H as [|t c ts cs Ht Hts IH]; [congruence|].
  destruct Hts as [|t2 c2 ts cs Ht2 Hts].
  - simpl. rewrite <- (append_nil_r t). constructor; auto. constructor.
  - change (join "," (t :: t2 :: ts)) with (append t (append "" (String "," (join "," (t2 :: ts))))).
    apply elements_cons; auto; [constructor|]. apply IH. discriminate.
Qed.
Lemma join_members_u u (es : list (string * string)) (ms : list (string * value)) : es <> [] ->
  Forall2 (fun e c => fst e = fst c /\ utf8_text (fst e) /\ json (lit u) (snd e) (snd c)) es ms ->
  mems (lit u) (join "," (map member_text es)) ms.
Proof.
  intros Hne H. induction H as [|[k t] [k' c] es ms (Ek & Hk & Ht) Hes IH]; [congruence|]. simpl in Ek, Hk, Ht. subst k'.
  destruct (enc_str_chars k Hk) as (kt & Ekt & Hkt).
  assert (Hm : forall x, append (member_text (k, t)) x = append "" (String """" (append kt (String """" (append "" (String ":" (append t x))))))).
  { intros x. unfold member_text. cbn [fst snd]. rewrite Ekt. cbn [append]. do 2 (rewrite <- append_assoc; cbn [append]). reflexivity. }
  destruct Hes as [|e2 c2 es ms H2 Hes].
  - change (join "," (map member_text [(k, t)])) with (member_text (k, t)).
    rewrite <- (append_nil_r (member_text _)), Hm. apply mems_one; auto; constructor.
  - change (join "," (map member_text ((k, t) :: e2 :: es))) with (append (member_text (k, t)) (append "" (String "," (join "," (map member_text (e2 :: es)))))).
    rewrite Hm. apply mems_cons; auto; try constructor. apply IH. discriminate.
Qed.

Theorem marshal_verbatim v : std v -> plain v = true -> exists t, marshal v = Some t /\ json verbatim t (vsort v).
Proof.
  change verbatim with (lit true).
  induction v using value_ind'; intros Hs Hp; inversion Hs; subst; cbn [vsort]; try discriminate.
  - exists "null"%string. split; auto. apply (json_null _ ""). constructor.
  - destruct b; eexists; (split; [reflexivity|]).
    + apply (json_true _ ""). constructor.
    + apply (json_false _ ""). constructor.
  - exists s. split; [cbn [marshal]; destruct s; [discriminate|]; rewrite H0; reflexivity|].
    apply (json_num _ ""); [constructor|apply number_iff; auto|]. reflexivity.
  - exists (enc_str s). split; auto.
    destruct (enc_str_chars s H0) as (t & Et & Ht). rewrite Et. apply (json_str _ ""); [constructor|auto].
  - apply plain_arr in Hp.
    assert (HT : exists ts, Forall2 (fun x t => marshal x = Some t) l ts /\ Forall2 (fun t c => json (lit true) t c) ts (map vsort l)).
    { clear Hs. induction l as [|x l IH]; [exists []; split; constructor|].
      inversion H as [|? ? Hx0 Hr0]; subst. inversion H1 as [|? ? Hx1 Hr1]; subst. inversion Hp as [|? ? Hx2 Hr2]; subst.
      destruct (Hx0 Hx1 Hx2) as (t & Et & Hj). destruct IH as (ts & E1 & E2); auto. exists (t :: ts). split; constructor; auto. }
    destruct HT as (ts & E1 & E2). cbn [marshal]. rewrite (proj2 (opt_all_Forall2 marshal l ts) E1).
    eexists. split; [reflexivity|].
    destruct E2 as [|t c ts cs Ht Hts].
    + apply (json_arr0 _ "" ""); constructor.
    + apply (json_arr _ ""); [constructor|]. apply join_elements_u; [discriminate|]. constructor; auto.
  - apply plain_map in Hp. set (m' := map (fun e => (fst e, vsort (snd e))) m).
    assert (HT : exists es,
      Forall2 (fun e t => match marshal (snd e) with Some x => Some (fst e, x) | None => None end = Some t) m es /\
      Forall2 (fun (e : string * string) (c : string * value) => fst e = fst c /\ (utf8_text (fst c) /\ json (lit true) (snd e) (snd c))) es m' /\
      map fst m = map fst m').
    { clear Hs H1. unfold m'. clear m'. induction m as [|x m IH]; [exists []; split; [|split]; constructor|].
      inversion H as [|? ? Hx0 Hrest]; subst. inversion H2 as [|? ? [Hk Hx] Hrest2]; subst. inversion Hp as [|? ? Hx2 Hr2]; subst.
      destruct (Hx0 Hx Hx2) as (t & Et & Hj).
      destruct IH as (es & E1 & E2 & E3); auto. exists ((fst x, t) :: es). split; [|split].
      - constructor; auto. rewrite Et. reflexivity.
      - constructor; auto.
      - simpl. congruence. }
    destruct HT as (es & E1 & E2 & E3). cbn [marshal].
    rewrite (proj2 (opt_all_Forall2 _ m es) E1). eexists. split; [reflexivity|].
    change (fun e : string * string => append (enc_str (fst e)) (append ":" (snd e))) with member_text.
    assert (Hnd : NoDup (map fst (sort_keys m'))).
    { eapply Permutation_NoDup; [apply sort_keys_fst_perm|]. rewrite <- E3. auto. }
    assert (E4 : Forall2 (fun (e : string * string) (c : string * value) => fst e = fst c /\ utf8_text (fst e) /\ json (lit true) (snd e) (snd c)) (sort_keys es) (sort_keys m')).
    { assert (HU : Forall (fun c : string * value => utf8_text (fst c)) (sort_keys m')).
      { rewrite Forall_forall. intros x Hx. apply (Permutation_in _ (Permutation_sym (sort_keys_permutation m'))) in Hx.
        clear -E2 Hx. clearbody m'. induction E2 as [|a b es m' Hab E2 IH]; [destruct Hx|]. destruct Hx as [<- |Hx]; [tauto|auto]. }
      assert (E5 : Forall2 (fun (e : string * string) (c : string * value) => fst e = fst c /\ json (lit true) (snd e) (snd c)) (sort_keys es) (sort_keys m')).
      { apply sort_keys_rel. clear -E2. clearbody m'. induction E2; constructor; auto; tauto. }
      clear -HU E5. clearbody m'. induction E5 as [|a b l l' [A1 A2] E5 IH]; [constructor|]. inversion HU; subst. constructor; auto.
      split; auto. rewrite A1. auto. }
    destruct (sort_keys es) as [|e0 es0] eqn:Ees.
    + inversion E4 as [E6|]; subst. apply (json_obj0 _ "" ""); constructor.
    + rewrite <- (members_distinct (sort_keys m') Hnd). apply (json_obj _ ""); [constructor|].
      apply join_members_u; auto. discriminate.
Qed.

(** The decoder without UseNumber accepts no text holding a number that
    float64 cannot represent. *)
Lemma parse_both : forall k s,
  (forall v r c r', pvalue k true s = Some (v, r) -> pvalue k false s = Some (c, r') -> r' = r /\ in_float_range v) /\
  (forall l r c r', parr k true s = Some (l, r) -> parr k false s = Some (c, r') -> r' = r /\ Forall in_float_range l) /\
  (forall acc acc' m r c r', pobj k true acc s = Some (m, r) -> pobj k false acc' s = Some (c, r') ->
     Forall (fun e => in_float_range (snd e)) acc -> r' = r /\ Forall (fun e => in_float_range (snd e)) m).
Proof.
  induction k as [|k IH]; intros s; [split; [|split]; intros; discriminate|].
  assert (IHv : forall s v r c r', pvalue k true s = Some (v, r) -> pvalue k false s = Some (c, r') -> r' = r /\ in_float_range v) by (intros s0; apply IH).
  assert (IHa : forall s l r c r', parr k true s = Some (l, r) -> parr k false s = Some (c, r') -> r' = r /\ Forall in_float_range l) by (intros s0; apply IH).
  assert (IHo : forall s acc acc' m r c r', pobj k true acc s = Some (m, r) -> pobj k false acc' s = Some (c, r') ->
     Forall (fun e => in_float_range (snd e)) acc -> r' = r /\ Forall (fun e => in_float_range (snd e)) m) by (intros s0; apply IH).
  clear IH. split; [|split].
  - intros v r w r'. cbn [pvalue]. destruct (skip_ws s) as [|c r0]; [discriminate|].
    destruct (Ascii.eqb c "{").
    { assert (Hcase : forall r1, match pobj k true [] r1 with Some (m, r2) => Some (VMap m, r2) | None => None end = Some (v, r) ->
        match pobj k false [] r1 with Some (m, r2) => Some (VMap m, r2) | None => None end = Some (w, r') -> r' = r /\ in_float_range v).
      { intros r1. destruct (pobj k true [] r1) as [[m r2]|] eqn:E; [|discriminate]. intros [= <- <-].
        destruct (pobj k false [] r1) as [[m2 r3]|] eqn:E2; [|discriminate]. intros [= <- <-].
        destruct (IHo _ _ _ _ _ _ _ E E2 (Forall_nil _)) as [-> HF]. split; auto. constructor. auto. }
      destruct (skip_ws r0) as [|c1 r1]; [apply Hcase|].
      destruct c1 as [[] [] [] [] [] [] [] []]; try apply Hcase.
      intros [= <- <-] [= <- <-]. split; auto. constructor. constructor. }
    destruct (Ascii.eqb c "[").
    { assert (Hcase : forall r1, match parr k true r1 with Some (m, r2) => Some (VArr m, r2) | None => None end = Some (v, r) ->
        match parr k false r1 with Some (m, r2) => Some (VArr m, r2) | None => None end = Some (w, r') -> r' = r /\ in_float_range v).
      { intros r1. destruct (parr k true r1) as [[m r2]|] eqn:E; [|discriminate]. intros [= <- <-].
        destruct (parr k false r1) as [[m2 r3]|] eqn:E2; [|discriminate]. intros [= <- <-].
        destruct (IHa _ _ _ _ _ E E2) as [-> HF]. split; auto. constructor. auto. }
      destruct (skip_ws r0) as [|c1 r1]; [apply Hcase|].
      destruct c1 as [[] [] [] [] [] [] [] []]; try apply Hcase.
      intros [= <- <-] [= <- <-]. split; auto. constructor. constructor. }
    destruct (Ascii.eqb c """").
    { destruct (parse_string r0) as [[t r2]|] eqn:E; [|discriminate]. intros [= <- <-] [= <- <-]. split; auto. constructor. }
    destruct (Ascii.eqb c "t").
    { destruct (strip_prefix "rue" r0); [|discriminate]. intros [= <- <-] [= <- <-]. split; auto. constructor. }
    destruct (Ascii.eqb c "f").
    { destruct (strip_prefix "alse" r0); [|discriminate]. intros [= <- <-] [= <- <-]. split; auto. constructor. }
    destruct (Ascii.eqb c "n").
    { destruct (strip_prefix "ull" r0); [|discriminate]. intros [= <- <-] [= <- <-]. split; auto. constructor. }
    unfold parse_number. destruct (scan_number (String c r0)) as [[l r1]|] eqn:E; [|discriminate].
    apply scan_number_again in E. destruct E as [_ E].
    intros [= <- <-]. destruct (parse_float l) as [f|] eqn:Ef; [|discriminate]. intros [= <- <-]. split; auto.
    apply canon_some; [constructor; exact E|]. exists (VFloat f). cbn [canon]. rewrite Ef. reflexivity.
  - intros l r w r'. simpl. destruct (pvalue k true s) as [[v r0]|] eqn:Ev; [|discriminate].
    destruct (pvalue k false s) as [[v' r0']|] eqn:Ev'; [|discriminate].
    destruct (IHv _ _ _ _ _ Ev Ev') as [-> Hv]. destruct (skip_ws r0) as [|c r1]; [discriminate|].
    assert (H1 : match parr k true r1 with Some (l, r3) => Some (v :: l, r3) | None => None end = Some (l, r) ->
      match parr k false r1 with Some (l, r3) => Some (v' :: l, r3) | None => None end = Some (w, r') -> r' = r /\ Forall in_float_range l).
    { destruct (parr k true r1) as [[l1 r2]|] eqn:E; [|discriminate]. intros [= <- <-].
      destruct (parr k false r1) as [[l2 r3]|] eqn:E2; [|discriminate]. intros [= <- <-].
      destruct (IHa _ _ _ _ _ E E2) as [-> HF]. split; auto. }
    assert (H2 : Some ([v], r1) = Some (l, r) -> Some ([v'], r1) = Some (w, r') -> r' = r /\ Forall in_float_range l) by (intros [= <- <-] [= <- <-]; auto).
    destruct c as [[] [] [] [] [] [] [] []]; try discriminate; auto.
  - intros acc acc' m r w r' E E' Hf. simpl in E, E'. destruct (skip_ws s) as [|c r0]; [discriminate E|].
    destruct (Ascii.eqb_spec c """") as [->|n];
      [|destruct c as [[] [] [] [] [] [] [] []]; try discriminate E; congruence].
    destruct (parse_string r0) as [[key r1]|] eqn:Ek; [|discriminate E].
    destruct (skip_ws r1) as [|c1 r2]; [discriminate E|].
    destruct (Ascii.eqb_spec c1 ":") as [->|n];
      [|destruct c1 as [[] [] [] [] [] [] [] []]; try discriminate E; congruence].
    destruct (pvalue k true r2) as [[v r3]|] eqn:Ev; [|discriminate E].
    destruct (pvalue k false r2) as [[v' r3']|] eqn:Ev'; [|discriminate E'].
    destruct (IHv _ _ _ _ _ Ev Ev') as [-> Hv].
    destruct (skip_ws r3) as [|c2 r4]; [discriminate E|].
    assert (Hf' : Forall (fun e => in_float_range (snd e)) (aset key v acc)) by (apply aset_Forall; auto).
    assert (EE : (pobj k true (aset key v acc) r4 = Some (m, r) /\ pobj k false (aset key v' acc') r4 = Some (w, r')) \/
                 (Some (aset key v acc, r4) = Some (m, r) /\ Some (aset key v' acc', r4) = Some (w, r'))).
    { destruct c2 as [[] [] [] [] [] [] [] []]; try discriminate E; auto. }
    destruct EE as [[E1 E2]|[E1 E2]]; [eapply IHo; eauto|]. injection E1 as <- <-. injection E2 as <- <-. auto.
Qed.

Lemma in_range_vsort v : std v -> in_float_range (vsort v) -> in_float_range v.
Proof.
  induction v using value_ind'; intros Hs Hr; cbn [vsort] in Hr; auto.
  - constructor. inversion Hs; subst. inversion Hr as [| | | | |? HF|]; subst. rewrite Forall_map in HF. rewrite Forall_forall in *. intros x Hx. apply H; auto. apply HF. auto.
  - constructor. inversion Hs as [| | | | | |? _ HS]; subst. inversion Hr as [| | | | | |? HF]; subst.
    assert (HF' : Forall (fun e => in_float_range (snd e)) (map (fun e => (fst e, vsort (snd e))) m)).
    { eapply Permutation_Forall; [apply Permutation_sym, sort_keys_permutation|exact HF]. }
    rewrite Forall_map in HF'. rewrite Forall_forall in *. intros e He. apply (H e He); [apply (HS e He)|apply (HF' e He)].
Qed.

Theorem mwn_range v t : std v -> plain v = true -> marshalWithoutNumber v = Some t -> in_float_range v.
Proof.
  intros Hs Hp E. destruct (marshal_verbatim v Hs Hp) as (x & Ex & Hx). unfold marshalWithoutNumber in E. rewrite Ex in E.
  unfold unmarshal in E. destruct (pvalue (parse_fuel x) false x) as [[c r]|] eqn:Ec; [|discriminate].
  apply in_range_vsort; auto.
  pose proof (proj1 (json_parse true) _ _ Hx (parse_fuel x) "" ) as P. rewrite append_nil_r in P.
  assert (P' : pvalue (parse_fuel x) true x = Some (vsort v, "")) by (apply P; [unfold parse_fuel; lia|apply stops_ends; exact I]).
  eapply (proj1 (parse_both _ _)); eauto.
Qed.
