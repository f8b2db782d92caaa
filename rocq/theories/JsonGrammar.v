(** JSON values: the model's decoder against the grammar. *)
From Verif Require Export JsonStrings.
Open Scope nat_scope.

Scheme json_mind := Minimality for json Sort Prop
  with elements_mind := Minimality for elements Sort Prop
  with mems_mind := Minimality for mems Sort Prop.
Combined Scheme json_mutind from json_mind, elements_mind, mems_mind.

(** What number literals become: kept, or read as float64. *)
Definition lit (u : bool) (s : string) (v : value) : Prop :=
  if u then v = VNum s else exists f, parse_float s = Some f /\ v = VFloat f.

(** ** White space *)

Lemma ws_is_ws c : In c [" "; "009"; "010"; "013"]%char <-> is_ws c = true.
Proof.
  unfold is_ws. rewrite !orb_true_iff, !Ascii.eqb_eq. simpl. intuition (subst; auto).
Qed.
Lemma skip_ws_app w x : ws w -> skip_ws (append w x) = skip_ws x.
Proof. induction 1 as [|c w Hc Hw IH]; auto. cbn [append skip_ws]. apply ws_is_ws in Hc. rewrite Hc. exact IH. Qed.
Lemma skip_ws_idem s : skip_ws (skip_ws s) = skip_ws s.
Proof. induction s as [|c s IH]; auto. simpl. destruct (is_ws c) eqn:E; auto. simpl. rewrite E. auto. Qed.
Lemma skip_ws_split s : exists w, ws w /\ s = append w (skip_ws s).
Proof.
  induction s as [|c s (w & Hw & E)]; [exists ""%string; split; constructor|]. simpl. destruct (is_ws c) eqn:Ec.
  - exists (String c w). split; [constructor; auto; apply ws_is_ws; auto|]. cbn [append]. congruence.
  - exists ""%string. split; [constructor|reflexivity].
Qed.
Lemma skip_ws_head s c r : skip_ws s = String c r -> is_ws c = false.
Proof. induction s as [|a s IH]; [discriminate|]. simpl. destruct (is_ws a) eqn:E; auto. intros [= -> ->]. auto. Qed.
Lemma skip_ws_non c r : is_ws c = false -> skip_ws (String c r) = String c r.
Proof. intros H. simpl. rewrite H. reflexivity. Qed.

Lemma pvalue_ws k u s : pvalue k u (skip_ws s) = pvalue k u s.
Proof. destruct k; [reflexivity|]. cbn [pvalue]. rewrite skip_ws_idem. reflexivity. Qed.
Lemma parr_ws k u s : parr k u (skip_ws s) = parr k u s.
Proof. destruct k; [reflexivity|]. cbn [parr]. rewrite pvalue_ws. reflexivity. Qed.
Lemma pobj_ws k u acc s : pobj k u acc (skip_ws s) = pobj k u acc s.
Proof. destruct k; [reflexivity|]. cbn [pobj]. rewrite skip_ws_idem. reflexivity. Qed.

(** ** Steps of the parser *)

Lemma pv_str k u x r t r2 : skip_ws x = String """" r -> parse_string r = Some (t, r2) ->
  pvalue (S k) u x = Some (VStr t, r2).
Proof. intros H E. cbn [pvalue]. rewrite H. simpl (Ascii.eqb _ _). cbv iota. rewrite E. reflexivity. Qed.

Lemma pv_num k u x c r : skip_ws x = String c r -> is_digit c = true \/ c = "-"%char ->
  pvalue (S k) u x = parse_number u (String c r).
Proof.
  intros H Hc. cbn [pvalue]. rewrite H.
  assert (Hn : Ascii.eqb c "{" = false /\ Ascii.eqb c "[" = false /\ Ascii.eqb c """" = false /\ Ascii.eqb c "t" = false /\ Ascii.eqb c "f" = false /\ Ascii.eqb c "n" = false).
  { destruct Hc as [Hc| ->]; [|repeat split]. destruct c as [[] [] [] [] [] [] [] []]; try discriminate Hc; repeat split. }
  destruct Hn as (-> & -> & -> & -> & -> & ->). reflexivity.
Qed.

Lemma pv_arr0 k u x r r2 : skip_ws x = String "[" r -> skip_ws r = String "]" r2 ->
  pvalue (S k) u x = Some (VArr [], r2).
Proof. intros H E. cbn [pvalue]. rewrite H. simpl (Ascii.eqb _ _). cbv iota. rewrite E. reflexivity. Qed.
Lemma pv_obj0 k u x r r2 : skip_ws x = String "{" r -> skip_ws r = String "}" r2 ->
  pvalue (S k) u x = Some (VMap [], r2).
Proof. intros H E. cbn [pvalue]. rewrite H. simpl (Ascii.eqb _ _). cbv iota. rewrite E. reflexivity. Qed.

Lemma pv_arr k u x r : skip_ws x = String "[" r -> (forall y, skip_ws r <> String "]" y) ->
  pvalue (S k) u x = match parr k u r with Some (l, r2) => Some (VArr l, r2) | None => None end.
Proof.
  intros H E. cbn [pvalue]. rewrite H. simpl (Ascii.eqb _ _). cbv iota. rewrite <- (parr_ws k u r).
  destruct (skip_ws r) as [|c y]; [reflexivity|]. destruct (Ascii.eqb_spec c "]"); [subst; edestruct E; eauto|].
  destruct c as [[] [] [] [] [] [] [] []]; try reflexivity. congruence.
Qed.
Lemma pv_obj k u x r : skip_ws x = String "{" r -> (forall y, skip_ws r <> String "}" y) ->
  pvalue (S k) u x = match pobj k u [] r with Some (m, r2) => Some (VMap m, r2) | None => None end.
Proof.
  intros H E. cbn [pvalue]. rewrite H. simpl (Ascii.eqb _ _). cbv iota. rewrite <- (pobj_ws k u [] r).
  destruct (skip_ws r) as [|c y]; [reflexivity|]. destruct (Ascii.eqb_spec c "}"); [subst; edestruct E; eauto|].
  destruct c as [[] [] [] [] [] [] [] []]; try reflexivity. congruence.
Qed.

(** ** Completeness *)

Lemma number_head s : json_number s = true -> exists c r, s = String c r /\ (is_digit c = true \/ c = "-"%char).
Proof.
  intros H. destruct (json_number_parts s H) as (g & i & f & e & Hg & Hi & _ & _ & ->).
  destruct Hg as [-> | ->]; [|cbn [append]; eauto]. destruct (int_part_digits i Hi) as [H1 H2].
  destruct i as [|c i]; [congruence|]. apply digits_cons in H1. cbn [append]. exists c, (append i (append f e)). tauto.
Qed.

(** First character after white space. *)
Definition opens (s : string) : Prop := exists w c r, ws w /\ s = append w (String c r) /\ is_ws c = false /\
  c <> "]"%char /\ c <> "}"%char.

Lemma opens_skip s x : opens s -> (forall y, skip_ws (append s x) <> String "]" y) /\ (forall y, skip_ws (append s x) <> String "}" y).
Proof.
  intros (w & c & r & Hw & -> & Hc & H1 & H2). rewrite <- append_assoc, skip_ws_app by auto. cbn [append].
  rewrite skip_ws_non by auto. split; intros y [= ? ?]; congruence.
Qed.
Lemma opens_length s : opens s -> 1 <= String.length s.
Proof. intros (w & c & r & _ & -> & _). rewrite length_append. simpl. lia. Qed.
Lemma opens_app s x : opens s -> opens (append s x).
Proof.
  intros (w & c & r & Hw & -> & Hc & H1 & H2). exists w, c, (append r x). rewrite <- append_assoc. auto.
Qed.

Lemma ws_stops w c x : ws w -> stops (String c x) -> stops (append w (String c x)).
Proof.
  intros Hw H. destruct Hw as [|a w Ha Hw]; [exact H|].
  simpl in Ha. repeat destruct Ha as [<- |Ha]; try (repeat split; (reflexivity || discriminate)). destruct Ha.
Qed.

Lemma json_opens u : (forall s v, json (lit u) s v -> opens s) /\
  (forall s l, elements (lit u) s l -> opens s) /\ (forall s ms, mems (lit u) s ms -> opens s).
Proof.
  apply json_mutind; intros.
  - exists w; do 2 eexists; (split; [assumption|]); (split; [reflexivity|]); repeat split; (reflexivity || discriminate).
  - exists w; do 2 eexists; (split; [assumption|]); (split; [reflexivity|]); repeat split; (reflexivity || discriminate).
  - exists w; do 2 eexists; (split; [assumption|]); (split; [reflexivity|]); repeat split; (reflexivity || discriminate).
  - apply number_iff in H0. destruct (number_head _ H0) as (c & r & -> & Hc).
    exists w, c, r. split; [assumption|]. split; [reflexivity|].
    destruct Hc as [Hc| ->]; [|repeat split; (reflexivity || discriminate)].
    destruct c as [[] [] [] [] [] [] [] []]; try discriminate Hc; repeat split; (reflexivity || discriminate).
  - exists w; do 2 eexists; (split; [assumption|]); (split; [reflexivity|]); repeat split; (reflexivity || discriminate).
  - exists w; do 2 eexists; (split; [assumption|]); (split; [reflexivity|]); repeat split; (reflexivity || discriminate).
  - exists w; do 2 eexists; (split; [assumption|]); (split; [reflexivity|]); repeat split; (reflexivity || discriminate).
  - exists w; do 2 eexists; (split; [assumption|]); (split; [reflexivity|]); repeat split; (reflexivity || discriminate).
  - exists w; do 2 eexists; (split; [assumption|]); (split; [reflexivity|]); repeat split; (reflexivity || discriminate).
  - apply opens_app; auto.
  - apply opens_app; auto.
  - exists w; do 2 eexists; (split; [assumption|]); (split; [reflexivity|]); repeat split; (reflexivity || discriminate).
  - exists w; do 2 eexists; (split; [assumption|]); (split; [reflexivity|]); repeat split; (reflexivity || discriminate).
Qed.

Definition addm (m : list (string * value)) (e : string * value) := aset (fst e) (snd e) m.

(** What follows a value does not matter, unless the value is a number. *)
Definition ends (v : value) (rest : string) : Prop := match v with VNum _ | VFloat _ => stops rest | _ => True end.
Lemma stops_ends v rest : stops rest -> ends v rest.
Proof. destruct v; simpl; auto. Qed.

Theorem json_parse u :
  (forall s v, json (lit u) s v -> forall k rest, 2 * String.length s <= k -> ends v rest ->
     pvalue k u (append s rest) = Some (v, rest)) /\
  (forall s l, elements (lit u) s l -> forall k rest, 2 * String.length s + 1 <= k ->
     parr k u (append s (String "]" rest)) = Some (l, rest)) /\
  (forall s ms, mems (lit u) s ms -> forall k acc rest, 2 * String.length s + 1 <= k ->
     pobj k u acc (append s (String "}" rest)) = Some (fold_left addm ms acc, rest)).
Proof.
  destruct (json_opens u) as (HO & HOe & HOm).
  apply json_mutind.
  - intros w Hw k rest Hk _. rewrite length_append in Hk. simpl in Hk. destruct k as [|k]; [lia|].
    rewrite <- append_assoc. cbn [pvalue]. rewrite skip_ws_app by auto. reflexivity.
  - intros w Hw k rest Hk _. rewrite length_append in Hk. simpl in Hk. destruct k as [|k]; [lia|].
    rewrite <- append_assoc. cbn [pvalue]. rewrite skip_ws_app by auto. reflexivity.
  - intros w Hw k rest Hk _. rewrite length_append in Hk. simpl in Hk. destruct k as [|k]; [lia|].
    rewrite <- append_assoc. cbn [pvalue]. rewrite skip_ws_app by auto. reflexivity.
  - intros w s v Hw Hs Hv k rest Hk He. assert (Hst : stops rest) by (destruct u; simpl in Hv; [rewrite Hv in He; exact He|destruct Hv as (? & Ev & Ef); first [rewrite Ev in He|rewrite Ef in He]; exact He]). apply number_iff in Hs.
    destruct (number_head s Hs) as (c & r & E & Hc). assert (1 <= String.length s) by (rewrite E; simpl; lia).
    rewrite length_append in Hk. destruct k as [|k]; [lia|].
    rewrite <- append_assoc.
    rewrite (pv_num k u _ c (append r rest)); auto.
    + change (String c (append r rest)) with (append (String c r) rest). rewrite <- E.
      unfold parse_number. rewrite scan_number_stop by auto. destruct u; simpl in Hv; [congruence|].
      destruct Hv as (f & -> & ->). reflexivity.
    + rewrite skip_ws_app by auto. rewrite E. cbn [append]. apply skip_ws_non.
      destruct Hc as [Hc| ->]; [|reflexivity]. destruct c as [[] [] [] [] [] [] [] []]; try discriminate Hc; reflexivity.
  - intros w s t Hw Hs k rest Hk _. rewrite length_append in Hk. simpl in Hk. destruct k as [|k]; [lia|].
    rewrite <- append_assoc. cbn [append]. rewrite <- append_assoc. cbn [append].
    apply pv_str with (append s (String """" rest)).
    + rewrite skip_ws_app by auto. reflexivity.
    + apply parse_string_chars; auto.
  - intros w w1 Hw Hw1 k rest Hk _. rewrite length_append in Hk. simpl in Hk. destruct k as [|k]; [lia|].
    rewrite <- append_assoc. cbn [append]. rewrite <- append_assoc. cbn [append].
    apply pv_arr0 with (append w1 (String "]" rest)).
    + rewrite skip_ws_app by auto. reflexivity.
    + rewrite skip_ws_app by auto. reflexivity.
  - intros w s l Hw Hs IH k rest Hk _. rewrite length_append in Hk. cbn [String.length] in Hk. rewrite length_append in Hk. simpl in Hk.
    destruct k as [|k]; [lia|].
    rewrite <- append_assoc. cbn [append]. rewrite <- append_assoc. cbn [append].
    rewrite (pv_arr k u _ (append s (String "]" rest))).
    + rewrite IH by lia. reflexivity.
    + rewrite skip_ws_app by auto. reflexivity.
    + apply opens_skip. eapply HOe; eauto.
  - intros w w1 Hw Hw1 k rest Hk _. rewrite length_append in Hk. simpl in Hk. destruct k as [|k]; [lia|].
    rewrite <- append_assoc. cbn [append]. rewrite <- append_assoc. cbn [append].
    apply pv_obj0 with (append w1 (String "}" rest)).
    + rewrite skip_ws_app by auto. reflexivity.
    + rewrite skip_ws_app by auto. reflexivity.
  - intros w s ms Hw Hs IH k rest Hk _. rewrite length_append in Hk. cbn [String.length] in Hk. rewrite length_append in Hk. simpl in Hk.
    destruct k as [|k]; [lia|].
    rewrite <- append_assoc. cbn [append]. rewrite <- append_assoc. cbn [append].
    rewrite (pv_obj k u _ (append s (String "}" rest))).
    + rewrite IH by lia. reflexivity.
    + rewrite skip_ws_app by auto. reflexivity.
    + apply opens_skip. eapply HOm; eauto.
  - intros s v w Hv IH Hw k rest Hk. rewrite length_append in Hk. destruct k as [|k]; [lia|].
    cbn [parr]. rewrite <- append_assoc. rewrite IH; [|lia|apply stops_ends, ws_stops; auto; repeat split; (reflexivity || discriminate)].
    rewrite skip_ws_app by auto. reflexivity.
  - intros s v w s' l Hv IH Hw Hl IHl k rest Hk. rewrite !length_append in Hk. simpl in Hk. destruct k as [|k]; [lia|].
    cbn [parr]. rewrite <- !append_assoc. cbn [append].
    rewrite IH; [|lia|apply stops_ends, ws_stops; auto; repeat split; (reflexivity || discriminate)].
    rewrite skip_ws_app by auto. simpl (skip_ws (String "," _)). cbv iota.
    rewrite IHl by lia. reflexivity.
  - intros w k key w1 s v w2 Hw Hk Hw1 Hv IH Hw2 n acc rest Hn.
    rewrite length_append in Hn. cbn [String.length] in Hn. rewrite length_append in Hn. cbn [String.length] in Hn.
    rewrite length_append in Hn. cbn [String.length] in Hn. rewrite length_append in Hn.
    destruct n as [|n]; [lia|]. cbn [pobj].
    rewrite <- append_assoc. cbn [append]. rewrite <- append_assoc. cbn [append].
    rewrite skip_ws_app by auto. simpl (skip_ws (String """" _)). cbv iota.
    rewrite (parse_string_chars k key) by auto.
    rewrite <- append_assoc. cbn [append]. rewrite skip_ws_app by auto. simpl (skip_ws (String ":" _)). cbv iota.
    rewrite <- append_assoc.
    rewrite IH; [|lia|apply stops_ends, ws_stops; auto; repeat split; (reflexivity || discriminate)].
    rewrite skip_ws_app by auto. reflexivity.
  - intros w k key w1 s v w2 s' ms Hw Hk Hw1 Hv IH Hw2 Hms IHms n acc rest Hn.
    rewrite length_append in Hn. cbn [String.length] in Hn. rewrite length_append in Hn. cbn [String.length] in Hn.
    rewrite length_append in Hn. cbn [String.length] in Hn. rewrite !length_append in Hn. cbn [String.length] in Hn.
    destruct n as [|n]; [lia|]. cbn [pobj].
    rewrite <- append_assoc. cbn [append]. rewrite <- append_assoc. cbn [append].
    rewrite skip_ws_app by auto. simpl (skip_ws (String """" _)). cbv iota.
    rewrite (parse_string_chars k key) by auto.
    rewrite <- append_assoc. cbn [append]. rewrite skip_ws_app by auto. simpl (skip_ws (String ":" _)). cbv iota.
    rewrite <- !append_assoc. cbn [append].
    rewrite IH; [|lia|apply stops_ends, ws_stops; auto; repeat split; (reflexivity || discriminate)].
    rewrite skip_ws_app by auto. simpl (skip_ws (String "," _)). cbv iota.
    rewrite IHms by lia. reflexivity.
Qed.

(** ** Soundness *)

Lemma ws_text w x : ws w -> utf8_text (append w x) -> utf8_text x.
Proof.
  induction 1 as [|c w Hc Hw IH]; auto. cbn [append]. intros H. apply IH. eapply utf8_text_small; eauto.
  simpl in Hc. repeat destruct Hc as [<- |Hc]; try reflexivity. destruct Hc.
Qed.
Lemma skip_ws_text x : utf8_text x -> utf8_text (skip_ws x).
Proof. destruct (skip_ws_split x) as (w & Hw & E). rewrite E at 1. apply ws_text; auto. Qed.

Lemma strip_prefix_app p : forall s r, strip_prefix p s = Some r -> s = append p r.
Proof.
  induction p as [|a p IH]; intros [|b s] r; simpl; try discriminate; try (intros [= <-]; reflexivity).
  destruct (Ascii.eqb_spec a b); [|discriminate]. subst. intros H. apply IH in H. congruence.
Qed.

Lemma digits_text d x : digits d -> utf8_text (append d x) -> utf8_text x.
Proof.
  induction d as [|c d IH]; intros H Hx; auto. apply digits_cons in H. destruct H as [Hc Hd].
  apply IH; auto. cbn [append] in Hx. eapply utf8_text_small; eauto.
  unfold is_digit in Hc. apply andb_true_iff in Hc. destruct Hc as [_ Hc]. apply N.leb_le in Hc. lia.
Qed.
Lemma number_text s x : json_number s = true -> utf8_text (append s x) -> utf8_text x.
Proof.
  intros H. destruct (json_number_parts s H) as (g & i & f & e & Hg & Hi & Hf & He & ->). rewrite <- !append_assoc.
  intros Hx.
  assert (H1 : utf8_text (append i (append f (append e x)))).
  { destruct Hg as [-> | ->]; auto. eapply utf8_text_small; eauto. reflexivity. }
  assert (H2 : utf8_text (append f (append e x))) by (apply (digits_text i); auto; apply int_part_digits; auto).
  assert (H3 : utf8_text (append e x)).
  { destruct Hf as [-> |(d & -> & Hd & _)]; auto. cbn [append] in H2. apply utf8_text_small in H2; [|reflexivity].
    apply (digits_text d); auto. }
  destruct He as [-> |(c & sg & d & -> & Hc & Hsg & Hd & _)]; auto. cbn [append] in H3.
  apply utf8_text_small in H3; [|destruct Hc as [-> | ->]; reflexivity]. rewrite <- append_assoc in H3.
  apply (digits_text d); auto. destruct Hsg as [-> |[-> | ->]]; auto; cbn [append] in H3; (eapply utf8_text_small; [|exact H3]; reflexivity).
Qed.

Theorem parse_json_sound u : forall k,
  (forall x v rest, utf8_text x -> pvalue k u x = Some (v, rest) ->
     utf8_text rest /\ exists s, x = append s rest /\ json (lit u) s v) /\
  (forall x l rest, utf8_text x -> parr k u x = Some (l, rest) ->
     utf8_text rest /\ exists s, x = append s (String "]" rest) /\ elements (lit u) s l) /\
  (forall x acc m rest, utf8_text x -> pobj k u acc x = Some (m, rest) ->
     utf8_text rest /\ exists s ms, x = append s (String "}" rest) /\ mems (lit u) s ms /\ m = fold_left addm ms acc).
Proof.
  induction k as [|k (IHv & IHa & IHo)]; [repeat split; intros; discriminate|].
  split; [|split].
  - intros x v rest Hx. destruct (skip_ws_split x) as (w & Hw & Ex). pose proof (skip_ws_text x Hx) as Hsx.
    cbn [pvalue]. destruct (skip_ws x) as [|c r] eqn:Es; [discriminate|]. rewrite Ex.
    assert (Hcases : forall z (p : string), (forall q, append p (append q rest) = append p (append q rest)) ->
      json (lit u) (append w p) z -> String c r = append p rest ->
      exists s, append w (String c r) = append s rest /\ json (lit u) s z).
    { intros z p _ Hj E. exists (append w p). rewrite E, append_assoc. auto. }
    destruct (Ascii.eqb_spec c "{").
    { subst c. apply utf8_text_small in Hsx; [|reflexivity]. pose proof (skip_ws_text r Hsx) as Hsr.
      destruct (skip_ws_split r) as (w1 & Hw1 & Er).
      assert (HC : match pobj k u [] (skip_ws r) with Some (m, r2) => Some (VMap m, r2) | None => None end = Some (v, rest) ->
        utf8_text rest /\ exists s, append w (String "{" r) = append s rest /\ json (lit u) s v).
      { rewrite pobj_ws. destruct (pobj k u [] r) as [[m r2]|] eqn:E; [|discriminate]. intros [= <- <-].
        destruct (IHo _ _ _ _ Hsx E) as (H1 & s & ms & -> & H2 & ->). split; auto.
        exists (append w (String "{" (append s "}"))). split; [rewrite <- append_assoc; cbn [append]; rewrite <- append_assoc; reflexivity|].
        apply json_obj; auto. }
      destruct (skip_ws r) as [|c1 r1]; [exact HC|].
      destruct (Ascii.eqb_spec c1 "}").
      - subst c1. intros [= <- <-]. apply utf8_text_small in Hsr; [|reflexivity]. split; auto.
        exists (append w (String "{" (append w1 "}"))). split; [rewrite <- append_assoc; cbn [append]; rewrite <- append_assoc, Er; reflexivity|].
        apply json_obj0; auto.
      - destruct c1 as [[] [] [] [] [] [] [] []]; try exact HC. congruence. }
    destruct (Ascii.eqb_spec c "[").
    { subst c. apply utf8_text_small in Hsx; [|reflexivity]. pose proof (skip_ws_text r Hsx) as Hsr.
      destruct (skip_ws_split r) as (w1 & Hw1 & Er).
      assert (HC : match parr k u (skip_ws r) with Some (m, r2) => Some (VArr m, r2) | None => None end = Some (v, rest) ->
        utf8_text rest /\ exists s, append w (String "[" r) = append s rest /\ json (lit u) s v).
      { rewrite parr_ws. destruct (parr k u r) as [[m r2]|] eqn:E; [|discriminate]. intros [= <- <-].
        destruct (IHa _ _ _ Hsx E) as (H1 & s & -> & H2). split; auto.
        exists (append w (String "[" (append s "]"))). split; [rewrite <- append_assoc; cbn [append]; rewrite <- append_assoc; reflexivity|].
        apply json_arr; auto. }
      destruct (skip_ws r) as [|c1 r1]; [exact HC|].
      destruct (Ascii.eqb_spec c1 "]").
      - subst c1. intros [= <- <-]. apply utf8_text_small in Hsr; [|reflexivity]. split; auto.
        exists (append w (String "[" (append w1 "]"))). split; [rewrite <- append_assoc; cbn [append]; rewrite <- append_assoc, Er; reflexivity|].
        apply json_arr0; auto.
      - destruct c1 as [[] [] [] [] [] [] [] []]; try exact HC. congruence. }
    destruct (Ascii.eqb_spec c """").
    { subst c. apply utf8_text_small in Hsx; [|reflexivity].
      destruct (parse_string r) as [[t r2]|] eqn:E; [|discriminate]. intros [= <- <-].
      destruct (parse_string_sound _ _ _ Hsx E) as (H1 & s & -> & H2). split; auto.
      exists (append w (String """" (append s """"))). split; [rewrite <- append_assoc; cbn [append]; rewrite <- append_assoc; reflexivity|].
      apply json_str; auto. }
    destruct (Ascii.eqb_spec c "t").
    { subst c. destruct (strip_prefix "rue" r) as [r2|] eqn:E; [|discriminate]. intros [= <- <-]. apply strip_prefix_app in E. subst r.
      split; [|exists (append w "true"); split; [rewrite <- append_assoc; reflexivity|constructor; auto]].
      cbn [append] in Hsx. do 4 (apply utf8_text_small in Hsx; [|reflexivity]). exact Hsx. }
    destruct (Ascii.eqb_spec c "f").
    { subst c. destruct (strip_prefix "alse" r) as [r2|] eqn:E; [|discriminate]. intros [= <- <-]. apply strip_prefix_app in E. subst r.
      split; [|exists (append w "false"); split; [rewrite <- append_assoc; reflexivity|constructor; auto]].
      cbn [append] in Hsx. do 5 (apply utf8_text_small in Hsx; [|reflexivity]). exact Hsx. }
    destruct (Ascii.eqb_spec c "n").
    { subst c. destruct (strip_prefix "ull" r) as [r2|] eqn:E; [|discriminate]. intros [= <- <-]. apply strip_prefix_app in E. subst r.
      split; [|exists (append w "null"); split; [rewrite <- append_assoc; reflexivity|constructor; auto]].
      cbn [append] in Hsx. do 4 (apply utf8_text_small in Hsx; [|reflexivity]). exact Hsx. }
    unfold parse_number. destruct (scan_number (String c r)) as [[l r1]|] eqn:E; [|discriminate].
    apply scan_number_again in E. destruct E as [E1 E2]. rewrite E1 in Hsx.
    assert (HL : forall z, lit u l z -> utf8_text r1 /\ exists s, append w (String c r) = append s r1 /\ json (lit u) s z).
    { intros z Hz. split; [eapply number_text; eauto|]. exists (append w l). split; [rewrite E1, append_assoc; reflexivity|].
      apply json_num; auto. apply number_iff; auto. }
    destruct u; [intros [= <- <-]; apply HL; reflexivity|].
    destruct (parse_float l) as [f|] eqn:Ef; [|discriminate]. intros [= <- <-]. apply HL. exists f. auto.
  - intros x l rest Hx. cbn [parr]. destruct (pvalue k u x) as [[v r]|] eqn:Ev; [|discriminate].
    destruct (IHv _ _ _ Hx Ev) as (Hr & s & -> & Hs). pose proof (skip_ws_text r Hr) as Hsr.
    destruct (skip_ws_split r) as (w1 & Hw1 & Er). destruct (skip_ws r) as [|c r1]; [discriminate|].
    destruct (Ascii.eqb_spec c ",").
    { subst c. apply utf8_text_small in Hsr; [|reflexivity].
      destruct (parr k u r1) as [[l' r3]|] eqn:Ea; [|discriminate]. intros [= <- <-].
      destruct (IHa _ _ _ Hsr Ea) as (H1 & s' & -> & H2). split; auto.
      exists (append s (append w1 (String "," s'))). split; [rewrite Er, <- !append_assoc; reflexivity|].
      apply elements_cons; auto. }
    destruct (Ascii.eqb_spec c "]").
    { subst c. apply utf8_text_small in Hsr; [|reflexivity]. intros [= <- <-]. split; auto.
      exists (append s w1). split; [rewrite Er, <- !append_assoc; reflexivity|]. apply elements_one; auto. }
    destruct c as [[] [] [] [] [] [] [] []]; try discriminate; congruence.
  - intros x acc m rest Hx. cbn [pobj]. pose proof (skip_ws_text x Hx) as Hsx.
    destruct (skip_ws_split x) as (w & Hw & Ex). destruct (skip_ws x) as [|c r]; [discriminate|].
    destruct (Ascii.eqb_spec c """");
      [|destruct c as [[] [] [] [] [] [] [] []]; try discriminate; congruence].
    subst c. apply utf8_text_small in Hsx; [|reflexivity].
    destruct (parse_string r) as [[key r1]|] eqn:Ek; [|discriminate].
    destruct (parse_string_sound _ _ _ Hsx Ek) as (Hr1 & ks & -> & Hks). pose proof (skip_ws_text r1 Hr1) as Hsr.
    destruct (skip_ws_split r1) as (w1 & Hw1 & Er). destruct (skip_ws r1) as [|c r2]; [discriminate|].
    destruct (Ascii.eqb_spec c ":");
      [|destruct c as [[] [] [] [] [] [] [] []]; try discriminate; congruence].
    subst c. apply utf8_text_small in Hsr; [|reflexivity].
    destruct (pvalue k u r2) as [[v r3]|] eqn:Ev; [|discriminate].
    destruct (IHv _ _ _ Hsr Ev) as (Hr3 & s & -> & Hs). pose proof (skip_ws_text r3 Hr3) as Hsr3.
    destruct (skip_ws_split r3) as (w2 & Hw2 & Er3). destruct (skip_ws r3) as [|c r4]; [discriminate|].
    destruct (Ascii.eqb_spec c ",").
    { subst c. apply utf8_text_small in Hsr3; [|reflexivity]. intros E.
      destruct (IHo _ _ _ _ Hsr3 E) as (H1 & s' & ms & -> & H2 & ->). split; auto. eexists. exists ((key, v) :: ms).
      split; [|split; [apply (mems_cons (lit u) w ks key w1 s v w2 s' ms); auto|reflexivity]].
      rewrite Ex, Er, Er3. repeat (rewrite <- append_assoc; cbn [append]). reflexivity. }
    destruct (Ascii.eqb_spec c "}").
    { subst c. apply utf8_text_small in Hsr3; [|reflexivity]. intros [= <- <-]. split; auto. eexists. exists [(key, v)].
      split; [|split; [apply (mems_one (lit u) w ks key w1 s v w2); auto|reflexivity]].
      rewrite Ex, Er, Er3. repeat (rewrite <- append_assoc; cbn [append]). reflexivity. }
    destruct c as [[] [] [] [] [] [] [] []]; try discriminate; congruence.
Qed.

(** ** The decoder *)

Theorem decode_complete s v rest : json verbatim s v -> ends v rest ->
  decode_use_number (append s rest) = Some v.
Proof.
  intros H Hr. unfold decode_use_number.
  rewrite (proj1 (json_parse true) s v H); auto. unfold parse_fuel. rewrite length_append. lia.
Qed.

Theorem decode_sound x v : utf8_text x -> decode_use_number x = Some v ->
  exists s rest, x = append s rest /\ json verbatim s v.
Proof.
  unfold decode_use_number. destruct (pvalue (parse_fuel x) true x) as [[w r]|] eqn:E; [|discriminate].
  intros Hx [= <-]. destruct (proj1 (parse_json_sound true (parse_fuel x)) _ _ _ Hx E) as (_ & s & -> & Hs). eauto.
Qed.

Theorem unmarshal_complete s v w : json (lit false) s v -> ws w -> unmarshal (append s w) = Some v.
Proof.
  intros H Hw. unfold unmarshal.
  rewrite (proj1 (json_parse false) s v H).
  - rewrite <- (append_nil_r w), skip_ws_app by auto. reflexivity.
  - unfold parse_fuel. rewrite length_append. lia.
  - apply stops_ends. destruct Hw as [|c w Hc Hw]; [exact I|].
    simpl in Hc. repeat destruct Hc as [<- |Hc]; try (repeat split; (reflexivity || discriminate)). destruct Hc.
Qed.

(** ** Members: the last one wins *)

Lemma members_keys ms : NoDup (map fst (members ms)).
Proof.
  unfold members. assert (H : forall l acc : list (string * value), NoDup (map fst acc) -> NoDup (map fst (fold_left (fun m e => aset (fst e) (snd e) m) l acc))).
  { induction l as [|e l IH]; intros acc Ha; simpl; auto. apply IH. apply aset_NoDup. auto. }
  apply H. constructor.
Qed.

(** The last member named k. *)
Definition last_member (k : string) (ms : list (string * value)) (v : value) : Prop :=
  exists l1 l2, ms = (l1 ++ (k, v) :: l2)%list /\ ~ In k (map fst l2).

Lemma fold_aset_assoc (ms : list (string * value)) k : forall acc : list (string * value),
  assoc k (fold_left (fun m e => aset (fst e) (snd e) m) ms acc) =
  match assoc k (rev ms) with Some v => Some v | None => assoc k acc end.
Proof.
  induction ms as [|[k0 v0] ms IH]; intros acc; simpl; auto. rewrite IH.
  assert (Happ : forall l1 l2 : list (string * value), assoc k (l1 ++ l2)%list = match assoc k l1 with Some v => Some v | None => assoc k l2 end).
  { induction l1 as [|[k1 v1] l1 IH1]; intros l2; simpl; auto. destruct (String.eqb k k1); auto. }
  rewrite Happ. destruct (assoc k (rev ms)); auto. simpl. rewrite assoc_aset. destruct (String.eqb k k0); reflexivity.
Qed.
Lemma assoc_rev_last k ms v : assoc k (rev ms) = Some v <-> last_member k ms v.
Proof.
  split.
  - induction ms as [|[k0 v0] ms IH]; simpl; [discriminate|]. intros H.
    assert (Happ : forall l1 l2 : list (string * value), assoc k (l1 ++ l2)%list = match assoc k l1 with Some v => Some v | None => assoc k l2 end).
    { induction l1 as [|[k1 v1] l1 IH1]; intros l2; simpl; auto. destruct (String.eqb k k1); auto. }
    rewrite Happ in H. destruct (assoc k (rev ms)) as [v'|] eqn:E.
    + destruct (IH H) as (l1 & l2 & -> & Hn). exists ((k0, v0) :: l1), l2. auto.
    + simpl in H. destruct (String.eqb_spec k k0); [|discriminate]. injection H as <-. subst k0. exists [], ms. split; auto.
      intros Hin. apply in_map_iff in Hin. destruct Hin as ([k1 v1] & Hk1 & Hin). simpl in Hk1. subst k1.
      apply in_rev in Hin. clear -E Hin. induction (rev ms) as [|[k1 v2] l IH]; [destruct Hin|]. simpl in *.
      destruct (String.eqb_spec k k1); [discriminate|]. destruct Hin as [[= <- <-]|Hin]; auto.
  - intros (l1 & l2 & -> & Hn). rewrite rev_app_distr. simpl. rewrite <- app_assoc. simpl.
    assert (Hn' : ~ In k (map fst (rev l2))) by (rewrite map_rev, <- in_rev; exact Hn).
    induction (rev l2) as [|[k1 v2] l IH]; simpl; [rewrite String.eqb_refl; reflexivity|].
    simpl in Hn'. destruct (String.eqb_spec k k1); [subst; tauto|]. apply IH. tauto.
Qed.
Theorem members_last ms k v : assoc k (members ms) = Some v <-> last_member k ms v.
Proof.
  rewrite <- assoc_rev_last. unfold members. rewrite fold_aset_assoc. destruct (assoc k (rev ms)); simpl; split; auto; discriminate.
Qed.

(** Distinct members are kept as they are. *)
Lemma aset_fresh (k : string) (v : value) m : ~ In k (map fst m) -> aset k v m = (m ++ [(k, v)])%list.
Proof.
  induction m as [|[k0 v0] m IH]; simpl; auto. intros H. destruct (String.eqb_spec k k0); [subst; tauto|].
  rewrite IH; tauto.
Qed.
Lemma members_distinct ms : NoDup (map fst ms) -> members ms = ms.
Proof.
  unfold members. assert (H : forall l acc : list (string * value), NoDup (map fst (acc ++ l)%list) ->
    fold_left (fun m e => aset (fst e) (snd e) m) l acc = (acc ++ l)%list).
  { induction l as [|[k v] l IH]; intros acc Hn; simpl; [rewrite app_nil_r; auto|].
    rewrite aset_fresh.
    - rewrite IH; rewrite <- app_assoc; auto.
    - rewrite map_app in Hn. simpl in Hn. apply NoDup_remove_2 in Hn. intros Hin. apply Hn, in_or_app. auto. }
  intros Hn. apply H. exact Hn.
Qed.
