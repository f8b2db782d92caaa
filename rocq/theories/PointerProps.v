(** Fragments of references: gojsonpointer and the pool. *)
From Coq Require Import Lia List.
From Verif Require Import Pointer SpecPointer PoolFacts ModelURL URLRfc URIFormat.
From Verif Require Export SpecPointer.
Import ListNotations.
Open Scope string_scope.
Open Scope list_scope.
Open Scope nat_scope.

Lemma take_sign_cases s : (exists r, s = String "-" r /\ take_sign s = (true, r)) \/ (exists r, s = String "+" r /\ take_sign s = (false, r)) \/
  (take_sign s = (false, s) /\ forall r, s <> String "-" r /\ s <> String "+" r).
Proof.
  destruct s as [|c s]; [right; right; split; [reflexivity|split; discriminate]|].
  destruct (Ascii.eqb_spec c "-") as [->|N1]; [left; eauto|]. destruct (Ascii.eqb_spec c "+") as [->|N2]; [right; left; eauto|].
  right; right. split; [|split; congruence]. destruct c as [[] [] [] [] [] [] [] []]; try reflexivity; congruence.
Qed.
Lemma take_digits_end s ds : take_digits s = (ds, "") -> s = ds /\ digits s.
Proof.
  revert ds. induction s as [|c s IH]; intros ds E; [injection E as <-; split; reflexivity|].
  cbn [take_digits] in E. destruct (is_digit c) eqn:Ec; [|discriminate]. destruct (take_digits s) as [a b] eqn:E'. injection E as <- ->.
  destruct (IH a eq_refl) as [-> D]. split; [reflexivity|]. apply digits_cons. auto.
Qed.
Lemma atoi_iff t n : (0 <= n)%Z -> atoi t = Some n <-> go_index t (Z.to_nat n).
Proof.
  intros Hn. unfold go_index. rewrite Z2Nat.id by auto. unfold atoi, parse_int64.
  assert (K : forall neg s1, (let '(ds, r) := take_digits s1 in match ds, r with
      | EmptyString, _ => None
      | _, EmptyString => let n := if neg : bool then (- digits_val 0 ds)%Z else digits_val 0 ds in if ((- 2 ^ 63 <=? n) && (n <? 2 ^ 63))%Z%bool then Some n else None
      | _, _ => None end) = Some n <->
      (n < 2 ^ 63)%Z /\ exists k m, digit_string s1 (S k) m /\ n = (if neg : bool then (- m)%Z else m)).
  { intros neg s1. split.
    - intros E. destruct (take_digits s1) as [ds r] eqn:Ed. destruct ds as [|c ds]; [discriminate|]. destruct r; [|discriminate].
      destruct (take_digits_end _ _ Ed) as [-> D]. cbv zeta in E. destruct (_ && _)%bool eqn:B; [|discriminate].
      apply andb_prop in B. destruct B as [_ B]. apply Z.ltb_lt in B. injection E as <-. split; [exact B|].
      pose proof (digits_digit_string _ D) as S. exists (String.length ds), (digits_val 0 (String c ds)). split; [exact S|reflexivity].
    - intros (B & k & m & S & E). apply digit_string_digits in S. destruct S as (D & L & ->). destruct s1 as [|c s1]; [discriminate|].
      rewrite take_digits_all by auto. cbv zeta. rewrite <- E. destruct (Z.leb_spec (- 2 ^ 63) n); [|lia]. destruct (Z.ltb_spec n (2 ^ 63)); [|lia]. reflexivity. }
  destruct (take_sign_cases t) as [(r & -> & ->)|[(r & -> & ->)|[-> N]]].
  - etransitivity; [exact (K true r)|]. clear K. split.
    + intros (B & k & m & S & ->). split; [exact B|]. assert (m = 0%Z) as -> by (apply digit_string_digits in S; destruct S as (D & _ & ->); pose proof (digits_val_nonneg r D 0%Z ltac:(lia)); lia).
      exists "-", r, k. split; [reflexivity|]. split; [exact S|]. right; right. split; reflexivity.
    + intros (B & g & ds & k & E & S & H). split; [exact B|]. exists k. destruct H as [->|[->|[-> H]]].
      * cbn in E. subst ds. exfalso. apply digit_string_digits in S. destruct S as (D & _). apply digits_cons in D. destruct D as [D _]. discriminate D.
      * discriminate E.
      * injection E as ->. assert (n = 0%Z) as -> by lia. exists 0%Z. auto.
  - etransitivity; [exact (K false r)|]. clear K. split.
    + intros (B & k & m & S & ->). split; [exact B|]. exists "+", r, k. auto.
    + intros (B & g & ds & k & E & S & H). split; [exact B|]. exists k, n. split; [|reflexivity]. destruct H as [->|[->|[-> H]]].
      * cbn in E. subst ds. exfalso. apply digit_string_digits in S. destruct S as (D & _). apply digits_cons in D. destruct D as [D _]. discriminate D.
      * injection E as ->. exact S.
      * discriminate E.
  - etransitivity; [exact (K false t)|]. clear K. split.
    + intros (B & k & m & S & ->). split; [exact B|]. exists "", t, k. auto.
    + intros (B & g & ds & k & E & S & H). split; [exact B|]. exists k, n. split; [|reflexivity]. destruct H as [->|[->|[-> H]]].
      * cbn in E. subst ds. exact S.
      * destruct (N ds) as [_ N']. contradiction.
      * destruct (N ds) as [N' _]. contradiction.
Qed.

(** Raw tokens, and what they stand for. *)
Lemma unescape_decoded s t : unescape_token s = t <-> decoded s t.
Proof.
  assert (O : forall c s, (forall r, c = "~"%char -> s <> String "0" r /\ s <> String "1" r) -> unescape_token (String c s) = String c (unescape_token s)).
  { intros c u H. destruct (Ascii.eqb_spec c "~") as [->|N].
    - destruct u as [|a u]; [reflexivity|]. destruct (Ascii.eqb_spec a "0") as [->|N0]; [destruct (H u eq_refl) as [H1 _]; contradiction|].
      destruct (Ascii.eqb_spec a "1") as [->|N1]; [destruct (H u eq_refl) as [_ H1]; contradiction|].
      destruct a as [[] [] [] [] [] [] [] []]; try reflexivity; congruence.
    - destruct c as [[] [] [] [] [] [] [] []]; try reflexivity; congruence. }
  split.
  - intros <-. remember (String.length s) as n eqn:Hn. assert (L : String.length s <= n) by lia. clear Hn. revert s L.
    induction n as [|n IH]; intros s L; [destruct s; [constructor|cbn in L; lia]|].
    destruct s as [|c s]; [constructor|]. cbn [String.length] in L.
    assert (D : (exists r, c = "~"%char /\ s = String "0" r) \/ (exists r, c = "~"%char /\ s = String "1" r) \/ (forall r, c = "~"%char -> s <> String "0" r /\ s <> String "1" r)).
    { destruct (Ascii.eqb_spec c "~") as [->|N]; [|right; right; intros r E; contradiction].
      destruct s as [|a s]; [right; right; split; discriminate|]. destruct (Ascii.eqb_spec a "0") as [->|N0]; [left; eauto|].
      destruct (Ascii.eqb_spec a "1") as [->|N1]; [right; left; eauto|]. right; right. split; congruence. }
    destruct D as [(r & -> & ->)|[(r & -> & ->)|D]].
    + cbn [unescape_token]. constructor. apply IH. cbn [String.length] in L. lia.
    + cbn [unescape_token]. constructor. apply IH. cbn [String.length] in L. lia.
    + rewrite O by auto. constructor; auto. apply IH. lia.
  - induction 1 as [|s t H IH|s t H IH|c s t N H IH]; [reflexivity|cbn [unescape_token]; congruence|cbn [unescape_token]; congruence|]. rewrite O by auto. congruence.
Qed.
Lemma plain_no_slash t : plain t <-> no_slash t.
Proof. induction t as [|c t IH]; cbn [plain no_slash]; [tauto|]. rewrite IH. tauto. Qed.
Lemma raw_tokens ts : Forall plain ts -> pointer_tokens (slashed_text ts) = ts.
Proof.
  intros F. destruct ts as [|t ts]; [reflexivity|]. cbn [slashed_text pointer_tokens]. inversion F as [|? ? P F']; subst. clear F. revert t P F'.
  assert (G : forall ts t, plain t -> Forall plain ts -> split_slash (append t (slashed_text ts)) = (t, ts)).
  { clear. induction ts as [|u ts IH]; intros t P F; cbn [slashed_text].
    - rewrite append_empty. apply split_no_slash_end, plain_no_slash. auto.
    - inversion F; subst. rewrite split_no_slash by (apply plain_no_slash; auto). rewrite IH by auto. reflexivity. }
  intros t P F. rewrite G by auto. reflexivity.
Qed.

(** Following raw tokens: a member is named by the decoded token, an element by
    the raw one (in which no "~" can be). *)
Lemma decoded_digits s t : decoded s t -> forall n, go_index s n -> t = s.
Proof.
  assert (D : forall s t, decoded s t -> (forall c, In c (list_ascii_of_string s) -> c <> "~"%char) -> t = s).
  { induction 1 as [|s' t' H IH|s' t' H IH|c s' t' N H IH]; intros A; [reflexivity| | |].
    - destruct (A "~"%char); [left; auto|auto].
    - destruct (A "~"%char); [left; auto|auto].
    - f_equal. apply IH. intros x Hx. apply A. right. auto. }
  intros H n (_ & g & ds & k & -> & S & G). apply D; auto. intros c Hc. apply digit_string_digits in S. destruct S as (S & _).
  assert (A : In c (list_ascii_of_string ds) -> c <> "~"%char).
  { intros X. assert (is_digit c = true) by (revert X; clear - S; induction ds as [|a ds IH]; intros X; [destruct X|]; apply digits_cons in S; destruct S as [S1 S2]; destruct X as [<-|X]; auto). intros ->. discriminate. }
  destruct G as [->|[->|[-> _]]]; cbn in Hc; auto; destruct Hc as [<-|Hc]; auto; discriminate.
Qed.
Lemma index_decoded s t n : decoded s t -> go_index t n -> s = t.
Proof.
  assert (D : forall s t, decoded s t -> (forall c, In c (list_ascii_of_string t) -> c <> "~"%char /\ c <> "/"%char) -> s = t).
  { induction 1 as [|s' t' H IH|s' t' H IH|c s' t' N H IH]; intros A; [reflexivity| | |].
    - destruct (A "~"%char) as [X _]; [left; auto|]. contradiction.
    - destruct (A "/"%char) as [_ X]; [left; auto|]. contradiction.
    - f_equal. apply IH. intros x Hx. apply A. right. auto. }
  intros H (_ & g & ds & k & -> & S & G). apply D; auto. intros c Hc. apply digit_string_digits in S. destruct S as (S & _).
  assert (A : In c (list_ascii_of_string ds) -> c <> "~"%char /\ c <> "/"%char).
  { intros X. assert (is_digit c = true) by (revert X; clear - S; induction ds as [|a ds IH]; intros X; [destruct X|]; apply digits_cons in S; destruct S as [S1 S2]; destruct X as [<-|X]; auto). split; intros ->; discriminate. }
  destruct G as [->|[->|[-> _]]]; cbn in Hc; auto; destruct Hc as [<-|Hc]; auto; split; discriminate.
Qed.
Theorem pointer_get_iff raws ts : Forall2 decoded raws ts -> forall v x, pointer_get raws v = Some x <-> reaches go_index ts v x.
Proof.
  induction 1 as [|s t raws ts D F IH]; intros v x.
  - cbn [pointer_get]. split; [intros [= ->]; constructor|]. intros R. inversion R; auto.
  - cbn [pointer_get]. split.
    + intros E. destruct v as [| | | | |l|m|]; try discriminate.
      * destruct (atoi s) as [i|] eqn:Ei; [|discriminate]. destruct (Z.ltb_spec i 0) as [|Hi]; [discriminate|]. apply atoi_iff in Ei; auto.
        destruct (nth_error l (Z.to_nat i)) as [y|] eqn:En; [|discriminate]. rewrite (decoded_digits _ _ D _ Ei). econstructor; eauto. apply IH. auto.
      * apply unescape_decoded in D. rewrite D in E. destruct (assoc t m) as [y|] eqn:Ea; [|discriminate]. econstructor; eauto. apply IH. auto.
    + intros R. inversion R as [|? ? m y ? Ea R'|? ? l n y ? I En R']; subst.
      * apply unescape_decoded in D. rewrite D, Ea. apply IH. auto.
      * rewrite (index_decoded _ _ _ D I). assert (A : atoi t = Some (Z.of_nat n)) by (apply atoi_iff; [lia|rewrite Nat2Z.id; auto]).
        rewrite A. destruct (Z.ltb_spec (Z.of_nat n) 0); [lia|]. rewrite Nat2Z.id, En. apply IH. auto.
Qed.
Lemma decoded_escaped t : decoded (escaped t) t.
Proof. apply unescape_decoded, unescape_escaped. Qed.

(** GetDocument on a reference into a known document. *)
Lemma fragment_exists f : exists ts, fragment_decoded f ts.
Proof.
  assert (S : forall s, let '(h, t) := split_slash s in plain h /\ Forall plain t /\ s = append h (slashed_text t)).
  { induction s as [|c s IH]; [cbn; auto|]. cbn [split_slash]. destruct (split_slash s) as [h t]. destruct IH as (P & F & E).
    destruct (Ascii.eqb_spec c "/") as [->|N]; [cbn [plain append slashed_text]; repeat split; [constructor; auto|congruence]|cbn [plain append]; repeat split; auto; congruence]. }
  assert (D : forall raws, exists ts, Forall2 decoded raws ts).
  { induction raws as [|s raws [ts IH]]; [exists []; constructor|]. exists (unescape_token s :: ts). constructor; [apply unescape_decoded; reflexivity|auto]. }
  destruct f as [|c f]; [exists []; right; split; [discriminate|auto]|].
  destruct (Ascii.eqb_spec c "/") as [->|N]; [|exists []; right; split; [congruence|auto]].
  specialize (S f). destruct (split_slash f) as [h t]. destruct S as (P & F & E). destruct (D (h :: t)) as [ts X]. exists ts. left. exists (h :: t).
  split; [cbn [slashed_text]; congruence|]. auto.
Qed.
Lemma fragment_get f ts v x : fragment_decoded f ts -> pointer_get (pointer_tokens f) v = Some x <-> reaches go_index ts v x.
Proof.
  intros [(raws & -> & F & D)|[N ->]].
  - rewrite raw_tokens by auto. apply pointer_get_iff. auto.
  - assert (pointer_tokens f = []) as ->.
    { destruct f as [|c f]; [reflexivity|]. destruct (Ascii.eqb_spec c "/") as [->|Nc]; [destruct (N f eq_refl)|]. destruct c as [[] [] [] [] [] [] [] []]; try reflexivity; congruence. }
    apply pointer_get_iff. constructor.
Qed.
Theorem document_fragment ce o r s b ts : assoc r (st_pool s) = None -> assoc (u_strip ce r) (st_pool s) = Some b -> fragment_decoded (u_fragment ce r) ts ->
  (forall x, reaches go_index ts (sp_doc b) x <-> exists s', GetDocument ce o r s = COk (Spd x (sp_draft b)) s') /\
  ((forall x, ~ reaches go_index ts (sp_doc b) x) <-> GetDocument ce o r s = CErr EPointer s) /\
  (forall e s', GetDocument ce o r s = COk e s' -> sp_draft e = sp_draft b /\ reaches go_index ts (sp_doc b) (sp_doc e)).
Proof.
  intros N B F.
  assert (G : GetDocument ce o r s = match pointer_get (pointer_tokens (u_fragment ce r)) (sp_doc b) with
    | None => CErr EPointer s | Some x => COk (Spd x (sp_draft b)) (CState (st_heap s) (st_src s) (aset r (Spd x (sp_draft b)) (st_pool s)) (st_refs s)) end).
  { unfold GetDocument, cbind, get_pool. cbv beta iota. rewrite N, B. destruct (pointer_get _ _) as [x|]; reflexivity. }
  rewrite G. clear G. pose proof (fun x => fragment_get _ ts (sp_doc b) x F) as K. destruct (pointer_get _ _) as [y|].
  - repeat split.
    + intros R. apply K in R. injection R as <-. eauto.
    + intros [s' E]. injection E as E1 E2. apply K. congruence.
    + intros H. destruct (H y). apply K. auto.
    + discriminate.
    + injection H as <- <-. auto.
    + injection H as <- <-. apply K. auto.
  - repeat split.
    + intros R. apply K in R. discriminate.
    + intros [s' E]. discriminate.
    + intros _ x R. apply K in R. discriminate.
    + discriminate.
    + discriminate.
Qed.

(** Pointers of RFC 6901. *)
Lemma points_reaches ts v x : points ts v x <-> reaches rfc_index ts v x.
Proof.
  split.
  - induction 1; econstructor; eauto. split; auto.
  - induction 1 as [|t ts m x y E R IH|t ts l n x y [I1 I2] E R IH]; econstructor; eauto.
Qed.
Lemma rfc_go t n : rfc_index t n -> go_index t n.
Proof.
  intros [I B]. split; auto. destruct I as [[-> E]|[[k S] _]].
  - exists "", "0", 0. split; [reflexivity|]. rewrite E. split; [|auto]. apply (ds_cons 0 "" 0 0); [lia|constructor].
  - exists "", t, k. auto.
Qed.
Lemma reaches_weaken (i j : string -> nat -> Prop) ts : Forall (fun t => forall n, i t n -> j t n) ts -> forall v x, reaches i ts v x -> reaches j ts v x.
Proof.
  intros F v x R. induction R as [|t ts m x y E R IH|t ts l n x y I E R IH]; [constructor| |]; inversion F; subst; econstructor; eauto.
Qed.
Lemma slashed_plain ts : slashed_text (map escaped ts) = pointer_text ts.
Proof. induction ts as [|t ts IH]; [reflexivity|]. cbn [map slashed_text pointer_text]. rewrite IH. reflexivity. Qed.
Lemma pointer_fragment ts : fragment_decoded (pointer_text ts) ts.
Proof.
  left. exists (map escaped ts). split; [symmetry; apply slashed_plain|]. split.
  - apply Forall_forall. intros t H. apply in_map_iff in H. destruct H as (u & <- & _). apply plain_no_slash, escaped_no_slash.
  - induction ts; constructor; auto. apply decoded_escaped.
Qed.
Theorem document_pointer ce o r s b ts : assoc r (st_pool s) = None -> assoc (u_strip ce r) (st_pool s) = Some b -> u_fragment ce r = pointer_text ts ->
  Forall (fun t => forall n, go_index t n -> rfc_index t n) ts ->
  (forall x, points ts (sp_doc b) x <-> exists s', GetDocument ce o r s = COk (Spd x (sp_draft b)) s') /\
  ((forall x, ~ points ts (sp_doc b) x) <-> GetDocument ce o r s = CErr EPointer s).
Proof.
  intros N B E F. assert (X : fragment_decoded (u_fragment ce r) ts) by (rewrite E; apply pointer_fragment).
  destruct (document_fragment ce o r s b ts N B X) as (H1 & H2 & _).
  assert (Q : forall x, points ts (sp_doc b) x <-> reaches go_index ts (sp_doc b) x).
  { intros x. rewrite points_reaches. split; apply reaches_weaken; auto. apply Forall_forall. intros t _ n. apply rfc_go. }
  split; [intros x; rewrite Q; apply H1|]. rewrite <- H2. split; intros H x R; apply (H x), Q, R.
Qed.

(** The fragment of any reference net/url accepts. *)
Theorem fragment_any r : ref_parse r <> None -> ref_fragment r = percent_decode (or_empty (u_frag (split_uri r))).
Proof.
  unfold ref_parse, ref_fragment. destruct (split_proper r) as [P E]. intros H. pose proof E as E'. rewrite recompose_body in E'.
  set (u := split_uri r) in *.
  assert (C : cut "#" r = (body u, or_empty (u_frag u), match u_frag u with Some _ => true | None => false end)).
  { rewrite <- E'. pose proof (body_hash _ P) as Nh. pose proof (cut_cases "#" (append (body u) (match u_frag u with Some f => append "#" f | None => "" end))) as K.
    destruct (u_frag u) as [f|].
    - clear -Nh. revert Nh. induction (body u) as [|c b IH]; intros Nh; [reflexivity|]. cbn [contains] in Nh. apply orb_false_iff in Nh. destruct Nh as [N1 N2].
      cbn [append cut]. rewrite N1. cbn [append] in IH. rewrite IH by auto. reflexivity.
    - clear -Nh. rewrite append_empty. induction (body u) as [|c b IH]; [reflexivity|]. cbn [contains] in Nh. apply orb_false_iff in Nh. destruct Nh as [N1 N2].
      cbn [cut]. rewrite N1, IH by auto. reflexivity. }
  revert H. unfold URL_Parse. rewrite C. destruct (parse_nofrag (body u)) as [x|] eqn:Ep; [|congruence].
  assert (F0 : Fragment x = "").
  { revert Ep. unfold parse_nofrag. repeat match goal with |- context [match ?e with _ => _ end] => destruct e eqn:?; try discriminate end; intros [= <-]; reflexivity. }
  destruct (String.eqb_spec (or_empty (u_frag u)) "") as [E0|N0]; [intros _; rewrite F0, E0; reflexivity|].
  unfold setFragment. destruct (ModelURL.unescape (or_empty (u_frag u)) encodeFragment) as [d|] eqn:Eu; [|congruence]. intros _. cbn [with_fragment Fragment fst].
  assert (M : made_of anything (or_empty (u_frag u))) by (apply made_encoded_iff; apply (unescape_iff _ encodeFragment); [reflexivity|congruence]).
  rewrite (unescape_some _ encodeFragment) in Eu; [congruence|reflexivity|discriminate|exact M].
Qed.
