(** json.Marshal writes JSON texts that read back; what marshalWithoutNumber
    compares. *)
From Verif Require Export JsonGrammar FloatNearest SortKeys.
Open Scope nat_scope.

(** ** Values the encoder handles: strings are UTF-8, numbers are JSON numbers
    or float64s, maps have each key once, and no map[interface{}]interface{}. *)
Inductive std : value -> Prop :=
| std_nil : std VNil
| std_bool b : std (VBool b)
| std_num s : json_number s = true -> std (VNum s)
| std_float f : f64_ok f = true -> std (VFloat f)
| std_str s : utf8_text s -> std (VStr s)
| std_arr l : Forall std l -> std (VArr l)
| std_map m : NoDup (map fst m) -> Forall (fun e => utf8_text (fst e) /\ std (snd e)) m -> std (VMap m).

(** The decoder produces them. *)
Lemma parse_std u : forall k s,
  (forall v r, pvalue k u s = Some (v, r) -> std v) /\
  (forall l r, parr k u s = Some (l, r) -> Forall std l) /\
  (forall acc m r, pobj k u acc s = Some (m, r) ->
     NoDup (map fst acc) -> Forall (fun e => utf8_text (fst e) /\ std (snd e)) acc ->
     NoDup (map fst m) /\ Forall (fun e => utf8_text (fst e) /\ std (snd e)) m).
Proof.
  induction k as [|k IH]; intros s; [repeat split; intros; discriminate|].
  assert (IHv : forall s v r, pvalue k u s = Some (v, r) -> std v) by (intros s0; apply IH).
  assert (IHa : forall s v r, parr k u s = Some (v, r) -> Forall std v) by (intros s0; apply IH).
  assert (IHo : forall s acc m r, pobj k u acc s = Some (m, r) ->
     NoDup (map fst acc) -> Forall (fun e => utf8_text (fst e) /\ std (snd e)) acc ->
     NoDup (map fst m) /\ Forall (fun e => utf8_text (fst e) /\ std (snd e)) m) by (intros s0; apply IH).
  clear IH. split; [|split].
  - intros v r. cbn [pvalue]. destruct (skip_ws s) as [|c r0]; [discriminate|].
    destruct (Ascii.eqb c "{").
    { assert (Hcase : forall r1, match pobj k u [] r1 with Some (m, r2) => Some (VMap m, r2) | None => None end = Some (v, r) -> std v).
      { intros r1. destruct (pobj k u [] r1) as [[m r2]|] eqn:E; [|discriminate]. intros [= <- <-].
        apply IHo in E; try constructor; tauto. }
      destruct (skip_ws r0) as [|c1 r1]; [apply Hcase|].
      destruct c1 as [[] [] [] [] [] [] [] []]; try apply Hcase.
      intros [= <- <-]. constructor; constructor. }
    destruct (Ascii.eqb c "[").
    { assert (Hcase : forall r1, match parr k u r1 with Some (m, r2) => Some (VArr m, r2) | None => None end = Some (v, r) -> std v).
      { intros r1. destruct (parr k u r1) as [[m r2]|] eqn:E; [|discriminate]. intros [= <- <-].
        constructor. eapply IHa; eauto. }
      destruct (skip_ws r0) as [|c1 r1]; [apply Hcase|].
      destruct c1 as [[] [] [] [] [] [] [] []]; try apply Hcase.
      intros [= <- <-]. constructor. constructor. }
    destruct (Ascii.eqb c """").
    { destruct (parse_string r0) as [[t r2]|] eqn:E; [|discriminate]. intros [= <- <-]. constructor. eapply parse_str_text; eauto. }
    destruct (Ascii.eqb c "t").
    { destruct (strip_prefix "rue" r0); [|discriminate]. intros [= <- <-]. constructor. }
    destruct (Ascii.eqb c "f").
    { destruct (strip_prefix "alse" r0); [|discriminate]. intros [= <- <-]. constructor. }
    destruct (Ascii.eqb c "n").
    { destruct (strip_prefix "ull" r0); [|discriminate]. intros [= <- <-]. constructor. }
    unfold parse_number. destruct (scan_number (String c r0)) as [[l r1]|] eqn:E; [|discriminate].
    apply scan_number_again in E. destruct E as [_ E].
    destruct u; [intros [= <- <-]; constructor; exact E|].
    destruct (parse_float l) as [f|] eqn:Ef; [|discriminate]. intros [= <- <-]. constructor. eapply parse_float_ok; eauto.
  - intros l r. simpl. destruct (pvalue k u s) as [[v r0]|] eqn:Ev; [|discriminate].
    apply IHv in Ev. destruct (skip_ws r0) as [|c r1]; [discriminate|].
    assert (H1 : match parr k u r1 with Some (l, r3) => Some (v :: l, r3) | None => None end = Some (l, r) -> Forall std l).
    { destruct (parr k u r1) as [[l1 r2]|] eqn:E; [|discriminate]. intros [= <- <-]. constructor; eauto. }
    assert (H2 : Some ([v], r1) = Some (l, r) -> Forall std l) by (intros [= <- <-]; auto).
    destruct c as [[] [] [] [] [] [] [] []]; try discriminate; auto.
  - intros acc m r E Hn Hf. simpl in E. destruct (skip_ws s) as [|c r0]; [discriminate E|].
    destruct (Ascii.eqb_spec c """") as [->|n];
      [|destruct c as [[] [] [] [] [] [] [] []]; try discriminate E; congruence].
    destruct (parse_string r0) as [[key r1]|] eqn:Ek; [|discriminate E]. apply parse_str_text in Ek.
    destruct (skip_ws r1) as [|c1 r2]; [discriminate E|].
    destruct (Ascii.eqb_spec c1 ":") as [->|n];
      [|destruct c1 as [[] [] [] [] [] [] [] []]; try discriminate E; congruence].
    destruct (pvalue k u r2) as [[v r3]|] eqn:Ev; [|discriminate E]. apply IHv in Ev.
    destruct (skip_ws r3) as [|c2 r4]; [discriminate E|].
    assert (Hn' := aset_NoDup key v acc Hn).
    assert (Hf' : Forall (fun e => utf8_text (fst e) /\ std (snd e)) (aset key v acc)) by (apply aset_Forall; auto).
    assert (E' : pobj k u (aset key v acc) r4 = Some (m, r) \/ Some (aset key v acc, r4) = Some (m, r)).
    { destruct c2 as [[] [] [] [] [] [] [] []]; try discriminate E; auto. }
    destruct E' as [E'|[= <- <-]]; eauto.
Qed.

Theorem decode_std s v : decode_use_number s = Some v -> std v.
Proof.
  unfold decode_use_number. destruct (pvalue (parse_fuel s) true s) as [[w r]|] eqn:E; [|discriminate].
  intros [= <-]. eapply parse_std; eauto.
Qed.

(** ** Strings *)

Lemma enc_ascii_chars a s t : byte_in 0 127 a = true -> chars s t -> chars (append (enc_ascii a) s) (String a t).
Proof.
  intros Ha Hs. unfold enc_ascii.
  destruct (Ascii.eqb_spec a """"); [subst; apply chars_esc; auto; simpl; tauto|].
  destruct (Ascii.eqb_spec a "\"); [subst; apply chars_esc; auto; simpl; tauto|].
  destruct (Ascii.eqb_spec a "010"); [subst; apply chars_esc; auto; simpl; tauto|].
  destruct (Ascii.eqb_spec a "013"); [subst; apply chars_esc; auto; simpl; tauto|].
  destruct (Ascii.eqb_spec a "009"); [subst; apply chars_esc; auto; simpl; tauto|].
  apply byte_in_iff in Ha.
  assert (Hu : utf8_of (N_of_ascii a) (String a "")) by (rewrite <- (ascii_id a) at 2; constructor; lia).
  destruct (byte_in 0 31 a || Ascii.eqb a "<" || Ascii.eqb a ">" || Ascii.eqb a "&")%bool eqn:E.
  - change (chars (String "\" (String "u" (append (String "0" (String "0" (String (hex_digit (N_of_ascii a / 16)) (String (hex_digit (N_of_ascii a mod 16)) "")))) s))) (append (String a "") t)).
    apply chars_u with (N_of_ascii a); auto.
    assert (Hd : forall n, (n < 16)%N -> hex_char (hex_digit n) n).
    { intros n7 Hn7. unfold hex_digit, hex_char. destruct (N.ltb_spec n7 10); [left; split; [lia|reflexivity]|right; split; [lia|left; reflexivity]]. }
    exists "0"%char, "0"%char, (hex_digit (N_of_ascii a / 16)), (hex_digit (N_of_ascii a mod 16)),
      0%N, 0%N, (N_of_ascii a / 16)%N, (N_of_ascii a mod 16)%N.
    split; [reflexivity|]. split; [left; split; [lia|reflexivity]|]. split; [left; split; [lia|reflexivity]|].
    split; [apply Hd; apply N.div_lt_upper_bound; lia|]. split; [apply Hd; apply N.mod_lt; lia|].
    pose proof (N.div_mod (N_of_ascii a) 16 ltac:(lia)). lia.
  - change (String a t) with (append (String a "") t).
    apply chars_raw with (N_of_ascii a); auto.
    + rewrite !orb_false_iff in E. destruct E as [[[E _] _] _]. apply byte_in_out in E. lia.
    + intros H. apply n. rewrite <- (ascii_id a), H. reflexivity.
    + intros H. apply n0. rewrite <- (ascii_id a), H. reflexivity.
Qed.

Lemma utf8_high b k c : good k -> cbytes k = b -> (forall a, k <> C1 a) -> utf8_of c b -> (128 <= c)%N.
Proof.
  intros Hg <- Hk H. destruct k as [a|a b|a b c0|a b c0 d|a]; [exfalso; eapply Hk; eauto| | | |destruct Hg]; cbn [cbytes] in H; inversion H; lia.
Qed.

Lemma enc_chunk_chars k s t : good k -> chars s t -> chars (append (enc_chunk k) s) (append (cbytes k) t).
Proof.
  intros Hg Hs.
  assert (HR : (forall a, k <> C1 a) -> enc_chunk k = cbytes k -> chars (append (enc_chunk k) s) (append (cbytes k) t)).
  { intros Hk ->. destruct (good_utf8 k Hg) as [c Hc]. pose proof (utf8_high _ k c Hg eq_refl Hk Hc).
    apply chars_raw with c; auto; lia. }
  destruct k as [a|a b|a b c|a b c d|a]; cbn [enc_chunk cbytes].
  - apply enc_ascii_chars; auto.
  - apply HR; [discriminate|reflexivity].
  - cbn [enc_chunk cbytes] in HR.
    destruct (_ && _ && _)%bool eqn:E1.
    { rewrite !andb_true_iff, !Ascii.eqb_eq in E1. destruct E1 as [[-> ->] ->].
      change (chars (String "\" (String "u" (append "2028" s))) (append (String "226" (String "128" (String "168" ""))) t)).
      apply chars_u with 8232%N; auto.
      - exists "2"%char, "0"%char, "2"%char, "8"%char, 2%N, 0%N, 2%N, 8%N. split; [reflexivity|].
        repeat (split; [left; split; [lia|reflexivity]|]). reflexivity.
      - apply (utf8_3 2 0 40); lia. }
    destruct (Ascii.eqb a "226" && Ascii.eqb b "128" && Ascii.eqb c "169")%bool eqn:E2.
    { rewrite !andb_true_iff, !Ascii.eqb_eq in E2. destruct E2 as [[-> ->] ->].
      change (chars (String "\" (String "u" (append "2029" s))) (append (String "226" (String "128" (String "169" ""))) t)).
      apply chars_u with 8233%N; auto.
      - exists "2"%char, "0"%char, "2"%char, "9"%char, 2%N, 0%N, 2%N, 9%N. split; [reflexivity|].
        repeat (split; [left; split; [lia|reflexivity]|]). reflexivity.
      - apply (utf8_3 2 0 41); lia. }
    apply HR; [discriminate|reflexivity].
  - apply HR; [discriminate|reflexivity].
  - destruct Hg.
Qed.

Lemma enc_chunks_chars ks : Forall good ks -> chars (concat_str (map enc_chunk ks)) (concat_str (map cbytes ks)).
Proof.
  induction 1 as [|k ks Hk Hks IH]; [constructor|]. simpl. apply enc_chunk_chars; auto.
Qed.

(** The text of a string is the quoted form of that string. *)
Lemma enc_str_chars s : utf8_text s -> exists t, enc_str s = String """" (append t """") /\ chars t s.
Proof.
  intros H. apply utf8_text_iff in H. exists (concat_str (map enc_chunk (chunks s))). split; [reflexivity|].
  rewrite <- (chunks_bytes s) at 2. apply enc_chunks_chars. exact H.
Qed.

(** ** Values *)

(** What remains of a value after marshalling and unmarshalling without
    UseNumber: numbers as float64, members in key order.  None when a number
    is out of the range of float64. *)
Fixpoint canon (v : value) : option value :=
  match v with
  | VNum s => match parse_float s with Some f => Some (VFloat f) | None => None end
  | VArr l => match opt_all (map canon l) with Some l' => Some (VArr l') | None => None end
  | VMap m =>
      match opt_all (map (fun e => match canon (snd e) with Some w => Some (fst e, w) | None => None end) m) with
      | Some m' => Some (VMap (sort_keys m'))
      | None => None
      end
  | VIMap _ => None
  | _ => Some v
  end.

Lemma opt_all_Forall2 {A B} (f : A -> option B) l l' : opt_all (map f l) = Some l' <-> Forall2 (fun x y => f x = Some y) l l'.
Proof.
  revert l'. induction l as [|x l IH]; intros l'; simpl.
  - split; [intros [= <-]; constructor|]. intros H; inversion H; auto.
  - destruct (f x) as [y|] eqn:E.
    + destruct (opt_all (map f l)) as [r|]; split.
      * intros [= <-]. constructor; auto. apply IH. reflexivity.
      * intros H. inversion H; subst. apply IH in H4. injection H4 as <-. congruence.
      * discriminate.
      * intros H. inversion H; subst. apply IH in H4. discriminate.
    + split; [discriminate|]. intros H. inversion H; subst. congruence.
Qed.

Lemma join_elements ts cs : ts <> [] ->
  Forall2 (fun t c => json (lit false) t c) ts cs -> elements (lit false) (join "," ts) cs.
Proof.
  intros Hne H. induction H as [|t c ts cs Ht Hts IH]; [congruence|].
  destruct Hts as [|t2 c2 ts cs Ht2 Hts].
  - simpl. rewrite <- (append_nil_r t). constructor; auto. constructor.
  - change (join "," (t :: t2 :: ts)) with (append t (append "" (String "," (join "," (t2 :: ts))))).
    apply elements_cons; auto; [constructor|]. apply IH. discriminate.
Qed.

Definition member_text (e : string * string) : string := append (enc_str (fst e)) (append ":" (snd e)).
Lemma join_members (es : list (string * string)) (ms : list (string * value)) : es <> [] ->
  Forall2 (fun e c => fst e = fst c /\ utf8_text (fst e) /\ json (lit false) (snd e) (snd c)) es ms ->
  mems (lit false) (join "," (map member_text es)) ms.
Proof.
  intros Hne H. induction H as [|[k t] [k' c] es ms (Ek & Hk & Ht) Hes IH]; [congruence|]. simpl in Ek, Hk, Ht. subst k'.
  destruct (enc_str_chars k Hk) as (kt & Ekt & Hkt).
  assert (Hm : forall x, append (member_text (k, t)) x = append "" (String """" (append kt (String """" (append "" (String ":" (append t x))))))).
  { intros x. unfold member_text. cbn [fst snd]. rewrite Ekt. cbn [append]. do 2 (rewrite <- append_assoc; cbn [append]). reflexivity. }
  destruct Hes as [|e2 c2 es ms H2 Hes].
  - change (join "," (map member_text [(k, t)])) with (member_text (k, t)).
    rewrite <- (append_nil_r (member_text _)), Hm. apply mems_one; auto; constructor.
  - change (join "," (map member_text ((k, t) :: e2 :: es))) with (append (member_text (k, t)) (append "" (String "," (join "," (map member_text (e2 :: es)))))).
    rewrite Hm. apply mems_cons; auto; try constructor. apply IH. discriminate.
Qed.

Lemma insert_key_rel {A B} (R : A -> B -> Prop) (e : string * A) (f : string * B) l l' :
  fst e = fst f -> R (snd e) (snd f) ->
  Forall2 (fun x y => fst x = fst y /\ R (snd x) (snd y)) l l' ->
  Forall2 (fun x y => fst x = fst y /\ R (snd x) (snd y)) (insert_key e l) (insert_key f l').
Proof.
  intros He HR H. induction H as [|x y l l' [E1 E2] H IH]; simpl; [constructor; auto|].
  rewrite He, E1. destruct (String.leb (fst f) (fst y)); constructor; auto.
Qed.
Lemma sort_keys_rel {A B} (R : A -> B -> Prop) (l : list (string * A)) (l' : list (string * B)) :
  Forall2 (fun x y => fst x = fst y /\ R (snd x) (snd y)) l l' ->
  Forall2 (fun x y => fst x = fst y /\ R (snd x) (snd y)) (sort_keys l) (sort_keys l').
Proof.
  induction 1 as [|x y l l' [E1 E2] H IH]; simpl; [constructor|]. apply insert_key_rel; auto.
Qed.

Lemma Forall2_fst {A B} (P : string * A -> string * B -> Prop) l l' :
  (forall x y, P x y -> fst x = fst y) -> Forall2 P l l' -> map fst l = map fst l'.
Proof. intros HP. induction 1; simpl; [reflexivity|]. f_equal; auto. Qed.

Lemma sort_keys_fst_perm {A} (l : list (string * A)) : Permutation (map fst l) (map fst (sort_keys l)).
Proof. apply Permutation_map, sort_keys_permutation. Qed.

Theorem marshal_json v : std v -> forall c, canon v = Some c -> exists t, marshal v = Some t /\ json (lit false) t c.
Proof.
  induction v using value_ind'; intros Hs c Hc; inversion Hs; subst; cbn [canon] in Hc.
  - injection Hc as <-. exists "null"%string. split; auto. apply (json_null _ ""). constructor.
  - injection Hc as <-. destruct b; eexists; (split; [reflexivity|]).
    + apply (json_true _ ""). constructor.
    + apply (json_false _ ""). constructor.
  - destruct (parse_float s) as [f|] eqn:Ef; [|discriminate]. injection Hc as <-.
    exists s. split; [cbn [marshal]; destruct s; [discriminate|]; rewrite H0; reflexivity|].
    apply (json_num _ ""); [constructor|apply number_iff; auto|]. exists f. auto.
  - injection Hc as <-. exists (fmt_float f). split; auto.
    apply (json_num _ ""); [constructor|apply number_iff, fmt_float_json; auto|]. exists f. split; auto. apply parse_fmt_float; auto.
  - injection Hc as <-. exists (enc_str s). split; auto.
    destruct (enc_str_chars s H0) as (t & Et & Ht). rewrite Et. apply (json_str _ ""); [constructor|auto].
  - destruct (opt_all (map canon l)) as [l'|] eqn:El; [|discriminate]. injection Hc as <-.
    apply opt_all_Forall2 in El.
    assert (HT : exists ts, Forall2 (fun x t => marshal x = Some t) l ts /\ Forall2 (fun t c => json (lit false) t c) ts l').
    { clear Hs. induction El as [|x y l l' Exy El IH]; [exists []; split; constructor|].
      inversion H; subst. inversion H1; subst. destruct (H3 H5 _ Exy) as (t & Et & Hj).
      destruct IH as (ts & E1 & E2); auto. exists (t :: ts). split; constructor; auto. }
    destruct HT as (ts & E1 & E2). cbn [marshal]. rewrite (proj2 (opt_all_Forall2 marshal l ts) E1).
    eexists. split; [reflexivity|].
    destruct E2 as [|t c ts cs Ht Hts].
    + apply (json_arr0 _ "" ""); constructor.
    + apply (json_arr _ ""); [constructor|]. apply join_elements; [discriminate|]. constructor; auto.
  - destruct (opt_all _) as [m'|] eqn:Em in Hc; [|discriminate]. injection Hc as <-.
    apply opt_all_Forall2 in Em.
    assert (HT : exists es,
      Forall2 (fun e t => match marshal (snd e) with Some x => Some (fst e, x) | None => None end = Some t) m es /\
      Forall2 (fun (e : string * string) (c : string * value) => fst e = fst c /\ (utf8_text (fst c) /\ json (lit false) (snd e) (snd c))) es m' /\
      map fst m = map fst m').
    { clear Hs H1. induction Em as [|x y m m' Exy Em IH]; [exists []; split; [|split]; constructor|].
      inversion H as [|? ? Hx0 Hrest]; subst. inversion H2 as [|? ? [Hk Hx] Hrest2]; subst.
      destruct (canon (snd x)) as [w|] eqn:Ew; [|discriminate]. injection Exy as <-.
      destruct (Hx0 Hx _ eq_refl) as (t & Et & Hj).
      destruct IH as (es & E1 & E2 & E3); auto. exists ((fst x, t) :: es). split; [|split].
      - constructor; auto. rewrite Et. reflexivity.
      - constructor; auto.
      - simpl. congruence. }
    destruct HT as (es & E1 & E2 & E3). cbn [marshal].
    rewrite (proj2 (opt_all_Forall2 _ m es) E1). eexists. split; [reflexivity|].
    change (fun e : string * string => append (enc_str (fst e)) (append ":" (snd e))) with member_text.
    assert (Hnd : NoDup (map fst (sort_keys m'))).
    { eapply Permutation_NoDup; [apply sort_keys_fst_perm|]. rewrite <- E3. auto. }
    assert (E4 : Forall2 (fun (e : string * string) (c : string * value) => fst e = fst c /\ utf8_text (fst e) /\ json (lit false) (snd e) (snd c)) (sort_keys es) (sort_keys m')).
    { assert (HU : Forall (fun c : string * value => utf8_text (fst c)) (sort_keys m')).
      { rewrite Forall_forall. intros x Hx. apply (Permutation_in _ (Permutation_sym (sort_keys_permutation m'))) in Hx.
        clear -E2 Hx. induction E2 as [|a b es m' Hab E2 IH]; [destruct Hx|]. destruct Hx as [<- |Hx]; [tauto|auto]. }
      assert (E5 : Forall2 (fun (e : string * string) (c : string * value) => fst e = fst c /\ json (lit false) (snd e) (snd c)) (sort_keys es) (sort_keys m')).
      { apply sort_keys_rel. clear -E2. induction E2; constructor; auto; tauto. }
      clear -HU E5. induction E5 as [|a b l l' [A1 A2] E5 IH]; [constructor|]. inversion HU; subst. constructor; auto.
      split; auto. rewrite A1. auto. }
    destruct (sort_keys es) as [|e0 es0] eqn:Ees.
    + inversion E4 as [E6|]; subst. apply (json_obj0 _ "" ""); constructor.
    + rewrite <- (members_distinct (sort_keys m') Hnd). apply (json_obj _ ""); [constructor|].
      apply join_members; auto. discriminate.
Qed.

(** ** Canonical values *)

Lemma leb_neg a b : String.leb a b = false -> String.leb b a = true.
Proof. intros H. destruct (String.leb_total a b); congruence. Qed.

Section Sorted.
  Context {A : Type}.
  Inductive sorted : list (string * A) -> Prop :=
  | sorted_nil : sorted []
  | sorted_one e : sorted [e]
  | sorted_cons e f l : String.leb (fst e) (fst f) = true -> sorted (f :: l) -> sorted (e :: f :: l).
  Lemma insert_sorted e l : sorted l -> sorted (insert_key e l).
  Proof.
    induction 1 as [|x|x y l Hxy Hl IH]; simpl.
    - constructor.
    - destruct (String.leb (fst e) (fst x)) eqn:E; [constructor; auto; constructor|].
      constructor; [apply leb_neg; auto|constructor].
    - destruct (String.leb (fst e) (fst x)) eqn:E; [constructor; auto; constructor; auto|].
      simpl in IH. destruct (String.leb (fst e) (fst y)) eqn:E2; constructor; auto. apply leb_neg; auto.
  Qed.
  Lemma sort_sorted l : sorted (sort_keys l).
  Proof. induction l; simpl; [constructor|]. apply insert_sorted. auto. Qed.
  Lemma sort_keys_sorted l : sorted l -> sort_keys l = l.
  Proof.
    induction 1 as [|x|x y l Hxy Hl IH]; auto.
    change (sort_keys (x :: y :: l)) with (insert_key x (sort_keys (y :: l))). rewrite IH. simpl. rewrite Hxy. reflexivity.
  Qed.
End Sorted.

Lemma canon_std v : std v -> forall c, canon v = Some c -> std c /\ canon c = Some c.
Proof.
  induction v using value_ind'; intros Hs c Hc; inversion Hs; subst; cbn [canon] in Hc.
  - injection Hc as <-. split; auto.
  - injection Hc as <-. split; auto.
  - destruct (parse_float s) as [f|] eqn:Ef; [|discriminate]. injection Hc as <-. split; auto. constructor. eapply parse_float_ok; eauto.
  - injection Hc as <-. split; auto.
  - injection Hc as <-. split; auto.
  - destruct (opt_all (map canon l)) as [l'|] eqn:El; [|discriminate]. injection Hc as <-.
    apply opt_all_Forall2 in El.
    assert (HT : Forall std l' /\ Forall2 (fun x y => canon x = Some y) l' l').
    { clear Hs. induction El as [|x y l l' Exy El IH]; [split; constructor|].
      inversion H; subst. inversion H1; subst. destruct (H3 H5 _ Exy) as [S1 S2].
      destruct IH as [I1 I2]; auto. }
    destruct HT as [T1 T2]. split; [constructor; auto|]. cbn [canon]. rewrite (proj2 (opt_all_Forall2 _ _ _) T2). reflexivity.
  - destruct (opt_all _) as [m'|] eqn:Em in Hc; [|discriminate]. injection Hc as <-.
    apply opt_all_Forall2 in Em.
    assert (HT : Forall (fun e => utf8_text (fst e) /\ std (snd e)) m' /\
                 Forall (fun e => canon (snd e) = Some (snd e)) m' /\ map fst m = map fst m').
    { clear Hs H1. induction Em as [|x y m m' Exy Em IH]; [repeat split; constructor|].
      inversion H as [|? ? Hx0 Hrest]; subst. inversion H2 as [|? ? [Hk Hx] Hrest2]; subst.
      destruct (canon (snd x)) as [w|] eqn:Ew; [|discriminate]. injection Exy as <-.
      destruct (Hx0 Hx _ eq_refl) as [S1 S2]. destruct IH as (I1 & I2 & I3); auto. repeat split; [constructor; auto|constructor; auto|].
      simpl. congruence. }
    destruct HT as (T1 & T2 & T3). pose proof (sort_keys_permutation m') as HP. split.
    + constructor.
      * eapply Permutation_NoDup; [apply sort_keys_fst_perm|]. rewrite <- T3. auto.
      * eapply Permutation_Forall; eauto.
    + cbn [canon]. rewrite (proj2 (opt_all_Forall2 _ (sort_keys m') (sort_keys m'))).
      * rewrite (sort_keys_sorted (sort_keys m')) by apply sort_sorted. reflexivity.
      * apply (Permutation_Forall HP) in T2. clear -T2. induction T2 as [|x l Hx H IH]; constructor; auto.
        rewrite Hx. destruct x; reflexivity.
Qed.

(** marshalWithoutNumber writes the canonical value. *)
Theorem mwn_canon v c : std v -> canon v = Some c ->
  marshalWithoutNumber v = marshal c /\ exists t, marshal c = Some t /\ json (lit false) t c.
Proof.
  intros Hs Hc. destruct (marshal_json v Hs c Hc) as (s & Es & Hj).
  destruct (canon_std v Hs c Hc) as [Sc Cc]. split; [|apply marshal_json; auto].
  unfold marshalWithoutNumber. rewrite Es.
  pose proof (unmarshal_complete s c "" Hj ws_nil) as Hu. rewrite append_nil_r in Hu. rewrite Hu. reflexivity.
Qed.

Theorem mwn_eq v w c d : std v -> std w -> canon v = Some c -> canon w = Some d ->
  (marshalWithoutNumber v = marshalWithoutNumber w <-> c = d).
Proof.
  intros Hv Hw Cv Cw. destruct (mwn_canon v c Hv Cv) as (-> & s & Es & Js). destruct (mwn_canon w d Hw Cw) as (-> & t & Et & Jt).
  split; [|congruence]. rewrite Es, Et. intros [= <-].
  pose proof (unmarshal_complete s c "" Js ws_nil) as H1. pose proof (unmarshal_complete s d "" Jt ws_nil) as H2. congruence.
Qed.
