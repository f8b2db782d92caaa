(** Each keyword without subschemas is accepted by the compiler exactly when it
    has the shape the specification demands. *)
From Verif Require Export SpecShape CompileSem Pointer.
From Coq Require Import Lia.
Open Scope string_scope.
Open Scope list_scope.
Open Scope nat_scope.

(** ** Natural numbers *)

Lemma int_part_int_of i : int_part i -> int_of i (digits_val 0 i) /\ digits i.
Proof.
  intros [-> |(H1 & H2 & H3)]; [split; [left; auto|reflexivity]|]. split; auto. right. split.
  - apply digits_digit_string in H1. destruct i as [|c i]; [congruence|]. eexists. exact H1.
  - intros r ->. apply H3. reflexivity.
Qed.
Lemma int_of_digits s n : int_of s n -> digits s /\ digits_val 0 s = n /\ s <> "".
Proof.
  intros [[-> ->]|[[k H] _]]; [repeat split; discriminate|]. apply digit_string_digits in H. destruct H as (H1 & H2 & H3).
  split; auto. split; auto. intros ->. discriminate.
Qed.
Lemma take_digits_stops i r : digits i -> starts_digit r = false -> take_digits (append i r) = (i, r).
Proof.
  induction i as [|c i IH]; intros H Hr.
  - simpl. destruct r as [|c r]; [reflexivity|]. cbn [take_digits]. simpl in Hr. rewrite Hr. reflexivity.
  - apply digits_cons in H. destruct H as [Hc Hi]. cbn [append take_digits]. rewrite Hc, IH by auto. reflexivity.
Qed.
Lemma append_none a b : append a b = "" -> a = "" /\ b = "".
Proof. destruct a; simpl; [auto|discriminate]. Qed.
Lemma parse_int64_plain s n : json_number s = true -> parse_int64 s = Some n -> (0 <= n)%Z -> plain_integer s n /\ (n < 2 ^ 63)%Z.
Proof.
  intros Hj E Hn. destruct (json_number_parts s Hj) as (g & i & f & e & Hg & Hi & Hf & He & ->).
  destruct (int_part_int_of i Hi) as [I1 I2].
  assert (Hr : starts_digit (append f e) = false).
  { apply frac_part_head; auto. destruct He as [-> |(c & g' & d & -> & [-> | ->] & _)]; reflexivity. }
  assert (Et : take_sign (append g (append i (append f e))) = (negb (String.eqb g ""), append i (append f e))).
  { destruct Hg as [-> | ->]; [|reflexivity]. cbn [append String.eqb negb].
    destruct i as [|c i]; [destruct Hi as [Hi|(_ & Hi & _)]; [discriminate|congruence]|]. apply digits_cons in I2. destruct I2 as [I2 _].
    cbn [append]. apply take_sign_digit. auto. }
  unfold parse_int64 in E. rewrite Et in E. rewrite (take_digits_stops i (append f e) I2 Hr) in E.
  destruct i as [|c i]; [discriminate|]. destruct (append f e) as [|c' r] eqn:Er; [|discriminate].
  apply append_none in Er. destruct Er as [-> ->]. rewrite Pointer.append_empty.
  destruct ((_ && _)%bool) eqn:Eb; [|discriminate]. injection E as <-. apply andb_prop in Eb. destruct Eb as [_ Eb]. apply Z.ltb_lt in Eb. split; auto.
  destruct Hg as [-> | ->]; cbn [String.eqb negb append] in *; [left; auto|]. right.
  assert (Hz : digits_val 0 (String c i) = 0%Z).
  { destruct Hi as [Hi|(H1 & _)]; [rewrite Hi; reflexivity|]. pose proof (digits_val_nonneg (String c i) H1 0%Z ltac:(lia)). change (digits_val (digit_val c) i) with (digits_val 0 (String c i)) in Hn. lia. }
  split; [|change (digits_val (digit_val c) i) with (digits_val 0 (String c i)); lia]. destruct Hi as [Hi|(H1 & H2 & H3)]; [rewrite Hi; reflexivity|].
  exfalso. apply digits_cons in H1. destruct H1 as [Hc H1]. simpl in H3. cbn [digits_val] in Hz. rewrite digits_val_acc in Hz.
  pose proof (digits_val_nonneg i H1 0%Z ltac:(lia)). destruct (digit_char_inv c Hc) as [D1 D2].
  assert (P : (0 < 10 ^ Z.of_nat (String.length i))%Z) by (apply Z.pow_pos_nonneg; lia).
  assert (Dz : digit_val c = 0%Z) by nia. rewrite Dz in D2. apply H3. rewrite D2. reflexivity.
Qed.
Lemma plain_parse_int64 s n : plain_integer s n -> (0 <= n < 2 ^ 63)%Z -> parse_int64 s = Some n.
Proof.
  intros [H|[-> ->]] B; [|reflexivity]. destruct (int_of_digits s n H) as (H1 & H2 & H3). unfold parse_int64.
  destruct s as [|c t]; [congruence|]. pose proof (proj1 (digits_cons _ _) H1) as [Hc _]. rewrite take_sign_digit by auto. rewrite take_digits_all by auto. rewrite H2.
  destruct (Z.leb_spec (- 2 ^ 63) n); [|lia]. destruct (Z.ltb_spec n (2 ^ 63)); [|lia]. reflexivity.
Qed.
Lemma natural_iff lim x n : doc_ok x -> all_numbers (moderate lim) x -> ((exists z, mustBeInteger lim x = Some z /\ z = n /\ (0 <= z)%Z) <-> natural x n).
Proof.
  intros D M. split.
  - intros (z & E & -> & Hz). destruct x as [| |s| | | | |]; try discriminate. cbn [mustBeInteger] in E. destruct (checkJSONInteger lim s); [|discriminate].
    destruct D as [D _]. inversion D as [| |? Hj| | | |]; subst. destruct (parse_int64_plain s n Hj E Hz) as [P B]. exists s. auto.
  - intros (s & -> & P & B). exists n. split; [|split; [auto|lia]]. cbn [mustBeInteger]. destruct D as [D _]. inversion D as [| |? Hj| | | |]; subst.
    inversion M as [| | |? Hm| | |]; subst. pose proof (plain_parse_int64 s n P B) as E. rewrite E.
    pose proof (parse_int64_value s n Hj E) as Hd. rewrite (proj2 (checkJSONInteger_iff lim s _ Hd)); auto. split; auto. exists n. reflexivity.
Qed.

(** ** Deciding a shape *)

(** The computation returns exactly when P holds, leaving the state alone; it
    panics only if [bad]. *)
Definition decides {A} (Hm : Prop) (c : comp A) (P : Prop) (bad : Prop) : Prop :=
  forall s, match c s with
            | COk _ s' => s' = s /\ (Hm -> P)
            | CErr _ _ => Hm -> ~ P
            | CPanic => Hm -> bad /\ ~ P
            | CNoFuel => False
            end.

Section Plain.
  Variable ce : cenv.
  Notation lim := (e_ratlim (c_go ce)).
  Notation re := (fun p => e_re_ok (c_go ce) p = true).
  Notation url := (fun s => u_parse ce s <> None).
  Variable d : draft.
  Variable m : list (string * value).
  Hypothesis Hd : doc_ok (VMap m).
  Notation Hm := (all_numbers (moderate lim) (VMap m)).

  Lemma member_doc k x : assoc k m = Some x -> doc_ok x.
  Proof. intros E. eapply doc_ok_member; eauto. Qed.
  Lemma all_member P k x : all_numbers P (VMap m) -> assoc k m = Some x -> all_numbers P x.
  Proof. intros H E. inversion H as [| | | | | |? F]; subst. rewrite Forall_forall in F. apply assoc_In in E. apply (F _ E). Qed.

  (** The kind tests. *)
  Lemma ck_run v ks s : doc_ok v ->
    (exists k, kind_of lim v = Ok k /\ ck ce v ks s = COk (existsb (kind_eqb k) ks) s) \/
    (ck ce v ks s = CPanic /\ ~ all_numbers (moderate lim) v).
  Proof.
    intros D. unfold ck, isKind, ModelCompile.lim. destruct (kind_of lim v) as [k| |] eqn:E.
    - left. exists k. split; auto.
    - right. split; [reflexivity|]. intros M. destruct v as [|b|t|f|t|l|o|o]; try discriminate. cbn [kind_of] in E. destruct D as [D _]. inversion D as [| |? Hj| | | |]; subst.
      inversion M as [| | |? Hs| | |]; subst. destruct (proj1 (rat_of_moderate lim t Hj) Hs) as [q Eq]. rewrite Eq in E. discriminate.
    - destruct v as [|b|t|f|t|l|o|o]; try discriminate. cbn [kind_of] in E. destruct (rat_of lim t); discriminate.
  Qed.

  Ltac none E := split; [reflexivity|intros _ ? X; rewrite E in X; discriminate X].
  Ltac kind_test E := 
    match goal with |- context [ck ce ?v ?ks ?s] =>
      let k := fresh "k" in let Ek := fresh "Ek" in let Hn := fresh "Hn" in
      destruct (ck_run v ks s ltac:(eauto using member_doc)) as [(k & Ek & ->)|[-> Hn]];
      [|intros Hmm; exfalso; apply Hn; eapply all_member; eauto]
    end.
  Ltac given E := intros _ ? X; rewrite E in X; injection X as <-.
  Ltac refuse E := intros _ X; specialize (X _ E).

  Lemma kind_string v k : kind_of lim v = Ok k -> existsb (kind_eqb k) [KString] = true -> exists s, v = VStr s.
  Proof. intros E H. destruct v as [|b|t|f|t|l|o|o]; cbn [kind_of] in E; try (destruct (rat_of lim t)); try discriminate E; injection E as <-; try discriminate H; eauto. Qed.
  Lemma kind_bool v k : kind_of lim v = Ok k -> existsb (kind_eqb k) [KBool] = true -> exists s, v = VBool s.
  Proof. intros E H. destruct v as [|b|t|f|t|l|o|o]; cbn [kind_of] in E; try (destruct (rat_of lim t)); try discriminate E; injection E as <-; try discriminate H; eauto. Qed.
  Lemma kind_slice v k : kind_of lim v = Ok k -> existsb (kind_eqb k) [KSlice] = true -> exists s, v = VArr s.
  Proof. intros E H. destruct v as [|b|t|f|t|l|o|o]; cbn [kind_of] in E; try (destruct (rat_of lim t)); try discriminate E; injection E as <-; try discriminate H; eauto. Qed.

  Lemma d_string_only key : decides Hm (p_string_only ce key m) (kw m key is_string) False.
  Proof.
    intros s. unfold p_string_only. destruct (assoc key m) as [v|] eqn:Ev; [|none Ev]. unfold cbind. kind_test Ev.
    destruct (existsb (kind_eqb k) [KString]) eqn:Eb.
    - split; auto. given Ev. eapply kind_string; eauto.
    - refuse Ev. destruct X as [t ->]. cbn in Ek. injection Ek as <-. discriminate.
  Qed.

  Lemma d_id a (Hinh : forall b s r, u_parse ce s = Some r -> u_inherits ce b r <> None) : pa_draft a = d -> decides Hm (p_id ce a m) (ok_id url d m) False.
  Proof.
    intros Ea s. unfold p_id, ok_id. rewrite Ea.
    assert (EK : (match d with Draft4 => "id" | Hybrid => if existsMapKey m "id" then "id" else "$id" | _ => "$id" end) = id_keyword d m).
    { unfold id_keyword, existsMapKey. destruct d; auto. destruct (assoc "id" m); auto. }
    rewrite EK. set (key := id_keyword d m). destruct (assoc key m) as [v|] eqn:Ev; [|none Ev]. unfold cbind. kind_test Ev.
    destruct (existsb (kind_eqb k) [KString]) eqn:Eb; cbn [negb].
    - destruct (kind_string v k Ek Eb) as [t ->]. destruct (u_parse ce t) as [r|] eqn:Er.
      + destruct (pa_root a); [split; auto; given Ev; exists t; split; [auto|congruence]|].
        destruct (u_inherits ce (pa_parent_id a) r) as [x|] eqn:Ei; [|destruct (Hinh _ _ _ Er Ei)].
        split; auto. given Ev. exists t. split; [auto|congruence].
      + refuse Ev. destruct X as (t' & [= <-] & X). auto.
    - refuse Ev. destruct X as (t & -> & _). cbn in Ek. injection Ek as <-. discriminate.
  Qed.

  Lemma types_add_run t e s : types_add t e s = COk (t ++ [e]) s /\ In e type_names /\ ~ In e t \/ (exists x, types_add t e s = CErr x s) /\ ~ (In e type_names /\ ~ In e t).
  Proof.
    unfold types_add. destruct (isStringInSlice JSON_TYPES e) eqn:E1; cbn [negb].
    - apply in_slice in E1. unfold Contains. destruct (isStringInSlice t e) eqn:E2.
      + apply in_slice in E2. right. split; [eexists; reflexivity|tauto].
      + left. split; auto. split; [exact E1|]. intros H. apply in_slice in H. congruence.
    - right. split; [eexists; reflexivity|]. intros [H _]. assert (In e JSON_TYPES) as H' by exact H. apply in_slice in H'. congruence.
  Qed.
  (** A number in the list of types makes the compiler panic. *)
  Definition type_panic : Prop := exists l s, assoc "type" m = Some (VArr l) /\ In (VNum s) l.
  Lemma add_types_run l : forall t s, 
    match add_types t l s with
    | COk _ s' => s' = s /\ exists ts, l = map VStr ts /\ NoDup ts /\ incl ts type_names /\ forall x, In x ts -> ~ In x t
    | CErr _ _ => ~ exists ts, l = map VStr ts /\ NoDup ts /\ incl ts type_names /\ forall x, In x ts -> ~ In x t
    | CPanic => exists n, In (VNum n) l
    | CNoFuel => False
    end.
  Proof.
    induction l as [|x l IH]; intros t s.
    - cbn. split; auto. exists []. repeat split; [constructor|intros x []|intros x []].
    - assert (NS : (forall t, x <> VStr t) -> ~ exists ts, x :: l = map VStr ts /\ NoDup ts /\ incl ts type_names /\ forall y, In y ts -> ~ In y t).
      { intros H (ts & E & _). destruct ts as [|t0 ts]; [discriminate|]. injection E as E _. eapply H; eauto. }
      destruct x as [|b|lit|f|e|l0|o|o]; cbn [add_types]; try (cbn; apply NS; discriminate).
      + cbn. exists lit. left. auto.
      + unfold cbind. destruct (types_add_run t e s) as [(-> & H1 & H2)|((x & ->) & H)].
        * specialize (IH (t ++ [e]) s). destruct (add_types (t ++ [e]) l s) as [r s'|er s'| |]; auto.
          -- destruct IH as (-> & ts & -> & N & I & F). split; auto. exists (e :: ts). split; auto. split; [|split].
             ++ constructor; auto. intros H. apply (F e H). apply in_app_iff. right. left. auto.
             ++ intros x [<-|Hx]; auto.
             ++ intros x [<-|Hx]; auto. intros H. apply (F x Hx). apply in_app_iff. auto.
          -- intros (ts & E & N & I & F). apply IH. destruct ts as [|e' ts]; [discriminate|]. injection E as <- E. exists ts. split; auto.
             inversion N; subst. split; auto. split; [intros x Hx; apply I; right; auto|]. intros x Hx Hi. apply in_app_iff in Hi. destruct Hi as [Hi|[<-|[]]].
             ++ apply (F x); [right; auto|auto].
             ++ auto.
          -- destruct IH as [n Hn]. exists n. right. auto.
        * intros (ts & E & N & I & F). destruct ts as [|e' ts]; [discriminate|]. injection E as <- E. apply H. split; [apply I; left; auto|apply F; left; auto].
  Qed.
  Lemma d_type : decides Hm (p_type ce m) (ok_type m) type_panic.
  Proof.
    intros s. unfold p_type. destruct (assoc "type" m) as [v|] eqn:Ev; [|none Ev]. unfold cbind at 1. kind_test Ev.
    destruct v as [|b|t|f|t|l|o|o];
      try (cbn in Ek; try destruct (rat_of lim t); try discriminate Ek; injection Ek as <-; cbn [existsb kind_eqb orb]; unfold cbind; kind_test Ev; cbn in Ek;
           try (rewrite Ek in *); 
           try (destruct (rat_of lim t); try discriminate Ek); injection Ek as <-; cbn [existsb kind_eqb orb cfail];
           refuse Ev; destruct X as [(t' & X & _)|(l & X & _)]; discriminate X).
    - cbn in Ek. injection Ek as <-. cbn [existsb kind_eqb orb]. destruct (types_add_run [] t s) as [(-> & H1 & H2)|((x & ->) & H)].
      + split; auto. given Ev. left. eauto.
      + refuse Ev. destruct X as [(t' & [= <-] & X)|(l & X & _)]; [|discriminate]. apply H. split; auto.
    - cbn in Ek. injection Ek as <-. cbn [existsb kind_eqb orb]. unfold cbind. kind_test Ev. cbn in Ek. injection Ek as <-. cbn [existsb kind_eqb orb].
      pose proof (add_types_run l [] s) as H. destruct (add_types [] l s) as [r s'|er s'| |]; auto.
      + destruct H as (-> & ts & -> & N & I & _). split; auto. given Ev. right. exists ts. split; [reflexivity|auto].
      + refuse Ev. destruct X as [(t' & X & _)|(ts & X & N & I)]; [discriminate|]. unfold texts in X. injection X as ->. apply H. exists ts. repeat split; auto.
      + intros M. split; [destruct H as [n H]; exists l, n; auto|]. intros X. specialize (X _ Ev). destruct X as [(t' & X & _)|(ts & X & N & I)]; [discriminate|]. unfold texts in X. injection X as ->.
        destruct H as [n H]. apply in_map_iff in H. destruct H as (y & E & _). discriminate.
  Qed.


  (** Numbers *)
  Lemma number_iff key x : assoc key m = Some x -> Hm -> (is_number x <-> exists q, mustBeNumber lim x = Some q).
  Proof.
    intros E M. pose proof (all_member _ _ _ M E) as Mx. destruct (member_doc _ _ E) as [D _]. split.
    - intros (q & s & -> & Hq). inversion D as [| |? Hj| | | |]; subst. inversion Mx as [| | |? Hs| | |]; subst. apply (proj1 (rat_of_moderate lim s Hj) Hs).
    - intros [q Eq]. destruct x as [|b|s|f|s|l|o|o]; try discriminate. exists q, s. split; auto. eapply rat_of_denotes; [|exact Eq]. inversion D; auto.
  Qed.
  Lemma num_value key x q q' : assoc key m = Some x -> Hm -> is_num x q -> mustBeNumber lim x = Some q' -> (q == q')%Q.
  Proof.
    intros E M (s & -> & Hq) Eq. cbn [mustBeNumber] in Eq. symmetry. eapply rat_of_value; eauto.
  Qed.
  Lemma d_multipleOf : decides Hm (p_multipleOf ce m) (ok_multipleOf m) False.
  Proof.
    intros s. unfold p_multipleOf, ModelCompile.lim. destruct (assoc "multipleOf" m) as [v|] eqn:Ev; [|none Ev].
    destruct (mustBeNumber lim v) as [q|] eqn:Eq.
    - destruct (Qle_bool q 0) eqn:Hq.
      + intros M X. destruct (X _ Ev) as (q' & Hn & Hp). rewrite (num_value _ _ _ _ Ev M Hn Eq) in Hp. apply Qle_bool_iff in Hq. apply (Qlt_not_le _ _ Hp Hq).
      + split; auto. intros M x X. rewrite Ev in X. injection X as <-.
        exists q. split; [|apply Qnot_le_lt; intros H; apply Qle_bool_iff in H; congruence].
        destruct v as [|b|t|f|t|l|o|o]; try discriminate. exists t. split; auto. eapply rat_of_denotes; [|exact Eq]. destruct (member_doc _ _ Ev) as [D _]. inversion D; auto.
    - intros M X. destruct (X _ Ev) as (q' & Hn & Hp). assert (is_number v) as N by (exists q'; auto). apply (number_iff _ _ Ev M) in N. destruct N. congruence.
  Qed.
  Lemma d_bound key xkey : decides Hm (p_bound ce key xkey d m) (kw m key is_number /\ ok_exclusive d m key xkey) False.
  Proof.
    intros s. unfold p_bound, ModelCompile.lim, cbind at 1.
    assert (C : match assoc key m with None => True | Some v => match mustBeNumber lim v with None => Hm -> ~ is_number v | Some q => Hm -> is_number v end end).
    { destruct (assoc key m) as [v|] eqn:Ev; auto. destruct (mustBeNumber lim v) as [q|] eqn:Eq.
      - intros M. apply (number_iff _ _ Ev M). eauto.
      - intros M N. apply (number_iff _ _ Ev M) in N. destruct N. congruence. }
    assert (F : match assoc key m with
                | None => exists r, (match assoc key m with None => cret None | Some v => match mustBeNumber lim v with None => cfail (MustBeOfA key "number") | Some q => cret (Some q) end end) s = COk r s /\ (r = None <-> assoc key m = None) /\ (Hm -> kw m key is_number)
                | Some v => (exists r, (match assoc key m with None => cret None | Some v => match mustBeNumber lim v with None => cfail (MustBeOfA key "number") | Some q => cret (Some q) end end) s = COk r s /\ (r = None <-> assoc key m = None) /\ (Hm -> kw m key is_number)) \/
                            (exists e, (match assoc key m with None => cret None | Some v => match mustBeNumber lim v with None => cfail (MustBeOfA key "number") | Some q => cret (Some q) end end) s = CErr e s /\ (Hm -> ~ kw m key is_number))
                end).
    { destruct (assoc key m) as [v|] eqn:Ev.
      - destruct (mustBeNumber lim v) as [q|] eqn:Eq.
        + left. exists (Some q). split; [reflexivity|]. split; [split; discriminate|]. intros M x X. rewrite Ev in X. injection X as <-. auto.
        + right. eexists. split; [reflexivity|]. intros M X. apply (C M). apply X. auto.
      - exists None. split; [reflexivity|]. split; [tauto|]. intros _ x X. rewrite Ev in X. discriminate. }
    assert (G : (exists r, (match assoc key m with None => cret None | Some v => match mustBeNumber lim v with None => cfail (MustBeOfA key "number") | Some q => cret (Some q) end end) s = COk r s /\ (r = None <-> assoc key m = None) /\ (Hm -> kw m key is_number)) \/
                (exists e, (match assoc key m with None => cret None | Some v => match mustBeNumber lim v with None => cfail (MustBeOfA key "number") | Some q => cret (Some q) end end) s = CErr e s /\ (Hm -> ~ kw m key is_number))).
    { destruct (assoc key m); auto. }
    clear C F. destruct G as [(incl & -> & Hi & Hk)|(e & -> & Hk)]; [|intros M [X _]; apply (Hk M X)].
    destruct (assoc xkey m) as [v|] eqn:Ex; [|split; auto; intros M; split; [auto|intros x X; congruence]].
    assert (B : forall b, match (match incl with None => cfail (CannotBeUsedWithout xkey key) | Some q => cret (if b : bool then (None, Some q) else (Some q, None)) end) s with
                | COk _ s' => s' = s /\ assoc key m <> None | CErr _ _ => assoc key m = None | _ => False end).
    { intros b. destruct incl; cbn; [split; auto; intros H; apply Hi in H; discriminate|apply Hi; auto]. }
    assert (NX : forall P : Prop, (forall x, v = x -> ~ ((d = Draft4 \/ d = Hybrid) /\ is_boolean x /\ assoc key m <> None \/ since6 d /\ is_number x)) -> kw m key is_number /\ ok_exclusive d m key xkey -> P).
    { intros P H [_ X]. exfalso. apply (H v eq_refl). apply (X _ Ex). }
    assert (YX : (d = Draft4 \/ d = Hybrid) /\ is_boolean v /\ assoc key m <> None \/ since6 d /\ is_number v -> Hm -> kw m key is_number /\ ok_exclusive d m key xkey).
    { intros H M. split; [auto|]. intros x X. rewrite Ex in X. injection X as <-. auto. }
    assert (NV : Hm -> forall t, v = VNum t -> is_number v).
    { intros M t ->. apply (number_iff _ _ Ex M). destruct (member_doc _ _ Ex) as [D _]. inversion D as [| |? Hj| | | |]; subst.
      pose proof (all_member _ _ _ M Ex) as Mx. inversion Mx as [| | |? Hs| | |]; subst. apply (proj1 (rat_of_moderate lim t Hj) Hs). }
    assert (NN : is_number v -> exists t, v = VNum t) by (intros (q & t & -> & _); eauto).
    destruct d eqn:Ed.
    - unfold cbind. kind_test Ex. destruct (existsb (kind_eqb k) [KBool]) eqn:Eb.
      + destruct (kind_bool v k Ek Eb) as [b ->]. specialize (B b). destruct (_ s) as [r s'|er s'| |]; try tauto.
        * destruct B as [-> B]. split; auto. apply YX. left. split; auto. split; [eexists; eauto|auto].
        * intros M XX. refine (NX False _ XX). clear XX. intros x <- [(_ & _ & X)|[X _]]; [apply X; exact B|apply X; auto].
      + intros M XX. refine (NX False _ XX). clear XX. intros x <- [(_ & [b X] & _)|[X _]]; [|apply X; auto]. subst v. injection Ek as <-. discriminate.
    - destruct v as [|b|t|f|t|l|o|o]; try (intros M XX; refine (NX False _ XX); clear XX; intros x <- [([X|X] & _)|[_ X]]; try discriminate; destruct (NN X); discriminate).
      cbn. split; auto. intros M. apply YX; auto. right. split; [discriminate|eauto].
    - destruct v as [|b|t|f|t|l|o|o]; try (intros M XX; refine (NX False _ XX); clear XX; intros x <- [([X|X] & _)|[_ X]]; try discriminate; destruct (NN X); discriminate).
      cbn. split; auto. intros M. apply YX; auto. right. split; [discriminate|eauto].
    - unfold cbind. kind_test Ex. destruct v as [|b|t|f|t|l|o|o];
        try (assert (EB : existsb (kind_eqb k) [KBool] = false) by (cbn in Ek; injection Ek as <-; reflexivity); rewrite EB;
             intros M XX; refine (NX False _ XX); clear XX; intros x <- [(_ & [b X] & _)|[_ X]]; [discriminate|destruct (NN X); discriminate]).
      + cbn in Ek. injection Ek as <-. cbn [existsb kind_eqb orb]. specialize (B b). destruct (_ s) as [r s'|er s'| |]; try tauto.
        * destruct B as [-> B]. split; auto. apply YX. left. split; auto. split; [eexists; eauto|auto].
        * intros M XX. refine (NX False _ XX). clear XX. intros x <- [(_ & _ & X)|[_ X]]; [apply X; exact B|]. destruct (NN X). discriminate.
      + assert (EB : existsb (kind_eqb k) [KBool] = false) by (cbn in Ek; destruct (rat_of lim t); [injection Ek as <-; reflexivity|discriminate]). rewrite EB.
        cbn. split; auto. intros M. apply YX; auto. right. split; [discriminate|eauto].
  Qed.

  (** Integers *)
  Definition natural_value (key : string) (r : option Z) : Prop :=
    match assoc key m with None => r = None | Some x => exists n, r = Some n /\ natural x n end.
  Lemma d_natural key s : match p_natural ce key m s with
    | COk r s' => s' = s /\ (Hm -> ok_natural m key /\ natural_value key r)
    | CErr _ _ => Hm -> ~ ok_natural m key
    | _ => False
    end.
  Proof.
    unfold p_natural, natural_value, ModelCompile.lim. destruct (assoc key m) as [v|] eqn:Ev; [|cbn; split; auto; intros _; split; [intros x X; congruence|auto]].
    assert (HD := member_doc _ _ Ev). destruct (mustBeInteger lim v) as [z|] eqn:Ez.
    - destruct (Z.ltb_spec z 0) as [Hz|Hz].
      + intros M X. destruct (X _ Ev) as [n Hn]. apply (natural_iff lim v n HD (all_member _ _ _ M Ev)) in Hn. destruct Hn as (z' & E' & -> & Hp). assert (n = z) by congruence. lia.
      + cbn. split; auto. intros M. assert (N : natural v z) by (apply (natural_iff lim v z HD (all_member _ _ _ M Ev)); eauto).
        split; [|eauto]. intros x X. rewrite Ev in X. injection X as <-. eauto.
    - intros M X. destruct (X _ Ev) as [n Hn]. apply (natural_iff lim v n HD (all_member _ _ _ M Ev)) in Hn. destruct Hn as (z' & E' & _). congruence.
  Qed.
  Lemma natural_unique x a b : doc_ok x -> all_numbers (moderate lim) x -> natural x a -> natural x b -> a = b.
  Proof.
    intros D M H1 H2. apply (natural_iff lim x a D M) in H1. apply (natural_iff lim x b D M) in H2. destruct H1 as (z & E1 & -> & _), H2 as (z' & E2 & -> & _). congruence.
  Qed.
  Lemma d_le lo hi a b e : (Hm -> natural_value lo a) -> (Hm -> natural_value hi b) -> decides Hm (p_le a b e) (ok_order m lo hi) False.
  Proof.
    intros Ha Hb s. unfold p_le.
    assert (C : (Hm -> ok_order m lo hi <-> match a, b with Some x, Some y => (x <= y)%Z | _, _ => True end)).
    { intros M. specialize (Ha M). specialize (Hb M). unfold natural_value, ok_order, kw in *. destruct (assoc lo m) as [x|] eqn:Ex.
      - destruct Ha as (n & -> & Hn). destruct (assoc hi m) as [y|] eqn:Ey.
        + destruct Hb as (n' & -> & Hn'). split.
          * intros H. apply (H x eq_refl y eq_refl n n' Hn Hn').
          * intros H x' [= <-] y' [= <-] p q Hp Hq. rewrite (natural_unique x p n), (natural_unique y q n'); eauto using member_doc, all_member.
        + subst b. split; auto. discriminate.
      - subst a. split; auto. discriminate. }
    destruct a as [x|]; [|cbn; split; auto; intros M; apply C; auto]. destruct b as [y|]; [|cbn; split; auto; intros M; apply C; auto].
    destruct (Z.ltb_spec y x).
    - intros M X. apply C in X; auto. lia.
    - cbn. split; auto. intros M. apply C; auto.
  Qed.

  (** Strings and arrays *)
  Lemma d_pattern : decides Hm (p_pattern ce m) (ok_pattern re m) False.
  Proof.
    intros s. unfold p_pattern. destruct (assoc "pattern" m) as [v|] eqn:Ev; [|none Ev]. unfold cbind. kind_test Ev.
    destruct (existsb (kind_eqb k) [KString]) eqn:Eb.
    - destruct (kind_string v k Ek Eb) as [t ->]. destruct (e_re_ok (c_go ce) t) eqn:Er.
      + cbn. split; auto. given Ev. eauto.
      + refuse Ev. destruct X as (t' & [= <-] & X). congruence.
    - refuse Ev. destruct X as (t & -> & _). cbn in Ek. injection Ek as <-. discriminate.
  Qed.
  Lemma d_format : decides Hm (p_format m) (kw m "format" is_string) False.
  Proof.
    intros s. unfold p_format. destruct (assoc "format" m) as [v|] eqn:Ev; [|none Ev].
    destruct v; try (refuse Ev; destruct X as [t X]; discriminate). cbn. split; auto. given Ev. eexists; eauto.
  Qed.
  Lemma d_uniqueItems : decides Hm (p_uniqueItems ce m) (kw m "uniqueItems" is_boolean) False.
  Proof.
    intros s. unfold p_uniqueItems. destruct (assoc "uniqueItems" m) as [v|] eqn:Ev; [|none Ev]. unfold cbind. kind_test Ev.
    destruct (existsb (kind_eqb k) [KBool]) eqn:Eb.
    - destruct (kind_bool v k Ek Eb) as [t ->]. cbn. split; auto. given Ev. eexists; eauto.
    - refuse Ev. destruct X as (t & ->). cbn in Ek. injection Ek as <-. discriminate.
  Qed.
  Lemma add_required_run l (Hl : Forall doc_ok l) : forall t s,
    match add_required ce t l s with
    | COk _ s' => s' = s /\ exists ts, l = map VStr ts /\ NoDup ts /\ forall x, In x ts -> ~ In x t
    | CErr _ _ => ~ exists ts, l = map VStr ts /\ NoDup ts /\ forall x, In x ts -> ~ In x t
    | CPanic => ~ Forall (all_numbers (moderate lim)) l
    | CNoFuel => False
    end.
  Proof.
    induction Hl as [|x l Hx Hl IH]; intros t s.
    - cbn. split; auto. exists []. repeat split; [constructor|intros x []].
    - cbn [add_required]. unfold cbind. destruct (ck_run x [KString] s Hx) as [(k & Ek & ->)|[-> Hn]]; [|intros F; inversion F; auto].
      destruct (existsb (kind_eqb k) [KString]) eqn:Eb.
      + destruct (kind_string x k Ek Eb) as [e ->]. destruct (isStringInSlice t e) eqn:Et.
        * cbn. intros (ts & E & N & F). destruct ts as [|e' ts]; [discriminate|]. injection E as <- E. apply (F e); [left; auto|]. apply in_slice. auto.
        * assert (Ht : ~ In e t) by (intros H; apply in_slice in H; congruence). specialize (IH (t ++ [e]) s). destruct (add_required ce (t ++ [e]) l s) as [r s'|er s'| |]; auto.
          -- destruct IH as (-> & ts & -> & N & F). split; auto. exists (e :: ts). split; auto. split.
             ++ constructor; auto. intros H. apply (F e H). apply in_app_iff. right. left. auto.
             ++ intros x [<-|Hy]; auto. intros H. apply (F x Hy). apply in_app_iff. auto.
          -- intros (ts & E & N & F). apply IH. destruct ts as [|e' ts]; [discriminate|]. injection E as <- E. exists ts. split; auto.
             inversion N; subst. split; auto. intros x Hy Hi. apply in_app_iff in Hi. destruct Hi as [Hi|[<-|[]]]; [apply (F x); [right; auto|auto]|auto].
          -- intros F. inversion F; auto.
      + intros (ts & E & _). destruct ts as [|e' ts]; [discriminate|]. injection E as -> _. cbn in Ek. injection Ek as <-. discriminate.
  Qed.
  Lemma arr_doc key l : assoc key m = Some (VArr l) -> Forall doc_ok l.
  Proof. intros E. apply doc_ok_arr. eapply member_doc; eauto. Qed.
  Lemma arr_all P key l : all_numbers P (VMap m) -> assoc key m = Some (VArr l) -> Forall (all_numbers P) l.
  Proof. intros M E. pose proof (all_member _ _ _ M E) as H. inversion H; auto. Qed.
  Lemma d_required : decides Hm (p_required ce m) (ok_required m) False.
  Proof.
    intros s. unfold p_required. destruct (assoc "required" m) as [v|] eqn:Ev; [|none Ev]. unfold cbind. kind_test Ev.
    destruct (existsb (kind_eqb k) [KSlice]) eqn:Eb.
    - destruct (kind_slice v k Ek Eb) as [l ->]. pose proof (add_required_run l (arr_doc _ _ Ev) [] s) as H. destruct (add_required ce [] l s) as [r s'|er s'| |]; auto.
      + destruct H as (-> & ts & -> & N & _). split; auto. given Ev. exists ts. split; [reflexivity|auto].
      + refuse Ev. destruct X as (ts & X & N). unfold texts in X. injection X as ->. apply H. exists ts. repeat split; auto.
      + intros M. exfalso. apply H. eapply arr_all; eauto.
    - refuse Ev. destruct X as (ts & -> & _). cbn in Ek. injection Ek as <-. discriminate.
  Qed.

  (** Values *)
  Lemma mwn_iff x : doc_ok x -> ((exists t, marshalWithoutNumber x = Some t) <-> in_float_range x).
  Proof.
    intros [S P]. split; [|apply mwn_some; auto]. intros [t E]. eapply mwn_range; eauto.
  Qed.
  Lemma since6_ge6 : draft_ge6 d = true <-> since6 d.
  Proof. unfold since6. destruct d; cbn; split; congruence. Qed.
  Lemma d_const : decides Hm (p_const d m) (ok_const d m) False.
  Proof.
    intros s. unfold p_const, ok_const. destruct (draft_ge6 d) eqn:Eg.
    - apply since6_ge6 in Eg. destruct (assoc "const" m) as [v|] eqn:Ev; [|cbn; split; auto; intros _ _ x X; congruence].
      destruct (marshalWithoutNumber v) as [t|] eqn:Et.
      + cbn. split; auto. intros _ _ x X. rewrite Ev in X. injection X as <-. apply mwn_iff; eauto using member_doc.
      + intros _ X. specialize (X Eg _ Ev). apply mwn_iff in X; eauto using member_doc. destruct X. congruence.
    - cbn. split; auto. intros _ H. apply since6_ge6 in H. congruence.
  Qed.
  Lemma add_enum_run l (Hl : Forall doc_ok l) : forall t before s, map marshalWithoutNumber before = map Some t -> Forall doc_ok before ->
    match add_enum t l s with
    | COk _ s' => s' = s /\ Forall in_float_range l /\ ForallOrdPairs (fun a b => ~ same a b) l /\ forall x y, In x before -> In y l -> ~ same x y
    | CErr _ _ => ~ (Forall in_float_range l /\ ForallOrdPairs (fun a b => ~ same a b) l /\ forall x y, In x before -> In y l -> ~ same x y)
    | _ => False
    end.
  Proof.
    induction Hl as [|x l Hx Hl IH]; intros t before s Eb Hb.
    - cbn. repeat match goal with |- _ /\ _ => split end; auto; constructor.
    - cbn [add_enum]. destruct (marshalWithoutNumber x) as [k|] eqn:Ex.
      2: { cbn. intros [F _]. inversion F as [|? ? Fx]; subst. apply mwn_iff in Fx; auto. destruct Fx. congruence. }
      assert (Rx : in_float_range x) by (apply mwn_iff; eauto).
      assert (IN : In k t <-> exists y, In y before /\ same y x).
      { split.
        - intros H. apply (in_map Some) in H. rewrite <- Eb in H. apply in_map_iff in H. destruct H as (y & Ey & Hy). exists y. split; auto.
          rewrite Forall_forall in Hb. pose proof (Hb _ Hy) as Dy. apply mwn_equal; [apply Dy|apply Hx|apply mwn_iff; eauto|auto|congruence].
        - intros (y & Hy & HS). rewrite Forall_forall in Hb. pose proof (Hb _ Hy) as Dy.
          assert (H : In (marshalWithoutNumber y) (map marshalWithoutNumber before)) by (apply in_map; auto). rewrite Eb in H.
          apply in_map_iff in H. destruct H as (k' & Ek' & H). symmetry in Ek'.
          assert (Ry : in_float_range y) by (apply mwn_iff; eauto). apply (mwn_equal y x) in HS; auto; [|apply Dy|apply Hx]. congruence. }
      destruct (isStringInSlice t k) eqn:Et.
      + cbn. intros (_ & _ & H). apply in_slice in Et. apply IN in Et. destruct Et as (y & Hy & HS). apply (H y x Hy); [left; auto|auto].
      + assert (NI : ~ In k t) by (intros H; apply in_slice in H; congruence).
        specialize (IH (t ++ [k]) (before ++ [x]) s). rewrite !map_app, Eb in IH. cbn [map] in IH. rewrite Ex in IH. specialize (IH eq_refl (proj2 (Forall_app _ _ _) (conj Hb (Forall_cons _ Hx (Forall_nil _))))).
        destruct (add_enum (t ++ [k]) l s) as [r s'|er s'| |]; auto.
        * destruct IH as (-> & F & P & C). split; auto. split; [constructor; auto|]. split.
          -- constructor; auto. apply Forall_forall. intros y Hy. apply C; auto. apply in_app_iff. right. left. auto.
          -- intros y z Hy [<-|Hz]; [intros HS; apply NI, IN; eauto|]. apply C; auto. apply in_app_iff. auto.
        * intros (F & P & C). apply IH. inversion F; subst. inversion P as [|? ? P1 P2]; subst. rewrite Forall_forall in P1. split; auto. split; auto.
          intros y z Hy Hz. apply in_app_iff in Hy. destruct Hy as [Hy|[<-|[]]]; [apply C; [auto|right; auto]|auto].
  Qed.
  Lemma d_enum : decides Hm (p_enum ce m) (ok_enum same m) False.
  Proof.
    intros s. unfold p_enum. destruct (assoc "enum" m) as [v|] eqn:Ev; [|none Ev]. unfold cbind. kind_test Ev.
    destruct (existsb (kind_eqb k) [KSlice]) eqn:Eb.
    - destruct (kind_slice v k Ek Eb) as [l ->]. pose proof (add_enum_run l (arr_doc _ _ Ev) [] [] s eq_refl (Forall_nil _)) as H. destruct (add_enum [] l s) as [r s'|er s'| |]; try tauto.
      + destruct H as (-> & F & P & _). split; auto. given Ev. exists l. auto.
      + refuse Ev. destruct X as (l' & [= <-] & F & P). apply H. split; auto; split; auto; intros x y [].
    - refuse Ev. destruct X as (ts & -> & _). cbn in Ek. injection Ek as <-. discriminate.
  Qed.
End Plain.
