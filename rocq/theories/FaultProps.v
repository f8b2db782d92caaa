(** Every error of the compiler tells a mistake of a schema it has met. *)
From Coq Require Import Lia QArith.
From Verif Require Export CompileTotal ModelError SpecFault.
Open Scope string_scope.
Open Scope list_scope.
Open Scope nat_scope.

(** ** Integers *)
Lemma integer_at_run lim x n : doc_ok x -> all_numbers (moderate lim) x -> integer_at x n -> mustBeInteger lim x = Some n.
Proof.
  intros D M (s & -> & B & P). cbn [mustBeInteger]. destruct D as [D _]. inversion D as [| |? Hj| | | |]; subst. inversion M as [| | |? Hm| | |]; subst.
  assert (E : parse_int64 s = Some n).
  { destruct P as [[P|[-> ->]]|(t & -> & P)]; [|reflexivity|].
    - apply plain_parse_int64; [left; auto|]. destruct (int_of_digits s n P) as (H1 & H2 & _). pose proof (digits_val_nonneg s H1 0%Z). lia.
    - destruct (int_of_digits t _ P) as (H1 & H2 & H3). unfold parse_int64. cbn [append take_sign].
      destruct t as [|c t]; [congruence|]. rewrite take_digits_all by auto. rewrite H2.
      destruct (Z.leb_spec (- 2 ^ 63) (- - n)); [|lia]. destruct (Z.ltb_spec (- - n) (2 ^ 63)); [|lia]. cbn [andb]. f_equal. lia. }
  rewrite E. pose proof (parse_int64_value s n Hj E) as Hd. rewrite (proj2 (checkJSONInteger_iff lim s _ Hd)); auto. split; auto. exists n. reflexivity.
Qed.
Lemma integer_at_made lim x z : doc_ok x -> mustBeInteger lim x = Some z -> (z < 0)%Z -> integer_at x z.
Proof.
  intros D E Hz. destruct x as [| |s| | | | |]; try discriminate. cbn [mustBeInteger] in E. destruct (checkJSONInteger lim s); [|discriminate].
  destruct D as [D _]. inversion D as [| |? Hj| | | |]; subst. exists s. split; auto.
  destruct (json_number_parts s Hj) as (g & i & f & e & Hg & Hi & Hf & He & ->).
  destruct (int_part_int_of i Hi) as [I1 I2].
  assert (Hr : starts_digit (append f e) = false).
  { apply frac_part_head; auto. destruct He as [-> |(c & g' & d & -> & [-> | ->] & _)]; reflexivity. }
  assert (Et : take_sign (append g (append i (append f e))) = (negb (String.eqb g ""), append i (append f e))).
  { destruct Hg as [-> | ->]; [|reflexivity]. cbn [append String.eqb negb].
    destruct i as [|c i]; [destruct Hi as [Hi|(_ & Hi & _)]; [discriminate|congruence]|]. apply digits_cons in I2. destruct I2 as [I2 _].
    cbn [append]. apply take_sign_digit. auto. }
  unfold parse_int64 in E. rewrite Et in E. rewrite (take_digits_stops i (append f e) I2 Hr) in E.
  destruct i as [|c i]; [discriminate|]. destruct (append f e) as [|c' r] eqn:Er; [|discriminate].
  apply append_none in Er. destruct Er as [-> ->]. rewrite Pointer.append_empty.
  destruct ((_ && _)%bool) eqn:Eb; [|discriminate]. injection E as <-. apply andb_prop in Eb. destruct Eb as [Eb Eb']. apply Z.leb_le in Eb. apply Z.ltb_lt in Eb'. split; [split; auto|].
  pose proof (digits_val_nonneg (String c i) I2 0%Z ltac:(lia)) as N. change (digits_val (digit_val c) i) with (digits_val 0 (String c i)) in *.
  destruct Hg as [-> | ->]; cbn [String.eqb negb append] in *; [lia|]. right. exists (String c i). split; auto. rewrite Z.opp_involutive. exact I1.
Qed.

(** ** Texts *)
Lemma append_append a b c : append (append a b) c = append a (append b c).
Proof. induction a; cbn; congruence. Qed.
Lemma type_text t : Error (NotAValidType t) = Some (append "has a primitive type that is NOT VALID -- given: /" (append t
                 "/ Expected valid values are:[array boolean integer number null object string]")).
Proof. change (append t "/ Expected valid values are:[array boolean integer number null object string]") with (append t (append "/" " Expected valid values are:[array boolean integer number null object string]")).
  rewrite <- (append_append t "/"). reflexivity. Qed.

(** ** Repetitions *)
Lemma before_cons {A} (y : A) l a b : before l a b -> before (y :: l) a b.
Proof. intros (x1 & x2 & x3 & ->). exists (y :: x1), x2, x3. reflexivity. Qed.
Lemma before_head {A} (y : A) l b : In b l -> before (y :: l) y b.
Proof. intros H. apply in_split in H. destruct H as (x2 & x3 & ->). exists [], x2, x3. reflexivity. Qed.

Section Blame.
  Variable ce : cenv.
  Notation lim := (e_ratlim (c_go ce)).
  Notation re := (fun p => e_re_ok (c_go ce) p = true).
  Notation url := (fun s => u_parse ce s <> None).
  Notation mod_ := (all_numbers (moderate lim)).
  Notation blamed := (blamed re url same).
  Notation wrong := (SpecFault.wrong re same).
  Notation mistake := (mistake re same).
  Hypothesis Hinh : forall b s r, u_parse ce s = Some r -> u_inherits ce b r <> None.

  Variable W : draft -> value -> Prop.
  Variable PI : pool -> Prop.
  Variable B : cerr -> Prop.
  Hypothesis W_doc : forall d v, W d v -> doc_ok v /\ mod_ v.
  Hypothesis W_sub : forall d m x, W d (VMap m) -> subschema d m x -> W d x.
  Hypothesis HB : forall d v e, W d v -> blamed d v e -> B e.

  Definition bl {A} (c : comp A) (Q : A -> Prop) : Prop :=
    forall s, PI (st_pool s) ->
    match c s with
    | COk a s' => PI (st_pool s') /\ Q a
    | CErr e _ => B e
    | _ => True
    end.
  Hypothesis W_ref : forall d m k r, W d (VMap m) -> assoc "$ref" m = Some (VStr k) -> u_parse ce k = Some r ->
    forall o, fair o -> bl (GetDocument ce o r) (fun e => W (match sp_draft e with Some x => x | None => d end) (sp_doc e)).

  Lemma bl_bind {A C} (c : comp A) (f : A -> comp C) Q Q' : bl c Q -> (forall a, Q a -> bl (f a) Q') -> bl (cbind c f) Q'.
  Proof. intros H1 H2 s Hp. specialize (H1 s Hp). unfold cbind. destruct (c s) as [a s'|e s'| |]; auto. destruct H1 as (P1 & Qa). apply (H2 a Qa s' P1). Qed.
  Lemma bl_ret {A} (a : A) (Q : A -> Prop) : Q a -> bl (cret a) Q.
  Proof. intros H s Hp. cbn. auto. Qed.
  Lemma bl_fail {A} e (Q : A -> Prop) : B e -> bl (cfail e) Q.
  Proof. intros H s Hp. cbn. auto. Qed.
  Lemma bl_panic {A} (Q : A -> Prop) : bl cpanic Q.
  Proof. intros s Hp. exact I. Qed.
  Lemma bl_weak {A} (c : comp A) (Q Q' : A -> Prop) : bl c Q -> (forall a, Q a -> Q' a) -> bl c Q'.
  Proof. intros H1 H2 s Hp. specialize (H1 s Hp). destruct (c s) as [a s'|e s'| |]; auto. destruct H1; auto. Qed.
  Lemma bl_heap {A} (f : cstate -> A) g (Q : A -> Prop) : (forall s, Q (f s)) -> (forall s, st_pool (g s) = st_pool s) -> bl (fun s => COk (f s) (g s)) Q.
  Proof. intros H1 H2 s Hp. rewrite (H2 s). auto. Qed.
  Lemma bl_alloc prop d doc : bl (alloc prop d doc) (fun _ => True).
  Proof. apply (bl_heap (fun s => length (st_heap s)) (fun s => CState (st_heap s ++ [empty_node prop]) (st_src s ++ [(d, doc)]) (st_pool s) (st_refs s))); auto. Qed.
  Lemma bl_store id x : bl (store id x) (fun _ => True).
  Proof. apply (bl_heap (fun s => tt) (fun s => CState (set_nth id x (st_heap s)) (st_src s) (st_pool s) (st_refs s))); auto. Qed.
  Lemma bl_cmap {A C} (f : nat -> A -> comp C) l : (forall i x, In x l -> bl (f i x) (fun _ => True)) -> forall i, bl (cmap f i l) (fun _ => True).
  Proof.
    induction l as [|x l IH]; intros H i; cbn [cmap]; [apply bl_ret; auto|].
    eapply bl_bind; [apply H; left; auto|]. intros y _. eapply bl_bind; [apply IH; intros; apply H; right; auto|]. intros ys _. apply bl_ret. auto.
  Qed.
  Lemma bl_ck v ks (Hd : doc_ok v) : bl (ck ce v ks) (fun b => exists k, kind_of lim v = Ok k /\ b = existsb (kind_eqb k) ks).
  Proof. intros s Hp. destruct (ck_run ce v ks s Hd) as [(k & Ek & ->)|[-> Hn]]; eauto. Qed.

  Section Node.
    Variable rec : oracle -> pargs -> nat -> value -> comp unit.
    Hypothesis HR : forall o a id v, fair o -> W (pa_draft a) v -> bl (rec o a id v) (fun _ => True).
    Variable d : draft.
    Variable m : list (string * value).
    Hypothesis HW : W d (VMap m).

    Lemma node_doc k x : assoc k m = Some x -> doc_ok x.
    Proof. apply member_doc. apply (W_doc _ _ HW). Qed.
    Lemma node_mod k x : assoc k m = Some x -> mod_ x.
    Proof. intros E. eapply all_member; eauto. apply (W_doc _ _ HW). Qed.
    Lemma here e t : Error e = Some t -> wrong d m t -> B e.
    Proof. intros E H. apply (HB _ _ _ HW). left. exists t. split; auto. constructor. auto. Qed.
    Lemma bl_child o prop myid v : fair o -> W d v -> bl (child rec o prop d myid v) (fun _ => True).
    Proof.
      intros F Hv. unfold child. eapply bl_bind; [apply bl_alloc|]. intros id _. eapply bl_bind.
      - apply (HR o (PArgs prop d false myid myid) id v F Hv).
      - intros [] _. apply bl_ret. exact I.
    Qed.

    Ltac given k Ev v := destruct (assoc k m) as [v|] eqn:Ev; [|apply bl_ret; auto; try exact I].
    Ltac test Dv := eapply bl_bind; [apply bl_ck; exact Dv|let k := fresh "k" in let Ek := fresh "Ek" in let b := fresh "b" in intros b (k & Ek & ->);
       match goal with |- context [existsb (kind_eqb k) ?l] => let Eb := fresh "Eb" in destruct (existsb (kind_eqb k) l) eqn:Eb end]; cbn [negb].
    Ltac isnt := let X := fresh in intros X; unfold is_string, is_array, is_object, is_boolean in X; destruct X as [? ->];
       repeat match goal with Ek : kind_of _ _ = Ok _ |- _ => cbn in Ek; injection Ek as <- end; discriminate.
    Ltac say := match goal with |- B ?e => eapply (here e); [reflexivity|] end.

    Lemma b_string_only key : In key ["title"; "description"; "$ref"] -> bl (p_string_only ce key m) (fun _ => True).
    Proof.
      intros Hk. unfold p_string_only. given key Ev v. pose proof (node_doc _ _ Ev) as Dv. test Dv; [apply bl_ret; exact I|]. apply bl_fail.
      assert (N : ~ is_string v) by isnt. apply (here (InvalidType TYPE_STRING key) (invalid "string" key)).
      - destruct Hk as [<-|[<-|[<-|[]]]]; reflexivity.
      - eapply w_string; eauto. right. exact Hk.
    Qed.
    Lemma b_id a : pa_draft a = d -> bl (p_id ce a m) (fun _ => True).
    Proof.
      intros Ea. unfold p_id. rewrite Ea.
      assert (EK : (match d with Draft4 => "id" | Hybrid => if existsMapKey m "id" then "id" else "$id" | _ => "$id" end) = id_keyword d m).
      { unfold id_keyword, existsMapKey. destruct d; auto. destruct (assoc "id" m); auto. }
      rewrite EK. clear EK. set (key := id_keyword d m). assert (KK : key = "id" \/ key = "$id") by (unfold key, id_keyword; destruct d; auto; destruct (assoc "id" m); auto).
      cbv zeta. destruct (assoc key m) as [v|] eqn:Ev; [|apply bl_ret; exact I]. pose proof (node_doc _ _ Ev) as Dv. test Dv.
      - destruct (kind_string ce v k Ek Eb) as [t ->]. destruct (u_parse ce t) as [r|] eqn:Er.
        + destruct (pa_root a); [apply bl_ret; exact I|]. destruct (u_inherits ce (pa_parent_id a) r) as [x|] eqn:Ei; [apply bl_ret; exact I|destruct (Hinh _ _ _ Er Ei)].
        + apply bl_fail. apply (HB _ _ _ HW). right. left. split; auto. exists m, key, t. split; auto. split; [left; auto|]. split; [exact Ev|]. intros X. apply X. exact Er.
      - apply bl_fail. assert (N : ~ is_string v) by isnt. apply (here (InvalidType TYPE_STRING key) (invalid "string" key)).
        + destruct KK as [-> | ->]; reflexivity.
        + eapply w_string; eauto. left. auto.
    Qed.
    Lemma b_definitions o myid : fair o -> bl (p_definitions ce rec o d myid m) (fun _ => True).
    Proof.
      intros F. unfold p_definitions. given "definitions" Ev v. pose proof (node_doc _ _ Ev) as Dv. test Dv.
      - destruct v as [|b|t|f|t|l|ds|o']; try apply bl_panic. eapply bl_bind; [|intros; apply bl_ret; exact I].
        apply bl_cmap. intros i [e x] Hin. apply in_pick in Hin; [|apply shift_fair; auto]. cbn [snd].
        assert (Wx : W d x) by (eapply W_sub; [exact HW|eapply sub_definition; eauto]). destruct (W_doc _ _ Wx) as [Dx _]. test Dx.
        + apply bl_child; auto. apply shift_fair; auto.
        + apply bl_fail. clear Ek Eb. say. eapply w_definition; eauto; isnt.
      - apply bl_fail. say. eapply w_definitions; eauto. isnt.
    Qed.
    Lemma b_types l : assoc "type" m = Some (VArr l) -> forall rest done t, l = done ++ rest -> (forall x, In x t -> In (VStr x) done) ->
      bl (add_types t rest) (fun _ => True).
    Proof.
      intros Ev. induction rest as [|x rest IH]; intros done t E Ht; cbn [add_types]; [apply bl_ret; exact I|].
      assert (Hin : In x l) by (subst; apply in_app_iff; right; left; auto).
      destruct x as [|b|lit|f|e|l0|o|o]; try (apply bl_fail; say; eapply w_type_item; [exact Ev|exact Hin|intros [? X]; discriminate]).
      - apply bl_panic.
      - eapply bl_bind with (Q := fun t' => t' = t ++ [e]).
        + unfold types_add. destruct (isStringInSlice JSON_TYPES e) eqn:E1; cbn [negb].
          * unfold Contains. destruct (isStringInSlice t e) eqn:E2; [|apply bl_ret; auto]. apply in_slice in E2. apply bl_fail. say.
            eapply w_type_twice; [exact Ev|]. specialize (Ht _ E2). subst l. apply in_split in Ht. destruct Ht as (a & b & ->).
            exists a, b, rest. rewrite <- app_assoc. reflexivity.
          * apply bl_fail. eapply here; [apply type_text|]. eapply (w_type_name _ _ d m (VArr l) e); [exact Ev|right; eauto|].
            intros X. assert (X' : In e JSON_TYPES) by exact X. apply in_slice in X'. congruence.
        + intros t' ->. apply (IH (done ++ [VStr e])); [rewrite <- app_assoc; auto|].
          intros x Hx. apply in_app_iff in Hx. apply in_app_iff. destruct Hx as [Hx|[<-|[]]]; [left; auto|right; left; auto].
    Qed.
    Lemma b_type : bl (p_type ce m) (fun _ => True).
    Proof.
      unfold p_type. given "type" Ev v. pose proof (node_doc _ _ Ev) as Dv. test Dv.
      - destruct (kind_string ce v k Ek Eb) as [e ->]. unfold types_add. destruct (isStringInSlice JSON_TYPES e) eqn:E1; cbn [negb].
        + cbn. apply bl_ret. exact I.
        + apply bl_fail. eapply here; [apply type_text|]. eapply (w_type_name _ _ d m (VStr e) e); [exact Ev|left; auto|].
          intros X. assert (X' : In e JSON_TYPES) by exact X. apply in_slice in X'. congruence.
      - assert (N : ~ is_string v) by isnt. assert (C : bl (let! b2 := ck ce v [KSlice] in match b2, v with true, VArr l => add_types [] l | _, _ => cfail (InvalidType "string/array of strings" "type") end) (fun _ => True)).
        { test Dv.
          - destruct (kind_slice ce v _ Ek0 Eb0) as [l ->]. apply (b_types l Ev l [] []); auto.
          - apply bl_fail. say. eapply w_type; eauto. isnt. }
        destruct v; exact C.
    Qed.
    Lemma b_properties o myid : fair o -> bl (p_properties ce rec o d myid m) (fun _ => True).
    Proof.
      intros F. unfold p_properties. given "properties" Ev v. pose proof (node_doc _ _ Ev) as Dv. test Dv.
      - destruct v as [|b|t|f|t|l|ds|o']; try apply bl_panic.
        apply bl_cmap. intros i [e x] Hin. apply in_pick in Hin; [|apply shift_fair; auto]. cbn [snd fst].
        apply bl_child; [apply shift_fair; auto|]. eapply W_sub; [exact HW|eapply sub_member; eauto; left; auto].
      - apply bl_fail. say. eapply w_properties; eauto. isnt.
    Qed.
    Lemma b_additional o key myid : In key ["additionalProperties"; "additionalItems"] -> fair o -> bl (p_additional ce rec o key d myid m) (fun _ => True).
    Proof.
      intros Hk F. unfold p_additional. given key Ev v. pose proof (node_doc _ _ Ev) as Dv. test Dv.
      - destruct v; try apply bl_panic. apply bl_ret. exact I.
      - assert (N : ~ is_boolean v) by isnt. clear Ek Eb. test Dv.
        + eapply bl_bind; [apply bl_child; auto|intros; apply bl_ret; exact I]. eapply W_sub; [exact HW|]. eapply sub_additional; eauto.
        + apply bl_fail. apply (here (InvalidType "boolean/valid schema" key) (invalid "boolean/valid schema" key)); [destruct Hk as [<-|[<-|[]]]; reflexivity|]. eapply w_additional; eauto. isnt.
    Qed.
    Lemma b_patternProperties o myid : fair o -> bl (p_patternProperties ce rec o d myid m) (fun _ => True).
    Proof.
      intros F. unfold p_patternProperties. given "patternProperties" Ev v. pose proof (node_doc _ _ Ev) as Dv. test Dv.
      - destruct v as [|b|t|f|t|l|ds|o']; try apply bl_panic.
        apply bl_cmap. intros i [e x] Hin. apply in_pick in Hin; [|apply shift_fair; auto]. cbn [snd fst].
        destruct (e_re_ok (c_go ce) e) eqn:Ere.
        + eapply bl_bind; [|intros; apply bl_ret; exact I]. apply bl_child; [apply shift_fair; auto|]. eapply W_sub; [exact HW|eapply sub_member; eauto; right; left; auto].
        + apply bl_fail. eapply here; [reflexivity|]. eapply (w_patternProperty _ _ d m ds e x); eauto. congruence.
      - apply bl_fail. say. eapply w_patternProperties; eauto. isnt.
    Qed.
    Lemma b_schema o key err t myid : (forall x, assoc key m = Some x -> subschema d m x) -> Error err = Some t ->
      (forall x, assoc key m = Some x -> ~ is_object x -> ~ is_boolean x -> wrong d m t) -> fair o -> bl (p_schema ce rec o key d myid err m) (fun _ => True).
    Proof.
      intros Hsub He Hw F. unfold p_schema. given key Ev v. pose proof (node_doc _ _ Ev) as Dv. test Dv.
      - eapply bl_bind; [|intros; apply bl_ret; exact I]. apply bl_child; auto. eapply W_sub; [exact HW|apply Hsub; auto].
      - apply bl_fail. eapply here; [exact He|]. eapply Hw; eauto; isnt.
    Qed.
    Lemma b_propertyNames o myid : fair o -> bl (p_propertyNames ce rec o d myid m) (fun _ => True).
    Proof.
      intros F. unfold p_propertyNames. destruct (draft_ge6 d) eqn:Eg; [|apply bl_ret; exact I]. apply since6_ge6 in Eg.
      eapply b_schema; [|reflexivity| |auto].
      - intros x Ex. eapply sub_since6; eauto. right. left. auto.
      - intros x Ex N1 N2. eapply w_propertyNames; eauto.
    Qed.
    Lemma b_cond o key myid : In key ["if"; "then"; "else"] -> fair o -> bl (p_cond ce rec o key d myid m) (fun _ => True).
    Proof.
      intros Hk F. unfold p_cond. destruct (draft_ge7 d) eqn:Eg; [|apply bl_ret; exact I].
      assert (S7 : since7 d) by (unfold since7; destruct d; auto; discriminate).
      apply (b_schema o key (MustBeOfAn key TYPE_OBJECT) (append key " must be of an object") myid); [| | |exact F].
      - intros x Ex. eapply sub_since7; eauto.
      - clear - Hk. destruct Hk as [<-|[<-|[<-|[]]]]; reflexivity.
      - intros x Ex N1 N2. eapply w_cond; eauto.
    Qed.
    Lemma b_contains o myid : fair o -> bl (p_contains rec o d myid m) (fun _ => True).
    Proof.
      intros F. unfold p_contains. destruct (draft_ge6 d) eqn:Eg; [|apply bl_ret; exact I]. apply since6_ge6 in Eg. given "contains" Ev v.
      eapply bl_bind; [|intros; apply bl_ret; exact I]. apply bl_child; auto. eapply W_sub; [exact HW|eapply sub_since6; eauto]. left. auto.
    Qed.
    Lemma b_dep_strings l : Forall doc_ok l -> ((exists x, In x l /\ ~ is_string x) -> B (MustBeOfType "dependency" "schema or array of strings")) -> bl (dep_strings ce l) (fun _ => True).
    Proof.
      intros D. induction D as [|x l Dx Dl IH]; intros H; cbn [dep_strings]; [apply bl_ret; exact I|]. test Dx.
      - destruct x; try apply bl_panic. eapply bl_bind; [apply IH|intros; apply bl_ret; exact I]. intros (y & Hy & N). apply H. exists y. split; [right|]; auto.
      - assert (N : ~ is_string x) by isnt. apply bl_fail. apply H. exists x. split; [left|]; auto.
    Qed.
    Lemma b_dependency ds o myid e : fair o -> assoc "dependencies" m = Some (VMap ds) -> In e ds -> bl (p_dependency ce rec o d myid e) (fun _ => True).
    Proof.
      intros F Ed Hin. destruct e as [k x]. unfold p_dependency. cbn [fst snd].
      assert (Wx : ~ is_array x -> W d x) by (intros N; eapply W_sub; [exact HW|eapply sub_dependency; eauto]).
      assert (Hdx : doc_ok x). { pose proof (node_doc _ _ Ed) as D. apply doc_ok_map in D. destruct D as [_ D]. rewrite Forall_forall in D. apply (D _ Hin). }
      assert (NO : ~ is_object x -> ~ is_boolean x -> (forall l, x = VArr l -> exists y, In y l /\ ~ is_string y) -> B (MustBeOfType "dependency" "schema or array of strings")).
      { intros N1 N2 N3. say. eapply w_dependency; eauto. }
      destruct x as [|b|t|f|t|l|o1|o1]; try (apply bl_fail, NO; [intros [? X]; discriminate|intros [? X]; discriminate|discriminate]).
      - eapply bl_bind; [|intros; apply bl_ret; exact I]. apply bl_child; auto. apply Wx. intros [? X]; discriminate.
      - eapply bl_bind; [|intros; apply bl_ret; exact I]. apply b_dep_strings; [apply doc_ok_arr; auto|]. intros H. apply NO; [intros [? X]; discriminate|intros [? X]; discriminate|]. intros l' [= <-]. exact H.
      - eapply bl_bind; [|intros; apply bl_ret; exact I]. apply bl_child; auto. apply Wx. intros [? X]; discriminate.
      - destruct Hdx as [_ X]. discriminate.
    Qed.
    Lemma b_dependencies o myid : fair o -> bl (p_dependencies ce rec o d myid m) (fun _ => True).
    Proof.
      intros F. unfold p_dependencies. given "dependencies" Ev v. pose proof (node_doc _ _ Ev) as Dv. test Dv.
      - destruct v as [|b|t|f|t|l|ds|o']; try apply bl_panic. eapply bl_bind; [|intros; apply bl_ret; exact I].
        apply bl_cmap. intros i e Hin. apply in_pick in Hin; [|apply shift_fair; auto]. apply (b_dependency ds); auto. apply shift_fair; auto.
      - apply bl_fail. say. eapply w_dependencies; eauto. isnt.
    Qed.
    Lemma b_schemas o key ek myid : In (key, ek) [("oneOf", "oneOf"); ("anyOf", "anyOf"); ("allOf", "anyOf")] -> fair o -> bl (p_schemas ce rec o key ek d myid m) (fun _ => True).
    Proof.
      intros Hk F. unfold p_schemas. given key Ev v. pose proof (node_doc _ _ Ev) as Dv. test Dv.
      - destruct (kind_slice ce v k Ek Eb) as [l ->]. apply bl_cmap. intros i x Hin. apply bl_child; [apply shift_fair; auto|]. eapply W_sub; [exact HW|eapply sub_element; eauto].
        destruct Hk as [[= <- <-]|[[= <- <-]|[[= <- <-]|[]]]]; cbn; auto.
      - apply bl_fail. assert (N : ~ is_array v) by isnt. apply (here (MustBeOfAn ek TYPE_ARRAY) (append ek " must be of an array")).
        + destruct Hk as [[= <- <-]|[[= <- <-]|[[= <- <-]|[]]]]; reflexivity.
        + destruct Hk as [[= <- <-]|[[= <- <-]|[[= <- <-]|[]]]]; [eapply (w_several _ _ d m "oneOf"); eauto; cbn; auto|eapply (w_several _ _ d m "anyOf"); eauto; cbn; auto|eapply w_allOf; eauto].
    Qed.
    Lemma b_items o myid : fair o -> bl (p_items ce rec o d myid m) (fun _ => True).
    Proof.
      intros F. unfold p_items. given "items" Ev v. pose proof (node_doc _ _ Ev) as Dv. test Dv.
      - destruct (kind_slice ce v k Ek Eb) as [l ->]. eapply bl_bind; [|intros; apply bl_ret; exact I].
        apply bl_cmap. intros i x Hin. assert (Wx : W d x) by (eapply W_sub; [exact HW|eapply sub_element; eauto; left; auto]). destruct (W_doc _ _ Wx) as [Dx _]. clear Ek Eb. test Dx.
        + apply bl_child; auto. apply shift_fair; auto.
        + apply bl_fail. say. eapply w_items; [exact Ev|intros [? X]; discriminate|intros [? X]; discriminate|]. intros l' [= <-]. exists x. split; auto. split; isnt.
      - assert (N : ~ is_array v) by isnt. clear Ek Eb. test Dv.
        + eapply bl_bind; [|intros; apply bl_ret; exact I]. apply bl_child; auto. eapply W_sub; [exact HW|eapply sub_items; eauto].
        + apply bl_fail. say. eapply w_items; [exact Ev|isnt|isnt|]. intros l ->. destruct N. eexists; eauto.
    Qed.

    Lemma not_number key x : assoc key m = Some x -> mustBeNumber lim x = None -> ~ is_number x.
    Proof. intros E Eq N. destruct (W_doc _ _ HW) as [D M]. apply (CompileShape.number_iff ce m D key x E M) in N. destruct N. congruence. Qed.
    Lemma b_multipleOf : bl (p_multipleOf ce m) (fun _ => True).
    Proof.
      unfold p_multipleOf, ModelCompile.lim. given "multipleOf" Ev v. destruct (mustBeNumber lim v) as [q|] eqn:Eq.
      - destruct (Qle_bool q 0) eqn:Hq; [|apply bl_ret; exact I]. apply bl_fail. say. eapply (w_multipleOf_sign _ _ d m v q); [exact Ev| |apply Qle_bool_iff; auto].
        destruct v as [|b|t|f|t|l|o|o]; try discriminate. exists t. split; auto. eapply rat_of_denotes; [|exact Eq]. destruct (node_doc _ _ Ev) as [D _]. inversion D; auto.
      - apply bl_fail. say. eapply w_multipleOf; eauto. eapply not_number; eauto.
    Qed.
    Lemma b_bound key xkey : In (xkey, key) [("exclusiveMinimum", "minimum"); ("exclusiveMaximum", "maximum")] -> bl (p_bound ce key xkey d m) (fun _ => True).
    Proof.
      intros Hk. assert (K1 : In key ["minimum"; "maximum"]) by (destruct Hk as [[= <- <-]|[[= <- <-]|[]]]; cbn; auto).
      assert (K2 : In xkey ["exclusiveMinimum"; "exclusiveMaximum"]) by (destruct Hk as [[= <- <-]|[[= <- <-]|[]]]; cbn; auto).
      unfold p_bound, ModelCompile.lim. eapply bl_bind with (Q := fun i => i = None -> assoc key m = None).
      { destruct (assoc key m) as [v|] eqn:Ev; [|apply bl_ret; auto]. destruct (mustBeNumber lim v) as [q|] eqn:Eq; [apply bl_ret; discriminate|].
        apply bl_fail. apply (here (MustBeOfA key "number") (append key " must be of a number")); [destruct K1 as [<-|[<-|[]]]; reflexivity|]. eapply w_bound; eauto. eapply not_number; eauto. }
      intros incl Hi. given xkey Ev v. pose proof (node_doc _ _ Ev) as Dv. cbv zeta.
      assert (AS : d = Draft4 \/ d = Hybrid -> is_boolean v -> forall b : bool, bl (match incl with None => cfail (CannotBeUsedWithout xkey key) | Some q => cret (if b then (None, Some q) else (Some q, None)) end) (fun _ => True)).
      { intros Hd Hb b. destruct incl as [q|]; [apply bl_ret; exact I|]. apply bl_fail.
        apply (here (CannotBeUsedWithout xkey key) (append xkey (append " cannot be used without " key))); [destruct Hk as [[= <- <-]|[[= <- <-]|[]]]; reflexivity|]. eapply w_exclusive_alone; eauto. }
      assert (SAY : forall t, wrong d m (invalid t xkey) -> In t ["boolean"; "boolean/number"; "number"] -> bl (A := option Q * option Q) (cfail (InvalidType t xkey)) (fun _ => True)).
      { intros t Hw Ht. apply bl_fail. apply (here (InvalidType t xkey) (invalid t xkey)); auto. destruct K2 as [<-|[<-|[]]]; destruct Ht as [<-|[<-|[<-|[]]]]; reflexivity. }
      assert (NN : is_number v -> exists t, v = VNum t) by (intros (q & t & -> & _); eauto).
      destruct d eqn:Ed.
      - test Dv.
        + destruct (kind_bool ce v k Ek Eb) as [b ->]. apply AS; auto. eexists; eauto.
        + assert (C : bl (A := option Q * option Q) (cfail (InvalidType TYPE_BOOLEAN xkey)) (fun _ => True)); [|destruct v; exact C].
          apply (SAY "boolean"); [|cbn; auto]. eapply w_exclusive_boolean; eauto. isnt.
      - destruct v as [|b|t|f|t|l|o|o]; try (apply (SAY "number"); [eapply w_exclusive_number; eauto; intros X; destruct (NN X); discriminate|cbn; auto]). apply bl_ret. exact I.
      - destruct v as [|b|t|f|t|l|o|o]; try (apply (SAY "number"); [eapply w_exclusive_number; eauto; intros X; destruct (NN X); discriminate|cbn; auto]). apply bl_ret. exact I.
      - test Dv.
        + destruct (kind_bool ce v k Ek Eb) as [b ->]. apply AS; auto. eexists; eauto.
        + assert (C : ~ is_boolean v) by isnt.
          destruct v as [|b|t|f|t|l|o|o]; try (apply (SAY "boolean/number"); [eapply w_exclusive_either; eauto; intros X; destruct (NN X); discriminate|cbn; auto]). apply bl_ret. exact I.
    Qed.
    Lemma b_natural key : In key ["minLength"; "maxLength"; "minProperties"; "maxProperties"; "minItems"; "maxItems"] ->
      bl (p_natural ce key m) (fun r => natural_value m key r).
    Proof.
      intros Hk. unfold p_natural, natural_value, ModelCompile.lim. destruct (assoc key m) as [v|] eqn:Ev; [|apply bl_ret; auto].
      pose proof (node_doc _ _ Ev) as Dv. pose proof (node_mod _ _ Ev) as Mv. destruct (mustBeInteger lim v) as [z|] eqn:Ez.
      - destruct (Z.ltb_spec z 0) as [Hz|Hz].
        + apply bl_fail. apply (here (MustBeGTEZero key) (append key " must be greater than or equal to 0")).
          * repeat destruct Hk as [<-|Hk]; try reflexivity; destruct Hk.
          * eapply w_negative; eauto. eapply integer_at_made; eauto.
        + apply bl_ret. exists z. split; auto. apply (natural_iff lim v z Dv Mv). eauto.
      - apply bl_fail. apply (here (MustBeOfAn key TYPE_INTEGER) (append key " must be of an integer")).
        + repeat destruct Hk as [<-|Hk]; try reflexivity; destruct Hk.
        + eapply w_integer; eauto. intros n X. apply (integer_at_run lim v n Dv Mv) in X. congruence.
    Qed.
    Lemma b_le lo hi a b e : In (lo, hi) [("minLength", "maxLength"); ("minProperties", "maxProperties")] -> natural_value m lo a -> natural_value m hi b ->
      Error e = Some (append lo (append " cannot be greater than " hi)) -> bl (p_le a b e) (fun _ => True).
    Proof.
      intros Hk Ha Hb He. unfold p_le. destruct a as [x|]; [|apply bl_ret; exact I]. destruct b as [y|]; [|apply bl_ret; exact I].
      destruct (Z.ltb_spec y x); [|apply bl_ret; exact I]. apply bl_fail. eapply here; [exact He|]. unfold natural_value in *.
      destruct (assoc lo m) as [v|] eqn:E1; [|discriminate]. destruct (assoc hi m) as [v'|] eqn:E2; [|discriminate].
      destruct Ha as (n & [= <-] & Hn). destruct Hb as (n' & [= <-] & Hn'). eapply w_order; eauto.
    Qed.
    Lemma b_pattern : bl (p_pattern ce m) (fun _ => True).
    Proof.
      unfold p_pattern. given "pattern" Ev v. pose proof (node_doc _ _ Ev) as Dv. test Dv.
      - destruct (kind_string ce v k Ek Eb) as [t ->]. destruct (e_re_ok (c_go ce) t) eqn:Er; [apply bl_ret; exact I|]. apply bl_fail. say. eapply w_regexp; eauto. congruence.
      - assert (C : bl (A := option string) (cfail (MustBeOfA "pattern" TYPE_STRING)) (fun _ => True)); [|destruct v; exact C].
        apply bl_fail. say. eapply w_pattern; eauto. isnt.
    Qed.
    Lemma b_format : bl (p_format m) (fun _ => True).
    Proof.
      unfold p_format. given "format" Ev v. destruct v; try (apply bl_fail; say; eapply w_format; [exact Ev|intros [? X]; discriminate]). apply bl_ret. exact I.
    Qed.
    Lemma b_uniqueItems : bl (p_uniqueItems ce m) (fun _ => True).
    Proof.
      unfold p_uniqueItems. given "uniqueItems" Ev v. pose proof (node_doc _ _ Ev) as Dv. test Dv.
      - destruct (kind_bool ce v k Ek Eb) as [t ->]. apply bl_ret. exact I.
      - assert (C : bl (A := bool) (cfail (MustBeOfA "uniqueItems" TYPE_BOOLEAN)) (fun _ => True)); [|destruct v; exact C].
        apply bl_fail. say. eapply w_uniqueItems; eauto. isnt.
    Qed.
    Lemma b_requireds l : assoc "required" m = Some (VArr l) -> forall rest done t, l = done ++ rest -> (forall x, In x t -> In (VStr x) done) ->
      bl (add_required ce t rest) (fun _ => True).
    Proof.
      intros Ev. pose proof (doc_ok_arr _ (node_doc _ _ Ev)) as DL. rewrite Forall_forall in DL.
      induction rest as [|x rest IH]; intros done t E Ht; cbn [add_required]; [apply bl_ret; exact I|].
      assert (Hin : In x l) by (subst; apply in_app_iff; right; left; auto). pose proof (DL _ Hin) as Dx. test Dx.
      - destruct x as [|b|lit|f|e|l0|o|o]; try apply bl_panic. destruct (isStringInSlice t e) eqn:E2.
        + apply in_slice in E2. apply bl_fail. say. specialize (Ht _ E2). eapply (w_required_twice _ _ d m l e); [exact Ev|]. subst l. apply in_split in Ht. destruct Ht as (a & b & ->).
          exists a, b, rest. rewrite <- app_assoc. reflexivity.
        + apply (IH (done ++ [VStr e])); [rewrite <- app_assoc; auto|].
          intros x Hx. apply in_app_iff in Hx. apply in_app_iff. destruct Hx as [Hx|[<-|[]]]; [left; auto|right; left; auto].
      - apply bl_fail. say. eapply w_required_item; eauto. isnt.
    Qed.
    Lemma b_required : bl (p_required ce m) (fun _ => True).
    Proof.
      unfold p_required. given "required" Ev v. pose proof (node_doc _ _ Ev) as Dv. test Dv.
      - destruct (kind_slice ce v k Ek Eb) as [l ->]. apply (b_requireds l Ev l [] []); auto.
      - assert (C : bl (A := list string) (cfail (MustBeOfAn "required" TYPE_ARRAY)) (fun _ => True)); [|destruct v; exact C].
        apply bl_fail. say. eapply w_required; eauto. isnt.
    Qed.
    Lemma b_const : bl (p_const d m) (fun _ => True).
    Proof.
      unfold p_const. destruct (draft_ge6 d) eqn:Eg; [|apply bl_ret; exact I]. apply since6_ge6 in Eg. given "const" Ev v. destruct (marshalWithoutNumber v) eqn:Et; [apply bl_ret; exact I|].
      apply bl_fail. apply (HB _ _ _ HW). right. right. split; auto. exists m. split; auto. left. exists v. split; auto. split; auto.
      intros X. apply mwn_iff in X; [|eapply node_doc; eauto]. destruct X. congruence.
    Qed.
    Lemma b_enums l : assoc "enum" m = Some (VArr l) -> forall rest done t, l = done ++ rest -> map marshalWithoutNumber done = map Some t ->
      bl (add_enum t rest) (fun _ => True).
    Proof.
      intros Ev. pose proof (doc_ok_arr _ (node_doc _ _ Ev)) as DL. rewrite Forall_forall in DL.
      induction rest as [|x rest IH]; intros done t E Ht; cbn [add_enum]; [apply bl_ret; exact I|].
      assert (Hin : In x l) by (subst; apply in_app_iff; right; left; auto). pose proof (DL _ Hin) as Dx. destruct (marshalWithoutNumber x) as [k|] eqn:Ex.
      - destruct (isStringInSlice t k) eqn:E2.
        + apply in_slice in E2. apply bl_fail. say. apply (in_map Some) in E2. rewrite <- Ht in E2. apply in_map_iff in E2. destruct E2 as (y & Ey & Hy).
          assert (Hyl : In y l) by (subst; apply in_app_iff; left; auto). pose proof (DL _ Hyl) as Dy.
          eapply (w_enum_twice _ _ d m l y x); [exact Ev| |].
          * subst l. apply in_split in Hy. destruct Hy as (a & b & ->). exists a, b, rest. rewrite <- app_assoc. reflexivity.
          * apply mwn_equal; [apply Dy|apply Dx|apply mwn_iff; eauto|apply mwn_iff; eauto|congruence].
        + apply (IH (done ++ [x])); [rewrite <- app_assoc; auto|]. rewrite !map_app, Ht. cbn [map]. rewrite Ex. reflexivity.
      - apply bl_fail. apply (HB _ _ _ HW). right. right. split; auto. exists m. split; auto. right. exists l, x. split; auto. split; auto.
        intros X. apply mwn_iff in X; auto. destruct X. congruence.
    Qed.
    Lemma b_enum : bl (p_enum ce m) (fun _ => True).
    Proof.
      unfold p_enum. given "enum" Ev v. pose proof (node_doc _ _ Ev) as Dv. test Dv.
      - destruct (kind_slice ce v k Ek Eb) as [l ->]. apply (b_enums l Ev l [] []); auto.
      - assert (C : bl (A := list string) (cfail (MustBeOfAn "enum" TYPE_ARRAY)) (fun _ => True)); [|destruct v; exact C].
        apply bl_fail. say. eapply w_enum; eauto. isnt.
    Qed.

    Lemma b_keywords o a myid refid : fair o -> pa_draft a = d -> bl (p_keywords ce rec o a myid refid m) (fun _ => True).
    Proof.
      intros F Ea. unfold p_keywords. rewrite Ea.
      assert (SF : forall n, fair (shift o n)) by (intros; apply shift_fair; auto).
      repeat (eapply bl_bind; [first [apply b_type | apply b_properties; auto | apply b_additional; cbn; auto | apply b_patternProperties; auto | apply b_propertyNames; auto
        | apply b_dependencies; auto | apply b_items; auto | apply b_multipleOf | apply b_bound; cbn; auto | apply b_natural; cbn; tauto
        | eapply b_le; [|eassumption|eassumption|reflexivity]; cbn; auto | apply b_pattern | apply b_format | apply b_required | apply b_uniqueItems | apply b_contains; auto
        | apply b_const | apply b_enum | apply b_schemas; cbn; auto | apply b_cond; cbn; auto
        | eapply b_schema; [intros x Ex; apply sub_not; exact Ex|reflexivity|intros x Ex N1 N2; eapply w_not; eauto|auto]]|intros]).
      apply bl_ret. exact I.
    Qed.
  End Node.

  Lemma b_node k (IH : forall o a id v, fair o -> W (pa_draft a) v -> bl (parseSchema ce k o a id v) (fun _ => True)) :
    forall o a id v, fair o -> W (pa_draft a) v -> bl (parseSchemaNode ce (parseSchema ce k) o a id v) (fun _ => True).
  Proof.
    intros o a id v F Wv. unfold parseSchemaNode. set (d := pa_draft a) in *. destruct (W_doc _ _ Wv) as [Dv Mv].
    eapply bl_bind with (Q := fun b => b = false -> since6 d -> ~ is_boolean v).
    { destruct (draft_ge6 d) eqn:Eg.
      - eapply bl_weak; [apply bl_ck; exact Dv|]. intros b (kd & Ek & ->) H _ [x ->]. cbn in Ek. injection Ek as <-. discriminate.
      - apply bl_ret. intros _ H. apply since6_ge6 in H. congruence. }
    intros b Hb. destruct b.
    { destruct v; try apply bl_panic. apply bl_store. }
    eapply bl_bind; [apply bl_ck; exact Dv|]. intros b (kd & Ek & ->). destruct (existsb (kind_eqb kd) [KMap]) eqn:Eb; cbn [negb].
    2: { apply bl_fail. apply (HB _ _ _ Wv). left. eexists. split; [reflexivity|]. apply no_schema; [|apply Hb; auto]. intros [x ->]. cbn in Ek. injection Ek as <-. discriminate. }
    destruct v as [|b|t|f|t|l|m|m]; try apply bl_panic.
    assert (SF : forall n, fair (shift o n)) by (intros; apply shift_fair; auto).
    eapply bl_bind; [apply (b_id d); auto|]. intros myid _.
    eapply bl_bind; [apply b_definitions; auto|]. intros _ _.
    do 3 (eapply bl_bind; [apply (b_string_only d); cbn; auto|]; intros _ _).
    assert (KEY : forall refid, bl (p_keywords ce (parseSchema ce k) o a myid refid m) (fun _ => True)) by (intros; apply (b_keywords (parseSchema ce k) IH d m Wv); auto).
    assert (NOREF : forall refid, bl (let! nd := p_keywords ce (parseSchema ce k) o a myid refid m in store id nd) (fun _ => True)) by (intros; eapply bl_bind; [apply KEY|intros; apply bl_store]).
    destruct (assoc "$ref" m) as [v|] eqn:Er; [|apply NOREF]. destruct v as [|b|t|f|t|l|m'|m']; try apply NOREF.
    destruct (u_parse ce t) as [r|] eqn:Eu.
    2: { apply bl_fail. apply (HB _ _ _ Wv). right. left. split; auto. exists m, "$ref", t. split; auto. split; [right; left; auto|]. split; auto. }
    eapply bl_bind with (Q := fun _ => True); [intros s Hp; cbn; auto|]. intros [rid|] _; [apply NOREF|].
    eapply bl_bind with (Q := fun _ => True); [|intros; apply bl_store].
    unfold parseReference. intros s Hp.
    match goal with |- match ?c s with _ => _ end => cut (bl c (fun _ => True)) end; [intros H; apply (H s Hp)|].
    eapply bl_bind; [apply bl_alloc|]. intros _ _.
    eapply bl_bind with (Q := fun _ => True); [intros s' Hp'; cbn; auto|]. intros _ _.
    eapply bl_bind; [apply (W_ref _ _ _ _ Wv Er Eu); repeat apply shift_fair; auto|]. intros e We. destruct (W_doc _ _ We) as [De _].
    eapply bl_bind; [apply bl_ck; exact De|]. intros b (kd' & Ek' & ->). destruct (existsb (kind_eqb kd') [KMap; KBool]) eqn:Eb'; cbn [negb].
    - eapply bl_bind with (Q := fun _ => True); [intros s' Hp'; cbn; auto|]. intros _ _. eapply bl_bind; [apply IH|intros; apply bl_ret; exact I]; [repeat apply shift_fair; auto|exact We].
    - apply bl_fail. apply (HB _ _ _ We). left. eexists. split; [reflexivity|]. apply no_target; intros [x X]; rewrite X in Ek'; cbn in Ek'; injection Ek' as <-; discriminate.
  Qed.
  Theorem parseSchema_blames k : forall o a id v, fair o -> W (pa_draft a) v -> bl (parseSchema ce k o a id v) (fun _ => True).
  Proof. induction k as [|k IH]; intros o a id v F Wv; [intros s _; exact I|]. cbn [parseSchema]. apply b_node; auto. Qed.

  Theorem parse_blames fuel o docref d doc p : fair o -> PI p -> W d doc ->
    match parse ce fuel o docref d doc (CState [] [] p []) with CErr e _ => B e | _ => True end.
  Proof.
    intros F Hp Wd.
    assert (T : bl (parse ce fuel o docref d doc) (fun _ => True)).
    { unfold parse. eapply bl_bind; [apply bl_alloc|]. intros id _. eapply bl_bind; [|intros; apply bl_ret; exact I].
      apply (parseSchema_blames fuel o (PArgs STRING_ROOT_SCHEMA_PROPERTY d true docref docref)); auto. }
    specialize (T (CState [] [] p []) Hp). destruct (parse _ _ _ _ _ _ _) as [x s'|e s'| |]; auto.
  Qed.
End Blame.
