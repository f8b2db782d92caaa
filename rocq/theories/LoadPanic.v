(** Loading and compiling documents none of which has a shape that panics. *)
From Verif Require Export CompileKnown LoadAny.
From Coq Require Import Lia.
Open Scope nat_scope.

Section Mild.
  Variable P : string -> Prop.
  Notation mild := (mild P).
  Lemma mild_inside a b : inside a b -> mild a -> mild b.
  Proof. intros I [H1 H2]. split; [eapply inside_numbers; eauto|]. intros m Im. apply H2. eapply inside_trans; eauto. Qed.
  Lemma mild_arr_iff l : mild (VArr l) <-> Forall mild l.
  Proof.
    split.
    - intros H. apply Forall_forall. intros x Hx. eapply mild_inside; [|exact H]. eapply inside_arr; eauto. constructor.
    - intros F. rewrite Forall_forall in F. split.
      + constructor. apply Forall_forall. intros x Hx. apply (F x Hx).
      + intros m I. inversion I as [|? x ? Hx Ix|]; subst. apply (F x Hx). auto.
  Qed.
  Lemma mild_map_iff m : mild (VMap m) <-> Forall (fun e => mild (snd e)) m /\ ~ panic_shape m.
  Proof.
    split.
    - intros H. split; [|apply H; constructor]. apply Forall_forall. intros [k x] Hx. eapply mild_inside; [|exact H]. eapply inside_map; eauto. constructor.
    - intros [F N]. rewrite Forall_forall in F. split.
      + constructor. apply Forall_forall. intros x Hx. apply (F x Hx).
      + intros m' I. inversion I as [|?|? k x ? Hx Ix]; subst; auto. apply (F _ Hx). auto.
  Qed.
  Lemma mild_scalar v : all_numbers P v -> (match v with VArr _ | VMap _ => False | _ => True end) -> mild v.
  Proof. intros H N. split; auto. intros m I. inversion I; subst; destruct N. Qed.
  Lemma mild_str s : mild (VStr s).
  Proof. apply mild_scalar; [constructor|exact I]. Qed.

  (** What rewriting keeps of a value. *)
  Definition sim (v v' : value) : Prop :=
    match v' with
    | VBool _ | VNum _ => v = v'
    | VArr l' => forall t, In (VNum t) l' -> exists l, v = VArr l /\ In (VNum t) l
    | _ => True
    end.
  Lemma sim_refl v : sim v v.
  Proof. destruct v; cbn; eauto. Qed.
  Definition like (m0 m : list (string * value)) : Prop := forall k y, assoc k m = Some y -> exists x, assoc k m0 = Some x /\ sim x y.
  Lemma like_refl m : like m m.
  Proof. intros k y E. eauto using sim_refl. Qed.
  Lemma like_panic m0 m : like m0 m -> ~ panic_shape m0 -> ~ panic_shape m.
  Proof.
    intros L N [[b E]|(l & t & E & Hin)]; apply N; destruct (L _ _ E) as (x & Ex & S); cbn in S.
    - subst. left. eauto.
    - right. destruct (S _ Hin) as (l0 & -> & Hin0). eauto.
  Qed.
  Lemma like_aset m0 m k x y : assoc k m0 = Some x -> sim x y -> like m0 m -> like m0 (aset k y m).
  Proof.
    intros E S L k' y' E'. rewrite assoc_aset in E'. destruct (String.eqb_spec k' k) as [->|]; [injection E' as <-; eauto|apply L; auto].
  Qed.
  Lemma aset_mild k y m : mild y -> Forall (fun e => mild (snd e)) m -> Forall (fun e => mild (snd e)) (aset k y m).
  Proof. intros. apply aset_Forall; auto. Qed.

  Definition pool_mild (p : pool) : Prop := forall r e, assoc r p = Some e -> mild (sp_doc e).
  Lemma pool_mild_aset p r e : pool_mild p -> mild (sp_doc e) -> pool_mild (aset r e p).
  Proof. intros H He k x E. rewrite assoc_aset in E. destruct (String.eqb k r); [injection E as <-; auto|eapply H; eauto]. Qed.

  Section Env.
    Variable ce : cenv.
    Notation lim := (e_ratlim (c_go ce)).
    Hypothesis Htext : urls_text ce.
    Hypothesis Hinh : forall b r s, u_parse ce s = Some r -> u_inherits ce b r <> None.
    Hypothesis HP : forall s, P s -> moderate lim s.
    Lemma mild_moderate v : mild v -> all_numbers (moderate lim) v.
    Proof.
      intros [H _]. revert H. assert (M : forall n v, vsize v < n -> all_numbers P v -> all_numbers (moderate lim) v); [|intros H; apply (M (S (vsize v))); auto].
      induction n as [|n IH]; intros x Hn H; [lia|]. inversion H as [| | | | |l F|m F]; subst; constructor; auto; rewrite Forall_forall in *; intros y Hy.
      - apply IH; auto. apply vsize_item in Hy. lia.
      - apply IH; [|apply (F _ Hy)]. destruct y as [k y]. apply vsize_member in Hy. cbn [snd]. lia.
    Qed.

    Definition quiet {A} (x : out A) (Q : A -> Prop) : Prop := match x with Ok a => Q a | Panic => False | NoFuel => True end.
    Lemma quiet_bind {A B} (x : out A) (f : A -> out B) Q Q' : quiet x Q -> (forall a, x = Ok a -> Q a -> quiet (f a) Q') -> quiet (obind x f) Q'.
    Proof. destruct x; cbn; auto; tauto. Qed.

    Section Node.
      Variable rec : oracle -> value -> string -> option draft -> pool -> out prr.
      Definition kept (v : value) (r : prr) : Prop := mild (pr_doc r) /\ sim v (pr_doc r) /\ pool_mild (pr_pool r).
      Hypothesis Hrec : forall o v b d p, fair o -> utf8_text b -> doc_ok v -> mild v -> pool_mild p -> quiet (rec o v b d p) (kept v).

      Lemma list_quiet o b d l : fair o -> utf8_text b -> Forall doc_ok l -> Forall mild l -> forall i p, pool_mild p ->
        quiet (prr_list rec o i b d l p) (fun q => Forall mild (fst q) /\ Forall2 sim l (fst q) /\ pool_mild (snd q)).
      Proof.
        intros F B. induction l as [|x l IH]; intros D M i p Hp; cbn [prr_list]; [cbn; auto|]. inversion D; inversion M; subst.
        eapply quiet_bind; [apply Hrec; auto using shift_fair|]. intros r _ (R1 & R2 & R3).
        eapply quiet_bind; [apply IH; auto|]. intros q _ (Q1 & Q2 & Q3). cbn. auto.
      Qed.
      Lemma map_quiet o b d m0 es : fair o -> utf8_text b -> Forall (fun e => utf8_text (fst e) /\ doc_ok (snd e)) es -> Forall (fun e => mild (snd e)) es ->
        (forall k x, In (k, x) es -> assoc k m0 = Some x) -> forall i m p, pool_mild p -> Forall (fun e => mild (snd e)) m -> like m0 m ->
        quiet (prr_map rec o i b d es m p) (fun q => Forall (fun e => mild (snd e)) (fst q) /\ like m0 (fst q) /\ pool_mild (snd q)).
      Proof.
        intros F B. induction es as [|[k x] es IH]; intros D M HI i m p Hp Hm L; cbn [prr_map]; [cbn; auto|].
        inversion D as [|? ? [D1 D2] D3]; inversion M as [|? ? M1 M2]; subst. cbn [fst snd] in *.
        eapply quiet_bind; [apply Hrec; auto using shift_fair|]. intros r _ (R1 & R2 & R3).
        apply IH; auto; [intros; apply HI; right; auto|apply aset_mild; auto|eapply like_aset; eauto; apply HI; left; auto].
      Qed.
      Lemma assoc_entries_of m o k x : fair o -> doc_ok (VMap m) -> In (k, x) (pick o m) -> assoc k m = Some x.
      Proof.
        intros F D H. apply doc_ok_map in D. destruct D as [N _]. apply assoc_NoDup; auto. eapply Permutation_in; [|exact H]. apply Permutation_sym, pick_perm. auto.
      Qed.
      Lemma pick_mild o (m : list (string * value)) : fair o -> Forall (fun e => mild (snd e)) m -> Forall (fun e => mild (snd e)) (pick o m).
      Proof. intros F H. eapply Permutation_Forall; [apply pick_perm; auto|auto]. Qed.
      Lemma member_quiet o b d k x p : fair o -> utf8_text b -> doc_ok x -> mild x -> pool_mild p ->
        quiet (prr_member rec o b d k x p) (fun q => mild (fst q) /\ sim x (fst q) /\ pool_mild (snd q)).
      Proof.
        intros F B D M Hp. unfold prr_member. destruct (literal_key k); [cbn; auto using sim_refl|]. destruct (map_key k).
        - destruct x as [|c|t|f|t|l|m|m]; try (cbn; auto using sim_refl; fail).
          + cbn. split; auto. split; auto. intros t H. eauto.
          + apply mild_map_iff in M. destruct M as [M1 M2].
            eapply quiet_bind; [apply (map_quiet (shift o 1) b d m); auto using shift_fair, like_refl|].
            * eapply doc_ok_perm; [apply pick_perm, shift_fair; auto|auto].
            * apply pick_mild; auto using shift_fair.
            * intros k' y. apply assoc_entries_of; auto using shift_fair.
            * intros q _ (Q1 & Q2 & Q3). cbn. split; [apply mild_map_iff; split; auto; eapply like_panic; eauto|]. auto.
        - eapply quiet_bind; [apply Hrec; auto|]. intros r _ (R1 & R2 & R3). cbn. auto.
      Qed.
      Lemma members_quiet o b d m0 es : fair o -> utf8_text b -> Forall (fun e => utf8_text (fst e) /\ doc_ok (snd e)) es -> Forall (fun e => mild (snd e)) es ->
        (forall k x, In (k, x) es -> assoc k m0 = Some x) -> forall i m p, pool_mild p -> Forall (fun e => mild (snd e)) m -> like m0 m ->
        quiet (prr_members rec o i b d es m p) (fun q => Forall (fun e => mild (snd e)) (fst q) /\ like m0 (fst q) /\ pool_mild (snd q)).
      Proof.
        intros F B. induction es as [|[k x] es IH]; intros D M HI i m p Hp Hm L; cbn [prr_members]; [cbn; auto|].
        inversion D as [|? ? [D1 D2] D3]; inversion M as [|? ? M1 M2]; subst. cbn [fst snd] in *.
        eapply quiet_bind; [apply member_quiet; auto using shift_fair|]. intros r _ (R1 & R2 & R3).
        apply IH; auto; [intros; apply HI; right; auto|apply aset_mild; auto|eapply like_aset; eauto; apply HI; left; auto].
      Qed.
      Lemma string_kind v : doc_ok v -> mild v -> exists b, isKind lim v [KString] = Ok b /\ (b = true <-> exists s, v = VStr s).
      Proof.
        intros D M. destruct (kind_moderate ce v D (mild_moderate v M)) as (k & Ek & Hk). exists (kind_eqb k KString).
        unfold isKind. rewrite Ek. cbn [obind existsb]. rewrite orb_false_r. auto.
      Qed.
      Lemma member_mild m k x : mild (VMap m) -> assoc k m = Some x -> mild x.
      Proof. intros M E. eapply mild_inside; [eapply inside_member; eauto|auto]. Qed.
      Lemma absolute_quiet b m : doc_ok (VMap m) -> mild (VMap m) -> quiet (absolute_ref ce b m) (fun m1 => mild (VMap m1)).
      Proof.
        intros D M. unfold absolute_ref. destruct (assoc "$ref" m) as [v|] eqn:Ev; [|exact M].
        destruct (string_kind v) as (c & -> & Hc); [apply (doc_ok_assoc _ _ _ D Ev)|eapply member_mild; eauto|]. cbn [obind]. destruct c; cbn [negb]; [|exact M].
        destruct (proj1 Hc eq_refl) as [s ->]. destruct (u_parse ce s); [|exact M]. destruct (u_inherits ce b s0); [|exact M].
        apply mild_map_iff in M. destruct M as [M1 M2]. apply mild_map_iff. split; [apply aset_mild; auto using mild_str|].
        eapply like_panic; [|exact M2]. eapply like_aset; [exact Ev| |apply like_refl]. exact I.
      Qed.
      Lemma declared_quiet b m : doc_ok (VMap m) -> mild (VMap m) -> quiet (declared_id ce b m) (fun _ => True).
      Proof. intros D M. rewrite declared_id_scope; auto; [exact I|apply mild_moderate; auto]. Qed.

      Lemma node_quiet o v b d p : fair o -> utf8_text b -> doc_ok v -> mild v -> pool_mild p -> quiet (parseReferencesNode ce rec o v b d p) (kept v).
      Proof.
        intros F B D M Hp. unfold parseReferencesNode. unfold kept.
        assert (BODY : forall b m p, utf8_text b -> doc_ok (VMap m) -> mild (VMap m) -> pool_mild p ->
          quiet (do m1 <- absolute_ref ce b m; prr_members rec (shift o 1) 0 b d (pick (shift o 0) m1) m1 p)
                (fun q => mild (VMap (fst q)) /\ pool_mild (snd q))).
        { clear b v p B D M Hp. intros b m p B D M Hp. eapply quiet_bind; [apply absolute_quiet; auto|]. intros m1 Em M1.
          apply (absolute_ref_docs ce Htext) in Em; auto. rename Em into D1. pose proof (proj1 (mild_map_iff m1) M1) as [M2 M3].
          pose proof (members_quiet (shift o 1) b d m1 (pick (shift o 0) m1)) as K. specialize (K (shift_fair _ _ F) B).
          assert (K1 : Forall (fun e => utf8_text (fst e) /\ doc_ok (snd e)) (pick (shift o 0) m1)) by (eapply doc_ok_perm; [apply pick_perm, shift_fair; auto|auto]).
          specialize (K K1 (pick_mild _ _ (shift_fair _ _ F) M2) (fun k x => assoc_entries_of m1 _ k x (shift_fair _ _ F) D1) 0 m1 p Hp M2 (like_refl m1)).
          destruct (prr_members _ _ _ _ _ _ _ _) as [q| |]; cbn in *; auto. destruct K as (Q1 & Q2 & Q3). split; auto. apply mild_map_iff. split; auto. eapply like_panic; eauto. }
        destruct v as [|c|t|f|t|l|m|m]; try (cbn; auto using sim_refl; fail).
        - apply doc_ok_arr in D. pose proof (proj1 (mild_arr_iff l) M) as M'. eapply quiet_bind; [apply list_quiet; auto|]. intros q _ (Q1 & Q2 & Q3). cbn [pr_doc pr_pool quiet].
          split; [apply mild_arr_iff; auto|]. split; auto. cbn. intros t Hin. exists l. split; auto. clear - Q2 Hin.
          induction Q2 as [|x y l l' S _ IH]; [destruct Hin|]. destruct Hin as [->|Hin]; [left; auto|right; auto].
        - eapply quiet_bind; [apply declared_quiet; auto|]. intros [id|] Ei _.
          + apply (declared_id_docs ce Htext) in Ei; auto. destruct (assoc id p) eqn:Ep; [cbn; auto|].
            specialize (BODY id m (aset id (Spd (VMap m) d) p) Ei D M (pool_mild_aset p id (Spd (VMap m) d) Hp M)).
            destruct (absolute_ref ce id m) as [m1| |]; cbn in BODY |- *; auto.
            destruct (prr_members _ _ _ _ _ _ _ _) as [q| |]; cbn in BODY |- *; auto. destruct BODY as [B1 B2]. split; auto. split; auto. apply pool_mild_aset; auto.
          + specialize (BODY b m p B D M Hp).
            destruct (absolute_ref ce b m) as [m1| |]; cbn in BODY |- *; auto.
            destruct (prr_members _ _ _ _ _ _ _ _) as [q| |]; cbn in BODY |- *; auto. tauto.
      Qed.
    End Node.

    Lemma recursive_quiet k : forall o v b d p, fair o -> utf8_text b -> doc_ok v -> mild v -> pool_mild p ->
      quiet (parseReferencesRecursive ce k o v b d p) (kept v).
    Proof.
      induction k as [|k IH]; intros o v b d p F B D M Hp; [exact I|]. cbn [parseReferencesRecursive]. apply node_quiet; auto.
    Qed.
    Lemma schemaURL_quiet v : doc_ok v -> mild v -> quiet (parseSchemaURL ce v) (fun _ => True).
    Proof.
      intros D M. destruct (parseSchemaURL_named ce v D (mild_moderate v M)) as [[_ [u ->]]|[_ [e ->]]]; exact I.
    Qed.
    Lemma parseReferences_quiet o v ref pooled p : fair o -> utf8_text ref -> doc_ok v -> mild v -> pool_mild p ->
      quiet (parseReferences ce o v ref pooled p) (kept v).
    Proof.
      intros F B D M Hp. unfold parseReferences. destruct (pooled && _)%bool; [cbn; unfold kept; cbn; auto using sim_refl|].
      eapply quiet_bind with (Q := fun _ => True).
      - destruct (c_autodetect ce); [|exact I]. eapply quiet_bind; [apply schemaURL_quiet; auto|]. intros [e|[u x]] _ _; exact I.
      - intros [e|d] _ _; [cbn; unfold kept; cbn; auto using sim_refl|].
        eapply quiet_bind; [apply recursive_quiet; auto|]. intros r _ (R1 & R2 & R3). destruct pooled; [|split; auto].
        split; auto. split; auto. cbn [pr_pool]. apply pool_mild_aset; auto.
    Qed.

    Definition fetch_mild : Prop := forall r v, c_fetch ce r = Some v -> doc_ok v /\ mild v.
    Hypothesis HF : fetch_mild.
    Definition pool_fine (p : pool) : Prop := pool_ok (fun _ => True) p /\ pool_mild p.
    Definition fine (v : value) : Prop := doc_ok v /\ mild v.
    Lemma fetch_mild_ok : fetch_ok ce (fun _ => True).
    Proof. intros r v E. split; [apply (HF r v E)|]. split; [intros _ u x _; exact I|]. intros o base p q _ _ u x _. exact I. Qed.
    Lemma pointer_inside ts : forall v x, pointer_get ts v = Some x -> inside v x.
    Proof.
      induction ts as [|t ts IH]; intros v x E; cbn [pointer_get] in E; [injection E as <-; constructor|].
      destruct v as [|c|n|f|n|l|m|m]; try discriminate.
      - destruct (atoi t) as [i|]; [|discriminate]. destruct (i <? 0)%Z; [discriminate|]. destruct (nth_error l _) as [y|] eqn:En; [|discriminate].
        eapply inside_arr; [eapply nth_error_In; eauto|eauto].
      - destruct (assoc _ m) as [y|] eqn:Ea; [|discriminate]. apply assoc_In in Ea. eapply inside_map; eauto.
    Qed.
    Lemma GetDocument_quiet o r s : fair o -> utf8_text r -> pool_fine (st_pool s) ->
      match GetDocument ce o r s with
      | COk e s' => pool_fine (st_pool s') /\ fine (sp_doc e)
      | CErr _ s' => pool_fine (st_pool s')
      | CPanic => False
      | CNoFuel => True
      end.
    Proof.
      intros F B [Hp1 Hp2]. destruct (GetDocument ce o r s) as [e s'|e s'| |] eqn:E; auto.
      - pose proof (GetDocument_docs ce (fun _ => True) Htext o r s e s' fetch_mild_ok F B Hp1 E) as (K1 & K2 & _).
        cut (pool_mild (st_pool s') /\ mild (sp_doc e)); [intros [A1 A2]; split; split; auto|].
        unfold GetDocument, cbind, get_pool in E. destruct (assoc r (st_pool s)) as [d|] eqn:Er; [injection E as <- <-; split; auto; eapply Hp2; eauto|].
        destruct (assoc (u_strip ce r) (st_pool s)) as [d|] eqn:Eb.
        + destruct (pointer_get _ _) as [x|] eqn:Ex; [|discriminate]. cbn in E. injection E as <- <-. cbn [sp_doc st_pool].
          assert (mild x) by (eapply mild_inside; [eapply pointer_inside; eauto|eapply Hp2; eauto]). split; auto. apply pool_mild_aset; auto.
        + destruct (negb (u_canonical ce r)); [discriminate|]. destruct (c_fetch ce r) as [doc|] eqn:Ef; [|discriminate]. destruct (HF _ _ Ef) as [D1 M1].
          pose proof (parseReferences_quiet o doc (u_strip ce r) true (st_pool s) F (proj2 (proj2 Htext) _ B) D1 M1 Hp2) as Q.
          destruct (parseReferences _ _ _ _ _ _) as [q| |]; try discriminate E. cbn in E, Q. destruct Q as (Q1 & Q2 & Q3).
          destruct (parseSchemaURL ce (pr_doc q)) as [su| |]; cbn in E; try discriminate E. destruct (pointer_get _ (pr_doc q)) as [x|] eqn:Ex; [|discriminate]. injection E as <- <-. cbn.
          split; auto. eapply mild_inside; [eapply pointer_inside; eauto|auto].
      - unfold GetDocument, cbind, get_pool in E. destruct (assoc r (st_pool s)) as [d|] eqn:Er; [discriminate|].
        destruct (assoc (u_strip ce r) (st_pool s)) as [d|] eqn:Eb.
        + destruct (pointer_get _ _) as [x|] eqn:Ex; [discriminate|]. injection E as <- <-. split; auto.
        + destruct (negb (u_canonical ce r)); [injection E as <- <-; split; auto|]. destruct (c_fetch ce r) as [doc|] eqn:Ef; [|injection E as <- <-; split; auto]. destruct (HF _ _ Ef) as [D1 M1].
          pose proof (parseReferences_quiet o doc (u_strip ce r) true (st_pool s) F (proj2 (proj2 Htext) _ B) D1 M1 Hp2) as Q.
          destruct (parseReferences ce o doc (u_strip ce r) true (st_pool s)) as [q| |] eqn:Eq; try discriminate E. cbn in E, Q. destruct Q as (Q1 & Q2 & Q3).
          apply (parseReferences_docs ce (fun _ => True) Htext) in Eq; auto; [|apply Htext; auto|intros _ u x _; exact I].
          destruct (parseSchemaURL ce (pr_doc q)) as [su| |]; cbn in E; try discriminate E. destruct (pointer_get _ (pr_doc q)) as [x|] eqn:Ex; [discriminate|]. injection E as <- <-. split; [apply Eq|auto].
      - exfalso. unfold GetDocument, cbind, get_pool in E. destruct (assoc r (st_pool s)) as [d|] eqn:Er; [discriminate|].
        destruct (assoc (u_strip ce r) (st_pool s)) as [d|] eqn:Eb.
        + destruct (pointer_get _ _) as [x|] eqn:Ex; discriminate.
        + destruct (negb (u_canonical ce r)); [discriminate|]. destruct (c_fetch ce r) as [doc|] eqn:Ef; [|discriminate]. destruct (HF _ _ Ef) as [D1 M1].
          pose proof (parseReferences_quiet o doc (u_strip ce r) true (st_pool s) F (proj2 (proj2 Htext) _ B) D1 M1 Hp2) as Q.
          destruct (parseReferences ce o doc (u_strip ce r) true (st_pool s)) as [q| |] eqn:Eq; try discriminate E; [|exact Q]. cbn in E, Q. destruct Q as (Q1 & Q2 & Q3).
          assert (Dq : doc_ok (pr_doc q)).
          { eapply (parseReferences_docs ce (fun _ => True) Htext) in Eq; [exact (proj1 Eq)| | | | |]; auto; [apply Htext; auto|intros _ u x _; exact I]. }
          pose proof (schemaURL_quiet (pr_doc q) Dq Q1) as QS.
          destruct (parseSchemaURL ce (pr_doc q)) as [su| |]; cbn in E; try discriminate E; [|exact QS]. destruct (pointer_get _ (pr_doc q)) as [x|] eqn:Ex; discriminate.
    Qed.

    Theorem parse_quiet fuel o docref d doc p : fair o -> pool_fine p -> fine doc ->
      match parse ce fuel o docref d doc (CState [] [] p []) with
      | COk _ s' | CErr _ s' => pool_fine (st_pool s')
      | CPanic => False
      | CNoFuel => True
      end.
    Proof.
      intros F Hp Hd.
      pose proof (parse_total ce (fun b s r => Hinh b r s) (fun _ v => fine v) [] 0 pool_fine True False True) as T.
      specialize (T (fun d v H => conj (proj1 H) (or_introl I))).
      specialize (T (fun d m x H S => conj (inside_doc_ok _ _ (inside_subschema _ _ _ S) (proj1 H)) (mild_inside _ _ (inside_subschema _ _ _ S) (proj2 H)))).
      specialize (T (fun d v H N => I)).
      match type of T with ?A -> _ => assert (HW : A) end.
      { intros d' v [D M] N. apply N. split; [apply mild_moderate; auto|]. intros m ->. apply M. constructor. }
      specialize (T HW). clear HW.
      match type of T with ?A -> _ => assert (HW : A) end.
      { intros d' m k r [D M] Er Eu. split; [left; exact I|]. intros n o' F' s Hs Hl.
        assert (Br : utf8_text r). { destruct (doc_ok_assoc _ _ _ D Er) as [_ [Hx _]]. inversion Hx; subst. destruct Htext as (T1 & _). eauto. }
        pose proof (GetDocument_quiet o' r s F' Br Hs) as G. destruct (GetDocument ce o' r s) as [e s'|e s'| |]; auto. destruct G as [G1 G2]. split; auto. }
      specialize (T HW fuel o docref d doc p F Hp Hd (or_introl I)). destruct (parse _ _ _ _ _ _ _); auto; apply T.
    Qed.
  End Env.
End Mild.

(** ** The loader *)

Section Loading.
  Variable w : world.
  Hypothesis HU : url_laws w.
  Notation lim := (e_ratlim (w_go w)).
  Variable P : string -> Prop.
  Hypothesis HP : forall s, P s -> moderate lim s.
  (** Every document that can be fetched is mild. *)
  Hypothesis served : forall fs s v, loadReference w fs s = Some v -> mild P v.
  Definition strict : Prop := forall s, P s -> float_range s.
  Definition sl_fine (sl : sloader) : Prop := pool_fine P (sl_pool sl).
  Definition lquiet {A} (sl0 : sloader) (x : lres A) (Q : A -> sloader -> Prop) : Prop :=
    match x with
    | LOk a sl => sl_fine sl /\ (sl_validate sl = true -> sl_validate sl0 = true) /\ Q a sl
    | LErr _ sl => sl_fine sl /\ (sl_validate sl = true -> sl_validate sl0 = true)
    | LPanic => False
    | LNoFuel => True
    end.
  Lemma lquiet_bind {A B} sl0 (x : lres A) (f : A -> sloader -> lres B) Q Q' : lquiet sl0 x Q ->
    (forall a sl, sl_fine sl -> (sl_validate sl = true -> sl_validate sl0 = true) -> Q a sl -> lquiet sl0 (f a sl) Q') -> lquiet sl0 (lbind x f) Q'.
  Proof. intros H1 H2. destruct x as [a sl|e sl| |]; cbn in *; auto. destruct H1 as (? & ? & ?). auto. Qed.
  Lemma lquiet_from {A} sl0 sl1 (x : lres A) Q : (sl_validate sl1 = true -> sl_validate sl0 = true) -> lquiet sl1 x Q -> lquiet sl0 x Q.
  Proof. intros H. destruct x; cbn; tauto. Qed.
  Lemma run_out_quiet {A} sl0 sl (x : out A) Q : sl_fine sl -> (sl_validate sl = true -> sl_validate sl0 = true) -> quiet x Q -> lquiet sl0 (run_out sl x) (fun a sl' => Q a /\ sl' = sl).
  Proof. intros H1 H2. destruct x; cbn; auto. Qed.
  Lemma fetch_served sl : fetch_mild P (cenv_of w sl).
  Proof. intros r v E. split; [exact (loadReference_doc_ok _ _ _ _ E)|exact (served _ _ _ E)]. Qed.
  Notation textl := (url_laws_text w _ HU).
  Let Hinh : forall b r s, w_parse w s = Some r -> w_inherits w b r <> None.
  Proof. apply HU. Qed.

  Lemma pool_parse_quiet o v ref pooled sl : fair o -> utf8_text ref -> fine P v -> sl_fine sl ->
    lquiet sl (pool_parseReferences w o v ref pooled sl) (fun v' sl' => fine P v').
  Proof.
    intros F B [D M] [S1 S2]. unfold pool_parseReferences.
    pose proof (parseReferences_quiet P (cenv_of w sl) textl Hinh HP o v ref pooled (sl_pool sl) F B D M S2) as Q.
    destruct (parseReferences (cenv_of w sl) o v ref pooled (sl_pool sl)) as [r| |] eqn:E; cbn in *; auto. destruct Q as (Q1 & Q2 & Q3).
    apply (parseReferences_docs (cenv_of w sl) (fun _ => True) textl) in E; auto; [|intros _ u x _; exact I]. destruct E as [E1 E2].
    assert (X : sl_fine (with_pool (pr_pool r) sl)) by (split; auto).
    destruct (pr_err r); cbn [lquiet]; auto. split; [exact X|]. split; [auto|split; auto].
  Qed.
  Lemma compile_doc_quiet o sl l : fair o -> loader_fit l -> sl_fine sl -> (forall v, fst (LoadJSON w l) = Some v -> mild P v) ->
    lquiet sl (compile_doc w o sl l) (fun rd _ => fine P (snd rd)).
  Proof.
    intros F Hl Hs Hd. unfold compile_doc. destruct (JsonReference w l) as [ref|] eqn:EJ; [|cbn; auto].
    destruct (negb (String.eqb ref "")) eqn:En.
    - assert (Ht : utf8_text ref).
      { destruct HU as (U1 & _ & U3 & _). destruct l; cbn [JsonReference] in EJ; try (rewrite U1 in EJ; injection EJ as <-; discriminate En). eapply U3; eauto. }
      pose proof (GetDocument_quiet P (cenv_of w (with_factory (LoaderFactory l) sl)) textl Hinh HP (fetch_served _) (shift o 0) ref (CState [] [] (sl_pool sl) []) (shift_fair _ _ F) Ht Hs) as G.
      unfold run_comp. change (sl_pool (with_factory (LoaderFactory l) sl)) with (sl_pool sl). destruct (GetDocument _ _ _ _) as [e s'|e s'| |]; cbn; auto. destruct G; auto.
    - destruct (fst (LoadJSON w l)) as [doc|] eqn:EL; [|cbn; auto]. apply negb_false_iff, String.eqb_eq in En. subst ref.
      eapply lquiet_bind; [eapply lquiet_from; [|apply pool_parse_quiet; auto using shift_fair, utf8_empty; split; [eapply LoadJSON_doc_ok; eauto|auto]]; cbn; auto|].
      intros doc' sl' S1 V1 Q. cbn. auto.
  Qed.
  Lemma draft_quiet sl doc : sl_fine sl -> fine P doc ->
    lquiet sl (if sl_auto sl then
                 lbind (run_out sl (parseSchemaURL (cenv_of w sl) doc))
                   (fun r sl => match r with inl e => LErr e sl | inr (_, Some d) => LOk d sl | inr (_, None) => LOk (sl_draft sl) sl end)
               else LOk (sl_draft sl) sl) (fun _ sl' => sl' = sl).
  Proof.
    intros S [D M]. destruct (sl_auto sl); [|cbn; auto]. eapply lquiet_bind; [eapply run_out_quiet; auto; apply (schemaURL_quiet P); auto|].
    intros [e|[u [d|]]] sl1 S1 V1 [_ ->]; cbn; auto.
  Qed.
  Lemma compile_parse_quiet fuel o sl ref doc : fair o -> fine P doc -> sl_fine sl ->
    lquiet sl (compile_parse w fuel o sl ref doc) (fun _ _ => True).
  Proof.
    intros F Hd Hs. unfold compile_parse. eapply lquiet_bind; [apply draft_quiet; auto|]. intros d sl1 S1 V1 ->.
    pose proof (parse_quiet P (cenv_of w sl) textl Hinh HP (fetch_served sl) fuel (shift o 1) ref d doc (sl_pool sl) (shift_fair _ _ F) Hs Hd) as Q.
    unfold run_comp. destruct (parse _ _ _ _ _ _ _) as [id s|e s| |]; cbn; auto.
  Qed.
  Lemma Compile0_quiet fuel o sl l : fair o -> loader_fit l -> sl_fine sl -> (forall v, fst (LoadJSON w l) = Some v -> mild P v) ->
    lquiet sl (Compile0 w fuel o sl l) (fun _ _ => True).
  Proof.
    intros F Hl Hs Hd. unfold Compile0. eapply lquiet_bind; [apply compile_doc_quiet; auto|]. intros rd sl1 S1 V1 Q.
    eapply lquiet_from; [|apply compile_parse_quiet; auto]. auto.
  Qed.
  Lemma mild_range v : strict -> mild P v -> in_float_range v.
  Proof.
    intros ST [H _]. revert H. assert (M : forall n v, vsize v < n -> all_numbers P v -> in_float_range v); [|intros H; apply (M (S (vsize v))); auto].
    induction n as [|n IH]; intros x Hn H; [lia|]. inversion H as [| | | | |l F|m F]; subst; constructor; auto; rewrite Forall_forall in *; intros y Hy.
    - apply IH; auto. apply vsize_item in Hy. lia.
    - apply IH; [|apply (F _ Hy)]. destruct y as [k y]. apply vsize_member in Hy. cbn [snd]. lia.
  Qed.
  Lemma validateMetaschema_quiet fuel o sl doc : fair o -> fine P doc -> sl_fine sl -> sl_validate sl = true -> strict ->
    lquiet sl (validateMetaschema w fuel o sl doc) (fun _ _ => True).
  Proof.
    intros F [Hd Hm] Hs Hv ST. unfold validateMetaschema.
    eapply lquiet_bind with (Q := fun u sl' => utf8_text u /\ sl' = sl).
    { destruct (sl_auto sl); [|cbn; auto using utf8_empty]. pose proof (schemaURL_quiet P (cenv_of w sl) Hinh HP doc Hd Hm) as Q.
      destruct (parseSchemaURL (cenv_of w sl) doc) as [[e|[u x]]| |] eqn:E1; cbn; auto.
      split; [exact Hs|]. split; [auto|]. split; [|reflexivity]. clear Q.
      unfold parseSchemaURL in E1.
      apply obind_ok in E1. destruct E1 as (b & _ & E1). destruct b; [injection E1 as <- <-; apply utf8_empty|].
      apply obind_ok in E1. destruct E1 as (b & _ & E1). destruct (negb b); [discriminate|]. destruct doc as [| | | | | |m|]; try discriminate.
      destruct (assoc "$schema" m) as [y|] eqn:Ea; [|injection E1 as <- <-; apply utf8_empty]. apply obind_ok in E1. destruct E1 as (c & _ & E1).
      destruct (negb c); [discriminate|]. destruct y as [| | | |s| | |]; try discriminate. destruct (u_parse _ s) as [r|] eqn:Eu; [|discriminate]. injection E1 as <- <-.
      destruct HU as (_ & _ & U & _). eapply U; [|exact Eu]. pose proof (doc_ok_assoc _ _ _ Hd Ea) as [_ [Hy _]]. inversion Hy; auto. }
    intros url sl1 S1 V1 [Ht ->]. destruct (String.eqb url "" && _)%bool; [cbn; auto|].
    assert (Hfit : loader_fit (LRef 0 (if String.eqb url "" then GetSchemaURL (sl_draft sl) else url))).
    { cbn [loader_fit]. destruct (String.eqb url ""); [apply meta_text|auto]. }
    pose proof (Compile0_quiet fuel (shift o 0) (with_validate false sl) (LRef 0 (if String.eqb url "" then GetSchemaURL (sl_draft sl) else url)) (shift_fair _ _ F) Hfit Hs (served _ _)) as C.
    destruct (Compile0 w fuel (shift o 0) (with_validate false sl) _) as [sch sl2|e sl2| |] eqn:EC; cbn [lbind lquiet] in *; auto; [|destruct C; auto].
    destruct C as (C1 & C2 & _). apply (Compile0_ok w HU) in EC; auto using shift_fair; [|apply Hs]. destruct EC as (_ & _ & d & doc' & C).
    assert (O : ordinary lim doc). { split; [auto|]. split; [apply mild_range; auto|]. exact (mild_moderate P (cenv_of w sl) Hinh HP doc Hm). }
    pose proof (compiled_no_panic w _ sch d doc' doc fuel (shift o 1) [STRING_CONTEXT_ROOT] C O (shift_fair _ _ F)) as NP.
    unfold validateDocument. destruct (validateRecursive _ _ _ _ _ _ _) as [r| |]; cbn; auto. destruct (Valid r); cbn; auto.
  Qed.

  Theorem Compile_quiet fuel o sl l : fair o -> loader_fit l -> sl_fine sl -> (forall v, fst (LoadJSON w l) = Some v -> mild P v) ->
    (sl_validate sl = true -> strict) -> lquiet sl (Compile w fuel o sl l) (fun _ _ => True).
  Proof.
    intros F Hl Hs Hd ST. unfold Compile. eapply lquiet_bind; [apply compile_doc_quiet; auto using shift_fair|]. intros rd sl1 S1 V1 Q.
    eapply lquiet_bind with (Q := fun _ _ => True).
    - destruct (sl_validate sl1) eqn:Ev; [|cbn; rewrite Ev; auto]. specialize (V1 eq_refl). eapply lquiet_from with (sl1 := sl1); [auto|]. apply validateMetaschema_quiet; auto using shift_fair.
    - intros [] sl2 S2 V2 _. eapply lquiet_from; [|apply compile_parse_quiet; auto using shift_fair]. auto.
  Qed.
  Theorem AddSchema_quiet fuel o url l sl : fair o -> utf8_text url -> loader_fit l -> sl_fine sl -> (forall v, fst (LoadJSON w l) = Some v -> mild P v) ->
    (sl_validate sl = true -> strict) -> lquiet sl (AddSchema w fuel o url l sl) (fun _ _ => True).
  Proof.
    intros F Hu Hl Hs Hd ST. unfold AddSchema. destruct (w_parse w url) as [ref|] eqn:Er; [|cbn; auto].
    destruct (fst (LoadJSON w l)) as [doc|] eqn:EL; [|cbn; auto].
    assert (Hf : fine P doc) by (split; [eapply LoadJSON_doc_ok; eauto|auto]).
    eapply lquiet_bind with (Q := fun _ _ => True).
    - destruct (sl_validate sl) eqn:Ev; [|cbn; auto]. apply validateMetaschema_quiet; auto using shift_fair.
    - intros [] sl2 S2 V2 _. eapply lquiet_bind; [eapply lquiet_from; [|apply pool_parse_quiet; auto using shift_fair]; auto; destruct HU as (_ & _ & U & _); eauto|].
      intros v sl3 S3 V3 _. cbn. auto.
  Qed.
  Theorem AddSchemas_quiet fuel ls : forall o sl, fair o -> sl_fine sl -> (forall l, In l ls -> loader_fit l /\ forall v, fst (LoadJSON w l) = Some v -> mild P v) ->
    (sl_validate sl = true -> strict) -> lquiet sl (AddSchemas w fuel o ls sl) (fun _ _ => True).
  Proof.
    induction ls as [|l ls IH]; intros o sl F Hs Hd ST; cbn [AddSchemas]; [cbn; auto|]. destruct (Hd l (or_introl eq_refl)) as [Hl Hm].
    destruct (fst (LoadJSON w l)) as [doc|] eqn:EL; [|cbn; auto].
    assert (Hf : fine P doc) by (split; [eapply LoadJSON_doc_ok; eauto|auto]).
    eapply lquiet_bind with (Q := fun _ _ => True).
    - destruct (sl_validate sl) eqn:Ev; [|cbn; auto]. apply validateMetaschema_quiet; auto using shift_fair.
    - intros [] sl2 S2 V2 _. eapply lquiet_bind; [eapply lquiet_from; [|apply pool_parse_quiet; auto using shift_fair, utf8_empty]; auto|].
      intros v sl3 S3 V3 _. eapply lquiet_from; [|apply IH; auto using shift_fair]; auto. intros l' Hl'. apply Hd. right. auto.
  Qed.

  (** ** A session: any sequence of calls on one SchemaLoader, including those
      that fail, and assignments to its fields. *)
  Inductive call := DoCompile (l : loader) | DoAddSchema (url : string) (l : loader) | DoAddSchemas (ls : list loader)
    | SetValidate (b : bool) | SetAutoDetect (b : bool) | SetDraft (d : draft).
  Definition loads_mild (l : loader) : Prop := loader_fit l /\ forall v, fst (LoadJSON w l) = Some v -> mild P v.
  Definition call_mild (c : call) : Prop :=
    match c with
    | DoCompile l => loads_mild l
    | DoAddSchema u l => utf8_text u /\ loads_mild l
    | DoAddSchemas ls => Forall loads_mild ls
    | SetValidate b => b = true -> strict
    | _ => True
    end.
  Definition forget {A} (x : lres A) : lres unit :=
    match x with LOk _ sl => LOk tt sl | LErr e sl => LErr e sl | LPanic => LPanic | LNoFuel => LNoFuel end.
  Definition do_call (fuel : nat) (o : oracle) (c : call) (sl : sloader) : lres unit :=
    match c with
    | DoCompile l => forget (Compile w fuel o sl l)
    | DoAddSchema u l => AddSchema w fuel o u l sl
    | DoAddSchemas ls => AddSchemas w fuel o ls sl
    | SetValidate b => LOk tt (with_validate b sl)
    | SetAutoDetect b => LOk tt (SLoader (sl_pool sl) b (sl_validate sl) (sl_draft sl) (sl_factory sl))
    | SetDraft d => LOk tt (SLoader (sl_pool sl) (sl_auto sl) (sl_validate sl) d (sl_factory sl))
    end.
  Inductive session : sloader -> Prop :=
  | session_new : session NewSchemaLoader
  | session_call sl fuel o c sl' : session sl -> fair o -> call_mild c ->
      (do_call fuel o c sl = LOk tt sl' \/ exists e, do_call fuel o c sl = LErr e sl') -> session sl'.
  Lemma call_quiet fuel o c sl : fair o -> call_mild c -> sl_fine sl -> (sl_validate sl = true -> strict) ->
    match do_call fuel o c sl with
    | LOk _ sl' | LErr _ sl' => sl_fine sl' /\ (sl_validate sl' = true -> strict)
    | LPanic => False
    | LNoFuel => True
    end.
  Proof.
    intros F Hc Hs ST. destruct c as [l|u l|ls|b|b|d]; cbn [do_call call_mild] in *.
    - destruct Hc as [H1 H2]. pose proof (Compile_quiet fuel o sl l F H1 Hs H2 ST) as Q. destruct (Compile w fuel o sl l); cbn in *; tauto.
    - destruct Hc as (H0 & H1 & H2). pose proof (AddSchema_quiet fuel o u l sl F H0 H1 Hs H2 ST) as Q. destruct (AddSchema w fuel o u l sl); cbn in *; tauto.
    - assert (Hl : forall l, In l ls -> loader_fit l /\ forall v, fst (LoadJSON w l) = Some v -> mild P v) by (rewrite Forall_forall in Hc; exact Hc).
      pose proof (AddSchemas_quiet fuel ls o sl F Hs Hl ST) as Q. destruct (AddSchemas w fuel o ls sl); cbn in *; tauto.
    - cbn. split; auto.
    - cbn. split; auto.
    - cbn. split; auto.
  Qed.
  Lemma session_fine sl : session sl -> sl_fine sl /\ (sl_validate sl = true -> strict).
  Proof.
    induction 1 as [|sl fuel o c sl' _ [IH1 IH2] F Hc E].
    - split; [split; intros r e X; discriminate|discriminate].
    - pose proof (call_quiet fuel o c sl F Hc IH1 IH2) as Q. destruct E as [E|[e E]]; rewrite E in Q; auto.
  Qed.
  Theorem session_no_panic sl fuel o c : session sl -> fair o -> call_mild c -> do_call fuel o c sl <> LPanic.
  Proof.
    intros H F Hc E. destruct (session_fine sl H) as [H1 H2]. pose proof (call_quiet fuel o c sl F Hc H1 H2) as Q. rewrite E in Q. exact Q.
  Qed.
End Loading.
