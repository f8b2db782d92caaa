(** Schemas combined by allOf, anyOf, oneOf, not and if/then/else. *)
From Verif Require Export SpecLogic LoadTotal LoadShape Checked.
From Coq Require Import Lia.
Open Scope nat_scope.

Section Bare.
  Notation free v := (forall m k t, inside v (VMap m) -> In k ["$ref"; "$id"; "id"] -> ~ In (k, VStr t) m).
  Lemma free_inside v x : free v -> inside v x -> free x.
  Proof. intros H I m k t Hm. apply H. eapply inside_trans; eauto. Qed.
  Lemma free_mentions v : free v -> forall k, ~ mentions v k.
  Proof.
    intros H k M. induction M as [m k Hk|l x k Hx M IH|m n x k Hx M IH].
    - apply (H m "$ref" k); auto; [constructor|left; auto].
    - apply IH. eapply free_inside; [exact H|]. econstructor; eauto. constructor.
    - apply IH. eapply free_inside; [exact H|]. eapply inside_map; eauto. constructor.
  Qed.
  Lemma free_no_ref v m r : free v -> inside v (VMap m) -> assoc "$ref" m <> Some (VStr r).
  Proof. intros H I E. apply assoc_In in E. revert E. apply (H m); auto. left; auto. Qed.
  Lemma part_inside d m x : part d m x -> inside (VMap m) x.
  Proof.
    assert (A : forall k x, assoc k m = Some x -> inside (VMap m) x) by (intros k y E; apply assoc_In in E; econstructor; eauto; constructor).
    assert (B : forall k l x, assoc k m = Some (VArr l) -> In x l -> inside (VMap m) x) by (intros k l y E H; eapply inside_trans; [eapply A; eauto|econstructor; eauto; constructor]).
    assert (C : forall k c n x, assoc k m = Some (VMap c) -> In (n, x) c -> inside (VMap m) x) by (intros k l n y E H; eapply inside_trans; [eapply A; eauto|eapply inside_map; eauto; constructor]).
    intros [[]|[[]|[[]|[]]]]; eauto.
  Qed.
  Lemma asks_inside T d s v d' s' v' : free s -> asks T d s v d' s' v' -> d' = d /\ inside s s'.
  Proof.
    intros H A. destruct A; [exfalso; eapply free_no_ref; eauto; constructor|..]; (split; [auto|apply (part_inside d)]); unfold part; auto.
  Qed.
  Lemma needed_inside T d s v d' s' v' : free s -> needed T d s v d' s' v' -> d' = d /\ inside s s'.
  Proof.
    intros H N. induction N as [|d1 s1 v1 d2 s2 v2 N [-> IH] A]; [split; [auto|constructor]|].
    destruct (asks_inside _ _ _ _ _ _ _ (free_inside _ _ H IH) A) as [-> I]. split; auto. eapply inside_trans; eauto.
  Qed.
  Lemma within_inside T d s d' s' : free s -> within T d s d' s' -> inside s s'.
  Proof.
    intros H N. induction N as [|d1 m x N IH Nr P|d1 m r d2 x N IH E HT]; [constructor| |].
    - eapply inside_trans; eauto. apply (part_inside d1). auto.
    - exfalso. eapply free_no_ref; eauto.
  Qed.
  Lemma free_guarded T d s : free s -> guarded T d s.
  Proof. intros H. apply no_refs_guarded. intros d' m W r. eapply free_no_ref; eauto. eapply within_inside; eauto. Qed.

  (** No reference leads anywhere. *)
  Definition nowhere (r : string) (d : draft) (x : value) : Prop := False.
  Lemma free_needed T T' d s v d' s' v' : free s -> needed T d s v d' s' v' -> needed T' d s v d' s' v'.
  Proof.
    intros H N. induction N as [|d1 s1 v1 d2 s2 v2 N IH A]; [constructor|]. econstructor; [exact IH|].
    destruct (needed_inside _ _ _ _ _ _ _ H N) as [-> I].
    destruct A; [exfalso; eapply free_no_ref; eauto|eapply ask_here|eapply ask_item|eapply ask_prop|eapply ask_name]; eauto.
  Qed.
  Lemma free_sem pat fmt same V T T' d s v : free s -> schema_sem pat fmt same V T d s v <-> schema_sem pat fmt same V T' d s v.
  Proof.
    intros H. destruct s as [| | | | | |m|]; cbn [schema_sem]; try tauto. destruct (assoc "$ref" m) as [x|] eqn:E; [|tauto].
    destruct x as [| | | |r| | |]; try tauto. exfalso. eapply free_no_ref; eauto. constructor.
  Qed.
  Lemma free_meaning pat fmt same T d s v : free s -> meaning_at pat fmt same T d s v (meaning pat fmt same nowhere).
  Proof.
    intros H d' s' v' N. destruct (needed_inside _ _ _ _ _ _ _ H N) as [-> I]. rewrite (free_sem _ _ _ _ T nowhere); [|eapply free_inside; eauto].
    apply meaning_rules. eapply guarded_well_founded; [|constructor]. apply free_guarded. eapply free_inside; eauto.
  Qed.
  Lemma free_ids parse inherits n : forall v base, vsize v < n -> free v -> ids_of parse inherits base v = [].
  Proof.
    induction n as [|n IH]; intros v base L H; [lia|]. destruct v as [| | | | |l|m|]; try reflexivity.
    - cbn [ids_of]. induction l as [|x l IHl]; [reflexivity|]. cbn [flat_map]. rewrite IH, IHl; auto.
      + cbn [vsize] in *. simpl in L. simpl. lia.
      + intros m k t I. apply (H m). inversion I; subst. econstructor; [right; eauto|auto].
      + simpl in L. lia.
      + eapply free_inside; [exact H|]. econstructor; [left; reflexivity|constructor].
    - cbn [ids_of]. assert (N : new_scope parse inherits base m = None).
      { unfold new_scope. assert (E : id_text m = None); [|rewrite E; auto]. unfold id_text. destruct (assoc "id" m) as [x|] eqn:E.
        - destruct x; auto. apply assoc_In in E. exfalso. apply (H m "id" s); auto; [constructor|simpl; auto].
        - destruct (assoc "$id" m) as [x|] eqn:E'; auto. destruct x; auto. apply assoc_In in E'. exfalso. apply (H m "$id" s); auto; [constructor|simpl; auto]. }
      unfold scope. rewrite N. cbn [app].
      assert (G : forall m', incl m' m -> flat_map (fun e : string * value => if is_literal (fst e) then [] else if is_schema_map (fst e) then match snd e with VMap c => flat_map (fun e' => ids_of parse inherits base (snd e')) c | _ => [] end else ids_of parse inherits base (snd e)) m' = []).
      { induction m' as [|[k x] m' IHm]; intros Hi; [reflexivity|]. cbn [flat_map fst snd]. rewrite IHm; [|intros a Ha; apply Hi; right; auto]. rewrite app_nil_r.
        assert (Hx : In (k, x) m) by (apply Hi; left; auto). pose proof (vsize_member _ _ _ Hx) as [Sx _].
        assert (Fx : free x) by (eapply free_inside; [exact H|]; eapply inside_map; eauto; constructor).
        destruct (is_literal k); auto. destruct (is_schema_map k); [|apply IH; auto; lia].
        destruct x as [| | | | | |c|]; auto.
        assert (Gc : forall c', incl c' c -> flat_map (fun e' : string * value => ids_of parse inherits base (snd e')) c' = []).
        { induction c' as [|[k' y] c' IHc]; intros Hc; [reflexivity|]. cbn [flat_map snd]. rewrite IHc; [|intros a Ha; apply Hc; right; auto]. rewrite app_nil_r.
          assert (Hy : In (k', y) c) by (apply Hc; left; auto). apply IH; [apply vsize_member in Hy; lia|].
          eapply free_inside; [exact Fx|]. eapply inside_map; eauto. constructor. }
        apply Gc. intros a Ha; auto. }
      apply G. intros a Ha; auto.
  Qed.
End Bare.

Section Logic.
  Variable w : world.
  Hypothesis HU : url_laws w.
  Notation go := (w_go w).
  Notation lim := (e_ratlim go).
  Notation free v := (forall m k t, inside v (VMap m) -> In k ["$ref"; "$id"; "id"] -> ~ In (k, VStr t) m).
  Notation re := (fun p => e_re_ok go p = true).
  Notation url := (fun s => w_parse w s <> None).

  (** NewSchema made sch of the document doc, in some way. *)
  Definition made (doc : value) (sch : schema) : Prop :=
    exists fuel o l sl', fair o /\ (forall fs s, l <> LRef fs s) /\ loader_fit l /\ fst (LoadJSON w l) = Some doc /\
      enough_fuel w NewSchemaLoader doc < fuel /\ NewSchema w fuel o l = LOk sch sl'.
  (** Validating v with the schema doc gives the verdict b. *)
  Definition verdict (doc v : value) (b : bool) : Prop :=
    (exists sch, made doc sch) /\
    forall sch o, made doc sch -> fair o -> exists r, returns go (s_heap sch) (s_root sch) o v r /\ Valid r = b.
  (** The demands of C01 on keywords and instance. *)
  Definition fitting (doc v : value) : Prop :=
    forall d m x, needed nowhere Hybrid doc v d (VMap m) x -> assoc "$ref" m = None -> fits lim m x.

  Lemma bare_draft doc : bare doc -> root_draft w NewSchemaLoader doc = Hybrid.
  Proof.
    intros [_ B]. unfold root_draft, doc_draft. cbn [cenv_of c_autodetect u_parse NewSchemaLoader sl_auto sl_draft].
    destruct doc as [| | | | | |m|]; try reflexivity. cbn [named_draft]. rewrite (B m eq_refl). reflexivity.
  Qed.
  Lemma bare_resolve doc : bare doc -> resolve (w_parse w) (w_inherits w) "" doc = doc.
  Proof. intros [B _]. apply (resolve_mentions_none (cenv_of w NewSchemaLoader) (S (vsize doc))); auto. apply free_mentions; auto. Qed.
  Lemma bare_ids doc : bare doc -> ids_of (w_parse w) (w_inherits w) "" doc = [].
  Proof. intros [B _]. apply (free_ids _ _ (S (vsize doc))); auto. Qed.

  Lemma bare_verdict doc sch : bare doc -> all_numbers (moderate lim) doc -> made doc sch ->
    forall v, usual lim v -> fitting doc v -> forall o, fair o ->
    exists r, returns go (s_heap sch) (s_root sch) o v r /\ (Valid r = true <-> meaning (pat go) (fmt go) same nowhere Hybrid doc v).
  Proof.
    intros B N (fuel & o & l & sl' & F & Hl & Hfit & EL & _ & E) v U FT o' F'.
    pose proof (bare_draft doc B) as Ed. pose proof (bare_resolve doc B) as Er. pose proof (bare_ids doc B) as Ei. pose proof (proj1 B) as Bf.
    pose proof (new_total w HU fuel o l doc sch sl' F Hl Hfit EL N) as X. cbv zeta in X. rewrite Ed, Er, Ei in X.
    destruct (X (NoDup_nil _)) with (v := v) as [A1 A2]; auto.
    - intros k r M. destruct (free_mentions doc Bf k M).
    - intros d m x Hn Er'. apply (FT d); auto. eapply free_needed; eauto.
    - destruct (A2 (free_guarded _ _ _ Bf) o' F') as (r & R & _). exists r. split; auto.
      apply (A1 _ (free_meaning _ _ _ _ _ _ _ Bf) o'); auto.
  Qed.

  Lemma bare_made doc : bare doc -> doc_ok doc -> all_numbers (moderate lim) doc -> forall fuel o l,
    fair o -> (forall fs s, l <> LRef fs s) -> loader_fit l -> fst (LoadJSON w l) = Some doc -> enough_fuel w NewSchemaLoader doc < fuel ->
    ((exists sch sl', NewSchema w fuel o l = LOk sch sl') <-> well_formed re url same Hybrid doc).
  Proof.
    intros B D N fuel o l F Hl Hfit EL Hfu. pose proof (proj1 B) as Bf.
    destruct (compile_plain w HU NewSchemaLoader fuel o l doc F Hl Hfit EL N) as [C _]; auto.
    - apply free_mentions; auto.
    - rewrite (bare_ids doc B). constructor.
    - rewrite (bare_draft doc B) in C. unfold NewSchema. rewrite C. split; [tauto|]. intros W. split; auto. intros _. unfold well_declared.
      destruct W as [b _|m]; [left; eauto|right]. exists m. split; auto. intros x E. rewrite (proj2 B m eq_refl) in E. discriminate.
  Qed.
  Lemma made_well_formed doc sch : bare doc -> doc_ok doc -> all_numbers (moderate lim) doc -> made doc sch -> well_formed re url same Hybrid doc.
  Proof. intros B D N (fuel & o & l & sl' & F & Hl & Hfit & EL & Hfu & E). apply (bare_made doc B D N fuel o l); eauto. Qed.
  Lemma well_formed_made doc : bare doc -> doc_ok doc -> all_numbers (moderate lim) doc -> well_formed re url same Hybrid doc -> exists sch, made doc sch.
  Proof.
    intros B D N W. set (fuel := S (enough_fuel w NewSchemaLoader doc)).
    destruct (proj2 (bare_made doc B D N fuel in_order (LRaw doc) in_order_fair ltac:(discriminate) D eq_refl ltac:(unfold fuel; lia)) W) as (sch & sl' & E).
    exists sch. exists fuel, in_order, (LRaw doc), sl'. repeat split; auto; try discriminate; try apply in_order_fair; unfold fuel; try lia; apply D.
  Qed.
  Theorem bare_decided doc : bare doc -> doc_ok doc -> all_numbers (moderate lim) doc -> (exists sch, made doc sch) ->
    forall v, usual lim v -> fitting doc v -> exists b, verdict doc v b /\ (b = true <-> meaning (pat go) (fmt go) same nowhere Hybrid doc v).
  Proof.
    intros B D N [sch M] v U FT. destruct (bare_verdict doc sch B N M v U FT in_order in_order_fair) as (r & R & E). exists (Valid r). split; auto. split; [eauto|].
    intros sch' o M' F. destruct (bare_verdict doc sch' B N M' v U FT o F) as (r' & R' & E'). exists r'. split; auto.
    destruct (Valid r), (Valid r'); auto; [apply E', E; reflexivity|symmetry; apply E, E'; reflexivity].
  Qed.
  Lemma verdict_meaning doc v b : bare doc -> doc_ok doc -> all_numbers (moderate lim) doc -> usual lim v -> fitting doc v -> verdict doc v b ->
    (b = true <-> meaning (pat go) (fmt go) same nowhere Hybrid doc v).
  Proof.
    intros B D N U FT [[sch M] V]. destruct (V sch in_order M in_order_fair) as (r & R & E).
    destruct (bare_decided doc B D N (ex_intro _ sch M) v U FT) as (b' & [_ V'] & E'). destruct (V' sch in_order M in_order_fair) as (r' & R' & E2).
    assert (r = r') by (eapply returns_unique; eauto). subst. tauto.
  Qed.

  (** Formulas. *)
  Section Formulas.
    Variable s : nat -> value.
    Variable PF : formula -> Prop.
    Hypothesis H1 : forall i, PF (Atom i).
    Hypothesis H2 : forall fs, Forall PF fs -> PF (All fs).
    Hypothesis H3 : forall fs, Forall PF fs -> PF (Any fs).
    Hypothesis H4 : forall fs, Forall PF fs -> PF (One fs).
    Hypothesis H5 : forall f, PF f -> PF (Neg f).
    Hypothesis H6 : forall f g h, PF f -> PF g -> PF h -> PF (Cond f g h).
    Fixpoint formula_rect' (f : formula) : PF f :=
      let many := fix many (fs : list formula) : Forall PF fs :=
        match fs with [] => Forall_nil _ | f :: fs' => Forall_cons f (formula_rect' f) (many fs') end in
      match f with
      | Atom i => H1 i
      | All fs => H2 fs (many fs)
      | Any fs => H3 fs (many fs)
      | One fs => H4 fs (many fs)
      | Neg f => H5 f (formula_rect' f)
      | Cond f g h => H6 f g h (formula_rect' f) (formula_rect' g) (formula_rect' h)
      end.
  End Formulas.

  Lemma kw_absent m k P : assoc k m = None -> kw m k P.
  Proof. intros E x Ex. congruence. Qed.
  Lemma kw_present m k (P : value -> Prop) y : assoc k m = Some y -> P y -> kw m k P.
  Proof. intros E H x Ex. congruence. Qed.
  Ltac shapes :=
    unfold head_shapes, plain_shapes, schema_shapes; repeat match goal with |- _ /\ _ => split end;
    first [apply kw_absent; reflexivity | intros _; apply kw_absent; reflexivity | eapply kw_present; [reflexivity|eexists; reflexivity]].
  Ltac sub H :=
    inversion H as [? ? ? E|? ? ? ? Hk E|? ? Hk E|? ? ? E|? E|? ? ? Hk E|? ? ? Hk E|? ? ? Hk E|? E]; subst; simpl in *;
    repeat match goal with H : _ \/ _ |- _ => destruct H as [<-|H] | H : False |- _ => destruct H end; simpl in *; try discriminate;
    match goal with E : Some _ = Some _ |- _ => injection E as E; subst end.
  Ltac utf8 := apply utf8_checked; vm_compute; reflexivity.
  Section Write.
    Variable s : nat -> value.
    (** A fact about the atoms that the connectives preserve. *)
    Lemma write_lift (P : value -> Prop) f : proper f -> (forall i, In i (atoms f) -> P (s i)) ->
      (forall k l, In k ["allOf"; "anyOf"; "oneOf"] -> l <> [] -> Forall P l -> P (VMap [(k, VArr l)])) ->
      (forall x, P x -> P (VMap [("not", x)])) ->
      (forall x y z, P x -> P y -> P z -> P (VMap [("if", x); ("then", y); ("else", z)])) -> P (write s f).
    Proof.
      intros Hp Ha Hl Hn Hc. revert Hp Ha.
      assert (L : forall fs, Forall (fun f => proper f -> (forall i, In i (atoms f) -> P (s i)) -> P (write s f)) fs -> Forall proper fs ->
                  (forall i, In i (flat_map atoms fs) -> P (s i)) -> Forall P (map (write s) fs)).
      { intros fs IH Fp Ha. rewrite Forall_forall in *. intros x Hx. apply in_map_iff in Hx. destruct Hx as (f0 & <- & Hf). apply IH; auto.
        intros i Hi. apply Ha. apply in_flat_map. eauto. }
      induction f as [i|fs IH|fs IH|fs IH|f IH|f g h IHf IHg IHh] using formula_rect'; intros Hp Ha; cbn [write].
      - apply Ha. left; auto.
      - inversion Hp; subst. apply Hl; [left; auto|destruct fs; [congruence|discriminate]|auto].
      - inversion Hp; subst. apply Hl; [right; left; auto|destruct fs; [congruence|discriminate]|auto].
      - inversion Hp; subst. apply Hl; [right; right; left; auto|destruct fs; [congruence|discriminate]|auto].
      - inversion Hp; subst. auto.
      - inversion Hp; subst. cbn [atoms] in Ha. apply Hc; [apply IHf|apply IHg|apply IHh]; auto; intros i Hi; apply Ha; rewrite !in_app_iff; auto.
    Qed.

    Lemma write_free f : proper f -> (forall i, In i (atoms f) -> free (s i)) -> free (write s f).
    Proof.
      intros Hp Ha. apply (write_lift (fun v => free v)); auto; clear.
      - intros k l Hk _ Hl m k' t I. inversion I as [|? ? ? Hx I'|m' k1 x y Hx I']; subst.
        + intros Hi [E|[]]. discriminate.
        + destruct Hx as [E|[]]. injection E as <- <-. inversion I' as [|? x' ? Hx' I2|]; subst. rewrite Forall_forall in Hl. apply (Hl x'); auto.
      - intros x Hx m k t I. inversion I as [| |m' k1 x1 y H I']; subst.
        + intros Hi [E|[]]. injection E as <- _. destruct Hi as [E|[E|[E|[]]]]; discriminate.
        + destruct H as [E|[]]. injection E as <- <-. apply Hx; auto.
      - intros x y z Hx Hy Hz m k t I. inversion I as [| |m' k1 x1 y1 H I']; subst.
        + intros Hi [E|[E|[E|[]]]]; injection E as <- _; destruct Hi as [E|[E|[E|[]]]]; discriminate.
        + destruct H as [E|[E|[E|[]]]]; injection E as <- <-; [apply Hx|apply Hy|apply Hz]; auto.
    Qed.
    Lemma write_bare f : proper f -> (forall i, In i (atoms f) -> bare (s i)) -> bare (write s f).
    Proof.
      intros Hp Ha. split; [apply write_free; auto; intros i Hi; apply (Ha i Hi)|]. intros m E.
      destruct f; cbn [write] in E; try (injection E as <-; reflexivity). apply (Ha i (or_introl eq_refl)). auto.
    Qed.
    Lemma doc_ok_single m : NoDup (map fst m) -> Forall (fun e => utf8_text (fst e) /\ doc_ok (snd e)) m -> doc_ok (VMap m).
    Proof. intros A B. apply doc_ok_map_iff. auto. Qed.
    Lemma write_doc_ok f : proper f -> (forall i, In i (atoms f) -> doc_ok (s i)) -> doc_ok (write s f).
    Proof.
      intros Hp Ha. apply write_lift; auto; clear.
      - intros k l Hk _ Hl. apply doc_ok_single; [repeat constructor; auto|]. constructor; [|constructor]. cbn [fst snd]. split; [|apply doc_ok_arr_iff; auto]. destruct Hk as [<-|[<-|[<-|[]]]]; utf8.
      - intros x Hx. apply doc_ok_single; [repeat constructor; auto|]. constructor; [split; [utf8|auto]|constructor].
      - intros x y z Hx Hy Hz. apply doc_ok_single.
        + repeat constructor; simpl; intuition discriminate.
        + repeat (constructor; [split; [utf8|auto]|]). constructor.
    Qed.
    Lemma write_numbers P f : proper f -> (forall i, In i (atoms f) -> all_numbers P (s i)) -> all_numbers P (write s f).
    Proof.
      intros Hp Ha. apply write_lift; auto; clear.
      - intros k l Hk _ Hl. repeat constructor. auto.
      - intros x Hx. repeat constructor. auto.
      - intros x y z Hx Hy Hz. repeat constructor; auto.
    Qed.
    Lemma write_well_formed f : proper f -> (forall i, In i (atoms f) -> well_formed re url same Hybrid (s i)) -> well_formed re url same Hybrid (write s f).
    Proof.
      intros Hp Ha. apply write_lift; auto; clear.
      - intros k l Hk _ Hl. rewrite Forall_forall in Hl. destruct Hk as [<-|[<-|[<-|[]]]]; (constructor; [split; [|split]; solve [shapes]|]); intros x Hx; sub Hx; apply Hl; auto.
      - intros x W. constructor; [split; [|split]; solve [shapes]|]. intros y Hy. sub Hy; auto.
      - intros x y z W1 W2 W3. constructor; [split; [|split]; solve [shapes]|]. intros u Hu. sub Hu; auto.
    Qed.

    Lemma needed_cases T d x v d' x' v' : needed T d x v d' x' v' ->
      (d' = d /\ x' = x /\ v' = v) \/ exists d1 x1 v1, asks T d x v d1 x1 v1 /\ needed T d1 x1 v1 d' x' v'.
    Proof.
      induction 1 as [|d1 x1 v1 d2 x2 v2 N [(-> & -> & ->)|(d3 & x3 & v3 & A3 & N3)] A]; [left; auto|right; exists d2, x2, v2; split; [auto|constructor]|].
      right. exists d3, x3, v3. split; auto. econstructor; eauto.
    Qed.
    (** A connective hands on the instance itself, to its operands only. *)
    Lemma write_asks m v d1 x1 v1 : asks nowhere Hybrid (VMap m) v d1 x1 v1 ->
      (forall k, In k ["items"; "additionalItems"; "contains"; "additionalProperties"; "properties"; "patternProperties"; "propertyNames"; "dependencies"] -> assoc k m = None) ->
      d1 = Hybrid /\ v1 = v /\
      (assoc "not" m = Some x1 \/ (exists k, In k ["if"; "then"; "else"] /\ assoc k m = Some x1) \/
       exists k l, In k ["allOf"; "anyOf"; "oneOf"] /\ assoc k m = Some (VArr l) /\ In x1 l).
    Proof.
      intros A N. inversion A as [? ? r ? ? ? E T|? ? ? ? Nr P|? ? ? ? ? Nr P He|? ? ? ? ? ? Nr P He|? ? ? ? ? Nr P He]; subst.
      - destruct T.
      - split; auto. split; auto. inversion P as [? E|k ? H7 Hk E|k l ? Hk E Hx|ds n ? E Hx]; subst; auto.
        + right. left. eauto.
        + right. right. eauto 6.
        + rewrite N in E; [discriminate|simpl; tauto].
      - exfalso. inversion P as [k ? Hk E|? H6 E|? ? E Hx]; subst; (rewrite N in E; [discriminate E|]); [|simpl; tauto..].
        destruct Hk as [<-|[<-|[]]]; simpl; tauto.
      - exfalso. inversion P as [? E|k1 ? ? ? Hk E Hx]; subst; (rewrite N in E; [discriminate E|]); [simpl; tauto|].
        destruct Hk as [<-|[<-|[]]]; simpl; tauto.
      - exfalso. destruct P as [_ E]. rewrite N in E; [discriminate E|simpl; tauto].
    Qed.
    Lemma write_fitting f v : proper f -> (forall i, In i (atoms f) -> fitting (s i) v) -> fitting (write s f) v.
    Proof.
      intros Hp Ha. apply (write_lift (fun x => fitting x v)); auto; clear.
      - intros k l Hk Nl Hl d m x N Hr. rewrite Forall_forall in Hl. apply needed_cases in N. destruct N as [(-> & E & ->)|(d1 & x1 & v1 & A & N)].
        + injection E as ->. destruct Hk as [<-|[<-|[<-|[]]]]; (split; [|intros [C|[C|C]]; [destruct (C eq_refl)..|discriminate C]]);
            repeat split; cbn -[moderate]; try discriminate; intros C; injection C as ->; auto.
        + apply write_asks in A; [|destruct Hk as [<-|[<-|[<-|[]]]]; intros k' Hk'; simpl in Hk'; decompose [or] Hk'; subst; reflexivity || contradiction].
          destruct A as (-> & -> & A).
          assert (In x1 l); [|eapply Hl; eauto].
          destruct Hk as [<-|[<-|[<-|[]]]]; (destruct A as [A|[(k' & Hk' & A)|(k' & l' & Hk' & A & Hx)]]; [discriminate A|destruct Hk' as [<-|[<-|[<-|[]]]]; discriminate A|]);
            destruct Hk' as [<-|[<-|[<-|[]]]]; try discriminate A; injection A as <-; auto.
      - intros y Hy d m x N Hr. apply needed_cases in N. destruct N as [(-> & E & ->)|(d1 & x1 & v1 & A & N)].
        + injection E as ->. split; [|intros [C|[C|C]]; [destruct (C eq_refl)..|discriminate C]]. repeat split; cbn -[moderate]; discriminate.
        + apply write_asks in A; [|intros k' Hk'; simpl in Hk'; decompose [or] Hk'; subst; reflexivity || contradiction].
          destruct A as (-> & -> & A). assert (x1 = y); [|subst; eapply Hy; eauto].
          destruct A as [A|[(k' & Hk' & A)|(k' & l' & Hk' & A & Hx)]]; [injection A as ->; auto|destruct Hk' as [<-|[<-|[<-|[]]]]; discriminate A..].
      - intros y z u Hy Hz Hu d m x N Hr. apply needed_cases in N. destruct N as [(-> & E & ->)|(d1 & x1 & v1 & A & N)].
        + injection E as ->. split; [|intros [C|[C|C]]; [destruct (C eq_refl)..|discriminate C]]. repeat split; cbn -[moderate]; discriminate.
        + apply write_asks in A; [|intros k' Hk'; simpl in Hk'; decompose [or] Hk'; subst; reflexivity || contradiction].
          destruct A as (-> & -> & A). assert (x1 = y \/ x1 = z \/ x1 = u) as [->|[->| ->]]; [|eapply Hy; eauto|eapply Hz; eauto|eapply Hu; eauto].
          destruct A as [A|[(k' & Hk' & A)|(k' & l' & Hk' & A & Hx)]]; [discriminate A| |destruct Hk' as [<-|[<-|[<-|[]]]]; discriminate A].
          destruct Hk' as [<-|[<-|[<-|[]]]]; injection A as ->; auto.
    Qed.

    (** The rules for the connectives. *)
    Notation M := (meaning (pat go) (fmt go) same nowhere Hybrid).
    Lemma free_rules x v : free x -> (M x v <-> schema_sem (pat go) (fmt go) same (meaning (pat go) (fmt go) same nowhere) nowhere Hybrid x v).
    Proof. intros H. apply meaning_rules. eapply guarded_well_founded; [|constructor]. apply free_guarded. auto. Qed.
    Ltac absent := first [apply kw_absent; reflexivity | intros _; apply kw_absent; reflexivity].
    Lemma means_all l v : free (VMap [("allOf", VArr l)]) -> (M (VMap [("allOf", VArr l)]) v <-> forall x, In x l -> M x v).
    Proof.
      intros H. rewrite (free_rules _ _ H). cbn [schema_sem]. change (assoc "$ref" [("allOf", VArr l)]) with (@None value). cbv iota. split.
      - intros (_ & _ & _ & _ & K & _). exact (K _ eq_refl l eq_refl).
      - intros K. unfold keywords. repeat match goal with |- _ /\ _ => split end; try absent. eapply kw_present; [reflexivity|]. intros l' [= <-]. auto.
    Qed.
    Lemma means_any l v : free (VMap [("anyOf", VArr l)]) -> (M (VMap [("anyOf", VArr l)]) v <-> exists x, In x l /\ M x v).
    Proof.
      intros H. rewrite (free_rules _ _ H). cbn [schema_sem]. change (assoc "$ref" [("anyOf", VArr l)]) with (@None value). cbv iota. split.
      - intros (_ & _ & _ & _ & _ & K & _). exact (K _ eq_refl l eq_refl).
      - intros K. unfold keywords. repeat match goal with |- _ /\ _ => split end; try absent. eapply kw_present; [reflexivity|]. intros l' [= <-]. auto.
    Qed.
    Lemma means_one l v : free (VMap [("oneOf", VArr l)]) -> (M (VMap [("oneOf", VArr l)]) v <->
      exists i x, nth_error l i = Some x /\ M x v /\ forall j y, nth_error l j = Some y -> M y v -> j = i).
    Proof.
      intros H. rewrite (free_rules _ _ H). cbn [schema_sem]. change (assoc "$ref" [("oneOf", VArr l)]) with (@None value). cbv iota. split.
      - intros (_ & _ & _ & _ & _ & _ & K & _). exact (K _ eq_refl l eq_refl).
      - intros K. unfold keywords. repeat match goal with |- _ /\ _ => split end; try absent. eapply kw_present; [reflexivity|]. intros l' [= <-]. auto.
    Qed.
    Lemma means_not x v : free (VMap [("not", x)]) -> (M (VMap [("not", x)]) v <-> ~ M x v).
    Proof.
      intros H. rewrite (free_rules _ _ H). cbn [schema_sem]. change (assoc "$ref" [("not", x)]) with (@None value). cbv iota. split.
      - intros (_ & _ & _ & _ & _ & _ & _ & K & _). exact (K _ eq_refl).
      - intros K. unfold keywords. repeat match goal with |- _ /\ _ => split end; try absent. eapply kw_present; [reflexivity|]. auto.
    Qed.
    Lemma means_if x y z v : let m := [("if", x); ("then", y); ("else", z)] in free (VMap m) -> (M (VMap m) v <-> (M x v -> M y v) /\ (~ M x v -> M z v)).
    Proof.
      intros m H. rewrite (free_rules _ _ H). cbn [schema_sem]. change (assoc "$ref" m) with (@None value). cbv iota. split.
      - intros (_ & _ & _ & _ & _ & _ & _ & _ & K & _). destruct (K (or_intror eq_refl) _ eq_refl) as [K1 K2]. split; intros A; [exact (K1 A _ eq_refl)|exact (K2 A _ eq_refl)].
      - intros [K1 K2]. unfold keywords. repeat match goal with |- _ /\ _ => split end; try absent. intros _. eapply kw_present; [reflexivity|].
        split; intros A; (eapply kw_present; [reflexivity|]); auto.
    Qed.
    Lemma one_filter {A} (p : A -> bool) l : length (filter p l) = 1 <->
      exists i x, nth_error l i = Some x /\ p x = true /\ forall j y, nth_error l j = Some y -> p y = true -> j = i.
    Proof.
      induction l as [|a l IH]; cbn [filter].
      - split; [discriminate|]. intros (i & x & E & _). destruct i; discriminate.
      - destruct (p a) eqn:Ea; cbn [length].
        + split.
          * intros L. assert (filter p l = []) by (destruct (filter p l); [auto|discriminate]). exists 0, a. split; auto. split; auto.
            intros [|j] y Ej Py; auto. exfalso. assert (In y (filter p l)) by (apply filter_In; split; [eapply nth_error_In; eauto|auto]). rewrite H in H0. destruct H0.
          * intros (i & x & E & Px & U). assert (i = 0) by (symmetry; apply (U 0 a); auto). subst. destruct (filter p l) as [|y r] eqn:Ef; auto.
            assert (Hy : In y (filter p l)) by (rewrite Ef; left; auto). apply filter_In in Hy. destruct Hy as [Hy Py]. apply In_nth_error in Hy. destruct Hy as [j Ej].
            specialize (U (S j) y Ej Py). discriminate.
        + rewrite IH. split; intros (i & x & E & Px & U).
          * exists (S i), x. split; auto. split; auto. intros [|j] y Ej Py; [cbn in Ej; congruence|]. f_equal. eapply U; eauto.
          * destruct i as [|i]; [cbn in E; congruence|]. exists i, x. split; auto. split; auto. intros j y Ej Py. specialize (U (S j) y Ej Py). congruence.
    Qed.
    Lemma means_truth v b f : proper f -> (forall i, In i (atoms f) -> free (s i)) -> (forall i, In i (atoms f) -> (b i = true <-> M (s i) v)) ->
      (truth b f = true <-> M (write s f) v).
    Proof.
      intros Hp Hf Hb. pose proof (write_free f Hp Hf) as W. revert Hp Hf Hb W.
      assert (L : forall fs, Forall (fun f => proper f -> (forall i, In i (atoms f) -> free (s i)) -> (forall i, In i (atoms f) -> (b i = true <-> M (s i) v)) -> free (write s f) -> (truth b f = true <-> M (write s f) v)) fs ->
                  Forall proper fs -> (forall i, In i (flat_map atoms fs) -> free (s i)) -> (forall i, In i (flat_map atoms fs) -> (b i = true <-> M (s i) v)) ->
                  forall f, In f fs -> (truth b f = true <-> M (write s f) v)).
      { intros fs IH Fp Hf Hb f0 Hi. rewrite Forall_forall in *. assert (A : forall i, In i (atoms f0) -> In i (flat_map atoms fs)) by (intros i H; apply in_flat_map; eauto).
        exact (IH f0 Hi (Fp f0 Hi) (fun i H => Hf i (A i H)) (fun i H => Hb i (A i H)) (write_free f0 (Fp f0 Hi) (fun i H => Hf i (A i H)))). }
      induction f as [i|fs IH|fs IH|fs IH|f IH|f g h IHf IHg IHh] using formula_rect'; intros Hp Hf Hb W; cbn [write truth atoms] in *.
      - apply Hb. left; auto.
      - inversion Hp as [|? _ Fp| | | |]; subst. specialize (L fs IH Fp Hf Hb). rewrite (means_all _ _ W), forallb_forall. split.
        + intros H x Hx. apply in_map_iff in Hx. destruct Hx as (f & <- & Hx). apply L; auto.
        + intros H f Hi. apply L; auto. apply H. apply in_map. auto.
      - inversion Hp as [| |? _ Fp| | |]; subst. specialize (L fs IH Fp Hf Hb). rewrite (means_any _ _ W), existsb_exists. split.
        + intros (f & Hi & E). exists (write s f). split; [apply in_map; auto|apply L; auto].
        + intros (x & Hx & E). apply in_map_iff in Hx. destruct Hx as (f & <- & Hx). exists f. split; auto. apply L; auto.
      - inversion Hp as [| | |? _ Fp| |]; subst. specialize (L fs IH Fp Hf Hb). rewrite (means_one _ _ W), Nat.eqb_eq, one_filter. split; intros (i & x & E & Px & U).
        + exists i, (write s x). split; [rewrite nth_error_map, E; auto|]. split; [apply L; auto; eapply nth_error_In; eauto|].
          intros j y Ej Py. rewrite nth_error_map in Ej. destruct (nth_error fs j) as [f|] eqn:Ef; [|discriminate]. injection Ej as <-.
          apply (U j f); auto. apply L; auto. eapply nth_error_In; eauto.
        + rewrite nth_error_map in E. destruct (nth_error fs i) as [f|] eqn:Ef; [|discriminate]. injection E as <-. exists i, f. split; auto.
          split; [apply L; auto; eapply nth_error_In; eauto|]. intros j y Ej Py. apply (U j (write s y)); [rewrite nth_error_map, Ej; auto|].
          apply L; auto. eapply nth_error_In; eauto.
      - inversion Hp; subst. rewrite (means_not _ _ W), negb_true_iff, <- (IH H0 Hf Hb (write_free f H0 Hf)). destruct (truth b f); intuition congruence.
      - inversion Hp as [| | | | |? ? ? P1 P2 P3]; subst. rewrite (means_if _ _ _ _ W).
        assert (A1 : forall i, In i (atoms f) -> In i (atoms f ++ atoms g ++ atoms h)) by (intros; rewrite !in_app_iff; auto).
        assert (A2 : forall i, In i (atoms g) -> In i (atoms f ++ atoms g ++ atoms h)) by (intros; rewrite !in_app_iff; auto).
        assert (A3 : forall i, In i (atoms h) -> In i (atoms f ++ atoms g ++ atoms h)) by (intros; rewrite !in_app_iff; auto).
        assert (E1 : truth b f = true <-> M (write s f) v) by exact (IHf P1 (fun i H => Hf i (A1 i H)) (fun i H => Hb i (A1 i H)) (write_free f P1 (fun i H => Hf i (A1 i H)))).
        assert (E2 : truth b g = true <-> M (write s g) v) by exact (IHg P2 (fun i H => Hf i (A2 i H)) (fun i H => Hb i (A2 i H)) (write_free g P2 (fun i H => Hf i (A2 i H)))).
        assert (E3 : truth b h = true <-> M (write s h) v) by exact (IHh P3 (fun i H => Hf i (A3 i H)) (fun i H => Hb i (A3 i H)) (write_free h P3 (fun i H => Hf i (A3 i H)))).
        rewrite <- E1, <- E2, <- E3. destruct (truth b f); intuition congruence.
    Qed.

    (** An atom: a schema that NewSchema accepts, and for which the instance is
        within the reach of the library. *)
    Definition simple (x : value) : Prop := bare x /\ doc_ok x /\ all_numbers (moderate lim) x /\ exists sch, made x sch.

    Theorem formula_compiles f : proper f -> (forall i, In i (atoms f) -> simple (s i)) -> simple (write s f).
    Proof.
      intros Hp Ha.
      assert (B : bare (write s f)) by (apply write_bare; auto; intros i Hi; apply (Ha i Hi)).
      assert (D : doc_ok (write s f)) by (apply write_doc_ok; auto; intros i Hi; apply (Ha i Hi)).
      assert (N : all_numbers (moderate lim) (write s f)) by (apply write_numbers; auto; intros i Hi; apply (Ha i Hi)).
      split; auto. split; auto. split; auto. apply well_formed_made; auto. apply write_well_formed; auto.
      intros i Hi. destruct (Ha i Hi) as (B1 & D1 & N1 & sch & M1). eapply made_well_formed; eauto.
    Qed.
    Theorem formula_verdict f v b : proper f -> (forall i, In i (atoms f) -> simple (s i)) -> usual lim v ->
      (forall i, In i (atoms f) -> fitting (s i) v) -> (forall i, In i (atoms f) -> verdict (s i) v (b i)) ->
      verdict (write s f) v (truth b f).
    Proof.
      intros Hp Ha U FT Hv. destruct (formula_compiles f Hp Ha) as (B & D & N & X).
      destruct (bare_decided _ B D N X v U) as (b' & V & E); [apply write_fitting; auto|].
      assert (E' : truth b f = true <-> M (write s f) v).
      { apply means_truth; auto; [intros i Hi; apply (Ha i Hi)|]. intros i Hi. destruct (Ha i Hi) as (B1 & D1 & N1 & _). apply verdict_meaning; auto. }
      assert (truth b f = b') as ->; auto. destruct (truth b f), b'; auto; [symmetry; apply E, E'; auto|apply E', E; auto].
    Qed.
  End Write.

  Lemma finite_choice {A} (P : A -> bool -> Prop) (dec : forall x y : A, {x = y} + {x <> y}) l :
    (forall i, In i l -> exists b, P i b) -> exists f, forall i, In i l -> P i (f i).
  Proof.
    induction l as [|a l IH]; intros H; [exists (fun _ => true); intros i []|].
    destruct IH as [f Hf]; [intros i Hi; apply H; right; auto|]. destruct (H a) as [b Hb]; [left; auto|].
    exists (fun i => if dec i a then b else f i). intros i Hi. destruct (dec i a) as [->|n]; auto. destruct Hi as [->|Hi]; [congruence|auto].
  Qed.
  (** Equivalent formulas give equivalent schemas. *)
  Theorem formula_equivalent s f g v : proper f -> proper g -> (forall b, truth b f = truth b g) ->
    (forall i, In i (atoms f ++ atoms g) -> simple (s i) /\ fitting (s i) v) -> usual lim v ->
    exists b, verdict (write s f) v b /\ verdict (write s g) v b.
  Proof.
    intros Pf Pg E Ha U. destruct (finite_choice (fun i b => verdict (s i) v b) Nat.eq_dec (atoms f ++ atoms g)) as [b Hb].
    { intros i Hi. destruct (Ha i Hi) as [(B & D & N & X) FT]. destruct (bare_decided _ B D N X v U FT) as (b & V & _). eauto. }
    exists (truth b f). split; [|rewrite E]; (apply formula_verdict; auto; [intros i Hi; apply Ha|intros i Hi; apply Ha|intros i Hi; apply Hb]; apply in_app_iff; auto).
  Qed.
End Logic.
