(** A world whose URL library behaves only on some references, and the world
    that rejects all others: on documents with none of the others, a
    SchemaLoader cannot tell the two apart. *)
From Verif Require Import ValidateOrder JsonDecode.
From Verif Require Export LoadFetch LoadPanic SpecMeta.
Open Scope string_scope.
Open Scope list_scope.
Open Scope nat_scope.

Section Tame.
  Variable w : world.
  Variable tame : string -> bool.

  (** The same world, but references that are not tame do not parse. *)
  Definition tame_world : world :=
    World (w_go w)
      (fun s => match w_parse w s with Some r => if tame r then Some r else None | None => None end)
      (fun b r => if (tame b && tame r)%bool then w_inherits w b r else Some "")
      (fun r => if tame r then w_strip w r else "")
      (fun r => if tame r then w_fragment w r else "")
      (fun r => if tame r then w_canonical w r else w_canonical w "")
      (w_file w) (w_fs w) (w_http w) (w_rest w).

  (** Documents in which "id", "$id", "$ref" and "$schema" are tame, or no URLs at all. *)
  Definition tame_string (s : string) : bool := match w_parse w s with Some r => tame r | None => true end.
  Definition url_key (k : string) : bool :=
    (String.eqb k "id" || String.eqb k "$id" || String.eqb k "$ref" || String.eqb k "$schema")%bool.
  Definition tame_under (k : string) (v : value) : bool :=
    match v with VStr s => if url_key k then tame_string s else true | _ => true end.
  Fixpoint tame_doc (v : value) : bool :=
    match v with
    | VArr l => forallb tame_doc l
    | VMap m => forallb (fun e => tame_under (fst e) (snd e) && tame_doc (snd e))%bool m
    | _ => true
    end.
  Definition tame_pool (p : pool) : Prop := Forall (fun e => tame_doc (sp_doc (snd e)) = true) p.

  (** The library behaves on tame references. *)
  Definition tame_laws : Prop :=
    tame "" = true /\ w_parse w "#" = Some "" /\ w_strip w "" = "" /\ w_fragment w "" = "" /\
    (forall r, tame r = true -> utf8_text r) /\
    (forall r, tame r = true -> w_parse w r = Some r) /\
    (forall b r, tame b = true -> tame r = true -> exists x, w_inherits w b r = Some x /\ tame x = true) /\
    (forall r, tame r = true -> tame (w_strip w r) = true /\ w_strip w (w_strip w r) = w_strip w r /\
                                w_fragment w (w_strip w r) = "" /\ w_canonical w (w_strip w r) = w_canonical w r).
  Hypothesis HT : tame_laws.

  Lemma tame_nil : tame "" = true. Proof. apply HT. Qed.
  Lemma tame_parse r : tame r = true -> w_parse w r = Some r. Proof. apply HT. Qed.
  Lemma tame_inherits b r : tame b = true -> tame r = true -> exists x, w_inherits w b r = Some x /\ tame x = true. Proof. apply HT. Qed.
  Lemma tame_strip r : tame r = true -> tame (w_strip w r) = true. Proof. apply HT. Qed.

  (** *** The restricted world has every law *)
  Lemma tame_url_laws : url_laws tame_world.
  Proof.
    destruct HT as (T1 & T2 & T3 & T4 & T5 & T6 & T7 & T8). unfold url_laws. cbn. split; [rewrite T2, T1; reflexivity|]. split; [|split; [|split]].
    - intros b r s H. destruct (w_parse w s) as [x|]; [|discriminate H]. destruct (tame x) eqn:E; [|discriminate H]. injection H as ->. rewrite E, andb_true_r. destruct (tame b) eqn:Eb; [|discriminate].
      destruct (T7 b r Eb E) as (y & -> & _). discriminate.
    - intros s r _ H. destruct (w_parse w s) as [x|]; [|discriminate H]. destruct (tame x) eqn:E; [|discriminate H]. injection H as ->. auto.
    - intros b r a _ _ H. destruct (tame b) eqn:Eb; cbn [andb] in H; [|injection H as <-; apply utf8_empty]. destruct (tame r) eqn:Er; [|injection H as <-; apply utf8_empty].
      destruct (T7 b r Eb Er) as (y & Ey & Ty). rewrite Ey in H. injection H as <-. auto.
    - intros r _. destruct (tame r) eqn:E; [apply T5, T8; auto|apply utf8_empty].
  Qed.
  Lemma tame_web_laws : web_laws tame_world.
  Proof.
    destruct HT as (T1 & T2 & T3 & T4 & T5 & T6 & T7 & T8). unfold web_laws. cbn. split; [|split; [|split]].
    - intros r. destruct (tame r) eqn:E; [destruct (T8 r E) as (-> & H & _); auto|rewrite T1; auto].
    - intros r. destruct (tame r) eqn:E; [destruct (T8 r E) as (-> & _ & H & _); auto|rewrite T1; auto].
    - intros r. destruct (tame r) eqn:E; [destruct (T8 r E) as (-> & _ & _ & H); auto|rewrite T1; auto].
    - intros s r H. destruct (w_parse w s) as [x|]; [|discriminate H]. destruct (tame x) eqn:E; [|discriminate H]. injection H as ->. rewrite (T6 r E), E. split; auto.
      destruct (T8 r E) as (E' & _). rewrite (T6 _ E'), E'. reflexivity.
  Qed.

  (** *** Tame documents *)
  Lemma doc_member m k v : tame_doc (VMap m) = true -> In (k, v) m -> tame_under k v = true /\ tame_doc v = true.
  Proof. cbn [tame_doc]. rewrite forallb_forall. intros H I. apply H in I. apply andb_true_iff in I. exact I. Qed.
  Lemma doc_assoc m k v : tame_doc (VMap m) = true -> assoc k m = Some v -> tame_under k v = true /\ tame_doc v = true.
  Proof. intros H E. apply assoc_In in E. eapply doc_member; eauto. Qed.
  Lemma doc_key m k s : tame_doc (VMap m) = true -> url_key k = true -> assoc k m = Some (VStr s) ->
    w_parse tame_world s = w_parse w s /\ forall r, w_parse w s = Some r -> tame r = true.
  Proof.
    intros H K E. destruct (doc_assoc _ _ _ H E) as [U _]. cbn [tame_under] in U. rewrite K in U. unfold tame_string in U. cbn. destruct (w_parse w s) as [r|]; [rewrite U; split; auto; intros x [= <-]; auto|split; [reflexivity|discriminate]].
  Qed.
  Lemma doc_item l v : tame_doc (VArr l) = true -> In v l -> tame_doc v = true.
  Proof. cbn [tame_doc]. rewrite forallb_forall. auto. Qed.
  Lemma doc_entries m : tame_doc (VMap m) = true <-> Forall (fun e => tame_under (fst e) (snd e) = true /\ tame_doc (snd e) = true) m.
  Proof. cbn [tame_doc]. rewrite forallb_forall, Forall_forall. split; intros H e I; apply H in I; apply andb_true_iff; auto. Qed.
  Lemma doc_aset m k v : tame_doc (VMap m) = true -> tame_under k v = true -> tame_doc v = true -> tame_doc (VMap (aset k v m)) = true.
  Proof. rewrite !doc_entries. intros H U D. apply aset_Forall; auto. Qed.
  Lemma doc_pick m o e : fair o -> tame_doc (VMap m) = true -> In e (pick o m) -> tame_under (fst e) (snd e) = true /\ tame_doc (snd e) = true.
  Proof. intros Ho H I. destruct e as [k v]. apply (doc_member m); auto. eapply Permutation.Permutation_in; [apply Permutation.Permutation_sym, pick_perm; exact Ho|exact I]. Qed.
  Lemma pool_assoc p k e : tame_pool p -> assoc k p = Some e -> tame_doc (sp_doc e) = true.
  Proof. intros H E. apply assoc_In in E. unfold tame_pool in H. rewrite Forall_forall in H. exact (H _ E). Qed.
  Lemma pool_aset p k e : tame_pool p -> tame_doc (sp_doc e) = true -> tame_pool (aset k e p).
  Proof. intros H E. apply aset_Forall; auto. Qed.
  Lemma pointer_tame ts : forall v x, tame_doc v = true -> pointer_get ts v = Some x -> tame_doc x = true.
  Proof.
    induction ts as [|t ts IH]; intros v x H E; [injection E as <-; auto|]. cbn [pointer_get] in E. destruct v as [| | | | |l|m|]; try discriminate E.
    - destruct (atoi t) as [i|]; [|discriminate E]. destruct (i <? 0)%Z; [discriminate E|]. destruct (nth_error l (Z.to_nat i)) as [y|] eqn:En; [|discriminate E]. apply nth_error_In in En. eapply IH; [|exact E]. eapply doc_item; eauto.
    - destruct (assoc (unescape_token t) m) as [y|] eqn:Ea; [|discriminate E]. eapply IH; [|exact E]. apply (doc_assoc _ _ _ H Ea).
  Qed.

  (** *** References rewritten *)
  Definition osame {A} (P : A -> Prop) (x y : out A) : Prop := x = y /\ forall a, x = Ok a -> P a.
  Lemma osame_ret {A} (P : A -> Prop) a : P a -> osame P (Ok a) (Ok a).
  Proof. intros H. split; [reflexivity|]. intros b [= <-]. exact H. Qed.
  Lemma osame_refl {A} (x : out A) : osame (fun _ => True) x x.
  Proof. split; auto. Qed.
  Lemma osame_panic {A} (P : A -> Prop) : osame P Panic Panic.
  Proof. split; [reflexivity|discriminate]. Qed.
  Lemma osame_bind {A B} (P : A -> Prop) (Q : B -> Prop) x y f g : osame P x y -> (forall a, P a -> osame Q (f a) (g a)) -> osame Q (obind x f) (obind y g).
  Proof. intros [-> HP] HF. destruct y as [a| |]; cbn; [apply HF; auto|apply osame_panic|split; [reflexivity|discriminate]]. Qed.
  Lemma osame_impl {A} (P Q : A -> Prop) x y : (forall a, P a -> Q a) -> osame P x y -> osame Q x y.
  Proof. intros H [E HP]. split; auto. Qed.

  Variable sl : sloader.
  Notation ce := (cenv_of w sl).
  Notation ce' := (cenv_of tame_world sl).

  Lemma same_schemaURL doc : tame_doc doc = true ->
    osame (fun r => match r with inr (u, _) => tame u = true | inl _ => True end) (parseSchemaURL ce doc) (parseSchemaURL ce' doc).
  Proof.
    intros H. unfold parseSchemaURL. cbn [cenv_of c_go w_go tame_world]. eapply osame_bind; [apply osame_refl|]. intros b _. destruct b; [apply osame_ret, tame_nil|].
    eapply osame_bind; [apply osame_refl|]. intros b _. destruct b; cbn [negb]; [|apply osame_ret; auto]. destruct doc as [| | | | | |m|]; try exact (osame_panic _).
    destruct (assoc "$schema" m) as [v|] eqn:E; [|apply osame_ret, tame_nil]. eapply osame_bind; [apply osame_refl|]. intros b _. destruct b; cbn [negb]; [|apply osame_ret; auto].
    destruct v as [| | | |s| | |]; try exact (osame_panic _). destruct (doc_key m "$schema" s H eq_refl E) as [Ep Et]. cbn [u_parse cenv_of]. rewrite Ep. destruct (w_parse w s); apply osame_ret; auto.
  Qed.
  Lemma same_inherits b r : tame b = true -> tame r = true -> w_inherits tame_world b r = w_inherits w b r.
  Proof. intros Hb Hr. cbn. rewrite Hb, Hr. reflexivity. Qed.
  Lemma same_declared base m : tame base = true -> tame_doc (VMap m) = true ->
    osame (fun r => match r with Some u => tame u = true | None => True end) (declared_id ce base m) (declared_id ce' base m).
  Proof.
    intros Hb H. unfold declared_id. cbn [cenv_of c_go w_go tame_world].
    assert (K : url_key (if existsMapKey m "id" then "id" else "$id") = true) by (destruct (existsMapKey m "id"); reflexivity).
    destruct (assoc (if existsMapKey m "id" then "id" else "$id") m) as [v|] eqn:E; [|apply osame_ret; auto]. eapply osame_bind; [apply osame_refl|]. intros b _. destruct b; cbn [negb]; [|apply osame_ret; auto].
    destruct v as [| | | |s| | |]; try exact (osame_panic _). destruct (doc_key m _ s H K E) as [Ep Et]. cbn [u_parse u_inherits cenv_of]. rewrite Ep. destruct (w_parse w s) as [r|]; [|apply osame_ret; auto].
    specialize (Et _ eq_refl). rewrite same_inherits by auto. destruct (tame_inherits base r Hb Et) as (x & -> & Hx). apply osame_ret. auto.
  Qed.
  Lemma same_absolute base m : tame base = true -> tame_doc (VMap m) = true ->
    osame (fun m' => tame_doc (VMap m') = true) (absolute_ref ce base m) (absolute_ref ce' base m).
  Proof.
    intros Hb H. unfold absolute_ref. cbn [cenv_of c_go w_go tame_world]. destruct (assoc "$ref" m) as [v|] eqn:E; [|apply osame_ret; auto].
    eapply osame_bind; [apply osame_refl|]. intros b _. destruct b; cbn [negb]; [|apply osame_ret; auto].
    destruct v as [| | | |s| | |]; try exact (osame_panic _). destruct (doc_key m "$ref" s H eq_refl E) as [Ep Et]. cbn [u_parse u_inherits cenv_of]. rewrite Ep. destruct (w_parse w s) as [r|]; [|apply osame_ret; auto].
    specialize (Et _ eq_refl). rewrite same_inherits by auto. destruct (tame_inherits base r Hb Et) as (x & -> & Hx). apply osame_ret. apply doc_aset; auto. cbn. unfold tame_string. rewrite (tame_parse x Hx). auto.
  Qed.

  (** What a nested call leaves behind. *)
  Definition left_tame (doc : value) (r : prr) : Prop :=
    tame_doc (pr_doc r) = true /\ (forall k, tame_under k doc = true -> tame_under k (pr_doc r) = true) /\ tame_pool (pr_pool r).
  Definition rec_same (rec rec' : oracle -> value -> string -> option draft -> pool -> out prr) : Prop :=
    forall o doc base dr p, fair o -> tame_doc doc = true -> tame base = true -> tame_pool p -> osame (left_tame doc) (rec o doc base dr p) (rec' o doc base dr p).
  Section Rec.
    Variables rec rec' : oracle -> value -> string -> option draft -> pool -> out prr.
    Hypothesis HR : rec_same rec rec'.
    Lemma same_list o base dr l : forall i p, fair o -> tame_doc (VArr l) = true -> tame base = true -> tame_pool p ->
      osame (fun q => tame_doc (VArr (fst q)) = true /\ tame_pool (snd q)) (prr_list rec o i base dr l p) (prr_list rec' o i base dr l p).
    Proof.
      induction l as [|x l IH]; intros i p Ho Hl Hb Hp; [apply osame_ret; auto|]. cbn [prr_list]. cbn [tame_doc forallb] in Hl. apply andb_true_iff in Hl. destruct Hl as [Hx Hl].
      eapply osame_bind; [apply HR; auto using shift_fair|]. intros r (R1 & _ & R2). eapply osame_bind; [apply IH; auto|]. intros q [Q1 Q2]. apply osame_ret. cbn [fst snd tame_doc forallb] in *. rewrite R1. auto.
    Qed.
    Lemma same_map o base dr es : forall i m p, fair o -> Forall (fun e => tame_under (fst e) (snd e) = true /\ tame_doc (snd e) = true) es -> tame_doc (VMap m) = true -> tame base = true -> tame_pool p ->
      osame (fun q => tame_doc (VMap (fst q)) = true /\ tame_pool (snd q)) (prr_map rec o i base dr es m p) (prr_map rec' o i base dr es m p).
    Proof.
      induction es as [|[k x] es IH]; intros i m p Ho He Hm Hb Hp; [apply osame_ret; auto|]. cbn [prr_map]. inversion He as [|? ? [E1 E2] E3]; subst. cbn [fst snd] in *.
      eapply osame_bind; [apply HR; auto using shift_fair|]. intros r (R1 & R2 & R3). apply IH; auto. apply doc_aset; auto.
    Qed.
    Lemma same_member o base dr k x p : fair o -> tame_doc x = true -> tame base = true -> tame_pool p ->
      osame (fun q => tame_doc (fst q) = true /\ (forall k, tame_under k x = true -> tame_under k (fst q) = true) /\ tame_pool (snd q)) (prr_member rec o base dr k x p) (prr_member rec' o base dr k x p).
    Proof.
      intros Ho Hx Hb Hp. unfold prr_member. destruct (literal_key k); [apply osame_ret; auto|]. destruct (map_key k).
      - destruct x as [| | | | | |m|]; try (apply osame_ret; auto; fail). eapply osame_bind; [apply same_map; auto using shift_fair; apply Forall_forall; intros e I; eapply doc_pick; [|exact Hx|exact I]; auto using shift_fair|].
        intros q [Q1 Q2]. apply osame_ret. auto.
      - eapply osame_bind; [apply HR; auto|]. intros r (R1 & R2 & R3). apply osame_ret. auto.
    Qed.
    Lemma same_members o base dr es : forall i m p, fair o -> Forall (fun e => tame_under (fst e) (snd e) = true /\ tame_doc (snd e) = true) es -> tame_doc (VMap m) = true -> tame base = true -> tame_pool p ->
      osame (fun q => tame_doc (VMap (fst q)) = true /\ tame_pool (snd q)) (prr_members rec o i base dr es m p) (prr_members rec' o i base dr es m p).
    Proof.
      induction es as [|[k x] es IH]; intros i m p Ho He Hm Hb Hp; [apply osame_ret; auto|]. cbn [prr_members]. inversion He as [|? ? [E1 E2] E3]; subst. cbn [fst snd] in *.
      eapply osame_bind; [apply same_member; auto using shift_fair|]. intros r (R1 & R2 & R3). apply IH; auto. apply doc_aset; auto.
    Qed.
    Lemma same_node : rec_same (parseReferencesNode ce rec) (parseReferencesNode ce' rec').
    Proof.
      intros o doc base dr p Ho Hd Hb Hp. unfold parseReferencesNode. destruct doc as [| | | | |l|m|]; try (apply osame_ret; split; [|split]; auto; fail).
      - eapply osame_bind; [apply same_list; auto|]. intros q [Q1 Q2]. apply osame_ret. split; [|split]; auto.
      - eapply osame_bind; [apply same_declared; auto|]. intros lid Hlid.
        assert (G : forall b p0, tame b = true -> tame_pool p0 -> forall (k : list (string * value) -> list (string * value) * pool -> out prr),
          (forall m1 q, tame_doc (VMap (fst q)) = true -> tame_pool (snd q) -> osame (left_tame (VMap m)) (k m1 q) (k m1 q)) ->
          osame (left_tame (VMap m)) (obind (absolute_ref ce b m) (fun m1 => obind (prr_members rec (shift o 1) 0 b dr (pick (shift o 0) m1) m1 p0) (k m1)))
                                     (obind (absolute_ref ce' b m) (fun m1 => obind (prr_members rec' (shift o 1) 0 b dr (pick (shift o 0) m1) m1 p0) (k m1)))).
        { intros b p0 Tb Tp k Hk. eapply osame_bind; [apply same_absolute; auto|]. intros m1 H1. eapply osame_bind; [apply same_members; auto using shift_fair; apply Forall_forall; intros e I; eapply doc_pick; [|exact H1|exact I]; auto using shift_fair|].
          intros q [Q1 Q2]. apply Hk; auto. }
        destruct lid as [r|].
        + destruct (assoc r p); [apply osame_ret; split; [|split]; auto|]. apply G; auto; [apply pool_aset; auto|]. intros m1 q Q1 Q2. apply osame_ret. split; [|split]; auto. cbn [pr_pool]. apply pool_aset; auto.
        + apply G; auto. intros m1 q Q1 Q2. apply osame_ret. split; [|split]; auto.
    Qed.
  End Rec.
  Lemma same_recursive fuel : rec_same (parseReferencesRecursive ce fuel) (parseReferencesRecursive ce' fuel).
  Proof. induction fuel as [|n IH]; [split; [reflexivity|discriminate]|]. cbn [parseReferencesRecursive]. apply same_node. exact IH. Qed.
  Lemma same_parseReferences o doc ref pooled p : fair o -> tame_doc doc = true -> tame ref = true -> tame_pool p ->
    osame (left_tame doc) (parseReferences ce o doc ref pooled p) (parseReferences ce' o doc ref pooled p).
  Proof.
    intros Ho Hd Hr Hp. unfold parseReferences. destruct (_ && _)%bool; [apply osame_ret; split; [|split]; auto|]. cbn [cenv_of c_autodetect].
    eapply (osame_bind (fun _ => True)).
    - destruct (sl_auto sl); [|split; auto]. eapply osame_bind; [apply same_schemaURL; auto|]. intros r _. split; auto.
    - intros dr _. destruct dr as [e|d]; [apply osame_ret; split; [|split]; auto|]. eapply osame_bind; [apply same_recursive; auto|]. intros r (R1 & R2 & R3). apply osame_ret. destruct pooled; [|split; [|split]; auto].
      split; [|split]; cbn [pr_doc pr_pool]; auto. apply pool_aset; auto.
  Qed.

  (** *** The compiler *)
  (** What is served is tame, and so are the meta-schemas. *)
  Definition serves_tame : Prop :=
    (forall fs p t v, w_fs w fs p = Some t -> decode_use_number t = Some v -> tame_doc v = true) /\
    (forall u t v, w_http w u = Some t -> decode_use_number t = Some v -> tame_doc v = true) /\
    (forall d, tame (GetSchemaURL d) = true) /\
    (forall u v, decode_use_number (GetMetaSchema u) = Some v -> tame_doc v = true).
  Hypothesis HS : serves_tame.
  Lemma same_load fs s : tame_string s = true -> loadReference tame_world fs s = loadReference w fs s.
  Proof.
    intros H. unfold loadReference, tame_string in *. cbn. destruct (w_parse w s) as [r|]; [|reflexivity]. rewrite H. cbn iota beta. rewrite H. reflexivity.
  Qed.
  Lemma loaded_tame fs s v : loadReference w fs s = Some v -> tame_doc v = true.
  Proof.
    destruct HS as (S1 & S2 & _ & S3). unfold loadReference. destruct (w_parse w s) as [r|]; [|discriminate]. destruct (w_file w _) as [[path|]|]; [|discriminate|].
    - unfold loadFromFile. destruct (w_fs w fs path) as [t|] eqn:E; [|discriminate]. apply (S1 _ _ _ _ E).
    - unfold loadFromHTTP. destruct (negb _); [apply S3|]. destruct (w_http w _) as [t|] eqn:E; [|discriminate]. apply (S2 _ _ _ E).
  Qed.

  Definition csame {A} (P : A -> Prop) (c c' : comp A) : Prop := forall s, tame_pool (st_pool s) ->
    c s = c' s /\ match c s with COk a s' => P a /\ tame_pool (st_pool s') | CErr _ s' => tame_pool (st_pool s') | _ => True end.
  Definition any {A} (_ : A) : Prop := True.
  Lemma csame_ret {A} (P : A -> Prop) a : P a -> csame P (cret a) (cret a).
  Proof. intros H s Hs. cbn. auto. Qed.
  Lemma csame_fail {A} (P : A -> Prop) e : csame P (cfail e) (cfail e).
  Proof. intros s Hs. cbn. auto. Qed.
  Lemma csame_panic {A} (P : A -> Prop) : csame P cpanic cpanic.
  Proof. intros s Hs. cbn. auto. Qed.
  Lemma csame_fuel {A} (P : A -> Prop) : csame P (fun _ => CNoFuel) (fun _ => CNoFuel).
  Proof. intros s Hs. cbn. auto. Qed.
  Lemma csame_bind {A B} (P : A -> Prop) (Q : B -> Prop) x y f g : csame P x y -> (forall a, P a -> csame Q (f a) (g a)) -> csame Q (cbind x f) (cbind y g).
  Proof. intros HX HF s Hs. unfold cbind. destruct (HX s Hs) as [<- H]. destruct (x s) as [a s'|e s'| |]; auto. destruct H as [Pa Hs']. apply HF; auto. Qed.
  Lemma csame_lift {A} (P : A -> Prop) x y : osame P x y -> csame P (lift_out x) (lift_out y).
  Proof. intros [<- H]. destruct x as [a| |]; cbn; [apply csame_ret; auto|apply csame_panic|apply csame_fuel]. Qed.
  Lemma csame_impl {A} (P Q : A -> Prop) x y : (forall a, P a -> Q a) -> csame P x y -> csame Q x y.
  Proof. intros H HX s Hs. destruct (HX s Hs) as [E M]. split; auto. destruct (x s); auto. destruct M; auto. Qed.
  Lemma csame_cmap {A B} (f g : nat -> A -> comp B) l : forall i, (forall i x, In x l -> csame any (f i x) (g i x)) -> csame any (cmap f i l) (cmap g i l).
  Proof.
    induction l as [|x l IH]; intros i H; [apply csame_ret; exact I|]. cbn [cmap]. eapply csame_bind; [apply H; left; auto|]. intros y _. eapply csame_bind; [apply IH; intros; apply H; right; auto|]. intros ys _. apply csame_ret. exact I.
  Qed.

  Lemma same_GetDocument o ref : fair o -> tame ref = true -> csame (fun e => tame_doc (sp_doc e) = true) (GetDocument ce o ref) (GetDocument ce' o ref).
  Proof.
    intros Ho Hr. unfold GetDocument. eapply (csame_bind tame_pool); [intros s Hs; cbn; auto|]. intros p Hp. cbn [u_strip u_fragment u_canonical c_fetch cenv_of].
    assert (E1 : w_strip tame_world ref = w_strip w ref) by (cbn; rewrite Hr; reflexivity). assert (E2 : w_fragment tame_world ref = w_fragment w ref) by (cbn; rewrite Hr; reflexivity).
    assert (E3 : w_canonical tame_world ref = w_canonical w ref) by (cbn; rewrite Hr; reflexivity). rewrite E1, E2, E3. clear E1 E2 E3.
    destruct (assoc ref p) as [e|] eqn:E1; [apply csame_ret; eapply pool_assoc; eauto|]. destruct (assoc (w_strip w ref) p) as [e|] eqn:E2.
    - destruct (pointer_get _ (sp_doc e)) as [x|] eqn:E3; [|apply csame_fail]. assert (Hx : tame_doc x = true) by (eapply pointer_tame; [|exact E3]; eapply pool_assoc; eauto).
      eapply (csame_bind any); [|intros _ _; apply csame_ret; auto]. intros s Hs. cbn. split; auto. split; [exact I|]. apply pool_aset; auto.
    - destruct (negb _); [apply csame_fail|].
      assert (EL : loadReference tame_world (sl_factory sl) ref = loadReference w (sl_factory sl) ref) by (apply same_load; unfold tame_string; rewrite tame_parse; auto). rewrite EL.
      destruct (loadReference w (sl_factory sl) ref) as [doc|] eqn:E3; [|apply csame_fail]. apply loaded_tame in E3.
      eapply csame_bind; [apply csame_lift; apply same_parseReferences; auto; apply tame_strip; auto|]. intros r (R1 & R2 & R3).
      eapply (csame_bind any); [intros s Hs; cbn; unfold any; auto|]. intros _ _. eapply csame_bind; [apply csame_lift; apply same_schemaURL; auto|]. intros su _.
      destruct (pointer_get _ (pr_doc r)) as [x|] eqn:E4; [|apply csame_fail]. apply csame_ret. eapply pointer_tame; eauto.
  Qed.

  Definition args_tame (a : pargs) : Prop := tame (pa_id a) = true /\ tame (pa_parent_id a) = true.
  Definition prec_same (rec rec' : oracle -> pargs -> nat -> value -> comp unit) : Prop :=
    forall o a id doc, fair o -> args_tame a -> tame_doc doc = true -> csame any (rec o a id doc) (rec' o a id doc).
  Section Parse.
    Variables rec rec' : oracle -> pargs -> nat -> value -> comp unit.
    Hypothesis HR : prec_same rec rec'.
    Lemma same_ck v ks : csame any (ck ce v ks) (ck ce' v ks).
    Proof. apply csame_lift. split; [reflexivity|]. intros; exact I. Qed.
    Lemma same_alloc prop d doc : csame any (alloc prop d doc) (alloc prop d doc).
    Proof. intros s Hs. cbn. unfold any. auto. Qed.
    Lemma same_store i n : csame any (store i n) (store i n).
    Proof. intros s Hs. cbn. unfold any. auto. Qed.
    Lemma same_child o prop d myid doc : fair o -> tame myid = true -> tame_doc doc = true -> csame any (child rec o prop d myid doc) (child rec' o prop d myid doc).
    Proof.
      intros Ho Hi Hd. unfold child. eapply csame_bind; [apply same_alloc|]. intros id _. eapply csame_bind; [apply HR; auto; split; auto|]. intros _ _. apply csame_ret. exact I.
    Qed.
    Lemma same_types_add t e : csame any (types_add t e) (types_add t e).
    Proof. unfold types_add. destruct (negb _); [apply csame_fail|]. destruct (Contains t e); [apply csame_fail|]. apply csame_ret. exact I. Qed.
    Lemma same_add_types l : forall t, csame any (add_types t l) (add_types t l).
    Proof. induction l as [|v l IH]; intros t; [apply csame_ret; exact I|]. cbn [add_types]. destruct v; try exact (csame_fail _ _); [apply csame_panic|]. eapply csame_bind; [apply same_types_add|]. intros t' _. apply IH. Qed.
    Lemma same_dep_strings l : csame any (dep_strings ce l) (dep_strings ce' l).
    Proof.
      induction l as [|v l IH]; [apply csame_ret; exact I|]. cbn [dep_strings]. eapply csame_bind; [apply same_ck|]. intros b _. destruct b; [|apply csame_fail]. destruct v; try exact (csame_panic _).
      eapply csame_bind; [apply IH|]. intros r _. apply csame_ret. exact I.
    Qed.
    Lemma same_add_required l : forall t, csame any (add_required ce t l) (add_required ce' t l).
    Proof.
      induction l as [|v l IH]; intros t; [apply csame_ret; exact I|]. cbn [add_required]. eapply csame_bind; [apply same_ck|]. intros b _. destruct b; [|apply csame_fail]. destruct v; try exact (csame_panic _).
      destruct (isStringInSlice t s); [apply csame_fail|apply IH].
    Qed.
    Lemma same_add_enum l : forall t, csame any (add_enum t l) (add_enum t l).
    Proof. induction l as [|v l IH]; intros t; [apply csame_ret; exact I|]. cbn [add_enum]. destruct (marshalWithoutNumber v) as [s|]; [|apply csame_fail]. destruct (isStringInSlice t s); [apply csame_fail|apply IH]. Qed.

    Variable m : list (string * value).
    Hypothesis Hm : tame_doc (VMap m) = true.
    Ltac sim_one :=
      match goal with
      | |- csame _ (cret _) (cret _) => apply csame_ret; exact I
      | |- csame _ (cfail _) (cfail _) => apply csame_fail
      | |- csame _ cpanic cpanic => apply csame_panic
      | |- csame _ (ck _ _ _) (ck _ _ _) => apply same_ck
      | |- csame _ (types_add _ _) _ => apply same_types_add
      | |- csame _ (add_types _ _) _ => apply same_add_types
      | |- csame _ (dep_strings _ _) _ => apply same_dep_strings
      | |- csame _ (add_required _ _ _) _ => apply same_add_required
      | |- csame _ (add_enum _ _) _ => apply same_add_enum
      | |- csame _ (child _ _ _ _ _ _) _ => apply same_child; auto using shift_fair
      | |- csame _ (cmap _ _ _) (cmap _ _ _) => apply csame_cmap; intros ? ? ?
      | |- csame _ (cbind _ _) (cbind _ _) => apply (csame_bind any); [|intros ? _]
      | |- csame _ (match ?x with _ => _ end) (match ?x with _ => _ end) => destruct x eqn:?
      end.
    Ltac sim := change (lim ce') with (lim ce); change (c_go ce') with (c_go ce); repeat sim_one; auto.
    (** Subdocuments. *)
    Lemma sub k v : assoc k m = Some v -> tame_doc v = true.
    Proof. intros E. apply (doc_assoc _ _ _ Hm E). Qed.
    Lemma sub_entry k ps o e : assoc k m = Some (VMap ps) -> fair o -> In e (pick (shift o 0) ps) -> tame_doc (snd e) = true.
    Proof. intros E Ho I. eapply doc_pick; [|exact (sub _ _ E)|exact I]. auto using shift_fair. Qed.
    Lemma sub_item k l x : assoc k m = Some (VArr l) -> In x l -> tame_doc x = true.
    Proof. intros E. apply doc_item. exact (sub _ _ E). Qed.
    Hint Resolve sub sub_entry sub_item shift_fair : tame.

    Lemma same_id a : args_tame a -> csame (fun r => tame r = true) (p_id ce a m) (p_id ce' a m).
    Proof.
      intros [A1 A2]. unfold p_id. set (key := match pa_draft a with Draft4 => "id" | Hybrid => if existsMapKey m "id" then "id" else "$id" | _ => "$id" end).
      assert (K : url_key key = true) by (unfold key; destruct (pa_draft a); try reflexivity; destruct (existsMapKey m "id"); reflexivity).
      destruct (assoc key m) as [v|] eqn:E; [|apply csame_ret; auto]. eapply csame_bind; [apply same_ck|]. intros b _. destruct b; cbn [negb]; [|apply csame_fail].
      destruct v as [| | | |s| | |]; try (apply csame_ret; auto; fail). destruct (doc_key m key s Hm K E) as [Ep Et]. cbn [u_parse u_inherits cenv_of]. rewrite Ep. destruct (w_parse w s) as [r|]; [|apply csame_fail].
      specialize (Et _ eq_refl). destruct (pa_root a); [apply csame_ret; auto|]. rewrite same_inherits by auto. destruct (tame_inherits _ _ A2 Et) as (x & -> & Hx). apply csame_ret; auto.
    Qed.
    Section Keywords.
      Variable o : oracle.
      Hypothesis Ho : fair o.
      Variable d : draft.
      Variable myid : string.
      Hypothesis Hi : tame myid = true.
      Lemma same_definitions : csame any (p_definitions ce rec o d myid m) (p_definitions ce' rec' o d myid m).
      Proof. unfold p_definitions. sim; eauto with tame. Qed.
      Lemma same_string_only k : csame any (p_string_only ce k m) (p_string_only ce' k m).
      Proof. unfold p_string_only. sim. Qed.
      Lemma same_type : csame any (p_type ce m) (p_type ce' m).
      Proof. unfold p_type. sim. Qed.
      Lemma same_properties : csame any (p_properties ce rec o d myid m) (p_properties ce' rec' o d myid m).
      Proof. unfold p_properties. sim; eauto with tame. Qed.
      Lemma same_additional k : csame any (p_additional ce rec o k d myid m) (p_additional ce' rec' o k d myid m).
      Proof. unfold p_additional. sim; eauto with tame. Qed.
      Lemma same_patternProperties : csame any (p_patternProperties ce rec o d myid m) (p_patternProperties ce' rec' o d myid m).
      Proof. unfold p_patternProperties. sim; eauto with tame. Qed.
      Lemma same_schema k e : csame any (p_schema ce rec o k d myid e m) (p_schema ce' rec' o k d myid e m).
      Proof. unfold p_schema. sim; eauto with tame. Qed.
      Lemma same_propertyNames : csame any (p_propertyNames ce rec o d myid m) (p_propertyNames ce' rec' o d myid m).
      Proof. unfold p_propertyNames. destruct (draft_ge6 d); [apply same_schema|sim]. Qed.
      Lemma same_dependencies : csame any (p_dependencies ce rec o d myid m) (p_dependencies ce' rec' o d myid m).
      Proof. unfold p_dependencies. sim. unfold p_dependency. 
        assert (T : tame_doc (snd x) = true) by eauto with tame. destruct (snd x) eqn:Es; sim. Qed.
      Lemma same_items : csame any (p_items ce rec o d myid m) (p_items ce' rec' o d myid m).
      Proof. unfold p_items. sim; eauto with tame. Qed.
      Lemma same_multipleOf : csame any (p_multipleOf ce m) (p_multipleOf ce' m).
      Proof. unfold p_multipleOf. sim. Qed.
      Lemma same_bound k x : csame any (p_bound ce k x d m) (p_bound ce' k x d m).
      Proof. unfold p_bound. sim. Qed.
      Lemma same_natural k : csame any (p_natural ce k m) (p_natural ce' k m).
      Proof. unfold p_natural. sim. Qed.
      Lemma same_le a b e : csame any (p_le a b e) (p_le a b e).
      Proof. unfold p_le. sim. Qed.
      Lemma same_pattern : csame any (p_pattern ce m) (p_pattern ce' m).
      Proof. unfold p_pattern. sim. Qed.
      Lemma same_format : csame any (p_format m) (p_format m).
      Proof. unfold p_format. sim. Qed.
      Lemma same_required : csame any (p_required ce m) (p_required ce' m).
      Proof. unfold p_required. sim. Qed.
      Lemma same_uniqueItems : csame any (p_uniqueItems ce m) (p_uniqueItems ce' m).
      Proof. unfold p_uniqueItems. sim. Qed.
      Lemma same_contains : csame any (p_contains rec o d myid m) (p_contains rec' o d myid m).
      Proof. unfold p_contains. sim; eauto with tame. Qed.
      Lemma same_const : csame any (p_const d m) (p_const d m).
      Proof. unfold p_const. sim. Qed.
      Lemma same_enum : csame any (p_enum ce m) (p_enum ce' m).
      Proof. unfold p_enum. sim. Qed.
      Lemma same_schemas k e : csame any (p_schemas ce rec o k e d myid m) (p_schemas ce' rec' o k e d myid m).
      Proof. unfold p_schemas. sim; eauto with tame. Qed.
      Lemma same_cond k : csame any (p_cond ce rec o k d myid m) (p_cond ce' rec' o k d myid m).
      Proof. unfold p_cond. destruct (draft_ge7 d); [apply same_schema|sim]. Qed.
    End Keywords.
    Lemma same_keywords o a myid refid : fair o -> tame myid = true -> csame any (p_keywords ce rec o a myid refid m) (p_keywords ce' rec' o a myid refid m).
    Proof.
      intros Ho Hi. unfold p_keywords. cbv zeta.
      repeat (apply (csame_bind any); [first [apply same_type | apply same_properties | apply same_additional | apply same_patternProperties | apply same_propertyNames | apply same_dependencies | apply same_items
        | apply same_multipleOf | apply same_bound | apply same_natural | apply same_le | apply same_pattern | apply same_format | apply same_required | apply same_uniqueItems | apply same_contains
        | apply same_const | apply same_enum | apply same_schemas | apply same_schema | apply same_cond]; auto using shift_fair|intros ? _]).
      apply csame_ret. exact I.
    Qed.
  End Parse.
  Lemma same_parseReference rec rec' o d myid ref : prec_same rec rec' -> fair o -> tame myid = true -> tame ref = true ->
    csame any (parseReference ce rec o d myid ref) (parseReference ce' rec' o d myid ref).
  Proof.
    intros HR Ho Hi Hr s Hs. unfold parseReference. apply (csame_bind any); auto; [apply same_alloc|]. intros _ _. apply (csame_bind any); [intros s1 H1; cbn; unfold any; auto|]. intros _ _.
    eapply csame_bind; [apply same_GetDocument; auto using shift_fair|]. intros e He. apply (csame_bind any); [apply same_ck|]. intros b _. destruct b; cbn [negb]; [|apply csame_fail].
    apply (csame_bind any); [intros s1 H1; cbn; unfold any; auto|]. intros _ _. apply (csame_bind any); [apply HR; auto using shift_fair; split; auto|]. intros _ _. apply csame_ret. exact I.
  Qed.
  Lemma same_parseNode rec rec' : prec_same rec rec' -> prec_same (parseSchemaNode ce rec) (parseSchemaNode ce' rec').
  Proof.
    intros HR o a id doc Ho Ha Hd. unfold parseSchemaNode. cbv zeta. apply (csame_bind any); [destruct (draft_ge6 _); [apply same_ck|apply csame_ret; exact I]|]. intros b _. destruct b.
    - destruct doc; try exact (csame_panic _). apply same_store.
    - apply (csame_bind any); [apply same_ck|]. intros b _. destruct b; cbn [negb]; [|apply csame_fail]. destruct doc as [| | | | | |m|]; try exact (csame_panic _).
      eapply csame_bind; [apply same_id; auto|]. intros myid Hi. apply (csame_bind any); [apply same_definitions; auto using shift_fair|]. intros _ _.
      do 3 (apply (csame_bind any); [apply same_string_only|]; intros _ _).
      assert (K : forall rid, csame any (let! n := p_keywords ce rec o a myid rid m in store id n) (let! n := p_keywords ce' rec' o a myid rid m in store id n)).
      { intros rid. apply (csame_bind any); [apply same_keywords; auto|]. intros n _. apply same_store. }
      destruct (assoc "$ref" m) as [v|] eqn:E; [|apply K]. destruct v as [| | | |s| | |]; try apply K. destruct (doc_key m "$ref" s Hd eq_refl E) as [Ep Et]. cbn [u_parse cenv_of]. rewrite Ep.
      destruct (w_parse w s) as [r|]; [|apply csame_fail]. specialize (Et _ eq_refl). apply (csame_bind any); [intros s1 H1; cbn; unfold any; auto|]. intros hit _. destruct hit as [rid|]; [apply K|].
      apply (csame_bind any); [apply same_parseReference; auto using shift_fair|]. intros rid _. apply same_store.
  Qed.
  Lemma same_parseSchema fuel : prec_same (parseSchema ce fuel) (parseSchema ce' fuel).
  Proof. induction fuel as [|n IH]; [intros o a id doc _ _ _; apply csame_fuel|]. cbn [parseSchema]. apply same_parseNode. exact IH. Qed.
  Lemma same_parse fuel o ref d doc : fair o -> tame ref = true -> tame_doc doc = true -> csame any (parse ce fuel o ref d doc) (parse ce' fuel o ref d doc).
  Proof.
    intros Ho Hr Hd. unfold parse. apply (csame_bind any); [apply same_alloc|]. intros id _. apply (csame_bind any); [apply same_parseSchema; auto; split; auto|]. intros _ _. apply csame_ret. exact I.
  Qed.
End Tame.

(** ** The loader *)
Section Loader.
  Variable w : world.
  Variable tame : string -> bool.
  Hypothesis HT : tame_laws w tame.
  Hypothesis HS : serves_tame w tame.
  Notation w' := (tame_world w tame).
  Notation tame_doc := (tame_doc w tame).
  Notation tame_string := (tame_string w tame).
  Notation tame_pool := (tame_pool w tame).

  Definition tame_loader (l : loader) : Prop :=
    match l with LRef _ s => tame_string s = true | _ => forall v, fst (LoadJSON w l) = Some v -> tame_doc v = true end.
  Definition lsame {A} (P : A -> Prop) (x y : lres A) : Prop :=
    x = y /\ match x with LOk a sl => P a /\ tame_pool (sl_pool sl) | LErr _ sl => tame_pool (sl_pool sl) | _ => True end.
  Lemma lsame_bind {A B} (P : A -> Prop) (Q : B -> Prop) x y f g : lsame P x y -> (forall a sl, P a -> tame_pool (sl_pool sl) -> lsame Q (f a sl) (g a sl)) -> lsame Q (lbind x f) (lbind y g).
  Proof. intros [<- H] HF. destruct x as [a sl|e sl| |]; cbn; [destruct H; apply HF; auto|split; auto|split; auto|split; auto]. Qed.
  Lemma lsame_ok {A} (P : A -> Prop) a sl : P a -> tame_pool (sl_pool sl) -> lsame P (LOk a sl) (LOk a sl).
  Proof. split; auto. Qed.
  Lemma lsame_err {A} (P : A -> Prop) e sl : tame_pool (sl_pool sl) -> lsame P (LErr e sl) (LErr e sl).
  Proof. split; auto. Qed.
  Lemma same_run_comp {A} (P : A -> Prop) sl (x y : comp A) : tame_pool (sl_pool sl) -> csame w tame P x y -> lsame (fun r => P (fst r)) (run_comp sl x) (run_comp sl y).
  Proof. intros Hp H. unfold run_comp. destruct (H (CState [] [] (sl_pool sl) []) Hp) as [<- M]. split; [reflexivity|]. destruct (x _) as [a s|e s| |]; auto. Qed.
  Lemma same_run_out {A} (P : A -> Prop) sl x y : tame_pool (sl_pool sl) -> osame P x y -> lsame P (run_out sl x) (run_out sl y).
  Proof. intros Hp [<- H]. split; [reflexivity|]. destruct x; cbn; auto. Qed.

  Lemma same_LoadJSON l : tame_loader l -> LoadJSON w' l = LoadJSON w l.
  Proof. destruct l; cbn [LoadJSON tame_loader]; try reflexivity. intros H. f_equal. apply same_load. exact H. Qed.
  Lemma load_tame l v : tame_loader l -> fst (LoadJSON w l) = Some v -> tame_doc v = true.
  Proof. destruct l as [t|t|x|t|x|fs t]; cbn [tame_loader]; intros Hl H; try (apply Hl; exact H). exact (loaded_tame _ _ HS _ _ _ H). Qed.
  Lemma same_JsonReference l : tame_loader l -> JsonReference w' l = JsonReference w l /\ forall r, JsonReference w l = Some r -> tame r = true.
  Proof.
    intros H. destruct HT as (T1 & T2 & _). assert (G : forall s, tame_string s = true -> w_parse w' s = w_parse w s /\ forall r, w_parse w s = Some r -> tame r = true).
    { intros s Hs. unfold URLTransfer.tame_string in Hs. cbn. destruct (w_parse w s) as [r|]; [rewrite Hs; split; auto; intros x [= <-]; auto|split; [auto|discriminate]]. }
    destruct l; cbn [JsonReference]; try (apply G; unfold URLTransfer.tame_string; rewrite T2; exact T1). apply G. exact H.
  Qed.
  Lemma same_pool_parse o doc ref pooled sl : fair o -> tame_doc doc = true -> tame ref = true -> tame_pool (sl_pool sl) ->
    lsame (fun d => tame_doc d = true) (pool_parseReferences w o doc ref pooled sl) (pool_parseReferences w' o doc ref pooled sl).
  Proof.
    intros Ho Hd Hr Hp. unfold pool_parseReferences. eapply lsame_bind; [apply same_run_out; auto; apply same_parseReferences; auto|]. intros r sl1 (R1 & _ & R3) H1. destruct (pr_err r); [apply lsame_err|apply lsame_ok]; auto.
  Qed.
  Lemma same_compile_doc o sl l : fair o -> tame_loader l -> tame_pool (sl_pool sl) ->
    lsame (fun rd => tame (fst rd) = true /\ tame_doc (snd rd) = true) (compile_doc w o sl l) (compile_doc w' o sl l).
  Proof.
    intros Ho Hl Hp. unfold compile_doc. destruct (same_JsonReference l Hl) as [-> Hr]. destruct (JsonReference w l) as [r|]; [|apply lsame_err; auto]. specialize (Hr _ eq_refl). cbv zeta.
    destruct (negb (String.eqb r "")).
    - eapply lsame_bind; [apply same_run_comp; auto; apply same_GetDocument; auto using shift_fair|]. intros x sl1 H1 H2. apply lsame_ok; auto.
    - rewrite same_LoadJSON by auto. destruct (fst (LoadJSON w l)) as [doc|] eqn:E; [|apply lsame_err; auto]. apply load_tame in E; auto.
      eapply lsame_bind; [apply same_pool_parse; auto using shift_fair|]. intros d sl1 H1 H2. apply lsame_ok; auto.
  Qed.
  Lemma same_compile_parse fuel o sl r doc : fair o -> tame r = true -> tame_doc doc = true -> tame_pool (sl_pool sl) ->
    lsame (fun _ => True) (compile_parse w fuel o sl r doc) (compile_parse w' fuel o sl r doc).
  Proof.
    intros Ho Hr Hd Hp. unfold compile_parse. apply (lsame_bind (fun _ => True)).
    - destruct (sl_auto sl); [|apply lsame_ok; auto]. eapply lsame_bind; [apply same_run_out; auto; apply same_schemaURL; auto|]. intros x sl1 _ H1. destruct x as [e|[u [d|]]]; [apply lsame_err|apply lsame_ok|apply lsame_ok]; auto.
    - intros d sl1 _ H1. eapply lsame_bind; [apply same_run_comp; auto; apply same_parse; auto using shift_fair|]. intros x sl2 _ H2. apply lsame_ok; auto.
  Qed.
  Lemma same_Compile0 fuel o sl l : fair o -> tame_loader l -> tame_pool (sl_pool sl) -> lsame (fun _ => True) (Compile0 w fuel o sl l) (Compile0 w' fuel o sl l).
  Proof. intros Ho Hl Hp. unfold Compile0. eapply lsame_bind; [apply same_compile_doc; auto|]. intros rd sl1 [H1 H2] H3. apply same_compile_parse; auto. Qed.
  Lemma same_validateMetaschema fuel o sl doc : fair o -> tame_doc doc = true -> tame_pool (sl_pool sl) ->
    lsame (fun _ => True) (validateMetaschema w fuel o sl doc) (validateMetaschema w' fuel o sl doc).
  Proof.
    intros Ho Hd Hp. unfold validateMetaschema. apply (lsame_bind (fun u => tame u = true)).
    - destruct (sl_auto sl); [|apply lsame_ok; auto; apply HT]. eapply lsame_bind; [apply same_run_out; auto; apply same_schemaURL; auto|]. intros x sl1 Hx H1. destruct x as [e|[u d]]; [apply lsame_err|apply lsame_ok]; auto.
    - intros u sl1 Hu H1. destruct (_ && _)%bool; [apply lsame_ok; auto|]. cbv zeta.
      assert (Hu' : tame (if String.eqb u "" then GetSchemaURL (sl_draft sl1) else u) = true) by (destruct (String.eqb u ""); auto; apply HS).
      eapply lsame_bind; [apply same_Compile0; auto using shift_fair; cbn [tame_loader]; unfold URLTransfer.tame_string; rewrite (tame_parse _ _ HT _ Hu'); exact Hu'|].
      intros sch sl2 _ H2. eapply lsame_bind; [apply (same_run_out (fun _ => True)); [exact H2|split; auto]|]. intros r sl3 _ H3. destruct (Valid r); [apply lsame_ok|apply lsame_err]; auto.
  Qed.
  Lemma same_Compile fuel o sl l : fair o -> tame_loader l -> tame_pool (sl_pool sl) -> lsame (fun _ => True) (Compile w fuel o sl l) (Compile w' fuel o sl l).
  Proof.
    intros Ho Hl Hp. unfold Compile. eapply lsame_bind; [apply same_compile_doc; auto using shift_fair|]. intros rd sl1 [H1 H2] H3. apply (lsame_bind (fun _ => True)).
    - destruct (sl_validate sl1); [apply same_validateMetaschema; auto using shift_fair|apply lsame_ok; auto].
    - intros _ sl2 _ H4. apply same_compile_parse; auto using shift_fair.
  Qed.
  Lemma same_AddSchema fuel o url l sl : fair o -> tame_string url = true -> tame_loader l -> tame_pool (sl_pool sl) ->
    lsame (fun _ => True) (AddSchema w fuel o url l sl) (AddSchema w' fuel o url l sl).
  Proof.
    intros Ho Hu Hl Hp. unfold AddSchema. rewrite same_LoadJSON by auto. unfold URLTransfer.tame_string in Hu. cbn [w_parse tame_world]. destruct (w_parse w url) as [r|]; [|apply lsame_err; auto]. rewrite Hu.
    destruct (fst (LoadJSON w l)) as [doc|] eqn:E; [|apply lsame_err; auto]. apply load_tame in E; auto. apply (lsame_bind (fun _ => True)).
    - destruct (sl_validate sl); [apply same_validateMetaschema; auto using shift_fair|apply lsame_ok; auto].
    - intros _ sl1 _ H1. eapply lsame_bind; [apply same_pool_parse; auto using shift_fair|]. intros d sl2 _ H2. apply lsame_ok; auto.
  Qed.
  Lemma same_AddSchemas fuel ls : forall o sl, fair o -> Forall tame_loader ls -> tame_pool (sl_pool sl) -> lsame (fun _ => True) (AddSchemas w fuel o ls sl) (AddSchemas w' fuel o ls sl).
  Proof.
    induction ls as [|l ls IH]; intros o sl Ho Hl Hp; [apply lsame_ok; auto|]. cbn [AddSchemas]. inversion Hl as [|? ? Hl1 Hl2]; subst. rewrite same_LoadJSON by auto.
    destruct (fst (LoadJSON w l)) as [doc|] eqn:E; [|apply lsame_err; auto]. apply load_tame in E; auto. apply (lsame_bind (fun _ => True)).
    - destruct (sl_validate sl); [apply same_validateMetaschema; auto using shift_fair|apply lsame_ok; auto].
    - intros _ sl1 _ H1. eapply lsame_bind; [apply same_pool_parse; auto using shift_fair; apply HT|]. intros d sl2 _ H2. apply IH; auto using shift_fair.
  Qed.
  Definition tame_call (c : call) : Prop :=
    match c with
    | DoCompile l => tame_loader l
    | DoAddSchema u l => tame_string u = true /\ tame_loader l
    | DoAddSchemas ls => Forall tame_loader ls
    | _ => True
    end.
  Theorem same_call fuel o c sl : fair o -> tame_call c -> tame_pool (sl_pool sl) -> lsame (fun _ => True) (do_call w fuel o c sl) (do_call w' fuel o c sl).
  Proof.
    intros Ho Hc Hp. destruct c as [l|u l|ls|b|b|d]; cbn [do_call tame_call] in *; try (apply lsame_ok; auto; fail).
    - destruct (same_Compile fuel o sl l Ho Hc Hp) as [<- M]. split; [reflexivity|]. destruct (Compile w fuel o sl l) as [a s|e s| |]; cbn [forget]; auto.
    - apply same_AddSchema; tauto.
    - apply same_AddSchemas; auto.
  Qed.
End Loader.
