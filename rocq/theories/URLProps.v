(** Go's URL library on plain references: what the other theorems ask of a URL
    library holds of it there, so they apply. *)
From Verif Require Import CheckedFetch.
From Verif Require Export URLResolve URLTransfer.
Open Scope string_scope.
Open Scope list_scope.
Open Scope nat_scope.

Lemma printable_utf8 s : all_chars printable s = true -> utf8_text s.
Proof.
  induction s as [|c s IH]; intros H; [apply utf8_empty|]. cbn [all_chars] in H. apply andb_true_iff in H. destruct H as [H1 H2]. destruct (IH H2) as [cps Hc]. exists (N_of_ascii c :: cps).
  change (String c s) with (append (String c "") s). constructor; auto. rewrite <- (ascii_N_embedding c) at 2. constructor. unfold printable in H1. apply andb_true_iff in H1. destruct H1 as [_ H1]. apply Nat.leb_le in H1.
  unfold code, nat_of_ascii in H1. lia.
Qed.

Section Go.
  Variable go : goenv.
  Variable fs : nat -> string -> option string.
  Variable http : string -> option string.
  Variable rest : string -> string.
  Notation w := (go_world go fs http rest).
  (** The same, except that references that are not plain do not parse. *)
  Definition plain_world : world := tame_world w plain_ref.

  Lemma go_tame : tame_laws w plain_ref.
  Proof.
    unfold tame_laws. cbn. split; [reflexivity|]. split; [reflexivity|]. split; [reflexivity|]. split; [reflexivity|]. split; [intros r H; apply printable_utf8, plain_text; auto|]. split; [apply plain_parse|]. split; [apply plain_inherits|apply plain_strip].
  Qed.
  Lemma plain_laws : url_laws plain_world /\ web_laws plain_world.
  Proof. split; [apply tame_url_laws, go_tame|apply tame_web_laws, go_tame]. Qed.
  Lemma plain_meta : meta_urls plain_world.
  Proof.
    intros d Hd. destruct d; try congruence.
    all: split; [repeat split; vm_compute; reflexivity|]; intros n Hn; cbn [meta_names In] in Hn;
      repeat (destruct Hn as [<-|Hn]; [repeat split; vm_compute; reflexivity|]); destruct Hn.
  Qed.

  (** What the files and the web hold is plain. *)
  Definition plain_doc (v : value) : bool := tame_doc w plain_ref v.
  Definition serves_plain : Prop :=
    (forall n p t v, fs n p = Some t -> decode_use_number t = Some v -> plain_doc v = true) /\
    (forall u t v, http u = Some t -> decode_use_number t = Some v -> plain_doc v = true).
  Lemma meta_plain t : In t [META_TEXT_Draft4; META_TEXT_Draft6; META_TEXT_Draft7; ""] -> match decode_use_number t with Some v => plain_doc v | None => true end = true.
  Proof. intros H. cbn [In] in H. repeat (destruct H as [<-|H]; [vm_compute; reflexivity|]). destruct H. Qed.
  Lemma serves : serves_plain -> serves_tame w plain_ref.
  Proof.
    intros [H1 H2]. split; [exact H1|]. split; [exact H2|]. split; [intros d; destruct d; vm_compute; reflexivity|].
    intros u v E. assert (G : In (GetMetaSchema u) [META_TEXT_Draft4; META_TEXT_Draft6; META_TEXT_Draft7; ""]).
    { unfold GetMetaSchema. destruct (String.eqb META4 u); [left; reflexivity|]. destruct (String.eqb META6 u); [right; left; reflexivity|]. destruct (String.eqb META7 u); [right; right; left; reflexivity|]. right; right; right; left; reflexivity. }
    apply meta_plain in G. rewrite E in G. exact G.
  Qed.
  Definition plain_loader : loader -> Prop := tame_loader w plain_ref.
  Definition plain_call : call -> Prop := tame_call w plain_ref.
  Definition plain_pool : pool -> Prop := tame_pool w plain_ref.
  Hypothesis HS : serves_plain.

  Lemma plain_Compile fuel o sl l : fair o -> plain_loader l -> plain_pool (sl_pool sl) -> Compile w fuel o sl l = Compile plain_world fuel o sl l.
  Proof. intros Ho Hl Hp. apply (same_Compile w plain_ref go_tame (serves HS) fuel o sl l Ho Hl Hp). Qed.

  (** A session, as the list of the outcomes of its calls; it ends with a panic,
      or goes on with the loader the call leaves behind. *)
  Fixpoint outcomes (w : world) (fuel : nat) (o : oracle) (cs : list call) (sl : sloader) : list (lres unit) :=
    match cs with
    | [] => []
    | c :: cs' =>
        let x := do_call w fuel (shift o 0) c sl in
        x :: match x with LOk _ sl' | LErr _ sl' => outcomes w fuel (shift o 1) cs' sl' | _ => [] end
    end.
  Theorem same_outcomes fuel cs : forall o sl, fair o -> Forall plain_call cs -> plain_pool (sl_pool sl) -> outcomes w fuel o cs sl = outcomes plain_world fuel o cs sl.
  Proof.
    induction cs as [|c cs IH]; intros o sl Ho Hc Hp; [reflexivity|]. inversion Hc as [|? ? H1 H2]; subst. cbn [outcomes].
    destruct (same_call w plain_ref go_tame (serves HS) fuel (shift o 0) c sl (shift_fair _ _ Ho) H1 Hp) as [E M]. unfold plain_world in *. rewrite <- E.
    destruct (do_call w fuel (shift o 0) c sl) as [u sl1|e sl1| |]; [destruct M as [_ M]| | |]; auto; rewrite IH; auto using shift_fair.
  Qed.
  Theorem same_session fuel cs o : fair o -> Forall plain_call cs -> outcomes w fuel o cs NewSchemaLoader = outcomes plain_world fuel o cs NewSchemaLoader.
  Proof. intros Ho Hc. apply same_outcomes; auto. constructor. Qed.

  (** Verdicts. *)
  Theorem plain_verdict fuel o sl l p doc sch sl' :
    fair o -> loader_fit l -> sl_ok sl -> plain_loader l -> plain_pool (sl_pool sl) -> sl_validate sl = false -> source plain_world sl l p doc ->
    let d := root_draft plain_world sl doc in
    all_found (view plain_world sl l) p doc -> settled_in (found (view plain_world sl l) p doc) d ->
    Compile w fuel o sl l = LOk sch sl' ->
    let T := heads_to (view plain_world sl l) p doc d in
    guarded T d doc ->
    forall v, usual (e_ratlim go) v ->
    (forall d' m x, needed T d doc v d' (VMap m) x -> assoc "$ref" m = None -> fits (e_ratlim go) m x) ->
    forall o', fair o' ->
    exists r, returns go (s_heap sch) (s_root sch) o' v r /\ (Valid r = true <-> meaning (pat go) (fmt go) same T d doc v).
  Proof.
    intros Ho Hl Hs Tl Tp Hv Hsrc d Ha Hset E. rewrite plain_Compile in E by auto. destruct plain_laws as [L1 L2]. exact (source_total plain_world L1 L2 fuel o sl l p doc sch sl' Ho Hl Hs Hv Hsrc Ha Hset E).
  Qed.

  (** Bounded recursion. *)
  Theorem plain_bounded fuel o sl l p doc lib n :
    fair o -> loader_fit l -> sl_ok sl -> plain_loader l -> plain_pool (sl_pool sl) -> sl_validate sl = false -> source plain_world sl l p doc ->
    let ce := view plain_world sl l in let d := root_draft plain_world sl doc in let T := heads_to ce p doc d in
    covered ce p lib doc -> lib_fuel doc lib < fuel -> settled_in (found ce p doc) d ->
    (forall d' x, meets (heads_to ce p doc) d doc d' x -> right ce d' x) -> shallow T n d doc ->
    exists sch p', Compile w fuel o sl l = LOk sch (with_pool p' (with_factory (LoaderFactory l) sl)) /\ grown ce p p' /\
      forall v, usual (e_ratlim go) v ->
      (forall d' m x, needed T d doc v d' (VMap m) x -> assoc "$ref" m = None -> fits (e_ratlim go) m x) ->
      forall k o', fair o' -> vsize v * S n + n <= k ->
      exists r, validateDocument go (s_heap sch) k o' (s_root sch) v = Ok r /\
        (Valid r = true <-> meaning (pat go) (fmt go) same T d doc v).
  Proof.
    intros Ho Hl Hs Tl Tp Hv Hsrc. rewrite plain_Compile by auto. destruct plain_laws as [L1 L2]. exact (source_decides plain_world L1 L2 fuel o sl l p doc lib n Ho Hl Hs Hv Hsrc).
  Qed.

  (** Meta-schema validation. *)
  Theorem plain_rejects fuel o sl l p doc d : (0 <= e_ratlim go)%Z -> plain_loader l -> plain_pool (sl_pool sl) ->
    checking plain_world fuel o sl l p doc d -> d <> Hybrid -> ~ conforms go d doc -> exists es sl', meta_tells go d doc es /\ Compile w fuel o sl l = LErr (EMeta es) sl'.
  Proof.
    intros HR Tl Tp C Hd Hn. destruct plain_laws as [L1 L2]. rewrite plain_Compile; auto; [|apply C]. exact (checked_rejects plain_world L1 L2 plain_meta HR fuel o sl l p doc d C Hd Hn).
  Qed.
  Theorem plain_conforms fuel o sl l p doc d sch sl' : (0 <= e_ratlim go)%Z -> plain_loader l -> plain_pool (sl_pool sl) ->
    checking plain_world fuel o sl l p doc d -> Compile w fuel o sl l = LOk sch sl' -> d = Hybrid \/ conforms go d doc.
  Proof.
    intros HR Tl Tp C E. destruct plain_laws as [L1 L2]. rewrite plain_Compile in E; auto; [|apply C]. exact (proj1 (checked_verdict plain_world L1 L2 plain_meta HR fuel o sl l p doc d sch sl' C E)).
  Qed.

  (** No panics. *)
  Variable P : string -> Prop.
  Hypothesis HP : forall s, P s -> moderate (e_ratlim go) s.
  Hypothesis served : forall n s v, loadReference w n s = Some v -> mild P v.
  Lemma plain_mild c : plain_call c -> call_mild w P c -> call_mild plain_world P c.
  Proof.
    assert (G : forall l, plain_loader l -> loads_mild w P l -> loads_mild plain_world P l).
    { intros l Hl [H1 H2]. split; auto. intros v E. apply H2. rewrite <- (same_LoadJSON w plain_ref l Hl). exact E. }
    unfold plain_call. destruct c as [l|u l|ls|b|b|d]; cbn [call_mild tame_call]; auto.
    - intros [_ A] [B C]. auto.
    - intros A B. rewrite Forall_forall in *. intros l I. apply G; [apply A|apply B]; exact I.
  Qed.
  Lemma plain_no_panic_from fuel cs : forall o sl, fair o -> Forall plain_call cs -> Forall (call_mild w P) cs -> plain_pool (sl_pool sl) -> session plain_world P sl -> ~ In LPanic (outcomes w fuel o cs sl).
  Proof.
    destruct plain_laws as [L1 L2].
    assert (served' : forall n s v, loadReference plain_world n s = Some v -> mild P v).
    { intros n s v E. apply (served n s). unfold loadReference in *. cbn in E |- *. destruct (ref_parse s) as [r|]; [|discriminate E]. destruct (plain_ref r) eqn:Er; [|discriminate E]. rewrite Er in E. exact E. }
    induction cs as [|c cs IH]; intros o sl Ho Hc Hm Hp Hses; [auto|]. inversion Hc as [|? ? H1 H2]; inversion Hm as [|? ? M1 M2]; subst. cbn [outcomes In].
    destruct (same_call w plain_ref go_tame (serves HS) fuel (shift o 0) c sl (shift_fair _ _ Ho) H1 Hp) as [E M]. fold plain_world in E.
    pose proof (session_no_panic plain_world L1 P HP served' sl fuel (shift o 0) c Hses (shift_fair _ _ Ho) (plain_mild c H1 M1)) as N. rewrite <- E in N.
    assert (S : forall sl', (do_call w fuel (shift o 0) c sl = LOk tt sl' \/ exists e, do_call w fuel (shift o 0) c sl = LErr e sl') -> session plain_world P sl').
    { intros sl' X. rewrite E in X. eapply session_call; [exact Hses|apply shift_fair; exact Ho|apply plain_mild; eauto|exact X]. }
    destruct (do_call w fuel (shift o 0) c sl) as [[] sl1|e sl1| |]; intros [X|X]; try discriminate X; try (exact (N X)); try (exact (N eq_refl)); try destruct X.
    - revert X. apply IH; auto using shift_fair. apply M.
    - revert X. apply IH; auto using shift_fair. apply S. eauto.
  Qed.
  Theorem plain_no_panic fuel cs o : fair o -> Forall plain_call cs -> Forall (call_mild w P) cs -> ~ In LPanic (outcomes w fuel o cs NewSchemaLoader).
  Proof. intros Ho Hc Hm. apply plain_no_panic_from; auto; constructor. Qed.
End Go.
