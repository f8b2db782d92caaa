(** The same with Go's URL library, and with meta-schema validation. *)
From Coq Require Import Relations Lia.
From Verif Require Import WhyProps URLProps MetaLoad.
From Verif Require Export ReasonDue.
From Verif Require Export SpecReason.
Open Scope string_scope.
Open Scope list_scope.
Open Scope nat_scope.

Section Go.
  Variable go : goenv.
  Variable fs : nat -> string -> option string.
  Variable http : string -> option string.
  Variable rest : string -> string.
  Notation w := (go_world go fs http rest).
  Notation pw := (plain_world go fs http rest).
  Hypothesis HS : serves_plain go fs http rest.
  Theorem plain_justified fuel o sl l p doc sch sl' :
    fair o -> loader_fit l -> sl_ok sl -> plain_loader go fs http rest l -> plain_pool go fs http rest (sl_pool sl) -> sl_validate sl = false -> source pw sl l p doc ->
    let d := root_draft pw sl doc in
    all_found (view pw sl l) p doc -> settled_in (found (view pw sl l) p doc) d ->
    Compile w fuel o sl l = LOk sch sl' ->
    let T := heads_to (view pw sl l) p doc d in
    guarded T d doc ->
    forall v, usual (e_ratlim go) v ->
    (forall d' m x, needed T d doc v d' (VMap m) x -> assoc "$ref" m = None -> fits (e_ratlim go) m x) ->
    forall o' r, fair o' -> returns go (s_heap sch) (s_root sch) o' v r ->
    Forall (justified (pat go) (fmt go) same (meaning (pat go) (fmt go) same T) T d doc v) (errors r).
  Proof.
    intros Ho Hl Hs Tl Tp Hv Hsrc d Ha Hset E. rewrite plain_Compile in E by auto. destruct (plain_laws go fs http rest) as [L1 L2].
    exact (source_justified pw L1 L2 fuel o sl l p doc sch sl' Ho Hl Hs Hv Hsrc Ha Hset E).
  Qed.
End Go.


Section Go.
  Variable go : goenv.
  Variable fs : nat -> string -> option string.
  Variable http : string -> option string.
  Variable rest : string -> string.
  Notation w := (go_world go fs http rest).
  Notation pw := (plain_world go fs http rest).
  Hypothesis HS : serves_plain go fs http rest.
  Theorem plain_due fuel o sl l p doc sch sl' :
    fair o -> loader_fit l -> sl_ok sl -> plain_loader go fs http rest l -> plain_pool go fs http rest (sl_pool sl) -> sl_validate sl = false -> source pw sl l p doc ->
    let d := root_draft pw sl doc in
    all_found (view pw sl l) p doc -> settled_in (found (view pw sl l) p doc) d ->
    Compile w fuel o sl l = LOk sch sl' ->
    let T := heads_to (view pw sl l) p doc d in
    guarded T d doc ->
    forall v, usual (e_ratlim go) v ->
    (forall d' m x, needed T d doc v d' (VMap m) x -> assoc "$ref" m = None -> fits (e_ratlim go) m x) ->
    forall o' r, fair o' -> returns go (s_heap sch) (s_root sch) o' v r ->
    reports_due (due (pat go) (fmt go) same (meaning (pat go) (fmt go) same T) T d doc v) (errors r).
  Proof.
    intros Ho Hl Hs Tl Tp Hv Hsrc d Ha Hset E. rewrite plain_Compile in E by auto. destruct (plain_laws go fs http rest) as [L1 L2].
    exact (source_due pw L1 L2 fuel o sl l p doc sch sl' Ho Hl Hs Hv Hsrc Ha Hset E).
  Qed.
End Go.

(** With meta-schema validation. *)
Section Checked.
  Variable w : world.
  Hypothesis HU : url_laws w.
  Hypothesis HW : web_laws w.
  Hypothesis HM : meta_urls w.
  Hypothesis HL : (0 <= e_ratlim (w_go w))%Z.
  Notation lim := (e_ratlim (w_go w)).
  Notation its T := (meaning (pat (w_go w)) (fmt (w_go w)) same T).

  Theorem checked_reasons fuel o sl l p doc d' sch sl' : checking w fuel o sl l p doc d' -> Compile w fuel o sl l = LOk sch sl' ->
    let d := root_draft w sl doc in
    all_found (view w sl l) p doc -> settled_in (found (view w sl l) p doc) d ->
    let T := heads_to (view w sl l) p doc d in
    guarded T d doc ->
    forall v, usual lim v ->
    (forall d' m x, needed T d doc v d' (VMap m) x -> assoc "$ref" m = None -> fits lim m x) ->
    forall o' r, fair o' -> returns (w_go w) (s_heap sch) (s_root sch) o' v r ->
    Forall (justified (pat (w_go w)) (fmt (w_go w)) same (its T) T d doc v) (errors r) /\
    reports_due (due (pat (w_go w)) (fmt (w_go w)) same (its T) T d doc v) (errors r).
  Proof.
    intros (H1 & H2 & H3 & H4 & H5 & H6 & H7 & H8 & H9 & H10 & H11) E d HA HS T G v ORD REG o' r F R.
    destruct (compile_checked w HU HW HM HL fuel o sl l p doc d' H1 H2 H3 H4 H5 H6 H7 H8 H9 H10 H11) as [D [[C X]|(_ & es & sl2 & _ & E2 & _)]]; [|congruence]. split.
    - apply (comes_justified w HU HW fuel o sl l p doc sch sl' D X HA HS E G v ORD REG o' r F R).
    - apply (comes_due w HU HW fuel o sl l p doc sch sl' D X HA HS E G v ORD REG o' r F R).
  Qed.
End Checked.
