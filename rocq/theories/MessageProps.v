(** The text of errors. *)
From Coq Require Import List.
From Verif Require Import ValidateApi ValidateMisc ModelTemplate.
From Verif Require Export SpecMessage.
Import ListNotations.
Open Scope string_scope.
Open Scope list_scope.

Fixpoint pieces_toks (ps : list piece) : list tok :=
  match ps with
  | [] => []
  | Says t :: ps' => map TText (list_ascii_of_string t) ++ pieces_toks ps'
  | Detail k :: ps' => TVar k :: pieces_toks ps'
  end.
Fixpoint piece_details (ps : list piece) : list string :=
  match ps with [] => [] | Says _ :: ps' => piece_details ps' | Detail k :: ps' => k :: piece_details ps' end.
Definition tok_text (show : dval -> string) (d : details) (t : tok) : string :=
  match t with TText c => String c "" | TVar x => match assoc x d with Some v => show v | None => "<no value>" end end.
Lemma concat_str_app l m : concat_str (l ++ m) = (concat_str l ++ concat_str m)%string.
Proof.
  induction l as [|x l IH]; [reflexivity|]. change (append x (concat_str (l ++ m)) = append (append x (concat_str l)) (concat_str m)). rewrite IH.
  clear. induction x as [|c x IHx]; [reflexivity|]. cbn [append]. rewrite IHx. reflexivity.
Qed.
Lemma concat_chars show d t : concat_str (map (tok_text show d) (map TText (list_ascii_of_string t))) = t.
Proof. induction t as [|c t IH]; [reflexivity|]. change (String c (concat_str (map (tok_text show d) (map TText (list_ascii_of_string t)))) = String c t). rewrite IH. reflexivity. Qed.
Lemma pieces_said show d ps : (forall k, In k (piece_details ps) -> assoc k d <> None) ->
  said (fun k y => exists x, assoc k d = Some x /\ y = show x) ps (concat_str (map (tok_text show d) (pieces_toks ps))).
Proof.
  induction ps as [|[t|k] ps IH]; intros H; cbn [pieces_toks]; [constructor| |].
  - rewrite map_app, concat_str_app, concat_chars. constructor. apply IH. exact H.
  - cbn [map]. destruct (assoc k d) as [x|] eqn:E; [|destruct (H k); [left; reflexivity|exact E]].
    assert (T : tok_text show d (TVar k) = show x) by (cbn; rewrite E; reflexivity).
    change (concat_str (tok_text show d (TVar k) :: ?l)) with (tok_text show d (TVar k) ++ concat_str l)%string. rewrite T.
    constructor; [eauto|]. apply IH. intros j Hj. apply H. right. exact Hj.
Qed.
Lemma in_said (show : dval -> string) (d : details) ps : (forall k, In k (piece_details ps) -> assoc k d <> None) ->
  forall s, template s = pieces_toks ps -> said (fun k y => exists x, assoc k d = Some x /\ y = show x) ps (render show s d).
Proof. intros H s E. unfold render. rewrite E. apply pieces_said. exact H. Qed.
(** Every type has its message, which is what its template says. *)
Lemma message_exists t : t <> InternalError -> exists ps, In (type_name t, ps) messages /\ template (default_format t) = pieces_toks ps /\ piece_details ps = tvars (default_format t).
Proof.
  intros H.
  assert (D : exists ps, find (fun m => String.eqb (fst m) (type_name t)) messages = Some (type_name t, ps) /\ template (default_format t) = pieces_toks ps /\ piece_details ps = tvars (default_format t)).
  { destruct t; try (destruct H; reflexivity); eexists; (split; [vm_compute; reflexivity|split; vm_compute; reflexivity]). }
  destruct D as (ps & F & E). exists ps. split; [|exact E]. apply find_some in F. exact (proj1 F).
Qed.
Lemma string_text show shown c desc v : (forall s, show (DStr s) = s) ->
  error_String show shown (Some c) desc v = Ok (field_of c ++ ": " ++ desc)%string.
Proof.
  intros S. unfold error_String. f_equal. unfold render. change (template ErrorFormat) with [TVar "field"; TText ":"; TText " "; TVar "description"].
  cbn -[field_of append]. rewrite !S. cbn [append]. f_equal. f_equal. f_equal. induction desc as [|a desc IH]; [reflexivity|cbn; rewrite IH; reflexivity].
Qed.
Lemma place_field p : field_of (rev ("(root)" :: p)) = place p.
Proof. destruct p as [|x p]; [reflexivity|]. apply field_of_path. Qed.
Theorem error_text env h root o v r show shown : fair o -> decoded v -> returns env h root o v r -> (forall s, show (DStr s) = s) ->
  Forall (fun e => exists p ps msg, r_ctx e = rev ("(root)" :: p) /\ In (type_name (r_type e), ps) messages /\
    said (fun k y => exists d, assoc k (r_details e) = Some d /\ y = show d) ps msg /\
    error_String show shown (Some (r_ctx e)) (description show e) (r_value e) = Ok (place p ++ ": " ++ msg)%string) (errors r).
Proof.
  intros F D R S. pose proof (errors_point_into _ _ _ _ _ _ F D R) as H1. pose proof (errors_documented _ _ _ _ _ _ F R) as H2. pose proof (errors_not_internal _ _ _ _ _ _ F R) as H3.
  rewrite Forall_forall in *. intros e He. destruct (H1 e He) as (p & Hp & _). destruct (H2 e He) as (_ & _ & _ & Hv). destruct (message_exists _ (H3 e He)) as (ps & I & E & V).
  exists p, ps, (description show e). split; [exact Hp|]. split; [exact I|]. split.
  - apply in_said; [|exact E]. intros k Hk. apply Hv. rewrite <- V. exact Hk.
  - rewrite string_text by exact S. rewrite Hp. change STRING_CONTEXT_ROOT with "(root)". rewrite place_field. reflexivity.
Qed.
Lemma one_message t ps ps' : In (t, ps) messages -> In (t, ps') messages -> ps = ps'.
Proof.
  assert (A : forall m : list (string * list piece), NoDup (map fst m) -> In (t, ps) m -> In (t, ps') m -> ps = ps').
  { induction m as [|[k x] m IH]; intros N H H'; [destruct H|]. cbn in N. inversion N as [|? ? N1 N2]; subst.
    destruct H as [H|H], H' as [H'|H']; [congruence| | |exact (IH N2 H H')]; exfalso; apply N1.
    - injection H as -> ->. apply (in_map fst) in H'. exact H'.
    - injection H' as -> ->. apply (in_map fst) in H. exact H. }
  apply A. repeat (constructor; [simpl; intuition discriminate|]). constructor.
Qed.
