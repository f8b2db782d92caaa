(** Documents given by NewRawLoader. *)
From Coq Require Import Lia List.
From Verif Require Import PoolProps ModelRaw.
From Verif Require Export ModelRaw.
Import ListNotations.
Open Scope string_scope.
Open Scope list_scope.

Section Raw.
  Variable w : world.
  Hypothesis HW : url_laws w.
  Notation resolve := (resolve (w_parse w) (w_inherits w)).
  Notation ids_of := (ids_of (w_parse w) (w_inherits w)).
  Notation position := (position (w_parse w) (w_inherits w)).
  Notation scope := (scope (w_parse w) (w_inherits w)).
  Notation absolute := (absolute (w_parse w) (w_inherits w)).

  Lemma AddSchema_value_resolve fuel o sl url v ref : fair o -> addable w sl url (LRaw v) ref v -> AddSchema_value w fuel o url v sl = resolve ref v.
  Proof.
    intros F A. destruct (addable_fresh _ _ _ _ _ _ A) as [Hd Hf]. destruct A as (E1 & Hl & EL & Hn & Ev & Hw & Er & _ & _).
    destruct HW as (_ & U2 & _).
    destruct (parseReferences_resolves (cenv_of w sl) U2 (shift o 1) v ref true (sl_pool sl)) as (p' & A & E'); auto; [apply shift_fair; auto|].
    unfold AddSchema_value. rewrite E1, Ev. unfold refs_value. rewrite E'. reflexivity.
  Qed.
  Theorem AddSchema_value_spec fuel o sl url v ref : fair o -> addable w sl url (LRaw v) ref v ->
    let v' := AddSchema_value w fuel o url v sl in
    (exists sl', AddSchema w fuel o url (LRaw v) sl = LOk tt sl' /\ assoc ref (sl_pool sl') = Some (Spd v' (added_draft w sl v))) /\
    (forall p b m s, position ref v p b (VMap m) -> assoc "$ref" m = Some (VStr s) -> at_path (p ++ [Key "$ref"]) v' = Some (VStr (absolute (scope b m) s))) /\
    (forall p, (forall q b m s, position ref v q b (VMap m) -> assoc "$ref" m = Some (VStr s) -> p <> q ++ [Key "$ref"]) ->
       option_map top (at_path p v') = option_map top (at_path p v)).
  Proof.
    intros F A. cbv zeta. rewrite (AddSchema_value_resolve fuel o sl url v ref F A).
    destruct (AddSchema_registers w HW fuel o sl url (LRaw v) ref v F A) as (sl' & E & E1 & _). split; [eauto|]. split.
    - intros p b m s. apply reference_resolved.
    - intros p. apply rest_untouched.
  Qed.

  (** Nothing changes where every reference is what it resolves to. *)
  Lemma resolve_fixed v : doc_ok v -> forall base, (forall p b m s, position base v p b (VMap m) -> assoc "$ref" m = Some (VStr s) -> absolute (scope b m) s = s) -> resolve base v = v.
  Proof.
    intros D base H. remember (vsize v) as n eqn:Hn. assert (L : vsize v < S n) by lia. clear Hn. revert v base D H L. generalize (S n) as k. clear n.
    induction k as [|k IH]; intros v base D H L; [lia|]. destruct v as [| | | | |l|m|m]; try reflexivity.
    - cbn [SpecResolve.resolve]. f_equal. rewrite <- (map_id l) at 2. apply map_ext_in. intros x Hx. apply IH.
      + apply doc_ok_arr_iff in D. rewrite Forall_forall in D. auto.
      + intros p b m s P. apply In_nth_error in Hx. destruct Hx as [i Hx]. apply (H (Index i :: p) b m s). econstructor; eauto.
      + apply vsize_item in Hx. lia.
    - pose proof (resolve_map (cenv_of w NewSchemaLoader) base m) as R. cbn [cenv_of u_parse u_inherits] in R. rewrite R. clear R. f_equal. rewrite <- (map_id m) at 2. apply map_ext_in. intros [nm y] Hy. cbn [fst snd]. f_equal. unfold res_member. cbn [cenv_of u_parse u_inherits].
      pose proof (doc_ok_entry _ _ _ D Hy) as [_ Dy]. assert (Ny : assoc nm m = Some y) by (apply assoc_In_iff; [apply doc_ok_map_iff in D; tauto|auto]).
      pose proof (vsize_member _ _ _ Hy) as Sy.
      destruct (is_literal nm) eqn:El; [reflexivity|]. destruct (is_schema_map nm) eqn:Es.
      + destruct y as [| | | | | |c|]; try reflexivity. f_equal. rewrite <- (map_id c) at 2. apply map_ext_in. intros [n' z] Hz. cbn [fst snd]. f_equal.
        pose proof (doc_ok_entry _ _ _ Dy Hz) as [_ Dz]. apply IH; auto.
        * intros p b m' s P. apply (H (Key nm :: Key n' :: p) b m' s). eapply pos_named; eauto. apply assoc_In_iff; [apply doc_ok_map_iff in Dy; tauto|auto].
        * apply vsize_member in Hz. lia.
      + destruct y as [| | | |s|l|c|c]; try reflexivity.
        * destruct (String.eqb_spec nm "$ref") as [->|]; [|reflexivity]. f_equal. apply (H [] base m s); [constructor|auto].
        * apply IH; auto; [|lia]. intros p b m' s P. apply (H (Key nm :: p) b m' s). eapply pos_member; eauto.
        * apply IH; auto; [|lia]. intros p b m' s P. apply (H (Key nm :: p) b m' s). eapply pos_member; eauto.
  Qed.
  Theorem AddSchema_value_same fuel o sl url v ref : fair o -> addable w sl url (LRaw v) ref v ->
    (forall p b m s, position ref v p b (VMap m) -> assoc "$ref" m = Some (VStr s) -> absolute (scope b m) s = s) ->
    AddSchema_value w fuel o url v sl = v.
  Proof. intros F A H. rewrite (AddSchema_value_resolve fuel o sl url v ref F A). apply resolve_fixed; auto. eapply (addable_fresh w sl url (LRaw v) ref v A). Qed.

  (** Compile. *)
  Lemma Compile_value_resolve o sl v : fair o -> addable w sl "#" (LRaw v) "" v -> Compile_value w o v sl = resolve "" v.
  Proof.
    intros F A. destruct (addable_fresh _ _ _ _ _ _ A) as [Hd Hf]. destruct A as (E1 & Hl & EL & Hn & Ev & Hw & Er & _ & _).
    destruct HW as (_ & U2 & _).
    destruct (parseReferences_resolves (cenv_of w (with_factory 0 sl)) U2 (shift (shift o 0) 0) v "" true (sl_pool sl)) as (p' & A & E'); auto; [apply shift_fair, shift_fair; auto|].
    unfold Compile_value, JsonReference. rewrite E1. unfold refs_value. cbn [with_factory sl_pool]. rewrite E'. reflexivity.
  Qed.
  Theorem Compile_value_spec o sl v : fair o -> addable w sl "#" (LRaw v) "" v ->
    let v' := Compile_value w o v sl in
    (forall p b m s, position "" v p b (VMap m) -> assoc "$ref" m = Some (VStr s) -> at_path (p ++ [Key "$ref"]) v' = Some (VStr (absolute (scope b m) s))) /\
    (forall p, (forall q b m s, position "" v q b (VMap m) -> assoc "$ref" m = Some (VStr s) -> p <> q ++ [Key "$ref"]) ->
       option_map top (at_path p v') = option_map top (at_path p v)) /\
    ((forall p b m s, position "" v p b (VMap m) -> assoc "$ref" m = Some (VStr s) -> absolute (scope b m) s = s) -> v' = v).
  Proof.
    intros F A. cbv zeta. rewrite (Compile_value_resolve o sl v F A). split; [|split].
    - intros p b m s. apply reference_resolved.
    - intros p. apply rest_untouched.
    - intros H. apply resolve_fixed; auto. eapply (addable_fresh w sl "#" (LRaw v) "" v A).
  Qed.
End Raw.
