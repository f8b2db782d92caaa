(** Computable conditions for the theorems on which schemas compile, and what
    the example world serves. *)
From Verif Require Export Checked0 LoadShape LoadPanic.
From Coq Require Import Lia.
Open Scope string_scope.
Open Scope list_scope.
Open Scope nat_scope.

Definition panic_shape_b (m : list (string * value)) : bool :=
  (match assoc "definitions" m with Some (VBool _) => true | _ => false end ||
   match assoc "type" m with Some (VArr l) => existsb (fun x => match x with VNum _ => true | _ => false end) l | _ => false end)%bool.
Lemma panic_shape_b_iff m : panic_shape_b m = true <-> panic_shape m.
Proof.
  unfold panic_shape_b, panic_shape. rewrite Bool.orb_true_iff. split; (intros [H|H]; [left|right]).
  - destruct (assoc "definitions" m) as [[|b|t|f|t|l|o|o]|]; try discriminate. eauto.
  - destruct (assoc "type" m) as [[|b|t|f|t|l|o|o]|]; try discriminate. apply existsb_exists in H. destruct H as (x & Hx & E). destruct x; try discriminate. eauto.
  - destruct H as [b ->]. reflexivity.
  - destruct H as (l & t & -> & H). apply existsb_exists. exists (VNum t). auto.
Qed.

Section Mild.
  Variable P : string -> bool.
  Fixpoint mild_b (v : value) : bool :=
    match v with
    | VNum s => P s
    | VArr l => (fix go l := match l with [] => true | x :: l' => (mild_b x && go l')%bool end) l
    | VMap m => (negb (panic_shape_b m) && (fix go l := match l with [] => true | (_, x) :: l' => (mild_b x && go l')%bool end) m)%bool
    | VIMap _ => false
    | _ => true
    end.
  Lemma mild_checked (Q : string -> Prop) v : (forall s, P s = true -> Q s) -> mild_b v = true -> mild Q v.
  Proof.
    intros HP. induction v using value_ind'; intros E; try (split; [constructor; auto|intros m' I; inversion I]; fail); try discriminate.
    - apply mild_arr_iff. induction l as [|x l IHl]; [constructor|]. cbn [mild_b] in E. apply andb_prop in E. destruct E. inversion H; subst. constructor; auto.
    - apply mild_map_iff. cbn [mild_b] in E. apply andb_prop in E. destruct E as [E0 E]. split.
      + clear E0. induction m as [|[n x] l IHl]; [constructor|]. apply andb_prop in E. destruct E. inversion H; subst. constructor; auto.
      + intros S. apply panic_shape_b_iff in S. rewrite S in E0. discriminate.
  Qed.
End Mild.

(** Numbers within float64 range and big.Rat's exponent limit. *)
Definition tame_number (lim : Z) (s : string) : Prop := moderate lim s /\ float_range s.
Definition tame_number_b (lim : Z) (s : string) : bool := (moderate_b lim s && match canon (VNum s) with Some _ => true | None => false end)%bool.
Lemma tame_number_b_ok lim s : tame_number_b lim s = true -> tame_number lim s.
Proof.
  unfold tame_number_b. intros E. apply andb_prop in E. destruct E as [E1 E2]. split; [apply moderate_b_ok; auto|].
  apply andb_prop in E1. destruct E1 as [E1 _]. assert (R : in_float_range (VNum s)).
  { apply canon_some; [constructor; auto|]. destruct (canon (VNum s)); [eauto|discriminate]. }
  inversion R; auto.
Qed.

(** The example world serves the embedded meta-schemas and nothing else. *)
Lemma served0 fs s v : loadReference world0 fs s = Some v -> mild (tame_number 1000000) v.
Proof.
  unfold loadReference. cbn [w_parse world0]. destruct (parse0 s) as [r|]; [|discriminate]. cbn [w_strip w_file world0].
  destruct (file0 (cut_hash r)) as [[p|]|]; try discriminate. unfold loadFromHTTP, GetMetaSchema. cbn [w_http world0].
  assert (M : forall t, match decode_use_number t with Some x => mild_b (tame_number_b 1000000) x | None => true end = true -> decode_use_number t = Some v -> mild (tame_number 1000000) v).
  { intros t H E. rewrite E in H. eapply mild_checked; [apply tame_number_b_ok|exact H]. }
  repeat match goal with |- context[if String.eqb ?a ?b then _ else _] => destruct (String.eqb a b) end;
    try (apply M; vm_compute; reflexivity); discriminate.
Qed.

(** Documents whose references all lead somewhere known. *)
Lemma no_mentions v : ref_texts v = [] -> forall k, ~ mentions v k.
Proof. intros E k M. apply mentions_texts in M. rewrite E in M. destruct M. Qed.
Definition pool_closed_b (w : world) (sl : sloader) (doc : value) : bool :=
  forallb (fun e => closed_b (cenv_of w sl) (known_documents w sl doc) (sp_doc (snd e))) (sl_pool sl).

Definition loads_mild_b (l : loader) : bool :=
  match l with LString s | LBytes s => match decode_use_number s with Some v => mild_b (tame_number_b 1000000) v | None => true end | _ => false end.
Lemma loads_mild_checked l : loads_mild_b l = true -> loads_mild world0 (tame_number 1000000) l.
Proof.
  intros E. destruct l as [s|s|v|s|v|fs s]; try discriminate; (split; [exact I|]); intros v EL; cbn [loads_mild_b LoadJSON fst] in E, EL; rewrite EL in E;
    (eapply mild_checked; [apply tame_number_b_ok|exact E]).
Qed.
