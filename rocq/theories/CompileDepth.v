(** How deep a compiled schema recurses on one instance, by its document. *)
From Verif Require Export CompileFetch.
From Coq Require Import Lia.
Open Scope nat_scope.

(** From (d, x) the instance is handed on fewer than n times in a row. *)
Fixpoint depth (T : string -> draft -> value -> Prop) (n : nat) (q : draft * value) : Prop :=
  match n with
  | O => False
  | S k => forall q', hands_on T q' q -> depth T k q'
  end.
(** So it is for every schema taking part. *)
Definition shallow (T : string -> draft -> value -> Prop) (n : nat) (d : draft) (s : value) : Prop :=
  forall d' s', within T d s d' s' -> depth T n (d', s').
Lemma depth_acc T n : forall q, depth T n q -> Acc (hands_on T) q.
Proof. induction n as [|n IH]; intros q H; [destruct H|]. constructor. intros q' H'. apply IH. apply H. auto. Qed.
Lemma shallow_guarded T n d s : shallow T n d s -> guarded T d s.
Proof. intros H d' s' W. eapply depth_acc. apply H. auto. Qed.

Section Depth.
  Variable ce : cenv.
  Variable loc : string -> spd -> Prop.
  Variable kp : pool -> Prop.
  Variable d1 : draft.
  Hypothesis Hset : settled_in loc d1.
  Hypothesis Hdocs : forall r e, loc r e -> doc_ok (sp_doc e) /\ closed_in ce loc (sp_doc e).
  Hypothesis Hfun : forall r e e', loc r e -> loc r e' -> e = e'.
  Hypothesis Hget : forall o r s dsp s', fair o -> kp (st_pool s) -> (exists e, loc r e) -> GetDocument ce o r s = COk dsp s' ->
    kp (st_pool s') /\ loc r dsp.

  Theorem lib_height fuel o docref doc p0 id s' n :
    kp p0 -> doc_ok doc -> closed_in ce loc doc -> fair o ->
    parse ce fuel o docref d1 doc (CState [] [] p0 []) = COk id s' ->
    shallow (leads_in ce loc d1) n d1 doc -> forall a, reach (st_heap s') id a -> height (st_heap s') n a.
  Proof.
    intros HP Hd Hc F E SH a R.
    destruct (parse_ok ce (lib_policy ce loc kp d1) (lib_fetch ce loc kp d1 Hdocs Hget) fuel o docref d1 doc p0 id s' F HP (conj Hd Hc) (or_intror eq_refl) E) as (-> & W & L & K & C).
    destruct (reach_within ce (lib_policy ce loc kp d1) s' W C d1 doc 0 K a R) as (d & x & Ka & Hw).
    assert (Dx : depth (leads_in ce loc d1) n (d, x)).
    { apply SH. apply (lib_within ce loc kp d1 Hset Hfun Hget s' 0 doc W C K). exact Hw. }
    clear R SH. revert d x a Ka Hw Dx. induction n as [|k IH]; intros d x a Ka Hw Dx; [destruct Dx|]. cbn [height]. intros b Eb.
    destruct (edge_hands ce (lib_policy ce loc kp d1) s' W C d1 doc a b d x Ka Eb) as (d' & x' & Kb & H & Hw').
    apply (IH d' x' b Kb (Hw' Hw)). apply Dx. inversion H as [? m r ? ? Er HT|? m ? Nr P]; subst; [|apply hands_part; auto].
    eapply hands_ref; eauto. apply (lib_same ce loc kp d1 Hset Hfun Hget s' a d m r W C Ka Er). exact HT.
  Qed.
End Depth.

(** Fuel for validating with a graph of that height. *)
Lemma height_nf env h root n o v c k : (forall a, reach h root a -> height h n a) -> fair o ->
  vsize v * S n + n <= k -> nf (validateRecursive env h k o root v c).
Proof.
  intros Hh F Hk. apply validateRecursive_nf with (M := n) (s := vsize v) (B := n) (K := reach h root); auto.
  - intros id m Hid En. apply Forall_forall. intros b Hb. eapply reach_kid; eauto.
  - constructor.
  - apply Hh. constructor.
Qed.
