(** Schemas in other words have the same verdicts. *)
From Coq Require Import Lia Permutation.
From Verif Require Export SwapProps.
Open Scope nat_scope.

Section Words.
  Variable w : world.
  Hypothesis HU : url_laws w.
  Notation go := (w_go w).
  Notation lim := (e_ratlim go).
  Notation M := (meaning (pat go) (fmt go) same nowhere Hybrid).

  Notation free v := (forall m k t, inside v (VMap m) -> In k ["$ref"; "$id"; "id"] -> ~ In (k, VStr t) m).
  Ltac absent := first [apply kw_absent; reflexivity | intros _; apply kw_absent; reflexivity].
  Ltac parts K := unfold keywords in K; repeat match type of K with _ /\ _ => let A := fresh "A" in destruct K as [A K] end.
  Ltac open F := rewrite (free_rules w _ _ F); cbn [schema_sem]; match goal with |- context [assoc "$ref" ?m] => change (assoc "$ref" m) with (@None value) end; cbv iota.
  Ltac build := unfold keywords; repeat match goal with |- _ /\ _ => split end; try absent.
  Lemma no4 : since6 Hybrid. Proof. discriminate. Qed.

  Lemma only_const c v : free (VMap [("const", c)]) -> (M (VMap [("const", c)]) v <-> same v c).
  Proof.
    intros F. open F. split.
    - intros K. parts K. match goal with H : s_const _ _ _ _ |- _ => exact (H no4 _ eq_refl) end.
    - intros K. build. intros _. eapply kw_present; [reflexivity|]. exact K.
  Qed.
  Lemma only_enum l v : free (VMap [("enum", VArr l)]) -> (M (VMap [("enum", VArr l)]) v <-> exists e, In e l /\ same v e).
  Proof.
    intros F. open F. split.
    - intros K. parts K. match goal with H : s_enum _ _ _ |- _ => exact (H _ eq_refl _ eq_refl) end.
    - intros K. build. eapply kw_present; [reflexivity|]. intros l' [= <-]. exact K.
  Qed.
  Lemma only_type t v : free (VMap [("type", VStr t)]) -> (M (VMap [("type", VStr t)]) v <-> has_type t v).
  Proof.
    intros F. open F. split.
    - intros K. parts K. match goal with H : s_type _ _ |- _ => exact (proj1 (H _ eq_refl) _ eq_refl) end.
    - intros K. build. eapply kw_present; [reflexivity|]. split; [intros t' [= <-]; exact K|discriminate].
  Qed.
  Lemma only_types l v : free (VMap [("type", VArr l)]) -> (M (VMap [("type", VArr l)]) v <-> exists t, In (VStr t) l /\ has_type t v).
  Proof.
    intros F. open F. split.
    - intros K. parts K. match goal with H : s_type _ _ |- _ => exact (proj2 (H _ eq_refl) _ eq_refl) end.
    - intros K. build. eapply kw_present; [reflexivity|]. split; [discriminate|intros l' [= <-]; exact K].
  Qed.
  Lemma only_required l v : free (VMap [("required", VArr l)]) ->
    (M (VMap [("required", VArr l)]) v <-> forall o, v = VMap o -> forall k, In (VStr k) l -> In k (map fst o)).
  Proof.
    intros F. open F. split.
    - intros K o E. parts K. match goal with H : s_required _ _ |- _ => exact (H _ eq_refl _ o eq_refl E) end.
    - intros K. build. eapply kw_present; [reflexivity|]. intros ks o [= <-]. exact (K o).
  Qed.
  Lemma only_properties l v : free (VMap [("properties", VMap l)]) ->
    (M (VMap [("properties", VMap l)]) v <-> forall o, v = VMap o -> forall k s e, In (k, s) l -> In (k, e) o -> M s e).
  Proof.
    intros F. open F. split.
    - intros K o E. parts K. match goal with H : s_properties _ _ _ _ |- _ => exact (H _ eq_refl _ o eq_refl E) end.
    - intros K. build. eapply kw_present; [reflexivity|]. intros ks o [= <-]. exact (K o).
  Qed.
  Lemma only_dependency n a v : free (VMap [("dependencies", VMap [(n, a)])]) ->
    (M (VMap [("dependencies", VMap [(n, a)])]) v <-> forall o, v = VMap o -> In n (map fst o) ->
      (forall ks, a = VArr ks -> forall k', In (VStr k') ks -> In k' (map fst o)) /\ ((forall ks, a <> VArr ks) -> M a v)).
  Proof.
    intros F. open F. split.
    - intros K o E. parts K. match goal with H : s_dependencies _ _ _ _ |- _ => exact (H _ eq_refl _ o eq_refl E n a (or_introl eq_refl)) end.
    - intros K. build. eapply kw_present; [reflexivity|]. intros ds o [= <-] E k b [H|[]]. injection H as <- <-. exact (K o E).
  Qed.
  Lemma only_empty v : M (VMap []) v.
  Proof.
    assert (F : free (VMap [])) by (intros m k t I; inversion I; subst; simpl in *; tauto).
    open F. build.
  Qed.
  Lemma only_exclusiveMinimum a v : free (VMap [("exclusiveMinimum", VNum a)]) ->
    (M (VMap [("exclusiveMinimum", VNum a)]) v <-> forall q b, is_num v q -> is_num (VNum a) b -> (b < q)%Q).
  Proof.
    intros F. open F. split.
    - intros K. parts K. match goal with H : s_exclusiveMinimum _ _ _ |- _ => exact (H no4 _ eq_refl) end.
    - intros K. build. intros _. eapply kw_present; [reflexivity|]. exact K.
  Qed.
  Lemma only_exclusiveMaximum a v : free (VMap [("exclusiveMaximum", VNum a)]) ->
    (M (VMap [("exclusiveMaximum", VNum a)]) v <-> forall q b, is_num v q -> is_num (VNum a) b -> (q < b)%Q).
  Proof.
    intros F. open F. split.
    - intros K. parts K. match goal with H : s_exclusiveMaximum _ _ _ |- _ => exact (H no4 _ eq_refl) end.
    - intros K. build. intros _. eapply kw_present; [reflexivity|]. exact K.
  Qed.
  Lemma strict_minimum a v : let s := VMap [("minimum", VNum a); ("exclusiveMinimum", VBool true)] in free s ->
    (M s v <-> forall q b, is_num v q -> is_num (VNum a) b -> (b < q)%Q).
  Proof.
    intros s F. subst s. open F. split.
    - intros K q b Hq Hb. parts K. match goal with H : s_minimum _ _ _ |- _ => apply (proj2 (H _ eq_refl q b Hq Hb)) end. split; auto.
    - intros K. build.
      + eapply kw_present; [reflexivity|]. intros q b Hq Hb. split; [apply Qlt_le_weak|intros _]; auto.
      + intros _. eapply kw_present; [reflexivity|]. intros q b _ (t & E & _). discriminate.
  Qed.
  Lemma strict_maximum a v : let s := VMap [("maximum", VNum a); ("exclusiveMaximum", VBool true)] in free s ->
    (M s v <-> forall q b, is_num v q -> is_num (VNum a) b -> (q < b)%Q).
  Proof.
    intros s F. subst s. open F. split.
    - intros K q b Hq Hb. parts K. match goal with H : s_maximum _ _ _ |- _ => apply (proj2 (H _ eq_refl q b Hq Hb)) end. split; auto.
    - intros K. build.
      + eapply kw_present; [reflexivity|]. intros q b Hq Hb. split; [apply Qlt_le_weak|intros _]; auto.
      + intros _. eapply kw_present; [reflexivity|]. intros q b _ (t & E & _). discriminate.
  Qed.
  Lemma denotes_nought : denotes "0" 0.
  Proof. eapply denotes_ext; [apply (rat_of_denotes 10); [reflexivity|vm_compute; reflexivity]|reflexivity]. Qed.
  Lemma zero_int : is_int (VNum "0") 0.
  Proof. exists "0". split; [reflexivity|apply denotes_nought]. Qed.
  Lemma zero_only n : is_int (VNum "0") n -> n = 0%Z.
  Proof. intros (s & [= <-] & D). apply (inject_Z_injective n 0). exact (denotes_unique _ _ _ D denotes_nought). Qed.
  Lemma only_maxItems v : free (VMap [("maxItems", VNum "0")]) -> (M (VMap [("maxItems", VNum "0")]) v <-> forall l, v = VArr l -> l = []).
  Proof.
    intros F. open F. split.
    - intros K l E. parts K. match goal with H : s_maxItems _ _ |- _ => pose proof (H _ eq_refl 0%Z l zero_int E) end. destruct l; auto. simpl in *. lia.
    - intros K. build. eapply kw_present; [reflexivity|]. intros n l Hn E. rewrite (K l E), (zero_only n Hn). simpl. lia.
  Qed.
  Lemma only_maxProperties v : free (VMap [("maxProperties", VNum "0")]) -> (M (VMap [("maxProperties", VNum "0")]) v <-> forall l, v = VMap l -> l = []).
  Proof.
    intros F. open F. split.
    - intros K l E. parts K. match goal with H : s_maxProperties _ _ |- _ => pose proof (H _ eq_refl 0%Z l zero_int E) end. destruct l; auto. simpl in *. lia.
    - intros K. build. eapply kw_present; [reflexivity|]. intros n l Hn E. rewrite (K l E), (zero_only n Hn). simpl. lia.
  Qed.
  Lemma only_items x v : (forall ss, x <> VArr ss) -> free (VMap [("items", x)]) ->
    (M (VMap [("items", x)]) v <-> forall l, v = VArr l -> forall e, In e l -> M x e).
  Proof.
    intros Hx F. open F. split.
    - intros K l E. parts K. match goal with H : s_items _ _ _ _ |- _ => exact (proj2 (H _ eq_refl l E) Hx) end.
    - intros K. build. eapply kw_present; [reflexivity|]. intros l E. split; [intros ss ->; destruct (Hx ss eq_refl)|intros _; exact (K l E)].
  Qed.
  Lemma only_propertyNames x v : free (VMap [("propertyNames", x)]) ->
    (M (VMap [("propertyNames", x)]) v <-> forall o, v = VMap o -> forall k, In k (map fst o) -> M x (VStr k)).
  Proof.
    intros F. open F. split.
    - intros K. parts K. match goal with H : s_propertyNames _ _ _ _ |- _ => exact (H no4 _ eq_refl) end.
    - intros K. build. intros _. eapply kw_present; [reflexivity|]. exact K.
  Qed.
  Lemma only_closed v : free (VMap [("additionalProperties", VBool false)]) ->
    (M (VMap [("additionalProperties", VBool false)]) v <-> forall o, v = VMap o -> o = []).
  Proof.
    intros F. open F. split.
    - intros K o E. parts K. match goal with H : s_additionalProperties _ _ _ _ _ |- _ => pose proof (H _ eq_refl o E) as J end.
      destruct o as [|[k e] o]; auto. exfalso. refine (proj1 (J k e (or_introl eq_refl) _) eq_refl). split; apply kw_absent; reflexivity.
    - intros K. build. eapply kw_present; [reflexivity|]. intros o E k e Hi. rewrite (K o E) in Hi. destruct Hi.
  Qed.

  Lemma in_list k x l (y : value) : In x l -> inside x y -> inside (VMap [(k, VArr l)]) y.
  Proof. intros H I. eapply inside_map; [left; reflexivity|]. econstructor; eauto. Qed.
  Lemma free_in k x l : free (VMap [(k, VArr l)]) -> In x l -> free x.
  Proof. intros F H. apply (free_inside _ _ F). eapply in_list; eauto. constructor. Qed.
  Lemma free_at k x m : free (VMap m) -> In (k, x) m -> free x.
  Proof. intros F H. apply (free_inside _ _ F). eapply inside_map; eauto. constructor. Qed.

  (** Equivalent up to double negation. *)
  Lemma rewording_means a b v : rewording a b -> free a -> free b -> ~ ~ (M a v <-> M b v).
  Proof.
    assert (NN : forall P : Prop, P -> ~ ~ P) by tauto.
    intros [c|l|ts|ks|k ks|ps|x|x| | | | | |k x Hk|x|l|x y z] Fa Fb.
    - apply NN. rewrite (only_const c v Fa), (only_enum _ v Fb). split; [intros H; exists c; simpl; auto|]. intros (e & [<-|[]] & H). exact H.
    - apply NN. rewrite (only_enum l v Fa), (means_any w _ v Fb). split.
      + intros (e & He & H). exists (VMap [("const", e)]). assert (I := in_map (fun c => VMap [("const", c)]) _ _ He). split; [exact I|]. apply only_const; auto. eapply free_in; eauto.
      + intros (x & Hx & H). pose proof (free_in _ _ _ Fb Hx) as Fx. apply in_map_iff in Hx. destruct Hx as (e & <- & He). exists e. split; auto. apply only_const; auto.
    - apply NN. rewrite (only_types _ v Fa), (means_any w _ v Fb). split.
      + intros (t & Ht & H). apply in_map_iff in Ht. destruct Ht as (t' & [= ->] & Ht). assert (I := in_map (fun t => VMap [("type", VStr t)]) _ _ Ht).
        eexists. split; [exact I|]. apply only_type; auto. eapply free_in; eauto.
      + intros (x & Hx & H). pose proof (free_in _ _ _ Fb Hx) as Fx. apply in_map_iff in Hx. destruct Hx as (t & <- & Ht). exists t. split; [apply in_map; auto|]. apply only_type; auto.
    - apply NN. rewrite (only_required _ v Fa), (means_all w _ v Fb). split.
      + intros K x Hx. pose proof (free_in _ _ _ Fb Hx) as Fx. apply in_map_iff in Hx. destruct Hx as (k & <- & Hk). apply only_required; auto.
        intros o E k' [[= <-]|[]]. apply (K o E). apply in_map. exact Hk.
      + intros K o E k Hk. apply in_map_iff in Hk. destruct Hk as (k' & [= ->] & Hk). assert (I := in_map (fun k => VMap [("required", VArr [VStr k])]) _ _ Hk).
        pose proof (proj1 (only_required _ v (free_in _ _ _ Fb I)) (K _ I)) as J. apply (J o E). left. reflexivity.
    - apply NN. rewrite (only_dependency _ _ v Fa), (only_dependency _ _ v Fb).
      assert (Fr : free (VMap [("required", VArr (map VStr ks))])).
      { apply (free_inside _ _ Fb). eapply inside_map; [left; reflexivity|]. eapply inside_map; [left; reflexivity|]. constructor. }
      split; intros K o E Hk; destruct (K o E Hk) as [K1 K2]; split; try discriminate.
      + intros _. apply only_required; auto. intros o' E'. assert (o' = o) by congruence. subst o'. exact (K1 _ eq_refl).
      + intros ks' [= <-]. exact (proj1 (only_required _ v Fr) (K2 ltac:(discriminate)) o E).
      + intros C. destruct (C _ eq_refl).
    - apply NN. rewrite (only_properties _ v Fa), (means_all w _ v Fb). split.
      + intros K x Hx. pose proof (free_in _ _ _ Fb Hx) as Fx. apply in_map_iff in Hx. destruct Hx as ([k s] & <- & Hk). apply only_properties; auto.
        intros o E k' s' e [[= <- <-]|[]]. exact (K o E k s e Hk).
      + intros K o E k s e Hk He. assert (I := in_map (fun e => VMap [("properties", VMap [e])]) _ _ Hk).
        pose proof (proj1 (only_properties _ v (free_in _ _ _ Fb I)) (K _ I)) as J. apply (J o E k s e (or_introl eq_refl) He).
    - apply NN. rewrite (strict_minimum x v Fa), (only_exclusiveMinimum _ v Fb). reflexivity.
    - apply NN. rewrite (strict_maximum x v Fa), (only_exclusiveMaximum _ v Fb). reflexivity.
    - apply NN. rewrite (only_maxItems v Fa), (only_items (VBool false) v ltac:(discriminate) Fb). split.
      + intros K l E e He. rewrite (K l E) in He. destruct He.
      + intros K l E. destruct l as [|e l]; auto. pose proof (K _ E e (or_introl eq_refl)) as J. apply (bool_means w false e) in J. discriminate.
    - apply NN. rewrite (only_maxProperties v Fa), (only_propertyNames (VBool false) v Fb). split.
      + intros K l E e He. rewrite (K l E) in He. destruct He.
      + intros K l E. destruct l as [|[k e] l]; auto. pose proof (K _ E k (or_introl eq_refl)) as J. apply (bool_means w false (VStr k)) in J. discriminate.
    - apply NN. rewrite (only_maxProperties v Fa), (only_closed v Fb). reflexivity.
    - apply NN. split; intros _; [apply only_empty|apply (bool_means w true v); reflexivity].
    - apply NN. rewrite (means_not w _ v Fb). split; [intros J; apply (bool_means w false v) in J; discriminate|intros K; destruct (K (only_empty v))].
    - apply NN. destruct Hk as [<-|[<-|[<-|[]]]].
      + rewrite (means_all w _ v Fa). split; [intros K; apply K; left; reflexivity|intros K y [<-|[]]; exact K].
      + rewrite (means_any w _ v Fa). split; [intros (y & [<-|[]] & K); exact K|intros K; exists x; simpl; auto].
      + rewrite (means_one w _ v Fa). split.
        * intros (i & y & E & K & _). destruct i as [|[|i]]; try discriminate. injection E as <-. exact K.
        * intros K. exists 0, x. split; [reflexivity|split; [exact K|]]. intros [|[|j]] y E; try discriminate. auto.
    - rewrite (means_not w _ v Fa), (means_not w x v); [tauto|]. eapply free_at; [exact Fa|left; reflexivity].
    - apply NN. assert (Fl : free (VMap [("anyOf", VArr l)])) by (eapply free_at; [exact Fa|left; reflexivity]).
      rewrite (means_not w _ v Fa), (means_any w _ v Fl), (means_all w _ v Fb). split.
      + intros K x Hx. pose proof (free_in _ _ _ Fb Hx) as Fx. apply in_map_iff in Hx. destruct Hx as (y & <- & Hy). apply means_not; auto. intros J. apply K. eauto.
      + intros K (x & Hx & J). assert (I := in_map (fun x => VMap [("not", x)]) _ _ Hx). exact (proj1 (means_not w _ v (free_in _ _ _ Fb I)) (K _ I) J).
    - pose proof (free_in _ _ _ Fb (or_introl eq_refl)) as F1. pose proof (free_in _ _ _ Fb (or_intror (or_introl eq_refl))) as F2.
      pose proof (free_in _ _ _ F1 (or_introl eq_refl)) as F3.
      rewrite (means_if w x y z v Fa), (means_all w _ v Fb).
      assert (E1 : (forall s, In s [VMap [("anyOf", VArr [VMap [("not", x)]; y])]; VMap [("anyOf", VArr [x; z])]] -> M s v) <->
        (~ M x v \/ M y v) /\ (M x v \/ M z v)).
      { split.
        - intros K. pose proof (K _ (or_introl eq_refl)) as K1. pose proof (K _ (or_intror (or_introl eq_refl))) as K2.
          destruct (proj1 (means_any w _ v F1) K1) as (s1 & [<-|[<-|[]]] & J1); destruct (proj1 (means_any w _ v F2) K2) as (s2 & [<-|[<-|[]]] & J2); auto.
          + split; auto. left. exact (proj1 (means_not w _ v F3) J1).
          + split; auto. left. exact (proj1 (means_not w _ v F3) J1).
        - intros [K1 K2] s [<-|[<-|[]]]; apply means_any; auto.
          + destruct K1 as [K1|K1]; [exists (VMap [("not", x)])|exists y]; simpl; split; auto. apply means_not; auto.
          + destruct K2 as [K2|K2]; [exists x|exists z]; simpl; split; auto. }
      rewrite E1. tauto.
  Qed.

  Theorem rewording_same a b : rewording a b -> simple w a -> simple w b -> same_verdicts w a b.
  Proof.
    intros R S S'. split; [auto|split; [auto|]]. intros v r U F F' Hv. pose proof S as (B & D & N & X). pose proof S' as (B' & D' & N' & X').
    destruct (bare_decided w HU _ B' D' N' X' v U F') as (r' & H' & Hr').
    pose proof (verdict_meaning w HU a v r B D N U F Hv) as Hr. replace r with r'; auto.
    pose proof (rewording_means a b v R (proj1 B) (proj1 B')) as E.
    destruct r, r'; auto; exfalso; apply E; intros [E1 E2].
    - assert (J : M b v) by (apply E1, Hr; reflexivity). apply Hr' in J. discriminate.
    - assert (J : M a v) by (apply E2, Hr'; reflexivity). apply Hr in J. discriminate.
  Qed.
  Lemma same_verdicts_sym x y : same_verdicts w x y -> same_verdicts w y x.
  Proof.
    intros (S & S' & H). split; [auto|split; [auto|]]. intros v r U F F' Hv. pose proof S as (B & D & N & X). pose proof S' as (B' & D' & N' & X').
    destruct (bare_decided w HU _ B D N X v U F') as (r' & H' & Hr'). pose proof (H v r' U F' F H') as H2.
    pose proof (verdict_meaning w HU y v r B' D' N' U F Hv). pose proof (verdict_meaning w HU y v r' B' D' N' U F H2). replace r with r'; auto.
    destruct r, r'; auto; exfalso; intuition discriminate.
  Qed.
  Theorem rewording_verdict a b v : rewording a b -> simple w a -> simple w b -> usual lim v -> fitting w a v -> fitting w b v ->
    exists r, verdict w a v r /\ verdict w b v r.
  Proof.
    intros R S S' U F F'. pose proof S as (B & D & N & X). destruct (bare_decided w HU _ B D N X v U F) as (r & H & _). exists r. split; auto.
    apply (rewording_same a b R S S'); auto.
  Qed.
  Theorem reworded_verdict a b v : swapped (fun x y => (rewording x y \/ rewording y x) /\ simple w x /\ simple w y) a b ->
    simple w a -> simple w b -> usual lim v -> fitting w a v -> fitting w b v -> exists r, verdict w a v r /\ verdict w b v r.
  Proof.
    intros S. apply (swapped_verdict w HU (fun x y => (rewording x y \/ rewording y x) /\ simple w x /\ simple w y)); auto.
    intros x y [[R|R] [Sx Sy]]; [apply rewording_same; auto|apply same_verdicts_sym; auto; apply rewording_same; auto].
  Qed.
End Words.
