(** Computable conditions for [alike] and [compiled_from]; used by the examples. *)
From Verif Require Export Checked LoadAlike.
Open Scope string_scope.
Open Scope list_scope.
Open Scope nat_scope.

Definition opt_eqb (a b : option value) : bool :=
  match a, b with Some x, Some y => doc_eqb x y | None, None => true | _, _ => false end.
Lemma opt_eqb_eq a b : opt_eqb a b = true -> a = b.
Proof. destruct a, b; simpl; try discriminate; auto. intros E. f_equal. apply doc_eqb_eq. auto. Qed.
Definition both_b (P : value -> value -> bool) (a b : option value) : bool :=
  match a, b with Some x, Some y => P x y | None, None => true | _, _ => false end.
Lemma both_checked P (Q : value -> value -> Prop) a b : (forall x y, P x y = true -> Q x y) -> both_b P a b = true -> both Q a b.
Proof. intros H. destruct a, b; simpl; try discriminate; intros; constructor; auto. Qed.
Fixpoint all2 {A B} (P : A -> B -> bool) (l : list A) (k : list B) : bool :=
  match l, k with [], [] => true | x :: l', y :: k' => (P x y && all2 P l' k')%bool | _, _ => false end.
Lemma all2_checked {A B} P (Q : A -> B -> Prop) : (forall x y, P x y = true -> Q x y) -> forall l k, all2 P l k = true -> Forall2 Q l k.
Proof.
  intros H. induction l as [|x l IH]; intros [|y k] E; try discriminate; constructor; simpl in E; apply andb_prop in E; destruct E; auto.
Qed.
Definition arr_b (P : value -> value -> bool) (a b : value) : bool := match a, b with VArr l, VArr k => all2 P l k | _, _ => false end.
Lemma arr_checked P (Q : value -> value -> Prop) a b : (forall x y, P x y = true -> Q x y) -> arr_b P a b = true -> arr_part Q a b.
Proof. intros H. destruct a, b; simpl; try discriminate. intros E. constructor. eapply all2_checked; eauto. Qed.

(** Members of the first brought into the order of the second. *)
Definition take_key (k : string) : list (string * value) -> option (value * list (string * value)) :=
  fix go m := match m with
  | [] => None
  | (n, x) :: m' => if String.eqb n k then Some (x, m') else match go m' with Some (y, r) => Some (y, (n, x) :: r) | None => None end
  end.
Lemma take_key_perm k m : forall x r, take_key k m = Some (x, r) -> Permutation m ((k, x) :: r).
Proof.
  induction m as [|[n y] m IH]; intros x r; cbn [take_key]; [discriminate|]. destruct (String.eqb_spec n k) as [->|].
  - intros [= <- <-]. auto.
  - destruct (take_key k m) as [[z q]|]; [|discriminate]. intros [= <- <-]. rewrite (IH z q eq_refl). apply perm_swap.
Qed.
Fixpoint map_b (P : value -> value -> bool) (m k : list (string * value)) : bool :=
  match k with
  | [] => match m with [] => true | _ => false end
  | (n, y) :: k' => match take_key n m with Some (x, m') => (P x y && map_b P m' k')%bool | None => false end
  end.
Lemma map_b_ok P (Q : value -> value -> Prop) : (forall x y, P x y = true -> Q x y) -> forall k m, map_b P m k = true ->
  exists m1, Permutation m m1 /\ Forall2 (fun e e' => fst e = fst e' /\ Q (snd e) (snd e')) m1 k.
Proof.
  intros H. induction k as [|[n y] k IH]; intros m E; cbn [map_b] in E.
  - destruct m; [|discriminate]. exists []. auto.
  - destruct (take_key n m) as [[x m']|] eqn:Ek; [|discriminate]. apply andb_prop in E. destruct E as [E1 E2].
    destruct (IH _ E2) as (m1 & P1 & F1). exists ((n, x) :: m1). split; [rewrite (take_key_perm _ _ _ _ Ek); auto|]. constructor; auto.
Qed.
Definition obj_b (P : value -> value -> bool) (a b : value) : bool := match a, b with VMap m, VMap k => map_b P m k | _, _ => false end.
Lemma obj_checked P (Q : value -> value -> Prop) a b : (forall x y, P x y = true -> Q x y) -> obj_b P a b = true -> map_part Q a b.
Proof. intros H. destruct a, b; simpl; try discriminate. intros E. destruct (map_b_ok P Q H _ _ E) as (m1 & P1 & F1). econstructor; eauto. Qed.
Definition item_b (P : value -> value -> bool) (a b : value) : bool := (arr_b P a b || P a b)%bool.
Definition addl_b (P : value -> value -> bool) (a b : value) : bool :=
  match a, b with VBool x, VBool y => Bool.eqb x y | VMap _, VMap _ => P a b | _, _ => false end.
Definition dep_b (P : value -> value -> bool) (a b : value) : bool :=
  match a with VArr _ => doc_eqb a b | _ => P a b end.

Definition heard_b (d : draft) (k : string) : bool :=
  ((negb (existsb (String.eqb k) ["const"; "contains"; "propertyNames"]) || draft_ge6 d) &&
   (negb (existsb (String.eqb k) ["if"; "then"; "else"]) || draft_ge7 d))%bool.
Lemma heard_checked d k : heard d k -> heard_b d k = true.
Proof.
  intros [H6 H7]. unfold heard_b. apply andb_true_intro. split; apply Bool.orb_true_iff.
  - destruct (existsb _ _) eqn:E; [right|auto]. apply since6_ge, H6. apply existsb_exists in E. destruct E as (y & Hy & E). apply String.eqb_eq in E. subst. exact Hy.
  - destruct (existsb _ _) eqn:E; [right|auto]. apply since7_ge, H7. apply existsb_exists in E. destruct E as (y & Hy & E). apply String.eqb_eq in E. subst. exact Hy.
Qed.

Section Alike.
  Variable lead : string -> option (draft * value).
  Variable T : string -> draft -> value -> Prop.
  Hypothesis HT : forall k d x, lead k = Some (d, x) -> T k d x.
  Fixpoint alike_b (n : nat) (d : draft) (x : value) (d' : draft) (y : value) : bool :=
    match n with
    | O => false
    | S n =>
        match x with
        | VBool b => match y with VBool c => Bool.eqb b c | _ => false end
        | VMap m =>
            match assoc "$ref" m with
            | Some (VStr k) =>
                (match y with VMap m' => match assoc "$ref" m' with Some (VStr k') => String.eqb k k' | _ => false end | _ => false end ||
                 match lead k with Some (d1, x1) => alike_b n d1 x1 d' y | None => false end)%bool
            | Some _ => false
            | None =>
                match y with
                | VMap m' =>
                    let P := fun x y => alike_b n d x d y in
                    let all ks Q := forallb (fun k => (negb (heard_b d k) || Q (assoc k m) (assoc k m'))%bool) ks in
                    (draft_eqb d d' && match assoc "$ref" m' with None => true | _ => false end &&
                     all plain_keywords opt_eqb && all schema_keywords (both_b P) &&
                     forallb (fun k => both_b (addl_b P) (assoc k m) (assoc k m')) addl_keywords &&
                     forallb (fun k => both_b (arr_b P) (assoc k m) (assoc k m')) list_keywords &&
                     forallb (fun k => both_b (obj_b P) (assoc k m) (assoc k m')) map_keywords &&
                     both_b (item_b P) (assoc "items" m) (assoc "items" m') &&
                     both_b (obj_b (dep_b P)) (assoc "dependencies" m) (assoc "dependencies" m'))%bool
                | _ => false
                end
            end
        | _ => false
        end
    end.
  Lemma alike_checked n : forall d x d' y, alike_b n d x d' y = true -> alike T d x d' y.
  Proof.
    induction n as [|n IH]; intros d x d' y E; [discriminate|]. cbn [alike_b] in E. destruct x as [|b| | | | |m|]; try discriminate.
    - destruct y; try discriminate. apply Bool.eqb_prop in E. subst. constructor.
    - destruct (assoc "$ref" m) as [z|] eqn:Er.
      + destruct z as [| | | |k| | |]; try discriminate. apply Bool.orb_true_iff in E. destruct E as [E|E].
        * destruct y as [| | | | | |m'|]; try discriminate. destruct (assoc "$ref" m') as [z|] eqn:Er'; try discriminate.
          destruct z as [| | | |k'| | |]; try discriminate. apply String.eqb_eq in E. subst. eapply alike_ref; eauto.
        * destruct (lead k) as [[d1 x1]|] eqn:El; [|discriminate]. eapply alike_inlined; eauto.
      + destruct y as [| | | | | |m'|]; try discriminate. cbv zeta in E. rewrite !andb_true_iff in E.
        destruct E as ((((((((E1 & E2) & E3) & E4) & E5) & E6) & E7) & E8) & E9). apply draft_eqb_eq in E1. subst d'.
        rewrite forallb_forall in E3, E4, E5, E6, E7.
        apply alike_map; auto.
        * destruct (assoc "$ref" m'); [discriminate|auto].
        * intros k Hk G. specialize (E3 _ Hk). rewrite (heard_checked _ _ G) in E3. apply opt_eqb_eq. exact E3.
        * intros k Hk G. specialize (E4 _ Hk). rewrite (heard_checked _ _ G) in E4. eapply both_checked; [|exact E4]. intros; apply IH; auto.
        * intros k Hk. eapply both_checked; [|exact (E5 _ Hk)]. intros a b H. destruct a, b; try discriminate; simpl in H.
          { apply Bool.eqb_prop in H. subst. constructor. }
          { constructor. apply IH. auto. }
        * intros k Hk. eapply both_checked; [|exact (E6 _ Hk)]. intros a b H. eapply arr_checked; [|exact H]. intros; apply IH; auto.
        * intros k Hk. eapply both_checked; [|exact (E7 _ Hk)]. intros a b H. eapply obj_checked; [|exact H]. intros; apply IH; auto.
        * eapply both_checked; [|exact E8]. intros a b H. unfold item_b in H. apply Bool.orb_true_iff in H. destruct H as [H|H].
          { destruct a, b; try discriminate. constructor. eapply all2_checked; [|exact H]. intros; apply IH; auto. }
          { apply item_schema. apply IH. auto. }
        * eapply both_checked; [|exact E9]. intros a b H. eapply obj_checked; [|exact H]. intros u v Huv. unfold dep_b in Huv.
          destruct u; try (apply dep_schema; apply IH; exact Huv). apply doc_eqb_eq in Huv. subst. constructor.
  Qed.
End Alike.

Lemma lead_leads ce p dflt k d x : lead ce p dflt k = Some (d, x) -> leads_to ce p dflt k d x.
Proof.
  unfold lead. destruct (u_parse ce k) as [r|] eqn:Er; [|discriminate]. destruct (Checked.find ce p r) as [e|] eqn:Ef; [|discriminate]. intros [= <- <-].
  exists r, e. split; auto. split; [apply find_locates; auto|auto].
Qed.

Section Texts.
  Variable w : world.
  Notation ce := (cenv_of w NewSchemaLoader).
  Definition texts_alike (n : nat) (s t : string) : bool :=
    let x := the_doc s in let y := the_doc t in
    let ld := doc_lead w x in let ld' := doc_lead w y in
    (alike_b ld n (root_draft w NewSchemaLoader x) (resolved w x) (root_draft w NewSchemaLoader y) (resolved w y) &&
     forallb (fun k => (negb (existsb (String.eqb k) (mentioned (resolved w y))) ||
       match ld k, ld' k with Some (d, a), Some (d', b) => alike_b ld n d a d' b | _, _ => false end)%bool) (mentioned (resolved w x)))%bool.
  Lemma texts_alike_ok n s t : texts_alike n s t = true ->
    let doc1 := the_doc s in let doc2 := the_doc t in
    let T1 := leads_to ce (known_documents w NewSchemaLoader doc1) (root_draft w NewSchemaLoader doc1) in
    let T2 := leads_to ce (known_documents w NewSchemaLoader doc2) (root_draft w NewSchemaLoader doc2) in
    alike T1 (root_draft w NewSchemaLoader doc1) (resolve (w_parse w) (w_inherits w) "" doc1) (root_draft w NewSchemaLoader doc2) (resolve (w_parse w) (w_inherits w) "" doc2) /\
    (forall k d x d' y, mentioned_in w NewSchemaLoader doc1 k -> mentioned_in w NewSchemaLoader doc2 k -> T1 k d x -> T2 k d' y -> alike T1 d x d' y).
  Proof.
    unfold texts_alike. intros E. apply andb_prop in E. destruct E as [E1 E2]. rewrite forallb_forall in E2. cbv zeta. split.
    - eapply alike_checked; [|exact E1]. intros k d x. apply lead_leads.
    - intros k d x d' y [M1|(r & e & M1 & _)]; [|discriminate]. intros [M2|(r & e & M2 & _)]; [|discriminate]. intros H1 H2.
      apply mentions_mentioned in M1, M2. specialize (E2 k M1).
      assert (X : existsb (String.eqb k) (mentioned (resolved w (the_doc t))) = true) by (apply existsb_exists; exists k; split; [exact M2|apply String.eqb_refl]).
      rewrite X in E2. cbn [negb orb] in E2. destruct (doc_lead w (the_doc s) k) as [[d1 x1]|] eqn:L1; [|discriminate]. destruct (doc_lead w (the_doc t) k) as [[d2 x2]|] eqn:L2; [|discriminate].
      pose proof (lead_only _ _ _ _ _ L1 _ _ H1) as Q1. pose proof (lead_only _ _ _ _ _ L2 _ _ H2) as Q2. injection Q1 as -> ->. injection Q2 as -> ->.
      eapply alike_checked; [|exact E2]. intros k' d0 x0. apply lead_leads.
  Qed.
  Definition compiles_b (s : string) : bool :=
    let doc := the_doc s in
    (match decode_use_number s with Some _ => true | None => false end &&
     numbers_b (moderate_b (e_ratlim (w_go w))) doc && nodup_b (map fst (ids_of (w_parse w) (w_inherits w) "" doc)) &&
     closed_b ce (known w doc) (resolved w doc))%bool.
  Lemma compiles_checked fuel o s sch sl' : fair o -> compiles_b s = true -> NewSchema w fuel o (LString s) = LOk sch sl' ->
    compiled_from w NewSchemaLoader (the_doc s) sch.
  Proof.
    unfold compiles_b. intros F. rewrite !andb_true_iff. intros (((H1 & H2) & H3) & H4) E.
    exists fuel, o, (LString s), sl'. split; auto. split; [discriminate|]. split; [exact I|]. split; [unfold the_doc; cbn; destruct (decode_use_number s); [auto|discriminate]|].
    split; [apply moderate_checked; auto|]. split; auto. split; [|exact E]. apply new_self_contained; [apply nodup_b_ok; auto|]. apply closed_checked. auto.
  Qed.
End Texts.
