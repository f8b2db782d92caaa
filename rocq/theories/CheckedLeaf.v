(** Schema texts of keywords only in the example world. *)
From Verif Require Export UniqueProps ExactEqual Checked0.
From Coq Require Import Qpower Qfield Lia.
Open Scope string_scope.

Definition scalar_b (x : value) : bool := match x with VArr _ | VMap _ | VIMap _ => false | _ => true end.
Definition leaf_b (e : string * value) : bool :=
  ((if in_dec string_dec (fst e) leaf_keys then true else false) &&
   (String.eqb (fst e) "const" || String.eqb (fst e) "enum" || scalar_b (snd e) || match snd e with VArr l => forallb scalar_b l | _ => false end))%bool.
Lemma scalar_checked x : scalar_b x = true -> AnySchema.scalar x.
Proof. destruct x; simpl; auto; discriminate. Qed.
Lemma leaf_checked e : leaf_b e = true -> leaf e.
Proof.
  unfold leaf_b. rewrite andb_true_iff, !orb_true_iff. intros [H1 H2]. split.
  - destruct (in_dec string_dec (fst e) leaf_keys); [auto|discriminate].
  - destruct H2 as [[[H|H]|H]|H].
    + left. apply String.eqb_eq. auto.
    + right; left. apply String.eqb_eq. auto.
    + right; right; left. apply scalar_checked. auto.
    + do 3 right. destruct (snd e) as [| | | | |l| |]; try discriminate. exists l. split; auto. rewrite forallb_forall in H. apply Forall_forall. intros x Hx. apply scalar_checked. auto.
Qed.

Definition leaf_text (s : string) (ks : list string) : bool :=
  match the_doc s, decode_use_number s, NewSchema world0 FUEL in_order (LString s) with
  | VMap m, Some _, LOk x _ =>
      (forallb leaf_b m && numbers_b (moderate_b 1000000) (VMap m) && forallb (fun k => if in_dec string_dec k ks then true else false) (map fst m))%bool
  | _, _, _ => false
  end.
Lemma leaf_text_ok s ks : leaf_text s ks = true -> exists m sch,
  the_doc s = VMap m /\ schema_of world0 NewSchemaLoader (VMap m) sch /\ Forall leaf m /\ (forall k, In k (map fst m) -> In k ks) /\ s_heap sch = graph s.
Proof.
  unfold leaf_text. destruct (the_doc s) as [| | | | | |m|] eqn:ED; try discriminate. destruct (decode_use_number s) as [v|] eqn:EV; [|discriminate].
  destruct (NewSchema world0 FUEL in_order (LString s)) as [x sl'| | |] eqn:EN; try discriminate. rewrite !andb_true_iff. intros [[H1 H2] H3].
  exists m, x. split; auto. split; [|split; [|split]].
  - exists FUEL, in_order, (LString s), sl'. split; [apply in_order_fair|]. split; [discriminate|]. split; [exact I|].
    split; [|split; [|split]].
    + cbn [LoadJSON fst]. rewrite EV. unfold the_doc in ED. rewrite EV in ED. congruence.
    + apply moderate_checked. exact H2.
    + apply sl_ok_new.
    + rewrite <- EN. symmetry. apply NewSchema_Compile.
  - rewrite forallb_forall in H1. apply Forall_forall. intros e He. apply leaf_checked. auto.
  - rewrite forallb_forall in H3. intros k Hk. specialize (H3 k Hk). cbv beta in H3. destruct (in_dec string_dec k ks); [auto|discriminate].
  - unfold graph. rewrite EN. auto.
Qed.

(** Number texts. *)
Lemma denotes_checked t q : json_number t = true -> match rat_of 1000000 t with Some p => Qeq_bool p q | None => false end = true -> denotes t q /\ moderate 1000000 t.
Proof.
  intros J E. destruct (rat_of 1000000 t) as [p|] eqn:Ep; [|discriminate]. split.
  - eapply denotes_ext; [eapply rat_of_denotes; eauto|]. apply Qeq_bool_iff. auto.
  - apply rat_of_moderate; eauto.
Qed.
Definition valid (s t : string) : option bool := match validate_text s t with Ok r => Some (Valid r) | _ => None end.

(** Numbers big.Rat does not read. *)
Lemma power_integer x : (0 <= x)%Z -> exists z, (0 <= z)%Z /\ (Qpower (10 # 1) x == inject_Z z)%Q.
Proof. intros H. exists (10 ^ x)%Z. split; [apply Z.pow_nonneg; lia|]. rewrite (Zpower_Qpower 10 x) by auto. reflexivity. Qed.
Lemma exponent_denotes e x : exp_of e x -> denotes (append "1" e) (Qpower (10 # 1) x).
Proof.
  intros H. exists "", 1%Z, "1", 1%Z, "", 0%nat, 0%Z, e, x. split; [reflexivity|]. split; [left; auto|]. split; [right; split; [exists 0%nat|]|].
  - change "1" with (String (ascii_of_N (48 + Z.to_N 1)) ""). change 1%Z with (1 * 10 ^ Z.of_nat 0 + 0)%Z at 2. constructor; [lia|constructor].
  - intros r. discriminate.
  - split; [left; auto|]. split; auto. generalize (Qpower (10 # 1) x). intros y.
    change (inject_Z 1) with 1%Q. change (inject_Z 0) with 0%Q. change (inject_Z (10 ^ Z.of_nat 0)) with 1%Q. field.
Qed.
Lemma huge_exponent : exp_of "e2000000" 2000000.
Proof.
  right. exists "e"%char, "", "2000000", 6%nat, 2000000%Z. split; [reflexivity|]. split; [auto|]. split; [|auto].
  assert (D : forall d s k n m, (0 <= d <= 9)%Z -> digit_string s k n -> m = (d * 10 ^ Z.of_nat k + n)%Z -> digit_string (String (ascii_of_N (48 + Z.to_N d)) s) (S k) m) by (intros; subst; constructor; auto).
  refine (D 2%Z "000000" _ 0%Z _ _ _ _); [lia| |reflexivity].
  do 6 (refine (D 0%Z _ _ 0%Z _ _ _ _); [lia| |reflexivity]). constructor.
Qed.
Lemma huge_denotes : exists z, (0 <= z)%Z /\ denotes "1e2000000" (inject_Z z).
Proof.
  pose proof (exponent_denotes _ _ huge_exponent) as H. cbn [append] in H. revert H. assert (P : (0 <= 2000000)%Z) by lia. revert P. generalize 2000000%Z. intros x P H.
  destruct (power_integer x P) as (z & Hz & E). exists z. split; auto. eapply denotes_ext; eauto.
Qed.
Lemma huge_not_integer : exists schema t q, denotes t (inject_Z q) /\ the_doc schema = VMap [("type", VStr "integer")] /\ valid schema t = Some false.
Proof. destruct huge_denotes as (z & _ & H). exists "{""type"":""integer""}", "1e2000000", z. split; [exact H|]. split; vm_compute; reflexivity. Qed.
Lemma huge_bound_ignored : exists schema t b p q, the_doc schema = VMap [("$schema", VStr "http://json-schema.org/draft-06/schema#"); ("exclusiveMinimum", VNum b)] /\
  denotes b p /\ denotes t q /\ (q <= p)%Q /\ valid schema t = Some true.
Proof.
  destruct huge_denotes as (z & Hz & H).
  exists "{""$schema"":""http://json-schema.org/draft-06/schema#"",""exclusiveMinimum"":1e2000000}", "0", "1e2000000", (inject_Z z), (inject_Z 0). split; [vm_compute; reflexivity|].
  split; [exact H|]. split; [apply denotes_checked; vm_compute; reflexivity|]. split; [|vm_compute; reflexivity].
  rewrite <- Zle_Qle. auto.
Qed.
Lemma text_doc_ok t : match decode_use_number t with Some _ => true | None => false end = true -> doc_ok (the_doc t).
Proof. unfold the_doc. destruct (decode_use_number t) as [x|] eqn:E; [|discriminate]. intros _. eapply decode_doc_ok; eauto. Qed.
Lemma text_ordinary t : (match decode_use_number t with Some _ => true | None => false end && ordinary_b 1000000 (the_doc t))%bool = true -> ordinary 1000000 (the_doc t).
Proof. intros E. apply andb_prop in E. destruct E. apply ordinary_checked; auto. apply text_doc_ok; auto. Qed.
