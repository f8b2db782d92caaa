(** Which schema checks which element of an array (C42). *)
From Verif Require Export ValidateSem.

Lemma run_all_inv l : forall r, run_all l = Ok r ->
  exists rs, l = map Ok rs /\ errors r = concat (map errors rs).
Proof.
  induction l as [|x l IH]; intros r E; simpl in E.
  - injection E as <-. exists []. auto.
  - destruct x as [a| |]; simpl in E; try discriminate.
    destruct (run_all l) as [b| |]; simpl in E; try discriminate. injection E as <-.
    destruct (IH b eq_refl) as (rs & -> & Hb). exists (a :: rs). simpl. split; auto. rewrite Hb. auto.
Qed.

Lemma mapi_nth {A B} (f : nat -> A -> B) l : forall i k,
  nth_error (mapi f i l) k = option_map (f (i + k)) (nth_error l k).
Proof.
  induction l as [|x l IH]; intros i [|k]; simpl; auto.
  - rewrite Nat.add_0_r. auto.
  - rewrite IH. rewrite Nat.add_succ_r. auto.
Qed.
Lemma mapi_length {A B} (f : nat -> A -> B) l : forall i, length (mapi f i l) = length l.
Proof. induction l; simpl; auto. Qed.

(** The subschema responsible for element [i]. *)
Definition checker (single : bool) (ids : list nat) (ai : option addl) (i : nat) : option nat :=
  if single then hd_error ids
  else match nth_error ids i with
       | Some id => Some id
       | None => match ai with Some (AddlSchema id) => Some id | _ => None end
       end.

Section Items.
  Variable rec : oracle -> nat -> value -> ctx -> out result.

  Lemma zip_nth o c ids : forall l i k,
    nth_error (v_items_zip rec o c i ids l) k =
    match nth_error ids k, nth_error l k with
    | Some id, Some x => Some (v_item rec o c id (i + k) x)
    | _, _ => None
    end.
  Proof.
    induction ids as [|id ids IH]; intros [|x l] i [|k]; simpl; auto.
    - destruct (nth_error ids k); auto.
    - rewrite Nat.add_0_r. auto.
    - rewrite IH, Nat.add_succ_r. auto.
  Qed.

  (** [es]: the errors found for each element. *)
  Definition element_errors (o : oracle) (n : node) (c : ctx) (l : list value) (es : list (list rerror)) : Prop :=
    length es = length l /\
    forall i x, nth_error l i = Some x ->
    match checker (n_items_single n) (n_items n) (n_additionalItems n) i with
    | Some id => exists r, rec (shift o i) id x (NewJsonContext (itoa (Z.of_nat i)) c) = Ok r /\
                           nth_error es i = Some (errors r)
    | None => nth_error es i = Some []
    end.

  Lemma items_errors o n l c r : n_items n <> [] -> v_items rec o n l c = Ok r ->
    exists es, element_errors o n c l es /\
      errors r = concat es ++
        (if (negb (n_items_single n) && match n_additionalItems n with Some (AddlBool false) => true | _ => false end
             && Nat.ltb (length (n_items n)) (length l))%bool
         then [newError ArrayNoAdditionalItemsError c (VArr l) []] else []).
  Proof.
    intros Hn E. unfold v_items in E. unfold element_errors, checker.
    destruct (n_items_single n).
    - destruct (n_items n) as [|id ids]; [congruence|]. destruct (run_all_inv _ _ E) as (rs & Hr & He).
      exists (map errors rs). simpl. rewrite app_nil_r. split; auto. split.
      + rewrite map_length, <- (map_length (@Ok result) rs), <- Hr, mapi_length. auto.
      + intros i x Hx. pose proof (f_equal (fun z => nth_error z i) Hr) as Hi. simpl in Hi.
        rewrite mapi_nth, Hx in Hi. simpl in Hi. rewrite nth_error_map in Hi.
        rewrite nth_error_map. destruct (nth_error rs i) as [ri|]; [|discriminate]. simpl in *.
        injection Hi as Hi. eauto.
    - destruct (n_items n) as [|id0 ids0] eqn:Eids; [congruence|].
      remember (id0 :: ids0) as ids eqn:Hids in *. clear Hids Hn.
      destruct (run_all_inv _ _ E) as (rs & Hrs & He). destruct rs as [|ra [|rb [|? ?]]]; try discriminate.
      simpl in Hrs. injection Hrs as Ha Hb. simpl in He. rewrite app_nil_r in He.
      destruct (run_all_inv _ _ Ha) as (ras & Hras & Hea).
      assert (Hlen : length ras = Nat.min (length ids) (length l)).
      { rewrite <- (map_length (@Ok result) ras), <- Hras.
        assert (G : forall js l i, length (v_items_zip rec o c i js l) = Nat.min (length js) (length l)).
        { clear. induction js as [|a js IH]; intros [|x l1] i; simpl; auto. }
        exact (G ids l 0). }
      assert (Hzip : forall i x id, nth_error l i = Some x -> nth_error ids i = Some id ->
        exists r, rec (shift o i) id x (NewJsonContext (itoa (Z.of_nat i)) c) = Ok r /\ nth_error (map errors ras) i = Some (errors r)).
      { intros i x id Hx Hid. pose proof (f_equal (fun z => nth_error z i) Hras) as Hi. simpl in Hi.
        rewrite zip_nth, Hid, Hx, nth_error_map in Hi. rewrite nth_error_map.
        destruct (nth_error ras i) as [ri|]; [|discriminate]. simpl in *. injection Hi as Hi. eauto. }
      assert (Hpad : forall rest, Nat.ltb (length ids) (length l) = true -> length rest = length l - length ids ->
        length (map errors ras ++ rest) = length l).
      { intros rest Hlt Hr. apply Nat.ltb_lt in Hlt. rewrite app_length, map_length, Hlen, Hr. lia. }
      destruct (Nat.ltb (length ids) (length l)) eqn:Hlt; simpl in Hb.
      + pose proof Hlt as Hlt'. apply Nat.ltb_lt in Hlt'.
        assert (Hbig : forall i, nth_error ids i = None -> length ras <= i).
        { intros i Hi. apply nth_error_None in Hi. lia. }
        assert (Hpart : forall rest, length rest = length l - length ids ->
           (forall i x, nth_error l i = Some x -> nth_error ids i = None ->
              match n_additionalItems n with
              | Some (AddlSchema id) => exists r, rec (shift o i) id x (NewJsonContext (itoa (Z.of_nat i)) c) = Ok r /\
                                         nth_error rest (i - length ids) = Some (errors r)
              | _ => nth_error rest (i - length ids) = Some []
              end) ->
           length (map errors ras ++ rest) = length l /\
           (forall i x, nth_error l i = Some x ->
             match match nth_error ids i with Some id => Some id
                   | None => match n_additionalItems n with Some (AddlSchema id) => Some id | _ => None end end with
             | Some id => exists r, rec (shift o i) id x (NewJsonContext (itoa (Z.of_nat i)) c) = Ok r /\
                            nth_error (map errors ras ++ rest) i = Some (errors r)
             | None => nth_error (map errors ras ++ rest) i = Some []
             end)).
        { intros rest Hr H. split; auto. intros i x Hx. destruct (nth_error ids i) as [id|] eqn:Hid.
          - destruct (Hzip i x id Hx Hid) as (r1 & Er & Hr1). exists r1. split; auto.
            rewrite nth_error_app1; auto. apply nth_error_Some. congruence.
          - specialize (H i x Hx Hid). assert (length (map errors ras) = length ids) by (rewrite map_length; lia).
            rewrite nth_error_app2 by (rewrite map_length; auto). rewrite H0.
            destruct (n_additionalItems n) as [[b|id]|]; auto. }
        destruct (n_additionalItems n) as [[[|]|aid]|] eqn:Eai.
        * injection Hb as <-. exists (map errors ras ++ repeat [] (length l - length ids)). split.
          -- apply Hpart; [apply repeat_length|]. intros i x Hx Hi. apply nth_error_repeat.
             assert (i < length l) by (apply nth_error_Some; congruence). apply nth_error_None in Hi. lia.
          -- rewrite He, Hea, concat_app. simpl. rewrite !app_nil_r.
             assert (Hc : concat (repeat ([] : list rerror) (length l - length ids)) = []).
             { generalize (length l - length ids). intros k. induction k; simpl; auto. }
             rewrite Hc, app_nil_r. auto.
        * injection Hb as <-. exists (map errors ras ++ repeat [] (length l - length ids)). split.
          -- apply Hpart; [apply repeat_length|]. intros i x Hx Hi. apply nth_error_repeat.
             assert (i < length l) by (apply nth_error_Some; congruence). apply nth_error_None in Hi. lia.
          -- rewrite He, Hea, concat_app. simpl.
             assert (Hc : concat (repeat ([] : list rerror) (length l - length ids)) = []).
             { generalize (length l - length ids). intros k. induction k; simpl; auto. }
             rewrite Hc, app_nil_r. auto.
        * destruct (run_all_inv _ _ Hb) as (rbs & Hrbs & Heb).
          exists (map errors ras ++ map errors rbs). split.
          -- apply Hpart.
             ++ rewrite map_length, <- (map_length (@Ok result) rbs), <- Hrbs, mapi_length, skipn_length. auto.
             ++ intros i x Hx Hi. apply nth_error_None in Hi.
                pose proof (f_equal (fun z => nth_error z (i - length ids)) Hrbs) as Hj. simpl in Hj.
                rewrite mapi_nth in Hj.
                replace (length ids + (i - length ids)) with i in Hj by lia.
                assert (Hsk : nth_error (skipn (length ids) l) (i - length ids) = Some x).
                { rewrite <- Hx. rewrite <- (firstn_skipn (length ids) l) at 2.
                  rewrite nth_error_app2 by (rewrite firstn_length; lia). rewrite firstn_length. f_equal. lia. }
                rewrite Hsk in Hj. simpl in Hj. rewrite nth_error_map in Hj. rewrite nth_error_map.
                destruct (nth_error rbs (i - length ids)) as [ri|]; [|discriminate]. simpl in *.
                injection Hj as Hj. eauto.
          -- rewrite He, Hea, Heb, concat_app. simpl. rewrite app_nil_r. auto.
        * injection Hb as <-. exists (map errors ras ++ repeat [] (length l - length ids)). split.
          -- apply Hpart; [apply repeat_length|]. intros i x Hx Hi. apply nth_error_repeat.
             assert (i < length l) by (apply nth_error_Some; congruence). apply nth_error_None in Hi. lia.
          -- rewrite He, Hea, concat_app. simpl. rewrite !app_nil_r.
             assert (Hc : concat (repeat ([] : list rerror) (length l - length ids)) = []).
             { generalize (length l - length ids). intros k. induction k; simpl; auto. }
             rewrite Hc, app_nil_r. auto.
      + injection Hb as <-. apply Nat.ltb_ge in Hlt. exists (map errors ras). split; [split|].
        * rewrite map_length. lia.
        * intros i x Hx. assert (i < length l) by (apply nth_error_Some; congruence).
          destruct (nth_error ids i) as [id|] eqn:Hid.
          -- apply (Hzip i x id); auto.
          -- apply nth_error_None in Hid. lia.
        * rewrite He, Hea. simpl. rewrite andb_false_r, !app_nil_r. auto.
  Qed.
End Items.
