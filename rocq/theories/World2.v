(** The example worlds satisfy what is asked of the URL library. *)
From Verif Require Export World1 MetaLoad.
Open Scope string_scope.
Open Scope list_scope.

Lemma cut_cut s : cut_hash (cut_hash s) = cut_hash s.
Proof. induction s as [|a s IH]; [reflexivity|]. cbn [cut_hash]. destruct (Ascii.eqb a "#") eqn:E; [reflexivity|]. cbn [cut_hash]. rewrite E, IH. reflexivity. Qed.
Lemma cut_prefix s : String.prefix ":" s = false -> String.prefix ":" (cut_hash s) = false.
Proof.
  destruct s as [|a s]; [auto|]. intros H. cbn [cut_hash]. destruct (Ascii.eqb a "#"); [reflexivity|]. cbn [String.prefix] in *.
  destruct (Ascii.ascii_dec ":" a); [|reflexivity]. destruct s; discriminate H.
Qed.
Lemma parse0_again s r : parse0 s = Some r -> parse0 r = Some r /\ parse0 (cut_hash r) = Some (cut_hash r).
Proof.
  unfold parse0. destruct (String.prefix ":" s) eqn:E; [discriminate|]. intros [= <-].
  destruct (String.eqb (after_hash s) "") eqn:Ea; rewrite ?(cut_prefix s E), ?E, ?cut_cut, ?(cut_prefix s E), ?fragment_stripped, ?Ea, ?cut_cut; cbn; rewrite ?cut_cut; auto.
Qed.
Lemma serving_web files pages : web_laws (serving files pages).
Proof.
  split; [exact cut_cut|]. split; [exact fragment_stripped|]. split; [intros r; cbn [serving w_canonical w_strip]; rewrite cut_cut; reflexivity|]. exact parse0_again.
Qed.
Lemma serving_meta files pages : meta_urls (serving files pages).
Proof.
  intros d Hd. cbv zeta. split.
  - destruct d; try (destruct (Hd eq_refl)); vm_compute; repeat split.
  - intros n Hn. destruct d; cbn [meta_names In] in Hn; repeat (destruct Hn as [<-|Hn]; [vm_compute; repeat split|]); destruct Hn.
Qed.
