(** net.ParseIP, as used by the ipv4 and ipv6 checkers, against the textual
    forms of RFC 2673 and RFC 4291. *)
From Verif Require Import Base ModelFormat SpecFormat FormatRegex FormatTime.
From Coq Require Import Lia Bool.
Open Scope string_scope.
Open Scope list_scope.
Open Scope nat_scope.

(** ** Dotted quads *)
(** The digits of one field. *)
Fixpoint field (dig val : nat) (a : string) : option (nat * nat) :=
  match a with
  | EmptyString => Some (dig, val)
  | String c a' =>
      if is_digit c then
        if (Nat.eqb dig 1 && Nat.eqb val 0)%bool then None
        else if Nat.ltb 255 (val * 10 + digit_val c) then None else field (S dig) (val * 10 + digit_val c) a'
      else None
  end.
Definition dotless (a : string) : Prop := all (fun c => c <> "."%char) a.
Lemma fields_run : forall a pos dig val r, dotless a ->
  ipv4_fields pos dig val (a ++ r) = match field dig val a with Some (d, v) => ipv4_fields pos d v r | None => false end.
Proof.
  induction a; intros pos dig val r D; [reflexivity|]. apply all_cons in D. destruct D as [N D].
  cbn -[Nat.ltb Nat.mul]. destruct (is_digit a) eqn:A.
  - destruct (Nat.eqb dig 1 && Nat.eqb val 0)%bool; [reflexivity|]. destruct (Nat.ltb 255 _); [reflexivity|]. now apply IHa.
  - apply Ascii.eqb_neq in N. now rewrite N.
Qed.
Definition oct (n : nat) : string :=
  if n <? 10 then digit n else if n <? 100 then two n else (digit (n / 100) ++ two (n mod 100))%string.
Lemma oct_field : forall n, n <= 255 -> exists d, field 0 0 (oct n) = Some (S d, n) /\ dotless (oct n) /\ all (among DIGITS) (oct n) /\ String.length (oct n) <= 3.
Proof.
  intros n H.
  assert (B : forallb (fun n => match field 0 0 (oct n) with Some (S _, m) => Nat.eqb m n | _ => false end
                                && forallb (fun c => is_digit c && negb (Ascii.eqb c ".")) (list_ascii_of_string (oct n))
                                && Nat.leb (String.length (oct n)) 3)%bool (List.seq 0 256) = true) by (vm_compute; reflexivity).
  rewrite forallb_forall in B. specialize (B n). rewrite !andb_true_iff in B. destruct B as [[B1 B2] B3]; [apply in_seq; lia|].
  apply Nat.leb_le in B3. destruct (field 0 0 (oct n)) as [[[|d] m]|]; try discriminate B1. apply Nat.eqb_eq in B1. subst m.
  exists d. split; [reflexivity|].
  assert (C : forall s, forallb (fun c => is_digit c && negb (Ascii.eqb c "."))%bool (list_ascii_of_string s) = true -> dotless s /\ all (among DIGITS) s).
  { clear. induction s; intros H; [split; apply all_nil|]. cbn in H. apply andb_true_iff in H. destruct H as [H1 H2].
    apply andb_true_iff in H1. destruct H1 as [H0 H1]. apply IHs in H2. unfold dotless in *. rewrite !all_cons.
    apply negb_true_iff, Ascii.eqb_neq in H1. apply digit_char in H0. tauto. }
  specialize (C _ B2). tauto.
Qed.
Lemma field_step : forall dig val c a, field dig val (String c a) <> None ->
  is_digit c = true /\ ~ (dig = 1 /\ val = 0) /\ val * 10 + digit_val c <= 255 /\
  field dig val (String c a) = field (S dig) (val * 10 + digit_val c) a.
Proof.
  intros dig val c a. cbn -[Nat.ltb Nat.mul]. destruct (is_digit c); [|congruence].
  destruct (Nat.eqb dig 1 && Nat.eqb val 0)%bool eqn:Z; [congruence|].
  destruct (Nat.ltb 255 _) eqn:L; [congruence|]. intros _. apply Nat.ltb_ge in L. repeat split; auto.
  intros [-> ->]. discriminate Z.
Qed.
Lemma oct_one : forall n, n <= 9 -> oct n = digit n.
Proof. intros n H. unfold oct. now rewrite (proj2 (Nat.ltb_lt n 10)) by lia. Qed.
Lemma oct_two : forall a b, 1 <= a <= 9 -> b <= 9 -> oct (a * 10 + b) = (digit a ++ digit b)%string.
Proof.
  intros a b A B. unfold oct. rewrite (proj2 (Nat.ltb_ge _ 10)), (proj2 (Nat.ltb_lt _ 100)) by lia. now apply two_of.
Qed.
Lemma oct_three : forall a b c, 1 <= a -> b <= 9 -> c <= 9 -> oct ((a * 10 + b) * 10 + c) = (digit a ++ digit b ++ digit c)%string.
Proof.
  intros a b c A B C. unfold oct. set (n := (a * 10 + b) * 10 + c). rewrite (proj2 (Nat.ltb_ge n 10)), (proj2 (Nat.ltb_ge n 100)) by (subst n; lia).
  replace (n / 100) with a by (apply (Nat.div_unique n 100 a (b * 10 + c)); subst n; lia).
  replace (n mod 100) with (b * 10 + c) by (apply (Nat.mod_unique n 100 a); subst n; lia). now rewrite two_of.
Qed.
Lemma field_octet : forall a k v, a <> "" -> field 0 0 a = Some (k, v) -> octet a.
Proof.
  intros a k v N E. enough (exists n, n <= 255 /\ a = oct n) by assumption.
  destruct a as [|c1 a]; [congruence|].
  destruct (field_step 0 0 c1 a) as [D1 [_ [L1 E1]]]; [congruence|]. rewrite E1 in E. clear E1. destruct (digit_of c1 D1) as [B1 S1].
  cbn -[Nat.mul] in E, L1. rewrite Nat.mul_0_l, Nat.add_0_l in *. destruct a as [|c2 a].
  { exists (digit_val c1). split; [exact L1|]. rewrite oct_one by exact B1. exact S1. }
  destruct (field_step 1 (digit_val c1) c2 a) as [D2 [Z [L2 E2]]]; [congruence|]. rewrite E2 in E. clear E2. destruct (digit_of c2 D2) as [B2 S2].
  destruct a as [|c3 a].
  { exists (digit_val c1 * 10 + digit_val c2). split; [exact L2|]. rewrite oct_two by lia. rewrite <- S1, <- S2. reflexivity. }
  destruct (field_step 2 (digit_val c1 * 10 + digit_val c2) c3 a) as [D3 [_ [L3 E3]]]; [congruence|]. rewrite E3 in E. clear E3. destruct (digit_of c3 D3) as [B3 S3].
  destruct a as [|c4 a].
  { exists ((digit_val c1 * 10 + digit_val c2) * 10 + digit_val c3). split; [exact L3|]. rewrite oct_three by lia. rewrite <- S1, <- S2, <- S3. reflexivity. }
  destruct (field_step 3 ((digit_val c1 * 10 + digit_val c2) * 10 + digit_val c3) c4 a) as [_ [_ [L4 _]]]; [congruence|]. lia.
Qed.
Lemma octet_field : forall a, octet a -> exists d v, field 0 0 a = Some (S d, v) /\ dotless a /\ all (among DIGITS) a /\ 1 <= String.length a <= 3.
Proof.
  intros a [n [L E]]. fold (oct n) in E. subst a. destruct (oct_field n L) as [d [F [D [A K]]]]. exists d, n. repeat split; auto.
  destruct (oct n); [cbn in F; discriminate F | cbn; lia].
Qed.
(** k octets. *)
Definition dots (k : nat) (s : string) : Prop := exists l, List.length l = k /\ Forall octet l /\ s = String.concat "." l.
Lemma dots_one : forall s, dots 1 s <-> octet s.
Proof.
  intros s. split.
  - intros [[|a [|b l]] [L [F ->]]]; try discriminate L. cbn. now inversion F.
  - intros H. exists [s]. repeat split; [constructor; [exact H | constructor]].
Qed.
Lemma dots_more : forall k s, dots (S (S k)) s <-> exists a r, s = (a ++ "." ++ r)%string /\ octet a /\ dots (S k) r.
Proof.
  intros k s. split.
  - intros [[|a [|b l]] [L [F ->]]]; try discriminate L. inversion F; subst. exists a, (String.concat "." (b :: l)). repeat split; auto.
    exists (b :: l). repeat split; auto. 
  - intros [a [r [-> [A [[|b l] [L [F ->]]]]]]]; [discriminate L|]. exists (a :: b :: l). repeat split; [cbn in *; lia | constructor; assumption].
Qed.
Lemma dots_nonempty : forall k s, dots (S k) s -> s <> "".
Proof.
  intros k s [[|a l] [L [F ->]]] E; [discriminate L|]. inversion F; subst. destruct (octet_field a H1) as [d [v [_ [_ [_ [K _]]]]]].
  destruct a as [|c a]; [cbn in K; lia|]. destruct l; discriminate E.
Qed.
Lemma fields_right : forall k pos s, pos + k = 3 -> s <> "" -> (ipv4_fields pos 0 0 s = true <-> dots (S k) s).
Proof.
  induction k; intros pos s P N.
  - replace pos with 3 by lia. rewrite dots_one. destruct (split_at "."%char s) as [D | [a [b [-> D]]]].
    + rewrite <- (app_nil_r_s s) at 1. rewrite fields_run by exact D. destruct (field 0 0 s) as [[d v]|] eqn:F.
      * split; [intros _; exact (field_octet s d v N F) | intros _; reflexivity].
      * split; [discriminate | intros H; destruct (octet_field s H) as [? [? [E _]]]; congruence].
    + rewrite fields_run by exact D. split.
      * destruct (field 0 0 a) as [[d v]|]; [|discriminate]. cbn. destruct d, b; discriminate.
      * intros H. destruct (octet_field _ H) as [? [? [_ [E _]]]]. exfalso. apply all_app in E. destruct E as [_ E]. apply all_cons in E. now destruct E.
  - rewrite dots_more. destruct (split_at "."%char s) as [D | [a [b [-> D]]]].
    + split.
      * rewrite <- (app_nil_r_s s), fields_run by exact D. destruct (field 0 0 s) as [[d v]|]; [|discriminate]. cbn. intros E. apply Nat.eqb_eq in E. lia.
      * intros [a [r [-> _]]]. exfalso. apply all_app in D. destruct D as [_ D]. apply all_cons in D. now destruct D.
    + rewrite fields_run by exact D. split.
      * destruct (field 0 0 a) as [[d v]|] eqn:F; [|discriminate]. cbn -[Nat.eqb]. destruct d as [|d]; [discriminate|].
        destruct b as [|c b]; [discriminate|]. destruct (Nat.eqb pos 3); [discriminate|]. intros H.
        exists a, (String c b). split; [reflexivity|]. split; [|apply (IHk (S pos)); [lia | discriminate | exact H]].
        apply (field_octet a (S d) v); [|exact F]. intros ->. discriminate F.
      * intros [a' [r [E [O H]]]]. destruct (octet_field a' O) as [d [v [F [D' _]]]].
        assert (EE : a = a' /\ b = r).
        { clear - E D D'. revert a' E D'. induction a; intros [|c a'] E D'; cbn in E.
          - injection E as ->. auto.
          - injection E as <- _. apply all_cons in D'. destruct D'. congruence.
          - injection E as -> _. apply all_cons in D. destruct D. congruence.
          - injection E as <- E. apply all_cons in D, D'. destruct (IHa (proj2 D) a' E (proj2 D')). subst. auto. }
        destruct EE as [<- <-]. rewrite F. pose proof (dots_nonempty _ _ H) as NB. destruct b as [|c b]; [congruence|].
        change (ipv4_fields pos (S d) v (String "." (String c b))) with (if Nat.eqb pos 3 then false else ipv4_fields (S pos) 0 0 (String c b)).
        rewrite (proj2 (Nat.eqb_neq pos 3)) by lia. apply IHk; [lia | exact NB | exact H].
Qed.
Lemma dots_dotted : forall s, dots 4 s <-> dotted s.
Proof.
  intros s. rewrite dots_more. unfold dotted. split.
  - intros [a [r [-> [A H]]]]. apply dots_more in H. destruct H as [b [r2 [-> [B H]]]]. apply dots_more in H. destruct H as [c [d [-> [C H]]]].
    apply dots_one in H. exists a, b, c, d. auto 10.
  - intros [a [b [c [d [-> [A [B [C D]]]]]]]]. exists a. eexists. split; [reflexivity|]. split; [exact A|]. apply dots_more.
    exists b. eexists. split; [reflexivity|]. split; [exact B|]. apply dots_more. exists c, d. split; [reflexivity|]. split; [exact C|]. now apply dots_one.
Qed.
Theorem dotted_right : forall s, parseIPv4 s = true <-> dotted s.
Proof.
  intros s. unfold parseIPv4. rewrite <- dots_dotted. destruct s as [|c s].
  - split; [discriminate | intros H; exfalso; exact (dots_nonempty _ _ H eq_refl)].
  - apply (fields_right 3 0); [reflexivity | discriminate].
Qed.

(** ** Groups *)
Definition unhex (s : string) : Prop := forall c, get 0 s = Some c -> is_hex c = false.
Lemma hex_run_is : forall s, let '(k, r) := hex_run s in exists a, s = (a ++ r)%string /\ String.length a = k /\ all (among HEXDIGITS) a /\ unhex r.
Proof.
  induction s; cbn.
  - exists "". repeat split; [apply all_nil | intros c E; discriminate E].
  - destruct (is_hex a) eqn:A.
    + destruct (hex_run s) as [k r]. destruct IHs as [u [-> [L [H U]]]]. exists (String a u). repeat split; [cbn; now rewrite L | | exact U].
      apply all_cons. split; [now apply hex_char | exact H].
    + exists "". repeat split; [apply all_nil|]. intros c E. cbn in E. now injection E as <-.
Qed.
Lemma hex_run_app : forall a r, all (among HEXDIGITS) a -> unhex r -> hex_run (a ++ r) = (String.length a, r).
Proof.
  induction a; intros r A U; cbn.
  - destruct r as [|c r]; [reflexivity|]. cbn. now rewrite (U c eq_refl).
  - apply all_cons in A. destruct A as [A1 A2]. apply hex_char in A1. now rewrite A1, IHa.
Qed.
Lemma groups_eq : forall n g ell s, ipv6_groups (S n) g ell s =
  let '(k, r) := hex_run s in
  if (Nat.eqb k 0 || Nat.ltb 4 k)%bool then false
  else match r with
       | EmptyString => ipv6_end (S g) ell
       | String c r' =>
           if Ascii.eqb c "." then ((ell || Nat.eqb g 6) && Nat.leb (g + 2) 8 && parseIPv4 s && ipv6_end (g + 2) ell)%bool
           else if Ascii.eqb c ":" then
             match r' with
             | EmptyString => false
             | String d r'' =>
                 if Ascii.eqb d ":" then
                   if ell then false else match r'' with EmptyString => ipv6_end (S g) true | _ => ipv6_groups n (S g) true r'' end
                 else ipv6_groups n (S g) ell r'
             end
           else false
       end.
Proof.
  intros. cbn [ipv6_groups]. destruct (hex_run s) as [k r]. destruct (_ || _)%bool; [reflexivity|].
  destruct r as [|c r]; [reflexivity|]. destruct (Ascii.ascii_dec c ":"%char) as [->|N].
  - cbn [Ascii.eqb Bool.eqb]. destruct r as [|d r]; [reflexivity|].
    destruct d as [[] [] [] [] [] [] [] []]; reflexivity.
  - destruct c as [[] [] [] [] [] [] [] []]; try reflexivity. congruence.
Qed.
Lemma colon_unhex : forall r, unhex (":" ++ r).
Proof. intros r c E. cbn in E. now injection E as <-. Qed.
(** The text starts with a hexadecimal digit. *)
Definition hexy (s : string) : Prop := exists c r, s = String c r /\ is_hex c = true.
Lemma h16_hexy : forall a r, h16 a -> hexy (a ++ r).
Proof.
  intros a r [L A]. destruct a as [|c a]; [cbn in L; lia|]. apply all_cons in A. exists c, (a ++ r)%string. split; [reflexivity|]. now apply hex_char.
Qed.
Lemma octet_h16 : forall a, octet a -> h16 a.
Proof.
  intros a H. destruct (octet_field a H) as [_ [_ [_ [_ [A L]]]]]. split; [lia|]. revert A. apply all_imp. intros c. unfold among. cbn. tauto.
Qed.
Lemma dotted_first : forall q, dotted q -> exists a r, q = (a ++ "." ++ r)%string /\ h16 a.
Proof. intros q [a [b [c [d [-> [A _]]]]]]. exists a. eexists. split; [reflexivity | now apply octet_h16]. Qed.
Lemma concat_cons : forall sep a b l, String.concat sep (a :: b :: l) = (a ++ sep ++ String.concat sep (b :: l))%string.
Proof. reflexivity. Qed.
Lemma pieces_hexy : forall s m, pieces s (S m) -> hexy s.
Proof.
  intros s m [[[|a l] [-> [F L]]] | [[|a l] [q [-> [F [D L]]]]]].
  - discriminate L.
  - inversion F; subst. destruct l as [|b l]; [cbn; rewrite <- (app_nil_r_s a); now apply h16_hexy | rewrite concat_cons; now apply h16_hexy].
  - cbn. destruct (dotted_first q D) as [x [r [-> X]]]. now apply h16_hexy.
  - inversion F; subst. cbn [app]. destruct (l ++ [q]) as [|b t] eqn:E; [destruct l; discriminate E|]. rewrite concat_cons. now apply h16_hexy.
Qed.
Lemma pieces_nil : forall m, pieces "" m <-> m = 0.
Proof.
  intros m. split.
  - destruct m; [reflexivity|]. intros H. apply pieces_hexy in H. destruct H as [c [r [E _]]]. discriminate E.
  - intros ->. left. exists []. repeat split. constructor.
Qed.
Lemma pieces_zero : forall s, pieces s 0 -> s = "".
Proof. intros s [[[|a l] [-> [F L]]] | [l [q [-> [F [D L]]]]]]; [reflexivity | discriminate L | rewrite Nat.add_comm in L; discriminate L]. Qed.
Lemma pieces_cons : forall a s m, h16 a -> pieces s (S m) -> pieces (a ++ ":" ++ s) (S (S m)).
Proof.
  intros a s m A [[l [-> [F L]]] | [l [q [-> [F [D L]]]]]].
  - left. exists (a :: l). destruct l as [|b l]; [discriminate L|]. repeat split; [constructor; assumption | cbn in *; lia].
  - right. exists (a :: l), q. repeat split; [|constructor; assumption | exact D | cbn; lia].
    cbn [app]. destruct (l ++ [q]) as [|b t] eqn:E; [destruct l; discriminate E|]. reflexivity.
Qed.
Lemma pieces_inv : forall s m, pieces s (S m) ->
  (h16 s /\ m = 0) \/ (dotted s /\ m = 1) \/ (exists a t k, s = (a ++ ":" ++ t)%string /\ h16 a /\ m = S k /\ pieces t (S k)).
Proof.
  intros s m [[[|a l] [-> [F L]]] | [[|a l] [q [-> [F [D L]]]]]].
  - discriminate L.
  - inversion F; subst. destruct l as [|b l].
    + left. cbn in *. split; [assumption | lia].
    + right. right. exists a, (String.concat ":" (b :: l)), (List.length l). split; [reflexivity|]. split; [assumption|]. split; [cbn in L; lia|].
      left. exists (b :: l). auto.
  - right. left. cbn in *. split; [exact D | lia].
  - inversion F; subst. right. right. exists a, (String.concat ":" (l ++ [q])), (List.length l + 1). split.
    + cbn [app]. destruct (l ++ [q]) as [|b t] eqn:E; [destruct l; discriminate E|]. reflexivity.
    + split; [assumption|]. split; [cbn in L; lia|]. right. exists l, q. repeat split; auto.
Qed.
Lemma h16_run : forall a r, h16 a -> unhex r -> hex_run (a ++ r) = (String.length a, r) /\ (Nat.eqb (String.length a) 0 || Nat.ltb 4 (String.length a))%bool = false.
Proof.
  intros a r [L A] U. split; [now apply hex_run_app|]. apply orb_false_iff. split; [apply Nat.eqb_neq; lia | apply Nat.ltb_ge; lia].
Qed.
Lemma groups_piece : forall n g ell a, h16 a -> ipv6_groups (S n) g ell a = ipv6_end (S g) ell.
Proof.
  intros n g ell a H. rewrite groups_eq. rewrite <- (app_nil_r_s a) at 1.
  destruct (h16_run a "" H) as [E1 E2]; [intros c E; discriminate E|]. rewrite E1, E2. reflexivity.
Qed.
Lemma groups_dotted : forall n g ell q, dotted q -> ipv6_groups (S n) g ell q = ((ell || Nat.eqb g 6) && Nat.leb (g + 2) 8 && ipv6_end (g + 2) ell)%bool.
Proof.
  intros n g ell q H. rewrite groups_eq. rewrite (proj2 (dotted_right q) H). destruct (dotted_first q H) as [a [r [-> A]]].
  destruct (h16_run a ("." ++ r) A) as [E1 E2]; [intros c E; cbn in E; now injection E as <-|]. rewrite E1, E2. cbn [append Ascii.eqb Bool.eqb].
  now rewrite andb_true_r.
Qed.
Lemma groups_colon : forall n g ell a t, h16 a -> hexy t -> ipv6_groups (S n) g ell (a ++ ":" ++ t) = ipv6_groups n (S g) ell t.
Proof.
  intros n g ell a t A [c [r [-> C]]]. rewrite groups_eq. destruct (h16_run a (":" ++ String c r) A) as [E1 E2]; [apply colon_unhex|].
  rewrite E1, E2. cbn [append]. replace (Ascii.eqb ":" ".") with false by reflexivity. rewrite Ascii.eqb_refl.
  destruct (Ascii.eqb c ":") eqn:E; [apply Ascii.eqb_eq in E; subst c; discriminate C | reflexivity].
Qed.
Lemma groups_ellipsis : forall n g a t, h16 a -> ipv6_groups (S n) g false (a ++ "::" ++ t) =
  match t with EmptyString => ipv6_end (S g) true | _ => ipv6_groups n (S g) true t end.
Proof.
  intros n g a t A. rewrite groups_eq. destruct (h16_run a ("::" ++ t) A) as [E1 E2]; [apply (colon_unhex (":" ++ t))|].
  rewrite E1, E2. reflexivity.
Qed.
Lemma end_true : forall g, ipv6_end g true = true <-> g <= 7.
Proof. intros. unfold ipv6_end. destruct (Nat.ltb g 8) eqn:E; [apply Nat.ltb_lt in E | apply Nat.ltb_ge in E]; split; intros; try reflexivity; try discriminate; lia. Qed.
Lemma end_false : forall g, ipv6_end g false = true <-> 8 <= g.
Proof. intros. unfold ipv6_end. destruct (Nat.ltb g 8) eqn:E; [apply Nat.ltb_lt in E | apply Nat.ltb_ge in E]; split; intros; try reflexivity; try discriminate; lia. Qed.
(** What a successful step has read. *)
Lemma groups_inv : forall n g ell s, ipv6_groups (S n) g ell s = true ->
  h16 s \/ dotted s \/ (exists a t, s = (a ++ ":" ++ t)%string /\ h16 a /\ ipv6_groups n (S g) ell t = true /\ t <> "") \/
  (ell = false /\ exists a t, s = (a ++ "::" ++ t)%string /\ h16 a).
Proof.
  intros n g ell s. rewrite groups_eq. pose proof (hex_run_is s) as R. destruct (hex_run s) as [k r]. destruct R as [a [-> [L [A U]]]].
  destruct (Nat.eqb k 0 || Nat.ltb 4 k)%bool eqn:K; [discriminate|]. apply orb_false_iff in K. destruct K as [K1 K2].
  apply Nat.eqb_neq in K1. apply Nat.ltb_ge in K2. assert (H : h16 a) by (split; [lia | exact A]).
  destruct r as [|c r]; [intros _; rewrite app_nil_r_s; auto|].
  destruct (Ascii.eqb c ".").
  - intros E. rewrite !andb_true_iff in E. destruct E as [[[_ _] E] _]. apply dotted_right in E. auto.
  - destruct (Ascii.eqb c ":") eqn:C; [|discriminate]. apply Ascii.eqb_eq in C. subst c. destruct r as [|d r]; [discriminate|].
    destruct (Ascii.eqb d ":") eqn:D.
    + apply Ascii.eqb_eq in D. subst d. destruct ell; [discriminate|]. intros _. right. right. right. split; [reflexivity|]. exists a, r. auto.
    + intros E. right. right. left. exists a, (String d r). split; [reflexivity|]. split; [exact H|]. split; [exact E | discriminate].
Qed.
Lemma groups_true : forall n g s, g + n = 8 -> (ipv6_groups n g true s = true <-> exists m, pieces s (S m) /\ g + S m <= 7).
Proof.
  induction n; intros g s G.
  - split.
    + cbn. destruct s; [|discriminate]. intros H. apply end_true in H. lia.
    + intros [m [_ L]]. lia.
  - split.
    + intros H. destruct (groups_inv _ _ _ _ H) as [A | [D | [[a [t [-> [A [E N]]]]] | [E _]]]]; [| | |discriminate E].
      * rewrite groups_piece in H by exact A. apply end_true in H. exists 0. split; [|lia]. left. exists [s]. repeat split. constructor; [exact A | constructor].
      * rewrite groups_dotted in H by exact D. rewrite !andb_true_iff in H. destruct H as [_ H]. apply end_true in H. exists 1. split; [|lia].
        right. exists [], s. repeat split; auto.
      * apply IHn in E; [|lia]. destruct E as [m [P L]]. exists (S m). split; [now apply pieces_cons | lia].
    + intros [m [P L]]. destruct (pieces_inv _ _ P) as [[A ->] | [[D ->] | [a [t [k [-> [A [-> T]]]]]]]].
      * rewrite groups_piece by exact A. apply end_true. lia.
      * rewrite groups_dotted by exact D. rewrite !andb_true_iff, Nat.leb_le. repeat split; [lia|]. apply end_true. lia.
      * rewrite groups_colon by (assumption || exact (pieces_hexy _ _ T)). apply IHn; [lia|]. exists k. split; [exact T | lia].
Qed.
Lemma groups_false : forall n g s, g + n = 8 -> s <> "" -> (ipv6_groups n g false s = true <->
  (exists m, pieces s (S m) /\ g + S m = 8) \/
  (exists a l r m, s = (String.concat ":" (a :: l) ++ "::" ++ r)%string /\ Forall h16 (a :: l) /\ pieces r m /\ g + S (List.length l) + m <= 7)).
Proof.
  induction n; intros g s G N.
  - split.
    + cbn. destruct s; [congruence | discriminate].
    + intros [[m [_ L]] | [a [l [r [m [_ [_ [_ L]]]]]]]]; lia.
  - split.
    + intros H. destruct (groups_inv _ _ _ _ H) as [A | [D | [[a [t [-> [A [E NT]]]]] | [_ [a [t [-> A]]]]]]].
      * rewrite groups_piece in H by exact A. apply end_false in H. left. exists 0. split; [|lia]. left. exists [s]. repeat split. constructor; [exact A | constructor].
      * rewrite groups_dotted in H by exact D. rewrite !andb_true_iff, Nat.leb_le in H. destruct H as [[H L] _].
        cbn in H. apply Nat.eqb_eq in H. left. exists 1. split; [|lia]. right. exists [], s. repeat split; auto.
      * apply IHn in E; [|lia|exact NT]. destruct E as [[m [P L]] | [b [l [r [m [-> [F [P L]]]]]]]].
        { left. exists (S m). split; [now apply pieces_cons | lia]. }
        { right. exists a, (b :: l), r, m. rewrite concat_cons. split; [now rewrite !app_assoc_s|]. split; [now constructor|]. split; [exact P | cbn; lia]. }
      * rewrite groups_ellipsis in H by exact A. right. exists a, [], t. cbn [String.concat]. destruct t as [|c t].
        { exists 0. apply end_true in H. repeat split; auto; [now apply pieces_nil | cbn; lia]. }
        { apply groups_true in H; [|lia]. destruct H as [m [P L]]. exists (S m). repeat split; auto. cbn. lia. }
    + intros [[m [P L]] | [a [l [r [m [-> [F [P L]]]]]]]].
      * destruct (pieces_inv _ _ P) as [[A ->] | [[D ->] | [a [t [k [-> [A [-> T]]]]]]]].
        { rewrite groups_piece by exact A. apply end_false. lia. }
        { rewrite groups_dotted by exact D. replace g with 6 by lia. reflexivity. }
        { pose proof (pieces_hexy _ _ T) as X. rewrite groups_colon by assumption. apply IHn; [lia | |left; exists k; split; [exact T | lia]].
          destruct X as [? [? [-> _]]]. discriminate. }
      * inversion F as [|? ? A F']; subst. destruct l as [|b l].
        { cbn [String.concat]. rewrite groups_ellipsis by exact A. cbn in L. destruct r as [|c r].
          - apply end_true. lia.
          - destruct m as [|m]; [apply pieces_zero in P; discriminate P|]. apply groups_true; [lia|]. exists m. split; [exact P | lia]. }
        { rewrite concat_cons, !app_assoc_s. inversion F' as [|? ? B F'']; subst.
          assert (X : hexy (String.concat ":" (b :: l) ++ "::" ++ r)).
          { destruct l as [|b' l]; [now apply h16_hexy|]. rewrite concat_cons, !app_assoc_s. now apply h16_hexy. }
          rewrite groups_colon by assumption. apply IHn; [lia | destruct X as [? [? [-> _]]]; discriminate |].
          right. exists b, l, r, m. repeat split; auto. cbn in L. lia. }
Qed.
Lemma parse6_eq : forall s, parseIPv6 s =
  match s with
  | String c (String d s') => if (Ascii.eqb c ":" && Ascii.eqb d ":")%bool then match s' with EmptyString => true | _ => ipv6_groups 8 0 true s' end
                              else ipv6_groups 8 0 false s
  | _ => ipv6_groups 8 0 false s
  end.
Proof.
  intros s. unfold parseIPv6. generalize (ipv6_groups 8 0 true). generalize (ipv6_groups 8 0 false). intros f g.
  destruct s as [|c [|d s]]; [reflexivity | destruct c as [[] [] [] [] [] [] [] []]; reflexivity |].
  destruct (Ascii.eqb c ":") eqn:C.
  - apply Ascii.eqb_eq in C. subst c. destruct d as [[] [] [] [] [] [] [] []]; reflexivity.
  - destruct c as [[] [] [] [] [] [] [] []]; vm_compute in C; first [discriminate C | reflexivity].
Qed.
Lemma hexy_not_colon : forall s t, hexy s -> s <> (":" ++ t)%string.
Proof. intros s t [c [r [-> C]]] E. cbn in E. injection E as -> _. discriminate C. Qed.
Lemma concat_hexy : forall a l r, Forall h16 (a :: l) -> hexy (String.concat ":" (a :: l) ++ r).
Proof.
  intros a l r F. inversion F; subst. destruct l as [|b l]; [now apply h16_hexy|]. rewrite concat_cons, !app_assoc_s. now apply h16_hexy.
Qed.
Lemma ipv6_parse : forall s, parseIPv6 s = true <-> ipv6 s.
Proof.
  intros s. rewrite parse6_eq. unfold ipv6.
  assert (GEN : s <> "" -> (forall t, s <> ("::" ++ t)%string) -> (ipv6_groups 8 0 false s = true <-> pieces s 8 \/
      exists l r n, s = (String.concat ":" l ++ "::" ++ r)%string /\ Forall h16 l /\ pieces r n /\ List.length l + n <= 7)).
  { intros N NC. rewrite (groups_false 8 0 s eq_refl N). split.
    - intros [[m [P L]] | [a [l [r [m [E [F [P L]]]]]]]].
      + left. replace 8 with (S m) by lia. exact P.
      + right. exists (a :: l), r, m. auto.
    - intros [P | [[|a l] [r [m [E [F [P L]]]]]]].
      + left. exists 7. auto.
      + exfalso. exact (NC r E).
      + right. exists a, l, r, m. auto. }
  destruct s as [|c [|d s]].
  - split; [discriminate|]. intros [P | [l [r [n [E _]]]]]; [apply pieces_hexy in P; destruct P as [? [? [E _]]]; discriminate E|].
    exfalso. destruct (String.concat ":" l); discriminate E.
  - apply GEN; [discriminate | intros t E; discriminate E].
  - destruct (Ascii.eqb c ":" && Ascii.eqb d ":")%bool eqn:C.
    + apply andb_true_iff in C. destruct C as [C D]. apply Ascii.eqb_eq in C, D. subst c d.
      assert (NP : ~ pieces (String ":" (String ":" s)) 8) by (intros P; apply pieces_hexy in P; exact (hexy_not_colon _ _ P eq_refl)).
      destruct s as [|e s].
      * split; [|reflexivity]. intros _. right. exists [], "", 0. repeat split; [constructor | now apply pieces_nil | cbn; lia].
      * rewrite (groups_true 8 0 _ eq_refl). split.
        { intros [m [P L]]. right. exists [], (String e s), (S m). repeat split; [constructor | exact P | cbn; lia]. }
        { intros [P | [[|a l] [r [m [E [F [P L]]]]]]]; [contradiction | |].
          - cbn in E. injection E as <-. cbn in L. destruct m as [|m]; [apply pieces_zero in P; discriminate P|]. exists m. split; [exact P | lia].
          - exfalso. pose proof (concat_hexy a l ("::" ++ r) F) as X. rewrite <- E in X. exact (hexy_not_colon _ _ X eq_refl). }
    + apply GEN; [discriminate|]. intros t E. cbn in E. injection E as -> -> _. discriminate C.
Qed.

(** ** net.ParseIP *)
Lemma first_skip : forall a r, all (fun c => c <> "."%char /\ c <> ":"%char /\ c <> "%"%char) a -> first_of (a ++ r) = first_of r.
Proof.
  induction a; intros r H; [reflexivity|]. apply all_cons in H. destruct H as [[H1 [H2 H3]] H].
  apply Ascii.eqb_neq in H1, H2, H3. cbn. rewrite H1, H2, H3. now apply IHa.
Qed.
Lemma hex_plain : forall a, all (among HEXDIGITS) a -> all (fun c => c <> "."%char /\ c <> ":"%char /\ c <> "%"%char) a.
Proof. intros a. apply all_imp. intros c H. apply hex_char in H. repeat split; intros ->; discriminate H. Qed.
Lemma has_char_in : forall x s, has_char x s = true <-> exists i, get i s = Some x.
Proof.
  intros x. induction s as [|c s IH]; cbn.
  - split; [discriminate | intros [[|i] E]; discriminate E].
  - rewrite orb_true_iff, Ascii.eqb_eq, IH. split.
    + intros [->|[i E]]; [exists 0; reflexivity | exists (S i); exact E].
    + intros [[|i] E]; [left; now injection E | right; eauto].
Qed.
Lemma has_char_none : forall x s, has_char x s = false <-> all (fun c => c <> x) s.
Proof.
  intros x s. split.
  - intros H i c E ->. assert (has_char x s = true) by (apply has_char_in; eauto). congruence.
  - intros H. destruct (has_char x s) eqn:E; [|reflexivity]. apply has_char_in in E. destruct E as [i E]. exfalso. exact (H i x E eq_refl).
Qed.
Definition ip_char (c : ascii) : Prop := among HEXDIGITS c \/ c = "."%char \/ c = ":"%char.
Lemma dotted_chars : forall q, dotted q -> all (fun c => among HEXDIGITS c \/ c = "."%char) q.
Proof.
  assert (O : forall a, octet a -> all (fun c => among HEXDIGITS c \/ c = "."%char) a).
  { intros a H. apply octet_h16 in H. destruct H as [_ H]. revert H. apply all_imp. auto. }
  intros q [a [b [c [d [-> [A [B [C D]]]]]]]]. rewrite !all_app. repeat split; auto;
    intros i x E; destruct i as [|i]; try (destruct i; discriminate E); injection E as <-; auto.
Qed.
Lemma one_char : forall (P : ascii -> Prop) c, P c -> all P (String c "").
Proof. intros P c H. apply all_cons. split; [exact H | apply all_nil]. Qed.
Lemma concat_chars : forall l, Forall (all ip_char) l -> all ip_char (String.concat ":" l).
Proof.
  induction l as [|a [|b l] IH]; intros F; [apply all_nil | cbn; now inversion F|]. inversion F; subst. rewrite concat_cons, !all_app. split; [assumption|]. split; [|now apply IH].
  apply one_char. unfold ip_char. auto.
Qed.
Lemma h16_chars : forall l, Forall h16 l -> Forall (all ip_char) l.
Proof. intros l F. induction F as [|a l [_ A] F IH]; constructor; auto. revert A. apply all_imp. unfold ip_char. auto. Qed.
Lemma pieces_chars : forall s m, pieces s m -> all ip_char s.
Proof.
  intros s m [[l [-> [F L]]] | [l [q [-> [F [D L]]]]]]; apply concat_chars; [now apply h16_chars|].
  apply Forall_app. split; [now apply h16_chars|]. constructor; [|constructor]. apply dotted_chars in D. revert D. apply all_imp. unfold ip_char. tauto.
Qed.
Lemma ipv6_chars : forall s, ipv6 s -> all ip_char s.
Proof.
  intros s [P | [l [r [n [-> [F [P L]]]]]]]; [exact (pieces_chars _ _ P)|]. rewrite !all_app. repeat split; [now apply concat_chars, h16_chars | | exact (pieces_chars _ _ P)].
  apply all_cons. split; [unfold ip_char; auto|]. apply one_char. unfold ip_char. auto.
Qed.
Lemma ipv6_first : forall s, ipv6 s -> first_of s = Some ":"%char.
Proof.
  assert (H16 : forall a r, h16 a -> first_of (a ++ ":" ++ r) = Some ":"%char).
  { intros a r [_ A]. rewrite first_skip by (now apply hex_plain). reflexivity. }
  intros s [P | [l [r [n [-> [F [P L]]]]]]].
  - destruct (pieces_inv _ _ P) as [[_ E] | [[_ E] | [a [t [k [-> [A _]]]]]]]; [discriminate E | discriminate E | now apply H16].
  - destruct l as [|a l]; [reflexivity|]. inversion F; subst. destruct l as [|b l]; [apply (H16 a (":" ++ r)%string); assumption|].
    rewrite concat_cons, !app_assoc_s. now apply H16.
Qed.
Lemma dotted_no_colon : forall q, dotted q -> has_char ":" q = false.
Proof.
  intros q D. apply has_char_none. apply dotted_chars in D. revert D. apply all_imp. intros c [H | ->]; [|discriminate].
  apply hex_char in H. intros ->. discriminate H.
Qed.
Lemma dotted_dot : forall q, dotted q -> has_char "." q = true /\ first_of q = Some "."%char.
Proof.
  intros q D. destruct (dotted_first q D) as [a [r [-> [_ A]]]]. split.
  - apply has_char_in. exists (String.length a + 0). now rewrite get_right.
  - rewrite first_skip by (now apply hex_plain). reflexivity.
Qed.
Lemma parse_ip_eq : forall s, ParseIP s =
  match first_of s with
  | Some c => if Ascii.eqb c "." then parseIPv4 s else if Ascii.eqb c ":" then (if has_char "%" s then false else parseIPv6 s) else false
  | None => false
  end.
Proof. intros s. unfold ParseIP. destruct (first_of s) as [[[] [] [] [] [] [] [] []]|]; reflexivity. Qed.
Theorem ip_right : forall s, ParseIP s = true <-> dotted s \/ ipv6 s.
Proof.
  intros s. rewrite parse_ip_eq. split.
  - destruct (first_of s) as [c|]; [|discriminate]. destruct (Ascii.eqb c "."); [intros H; left; now apply dotted_right|].
    destruct (Ascii.eqb c ":"); [|discriminate]. destruct (has_char "%" s); [discriminate|]. intros H. right. now apply ipv6_parse.
  - intros [D | D].
    + rewrite (proj2 (dotted_dot s D)). cbn [Ascii.eqb Bool.eqb]. now apply dotted_right.
    + rewrite (ipv6_first s D). change (Ascii.eqb ":" ".") with false. change (Ascii.eqb ":" ":") with true.
      replace (has_char "%" s) with false; [now apply ipv6_parse|]. symmetry. apply has_char_none. pose proof (ipv6_chars s D) as H. revert H.
      apply all_imp. intros c [H | [-> | ->]]; [|discriminate | discriminate]. apply hex_char in H. intros ->. discriminate H.
Qed.
Lemma ipv6_colon : forall s, ipv6 s -> has_char ":" s = true.
Proof.
  intros s H. apply ipv6_first in H. induction s as [|c s IH]; [discriminate H|]. cbn in *.
  destruct (Ascii.eqb c ".") eqn:A; [cbn in H; injection H as ->; discriminate A|].
  destruct (Ascii.eqb c ":") eqn:B; [reflexivity|]. cbn in H. destruct (Ascii.eqb c "%"); [cbn in H; injection H as ->; discriminate B|]. now apply IH.
Qed.
(** The two checkers. *)
Theorem ipv6_right : forall s, (ParseIP s && has_char ":" s)%bool = true <-> ipv6 s.
Proof.
  intros s. rewrite andb_true_iff, ip_right. split.
  - intros [[D | H] C]; [rewrite (dotted_no_colon s D) in C; discriminate C | exact H].
  - intros H. split; [auto | now apply ipv6_colon].
Qed.
Theorem ipv4_right : forall s, (ParseIP s && has_char "." s)%bool = true <-> dotted s \/ (ipv6 s /\ has_char "." s = true).
Proof.
  intros s. rewrite andb_true_iff, ip_right. split; [tauto|]. intros [D | [H C]]; [|auto]. split; [auto | exact (proj1 (dotted_dot s D))].
Qed.
