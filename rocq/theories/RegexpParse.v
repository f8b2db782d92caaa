(** The parser of package regexp on the portable notation. *)
From Coq Require Import Lia.
From Verif Require Export RegexpProps.
From Verif Require SpecRegexp.
From Coq Require Import NArith Arith.
Import SpecRegexp(Nothing, Chars, Seq, Alt, Rep, Start, Finish, Edge, Interior, pat, iter, matches, found, load, at_most,
  letter, digit, wordly, blank, plain, hexval, char_escape, set_escape, numeral, value, syntax_chars, quantity, quantifier,
  disjunction, alternative, term, atom).
Open Scope N_scope.
Open Scope list_scope.

Ltac nfold := unfold bad_rune, is_oct, is_alnum_rune, is_dec, in_rng, letter, digit in *.
Ltac nbool :=
  repeat match goal with
         | |- context [?a <=? ?b] => destruct (N.leb_spec a b)
         | |- context [?a <? ?b] => destruct (N.ltb_spec a b)
         | |- context [?a =? ?b] => destruct (N.eqb_spec a b)
         end.

Section Unicode.
Variable ud : unidata.

(** ** Characters *)
Lemma unhex_iff c v : unhex c = Some v <-> hexval c v.
Proof.
  unfold unhex, hexval. nfold. nbool; cbn [andb]; (split; [intros [=]; lia|intros HH; first [exfalso; lia|f_equal; lia]]).
Qed.
Lemma not_bad c : c <= 1114111 -> bad_rune c = false.
Proof. intros H. apply N.leb_gt. lia. Qed.
Lemma hexval_small c v : hexval c v -> 48 <= c <= 102 /\ v < 16.
Proof. unfold hexval, digit. lia. Qed.

Lemma escape_ok c q rest : char_escape c q -> parseEscape (q ++ rest) = Some (c, rest).
Proof.
  intros H. inversion H as [d Hd Hl Hn| | | | | |a b x y Ha Hb]; subst; try reflexivity.
  - cbn [app parseEscape]. rewrite not_bad by lia. unfold letter, digit in *. unfold is_alnum_rune, is_dec, in_rng.
    repeat match goal with |- context [?a =? ?b] => destruct (N.eqb_spec a b); [exfalso; lia|] end.
    nbool; cbn [andb orb negb]; try reflexivity; lia.
  - destruct (hexval_small _ _ Ha), (hexval_small _ _ Hb).
    cbn [app]. change (parseEscape (120 :: a :: b :: rest)) with
      (if bad_rune a then None else if a =? 123 then hex_braces false 0 (b :: rest)
       else match nextRune (b :: rest) with
            | None => None
            | Some (d, t) => match unhex a, unhex d with Some x, Some y => Some (x * 16 + y, t) | _, _ => None end
            end).
    rewrite not_bad by lia. destruct (N.eqb_spec a 123); [lia|]. unfold nextRune. rewrite not_bad by lia.
    apply unhex_iff in Ha, Hb. rewrite Ha, Hb. reflexivity.
Qed.
(** The character after the backslash of an escape. *)
Lemma escape_head c q : char_escape c q -> exists d q', q = d :: q' /\ d <= 1114111 /\ ((~ letter d /\ ~ digit d) \/ In d [116; 110; 118; 102; 114; 120]).
Proof.
  intros H. inversion H; subst; eexists _, _; (split; [reflexivity|]); (split; [lia|]); cbn; try tauto.
Qed.
Lemma perl_class_head fl d q : (~ letter d /\ ~ digit d) \/ In d [116; 110; 118; 102; 114; 120] -> perl_class ud fl (d :: q) = None.
Proof.
  intros H. unfold letter, digit in H.
  assert (Hd : d <> 100 /\ d <> 68 /\ d <> 115 /\ d <> 83 /\ d <> 119 /\ d <> 87) by (cbn in H; lia).
  destruct d as [|d]; [reflexivity|]. cbn [perl_class].
  repeat (destruct d as [d|d|]; cbn; try reflexivity; try lia).
Qed.

(** ** Sets *)
Lemma group_plain neg f c : group ud Perl neg f c = if neg then negb (f c) else f c.
Proof. destruct neg; reflexivity. Qed.
Lemma perl_s_iff c : perl_s c = true <-> blank c.
Proof.
  unfold perl_s, blank. rewrite existsb_exists. split.
  - intros (x & Hx & He). apply N.eqb_eq in He. subst. exact Hx.
  - intros H. exists c. split; auto. apply N.eqb_refl.
Qed.
Lemma perl_d_iff c : perl_d c = true <-> digit c.
Proof. unfold perl_d, is_dec, in_rng, digit. rewrite andb_true_iff, !N.leb_le. tauto. Qed.
Lemma neg_iff (f : bool) P : (f = true <-> P) -> (~ P <-> negb f = true).
Proof. intros H. rewrite <- H. destruct f; cbn; intuition congruence. Qed.
Lemma set_ok P c : set_escape P c -> exists f, (forall rest, perl_class ud Perl (c :: rest) = Some (f, rest)) /\ forall y, P y <-> f y = true.
Proof.
  intros H. inversion H; subst; cbn [perl_class]; eexists; (split; [intros rest; reflexivity|]); intros y; rewrite group_plain;
    first [symmetry; first [apply perl_d_iff|apply perl_w_iff|apply perl_s_iff]|apply neg_iff; first [apply perl_d_iff|apply perl_w_iff|apply perl_s_iff]].
Qed.
Lemma set_letter P c : set_escape P c -> In c [100; 68; 119; 87; 115; 83].
Proof. intros H. inversion H; subst; cbn; tauto. Qed.

(** ** Classes *)
Lemma class_char_ok c q rest : SpecRegexp.class_char c q -> class_char (q ++ rest) = Some (c, rest).
Proof.
  intros H. inversion H as [d Hd Hn|d q' He]; subst.
  - cbn [app]. assert (Hne : c <> 92) by (intros ->; apply Hn; cbn; auto).
    transitivity (if bad_rune c then None else Some (c, rest)); [|rewrite not_bad by lia; reflexivity].
    destruct c as [|c]; [reflexivity|]. cbn [class_char]. repeat (destruct c as [c|c|]; cbn; try reflexivity; try lia).
  - cbn [app]. exact (escape_ok _ _ rest He).
Qed.
(** What a character of a class starts with. *)
Lemma class_char_head c q : SpecRegexp.class_char c q -> exists d q', q = d :: q' /\
  ((d <> 92 /\ ~ In d [92; 93; 91; 45; 94] /\ d <= 1114111) \/
   (d = 92 /\ exists e q'', q' = e :: q'' /\ ((~ letter e /\ ~ digit e) \/ In e [116; 110; 118; 102; 114; 120]))).
Proof.
  intros H. inversion H as [d Hd Hn|d q' He]; subst.
  - exists c, []. split; auto. left. split; [|auto]. intros ->. apply Hn. cbn. auto.
  - exists 92, q'. split; auto. right. split; auto. destruct (escape_head _ _ He) as (e & q'' & -> & _ & Hh). eauto.
Qed.

(** class_item without the cases that read something else than characters. *)
Definition single (fl : xflags) (t : input) : option ((N -> bool) * input) :=
  match class_char t with
  | None => None
  | Some (lo, t) =>
      match t with
      | 45 :: ((d :: _) as t') =>
          if d =? 93 then Some (folded ud fl (N.eqb lo), t)
          else match class_char t' with
               | None => None
               | Some (hi, t) => if hi <? lo then None else Some (folded ud fl (in_rng lo hi), t)
               end
      | _ => Some (folded ud fl (N.eqb lo), t)
      end
  end.
Lemma item_plain fl d t : d <> 92 -> d <> 91 -> class_item ud fl (d :: t) = single fl (d :: t).
Proof.
  intros H1 H2. destruct d as [|d]; [reflexivity|]. unfold class_item; fold (single fl (N.pos d :: t)).
  repeat (destruct d as [d|d|]; try reflexivity; try lia).
Qed.
Lemma item_escape fl e t : (~ letter e /\ ~ digit e) \/ In e [116; 110; 118; 102; 114; 120] -> class_item ud fl (92 :: e :: t) = single fl (92 :: e :: t).
Proof.
  intros H. assert (Hp : e <> 112 /\ e <> 80) by (unfold letter, digit in H; cbn in H; lia).
  unfold class_item; fold (single fl (92 :: e :: t)).
  pose proof (perl_class_head fl e t H) as HC. destruct e as [|e]; [rewrite HC; reflexivity|].
  repeat (destruct e as [e|e|]; try (rewrite HC; reflexivity); try lia).
Qed.
Lemma item_char fl c q rest : SpecRegexp.class_char c q -> class_item ud fl (q ++ rest) = single fl (q ++ rest).
Proof.
  intros H. destruct (class_char_head _ _ H) as (d & q' & -> & [(H1 & H2 & _)|(-> & e & q'' & -> & He)]); cbn [app].
  - apply item_plain; auto. intros ->. apply H2. cbn. tauto.
  - apply item_escape. exact He.
Qed.
(** The text does not go on with a dash. *)
Definition no_dash (t : input) : Prop := match t with 45 :: _ => False | _ => True end.
Lemma no_dash_match {A} (t : input) (f : input -> A) (g : A) : no_dash t -> match t with 45 :: t' => f t' | _ => g end = g.
Proof.
  destruct t as [|d t]; auto. destruct d as [|d]; auto. cbn.
  repeat (destruct d as [d|d|]; auto; try contradiction).
Qed.
Lemma single_one c q rest : SpecRegexp.class_char c q -> no_dash rest -> single Perl (q ++ rest) = Some (N.eqb c, rest).
Proof.
  intros H Hn. unfold single. rewrite (class_char_ok _ _ rest H).
  destruct rest as [|d t]; auto. destruct d as [|d]; auto. cbn in Hn.
  repeat (destruct d as [d|d|]; auto; try contradiction).
Qed.
Lemma single_range a b p q rest : SpecRegexp.class_char a p -> SpecRegexp.class_char b q -> a <= b ->
  single Perl (p ++ [45] ++ q ++ rest) = Some (in_rng a b, rest).
Proof.
  intros Ha Hb Hab. unfold single. rewrite (class_char_ok _ _ ([45] ++ q ++ rest) Ha). cbn [app].
  destruct (class_char_head _ _ Hb) as (d & q' & E & Hd). rewrite E. cbn [app].
  destruct (N.eqb_spec d 93) as [->|_].
  - exfalso. destruct Hd as [(_ & Hd & _)|[Hd _]]; [apply Hd; cbn; tauto|discriminate].
  - change (d :: q' ++ rest) with ((d :: q') ++ rest). rewrite <- E. rewrite (class_char_ok _ _ rest Hb).
    destruct (N.ltb_spec b a); [lia|reflexivity].
Qed.
Lemma item_ok P q : SpecRegexp.class_item P q ->
  exists f, (forall rest, no_dash rest -> class_item ud Perl (q ++ rest) = Some (f, rest)) /\ forall y, P y <-> f y = true.
Proof.
  intros H. inversion H as [c q' Hc|a b p q' Ha Hb Hab|Q c Hs]; subst.
  - exists (N.eqb c). split; [|intros y; rewrite N.eqb_eq; tauto]. intros rest Hn.
    rewrite (item_char Perl _ _ rest Hc). apply (single_one _ _ _ Hc Hn).
  - exists (in_rng a b). split; [|intros y; unfold in_rng; rewrite andb_true_iff, !N.leb_le; tauto]. intros rest Hn.
    rewrite <- !app_assoc. rewrite (item_char Perl _ _ _ Ha). apply (single_range _ _ _ _ rest Ha Hb Hab).
  - destruct (set_ok P c Hs) as (f & Hf & HP). exists f. split; auto. intros rest Hn. cbn [app]. unfold class_item.
    inversion Hs; subst; rewrite Hf; reflexivity.
Qed.
Lemma item_head P q : SpecRegexp.class_item P q -> exists d q', q = d :: q' /\ ~ In d [93; 45; 94].
Proof.
  intros H. inversion H as [c q' Hc|a b p q' Ha Hb Hab|Q c Hs]; subst.
  - destruct (class_char_head _ _ Hc) as (d & q' & -> & [(_ & Hd & _)|[-> _]]); exists d, q' || eexists _, _; (split; [reflexivity|]); cbn in *; [tauto|lia].
  - destruct (class_char_head _ _ Ha) as (d & p' & -> & [(_ & Hd & _)|[-> _]]); cbn [app]; eexists _, _; (split; [reflexivity|]); cbn in *; [tauto|lia].
  - exists 92, [c]. split; auto. cbn. lia.
Qed.
Lemma items_head P q : SpecRegexp.class_items P q -> exists d q', q = d :: q' /\ ~ In d [93; 45; 94].
Proof.
  intros H. inversion H as [Q p Hi|Q p R q' Hi Hs]; subst.
  - eapply item_head; eauto.
  - destruct (item_head _ _ Hi) as (d & p' & -> & Hd). exists d, (p' ++ q'). auto.
Qed.
Lemma items_step n fl first f d t : d <> 93 -> class_items ud (S n) fl first f (d :: t) =
  match class_item ud fl (d :: t) with None => None | Some (g, t) => class_items ud n fl false (fun c => f c || g c)%bool t end.
Proof.
  intros H. destruct d as [|d]; [reflexivity|]. cbn [class_items].
  repeat (destruct d as [d|d|]; try reflexivity; try lia).
Qed.
Lemma items_ok P q : SpecRegexp.class_items P q -> forall f,
  exists g, (forall n first rest, (length q < n)%nat -> class_items ud n Perl first f (q ++ 93 :: rest) = Some (g, rest)) /\ forall y, g y = true <-> f y = true \/ P y.
Proof.
  induction 1 as [P q Hi|P p Q q Hi Hs IH]; intros f.
  - destruct (item_head _ _ Hi) as (d & q' & E & Hd).
    assert (d <> 93) by (intros ->; apply Hd; cbn; auto).
    destruct (item_ok P q Hi) as (g & Hg & HP). exists (fun c => f c || g c)%bool. split; [|intros y; rewrite orb_true_iff, <- HP; tauto].
    intros n first rest Hn. destruct n as [|n]; [lia|].
    assert (HS : class_items ud (S n) Perl first f (q ++ 93 :: rest) = class_items ud n Perl false (fun c => f c || g c)%bool (93 :: rest)).
    { specialize (Hg (93 :: rest) I). rewrite E in Hg |- *. cbn [app] in Hg |- *. rewrite items_step by auto. rewrite Hg. reflexivity. }
    rewrite HS. destruct n as [|n]; [subst q; cbn in Hn; lia|]. reflexivity.
  - destruct (item_head _ _ Hi) as (d & q' & E & Hd).
    assert (d <> 93) by (intros ->; apply Hd; cbn; auto).
    destruct (items_head _ _ Hs) as (d' & q'' & E' & Hd').
    assert (Hnd : forall rest, no_dash (q ++ 93 :: rest)).
    { intros rest. rewrite E'. cbn [app]. unfold no_dash. destruct d' as [|d']; auto.
      repeat (destruct d' as [d'|d'|]; auto). apply Hd'. cbn. auto. }
    destruct (item_ok P p Hi) as (g & Hg & HP).
    destruct (IH (fun c => f c || g c)%bool) as (h & Hh & HQ). exists h. split; [|intros y; rewrite HQ, orb_true_iff, <- HP; tauto].
    intros n first rest Hn. destruct n as [|n]; [lia|].
    assert (HS : class_items ud (S n) Perl first f ((p ++ q) ++ 93 :: rest) = class_items ud n Perl false (fun c => f c || g c)%bool (q ++ 93 :: rest)).
    { rewrite <- app_assoc. specialize (Hg (q ++ 93 :: rest) (Hnd rest)). rewrite E in Hg |- *. cbn [app] in Hg |- *. rewrite items_step by auto. rewrite Hg. reflexivity. }
    rewrite HS. apply Hh. rewrite app_length, E in Hn. cbn [length plus] in Hn. lia.
Qed.
Lemma no_caret (t : input) d t' : t = d :: t' -> d <> 94 -> match t with 94 :: t' => (true, t') | _ => (false, t) end = (false, t).
Proof. intros -> H. destruct d as [|d]; auto. repeat (destruct d as [d|d|]; auto; try contradiction). Qed.
Lemma class_ok P q : SpecRegexp.class_items P q ->
  (exists f, (forall rest, parseClass ud Perl (q ++ 93 :: rest) = Some (XClass f, rest)) /\ forall y, P y <-> f y = true) /\
  (exists f, (forall rest, parseClass ud Perl (94 :: q ++ 93 :: rest) = Some (XClass f, rest)) /\ forall y, ~ P y <-> f y = true).
Proof.
  intros H. destruct (items_head _ _ H) as (d & q' & E & Hd).
  destruct (items_ok P q H (fun _ => false)) as (g & Hg & HP).
  assert (Hg' : forall rest, class_items ud (S (length (q ++ 93 :: rest))) Perl true (fun _ => false) (q ++ 93 :: rest) = Some (g, rest)).
  { intros rest. apply Hg. rewrite app_length. cbn. lia. }
  split; [exists (signed false g)|exists (signed true g)]; (split; [intros rest; unfold parseClass|]).
  - rewrite (no_caret (q ++ 93 :: rest) d (q' ++ 93 :: rest)); [|subst; reflexivity|intros ->; apply Hd; cbn; auto].
    rewrite Hg'. reflexivity.
  - intros y. cbn. rewrite HP. intuition congruence.
  - rewrite Hg'. reflexivity.
  - intros y. unfold signed. apply neg_iff. rewrite HP. intuition congruence.
Qed.

(** ** Counts *)
Lemma digits_ok ds c rest : Forall digit ds -> ~ digit c -> digits (ds ++ c :: rest) = (ds, c :: rest).
Proof.
  intros H Hc. induction H as [|d ds Hd Hds IH]; cbn [app digits].
  - assert (is_dec c = false) as -> by (destruct (is_dec c) eqn:E; auto; exfalso; apply Hc, perl_d_iff; exact E). reflexivity.
  - assert (is_dec d = true) as -> by (apply perl_d_iff; auto). rewrite IH. reflexivity.
Qed.
Definition accumulate (n d : N) : N := n * 10 + (d - 48).
Lemma value_grows ds : forall a, a * 10 ^ N.of_nat (length ds) <= fold_left accumulate ds a.
Proof.
  induction ds as [|d ds IH]; intros a; cbn [fold_left length].
  - cbn. lia.
  - rewrite Nat2N.inj_succ, N.pow_succ_r' by lia. specialize (IH (accumulate a d)). unfold accumulate in IH at 1.
    transitivity ((a * 10 + (d - 48)) * 10 ^ N.of_nat (length ds)); auto.
    replace (a * (10 * 10 ^ N.of_nat (length ds))) with (a * 10 * 10 ^ N.of_nat (length ds)) by lia. apply N.mul_le_mono_r. lia.
Qed.
Lemma numeral_short n ds : numeral n ds -> (length ds <= 8)%nat.
Proof.
  intros (Hne & Hd & Hz & Hv & Hn). destruct ds as [|d ds]; [congruence|]. cbn [length].
  destruct (N.eq_dec d 48) as [->|Hd0]; [specialize (Hz eq_refl); injection Hz as ->; cbn; lia|].
  inversion Hd as [|? ? H1 H2]; subst. unfold digit in H1. unfold value in Hv. cbn [fold_left] in Hv.
  destruct (le_gt_dec (length ds) 4) as [|Hl]; [lia|]. exfalso.
  pose proof (value_grows ds (accumulate 0 d)) as Hg. unfold accumulate at 1 in Hg.
  change (fold_left (fun n d => n * 10 + (d - 48)) ds (0 * 10 + (d - 48))) with (fold_left accumulate ds (accumulate 0 d)) in Hv.
  rewrite Hv in Hg.
  assert (10 ^ 4 <= 10 ^ N.of_nat (length ds)) by (apply N.pow_le_mono_r; lia).
  assert (1 * 10 ^ N.of_nat (length ds) <= (0 * 10 + (d - 48)) * 10 ^ N.of_nat (length ds)) by (apply N.mul_le_mono_r; lia).
  change (10 ^ 4) with 10000 in *. lia.
Qed.
Lemma parseInt_ok n ds c rest : numeral n ds -> ~ digit c -> parseInt (ds ++ c :: rest) = Some (Some (N.of_nat n), c :: rest).
Proof.
  intros H Hc. pose proof (numeral_short _ _ H) as Hs. destruct H as (Hne & Hd & Hz & Hv & Hn).
  unfold parseInt. rewrite digits_ok by auto. apply Nat.leb_le in Hs.
  assert (HR : Some (if Nat.leb (length ds) 8 then Some (fold_left (fun n c => n * 10 + (c - 48)) ds 0) else None, c :: rest) = Some (Some (N.of_nat n), c :: rest)).
  { rewrite Hs. unfold value in Hv. rewrite Hv. reflexivity. }
  destruct ds as [|d ds]; [congruence|].
  destruct (N.eq_dec d 48) as [->|Hd0]; [specialize (Hz eq_refl); injection Hz as ->; exact HR|].
  destruct d as [|d]; [exact HR|]. repeat (destruct d as [d|d|]; try exact HR; try lia).
Qed.

(** ** Runs of the loop *)
Inductive runs : parser -> bool -> input -> parser -> bool -> input -> Prop :=
| r_done p l t : runs p l t p l t
| r_step p l t p1 l1 t1 p2 l2 t2 : t <> [] -> step ud p l t = Some (p1, l1, t1) -> (length t1 < length t)%nat ->
    runs p1 l1 t1 p2 l2 t2 -> runs p l t p2 l2 t2.
Lemma runs_trans p l t p1 l1 t1 p2 l2 t2 : runs p l t p1 l1 t1 -> runs p1 l1 t1 p2 l2 t2 -> runs p l t p2 l2 t2.
Proof. induction 1; auto. intros. eapply r_step; eauto. Qed.
Lemma runs_loop p l t p2 l2 t2 : runs p l t p2 l2 t2 -> t2 = [] -> forall n, (length t <= n)%nat -> loop ud n p l t = Some p2.
Proof.
  induction 1 as [p l t|p l t p1 l1 t1 p2 l2 t2 Hne Hs Hl _ IH]; intros E n Hn.
  - subst. destruct n; reflexivity.
  - destruct n as [|n]; [lia|]. cbn [loop]. rewrite Hs. destruct t as [|c t]; [congruence|].
    apply IH; auto. lia.
Qed.
Lemma one_step p l c t p1 l1 t1 : step ud p l (c :: t) = Some (p1, l1, t1) -> (length t1 <= length t)%nat -> runs p l (c :: t) p1 l1 t1.
Proof. intros H Hl. eapply r_step; [discriminate|exact H|cbn; lia|apply r_done]. Qed.

(** The text does not go on with a question mark. *)
Definition no_q (t : input) : Prop := match t with 63 :: _ => False | _ => True end.
Lemma no_q_cons d t : d <> 63 -> no_q (d :: t).
Proof. intros H. unfold no_q. destruct d as [|d]; auto. repeat (destruct d as [d|d|]; auto). Qed.
Lemma no_q_match t : no_q t -> match t with 63 :: t' => t' | _ => t end = t.
Proof. destruct t as [|d t]; auto. destruct d as [|d]; auto. cbn. repeat (destruct d as [d|d|]; auto; try contradiction). Qed.

Lemma push_flags x p : p_flags (push x p) = p_flags p.
Proof. reflexivity. Qed.

Lemma load_pos r : (1 <= load r)%nat.
Proof.
  induction r as [|P|a IHa b IHb|a IHa b IHb|n m a IHa| | | |]; cbn [load]; try lia.
  destruct m as [[|m]|]; [lia| |].
  - change 1%nat with (1 * 1)%nat at 1. apply Nat.mul_le_mono; lia.
  - change 1%nat with (1 * 1)%nat at 1. apply Nat.mul_le_mono; lia.
Qed.
Lemma fits r : forall x n, like r x -> (load r <= n)%nat -> repeatIsValid x n = true.
Proof.
  induction r as [|P|a IHa b IHb|a IHa b IHb|k m a IHa| | | |]; intros x n; cbn [like load].
  - intros ->; reflexivity.
  - intros [(c & -> & _)|[(f & -> & _)|[-> _]]] _; reflexivity.
  - intros (u & v & -> & Hu & Hv) H. cbn [repeatIsValid]. rewrite (IHa u n), (IHb v n); auto; lia.
  - intros (u & v & -> & Hu & Hv) H. cbn [repeatIsValid]. rewrite (IHa u n), (IHb v n); auto; lia.
  - intros (Hm & u & Hu & [->|[(-> & -> & ->)|[(-> & -> & ->)|(-> & -> & ->)]]]) H; cbn [repeatIsValid].
    + pose proof (load_pos a). destruct m as [[|m]|]; auto.
      * assert (S m <= n)%nat by nia. destruct (Nat.ltb_spec n (S m)); [lia|]. change (Nat.eqb (S m) 0) with false. cbv iota.
        apply IHa; auto. apply Nat.div_le_lower_bound; lia.
      * destruct k as [|k].
        -- change (Nat.ltb n 0) with false. cbv iota. change (Nat.eqb 0 0) with true. cbv iota. apply IHa; auto. lia.
        -- assert (S k <= n)%nat by nia. destruct (Nat.ltb_spec n (S k)); [lia|]. change (Nat.eqb (S k) 0) with false. cbv iota.
           apply IHa; auto. apply Nat.div_le_lower_bound; lia.
    + apply IHa; auto. lia.
    + apply IHa; auto. lia.
    + apply IHa; auto. lia.
  - intros ->; reflexivity.
  - intros ->; reflexivity.
  - intros ->; reflexivity.
  - intros ->; reflexivity.
Qed.

Lemma repeat_ok f counted x p t rest : (counted = true -> repeatIsValid (f x) 1000 = true) ->
  (no_q t /\ rest = t \/ t = 63 :: rest) ->
  repeat_op f counted (push x p) false t = Some (push (f x) p, true, rest).
Proof.
  intros H Ht. unfold repeat_op. cbn [p_cur push].
  assert (E : match t with 63 :: t' => t' | _ => t end = rest).
  { destruct Ht as [[Hq ->]| ->]; [apply no_q_match; auto|reflexivity]. }
  rewrite E. destruct counted; cbn [andb]; [rewrite H by auto|]; reflexivity.
Qed.
(** The operators: what follows them, with or without the "?" of the lazy kind. *)
Definition follows (t rest : input) : Prop := no_q t /\ rest = t \/ t = 63 :: rest.
Lemma follows_length t rest : follows t rest -> (length rest <= length t)%nat.
Proof. intros [[_ ->]| ->]; cbn; lia. Qed.

Lemma numeral_le n ds : numeral n ds -> (n <= 1000)%nat.
Proof. intros H. apply H. Qed.
Lemma not_digit c : c < 48 \/ 57 < c -> ~ digit c.
Proof. unfold digit. lia. Qed.
Lemma numeral_head n ds : numeral n ds -> exists d r, ds = d :: r /\ d <> 125.
Proof.
  intros (Hne & Hd & _). destruct ds as [|d r]; [congruence|]. exists d, r. split; auto. inversion Hd; subst. unfold digit in *. lia.
Qed.
Lemma step_brace p l t : step ud p l (123 :: t) =
  match parseRepeat t with
  | None => Some (literal 123 p, false, t)
  | Some (Some min, None, r) =>
      if 1000 <? min then None
      else repeat_op (XRepeat (N.to_nat min) None) (2 <=? min) p l r
  | Some (Some min, Some (Some max), r) =>
      if ((1000 <? min) || (1000 <? max) || (max <? min))%bool then None
      else repeat_op (XRepeat (N.to_nat min) (Some (N.to_nat max))) ((2 <=? min) || (2 <=? max))%bool p l r
  | Some _ => None
  end.
Proof. reflexivity. Qed.

Lemma quantity_ok n m q r x : quantity n m q -> like r x -> (load (Rep n m r) <= 1000)%nat ->
  exists y, like (Rep n m r) y /\ forall p t rest, follows t rest -> runs (push x p) false (q ++ t) (push y p) true rest.
Proof.
  intros H Hl Hf.
  inversion H as [| | |k ds Hk|k ds Hk|k j ds es Hk Hj Hkj]; subst; cbn [app].
  - exists (XStar x). split; [cbn; split; [exact I|]; exists x; tauto|]. intros p t rest Ht; pose proof (follows_length _ _ Ht) as HL. apply one_step; auto.
    exact (repeat_ok XStar false x p t rest (fun e => False_ind _ (diff_false_true e)) Ht).
  - exists (XPlus x). split; [cbn; split; [exact I|]; exists x; tauto|]. intros p t rest Ht; pose proof (follows_length _ _ Ht) as HL. apply one_step; auto.
    exact (repeat_ok XPlus false x p t rest (fun e => False_ind _ (diff_false_true e)) Ht).
  - exists (XQuest x). split; [cbn; split; [lia|]; exists x; tauto|]. intros p t rest Ht; pose proof (follows_length _ _ Ht) as HL. apply one_step; auto.
    exact (repeat_ok XQuest false x p t rest (fun e => False_ind _ (diff_false_true e)) Ht).
  - assert (HL2 : like (Rep n (Some n) r) (XRepeat n (Some n) x)) by (cbn; split; [lia|]; exists x; tauto).
    exists (XRepeat n (Some n) x). split; auto. intros p t rest Ht; pose proof (follows_length _ _ Ht) as HL. apply one_step; [|rewrite !app_length; cbn; lia].
    rewrite step_brace. unfold parseRepeat. rewrite <- app_assoc. cbn [app].
    rewrite (parseInt_ok n ds 125 t Hk (not_digit 125 ltac:(lia))). cbn [N.eqb Pos.eqb].
    pose proof (numeral_le _ _ Hk). rewrite (proj2 (N.ltb_ge 1000 (N.of_nat n))) by lia.
    rewrite (proj2 (N.ltb_ge (N.of_nat n) (N.of_nat n))) by lia. cbn [orb]. rewrite Nat2N.id.
    apply repeat_ok; auto. intros _. eapply fits; eauto.
  - assert (HL2 : like (Rep n None r) (XRepeat n None x)) by (cbn; split; [exact I|]; exists x; tauto).
    exists (XRepeat n None x). split; auto. intros p t rest Ht; pose proof (follows_length _ _ Ht) as HL. apply one_step; [|rewrite !app_length; cbn; lia].
    rewrite step_brace. unfold parseRepeat. rewrite <- app_assoc. cbn [app].
    rewrite (parseInt_ok n ds 44 (125 :: t) Hk (not_digit 44 ltac:(lia))). cbn [N.eqb Pos.eqb].
    pose proof (numeral_le _ _ Hk). rewrite (proj2 (N.ltb_ge 1000 (N.of_nat n))) by lia. rewrite Nat2N.id.
    apply repeat_ok; auto. intros _. eapply fits; eauto.
  - assert (HL2 : like (Rep n (Some j) r) (XRepeat n (Some j) x)) by (cbn; split; [lia|]; exists x; tauto).
    exists (XRepeat n (Some j) x). split; auto. intros p t rest Ht; pose proof (follows_length _ _ Ht) as HL. apply one_step; [|rewrite !app_length; cbn; rewrite !app_length; cbn; lia].
    rewrite step_brace. unfold parseRepeat. repeat (rewrite <- !app_assoc; cbn [app]).
    rewrite (parseInt_ok n ds 44 (es ++ 125 :: t) Hk (not_digit 44 ltac:(lia))). cbn [N.eqb Pos.eqb].
    destruct (numeral_head _ _ Hj) as (d & es' & E & Hd).
    rewrite E at 1. cbn [app]. rewrite (proj2 (N.eqb_neq d 125) Hd).
    rewrite (parseInt_ok j es 125 t Hj (not_digit 125 ltac:(lia))). cbn [N.eqb Pos.eqb].
    pose proof (numeral_le _ _ Hk). pose proof (numeral_le _ _ Hj).
    rewrite (proj2 (N.ltb_ge 1000 (N.of_nat n))) by lia. rewrite (proj2 (N.ltb_ge 1000 (N.of_nat j))) by lia.
    rewrite (proj2 (N.ltb_ge (N.of_nat j) (N.of_nat n))) by lia. cbn [orb]. rewrite !Nat2N.id.
    apply repeat_ok; auto. intros _. eapply fits; eauto.
Qed.

(** ** The single steps *)
Lemma step_plain p l c t : plain c -> step ud p l (c :: t) = Some (literal c p, false, t).
Proof.
  intros [Hc Hs]. assert (HN : forall k, In k syntax_chars -> (c =? k) = false).
  { intros k Hk. apply N.eqb_neq. intros ->. auto. }
  unfold step. rewrite !HN by (cbn; tauto). rewrite not_bad by lia. reflexivity.
Qed.
Lemma step_escape p l c q t : char_escape c q -> step ud p l (92 :: q ++ t) = Some (literal c p, false, t).
Proof.
  intros H. destruct (escape_head _ _ H) as (d & q' & E & Hd & Hh).
  pose proof (escape_ok c q t H) as HE. rewrite E in HE |- *. cbn [app] in HE |- *.
  pose proof (perl_class_head (p_flags p) d (q' ++ t) Hh) as HC.
  assert (HR : match perl_class ud (p_flags p) (d :: q' ++ t) with
               | Some (f, r) => Some (push (XClass f) p, false, r)
               | None => match parseEscape (d :: q' ++ t) with Some (c, r) => Some (literal c p, false, r) | None => None end
               end = Some (literal c p, false, t)) by (rewrite HC, HE; reflexivity).
  assert (Hp : d <> 112 /\ d <> 80 /\ d <> 65 /\ d <> 98 /\ d <> 66 /\ d <> 67 /\ d <> 81 /\ d <> 122) by (unfold letter, digit in Hh; cbn in Hh; lia).
  change (step ud p l (92 :: d :: q' ++ t)) with
    (match d :: q' ++ t with
        | 65 :: t' => Some (push XBeginText p, false, t')
        | 98 :: t' => Some (push XWordB p, false, t')
        | 66 :: t' => Some (push XNoWordB p, false, t')
        | 67 :: _ => None
        | 81 :: t' => match quoted p t' with Some (p', r) => Some (p', false, r) | None => None end
        | 122 :: t' => Some (push XEndText p, false, t')
        | 112 :: t' => match unicode_class ud (p_flags p) false t' with Some (f, r) => Some (push (XClass f) p, false, r) | None => None end
        | 80 :: t' => match unicode_class ud (p_flags p) true t' with Some (f, r) => Some (push (XClass f) p, false, r) | None => None end
        | _ =>
            match perl_class ud (p_flags p) (d :: q' ++ t) with
            | Some (f, r) => Some (push (XClass f) p, false, r)
            | None => match parseEscape (d :: q' ++ t) with Some (c, r) => Some (literal c p, false, r) | None => None end
            end
        end).
  destruct d as [|d]; [exact HR|]. repeat (destruct d as [d|d|]; try exact HR; try lia).
Qed.
Lemma step_set P c : set_escape P c ->
  exists f, (forall p l t, p_flags p = Perl -> step ud p l (92 :: c :: t) = Some (push (XClass f) p, false, t)) /\ forall y, P y <-> f y = true.
Proof.
  intros H. destruct (set_ok P c H) as (f & Hf & HP). exists f. split; auto. intros p l t Hp.
  rewrite <- Hp in Hf. pose proof (set_letter _ _ H) as Hc. cbn in Hc.
  destruct Hc as [<-|[<-|[<-|[<-|[<-|[<-|[]]]]]]]; unfold step; cbn [N.eqb Pos.eqb]; rewrite Hf; reflexivity.
Qed.
Lemma step_class p l t : step ud p l (91 :: t) = match parseClass ud (p_flags p) t with Some (r, t) => Some (push r p, false, t) | None => None end.
Proof. reflexivity. Qed.
Lemma step_open p l t : no_q t -> step ud p l (40 :: t) = Some (open_group (p_flags p) p, false, t).
Proof.
  intros H. destruct t as [|d t]; [reflexivity|]. destruct d as [|d]; [reflexivity|]. cbn in H.
  change (step ud p l (40 :: N.pos d :: t)) with
    (match N.pos d :: t with
     | 63 :: t' => match parsePerlFlags p t' with Some (p', r) => Some (p', false, r) | None => None end
     | _ => Some (open_group (p_flags p) p, false, N.pos d :: t)
     end).
  repeat (destruct d as [d|d|]; try reflexivity; try contradiction).
Qed.
Lemma step_open_plain p l t : step ud p l (40 :: 63 :: 58 :: t) = Some (open_group (p_flags p) p, false, t).
Proof. reflexivity. Qed.

(** ** What texts begin with *)
Lemma atom_head r q : atom r q -> exists d q', q = d :: q' /\ d <> 63.
Proof.
  intros H. inversion H as [c Hc| | | | | | |]; subst; cbn [app]; eexists _, _; (split; [reflexivity|]); try lia.
  intros ->. apply Hc. cbn. tauto.
Qed.
Lemma term_head r q : term r q -> exists d q', q = d :: q' /\ d <> 63.
Proof.
  intros H. inversion H as [| | | |r' p Ha|r' p n m q' Ha Hq]; subst; try (eexists _, _; split; [reflexivity|lia]).
  - eapply atom_head; eauto.
  - destruct (atom_head _ _ Ha) as (d & p' & -> & Hd). exists d, (p' ++ q'). auto.
Qed.
Lemma alternative_head r q rest : alternative r q -> no_q rest -> no_q (q ++ rest).
Proof.
  intros H Hr. inversion H as [|t p a q' Ht Ha]; subst; auto.
  destruct (term_head _ _ Ht) as (d & p' & -> & Hd). cbn [app]. apply no_q_cons. auto.
Qed.
Lemma disjunction_head r q rest : disjunction r q -> no_q rest -> no_q (q ++ rest).
Proof.
  intros H Hr. inversion H as [a p Ha|a p d q' Ha Hd]; subst; [eapply alternative_head; eauto|].
  rewrite <- app_assoc. eapply alternative_head; eauto. cbn [app]. apply no_q_cons. lia.
Qed.

(** ** The whole grammar *)
Definition with_cur (cur alts : list rexp) (p : parser) : parser := Parser (p_flags p) cur alts (p_open p).
Definition atom_goal (r : pat) (q : list N) : Prop :=
  exists x, like r x /\ forall p l rest, p_flags p = Perl -> runs p l (q ++ rest) (push x p) false rest.
Definition term_goal (r : pat) (q : list N) : Prop :=
  exists x, like r x /\ forall p l rest, p_flags p = Perl -> no_q rest -> exists l', runs p l (q ++ rest) (push x p) l' rest.
Definition alternative_goal (r : pat) (q : list N) : Prop :=
  exists xs, like r (concat_up xs) /\ forall p l rest, p_flags p = Perl -> no_q rest ->
    exists l', runs p l (q ++ rest) (with_cur (xs ++ p_cur p) (p_alts p) p) l' rest.
Definition disjunction_goal (r : pat) (q : list N) : Prop :=
  exists xs ys, like r (alternate_up (concat_up xs) ys) /\ forall p l rest, p_flags p = Perl -> p_cur p = [] -> no_q rest ->
    exists l', runs p l (q ++ rest) (with_cur xs (ys ++ p_alts p) p) l' rest.

Scheme disjunction_rec := Minimality for disjunction Sort Prop
with alternative_rec := Minimality for alternative Sort Prop
with term_rec := Minimality for term Sort Prop
with atom_rec := Minimality for atom Sort Prop.

Lemma concat_up_last xs t : concat_up (xs ++ [t]) = XCat t (concat_up xs).
Proof. unfold concat_up. rewrite fold_left_app. reflexivity. Qed.
Lemma alternate_up_last last ys a : alternate_up last (ys ++ [a]) = XAlt a (alternate_up last ys).
Proof. unfold alternate_up. rewrite fold_left_app. reflexivity. Qed.

Lemma case_d_one a p : alternative a p -> alternative_goal a p -> disjunction_goal a p.
Proof.
  intros _ (xs & Hl & H). exists xs, []. split; [exact Hl|]. intros q l rest Hf Hc Hr. destruct (H q l rest Hf Hr) as (l' & Hl').
  rewrite Hc, app_nil_r in Hl'. exists l'. exact Hl'.
Qed.
Lemma case_d_more a p d q : alternative a p -> alternative_goal a p -> disjunction d q -> disjunction_goal d q -> disjunction_goal (Alt a d) (p ++ [124] ++ q).
Proof.
  intros _ (xs & Hl & H) _ (xs' & ys & Hl' & H'). exists xs', (ys ++ [concat_up xs]). split.
  - rewrite alternate_up_last. cbn [like]. eauto.
  - intros p0 l rest Hf Hc Hr. rewrite <- !app_assoc. cbn [app].
    destruct (H p0 l (124 :: q ++ rest) Hf) as (l1 & R1); [apply no_q_cons; lia|]. rewrite Hc, app_nil_r in R1.
    destruct (H' (parseVerticalBar (with_cur xs (p_alts p0) p0)) false rest) as (l2 & R2); auto.
    exists l2. eapply runs_trans; [exact R1|]. eapply runs_trans; [apply one_step; [reflexivity|lia]|]. exact R2.
Qed.
Lemma case_a_none : alternative_goal Nothing [].
Proof. exists []. split; [reflexivity|]. intros p l rest _ _. exists l. destruct p. apply r_done. Qed.
Lemma case_a_more t p a q : term t p -> term_goal t p -> alternative a q -> alternative_goal a q -> alternative_goal (Seq t a) (p ++ q).
Proof.
  intros Ht (x & Hx & H) Ha (xs & Hl & H'). exists (xs ++ [x]). split.
  - rewrite concat_up_last. cbn [like]. eauto.
  - intros p0 l rest Hf Hr. rewrite <- !app_assoc. destruct (H p0 l (q ++ rest) Hf) as (l1 & R1); [eapply alternative_head; eauto|].
    destruct (H' (push x p0) l1 rest) as (l2 & R2); auto. exists l2. eapply runs_trans; [exact R1|]. exact R2.
Qed.
Lemma simple_term r x q : like r x -> (forall p l rest, p_flags p = Perl -> step ud p l (q ++ rest) = Some (push x p, false, rest)) -> q <> [] -> term_goal r q.
Proof.
  intros Hl H Hq. exists x. split; auto. intros p l rest Hf _. exists false. destruct q as [|c q]; [congruence|]. cbn [app].
  apply one_step; [apply (H p l rest Hf)|rewrite app_length; lia].
Qed.
Lemma simple_atom r q : q <> [] -> (exists x, like r x /\ forall p l rest, p_flags p = Perl -> step ud p l (q ++ rest) = Some (push x p, false, rest)) -> atom_goal r q.
Proof.
  intros Hq (x & Hl & H). exists x. split; auto. intros p l rest Hf. destruct q as [|c q]; [congruence|]. cbn [app].
  apply one_step; [apply (H p l rest Hf)|rewrite app_length; lia].
Qed.
Lemma in_group r q : disjunction_goal r q -> exists x, like r x /\ forall p l rest, p_flags p = Perl ->
  runs (open_group (p_flags p) p) l (q ++ 41 :: rest) (push x p) false rest.
Proof.
  intros (xs & ys & Hl & H). exists (alternate_up (concat_up xs) ys). split; auto. intros p l rest Hf.
  destruct (H (open_group (p_flags p) p) l (41 :: rest)) as (l' & R); auto; [apply no_q_cons; lia|].
  eapply runs_trans; [exact R|]. apply one_step; [|lia]. cbn. rewrite app_nil_r. reflexivity.
Qed.

Theorem grammar_parses r q : disjunction r q -> disjunction_goal r q.
Proof.
  revert r q. apply (disjunction_rec disjunction_goal alternative_goal term_goal atom_goal).
  - exact case_d_one.
  - exact case_d_more.
  - exact case_a_none.
  - exact case_a_more.
  - apply (simple_term Start XBeginText); [reflexivity| |discriminate]. intros p l rest Hf. cbn. rewrite Hf. reflexivity.
  - apply (simple_term Finish XEndText); [reflexivity| |discriminate]. intros p l rest Hf. cbn. rewrite Hf. reflexivity.
  - apply (simple_term Edge XWordB); [reflexivity| |discriminate]. reflexivity.
  - apply (simple_term Interior XNoWordB); [reflexivity| |discriminate]. reflexivity.
  - intros r p _ (x & Hx & H). exists x. split; auto. intros p0 l rest Hf _. exists false. auto.
  - intros r p n m q _ (x & Hx & H) Hq Hf.
    inversion Hq as [? ? ? Hn|? ? p' Hn]; subst; destruct (quantity_ok _ _ _ r x Hn Hx Hf) as (y & Hy & HR); exists y; (split; [exact Hy|]);
      intros p0 l rest Hp Hr; exists true; rewrite <- !app_assoc; (eapply runs_trans; [apply H; exact Hp|]); apply HR; [left|right]; auto.
  - intros c Hc. apply simple_atom; [discriminate|]. exists (XLit false c). split; [left; exists c; split; [reflexivity|tauto]|].
    intros p l rest Hf. cbn [app]. rewrite step_plain by auto. unfold literal. rewrite Hf. reflexivity.
  - apply simple_atom; [discriminate|]. exists XAnyNotNL. split; [right; right; split; [reflexivity|tauto]|].
    intros p l rest Hf. cbn. rewrite Hf. reflexivity.
  - intros c q Hc. apply simple_atom; [discriminate|]. exists (XLit false c). split; [left; exists c; split; [reflexivity|tauto]|].
    intros p l rest Hf. cbn [app]. rewrite (step_escape p l c q rest Hc). unfold literal. rewrite Hf. reflexivity.
  - intros P c Hc. apply simple_atom; [discriminate|]. destruct (step_set P c Hc) as (f & Hf & HP).
    exists (XClass f). split; [right; left; exists f; auto|]. intros p l rest Hp. apply Hf. exact Hp.
  - intros P q Hc. apply simple_atom; [discriminate|]. destruct (class_ok P q Hc) as [(f & Hf & HP) _].
    exists (XClass f). split; [right; left; exists f; auto|]. intros p l rest Hp. rewrite <- !app_assoc. cbn [app]. rewrite step_class, Hp, Hf. reflexivity.
  - intros P q Hc. apply simple_atom; [discriminate|]. destruct (class_ok P q Hc) as [_ (f & Hf & HP)].
    exists (XClass f). split; [right; left; exists f; auto|]. intros p l rest Hp. rewrite <- !app_assoc. cbn [app]. rewrite step_class, Hp, Hf. reflexivity.
  - intros r p Hd Hg. destruct (in_group r p Hg) as (x & Hx & H). exists x. split; auto. intros p0 l rest Hf.
    cbn [app]. rewrite <- app_assoc. cbn [app].
    eapply runs_trans; [apply one_step; [apply step_open; eapply disjunction_head; eauto; apply no_q_cons; lia|lia]|]. apply H; auto.
  - intros r p Hd Hg. destruct (in_group r p Hg) as (x & Hx & H). exists x. split; auto. intros p0 l rest Hf.
    cbn [app]. rewrite <- app_assoc. cbn [app].
    eapply runs_trans; [apply one_step; [apply step_open_plain|cbn; lia]|]. apply H; auto.
Qed.

Theorem portable_parses r q : disjunction r q -> exists x, parse ud q = Some x /\ like r x.
Proof.
  intros H. destruct (grammar_parses r q H) as (xs & ys & Hl & HR).
  destruct (HR (Parser Perl [] [] []) false []) as (l' & R); auto; [exact I|].
  rewrite app_nil_r in R. exists (alternate_up (concat_up xs) ys). split; auto.
  unfold parse. rewrite (runs_loop _ _ _ _ _ _ R eq_refl (length q) (le_n _)). cbn. rewrite app_nil_r. reflexivity.
Qed.
End Unicode.
