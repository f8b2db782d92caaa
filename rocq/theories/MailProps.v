(** net/mail's parser against the grammar of SpecMail.v. *)
From Coq Require Import Lia ZifyN ZifyBool.
From Verif Require Export ModelMail.
From Verif Require Import Utf8.
From Verif Require Export SpecMail.
Open Scope N_scope.
Open Scope list_scope.

(** ** Characters *)
Lemma wsp_iff c : isWSP c = true <-> wsp c.
Proof. unfold isWSP, wsp. lia. Qed.
Lemma vchar_iff c : isVchar c = true <-> vchar c.
Proof. unfold isVchar, vchar. lia. Qed.
Lemma special_iff c : existsb (N.eqb c) [40; 41; 60; 62; 91; 93; 58; 59; 64; 92; 44; 34] = true <-> special c.
Proof.
  unfold special. change (codes "()<>[]:;@\,""") with [40; 41; 60; 62; 91; 93; 58; 59; 64; 92; 44; 34].
  rewrite existsb_exists. split; [intros (x & Hx & E); apply N.eqb_eq in E; subst; auto|]. intros H. exists c. split; [auto|apply N.eqb_refl].
Qed.
Lemma dot_not_special : ~ special 46.
Proof. rewrite <- special_iff. vm_compute. discriminate. Qed.
Lemma atext_iff c : isAtext c = true <-> atom_char c.
Proof.
  unfold isAtext, atom_char, atext. destruct (existsb _ _) eqn:E.
  - apply special_iff in E. split; [discriminate|]. intros [(_ & H & _)| ->]; [tauto|]. exfalso. exact (dot_not_special E).
  - assert (Hs : ~ special c) by (rewrite <- special_iff, E; discriminate). rewrite vchar_iff. destruct (N.eq_dec c 46) as [->|Hd]; [|tauto].
    split; auto. intros _. unfold vchar. lia.
Qed.
Lemma qtext_iff c : isQtext c = true <-> vchar c /\ c <> 34 /\ c <> 92.
Proof. unfold isQtext. destruct ((c =? 92) || (c =? 34))%bool eqn:E; [split; [discriminate|lia]|]. rewrite vchar_iff. assert (c <> 34 /\ c <> 92) by lia. tauto. Qed.
Lemma not_bad c : vchar c \/ wsp c -> bad_rune c = false.
Proof. unfold vchar, wsp, bad_rune. lia. Qed.
Lemma special_dec_not c : In c [40; 41; 60; 62; 91; 93; 58; 59; 64; 92; 44; 34; 32; 9] -> isAtext c = false.
Proof. intros H. repeat (destruct H as [<-|H]; [reflexivity|]). destruct H. Qed.

(** How a text goes on: not with one of these. *)
Definition heads (P : N -> Prop) (z : list N) : Prop := match z with [] => True | c :: _ => P c end.
Definition no_space (z : list N) : Prop := heads (fun c => ~ wsp c) z.
Definition no_cfws (z : list N) : Prop := heads (fun c => ~ wsp c /\ c <> 40) z.
Definition no_atom (z : list N) : Prop := heads (fun c => ~ atom_char c /\ bad_rune c = false) z.

Lemma skipSpace_split s : exists a, s = a ++ skipSpace s /\ spaces a /\ no_space (skipSpace s).
Proof.
  induction s as [|c s (a & E & Ha & Hn)]; [exists []; repeat constructor|]. cbn [skipSpace].
  destruct (isWSP c) eqn:Ec.
  - apply wsp_iff in Ec. exists (c :: a). split; [cbn; congruence|]. split; [constructor; auto|auto].
  - exists []. split; [reflexivity|]. split; [constructor|]. cbn. rewrite <- wsp_iff, Ec. discriminate.
Qed.
Lemma skipSpace_none z : no_space z -> skipSpace z = z.
Proof. destruct z as [|c z]; [reflexivity|]. cbn. rewrite <- wsp_iff. destruct (isWSP c); congruence. Qed.
Lemma skipSpace_app a z : spaces a -> skipSpace (a ++ z) = skipSpace z.
Proof. induction 1 as [|c a Hc _ IH]; [reflexivity|]. cbn. apply wsp_iff in Hc. rewrite Hc. exact IH. Qed.
Lemma skipSpace_skip a z : spaces a -> no_space z -> skipSpace (a ++ z) = z.
Proof. intros. rewrite skipSpace_app, skipSpace_none; auto. Qed.
Lemma no_cfws_space z : no_cfws z -> no_space z.
Proof. destruct z; cbn; tauto. Qed.

Lemma consume_some c s z : consume c s = Some z <-> s = c :: z.
Proof.
  destruct s as [|x s]; cbn; [split; discriminate|]. destruct (N.eqb_spec x c) as [->|H].
  - split; [intros [= ->]; auto|intros [= ->]; auto].
  - split; [discriminate|congruence].
Qed.
Lemma consume_none c s : consume c s = None <-> heads (fun x => x <> c) s.
Proof. destruct s as [|x s]; cbn; [tauto|]. destruct (N.eqb_spec x c); split; congruence. Qed.
Lemma peek_iff c s : peek_is c s = true <-> exists z, s = c :: z.
Proof.
  unfold peek_is. destruct (consume c s) eqn:E; [apply consume_some in E; split; eauto|].
  split; [discriminate|]. intros [z ->]. cbn in E. rewrite N.eqb_refl in E. discriminate.
Qed.
Lemma peek_no c s : heads (fun x => x <> c) s -> peek_is c s = false.
Proof. intros H. unfold peek_is. apply consume_none in H. rewrite H. reflexivity. Qed.

(** ** Comments *)
Lemma ccontent_app a ta b tb : ccontent a ta -> ccontent b tb -> ccontent (a ++ b) (ta ++ tb).
Proof.
  intros H Hb. induction H; cbn [app]; auto.
  - apply c_char; auto.
  - apply c_pair; auto.
  - rewrite <- !app_assoc. cbn [app]. apply c_nested; auto.
Qed.
Definition pre (t : list N) (x : option (list N * input)) : option (list N * input) :=
  match x with Some (t', z) => Some (t ++ t', z) | None => None end.
Lemma pre_pre a b x : pre a (pre b x) = pre (a ++ b) x.
Proof. destruct x as [[t z]|]; cbn; [rewrite app_assoc; reflexivity|reflexivity]. Qed.
Lemma pre_nil x : pre [] x = x.
Proof. destruct x as [[t z]|]; reflexivity. Qed.
Lemma comment_step d c r : consumeComment d (c :: r) =
  if c =? 92 then match r with [] => None | c' :: r' => pre [c'] (consumeComment d r') end
  else if c =? 40 then pre [c] (consumeComment (S d) r)
  else if c =? 41 then match d with O => Some ([], r) | S d' => pre [c] (consumeComment d' r) end
  else pre [c] (consumeComment d r).
Proof. reflexivity. Qed.
Lemma comment_content a t : ccontent a t -> forall d z, consumeComment d (a ++ z) = pre t (consumeComment d z).
Proof.
  intros H. induction H as [|c r t Hc H IH|c r t H IH|r1 t1 r t H1 IH1 H IH]; intros d z.
  - rewrite pre_nil. reflexivity.
  - change (codes "()\") with [40; 41; 92] in Hc. cbn in Hc. cbn [app]. rewrite comment_step.
    destruct (N.eqb_spec c 92) as [->|_]; [tauto|]. destruct (N.eqb_spec c 40) as [->|_]; [tauto|]. destruct (N.eqb_spec c 41) as [->|_]; [tauto|].
    rewrite IH, pre_pre. reflexivity.
  - cbn [app]. rewrite comment_step, N.eqb_refl, IH, pre_pre. reflexivity.
  - cbn [app]. rewrite comment_step. change (40 =? 92) with false. rewrite N.eqb_refl. cbv iota.
    rewrite <- app_assoc, IH1. cbn [app]. rewrite comment_step. change (41 =? 92) with false. change (41 =? 40) with false. rewrite N.eqb_refl. cbv iota.
    rewrite IH, !pre_pre. cbn [app]. rewrite <- app_assoc. reflexivity.
Qed.
Lemma comment_complete a t z : ccontent a t -> consumeComment 0 (a ++ 41 :: z) = Some (t, z).
Proof. intros H. rewrite (comment_content _ _ H). cbn. rewrite app_nil_r. reflexivity. Qed.
(** Contents up to the parenthesis that closes all the open ones. *)
Inductive closes : nat -> list N -> list N -> list N -> Prop :=
| closes_last a t z : ccontent a t -> closes 0 (a ++ 41 :: z) t z
| closes_more d a t s t' z : ccontent a t -> closes d s t' z -> closes (S d) (a ++ 41 :: s) (t ++ 41 :: t') z.
Lemma closes_before d s t z a ta : closes d s t z -> ccontent a ta -> closes d (a ++ s) (ta ++ t) z.
Proof.
  intros H Ha. destruct H as [b t z Hb|d b t s t' z Hb H]; rewrite !app_assoc; constructor; auto; apply ccontent_app; auto.
Qed.
Lemma comment_sound_n n : forall d s t z, (length s <= n)%nat -> consumeComment d s = Some (t, z) -> closes d s t z.
Proof.
  induction n as [|n IH]; intros d s t z Hl; destruct s as [|c r]; try discriminate; cbn [length] in Hl; try lia.
  rewrite comment_step. destruct (N.eqb_spec c 92) as [->|N1].
  - destruct r as [|c' r']; [discriminate|]. destruct (consumeComment d r') as [[t' z']|] eqn:E; [|discriminate]. cbn [pre]. intros [= <- <-].
    cbn [length] in Hl. apply IH in E; [|lia]. apply (closes_before d r' t' z' [92; c'] [c'] E). apply c_pair, c_nil.
  - destruct (N.eqb_spec c 40) as [->|N2]; [|destruct (N.eqb_spec c 41) as [->|N3]].
    + destruct (consumeComment (S d) r) as [[t' z']|] eqn:E; [|discriminate]. cbn [pre]. intros [= <- <-]. apply IH in E; [|lia].
      inversion E as [|d' a ta s t2 z2 Ha Hc]; subst.
      assert (K : ccontent (40 :: a ++ [41]) (40 :: ta ++ [41])) by (apply c_nested; [auto|constructor]).
      pose proof (closes_before _ _ _ _ _ _ Hc K) as G. cbn [app] in G. rewrite <- !app_assoc in G. exact G.
    + destruct d as [|d'].
      * intros [= <- <-]. apply (closes_last [] []). apply c_nil.
      * destruct (consumeComment d' r) as [[t' z']|] eqn:E; [|discriminate]. cbn [pre]. intros [= <- <-]. apply IH in E; [|lia].
        apply (closes_more d' [] []); [apply c_nil|auto].
    + destruct (consumeComment d r) as [[t' z']|] eqn:E; [|discriminate]. cbn [pre]. intros [= <- <-]. apply IH in E; [|lia].
      apply (closes_before d r t' z' [c] [c] E). apply c_char; [|apply c_nil]. change (codes "()\") with [40; 41; 92]. cbn. intuition congruence.
Qed.
Lemma comment_sound s t z : consumeComment 0 s = Some (t, z) -> exists a, s = a ++ 41 :: z /\ ccontent a t.
Proof. intros H. apply (comment_sound_n (length s)) in H; [|lia]. inversion H; subst. eauto. Qed.

(** ** Comments and white space *)
Lemma cfws_app a b : cfws a -> cfws b -> cfws (a ++ b).
Proof.
  intros H Hb. induction H as [|c r Hc H IH|a t r Ha H IH]; auto; cbn [app]; [apply cfws_space; auto|].
  rewrite <- app_assoc. cbn [app]. eapply cfws_comment; eauto.
Qed.
Lemma spaces_cfws a : spaces a -> cfws a.
Proof. induction 1; constructor; auto. Qed.
Lemma skipCFWS_step n s : skipCFWS_n n s =
  match consume 40 (skipSpace s), n with
  | None, _ => Some (skipSpace s)
  | Some r, S n' => match consumeComment 0 r with Some (_, z) => skipCFWS_n n' z | None => None end
  | Some _, O => None
  end.
Proof. destruct n; reflexivity. Qed.
Lemma cfws_split g : cfws g -> exists a b, g = a ++ b /\ spaces a /\ (b = [] \/ exists c t r, b = 40 :: c ++ 41 :: r /\ ccontent c t /\ cfws r).
Proof.
  induction 1 as [|c r Hc H (a & b & -> & Ha & Hb)|c t r Hc H _].
  - exists [], []. repeat split; auto. constructor.
  - exists (c :: a), b. repeat split; auto. constructor; auto.
  - exists [], (40 :: c ++ 41 :: r). split; [reflexivity|]. split; [constructor|]. right. eauto 8.
Qed.
Lemma skipCFWS_complete_n n : forall g z, cfws g -> no_cfws z -> (length g <= n)%nat -> skipCFWS_n n (g ++ z) = Some z.
Proof.
  induction n as [|n IH]; intros g z Hg Hz Hl; destruct (cfws_split g Hg) as (a & b & -> & Ha & Hb); rewrite skipCFWS_step, <- app_assoc, skipSpace_app by auto.
  - destruct a; [|cbn in Hl; lia]. destruct b; [|cbn in Hl; lia]. cbn [app]. rewrite skipSpace_none by (apply no_cfws_space; auto).
    replace (consume 40 z) with (@None input); [reflexivity|]. symmetry. apply consume_none. destruct z; cbn in *; tauto.
  - destruct Hb as [->|(c & t & r & -> & Hc & Hr)].
    + cbn [app]. rewrite skipSpace_none by (apply no_cfws_space; auto).
      replace (consume 40 z) with (@None input); [reflexivity|]. symmetry. apply consume_none. destruct z; cbn in *; tauto.
    + cbn [app]. rewrite skipSpace_none by (cbn; unfold wsp; lia). cbn [consume]. rewrite N.eqb_refl, <- app_assoc. cbn [app].
      rewrite (comment_complete c t) by auto. apply IH; auto. rewrite app_length in Hl. cbn [length] in Hl. rewrite app_length in Hl. cbn [length] in Hl. lia.
Qed.
Lemma skipCFWS_complete g z : cfws g -> no_cfws z -> skipCFWS (g ++ z) = Some z.
Proof. intros. apply skipCFWS_complete_n; auto. rewrite app_length. lia. Qed.
Lemma skipCFWS_sound_n n : forall s z, skipCFWS_n n s = Some z -> exists g, s = g ++ z /\ cfws g /\ no_cfws z.
Proof.
  induction n as [|n IH]; intros s z; rewrite skipCFWS_step; destruct (skipSpace_split s) as (a & E & Ha & Hn);
    destruct (consume 40 (skipSpace s)) as [r|] eqn:Ec.
  - discriminate.
  - intros [= <-]. exists a. split; [auto|]. split; [apply spaces_cfws; auto|]. apply consume_none in Ec. destruct (skipSpace s); cbn in *; auto.
  - destruct (consumeComment 0 r) as [[t y]|] eqn:Ek; [|discriminate]. intros H. apply IH in H. destruct H as (g & -> & Hg & Hz).
    apply comment_sound in Ek. destruct Ek as (c & -> & Hc). apply consume_some in Ec. rewrite Ec in E.
    exists (a ++ 40 :: c ++ 41 :: g). split; [rewrite E, <- !app_assoc; cbn [app]; rewrite <- !app_assoc; reflexivity|]. split; [|auto].
    apply cfws_app; [apply spaces_cfws; auto|]. eapply cfws_comment; eauto.
  - intros [= <-]. exists a. split; [auto|]. split; [apply spaces_cfws; auto|]. apply consume_none in Ec. destruct (skipSpace s); cbn in *; auto.
Qed.
Lemma skipCFWS_sound s z : skipCFWS s = Some z -> exists g, s = g ++ z /\ cfws g /\ no_cfws z.
Proof. apply skipCFWS_sound_n. Qed.

(** ** Quoted strings *)
Lemma quoted_complete q z : qcontent q -> exists t, consumeQuoted false (q ++ 34 :: z) = Some (t, z) /\ (t = [] -> q = []).
Proof.
  induction 1 as [|c r Hc N1 N2 H (t & IH & _)|c r Hc H (t & IH & _)].
  - exists []. split; [reflexivity|auto].
  - exists (c :: t). split; [|discriminate]. cbn [app consumeQuoted]. rewrite (not_bad c Hc).
    replace (isQtext c || isWSP c)%bool with true; [rewrite IH; reflexivity|].
    symmetry. rewrite orb_true_iff, qtext_iff, wsp_iff. tauto.
  - exists (c :: t). split; [|discriminate]. cbn [app consumeQuoted]. change (bad_rune 92) with false. change (isQtext 92 || isWSP 92)%bool with false.
    change (92 =? 34) with false. change (92 =? 92) with true. cbv iota. rewrite (not_bad c Hc).
    replace (isVchar c || isWSP c)%bool with true; [rewrite IH; reflexivity|]. symmetry. rewrite orb_true_iff, vchar_iff, wsp_iff. tauto.
Qed.
Lemma quoted_sound_n n : forall s t z, (length s <= n)%nat -> consumeQuoted false s = Some (t, z) -> exists q, s = q ++ 34 :: z /\ qcontent q /\ (q = [] -> t = []).
Proof.
  induction n as [|n IH]; intros s t z Hl; destruct s as [|c r]; try discriminate; cbn [length] in Hl; try lia.
  cbn [consumeQuoted]. destruct (bad_rune c) eqn:Eb; [discriminate|].
  destruct (isQtext c || isWSP c)%bool eqn:Eq.
  - destruct (consumeQuoted false r) as [[t' z']|] eqn:E; [|discriminate]. intros [= <- <-]. apply IH in E; [|lia]. destruct E as (q & -> & Hq & _).
    exists (c :: q). split; [reflexivity|]. split; [|discriminate]. apply orb_true_iff in Eq. rewrite qtext_iff, wsp_iff in Eq.
    assert (K : (vchar c \/ wsp c) /\ c <> 34 /\ c <> 92) by (unfold wsp in *; intuition lia). apply q_char; tauto.
  - destruct (N.eqb_spec c 34) as [->|N1]; [intros [= <- <-]; exists []; split; [reflexivity|]; split; [apply q_nil|auto]|].
    destruct (N.eqb_spec c 92) as [->|N2]; [|discriminate]. destruct r as [|c r]; [discriminate|]. cbn [consumeQuoted].
    destruct (bad_rune c) eqn:Eb'; [discriminate|]. destruct (isVchar c || isWSP c)%bool eqn:Ev; [|discriminate].
    destruct (consumeQuoted false r) as [[t' z']|] eqn:E; [|discriminate]. intros [= <- <-]. cbn [length] in Hl. apply IH in E; [|lia]. destruct E as (q & -> & Hq & _).
    exists (92 :: c :: q). split; [reflexivity|]. split; [|discriminate]. apply q_pair; auto. apply orb_true_iff in Ev. rewrite vchar_iff, wsp_iff in Ev. auto.
Qed.
Lemma quoted_sound s t z : consumeQuoted false s = Some (t, z) -> exists q, s = q ++ 34 :: z /\ qcontent q /\ (q = [] -> t = []).
Proof. apply (quoted_sound_n (length s)). lia. Qed.

(** ** Atoms *)
Lemma span_split s : exists a z, atext_span s = (a, z) /\ s = a ++ z /\ Forall atom_char a /\ heads (fun c => ~ atom_char c) z.
Proof.
  induction s as [|c s (a & z & E & -> & Ha & Hz)]; [exists [], []; repeat constructor|]. cbn [atext_span]. destruct (isAtext c) eqn:Ec.
  - rewrite E. apply atext_iff in Ec. exists (c :: a), z. repeat split; auto.
  - exists [], (c :: a ++ z). repeat split; auto. cbn. rewrite <- atext_iff, Ec. discriminate.
Qed.
Lemma span_app a z : Forall atom_char a -> heads (fun c => ~ atom_char c) z -> atext_span (a ++ z) = (a, z).
Proof.
  intros Ha Hz. induction Ha as [|c a Hc _ IH]; cbn [app atext_span].
  - destruct z as [|c z]; [reflexivity|]. cbn in *. rewrite <- atext_iff in Hz. destruct (isAtext c); [congruence|reflexivity].
  - apply atext_iff in Hc. rewrite Hc, IH. reflexivity.
Qed.
Lemma atom_complete a z : atom a -> no_atom z -> consumeAtom (a ++ z) = Some (a, z).
Proof.
  intros [Hn Ha] Hz. unfold consumeAtom. rewrite span_app; auto; [|destruct z; cbn in *; tauto].
  destruct a as [|x a]; [congruence|]. destruct z as [|c z]; [reflexivity|]. cbn in Hz. destruct Hz as [_ ->]. reflexivity.
Qed.
Lemma atom_sound s a z : consumeAtom s = Some (a, z) -> s = a ++ z /\ atom a /\ no_atom z.
Proof.
  unfold consumeAtom. destruct (span_split s) as (b & y & -> & -> & Hb & Hy). destruct b as [|x b], y as [|c y]; try discriminate.
  - destruct (bad_rune c); discriminate.
  - intros [= <- <-]. repeat split; auto. discriminate.
  - destruct (bad_rune c) eqn:Ec; [discriminate|]. intros [= <- <-]. repeat split; auto. discriminate.
Qed.
Lemma atom_start s : heads (fun c => ~ atom_char c) s -> consumeAtom s = None.
Proof.
  intros H. unfold consumeAtom. change s with ([] ++ s). rewrite span_app by auto. destruct s; [reflexivity|]. destruct (bad_rune n); reflexivity.
Qed.
Lemma label_dots l : Forall atext l -> forall b r, l <> [] -> dots_ok b (l ++ r) = dots_ok false r.
Proof.
  induction 1 as [|c l Hc _ IH]; intros b r Hn; [congruence|]. cbn [app dots_ok]. destruct Hc as (_ & _ & Hd). apply N.eqb_neq in Hd. rewrite Hd.
  destruct l as [|x l]; [reflexivity|]. apply IH. discriminate.
Qed.
Lemma dots_true w : Forall atom_char w -> dots_ok true w = true -> dot_atom w.
Proof.
  assert (G : Forall atom_char w -> (dots_ok true w = true -> dot_atom w) /\
              (dots_ok false w = true -> forall l, l <> [] -> Forall atext l -> dot_atom (l ++ w))); [|intros Hw; apply (G Hw)].
  induction 1 as [|c w Hc _ [IH1 IH2]]; cbn [dots_ok].
  - split; [discriminate|]. intros _ l Hl Ha. rewrite app_nil_r. apply dot_one; auto.
  - destruct (N.eqb_spec c 46) as [->|Hd].
    + split; [discriminate|]. intros K l Hl Ha. apply dot_more; auto.
    + assert (Hc' : atext c) by (destruct Hc as [Hc|Hc]; [auto|congruence]). split; intros K.
      * apply (IH2 K [c]); [discriminate|constructor; [exact Hc'|constructor]].
      * intros l Hl Ha. change (c :: w) with ([c] ++ w). rewrite app_assoc. apply IH2; auto; [destruct l; discriminate|]. apply Forall_app. split; [auto|]. constructor; [exact Hc'|constructor].
Qed.
Lemma dot_atom_ok w : dot_atom w -> atom w /\ dots_ok true w = true.
Proof.
  induction 1 as [l Hl Ha|l w Hl Ha H [[_ IH1] IH2]].
  - split; [split; [auto|]; eapply Forall_impl; [|exact Ha]; intros c Hc; left; exact Hc|]. rewrite <- (app_nil_r l), label_dots by auto. reflexivity.
  - split.
    + split; [destruct l; discriminate|]. apply Forall_app. split; [eapply Forall_impl; [|exact Ha]; intros c Hc; left; exact Hc|]. constructor; [right; reflexivity|auto].
    + rewrite label_dots by auto. cbn [dots_ok]. exact IH2.
Qed.
Lemma dotatom_complete w z : dot_atom w -> no_atom z -> consumeDotAtom (w ++ z) = Some (w, z).
Proof. intros Hw Hz. apply dot_atom_ok in Hw. destruct Hw as [Ha Hd]. unfold consumeDotAtom. rewrite atom_complete, Hd by auto. reflexivity. Qed.
Lemma dotatom_sound s w z : consumeDotAtom s = Some (w, z) -> s = w ++ z /\ dot_atom w /\ no_atom z.
Proof.
  unfold consumeDotAtom. destruct (consumeAtom s) as [[a y]|] eqn:E; [|discriminate]. apply atom_sound in E. destruct E as (-> & [_ Ha] & Hy).
  destruct (dots_ok true a) eqn:Ed; [|discriminate]. intros [= <- <-]. repeat split; auto. apply dots_true; auto.
Qed.
Lemma atom_char_not c : In c [40; 41; 60; 62; 91; 93; 58; 59; 64; 92; 44; 34; 32; 9] -> ~ atom_char c.
Proof. intros H. rewrite <- atext_iff, (special_dec_not c H). discriminate. Qed.
Lemma atom_head w z : atom w -> exists c w', w ++ z = c :: w' /\ atom_char c.
Proof. intros [Hn Ha]. destruct Ha as [|c w Hc Hw]; [congruence|]. exists c, (w ++ z). auto. Qed.
Lemma atom_char_facts c : atom_char c -> ~ wsp c /\ c <> 40 /\ c <> 34 /\ c <> 60 /\ c <> 58 /\ c <> 59 /\ c <> 64 /\ c <> 44.
Proof.
  intros H. unfold wsp. assert (G : forall x, In x [40; 41; 60; 62; 91; 93; 58; 59; 64; 92; 44; 34; 32; 9] -> c <> x) by (intros x Hx ->; exact (atom_char_not x Hx H)).
  repeat split; [intros [E|E]; revert E| | | | | | |]; apply G; cbn; tauto.
Qed.

(** ** addr-spec *)
Lemma no_atom_in c z : In c [40; 41; 60; 62; 91; 93; 58; 59; 64; 92; 44; 34; 32; 9] -> no_atom (c :: z).
Proof. intros H. split; [apply atom_char_not; auto|]. repeat (destruct H as [<-|H]; [reflexivity|]). destruct H. Qed.
Lemma spec_step s : consumeAddrSpec s =
  match (if peek_is 34 (skipSpace s) then match consumeQuoted false (tl (skipSpace s)) with Some ([], _) => None | x => x end else consumeDotAtom (skipSpace s)) with
  | None => None
  | Some (_, z) =>
      match consume 64 z with
      | None => None
      | Some z' => match consumeDotAtom (skipSpace z') with Some (_, z2) => Some z2 | None => None end
      end
  end.
Proof. reflexivity. Qed.
Lemma spec_complete s a z : spaces s -> addr_spec a -> no_atom z -> consumeAddrSpec (s ++ a ++ z) = Some z.
Proof.
  intros Hs (l & s2 & d & Hl & Hs2 & Hd & ->) Hz. rewrite spec_step, <- !app_assoc. cbn [app]. rewrite <- !app_assoc.
  assert (E : consumeDotAtom (skipSpace (s2 ++ d ++ z)) = Some (d, z)).
  { rewrite skipSpace_skip; [apply dotatom_complete; auto|auto|]. destruct (atom_head d z (proj1 (dot_atom_ok d Hd))) as (c & w & -> & Hc). apply atom_char_facts in Hc. cbn. tauto. }
  destruct Hl as [Hl|[(q & Hq & ->) Hn]].
  - rewrite skipSpace_skip; auto.
    + replace (peek_is 34 (l ++ 64 :: s2 ++ d ++ z)) with false.
      * rewrite dotatom_complete by (auto; apply no_atom_in; cbn; tauto). cbn [consume]. change (64 =? 64) with true. cbv iota. rewrite E. reflexivity.
      * symmetry. apply peek_no. destruct (atom_head l (64 :: s2 ++ d ++ z) (proj1 (dot_atom_ok l Hl))) as (c & w & -> & Hc). apply atom_char_facts in Hc. cbn. tauto.
    + destruct (atom_head l (64 :: s2 ++ d ++ z) (proj1 (dot_atom_ok l Hl))) as (c & w & -> & Hc). apply atom_char_facts in Hc. cbn. tauto.
  - cbn [app]. rewrite skipSpace_skip; [|auto|cbn; unfold wsp; lia]. replace (peek_is 34 _) with true by reflexivity. cbn [tl]. rewrite <- app_assoc. cbn [app].
    destruct (quoted_complete q (64 :: s2 ++ d ++ z) Hq) as (t & -> & Ht). destruct t as [|x t]; [exfalso; apply Hn; rewrite (Ht eq_refl); reflexivity|].
    cbn [consume]. change (64 =? 64) with true. cbv iota. rewrite E. reflexivity.
Qed.
Lemma spec_sound s z : consumeAddrSpec s = Some z -> exists b a, s = b ++ a ++ z /\ spaces b /\ addr_spec a /\ no_atom z.
Proof.
  rewrite spec_step. destruct (skipSpace_split s) as (b & E & Hb & _). set (s1 := skipSpace s) in *. clearbody s1. subst s.
  assert (G : forall l y, local_part l -> s1 = l ++ y ->
    match consume 64 y with None => None | Some z' => match consumeDotAtom (skipSpace z') with Some (_, z2) => Some z2 | None => None end end = Some z ->
    exists b0 a, b ++ s1 = b0 ++ a ++ z /\ spaces b0 /\ addr_spec a /\ no_atom z).
  { intros l y Hl -> H. destruct (consume 64 y) as [y'|] eqn:Ec; [|discriminate]. apply consume_some in Ec. subst y.
    destruct (skipSpace_split y') as (c & Ey & Hc & _). destruct (consumeDotAtom (skipSpace y')) as [[d y2]|] eqn:Ed; [|discriminate]. injection H as ->.
    apply dotatom_sound in Ed. destruct Ed as (Ed & Hd & Hz). rewrite Ed in Ey. exists b, (l ++ 64 :: c ++ d). split; [rewrite Ey, <- !app_assoc; cbn [app]; rewrite <- !app_assoc; reflexivity|].
    split; [auto|]. split; [|auto]. exists l, c, d. auto. }
  destruct (peek_is 34 s1) eqn:Ep.
  - apply peek_iff in Ep. destruct Ep as (s2 & ->). cbn [tl]. destruct (consumeQuoted false s2) as [[[|x t] y]|] eqn:Eq; try discriminate.
    apply quoted_sound in Eq. destruct Eq as (q & -> & Hq & Hn). apply (G (34 :: q ++ [34]) y).
    + right. split; [exists q; auto|]. intros K. change (codes """""") with [34; 34] in K. injection K as K. destruct q as [|x' q]; [specialize (Hn eq_refl); discriminate|]. destruct q; discriminate.
    + cbn [app]. rewrite <- app_assoc. reflexivity.
  - destruct (consumeDotAtom s1) as [[l y]|] eqn:El; [|discriminate]. apply dotatom_sound in El. destruct El as (-> & Hl & _). apply (G l y); [left; auto|reflexivity].
Qed.

(** ** Encoded words *)
Lemma agree (f : N -> bool) (l : list N) :
  forallb (fun n => Bool.eqb (f n) (existsb (N.eqb n) l)) (map N.of_nat (seq 0 128)) = true ->
  forallb (fun x => x <? 128) l = true -> (forall c, 128 <= c -> f c = false) -> forall c, f c = true <-> In c l.
Proof.
  intros H1 H2 H3 c. rewrite forallb_forall in H1, H2. assert (K : In c l <-> existsb (N.eqb c) l = true).
  { rewrite existsb_exists. split; [intros H; exists c; split; [auto|apply N.eqb_refl]|]. intros (x & Hx & E). apply N.eqb_eq in E. subst. auto. }
  destruct (N.lt_ge_cases c 128) as [Hc|Hc].
  - rewrite K. specialize (H1 c). assert (E : Bool.eqb (f c) (existsb (N.eqb c) l) = true).
    { apply H1. apply in_map_iff. exists (N.to_nat c). split; [lia|]. apply in_seq. lia. }
    apply Bool.eqb_prop in E. rewrite E. tauto.
  - rewrite (H3 c Hc). split; [discriminate|]. intros H. apply H2 in H. lia.
Qed.
Lemma hex_iff c : is_hex_rune c = true <-> hexdigit c.
Proof. apply agree; [vm_compute; reflexivity|vm_compute; reflexivity|]. intros x Hx. unfold is_hex_rune. lia. Qed.
Lemma b64digit_iff c : is_b64 c = true <-> b64digit c.
Proof. apply agree; [vm_compute; reflexivity|vm_compute; reflexivity|]. intros x Hx. unfold is_b64. lia. Qed.
Lemma q_char_iff c : ((32 <=? c) && (c <=? 126) || (c =? 10) || (c =? 13) || (c =? 9))%bool = true <-> 32 <= c <= 126 \/ In c [9; 10; 13].
Proof. cbn [In]. lia. Qed.
Lemma q_iff_n n : forall s, (length s <= n)%nat -> (qDecode s = true <-> q_encoded s).
Proof.
  induction n as [|n IH]; intros s Hl; (destruct s as [|c r]; [split; [intros _; apply qe_nil|reflexivity]|]); cbn [length] in Hl; [lia|].
  cbn [qDecode]. destruct (N.eqb_spec c 61) as [->|Hc].
  - destruct r as [|a [|b r]]; cbn [length] in Hl.
    + split; [discriminate|]. intros H. inversion H; congruence.
    + split; [discriminate|]. intros H. inversion H; congruence.
    + destruct (is_hex_rune a && is_hex_rune b)%bool eqn:E.
      * apply andb_true_iff in E. rewrite !hex_iff in E. rewrite IH by lia. split; [intros; apply qe_hex; tauto|]. intros H. inversion H; [congruence|auto].
      * split; [discriminate|]. intros H. inversion H as [|? ? ? ? ?|? ? ? Ha Hb]; [congruence|]. apply hex_iff in Ha, Hb. rewrite Ha, Hb in E. discriminate.
  - pose proof (q_char_iff c) as Q. destruct ((32 <=? c) && (c <=? 126) || (c =? 10) || (c =? 13) || (c =? 9))%bool.
    + rewrite IH by lia. split; [intros; apply qe_char; tauto|]. intros H. inversion H; [auto|congruence].
    + split; [discriminate|]. intros H. inversion H; [|congruence]. apply Q. auto.
Qed.
Lemma q_iff s : qDecode s = true <-> q_encoded s.
Proof. apply (q_iff_n (length s)). lia. Qed.
Lemma eq61 c : (c =? 61) = true <-> c = 61.
Proof. apply N.eqb_eq. Qed.
Lemma not_b64_61 : ~ b64digit 61.
Proof. rewrite <- b64digit_iff. vm_compute. discriminate. Qed.
Lemma b64_iff_n n : forall s, (length s <= n)%nat -> (b64 s = true <-> b64_groups s).
Proof.
  induction n as [|n IH]; intros s Hl; (destruct s as [|a s]; [split; [intros _; apply b64_nil|reflexivity]|]); cbn [length] in Hl; [lia|].
  destruct s as [|b s]; [split; [discriminate|intros H; inversion H]|]. destruct s as [|c s]; [split; [discriminate|intros H; inversion H]|].
  destruct s as [|d s]; [split; [discriminate|intros H; inversion H]|]. destruct s as [|e s].
  - cbn [b64]. rewrite !andb_true_iff, orb_true_iff, !andb_true_iff, orb_true_iff, !eq61, !b64digit_iff. split.
    + intros [[Ha Hb] [[Hc [Hd| ->]]|[-> ->]]]; [apply b64_four; auto; apply b64_nil|apply b64_three; auto|apply b64_two; auto].
    + intros H. inversion H; subst; auto.
  - cbn [length] in Hl. change (b64 (a :: b :: c :: d :: e :: s)) with (is_b64 a && is_b64 b && is_b64 c && is_b64 d && b64 (e :: s))%bool.
    rewrite !andb_true_iff, IH, !b64digit_iff by (cbn [length]; lia). split; [intros; apply b64_four; tauto|]. intros H. inversion H; subst. auto.
Qed.
Lemma b64_iff s : b64 s = true <-> b64_groups s.
Proof. apply (b64_iff_n (length s)). lia. Qed.
Lemma ends_filter s u : without_ends s u <-> u = filter (fun c => negb ((c =? 10) || (c =? 13))%bool) s.
Proof.
  split.
  - induction 1 as [|c r s Hc H IH|c r s N1 N2 H IH]; [reflexivity| |]; cbn [filter].
    + replace ((c =? 10) || (c =? 13))%bool with true by lia. exact IH.
    + replace ((c =? 10) || (c =? 13))%bool with false by lia. cbn. congruence.
  - intros ->. induction s as [|c s IH]; [apply we_nil|]. cbn [filter]. destruct ((c =? 10) || (c =? 13))%bool eqn:E; cbn [negb].
    + apply we_end; [lia|auto].
    + apply we_char; [lia|lia|auto].
Qed.
Lemma base64_iff s : base64 s = true <-> exists u, without_ends s u /\ b64_groups u.
Proof. unfold base64. rewrite b64_iff. split; [intros H; eexists; split; [apply ends_filter; reflexivity|exact H]|]. intros (u & Hu & H). apply ends_filter in Hu. subst. exact H. Qed.
Definition lower_name (l : list N) : Prop := Forall (fun x => ~ (65 <= x <= 90) /\ x <> 383) l.
Lemma fold_iff name : lower_name name -> forall w, map fold_rune w = name <-> Forall2 same_letter w name.
Proof.
  induction 1 as [|x name Hx _ IH]; intros [|c w].
  - split; constructor.
  - split; [discriminate|intros H; inversion H].
  - split; [discriminate|intros H; inversion H].
  - cbn [map]. assert (E : fold_rune c = x <-> same_letter c x).
    { unfold fold_rune, same_letter. destruct ((65 <=? c) && (c <=? 90))%bool eqn:E; [lia|]. destruct (N.eqb_spec c 383); lia. }
    split.
    + intros [= E1 E2]. constructor; [apply E; auto|apply IH; auto].
    + intros H. inversion H; subst. f_equal; [apply E; auto|apply IH; auto].
Qed.
Lemma list_eqb_iff a b : list_eqb a b = true <-> a = b.
Proof. unfold list_eqb. destruct (list_eq_dec N.eq_dec a b); split; congruence. Qed.
Lemma charset_iff w : charset_known w = true <-> known_charset w.
Proof.
  unfold charset_known, known_charset. rewrite existsb_exists.
  assert (L : forall s, In s ["utf-8"; "iso-8859-1"; "us-ascii"]%string -> lower_name (codes s)).
  { intros s [<-|[<-|[<-|[]]]]; unfold lower_name, codes; cbn [map list_ascii_of_string]; repeat (constructor; [vm_compute; split; [intros [K1 K2]; congruence|congruence]|]); constructor. }
  split.
  - intros (x & Hx & E). apply list_eqb_iff in E. assert (K : exists s, In s ["utf-8"; "iso-8859-1"; "us-ascii"]%string /\ x = codes s).
    { destruct Hx as [<-|[<-|[<-|[]]]]; [exists "utf-8"%string|exists "iso-8859-1"%string|exists "us-ascii"%string]; (split; [cbn; auto|reflexivity]). }
    destruct K as (s & Hs & ->). exists s. split; [auto|]. apply fold_iff; auto.
  - intros (s & Hs & H). apply fold_iff in H; auto. exists (codes s). split; [|apply list_eqb_iff; auto]. destruct Hs as [<-|[<-|[<-|[]]]]; vm_compute; auto.
Qed.
Lemma cut_app c a b : ~ In c a -> cut c (a ++ c :: b) = (a, b).
Proof.
  induction a as [|x a IH]; cbn [app cut]; [rewrite N.eqb_refl; reflexivity|]. intros H. destruct (N.eqb_spec x c) as [->|N]; [exfalso; apply H; left; auto|].
  rewrite IH; [reflexivity|]. intros K. apply H. right. auto.
Qed.
Lemma cut_split c s : forall a b, cut c s = (a, b) -> ~ In c a /\ (s = a ++ c :: b \/ s = a /\ b = []).
Proof.
  induction s as [|x s IH]; cbn [cut]; intros a b.
  - intros [= <- <-]. auto.
  - destruct (N.eqb_spec x c) as [->|N]; [intros [= <- <-]; auto|]. destruct (cut c s) as [a' b'] eqn:E. intros [= <- <-].
    destruct (IH _ _ eq_refl) as [H1 H2]. split; [intros [K|K]; [congruence|tauto]|]. destruct H2 as [->|[-> ->]]; auto.
Qed.
Lemma count_app c a b : count c (a ++ b) = (count c a + count c b)%nat.
Proof. unfold count. rewrite filter_app, app_length. reflexivity. Qed.
Lemma count_none c a : count c a = 0%nat <-> ~ In c a.
Proof.
  unfold count. induction a as [|x a IH]; cbn [filter]; [cbn; tauto|]. destruct (N.eqb_spec c x) as [->|N]; cbn [length In].
  - split; [discriminate|]. intros H. exfalso. apply H. auto.
  - rewrite IH. intuition congruence.
Qed.
Lemma count_cons c x a : count c (x :: a) = ((if N.eqb c x then 1 else 0) + count c a)%nat.
Proof. unfold count. cbn [filter]. destruct (c =? x); reflexivity. Qed.
Definition decodable (e : N) (t : list N) : bool :=
  if ((e =? 66) || (e =? 98))%bool then base64 t else if ((e =? 81) || (e =? 113))%bool then qDecode t else false.
Lemma decodable_iff e t : decodable e t = true <->
  (In e (codes "qQ") /\ q_encoded t \/ In e (codes "bB") /\ exists u, without_ends t u /\ b64_groups u).
Proof.
  change (codes "qQ") with [113; 81]. change (codes "bB") with [98; 66]. rewrite <- base64_iff, <- q_iff. unfold decodable. cbn [In].
  destruct (N.eqb_spec e 66) as [->|H1]; [intuition congruence|]. destruct (N.eqb_spec e 98) as [->|H2]; [intuition congruence|].
  destruct (N.eqb_spec e 81) as [->|H3]; [intuition congruence|]. destruct (N.eqb_spec e 113) as [->|H4]; [intuition congruence|].
  cbn. intuition congruence.
Qed.
Lemma decodable_e e t : decodable e t = true -> e <> 63.
Proof. intros H ->. vm_compute in H. discriminate. Qed.
Lemma word_error_iff w : word_error w = true <-> unreadable w.
Proof.
  split.
  - unfold word_error. destruct w as [|a [|b r]]; try discriminate; [destruct (a =? 61); destruct a as [|p]; try discriminate; repeat (destruct p; try discriminate)|].
    destruct (N.eq_dec a 61) as [->|Na]; [|intros H; exfalso; revert H; destruct a as [|p]; try discriminate; repeat (destruct p; try discriminate); congruence].
    destruct (N.eq_dec b 63) as [->|Nb]; [|intros H; exfalso; revert H; destruct b as [|p]; try discriminate; repeat (destruct p; try discriminate); congruence].
    match goal with |- (if ?c then _ else _) = _ -> _ => destruct c eqn:E; [|discriminate] end.
    rewrite !andb_true_iff in E. destruct E as [[_ E1] E2]. apply list_eqb_iff in E1. apply Nat.eqb_eq in E2.
    pose proof (firstn_skipn (length r - 2) r) as Er. rewrite E1 in Er. set (body := firstn (length r - 2) r) in *. clearbody body. subst r. clear E1.
    destruct (cut 63 body) as [charset t] eqn:Ec1. destruct (cut 63 t) as [enc text] eqn:Ec2.
    destruct charset as [|x cs]; [discriminate|]. destruct enc as [|e [|? ?]]; try discriminate. fold (decodable e text).
    rewrite andb_true_iff, negb_true_iff. intros [Hd Hk]. pose proof (decodable_e _ _ Hd) as He. apply decodable_iff in Hd.
    apply cut_split in Ec1, Ec2. destruct Ec1 as [N1 Ec1], Ec2 as [N2 Ec2]. rewrite !count_cons, count_app in E2. change (count 63 [63; 61]) with 1%nat in E2. cbn [N.eqb Pos.eqb] in E2.
    destruct Ec1 as [->|[-> _]]; [|apply count_none in N1; lia]. rewrite count_app, (proj2 (count_none 63 (x :: cs)) N1), count_cons in E2. change (63 =? 63) with true in E2. cbv iota in E2.
    destruct Ec2 as [->|[-> _]]; [|rewrite count_cons in E2; apply N.eqb_neq in He; rewrite N.eqb_sym in He; rewrite He in E2; cbn in E2; lia].
    assert (Nt : ~ In 63 text).
    { apply count_none. cbn [app] in E2. rewrite !count_cons in E2. change (63 =? 63) with true in E2. destruct (63 =? e) eqn:X; [apply N.eqb_eq in X; congruence|]. cbv iota in E2. lia. }
    exists (x :: cs), e, text. split; [|repeat split; auto; [discriminate|rewrite <- charset_iff, Hk; discriminate]].
    change (codes "=?") with [61; 63]. change (codes "?=") with [63; 61]. rewrite <- app_assoc. reflexivity.
  - intros (charset & e & t & -> & Hn & N1 & N2 & Hk & Hd). change (codes "=?") with [61; 63]. change (codes "?=") with [63; 61].
    apply decodable_iff in Hd. pose proof (decodable_e _ _ Hd) as He. cbn [app]. unfold word_error.
    replace (charset ++ 63 :: e :: 63 :: t ++ [63; 61]) with ((charset ++ 63 :: e :: 63 :: t) ++ [63; 61]) by (rewrite <- app_assoc; reflexivity).
    set (body := charset ++ 63 :: e :: 63 :: t).
    replace (length (body ++ [63%N; 61%N]) - 2)%nat with (length body) by (rewrite app_length; cbn; lia).
    rewrite skipn_app, skipn_all, Nat.sub_diag, firstn_app, firstn_all, Nat.sub_diag. cbn [app skipn firstn]. rewrite app_nil_r.
    match goal with |- (if ?c then _ else _) = _ => replace c with true end.
    + unfold body. rewrite cut_app by auto. change (e :: 63 :: t) with ([e] ++ 63 :: t). rewrite cut_app by (intros [K|[]]; congruence).
      destruct charset as [|x cs]; [congruence|]. fold (decodable e t). rewrite Hd. rewrite <- charset_iff in Hk. destruct (charset_known (x :: cs)); [tauto|reflexivity].
    + symmetry. rewrite !andb_true_iff. split; [split|].
      * apply Nat.leb_le. unfold body. cbn [length]. rewrite !app_length. cbn [length]. destruct charset; [congruence|]. cbn [length]. lia.
      * apply list_eqb_iff. reflexivity.
      * apply Nat.eqb_eq. rewrite !count_cons, count_app. unfold body. rewrite count_app, !count_cons. rewrite (proj2 (count_none 63 charset) N1), (proj2 (count_none 63 t) N2).
        change (count 63 [63; 61]) with 1%nat. apply N.eqb_neq in He. rewrite N.eqb_sym in He. rewrite He. reflexivity.
Qed.

(** ** Phrases *)
Definition stop (c : N) : Prop := c = 58 \/ c = 60.
Lemma phrase_step n some s : consumePhrase_n (S n) some s =
  match (if some then skipCFWS s else Some s) with
  | None => None
  | Some s0 =>
      match skipSpace s0 with
      | [] => Some []
      | c :: r =>
          if c =? 34 then
            match consumeQuoted false r with Some (_, z) => consumePhrase_n n true z | None => if some then Some (c :: r) else None end
          else
            match consumeAtom (c :: r) with
            | None => if some then Some (c :: r) else None
            | Some (w, z) => if word_error w then (if some then Some z else None) else consumePhrase_n n true z
            end
      end
  end.
Proof.
  cbn [consumePhrase_n]. destruct (if some then skipCFWS s else Some s) as [s0|]; [|reflexivity]. destruct (skipSpace s0); reflexivity.
Qed.
Definition starts (c : N) : Prop := wsp c \/ c = 40 \/ c = 34 \/ atom_char c.
Lemma word_head x z : word x -> exists c w, x ++ z = c :: w /\ (c = 34 \/ atom_char c).
Proof. intros [[Ha _]|(q & _ & ->)]; [destruct (atom_head x z Ha) as (c & w & E & H); eauto 6|]. cbn [app]. eauto 6. Qed.
Lemma cfws_head g : cfws g -> g = [] \/ exists c w, g = c :: w /\ (wsp c \/ c = 40).
Proof. intros [|c r Hc _|a t r _ _]; eauto 8. Qed.
Lemma words_head r z : words r -> r = [] \/ exists c w, r ++ z = c :: w /\ r <> [] /\ starts c.
Proof.
  unfold starts. intros [g Hg|g y s Hg Hy _ _|g x r' Hg Hx _ _]; destruct (cfws_head g Hg) as [->|(c & w & -> & Hc)]; auto; try (right; cbn [app]; eexists _, _; split; [reflexivity|]; split; [discriminate|tauto]).
  - right. cbn [app]. rewrite <- app_assoc. destruct (atom_head y (s ++ z) Hy) as (c & w & -> & Hc). eexists _, _. split; [reflexivity|]. split; [|auto].
    destruct y; [destruct Hy; congruence|discriminate].
  - right. cbn [app]. rewrite <- app_assoc. destruct (word_head x (r' ++ z) Hx) as (c & w & E & Hc). rewrite E. eexists _, _. split; [reflexivity|]. split; [|tauto].
    destruct x; [|discriminate]. destruct Hx as [[[? _] _]|(q & _ & ?)]; congruence.
Qed.
Lemma starts_facts c : starts c -> c <> 64 /\ bad_rune c = false /\ c <> 58 /\ c <> 60.
Proof.
  unfold starts. intros [H|[->|[->|H]]].
  - unfold wsp, bad_rune in *. lia.
  - repeat split; discriminate.
  - repeat split; discriminate.
  - pose proof (atom_char_facts c H). repeat split; try tauto. destruct H as [[Hv _]| ->]; [apply not_bad; auto|reflexivity].
Qed.
Lemma stop_facts c z : stop c -> no_atom (c :: z) /\ no_cfws (c :: z) /\ c <> 64 /\ (c =? 34) = false /\ consumeAtom (c :: z) = None.
Proof.
  intros H. assert (K : no_atom (c :: z)) by (apply no_atom_in; destruct H as [->| ->]; cbn; tauto).
  split; [exact K|]. split; [destruct H as [->| ->]; cbn; unfold wsp; lia|]. split; [destruct H; lia|]. split; [destruct H as [->| ->]; reflexivity|].
  apply atom_start. cbn in *. tauto.
Qed.
Lemma after_word x r c z : word x -> words r -> ends_before x r -> stop c ->
  heads (fun a => a <> 64) (r ++ c :: z) /\ (atom x -> no_atom (r ++ c :: z)).
Proof.
  intros Hx Hr He Hc. destruct (words_head r (c :: z) Hr) as [->|(a & w & E & Hn & Ha)].
  - cbn [app]. pose proof (stop_facts c z Hc). cbn [heads]. tauto.
  - rewrite E. pose proof (starts_facts a Ha). cbn. split; [tauto|]. intros Ax. split; [|tauto]. destruct r as [|a' r']; [congruence|]. injection E as -> _.
    exact (He Ax a r' eq_refl).
Qed.
Lemma no_atom_spaces s c z : spaces s -> stop c -> no_atom (s ++ c :: z).
Proof. intros Hs Hc. destruct Hs as [|x s Hx _]; [apply (stop_facts c z Hc)|]. apply no_atom_in. destruct Hx as [->| ->]; cbn; tauto. Qed.
Lemma no_space_stop c z : stop c -> no_space (c :: z).
Proof. intros H. apply no_cfws_space. apply (stop_facts c z H). Qed.
Lemma atom_no_cfws y z : atom y -> no_cfws (y ++ z).
Proof. intros H. destruct (atom_head y z H) as (c & w & -> & Hc). apply atom_char_facts in Hc. cbn. tauto. Qed.
Lemma word_no_cfws x z : word x -> no_cfws (x ++ z).
Proof. intros H. destruct (word_head x z H) as (c & w & -> & [->|Hc]); [cbn; unfold wsp; lia|]. apply atom_char_facts in Hc. cbn. tauto. Qed.
Lemma atom_not_quote y z : atom y -> exists c w, y ++ z = c :: w /\ (c =? 34) = false.
Proof. intros H. destruct (atom_head y z H) as (c & w & E & Hc). apply atom_char_facts in Hc. exists c, w. split; [auto|]. apply N.eqb_neq. tauto. Qed.
(** One word, read. *)
Lemma word_read x r c z (k : input -> option input) (e : list N -> input -> option input) :
  word x -> words r -> ends_before x r -> stop c ->
  match x ++ r ++ c :: z with
  | [] => Some []
  | a :: w =>
      if a =? 34 then match consumeQuoted false w with Some (_, y) => k y | None => e [] (a :: w) end
      else match consumeAtom (a :: w) with None => e [] (a :: w) | Some (w', y) => if word_error w' then e w' y else k y end
  end = k (r ++ c :: z).
Proof.
  intros Hx Hr He Hc. destruct (after_word x r c z Hx Hr He Hc) as [_ Hf]. destruct Hx as [[Ha Hu]|(q & Hq & ->)].
  - destruct (atom_not_quote x (r ++ c :: z) Ha) as (a & w & E & Eq). rewrite E, Eq, <- E. rewrite (atom_complete x (r ++ c :: z)) by auto.
    rewrite <- word_error_iff in Hu. destruct (word_error x); [congruence|reflexivity].
  - cbn [app]. change (34 =? 34) with true. cbv iota. rewrite <- app_assoc. cbn [app]. destruct (quoted_complete q (r ++ c :: z) Hq) as (t & -> & _). reflexivity.
Qed.
Lemma words_complete r c z : words r -> stop c -> forall n, (length r < n)%nat ->
  exists y, consumePhrase_n n true (r ++ c :: z) = Some y /\ skipSpace y = c :: z.
Proof.
  intros Hr Hc. pose proof (stop_facts c z Hc) as (K1 & K2 & K3 & K4 & K5). induction Hr as [g Hg|g y s Hg Hy Hu Hs|g x r Hg Hx Hr IH He]; intros [|n] Hn; try lia; rewrite phrase_step.
  - exists (c :: z). rewrite skipCFWS_complete by auto. rewrite skipSpace_none, K4, K5 by (apply no_cfws_space; auto). auto.
  - exists (s ++ c :: z). rewrite <- !app_assoc. rewrite skipCFWS_complete by (auto; apply atom_no_cfws; auto). rewrite skipSpace_none by (apply no_cfws_space, atom_no_cfws; auto).
    destruct (atom_not_quote y (s ++ c :: z) Hy) as (a & w & E & Eq). rewrite E, Eq, <- E. rewrite (atom_complete y (s ++ c :: z)) by (auto; apply no_atom_spaces; auto).
    apply word_error_iff in Hu. rewrite Hu. split; [reflexivity|]. apply skipSpace_skip; auto. apply no_space_stop; auto.
  - rewrite <- !app_assoc. rewrite skipCFWS_complete by (auto; apply word_no_cfws; auto). rewrite skipSpace_none by (apply no_cfws_space, word_no_cfws; auto).
    destruct (IH n) as (y & E & Ey).
    { rewrite !app_length in Hn. destruct (word_head x [] Hx) as (a & w & E & _). rewrite app_nil_r in E. subst x. cbn [length] in Hn. lia. }
    exists y. split; [|auto]. rewrite <- E. clear E.
    pose proof (word_read x r c z (consumePhrase_n n true) (fun _ y => Some y) Hx Hr He Hc) as W. rewrite <- W. destruct (x ++ r ++ c :: z); reflexivity.
Qed.
Lemma phrase_complete p c z : phrase p -> stop c -> exists y, consumePhrase (p ++ c :: z) = Some y /\ skipSpace y = c :: z.
Proof.
  intros (x & r & Hx & Hr & He & ->) Hc. unfold consumePhrase. rewrite phrase_step, <- app_assoc. rewrite skipSpace_none by (apply no_cfws_space, word_no_cfws; auto).
  destruct (words_complete r c z Hr Hc (length (x ++ r ++ c :: z))) as (y & E & Ey).
  { destruct (word_head x [] Hx) as (a & w & E & _). rewrite app_nil_r in E. subst x. rewrite !app_length. cbn [length]. lia. }
  exists y. split; [|auto]. rewrite <- E. clear E. generalize (length (x ++ r ++ c :: z)). intros n.
  pose proof (word_read x r c z (consumePhrase_n n true) (fun _ y => None) Hx Hr He Hc) as W. rewrite <- W. destruct (x ++ r ++ c :: z); reflexivity.
Qed.
Lemma no_atom_ends w r c z : no_atom (r ++ c :: z) -> ends_before w r.
Proof. intros H _ a r' ->. cbn in H. tauto. Qed.
Lemma quote_word w y q : 34 :: w = (34 :: q ++ [34]) ++ y <-> w = q ++ 34 :: y.
Proof. cbn [app]. rewrite <- app_assoc. cbn [app]. split; [intros [= ->]; auto|intros ->; auto]. Qed.
Lemma ends_quoted q r : ends_before (34 :: q ++ [34]) r.
Proof. intros [_ H]. inversion H as [|? ? K _]; subst. exfalso. revert K. apply atom_char_not. cbn; tauto. Qed.
Lemma words_sound n : forall s y c z, consumePhrase_n n true s = Some y -> skipSpace y = c :: z -> stop c ->
  exists r, words r /\ s = r ++ c :: z.
Proof.
  induction n as [|n IH]; intros s y c z; [discriminate|]. rewrite phrase_step. destruct (skipCFWS s) as [s0|] eqn:Es; [|discriminate].
  apply skipCFWS_sound in Es. destruct Es as (g & -> & Hg & Hs0). rewrite skipSpace_none by (apply no_cfws_space; auto).
  intros H Ey Hc. assert (Fail : s0 = y -> exists r, words r /\ g ++ s0 = r ++ c :: z).
  { intros ->. rewrite skipSpace_none in Ey by (apply no_cfws_space; auto). subst y. exists g. split; [apply words_end; auto|auto]. }
  destruct s0 as [|a w]; [injection H as <-; discriminate Ey|]. destruct (N.eqb_spec a 34) as [->|Ha].
  - destruct (consumeQuoted false w) as [[t x]|] eqn:Eq; [|injection H as H; auto]. apply quoted_sound in Eq. destruct Eq as (q & -> & Hq & _).
    destruct (IH _ _ _ _ H Ey Hc) as (r & Hr & ->). exists (g ++ (34 :: q ++ [34]) ++ r). split.
    + apply words_more; auto; [right; exists q; auto|]. apply ends_quoted.
    + cbn [app]. rewrite <- !app_assoc. cbn [app]. rewrite <- app_assoc. reflexivity.
  - destruct (consumeAtom (a :: w)) as [[x y']|] eqn:Ea; [|injection H as H; auto]. apply atom_sound in Ea. destruct Ea as (E & Hx & Hy). rewrite E.
    destruct (word_error x) eqn:Ew.
    + apply word_error_iff in Ew. injection H as ->. destruct (skipSpace_split y) as (b & Eb & Hb & _). rewrite Ey in Eb. rewrite Eb.
      exists (g ++ x ++ b). split; [apply words_unreadable; auto|]. rewrite <- !app_assoc. reflexivity.
    + destruct (IH _ _ _ _ H Ey Hc) as (r & Hr & ->). exists (g ++ x ++ r). split; [|rewrite <- !app_assoc; reflexivity].
      apply words_more; auto; [left; split; [auto|]; rewrite <- word_error_iff, Ew; discriminate|]. eapply no_atom_ends; eauto.
Qed.
Lemma phrase_sound s y c z : no_space s -> consumePhrase s = Some y -> skipSpace y = c :: z -> stop c -> exists p, phrase p /\ s = p ++ c :: z.
Proof.
  intros Hs. unfold consumePhrase. rewrite phrase_step, skipSpace_none by auto. intros H Ey Hc. destruct s as [|a w]; [injection H as <-; discriminate Ey|].
  generalize dependent (length (a :: w)). intros n H. destruct (N.eqb_spec a 34) as [->|Ha].
  - destruct (consumeQuoted false w) as [[t x]|] eqn:Eq; [|discriminate]. apply quoted_sound in Eq. destruct Eq as (q & -> & Hq & _).
    destruct (words_sound _ _ _ _ _ H Ey Hc) as (r & Hr & ->). exists ((34 :: q ++ [34]) ++ r). split; [|cbn [app]; rewrite <- !app_assoc; reflexivity].
    exists (34 :: q ++ [34]), r. split; [right; exists q; auto|]. split; [auto|]. split; [apply ends_quoted|reflexivity].
  - destruct (consumeAtom (a :: w)) as [[x y']|] eqn:Ea; [|discriminate]. apply atom_sound in Ea. destruct Ea as (E & Hx & Hy). rewrite E.
    destruct (word_error x) eqn:Ew; [discriminate|]. destruct (words_sound _ _ _ _ _ H Ey Hc) as (r & Hr & ->). exists (x ++ r). split; [|rewrite <- !app_assoc; reflexivity].
    exists x, r. split; [left; split; [auto|]; rewrite <- word_error_iff, Ew; discriminate|]. split; [auto|]. split; [|reflexivity]. eapply no_atom_ends; eauto.
Qed.
(** A display name is no addr-spec. *)
Lemma phrase_no_spec p c z : phrase p -> stop c -> consumeAddrSpec (p ++ c :: z) = None.
Proof.
  intros (x & r & Hx & Hr & He & ->) Hc. rewrite spec_step, <- app_assoc. rewrite skipSpace_none by (apply no_cfws_space, word_no_cfws; auto).
  destruct (after_word x r c z Hx Hr He Hc) as [H64 Hf]. apply consume_none in H64. destruct Hx as [[Ha Hu]|(q & Hq & ->)].
  - destruct (atom_not_quote x (r ++ c :: z) Ha) as (a & w & E & Eq). replace (peek_is 34 (x ++ r ++ c :: z)) with false by (rewrite E; unfold peek_is; cbn [consume]; rewrite Eq; reflexivity).
    unfold consumeDotAtom. rewrite atom_complete by auto. destruct (dots_ok true x); [rewrite H64|]; reflexivity.
  - cbn [app]. replace (peek_is 34 _) with true by reflexivity. cbn [tl]. rewrite <- app_assoc. cbn [app]. destruct (quoted_complete q (r ++ c :: z) Hq) as (t & -> & _).
    destruct t; [|rewrite H64]; reflexivity.
Qed.
Lemma less_no_spec z : consumeAddrSpec (60 :: z) = None.
Proof. rewrite spec_step. rewrite skipSpace_none by (apply no_space_stop; right; auto). reflexivity. Qed.

(** ** The words of a comment *)
Definition solid (x : list N) : Prop := Forall (fun c => ~ wsp c) x.
Lemma solid_split u c r : solid u -> wsp c -> forall a c' y, wsp c' -> u ++ c :: r = a ++ c' :: y ->
  (a = u /\ r = y) \/ exists a', a = u ++ c :: a' /\ r = a' ++ c' :: y.
Proof.
  intros Hu Hc. induction Hu as [|x u Hx _ IH]; intros [|b a] c' y Hc' E; cbn [app] in *.
  - injection E as _ ->. auto.
  - injection E as -> ->. right. exists a. auto.
  - injection E as -> _. tauto.
  - injection E as -> E. destruct (IH a c' y Hc' E) as [[-> ->]|(a' & -> & ->)]; [auto|]. right. exists a'. auto.
Qed.
Lemma solid_no u a c y : solid u -> wsp c -> u <> a ++ c :: y.
Proof. intros Hu Hc ->. apply Forall_app in Hu. destruct Hu as [_ Hu]. inversion Hu; subst; auto. Qed.
Lemma word_in_solid x u : solid u -> (word_in x u <-> u <> [] /\ x = u).
Proof.
  intros Hu. split.
  - intros (Hn & Hx & a & b & E & Ha & Hb). destruct Ha as [->|(a' & c & -> & Hc)].
    + destruct Hb as [->|(c & b' & -> & Hc)]; [rewrite app_nil_r in E; cbn in E; subst; auto|]. exfalso. apply (solid_no u x c b' Hu Hc). exact E.
    + exfalso. apply (solid_no u a' c (x ++ b) Hu Hc). rewrite E, <- app_assoc. reflexivity.
  - intros [Hn ->]. split; [auto|]. split; [auto|]. exists [], []. rewrite app_nil_r. auto.
Qed.
Lemma word_in_sep x u c r : solid u -> wsp c -> (word_in x (u ++ c :: r) <-> (u <> [] /\ x = u) \/ word_in x r).
Proof.
  intros Hu Hc. split.
  - intros (Hn & Hx & a & b & E & Ha & Hb). destruct Ha as [->|(a' & c' & -> & Hc')].
    + left. cbn [app] in E. destruct Hb as [->|(c' & b' & -> & Hc')].
      * exfalso. rewrite app_nil_r in E. apply (solid_no x u c r Hx Hc). auto.
      * destruct (solid_split u c r Hu Hc x c' b' Hc' E) as [[-> _]|(a' & -> & _)]; [auto|]. exfalso. apply (solid_no (u ++ c :: a') u c a' Hx Hc). reflexivity.
    + right. rewrite <- app_assoc in E. cbn [app] in E. split; [auto|]. split; [auto|].
      destruct (solid_split u c r Hu Hc a' c' (x ++ b) Hc' E) as [[-> ->]|(a2 & -> & ->)].
      * exists [], b. auto.
      * exists (a2 ++ [c']), b. split; [rewrite <- app_assoc; reflexivity|]. split; [right; exists a2, c'; auto|auto].
  - intros [[Hn ->]|(Hn & Hx & a & b & -> & Ha & Hb)].
    + split; [auto|]. split; [auto|]. exists [], (c :: r). split; [reflexivity|]. split; [auto|right; exists c, r; auto].
    + split; [auto|]. split; [auto|]. exists (u ++ c :: a), b. split; [rewrite <- app_assoc; reflexivity|]. split; [|auto]. right.
      destruct Ha as [->|(a' & c' & -> & Hc')]; [exists u, c; auto|]. exists (u ++ c :: a'), c'. rewrite <- app_assoc. auto.
Qed.
Lemma fields_iff x t : forall acc, solid acc -> (In x (fields acc t) <-> word_in x (rev acc ++ t)).
Proof.
  assert (R : forall acc, solid acc -> solid (rev acc)) by (intros acc H; apply Forall_rev; auto).
  assert (Z : forall acc : list N, rev acc = [] -> acc = []) by (intros [|a acc] H; [auto|cbn in H; destruct (rev acc); discriminate]).
  induction t as [|c t IH]; intros acc Ha; cbn [fields].
  - rewrite app_nil_r, word_in_solid by auto. destruct acc as [|a acc]; [cbn; tauto|]. cbn [In]. split; [intros [<-|[]]; split; auto; intros K; apply Z in K; discriminate|]. intros [_ ->]. auto.
  - destruct (isWSP c) eqn:Ec.
    + apply wsp_iff in Ec. rewrite word_in_sep by auto. specialize (IH [] (Forall_nil _)). cbn [rev app] in IH. destruct acc as [|a acc].
      * rewrite IH. cbn [rev]. tauto.
      * cbn [In]. rewrite IH. split; [intros [<-|H]; [left; split; auto; intros K; apply Z in K; discriminate|auto]|]. intros [[_ ->]|H]; auto.
    + rewrite IH by (constructor; [rewrite <- wsp_iff, Ec; discriminate|auto]). cbn [rev]. rewrite <- app_assoc. reflexivity.
Qed.
Lemma name_comment_iff s z : consumeDisplayNameComment s = Some z <->
  exists c t, s = c ++ 41 :: z /\ ccontent c t /\ forall x, word_in x t -> ~ unreadable x.
Proof.
  unfold consumeDisplayNameComment. assert (F : forall t, existsb word_error (fields [] t) = false <-> forall x, word_in x t -> ~ unreadable x).
  { intros t. split.
    - intros H x Hx Hu. apply (fields_iff x t []) in Hx; [|constructor]. apply word_error_iff in Hu. assert (K : existsb word_error (fields [] t) = true) by (apply existsb_exists; eauto). congruence.
    - intros H. apply not_true_is_false. rewrite existsb_exists. intros (x & Hx & E). apply word_error_iff in E. apply (fields_iff x t []) in Hx; [|constructor]. exact (H x Hx E). }
  split.
  - destruct (consumeComment 0 s) as [[t y]|] eqn:E; [|discriminate]. destruct (existsb _ _) eqn:Ef; [discriminate|]. intros [= ->].
    apply comment_sound in E. destruct E as (c & -> & Hc). exists c, t. pose proof (proj1 (F t) Ef). auto.
  - intros (c & t & -> & Hc & H). rewrite (comment_complete c t) by auto. rewrite (proj2 (F t) H). reflexivity.
Qed.

(** ** Mailboxes *)
Lemma no_cfws_skip z : no_cfws z -> skipCFWS z = Some z.
Proof. intros H. apply (skipCFWS_complete []); [apply cfws_nil|auto]. Qed.
Lemma after_sound y z z' : afterSpec y = Some z -> skipCFWS z = Some z' -> exists r, y = r ++ z' /\ remark r.
Proof.
  unfold afterSpec. destruct (skipSpace_split y) as (s & E & Hs & Hn). set (y1 := skipSpace y) in *. clearbody y1. subst y. destruct (consume 40 y1) as [y2|] eqn:Ec.
  - apply consume_some in Ec. subst y1. intros H Hz. apply name_comment_iff in H. destruct H as (c & t & -> & Hc & Hu). apply skipCFWS_sound in Hz. destruct Hz as (g & -> & Hg & _).
    exists (s ++ 40 :: c ++ 41 :: g). split; [rewrite <- app_assoc; cbn [app]; rewrite <- app_assoc; reflexivity|]. right. exists s, c, t, g. auto.
  - intros [= <-] Hz. rewrite no_cfws_skip in Hz; [injection Hz as <-; exists s; split; [auto|left; auto]|].
    apply consume_none in Ec. destruct y1; cbn in *; auto.
Qed.
Lemma after_complete r z' : remark r -> no_cfws z' -> exists z, afterSpec (r ++ z') = Some z /\ skipCFWS z = Some z'.
Proof.
  intros Hr Hz. unfold afterSpec. destruct Hr as [Hs|(s & c & t & g & -> & Hs & Hc & Hg & Hu)].
  - exists z'. rewrite skipSpace_skip by (auto; apply no_cfws_space; auto). replace (consume 40 z') with (@None input); [split; [reflexivity|apply no_cfws_skip; auto]|].
    symmetry. apply consume_none. destruct z'; cbn in *; tauto.
  - exists (g ++ z'). split; [|apply skipCFWS_complete; auto]. rewrite <- app_assoc. cbn [app]. rewrite skipSpace_skip by (auto; cbn; unfold wsp; lia). cbn [consume].
    change (40 =? 40) with true. cbv iota. apply name_comment_iff. exists c, t. rewrite <- app_assoc. auto.
Qed.
Lemma angle_sound s z : angle s = Some z -> exists b a, s = 60 :: b ++ a ++ 62 :: z /\ spaces b /\ addr_spec a.
Proof.
  unfold angle. destruct (consume 60 s) as [r|] eqn:Ec; [|discriminate]. apply consume_some in Ec. subst s. destruct (consumeAddrSpec r) as [v|] eqn:Es; [|discriminate].
  intros H. apply consume_some in H. subst v. apply spec_sound in Es. destruct Es as (b & a & -> & Hb & Ha & _). eauto 6.
Qed.
Lemma angle_complete b a z : spaces b -> addr_spec a -> angle (60 :: b ++ a ++ 62 :: z) = Some z.
Proof.
  intros Hb Ha. unfold angle. cbn [consume]. change (60 =? 60) with true. cbv iota. rewrite spec_complete by (auto; apply no_atom_in; cbn; tauto). reflexivity.
Qed.
Definition starter (c : N) : Prop := c = 34 \/ atom_char c \/ c = 60.
Lemma starter_facts c : starter c -> ~ wsp c /\ c <> 40 /\ c <> 59.
Proof. intros [->|[H| ->]]; [unfold wsp; lia|apply atom_char_facts in H; tauto|unfold wsp; lia]. Qed.
Lemma spec_head a z : addr_spec a -> exists c w, a ++ z = c :: w /\ starter c.
Proof.
  unfold starter. intros (l & s & d & [Hl|[(q & _ & ->) _]] & _ & _ & ->); rewrite <- app_assoc.
  - destruct (atom_head l ((64 :: s ++ d) ++ z) (proj1 (dot_atom_ok l Hl))) as (c & w & E & Hc). eauto 6.
  - cbn [app]. eauto 6.
Qed.
Lemma phrase_head p z : phrase p -> exists c w, p ++ z = c :: w /\ (c = 34 \/ atom_char c).
Proof. intros (x & r & Hx & _ & _ & ->). rewrite <- app_assoc. apply word_head. auto. Qed.
Lemma mailbox_head m z : mailbox m -> exists c w, m ++ z = c :: w /\ starter c.
Proof.
  unfold starter. intros [(a & r & -> & Ha & _)|(p & s & a & g & -> & Hp & _)]; rewrite <- app_assoc.
  - apply spec_head. auto.
  - destruct Hp as [->|Hp]; [cbn [app]; eauto 6|]. destruct (phrase_head p ((60 :: s ++ a ++ 62 :: g) ++ z) Hp) as (c & w & E & Hc). exists c, w. tauto.
Qed.
Lemma display_sound s y c z : no_space s -> displayName s = Some y -> skipSpace y = c :: z -> stop c -> exists p, s = p ++ c :: z /\ (p = [] /\ c = 60 \/ phrase p).
Proof.
  intros Hs. unfold displayName. destruct (peek_is 60 s) eqn:Ep.
  - intros [= <-] E _. rewrite skipSpace_none in E by auto. subst s. apply peek_iff in Ep. destruct Ep as (w & [= -> ->]). exists []. auto.
  - intros H E Hc. destruct (phrase_sound s y c z Hs H E Hc) as (p & Hp & ->). exists p. auto.
Qed.
Lemma display_complete p c z : (p = [] /\ c = 60 \/ phrase p) -> stop c -> exists y, displayName (p ++ c :: z) = Some y /\ skipSpace y = c :: z.
Proof.
  intros [[-> ->]|Hp] Hc; unfold displayName.
  - exists (60 :: z). split; [reflexivity|]. apply skipSpace_none, no_space_stop. auto.
  - destruct (phrase_head p (c :: z) Hp) as (a & w & E & Ha). replace (peek_is 60 (p ++ c :: z)) with false; [apply phrase_complete; auto|].
    symmetry. apply peek_no. rewrite E. cbn. destruct Ha as [->|Ha]; [discriminate|]. apply atom_char_facts in Ha. tauto.
Qed.
Lemma mailbox_step s : parseMailbox s =
  match skipSpace s with
  | [] => None
  | _ =>
      match consumeAddrSpec (skipSpace s) with
      | Some z => afterSpec z
      | None => match displayName (skipSpace s) with Some z => angle (skipSpace z) | None => None end
      end
  end.
Proof. unfold parseMailbox. destruct (skipSpace s); reflexivity. Qed.
Lemma mailbox_sound s z z' : parseMailbox s = Some z -> skipCFWS z = Some z' -> exists b m, s = b ++ m ++ z' /\ spaces b /\ mailbox m.
Proof.
  rewrite mailbox_step. destruct (skipSpace_split s) as (b & E & Hb & Hn). set (s1 := skipSpace s) in *. clearbody s1. subst s. intros H Hz.
  assert (H' : match consumeAddrSpec s1 with Some z => afterSpec z | None => match displayName s1 with Some z => angle (skipSpace z) | None => None end end = Some z) by (destruct s1; [discriminate|auto]).
  clear H. destruct (consumeAddrSpec s1) as [y|] eqn:Es.
  - apply spec_sound in Es. destruct Es as (b' & a & -> & Hb' & Ha & _). destruct (after_sound _ _ _ H' Hz) as (r & -> & Hr).
    exists (b ++ b'), (a ++ r). split; [rewrite <- !app_assoc; reflexivity|]. split; [apply Forall_app; auto|]. left. eauto.
  - destruct (displayName s1) as [y|] eqn:Ed; [|discriminate]. apply angle_sound in H'. destruct H' as (b2 & a & Ey & Hb2 & Ha).
    destruct (display_sound _ _ _ _ Hn Ed Ey) as (p & -> & Hp); [right; auto|]. apply skipCFWS_sound in Hz. destruct Hz as (g & -> & Hg & _).
    exists b, (p ++ 60 :: b2 ++ a ++ 62 :: g). split; [rewrite <- !app_assoc; cbn [app]; rewrite <- !app_assoc; cbn [app]; reflexivity|]. split; [auto|].
    right. exists p, b2, a, g. split; [reflexivity|]. tauto.
Qed.
Lemma remark_no_atom r z : remark r -> no_atom z -> no_atom (r ++ z).
Proof.
  intros [Hs|(s & c & t & g & -> & Hs & _)] Hz.
  - destruct Hs as [|c s Hc _]; [auto|]. apply no_atom_in. destruct Hc as [->| ->]; cbn; tauto.
  - rewrite <- app_assoc. destruct Hs as [|x s Hx _]; apply no_atom_in; [cbn; tauto|]. destruct Hx as [->| ->]; cbn; tauto.
Qed.
Lemma mailbox_complete b m z' : spaces b -> mailbox m -> no_cfws z' -> no_atom z' ->
  exists z, parseMailbox (b ++ m ++ z') = Some z /\ skipCFWS z = Some z'.
Proof.
  intros Hb Hm Hz Hz2. rewrite mailbox_step. destruct (mailbox_head m z' Hm) as (c & w & E & Hc). rewrite skipSpace_skip; [|auto|rewrite E; apply starter_facts in Hc; cbn; tauto].
  assert (G : forall X : option input, match m ++ z' with [] => None | _ => X end = X) by (intros X; rewrite E; reflexivity). rewrite G. clear G c w E Hc.
  destruct Hm as [(a & r & -> & Ha & Hr)|(p & s & a & g & -> & Hp & Hs & Ha & Hg)]; rewrite <- app_assoc.
  - pose proof (spec_complete [] a (r ++ z') (Forall_nil _) Ha) as Es. cbn [app] in Es. rewrite Es by (apply remark_no_atom; auto). apply after_complete; auto.
  - cbn [app]. rewrite <- !app_assoc. cbn [app]. set (w := s ++ a ++ 62 :: g ++ z'). assert (Es : consumeAddrSpec (p ++ 60 :: w) = None).
    { destruct Hp as [->|Hp]; [apply less_no_spec|apply phrase_no_spec; auto; right; auto]. }
    rewrite Es. destruct (display_complete p 60 w) as (y & -> & ->); [tauto|right; auto|]. unfold w. rewrite angle_complete by auto.
    exists (g ++ z'). split; [reflexivity|]. apply skipCFWS_complete; auto.
Qed.

(** ** Addresses *)
Lemma group_count n : forall s k z, groupLoop n s = Some (k, z) -> (1 <= k)%nat.
Proof.
  induction n as [|n IH]; intros s k z; cbn [groupLoop]; [discriminate|]. destruct (parseMailbox (skipSpace s)); [|discriminate]. destruct (skipCFWS i) as [j|]; [|discriminate].
  destruct (consume 59 j) as [j'|]; [destruct (skipCFWS j'); [intros [= <- _]; lia|discriminate]|]. destruct (consume 44 j) as [j'|]; [|discriminate].
  destruct (groupLoop n j') as [[k' z']|]; [intros [= <- _]; lia|discriminate].
Qed.
Lemma group_sound s z : consumeGroupList s = Some (1%nat, z) ->
  exists b m g, s = b ++ m ++ 59 :: g ++ z /\ spaces b /\ mailbox m /\ cfws g /\ no_cfws z.
Proof.
  unfold consumeGroupList. destruct (skipSpace_split s) as (b & E & Hb & Hn). set (s1 := skipSpace s) in *. clearbody s1. subst s.
  destruct (consume 59 s1) as [s2|]; [destruct (skipCFWS s2); discriminate|]. cbn [groupLoop]. rewrite skipSpace_none by auto.
  destruct (parseMailbox s1) as [v|] eqn:Em; [|discriminate]. destruct (skipCFWS v) as [v'|] eqn:Ev; [|discriminate].
  destruct (mailbox_sound _ _ _ Em Ev) as (b' & m & -> & Hb' & Hm).
  destruct (consume 59 v') as [y|] eqn:Ec.
  - apply consume_some in Ec. subst v'. destruct (skipCFWS y) as [y'|] eqn:Ey; [|discriminate]. intros [= <-]. apply skipCFWS_sound in Ey. destruct Ey as (g & -> & Hg & Hz).
    exists (b ++ b'), m, g. split; [rewrite <- app_assoc; reflexivity|]. split; [apply Forall_app; auto|]. auto.
  - destruct (consume 44 v') as [y|]; [|discriminate]. destruct (groupLoop _ y) as [[k w]|] eqn:Eg; [|discriminate]. apply group_count in Eg. intros [= -> _]. lia.
Qed.
Lemma group_complete b m g : spaces b -> mailbox m -> cfws g -> consumeGroupList (b ++ m ++ 59 :: g) = Some (1%nat, []).
Proof.
  intros Hb Hm Hg. unfold consumeGroupList. destruct (mailbox_head m (59 :: g) Hm) as (c & w & E & Hc). apply starter_facts in Hc.
  rewrite skipSpace_skip; [|auto|rewrite E; cbn; tauto]. replace (consume 59 (m ++ 59 :: g)) with (@None input) by (symmetry; apply consume_none; rewrite E; cbn; tauto).
  cbn [groupLoop]. rewrite skipSpace_none by (rewrite E; cbn; tauto).
  destruct (mailbox_complete [] m (59 :: g) (Forall_nil _) Hm) as (z & Ez & Hz); [cbn; unfold wsp; lia|apply no_atom_in; cbn; tauto|]. cbn [app] in Ez. rewrite Ez, Hz. cbn [consume].
  change (59 =? 59) with true. cbv iota. rewrite <- (app_nil_r g), skipCFWS_complete by (auto; exact I). reflexivity.
Qed.
Lemma address_step s : parseAddress s =
  match skipSpace s with
  | [] => None
  | _ =>
      match consumeAddrSpec (skipSpace s) with
      | Some z => match afterSpec z with Some z => Some (1%nat, z) | None => None end
      | None =>
          match displayName (skipSpace s) with
          | None => None
          | Some z => match consume 58 (skipSpace z) with Some z' => consumeGroupList z' | None => match angle (skipSpace z) with Some z => Some (1%nat, z) | None => None end end
          end
      end
  end.
Proof. unfold parseAddress. destruct (skipSpace s); reflexivity. Qed.
Lemma mailbox_address s z : parseMailbox s = Some z -> parseAddress s = Some (1%nat, z).
Proof.
  rewrite mailbox_step, address_step. destruct (skipSpace s); [discriminate|]. destruct (consumeAddrSpec _); [intros ->; reflexivity|].
  destruct (displayName _) as [y|]; [|discriminate]. intros H. rewrite H. apply angle_sound in H. destruct H as (b & a & -> & _). reflexivity.
Qed.
Lemma address_sound s z : parseAddress s = Some (1%nat, z) -> skipCFWS z = Some [] -> mail_address s.
Proof.
  intros H Hz. destruct (parseMailbox s) as [y|] eqn:Em.
  - apply mailbox_address in Em as Em'. rewrite Em' in H. injection H as ->. destruct (mailbox_sound _ _ _ Em Hz) as (b & m & -> & Hb & Hm). rewrite app_nil_r. exists b, m. auto.
  - rewrite mailbox_step in Em. rewrite address_step in H. destruct (skipSpace_split s) as (b & E & Hb & Hn). set (s1 := skipSpace s) in *. clearbody s1. subst s.
    destruct s1 as [|c w]; [discriminate|]. destruct (consumeAddrSpec (c :: w)); [rewrite Em in H; discriminate|]. destruct (displayName (c :: w)) as [y|] eqn:Ed; [|discriminate].
    destruct (consume 58 (skipSpace y)) as [v|] eqn:Ec; [|rewrite Em in H; discriminate]. apply consume_some in Ec. destruct (display_sound _ _ _ _ Hn Ed Ec) as (p & Ep & Hp); [left; auto|].
    rewrite Ep. apply group_sound in H. destruct H as (b' & m & g & -> & Hb' & Hm & Hg & Hnz). rewrite no_cfws_skip in Hz by auto. injection Hz as ->. rewrite app_nil_r.
    exists b, (p ++ 58 :: b' ++ m ++ 59 :: g). split; [reflexivity|]. split; [auto|]. right. exists p, b', m, g. split; [reflexivity|]. destruct Hp as [[_ K]|Hp]; [discriminate|auto].
Qed.
Lemma address_complete s : mail_address s -> exists z, parseAddress s = Some (1%nat, z) /\ skipCFWS z = Some [].
Proof.
  intros (b & m & -> & Hb & [Hm|(p & s0 & a & g & -> & Hp & Hs & Ha & Hg)]).
  - destruct (mailbox_complete b m [] Hb Hm I I) as (z & Ez & Hz). rewrite app_nil_r in Ez. apply mailbox_address in Ez. eauto.
  - exists []. split; [|reflexivity]. set (w := s0 ++ a ++ 59 :: g). destruct (phrase_head p (58 :: w) Hp) as (c & v & E & Hc).
    rewrite address_step, skipSpace_skip; [|auto|rewrite E; destruct Hc as [->|Hc]; [cbn; unfold wsp; lia|apply atom_char_facts in Hc; cbn; tauto]].
    assert (G : forall X : option (nat * input), match p ++ 58 :: w with [] => None | _ => X end = X) by (intros X; rewrite E; reflexivity). rewrite G.
    rewrite phrase_no_spec by (auto; left; auto). destruct (display_complete p 58 w) as (y & -> & ->); [auto|left; auto|]. cbn [consume]. change (58 =? 58) with true. cbv iota.
    unfold w. apply group_complete; auto.
Qed.

(** ** Texts *)
Lemma rune_good k c b : good k -> utf8_of c b -> cbytes k = b -> rune_of k = c.
Proof.
  intros Hk H E. destruct H; repeat match type of E with context [ascii_of_N ?n] => let p := fresh "p" in remember (ascii_of_N n) as p end; destruct k as [a1|a1 a2|a1 a2 a3|a1 a2 a3 a4|a1]; cbn [cbytes] in E; try discriminate; try contradiction; injection E; intros; subst;
    cbn [rune_of]; rewrite ?byte_id by lia; lia.
Qed.
Lemma runes_text cps s : text cps s -> runes s = cps.
Proof.
  unfold runes. induction 1 as [|c cps b s Hu Ht IH]; [reflexivity|]. destruct (utf8_good c b Hu) as (k & Hk & E). pose proof (rune_good k c b Hk Hu E) as R. subst b.
  rewrite good_head by auto. cbn [map]. congruence.
Qed.
Theorem ParseAddress_exact cps s : text cps s -> (ParseAddress s = true <-> mail_address cps).
Proof.
  intros Ht. unfold ParseAddress. rewrite (runes_text cps s Ht). split.
  - destruct (parseAddress cps) as [[n z]|] eqn:E; [|discriminate]. destruct (skipCFWS z) as [[|]|] eqn:Ez; try discriminate. intros H. apply Nat.eqb_eq in H. subst n. eapply address_sound; eauto.
  - intros H. destruct (address_complete cps H) as (z & -> & ->). reflexivity.
Qed.

(** ** Addresses without names, comments and quotes *)
Definition bare (cps : list N) : Prop := forall c, In c cps -> ~ wsp c /\ ~ In c (codes "()<>:;,""").
Lemma bare_spaces s : bare s -> spaces s -> s = [].
Proof. intros H Hs. destruct Hs as [|c s Hc _]; [reflexivity|]. exfalso. destruct (H c (or_introl eq_refl)) as [K _]. exact (K Hc). Qed.
Lemma bare_not s c : bare s -> In c (codes "()<>:;,""") -> ~ In c s.
Proof. intros H Hc K. apply H in K. tauto. Qed.
Lemma bare_exact cps : bare cps -> (mail_address cps <-> exists l d, dot_atom l /\ dot_atom d /\ cps = l ++ 64 :: d).
Proof.
  intros B. split.
  - assert (I60 : ~ In 60 cps) by (apply bare_not; vm_compute; tauto). assert (I58 : ~ In 58 cps) by (apply bare_not; vm_compute; tauto).
    assert (I40 : ~ In 40 cps) by (apply bare_not; vm_compute; tauto). assert (I34 : ~ In 34 cps) by (apply bare_not; vm_compute; tauto).
    intros (s & m & -> & Hs & Hm). assert (S : forall x, incl x (s ++ m) -> spaces x -> x = []).
    { intros x Hx. apply bare_spaces. intros c Hc. apply B. auto. }
    destruct Hm as [[(a & z & -> & (l & s2 & d & Hl & Hs2 & Hd & ->) & Hz)|(p & s2 & a & g & -> & _)]|(p & s2 & b & g & -> & _)].
    + rewrite (S s) by (auto; intros x Hx; apply in_or_app; auto). destruct Hz as [Hz|(s3 & c & t & g & -> & _)].
      * rewrite (S z) by (auto; intros x Hx; rewrite !in_app_iff; auto). rewrite (S s2) by (auto; intros x Hx; rewrite !in_app_iff; cbn [In]; rewrite in_app_iff; tauto).
        rewrite app_nil_r. cbn [app]. destruct Hl as [Hl|[(q & _ & ->) _]]; [exists l, d; auto|]. exfalso. apply I34. rewrite !in_app_iff. cbn [In]. auto.
      * exfalso. apply I40. rewrite !in_app_iff. cbn [In]. auto 6.
    + exfalso. apply I60. rewrite !in_app_iff. cbn [In]. auto.
    + exfalso. apply I58. rewrite !in_app_iff. cbn [In]. auto.
  - intros (l & d & Hl & Hd & ->). exists [], (l ++ 64 :: d). split; [reflexivity|]. split; [constructor|]. left. left. exists (l ++ 64 :: d), []. rewrite app_nil_r.
    split; [reflexivity|]. split; [|left; constructor]. exists l, [], d. split; [left; auto|]. split; [constructor|]. auto.
Qed.
Lemma addr_spec_address a : addr_spec a -> mail_address a.
Proof. intros H. exists [], a. split; [reflexivity|]. split; [constructor|]. left. left. exists a, []. rewrite app_nil_r. split; [reflexivity|]. split; [auto|left; constructor]. Qed.
Lemma codes_text s : Forall (fun c => N_of_ascii c < 128) (list_ascii_of_string s) -> text (codes s) s.
Proof.
  induction s as [|a s IH]; intros H; [constructor|]. inversion H; subst. change (codes (String a s)) with (N_of_ascii a :: codes s).
  change (String a s) with (append (String a "") s). constructor; [|auto]. rewrite <- (ascii_id a) at 2. constructor. auto.
Qed.
