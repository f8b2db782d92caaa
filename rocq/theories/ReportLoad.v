(** The errors of Compile for a document that is no schema of its draft. *)
From Verif Require Import DraftsLoad URLProps.
From Verif Require SpecReason ModelError.
Open Scope string_scope.
Open Scope list_scope.
Open Scope nat_scope.

Lemma checked_tells : forall w, url_laws w -> web_laws w -> meta_urls w -> (0 <= e_ratlim (w_go w))%Z ->
  forall fuel o sl l p doc d, checking w fuel o sl l p doc d -> d <> Hybrid ->
  ~ lawful (fun f s => fmt (w_go w) f (VStr s)) same d doc ->
  exists es sl', meta_tells (w_go w) d doc es /\ Compile w fuel o sl l = LErr (EMeta es) sl'.
Proof.
  intros w HU HW HM Hlim fuel o sl l p doc d CH Hd N. pose proof CH as (H1 & H2 & H3 & H4 & H5 & H6 & H7 & H8 & H9 & H10 & H11).
  destruct (compile_checked w HU HW HM Hlim fuel o sl l p doc d H1 H2 H3 H4 H5 H6 H7 H8 H9 H10 H11) as [DK [[[C|C] _]|(_ & es & sl' & HT & E & _)]]; [contradiction| |].
  - destruct N. apply conforms_lawful in C; auto. apply DK.
  - exists es, sl'. auto.
Qed.
Lemma tells_lines go d doc es : meta_tells go d doc es ->
  let T := meta_leads d in let V := meaning (pat go) (fmt go) same T in
  exists ls, ModelError.Error (EMeta es) = Some (concat_str (map (fun l => append l (String (ascii_of_nat 10) "")) ls)) /\ Forall2 line es ls /\ es <> [] /\
    Forall (SpecReason.justified (pat go) (fmt go) same V T d (meta_schema d) doc) es /\
    SpecReason.reports_due (SpecReason.due (pat go) (fmt go) same V T d (meta_schema d) doc) es.
Proof. intros [(A & B & C) (ls & F & E)]. exists ls. auto. Qed.

Theorem checked_report : forall w, url_laws w -> web_laws w -> meta_urls w -> (0 <= e_ratlim (w_go w))%Z ->
  forall fuel o sl l p doc d, checking w fuel o sl l p doc d -> d <> Hybrid ->
  let go := w_go w in
  ~ lawful (fun f s => fmt go f (VStr s)) same d doc ->
  let T := meta_leads d in let V := meaning (pat go) (fmt go) same T in
  exists es ls sl', Compile w fuel o sl l = LErr (EMeta es) sl' /\
    ModelError.Error (EMeta es) = Some (concat_str (map (fun l => append l (String (ascii_of_nat 10) "")) ls)) /\ Forall2 line es ls /\ es <> [] /\
    Forall (SpecReason.justified (pat go) (fmt go) same V T d (meta_schema d) doc) es /\
    SpecReason.reports_due (SpecReason.due (pat go) (fmt go) same V T d (meta_schema d) doc) es.
Proof.
  intros w HU HW HM Hlim fuel o sl l p doc d CH Hd go N T V.
  destruct (checked_tells w HU HW HM Hlim fuel o sl l p doc d CH Hd N) as (es & sl' & M & E). destruct (tells_lines _ _ _ _ M) as (ls & R). exists es, ls, sl'. split; [exact E|exact R].
Qed.
Theorem plain_report : forall go fs http rest, serves_plain go fs http rest -> (0 <= e_ratlim go)%Z ->
  forall fuel o sl l p doc d, plain_loader go fs http rest l -> plain_pool go fs http rest (sl_pool sl) ->
  checking (plain_world go fs http rest) fuel o sl l p doc d -> d <> Hybrid ->
  ~ lawful (fun f s => fmt go f (VStr s)) same d doc ->
  let T := meta_leads d in let V := meaning (pat go) (fmt go) same T in
  exists es ls sl', Compile (go_world go fs http rest) fuel o sl l = LErr (EMeta es) sl' /\
    ModelError.Error (EMeta es) = Some (concat_str (map (fun l => append l (String (ascii_of_nat 10) "")) ls)) /\ Forall2 line es ls /\ es <> [] /\
    Forall (SpecReason.justified (pat go) (fmt go) same V T d (meta_schema d) doc) es /\
    SpecReason.reports_due (SpecReason.due (pat go) (fmt go) same V T d (meta_schema d) doc) es.
Proof.
  intros go fs http rest SP HR fuel o sl l p doc d Tl Tp CH Hd N T V.
  rewrite plain_Compile; auto; [|apply CH].
  pose proof (plain_laws go fs http rest) as [L1 L2].
  exact (checked_report (plain_world go fs http rest) L1 L2 (plain_meta go fs http rest) HR fuel o sl l p doc d CH Hd N).
Qed.
