(** JSON pointers in references (C51).

    [points] (SpecLocate.v): following an RFC 6901 pointer; [pointer_text]: its
    text.  [reaches], [go_index], [rfc_index], [fragment_decoded]
    (SpecPointer.v): the same for any notion of index and any text. *)
From Coq Require Import Lia.
From Verif Require Import CheckedFetch World0 ModelURL URLProps URLRfc PointerProps.

(** ** C51 *)
(** A pointer whose tokens are not odd numbers is followed as RFC 6901 says;
    where it leads nowhere, the reference fails. *)
Theorem C51_pointer : forall ce o r s b ts,
  assoc r (st_pool s) = None -> assoc (u_strip ce r) (st_pool s) = Some b -> u_fragment ce r = pointer_text ts ->
  Forall (fun t => forall n, go_index t n -> rfc_index t n) ts ->
  (forall x, points ts (sp_doc b) x <-> exists s', GetDocument ce o r s = COk (Spd x (sp_draft b)) s') /\
  ((forall x, ~ points ts (sp_doc b) x) <-> GetDocument ce o r s = CErr EPointer s).
Proof. exact document_pointer. Qed.
Print Assumptions C51_pointer.
(** Exactly what any fragment leads to. *)
Theorem C51_exact : forall ce o r s b, assoc r (st_pool s) = None -> assoc (u_strip ce r) (st_pool s) = Some b ->
  exists ts, fragment_decoded (u_fragment ce r) ts /\ forall ts', fragment_decoded (u_fragment ce r) ts' ->
  (forall x, reaches go_index ts' (sp_doc b) x <-> exists s', GetDocument ce o r s = COk (Spd x (sp_draft b)) s') /\
  ((forall x, ~ reaches go_index ts' (sp_doc b) x) <-> GetDocument ce o r s = CErr EPointer s).
Proof.
  intros ce o r s b N B. destruct (fragment_exists (u_fragment ce r)) as [ts F]. exists ts. split; [exact F|]. intros ts' F'.
  destruct (document_fragment ce o r s b ts' N B F') as (H1 & H2 & _). exact (conj H1 H2).
Qed.
Print Assumptions C51_exact.
(** The fragment is the percent-decoded text after "#", for every reference
    Go's library accepts. *)
Theorem C51_fragment : forall r, ref_parse r <> None ->
  ref_fragment r = percent_decode (match u_frag (split_uri r) with Some f => f | None => "" end).
Proof. exact fragment_any. Qed.
Print Assumptions C51_fragment.

Definition C51_doc : value := VMap [("a/b~c", VArr [VNum "1"; VMap [("", VBool true)]]); ("01", VNum "3"); ("~2", VNil)].
Definition C51_state : cstate := CState [] [] [("http://x/d", Spd C51_doc (Some Draft7))] [].
Definition C51_ce : cenv := cenv_of (go_world go0 (fun _ _ => None) (fun _ => None) (fun _ => "")) NewSchemaLoader.
Definition C51_get (r : string) : option value := match GetDocument C51_ce in_order r C51_state with COk e _ => Some (sp_doc e) | _ => None end.
Example C51_example :
  assoc "http://x/d#/a~1b~0c/1/" (st_pool C51_state) = None /\ assoc (u_strip C51_ce "http://x/d#/a~1b~0c/1/") (st_pool C51_state) = Some (Spd C51_doc (Some Draft7)) /\
  u_fragment C51_ce "http://x/d#/a~1b~0c/1/" = pointer_text ["a/b~c"; "1"; ""] /\
  Forall (fun t => forall n, go_index t n -> rfc_index t n) ["a/b~c"; "1"; ""] /\ points ["a/b~c"; "1"; ""] C51_doc (VBool true) /\
  map C51_get ["http://x/d#/a~1b~0c/1/"; "http://x/d#/a%2fb~0c"; "http://x/d#/a~1b~0c/2"; "http://x/d#/01"; "http://x/d"; "http://x/d#/a~1b~0c/0"; "http://x/d#/%61~1b%7E0c/0"] =
    [Some (VBool true); None; None; Some (VNum "3"); Some C51_doc; Some (VNum "1"); Some (VNum "1")].
Proof.
  split; [reflexivity|]. split; [vm_compute; reflexivity|]. split; [vm_compute; reflexivity|]. split; [|split].
  - assert (A : forall t n, go_index t n -> atoi t = Some (Z.of_nat n)) by (intros t n H; apply atoi_iff; [lia|rewrite Nat2Z.id; exact H]).
    apply Forall_forall. intros t Ht n H. apply A in H. destruct Ht as [<-|[<-|[<-|[]]]]; [discriminate H| |discriminate H].
    change (atoi "1") with (Some 1%Z) in H. assert (n = 1) as -> by (injection H as H; lia). split; [|reflexivity]. right. split; [exists 0; apply (ds_cons 1 "" 0 0); [lia|constructor]|discriminate].
  - econstructor; [reflexivity|]. eapply points_element with (n := 1); [right; split; [exists 0; apply (ds_cons 1 "" 0 0); [lia|constructor]|discriminate]|reflexivity|reflexivity|].
    econstructor; [reflexivity|]. constructor.
  - vm_compute. reflexivity.
Qed.
(** Without that condition the claim is false: "01" and "+1" are taken for
    indices; a fragment that is no pointer, such as "foo", leads to the whole
    document; "~2" is taken for a name. *)
Theorem C51_refuted :
  (exists ts x, C51_get (append "http://x/d#" (pointer_text ts)) = Some x /\ forall y, ~ points ts C51_doc y) /\
  (exists f x, C51_get (append "http://x/d#" f) = Some x /\ x = C51_doc /\ f <> "" /\ (forall ts, f <> pointer_text ts)) /\
  (exists f x, C51_get (append "http://x/d#" f) = Some x /\ x <> C51_doc /\ (forall ts, f <> pointer_text ts)).
Proof.
  split; [|split].
  - exists ["a/b~c"; "01"], (VMap [("", VBool true)]). split; [vm_compute; reflexivity|]. intros y H. inversion H as [|? ? ? ? ? E P|]; subst. cbn in E. injection E as <-.
    inversion P as [|? ? ? ? ? E P'|? ? ? n ? ? I]; subst. destruct I as [[I _]|[_ I]]; [discriminate|exact (I "1" eq_refl)].
  - exists "foo", C51_doc. split; [vm_compute; reflexivity|]. split; [reflexivity|]. split; [discriminate|]. intros [|t ts]; discriminate.
  - exists "/~2", VNil. split; [vm_compute; reflexivity|]. split; [discriminate|]. intros [|t ts]; [discriminate|]. cbn [pointer_text]. intros E. injection E as E.
    destruct t as [|c t]; [destruct ts; discriminate E|]. unfold escaped in E. destruct (Ascii.eqb_spec c "~") as [->|N]; [discriminate E|].
    destruct (Ascii.eqb_spec c "/") as [->|N']; [discriminate E|]. destruct c as [[] [] [] [] [] [] [] []]; try discriminate E; congruence.
Qed.
Print Assumptions C51_refuted.
