(** The text of errors (C52).

    [messages], [said], [place] (SpecMessage.v): what each type of error says,
    and how a place is written.  [decoded]: values the library's decoder
    produces (PropValidate.v). *)
From Verif Require Import SpecErrors ValidateApi World0 ModelTemplate MessageProps.

(** ** C52 *)
Theorem C52_text : forall env h root o v r show shown, fair o -> decoded v -> returns env h root o v r -> (forall s, show (DStr s) = s) ->
  Forall (fun e => exists p ps msg, r_ctx e = rev ("(root)" :: p) /\ In (type_name (r_type e), ps) messages /\
    said (fun k y => exists d, assoc k (r_details e) = Some d /\ y = show d) ps msg /\
    error_String show shown (Some (r_ctx e)) (description show e) (r_value e) = Ok (place p ++ ": " ++ msg)%string) (errors r).
Proof. exact error_text. Qed.
Print Assumptions C52_text.
(** Each type has one message. *)
Theorem C52_one_message : forall t ps ps', In (t, ps) messages -> In (t, ps') messages -> ps = ps'.
Proof. exact one_message. Qed.
Print Assumptions C52_one_message.
Definition C52_show (d : dval) : string := match d with DStr s => s | DInt z => itoa z | DRegexp p => p | _ => "?" end.
Example C52_example :
  match validate_text "{""required"":[""k{{.field}}""],""properties"":{""a"":{""items"":{""minLength"":2}}}}" "{""a"":[""xx"",""y""]}" with
  | Ok r => map (fun e => error_String C52_show (fun _ => "") (Some (r_ctx e)) (description C52_show e) (r_value e)) (errors r)
  | _ => []
  end = [Ok "(root): k{{.field}} is required"; Ok "a.1: String length must be greater than or equal to 2"].
Proof. vm_compute. reflexivity. Qed.
(** An error a caller added without a context has no text: String panics. *)
Theorem C52_refuted : exists show shown es e m des de, AddError show es e (Some m) = Ok des /\ In de des /\
  error_String show shown (ue_ctx (de_error de)) (de_description de) (ue_value (de_error de)) = Panic.
Proof.
  exists C52_show, (fun _ => ""), [], (UserError None "bad" VNil), [], [Described (UserError None "bad" VNil) "bad"], (Described (UserError None "bad" VNil) "bad").
  split; [vm_compute; reflexivity|]. split; [left; reflexivity|reflexivity].
Qed.
Print Assumptions C52_refuted.
