(** The numbers in the messages (C59), and the reasons of the errors (C60).

    [shows], [bound_messages], [count_messages] (SpecShow.v): what a printed
    number has to do with the bound, and which message shows which keyword.
    [applies], [own], [broken], [why] (SpecWhy.v): which schema objects apply to
    which parts of the instance, and which keyword an error says is broken.
    [go_show] (ModelShow.v): how package fmt prints a detail. *)
From Coq Require Import Relations.
From Verif Require Import ModelTemplate ModelShow SpecShow SpecWhy WhyProps ShowMessages ValidateApi World0.

(** ** C59 *)
Theorem C59_bounds : forall env h root o v r, fair o -> returns env h root o v r ->
  Forall (fun e => forall text f, In (r_type e, text, f) bound_messages ->
    exists n q s, In n h /\ f n = Some q /\ shows s q /\ description go_show e = (text ++ s)%string) (errors r).
Proof. exact bounds_shown. Qed.
Print Assumptions C59_bounds.
Theorem C59_counts : forall env h root o v r, fair o -> returns env h root o v r ->
  Forall (fun e => forall pre post f, In (r_type e, pre, post, f) count_messages ->
    exists n k s, In n h /\ f n = Some k /\ denotes s (inject_Z k) /\ description go_show e = (pre ++ s ++ post)%string) (errors r).
Proof. exact counts_shown. Qed.
Print Assumptions C59_counts.
Definition C59_says (schema instance : string) : list string :=
  match validate_text schema instance with Ok r => map (description go_show) (errors r) | _ => [] end.
Example C59_example :
  C59_says "{""minimum"":1000000,""exclusiveMinimum"":0.10,""multipleOf"":1e-7,""minLength"":3}" "-0.33333333333333333333" =
    ["Must be a multiple of 1e-07"; "Must be greater than or equal to 1e+06"; "Must be greater than 0.1"] /\
  C59_says "{""maximum"":18446744073709551617}" "18446744073709551617.5" = ["Must be less than or equal to 1.8446744073709551617e+19"] /\
  C59_says "{""minLength"":3}" """ab""" = ["String length must be greater than or equal to 3"].
Proof. vm_compute. auto. Qed.
(** The number shown need not be the bound when that has more digits: here the
    message asks for at most a number that is itself too big. *)
Theorem C59_refuted : exists schema bound instance told,
  C59_says schema instance = [("Must be less than or equal to " ++ told)%string] /\
  C59_says schema told = [("Must be less than or equal to " ++ told)%string] /\
  error_names (validate_text schema bound) = [] /\ schema = ("{""maximum"":" ++ bound ++ "}")%string.
Proof.
  exists "{""maximum"":0.333333333333333333333085364224}", "0.333333333333333333333085364224", "1", "0.333333333333333333333085365".
  split; [vm_compute; reflexivity|]. split; [vm_compute; reflexivity|]. split; vm_compute; reflexivity.
Qed.
Print Assumptions C59_refuted.

(** ** C60 *)
Theorem C60_reasons : forall env h root o v r, fair o -> returns env h root o v r ->
  Forall (why env h (root, v, ["(root)"])) (errors r).
Proof. intros env h root o v r F (k & E). exact (errors_have_reasons env h k o root v _ F r E). Qed.
Print Assumptions C60_reasons.
(** A number too small two levels down: the reason is the cell that properties
    and then items lead to. *)
Example C60_example :
  let h := graph "{""properties"":{""a"":{""items"":{""minimum"":2}}}}" in let v := loaded "{""a"":[3,1]}" in
  error_names (validate_text "{""properties"":{""a"":{""items"":{""minimum"":2}}}}" "{""a"":[3,1]}") = [("number_gte", "a.1")] /\
  exists i j, applies go0 h (0, v, ["(root)"]) (i, VArr [VNum "3"; VNum "1"], ["a"; "(root)"]) /\
    applies go0 h (i, VArr [VNum "3"; VNum "1"], ["a"; "(root)"]) (j, VNum "1", ["1"; "a"; "(root)"]) /\
    option_map n_minimum (nth_error h j) = Some (Some (2 # 1)%Q).
Proof.
  cbv zeta. split; [vm_compute; reflexivity|]. exists 1, 2. split; [|split; [|vm_compute; reflexivity]].
  - apply rt_step. eapply l_hands; [vm_compute; reflexivity|reflexivity|reflexivity|].
    let x := eval vm_compute in (nth_error (graph "{""properties"":{""a"":{""items"":{""minimum"":2}}}}") 1) in
    match x with Some ?p => change ["a"; "(root)"] with (n_property p :: ["(root)"]);
      eapply (h_property _ _ _ _ _ _ 1 p); [vm_compute; reflexivity|left; reflexivity|vm_compute; reflexivity|vm_compute; reflexivity] end.
  - apply rt_step. eapply l_hands; [vm_compute; reflexivity|reflexivity|reflexivity|].
    apply (h_items _ _ _ _ _ [VNum "3"; VNum "1"] 1); vm_compute; (reflexivity || discriminate).
Qed.
