(** The text of the errors NewSchema and Compile return. *)
From Verif Require Export ModelCompile ModelTemplate ModelShow.
Open Scope string_scope.

(** err.String() of an error of a result (result.go:155-182); ErrorFormat does
    not use the value. *)
Definition String_of (e : rerror) : string :=
  match error_String go_show (fun _ => "") (Some (r_ctx e)) (description go_show e) (r_value e) with Ok s => s | _ => "" end.
Definition newline : string := String (ascii_of_nat 10) "".

(** Error() of an error: the expanded template (formatErrorDescription,
    errors.go:332-364), the text of schemaPool.go:57 and 101, or None when the
    text comes from another library (net/url, net/http, os, gojsonpointer,
    encoding/json). *)
Definition Error (e : cerr) : option string :=
  match e with
  | EMsg t args => Some (render (fun v => match v with DStr s => s | _ => "" end) t (map (fun a => (fst a, DStr (snd a))) args))
  | EMeta es => Some (concat_str (map (fun e => append (String_of e) newline) es))   (* schemaLoader.go:79-88 *)
  | EExists r => Some (append "Reference already exists: """ (append r """"))
  | _ => None
  end.
