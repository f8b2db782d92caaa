(** The library as a program uses it: package-level Validate, with Go's packages
    regexp, net/url and net/mail behind it. *)
From Coq Require Import ZArith.
From Verif Require Import ModelURL ModelFormat ModelLoader.
From Verif Require ModelMail ModelRegexp URIFormat.
Open Scope nat_scope.

(** The global registry of formats as it is set up, format_checkers.go:107-130, with
    the models of net/mail (format_checkers.go:198), net/url (:268-296) and regexp
    (:346); and package regexp itself (schema.go:325, :655, validation.go:691).
    ud: the tables of package unicode; lim: see GoEnv. *)
Definition go_libs (ud : ModelRegexp.unidata) (lim : Z) : goenv :=
  GoEnv lim (ModelRegexp.re_compiles ud) (ModelRegexp.re_MatchString ud)
    (IsFormat (FormatCheckers (URIFormat.go_fmt ModelMail.ParseAddress (ModelRegexp.re_compiles ud)))).

(** Validate(ls, ld), validation.go:39-46; None when it returns an error. *)
Definition Validate (w : world) (fuel : nat) (o : oracle) (ls ld : loader) : out (option result) :=
  match NewSchema w fuel (shift o 0) ls with
  | LOk sch _ =>
      match Schema_Validate w fuel (shift o 1) sch ld with
      | None => Ok None
      | Some x => obind x (fun r => Ok (Some r))
      end
  | LErr _ _ => Ok None
  | LPanic => Panic
  | LNoFuel => NoFuel
  end.
