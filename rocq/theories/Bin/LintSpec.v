(** What settings may do to lints (C38). *)
From Coq Require Import String.
From Verif Require Import Base.Tactics Base.Bytes Base.Ascii Base.Sort Bin.ExecModel Bin.LintModel.
Local Open Scope N_scope.
Local Open Scope list_scope.

(** How a lint is set: what the project says about it, else its default; options are set one by one. *)
Record is_set (s : map_of override) (l : lint) (c : config) : Prop := {
  set_enabled : enabled c = match get s (ident l) with Some (Override (Some b) _ _) => b | _ => enabled (default_config l) end;
  set_severity : config_severity c = match get s (ident l) with Some (Override _ (Some v) _) => v | _ => config_severity (default_config l) end;
  set_options : forall k, get (options c) k =
    match get s (ident l) with
    | Some (Override _ _ o) => match get o k with Some v => Some v | None => get (options (default_config l)) k end
    | None => get (options (default_config l)) k
    end }.
(** A setting that may be: not below the minimum, and on if the minimum is error. *)
Definition allowed (l : lint) (c : config) : Prop := rank (minimum l) <= rank (config_severity c) /\ (minimum l = SError -> enabled c = true).
(** How low HEMTT's own lints can be set; any other lint, and any name that is none, can be set to help. *)
Definition found (table : list (string * severity)) (name : bytes) : severity :=
  match find (fun e => eqb_bytes (bs (fst e)) name) table with Some (_, v) => v | None => SHelp end.
Definition lowest_config : bytes -> severity := found [
  ("invalid_value", SError); ("duplicate_property", SError); ("duplicate_classes", SError); ("external_missing", SError); ("unexpected_array", SError);
  ("expected_array", SError); ("missing_semicolon", SError); ("class_missing_braces", SError); ("magwell_missing_magazine", SWarning)]%string.
Definition lowest_sqf : bytes -> severity := found [
  ("required_version", SError); ("reasign_reserved_variable", SError); ("event_incorrect_command", SError); ("event_insufficient_version", SError);
  ("format_args", SWarning); ("banned_commands", SWarning); ("event_unknown", SWarning)]%string.
