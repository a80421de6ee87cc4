(** Model of the lint settings: libs/workspace/src/lint/mod.rs and macros.rs, libs/common/src/config/project/lint.rs, and the
    lints of libs/sqf, libs/config and libs/stringtable with their defaults. What a lint finds is a parameter. *)
From Coq Require Import String.
From Verif Require Import Base.Tactics Base.Bytes Base.Ascii Base.Sort Bin.ExecModel.
Local Open Scope N_scope.
Local Open Scope list_scope.

(** codespan_reporting [Severity] is ordered from help up to bug. *)
Definition rank (s : severity) : N := match s with SHelp => 1 | SNote => 2 | SWarning => 3 | SError => 4 | SBug => 5 end.

(** A hash map as its entries; the last entry of a key counts. *)
Section Map.
  Context {V : Type}.
  Definition map_of := list (bytes * V).
  Fixpoint get (m : map_of) (k : bytes) : option V :=
    match m with
    | [] => None
    | (k', v) :: m => match get m k with Some x => Some x | None => if eqb_bytes k k' then Some v else None end
    end.
End Map.
Arguments map_of : clear implicits.

(** lint.rs:41-46, 107-113: option values stay abstract. *)
Record config := Config { enabled : bool; config_severity : severity; options : map_of bytes }.
Record override := Override { o_enabled : option bool; o_severity : option severity; o_options : map_of bytes }.
(** lint.rs:132-142 [LintConfigOverride::apply]. *)
Definition apply (o : override) (c : config) : config :=
  Config (match o_enabled o with Some b => b | None => enabled c end)
         (match o_severity o with Some s => s | None => config_severity c end)
         (options c ++ o_options o).
(** lint.rs:181-209: what a project file can say about a lint. *)
Inductive config_file := FEnabled (b : bool) | FSeverity (s : severity) | FFull (o : override).
Definition override_of (f : config_file) : override :=
  match f with
  | FEnabled b => Override (Some b) None []
  | FSeverity s => Override None (Some s) []
  | FFull o => o
  end.

(** mod.rs:10-26. *)
Record lint := Lint { ident : bytes; default_config : config; minimum : severity }.

Section Manager.
  Context {C G : Type}.
  (** mod.rs:117-121. *)
  Record manager := Manager { lints : list lint; groups : list (list lint * G); configs : map_of override }.
  Definition new_manager (c : map_of override) : manager := Manager [] [] c.
  (** mod.rs:174-213 [check], as to whether there are errors, and how many. *)
  Definition effective (c : map_of override) (l : lint) : config :=
    match get c (ident l) with Some o => apply o (default_config l) | None => default_config l end.
  Definition b2n (b : bool) : nat := if b then 1%nat else 0%nat.
  Definition lint_errors (m : manager) (l : lint) : nat :=
    (b2n (existsb (fun k => eqb_bytes (ident k) (ident l)) (lints m)) +
     match get (configs m) (ident l) with
     | None => 0
     | Some o =>
         let c := apply o (default_config l) in
         b2n (rank (config_severity c) <? rank (minimum l))%N + b2n (negb (enabled c) && match minimum l with SError => true | _ => false end)
     end)%nat.
  Definition check_lints (m : manager) (ls : list lint) : nat := fold_left (fun n l => (n + lint_errors m l)%nat) ls 0%nat.
  (** mod.rs:137-172: [extend] ([push] is [extend] with one lint) and [push_group]; [None] when there are errors. *)
  Definition extend (m : manager) (ls : list lint) : option manager :=
    match check_lints m ls with O => Some (Manager (lints m ++ ls) (groups m) (configs m)) | S _ => None end.
  Definition push_group (m : manager) (ls : list lint) (g : G) : option manager :=
    match check_lints m ls with O => Some (Manager (lints m) (groups m ++ [(ls, g)]) (configs m)) | S _ => None end.
  (** mod.rs:215-257 [run]: [find] is what the runners of a lint give, [find_group] what a group's runner gives. *)
  Context (find : lint -> config -> list C) (find_group : G -> map_of config -> list C).
  Definition run_lint (m : manager) (l : lint) : list C :=
    let c := effective (configs m) l in if enabled c then find l c else [].
  Definition group_configs (m : manager) (ls : list lint) : map_of config :=
    fold_left (fun acc l => let c := effective (configs m) l in if enabled c then acc ++ [(ident l, c)] else acc) ls [].
  Definition run_group (m : manager) (g : list lint * G) : list C :=
    let cs := group_configs m (fst g) in match cs with [] => [] | _ => find_group (snd g) cs end.
  Definition run_lints (m : manager) : list C := flat_map (run_lint m) (lints m) ++ flat_map (run_group m) (groups m).

  (** A manager with all of a list of lints and of groups, or the errors: macros.rs:24-44 [lint_check] (of which only whether
      there are errors is modelled), sqf/src/analyze/mod.rs:44-61. *)
  Fixpoint push_groups (m : manager) (gs : list (list lint * G)) : option manager :=
    match gs with
    | [] => Some m
    | (ls, g) :: gs => match push_group m ls g with Some m => push_groups m gs | None => None end
    end.
  Definition build_manager (c : map_of override) (ls : list lint) (gs : list (list lint * G)) : option manager :=
    match extend (new_manager c) ls with Some m => push_groups m gs | None => None end.
  Definition lint_check (c : map_of override) (ls : list lint) (gs : list (list lint * G)) : bool :=
    match build_manager c ls gs with Some _ => true | None => false end.
End Manager.
Arguments manager : clear implicits.

(** lint.rs:48-79: the defaults. Those options that some lints set by default are left out. *)
Definition error_config : config := Config true SError [].
Definition warning_config : config := Config true SWarning [].
Definition help_config : config := Config true SHelp [].
Definition off (c : config) : config := Config false (config_severity c) (options c).
(** mod.rs:21-23: the minimum is the default unless the lint says so. *)
Definition mk (i : string) (c : config) : lint := Lint (bs i) c (config_severity c).
Definition mk_min (i : string) (c : config) (m : severity) : lint := Lint (bs i) c m.
(** libs/sqf/src/analyze/lints: [default_config] and [minimum_severity] of each. *)
Definition sqf_lints : list lint := [
  mk "required_version" error_config; mk "static_typename" help_config; mk "command_case" help_config; mk "if_assign" help_config;
  mk "find_in_str" help_config; mk "select_parse_number" help_config; mk_min "format_args" error_config SWarning;
  mk_min "banned_commands" error_config SWarning; mk "if_not_else" (off help_config); mk "var_all_caps" help_config;
  mk "in_vehicle_check" help_config; mk "bool_static_comparison" help_config; mk "invalid_comparisons" help_config;
  mk "this_call" (off help_config); mk "reasign_reserved_variable" error_config; mk "marker_update_spam" help_config ].
Definition sqf_groups : list (list lint * unit) := [
  ([mk "event_unknown" warning_config; mk "event_incorrect_command" error_config; mk "event_insufficient_version" error_config], tt) ].
(** libs/config/src/analyze/lints. *)
Definition config_lints : list lint := [
  mk "invalid_value" error_config; mk "duplicate_property" error_config; mk "duplicate_classes" error_config; mk "external_missing" error_config;
  mk_min "external_parent_case" warning_config SHelp; mk "unexpected_array" error_config; mk "expected_array" error_config;
  mk "missing_semicolon" error_config; mk_min "magwell_missing_magazine" error_config SWarning; mk "class_missing_braces" error_config ].
(** libs/stringtable/src/analyze/lints/01_sorted.rs. *)
Definition stringtable_lints : list lint := [mk "sorted" warning_config].

(** lint.rs:9-13 [LintGroupConfig], lint.rs:32-34 [is_empty]. *)
Record settings := Settings { config_settings : map_of override; sqf_settings : map_of override; stringtable_settings : map_of override }.
(** What the check phase of a module accepts: bin/src/modules/rapifier.rs:41-45, sqf.rs:43-47, stringtables/mod.rs:30-34. *)
Definition rapifier_check (s : settings) : bool := lint_check (G := unit) (config_settings s) config_lints [].
Definition sqf_check (s : settings) : bool := lint_check (sqf_settings s) sqf_lints sqf_groups.
Definition stringtables_check (s : settings) : bool := lint_check (G := unit) (sqf_settings s) stringtable_lints [].
(** The managers the later phases use: config/src/lib.rs:45-53, sqf/src/analyze/mod.rs:44-61, stringtable/src/analyze/mod.rs:13-41. *)
Definition config_manager (s : settings) : option (manager unit) := build_manager (config_settings s) config_lints [].
Definition sqf_manager (s : settings) : option (manager unit) := build_manager (sqf_settings s) sqf_lints sqf_groups.
Definition stringtable_manager (s : settings) : option (manager unit) := build_manager (stringtable_settings s) stringtable_lints [].
