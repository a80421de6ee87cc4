(** Model of the lints on the names of commands and variables, and on needless words: libs/sqf/src/analyze/lints/s04, s09, s11,
    s17, s22. *)
From Coq Require Import String.
From Verif Require Import Base.Tactics Base.Bytes Base.Ascii Base.Text Base.Sort Sqf.Ast Sqf.WalkModel.
From Verif Require Bin.ExecModel Bin.LintModel.
Local Open Scope N_scope.
Local Open Scope list_scope.

Inductive finding :=
| WrongCase (used known : text) (sp : span) (s : ExecModel.severity)
| Banned (command : text) (from_wiki : bool) (sp : span) (s : ExecModel.severity)
| NeedlessNot (sp : span) (s : ExecModel.severity)
| AllCaps (var : text) (sp : span) (s : ExecModel.severity)
| NeedlessThis (sp : span) (s : ExecModel.severity).

(** lib.rs:312-319 [command_name], with lib.rs:283-296 [span]. *)
Definition command_name (e : expr) : option (text * span) :=
  match e with
  | ENular n sp => Some (n, sp)
  | EUnary c _ sp => Some (unary_str c, sp)
  | EBinary c _ _ sp => Some (binary_str c, sp)
  | _ => None
  end.
(** [char::to_ascii_uppercase]. *)
Definition ascii_upper (c : N) : N := if (97 <=? c) && (c <=? 122) then c - 32 else c.

Definition named (l : LintModel.lint) (x : string) : bool := eqb_bytes (LintModel.ident l) (bs x).

Section Lints.
  (** [str::to_lowercase]; the wiki's commands by name, with the name on the wiki and the groups the command is in; and the
      strings of an option that is an array: parameters. *)
  Context (low : text -> text) (wiki : text -> option (text * list text)) (strings : LintModel.config -> text -> list text).
  Definition listed (l : list text) (n : text) : bool := existsb (fun i => eqb_bytes (low i) (low n)) l.
  (** s04:61-93. *)
  Definition s04 (config : LintModel.config) (e : expr) : list finding :=
    match command_name e with
    | None => []
    | Some (command, sp) =>
        if listed (strings config (bs "ignore")) command then []
        else
          match wiki command with
          | None => []
          | Some (known, _) => if eqb_bytes command known then [] else [WrongCase command known sp (LintModel.config_severity config)]
          end
    end.
  (** s09:68-111. *)
  Definition s09 (config : LintModel.config) (e : expr) : list finding :=
    match command_name e with
    | None => []
    | Some (command, sp) =>
        if listed (strings config (bs "ignore")) command then []
        else
          match wiki command with
          | None => []
          | Some (_, groups) =>
              if existsb (eqb_bytes (bs "Broken Commands")) groups then [Banned command true sp (LintModel.config_severity config)]
              else if listed (strings config (bs "banned")) command then [Banned command false sp (LintModel.config_severity config)] else []
          end
    end.
  (** s11:54-85. *)
  Definition s11 (config : LintModel.config) (e : expr) : list finding :=
    match e with
    | EBinary (BNamed n) (EUnary (UNamed _) condition _) (EBinary BElse _ _ _) _ =>
        if negb (eqb_bytes (to_ascii_lower n) (bs "then")) then []
        else match condition with EUnary UNot _ sp => [NeedlessNot sp (LintModel.config_severity config)] | _ => [] end
    | _ => []
    end.
  (** s17:62-94. *)
  Definition ends_star (s : text) : option text := match rev s with 42 :: r => Some (rev r) | _ => None end.
  Definition s17 (config : LintModel.config) (e : expr) : list finding :=
    match e with
    | EVar var sp =>
        if starts_with (bs "_") var || negb (eqb_bytes (map ascii_upper var) var) || eqb_bytes var (bs "SLX_XEH_COMPILE_NEW") then []
        else if existsb (fun s => eqb_bytes s var || match ends_star s with Some p => starts_with p var | None => false end)
                  (strings config (bs "ignore")) then []
        else [AllCaps var sp (LintModel.config_severity config)]
    | _ => []
    end.
  (** s22:57-85. *)
  Definition s22 (config : LintModel.config) (e : expr) : list finding :=
    match e with
    | EBinary (BNamed n) lhs _ _ =>
        if negb (eqb_bytes (to_ascii_lower n) (bs "call")) then []
        else
          match lhs with
          | EVar name sp => if eqb_bytes name (bs "_this") then [NeedlessThis sp (LintModel.config_severity config)] else []
          | _ => []
          end
    | _ => []
    end.
  (** What the five lints give on an expression, by identifier; the other lints are left out. *)
  Definition name_lint (e : expr) (l : LintModel.lint) (c : LintModel.config) : list finding :=
    if named l "command_case" then s04 c e
    else if named l "banned_commands" then s09 c e
    else if named l "if_not_else" then s11 c e
    else if named l "var_all_caps" then s17 c e
    else if named l "this_call" then s22 c e
    else [].
  (** analyze/mod.rs:44-61: all of a script, by the lints' manager. *)
  Definition name_findings (m : LintModel.manager unit) (script : list stmt) : list finding :=
    analyze_script (fun t => match t with OnExpression e => flat_map (LintModel.run_lint (name_lint e) m) (LintModel.lints m) | _ => [] end) script.
End Lints.
