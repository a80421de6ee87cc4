(** Model of the walk of the SQF analysis and of the lints on versions and events: libs/sqf/src/lib.rs,
    libs/sqf/src/analyze/mod.rs, analyze/lints/{s01,s02}. *)
From Coq Require Import String.
From Verif Require Import Base.Tactics Base.Bytes Base.Ascii Base.Text Base.Sort Sqf.Ast Common.VersionModel Config.PatchModel.
From Verif Require Bin.LintModel.
Local Open Scope N_scope.
Local Open Scope list_scope.

(** ** The walk *)
(** What lints are run on: analyze/mod.rs:65-155. A target is a script or block (its statements), a statement, an expression or
    a command. *)
Inductive target :=
| OnScript (content : list stmt)
| OnStatement (s : stmt)
| OnExpression (e : expr)
| OnCommand (e : expr).
Section Walk.
  Context {C : Type} (run : target -> list C).
  (** analyze/mod.rs:84-155 [Analyze::analyze] of [Expression] and, in it, of [Statement] and [Statements]; commands are given
      with the expression that they are in. *)
  Fixpoint analyze_expression (e : expr) : list C :=
    run (OnExpression e) ++
    match e with
    | EArray l _ => flat_map analyze_expression l
    | ECode c _ _ =>
        run (OnScript c) ++
        flat_map (fun s => run (OnStatement s) ++ match s with SGlobal _ e _ | SLocal _ e _ | SExpr e _ => analyze_expression e end) c
    | ENular _ _ => run (OnCommand e)
    | EUnary _ a _ => run (OnCommand e) ++ analyze_expression a
    | EBinary _ a b _ => run (OnCommand e) ++ analyze_expression a ++ analyze_expression b
    | _ => []
    end.
  Definition analyze_statement (s : stmt) : list C := run (OnStatement s) ++ analyze_expression (stmt_expr s).
  Definition analyze_script (c : list stmt) : list C := run (OnScript c) ++ flat_map analyze_statement c.
End Walk.
(** lib.rs:256-281 [walk_expressions]. *)
Fixpoint walk_expressions (e : expr) : list expr :=
  e :: match e with
       | ECode c _ _ => flat_map (fun s => match s with SGlobal _ e _ | SLocal _ e _ | SExpr e _ => walk_expressions e end) c
       | EUnary _ a _ => walk_expressions a
       | EBinary _ a b _ => walk_expressions a ++ walk_expressions b
       | EArray l _ => flat_map walk_expressions l
       | _ => []
       end.

(** ** Versions of commands *)
Section Versions.
  (** database/mod.rs:221-226 [command_version]: a parameter. *)
  Context (db : text -> option (N * N)).
  Definition measure : Type := (text * (N * N)) * span.
  (** lib.rs:46-103 [required_version] and the [extract_expression] in it. *)
  Definition nothing : measure := (([], (0, 0)), (0, 0)).
  Fixpoint extract (e : expr) : option measure :=
    match e with
    | ENular n sp => match db n with Some v => Some ((n, v), sp) | None => None end
    | EUnary c a sp =>
        match db (unary_str c) with
        | None => None
        | Some v =>
            match extract a with
            | None => None
            | Some l =>
                match db (fst (fst l)) with
                | None => None
                | Some lv => if wiki_lt lv v then Some ((unary_str c, v), sp) else Some l
                end
            end
        end
    | EBinary c a b sp =>
        match db (binary_str c) with
        | None => None
        | Some v =>
            match extract a with
            | None => None
            | Some l =>
                match db (fst (fst l)) with
                | None => None
                | Some lv =>
                    match extract b with
                    | None => None
                    | Some r =>
                        match db (fst (fst r)) with
                        | None => None
                        | Some rv =>
                            if wiki_lt lv v && wiki_lt rv v then Some ((binary_str c, v), sp)
                            else if wiki_lt rv lv then Some l else Some r
                        end
                    end
                end
            end
        end
    | ECode c _ _ =>
        Some (fold_left (fun best s =>
          match (match s with SGlobal _ e _ | SLocal _ e _ | SExpr e _ => extract e end) with
          | Some m => if wiki_lt (snd (fst best)) (snd (fst m)) then m else best
          | None => best
          end) c nothing)
    | _ => None
    end.
  Definition better (best : measure) (s : stmt) : measure :=
    match extract (stmt_expr s) with
    | Some m => if wiki_lt (snd (fst best)) (snd (fst m)) then m else best
    | None => best
    end.
  Definition script_version (c : list stmt) : measure := fold_left better c nothing.
  (** s01:61-98: [required] is the version of the addon. *)
  Definition s01 (required : option version) (c : list stmt) : list measure :=
    match required with
    | None => []
    | Some v => if wiki_lt (wiki_version v) (snd (fst (script_version c))) then [script_version c] else []
    end.
End Versions.

(** ** Event handlers *)
Section Events.
  (** [EventHandlerNamespace::by_command] and [Wiki::event_handler] (an event's places and versions): parameters. *)
  Context {Place : Type} (place_dec : forall a b : Place, {a = b} + {a <> b}).
  Context (by_command : text -> list Place) (event_handler : text -> list (Place * option (N * N))).
  Definition among (p : Place) (l : list Place) : bool := existsb (fun q => if place_dec p q then true else false) l.
  (** s02:327-339 [get_id]. *)
  Fixpoint get_id (e : expr) : option (text * span) :=
    match e with
    | EString s sp _ => Some (s, sp)
    | EArray (x :: _) _ => get_id x
    | _ => None
    end.
  (** s02:302-325 [get_namespaces], without the target. *)
  Definition get_namespaces (e : expr) : option ((list Place * text) * (text * span)) :=
    match e with
    | EBinary (BNamed n) _ id _ | EUnary (UNamed n) id _ => match get_id id with Some i => Some ((by_command n, n), i) | None => None end
    | _ => None
    end.
  Inductive event_code :=
  | UnknownEvent (command id : text) (sp : span) (s : ExecModel.severity)
  | IncorrectCommand (command id : text) (sp : span)
  | InsufficientVersion (command id : text) (sp : span) (since : N * N).
  (** s02:210-257 [check_unknown]: [ignore] is what the option of that name holds, [config] the entry of event_unknown. *)
  Definition check_unknown (ignore : LintModel.config -> list text) (ns : list Place) (name : text) (id : text * span)
    (eh : list (Place * option (N * N))) (config : option LintModel.config) : list event_code :=
    if match config with Some c => negb (LintModel.enabled c) | None => false end then []
    else if match config with Some c => existsb (fun i => eqb_bytes i name) (ignore c) | None => false end then []
    else
      match eh with
      | [] => [UnknownEvent name (fst id) (snd id) (match config with Some c => LintModel.config_severity c | None => ExecModel.SWarning end)]
      | _ => if existsb (fun n => among n (map fst eh)) ns then [] else [IncorrectCommand name (fst id) (snd id)]
      end.
  (** s02:260-300 [check_version]. *)
  Definition check_version (required : option version) (ns : list Place) (name : text) (id : text * span) (eh : list (Place * option (N * N))) : list event_code :=
    match required with
    | None => []
    | Some v =>
        match find (fun h => among (fst h) ns) eh with
        | Some (_, Some since) => if wiki_lt (wiki_version v) since then [InsufficientVersion name (fst id) (snd id) since] else []
        | _ => []
        end
    end.
  (** [str::contains]. *)
  Fixpoint contains (s w : text) : bool := starts_with w s || match s with [] => false | _ :: r => contains r w end.
  (** s02:164-206: one expression, and a script or block; [unknown] is the configuration of the lint event_unknown, if it is in
      the map that the manager gives. *)
  Definition event_at (ignore : LintModel.config -> list text) (required : option version) (unknown : option LintModel.config) (e : expr) : list event_code :=
    match get_namespaces e with
    | None => []
    | Some ((ns, name), id) =>
        match ns with
        | [] => []
        | _ =>
            if contains name (bs "UserAction") then []
            else check_unknown ignore ns name id (event_handler (fst id)) unknown ++ check_version required ns name id (event_handler (fst id))
        end
    end.
  Definition s02 (ignore : LintModel.config -> list text) (required : option version) (configs : LintModel.map_of LintModel.config) (c : list stmt) : list event_code :=
    flat_map (fun s => flat_map (event_at ignore required (LintModel.get configs (bs "event_unknown"))) (walk_expressions (stmt_expr s))) c.
  (** The group's runner on every script and block, for the manager of the project (workspace/src/lint/mod.rs:215-257). *)
  Definition event_findings (ignore : LintModel.config -> list text) (required : option version) (m : LintModel.manager unit) (script : list stmt) : list event_code :=
    analyze_script (fun t =>
      match t with
      | OnScript c => flat_map (LintModel.run_group (fun _ cs => s02 ignore required cs c) m) (LintModel.groups m)
      | _ => []
      end) script.
End Events.
