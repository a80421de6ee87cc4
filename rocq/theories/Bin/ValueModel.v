(** Model of hemtt value (bin/src/commands/value.rs) and of the check of the version before every command that opens a project
    (bin/src/context.rs:229-301 [version_check]).

    Simplifications: what is printed next to a failure is not modelled; [order] is the order in which a hash map gives its
    entries; [opens] and [scans] say whether the rest of context.rs:51-136 [Context::new] succeeds before and after the check. *)
From Coq Require Import String.
From Verif Require Import Base.Tactics Base.Bytes Base.Ascii Base.Text Base.Sort Common.VersionModel Common.ProjectVersionModel Bin.SettingsModel.
From Verif Require Bin.AddonModel.
Local Open Scope N_scope.
Local Open Scope list_scope.

(** Printed, and status 0; status 1; a panic; the project's settings are read for ever (C77). *)
Inductive result := Prints (t : text) | Fails | Crash | Hangs.
Definition println (t : text) : result := Prints (t ++ [10]).
(** libs/common/src/sign_version.rs:128-135 [Display]. *)
Definition show_signs (s : signs) : text := match s with V2 => bs "V2" | V3 => bs "V3" end.
(** value.rs:84-101. *)
Definition names : list text :=
  map bs ["project.name"; "project.prefix"; "project.mainprefix"; "project.properties"; "project.version"; "project.version.short"; "project.version.major";
          "project.version.minor"; "project.version.patch"; "project.version.build"; "project.version.path"; "project.version.git_hash";
          "project.signing.authority"; "project.signing.version"; "project.files.include"; "project.files.exclude"]%string.
Definition or_empty (o : option text) : text := match o with Some t => t | None => [] end.

Section Value.
  Context (order : list (text * text) -> list (text * text)).
  (** value.rs:110-118 [version]. *)
  Definition with_version (o : outcome) (f : version -> text) : result :=
    match o with Ok v => println (f v) | Err _ => Fails | Panic => Crash end.
  (** value.rs:20-108 after the context is made; [o]: what asking for the version gives. *)
  Definition value (p : project) (o : outcome) (name : text) : result :=
    if eqb_bytes name (bs "project.name") then println (p_name p)
    else if eqb_bytes name (bs "project.prefix") then println (p_prefix p)
    else if eqb_bytes name (bs "project.mainprefix") then println (or_empty (p_mainprefix p))
    else if eqb_bytes name (bs "project.properties") then println (flat_map (fun kv => fst kv ++ bs ": " ++ snd kv ++ [10]) (order (p_properties p)))
    else if eqb_bytes name (bs "project.version") then with_version o display
    else if eqb_bytes name (bs "project.version.short") then with_version o (fun v => dec (major v) ++ [46] ++ dec (minor v) ++ [46] ++ dec (patch v))
    else if eqb_bytes name (bs "project.version.major") then with_version o (fun v => dec (major v))
    else if eqb_bytes name (bs "project.version.minor") then with_version o (fun v => dec (minor v))
    else if eqb_bytes name (bs "project.version.patch") then with_version o (fun v => dec (patch v))
    else if eqb_bytes name (bs "project.version.build") then with_version o (fun v => match build v with Some b => dec b | None => [] end)
    else if eqb_bytes name (bs "project.version.path") then println (path (p_version p))
    else if eqb_bytes name (bs "project.version.git_hash") then println (dec (git_hash (p_version p)))
    else if eqb_bytes name (bs "project.signing.authority") then
      with_version o (fun v => AddonModel.get_authority (match p_authority p with Some a => a | None => p_prefix p end) (display v) None)
    else if eqb_bytes name (bs "project.signing.version") then println (show_signs (p_sign_version p))
    else if eqb_bytes name (bs "project.files.include") then println (join [10] (p_include p))
    else if eqb_bytes name (bs "project.files.exclude") then println (join [10] (p_exclude p))
    else if eqb_bytes name (bs "list") then Prints (flat_map (fun n => n ++ [10]) names)
    else Fails.
  (** context.rs:229-301: an error about the version or about git ends it, any other is left to whoever asks. *)
  Definition version_stops (o : outcome) : bool :=
    match o with Err (BadVersion _) | Err PathConflict | Err NoGit => true | _ => false end.
  (** value.rs:19-108 [execute]: the version is asked for at the check, and again if it is printed. *)
  Definition execute (opens scans : bool) (r : reading project) (w : around) (name : text) : result :=
    match r with
    | Done p =>
        if negb opens then Fails
        else
          let '(first, kept) := get (p_version p) w None in
          match first with
          | Panic => Crash
          | _ => if version_stops first || negb scans then Fails else value p (fst (get (p_version p) w kept)) name
          end
    | Refused _ => Fails
    | Never => Hangs
    end.
End Value.
