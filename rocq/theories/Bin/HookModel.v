(** Model of bin/src/modules/hook/mod.rs, [HEMTT.script] of hook/libraries/hemtt.rs and bin/src/commands/script.rs: the hooks
    of a project and its scripts.

    Simplifications: what Rhai makes of a script is a [script] below, that is, whatever it does on the files it does by
    arbitrary functions, one after the other, and whatever it does next may depend on what these gave; a script that never
    ends is left out. The files are the ones on disk and the layer in memory above them (workspace/src/lib.rs:172-197, the
    memory is the last layer, and the only one that is written); asking whether a path exists does not fail. The names of
    scripts have no slash and are not [..]. *)
From Coq Require Import String.
From Verif Require Import Base.Tactics Base.Bytes Base.Ascii Base.Sort Base.Text Common.VersionModel Common.ProjectVersionModel.
Local Open Scope list_scope.

(** What stands at a path; the text of a file is [None] if it cannot be read (it is not UTF-8), else without its carriage
    returns (workspace/src/path.rs:112-118). *)
Inductive node := Missing | File (content : option text) | Folder (names : list text).

(** Where the hooks of a phase and the scripts are, mod.rs:83-87,118-119. *)
Definition below (folder name : text) : text := folder ++ bs "/" ++ name.
Definition hook_folder (phase : text) : text := below (bs "/.hemtt/hooks") phase.
Definition script_folder : text := bs "/.hemtt/scripts".
(** workspace/src/path.rs:165-190 [with_extension]: what is after the last dot, if there is one, gives way to the extension. *)
Fixpoint drop_extension (backwards : text) : option text :=
  match backwards with
  | [] => None
  | c :: s => if N.eqb c 46 then Some s else drop_extension s
  end.
Definition with_extension (name ext : text) : text :=
  rev (match drop_extension (rev name) with Some s => s | None => rev name end) ++ bs "." ++ ext.
Definition script_path (name : text) : text := below script_folder (with_extension name (bs "rhai")).

(** What is reported: BHE1 to BHE4. *)
Inductive code := NotFound (name : text) | ScriptFatal (path : text) | RuntimeError (path : text) | ParseError (path : text).

Section Hooks.
  (** The disk, the memory layer, the values of Rhai; what stands at a path of the workspace, and on disk only; what the
      project's version is read from. *)
  Context {R M V : Type} (look : R -> M -> text -> node) (on_disk : R -> text -> node) (around_of : R -> M -> around) (cfg : config).

  (** The state of a run: [kept] is the version that is kept (C85). *)
  Record world := World { disk : R; memory : M; kept : option version }.
  Definition at_ (w : world) (p : text) : node := look (disk w) (memory w) p.
  Definition now (w : world) : around := around_of (disk w) (memory w).
  Definition with_kept (k : option version) (w : world) : world := World (disk w) (memory w) k.

  (** A script that has been parsed. [Real]: hemtt_rfs. [Virtual]: hemtt_vfs, [None] if it is not there. [Project]:
      [HEMTT.project().version()]. [Call]: [HEMTT.script], [None] if it raises. Anything raised may be caught. *)
  Inductive script :=
  | Give (v : V)
  | Raise
  | Fatal (k : script)
  | Real (f : R -> R * V) (k : V -> script)
  | Virtual (f : R -> M -> M * V) (k : option V -> script)
  | Project (k : version -> script)
  | Call (name : text) (k : option V -> script).
  Context (compile : text -> option script) (nothing : V).

  (** The log of the scripts that were started: where the script is, whether it can use the memory layer, whether
      [HEMTT.script] started it, the version it is told, and the state it was started in. *)
  Record start := Start { path : text; virtual : bool; called : bool; told : version; was : around }.

  (** How evaluating a script ends. *)
  Inductive ended := Value (v : V) (fatal : bool) | Raised | Crashed | Endless.
  (** [Result<(Report, Dynamic), Error>], or a panic. *)
  Inductive result := Done (codes : list code) (v : V) | Fault | Panics | OutOfFuel.

  (** Evaluating a script, mod.rs:172; [call] is [HEMTT.script]. The report of a script that is called is dropped,
      hemtt.rs:97-99. *)
  Fixpoint exec (call : text -> world -> world * list start * result) (vfs : bool) (v : version) (s : script) (fatal : bool) (w : world)
    : world * list start * ended :=
    match s with
    | Give x => (w, [], Value x fatal)
    | Raise => (w, [], Raised)
    | Fatal k => exec call vfs v k true w
    | Real f k => let '(d, x) := f (disk w) in exec call vfs v (k x) fatal (World d (memory w) (kept w))
    | Virtual f k =>
        if vfs then let '(m, x) := f (disk w) (memory w) in exec call vfs v (k (Some x)) fatal (World (disk w) m (kept w))
        else exec call vfs v (k None) fatal w
    | Project k => exec call vfs v (k v) fatal w
    | Call name k =>
        let '(w, l, r) := call name w in
        let next x := let '(w, l', e) := exec call vfs v (k x) fatal w in (w, l ++ l', e) in
        match r with
        | Done _ x => next (Some x)
        | Fault => next None
        | Panics => (w, l, Crashed)
        | OutOfFuel => (w, l, Endless)
        end
    end.

  (** mod.rs:136-184 [run], with the scope (mod.rs:30-49) and its version (project.rs:26-31, that panics if there is none);
      hemtt.rs:77-101 [script]. Scripts call each other, hence the fuel. *)
  Fixpoint run (fuel : nat) (p : text) (vfs nested : bool) (w : world) : world * list start * result :=
    match fuel with
    | O => (w, [], OutOfFuel)
    | S fuel =>
        let '(o, k) := get cfg (now w) (kept w) in
        let w := with_kept k w in
        match o with
        | Ok v =>
            match at_ w p with
            | File (Some t) =>
                let st := Start p vfs nested v (now w) in
                match compile t with
                | None => (w, [st], Done [RuntimeError p] nothing)
                | Some s =>
                    let call name w :=
                      match at_ w (script_path name) with
                      | Missing => match at_ w script_folder with Folder _ => (w, [], Done [NotFound name] nothing) | _ => (w, [], Fault) end
                      | _ => run fuel (script_path name) false true w
                      end in
                    let '(w, l, e) := exec call vfs v s false w in
                    (w, st :: l, match e with
                                 | Value x fatal => Done (if fatal then [ScriptFatal p] else []) x
                                 | Raised => Done [RuntimeError p] nothing
                                 | Crashed => Panics
                                 | Endless => OutOfFuel
                                 end)
                end
            | _ => (w, [], Fault)
            end
        | Err _ | Panic => (w, [], Panics)
        end
    end.

  (** mod.rs:78-110 [run_folder]. *)
  Fixpoint run_entries (fuel : nat) (folder : text) (vfs : bool) (names : list text) (report : list code) (w : world) : world * list start * result :=
    match names with
    | [] => (w, [], Done report nothing)
    | n :: names =>
        match at_ w (below folder n) with
        | File _ =>
            let '(w, l, r) := run fuel (below folder n) vfs false w in
            match r with
            | Done codes _ => let '(w, l', r) := run_entries fuel folder vfs names (report ++ codes) (with_kept None w) in (w, l ++ l', r)
            | r => (w, l, r)
            end
        | _ => run_entries fuel folder vfs names report w
        end
    end.
  Definition run_folder (fuel : nat) (enabled : bool) (phase : text) (vfs : bool) (w : world) : world * list start * result :=
    if enabled then
      match at_ w (hook_folder phase) with
      | Missing => (w, [], Done [] nothing)
      | File _ => (w, [], Fault)
      | Folder names => run_entries fuel (hook_folder phase) vfs (sort_by (fun n => n) names) [] w
      end
    else (w, [], Done [] nothing).

  (** mod.rs:236-250: the four phases and their file systems. *)
  Inductive phase := PreBuild | PostBuild | PreRelease | PostRelease.
  Definition phase_name (p : phase) : text :=
    match p with PreBuild => bs "pre_build" | PostBuild => bs "post_build" | PreRelease => bs "pre_release" | PostRelease => bs "post_release" end.
  Definition phase_vfs (p : phase) : bool := match p with PostRelease => false | _ => true end.
  Definition hooks (fuel : nat) (enabled : bool) (p : phase) (w : world) : world * list start * result :=
    run_folder fuel enabled (phase_name p) (phase_vfs p) w.

  (** mod.rs:116-134 [run_file] and script.rs:28-36 [execute]. *)
  Definition run_file (fuel : nat) (name : text) (w : world) : world * list start * result :=
    match at_ w (script_path name) with
    | Missing => match at_ w script_folder with Folder _ => (w, [], Done [NotFound name] nothing) | _ => (w, [], Fault) end
    | _ => let '(w, l, r) := run fuel (script_path name) false false w in (with_kept None w, l, r)
    end.

  (** mod.rs:193-226 [init]: whether hooks will run, and what it reports; the order is the one of the folder. *)
  Fixpoint compile_all (folder : text) (names : list text) (w : world) : list code + unit :=
    match names with
    | [] => inl []
    | n :: names =>
        match at_ w (below folder n) with
        | File (Some t) =>
            match compile_all folder names w with
            | inl l => inl (match compile t with None => ParseError (below folder n) :: l | Some _ => l end)
            | inr e => inr e
            end
        | _ => inr tt
        end
    end.
  Fixpoint compile_phases (ps : list phase) (w : world) : result :=
    match ps with
    | [] => Done [] nothing
    | p :: ps =>
        match on_disk (disk w) (hook_folder (phase_name p)) with
        | Missing => compile_phases ps w
        | File _ => Panics
        | Folder names =>
            match compile_all (hook_folder (phase_name p)) names w with
            | inl l => match compile_phases ps w with Done l' v => Done (l ++ l') v | r => r end
            | inr _ => Fault
            end
        end
    end.
  Definition init (w : world) : bool * result :=
    match on_disk (disk w) (bs "/.hemtt/hooks") with
    | Missing => (false, Done [] nothing)
    | _ => (true, compile_phases [PreBuild; PostBuild; PreRelease; PostRelease] w)
    end.
End Hooks.
Arguments world : clear implicits.
Arguments script : clear implicits.
Arguments result : clear implicits.
Arguments ended : clear implicits.
