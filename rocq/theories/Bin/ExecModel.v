(** Model of bin/src/executor.rs, bin/src/report.rs, the four building commands in bin/src/commands and the exit status of
    bin/src/lib.rs and bin/src/main.rs. What a module does is arbitrary: it changes the world and gives codes or an error. *)
From Verif Require Import Base.Tactics.
Local Open Scope list_scope.

(** codespan_reporting [Severity], as used by report.rs. *)
Inductive severity := SHelp | SNote | SWarning | SError | SBug.
(** Stage names, executor.rs:47-74; the model has no other, so the [unreachable!()] of executor.rs:103,121 are left out. *)
Inductive stage := Init | Check | PreBuild | Build | PostBuild | PreRelease | Archive | PostRelease.

Section Exec.
  Context {W E C M : Type} (severity_of : C -> severity).
  (** What a call gives: [Result<Report, Error>]; a report is its codes. *)
  Inductive result := Ok (codes : list C) | Err (e : E).
  (** modules/mod.rs:26-71: the phases of a module; and the two steps that belong to no module. *)
  Context (phase : M -> stage -> W -> W * result) (build_pbos release_archive : W -> W * result).

  (** report.rs:110-128 [filter_codes] with [WithIncludes::Yes], report.rs:88-91 [errors], report.rs:105-108 [failed]. *)
  Definition is_error (c : C) : bool := match severity_of c with SError => true | _ => false end.
  Definition errors (codes : list C) : list C := filter is_error codes.
  Definition failed (codes : list C) : bool := negb (match errors codes with [] => true | _ => false end).

  (** executor.rs:9-14. [collapse] only matters to [build_pbos]. *)
  Record executor := Executor { modules : list M; stages : list stage }.
  Definition new : executor := Executor [] [].
  (** executor.rs:42-44. *)
  Definition add_module (m : M) (x : executor) : executor := Executor (modules x ++ [m]) (stages x).
  (** executor.rs:46-74. *)
  Definition push (s : list stage) (x : executor) : executor := Executor (modules x) (stages x ++ s).
  Definition init : executor -> executor := push [Init].
  Definition check : executor -> executor := push [Check].
  Definition build (write : bool) : executor -> executor := push ([PreBuild] ++ if write then [Build; PostBuild] else []).
  Definition release (archive : bool) : executor -> executor := push ([PreRelease] ++ (if archive then [Archive] else []) ++ [PostRelease]).

  (** executor.rs:110-131 [run_modules]. *)
  Fixpoint run_modules (ms : list M) (s : stage) (report : list C) (w : W) : W * result :=
    match ms with
    | [] => (w, Ok report)
    | m :: ms =>
        match phase m s w with
        | (w, Err e) => (w, Err e)
        | (w, Ok codes) => let report := report ++ codes in if failed report then (w, Ok report) else run_modules ms s report w
        end
    end.
  (** executor.rs:80-108 [run]. *)
  Definition run_stage (ms : list M) (s : stage) (w : W) : W * result :=
    match s with
    | Build => build_pbos w
    | Archive => release_archive w
    | s => run_modules ms s [] w
    end.
  Fixpoint run_stages (ms : list M) (ss : list stage) (report : list C) (w : W) : W * result :=
    match ss with
    | [] => (w, Ok report)
    | s :: ss =>
        match run_stage ms s w with
        | (w, Err e) => (w, Err e)
        | (w, Ok codes) => let report := report ++ codes in if failed report then (w, Ok report) else run_stages ms ss report w
        end
    end.
  Definition run (x : executor) (w : W) : W * result := run_stages (modules x) (stages x) [] w.

  (** lib.rs:158-178 and main.rs:35-50: the exit status; [annotate] is whether the annotations could be written. *)
  Definition exit_status (annotate : bool) (r : result) : nat :=
    match r with
    | Ok codes => if annotate then if failed codes then 1 else 0 else 1
    | Err _ => 1
    end.
End Exec.
Arguments result : clear implicits.
Arguments executor : clear implicits.

(** The modules, modules/mod.rs. *)
Inductive module := BOMCheck | Hooks | Stringtables | SQFCompiler | Rapifier | Binarize (check_only : bool) | Files | FilePatching | Sign.
(** commands/mod.rs:22-27 [global_modules]. *)
Definition global_modules (x : executor module) : executor module :=
  add_module SQFCompiler (add_module Stringtables (add_module Hooks (add_module BOMCheck x))).
Definition add_if (b : bool) (m : module) (x : executor module) : executor module := if b then add_module m x else x.
(** commands/check.rs:26-47. *)
Definition check_command : executor module :=
  build false (check (init (add_module (Binarize true) (add_module Rapifier (global_modules new))))).
(** commands/build.rs:96-116 [executor]. *)
Definition build_command (no_rap no_bin : bool) : executor module :=
  build true (check (init (add_module Files (add_if (negb no_bin) (Binarize false) (add_if (negb no_rap) Rapifier (global_modules new)))))).
(** commands/release.rs:71-94: [sign] and [archive] are the settings. *)
Definition release_command (no_rap no_bin no_sign no_archive sign archive : bool) : executor module :=
  release (if no_archive then false else archive) (add_if (negb no_sign && sign) Sign (build_command no_rap no_bin)).
(** commands/dev.rs:95-171 [context]. *)
Definition dev_command (rapify no_rap force_binarize binarize : bool) : executor module :=
  build true (check (init (add_if (force_binarize || binarize) (Binarize false)
    (add_module FilePatching (add_module Files (add_if (rapify && negb no_rap) Rapifier (global_modules new))))))).
