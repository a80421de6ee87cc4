(** What a run should do (C37): its steps in order, up to the first that fails. *)
From Verif Require Import Base.Tactics Bin.ExecModel.
Local Open Scope list_scope.

Inductive step (M : Type) := Phase (m : M) (s : stage) | BuildPbos | MakeArchive.
Arguments Phase {M} m s. Arguments BuildPbos {M}. Arguments MakeArchive {M}.
(** The steps that were asked for: each stage in turn, in a stage each module in turn. *)
Definition steps {M} (x : executor M) : list (step M) :=
  concat (map (fun s => match s with Build => [BuildPbos] | Archive => [MakeArchive] | s => map (fun m => Phase m s) (modules x) end) (stages x)).

Section Runs.
  Context {W E C M : Type} (severity_of : C -> severity) (act : step M -> W -> W * result E C).
  Definition has_error (codes : list C) : Prop := exists c, In c codes /\ severity_of c = SError.
  (** [runs ss w did w' r]: running the steps [ss] from [w] does the steps [did], ends in [w'] and answers [r]. *)
  Inductive runs : list (step M) -> W -> list (step M) -> W -> result E C -> Prop :=
  | runs_all : forall w, runs [] w [] w (Ok [])
  | runs_err : forall s ss w w' e, act s w = (w', Err e) -> runs (s :: ss) w [s] w' (Err e)
  | runs_bad : forall s ss w w' codes, act s w = (w', Ok codes) -> has_error codes -> runs (s :: ss) w [s] w' (Ok codes)
  | runs_next : forall s ss w w' codes did w'' r, act s w = (w', Ok codes) -> ~ has_error codes -> runs ss w' did w'' r ->
      runs (s :: ss) w (s :: did) w'' (match r with Ok more => Ok (codes ++ more) | Err e => Err e end).
End Runs.
