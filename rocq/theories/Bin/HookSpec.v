(** Specification vocabulary for C90: what running a script, and a folder of hooks, is, step by step and with no bound on how
    deep scripts call each other. *)
From Coq Require Import String.
From Verif Require Import Base.Tactics Base.Bytes Base.Ascii Base.Sort Base.Text Common.VersionModel Common.ProjectVersionModel Bin.HookModel.
Local Open Scope list_scope.

(** Names in alphabetical order, byte by byte. *)
Definition alphabetical (l : list text) : Prop := StronglySorted (fun a b => cmp_bytes a b <> Gt) l.

Section Spec.
  Context {R M V : Type} (look : R -> M -> text -> node) (around_of : R -> M -> around) (cfg : config)
    (compile : text -> option (script R M V)) (nothing : V).
  Notation world := (world R M).
  Notation stands := (at_ look).

  (** The version a script is told when it starts: what the project says now, or what is kept since it was last forgotten. *)
  Definition tells (w : world) (v : version) (w' : world) : Prop :=
    exists k, get cfg (now around_of w) (kept w) = (Ok v, k) /\ w' = with_kept k w.

  (** [runs v vfs s w l fatal o w']: from [w] the script [s], told the version [v], ends in [w'], having started the scripts
      [l]; [fatal] is whether it called [fatal], and [o] what it gives, [None] if it raises. *)
  Inductive runs : version -> bool -> script R M V -> world -> list start -> bool -> option V -> world -> Prop :=
  | runs_give v vfs x w : runs v vfs (Give x) w [] false (Some x) w
  | runs_raise v vfs w : runs v vfs Raise w [] false None w
  | runs_fatal v vfs k w l b o w' : runs v vfs k w l b o w' -> runs v vfs (Fatal k) w l true o w'
  | runs_real v vfs f k w d x l b o w' : f (disk w) = (d, x) -> runs v vfs (k x) (World d (memory w) (kept w)) l b o w' -> runs v vfs (Real f k) w l b o w'
  | runs_virtual v vfs f k w m x l b o w' : vfs = true -> f (disk w) (memory w) = (m, x) ->
      runs v vfs (k (Some x)) (World (disk w) m (kept w)) l b o w' -> runs v vfs (Virtual f k) w l b o w'
  | runs_not_virtual v vfs f k w l b o w' : vfs = false -> runs v vfs (k None) w l b o w' -> runs v vfs (Virtual f k) w l b o w'
  | runs_project v vfs k w l b o w' : runs v vfs (k v) w l b o w' -> runs v vfs (Project k) w l b o w'
  | runs_call v vfs name k w l1 x w1 l2 b o w2 : calls name w l1 x w1 -> runs v vfs (k x) w1 l2 b o w2 -> runs v vfs (Call name k) w (l1 ++ l2) b o w2
  (** [HEMTT.script(name)], and what it gives, [None] if it raises. *)
  with calls : text -> world -> list start -> option V -> world -> Prop :=
  | calls_nothing name w names : stands w (script_path name) = Missing -> stands w script_folder = Folder names -> calls name w [] (Some nothing) w
  | calls_nowhere name w : stands w (script_path name) = Missing -> (forall names, stands w script_folder <> Folder names) -> calls name w [] None w
  | calls_unreadable name w v w' : stands w (script_path name) <> Missing -> tells w v w' -> (forall t, stands w (script_path name) <> File (Some t)) -> calls name w [] None w'
  | calls_script name w l b o w' : starts (script_path name) false true w l b o w' -> calls name w l (Some (match o with Some x => x | None => nothing end)) w'
  (** Starting the script at a path. *)
  with starts : text -> bool -> bool -> world -> list start -> bool -> option V -> world -> Prop :=
  | starts_bad p vfs nested w v w' t : tells w v w' -> stands w p = File (Some t) -> compile t = None ->
      starts p vfs nested w [Start p vfs nested v (now around_of w)] false None w'
  | starts_good p vfs nested w v w1 t s l b o w2 : tells w v w1 -> stands w p = File (Some t) -> compile t = Some s -> runs v vfs s w1 l b o w2 ->
      starts p vfs nested w (Start p vfs nested v (now around_of w) :: l) b o w2.

  (** The files of a folder run one after the other, each with the version forgotten after it; an entry that is no file when
      its turn comes is left out. [hs] is, for each that ran, its path, whether it called [fatal] and what it gave. *)
  Inductive folder_runs (folder : text) (vfs : bool) : list text -> world -> list (text * bool * option V) -> list start -> world -> Prop :=
  | folder_over w : folder_runs folder vfs [] w [] [] w
  | folder_skips n ns w hs l w' : (forall c, stands w (below folder n) <> File c) -> folder_runs folder vfs ns w hs l w' -> folder_runs folder vfs (n :: ns) w hs l w'
  | folder_hook n ns w l1 b o w1 hs l2 w2 : starts (below folder n) vfs false w l1 b o w1 ->
      folder_runs folder vfs ns (with_kept None w1) hs l2 w2 -> folder_runs folder vfs (n :: ns) w ((below folder n, b, o) :: hs) (l1 ++ l2) w2.

  (** The complaint about a hook: that it raised, else that it called [fatal]. *)
  Definition complaint (h : text * bool * option V) : list code :=
    match h with (p, _, None) => [RuntimeError p] | (p, true, Some _) => [ScriptFatal p] | (_, false, Some _) => [] end.

  (** The scripts of a log that are hooks themselves, started by no other script. *)
  Definition direct (l : list start) : list start := filter (fun s => negb (called s)) l.

  (** A script that changes for no path of [ps] whether a file stands there. *)
  Definition is_file (n : node) : bool := match n with File _ => true | _ => false end.
  Fixpoint minds (ps : list text) (s : script R M V) : Prop :=
    match s with
    | Give _ | Raise => True
    | Fatal k => minds ps k
    | Real f k => (forall r m p, In p ps -> is_file (look (fst (f r)) m p) = is_file (look r m p)) /\ forall x, minds ps (k x)
    | Virtual f k => (forall r m p, In p ps -> is_file (look r (fst (f r m)) p) = is_file (look r m p)) /\ forall x, minds ps (k x)
    | Project k => forall v, minds ps (k v)
    | Call _ k => forall x, minds ps (k x)
    end.
End Spec.
