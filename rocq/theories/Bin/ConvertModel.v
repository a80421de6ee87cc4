(** Model of the parallel conversion of configs and scripts: which files are converted, where the results go and
    what happens while several files are converted at once: bin/src/modules/rapifier.rs, bin/src/modules/sqf.rs.

    Simplifications: a conversion (preprocessor, parser, lints, writer) is any program that reads files one after
    the other and then writes and reports; what it computes is the subject of other files. Paths are lists of
    names; an addon is known by the place of its folder; counters and progress bars are left out. *)
From Coq Require Import String.
From Verif Require Import Base.Tactics Base.Bytes Base.Sort Base.Ascii Base.Text Workspace.PathModel.
From Verif Require Import Bin.PackModel.
From Verif Require Bin.BinarizeModel.
Local Open Scope N_scope.
Local Open Scope list_scope.

(** ** Which files *)
(** An addon: its folder, the rapify section of its addon.toml if there is an addon.toml (enabled, exclude), its walk. *)
Record source := Source { c_folder : vpath; c_rapify : option (bool * list text); c_tree : list entry }.
(** [Path::extension] (rapifier.rs:195-199) and [VfsPath::extension] (sqf.rs:60): empty if there is none. *)
Definition extension (name : text) : text := snd (split_name name).
(** rapifier.rs:193-207 [can_rapify]; the warning is left out. *)
Definition can_rapify (name : text) : bool := existsb (eqb_bytes (extension name)) [bs "cpp"; bs "rvmat"; bs "ext"].
(** [entry.as_str()] of a walked file is [as_str] of this path. *)
Definition place (a : source) (e : entry) : vpath := c_folder a ++ e_dirs e ++ [e_name e].

Section Selection.
  (** [glob]: the matcher of a pattern (with [require_literal_separator]), [None] if it is not one. *)
  Context (glob : text -> option (text -> bool)).
  (** rapifier.rs:59-85: one addon; the patterns are matched against the path from the root; [None]: the module fails. *)
  Definition rapify_addon (a : source) : option (list (source * vpath)) :=
    match c_rapify a with
    | Some (false, _) => Some []
    | other =>
        match BinarizeModel.patterns glob (match other with Some (_, exclude) => exclude | None => [] end) with
        | None => None
        | Some ms =>
            Some (flat_map (fun e =>
              match e_content e with
              | None => []
              | Some _ => if can_rapify (e_name e) then if existsb (fun m : text -> bool => m (PathModel.as_str (place a e))) ms then [] else [(a, place a e)] else []
              end) (c_tree a))
        end
    end.
  (** rapifier.rs:56-86. *)
  Fixpoint rapify_entries (l : list source) : option (list (source * vpath)) :=
    match l with
    | [] => Some []
    | a :: l => match rapify_addon a, rapify_entries l with Some x, Some y => Some (x ++ y) | _, _ => None end
    end.
End Selection.
(** sqf.rs:55-66. *)
Definition sqf_entries (l : list source) : list (source * vpath) :=
  flat_map (fun a => flat_map (fun e =>
    match e_content e with
    | None => []
    | Some _ => if eqb_bytes (extension (e_name e)) (bs "sqf") && negb (BinarizeModel.ends_with (bs ".inc.sqf") (e_name e)) then [(a, place a e)] else []
    end) (c_tree a)) l.

(** rapifier.rs:143-173: a .cpp becomes a .bin beside it, everything else is replaced. *)
Definition rapify_out (v : vpath) : option vpath :=
  if eqb_bytes (ascii_lower (extension (last v []))) (bs "cpp") then with_extension (bs "bin") v else Some v.
(** sqf.rs:101. *)
Definition sqf_out (v : vpath) : option vpath := with_extension (bs "sqfc") v.

(** ** Conversions at once *)
(** What the conversions share: the files, and for each addon the required version and the parsed config. *)
Inductive cell := Disk (p : vpath) | Required (addon : vpath) | Parsed (addon : vpath).
Definition cell_dec (a b : cell) : {a = b} + {a <> b}.
Proof. decide equality; apply (list_eq_dec (list_eq_dec N.eq_dec)). Defined.
Definition store := cell -> option bytes.
(** [create_file] and the setters replace what is there, writing to an open file adds to it. *)
Inductive write := Put (c : cell) (b : bytes) | Add (c : cell) (b : bytes).
Definition target (w : write) : cell := match w with Put c _ | Add c _ => c end.
Definition set (st : store) (c : cell) (b : bytes) : store := fun c' => if cell_dec c c' then Some b else st c'.
Definition perform (st : store) (w : write) : store :=
  match w with
  | Put c b => set st c b
  | Add c b => set st c ((match st c with Some x => x | None => [] end) ++ b)
  end.

Section Jobs.
  Context {report error : Type}.
  (** A conversion: it reads files ([Processor::run] reads the file and what it includes), then it writes, and ends
      with a report or an error of the module. *)
  Inductive job := Read (p : vpath) (k : option bytes -> job) | Over (ws : list write) (x : report + error).
  (** rapifier.rs:110-191: whatever is read, a config.cpp that is in order notes the version and the config for its
      addon (158-168); then the output is created and written (181-187), or it is not. *)
  Inductive rapify_job (folder v : vpath) : job -> Prop :=
  | rj_read p k : (forall x, rapify_job folder v (k x)) -> rapify_job folder v (Read p k)
  | rj_report x : rapify_job folder v (Over [] x)
  | rj_done notes file x :
      notes = [] /\ last v [] <> bs "config.cpp" \/
        (exists version config, notes = [Put (Required folder) version; Put (Parsed folder) config]) /\ last v [] = bs "config.cpp" ->
      file = [] \/ (exists out pieces, rapify_out v = Some out /\ file = Put (Disk out) [] :: map (Add (Disk out)) pieces) ->
      rapify_job folder v (Over (notes ++ file) x).
  (** sqf.rs:75-130. *)
  Inductive sqf_job (v : vpath) : job -> Prop :=
  | sj_read p k : (forall x, sqf_job v (k x)) -> sqf_job v (Read p k)
  | sj_report x : sqf_job v (Over [] x)
  | sj_done out pieces x : sqf_out v = Some out -> sqf_job v (Over (Put (Disk out) [] :: map (Add (Disk out)) pieces) x).

  (** How far a job is. *)
  Inductive progress :=
  | Waiting
  | Reading (j : job)
  | Writing (ws : list write) (x : report + error)
  | Finished (x : report + error)
  | Abandoned.
  (** One action of one job. *)
  Inductive act (j : job) : store -> progress -> store -> progress -> Prop :=
  | act_start st : act j st Waiting st (Reading j)
  | act_read st p k : act j st (Reading (Read p k)) st (Reading (k (st (Disk p))))
  | act_ready st ws x : act j st (Reading (Over ws x)) st (Writing ws x)
  | act_write st w ws x : act j st (Writing (w :: ws) x) (perform st w) (Writing ws x)
  | act_end st x : act j st (Writing [] x) st (Finished x).

  (** [par_iter().map(..).collect::<Result<Vec<_>, _>>()]: any job may act next; once one has failed those that have
      not begun may be left out (rapifier.rs:89-97, sqf.rs:73-131). *)
  Inductive step : store * list (job * progress) -> store * list (job * progress) -> Prop :=
  | step_act st st' l r j s s' : act j st s st' s' -> step (st, l ++ (j, s) :: r) (st', l ++ (j, s') :: r)
  | step_abandon st l r j : (exists j' e, In (j', Finished (inr e)) (l ++ r)) -> step (st, l ++ (j, Waiting) :: r) (st, l ++ (j, Abandoned) :: r).
  Inductive run : store * list (job * progress) -> store * list (job * progress) -> Prop :=
  | run_here s : run s s
  | run_step s s1 s2 : step s s1 -> run s1 s2 -> run s s2.
  Definition begin (js : list job) : list (job * progress) := map (fun j => (j, Waiting)) js.
  Definition over (s : progress) : Prop := match s with Finished _ | Abandoned => True | _ => False end.
  (** rapifier.rs:97-101, sqf.rs:131-134: an error of some job, or all reports in the order of the files. *)
  Inductive answer : list (job * progress) -> list report + error -> Prop :=
  | answer_ok l rs : map snd l = map (fun r => Finished (inl r)) rs -> answer l (inl rs)
  | answer_err l j e : Forall (fun x => over (snd x)) l -> In (j, Finished (inr e)) l -> answer l (inr e).
End Jobs.
Arguments job : clear implicits.
Arguments progress : clear implicits.
