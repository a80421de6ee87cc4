(** Model of libs/common/src/config/project/version.rs: the version section of project.toml, where the version of a project
    comes from, and the version kept for the rest of the run.

    Simplifications: the file system is what reading the one path gives; the commit's name is ASCII, so that no slice falls
    inside a character; numbers are [N], TOML only gives what fits the type (u32, and u8 for [git_hash]). *)
From Coq Require Import String.
From Verif Require Import Base.Tactics Base.Bytes Base.Ascii Base.Text Common.VersionModel.
Local Open Scope N_scope.
Local Open Scope list_scope.

(** version.rs:102-117 [VersionSectionFile]. *)
Record section := Section_ {
  s_path : option text; s_major : option N; s_minor : option N; s_patch : option N; s_build : option N; s_git_hash : option N
}.
(** version.rs:12-16 [VersionConfig]. *)
Record config := Config { path : text; defined : option (N * N * N * option N); git_hash : N }.
(** What can be wrong with a version, and what can be wrong around it. *)
Inductive error := BadVersion (e : verror) | PathConflict | BadFile | NoGit.

(** version.rs:119-152 [TryFrom]. *)
Definition try_into (s : section) : config + error :=
  let some {A} (o : option A) := match o with Some _ => true | None => false end in
  if (some (s_major s) || some (s_minor s) || some (s_patch s)) && some (s_path s) then inr PathConflict
  else if negb (some (s_major s)) && (some (s_minor s) || some (s_patch s)) then inr (BadVersion ExpectedMajor)
  else
    let p := map (fun c => if c =? 92 then 47 else c) (match s_path s with Some p => p | None => bs "addons/main/script_version.hpp" end) in
    let g := match s_git_hash s with Some g => g | None => 8 end in
    match s_major s with
    | None => inl (Config p None g)
    | Some ma =>
        match s_minor s with
        | None => inr (BadVersion ExpectedMinor)
        | Some mi =>
            match s_patch s with
            | None => inr (BadVersion ExpectedPatch)
            | Some pa => inl (Config p (Some (ma, mi, pa, s_build s)) g)
            end
        end
    end.

(** What is around: [file p] is reading the file [p] of the project, [head] the name of the commit at HEAD. *)
Inductive answer := Absent | Unreadable | Holds (s : text).
Record around := Around { file : text -> answer; head : option text }.
(** [Panic]: the slice of the commit's name is out of its bounds. *)
Inductive outcome := Ok (v : version) | Err (e : error) | Panic.

(** version.rs:68-84 [internal_get]. *)
Definition internal_get (c : config) (w : around) : version + error :=
  match defined c with
  | Some (ma, mi, pa, b) => inl (Version ma mi pa b None)
  | None =>
      match file w (path c) with
      | Unreadable => inr BadFile
      | Absent => inr (BadVersion UnknownVersion)
      | Holds s => match try_from_script_version s with VOk v => inl v | VErr e => inr (BadVersion e) end
      end
  end.
(** version.rs:28-58 [get]; [kept] is VERSION if INIT is set. version.rs:90-97 [git_hash]: 0 is none. *)
Definition get (c : config) (w : around) (kept : option version) : outcome * option version :=
  match kept with
  | Some v => (Ok v, kept)
  | None =>
      match internal_get c w with
      | inr e => (Err e, None)
      | inl v =>
          if git_hash c =? 0 then (Ok v, Some v)
          else match head w with
               | None => (Err NoGit, None)
               | Some id =>
                   if (length id <? N.to_nat (git_hash c))%nat then (Panic, None)
                   else let v := Version (major v) (minor v) (patch v) (build v) (Some (firstn (N.to_nat (git_hash c)) id)) in (Ok v, Some v)
               end
      end
  end.
(** What happens in a run of hemtt: someone asks for the version, or it is forgotten (version.rs:62-66 [invalidate], after
    every hook). *)
Inductive event := Asked (c : config) (w : around) | Forgotten.
Fixpoint history (kept : option version) (l : list event) : list outcome :=
  match l with
  | [] => []
  | Asked c w :: l => let '(o, kept) := get c w kept in o :: history kept l
  | Forgotten :: l => history None l
  end.
