(** Specification vocabulary for C85: where the version of a project comes from. *)
From Coq Require Import String.
From Verif Require Import Base.Tactics Base.Bytes Base.Ascii Base.Text Common.VersionModel Common.VersionSpec Common.ProjectVersionModel.
Local Open Scope N_scope.
Local Open Scope list_scope.

(** The three numbers stand in project.toml, all of them, and no path; or none does. *)
Definition complete (s : section) : Prop := s_major s <> None /\ s_minor s <> None /\ s_patch s <> None /\ s_path s = None.
Definition absent (s : section) : Prop := s_major s = None /\ s_minor s = None /\ s_patch s = None.

(** The file that defines the version: the given path, with slashes, or the usual one. *)
Inductive slashed : text -> text -> Prop :=
| slashed_nil : slashed [] []
| slashed_back a b : slashed a b -> slashed (92 :: a) (47 :: b)
| slashed_same c a b : c <> 92 -> slashed a b -> slashed (c :: a) (c :: b).
Definition version_file (s : section) (p : text) : Prop :=
  match s_path s with Some q => slashed q p | None => p = bs "addons/main/script_version.hpp" end.

(** The numbers of the project. *)
Inductive numbers (s : section) (w : around) (v : version) : Prop :=
| in_project : s_major s = Some (major v) -> s_minor s = Some (minor v) -> s_patch s = Some (patch v) -> s_build s = build v -> numbers s w v
| in_file p t : absent s -> version_file s p -> file w p = Holds t ->
    defines t (bs "MAJOR") (major v) -> defines t (bs "MINOR") (minor v) -> defines t (bs "PATCH") (patch v) ->
    (forall b, build v = Some b <-> defines t (bs "BUILD") b) -> numbers s w v.
(** After them the first [n] characters of the commit's name, eight unless the project says otherwise. *)
Definition commit (s : section) (w : around) (v : version) : Prop :=
  s_git_hash s = Some 0 /\ hash v = None \/
  exists n id rest h, (s_git_hash s = Some n \/ s_git_hash s = None /\ n = 8) /\ n <> 0 /\ head w = Some id /\ id = h ++ rest /\ length h = N.to_nat n /\ hash v = Some h.

(** The last answer before a question, if nothing was forgotten since. *)
Definition questions (l : list event) : nat := length (filter (fun e => match e with Asked _ _ => true | Forgotten => false end) l).
