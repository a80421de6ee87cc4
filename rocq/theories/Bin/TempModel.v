(** Model of the temporary folders of hemtt: bin/src/context.rs:64-83 (which folder a project has, and that it is emptied when the
    project is opened) and bin/src/controller/profile.rs:13-27 (the profile for the game).

    Simplifications: paths are below the folder hemtt (and, but on Windows, the user's) in the system's temporary folder; what
    modules put into a project's folder is any text at any path below it, links are texts too; the folder exists if something
    is in it. *)
From Coq Require Import String.
From Verif Require Import Base.Tactics Base.Bytes Base.Ascii Base.Text Base.Sort.
Local Open Scope N_scope.
Local Open Scope list_scope.

(** Where a project is: the names behind the root, or behind the root of a drive. *)
Inductive place := Unix (names : list text) | Windows (drive : text) (names : list text).
Notation path := (list text) (only parsing).
Notation disk := (list text -> option text) (only parsing).

(** context.rs:74-75: [components().skip(2)]: the root and a name are left out, on Windows the drive and the root. *)
Definition kept (r : place) : list text := match r with Unix names => skipn 1 names | Windows _ names => names end.
Definition separator (r : place) : N := match r with Unix _ => 47 | Windows _ _ => 92 end.
(** context.rs:76-79: the names as a path, in which separators become underscores. *)
Definition tmp_name (r : place) : text := map (fun c => if (c =? 92) || (c =? 47) then 95 else c) (join [separator r] (kept r)).
(** context.rs:73: joining nothing to a path leaves it. *)
Definition tmp (r : place) : path := match tmp_name r with [] => [] | n => [n] end.
(** context.rs:72. *)
Definition profile : path := [bs "profile"].

Fixpoint below (a p : path) : bool :=
  match a, p with
  | [], _ => true
  | x :: a, y :: p => eqb_bytes x y && below a p
  | _ :: _, [] => false
  end.
(** [remove_dir_all]. *)
Definition remove (a : path) (d : disk) : disk := fun p => if below a p then None else d p.
Fixpoint same (p q : path) : bool := match p, q with [], [] => true | x :: p, y :: q => eqb_bytes x y && same p q | _, _ => false end.
Definition write (q : path) (t : option text) (d : disk) : disk := fun p => if same p q then t else d p.

(** What runs of hemtt do there, at the same time or one after the other. *)
Inductive step :=
| Opens (r : place)                                   (* context.rs:81-83, at the start of every command *)
| Puts (r : place) (p : path) (t : option text)       (* a module writes or removes something in the project's folder *)
| Profile (r : place) (files : list (path * text)).   (* profile.rs:13-27 *)
Definition perform (s : step) (d : disk) : disk :=
  match s with
  | Opens r => remove (tmp r) d
  | Puts r p t => write (tmp r ++ p) t d
  | Profile _ files => fold_left (fun d f => write (profile ++ fst f) (Some (snd f)) d) files (remove profile d)
  end.
Definition run (l : list step) (d : disk) : disk := fold_left (fun d s => perform s d) l d.
