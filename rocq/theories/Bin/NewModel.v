(** Model of hemtt new: bin/src/commands/new/mod.rs and bin/src/modules/new/license.rs.

    Simplifications: what git2 puts below .git is not modelled; the answers are what dialoguer gives; the texts of the licenses
    are a parameter; the mode for tests (mod.rs:52) is left out. *)
From Coq Require Import String.
From Verif Require Import Base.Tactics Base.Bytes Base.Ascii Base.Text Base.Sort Bin.BinarizeModel.
Local Open Scope N_scope.
Local Open Scope list_scope.

(** Paths below the new folder, [[]] is the folder itself; the last thing put at a path is there. *)
Notation path := (list text) (only parsing).
Inductive entry := Folder | File (t : text).
Notation disk := (list (list text * entry)) (only parsing).
Fixpoint eqb_path (p q : path) : bool :=
  match p, q with
  | [], [] => true
  | a :: p, b :: q => eqb_bytes a b && eqb_path p q
  | _, _ => false
  end.
Fixpoint at_ (d : disk) (p : path) : option entry :=
  match d with [] => None | (q, e) :: d => if eqb_path p q then Some e else at_ d p end.

(** What is done to the disk: [create_dir], [Repository::init], [File::create] and [write_all], which can stop anywhere. *)
Inductive op := MakeFolder (p : path) | MakeFile (p : path) | Write (p : path) (t : text).
(** [part]: how much of the text of a write that does not end is there. *)
Definition perform (part : option nat) (o : op) (d : disk) : disk :=
  match o with
  | MakeFolder p => match part with None => (p, Folder) :: d | Some _ => d end
  | MakeFile p => match part with None => (p, File []) :: d | Some _ => d end
  | Write p t =>
      let t := match part with None => t | Some n => firstn n t end in
      match at_ d p with Some (File s) => (p, File (s ++ t)) :: d | _ => d end
  end.
(** All of them, or, if [stop] is [Some (n, part)], only [n] and then one that fails or is cut off. *)
Fixpoint run (stop : option (nat * nat)) (l : list op) (d : disk) : disk * bool :=
  match l with
  | [] => (d, true)
  | o :: l =>
      match stop with
      | None => run None l (perform None o d)
      | Some (O, part) => (perform (Some part) o d, false)
      | Some (S n, part) => run (Some (n, part)) l (perform None o d)
      end
  end.

(** mod.rs:66-104: the answers; [license] is the place of the chosen one in license.rs:10-19. *)
Record answers := Answers { full_name : text; author : text; prefix : text; mainprefix : text; license : N; year : text }.
(** mod.rs:113-117. *)
Definition quoted (k v : text) : text := k ++ bs " = " ++ [34] ++ v ++ [34; 10].
Definition project_toml (a : answers) : text :=
  quoted (bs "name") (full_name a) ++ quoted (bs "author") (author a) ++ quoted (bs "prefix") (prefix a) ++ quoted (bs "mainprefix") (mainprefix a).
(** mod.rs:121. *)
Definition gitignore : text := flat_map (fun l => bs l ++ [10]) ["*.pbo"; ".hemttout"; "hemtt"; "hemtt.exe"; "*.biprivatekey"]%string.
Section New.
  (** license.rs:31-37: the text of each license. *)
  Context (templates : N -> text).
  (** license.rs:27-45 [select]. *)
  Definition license_text (a : answers) : option text :=
    if license a =? 7 then None
    else Some (replace (bs "{year}") (year a) (replace (bs "{author}") (author a) (templates (license a)))).
  (** mod.rs:106-128. *)
  Definition ops (a : answers) : list op :=
    [MakeFolder []; MakeFolder [bs "addons"]; MakeFolder [bs ".git"]; MakeFolder [bs ".hemtt"];
     MakeFile [bs ".hemtt"; bs "project.toml"]; Write [bs ".hemtt"; bs "project.toml"] (project_toml a);
     MakeFile [bs ".gitignore"]; Write [bs ".gitignore"] gitignore] ++
    match license_text a with Some t => [MakeFile [bs "LICENSE"]; Write [bs "LICENSE"] t] | None => [] end.
  (** mod.rs:49-128 [execute]: not at a terminal, the folder is there, an error (or the end of the process), or done. *)
  Inductive result := NotTerminal | FolderExists | Broken | Created.
  Definition execute (terminal : bool) (stop : option (nat * nat)) (a : answers) (d : disk) : disk * result :=
    if negb terminal then (d, NotTerminal)
    else match at_ d [] with
         | Some _ => (d, FolderExists)
         | None => let (d, done) := run stop (ops a) d in (d, if done then Created else Broken)
         end.
End New.
