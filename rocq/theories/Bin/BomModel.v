(** Model of the check for byte order marks: bin/src/modules/bom.rs. *)
From Coq Require Import String.
From Verif Require Import Base.Tactics Base.Bytes Base.Ascii Base.Text Base.Sort.
Local Open Scope N_scope.
Local Open Scope list_scope.

(** A file of the project: the names on the way to it from the project's folder, and what it holds, if it can be opened. *)
Record file := File { names : list text; data : option text }.
(** The path as text, below the project's folder. *)
Definition relative (f : file) : text := flat_map (fun n => 47 :: n) (names f).
Fixpoint has_part (s w : text) : bool := (starts_with w s || match s with [] => false | _ :: r => has_part r w end)%bool.
(** [Path::extension] of a name: what follows the last dot, unless that is the first character. *)
Fixpoint extension_from (stem rest : text) (found : option text) : option text :=
  match rest with
  | [] => found
  | c :: r => extension_from (stem ++ [c]) r (if c =? 46 then (match stem with [] => None | _ => Some r end) else found)
  end.
Definition extension (name : text) : option text := extension_from [] name None.
(** bom.rs:19 [IGNORED_EXTENSIONS]. *)
Definition ignored : list text := [bs "p3d"; bs "rtm"; bs "bin"; bs "paa"].
(** bom.rs:20-31 [files_to_check]. [root] is the path of the project's folder. *)
Definition to_check (root : text) (f : file) : bool :=
  (negb (has_part (root ++ relative f) (bs ".hemttout")) &&
   match extension (last (names f) []) with Some e => negb (existsb (eqb_bytes e) ignored) | None => false end)%bool.
Inductive outcome := Report (files : list text) | IoError.
(** bom.rs:40-58: a file of fewer than three bytes is passed over; one that cannot be opened ends the check. *)
Fixpoint marked (fs : list file) : outcome :=
  match fs with
  | [] => Report []
  | f :: r =>
      match data f with
      | None => IoError
      | Some d =>
          match marked r with
          | IoError => IoError
          | Report l => Report (if (if (length d <? 3)%nat then false else eqb_bytes (firstn 3 d) [239; 187; 191]) then relative f :: l else l)
          end
      end
  end.
Definition in_folder (folder : text) (f : file) : bool := match names f with n :: _ :: _ => eqb_bytes n folder | _ => false end.
(** bom.rs:33-61 [check]: [files] are those of the project in the order of the walk. *)
Definition check (root : text) (files : list file) : outcome :=
  marked (flat_map (fun folder => filter (to_check root) (filter (in_folder folder) files)) [bs "addons"; bs "optionals"]).
