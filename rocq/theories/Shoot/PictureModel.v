(** Model of bin/src/commands/photoshoot/mod.rs:271-422: which pictures a photoshoot is for. *)
From Coq Require Import String.
From Verif Require Import Base.Tactics Base.Bytes Base.Sort Base.Ascii Base.Text.
From Verif Require Config.RapModel Workspace.PathModel Bin.PackModel.
From Verif Require Import Shoot.ShootModel.
Import RapModel.
Local Open Scope N_scope.
Local Open Scope list_scope.

(** [HashMap::insert]. *)
Definition insert (k t : text) (m : list (text * text)) : list (text * text) := (k, t) :: filter (fun x => negb (eqb_bytes (fst x) k)) m.

Section Find.
  (** The prefixes of project.toml, and whether the workspace has a file. *)
  Context (main prefix : text) (file : PathModel.vpath -> bool).

  (** mod.rs:305-322, 381-398 [find_map]: the text of the first string entry with the given name. *)
  Fixpoint picture_of (entry : text) (ps : list property) : option text :=
    match ps with
    | [] => None
    | Entry name (VStr s) _ :: ps' => if eqb_bytes name entry then Some s else picture_of entry ps'
    | _ :: ps' => picture_of entry ps'
    end.

  (** mod.rs:289, 323-328, 399-404: the path inside the project. *)
  Definition main_part : text := [92] ++ main ++ [92].
  Definition trims (p s : text) : text := PackModel.trim_start_matches (length s) p s.
  Definition inside (p : text) : option text :=
    if starts_with main_part p then
      let p := trims main_part p in
      if starts_with prefix p then Some (trims [92] (trims prefix p)) else None
    else None.

  (** mod.rs:329-337, 405-413: [None] if the path cannot be joined ([expect]); else whether the file is missing. *)
  Definition absent (rel : text) : option bool :=
    match PathModel.vfs_join [] (PathModel.slashes rel) with
    | None => None
    | Some v => Some (negb (file v))
    end.

  (** mod.rs:296-341, 372-417: the classes in the section. [None]: HEMTT panics. *)
  Fixpoint classes (entry : text) (ps : list property) (m : list (text * text)) : option (list (text * text)) :=
    match ps with
    | [] => Some m
    | PClass (Local name _ qs _) :: ps' =>
        match picture_of entry qs with
        | None => classes entry ps' m
        | Some p =>
            match inside p with
            | None => classes entry ps' m
            | Some rel =>
                match absent rel with
                | None => None
                | Some true => classes entry ps' (insert name rel m)
                | Some false => classes entry ps' m
                end
            end
        end
    | _ :: ps' => classes entry ps' m
    end.
  (** mod.rs:291-344, 367-420 [weapons_from_config], [previews_from_config]. *)
  Fixpoint sections (section entry : text) (c : config) (m : list (text * text)) : option (list (text * text)) :=
    match c with
    | [] => Some m
    | PClass (Local name _ ps _) :: c' =>
        if eqb_bytes name section then
          match classes entry ps m with None => None | Some m' => sections section entry c' m' end
        else sections section entry c' m
    | _ :: c' => sections section entry c' m
    end.
  (** mod.rs:271-283, 346-358 [find_weapons], [find_previews], with the configs in any order (a hash map's). Simplified: the map of
      one config is not made apart and then added: adding its entries one by one gives the same map. *)
  Fixpoint find_all (section entry : text) (cs : list config) (m : list (text * text)) : option (list (text * text)) :=
    match cs with
    | [] => Some m
    | c :: cs' => match sections section entry c m with None => None | Some m' => find_all section entry cs' m' end
    end.
End Find.

(** mod.rs:286-288, 361-363: without a main prefix nothing is looked for. *)
Definition find_pictures (section entry : text) (main : option text) (prefix : text) (file : PathModel.vpath -> bool) (cs : list config) : option (list (text * text)) :=
  match main with
  | None => Some []
  | Some main => find_all main prefix file section entry cs []
  end.
Definition find_weapons := find_pictures (bs "CfgWeapons") (bs "picture").
Definition find_previews := find_pictures (bs "CfgVehicles") (bs "editorPreview").
