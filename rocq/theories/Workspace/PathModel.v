(** Model of path resolution in a workspace: libs/workspace/src/path.rs (locate, as_virtual_str,
    with_extension, exists_case_insensitive), the discovery of prefixes in libs/workspace/src/lib.rs, the
    P drive of libs/workspace/src/pdrive.rs and libs/common/src/strip.rs.

    Simplifications: paths are ASCII, so [to_lowercase] and [eq_ignore_ascii_case] are [ascii_lower] and no
    slice falls inside a character; a vfs path is the list of its names (the vfs crate, version 0.12, keeps the
    text "/a/b"); errors of the file system other than a malformed path are left out; the order in which the
    HashMap of prefixes is iterated is the order of the list [pointers]; the working directory is the folder
    [listing] describes; components are those of a Unix path. *)
From Coq Require Import String.
From Verif Require Import Base.Tactics Base.Bytes Base.Ascii Base.Text Base.Sort Common.VersionModel.
Local Open Scope N_scope.
Local Open Scope list_scope.

Definition vpath := list text.
(** [VfsPath::as_str]: a slash before every name. *)
Definition as_str (p : vpath) : text := flat_map (fun c => 47 :: c) p.
(** [replace('\\', "/")]. *)
Definition slashes (s : text) : text := map (fun c => if c =? 92 then 47 else c) s.

(** [VfsPath::join] of the vfs crate: empty components and "." are skipped, ".." goes up (and stays at the
    root), a leading slash starts from the root, a trailing slash is an error. *)
Definition vfs_step (p : vpath) (c : text) : vpath :=
  if eqb_bytes c [] then p else if eqb_bytes c [46] then p
  else if eqb_bytes c [46; 46] then removelast p else p ++ [c].
Definition ends_slash (s : text) : bool := match rev s with c :: _ :: _ => c =? 47 | _ => false end.
Definition vfs_join (base : vpath) (s : text) : option vpath :=
  match s with
  | [] => Some base
  | c :: _ => if ends_slash s then None
              else Some (fold_left vfs_step (split_on 47 s) (if c =? 47 then [] else base))
  end.

(** strip.rs:6-17 [strip_prefix_insensitive]. *)
Definition strip_ci (prefix s : text) : option text :=
  if (length s <? length prefix)%nat then None
  else if eqb_bytes (ascii_lower (firstn (length prefix) s)) (ascii_lower prefix)
       then Some (skipn (length prefix) s) else None.

(** pdrive.rs:44-61: what [path_to] answers; [PdPanic]: an [expect] fails. *)
Inductive pdres := PdPanic | PdNone | PdFound (p : vpath).

(** lib.rs:31-41 [Workspace], and the part of the disk [exists_case_insensitive] looks at. *)
Record workspace := Workspace {
  exists_ : vpath -> bool;                      (** [VfsPath::exists] in the overlay of all layers *)
  pointers : list (text * vpath);               (** prefix and folder *)
  pdrive : option (text -> pdres);
  listing : list text -> option (list text);    (** [read_dir] of a folder below the working directory *)
  alive : list text -> bool                     (** [Path::exists] below the working directory *)
}.

Inductive place := OnPDrive (p : vpath) | InWorkspace (p : vpath).
(** [Crash]: a panic; [Invalid]: [Err]; [Missing]: [Ok(None)]; [Found]: [Ok(Some(..))] with [case_mismatch]. *)
Inductive located := Crash | Invalid | Missing | Found (p : place) (mismatch : option text).

(** path.rs:206-209 [is_wrong_case]. *)
Definition is_wrong_case (on_disk : vpath) (requested : text) : bool :=
  let d := slashes (as_str on_disk) in
  eqb_bytes (ascii_lower d) (ascii_lower requested) && negb (eqb_bytes d requested).

(** path.rs:427-452 [exists_case_insensitive_from]; [Path::components] of a path: only the names are looked at. *)
Definition normal (s : text) : list text :=
  filter (fun c => negb (eqb_bytes c [] || eqb_bytes c [46] || eqb_bytes c [46; 46])) (split_on 47 s).
Fixpoint ci_from (w : workspace) (cur : list text) (names : list text) : option (list text) :=
  match names with
  | [] => if alive w cur then Some cur else None
  | n :: r =>
      match listing w cur with
      | None => None
      | Some es =>
          match find (fun e => eqb_bytes (ascii_lower e) (ascii_lower n)) es with
          | None => None
          | Some e => ci_from w (cur ++ [e]) r
          end
      end
  end.
(** path.rs:421-425. *)
Definition exists_ci (w : workspace) (s : text) : option (list text) :=
  match ci_from w [] (normal s) with
  | Some p => Some p
  | None => ci_from w [bs "include"] (normal s)
  end.

(** path.rs:216-221, 231-236, 259-264, 309-313: a path found as it is. *)
Definition found (mk : vpath -> place) (v : vpath) (p : text) : located :=
  Found (mk v) (if is_wrong_case v p then Some (as_str v) else None).
(** path.rs:271-283, 287-299: a path found in another case; it is "./" and the names on disk. *)
Definition found_ci (d : list text) : located :=
  match vfs_join [] (46 :: as_str d) with
  | None => Invalid
  | Some v => Found (InWorkspace v) (Some (46 :: as_str d))
  end.
(** path.rs:302-322: relative to the folder of the file. *)
Definition beside (w : workspace) (cur : vpath) (p : text) : located :=
  match vfs_join (removelast cur) p with
  | None => Invalid
  | Some v => if exists_ w v then found InWorkspace v p else Missing
  end.
(** [trim_start_matches('/')]. *)
Fixpoint trim_slashes (s : text) : text :=
  match s with c :: r => if c =? 47 then trim_slashes r else s | [] => [] end.

(** path.rs:205-323 [locate], called on the path [cur]. *)
Definition locate (w : workspace) (cur : vpath) (req : text) : located :=
  let p := slashes req in
  let pl := ascii_lower p in
  match (if starts_with (bs "/a3/") pl then match pdrive w with Some f => f p | None => PdNone end else PdNone) with
  | PdPanic => Crash
  | PdFound v => found OnPDrive v p
  | PdNone =>
      if starts_with [47] p then
        match vfs_join [] p with
        | None => Invalid
        | Some v =>
            if exists_ w v then found InWorkspace v p
            else
              match find (fun bp => starts_with (ascii_lower (fst bp) ++ [47]) pl) (pointers w) with
              | Some (base, root) =>
                  let rest := match strip_ci base p with Some r => r | None => p end in
                  let rest := match rest with c :: r => if c =? 47 then r else p | [] => p end in
                  match vfs_join root rest with
                  | None => Invalid
                  | Some u =>
                      if exists_ w u then found InWorkspace u p
                      else match exists_ci w (trim_slashes (as_str u)) with
                           | Some d => found_ci d
                           | None => beside w cur p
                           end
                  end
              | None => match exists_ci w p with Some d => found_ci d | None => beside w cur p end
              end
        end
      else beside w cur p
  end.

(** path.rs:136-148 [as_virtual_str]. *)
Definition as_virtual_str (w : workspace) (v : vpath) : text :=
  let p := slashes (as_str v) in
  match find (fun bp => starts_with (ascii_lower (as_str (snd bp)) ++ [47]) (ascii_lower p)) (pointers w) with
  | Some (base, root) => base ++ skipn (length (as_str root)) p
  | None => p
  end.

(** path.rs:165-189 [with_extension]: the name is reversed, cut at the first dot and reversed back. *)
Definition with_extension (ext : text) (v : vpath) : option vpath :=
  let name := last v [] in
  let current := match split_once 46 (rev name) with Some (_, s) => rev s | None => name end in
  vfs_join (removelast v) (current ++ [46] ++ ext).

(** ** lib.rs: discovery *)
(** An entry of the walk over include, optionals and addons, and what reading it as text gives. *)
Record entry := Entry { e_path : vpath; e_text : option text }.
Inductive discovery :=
| Discovered (addons missions : list vpath) (ps : list (text * vpath))
| Unreadable (p : vpath)
| BadPrefix (e : perror)
| DuplicatePrefix (s : text).
(** prefix.rs:19-24 [FILES]. *)
Definition prefix_files : list text := [bs "$pboprefix$"; bs "$pboprefix$.txt"; bs "pboprefix.txt"; bs "$prefix$"].
Definition in_hemtt (v : vpath) : bool :=
  match split_once_str (bs ".hemtt") (as_str v) with Some _ => true | None => false end.
Definition pointer_key (parts : list text) : text := 47 :: slashes (ascii_lower (prefix_display parts)).
(** lib.rs:101-147 [discover]. *)
Fixpoint discover (es : list entry) (addons missions : list vpath) (ps : list (text * vpath)) : discovery :=
  match es with
  | [] => Discovered addons missions ps
  | e :: es =>
      if in_hemtt (e_path e) then discover es addons missions ps
      else
        let name := ascii_lower (last (e_path e) []) in
        if eqb_bytes name (bs "config.cpp") then discover es (addons ++ [e_path e]) missions ps
        else if eqb_bytes name (bs "mission.sqm") then discover es addons (missions ++ [e_path e]) ps
        else if existsb (eqb_bytes name) prefix_files then
          match e_text e with
          | None => Unreadable (e_path e)
          | Some s =>
              match prefix_new ascii_lower s with
              | PErr x => BadPrefix x
              | POk parts =>
                  if existsb (fun bp => eqb_bytes (fst bp) (pointer_key parts)) ps
                  then DuplicatePrefix (prefix_display parts)
                  else discover es addons missions (ps ++ [(pointer_key parts, removelast (e_path e))])
              end
          end
        else discover es addons missions ps
  end.

(** ** pdrive.rs *)
(** pdrive.rs:46-57: a P drive with the game's files unpacked. *)
Definition tools_path_to (there : vpath -> bool) (p : text) : pdres :=
  match vfs_join [] p with
  | None => PdNone
  | Some v => if there v then PdFound v else PdNone
  end.

(** pdrive.rs:16-31 [DIRS]. *)
Definition dirs : list text :=
  map (fun s => bs s)
    ["Addons"; "AoW\Addons"; "Argo\Addons"; "Contact\Addons"; "Curator\Addons"; "Enoch\Addons";
     "Expansion\Addons"; "Heli\Addons"; "Jets\Addons"; "Kart\Addons"; "Mark\Addons"; "Orange\Addons";
     "Tacops\Addons"; "Tank\Addons"]%string.

Section OnDemand.
  Context {pbo : Type}.
  (** [Path::extension] and [Path::file_stem] of a file name. *)
  Definition split_name (name : text) : text * text :=
    match rsplit_once 46 name with
    | Some (a, b) => match a with [] => (name, []) | _ => (a, b) end
    | None => (name, [])
    end.
  (** pdrive.rs:78-110 [PDriveOnDemand::new]; [game d]: the files of a folder of the game with what they hold,
      [None] if it cannot be read. The last insertion of a name counts. *)
  Fixpoint od_new (game : text -> option (list (text * pbo))) (ds : list text) : option (list (text * pbo)) :=
    match ds with
    | [] => Some []
    | d :: ds =>
        match game d with
        | None => None
        | Some files =>
            match od_new game ds with
            | None => None
            | Some cache =>
                Some (flat_map (fun f => if eqb_bytes (snd (split_name (fst f))) (bs "pbo")
                                         then [(fst (split_name (fst f)), snd f)] else []) files ++ cache)
            end
        end
    end.
  Definition od_get (cache : list (text * pbo)) (name : text) : option pbo :=
    match find (fun f => eqb_bytes (fst f) name) (rev cache) with Some f => Some (snd f) | None => None end.

  (** [file p name]: the bytes of a file of the archive, [None] if the archive cannot be read or has no such
      file (C06). *)
  Context (file : pbo -> text -> option bytes).
  (** The folder files were unpacked to. *)
  Definition store := list (vpath * bytes).
  Fixpoint above (v f : vpath) : bool :=
    match v, f with
    | [], _ => true
    | a :: v, b :: f => eqb_bytes a b && above v f
    | _ :: _, [] => false
    end.
  Definition od_there (st : store) (v : vpath) : bool := 
    match v with [] => true | _ :: _ => existsb (fun f => above v (fst f)) st end.
  (** pdrive.rs:112-146 [PDriveOnDemand::path_to]. *)
  Definition od_path_to (cache : list (text * pbo)) (st : store) (p : text) : pdres * store :=
    match vfs_join [] p with
    | None => (PdPanic, st)
    | Some v =>
        if od_there st v then (PdFound v, st)
        else
          match nth_error (split_on 47 p) 2 with
          | None => (PdPanic, st)
          | Some name =>
              match od_get cache name with
              | None => (PdNone, st)
              | Some a =>
                  match file a (join [47] (skipn 3 (split_on 47 p))) with
                  | None => (PdNone, st)
                  | Some content => (PdFound v, (v, content) :: st)
                  end
              end
          end
    end.
End OnDemand.
