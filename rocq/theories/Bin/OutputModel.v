(** Model of what the commands leave in the output folder and in the releases: the selection of addons and the clearing of the
    folder (bin/src/commands/{dev,build,release}.rs, bin/src/context.rs), the PBOs (bin/src/modules/pbo.rs [build]), copied files
    (bin/src/modules/files.rs, libs/common/src/config/project/files.rs), links (bin/src/modules/file_patching.rs, bin/src/link.rs),
    keys and signatures (bin/src/modules/sign.rs) and the archives (bin/src/modules/archive.rs), run by the executor of
    Bin/ExecModel.v.

    Simplifications: a folder is the files (and links) in it, so that a directory is there if something is in it; the disk
    does not fail; making a PBO (Bin/PackModel.v), a signature (Signing/Model.v) and a key are parameters; a step that fails
    leaves nothing half-written; the modules not listed above change the project (their results go to a layer in memory) but
    neither the output folder nor the releases, which a hook could; signing is a pass over the addons; links point to folders that exist. *)
From Coq Require Import String.
From Verif Require Import Base.Tactics Base.Bytes Base.Ascii Base.Sort Base.Text Bin.ExecModel Bin.AddonModel.
From Verif Require Bin.PackModel Bin.BinarizeModel Workspace.PathModel.
Local Open Scope N_scope.
Local Open Scope list_scope.

Definition same_path : path -> path -> bool := PackModel.eqb_parts.
(** A folder of the disk: the last thing put at a path is there. *)
Definition look {A} (p : path) (l : list (path * A)) : option A :=
  match find (fun x => same_path (fst x) p) l with Some x => Some (snd x) | None => None end.
Definition put {A} (p : path) (a : A) (l : list (path * A)) : list (path * A) :=
  (p, a) :: filter (fun x => negb (same_path (fst x) p)) l.
Definition as_str (p : path) : bytes := PathModel.as_str p.

(** files.rs:38-70: the patterns of the project, with a slash before them, and five that are always there. *)
Definition usual : list bytes := [bs "/mod.cpp"; bs "/meta.cpp"; bs "/LICENSE"; bs "/logo_ca.paa"; bs "/logo_co.paa"].
Definition rooted (s : bytes) : bytes := if starts_with [47] s then s else 47 :: s.
(** [Vec::dedup]. *)
Fixpoint dedup (l : list bytes) : list bytes :=
  match l with
  | a :: ((b :: _) as r) => if eqb_bytes a b then dedup r else a :: dedup r
  | l => l
  end.
Definition include_of (given : list bytes) : list bytes := dedup (sort_by (fun s => s) (map rooted given ++ usual)).

(** ** Which addons *)
(** commands/dev.rs:24-60, the profiles' optionals and the project's excluded folders. *)
Record dev_args := DevArgs { just : list bytes; optional : list bytes; all_optionals : bool; launch_optionals : list bytes; exclude : list bytes }.
(** addons.rs:108-110 [folder]. *)
Definition folder_of {D} (a : addon D) : bytes := location_name (loc a) ++ [47] ++ name a.
Definition member (s : bytes) (l : list bytes) : bool := existsb (eqb_bytes s) l.
Definition empty {A} (l : list A) : bool := match l with [] => true | _ => false end.

Section Output.
  Context {D R E C key : Type}.
  (** [lower]: [str::to_lowercase]; [glob]: [glob::Pattern::new] and [matches_with] ([require_literal_separator]). *)
  Context (lower : bytes -> bytes) (glob : bytes -> option (bytes -> bool)).

  (** commands/dev.rs:126-143. *)
  Definition dev_selects (d : dev_args) (a : addon D) : bool :=
    if negb (empty (just d)) && negb (member (lower (name a)) (map lower (just d))) then false
    else if member (name a) (launch_optionals d) then true
    else if same_location (loc a) Optionals && negb (all_optionals d) && negb (member (name a) (optional d)) then false
    else negb (existsb (fun e => starts_with (e ++ [47]) (folder_of a ++ [47])) (exclude d)).
  (** commands/build.rs:75-77. *)
  Definition build_selects (just : list bytes) (a : addon D) : bool := empty just || member (lower (name a)) (map lower just).

  (** ** The world *)
  (** The project: the files on the disk, those of the layers above (lib.rs:170-197: what was binarized, the include folder,
      results in memory), and whatever else the modules keep. *)
  Record inputs := Inputs { physical : list (path * bytes); layered : list (path * bytes); rest : R }.
  Inductive node := File (b : bytes) | Link (to : path).
  (** An archive: names with contents, and names of directories. *)
  Definition zip := list (bytes * option bytes).
  Record world := World { from : inputs; out : list (path * node); releases : list (path * zip) }.
  Definition with_out (o : list (path * node)) (w : world) : world := World (from w) o (releases w).

  (** [open_file] of a path of the workspace. *)
  Definition content (p : path) (i : inputs) : option bytes :=
    match look p (layered i) with Some b => Some b | None => look p (physical i) end.
  (** [walk_dir] of the root: the files. *)
  Definition walk (i : inputs) : list path :=
    map fst (layered i) ++ filter (fun p => match look p (layered i) with Some _ => false | None => true end) (map fst (physical i)).

  Context (project_ : project) (include : list bytes) (addons : list (addon D)).
  (** Making a PBO, the version (Common/ProjectVersionModel.v); what the other modules do. *)
  Context (pbo_of : inputs -> addon D -> bytes + E) (version_of : inputs -> bytes + E)
          (other : module -> stage -> inputs -> inputs * result E C).
  (** Keys and signatures; [keygen] is told for whom. The authority is the project's setting or its prefix. *)
  Context (authority : bytes) (keygen : option bytes -> bytes -> key) (public : key -> bytes) (sign : key -> bytes -> bytes + E).
  Context (bad_pattern not_found : E).

  (** ** The steps *)
  (** pbo.rs:34-58 [build]. *)
  Fixpoint build_all (collapse : bool) (l : list (addon D)) (w : world) : world * result E C :=
    match l with
    | [] => (w, Ok [])
    | a :: l =>
        match pbo_of (from w) a with
        | inr e => (w, Err e)
        | inl b => build_all collapse l (with_out (put (target_pbo project_ collapse a) (File b) (out w)) w)
        end
    end.
  Definition build_step (collapse : bool) (l : list (addon D)) (w : world) : world * result E C :=
    match version_of (from w) with inr e => (w, Err e) | inl _ => build_all collapse l w end.

  (** Where a path of the output folder leads to, if a link is on the way. *)
  Fixpoint strip (q p : path) : option path :=
    match q, p with
    | [], _ => Some p
    | a :: q, b :: p => if eqb_bytes a b then strip q p else None
    | _ :: _, [] => None
    end.
  Fixpoint through (o : list (path * node)) (p : path) : option path :=
    match o with
    | [] => None
    | (q, Link t) :: o => match strip q p with Some r => Some (t ++ r) | None => through o p end
    | _ :: o => through o p
    end.
  (** files.rs:57: the source is opened, the target is created (and cut to nothing), then the bytes go over. *)
  Definition copy_file (p : path) (w : world) : world :=
    match content p (from w) with
    | None => w
    | Some b =>
        match through (out w) p with
        | None => with_out (put p (File b) (out w)) w
        | Some t =>
            let i := from w in
            let b := match look p (layered i) with Some b => b | None => if same_path t p then [] else b end in
            World (Inputs (put t b (physical i)) (layered i) (rest i)) (out w) (releases w)
        end
    end.
  (** files.rs:24-47. *)
  Definition wanted (ms : list (bytes -> bool)) (p : path) : bool :=
    negb (starts_with (bs "/.hemtt") (as_str p)) && existsb (fun m : bytes -> bool => m (as_str p)) ms.
  (** files.rs:15-65 [post_build]. *)
  Definition copy_step (w : world) : world * result E C :=
    match BinarizeModel.patterns glob include with
    | None => (w, Err bad_pattern)
    | Some ms => (fold_left (fun w p => copy_file p w) (filter (wanted ms) (walk (from w))) w, Ok [])
    end.

  (** file_patching.rs:18-38, link.rs:97-112: an existing link is left as it is. *)
  Definition link_path (a : addon D) : path := [bs "addons"; name a].
  Definition link_step (l : list (addon D)) (w : world) : world * result E C :=
    (fold_left (fun w a =>
       match look (link_path a) (out w) with
       | Some _ => w
       | None => with_out (put (link_path a) (Link [location_name (loc a); name a]) (out w)) w
       end) l w, Ok []).

  (** sign.rs:85-140: one addon. *)
  Definition own_key (a : addon D) : bool := same_location (loc a) Optionals && optional_mod_folders project_.
  Definition key_for (version : bytes) (a : addon D) : key :=
    if own_key a then keygen (Some (name a)) (get_authority authority version (Some (pbo_name (p_prefix project_) a)))
    else keygen None (get_authority authority version None).
  Fixpoint sign_all (version : bytes) (l : list (addon D)) (w : world) : world * result E C :=
    match l with
    | [] => (w, Ok [])
    | a :: l =>
        let k := key_for version a in
        let o := if own_key a then put (key_location project_ authority version a) (File (public k)) (out w) else out w in
        match look (fst (sign_pbo project_ authority version a)) o with
        | Some (File b) =>
            match sign k b with
            | inr e => (with_out o w, Err e)
            | inl s => sign_all version l (with_out (put (sig_location project_ authority version a) (File s) o) w)
            end
        | _ => (with_out o w, Err not_found)
        end
    end.
  (** sign.rs:64-142 [pre_release]. *)
  Definition sign_step (l : list (addon D)) (w : world) : world * result E C :=
    match version_of (from w) with
    | inr e => (w, Err e)
    | inl v =>
        let au := get_authority authority v None in
        sign_all v l (with_out (put [bs "keys"; au ++ bs ".bikey"] (File (public (keygen None au))) (out w)) w)
    end.

  (** archive.rs:45-73: the names in the archive, and the directories above them. *)
  Definition zip_name (p : path) : bytes := [64] ++ release_folder project_ ++ [47] ++ join [47] p.
  Fixpoint above (p : path) : list path :=
    match p with
    | a :: ((_ :: _) as r) => [a] :: map (cons a) (above r)
    | _ => []
    end.
  Fixpoint once (l : list path) : list path :=
    match l with [] => [] | p :: l => if existsb (same_path p) l then once l else p :: once l end.
  Definition zip_of (o : list (path * node)) : zip :=
    map (fun p => (zip_name p, None)) (once (flat_map (fun x => above (fst x)) o)) ++
    map (fun x => (zip_name (fst x), match snd x with File b => Some b | Link _ => None end)) o.
  (** archive.rs:27-101 [release]. *)
  Definition latest : path := set_extension (bs "zip") [p_prefix project_ ++ bs "-latest"].
  Definition numbered (version : bytes) : path := [p_prefix project_ ++ [45] ++ version ++ bs ".zip"].
  Definition archive_step (w : world) : world * result E C :=
    let z := zip_of (out w) in
    let w := World (from w) (out w) (put latest z (releases w)) in
    match version_of (from w) with
    | inr e => (w, Err e)
    | inl v => (World (from w) (out w) (put (numbered v) z (releases w)), Ok [])
    end.

  (** The phases of the modules. *)
  Definition phase (l : list (addon D)) (m : module) (s : stage) (w : world) : world * result E C :=
    match m, s with
    | Files, PostBuild => copy_step w
    | FilePatching, PreBuild => link_step l w
    | Sign, PreRelease => sign_step l w
    | _, _ => let '(i, r) := other m s (from w) in (World i (out w) (releases w), r)
    end.

  (** ** The commands *)
  Context (severity_of : C -> severity).
  (** context.rs:101-105. *)
  Definition start (keep : bool) (w : world) : world := if keep then w else with_out [] w.
  Definition run_command (collapse : bool) (l : list (addon D)) (x : executor module) (w : world) : world * result E C :=
    run severity_of (phase l) (build_step collapse l) archive_step x w.
  (** commands/release.rs:71-94. *)
  Definition release_ (no_rap no_bin no_sign no_archive sign archive : bool) (w : world) : world * result E C :=
    run_command false addons (release_command no_rap no_bin no_sign no_archive sign archive) (start false w).
  (** commands/build.rs:54-90. *)
  Definition build_ (just : list bytes) (no_rap no_bin : bool) (w : world) : world * result E C :=
    run_command false (if empty just then addons else filter (build_selects just) addons) (build_command no_rap no_bin) (start (negb (empty just)) w).
  (** commands/dev.rs:95-171; [None]: an optional addon that was asked for is not among those selected. *)
  Definition dev_ (d : dev_args) (rapify no_rap force_binarize binarize : bool) (w : world) : world * option (result E C) :=
    let w := start (negb (empty (just d))) w in
    let l := filter (dev_selects d) addons in
    if existsb (fun o => negb (existsb (fun a => eqb_bytes (name a) o) l)) (optional d) then (w, None)
    else let '(w, r) := run_command true l (dev_command rapify no_rap force_binarize binarize) w in (w, Some r).
End Output.
Arguments inputs : clear implicits.
Arguments world : clear implicits.
