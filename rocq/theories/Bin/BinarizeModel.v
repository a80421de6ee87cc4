(** Model of which files are binarized, where the results go and which missing files are reported:
    bin/src/modules/binarize/mod.rs ([check], [pre_build]) and libs/p3d/src/functions/missing.rs.

    Simplifications: paths are Unix paths without empty names; the parallel loop of [pre_build] is a pass over
    the targets; the program that is run (binarize itself, or through wine or proton) is left out, its arguments
    are not; reading a model is a parameter (C35). *)
From Coq Require Import String.
From Verif Require Import Base.Tactics Base.Bytes Base.Sort Base.Ascii Base.Text Bin.PackModel Workspace.PathModel.
From Verif Require Import Bin.PackModel.
Local Open Scope N_scope.
Local Open Scope list_scope.

(** ** missing.rs *)
(** [str::ends_with]. *)
Definition ends_with (p s : text) : bool := starts_with (rev p) (rev s).
(** [str::replace]: every occurrence, from the left. *)
Fixpoint replace_go (pat rep : text) (skip : nat) (s : text) : text :=
  match s with
  | [] => []
  | c :: r =>
      match skip with
      | S k => replace_go pat rep k r
      | O => if starts_with pat s then rep ++ replace_go pat rep (length pat - 1) r else c :: replace_go pat rep O r
      end
  end.
Definition replace (pat rep s : text) : text := replace_go pat rep O s.

(** missing.rs:10-41 [SearchCache]. *)
Definition cache := list (text * bool).
Definition cached (c : cache) (k : text) : option bool :=
  match find (fun e => eqb_bytes (fst e) k) c with Some e => Some (snd e) | None => None end.
(** missing.rs:66-70, 103-107. *)
Definition rooted (s : text) : text := if starts_with [92] s then s else 92 :: s.

Section Missing.
  (** [located s]: whether [locate] finds the path, [None] if it is an error (Workspace/PathModel.v). *)
  Context (located : text -> option bool).

  (** missing.rs:79-87: the file a texture may be converted from. *)
  Definition other (t : text) : option text :=
    if ends_with (bs ".paa") t then Some (replace (bs ".paa") (bs ".tga") t)
    else if ends_with (bs ".tga") t then Some (replace (bs ".tga") (bs ".paa") t)
    else if ends_with (bs ".png") t then Some (replace (bs ".png") (bs ".paa") t)
    else None.
  (** missing.rs:61-97: the textures, in the order the set gives them. *)
  Fixpoint miss_textures (ts : list text) (c : cache) (acc : list text) : option (cache * list text) :=
    match ts with
    | [] => Some (c, acc)
    | t :: ts =>
        if eqb_bytes t [] || starts_with [35] t then miss_textures ts c acc
        else
          let t := rooted t in
          match cached c t with
          | Some true => miss_textures ts c acc
          | Some false => miss_textures ts c (acc ++ [t])
          | None =>
              match located t with
              | None => None
              | Some true => miss_textures ts ((t, true) :: c) acc
              | Some false =>
                  match other t with
                  | None => miss_textures ts ((t, false) :: c) (acc ++ [t])
                  | Some o =>
                      match located o with
                      | None => None
                      | Some true => miss_textures ts ((t, true) :: c) acc
                      | Some false => miss_textures ts ((t, false) :: c) (acc ++ [t])
                      end
                  end
              end
          end
    end.
  (** missing.rs:98-118: the materials. *)
  Fixpoint miss_materials (ms : list text) (c : cache) (acc : list text) : option (cache * list text) :=
    match ms with
    | [] => Some (c, acc)
    | m :: ms =>
        if eqb_bytes m [] then miss_materials ms c acc
        else
          let m := rooted m in
          match cached c m with
          | Some true => miss_materials ms c acc
          | Some false => miss_materials ms c (acc ++ [m])
          | None =>
              match located m with
              | None => None
              | Some true => miss_materials ms ((m, true) :: c) acc
              | Some false => miss_materials ms ((m, false) :: c) (acc ++ [m])
              end
          end
    end.
  (** missing.rs:48-120 [P3D::missing]; [order] lists a [HashSet] of the given texts. *)
  Definition missing (order : list text -> list text) (faces : list (text * text)) (c : cache)
    : option (cache * (list text * list text)) :=
    match miss_textures (order (map fst faces)) c [] with
    | None => None
    | Some (c, mt) =>
        match miss_materials (order (map snd faces)) c [] with
        | None => None
        | Some (c, mm) => Some (c, (mt, mm))
        end
    end.
End Missing.

(** ** mod.rs *)
Inductive pdrive_option := Disallow | Ignore | Require.
(** An addon: folder, prefix, binarize settings (enabled, exclude) if it has an addon.toml, and its walk. *)
Record addon := Addon { b_folder : text; b_prefix : list text; b_config : option (bool * list text); b_tree : list entry }.
Inductive message :=
| NoPDrive
| NoTextures (file : text) (missing : list text) (warning : bool)
| NoMaterials (file : text) (missing : list text) (warning : bool).
(** mod.rs:372-376 [BinarizeTarget]. *)
Record target := Target { t_source : text; t_output : text; t_entry : text }.
Record state := State { s_cache : cache; s_report : list message; s_targets : list target }.
(** [Panics]: an [expect] fails; [Fails]: [check] returns an error. *)
Inductive outcome := Panics | Fails | Done (s : state).

(** mod.rs:378-386 [check_signature]. *)
Definition check_signature (b : bytes) : bool :=
  eqb_bytes b [79; 68; 79; 76] || eqb_bytes b [66; 77; 84; 82] || eqb_bytes b [79; 80; 82; 87].
Definition trim_end_matches (fuel : nat) (p s : bytes) : bytes := rev (trim_start_matches fuel (rev p) (rev s)).
(** [entry.parent().as_str()]. *)
Definition parent_str (folder : text) (e : entry) : text := 47 :: join [47] (folder :: e_dirs e).

Section Check.
  Context (located : text -> option bool) (order : list text -> list text)
    (read_p3d : bytes -> option (list (text * text))) (glob : bytes -> option (bytes -> bool)) (tmp : text) (opt : pdrive_option).

  (** [glob::Pattern::new] of all patterns first, then [any] (mod.rs:179-193). *)
  Fixpoint patterns (ps : list bytes) : option (list (bytes -> bool)) :=
    match ps with
    | [] => Some []
    | p :: ps => match glob p, patterns ps with Some m, Some ms => Some (m :: ms) | _, _ => None end
    end.
  (** mod.rs:178-197: [Some true] is [continue]. *)
  Definition skipped (a : addon) (e : entry) : option bool :=
    match b_config a with
    | None => Some false
    | Some (_, exclude) =>
        match patterns exclude with
        | None => None
        | Some ms => Some (existsb (fun m : bytes -> bool => m (below (b_folder a) e)) ms)
        end
    end.
  (** mod.rs:241-248. *)
  Definition source_of (a : addon) (e : entry) : text :=
    let s := trim_slashes (as_str (b_folder a) e) in
    let s := trim_slashes (trim_start_matches (length s) (b_folder a) s) in
    tmp ++ [47] ++ join [47] (b_prefix a) ++ [47] ++ trim_end_matches (length s) (e_name e) s.
  (** mod.rs:249. *)
  Definition output_of (a : addon) (e : entry) : text :=
    tmp ++ bs "/hemtt_binarize_output/" ++ trim_slashes (parent_str (b_folder a) e).

  (** mod.rs:163-266: one entry of an addon. *)
  Definition check_entry (a : addon) (e : entry) (s : state) : outcome :=
    match e_content e with
    | None => Done s
    | Some content =>
        if existsb (eqb_bytes (snd (split_name (e_name e)))) [bs "rtm"; bs "p3d"; bs "wrp"] then
          match skipped a e with
          | None => Fails
          | Some true => Done s
          | Some false =>
              if (length content <? 4)%nat then Panics
              else
                let buf := firstn 4 content in
                if check_signature buf then Done s
                else
                  let t := Target (source_of a e) (output_of a e) (e_name e) in
                  if eqb_bytes buf [77; 76; 79; 68] then
                    match read_p3d content with
                    | None => Panics
                    | Some faces =>
                        match missing located order faces (s_cache s) with
                        | None => Fails
                        | Some (c, (mt, mm)) =>
                            let warn := match opt with Ignore => true | _ => false end in
                            let rep := s_report s in
                            let rep := match mt with [] => rep | _ => rep ++ [NoTextures (as_str (b_folder a) e) mt warn] end in
                            let rep := match mm with [] => rep | _ => rep ++ [NoMaterials (as_str (b_folder a) e) mm warn] end in
                            Done (State c rep (s_targets s ++ [t]))
                        end
                    end
                  else Done (State (s_cache s) (s_report s) (s_targets s ++ [t]))
          end
        else Done s
    end.
  Fixpoint check_tree (a : addon) (es : list entry) (s : state) : outcome :=
    match es with
    | [] => Done s
    | e :: es => match check_entry a e s with Done s => check_tree a es s | r => r end
    end.
  (** mod.rs:156-267. *)
  Fixpoint check_addons (l : list addon) (s : state) : outcome :=
    match l with
    | [] => Done s
    | a :: l =>
        match (match b_config a with Some (false, _) => Done s | _ => check_tree a (b_tree a) s end) with
        | Done s => check_addons l s
        | r => r
        end
    end.
  (** mod.rs:141-276 [check]. *)
  Definition check (has_pdrive : bool) (l : list addon) : outcome :=
    check_addons l (State [] (if has_pdrive then [] else match opt with Require => [NoPDrive] | _ => [] end) []).

  (** mod.rs:326-345: the arguments of binarize, which is run in [tmp]. *)
  Definition backslashes (s : text) : text := map (fun c => if c =? 47 then 92 else c) s.
  Fixpoint trim_backslashes (s : text) : text := match s with c :: r => if c =? 92 then trim_backslashes r else s | [] => [] end.
  Definition relative (s : text) : text := backslashes (trim_backslashes (trim_slashes (trim_start_matches (length s) tmp s))).
  Definition arguments (t : target) : list text :=
    [bs "-norecurse"; bs "-always"; bs "-silent"; bs "-maxProcesses=0"; relative (t_source t); relative (t_output t); backslashes (t_entry t)].
  (** mod.rs:279-369 [pre_build]: the commands that are run, and for which targets a failure is reported;
      [written] tells what is there afterwards, [succeeds] the exit status. [None]: the assertion panics. *)
  Definition pre_build (command check_only : bool) (succeeds : target -> bool) (written : text -> bool) (ts : list target)
    : option (list (list text) * list text) :=
    if negb command || check_only then Some ([], [])
    else if forallb succeeds ts then
      Some (map arguments ts, flat_map (fun t => if written (t_output t ++ [47] ++ t_entry t) then [] else [t_entry t]) ts)
    else None.
End Check.

(** missing.rs:76, 88: [locate] from the root of the workspace. *)
Definition located_in (w : workspace) (t : text) : option bool :=
  match locate w [] t with Missing => Some false | Found _ _ => Some true | Invalid | Crash => None end.
