(** Model of what goes into an addon's archive: bin/src/modules/pbo.rs, on top of the archive writer of
    Pbo/Model.v. Paths are byte strings; a folder listing is what [walk_dir] yields. *)
From Coq Require Import String.
From Verif Require Import Base.Tactics Base.Bytes Base.Sort Base.Ascii Base.Text Pbo.Model.
Local Open Scope N_scope.
Local Open Scope list_scope.

(** One entry of [walk_dir] (libs/workspace/src/path.rs:344-357): the folders between the addon's folder and
    the entry, its file name, and its content ([None] for a folder). Simplified: the file system does not
    change while the archive is built, so [exists] and [open_file] see the listing itself. *)
Record entry := Entry { e_dirs : list bytes; e_name : bytes; e_content : option bytes }.

(** What the build can fail with: an invalid pattern (pbo.rs:129, 135), an invalid or unreadable prefix file
    (pbo.rs:146), the archive writer's errors (pbo.rs:161, 172). *)
Inductive pack_error := BadPattern | BadPrefix | PboError (e : pbo_error).

(** The components of an entry's path below the addon's folder. *)
Definition parts (e : entry) : list bytes := e_dirs e ++ [e_name e].

(** libs/workspace/src/path.rs [as_str]: the path from the root of the workspace; [folder] is
    libs/workspace/src/addons.rs:108-110 (e.g. [addons/main]). *)
Definition as_str (folder : bytes) (e : entry) : bytes :=
  47 :: folder ++ 47 :: join [47] (parts e).

(** [str::trim_start_matches] with a non-empty string pattern: the prefix is removed as often as it occurs. *)
Fixpoint trim_start_matches (fuel : nat) (p s : bytes) : bytes :=
  match fuel with
  | O => s
  | S f => if starts_with p s then trim_start_matches f p (skipn (length p) s) else s
  end.

(** pbo.rs:136-138 and 155-157. *)
Definition below (folder : bytes) (e : entry) : bytes :=
  let s := as_str folder e in
  trim_start_matches (length s) (47 :: folder ++ [47]) s.

(** [exists] of a path (pbo.rs:120), as the listing has it: a folder counts too. *)
Fixpoint eqb_parts (a b : list bytes) : bool :=
  match a, b with
  | [], [] => true
  | x :: a', y :: b' => eqb_bytes x y && eqb_parts a' b'
  | _, _ => false
  end.
Definition exists_at (tree : list entry) (p : list bytes) : bool :=
  existsb (fun e => eqb_parts (parts e) p) tree.

(** libs/common/src/prefix.rs:19-24. *)
Definition prefix_files : list bytes :=
  [bs "$pboprefix$"; bs "$pboprefix$.txt"; bs "pboprefix.txt"; bs "$prefix$"].

Section Params.
  (** [lower] is [str::to_lowercase]; [glob] is [glob::Pattern::new] and [matches]; [prefix_of] is
      [read_to_string], [Prefix::new] and [to_string] on a prefix file's content (property C22). *)
  Context (lower sha : bytes -> bytes) (glob : bytes -> option (bytes -> bool))
    (prefix_of : bytes -> option bytes).

  (** The two [for exclude in] loops (pbo.rs:128-132 and 133-143): [inl true] is [continue 'entries]. *)
  Fixpoint excluded (pats : list bytes) (path : bytes) : bool + pack_error :=
    match pats with
    | [] => inl false
    | p :: r =>
        match glob p with
        | None => inr BadPattern
        | Some m => if m path then inl true else excluded r path
        end
    end.

  (** The settings that decide the content: project exclude patterns and properties, the addon's own
      (empty without an addon.toml), the folder and the strings recorded as properties. *)
  Record settings := Settings {
    p_folder : bytes;
    p_exclude : list bytes; p_props : list (bytes * bytes);
    a_exclude : list bytes; a_props : list (bytes * bytes);
    p_hemtt : bytes; p_version : bytes; p_git : option bytes
  }.

  (** pbo.rs:119-162: one entry. *)
  Definition pack_entry (s : settings) (tree : list entry) (e : entry) (w : wpbo) : wpbo + pack_error :=
    match e_content e with
    | None => inl w
    | Some content =>
        if eqb_bytes (e_name e) (bs "config.cpp") && exists_at tree (e_dirs e ++ [bs "config.bin"]) then inl w
        else if eqb_bytes (e_name e) (bs "addon.toml") then inl w
        else
          match excluded (p_exclude s) (as_str (p_folder s) e) with
          | inr x => inr x
          | inl true => inl w
          | inl false =>
              match excluded (a_exclude s) (below (p_folder s) e) with
              | inr x => inr x
              | inl true => inl w
              | inl false =>
                  if existsb (eqb_bytes (lower (e_name e))) prefix_files then
                    match prefix_of content with
                    | None => inr BadPrefix
                    | Some p =>
                        let w := add_property s_prefix p w in
                        let w := add_property (bs "version") (p_version s) w in
                        inl (match p_git s with
                             | Some h => add_property (bs "git") h w
                             | None => w
                             end)
                    end
                  else
                    match add_file (norm (below (p_folder s) e)) content w with
                    | Ok w' => inl w'
                    | Err x => inr (PboError x)
                    end
              end
          end
    end.

  (** pbo.rs:118-163: the walk; the first error ends the build. *)
  Fixpoint pack_walk (s : settings) (tree todo : list entry) (w : wpbo) : wpbo + pack_error :=
    match todo with
    | [] => inl w
    | e :: r =>
        match pack_entry s tree e w with
        | inl w' => pack_walk s tree r w'
        | inr x => inr x
        end
    end.

  (** pbo.rs:68, 115-171: the archive before it is written. *)
  Definition pack (s : settings) (tree : list entry) : wpbo + pack_error :=
    let w := add_property (bs "version") (p_version s) (add_property (bs "hemtt") (p_hemtt s) wpbo_new) in
    match pack_walk s tree tree w with
    | inr x => inr x
    | inl w =>
        inl (fold_left (fun w kv => add_property (fst kv) (snd kv) w) (a_props s)
              (fold_left (fun w kv => add_property (fst kv) (snd kv) w) (p_props s) w))
    end.

  (** pbo.rs:172: the file on disk. [iter] is the order in which the writer's hash map yields its entries. *)
  Definition build_pbo (s : settings) (tree : list entry)
    (iter : list (bytes * (bytes * header)) -> list (bytes * (bytes * header))) : bytes + pack_error :=
    match pack s tree with
    | inr x => inr x
    | inl w =>
        match write lower sha (iter (w_files w)) true w with
        | Ok (out, _) => inl out
        | Err x => inr (PboError x)
        end
    end.
End Params.
