(** Specification vocabulary for C56: which files of an addon are packed, under which name, and where each
    property comes from. *)
From Coq Require Import String.
From Verif Require Import Base.Tactics Base.Bytes Base.Sort Base.Ascii Base.Text Io.Spec Pbo.Model Pbo.Spec Bin.PackModel.
Local Open Scope N_scope.
Local Open Scope list_scope.

(** File and folder names of a listing: not empty, no separator, no NUL, UTF-8. *)
Definition name_ok (n : bytes) : Prop := n <> [] /\ ~ In 47 n /\ ~ In 92 n /\ good_str n.
Definition listing (tree : list entry) : Prop :=
  Forall (fun e => Forall name_ok (e_dirs e) /\ name_ok (e_name e)) tree /\
  NoDup (map (fun e => e_dirs e ++ [e_name e]) tree).

Section S.
  Context (lower : bytes -> bytes) (glob : bytes -> option (bytes -> bool)).

  Definition matches (pats : list bytes) (path : bytes) : Prop :=
    exists p m, In p pats /\ glob p = Some m /\ m path = true.

  (** A file is considered unless it is a config.cpp with a config.bin beside it, an addon.toml, or matched
      by a pattern: a project pattern against the path from the root, an addon pattern against the path
      below the addon's folder. *)
  Definition considered (s : settings) (tree : list entry) (e : entry) : Prop :=
    In e tree /\ e_content e <> None /\
    ~ (e_name e = bs "config.cpp" /\ exists e', In e' tree /\ e_dirs e' = e_dirs e /\ e_name e' = bs "config.bin") /\
    e_name e <> bs "addon.toml" /\
    ~ matches (p_exclude s) ([47] ++ p_folder s ++ [47] ++ join [47] (e_dirs e ++ [e_name e])) /\
    ~ matches (a_exclude s) (join [47] (e_dirs e ++ [e_name e])).

  Definition is_prefix_file (e : entry) : Prop :=
    In (lower (e_name e)) [bs "$pboprefix$"; bs "$pboprefix$.txt"; bs "pboprefix.txt"; bs "$prefix$"].

  Definition packed (s : settings) (tree : list entry) (e : entry) (content : bytes) : Prop :=
    considered s tree e /\ ~ is_prefix_file e /\ e_content e = Some content.

  (** The name inside the archive: the path below the addon's folder, with backslashes. *)
  Definition inner_name (e : entry) : bytes := join [92] (e_dirs e ++ [e_name e]).

  (** [last_prefix tree e]: [e] is the last prefix file of the walk. *)
  Definition last_prefix (s : settings) (tree : list entry) (e : entry) : Prop :=
    exists before after, tree = before ++ e :: after /\ considered s tree e /\ is_prefix_file e /\
      forall e', In e' after -> considered s tree e' -> ~ is_prefix_file e'.

  Definition has_key (k : bytes) (l : list (bytes * bytes)) : Prop := In k (map fst l).

  (** Where the value of property [k] comes from, most specific source first. *)
  Inductive property_source (prefix_of : bytes -> option bytes) (s : settings) (tree : list entry) (k : bytes)
    : bytes -> Prop :=
  | from_addon v : In (k, v) (a_props s) -> property_source prefix_of s tree k v
  | from_project v : ~ has_key k (a_props s) -> In (k, v) (p_props s) -> property_source prefix_of s tree k v
  | from_prefix_file e c v : ~ has_key k (a_props s) -> ~ has_key k (p_props s) -> k = bs "prefix" ->
      last_prefix s tree e -> e_content e = Some c -> prefix_of c = Some v -> property_source prefix_of s tree k v
  | from_git e v : ~ has_key k (a_props s) -> ~ has_key k (p_props s) -> k = bs "git" ->
      last_prefix s tree e -> p_git s = Some v -> property_source prefix_of s tree k v
  | from_version : ~ has_key k (a_props s) -> ~ has_key k (p_props s) -> k = bs "version" ->
      property_source prefix_of s tree k (p_version s)
  | from_hemtt : ~ has_key k (a_props s) -> ~ has_key k (p_props s) -> k = bs "hemtt" ->
      property_source prefix_of s tree k (p_hemtt s).

  (** Strings the format can hold. *)
  Definition settings_ok (s : settings) : Prop :=
    good_str (p_hemtt s) /\ good_str (p_version s) /\ (forall h, p_git s = Some h -> good_str h) /\
    Forall (fun kv => good_str (fst kv) /\ fst kv <> [] /\ good_str (snd kv)) (p_props s ++ a_props s) /\
    NoDup (map fst (p_props s)) /\ NoDup (map fst (a_props s)).
End S.
