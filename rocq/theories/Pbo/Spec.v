(** Specification vocabulary for the PBO properties (C03-C08). *)
From Verif Require Import Base.Tactics Base.Bytes Base.Sort Io.Model Io.Spec Pbo.Model.
Local Open Scope N_scope.

(** ** Histories of API calls on an archive under construction *)

Inductive op :=
| AddFile (name content : bytes)
| AddFileWithHeader (h : header) (content : bytes)
| AddProperty (key value : bytes)
| RemoveProperty (key : bytes).

(** A call that returns an error leaves the archive as it was. *)
Definition step (w : wpbo) (o : op) : wpbo :=
  match o with
  | AddFile n c => match add_file n c w with Ok w' => w' | Err _ => w end
  | AddFileWithHeader h c => add_file_with_header h c w
  | AddProperty k v => add_property k v w
  | RemoveProperty k => remove_property k w
  end.

Definition run (ops : list op) : wpbo := fold_left step ops wpbo_new.

(** A Rust [String] without NUL. *)
Definition good_str (s : bytes) : Prop := utf8_valid s = true /\ no_nul s.

(** Calls whose strings the format can hold: names and keys non-empty, nothing contains NUL. *)
Definition plain_op (o : op) : Prop :=
  match o with
  | AddFile n _ => good_str n /\ n <> []
  | AddFileWithHeader _ _ => False
  | AddProperty k v => good_str k /\ k <> [] /\ good_str v
  | RemoveProperty _ => True
  end.

(** ** What a history means: the last write wins. *)

(** Two spellings of a path are the same up to the separator. *)
Definition same_path (a b : bytes) : Prop :=
  Forall2 (fun x y => x = y \/ (x = 47 /\ y = 92) \/ (x = 92 /\ y = 47)) a b.

(** [newest_file name ops c]: [c] is the content given by the most recent accepted call for [name]. *)
Inductive newest_file (name : bytes) : list op -> bytes -> Prop :=
| newest_here ops n c :
    same_path n name -> blen c < 2 ^ 32 -> newest_file name (ops ++ [AddFile n c]) c
| newest_here_h ops h c :
    same_path (h_name h) name -> newest_file name (ops ++ [AddFileWithHeader h c]) c
| newest_before ops o c :
    match o with
    | AddFile n c' => same_path n name -> 2 ^ 32 <= blen c'
    | AddFileWithHeader h _ => ~ same_path (h_name h) name
    | _ => True
    end ->
    newest_file name ops c -> newest_file name (ops ++ [o]) c.

(** [v] is [s] without its leading and trailing backslashes. *)
Definition stripped (s v : bytes) : Prop :=
  exists i j, s = repeat 92 i ++ v ++ repeat 92 j /\
    (forall r, v <> 92 :: r) /\ (forall r, v <> r ++ [92]).

Inductive newest_property (key : bytes) : list op -> bytes -> Prop :=
| newest_prop ops s v : stripped s v -> newest_property key (ops ++ [AddProperty key s]) v
| newest_prop_before ops o v :
    match o with
    | AddProperty k _ => k <> key
    | RemoveProperty k => k <> key
    | _ => True
    end ->
    newest_property key ops v -> newest_property key (ops ++ [o]) v.

(** ** Order of the property block *)

Definition prefix_first (props : list (bytes * bytes)) : list (bytes * bytes) :=
  filter (fun kv => eqb_bytes (fst kv) s_prefix) props
  ++ filter (fun kv => negb (eqb_bytes (fst kv) s_prefix)) props.

(** ** The archive format, for arbitrary (also foreign) archives *)

(** A header as it appears in the file: its name is a raw byte run. *)
Record raw_header := RawHeader {
  rh_name : bytes; rh_mime : mime; rh_original : N; rh_reserved : N; rh_timestamp : N; rh_size : N }.

Definition raw_header_bytes (h : raw_header) : bytes :=
  rh_name h ++ [0] ++ u32_bytes (mime_u32 (rh_mime h)) ++ u32_bytes (rh_original h)
  ++ u32_bytes (rh_reserved h) ++ u32_bytes (rh_timestamp h) ++ u32_bytes (rh_size h).

(** How the reader sees a raw name: bytes that are not UTF-8 count as the empty string. *)
Definition seen (s : bytes) : bytes := if utf8_valid s then s else [].
Definition seen_header (h : raw_header) : header :=
  Header (seen (rh_name h)) (rh_mime h) (rh_original h) (rh_reserved h) (rh_timestamp h) (rh_size h).

(** One entry of the table: a file, or a version header with its properties and the raw key that ends them. *)
Inductive entry :=
| FileEntry (h : raw_header)
| VersEntry (h : raw_header) (props : list (bytes * bytes)) (stop : bytes).

Definition entry_bytes (e : entry) : bytes :=
  match e with
  | FileEntry h => raw_header_bytes h
  | VersEntry h props stop =>
      raw_header_bytes h ++ flat_map (fun kv => fst kv ++ [0] ++ snd kv ++ [0]) props ++ stop ++ [0]
  end.

Definition entry_ok (e : entry) : Prop :=
  match e with
  | FileEntry h => rh_mime h <> Vers /\ seen (rh_name h) <> [] /\ no_nul (rh_name h)
  | VersEntry h props stop =>
      rh_mime h = Vers /\ no_nul (rh_name h) /\ seen stop = [] /\ no_nul stop /\
      Forall (fun kv => seen (fst kv) <> [] /\ no_nul (fst kv) /\ no_nul (snd kv)) props
  end.

Definition entry_files (e : entry) : list raw_header :=
  match e with FileEntry h => [h] | VersEntry _ _ _ => [] end.

Definition files_of (es : list entry) : list header := map seen_header (flat_map entry_files es).

(** The table ends with a header that is not a version header and whose name reads as empty. *)
Definition terminator_ok (h : raw_header) : Prop :=
  rh_mime h <> Vers /\ seen (rh_name h) = [] /\ no_nul (rh_name h).

Definition table_bytes (es : list entry) (term : raw_header) : bytes :=
  flat_map entry_bytes es ++ raw_header_bytes term.

(** Every raw string in the table is valid UTF-8 (version header, keys, values, terminator). *)
Definition entry_clean (e : entry) : Prop :=
  match e with
  | FileEntry _ => True
  | VersEntry h props stop =>
      utf8_valid (rh_name h) = true /\ utf8_valid stop = true /\
      Forall (fun kv => utf8_valid (snd kv) = true) props
  end.
Definition table_clean (es : list entry) (term : raw_header) : Prop :=
  Forall entry_clean es /\ utf8_valid (rh_name term) = true.

Definition total_size (hs : list header) : N := fold_right (fun h a => h_size h + a) 0 hs.

(** [input] is an archive with table entries [es], terminator [term], one body per file and the checksum,
    and nothing else. *)
Definition archive (input : bytes) (es : list entry) (term : raw_header)
  (bodies : list bytes) (sep : N) (checksum : bytes) : Prop :=
  input = table_bytes es term ++ concat bodies ++ [sep] ++ checksum
  /\ map blen bodies = map h_size (files_of es)
  /\ length checksum = 20%nat
  /\ Forall entry_ok es /\ terminator_ok term.
