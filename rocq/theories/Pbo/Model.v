(** Model of libs/pbo: archive writer and reader.
    Files are byte strings held in memory; io errors other than end of input are not modelled.
    [lower] stands for [str::to_lowercase] and [sha] for SHA-1; both are parameters. *)
From Verif Require Import Base.Tactics Base.Bytes Base.Sort Io.Model.
Local Open Scope N_scope.

(** model/mime.rs:1-14. *)
Inductive mime := Vers | Cprs | Enco | Blank.

(** model/mime.rs:18-26 [Mime::as_u32]. *)
Definition mime_u32 (m : mime) : N :=
  match m with
  | Vers => 1449489011 (* 0x56657273 *)
  | Cprs => 1131442803 (* 0x43707273 *)
  | Enco => 1164862322 (* 0x456e6372 *)
  | Blank => 0
  end.

(** model/mime.rs:30-38 [Mime::from_u32]. *)
Definition mime_of_u32 (v : N) : option mime :=
  if v =? 1449489011 then Some Vers
  else if v =? 1131442803 then Some Cprs
  else if v =? 1164862322 then Some Enco
  else if v =? 0 then Some Blank
  else None.

(** model/header.rs:8-17. *)
Record header := Header {
  h_name : bytes;
  h_mime : mime;
  h_original : N;
  h_reserved : N;
  h_timestamp : N;
  h_size : N
}.

(** model/header.rs:8 [#[derive(Default)]]. *)
Definition header_default : header := Header [] Blank 0 0 0 0.

(** model/header.rs:22-29 [Header::new_for_file]. *)
Definition header_for_file (name : bytes) (size : N) : header := Header name Blank size 0 0 size.

(** model/header.rs:33-39 [Header::property]. *)
Definition header_property : header := Header [] Vers 0 0 0 0.

(** model/header.rs:81-92 [Header::write_pbo]. *)
Definition write_header (h : header) : bytes :=
  h_name h ++ [0] ++ u32_bytes (mime_u32 (h_mime h)) ++ u32_bytes (h_original h)
  ++ u32_bytes (h_reserved h) ++ u32_bytes (h_timestamp h) ++ u32_bytes (h_size h).

(** error.rs. *)
Inductive pbo_error := EEof | EUnsupportedMime (m : N) | EDataAfterChecksum | EFileTooLarge | ENoFiles
| EPanic      (* an [expect] on a missing file *)
| EOutOfFuel. (* not reachable, see Proofs.v *)

Inductive res (A : Type) := Ok (a : A) | Err (e : pbo_error).
Arguments Ok {A}. Arguments Err {A}.

Definition of_opt {A} (o : option A) : res A := match o with Some a => Ok a | None => Err EEof end.

Definition bind {A B} (r : res A) (k : A -> res B) : res B :=
  match r with Ok a => k a | Err e => Err e end.
Notation "'let*' x ':=' r 'in' k" := (bind r (fun x => k)) (at level 61, x pattern, right associativity).

(** model/header.rs:94-112 [Header::read_pbo]: header, bytes counted, rest. The count uses the length of
    the decoded file name. *)
Definition read_header (l : bytes) : res (header * N * bytes) :=
  let (name, l1) := read_cstring l in
  let* (m, l2) := of_opt (read_u32 l1) in
  match mime_of_u32 m with
  | None => Err (EUnsupportedMime m)
  | Some mm =>
      let* (o, l3) := of_opt (read_u32 l2) in
      let* (rv, l4) := of_opt (read_u32 l3) in
      let* (ts, l5) := of_opt (read_u32 l4) in
      let* (sz, l6) := of_opt (read_u32 l5) in
      Ok (Header name mm o rv ts sz, 20 + blen name + 1, l6)
  end.

(** ** Insertion-ordered maps ([IndexMap]) with byte-string keys. *)
Section IndexMap.
  Context {V : Type}.

  (** [IndexMap::get]. *)
  Fixpoint im_get (k : bytes) (m : list (bytes * V)) : option V :=
    match m with
    | [] => None
    | (k', v) :: r => if eqb_bytes k k' then Some v else im_get k r
    end.

  (** [IndexMap::insert]: replaces the value in place, or appends. *)
  Fixpoint im_insert (k : bytes) (v : V) (m : list (bytes * V)) : list (bytes * V) :=
    match m with
    | [] => [(k, v)]
    | (k', v') :: r => if eqb_bytes k k' then (k', v) :: r else (k', v') :: im_insert k v r
    end.

  (** [IndexMap::swap_remove]: the last entry takes the removed entry's place. *)
  Fixpoint im_swap_remove (k : bytes) (m : list (bytes * V)) : list (bytes * V) :=
    match m with
    | [] => []
    | (k', v') :: r =>
        if eqb_bytes k k' then
          match r with
          | [] => []
          | x :: r' => last r x :: removelast r
          end
        else (k', v') :: im_swap_remove k r
    end.
End IndexMap.

(** ** Writer *)

(** [str::replace('/', "\\")]: write.rs:38,58,67, read.rs:80. *)
Definition norm (name : bytes) : bytes := map (fun b => if b =? 47 then 92 else b) name.

(** [trim_matches('\\')]: write.rs:105. *)
Fixpoint trim_start (c : N) (l : bytes) : bytes :=
  match l with
  | b :: r => if b =? c then trim_start c r else l
  | [] => []
  end.
Definition trim_matches (c : N) (l : bytes) : bytes := rev (trim_start c (rev (trim_start c l))).

(** write.rs:14-17. The [HashMap] of files is a list of entries with distinct keys; its order carries no
    meaning: [write] below takes the iteration order as an argument. *)
Record wpbo := WPbo {
  w_props : list (bytes * bytes);
  w_files : list (bytes * (bytes * header))
}.

(** write.rs:22-27. *)
Definition wpbo_new : wpbo := WPbo [] [].

(** write.rs:33-47 [add_file]; the size check is against [u32::MAX]. *)
Definition add_file (name content : bytes) (w : wpbo) : res wpbo :=
  let name := norm name in
  if 4294967295 <? blen content then Err EFileTooLarge
  else Ok (WPbo (w_props w) (im_insert name (content, header_for_file name (blen content)) (w_files w))).

(** write.rs:53-60 [add_file_with_header]. *)
Definition add_file_with_header (h : header) (content : bytes) (w : wpbo) : wpbo :=
  WPbo (w_props w) (im_insert (norm (h_name h)) (content, h) (w_files w)).

(** write.rs:66-74 [file]: the whole content, from the start. *)
Definition w_file (name : bytes) (w : wpbo) : option bytes :=
  match im_get (norm name) (w_files w) with
  | Some (c, _) => Some c
  | None => None
  end.

(** write.rs:99-106, 109-111, 115-117. *)
Definition add_property (k v : bytes) (w : wpbo) : wpbo :=
  WPbo (im_insert k (trim_matches 92 v) (w_props w)) (w_files w).
Definition remove_property (k : bytes) (w : wpbo) : wpbo :=
  WPbo (im_swap_remove k (w_props w)) (w_files w).
Definition w_property (k : bytes) (w : wpbo) : option bytes := im_get k (w_props w).

(** "prefix" *)
Definition s_prefix : bytes := [112; 114; 101; 102; 105; 120].

(** write.rs:141-154 and read.rs:182-195: the property block: prefix first, the others in map order, a
    zero byte. *)
Definition write_props (props : list (bytes * bytes)) : bytes :=
  match im_get s_prefix props with
  | Some v => write_cstring s_prefix ++ write_cstring v
  | None => []
  end
  ++ flat_map (fun kv => if eqb_bytes (fst kv) s_prefix then []
                         else write_cstring (fst kv) ++ write_cstring (snd kv)) props
  ++ [0].

Section Params.
  Context (lower : bytes -> bytes) (sha : bytes -> bytes).

  (** The sort key of write.rs:88-96 and read.rs:99-107. *)
  Definition lname (h : header) : bytes := lower (h_name h).

  Definition files_sorted (hs : list header) : list header := sort_by lname hs.

  (** write.rs:172-195: the bodies in header order; [None] is the panic of the [expect]. The parallel
      branch for large files performs the same two writes. *)
  Fixpoint write_bodies (w : wpbo) (hs : list header) : option bytes :=
    match hs with
    | [] => Some []
    | h :: r =>
        match w_file (h_name h) w, write_bodies w r with
        | Some c, Some cs => Some (c ++ cs)
        | _, _ => None
        end
    end.

  (** write.rs:132-203 [write]: the output and the returned checksum. [iter] is the order in which the
      hash map yields its entries. *)
  Definition write (iter : list (bytes * (bytes * header))) (properties : bool) (w : wpbo)
    : res (bytes * bytes) :=
    let hs := files_sorted (map (fun e => snd (snd e)) iter) in
    let heads :=
      (if properties then write_header header_property ++ write_props (w_props w) else [])
      ++ flat_map write_header hs ++ write_header header_default in
    match write_bodies w hs with
    | None => Err EPanic
    | Some bodies =>
        let digest := sha (heads ++ bodies) in
        Ok (heads ++ bodies ++ [0] ++ digest, digest)
    end.

  (** ** Reader *)

  (** read.rs:16-23. [r_input] is the whole input (the reader seeks in it). *)
  Record rpbo := RPbo {
    r_props : list (bytes * bytes);
    r_vers : option header;
    r_headers : list header;
    r_checksum : bytes;
    r_input : bytes;
    r_blob : N
  }.

  (** read.rs:40-49: the property loop; returns properties, bytes counted, rest. *)
  Fixpoint read_props (fuel : nat) (props : list (bytes * bytes)) (cnt : N) (l : bytes)
    : res (list (bytes * bytes) * N * bytes) :=
    match fuel with
    | O => Err EOutOfFuel
    | S f =>
        let (key, l1) := read_cstring l in
        let cnt1 := cnt + blen key + 1 in
        match key with
        | [] => Ok (props, cnt1, l1)
        | _ =>
            let (value, l2) := read_cstring l1 in
            read_props f (im_insert key value props) (cnt1 + blen value + 1) l2
        end
    end.

  (** read.rs:35-55: the header loop. *)
  Fixpoint read_table (fuel : nat) (props : list (bytes * bytes)) (vers : option header)
    (heads : list header) (blob : N) (l : bytes)
    : res (list (bytes * bytes) * option header * list header * N * bytes) :=
    match fuel with
    | O => Err EOutOfFuel
    | S f =>
        let* (h, cnt, l1) := read_header l in
        let blob1 := blob + cnt in
        match h_mime h with
        | Vers =>
            let* (props1, blob2, l2) := read_props (S (length l1)) props blob1 l1 in
            read_table f props1 (Some h) heads blob2 l2
        | _ =>
            match h_name h with
            | [] => Ok (props, vers, heads, blob1, l1)
            | _ => read_table f props vers (heads ++ [h]) blob1 l1
            end
        end
    end.

  (** [Seek::seek(SeekFrom::Current(n))] followed by reading: drop [n] bytes (seeking past the end leaves
      nothing to read). *)
  Fixpoint skipN (n : N) (l : bytes) : bytes :=
    match l with
    | [] => []
    | b :: r => if n =? 0 then l else skipN (n - 1) r
    end.
  Fixpoint takeN (n : N) (l : bytes) : bytes :=
    match l with
    | [] => []
    | b :: r => if n =? 0 then [] else b :: takeN (n - 1) r
    end.

  (** read.rs:30-74 [ReadablePbo::from]. *)
  Definition read (input : bytes) : res rpbo :=
    let* (props, vers, heads, blob, l) := read_table (S (length input)) [] None [] 0 input in
    let l1 := fold_left (fun l h => skipN (h_size h) l) heads l in
    let l2 := skipN 1 l1 in
    let* (checksum, l3) := of_opt (take_exact 20 l2) in
    match l3 with
    | [] => Ok (RPbo props vers heads checksum input blob)
    | _ => Err EDataAfterChecksum
    end.

  (** read.rs:77-81 [header]. *)
  Definition r_header (name : bytes) (r : rpbo) : option header :=
    find (fun h => eqb_bytes (h_name h) (norm name)) (r_headers r).

  (** read.rs:113-123 [file] together with file.rs: the bytes the returned reader yields. *)
  Fixpoint file_go (target : bytes) (hs : list header) (l : bytes) : option bytes :=
    match hs with
    | [] => None
    | h :: r =>
        if eqb_bytes (lname h) target then Some (takeN (h_size h) l)
        else file_go target r (skipN (h_size h) l)
    end.
  Definition r_file (name : bytes) (r : rpbo) : option bytes :=
    file_go (lower (norm name)) (r_headers r) (skipN (r_blob r) (r_input r)).

  (** read.rs:129-138 [file_offset]. *)
  Fixpoint offset_go (target : bytes) (hs : list header) (off : N) : option N :=
    match hs with
    | [] => None
    | h :: r => if eqb_bytes (lname h) target then Some off else offset_go target r (off + h_size h)
    end.
  Definition file_offset (name : bytes) (r : rpbo) : option N :=
    offset_go (lower (norm name)) (r_headers r) (r_blob r).

  (** read.rs:144-167 [is_sorted]. *)
  Fixpoint sorted_go (prev : header) (hs : list header) : bool :=
    match hs with
    | [] => true
    | h :: r => match cmp_bytes (lname prev) (lname h) with Gt => false | _ => sorted_go h r end
    end.
  Definition is_sorted (r : rpbo) : bool :=
    match r_headers r with
    | [] => true
    | h :: rest => sorted_go h rest
    end.

  (** read.rs:207-212: contents of each header's name; [None] is the panic of the [expect]. *)
  Fixpoint files_by_name (r : rpbo) (hs : list header) : option bytes :=
    match hs with
    | [] => Some []
    | h :: t =>
        match r_file (h_name h) r, files_by_name r t with
        | Some c, Some cs => Some (c ++ cs)
        | _, _ => None
        end
    end.

  (** read.rs:176-215 [gen_checksum]. *)
  Definition gen_checksum (r : rpbo) : res bytes :=
    let heads :=
      match r_vers r with Some h => write_header h | None => [] end
      ++ write_props (r_props r)
      ++ flat_map write_header (files_sorted (r_headers r))
      ++ write_header header_default in
    match files_by_name r (files_sorted (r_headers r)) with
    | None => Err EPanic
    | Some bodies => Ok (sha (heads ++ bodies))
    end.

  (** read.rs:222-241 [hash_filenames]: a file whose first byte cannot be read is skipped. *)
  Definition hash_filenames (r : rpbo) : res bytes :=
    match r_headers r with
    | [] => Err ENoFiles
    | _ =>
        Ok (sha (flat_map (fun h =>
              match r_file (h_name h) r with
              | Some (_ :: _) => lower (norm (h_name h))
              | _ => []
              end) (files_sorted (r_headers r))))
    end.

  (** read.rs:247-268 [hash_files]; [should_hash] and [nothing] are those of the signature version
      (libs/common/src/sign_version.rs:47-91). *)
  Definition hash_files (should_hash : bytes -> bool) (nothing : bytes) (r : rpbo) : res bytes :=
    let picked := filter (fun h => should_hash (h_name h)) (files_sorted (r_headers r)) in
    let data := flat_map (fun h => match r_file (h_name h) r with Some c => c | None => [] end) picked in
    Ok (sha (match picked with [] => nothing | _ => data end)).
End Params.
