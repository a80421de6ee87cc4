(** Model of a stringtable as a file: the comments that libs/stringtable/src/lib.rs carries over from the file it reads to the
    file it writes, the lines it writes, the command that rewrites the files and the lint that compares them.

    Simplifications: quick_xml's reading of the protected text is a parameter ([parse]; see Model.v for the text of one
    element); its writing is modelled with the settings of lib.rs:117-119 (an indentation of four blanks, no self-closing
    elements); writing never fails; what is not UTF-8 is not modelled. *)
From Coq Require Import String.
From Verif Require Import Base.Tactics Base.Bytes Base.Ascii Base.Sort Base.Text Stringtable.Model.
Local Open Scope N_scope.
Local Open Scope list_scope.

(** ** Writing the elements *)
(** quick_xml's indentation at a depth. *)
Definition indent (d : nat) : bytes := repeat 32 (4 * d).
(** key.rs:15-92: the translations a key has, in the order of the fields, with the names serde gives them. *)
Definition translations (k : key) : list (bytes * bytes) :=
  flat_map (fun '(t, o) => match o with Some s => [(t, s)] | None => [] end)
    [(bs "Original", original k); (bs "English", english k); (bs "Czech", czech k); (bs "French", french k);
     (bs "Spanish", spanish k); (bs "Italian", italian k); (bs "Polish", polish k); (bs "Portuguese", portuguese k);
     (bs "Russian", russian k); (bs "German", german k); (bs "Korean", korean k); (bs "Japanese", japanese k);
     (bs "Chinese", chinese k); (bs "Chinesesimp", chinesesimp k); (bs "Turkish", turkish k); (bs "Swedish", swedish k);
     (bs "Slovak", slovak k); (bs "Serbocroatian", serbocroatian k); (bs "Norwegian", norwegian k); (bs "Icelandic", icelandic k);
     (bs "Hungarian", hungarian k); (bs "Greek", greek k); (bs "Finnish", finnish k); (bs "Dutch", dutch k)].
(** One element with an attribute around others, each of which starts a line. *)
Definition element (d : nat) (tag attribute value : bytes) (inner : list bytes) : list bytes :=
  let start := indent d ++ bs "<" ++ tag ++ bs " " ++ attribute ++ [61; 34] ++ attribute_escape value ++ [34; 62] in
  let stop := bs "</" ++ tag ++ bs ">" in
  match inner with
  | [] => [start ++ stop]
  | _ => start :: inner ++ [indent d ++ stop]
  end.
(** key.rs:4-13 [min_escape] and the escaping of quick_xml. *)
Definition translation_line (d : nat) (t : bytes * bytes) : bytes :=
  indent d ++ bs "<" ++ fst t ++ bs ">" ++ partial_escape (minimal_escape (snd t)) ++ bs "</" ++ fst t ++ bs ">".
Definition key_lines (d : nat) (k : key) : list bytes :=
  element d (bs "Key") (bs "ID") (id k) (map (translation_line (S d)) (translations k)).
(** package.rs:5-14. *)
Fixpoint package_lines (d : nat) (tag : bytes) (p : package) : list bytes :=
  let '(Package n ks cs) := p in
  element d tag (bs "name") n (flat_map (key_lines (S d)) ks ++ flat_map (package_lines (S d) (bs "Container")) cs).
(** lib.rs:16-25; the comments are not part of the XML. *)
Definition project_lines (p : project) : list bytes :=
  element 0 (bs "Project") (bs "name") (p_name p) (flat_map (package_lines 1 (bs "Package")) (packages p)).
(** lib.rs:116-121: the buffer, with its last line break. *)
Definition ended (l : bytes) : bytes := l ++ [10].
Definition serialized (p : project) : bytes := flat_map ended (project_lines p).

(** ** Comments *)
(** lib.rs:24: the comment, the line after it, the key it stands in. *)
Notation comment := (bytes * bytes * option bytes)%type.
(** lib.rs:50-53. *)
Record reading := Reading { buffer : bytes; reading_comments : bool; in_key : option bytes; found : list comment }.
Definition ends_with (p s : bytes) : bool := starts_with (rev p) (rev s).
Definition is_empty (s : bytes) : bool := match s with [] => true | _ => false end.
(** lib.rs:80-86 and 145-149. *)
Definition next_key (k : option bytes) (t : bytes) : option bytes :=
  if starts_with (bs "<Key") t then Some t else if starts_with (bs "</Key>") t then None else k.
(** lib.rs:61-87, for one line. *)
Definition read_line (st : reading) (l : bytes) : reading :=
  let t := trim l in
  let buf := if reading_comments st then buffer st ++ [10] else buffer st in
  let starts := starts_with (bs "<!--") t in
  let reads := if starts then true else reading_comments st in
  let buf := if starts && negb (is_empty buf) then buf ++ [10] else buf in
  let push := negb reads && negb (is_empty buf) in
  let found' := if push then found st ++ [(trim buf, t, in_key st)] else found st in
  let buf := if push then [] else buf in
  let buf := if reads then buf ++ l else buf in
  let reads := if reads then negb (ends_with (bs "-->") t) else false in
  let key := if reads then in_key st else next_key (in_key st) t in
  Reading buf reads key found'.
(** The derived order of the three: a separator below every character stands for the comparison of one after the other. *)
Definition comment_order (c : comment) : bytes :=
  let '(b, a, k) := c in b ++ [0] ++ a ++ [0] ++ match k with None => [] | Some k => 1 :: k end.
Definition eqb_comment (c d : comment) : bool :=
  let '(b, a, k) := c in let '(b', a', k') := d in
  eqb_bytes b b' && eqb_bytes a a' && match k, k' with Some k, Some k' => eqb_bytes k k' | None, None => true | _, _ => false end.
(** [Vec::dedup]: of equal neighbours the first stays. *)
Fixpoint dedup (l : list comment) : list comment :=
  match l with
  | [] => []
  | c :: r => match dedup r with [] => [c] | d :: r' => if eqb_comment c d then c :: r' else c :: d :: r' end
  end.
Definition comments_of (ls : list bytes) : list comment :=
  dedup (sort_by comment_order (found (fold_left read_line ls (Reading [] false None [])))).
(** lib.rs:49-108 [from_reader]. *)
Definition from_reader (parse : bytes -> option project) (file : bytes) : option (project * list comment) :=
  let ls := lines file in
  option_map (fun p => (p, comments_of ls)) (parse (join [10] (map protect ls))).

(** lib.rs:132-138: the blanks before a comment. *)
Fixpoint leading (l : bytes) : bytes := match l with c :: r => if is_ws c then c :: leading r else [] | [] => [] end.
Definition whitespace (line : bytes) : bytes :=
  leading line ++ if starts_with (bs "</") (trim line) then repeat 32 4 else [].
Definition eqb_key (a b : option bytes) : bool :=
  match a, b with Some a, Some b => eqb_bytes a b | None, None => true | _, _ => false end.
(** lib.rs:130-142: the comments before a line. *)
Definition before_line (cs : list comment) (k : option bytes) (line : bytes) : bytes :=
  flat_map (fun '(b, a, k') => if starts_with a (trim line) && eqb_key k k' then ended (whitespace line ++ b) else []) cs.
Definition unprotected (line : bytes) : bytes := unprotect (length line) line.
(** lib.rs:123-150: what was written so far, [clear_next], [in_key]. *)
Definition write_line (cs : list comment) (st : bytes * bool * option bytes) (line : bytes) : bytes * bool * option bytes :=
  let '(out, clear_next, k) := st in
  let t := trim line in
  let k := if clear_next then None else k in
  let out := out ++ before_line cs k line ++ ended (unprotected line) in
  if starts_with (bs "<Key") t then (out, false, Some t)
  else if starts_with (bs "</Key>") t then (out, true, k) else (out, false, k).
Definition header : bytes := bs "<?xml version=" ++ [34] ++ bs "1.0" ++ [34] ++ bs " encoding=" ++ [34] ++ bs "utf-8" ++ [34] ++ bs "?>".
(** lib.rs:113-153 [to_writer]. *)
Definition to_writer (p : project) (cs : list comment) : bytes :=
  fst (fst (fold_left (write_line cs) (lines (serialized p)) (ended header, false, None))).

(** ** The command and the lint *)
(** sort.rs:52-58 and 01_sorted.rs:51-58: what the file becomes. *)
Definition rewritten (parse : bytes -> option project) (only_lang : bool) (file : bytes) : option bytes :=
  option_map (fun '(p, cs) => to_writer (if only_lang then p else sort p) cs) (from_reader parse file).
(** sort.rs:50-75, for the files in the order of the walk: what each becomes; nothing more is done after a file that cannot be
    read. The command succeeds either way. *)
Fixpoint sort_files (parse : bytes -> option project) (only_lang : bool) (files : list (bytes * bytes)) : list (bytes * bytes) :=
  match files with
  | [] => []
  | (n, f) :: r =>
      match rewritten parse only_lang f with
      | Some f' => (n, f') :: sort_files parse only_lang r
      | None => (n, f) :: r
      end
  end.
(** 01_sorted.rs:51-61, for the files that could be read. *)
Definition not_sorted (parse : bytes -> option project) (only_lang : bool) (files : list (bytes * bytes)) : list bytes :=
  flat_map (fun '(n, f) => match rewritten parse only_lang f with
                           | Some f' => if eqb_bytes (trim f') (trim f) then [] else [n]
                           | None => []
                           end) files.
(** 01_sorted.rs:62-79: one warning for each, or one for all of them. *)
Inductive warning := OnPath (p : bytes) | OnPaths (ps : list bytes).
Definition sorted_lint (parse : bytes -> option project) (only_lang : bool) (files : list (bytes * bytes)) : list warning :=
  let u := not_sorted parse only_lang files in
  if (length u <=? 3)%nat then map OnPath u else [OnPaths u].
