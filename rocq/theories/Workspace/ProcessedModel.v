(** The preprocessed text and its position map: libs/workspace/src/reporting/processed.rs, and the label a diagnostic
    gets from it: libs/workspace/src/reporting/diagnostic/mod.rs. Offsets into the text count characters. *)
From Coq Require Import String.
From Verif Require Import Base.Tactics Base.Bytes Base.Ascii Base.Text Preproc.Model Preproc.LexModel.
Local Open Scope N_scope.
Local Open Scope list_scope.

(** processed.rs:310-318 [Mapping]. *)
Record mapping := Mapping {
  m_source : nat; m_start : linecol; m_end : linecol; m_orig : pos; m_token : token; m_macro : bool }.
(** processed.rs:17-46 [Processed], with the string stack of :186 as the last field. [macros], [usage], [warnings] and
    [no_rapify] are passed through untouched and left out. [line_offsets] (a map of maps) is a list of
    ((path, line), offset), newest first. Paths are the texts that identify a file. *)
Record processed := Processed {
  sources : list (text * text); o_text : text; line_offsets : list (text * N * N); maps : list mapping;
  line : N; col : N; total : N; stack : list N }.
Definition empty : processed := Processed [] [] [] [] 0 0 0 [].

(** [Unreadable]: the error of a source that cannot be read (:58). [Fault]: the panic at :155. *)
Inductive done := Done (p : processed) | Unreadable | Fault.

Section Processed.
  (** [WorkspacePath::read_to_string]. *)
  Context (read : text -> option text).

  (** :54-66 (and :149-160): the index of a source, which is read and appended when it is new. *)
  Fixpoint position (path : text) (l : list (text * text)) : option nat :=
    match l with
    | [] => None
    | (q, _) :: r => if text_eqb q path then Some O else option_map S (position path r)
    end.
  Definition source_index (path : text) (l : list (text * text)) : option (nat * list (text * text)) :=
    match position path l with
    | Some i => Some (i, l)
    | None => match read path with Some c => Some (length l, l ++ [(path, c)]) | None => None end
    end.

  (** :67-85: which quotes are open, innermost first. *)
  Definition quotes (t : token) (st : list N) : list N :=
    match t_sym t with
    | DQuote => match st with [] => [34] | c :: r => if c =? 34 then r else 34 :: st end
    | SQuote =>
        match st with
        | [] => [39]
        | c :: r => if (c =? 39) && negb (lc_off (p_start (t_pos t)) =? lc_off (p_end (t_pos t))) then r else 39 :: st
        end
    | _ => st
    end.

  Definition chars (s : text) : N := N.of_nat (length s).

  (** processed.rs:48-128 [append_token]. The subtraction at :88 wraps (release build) on a newline token at line 0,
      which the lexer never makes. *)
  Definition append_token (p : processed) (t : token) : done :=
    match source_index (p_path (t_pos t)) (sources p) with
    | None => Unreadable
    | Some (i, ss) =>
        let st := quotes t (stack p) in
        let start := LC (total p) (line p) (col p) in
        if is_newline (t_sym t) then
          let l := (lc_line (p_end (t_pos t)) + 2 ^ 64 - 1) mod 2 ^ 64 in
          Done (Processed ss (o_text p ++ [10]) ((p_path (t_pos t), l, lc_off (p_end (t_pos t))) :: line_offsets p)
            (maps p ++ [Mapping i start (LC (total p + 1) (line p + 1) 0) (t_pos t) t false])
            (line p + 1) 0 (total p + 1) st)
        else
          let s := tok_text t in
          let same := Processed ss (o_text p) (line_offsets p) (maps p) (line p) (col p) (total p) st in
          if text_eqb s [] then Done same
          else if text_eqb s (bs "##") && match st with [] => true | _ => false end then Done same
          else
            let n := chars s in
            Done (Processed ss (o_text p ++ s) (line_offsets p)
              (maps p ++ [Mapping i start (LC (total p + n + n) (line p) (col p + n + n)) (t_pos t) t false])
              (line p) (col p + n) (total p + n) st)
    end.

  (** processed.rs:130-173 [append_output], one element ([append1]) and the loop over them. *)
  Definition finish (p q : processed) (root : token) : done :=
    match source_index (p_path (t_pos root)) (sources q) with
    | None => Fault
    | Some (i, ss) =>
        Done (Processed ss (o_text q) (line_offsets q)
          (maps q ++ [Mapping i (LC (total p) (line p) (col p)) (LC (total q) (line q) (col q)) (t_pos root) root true])
          (line q) (col q) (total q) (stack q))
    end.
  Fixpoint append1 (o : output) (p : processed) {struct o} : done :=
    match o with
    | Direct t => append_token p t
    | Macro root l =>
        match (fix go (l : list output) (p : processed) {struct l} : done :=
                 match l with [] => Done p | o :: r => match append1 o p with Done q => go r q | e => e end end) l p with
        | Done q => finish p q root
        | e => e
        end
    end.
  Fixpoint append (l : list output) (p : processed) {struct l} : done :=
    match l with [] => Done p | o :: r => match append1 o p with Done q => append r q | e => e end end.
  (** :175-190 [Processed::new]. *)
  Definition new (l : list output) : done := append l empty.
End Processed.

(** :233-242 [mappings]; :250-254 [mapping]. *)
Definition covers (i : N) (m : mapping) : bool := (lc_off (m_start m) <=? i) && (i <? lc_off (m_end m)).
Definition mappings (p : processed) (i : N) : list mapping := filter (covers i) (maps p).
Fixpoint last_of {A} (l : list A) : option A := match l with [] => None | [x] => Some x | _ :: r => last_of r end.
Definition mapping_at (p : processed) (i : N) : option mapping := last_of (mappings p i).
(** :208-212 [line_offset]. *)
Fixpoint line_offset (l : list (text * N * N)) (path : text) (n : N) : option N :=
  match l with
  | [] => None
  | (q, k, o) :: r => if text_eqb q path && (k =? n) then Some o else line_offset r path n
  end.

(** :264-267 [get_byte_offset]: the cast to u32 truncates. *)
Definition take (n : N) (s : text) : text := firstn (N.to_nat n) s.
Definition drop (n : N) (s : text) : text := skipn (N.to_nat n) s.
Definition get_byte_offset (p : processed) (i : N) : N := byte_len (take i (o_text p)) mod 2 ^ 32.

(** str indexing by a byte range: panics ([None]) when the ends are swapped, outside, or inside a character. *)
Fixpoint split_bytes (n : N) (s : text) {struct s} : option (text * text) :=
  if n =? 0 then Some ([], s)
  else match s with
       | [] => None
       | c :: r => if n <? ulen c then None
                   else match split_bytes (n - ulen c) r with Some (a, b) => Some (c :: a, b) | None => None end
       end.
Definition slice (s : text) (a b : N) : option text :=
  if b <? a then None
  else match split_bytes a s with
       | Some (_, r) => match split_bytes (b - a) r with Some (m, _) => Some m | None => None end
       | None => None
       end.
(** :283-300 [extract] (:288-296 the byte offsets of the ends); :302-311 [extract_from]. *)
Fixpoint offsets_go (s : text) (p : N) (a b ra rb : N) : N * N :=
  match s with
  | [] => (ra, rb)
  | c :: r => offsets_go r (p + 1) a b (if p <? a then ra + ulen c else ra) (if p <? b then rb + ulen c else rb)
  end.
Definition extract (p : processed) (a b : N) : option text :=
  if a =? b then Some []
  else let (ra, rb) := offsets_go (o_text p) 0 a b 0 0 in slice (o_text p) ra rb.
Definition extract_from (p : processed) (a : N) : option text :=
  let (ra, _) := offsets_go (o_text p) 0 a a 0 0 in slice (o_text p) ra (byte_len (o_text p)).

(** diagnostic/mod.rs:62-84 [from_code_processed]: the file and byte range of the label. [LPanic]: the subtraction on
    an empty text (checked builds). Everything else of the diagnostic is copied from the code. *)
Inductive label := LNone | LPanic | LAt (file : text) (from to : N).
Definition from_code_processed (p : processed) (a b : N) : label :=
  let len := byte_len (o_text p) in
  if (a =? len) && (len =? 0) then LPanic
  else
    let (a, b) := if a =? len then (len - 1, len - 1) else (a, b) in
    match mapping_at p a, mapping_at p b with
    | Some x, Some y =>
        match nth_error (sources p) (m_source x) with
        | Some (f, _) => LAt f (lc_off (p_start (m_orig x))) (lc_off (p_start (m_orig y)))
        | None => LNone
        end
    | _, _ => LNone
    end.
