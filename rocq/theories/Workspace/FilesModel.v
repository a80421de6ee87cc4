(** Lines of a text: libs/workspace/src/position.rs and libs/workspace/src/reporting/files.rs. *)
From Verif Require Import Base.Tactics Base.Bytes Base.Text Preproc.Model Preproc.LexModel.
Local Open Scope N_scope.
Local Open Scope list_scope.

(** position.rs:20-36 [LineCol::from_content]: the loop over the characters, then the result. *)
Fixpoint from_go (s : text) (i offset line col : N) : N * N :=
  match s with
  | [] => (line, col)
  | c :: r =>
      if i =? offset then (line, col)
      else if c =? 10 then from_go r (i + 1) offset (line + 1) 1
      else from_go r (i + 1) offset line (col + 1)
  end.
Definition from_content (s : text) (offset : N) : linecol :=
  let (l, c) := from_go s 0 offset 1 1 in LC offset l c.

(** files.rs:52-60: the table of line starts, in bytes. *)
Fixpoint starts_go (ls : list text) (p : N) : list N :=
  match ls with [] => [] | l :: r => p :: starts_go r (p + byte_len l + 1) end.
Definition line_starts (s : text) : list N := starts_go (lines s) 0.

(** slice::binary_search on an increasing table: the index of an equal entry, or where to insert. Modelled by its
    contract for increasing tables: the number of smaller entries. *)
Definition smaller (b : N) (l : list N) : N := N.of_nat (length (filter (fun x => x <? b) l)).
(** files.rs:86-91 [line_index]. [None]: the subtraction [0 - 1] panics. *)
Definition line_index (s : text) (b : N) : option N :=
  let t := line_starts s in
  let n := smaller b t in
  if existsb (N.eqb b) t then Some n else if n =? 0 then None else Some (n - 1).
(** files.rs:16-30 [line_start]; :93-103 [line_range]. [None]: the error for a line that does not exist. *)
Definition line_start (s : text) (i : N) : option N :=
  let t := line_starts s in
  let n := N.of_nat (length t) in
  if i <? n then nth_error t (N.to_nat i) else if i =? n then Some (byte_len s) else None.
Definition line_range (s : text) (i : N) : option (N * N) :=
  match line_start s i, line_start s (i + 1) with Some a, Some b => Some (a, b) | _, _ => None end.
