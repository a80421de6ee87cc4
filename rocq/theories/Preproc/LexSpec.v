(** What the lexer is meant to keep of a source text, character by character. *)
From Verif Require Import Base.Tactics Base.Bytes Base.Text Preproc.Model Preproc.LexModel.
Local Open Scope N_scope.
Local Open Scope list_scope.

(** Where a character stands: in plain code, in a string opened by a single or a double quote, or after [//]. *)
Inductive where_ := Code | Single | Double | Rest.

(** Where the next character stands. A string is closed by the quote that opened it; a line comment by the end of
    its line. *)
Definition next_where (w : where_) (c : N) : where_ :=
  match w with
  | Code => if c =? 39 then Single else if c =? 34 then Double else Code
  | Single => if c =? 39 then Code else Single
  | Double => if c =? 34 then Code else Double
  | Rest => if c =? 10 then Code else Rest
  end.
Definition keeps (w : where_) (c : N) : bool := match w with Rest => c =? 10 | _ => true end.

(** The source without its comments. A closed [/* … */] is one unit wherever it stands, even after [//]; inside a
    string it is text. *)
Fixpoint without_comments (n : nat) (w : where_) (s : text) : text :=
  match n, s with
  | S n, c :: r =>
      let plain := (if keeps w c then [c] else []) ++ without_comments n (next_where w c) r in
      match (if starts_with [47; 42] s then split_once_str [42; 47] (skipn 2 s) else None) with
      | Some (a, b) => (match w with Single | Double => [47; 42] ++ a ++ [42; 47] | _ => [] end) ++ without_comments n w b
      | None =>
          if starts_with [47; 47] s then
            match w with
            | Single | Double => [47; 47] ++ without_comments n w (skipn 2 s)
            | _ => without_comments n Rest (skipn 2 s)
            end
          else plain
      end
  | _, _ => []
  end.
Definition uncommented (s : text) : text := without_comments (length s) Code s.

(** The number of line breaks in a text. *)
Definition breaks (s : text) : N := N.of_nat (count_occ N.eq_dec s 10).
(** The bytes after the last line break. *)
Fixpoint tail_bytes (s : text) (n : N) : N :=
  match s with [] => n | c :: r => tail_bytes r (if c =? 10 then 0 else n + ulen c) end.
(** [p] occurs somewhere in [s]. *)
Definition occurs (p s : text) : Prop := exists a b, s = a ++ p ++ b.
