(** What the case fixer should do (C43): a file is a sequence of words, strings, comments and other characters; only words that are
    commands change, and those only in case. *)
From Coq Require Import String.
From Verif Require Import Base.Tactics Base.Bytes Base.Ascii Base.Sort Bin.CaseModel.
Local Open Scope N_scope.
Local Open Scope list_scope.

Inductive piece := Word (w : list N) | Quoted (s : list N) | LineComment (s : list N) | BlockComment (s : list N) | Other (c : N).
Definition show (p : piece) : list N :=
  match p with
  | Word w => w
  | Quoted s => [34] ++ s ++ [34]
  | LineComment s => [47; 47] ++ s ++ [10]
  | BlockComment s => [47; 42] ++ s ++ [42; 47]
  | Other c => [c]
  end.
Definition text (ps : list piece) : list N := flat_map show ps.
(** Each piece is well formed. Block comments that begin with a slash are left out: the tool takes their beginning for a whole. *)
Definition within (a b : N) (s : list N) : Prop := exists x y, s = x ++ a :: b :: y.
Definition piece_ok (p : piece) : Prop :=
  match p with
  | Word w => w <> [] /\ Forall (fun c => word_char c = true) w
  | Quoted s => ~ In 34 s
  | LineComment s => ~ In 10 s
  | BlockComment s => ~ within 42 47 s /\ hd 0 s <> 47
  | Other c => word_char c = false /\ c <> 34
  end.
(** Words do not touch; a slash is not before what would make it a comment; nor is the end of a block comment (the tool takes its
    slash for the beginning of another comment). *)
Definition begins_comment (p : piece) : Prop :=
  match p with LineComment _ | BlockComment _ => True | Other c => c = 47 \/ c = 42 | _ => False end.
Definition apart (p q : piece) : Prop :=
  match p with
  | Word _ => match q with Word _ => False | _ => True end
  | Other c => c = 47 -> ~ begins_comment q
  | BlockComment _ => ~ begins_comment q
  | _ => True
  end.
Fixpoint pieces_ok (ps : list piece) : Prop :=
  match ps with
  | [] => True
  | p :: ps => piece_ok p /\ match ps with q :: _ => apart p q | [] => True end /\ pieces_ok ps
  end.

Section Fix.
  Context (get : list N -> option (list N)).
  Definition usual (w : list N) : list N := match get w with Some n => n | None => w end.
  (** A word before a parenthesis, all in upper case, is a macro; words of its first argument stay. *)
  Definition opens (ps : list piece) : bool := match ps with Other c :: _ => c =? 40 | _ => false end.
  Definition is_macro (w : list N) (ps : list piece) : bool := opens ps && all_upper w.
  Definition is_log (w : list N) (ps : list piece) : bool := opens ps && eqb_bytes w (bs "LOG").
  Fixpoint fixed (in_macro : bool) (ps : list piece) : list piece :=
    match ps with
    | [] => []
    | Word w :: ps =>
        if in_macro then Word w :: fixed true ps
        else Word (if is_log w ps then w else usual w) :: fixed (is_macro w ps) ps
    | Other c :: ps => Other c :: fixed (in_macro && negb ((c =? 41) || (c =? 44))) ps
    | p :: ps => p :: fixed in_macro ps
    end.
End Fix.

(** The table has a command under its name in any case. *)
Definition table_ok (get : list N -> option (list N)) : Prop := forall w n, get w = Some n -> ascii_lower n = ascii_lower w.
