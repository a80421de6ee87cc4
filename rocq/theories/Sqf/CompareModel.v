(** Model of the lint on comparisons: libs/sqf/src/analyze/lints/s21_invalid_comparisons.rs. *)
From Coq Require Import String.
From Verif Require Import Base.Tactics Base.Bytes Base.Ascii Base.Text Base.Sort Sqf.Ast Sqf.FormatModel.
Local Open Scope N_scope.
Local Open Scope list_scope.

(** s21:92-103 [Comparison]; the six comparisons are one constructor with a kind. *)
Inductive kind := KLess | KLessEq | KEq | KNotEq | KGreaterEq | KGreater.
Inductive comparison :=
| Compare (k : kind) (var : text) (num : N) (sp : span)
| CompareGroup (l : list comparison)
| NonCompareGroup (l : list comparison)
| Ignored.
(** s21:222-244 [extract_ident_number]. *)
Definition extract_ident_number (lhs rhs : expr) : option (text * N) :=
  match (match lhs with EVar n _ => Some n | _ => match rhs with EVar n _ => Some n | _ => None end end) with
  | None => None
  | Some v =>
      match (match lhs with ENumber n _ => Some n | _ => match rhs with ENumber n _ => Some n | _ => None end end) with
      | None => None
      | Some n => Some (v, n)
      end
  end.
Definition kind_of (c : binary) : option kind :=
  match c with
  | BLess => Some KLess | BLessEq => Some KLessEq | BEq => Some KEq | BNotEq => Some KNotEq | BGreaterEq => Some KGreaterEq | BGreater => Some KGreater
  | _ => None
  end.
(** s21:146-220 [extract_comparisons]. *)
Fixpoint extract_comparisons (e : expr) : comparison :=
  match e with
  | EBinary c lhs rhs _ =>
      match c with
      | BOr => NonCompareGroup [extract_comparisons lhs; extract_comparisons rhs]
      | BAnd => CompareGroup [extract_comparisons lhs; extract_comparisons rhs]
      | _ =>
          match kind_of c with
          | Some k => match extract_ident_number lhs rhs with Some (v, n) => Compare k v n (full_span e) | None => Ignored end
          | None => Ignored
          end
      end
  | ECode [SExpr (EBinary _ _ _ _ as x) _] _ _ => extract_comparisons x
  | _ => Ignored
  end.
(** s21:247-282 [flatten_comparisons]; [None] is one of its two [panic!]s. *)
Fixpoint flatten (c : comparison) : option comparison :=
  match c with
  | CompareGroup l =>
      option_map CompareGroup
        ((fix go (l : list comparison) : option (list comparison) :=
            match l with
            | [] => Some []
            | x :: r =>
                match (match x with
                       | CompareGroup _ => match flatten x with Some (CompareGroup inner) => Some inner | _ => None end
                       | NonCompareGroup _ => match flatten x with Some (NonCompareGroup inner) => Some [NonCompareGroup inner] | _ => None end
                       | Ignored => Some []
                       | Compare _ _ _ _ => Some [x]
                       end), go r with
                | Some a, Some b => Some (a ++ b)
                | _, _ => None
                end
            end) l)
  | NonCompareGroup l =>
      option_map NonCompareGroup
        ((fix go (l : list comparison) : option (list comparison) :=
            match l with
            | [] => Some []
            | x :: r => match flatten x, go r with Some a, Some b => Some (a :: b) | _, _ => None end
            end) l)
  | _ => Some c
  end.
(** float-ord's order of f32: by the bits, with the sign undone. *)
Definition key (bits : N) : N := if bits <? 2 ^ 31 then bits + 2 ^ 31 else 2 ^ 32 - 1 - bits.
Inductive issue := Impossible | Overlapping.
(** s21:309-363 [check_issue]. *)
Definition check_issue (a b : comparison) : option (issue * span * span) :=
  match a, b with
  | Compare ka va na sa, Compare kb vb nb sb =>
      if negb (eqb_bytes va vb) then None
      else
        match ka, kb with
        | (KGreater | KGreaterEq), (KGreater | KGreaterEq) | (KLess | KLessEq), (KLess | KLessEq) => Some (Overlapping, sa, sb)
        | (KLess | KLessEq), (KGreater | KGreaterEq) => if key na <? key nb then Some (Impossible, sa, sb) else None
        | KNotEq, KNotEq | KEq, KEq => if key na =? key nb then Some (Overlapping, sa, sb) else None
        | KNotEq, KEq => if key na =? key nb then Some (Impossible, sa, sb) else None
        | _, _ => None
        end
  | _, _ => None
  end.
(** s21:284-306 [find_issues]. *)
Definition pair_issue (a b : comparison) : list (issue * span * span) :=
  match check_issue a b with Some i => [i] | None => match check_issue b a with Some i => [i] | None => [] end end.
Fixpoint pairs (l : list comparison) : list (issue * span * span) :=
  match l with [] => [] | a :: r => flat_map (pair_issue a) r ++ pairs r end.
Fixpoint find_issues (c : comparison) : list (issue * span * span) :=
  match c with
  | CompareGroup l => pairs l
  | NonCompareGroup l => flat_map find_issues l
  | _ => []
  end.
(** s21:55-89: the runner on an expression. *)
Definition s21 (e : expr) : option (list (issue * span * span)) :=
  match e with
  | EUnary (UNamed n) arg _ => if eqb_bytes n (bs "if") then option_map find_issues (flatten (extract_comparisons arg)) else Some []
  | _ => Some []
  end.
