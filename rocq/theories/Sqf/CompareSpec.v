(** Specification for C71: when a condition holds. *)
From Coq Require Import String ZArith.
From Verif Require Import Base.Tactics Base.Bytes Base.Ascii Base.Text Sqf.Ast Sqf.SourceSpec Config.PatchSpec.
Local Open Scope N_scope.
Local Open Scope list_scope.

(** What the comparison operators mean. *)
Definition relation (c : binary) : option (Z -> Z -> Prop) :=
  match c with
  | BLess => Some Z.lt | BLessEq => Some Z.le | BEq => Some (@eq Z) | BNotEq => Some (fun a b => a <> b) | BGreaterEq => Some Z.ge | BGreater => Some Z.gt
  | _ => None
  end.
(** The state a condition is looked at in: the values of variables and of the numbers in the text, in steps of 2^-149, and
    whether any other expression is true. *)
Record state := State { value : text -> Z; number : N -> Z; other : expr -> Prop }.
Definition faithful (st : state) : Prop := forall b x, f32_bits b x -> number st b = Z.of_N x.
(** Whether a condition holds. A block of one expression is that expression. *)
Fixpoint holds (st : state) (e : expr) : Prop :=
  match e with
  | EBinary c a b _ =>
      match c, a, b with
      | BAnd, _, _ => holds st a /\ holds st b
      | BOr, _, _ => holds st a \/ holds st b
      | _, EVar x _, ENumber n _ => match relation c with Some r => r (value st x) (number st n) | None => other st e end
      | _, ENumber n _, EVar x _ => match relation c with Some r => r (number st n) (value st x) | None => other st e end
      | _, _, _ => other st e
      end
  | ECode [SExpr (EBinary _ _ _ _ as x) _] _ _ => holds st x
  | _ => other st e
  end.
(** The parts joined by [||], and those joined by [&&]. *)
Fixpoint disjuncts (e : expr) : list expr :=
  match e with
  | EBinary BOr a b _ => disjuncts a ++ disjuncts b
  | ECode [SExpr (EBinary _ _ _ _ as x) _] _ _ => disjuncts x
  | _ => [e]
  end.
Fixpoint conjuncts (e : expr) : list expr :=
  match e with
  | EBinary BAnd a b _ => conjuncts a ++ conjuncts b
  | ECode [SExpr (EBinary _ _ _ _ as x) _] _ _ => conjuncts x
  | _ => [e]
  end.
Definition ordering (c : binary) : Prop := c = BLess \/ c = BLessEq \/ c = BGreaterEq \/ c = BGreater.
(** Variables stand on the left of the numbers they are ordered against. *)
Definition upright (e : expr) : Prop := forall c n s1 x s2 sp, ordering c -> ~ within (EBinary c (ENumber n s1) (EVar x s2) sp) e.
(** The numbers are finite, and not negative, as literals are. *)
Definition finite (e : expr) : Prop := forall n sp, within (ENumber n sp) e -> exists x, f32_bits n x.
