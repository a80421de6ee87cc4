(** When a script is small enough to be compiled: C83. *)
From Verif Require Import Base.Tactics Base.Bytes Base.Text Sqf.Ast.
Local Open Scope N_scope.
Local Open Scope list_scope.

(** Every array written in the script has at most 65535 elements. *)
Fixpoint short_arrays (e : expr) : bool :=
  match e with
  | ECode c _ _ => forallb short_arrays_stmt c
  | EArray l _ | EConsumable l _ => (N.of_nat (length l) <=? 65535) && forallb short_arrays l
  | EUnary _ e _ => short_arrays e
  | EBinary _ a b _ => short_arrays a && short_arrays b
  | _ => true
  end
with short_arrays_stmt (s : stmt) : bool :=
  match s with SGlobal _ e _ | SLocal _ e _ | SExpr e _ => short_arrays e end.
Definition short_script (s : statements) : Prop := forallb short_arrays_stmt (content s) = true.
