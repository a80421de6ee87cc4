(** Specification for C76. *)
From Coq Require Import String.
From Verif Require Import Base.Tactics Base.Bytes Base.Ascii Base.Text Sqf.Ast.
Local Open Scope N_scope.
Local Open Scope list_scope.

(** A name is on a list, but for its case. *)
Definition on_list (low : text -> text) (l : list text) (n : text) : Prop := exists i, In i l /\ low i = low n.
(** Without a small letter. *)
Definition no_small_letter (v : text) : Prop := forall c, In c v -> ~ (97 <= c <= 122).
(** A name, or the beginning of one followed by a star. *)
Definition pattern (p v : text) : Prop := p = v \/ exists q r, p = q ++ bs "*" /\ v = q ++ r.
(** [if (!c) then a else b]. *)
Definition not_else (e : expr) (at_not : span) : Prop :=
  exists n i c a b s1 s2 s3, to_ascii_lower n = bs "then" /\ e = EBinary (BNamed n) (EUnary (UNamed i) (EUnary UNot c at_not) s1) (EBinary BElse a b s2) s3.
(** [_this call f]. *)
Definition this_call (e : expr) (at_this : span) : Prop :=
  exists n f s, to_ascii_lower n = bs "call" /\ e = EBinary (BNamed n) (EVar (bs "_this") at_this) f s.
