(** Specification for C70: what a format string asks for. *)
From Coq Require Import String.
From Verif Require Import Base.Tactics Base.Bytes Base.Ascii Base.Text.
Local Open Scope N_scope.
Local Open Scope list_scope.

(** The number of a placeholder: what its digits say, or 0 if that is 2^64 or more. *)
Definition index_of (d : text) (v : N) : Prop := exists n, digits_val 0 d = Some n /\ (n < 2 ^ 64 /\ v = n \/ 2 ^ 64 <= n /\ v = 0).
Definition no_digit_first (s : text) : Prop := match s with [] => True | c :: _ => is_digit c = false end.
(** The placeholders of a text: [%%] is a percent sign, and [%] with digits, as many as there are, is a placeholder. *)
Inductive placeholders : text -> list N -> Prop :=
| ph_end : placeholders [] []
| ph_char : forall c s vs, c <> 37 -> placeholders s vs -> placeholders (c :: s) vs
| ph_percent : forall s vs, placeholders s vs -> placeholders (37 :: 37 :: s) vs
| ph_index : forall d v s vs, d <> [] -> all_digits d -> index_of d v -> no_digit_first s -> placeholders s vs -> placeholders (37 :: d ++ s) (v :: vs).
(** A [%] that is neither, with the place after it. *)
Definition stray (s : text) (i : N) : Prop := exists pre vs post, s = pre ++ 37 :: post /\ placeholders pre vs /\
  no_digit_first post /\ (forall r, post <> 37 :: r) /\ i = N.of_nat (length pre) + 1.
(** The greatest of some numbers; of none it is 0. *)
Definition greatest (vs : list N) (m : N) : Prop := (forall v, In v vs -> v <= m) /\ (In m vs \/ vs = [] /\ m = 0).
