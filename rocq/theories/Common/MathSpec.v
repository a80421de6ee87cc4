(** The usual grammar of arithmetic, for C19: an independent account of what an expression means. *)
From Coq Require Import String.
From Verif Require Import Base.Tactics Base.Bytes Base.Ascii Base.Text.
Local Open Scope N_scope.

Section Grammar.
  Context (F : Type) (parse : text -> option F) (arith : N -> F -> F -> F).

  (** Lexical symbols. [Num neg digits]: a number, with a minus sign attached or not. *)
  Inductive sym := Num (neg : bool) (digits : text) | Op (c : N) | Open | Close.

  Definition numeral (neg : bool) (digits : text) : text := (if neg then [45] else []) ++ digits.

  (** Derivations: [sum b ss v] reads the symbols [ss] as an expression of value [v]. The flag says whether
      the first number may carry a sign: it may after an operator or an opening parenthesis, but not at the
      very start of the text. Sums associate to the left, products bind tighter and associate to the left,
      powers bind tightest and associate to the right. *)
  Inductive atom : bool -> list sym -> F -> Prop :=
  | atom_num b neg ds v : (neg = true -> b = true) -> ds <> [] ->
      Forall (fun c => (48 <= c /\ c <= 57) \/ c = 46) ds -> parse (numeral neg ds) = Some v ->
      atom b [Num neg ds] v
  | atom_paren b ss v : sum true ss v -> atom b (Open :: ss ++ [Close]) v
  with power : bool -> list sym -> F -> Prop :=
  | power_atom b ss v : atom b ss v -> power b ss v
  | power_op b l r x y : atom b l x -> power true r y ->
      power b (l ++ Op 94 :: r) (arith 94 x y)
  with product : bool -> list sym -> F -> Prop :=
  | product_power b ss v : power b ss v -> product b ss v
  | product_op b l r c x y : In c (bs "*/%") -> product b l x -> power true r y ->
      product b (l ++ Op c :: r) (arith c x y)
  with sum : bool -> list sym -> F -> Prop :=
  | sum_product b ss v : product b ss v -> sum b ss v
  | sum_op b l r c x y : In c (bs "+-") -> sum b l x -> product true r y ->
      sum b (l ++ Op c :: r) (arith c x y).

  (** The text of a symbol, and of a sequence of symbols with any number of spaces around each. *)
  Definition spell (s : sym) : text :=
    match s with
    | Num neg ds => numeral neg ds
    | Op c => [c]
    | Open => bs "("
    | Close => bs ")"
    end.
  Inductive spelled : list sym -> text -> Prop :=
  | spelled_end n : spelled [] (repeat 32 n)
  | spelled_sym n s ss t : spelled ss t -> spelled (s :: ss) (repeat 32 n ++ spell s ++ t).
End Grammar.
