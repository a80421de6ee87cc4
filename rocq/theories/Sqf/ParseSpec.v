(** The SQF grammar: which token list spells which tree. Written from the language's precedence table (the community
    wiki's "Order of Precedence"), as an ordinary grammar: no order of alternatives, no greediness, no parser. *)
From Coq Require Import String.
From Verif Require Import Base.Tactics Base.Bytes Base.Ascii Base.Text Sqf.Ast Sqf.ParseModel.
Local Open Scope N_scope.
Local Open Scope list_scope.

(** The words of the precedence table that are operators in their own right. *)
Definition reserved (x : text) : option (nat * binary) :=
  let l := to_ascii_lower x in
  if same_text l (bs "or") then Some (1%nat, BOr)
  else if same_text l (bs "and") then Some (2%nat, BAnd)
  else if same_text l (bs "else") then Some (5%nat, BElse)
  else if same_text l (bs "max") then Some (6%nat, BMax)
  else if same_text l (bs "min") then Some (6%nat, BMin)
  else if same_text l (bs "mod") then Some (7%nat, BMod)
  else if same_text l (bs "atan2") then Some (7%nat, BAtan2)
  else None.

Section Grammar.
  Context (db : database) (extract : span -> text).
  (** The precedence and meaning of a binary operator: [||] 1, [&&] 2, comparisons and [>>] 3, named commands and [:] 4,
      [else] 5, [+ - max min] 6, [* / % mod atan2] 7, [^] 8, [#] 9. *)
  Definition infix (t : token) : option (nat * binary) :=
    match t with
    | TOp OOr => Some (1%nat, BOr)
    | TOp OAnd => Some (2%nat, BAnd)
    | TOp OEq => Some (3%nat, BEq) | TOp ONotEq => Some (3%nat, BNotEq) | TOp OGreater => Some (3%nat, BGreater) | TOp OLess => Some (3%nat, BLess)
    | TOp OGreaterEq => Some (3%nat, BGreaterEq) | TOp OLessEq => Some (3%nat, BLessEq) | TOp OConfigPath => Some (3%nat, BConfigPath)
    | TOp OAssociate => Some (4%nat, BAssociate)
    | TOp OAdd => Some (6%nat, BAdd) | TOp OSub => Some (6%nat, BSub)
    | TOp OMul => Some (7%nat, BMul) | TOp ODiv => Some (7%nat, BDiv) | TOp ORem => Some (7%nat, BRem)
    | TOp OExp => Some (8%nat, BExp)
    | TOp OSelect => Some (9%nat, BSelect)
    | TIdent x => match reserved x with
                  | Some p => Some p
                  | None => if has_binary db x then Some (4%nat, BNamed x) else None
                  end
    | _ => None
    end.
  (** Unary operators. *)
  Definition prefix (t : token) : option unary :=
    match t with
    | TOp OAdd => Some UPlus | TOp OSub => Some UMinus | TOp ONot => Some UNot
    | TIdent x => if has_unary db x then Some (UNamed x) else None
    | _ => None
    end.
  (** A name that is no command can name a variable. *)
  Definition is_name (x : text) : Prop := has_command db x = false /\ is_special_command x = false.
  (** Operands of one token. A name that is a unary command is never an operand. *)
  Inductive operand : token -> span -> expr -> Prop :=
  | O_number : forall b sp, operand (TNumber b) sp (ENumber b sp)
  | O_string : forall s w sp, operand (TString s w) sp (EString s sp w)
  | O_true : forall x sp, has_unary db x = false -> to_ascii_lower x = bs "true" -> operand (TIdent x) sp (EBool true sp)
  | O_false : forall x sp, has_unary db x = false -> to_ascii_lower x = bs "false" -> operand (TIdent x) sp (EBool false sp)
  | O_nular : forall x sp, has_unary db x = false -> has_nular db x = true -> to_ascii_lower x <> bs "true" -> to_ascii_lower x <> bs "false" ->
      operand (TIdent x) sp (ENular x sp)
  | O_variable : forall x sp, is_name x -> operand (TIdent x) sp (EVar x sp).

  (** From the start of the first token to the end of the last; of no tokens, the place given. *)
  Definition extent (ts : list ltoken) (otherwise : span) : span :=
    match ts with [] => otherwise | t :: _ => (fst (snd t), snd (snd (last ts t))) end.

  (** [spells n e ts]: the tokens are the expression, with no operator weaker than [n] outside brackets. *)
  Inductive spells : nat -> expr -> list ltoken -> Prop :=
  | S_binary : forall n c a b o sp ta tb, infix o = Some (n, c) ->
      spells n a ta -> spells (S n) b tb -> spells n (EBinary c a b sp) (ta ++ (o, sp) :: tb)
  | S_stronger : forall n e ts, (n < 10)%nat -> spells (S n) e ts -> spells n e ts
  | S_unary : forall c e o sp ts, prefix o = Some c -> spells 10 e ts -> spells 10 (EUnary c e sp) ((o, sp) :: ts)
  | S_operand : forall o sp e, operand o sp e -> spells 10 e [(o, sp)]
  | S_parentheses : forall e ts sp sp', spells 1 e ts -> spells 10 e ((TCtl RoundOpen, sp) :: ts ++ [(TCtl RoundClose, sp')])
  | S_array : forall es ts sp sp', spells_list es ts ->
      spells 10 (EArray es (extent ts sp')) ((TCtl SquareOpen, sp) :: ts ++ [(TCtl SquareClose, sp')])
  | S_code : forall ss ts sp sp', spells_statements ss ts ->
      spells 10 (ECode ss (extract (extent ts sp')) (extent ts sp')) ((TCtl CurlyOpen, sp) :: ts ++ [(TCtl CurlyClose, sp')])
  with spells_list : list expr -> list ltoken -> Prop :=
  | L_none : spells_list [] []
  | L_one : forall e ts, spells 1 e ts -> spells_list [e] ts
  | L_more : forall e ts sp es ts', es <> [] -> spells 1 e ts -> spells_list es ts' -> spells_list (e :: es) (ts ++ (TCtl Separator, sp) :: ts')
  with spells_statement : stmt -> list ltoken -> Prop :=
  | A_global : forall x e sp sp' ts, is_name x -> to_ascii_lower x <> bs "private" -> spells 1 e ts ->
      spells_statement (SGlobal x e (extent ((TIdent x, sp) :: (TOp OAssign, sp') :: ts) sp)) ((TIdent x, sp) :: (TOp OAssign, sp') :: ts)
  | A_local : forall p x e sp sp' sp'' ts, is_name x -> to_ascii_lower p = bs "private" -> spells 1 e ts ->
      spells_statement (SLocal x e (extent ((TIdent p, sp) :: (TIdent x, sp') :: (TOp OAssign, sp'') :: ts) sp))
        ((TIdent p, sp) :: (TIdent x, sp') :: (TOp OAssign, sp'') :: ts)
  | A_expression : forall e ts sp, spells 1 e ts -> spells_statement (SExpr e (extent ts sp)) ts
  with spells_statements : list stmt -> list ltoken -> Prop :=
  | B_none : spells_statements [] []
  | B_one : forall s ts, spells_statement s ts -> spells_statements [s] ts
  | B_trailing : forall s ts sp, spells_statement s ts -> spells_statements [s] (ts ++ [(TCtl Terminator, sp)])
  | B_more : forall s ts sp ss ts', ss <> [] -> spells_statement s ts -> spells_statements ss ts' ->
      spells_statements (s :: ss) (ts ++ (TCtl Terminator, sp) :: ts').

  (** A whole script; the end of the text is at [eoi]. *)
  Definition spells_script (eoi : span) (s : statements) (ts : list ltoken) : Prop :=
    spells_statements (content s) ts /\ st_span s = extent ts eoi /\ source s = extract (st_span s).
End Grammar.

Scheme spells_mut := Induction for spells Sort Prop
with spells_list_mut := Induction for spells_list Sort Prop
with spells_statement_mut := Induction for spells_statement Sort Prop
with spells_statements_mut := Induction for spells_statements Sort Prop.
Combined Scheme spells_mutual from spells_mut, spells_list_mut, spells_statement_mut, spells_statements_mut.

(** The word operators are not also in the table of named binary commands (database/mod.rs:84-92 takes them out). *)
Definition reserved_apart (db : database) : Prop := forall x, reserved x <> None -> has_binary db x = false.
(** A list of statements where empty ones are allowed anywhere is what the source may hold; [noop_free] is what is left
    of it: no [;] at the start, after another or after an opening brace. *)
Fixpoint noop_free_after (opener : bool) (ts : list ltoken) : Prop :=
  match ts with
  | [] => True
  | t :: r => (is_terminator (fst t) = true -> opener = false) /\ noop_free_after (opens_noop (fst t)) r
  end.
