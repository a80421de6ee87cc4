(** The SQF parser: libs/sqf/src/parser/mod.rs (tokens to tree) and the token filters of lexer.rs.

    The combinators are chumsky 0.9's, which tries alternatives in order, keeps the first success and repeats greedily,
    giving back the input of an attempt that fails: [choice]/[or] is the first success; [a.then(b).repeated()] stops
    before the first attempt that fails; [separated_by] stops before a separator no item follows; [map_with_span] gives
    the start of the first token used to the end of the last, and the place of the next token if none was used (the end
    of input counts as a token). The messages of failed parses are not modelled: [None] is any failure. *)
From Coq Require Import String.
From Verif Require Import Base.Tactics Base.Bytes Base.Ascii Base.Text Sqf.Ast.
Local Open Scope N_scope.
Local Open Scope list_scope.

(** lexer.rs:54-63 [Control]. *)
Inductive control := Terminator | Separator | SquareOpen | SquareClose | RoundOpen | RoundClose | CurlyOpen | CurlyClose.
(** lexer.rs:83-106 [Operator]. *)
Inductive operator :=
| ONot | OOr | OAnd | OEq | ONotEq | OGreater | OLess | OGreaterEq | OLessEq | OConfigPath | OAdd | OSub | OMul | ODiv | ORem | OExp
| OAssign | OAssociate | OSelect.
(** lexer.rs:34-50 [Token]. [Token::Macro] is never made and left out. *)
Inductive token :=
| TComment (s : text) | TOp (o : operator) | TCtl (c : control) | TNumber (bits : N) | TIdent (s : text) | TString (s : text) (w : wrapper).
(** lexer.rs:9 [Tokens]. *)
Notation ltoken := (token * span)%type.

(** lexer.rs:17-19 [strip_comments]. *)
Definition strip_comments (ts : list ltoken) : list ltoken :=
  filter (fun t => match fst t with TComment _ => false | _ => true end) ts.
(** lexer.rs:21-31 [strip_noop]; [last] is [last_flag_delete]. *)
Definition is_terminator (t : token) : bool := match t with TCtl Terminator => true | _ => false end.
Definition opens_noop (t : token) : bool := match t with TCtl Terminator | TCtl CurlyOpen => true | _ => false end.
Fixpoint strip_noop_from (last : bool) (ts : list ltoken) : list ltoken :=
  match ts with
  | [] => []
  | t :: r => if (is_terminator (fst t) && last)%bool then strip_noop_from (opens_noop (fst t)) r
              else t :: strip_noop_from (opens_noop (fst t)) r
  end.
Definition strip_noop : list ltoken -> list ltoken := strip_noop_from true.

(** database/mod.rs:50-55: the three name sets of [Database], in lower case. *)
Record database := Database { nular_commands : list text; unary_commands : list text; binary_commands : list text }.
Definition contains (l : list text) (x : text) : bool := existsb (same_text x) l.
(** database/mod.rs:178-198 [has_nular_command], [has_unary_command], [has_binary_command], [has_command]. *)
Definition has_nular (d : database) (x : text) : bool := contains (nular_commands d) (to_ascii_lower x).
Definition has_unary (d : database) (x : text) : bool := contains (unary_commands d) (to_ascii_lower x).
Definition has_binary (d : database) (x : text) : bool := contains (binary_commands d) (to_ascii_lower x).
Definition has_command (d : database) (x : text) : bool :=
  let l := to_ascii_lower x in (contains (nular_commands d) l || contains (unary_commands d) l || contains (binary_commands d) l)%bool.

Section Parser.
  Context (db : database) (extract : span -> text) (eoi : span).
  Definition parser (A : Type) : Type := list ltoken -> option (A * list ltoken).

  (** chumsky [Stream::span_since]: [ts] before, [rest] after. *)
  Definition span_of_next (ts : list ltoken) : span := match ts with t :: _ => snd t | [] => eoi end.
  Definition used (ts rest : list ltoken) : list ltoken := firstn (length ts - length rest) ts.
  Definition span_since (ts rest : list ltoken) : span :=
    match used ts rest with
    | [] => span_of_next ts
    | t :: r => (fst (snd t), snd (snd (last (t :: r) t)))
    end.
  Definition with_span {A} (p : parser A) : parser (A * span) := fun ts =>
    match p ts with Some (a, rest) => Some ((a, span_since ts rest), rest) | None => None end.

  (** [select!] and [just]: one token. *)
  Definition take {A} (f : token -> option A) : parser A := fun ts =>
    match ts with t :: r => match f (fst t) with Some a => Some (a, r) | None => None end | [] => None end.
  Definition just_ctl (c : control) : parser unit :=
    take (fun t => match t with
                   | TCtl d => if match c, d with
                                  | Terminator, Terminator | Separator, Separator | SquareOpen, SquareOpen | SquareClose, SquareClose
                                  | RoundOpen, RoundOpen | RoundClose, RoundClose | CurlyOpen, CurlyOpen | CurlyClose, CurlyClose => true
                                  | _, _ => false end then Some tt else None
                   | _ => None end).
  Definition ident_is (n : string) (t : token) : bool := match t with TIdent x => eq_ignore_case x (bs n) | _ => false end.
  (** :275-277 [keyword]. *)
  Definition keyword (n : string) : token -> option unit := fun t => if ident_is n t then Some tt else None.
  Definition orelse {A} (p q : parser A) : parser A := fun ts => match p ts with Some x => Some x | None => q ts end.
  Definition then_ {A B} (p : parser A) (q : parser B) : parser (A * B) := fun ts =>
    match p ts with Some (a, r) => match q r with Some (b, r) => Some ((a, b), r) | None => None end | None => None end.
  Definition map_ {A B} (f : A -> B) (p : parser A) : parser B := fun ts =>
    match p ts with Some (a, r) => Some (f a, r) | None => None end.
  Definition delimited {A} (p : parser A) (o c : control) : parser A := fun ts =>
    match just_ctl o ts with
    | Some (_, r) => match p r with Some (a, r) => match just_ctl c r with Some (_, r) => Some (a, r) | None => None end | None => None end
    | None => None
    end.
  (** [repeated]: every attempt uses at least one token, so as many rounds as there are tokens suffice. *)
  Fixpoint repeated_n {A} (n : nat) (p : parser A) (ts : list ltoken) : list A * list ltoken :=
    match n with
    | O => ([], ts)
    | S n => match p ts with Some (a, r) => let (l, r) := repeated_n n p r in (a :: l, r) | None => ([], ts) end
    end.
  Definition repeated {A} (p : parser A) : parser (list A) := fun ts => Some (repeated_n (length ts) p ts).
  (** [separated_by], then with [allow_trailing]: a separator after the last item, if there is an item. *)
  Definition separated {A} (p : parser A) (sep : control) (trailing : bool) : parser (list A) := fun ts =>
    match p ts with
    | None => Some ([], ts)
    | Some (a, r) =>
        let (l, r) := repeated_n (length r) (fun ts => match just_ctl sep ts with Some (_, r) => p r | None => None end) r in
        let r := if trailing then match just_ctl sep r with Some (_, r) => r | None => r end else r in
        Some (a :: l, r)
    end.

  (** :81-92. *)
  Definition value : parser expr := fun ts =>
    match ts with
    | (t, sp) :: r =>
        match t with
        | TNumber x => Some (ENumber x sp, r)
        | TString s w => Some (EString s sp w, r)
        | TIdent x =>
            if eq_ignore_case x (bs "true") then Some (EBool true sp, r)
            else if eq_ignore_case x (bs "false") then Some (EBool false sp, r)
            else if has_nular db x then Some (ENular x sp, r) else None
        | _ => None
        end
    | [] => None
    end.
  (** :270-272 [variable]. *)
  Definition variable (t : token) : option text :=
    match t with TIdent x => if (negb (has_command db x) && negb (is_special_command x))%bool then Some x else None | _ => None end.
  (** :248-257 [unary_command]. *)
  Definition unary_command (t : token) : option unary :=
    match t with
    | TOp OAdd => Some UPlus | TOp OSub => Some UMinus | TOp ONot => Some UNot
    | TIdent x => if has_unary db x then Some (UNamed x) else None
    | _ => None
    end.
  (** :260-267 [binary_command]. *)
  Definition binary_command (t : token) : option binary :=
    match t with
    | TOp OAssociate => Some BAssociate
    | TIdent x => if has_binary db x then Some (BNamed x) else None
    | _ => None
    end.
  (** :195-202, :185-192, :170-182, :167, :162-164, :150-159, :137-147, :132-134, :127-129: the operators of the
      precedences 1 to 9. *)
  Definition ladder : list (token -> option binary) := [
    (fun t => match t with TOp OOr => Some BOr | _ => if ident_is "or" t then Some BOr else None end);
    (fun t => match t with TOp OAnd => Some BAnd | _ => if ident_is "and" t then Some BAnd else None end);
    (fun t => match t with
              | TOp OEq => Some BEq | TOp ONotEq => Some BNotEq | TOp OGreater => Some BGreater | TOp OLess => Some BLess
              | TOp OGreaterEq => Some BGreaterEq | TOp OLessEq => Some BLessEq | TOp OConfigPath => Some BConfigPath | _ => None end);
    binary_command;
    (fun t => if ident_is "else" t then Some BElse else None);
    (fun t => match t with
              | TOp OAdd => Some BAdd | TOp OSub => Some BSub
              | _ => if ident_is "max" t then Some BMax else if ident_is "min" t then Some BMin else None end);
    (fun t => match t with
              | TOp OMul => Some BMul | TOp ODiv => Some BDiv | TOp ORem => Some BRem
              | _ => if ident_is "mod" t then Some BMod else if ident_is "atan2" t then Some BAtan2 else None end);
    (fun t => match t with TOp OExp => Some BExp | _ => None end);
    (fun t => match t with TOp OSelect => Some BSelect | _ => None end)].

  (** :234-245 [apply_binary_command]. *)
  Definition apply_binary (base : parser expr) (command : token -> option binary) : parser expr :=
    map_ (fun x => fold_left (fun e1 (c : (binary * span) * expr) => EBinary (fst (fst c)) e1 (snd c) (snd (fst c))) (snd x) (fst x))
      (then_ base (repeated (then_ (with_span (take command)) base))).
  (** :115-202: the precedences from the one given upwards over the unary commands. *)
  Fixpoint climb (levels : list (token -> option binary)) (base : parser expr) : parser expr :=
    match levels with
    | [] => base
    | c :: r => apply_binary (climb r base) c
    end.

  Section Knot.
    (** The recursive parsers for expressions and blocks. *)
    Context (expression : parser expr) (block : parser statements).
    (** :94-113. *)
    Definition base : parser expr :=
      orelse value (orelse
        (delimited (map_ (fun x => EArray (fst x) (snd x)) (with_span (separated expression Separator false))) SquareOpen SquareClose)
        (orelse (delimited expression RoundOpen RoundClose)
        (orelse (map_ (fun b => ECode (content b) (source b) (st_span b)) (delimited block CurlyOpen CurlyClose))
          (map_ (fun x => EVar (fst x) (snd x)) (with_span (take variable)))))).
    (** :116-122. *)
    Definition unary_level : parser expr :=
      map_ (fun x => fold_right (fun (c : unary * span) e => EUnary (fst c) e (snd c)) (snd x) (fst x))
        (then_ (repeated (with_span (take unary_command))) base).
    Definition expression_body : parser expr := climb ladder unary_level.
    (** :207-223. *)
    Definition assignment : parser stmt :=
      map_ (fun x : (option unit * (text * unit * expr)) * span =>
              let '((local, (v, _, e)), sp) := x in match local with Some _ => SLocal v e sp | None => SGlobal v e sp end)
        (with_span (then_ (fun ts => match take (keyword "private") ts with Some (_, r) => Some (Some tt, r) | None => Some (None, ts) end)
          (then_ (then_ (take variable) (take (fun t => match t with TOp OAssign => Some tt | _ => None end))) expression))).
    Definition statement : parser stmt := orelse assignment (map_ (fun x => SExpr (fst x) (snd x)) (with_span expression)).
    (** :222-230. *)
    Definition block_body : parser statements :=
      map_ (fun x => Statements (fst x) (extract (snd x)) (snd x)) (with_span (separated statement Terminator true)).
  End Knot.

  (** :79-232 [recursive]: [n] levels of nested brackets; more cannot occur in [n] tokens. *)
  Fixpoint expression (n : nat) : parser expr :=
    match n with
    | O => fun _ => None
    | S n => fun ts => expression_body (expression n) (block_body (expression n)) ts
    end.
  Definition block (n : nat) : parser statements := block_body (expression n).

  (** :53-72 [run_for_tokens]: everything must be used. *)
  Definition run_for_tokens (ts : list ltoken) : option statements :=
    match block (S (length ts)) ts with
    | Some (s, []) => Some s
    | _ => None
    end.
End Parser.

(** :21-46 [run], after lexing: [len] is the length of the text in bytes (the end of input is at [len..len+1]). *)
Definition parse (db : database) (extract : span -> text) (source : text) (len : N) (ts : list ltoken) : option statements :=
  match run_for_tokens db extract (len, len + 1) (strip_noop (strip_comments ts)) with
  | Some s => Some (Statements (content s) source (st_span s))
  | None => None
  end.

(** ** The command database (database/mod.rs) *)
(** A wiki entry: the name and, for each syntax, how it is called (arma3_wiki [Call]). *)
Inductive call := CallNular | CallUnary | CallBinary.
Definition wiki_entry : Type := text * list call.
Definition insert_call (name : text) (d : database) (c : call) : database :=
  match c with
  | CallNular => Database (name :: nular_commands d) (unary_commands d) (binary_commands d)
  | CallUnary => Database (nular_commands d) (name :: unary_commands d) (binary_commands d)
  | CallBinary => Database (nular_commands d) (unary_commands d) (name :: binary_commands d)
  end.
Definition insert_entry (d : database) (e : wiki_entry) : database := fold_left (insert_call (to_ascii_lower (fst e))) (snd e) d.
(** :70-107 [a3]: every command of the wiki, then the special names taken out. *)
Definition without (special l : list text) : list text := filter (fun x => negb (existsb (same_text x) special)) l.
Definition a3 (wiki : list wiki_entry) : database :=
  let d := fold_left insert_entry wiki (Database [] [] []) in
  Database (without nular_special (nular_commands d)) (unary_commands d) (without binary_special (binary_commands d)).
(** :116-157 [a3_with_workspace]: the project's own commands are inserted and nothing is taken out again. *)
Definition a3_with_workspace (wiki custom : list wiki_entry) : database := fold_left insert_entry custom (a3 wiki).
