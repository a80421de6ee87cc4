(** How SQF tokens are written, as a grammar on texts: what each token looks like, and which two may touch. *)
From Coq Require Import String.
From Verif Require Import Base.Tactics Base.Bytes Base.Ascii Base.Text Sqf.Ast Sqf.ParseModel.
Local Open Scope N_scope.
Local Open Scope list_scope.

Definition operator_text (o : operator) : text :=
  match o with
  | OAnd => bs "&&" | OOr => bs "||" | OEq => bs "==" | ONotEq => bs "!=" | OConfigPath => bs ">>" | OGreaterEq => bs ">="
  | OLessEq => bs "<=" | OGreater => bs ">" | OLess => bs "<" | ONot => bs "!" | OAdd => bs "+" | OSub => bs "-" | OMul => bs "*"
  | ODiv => bs "/" | ORem => bs "%" | OExp => bs "^" | OAssign => bs "=" | OAssociate => bs ":" | OSelect => bs "#"
  end.
Definition control_text (c : control) : text :=
  match c with
  | Terminator => bs ";" | Separator => bs "," | SquareOpen => bs "[" | SquareClose => bs "]" | RoundOpen => bs "(" | RoundClose => bs ")"
  | CurlyOpen => bs "{" | CurlyClose => bs "}"
  end.
(** A string is written between two quotes of one kind, with that quote doubled inside. *)
Definition quote_char (w : wrapper) : N := match w with SingleQuote => 39 | DoubleQuote => 34 end.
Definition double_quotes (q : N) (s : text) : text := flat_map (fun c => if c =? q then [q; q] else [c]) s.
Definition quoted (w : wrapper) (s : text) : text := [quote_char w] ++ double_quotes (quote_char w) s ++ [quote_char w].

Definition digit (c : N) : Prop := 48 <= c <= 57.
Definition letter (c : N) : Prop := 65 <= c <= 90 \/ 97 <= c <= 122.
Definition name_char (c : N) : Prop := letter c \/ digit c \/ c = 95.
Definition name_text (s : text) : Prop := exists c r, s = c :: r /\ (letter c \/ c = 95) /\ Forall name_char r.
(** Digits of a number and their value. *)
Inductive numeral (base : N) : text -> N -> Prop :=
| numeral_none : numeral base [] 0
| numeral_more : forall s v c d, numeral base s v -> d < base ->
    (c = 48 + d /\ d < 10 \/ c = 87 + d /\ 10 <= d \/ c = 55 + d /\ 10 <= d) -> numeral base (s ++ [c]) (v * base + d).
Definition digits (s : text) : Prop := s <> [] /\ Forall digit s.

Section Spec.
  (** The nearest f32, as its bits, of a decimal text and of a whole number. *)
  Context (parse_f32 : text -> N) (f32_of : N -> N).
  Inductive number_text : N -> text -> Prop :=
  | N_whole : forall s v, s <> [] -> numeral 10 s v -> v < 2 ^ 32 -> number_text (f32_of v) s
  | N_hex : forall p s v, p = bs "$" \/ p = bs "0x" -> s <> [] -> numeral 16 s v -> v < 2 ^ 32 -> number_text (f32_of v) (p ++ s)
  | N_point : forall a b, Forall digit a -> digits b -> number_text (parse_f32 (a ++ bs "." ++ b)) (a ++ bs "." ++ b)
  | N_exponent : forall a b e sign x, (a = [] \/ exists w, digits w /\ a = w ++ bs ".") -> digits b -> e = bs "e" \/ e = bs "E" ->
      sign = [] \/ sign = bs "+" \/ sign = bs "-" -> digits x ->
      number_text (parse_f32 (a ++ b ++ e ++ sign ++ x)) (a ++ b ++ e ++ sign ++ x).

  (** [s] holds [p] somewhere. *)
  Definition holds (p s : text) : Prop := exists a b, s = a ++ p ++ b.
  (** A comment [/* ... */] ends at the first [*/]; a comment [// ...] is one line, without the line's end. *)
  Inductive written : token -> text -> Prop :=
  | W_block : forall c, ~ holds (bs "*/") c -> written (TComment (bs "/*" ++ c ++ bs "*/")) (bs "/*" ++ c ++ bs "*/")
  | W_line : forall c, ~ In 10 c -> written (TComment (bs "//" ++ c)) (bs "//" ++ c)
  | W_operator : forall o, written (TOp o) (operator_text o)
  | W_control : forall c, written (TCtl c) (control_text c)
  | W_name : forall s, name_text s -> written (TIdent s) s
  | W_string : forall s w, written (TString s w) (quoted w s)
  | W_number : forall v s, number_text v s -> written (TNumber v) s.

  Definition is_constant (t : token) : Prop := match t with TNumber _ | TIdent _ | TString _ _ => True | _ => False end.
  (** A character a number, a name or a string can start with. *)
  Definition constant_start (c : N) : Prop := name_char c \/ c = 46 (* . *) \/ c = 36 (* $ *) \/ c = 39 \/ c = 34.
  (** What may follow a token at once. No two of number, name and string touch. An operator is the longest that can be
      read there and not the start of a comment (a [/*] that nothing closes is not one). A line comment goes on to the
      end of its line. *)
  Definition may_precede (t : token) (rest : text) : Prop :=
    (is_constant t -> forall c r, rest = c :: r -> ~ constant_start c) /\
    (forall o, t = TOp o ->
       (forall o' r, operator_text o ++ rest = operator_text o' ++ r -> (length (operator_text o') <= length (operator_text o))%nat) /\
       (forall r, operator_text o ++ rest <> bs "//" ++ r) /\
       (forall r, operator_text o ++ rest = bs "/*" ++ r -> ~ holds (bs "*/") r)) /\
    (forall c, t = TComment (bs "//" ++ c) ->
       rest = [] \/ (exists r, rest = 13 :: 10 :: r) \/ (exists r, rest = 10 :: r) /\ ~ (exists c', c = c' ++ [13])).

  Definition white (s : text) : Prop := Forall (fun c => is_ws c = true) s.
  (** [reads pos s ts]: the text, whose first character is at [pos], is these tokens at these places with nothing but
      white space around them. *)
  Inductive reads : N -> text -> list ltoken -> Prop :=
  | R_end : forall pos w, white w -> reads pos w []
  | R_token : forall pos w t s rest ts, white w -> written t s -> may_precede t rest ->
      let start := pos + N.of_nat (length w) in
      let stop := start + N.of_nat (length s) in
      reads stop rest ts -> reads pos (w ++ s ++ rest) ((t, (start, stop)) :: ts).
End Spec.
