(** The syntax tree of SQF: libs/sqf/src/lib.rs. *)
From Coq Require Import String.
From Verif Require Import Base.Tactics Base.Bytes Base.Ascii Base.Text.
Local Open Scope N_scope.
Local Open Scope list_scope.

(** [Range<usize>]: start and end, in characters of the preprocessed text. *)
Notation span := (N * N)%type.

(** lib.rs:143-157 [StringWrapper]. *)
Inductive wrapper := SingleQuote | DoubleQuote.
(** lib.rs:361-381 [UnaryCommand] and its [as_str]. *)
Inductive unary := UNamed (name : text) | UPlus | UMinus | UNot.
Definition unary_str (u : unary) : text :=
  match u with UNamed n => n | UPlus => bs "+" | UMinus => bs "-" | UNot => bs "!" end.
(** lib.rs:383-440 [BinaryCommand] and its [as_str]. *)
Inductive binary :=
| BNamed (name : text) | BOr | BAnd | BEq | BNotEq | BGreater | BLess | BGreaterEq | BLessEq | BConfigPath | BAssociate
| BElse | BAdd | BSub | BMax | BMin | BMul | BDiv | BRem | BMod | BAtan2 | BExp | BSelect.
Definition binary_str (b : binary) : text :=
  match b with
  | BNamed n => n
  | BOr => bs "||" | BAnd => bs "&&" | BEq => bs "==" | BNotEq => bs "!=" | BConfigPath => bs ">>"
  | BGreaterEq => bs ">=" | BLessEq => bs "<=" | BGreater => bs ">" | BLess => bs "<" | BElse => bs "else"
  | BAdd => bs "+" | BSub => bs "-" | BMax => bs "max" | BMin => bs "min" | BMul => bs "*" | BDiv => bs "/"
  | BRem => bs "%" | BMod => bs "mod" | BAtan2 => bs "atan2" | BExp => bs "^" | BAssociate => bs ":" | BSelect => bs "#"
  end.

(** lib.rs:107-113 [Statement] and :159-171 [Expression]. [ECode] holds the fields of [Statements] (:18-25). A number
    is the bit pattern of its f32. *)
Inductive expr :=
| ECode (content : list stmt) (source : text) (sp : span)
| EString (s : text) (sp : span) (w : wrapper)
| ENumber (bits : N) (sp : span)
| EBool (b : bool) (sp : span)
| EArray (l : list expr) (sp : span)
| EConsumable (l : list expr) (sp : span)
| ENular (name : text) (sp : span)
| EUnary (c : unary) (e : expr) (sp : span)
| EBinary (c : binary) (a b : expr) (sp : span)
| EVar (name : text) (sp : span)
with stmt :=
| SGlobal (name : text) (e : expr) (sp : span)
| SLocal (name : text) (e : expr) (sp : span)
| SExpr (e : expr) (sp : span).
(** lib.rs:18-25 [Statements]: a whole script. *)
Record statements := Statements { content : list stmt; source : text; st_span : span }.

Definition stmt_expr (s : stmt) : expr := match s with SGlobal _ e _ | SLocal _ e _ | SExpr e _ => e end.

(** Induction over trees. *)
Section Ind.
  Context (P : expr -> Prop) (Q : stmt -> Prop).
  Context (Hcode : forall c s sp, Forall Q c -> P (ECode c s sp)).
  Context (Hstr : forall s sp w, P (EString s sp w)) (Hnum : forall n sp, P (ENumber n sp)) (Hbool : forall b sp, P (EBool b sp)).
  Context (Harr : forall l sp, Forall P l -> P (EArray l sp)) (Hcon : forall l sp, Forall P l -> P (EConsumable l sp)).
  Context (Hnul : forall n sp, P (ENular n sp)) (Hun : forall c e sp, P e -> P (EUnary c e sp)).
  Context (Hbin : forall c a b sp, P a -> P b -> P (EBinary c a b sp)) (Hvar : forall n sp, P (EVar n sp)).
  Context (Hg : forall n e sp, P e -> Q (SGlobal n e sp)) (Hl : forall n e sp, P e -> Q (SLocal n e sp)) (He : forall e sp, P e -> Q (SExpr e sp)).
  Fixpoint expr_ind' (e : expr) : P e :=
    match e with
    | ECode c s sp => Hcode c s sp ((fix go l := match l return Forall Q l with [] => Forall_nil Q | x :: r => Forall_cons x (stmt_ind' x) (go r) end) c)
    | EString s sp w => Hstr s sp w | ENumber n sp => Hnum n sp | EBool b sp => Hbool b sp
    | EArray l sp => Harr l sp ((fix go l := match l return Forall P l with [] => Forall_nil P | x :: r => Forall_cons x (expr_ind' x) (go r) end) l)
    | EConsumable l sp => Hcon l sp ((fix go l := match l return Forall P l with [] => Forall_nil P | x :: r => Forall_cons x (expr_ind' x) (go r) end) l)
    | ENular n sp => Hnul n sp
    | EUnary c e sp => Hun c e sp (expr_ind' e)
    | EBinary c a b sp => Hbin c a b sp (expr_ind' a) (expr_ind' b)
    | EVar n sp => Hvar n sp
    end
  with stmt_ind' (s : stmt) : Q s :=
    match s with
    | SGlobal n e sp => Hg n e sp (expr_ind' e) | SLocal n e sp => Hl n e sp (expr_ind' e) | SExpr e sp => He e sp (expr_ind' e)
    end.
  Lemma tree_ind : (forall e, P e) /\ (forall s, Q s).
  Proof. split; [exact expr_ind'|exact stmt_ind']. Qed.
End Ind.

(** ** Command names: libs/sqf/src/parser/database/mod.rs. *)

(** [str::to_ascii_lowercase], [to_ascii_uppercase], [eq_ignore_ascii_case], [is_ascii]. *)
Definition lower_char (c : N) : N := if (65 <=? c) && (c <=? 90) then c + 32 else c.
Definition upper_char (c : N) : N := if (97 <=? c) && (c <=? 122) then c - 32 else c.
Definition to_ascii_lower (s : text) : text := map lower_char s.
Definition to_ascii_upper (s : text) : text := map upper_char s.
Fixpoint same_text (a b : text) : bool :=
  match a, b with
  | [], [] => true
  | x :: a, y :: b => (x =? y) && same_text a b
  | _, _ => false
  end.
Definition eq_ignore_case (a b : text) : bool := same_text (to_ascii_lower a) (to_ascii_lower b).
Definition is_ascii (s : text) : bool := forallb (fun c => c <? 128) s.

(** database/mod.rs:270-272 [is_in]. *)
Definition is_in (l : list text) (x : text) : bool := existsb (fun i => eq_ignore_case i x) l.
(** :13-28, :33, :38, :41-43. *)
Definition nular_constants : list text :=
  map bs ["nil"; "confignull"; "controlnull"; "diaryrecordnull"; "displaynull"; "grpnull"; "locationnull"; "objnull"; "scriptnull"; "tasknull"; "teammembernull"]%string.
Definition nular_special : list text := [bs "true"; bs "false"].
Definition binary_special : list text := map bs ["or"; "and"; "else"; "max"; "min"; "mod"; "atan2"]%string.
Definition operators : list text :=
  map bs ["!"; "||"; "&&"; "=="; "!="; ">>"; ">="; "<="; ">"; "<"; "+"; "-"; "*"; "/"; "%"; "^"; ":"; "#"]%string.
(** :226-269 [is_constant_command], [is_special_command], [is_operator_command], [is_valid_name], [is_valid_command]. *)
Definition is_constant_command (x : text) : bool := is_in nular_constants x.
Definition is_special_command (x : text) : bool := is_in nular_special x || is_in binary_special x.
Definition is_operator_command (x : text) : bool := is_in operators x.
Definition is_name_char (c : N) : bool :=
  ((48 <=? c) && (c <=? 57)) || ((65 <=? c) && (c <=? 90)) || ((97 <=? c) && (c <=? 122)) || (c =? 95).
Definition is_valid_name (x : text) : bool := forallb is_name_char x.
Definition is_valid_command (x : text) : bool := is_valid_name x || is_operator_command x.
