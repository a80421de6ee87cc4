(** Specification for C67 to C69: where commands and events stand in a script. *)
From Coq Require Import String.
From Verif Require Import Base.Tactics Base.Bytes Base.Ascii Base.Text Sqf.Ast Sqf.SourceSpec.
Local Open Scope N_scope.
Local Open Scope list_scope.

(** A version of the game, major and minor, is before another. *)
Definition earlier (a b : N * N) : Prop := fst a < fst b \/ fst a = fst b /\ snd a < snd b.
(** An expression that is the use of a command, at this place. *)
Definition uses (e : expr) (n : text) (sp : span) : Prop :=
  match e with
  | ENular m s => n = m /\ sp = s
  | EUnary c _ s => n = unary_str c /\ sp = s
  | EBinary c _ _ s => n = binary_str c /\ sp = s
  | _ => False
  end.
(** A script, or one of the blocks in it. *)
Definition block_of (script c : list stmt) : Prop := c = script \/ exists src sp, part (ECode c src sp) script.

(** Expressions of nothing but commands whose version is known and of blocks of such, where every block has a command that came
    after version 0.0. *)
Inductive simple (db : text -> option (N * N)) : expr -> Prop :=
| simple_nular : forall n sp, db n <> None -> simple db (ENular n sp)
| simple_unary : forall c a sp, db (unary_str c) <> None -> simple db a -> simple db (EUnary c a sp)
| simple_binary : forall c a b sp, db (binary_str c) <> None -> simple db a -> simple db b -> simple db (EBinary c a b sp)
| simple_code : forall c src sp, (forall s, In s c -> simple db (stmt_expr s)) ->
    (exists e n p v, part e c /\ uses e n p /\ db n = Some v /\ earlier (0, 0) v) -> simple db (ECode c src sp).

(** The event of an argument: the string itself, or that of the first item of an array. *)
Inductive event_of : expr -> text -> span -> Prop :=
| event_string : forall s sp w, event_of (EString s sp w) s sp
| event_array : forall x l sp id p, event_of x id p -> event_of (EArray (x :: l) sp) id p.
(** A named command with an event as its right argument. *)
Definition registers (e : expr) (n id : text) (p : span) : Prop :=
  (exists a b sp, e = EBinary (BNamed n) a b sp /\ event_of b id p) \/ (exists a sp, e = EUnary (UNamed n) a sp /\ event_of a id p).
(** A name that holds another. *)
Definition mentions (n w : text) : Prop := exists a b, n = a ++ w ++ b.
(** An expression within some number of blocks. *)
Fixpoint nest (k : nat) (src : text) (sp : span) (e : expr) : expr :=
  match k with O => e | S k => ECode [SExpr (nest k src sp e) sp] src sp end.
