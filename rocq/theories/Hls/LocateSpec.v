(** Specification for C99: commands under the cursor. *)
From Coq Require Import String.
From Verif Require Import Base.Tactics Base.Bytes Base.Sort Base.Ascii Base.Text Sqf.Ast Sqf.FormatModel.
Local Open Scope N_scope.
Local Open Scope list_scope.

(** [r] is [e] or is somewhere in it. *)
Inductive occurs (r : expr) : expr -> Prop :=
| occurs_here : occurs r r
| occurs_code st c src sp : In st c -> occurs r (stmt_expr st) -> occurs r (ECode c src sp)
| occurs_array x l sp : In x l -> occurs r x -> occurs r (EArray l sp)
| occurs_consumable x l sp : In x l -> occurs r x -> occurs r (EConsumable l sp)
| occurs_unary c x sp : occurs r x -> occurs r (EUnary c x sp)
| occurs_left c x y sp : occurs r x -> occurs r (EBinary c x y sp)
| occurs_right c x y sp : occurs r y -> occurs r (EBinary c x y sp).
(** The name of a command, and where it is written. *)
Definition command_at (e : expr) : option (text * span) :=
  match e with
  | ENular n sp => Some (n, sp)
  | EUnary u _ sp => Some (unary_str u, sp)
  | EBinary b _ _ sp => Some (binary_str b, sp)
  | _ => None
  end.

Section Layout.
  (** The token at a place of the preprocessed text, in the original. *)
  Context (map_at : N -> option (text * (N * N))).
  (** The expression is written from [s] on, and the token after it ends at [u]. *)
  Definition written (e : expr) (s u : N) : Prop :=
    (exists f x, map_at (fst (full_span e)) = Some (f, (s, x))) /\ (exists f x, map_at (snd (full_span e)) = Some (f, (x, u))) /\ s < u.
  (** Expressions are written one after the other between [s] and [u], each with at least one token, such as a comma, after it. *)
  Fixpoint in_turn (l : list expr) (s u : N) : Prop :=
    match l with
    | [] => s <= u
    | x :: r => exists sx ux, written x sx ux /\ s <= sx /\ in_turn r ux u
    end.
  (** The parts of an expression are written in order, with a token between a left operand and its operator. *)
  Inductive laid_out : expr -> Prop :=
  | lay_string v sp w s u : written (EString v sp w) s u -> laid_out (EString v sp w)
  | lay_number n sp s u : written (ENumber n sp) s u -> laid_out (ENumber n sp)
  | lay_bool b sp s u : written (EBool b sp) s u -> laid_out (EBool b sp)
  | lay_var n sp s u : written (EVar n sp) s u -> laid_out (EVar n sp)
  | lay_nular n sp s k u f : written (ENular n sp) s u -> map_at (fst sp) = Some (f, (s, k)) -> k <= u -> laid_out (ENular n sp)
  | lay_unary c x sp s k u f sx : written (EUnary c x sp) s u -> map_at (fst sp) = Some (f, (s, k)) -> written x sx u -> s < k -> k <= sx -> laid_out x -> laid_out (EUnary c x sp)
  | lay_binary c x y sp sx ux k1 k2 sy uy f : written x sx ux -> map_at (fst sp) = Some (f, (k1, k2)) -> written y sy uy -> ux <= k1 -> k1 < k2 -> k2 <= sy ->
      laid_out x -> laid_out y -> laid_out (EBinary c x y sp)
  | lay_array l sp s u : written (EArray l sp) s u -> in_turn l s u -> Forall laid_out l -> laid_out (EArray l sp)
  | lay_consumable l sp s u : written (EConsumable l sp) s u -> in_turn l s u -> Forall laid_out l -> laid_out (EConsumable l sp)
  | lay_code c src sp s u : written (ECode c src sp) s u -> in_turn (map stmt_expr c) s u -> Forall (fun st => laid_out (stmt_expr st)) c -> laid_out (ECode c src sp).
  (** The cursor is in the name of the command, and, if the command's expression begins with it, behind its first character. *)
  Definition cursor_in (r : expr) (sp : span) (o : N) : Prop :=
    exists f a b, map_at (fst sp) = Some (f, (a, b)) /\ a <= o < b /\ match r with EBinary _ _ _ _ => True | _ => a < o end.
End Layout.
