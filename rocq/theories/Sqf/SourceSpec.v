(** What it means for two trees to be the same but for places. *)
From Coq Require Import String.
From Verif Require Import Base.Tactics Base.Bytes Base.Ascii Base.Text Sqf.Ast Sqf.ParseModel.
Local Open Scope N_scope.
Local Open Scope list_scope.

(** The tree without its places and without the texts kept with its blocks. *)
Fixpoint bare (e : expr) : expr :=
  match e with
  | ECode c _ _ => ECode (map bare_stmt c) [] (0, 0)
  | EString s _ w => EString s (0, 0) w
  | ENumber n _ => ENumber n (0, 0)
  | EBool b _ => EBool b (0, 0)
  | EArray l _ => EArray (map bare l) (0, 0)
  | EConsumable l _ => EConsumable (map bare l) (0, 0)
  | ENular n _ => ENular n (0, 0)
  | EUnary c e _ => EUnary c (bare e) (0, 0)
  | EBinary c a b _ => EBinary c (bare a) (bare b) (0, 0)
  | EVar n _ => EVar n (0, 0)
  end
with bare_stmt (s : stmt) : stmt :=
  match s with
  | SGlobal n e _ => SGlobal n (bare e) (0, 0)
  | SLocal n e _ => SLocal n (bare e) (0, 0)
  | SExpr e _ => SExpr (bare e) (0, 0)
  end.

(** [within e e']: [e] is [e'] or a part of it; [part e ss]: of one of the statements. *)
Inductive within (e : expr) : expr -> Prop :=
| within_here : within e e
| within_unary : forall c x sp, within e x -> within e (EUnary c x sp)
| within_left : forall c a b sp, within e a -> within e (EBinary c a b sp)
| within_right : forall c a b sp, within e b -> within e (EBinary c a b sp)
| within_array : forall l x sp, In x l -> within e x -> within e (EArray l sp)
| within_code : forall ss s src sp, In s ss -> within e (stmt_expr s) -> within e (ECode ss src sp).
Definition part (e : expr) (ss : list stmt) : Prop := exists s, In s ss /\ within e (stmt_expr s).

(** A number is shown as a text that reads as the number; a string is without its own quote; a block is not empty (blocks
    within blocks are part of the outer block's text and may be anything). *)
Fixpoint shown_well (number_text : N -> text -> Prop) (show_f32 : N -> text) (e : expr) : Prop :=
  match e with
  | ECode c _ _ => c <> []
  | EString s _ w => ~ In (match w with SingleQuote => 39 | DoubleQuote => 34 end) s
  | ENumber n _ => number_text n (show_f32 n)
  | EArray l _ => fold_right (fun e p => shown_well number_text show_f32 e /\ p) True l
  | EUnary _ e _ => shown_well number_text show_f32 e
  | EBinary _ a b _ => shown_well number_text show_f32 a /\ shown_well number_text show_f32 b
  | _ => True
  end.
