(** What a parsed config says, as a raP tree, and which configs can be stored at all. *)
From Verif Require Import Base.Tactics Base.Bytes Io.Spec Config.RapModel.
From Verif Require Config.RapSpec.
Import RapSpec (rvalue, RStr, RFloat, RInt, RInt64, RArray, rentry, RClass, RValue, RExpr, RArr, RExtern, RDelete).
Local Open Scope N_scope.

Definition option_map2 {A B C} (f : A -> B -> C) (a : option A) (b : option B) : option C :=
  match a, b with Some x, Some y => Some (f x y) | _, _ => None end.

Definition tree_number (n : number) : rvalue :=
  match n with Int32 v => RInt v | Int64 v => RInt64 v | Float32 b => RFloat b end.

(** [None] iff an error node occurs. *)
Fixpoint tree_item (i : item) : option rvalue :=
  match i with
  | IStr s => Some (RStr s)
  | INum n => Some (tree_number n)
  | IArr l => option_map RArray (fold_right (fun e => option_map2 cons (tree_item e)) (Some []) l)
  | IInvalid => None
  end.
Definition tree_items (l : list item) : option (list rvalue) :=
  fold_right (fun e => option_map2 cons (tree_item e)) (Some []) l.

(** One property; nested classes through [tree_class]. [None] iff an error node occurs or a root class is
    used as a property. *)
Definition tree_entry (tc : class -> option rentry) (p : property) : option rentry :=
  match p with
  | Entry name v _ =>
      match v with
      | VStr s => Some (RValue name (RStr s))
      | VNum n => Some (RValue name (tree_number n))
      | VExpr s => Some (RExpr name s)
      | VArr expand l => option_map (RArr name expand) (tree_items l)
      | VUnexpectedArr _ _ | VInvalid => None
      end
  | PClass c => tc c
  | Delete name => Some (RDelete name)
  | MissingSemicolon _ => None
  end.
Fixpoint tree_class (c : class) : option rentry :=
  match c with
  | Root _ => None
  | External name => Some (RExtern name)
  | Local name parent ps _ =>
      option_map (RClass name parent)
        (fold_right (fun p => option_map2 cons (tree_entry tree_class p)) (Some []) ps)
  end.
Definition tree_props (ps : list property) : option (list rentry) :=
  fold_right (fun p => option_map2 cons (tree_entry tree_class p)) (Some []) ps.
Definition tree (c : config) : option (list rentry) := tree_props c.

(** Storable: strings and names without NUL, integers in the range of their Rust type, 32 bits per float,
    named parents not empty. *)
Definition num_ok (n : number) : Prop :=
  match n with
  | Int32 v => (- 2 ^ 31 <= v < 2 ^ 31)%Z
  | Int64 v => (- 2 ^ 63 <= v < 2 ^ 63)%Z
  | Float32 b => b < 2 ^ 32
  end.
Fixpoint item_ok (i : item) : Prop :=
  match i with
  | IStr s => no_nul s
  | INum n => num_ok n
  | IArr l => fold_right (fun e P => item_ok e /\ P) True l
  | IInvalid => True
  end.
Definition value_ok (v : value) : Prop :=
  match v with
  | VStr s | VExpr s => no_nul s
  | VNum n => num_ok n
  | VArr _ l | VUnexpectedArr _ l => fold_right (fun e P => item_ok e /\ P) True l
  | VInvalid => True
  end.
Definition prop_ok (cok : class -> Prop) (p : property) : Prop :=
  match p with
  | Entry name v _ => no_nul name /\ value_ok v
  | PClass c => cok c
  | Delete name | MissingSemicolon name => no_nul name
  end.
Fixpoint class_ok (c : class) : Prop :=
  match c with
  | Root ps => fold_right (fun p P => prop_ok class_ok p /\ P) True ps
  | External name => no_nul name
  | Local name parent ps _ =>
      no_nul name /\ (forall p, parent = Some p -> no_nul p /\ p <> []) /\
      fold_right (fun p P => prop_ok class_ok p /\ P) True ps
  end.
Definition config_ok (c : config) : Prop := class_ok (Root c).
