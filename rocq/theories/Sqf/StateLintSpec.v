(** Specification for C72 and C73: what statements do to reserved variables and to markers. *)
From Coq Require Import String.
From Verif Require Import Base.Tactics Base.Bytes Base.Ascii Base.Text Sqf.Ast.
Local Open Scope N_scope.
Local Open Scope list_scope.

(** The names that the game gives a meaning to. *)
Definition reserved (n : text) : Prop :=
  In n [bs "this"; bs "_this"; bs "_forEachIndex"; bs "_exception"; bs "_thisScript"; bs "_thisFSM"; bs "thisList"; bs "thisTrigger"].
Definition assigns (s : stmt) (x : text) (e : expr) (sp : span) : Prop := s = SGlobal x e sp \/ s = SLocal x e sp.
(** A statement that keeps a reserved variable's value in another. *)
Definition saves (s : stmt) (x r : text) : Prop := reserved r /\ ~ reserved x /\ exists p sp, assigns s x (EVar r p) sp.
(** A statement that neither assigns to a reserved variable nor saves one. *)
Definition harmless (s : stmt) : Prop := forall x e sp, assigns s x e sp -> ~ reserved x /\ forall r p, e = EVar r p -> ~ reserved r.
(** One that leaves the variable [x] alone too. *)
Definition leaves (x : text) (s : stmt) : Prop := forall y e sp, assigns s y e sp -> y <> x /\ forall p, e <> EVar x p.

(** A global update of the marker in a variable of this name or of this name itself. *)
Definition ends (s w : text) : Prop := exists r, s = r ++ w.
Definition begins (s w : text) : Prop := exists r, s = w ++ r.
Inductive updates (n : text) : stmt -> text -> span -> Prop :=
| updates_here : forall cmd m a csp sp, begins cmd (bs "setMarker") -> ~ ends cmd (bs "Local") -> (exists p, m = EVar n p) \/ (exists p w, m = EString n p w) ->
    updates n (SExpr (EBinary (BNamed cmd) m a csp) sp) cmd csp.
(** The updates among some statements, in order. *)
Inductive all_updates (n : text) : list stmt -> list (text * span) -> Prop :=
| no_updates : all_updates n [] []
| one_update : forall s c cmd sp l, updates n s cmd sp -> all_updates n c l -> all_updates n (s :: c) ((cmd, sp) :: l)
| not_update : forall s c l, (forall cmd sp, ~ updates n s cmd sp) -> all_updates n c l -> all_updates n (s :: c) l.
Definition assigns_to (s : stmt) (n : text) : Prop := exists e sp, assigns s n e sp.
(** A longest run of statements that do not assign to a variable. *)
Definition run_of (n : text) (c b : list stmt) : Prop := exists a z, c = a ++ b ++ z /\ (forall s, In s b -> ~ assigns_to s n) /\
  (a = [] \/ exists a' s, a = a' ++ [s] /\ assigns_to s n) /\ (z = [] \/ exists s z', z = s :: z' /\ assigns_to s n).
