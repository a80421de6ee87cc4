(** Specification vocabulary for C105. *)
From Coq Require Import String.
From Verif Require Import Base.Tactics Base.Bytes Base.Ascii Base.Text Bin.TempModel.
Local Open Scope N_scope.
Local Open Scope list_scope.

(** A place as most projects are at: at least two folders deep (one on a drive), no underscore and no separator in the names behind the
    first, and not called profile in the first folder. *)
Definition plain (n : text) : Prop := n <> [] /\ ~ In 47 n /\ ~ In 92 n /\ ~ In 95 n.
Definition ordinary (r : place) : Prop :=
  match r with
  | Unix (_ :: names) => names <> [] /\ Forall plain names /\ names <> [bs "profile"]
  | Unix [] => False
  | Windows _ names => names <> [] /\ Forall plain names /\ names <> [bs "profile"]
  end.
(** In the same first folder, or on the same drive. *)
Definition together (r s : place) : Prop :=
  match r, s with
  | Unix (a :: _), Unix (b :: _) => a = b
  | Windows a _, Windows b _ => a = b
  | _, _ => False
  end.
(** Whose step it is. *)
Definition of_ (s : step) : place := match s with Opens r => r | Puts r _ _ => r | Profile r _ => r end.
(** Only what one project does. *)
Inductive only (r : place) : list step -> list step -> Prop :=
| only_nothing : only r [] []
| only_own s l l' : of_ s = r -> only r l l' -> only r (s :: l) (s :: l')
| only_other s l l' : of_ s <> r -> only r l l' -> only r (s :: l) l'.
