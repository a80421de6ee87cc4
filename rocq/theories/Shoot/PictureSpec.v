(** Specification for C96: the pictures that the configs of a project name. *)
From Coq Require Import String.
From Verif Require Import Base.Tactics Base.Bytes Base.Sort Base.Ascii Base.Text.
From Verif Require Config.RapModel Workspace.PathModel.
Import RapModel.
Local Open Scope N_scope.
Local Open Scope list_scope.

(** Class [c] of the section has the text [p] as its picture: its first string entry of that name. *)
Definition declares (section entry : text) (cs : list config) (c p : text) : Prop :=
  exists cfg parent ps mb parent' qs mb' before e after,
    In cfg cs /\ In (PClass (Local section parent ps mb)) cfg /\ In (PClass (Local c parent' qs mb')) ps /\
    qs = before ++ Entry entry (VStr p) e :: after /\ forall s e', ~ In (Entry entry (VStr s) e') before.

(** [n] times [p]. *)
Definition times (n : nat) (p : text) : text := List.concat (repeat p n).
(** [s] does not begin with [p]. *)
Definition apart (p s : text) : Prop := forall r, s <> p ++ r.

(** What HEMTT takes to be the path [rel] in the project: the main prefix between backslashes, the prefix, and what follows, where
    each of the parts and the backslashes may be repeated. *)
Definition points (main prefix p rel : text) : Prop :=
  exists k j i, p = times (S k) ([92] ++ main ++ [92]) ++ times (S j) prefix ++ times i [92] ++ rel /\
    apart ([92] ++ main ++ [92]) (times (S j) prefix ++ times i [92] ++ rel) /\ apart prefix (times i [92] ++ rel) /\ apart [92] rel.

(** The project has no file at [rel]. *)
Definition missing (file : PathModel.vpath -> bool) (rel : text) : Prop :=
  exists v, PathModel.vfs_join [] (PathModel.slashes rel) = Some v /\ file v = false.
