(** Names of addons and of what is built from them (C39, C40, C54). *)
From Coq Require Import String.
From Verif Require Import Base.Tactics Base.Bytes Base.Ascii Io.Model Bin.AddonModel.
Local Open Scope N_scope.
Local Open Scope list_scope.

(** The directories in a folder. *)
Definition dirs (folder : option listing) : list bytes :=
  match folder with None => [] | Some es => map fst (filter snd es) end.
Definition found (addons optionals : option listing) : list (location * bytes) :=
  map (pair Addons) (dirs addons) ++ map (pair Optionals) (dirs optionals).
(** A folder lists each name once. *)
Definition folder_ok (folder : option listing) : Prop := NoDup (dirs folder).
(** No two places of a list hold related things. *)
Definition no_two {A} (R : A -> A -> Prop) (l : list A) : Prop := forall x a y b z, l = x ++ a :: y ++ b :: z -> ~ R a b.
(** Paths that a file system which ignores case takes for the same. *)
Definition clash (p q : path) : Prop := map ascii_lower p = map ascii_lower q.
Definition no_dot (s : bytes) : Prop := ~ In 46 s.
(** Lower case of all letters forgets at least the case of the ASCII ones. *)
Definition lowers_ascii (lower : bytes -> bytes) : Prop := forall a b, ascii_lower a = ascii_lower b -> lower a = lower b.
