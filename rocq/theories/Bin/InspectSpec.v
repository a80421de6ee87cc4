(** Specification vocabulary for C106. *)
From Coq Require Import String.
From Verif Require Import Base.Tactics Base.Bytes Base.Ascii.
Local Open Scope N_scope.
Local Open Scope list_scope.

(** The extensions that decide; a name says nothing if it has none of them, after a name that is not empty. *)
Definition known : list bytes := map bs ["paa"; "pbo"; "bikey"; "bisign"; "cpp"; "hpp"]%string.
Definition unsaid (name : bytes) : Prop := forall e stem, In e known -> stem <> [] -> name <> stem ++ bs "." ++ e.
(** An authority that can be taken for the beginning of a picture. *)
Definition picturesque (authority : bytes) : Prop := exists a b r, authority = [a; b] ++ bs "GGAT" ++ r.
