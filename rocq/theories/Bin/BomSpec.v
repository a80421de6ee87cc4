(** Specification for C101: byte order marks. *)
From Coq Require Import String.
From Verif Require Import Base.Tactics Base.Bytes Base.Ascii Base.Text.
Local Open Scope N_scope.
Local Open Scope list_scope.

(** [name] is something, a dot, and [e] without a dot. *)
Definition has_extension (name e : text) : Prop := exists stem, stem <> [] /\ name = stem ++ bs "." ++ e /\ ~ In 46 e.
Definition contains_text (s w : text) : Prop := exists a b, s = a ++ w ++ b.
(** The names of a file that is looked at. *)
Definition looked_at (root : text) (names : list text) : Prop :=
  (exists rest, rest <> [] /\ (names = bs "addons" :: rest \/ names = bs "optionals" :: rest)) /\
  ~ contains_text (root ++ flat_map (fun n => 47 :: n) names) (bs ".hemttout") /\
  exists e, has_extension (last names []) e /\ ~ In e [bs "p3d"; bs "rtm"; bs "bin"; bs "paa"].
Definition begins_with_mark (d : text) : Prop := exists r, d = [239; 187; 191] ++ r.
