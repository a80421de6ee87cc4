(** What sorting, counting and rewriting stringtables should do (C41, C42, C55). *)
From Coq Require Import String.
From Verif Require Import Base.Tactics Base.Bytes Base.Ascii Base.Sort Stringtable.Model.
Local Open Scope N_scope.
Local Open Scope list_scope.

(** A package with its keys in another order, and so on in its containers. *)
Inductive reordered : package -> package -> Prop :=
| reordered_intro n k k' c c' : Permutation k k' -> Forall2 reordered c c' -> reordered (Package n k c) (Package n k' c').
(** Keys, of a package and of its containers, in the order of their names. *)
Inductive keys_in_order : package -> Prop :=
| in_order_intro n k c : StronglySorted (fun a b => cmp_bytes (id a) (id b) <> Gt) k -> Forall keys_in_order c -> keys_in_order (Package n k c).
(** All keys of a package. *)
Inductive key_in (k : key) : package -> Prop :=
| key_here n ks c : In k ks -> key_in k (Package n ks c)
| key_inside n ks c p : In p c -> key_in k p -> key_in k (Package n ks c).
Fixpoint all_keys (p : package) : list key := let '(Package _ k c) := p in k ++ flat_map all_keys c.
(** The translation of a key. *)
Definition text (l : language) (k : key) : option bytes :=
  match l with
  | Original => original k
  | English => english k
  | Czech => czech k
  | French => french k
  | Spanish => spanish k
  | Italian => italian k
  | Polish => polish k
  | Portuguese => portuguese k
  | Russian => russian k
  | German => german k
  | Korean => korean k
  | Japanese => japanese k
  | Chinese => chinese k
  | Chinesesimp => chinesesimp k
  | Turkish => turkish k
  | Swedish => swedish k
  | Slovak => slovak k
  | Serbocroatian => serbocroatian k
  | Norwegian => norwegian k
  | Icelandic => icelandic k
  | Hungarian => hungarian k
  | Greek => greek k
  | Finnish => finnish k
  | Dutch => dutch k
  end.
Definition has (l : language) (k : key) : bool := match text l k with Some _ => true | None => false end.
Definition how_many {A} (f : A -> bool) (l : list A) : N := N.of_nat (length (filter f l)).
Definition has_not (l : language) (k : key) : bool := negb (has l k).
(** The packages of all addons, with the addon's folder, and all their keys. *)
Definition report_packages (addons : list (bytes * project)) : list (bytes * package) := flat_map (fun a => map (pair (fst a)) (packages (snd a))) addons.
Definition report_keys (addons : list (bytes * project)) : list key := flat_map (fun a => all_keys (snd a)) (report_packages addons).
