(** Specification vocabulary for C79: what a path names. *)
From Coq Require Import String.
From Verif Require Import Base.Tactics Base.Bytes Base.Ascii Base.Text Base.Sort Common.VersionModel Workspace.PathModel.
Local Open Scope N_scope.
Local Open Scope list_scope.

(** A name that is neither empty nor "." nor ".." and holds no separator. *)
Definition plain (n : text) : Prop := n <> [] /\ n <> bs "." /\ n <> bs ".." /\ ~ In 47 n /\ ~ In 92 n.
(** Equal up to the case of ASCII letters. *)
Definition same (a b : text) : Prop := ascii_lower a = ascii_lower b.

(** Following the components of a path from a folder. *)
Inductive steps : vpath -> list text -> vpath -> Prop :=
| arrived v : steps v [] v
| stay v c cs u : c = [] \/ c = bs "." -> steps v cs u -> steps v (c :: cs) u
| up v cs u : steps (removelast v) cs u -> steps v (bs ".." :: cs) u
| down v c cs u : c <> [] -> c <> bs "." -> c <> bs ".." -> steps (v ++ [c]) cs u -> steps v (c :: cs) u.
(** [leads base s v]: the text [s], with forward slashes, leads from the folder [base] to [v]. *)
Definition leads (base : vpath) (s : text) (v : vpath) : Prop :=
  (s = [47] \/ ~ exists a, s = a ++ [47]) /\
  steps (if starts_with [47] s then [] else base) (split_on 47 s) v.
Definition absolute (s : text) : Prop := exists r, s = 47 :: r.

(** A path below a prefix (or a folder): the prefix up to case, a slash, and the rest. *)
Definition under (base s rest : text) : Prop := exists b, s = b ++ 47 :: rest /\ same b base.
(** No path is below two of the prefixes. *)
Definition apart (bases : list text) : Prop :=
  ForallOrdPairs (fun a b => forall s r1 r2, under a s r1 -> under b s r2 -> False) bases.

(** The P drive answers for no path but those below "/a3/", and only if there is one. *)
Definition no_pdrive (w : workspace) (s : text) : Prop :=
  (exists rest, under (bs "/a3") s rest) -> forall f, pdrive w = Some f -> f s = PdNone.

(** What is on disk below the working directory: each name is listed in the folder it is in. *)
Inductive on_disk (w : workspace) : list text -> Prop :=
| top : on_disk w []
| inside d es n : on_disk w d -> listing w d = Some es -> In n es -> on_disk w (d ++ [n]).
(** [recased w from names d]: below the folder [from] there is [d], which is [names] up to case. *)
Definition recased (w : workspace) (from names d : list text) : Prop :=
  exists ns, d = from ++ ns /\ Forall2 same ns names /\ on_disk w d /\ alive w d = true.
(** A disk as usual: what is there is what the folders list, names are plain, and no folder has two entries that
    differ in case only. *)
Record usual_disk (w : workspace) : Prop := UsualDisk {
  there_is_listed : forall d, alive w d = true <-> on_disk w d;
  listed_is_there : forall d es, listing w d = Some es -> on_disk w d;
  plain_names : forall d, on_disk w d -> Forall plain d;
  no_twins : forall d es, listing w d = Some es -> NoDup (map ascii_lower es)
}.
(** What a search in the project folder, then in include, finds. *)
Inductive searched (w : workspace) (names : list text) : located -> Prop :=
| in_project d : recased w [] names d -> searched w names (Found (InWorkspace d) (Some (bs "." ++ as_str d)))
| in_include d : (forall d', ~ recased w [] names d') -> recased w [bs "include"] names d ->
    searched w names (Found (InWorkspace d) (Some (bs "." ++ as_str d)))
| nowhere : (forall d, ~ recased w [] names d) -> (forall d, ~ recased w [bs "include"] names d) -> searched w names Missing.

(** The note given with a found path: its own spelling if only case tells it from the requested one. *)
Inductive noted (v : vpath) (s : text) : option text -> Prop :=
| respelled : same (as_str v) s -> as_str v <> s -> noted v s (Some (as_str v))
| as_asked : ~ (same (as_str v) s /\ as_str v <> s) -> noted v s None.

(** ** Prefix files *)
Definition mentions_hemtt (v : vpath) : Prop := exists a b, as_str v = a ++ bs ".hemtt" ++ b.
(** The entry counts and its name is [n] up to case. *)
Definition counts_as (n : text) (e : entry) : Prop := ~ mentions_hemtt (e_path e) /\ same (last (e_path e) []) n.
Definition prefix_file (e : entry) : Prop :=
  exists n, In n [bs "$pboprefix$"; bs "$pboprefix$.txt"; bs "pboprefix.txt"; bs "$prefix$"] /\ counts_as n e.
(** A prefix z\test\addons\main is the path /z/test/addons/main. *)
Definition prefix_path (parts : list text) : text := bs "/" ++ join (bs "/") (map ascii_lower parts).
Definition declares (e : entry) (base : text) : Prop :=
  exists s parts, e_text e = Some s /\ prefix_new ascii_lower s = POk parts /\ base = prefix_path parts.
