(** Specification vocabulary for C20-C22 and C44. *)
From Coq Require Import String.
From Verif Require Import Base.Tactics Base.Bytes Base.Ascii Base.Text Common.VersionModel.
Local Open Scope N_scope.

(** Decimal notation. *)
Inductive decimal : text -> N -> Prop :=
| decimal_one d : d < 10 -> decimal [48 + d] d
| decimal_more ds n d : decimal ds n -> d < 10 -> decimal (ds ++ [48 + d]) (10 * n + d).

(** How a version component may be written: decimal, an optional plus sign, below 2^32. *)
Definition component (s : text) (n : N) : Prop :=
  n < 2 ^ 32 /\ (decimal s n \/ exists r, s = bs "+" ++ r /\ decimal r n).

(** A version text: [a.b.c], then possibly [.d] and possibly further ignored [.x] components, then possibly
    [-hash] and possibly further ignored [-y] parts. *)
Inductive build_part : text -> option N -> Prop :=
| no_build : build_part [] None
| a_build d n : component d n -> build_part (bs "." ++ d) (Some n)
| a_build_more d n junk : component d n -> ~ In 45 junk -> build_part (bs "." ++ d ++ bs "." ++ junk) (Some n).
Inductive hash_part : text -> option text -> Prop :=
| no_hash : hash_part [] None
| a_hash h : ~ In 45 h -> hash_part (bs "-" ++ h) (Some h)
| a_hash_more h junk : ~ In 45 h -> hash_part (bs "-" ++ h ++ bs "-" ++ junk) (Some h).
Inductive version_text : text -> version -> Prop :=
| a_version a b c x y v : component a (major v) -> component b (minor v) -> component c (patch v) ->
    build_part x (build v) -> hash_part y (hash v) ->
    version_text (a ++ bs "." ++ b ++ bs "." ++ c ++ x ++ y) v.

Definition u32_fields (v : version) : Prop :=
  major v < 2 ^ 32 /\ minor v < 2 ^ 32 /\ patch v < 2 ^ 32 /\ (forall b, build v = Some b -> b < 2 ^ 32).

(** The order: lexicographic on the numbers, a missing build below every build. *)
Inductive build_lt : option N -> option N -> Prop :=
| build_lt_none n : build_lt None (Some n)
| build_lt_some m n : m < n -> build_lt (Some m) (Some n).
Inductive version_lt (a b : version) : Prop :=
| lt_major : major a < major b -> version_lt a b
| lt_minor : major a = major b -> minor a < minor b -> version_lt a b
| lt_patch : major a = major b -> minor a = minor b -> patch a < patch b -> version_lt a b
| lt_build : major a = major b -> minor a = minor b -> patch a = patch b -> build_lt (build a) (build b) -> version_lt a b.
Definition same_numbers (a b : version) : Prop :=
  major a = major b /\ minor a = minor b /\ patch a = patch b /\ build a = build b.

(** [defines s name n]: the first line of [s] that starts (after white space) with "#define " and [name] has,
    before any "//", [n] as the part after its last space. *)
Definition code_of (line code : text) : Prop :=
  (exists c, line = code ++ bs "//" ++ c /\ forall u v, code ++ bs "/" <> u ++ bs "//" ++ v) \/
  (line = code /\ forall u v, line <> u ++ bs "//" ++ v).
Definition defines (s name : text) (n : N) : Prop :=
  exists before line after code pre num,
    lines s = before ++ line :: after /\
    Forall (fun l => forall r, trim l <> bs "#define " ++ name ++ r) before /\
    (exists r, trim line = bs "#define " ++ name ++ r) /\
    code_of (trim line) code /\ trim code = pre ++ bs " " ++ num /\ ~ In 32 num /\ component num n.
