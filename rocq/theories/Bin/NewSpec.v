(** Specification vocabulary for C103: the part of TOML that a new project is written in, and what is to be found in it. *)
From Coq Require Import String.
From Verif Require Import Base.Tactics Base.Bytes Base.Ascii Base.Text Common.ProjectVersionModel Bin.SettingsModel.
From Verif Require Bin.NewModel.
Local Open Scope N_scope.
Local Open Scope list_scope.

(** A character that stands for itself between double quotes (toml.io, v1.0.0: basic-unescaped), and the short escapes. *)
Definition itself (c : N) : Prop := (c = 9 \/ 32 <= c) /\ c <> 34 /\ c <> 92 /\ c <> 127.
Definition escapes : list (N * N) := [(98, 8); (116, 9); (110, 10); (102, 12); (114, 13); (34, 34); (92, 92)].
Inductive between : text -> text -> Prop :=
| between_nothing : between [] []
| between_char c w v : itself c -> between w v -> between (c :: w) (c :: v)
| between_escape e c w v : In (e, c) escapes -> between w v -> between (92 :: e :: w) (c :: v).
(** What may follow a value on its line. *)
Definition blank (c : N) : Prop := c = 32 \/ c = 9.
Inductive behind : text -> Prop :=
| behind_blanks b : Forall blank b -> behind b
| behind_comment b c : Forall blank b -> Forall (fun x => x = 9 \/ 32 <= x /\ x <> 127) c -> behind (b ++ 35 :: c).
(** A document of lines that give keys texts. *)
Definition bare (k : text) : Prop := k <> [] /\ Forall (fun c => 97 <= c <= 122) k.
Inductive document : text -> list (text * toml) -> Prop :=
| document_end : document [] []
| document_line k w v r s t : bare k -> between w v -> behind r -> ~ In k (map fst t) -> document s t ->
    document (k ++ bs " = " ++ [34] ++ w ++ [34] ++ r ++ [10] ++ s) ((k, TStr v) :: t).
(** A reader of TOML, as far as it matters here. *)
Definition reads_toml (parse : text -> option (list (text * toml))) : Prop := forall s t, document s t -> parse s = Some t.

(** The settings of the folder that was made. *)
Definition settings_in (d : list (list text * NewModel.entry)) (n : text) : answer :=
  match NewModel.at_ d [bs ".hemtt"; n] with Some (NewModel.File s) => Holds s | Some NewModel.Folder => Unreadable | None => Absent end.
(** An answer that can be written between quotes as it is. *)
Definition simple (s : text) : Prop := Forall itself s /\ forall a b, s <> a ++ bs "[hemtt.launch]" ++ b.
