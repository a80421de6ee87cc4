(** What is to become of a script (C84). *)
From Verif Require Import Base.Tactics Base.Bytes Base.Text Sqf.Ast Sqf.CompileModel Sqf.CompileSpec Sqf.SerializeSpec Sqf.ScriptModel.
From Verif Require Workspace.ProcessedModel.
Local Open Scope N_scope.
Local Open Scope list_scope.

(** The file [b] is the script [s], whose text is that of [p]: read back, it is code with that text that does the operations
    of [s] in postfix order, each at its place. *)
Definition is_script (p : ProcessedModel.processed) (virtual : text -> text) (s : statements) (b : bytes) : Prop :=
  exists c, read_sqfc b = Some c /\ load c = Some (VCode (ProcessedModel.o_text p) (meaning p virtual (content s))).

(** The script is written, or a part of it is too large for the file. *)
Definition compiled_as (p : ProcessedModel.processed) (virtual : text -> text) (s : statements) (r : fate) : Prop :=
  r = TooLarge \/ exists b, r = Script b /\ is_script p virtual s b.
