(** What positions in a text mean. *)
From Verif Require Import Base.Tactics Base.Bytes Base.Text Preproc.Model Preproc.LexModel Preproc.LexSpec Workspace.ProcessedModel.
Local Open Scope N_scope.
Local Open Scope list_scope.

(** The number of characters after the last line break of [s] ([n] of them before [s]). *)
Fixpoint column (s : text) (n : N) : N :=
  match s with [] => n | c :: r => column r (if c =? 10 then 0 else n + 1) end.

(** The place an item of the preprocessor's output comes from: the token itself, or the name of the macro that was used. *)
Definition item_token (o : output) : token := match o with Direct t => t | Macro t _ => t end.
Definition item_macro (o : output) : bool := match o with Direct _ => false | Macro _ _ => true end.
(** [o], an item of the output [out], wrote the characters [piece] of the text [all], after [before]: the items up to
    it alone give [before], with it they give [before ++ piece]. *)
Inductive wrote (read : text -> option text) (out : list output) (o : output) (before piece : text) : Prop :=
| Wrote pre post p q : out = pre ++ o :: post -> new read pre = Done p -> o_text p = before ->
    new read (pre ++ [o]) = Done q -> o_text q = before ++ piece -> wrote read out o before piece.
(** The place [i] is inside [piece] when that follows [before]. *)
Definition inside (i : N) (before piece : text) : Prop := chars before <= i < chars before + chars piece.
(** No token but a line break has a line break in its text. *)
Definition one_line (t : token) : Prop := In 10 (tok_text t) -> t_sym t = Newline.

(** [mid] is line number [n] (from 0) of [s], with its line break if it has one: [u] before it, [v] after it. *)
Definition is_line (s : text) (n : N) (u mid v : text) : Prop :=
  s = u ++ mid ++ v /\ breaks u = n /\ (u = [] \/ exists u', u = u' ++ [10]) /\ mid <> [] /\
  ((exists m, mid = m ++ [10] /\ ~ In 10 m) \/ (v = [] /\ ~ In 10 mid)).
(** The byte number [b] belongs to [mid] when that follows [u]. *)
Definition byte_in (b : N) (u mid : text) : Prop := byte_len u <= b < byte_len u + byte_len mid.
