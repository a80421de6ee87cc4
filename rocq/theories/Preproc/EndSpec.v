(** When preprocessing must come to an end (C50): no macro leads back to itself and no file includes itself, through
    however many others. Said with numbers: what a macro's body names has a smaller number than the macro. *)
From Coq Require Import String.
From Verif Require Import Base.Tactics Base.Bytes Base.Ascii Base.Text Preproc.Model.
Local Open Scope N_scope.
Local Open Scope list_scope.

(** The words of a token list that are not in double quotes. *)
Fixpoint bare (quoted : bool) (l : list token) : list text :=
  match l with
  | [] => []
  | t :: r =>
      match t_sym t with
      | Word w => if quoted then bare quoted r else w :: bare quoted r
      | DQuote => bare (negb quoted) r
      | _ => bare quoted r
      end
  end.
(** One line, which backslashes at the ends of lines continue. (The mark of the end of the input is treated like a
    backslash; it stands nowhere but at the end of a file.) *)
Definition one_line (l : list token) : Prop :=
  forall a nl b, l = a ++ nl :: b -> t_sym nl = Newline -> exists a' e, a = a' ++ [e] /\ (t_sym e = Escape \/ t_sym e = Eoi).
(** In [toks] stands [#define name], and [body] follows on that line. *)
Definition defined_as (toks : list token) (name : text) (body : list token) : Prop :=
  exists pre h c ws i post, toks = pre ++ h :: c :: ws ++ i :: body ++ post /\ t_sym h = Hash /\ t_sym c = Word (bs "define") /\
    (forall t, In t ws -> is_space (t_sym t) = true) /\ t_sym i = Word name /\ one_line body.
(** In [toks] stands [#include] with the path [req], in double quotes or angles. *)
Definition requests (toks : list token) (req : text) : Prop :=
  exists pre h c ws o path post, toks = pre ++ h :: c :: ws ++ o :: path ++ post /\ t_sym h = Hash /\ t_sym c = Word (bs "include") /\
    (forall t, In t ws -> is_space (t_sym t) = true) /\ req = toks_text path /\
    (t_sym o = DQuote /\ (forall x r, post = x :: r -> t_sym x = DQuote) \/ t_sym o = LAngle /\ (forall x r, post = x :: r -> t_sym x = RAngle)).
(** No directive in a macro's body: no '#' before the name of one, with at most joins and backslashes between. *)
Definition glue (t : token) : Prop := t_sym t = Join \/ t_sym t = Escape \/ t_sym t = Eoi.
Definition no_directive (l : list token) : Prop :=
  forall a h mid c b, l = a ++ h :: mid ++ c :: b -> t_sym h = Hash -> Forall glue mid -> ~ In (tok_text c) directive_names.

Section End.
  Context (locate : text -> text -> option (text * bool)) (parse : text -> run (list token)).
  (** Every macro's body names only things of a smaller number; so do the names that stand for the current file. *)
  Record macros_descend (rank : text -> nat) : Prop := {
    d_body : forall file toks name body, parse file = Ok toks -> defined_as toks name body ->
      (forall w, In w (bare false body) -> (rank w < rank name)%nat) /\ no_directive body;
    d_file : forall file toks t, parse file = Ok toks -> In t toks ->
      (rank (filename (p_path (t_pos t))) < rank (bs "__FILE_NAME__"))%nat /\
      (rank (file_short (p_path (t_pos t))) < rank (bs "__FILE_SHORT__"))%nat }.
  (** Every file includes only files of a smaller number. *)
  Definition includes_descend (depth : text -> nat) : Prop :=
    forall file toks req found other, parse file = Ok toks -> requests toks req -> locate file req = Some (found, other) ->
      (depth found < depth file)%nat.
End End.
