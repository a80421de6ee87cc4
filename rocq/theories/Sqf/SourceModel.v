(** From SQF text to the tree and back: [parser::run] (libs/sqf/src/parser/mod.rs:21-46) with its lexer, and
    [Expression::source] (libs/sqf/src/lib.rs:179-231). *)
From Coq Require Import String.
From Verif Require Import Base.Tactics Base.Bytes Base.Ascii Base.Text Sqf.Ast Sqf.ParseModel Sqf.LexModel.
From Verif Require Preproc.LexModel Workspace.ProcessedModel.
Local Open Scope N_scope.
Local Open Scope list_scope.

(** [Processed::extract] (libs/workspace/src/reporting/processed.rs:283-305) of a range of characters that runs forwards:
    [Workspace.ProcessedProofs.extract_spec]. (Ranges that run backwards, on which the code panics, do not arise:
    [C60_places_run_forwards].) *)
Definition between (s : text) (sp : span) : text :=
  Workspace.ProcessedModel.take (snd sp - fst sp) (Workspace.ProcessedModel.drop (fst sp) s).

Section Source.
  Context (db : database) (parse_f32 : text -> N) (f32_of : N -> N).
  (** mod.rs:21-46 [run]. *)
  Definition read_sqf (s : text) : option statements :=
    match lex parse_f32 f32_of s with
    | Some ts => parse db (between s) s (Preproc.LexModel.byte_len s) ts
    | None => None
    end.

  (** lib.rs:337-340 [is_binary]. *)
  Definition is_binary (e : expr) : bool := match e with EBinary _ _ _ _ => true | _ => false end.
  (** [f32::to_string] of the bits. *)
  Context (show_f32 : N -> text).
  (** lib.rs:179-231 [Expression::source]; :181-188 [maybe_enclose]. *)
  Fixpoint expr_source (e : expr) : text :=
    let enclosed e := if is_binary e then bs "(" ++ expr_source e ++ bs ")" else expr_source e in
    match e with
    | ECode _ src _ => bs "{" ++ src ++ bs "}"
    | EString s _ w => [wrapper_char w] ++ s ++ [wrapper_char w]
    | ENumber n _ => show_f32 n
    | EBool b _ => if b then bs "true" else bs "false"
    | EArray l _ | EConsumable l _ =>
        bs "[" ++ (fix elements l := match l with
                                     | [] => []
                                     | [e] => expr_source e
                                     | e :: r => expr_source e ++ bs "," ++ elements r
                                     end) l ++ bs "]"
    | ENular n _ => n
    | EUnary c e _ => unary_str c ++ bs " " ++ enclosed e
    | EBinary c a b _ => enclosed a ++ bs " " ++ binary_str c ++ bs " " ++ enclosed b
    | EVar n _ => n
    end.
End Source.
