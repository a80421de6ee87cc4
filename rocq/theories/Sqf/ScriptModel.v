(** Model of the compilation of one script: bin/src/modules/sqf.rs [pre_build], from the text on the disk to the .sqfc file:
    the preprocessor (Preproc/Model.v), the processed text (Workspace/ProcessedModel.v), the lexer and the parser
    (Sqf/SourceModel.v), the optimiser (Sqf/OptimizeModel.v), the compiler (Sqf/CompileModel.v) and the writer
    (Sqf/SerializeModel.v).

    Simplifications: of the analysis, only whether it reports an error, as a parameter (Sqf/*Lint*.v, Sqf/WalkModel.v and
    Sqf/SuggestModel.v model lints of it); reports are not told apart. *)
From Coq Require Import String.
From Verif Require Import Base.Tactics Base.Bytes Base.Ascii Base.Text Sqf.Ast Sqf.ParseModel Sqf.LexModel Sqf.SourceModel.
From Verif Require Preproc.Model Workspace.ProcessedModel Sqf.OptimizeModel Sqf.CompileModel Sqf.SerializeModel.
Local Open Scope N_scope.
Local Open Scope list_scope.

Inductive fate :=
| NotPreprocessed (e : Preproc.Model.code)        (* reported *)
| Unread                                          (* a source could not be read: an error of the build *)
| NotLexed | NotParsed                            (* reported *)
| Skipped                                         (* taken for a file of settings: neither reported nor compiled *)
| Reported                                        (* by the analysis *)
| Script (b : bytes)                              (* the .sqfc file *)
| TooLarge                                        (* an error of the build; an .sqfc file is left, empty or cut short *)
| BadName (x : text)                              (* an error of the build *)
| BadIndex                                        (* an error of the build *)
| Crash
| TooShort.                                       (* the model ran out of fuel *)

(** [str::contains]. *)
Fixpoint holds (p s : text) : bool := starts_with p s || match s with [] => false | _ :: r => holds p r end.

Section Script.
  Context (checked : bool) (locate : text -> text -> option (text * bool)) (tokens : text -> Preproc.Model.run (list Preproc.Model.token))
          (project : option (option text * text)) (F : Type) (parse_f64 : text -> option F) (flt fle : F -> F -> bool)
          (read : text -> option text)
          (db : database) (parse_f32 : text -> N) (f32_of : N -> N)
          (fneg fsqrt : N -> N) (fadd fsub fmul fdiv frem : N -> N -> N) (finite : N -> bool)
          (failed : statements -> ProcessedModel.processed -> bool) (virtual : text -> text).

  (** sqf.rs:108-119. *)
  Definition looks_like_settings (s : text) : bool := starts_with (bs "force ") s || holds (10 :: bs "force ") s.
  (** compiler/serializer: what is too large to be written. *)
  Definition write (c : CompileModel.compiled) : fate :=
    match SerializeModel.serialize c with
    | SerializeModel.Wrote b => Script b
    | SerializeModel.SerFail (SerializeModel.InvalidConstantIndex _) | SerializeModel.SerFail (SerializeModel.InvalidNameIndex _) => BadIndex
    | SerializeModel.SerFail SerializeModel.LzoFault => Crash
    | SerializeModel.SerFail _ => TooLarge
    end.
  (** sqf.rs:77-126. *)
  Definition compile_file (n : nat) (path : text) : fate :=
    match Preproc.Model.preprocess checked locate tokens project F parse_f64 flt fle n path with
    | Preproc.Model.Err e => NotPreprocessed e
    | Preproc.Model.Panic => Crash
    | Preproc.Model.NoFuel => TooShort
    | Preproc.Model.Ok (_, out) =>
        match ProcessedModel.new read out with
        | ProcessedModel.Unreadable => Unread
        | ProcessedModel.Fault => Crash
        | ProcessedModel.Done p =>
            let s := ProcessedModel.o_text p in
            match lex parse_f32 f32_of s with
            | None => NotLexed
            | Some _ =>
                match read_sqf db parse_f32 f32_of s with
                | None => if looks_like_settings s then Skipped else NotParsed
                | Some r =>
                    if failed r p then Reported
                    else match OptimizeModel.optimize fneg fsqrt fadd fsub fmul fdiv frem finite r with
                         | None => Crash
                         | Some r =>
                             match CompileModel.compile p virtual r with
                             | CompileModel.Ok c => write c
                             | CompileModel.ListTooLong => TooLarge
                             | CompileModel.InvalidName x => BadName x
                             | CompileModel.Panic => Crash
                             end
                         end
                end
            end
        end
    end.
End Script.
