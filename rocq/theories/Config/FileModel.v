(** Model of the conversion of one config file: bin/src/modules/rapifier.rs [rapify], from the text on the disk to the
    raP file: the preprocessor (Preproc/Model.v), the processed text (Workspace/ProcessedModel.v), the parser
    (Config/ParseModel.v), the analysis and the writer (Config/AnalyzeModel.v).

    Simplifications: texts are ASCII, so that a character is a byte; what the build notes about a config.cpp
    (rapifier.rs:147-169) is the subject of Bin/ConvertModel.v; a parse that only succeeds by recovery is not
    followed further. *)
From Coq Require Import String.
From Verif Require Import Base.Tactics Base.Bytes Base.Ascii Base.Text Config.RapModel Config.ParseModel Config.AnalyzeModel.
From Verif Require Preproc.Model Workspace.ProcessedModel Bin.LintModel.
Local Open Scope N_scope.
Local Open Scope list_scope.

Inductive fate :=
| NotPreprocessed (e : Preproc.Model.code)        (* reported *)
| Unread                                          (* a source could not be read: an error of the build *)
| NotParsed                                       (* reported, or recovered from and reported *)
| Errors (errors : list code)                     (* reported by the analysis *)
| LeftAlone                                       (* the file asks not to be rapified *)
| File (f : bytes)
| Crash
| TooShort.                                       (* the model ran out of fuel *)

Section RapifyFile.
  Context (checked : bool) (locate : text -> text -> option (text * bool)) (tokens : text -> Preproc.Model.run (list Preproc.Model.token))
          (project : option (option text * text)) (F : Type) (parse_f64 : text -> option F) (flt fle : F -> F -> bool)
          (read : text -> option text)
          (f32_parse : text -> option N) (f32_show : N -> text) (try_eval : text -> option number)
          (low : bytes -> bytes) (prefix : option bytes) (m : LintModel.manager unit).
  (** rapifier.rs:110-191 [rapify]. *)
  Definition rapify_file (n : nat) (path : text) : fate :=
    match Preproc.Model.preprocess checked locate tokens project F parse_f64 flt fle n path with
    | Preproc.Model.Err e => NotPreprocessed e
    | Preproc.Model.Panic => Crash
    | Preproc.Model.NoFuel => TooShort
    | Preproc.Model.Ok (s, out) =>
        match ProcessedModel.new read out with
        | ProcessedModel.Unreadable => Unread
        | ProcessedModel.Fault => Crash
        | ProcessedModel.Done p =>
            match parse_config f32_parse f32_show try_eval (ProcessedModel.o_text p) with
            | POk c [] =>
                match convert low prefix m c with
                | Reported errors => Errors errors
                | Written f => if Preproc.Model.no_rapify s then LeftAlone else File f
                | Failed => Unread
                | Panicked => Crash
                end
            | PPanic => Crash
            | _ => NotParsed
            end
        end
    end.
End RapifyFile.
