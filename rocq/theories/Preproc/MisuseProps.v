(** C74: cases that meet the hypotheses, and where the property stops being true of the code. *)
From Coq Require Import String.
From Verif Require Import Base.Tactics Base.Bytes Base.Ascii Base.Text Preproc.Model Preproc.Fuel Preproc.Spec Preproc.Expand
  Preproc.BlockSpec Preproc.Blocks Preproc.Props Preproc.RejectSpec Preproc.Reject Preproc.MisuseSpec Preproc.Misuse.
From Verif Require Preproc.Examples.
Local Open Scope N_scope.
Local Open Scope list_scope.

(** A token on line 9. *)
Definition later (s : sym) : token := Tok s (Pos (LC 90 9 0) (LC 91 9 1) []).
(** [#define F(x) x] *)
Definition def_line : pline := ln [Hash; Word (bs "define"); Space; Word (bs "F"); LParen; Word (bs "x"); RParen; Space; Word (bs "x")].
Definition def_f : definition := Func at0 [tk (Word (bs "x"))] [tk (Word (bs "x"))].
Definition main_f : entry := (tk (Word (bs "F")), def_f, FromFile [bs "config.cpp"]).
Definition names_f : names := update nothing (bs "F") (Some main_f).
Definition prog_f : prog := Then def_line Done.

Section Cases.
  Context (project : option (option text * text)) (F : Type) (parse_f64 : text -> option F) (flt fle : F -> F -> bool)
          (locate : text -> text -> option (text * bool)) (parse : text -> run (list token)).
  Notation exec := (exec project F parse_f64 flt fle locate parse).
  Notation stops := (stops project F parse_f64 flt fle locate parse).
  Lemma exec_f : exec [bs "config.cpp"] nothing 0 prog_f names_f 0 [].
  Proof.
    apply (E_define project F parse_f64 flt fle locate parse _ _ _ def_line (tk (Word (bs "define")))
      [tk Space; tk (Word (bs "F")); tk LParen; tk (Word (bs "x")); tk RParen; tk Space; tk (Word (bs "x"))] (tk (Word (bs "F"))) def_f Done _ _ []).
    - split; [tame|]. split; [reflexivity|]. exists [], (tk Hash). split; [blanks|]. split; reflexivity.
    - refine (D_func [tk Space] (tk (Word (bs "F"))) (bs "F") (tk LParen) [tk (Word (bs "x"))] [tk (Word (bs "x"))] (tk RParen) [tk Space] [tk (Word (bs "x"))] _ _ _ _ _ _ _ _);
        try reflexivity; try blanks.
      + refine (R_one [] (tk (Word (bs "x"))) (bs "x") [] _ _ _); try reflexivity; blanks.
      + intros (a & t & Ha & Ht). destruct a as [|? [|? ?]]; [|discriminate|discriminate]. injection Ha as <-. discriminate.
    - reflexivity.
    - apply E_done.
  Qed.
  Lemma not_computed_f : ~ computed (bs "F").
  Proof. intros H. unfold computed in H. cbn in H. repeat (destruct H as [H|H]; [discriminate H|]). discriminate H. Qed.
  Lemma visible_f : visible (Env names_f None) (bs "F").
  Proof. right. split; [discriminate|exact I]. Qed.
  Lemma meaning_f site c : meaning project (Env names_f None) site (later (Word (bs "F"))) c c (def_f, FromFile [bs "config.cpp"]).
  Proof. eapply M_macro; [exact not_computed_f|reflexivity]. Qed.
  Lemma elsewhere_f : ~ on_lines at0 (later (Word (bs "F"))).
  Proof. intros [_ [_ H]]. cbn in H. lia. Qed.
  Lemma not_refused_f : ~ refused (bs "F").
  Proof. intros [H|H]; discriminate H. Qed.

  (** [F(1,2)]: one argument too many. *)
  Definition two : list token := [later (Word (bs "F")); later LParen; later (Digit 1); later Comma; later (Digit 2); later RParen; later Newline; later Eoi].
  Example C74_two_arguments : stops [bs "config.cpp"] nothing 0 (source_of prog_f ++ [later Tab] ++ two) (Some PE9_argument_count).
  Proof.
    refine (Stop_text _ _ _ _ _ _ _ _ _ _ prog_f names_f 0 [] [later Tab] (later (Word (bs "F"))) (tl two) _ exec_f _ _ _ _); try reflexivity; try blanks; try discriminate.
    refine (W_bad _ _ _ _ _ _ (bs "F") _ _ _ not_refused_f visible_f _ _); [reflexivity|discriminate|].
    refine (V_count _ _ _ _ _ _ _ _ _ _ _ _ _ [later Newline; later Eoi] [[later (Digit 1)]; [later (Digit 2)]] _ _ (meaning_f _ _) elsewhere_f _ _ _); [reflexivity|reflexivity| |discriminate].
    apply A_plain; [exact I|]. apply A_comma; [reflexivity|]. apply A_plain; [exact I|]. apply A_close. reflexivity.
  Qed.
  (** [F] that is not called. *)
  Example C74_not_called : stops [bs "config.cpp"] nothing 0 (source_of prog_f ++ [] ++ [later (Word (bs "F")); later Newline; later Eoi]) (Some PE10_function_as_value).
  Proof.
    refine (Stop_text _ _ _ _ _ _ _ _ _ _ prog_f names_f 0 [] [] (later (Word (bs "F"))) [later Newline; later Eoi] _ exec_f _ _ _ _); try reflexivity; try blanks; try discriminate.
    refine (W_bad _ _ _ _ _ _ (bs "F") _ _ _ not_refused_f visible_f _ _); [reflexivity|discriminate|].
    eapply V_not_called; [reflexivity|apply meaning_f|exact elsewhere_f|discriminate].
  Qed.
  (** [#ifdef F] that is not closed. *)
  Definition open_line : pline := ln [Hash; Word (bs "ifdef"); Space; Word (bs "F")].
  Example C74_not_closed : unclosed project F parse_f64 flt fle locate parse [bs "config.cpp"] nothing 0
    (source_of prog_f ++ line_toks open_line ++ source_of Done ++ [later Eoi]).
  Proof.
    refine (T_taken _ _ _ _ _ _ _ _ _ _ prog_f names_f 0 [] open_line 0 _ false exec_f _ _).
    - apply (H_ifdef project F parse_f64 flt fle names_f 0 open_line (tk (Word (bs "ifdef"))) [tk Space] (tk (Word (bs "F"))) (bs "F") [] true); try blanks; try reflexivity.
      + split; [tame|]. split; [reflexivity|]. exists [], (tk Hash). split; [blanks|]. split; reflexivity.
      + split; [|reflexivity]. intros _. exact visible_f.
    - apply (T_end _ _ _ _ _ _ _ _ _ _ Done names_f 0 []); [apply E_done|reflexivity].
  Qed.
End Cases.

Import Examples.
(** A function-like macro at the end of the body of another macro panics instead of being reported. *)
Theorem C74_function_at_end_panics_refuted :
  pp true (lines ["#define F(x) x"; "#define G F"; "G"]%string) [] 40 = Panic /\ pp true (lines ["#define F(x) x"; "F"]%string) [] 40 = Err PE10_function_as_value.
Proof. vm_compute. split; reflexivity. Qed.
(** The same for a macro without a value. *)
Theorem C74_valueless_at_end_panics_refuted :
  pp true (lines ["#define U"; "#define G U"; "G"]%string) [] 40 = Panic /\ pp true (lines ["#define U"; "U"]%string) [] 40 = Err PE11_expected_function_or_value.
Proof. vm_compute. split; reflexivity. Qed.
(** A block that an included file leaves open goes on in the file that includes it. *)
Theorem C74_open_include_accepted_refuted :
  text_of (pp true (lines ["#include ""b.hpp"""; "x"; "#endif"; "y"]%string) (lines ["#ifdef X"]%string) 60) = Ok (lines ["y"]%string) /\
  pp true (lines ["#ifdef X"]%string) [] 60 = Err PE18_eoi_ifstate.
Proof. vm_compute. split; reflexivity. Qed.
(** The closing parenthesis of a call can be missing: everything up to the end of the file is the argument. *)
Theorem C74_open_call_accepted_refuted :
  exists n o, text_of (pp true (lines ["#define F(x) x"; "F(1"; "y"]%string) [] n) = Ok o /\ firstn 3 o = bs "1" ++ [10] ++ bs "y".
Proof. exists 60%nat, (bs "1" ++ [10] ++ bs "y" ++ [10]). vm_compute. split; reflexivity. Qed.

Print Assumptions C74_misuse_rejected.
Print Assumptions C74_unclosed_rejected.
Print Assumptions C74_function_at_end_panics_refuted.
Print Assumptions C74_valueless_at_end_panics_refuted.
Print Assumptions C74_open_include_accepted_refuted.
Print Assumptions C74_open_call_accepted_refuted.
