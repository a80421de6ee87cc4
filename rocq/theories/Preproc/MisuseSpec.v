(** Text that does not go with the macros, and files that end inside a block: what each gets (C74). *)
From Coq Require Import String.
From Verif Require Import Base.Tactics Base.Bytes Base.Ascii Base.Text Preproc.Model Preproc.Spec Preproc.BlockSpec.
Local Open Scope N_scope.
Local Open Scope list_scope.

(** How processing stops: with a diagnostic, or ([None]) with a panic. *)
Definition stop := option code.

Section Misuse.
  Context (project : option (option text * text)).
  Notation meaning := (meaning project).
  Notation use := (use project).
  Notation arguments := (arguments project).

  (** [misuse e site m c ts r]: the text [ts], read as in [expand], comes to something that stops it with [r].
      [bad_use e site c ts r]: the macro use [ts] starts with stops with [r].
      [bad_args e site c depth ts r]: an argument of a call does; [ts] follows the opening parenthesis. *)
  Inductive misuse (e : env) : option pos -> option text -> N -> list token -> stop -> Prop :=
  (* text that is fine comes first *)
  | W_plain site m c t ts r :
      (match t_sym t with Word _ | Hash | DQuote | Newline | Eoi => False | _ => True end) ->
      misuse e site m c ts r -> misuse e site m c (t :: ts) r
  | W_newline site m c t ts r : t_sym t = Newline -> misuse e site (Some m) c ts r -> misuse e site (Some m) c (t :: ts) r
  | W_quoted site m c q1 l q2 ts r :
      t_sym q1 = DQuote -> t_sym q2 = DQuote -> (forall t, In t l -> t_sym t <> DQuote /\ t_sym t <> Eoi) ->
      misuse e site m c ts r -> misuse e site m c (q1 :: l ++ q2 :: ts) r
  | W_word site m c t w ts r :
      t_sym t = Word w -> ~ refused w -> (~ visible e w \/ m = Some w) -> misuse e site m c ts r -> misuse e site m c (t :: ts) r
  | W_use site m c t w ts c1 rest o1 r :
      t_sym t = Word w -> ~ refused w -> visible e w -> m <> Some w ->
      use e (match site with Some x => x | None => t_pos t end) c (t :: ts) c1 rest o1 ->
      misuse e site m c1 rest r -> misuse e site m c (t :: ts) r
  | W_hash site m c t x ts r :
      t_sym t = Hash -> ~ directive_name (tok_text x) -> (m = None \/ forall w, t_sym x = Word w -> ~ visible e w) ->
      misuse e site m c (x :: ts) r -> misuse e site m c (t :: x :: ts) r
  (* words that may not be used *)
  | W_exec site m c t ts : t_sym t = Word (bs "__EXEC") -> misuse e site m c (t :: ts) (Some PE25_exec)
  | W_unsupported site m c t w ts : t_sym t = Word w -> w <> bs "__EXEC" -> is_unsupported w = true ->
      misuse e site m c (t :: ts) (Some PE26_builtin)
  (* a macro used wrongly *)
  | W_bad site m c t w ts r :
      t_sym t = Word w -> ~ refused w -> visible e w -> m <> Some w ->
      bad_use e (match site with Some x => x | None => t_pos t end) c (t :: ts) r -> misuse e site m c (t :: ts) r
  with bad_use (e : env) : pos -> N -> list token -> stop -> Prop :=
  (* a macro without a value *)
  | V_unit site c id c1 from rest w : t_sym id = Word w -> meaning e site id c c1 (Unit, from) -> rest <> [] ->
      bad_use e site c (id :: rest) (Some PE11_expected_function_or_value)
  | V_unit_end site c id c1 from w : t_sym id = Word w -> meaning e site id c c1 (Unit, from) -> bad_use e site c [id] None
  (* a function-like macro that is not called *)
  | V_not_called site c id c1 at_ params body from x rest w :
      t_sym id = Word w -> meaning e site id c c1 (Func at_ params body, from) -> ~ on_lines at_ id -> t_sym x <> LParen ->
      bad_use e site c (id :: x :: rest) (Some PE10_function_as_value)
  | V_not_called_end site c id c1 at_ params body from w :
      t_sym id = Word w -> meaning e site id c c1 (Func at_ params body, from) -> ~ on_lines at_ id -> bad_use e site c [id] None
  (* a call with too few or too many arguments *)
  | V_count site c id c1 at_ params body from lp ts c2 rest l w :
      t_sym id = Word w -> meaning e site id c c1 (Func at_ params body, from) -> ~ on_lines at_ id -> t_sym lp = LParen ->
      arguments e site c1 0 ts c2 rest l -> List.length (drop_empty l) <> List.length params ->
      bad_use e site c (id :: lp :: ts) (Some PE9_argument_count)
  (* an argument, or the body *)
  | V_arguments site c id c1 at_ params body from lp ts w r :
      t_sym id = Word w -> meaning e site id c c1 (Func at_ params body, from) -> ~ on_lines at_ id -> t_sym lp = LParen ->
      bad_args e site c1 0 ts r -> bad_use e site c (id :: lp :: ts) r
  | V_call site c id c1 at_ params body from lp ts c2 rest l w r :
      t_sym id = Word w -> meaning e site id c c1 (Func at_ params body, from) -> ~ on_lines at_ id -> t_sym lp = LParen ->
      arguments e site c1 0 ts c2 rest l -> List.length (drop_empty l) = List.length params ->
      misuse (enter e w params (drop_empty l)) (Some site) (Some w) c2 (drop_joins body) r ->
      bad_use e site c (id :: lp :: ts) r
  | V_value site c id c1 body from rest w r :
      t_sym id = Word w -> meaning e site id c c1 (Value body, from) -> from <> Argument ->
      misuse e (Some site) (Some w) c1 (drop_joins body) r -> bad_use e site c (id :: rest) r
  with bad_args (e : env) : pos -> N -> N -> list token -> stop -> Prop :=
  | Z_comma site c depth t ts r : t_sym t = Comma -> bad_args e site c depth ts r -> bad_args e site c depth (t :: ts) r
  | Z_open site c depth t ts r : t_sym t = LParen -> bad_args e site c (depth + 1) ts r -> bad_args e site c depth (t :: ts) r
  | Z_shut site c depth t ts r : t_sym t = RParen -> bad_args e site c depth ts r -> bad_args e site c (depth + 1) (t :: ts) r
  | Z_quoted site c depth q1 v q2 ts r :
      t_sym q1 = DQuote -> t_sym q2 = DQuote -> (forall t, In t v -> t_sym t <> DQuote) ->
      bad_args e site c depth ts r -> bad_args e site c depth (q1 :: v ++ q2 :: ts) r
  | Z_plain site c depth t ts r :
      (match t_sym t with Word w => ~ visible e w | Comma | LParen | RParen | DQuote => False | _ => True end) ->
      bad_args e site c depth ts r -> bad_args e site c depth (t :: ts) r
  | Z_use site c depth t w ts c1 r1 o r :
      t_sym t = Word w -> visible e w -> use e site c (t :: ts) c1 r1 o ->
      bad_args e site c1 depth r1 r -> bad_args e site c depth (t :: ts) r
  | Z_bad site c depth t w ts r : t_sym t = Word w -> visible e w -> bad_use e site c (t :: ts) r -> bad_args e site c depth (t :: ts) r.

  Context (F : Type) (parse_f64 : text -> option F) (flt fle : F -> F -> bool).
  Context (locate : text -> text -> option (text * bool)) (parse : text -> run (list token)).
  Notation exec := (exec project F parse_f64 flt fle locate parse).
  Notation holds := (holds project F parse_f64 flt fle).
  (** [stops from g c toks r]: the text [toks] of the file [hd from], read with the macros [g], comes to such text, or to an
      [#if __has_include]: after a well-formed program, perhaps inside blocks whose branch is taken, perhaps in an
      included file. *)
  Inductive stops : list text -> names -> N -> list token -> stop -> Prop :=
  | Stop_text fs g c pr g1 c1 o ws t ts r :
      exec fs g c pr g1 c1 o -> blank ws -> is_space (t_sym t) = false -> t_sym t <> Hash ->
      misuse (Env g1 None) None None c1 (t :: ts) r -> stops fs g c (source_of pr ++ ws ++ t :: ts) r
  | Stop_has_include fs g c pr g1 c1 o l cmd ws x args rest :
      exec fs g c pr g1 c1 o -> is_directive l cmd (bs "if") (ws ++ x :: args) -> blank ws -> t_sym x = Word (bs "__has_include") ->
      stops fs g c (source_of pr ++ line_toks l ++ rest) (Some PE23_has_include)
  | Stop_if fs g c pr g1 c1 o l c2 more r :
      exec fs g c pr g1 c1 o -> holds g1 c1 l c2 true -> stops fs g1 c2 more r -> stops fs g c (source_of pr ++ line_toks l ++ more) r
  | Stop_else fs g c pr g1 c1 o l c2 yes m cmd ws more r :
      exec fs g c pr g1 c1 o -> holds g1 c1 l c2 false -> skippable yes -> is_directive m cmd (bs "else") ws -> blank ws ->
      stops fs g1 c2 more r -> stops fs g c (source_of pr ++ line_toks l ++ source_of yes ++ line_toks m ++ more) r
  | Stop_include cur up g c pr g1 c1 o l cmd ws q path q' ws' found other toks rest r :
      exec (cur :: up) g c pr g1 c1 o -> is_directive l cmd (bs "include") (ws ++ q :: path ++ q' :: ws') -> blank ws -> blank ws' ->
      (t_sym q = DQuote /\ t_sym q' = DQuote \/ t_sym q = LAngle /\ t_sym q' = RAngle) ->
      (forall t, In t path -> t_sym t <> t_sym q') ->
      locate cur (toks_text path) = Some (found, other) -> parse found = Ok toks -> stops (found :: cur :: up) g1 c1 toks r ->
      stops (cur :: up) g c (source_of pr ++ line_toks l ++ rest) r.

  (** Text of a branch that is not taken, ending (at the end of the file) inside it. *)
  Inductive skips_to_end : list token -> Prop :=
  | S_end pr eoi : skippable pr -> t_sym eoi = Eoi -> skips_to_end (source_of pr ++ [eoi])
  | S_open pr l cmd w args more : skippable pr -> is_directive l cmd w args -> opens w -> skips_to_end more ->
      skips_to_end (source_of pr ++ line_toks l ++ more)
  | S_open_else pr l cmd w args yes m cmd2 ws more : skippable pr -> is_directive l cmd w args -> opens w -> skippable yes ->
      is_directive m cmd2 (bs "else") ws -> blank ws -> skips_to_end more ->
      skips_to_end (source_of pr ++ line_toks l ++ source_of yes ++ line_toks m ++ more).
  (** Text that is read, ending at the end of the file with all its blocks closed ([false]) or not ([true]). *)
  Inductive to_end : list text -> names -> N -> list token -> bool -> Prop :=
  | T_end fs g c pr g1 c1 o eoi : exec fs g c pr g1 c1 o -> t_sym eoi = Eoi -> to_end fs g c (source_of pr ++ [eoi]) false
  | T_taken fs g c pr g1 c1 o l c2 more b :
      exec fs g c pr g1 c1 o -> holds g1 c1 l c2 true -> to_end fs g1 c2 more b -> to_end fs g c (source_of pr ++ line_toks l ++ more) true
  | T_taken_else fs g c pr g1 c1 o l c2 yes g2 c3 o2 m cmd ws more :
      exec fs g c pr g1 c1 o -> holds g1 c1 l c2 true -> exec fs g1 c2 yes g2 c3 o2 -> is_directive m cmd (bs "else") ws -> blank ws ->
      skips_to_end more -> to_end fs g c (source_of pr ++ line_toks l ++ source_of yes ++ line_toks m ++ more) true
  | T_not_taken fs g c pr g1 c1 o l c2 more :
      exec fs g c pr g1 c1 o -> holds g1 c1 l c2 false -> skips_to_end more -> to_end fs g c (source_of pr ++ line_toks l ++ more) true
  | T_not_taken_else fs g c pr g1 c1 o l c2 yes m cmd ws more b :
      exec fs g c pr g1 c1 o -> holds g1 c1 l c2 false -> skippable yes -> is_directive m cmd (bs "else") ws -> blank ws ->
      to_end fs g1 c2 more b -> to_end fs g c (source_of pr ++ line_toks l ++ source_of yes ++ line_toks m ++ more) true.
  Definition unclosed (fs : list text) (g : names) (c : N) (toks : list token) : Prop := to_end fs g c toks true.
End Misuse.
Scheme misuse_mut := Minimality for misuse Sort Prop
  with bad_use_mut := Minimality for bad_use Sort Prop
  with bad_args_mut := Minimality for bad_args Sort Prop.
Combined Scheme misuse_ind3 from misuse_mut, bad_use_mut, bad_args_mut.
