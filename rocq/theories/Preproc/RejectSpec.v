(** Directives that are not well formed, and the diagnostic each gets (C58). *)
From Coq Require Import String.
From Verif Require Import Base.Tactics Base.Bytes Base.Ascii Base.Text Preproc.Model Preproc.Spec Preproc.BlockSpec.
Local Open Scope N_scope.
Local Open Scope list_scope.

Definition is_name (t : token) : Prop := exists w, t_sym t = Word w.
Definition black (t : token) : Prop := is_space (t_sym t) = false.
(** The parameter list of a macro, up to where it goes wrong; [after_name]: a name was the last thing. *)
Inductive bad_params : bool -> list token -> code -> Prop :=
| Q_blank after_name t ts e : is_space (t_sym t) = true -> bad_params after_name ts e -> bad_params after_name (t :: ts) e
| Q_name t ts e : is_name t -> bad_params true ts e -> bad_params false (t :: ts) e
| Q_comma t ts e : t_sym t = Comma -> bad_params false ts e -> bad_params true (t :: ts) e
| Q_two_names t ts : is_name t -> bad_params true (t :: ts) PE5_missing_comma
| Q_two_commas t ts : t_sym t = Comma -> bad_params false (t :: ts) PE1_unexpected_token
| Q_other after_name t ts : black t -> ~ is_name t -> t_sym t <> Comma -> t_sym t <> RParen -> bad_params after_name (t :: ts) PE1_unexpected_token
| Q_unclosed after_name : bad_params after_name [] PE1_unexpected_token.

Section Reject.
  Context (project : option (option text * text)).
  Context (F : Type) (parse_f64 : text -> option F) (flt fle : F -> F -> bool).
  Context (locate : text -> text -> option (text * bool)) (parse : text -> run (list token)).
  Notation operand := (operand project).
  (** An operand that is the name of a macro without a value. *)
  Definition valueless (g : names) (t : token) : Prop :=
    tok_text t = bs "__COUNTER_RESET__" \/
    ~ computed (tok_text t) /\ exists by_ def from, g (tok_text t) = Some (by_, def, from) /\
      match def with Value _ => False | Func at_ _ _ => ~ on_lines at_ t | _ => True end.
  (** Nothing or white space follows. *)
  Definition ends_there (r : list token) : Prop := match r with [] => True | t :: _ => is_space (t_sym t) = true end.
  (** [ws a]: the left side of a condition, with value [va]; then [wa op], the operator. *)
  Definition left_operand (g : names) (c : N) (ws a : list token) (c1 : N) (va : list token) : Prop :=
    blank ws /\ solid a /\ (forall t r, a = t :: r -> t_sym t <> Word (bs "__has_include")) /\ operand g c a c1 va.
  Definition operator (wa op : list token) : Prop := blank wa /\ wa <> [] /\ solid op.

  (** [malformed cur g c w args e]: in the file [cur], with the macros [g], the line [#w args] gets the diagnostic [e]. *)
  Inductive malformed (cur : text) (g : names) (c : N) : text -> list token -> code -> Prop :=
  | B_unknown w args : ~ directive_name w -> malformed cur g c w args PE4_unknown_directive
  (* a name is missing, or something else stands in its place *)
  | B_no_name w args : In w [bs "define"; bs "undef"; bs "ifdef"; bs "ifndef"] -> blank args -> malformed cur g c w args PE3_expected_ident
  | B_not_name w ws x r : In w [bs "define"; bs "undef"; bs "ifdef"; bs "ifndef"] -> blank ws -> black x -> ~ is_name x ->
      malformed cur g c w (ws ++ x :: r) PE3_expected_ident
  (* more on the line than there should be *)
  | B_more w ws x ws' y r : In w [bs "undef"; bs "ifdef"; bs "ifndef"] -> blank ws -> is_name x -> blank ws' -> black y ->
      malformed cur g c w (ws ++ x :: ws' ++ y :: r) PE1_unexpected_token
  | B_more_endif ws y r : blank ws -> black y -> malformed cur g c (bs "endif") (ws ++ y :: r) PE1_unexpected_token
  (* definitions *)
  | B_builtin ws x r : blank ws -> is_name x -> is_builtin (tok_text x) = true -> malformed cur g c (bs "define") (ws ++ x :: r) PE6_change_builtin
  | B_params ws x lp r e : blank ws -> is_name x -> is_builtin (tok_text x) = false -> t_sym lp = LParen -> bad_params false r e ->
      malformed cur g c (bs "define") (ws ++ x :: lp :: r) e
  (* includes *)
  | B_include_nothing args : blank args -> malformed cur g c (bs "include") args PE13_include_not_encased
  | B_include_bare ws x r : blank ws -> black x -> t_sym x <> DQuote -> t_sym x <> LAngle ->
      malformed cur g c (bs "include") (ws ++ x :: r) PE13_include_not_encased
  | B_include_open ws q path : blank ws -> t_sym q = DQuote /\ (forall t, In t path -> t_sym t <> DQuote) \/
        t_sym q = LAngle /\ (forall t, In t path -> t_sym t <> RAngle) ->
      malformed cur g c (bs "include") (ws ++ q :: path) PE13_include_not_encased
  | B_include_more ws q path q' ws' y r : blank ws -> t_sym q = DQuote /\ t_sym q' = DQuote \/ t_sym q = LAngle /\ t_sym q' = RAngle ->
      (forall t, In t path -> t_sym t <> t_sym q') -> blank ws' -> black y ->
      malformed cur g c (bs "include") (ws ++ q :: path ++ q' :: ws' ++ y :: r) PE14_include_suffix
  | B_include_missing ws q path q' ws' : blank ws -> t_sym q = DQuote /\ t_sym q' = DQuote \/ t_sym q = LAngle /\ t_sym q' = RAngle ->
      (forall t, In t path -> t_sym t <> t_sym q') -> blank ws' -> locate cur (toks_text path) = None ->
      malformed cur g c (bs "include") (ws ++ q :: path ++ q' :: ws') PE12_include_not_found
  (* conditions *)
  | B_if_nothing args : blank args -> malformed cur g c (bs "if") args PE2_unexpected_eof
  | B_if_undefined ws x ws' : blank ws -> black x -> t_sym x <> Word (bs "__has_include") -> blank ws' ->
      ~ computed (tok_text x) -> g (tok_text x) = None -> malformed cur g c (bs "if") (ws ++ x :: ws') PE8_if_undefined
  | B_if_text ws x y a ws' : blank ws -> solid (x :: y :: a) -> t_sym x <> Word (bs "__has_include") -> blank ws' ->
      malformed cur g c (bs "if") (ws ++ (x :: y :: a) ++ ws') PE8_if_undefined
  | B_if_valueless ws x r : blank ws -> black x -> t_sym x <> Word (bs "__has_include") -> valueless g x ->
      ends_there r -> malformed cur g c (bs "if") (ws ++ x :: r) PE7_if_unit_or_function
  | B_if_empty ws a r c1 : left_operand g c ws a c1 [] -> ends_there r -> malformed cur g c (bs "if") (ws ++ a ++ r) PE2_unexpected_eof
  | B_if_half ws a wa op wo c1 va : left_operand g c ws a c1 va -> va <> [] -> operator wa op -> blank wo ->
      malformed cur g c (bs "if") (ws ++ a ++ wa ++ op ++ wo) PE2_unexpected_eof
  | B_if_valueless_right ws a wa op wo x r c1 va : left_operand g c ws a c1 va -> va <> [] -> operator wa op -> blank wo -> wo <> [] ->
      black x -> valueless g x -> ends_there r -> malformed cur g c (bs "if") (ws ++ a ++ wa ++ op ++ wo ++ x :: r) PE7_if_unit_or_function
  | B_if_operator ws a wa op wo b r c1 va c2 vb : left_operand g c ws a c1 va -> va <> [] -> operator wa op -> blank wo -> wo <> [] ->
      solid b -> operand g c1 b c2 vb -> ends_there r ->
      ~ In (toks_text op) [bs "=="; bs "!="; bs ">"; bs ">="; bs "<"; bs "<="] ->
      malformed cur g c (bs "if") (ws ++ a ++ wa ++ op ++ wo ++ b ++ r) PE15_if_operator
  | B_if_types ws a wa op wo b r c1 va c2 vb : left_operand g c ws a c1 va -> va <> [] -> operator wa op -> blank wo -> wo <> [] ->
      solid b -> operand g c1 b c2 vb -> ends_there r ->
      In (toks_text op) [bs ">"; bs ">="; bs "<"; bs "<="] -> parse_f64 (toks_text va) = None \/ parse_f64 (toks_text vb) = None ->
      malformed cur g c (bs "if") (ws ++ a ++ wa ++ op ++ wo ++ b ++ r) PE16_if_types
  | B_if_more ws a wa op wo b wb y r c1 va c2 vb res : left_operand g c ws a c1 va -> va <> [] -> operator wa op -> blank wo -> wo <> [] ->
      solid b -> operand g c1 b c2 vb -> blank wb -> wb <> [] -> black y ->
      compares F parse_f64 flt fle (toks_text op) (toks_text va) (toks_text vb) res ->
      malformed cur g c (bs "if") (ws ++ a ++ wa ++ op ++ wo ++ b ++ wb ++ y :: r) PE1_unexpected_token.

  (** [fails from g c toks e]: the text [toks] of the file [hd from], read with the macros [g], comes to a malformed directive: after a
      well-formed program, perhaps inside blocks whose branch is taken, perhaps in an included file. *)
  Notation exec := (exec project F parse_f64 flt fle locate parse).
  Notation holds := (holds project F parse_f64 flt fle).
  Inductive fails : list text -> names -> N -> list token -> code -> Prop :=
  | Fail_here cur up g c pr g1 c1 o l cmd w args rest e :
      exec (cur :: up) g c pr g1 c1 o -> is_directive l cmd w args -> malformed cur g1 c1 w args e ->
      fails (cur :: up) g c (source_of pr ++ line_toks l ++ rest) e
  | Fail_if fs g c pr g1 c1 o l c2 more e :
      exec fs g c pr g1 c1 o -> holds g1 c1 l c2 true -> fails fs g1 c2 more e -> fails fs g c (source_of pr ++ line_toks l ++ more) e
  | Fail_else fs g c pr g1 c1 o l c2 yes m cmd ws more e :
      exec fs g c pr g1 c1 o -> holds g1 c1 l c2 false -> skippable yes -> is_directive m cmd (bs "else") ws -> blank ws ->
      fails fs g1 c2 more e -> fails fs g c (source_of pr ++ line_toks l ++ source_of yes ++ line_toks m ++ more) e
  | Fail_include cur up g c pr g1 c1 o l cmd ws q path q' ws' found other toks rest e :
      exec (cur :: up) g c pr g1 c1 o -> is_directive l cmd (bs "include") (ws ++ q :: path ++ q' :: ws') -> blank ws -> blank ws' ->
      (t_sym q = DQuote /\ t_sym q' = DQuote \/ t_sym q = LAngle /\ t_sym q' = RAngle) ->
      (forall t, In t path -> t_sym t <> t_sym q') ->
      locate cur (toks_text path) = Some (found, other) -> parse found = Ok toks -> fails (found :: cur :: up) g1 c1 toks e ->
      fails (cur :: up) g c (source_of pr ++ line_toks l ++ rest) e.
End Reject.
