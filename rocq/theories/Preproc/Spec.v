(** What macro expansion means, written down as rules, without the processor's tables, buffers and flags. *)
From Coq Require Import String.
From Verif Require Import Base.Tactics Base.Bytes Base.Ascii Base.Text Preproc.Model.
Local Open Scope N_scope.
Local Open Scope list_scope.

(** What a name stands for: a macro (with the token that defined it and where it comes from), or nothing. *)
Definition names := text -> option entry.
(** The names in force: the file's macros and, inside a call of a function-like macro, the macro's name and its
    parameters. *)
Record env := Env { globals : names; inside : option (text * names) }.

(** The names HEMTT computes itself. *)
Definition computed (k : text) : Prop :=
  k = bs "__COUNTER__" \/ k = bs "__COUNTER_RESET__" \/ k = bs "__FILE__" \/ k = bs "__FILE_NAME__" \/ k = bs "__FILE_SHORT__" \/ k = bs "__LINE__".
(** Innermost first: parameters hide the file's macros. *)
Definition lookup (e : env) (k : text) : option entry :=
  match inside e with
  | Some (_, ps) => match ps k with Some m => Some m | None => globals e k end
  | None => globals e k
  end.
(** A word that is replaced: a computed name, or a macro other than the one being called. *)
Definition visible (e : env) (k : text) : Prop :=
  computed k \/ (lookup e k <> None /\ match inside e with Some (f, _) => k <> f | None => True end).
(** The argument that parameter [k] gets (the last one of that name). *)
Fixpoint arg_of (k : text) (params : list token) (args : list (list token)) : option entry :=
  match params, args with
  | p :: params, a :: args =>
      match arg_of k params args with
      | Some m => Some m
      | None => if text_dec k (tok_text p) then Some (p, Value a, Argument) else None
      end
  | _, _ => None
  end.
(** The names in force inside a call. *)
Definition enter (e : env) (f : text) (params : list token) (args : list (list token)) : env :=
  Env (globals e) (Some (f, fun k => arg_of k params args)).

(** Words the preprocessor refuses. *)
Definition refused (w : text) : Prop := w = bs "__EXEC" \/ is_unsupported w = true.
Definition directive_name (w : text) : Prop :=
  w = bs "if" \/ w = bs "else" \/ w = bs "endif" \/ w = bs "ifdef" \/ w = bs "ifndef" \/ w = bs "define" \/ w = bs "undef"
  \/ w = bs "include" \/ w = bs "pragma".

(** A newline that follows a backslash takes the backslash (with the macro it came from) away and vanishes. The buffer
    is in reverse. *)
Fixpoint settle (acc o : list output) : list output :=
  match o with
  | [] => acc
  | x :: o =>
      match x, acc with
      | Direct t, a :: acc' =>
          if is_newline (t_sym t) && (match last_sym a with Some y => is_escape y | None => false end) then settle acc' o
          else settle (x :: acc) o
      | _, _ => settle (x :: acc) o
      end
  end.
Definition settled (o : list output) : list output := rev (settle [] o).

(** Comments leave nothing behind. *)
Definition shown (t : token) : list output := if is_comment (t_sym t) then [] else [Direct t].
(** The last argument of a call is dropped when it is empty: [F()] has none. *)
Definition drop_empty (l : list (list token)) : list (list token) := match last l [] with [] => removelast l | _ => l end.

Section Expand.
  Context (project : option (option text * text)).

  (** What the name [id], used at [site], stands for; [c] and [c'] are [__COUNTER__] before and after. *)
  Inductive meaning (e : env) (site : pos) (id : token) : N -> N -> definition * source -> Prop :=
  | M_counter c : tok_text id = bs "__COUNTER__" -> c < 65535 ->
      meaning e site id c (c + 1) (Value [Tok (Digit c) (t_pos id)], Generated)
  | M_reset c : tok_text id = bs "__COUNTER_RESET__" -> meaning e site id c 0 (Void, Generated)
  | M_file c : tok_text id = bs "__FILE__" ->
      meaning e site id c c (Value [Tok DQuote (t_pos id); Tok (Word (file_path_word project (p_path site))) (t_pos id); Tok DQuote (t_pos id)], Generated)
  | M_file_name c : tok_text id = bs "__FILE_NAME__" ->
      meaning e site id c c (Value [Tok (Word (filename (p_path site))) (t_pos id)], Generated)
  | M_file_short c : tok_text id = bs "__FILE_SHORT__" ->
      meaning e site id c c (Value [Tok (Word (file_short (p_path site))) (t_pos id)], Generated)
  | M_line c : tok_text id = bs "__LINE__" -> meaning e site id c c (Value [Tok (Digit (lc_line (p_start site))) (t_pos id)], Generated)
  | M_macro c by_ def from : ~ computed (tok_text id) -> lookup e (tok_text id) = Some (by_, def, from) -> meaning e site id c c (def, from).

  (** [id] is on one of the lines of the body [at_]. *)
  Definition on_lines (at_ : pos) (id : token) : Prop :=
    p_path (t_pos id) = p_path at_ /\ lc_line (p_start at_) <= lc_line (p_start (t_pos id)) <= lc_line (p_end at_).

  (** [expand e site m c ts c' o]: the text [ts] turns into [o]. [m] is the macro whose body [ts] is, [site] the place
      in the file of the outermost macro.
      [use e site c ts c' rest o]: the macro use [ts] starts with turns into [o]; [rest] follows it.
      [arguments e site c depth ts c' rest l]: the arguments [ts] starts with, up to the closing parenthesis. *)
  Inductive expand (e : env) : option pos -> option text -> N -> list token -> N -> list output -> Prop :=
  | X_nil site m c : expand e site m c [] c []
  | X_plain site m c t ts c' o :
      (match t_sym t with Word _ | Hash | DQuote | Newline | Eoi => False | _ => True end) ->
      expand e site m c ts c' o -> expand e site m c (t :: ts) c' (shown t ++ o)
  | X_newline site m c t ts c' o :
      t_sym t = Newline -> expand e site (Some m) c ts c' o -> expand e site (Some m) c (t :: ts) c' (Direct t :: o)
  | X_quoted site m c q1 l q2 ts c' o :
      t_sym q1 = DQuote -> t_sym q2 = DQuote -> (forall t, In t l -> t_sym t <> DQuote /\ t_sym t <> Eoi) ->
      expand e site m c ts c' o ->
      expand e site m c (q1 :: l ++ q2 :: ts) c' (Direct q1 :: flat_map shown l ++ Direct q2 :: o)
  | X_word site m c t w ts c' o :
      t_sym t = Word w -> ~ refused w -> (~ visible e w \/ m = Some w) ->
      expand e site m c ts c' o -> expand e site m c (t :: ts) c' (Direct t :: o)
  | X_use site m c t w ts c1 rest o1 c' o :
      t_sym t = Word w -> ~ refused w -> visible e w -> m <> Some w ->
      use e (match site with Some x => x | None => t_pos t end) c (t :: ts) c1 rest o1 ->
      expand e site m c1 rest c' o -> expand e site m c (t :: ts) c' (o1 ++ o)
  | X_hash site m c t ts c' o :
      t_sym t = Hash ->
      (match ts with
       | x :: _ => ~ directive_name (tok_text x) /\ (m = None \/ forall w, t_sym x = Word w -> ~ visible e w)
       | [] => True
       end) ->
      expand e site m c ts c' o -> expand e site m c (t :: ts) c' (Direct t :: o)
  | X_stringify site m c t x w ts c1 rest o1 c' o :
      t_sym t = Hash -> t_sym x = Word w -> ~ directive_name w -> ~ refused w -> visible e w -> w <> m ->
      (p_path (t_pos t) <> p_path site \/ lc_off (p_start (t_pos t)) < lc_off (p_start site)) ->
      use e site c (x :: ts) c1 rest o1 ->
      expand e (Some site) (Some m) c1 rest c' o ->
      expand e (Some site) (Some m) c (t :: x :: ts) c'
        (Direct (Tok DQuote (t_pos t)) :: o1 ++ Direct (Tok DQuote (t_pos t)) :: o)
  with use (e : env) : pos -> N -> list token -> N -> list token -> list output -> Prop :=
  | U_argument site c id c1 v rest w :
      t_sym id = Word w -> meaning e site id c c1 (Value v, Argument) ->
      use e site c (id :: rest) c1 rest [Macro id (map Direct v)]
  | U_value site c id c1 body from rest c2 o w :
      t_sym id = Word w -> meaning e site id c c1 (Value body, from) -> from <> Argument ->
      expand e (Some site) (Some w) c1 (drop_joins body) c2 o ->
      use e site c (id :: rest) c2 rest [Macro id (settled o)]
  | U_nothing site c id c1 from rest w :
      t_sym id = Word w -> meaning e site id c c1 (Void, from) -> use e site c (id :: rest) c1 rest []
  | U_own_body site c id c1 at_ params body from rest w :
      t_sym id = Word w -> meaning e site id c c1 (Func at_ params body, from) -> on_lines at_ id ->
      use e site c (id :: rest) c1 rest [Direct id]
  | U_call site c id c1 at_ params body from lp ts c2 rest l c3 o w :
      t_sym id = Word w -> meaning e site id c c1 (Func at_ params body, from) -> ~ on_lines at_ id -> t_sym lp = LParen ->
      arguments e site c1 0 ts c2 rest l -> List.length (drop_empty l) = List.length params ->
      expand (enter e w params (drop_empty l)) (Some site) (Some w) c2 (drop_joins body) c3 o ->
      use e site c (id :: lp :: ts) c3 rest [Macro id (settled o)]
  with arguments (e : env) : pos -> N -> N -> list token -> N -> list token -> list (list token) -> Prop :=
  | A_close site c t ts : t_sym t = RParen -> arguments e site c 0 (t :: ts) c ts [[]]
  | A_comma site c depth t ts c' rest l :
      t_sym t = Comma -> arguments e site c depth ts c' rest l -> arguments e site c depth (t :: ts) c' rest ([] :: l)
  | A_open site c depth t ts c' rest a l :
      t_sym t = LParen -> arguments e site c (depth + 1) ts c' rest (a :: l) ->
      arguments e site c depth (t :: ts) c' rest ((t :: a) :: l)
  | A_shut site c depth t ts c' rest a l :
      t_sym t = RParen -> arguments e site c depth ts c' rest (a :: l) ->
      arguments e site c (depth + 1) (t :: ts) c' rest ((t :: a) :: l)
  | A_quoted site c depth q1 v q2 ts c' rest a l :
      t_sym q1 = DQuote -> t_sym q2 = DQuote -> (forall t, In t v -> t_sym t <> DQuote) ->
      arguments e site c depth ts c' rest (a :: l) ->
      arguments e site c depth (q1 :: v ++ q2 :: ts) c' rest ((q1 :: v ++ q2 :: a) :: l)
  | A_plain site c depth t ts c' rest a l :
      (match t_sym t with
       | Word w => ~ visible e w
       | Comma | LParen | RParen | DQuote => False
       | _ => True
       end) ->
      arguments e site c depth ts c' rest (a :: l) -> arguments e site c depth (t :: ts) c' rest ((t :: a) :: l)
  | A_use site c depth t w ts c1 r1 o c' rest a l :
      t_sym t = Word w -> visible e w -> use e site c (t :: ts) c1 r1 o ->
      arguments e site c1 depth r1 c' rest (a :: l) ->
      arguments e site c depth (t :: ts) c' rest ((flat_map out_toks o ++ a) :: l).

End Expand.
Scheme expand_mut := Minimality for expand Sort Prop
  with use_mut := Minimality for use Sort Prop
  with arguments_mut := Minimality for arguments Sort Prop.
Combined Scheme expand_ind3 from expand_mut, use_mut, arguments_mut.
