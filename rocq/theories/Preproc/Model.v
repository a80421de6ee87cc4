(** The preprocessor: libs/preprocessor/src. Tokens come from the lexer (Preproc/LexModel.v). *)
From Coq Require Import String.
From Verif Require Import Base.Tactics Base.Bytes Base.Ascii Base.Text.
Local Open Scope N_scope.
Local Open Scope list_scope.

(** ** Symbols, positions, tokens *)
(** workspace/src/reporting/symbol.rs:10-81. The variants Dash, Plus, braces, brackets, Colon, Semicolon, Slash and
    Decimal are left out: nothing in the code base constructs them. *)
Inductive sym :=
| Word (w : text) | Alpha (c : N) | Digit (d : N) | Underscore | Equals | LParen | RParen | Join | Hash | Escape
| Comma | DQuote | SQuote | LAngle | RAngle | Unicode (s : text) | Newline | Space | Tab | Comment (s : text) | Eoi.
Definition text_dec : forall a b : text, {a = b} + {a <> b} := list_eq_dec N.eq_dec.
Definition sym_dec : forall a b : sym, {a = b} + {a <> b}.
Proof. decide equality; auto using text_dec, N.eq_dec. Defined.

(** workspace/src/position.rs:9-54, 56-84: offset, line, column; start, end, file. *)
Record linecol := LC { lc_off : N; lc_line : N; lc_col : N }.
Record pos := Pos { p_start : linecol; p_end : linecol; p_path : text }.
(** workspace/src/reporting/token.rs:9-12. *)
Record token := Tok { t_sym : sym; t_pos : pos }.
Definition linecol_dec : forall a b : linecol, {a = b} + {a <> b}.
Proof. decide equality; apply N.eq_dec. Defined.
Definition pos_dec : forall a b : pos, {a = b} + {a <> b}.
Proof. decide equality; auto using text_dec, linecol_dec. Defined.
Definition token_dec : forall a b : token, {a = b} + {a <> b}.
Proof. decide equality; auto using sym_dec, pos_dec. Defined.
Definition text_eqb (a b : text) : bool := if text_dec a b then true else false.

(** symbol.rs:206-252 [Display]. *)
Definition sym_text (s : sym) : text :=
  match s with
  | Word w => w | Alpha c => [c] | Digit d => dec d | Underscore => bs "_" | Equals => bs "=" | LParen => bs "("
  | RParen => bs ")" | Join => bs "##" | Hash => bs "#" | Escape => [92] | Comma => bs "," | DQuote => [34] | SQuote => [39]
  | LAngle => bs "<" | RAngle => bs ">" | Unicode s => s | Newline => [10] | Space => [32] | Tab => [9]
  | Comment _ => [] | Eoi => []
  end.
Definition tok_text (t : token) : text := sym_text (t_sym t).
Definition toks_text (l : list token) : text := flat_map tok_text l.

(** symbol.rs:91-187: the tests used below. *)
Definition is_word (s : sym) : bool := match s with Word _ => true | _ => false end.
Definition is_space (s : sym) : bool := match s with Space | Tab | Comment _ => true | _ => false end.
Definition is_comment (s : sym) : bool := match s with Comment _ => true | _ => false end.
Definition is_newline (s : sym) : bool := match s with Newline => true | _ => false end.
Definition is_eoi (s : sym) : bool := match s with Eoi => true | _ => false end.
Definition is_join (s : sym) : bool := match s with Join => true | _ => false end.
Definition is_escape (s : sym) : bool := match s with Escape => true | _ => false end.
Definition is_lparen (s : sym) : bool := match s with LParen => true | _ => false end.

(** workspace/src/reporting/output.rs:5-12, 14-22, 43-52. *)
Inductive output := Direct (t : token) | Macro (t : token) (l : list output).
Fixpoint last_sym (o : output) : option sym :=
  match o with
  | Direct t => Some (t_sym t)
  | Macro _ l =>
      (fix go (l : list output) : option sym :=
         match l with [] => None | [o] => last_sym o | _ :: r => go r end) l
  end.
Fixpoint out_toks (o : output) : list token :=
  match o with
  | Direct t => [t]
  | Macro _ l => flat_map out_toks l
  end.

(** ** Results *)
(** The diagnostics of libs/preprocessor/src/codes, by number (pe1 .. pe26). *)
Inductive code :=
| PE1_unexpected_token | PE2_unexpected_eof | PE3_expected_ident | PE4_unknown_directive | PE5_missing_comma
| PE6_change_builtin | PE7_if_unit_or_function | PE8_if_undefined | PE9_argument_count | PE10_function_as_value
| PE11_expected_function_or_value | PE12_include_not_found | PE13_include_not_encased | PE14_include_suffix
| PE15_if_operator | PE16_if_types | PE17_double_else | PE18_eoi_ifstate | PE19_pragma_unknown | PE20_pragma_scope
| PE21_pragma_suppress | PE22_pragma_flag | PE23_has_include | PE24_parse | PE25_exec | PE26_builtin.
(** [Panic]: an [expect] or an arithmetic overflow. [NoFuel]: the recursion did not end within the fuel. *)
Inductive run (A : Type) := Ok (a : A) | Err (c : code) | Panic | NoFuel.
Arguments Ok {A} a.
Arguments Err {A} c.
Arguments Panic {A}.
Arguments NoFuel {A}.
Definition rbind {A B} (r : run A) (k : A -> run B) : run B :=
  match r with Ok a => k a | Err c => Err c | Panic => Panic | NoFuel => NoFuel end.
Notation "x <- r ;; k" := (rbind r (fun x => k)) (at level 61, r at next level, right associativity).
Notation "' p <- r ;; k" := (rbind r (fun x => match x with p => k end))
  (at level 61, p pattern, r at next level, right associativity).

(** ** Conditionals: ifstate.rs *)
(** ifstate.rs:8-14. *)
Inductive ifkind := ReadingIf | PassingIf | ReadingElse | PassingElse | PassingChild.
Definition kind_reading (k : ifkind) : bool := match k with ReadingIf | ReadingElse => true | _ => false end.
(** ifstate.rs:36-40; the head of the list is the top of the stack. *)
Record ifstates := Ifs { if_stack : list (ifkind * token); did_else : option token }.
(** ifstate.rs:43-45. *)
Definition reading (i : ifstates) : bool := forallb (fun e => kind_reading (fst e)) (if_stack i).
(** ifstate.rs:47-59. *)
Definition if_push (k : ifkind) (t : token) (i : ifstates) : ifstates := Ifs ((k, t) :: if_stack i) None.
Definition push_if (t : token) (b : bool) (i : ifstates) : ifstates := if_push (if b then ReadingIf else PassingIf) t i.
(** ifstate.rs:61-64. *)
Definition if_pop (i : ifstates) : ifstates := Ifs (tl (if_stack i)) None.

Section Processor.
  (** [checked]: integer overflow panics (debug builds); otherwise it wraps (release builds). *)
  Context (checked : bool).
  (** [locate cur req]: WorkspacePath::locate (path.rs:205), whether the name differs in case only; [parse]:
      parse/mod.rs:24 (Preproc/LexModel.v). *)
  Context (locate : text -> text -> option (text * bool)) (parse : text -> run (list token)).
  (** The project of the workspace: main prefix and prefix (defines.rs:131-152). *)
  Context (project : option (option text * text)).
  (** [str::parse::<f64>] and its comparisons. *)
  Context (F : Type) (parse_f64 : text -> option F) (flt fle : F -> F -> bool).

  (** ifstate.rs:66-95 [flip]. The first test takes [len - 1] states: an underflow on the empty stack. *)
  Definition flip (t : token) (i : ifstates) : run ifstates :=
    match did_else i with
    | Some _ => match if_stack i with [] => Panic | _ => Err PE17_double_else end
    | None =>
        match if_stack i with
        | [] => if checked then Panic else Ok (Ifs [] (Some t))
        | (k, kt) :: below =>
            if forallb (fun e => kind_reading (fst e)) below then
              let st := match k with
                        | PassingChild => (PassingChild, kt) :: below
                        | PassingIf => (ReadingElse, kt) :: below
                        | ReadingIf => (PassingElse, kt) :: below
                        | PassingElse | ReadingElse => below
                        end in
              Ok (Ifs st (Some t))
            else Ok (Ifs (if_stack i) (Some t))
        end
    end.

  (** ** Macros: definition.rs, defines.rs *)
  (** definition.rs:8-17, 71-75. *)
  Inductive definition := Func (p : pos) (args body : list token) | Value (body : list token) | Unit | Void.
  (** defines.rs:12-17. *)
  Inductive source := FromFile (stack : list text) | Generated | Argument.
  Definition entry : Type := token * definition * source.
  (** defines.rs:19: a map. *)
  Definition table := list (text * entry).
  Fixpoint find (k : text) (t : table) : option entry :=
    match t with [] => None | (k', e) :: r => if text_dec k k' then Some e else find k r end.
  Fixpoint del (k : text) (t : table) : table :=
    match t with [] => [] | (k', e) :: r => if text_dec k k' then del k r else (k', e) :: del k r end.
  Definition ins (k : text) (e : entry) (t : table) : table := (k, e) :: del k t.
  Definition has (k : text) (t : table) : bool := match find k t with Some _ => true | None => false end.

  (** defines.rs:23-27; the head of [frames] is the innermost macro call. *)
  Record defines := Defs { global : table; frames : list (text * table); counter : N }.

  (** defines.rs:30-65. *)
  Definition builtin_const := [bs "__ARMA__"; bs "__ARMA3__"].
  Definition builtin_gen := [bs "__COUNTER__"; bs "__COUNTER_RESET__"; bs "__FILE__"; bs "__FILE_NAME__"; bs "__FILE_SHORT__"; bs "__LINE__"].
  Definition builtin_special := [bs "__EVAL"].
  Definition builtin_protest :=
    [bs "__DATE_ARR__"; bs "__DATE_STR__"; bs "__DATE_STR_ISO8601__"; bs "__TIME__"; bs "__TIME_UTC__"; bs "__TIMESTAMP_UTC__";
     bs "__DAY__"; bs "__MONTH__"; bs "__YEAR__"; bs "__RAND_INT*__"; bs "__RAND_UINT*__"; bs "__GAME_VER__"; bs "__GAME_VER_MAJ__";
     bs "__GAME_VER_MIN__"; bs "__GAME_BUILD__"; bs "__A3_DIAG__"; bs "__A3_DEBUG__"; bs "__EXEC"].
  Definition among (k : text) (l : list text) : bool := existsb (text_eqb k) l.
  (** defines.rs:68-77. *)
  Definition is_builtin (k : text) : bool :=
    among k builtin_gen || among k builtin_special || among k builtin_protest || among k builtin_const.
  Definition is_unsupported (k : text) : bool := among k builtin_protest.
  (** defines.rs:79-92. *)
  Definition contains_key (k : text) (d : defines) : bool :=
    if among k builtin_gen then true
    else match frames d with
         | (name, tbl) :: _ => if text_eqb name k then false else if has k tbl then true else has k (global d)
         | [] => has k (global d)
         end.
  (** defines.rs:226-233. *)
  Definition get_readonly (k : text) (d : defines) : option entry :=
    match frames d with
    | (_, tbl) :: _ => match find k tbl with Some e => Some e | None => find k (global d) end
    | [] => find k (global d)
    end.
  (** defines.rs:244-254, 256-262, 264-270. *)
  Definition d_insert (k : text) (e : entry) (d : defines) : defines :=
    match frames d with
    | (n, tbl) :: r => Defs (global d) ((n, ins k e tbl) :: r) (counter d)
    | [] => Defs (ins k e (global d)) [] (counter d)
    end.
  Definition d_remove (k : text) (d : defines) : option entry * defines :=
    match frames d with
    | (n, tbl) :: r => (find k tbl, Defs (global d) ((n, del k tbl) :: r) (counter d))
    | [] => (find k (global d), Defs (del k (global d)) [] (counter d))
    end.
  Definition d_push (n : text) (tbl : table) (d : defines) : defines := Defs (global d) ((n, tbl) :: frames d) (counter d).
  Definition d_pop (d : defines) : defines := Defs (global d) (tl (frames d)) (counter d).

  (** path.rs [filename]: what follows the last '/'. *)
  Definition filename (p : text) : text := match rsplit_once 47 p with Some (_, f) => f | None => p end.
  (** defines.rs:170-191: the file name without its last extension (nothing if it has none). *)
  Definition file_short (p : text) : text := match rsplit_once 46 (filename p) with Some (a, _) => a | None => [] end.
  (** defines.rs:127-156. *)
  Definition file_path_word (p : text) : text :=
    let p := map (fun c => if c =? 47 then 92 else c) p in
    match project with
    | None => p
    | Some (None, prefix) => prefix ++ p
    | Some (Some main, prefix) => main ++ [92] ++ prefix ++ p
    end.
  (** defines.rs:95-224 [get_with_gen], with a site. *)
  Definition get_with_gen (key : token) (site : pos) (d : defines) : run (defines * option entry) :=
    let k := tok_text key in
    let gen l := Some (key, Value (map (fun s => Tok s (t_pos key)) l), Generated) in
    if text_eqb k (bs "__COUNTER__") then
      if (counter d =? 65535) && checked then Panic
      else Ok (Defs (global d) (frames d) ((counter d + 1) mod 65536), gen [Digit (counter d)])
    else if text_eqb k (bs "__COUNTER_RESET__") then Ok (Defs (global d) (frames d) 0, Some (key, Void, Generated))
    else if text_eqb k (bs "__FILE__") then Ok (d, gen [DQuote; Word (file_path_word (p_path site)); DQuote])
    else if text_eqb k (bs "__FILE_NAME__") then Ok (d, gen [Word (filename (p_path site))])
    else if text_eqb k (bs "__FILE_SHORT__") then Ok (d, gen [Word (file_short (p_path site))])
    else if text_eqb k (bs "__LINE__") then Ok (d, gen [Digit (lc_line (p_start site))])
    else
      match get_readonly k d with
      | Some (src, Func bp args body, from) =>
          let line := lc_line (p_start (t_pos key)) in
          if negb (text_eqb (p_path (t_pos key)) (p_path bp)) || (line <? lc_line (p_start bp)) || (lc_line (p_end bp) <? line)
          then Ok (d, Some (src, Func bp args body, from))
          else Ok (d, None)
      | r => Ok (d, r)
      end.

  (** ** Pragmas: processor/pragma.rs *)
  (** pragma.rs:95-100; the order of the derived discriminants. *)
  Inductive scope := SLine | SFile | SConfig.
  Definition scope_n (s : scope) : N := match s with SLine => 0 | SFile => 1 | SConfig => 2 end.
  (** pragma.rs:102-112. *)
  Definition scope_of (t : text) : option scope :=
    if text_eqb t (bs "line") then Some SLine else if text_eqb t (bs "file") then Some SFile
    else if text_eqb t (bs "config") then Some SConfig else None.
  (** pragma.rs:14-18; codes and flags are kept by name. *)
  Definition smap := list (text * scope).
  Record pragma := Prag { pr_root : bool; suppress : smap; flags : smap }.
  Fixpoint sget (k : text) (m : smap) : option scope :=
    match m with [] => None | (k', s) :: r => if text_dec k k' then Some s else sget k r end.
  (** pragma.rs:58-70, 76-88: a wider scope already there stays. *)
  Definition sset (k : text) (s : scope) (m : smap) : smap :=
    match sget k m with
    | Some s' => if scope_n s <? scope_n s' then m else (k, s) :: filter (fun e => negb (text_eqb k (fst e))) m
    | None => (k, s) :: m
    end.
  Definition is_config (e : text * scope) : bool := match snd e with SConfig => true | _ => false end.
  Definition not_line (e : text * scope) : bool := match snd e with SLine => false | _ => true end.
  (** pragma.rs:21-48, 50-52, 54-56, 72-74. *)
  Definition prag_root : pragma := Prag true [] [].
  Definition prag_child (p : pragma) : pragma := Prag false (filter is_config (suppress p)) (filter is_config (flags p)).
  Definition clear_line (p : pragma) : pragma := Prag (pr_root p) (filter not_line (suppress p)) (flags p).
  Definition suppressed (k : text) (p : pragma) : bool := match sget k (suppress p) with Some _ => true | None => false end.
  Definition flagged (k : text) (p : pragma) : bool := match sget k (flags p) with Some _ => true | None => false end.
  (** pragma.rs:114-160: the known names. *)
  Definition pw3_padded_arg := bs "pw3_padded_arg".
  Definition pw3_ignore_format := bs "pw3_ignore_format".
  Definition pe23_ignore_has_include := bs "pe23_ignore_has_include".
  Definition prag_suppress (k : text) (s : scope) (p : pragma) : run pragma :=
    if among k [pw3_padded_arg] then Ok (Prag (pr_root p) (sset k s (suppress p)) (flags p)) else Err PE21_pragma_suppress.
  Definition prag_flag (k : text) (s : scope) (p : pragma) : run pragma :=
    if among k [pw3_ignore_format; pe23_ignore_has_include] then Ok (Prag (pr_root p) (suppress p) (sset k s (flags p)))
    else Err PE22_pragma_flag.

  (** ** The processor: processor/mod.rs *)
  Inductive warning := WRedefine (name : token) (was : token) | WPadded (t : token) | WIncludeCase (found : text) | WConfigCase.
  (** mod.rs:29-57, without the language server's maps and the count of tokens, which nothing reads. *)
  Record state := St {
    ifs : ifstates; defs : defines; files : list text; included : list text;
    macros : list (text * pos); warnings : list warning; no_rapify : bool }.
  Definition with_ifs i s := St i (defs s) (files s) (included s) (macros s) (warnings s) (no_rapify s).
  Definition with_defs d s := St (ifs s) d (files s) (included s) (macros s) (warnings s) (no_rapify s).
  Definition with_files f s := St (ifs s) (defs s) f (included s) (macros s) (warnings s) (no_rapify s).
  Definition add_included p s := St (ifs s) (defs s) (files s) (included s ++ [p]) (macros s) (warnings s) (no_rapify s).
  Definition add_macro m s := St (ifs s) (defs s) (files s) (included s) (macros s ++ [m]) (warnings s) (no_rapify s).
  Definition add_warning w s := St (ifs s) (defs s) (files s) (included s) (macros s) (warnings s ++ [w]) (no_rapify s).
  Definition set_no_rapify s := St (ifs s) (defs s) (files s) (included s) (macros s) (warnings s) true.
  Definition is_reading (s : state) : bool := reading (ifs s).

  (** mod.rs:275-289 [output]; the buffer is kept in reverse, its head is the last element. *)
  Definition emit (s : state) (t : token) (out : list output) : list output :=
    if is_reading s && negb (is_comment (t_sym t)) then
      match out with
      | o :: r =>
          if is_newline (t_sym t) && (match last_sym o with Some y => is_escape y | None => false end) then r
          else Direct t :: out
      | [] => [Direct t]
      end
    else out.

  (** whitespace.rs:13-31 with and without a buffer, 36-52 (only used without one), 57-73. *)
  Fixpoint skip_ws_out (s : state) (ts : list token) (out : list output) : list token * list output :=
    match ts with
    | t :: r => if is_space (t_sym t) then skip_ws_out s r (emit s t out) else (ts, out)
    | [] => ([], out)
    end.
  Fixpoint skip_ws (ts : list token) : list token :=
    match ts with
    | t :: r => if is_space (t_sym t) then skip_ws r else ts
    | [] => []
    end.
  Fixpoint skip_line (ts : list token) : list token :=
    match ts with
    | t :: r => if is_newline (t_sym t) then r else skip_line r
    | [] => []
    end.
  Fixpoint expect_nothing (ts : list token) : run (list token) :=
    match ts with
    | t :: r =>
        if is_newline (t_sym t) || is_eoi (t_sym t) then Ok r
        else if is_space (t_sym t) then expect_nothing r
        else Err PE1_unexpected_token
    | [] => Ok []
    end.

  (** mod.rs:225-240 [current_word], 247-254 [next_word]; the error also tells what is left of the stream, which
      [read_pragma] goes on with. *)
  Definition current_word (ts : list token) : run (list token * (token + code)) :=
    match ts with
    | t :: r =>
        if is_word (t_sym t) then Ok (r, inl t)
        else if is_eoi (t_sym t) then Ok (ts, inr PE2_unexpected_eof)
        else Ok (r, inr PE3_expected_ident)
    | [] => Panic
    end.
  Definition next_word (ts : list token) : run (token * list token) :=
    '(r, w) <- current_word (skip_ws ts) ;;
    match w with inl t => Ok (t, r) | inr c => Err c end.

  (** defines.rs:100-151 [define_read_args], from after the parenthesis; arguments in reverse. *)
  Fixpoint read_params (ts : list token) (comma_next : bool) (args : list token) : run (list token * list token) :=
    match ts with
    | [] => Ok (rev args, [])
    | t :: r =>
        match t_sym t with
        | Word _ => if comma_next then Err PE5_missing_comma else read_params r true (t :: args)
        | Comma => if comma_next then read_params r false args else Err PE1_unexpected_token
        | RParen => Ok (rev args, r)
        | Space | Tab | Comment _ => read_params r comma_next args
        | _ => Err PE1_unexpected_token
        end
    end.
  (** defines.rs:158-184 [define_read_body]; the body in reverse. *)
  Fixpoint read_body_go (ts : list token) (body : list token) : list token * list token :=
    match ts with
    | [] => (rev body, [])
    | t :: r =>
        if is_newline (t_sym t) then
          match body with
          | b :: body' => if is_escape (t_sym b) then read_body_go r (t :: body') else (rev body, r)
          | [] => (rev body, r)
          end
        else if is_eoi (t_sym t) then read_body_go r body
        else read_body_go r (t :: body)
    end.
  Definition read_body (ts : list token) : list token * list token := read_body_go (skip_ws ts) [].

  (** directives.rs:232-306 [directive_define]. *)
  Definition directive_define (s : state) (ts : list token) : run (state * list token) :=
    '(ident, ts) <- next_word ts ;;
    let name := tok_text ident in
    match ts with
    | [] => Err PE2_unexpected_eof
    | next :: rest =>
        if is_builtin name then Err PE6_change_builtin
        else
          let (old, d) := d_remove name (defs s) in
          let s := with_defs d s in
          let s := match old with Some (was, _, FromFile _) => add_warning (WRedefine ident was) s | _ => s end in
          '(def, ts) <-
            (match t_sym next with
             | LParen =>
                 '(args, ts) <- read_params rest false [] ;;
                 let (body, ts) := read_body ts in
                 let p := match body with
                          | [] => t_pos ident
                          | b :: _ => Pos (p_start (t_pos b)) (p_end (t_pos (last body b))) (p_path (t_pos ident))
                          end in
                 Ok (Func p args body, ts)
             | Newline | Eoi => Ok (Unit, ts)
             | _ => let (body, ts) := read_body ts in Ok (Value body, ts)
             end) ;;
          let s := add_macro (name, t_pos ident) s in
          Ok (with_defs (d_insert name (ident, def, FromFile (files s)) (defs s)) s, ts)
    end.
  (** directives.rs:308-319 [directive_undef]. *)
  Definition directive_undef (s : state) (ts : list token) : run (state * list token) :=
    '(ident, ts) <- next_word ts ;;
    let s := with_defs (snd (d_remove (tok_text ident) (defs s))) s in
    ts <- expect_nothing ts ;;
    Ok (s, ts).
  (** directives.rs:494-508 [directive_ifdef]. *)
  Definition directive_ifdef (s : state) (command : token) (outcome : bool) (ts : list token) : run (state * list token) :=
    '(ident, ts) <- next_word ts ;;
    let s := with_ifs (push_if command (Bool.eqb (contains_key (tok_text ident) (defs s)) outcome) (ifs s)) s in
    ts <- expect_nothing ts ;;
    Ok (s, ts).

  (** directives.rs:328-345 [read_value]. *)
  Fixpoint read_value (ts : list token) : list token * list token :=
    match ts with
    | t :: r =>
        if is_space (t_sym t) || is_newline (t_sym t) then ([], ts)
        else let (v, ts') := read_value r in (t :: v, ts')
    | [] => ([], [])
    end.
  (** directives.rs:346-360 [resolve_value], and the test for a single token around it. *)
  Definition resolve (d : defines) (v : list token) : run (defines * list token * bool) :=
    match v with
    | [t] =>
        '(d, e) <- get_with_gen t (t_pos t) d ;;
        match e with
        | Some (_, Value body, _) => Ok (d, body, true)
        | Some _ => Err PE7_if_unit_or_function
        | None => Ok (d, [t], false)
        end
    | _ => Ok (d, v, false)
    end.
  (** directives.rs:449-485: the comparison. *)
  Definition compare (op l r : text) : run bool :=
    if text_eqb op (bs "==") then Ok (text_eqb l r)
    else if text_eqb op (bs "!=") then Ok (negb (text_eqb l r))
    else if among op [bs ">"; bs ">="; bs "<"; bs "<="] then
      match parse_f64 l, parse_f64 r with
      | Some a, Some b =>
          Ok (if text_eqb op (bs ">") then flt b a else if text_eqb op (bs ">=") then fle b a
              else if text_eqb op (bs "<") then flt a b else fle a b)
      | _, _ => Err PE16_if_types
      end
    else Err PE15_if_operator.
  (** directives.rs:321-492 [directive_if]. *)
  Definition directive_if (s : state) (p : pragma) (command : token) (ts : list token) : run (state * list token) :=
    let (lhs, ts) := read_value (skip_ws ts) in
    if (match lhs with t :: _ => if sym_dec (t_sym t) (Word (bs "__has_include")) then true else false | [] => false end) then
      if flagged pe23_ignore_has_include p then Ok (with_ifs (push_if command false (ifs s)) (set_no_rapify s), skip_line ts)
      else Err PE23_has_include
    else
      '(d, lhs, left_defined) <- resolve (defs s) lhs ;;
      let s := with_defs d s in
      match lhs with
      | [] => Err PE2_unexpected_eof
      | _ =>
          let ts := skip_ws ts in
          '(s, ops, rhs, ts) <-
            (if (match ts with t :: _ => is_newline (t_sym t) | [] => false end) then
               if left_defined then Ok (s, bs "==", bs "1", ts) else Err PE8_if_undefined
             else
               let (ops, ts) := read_value ts in
               let (rhs, ts) := read_value (skip_ws ts) in
               match rhs with
               | [] => match ops with [] => Panic | _ => Err PE2_unexpected_eof end
               | _ => '(d, rhs, _) <- resolve (defs s) rhs ;;
                      Ok (with_defs d s, toks_text ops, toks_text rhs, ts)
               end) ;;
          b <- compare ops (toks_text lhs) rhs ;;
          let s := with_ifs (push_if command b (ifs s)) s in
          ts <- expect_nothing ts ;;
          Ok (s, ts)
      end.

  (** directives.rs:123-149 [read_pragma]: a missing scope (or anything that is not a word, which is dropped) means
      the line, and then the rest of the line is not looked at. *)
  Definition read_pragma (ts : list token) : run (token * scope * list token) :=
    '(code, ts) <- next_word ts ;;
    '(ts, w) <- current_word (skip_ws ts) ;;
    match w with
    | inr _ => Ok (code, SLine, ts)
    | inl t => match scope_of (tok_text t) with
               | None => Err PE20_pragma_scope
               | Some sc => ts <- expect_nothing ts ;; Ok (code, sc, ts)
               end
    end.
  (** directives.rs:96-115. *)
  Definition directive_pragma (p : pragma) (ts : list token) : run (pragma * list token) :=
    '(w, ts) <- next_word ts ;;
    if negb (text_eqb (tok_text w) (bs "hemtt")) then Ok (p, skip_line ts)
    else
      '(c, ts) <- next_word ts ;;
      if text_eqb (tok_text c) (bs "suppress") then
        '(k, sc, ts) <- read_pragma ts ;; p <- prag_suppress (tok_text k) sc p ;; Ok (p, ts)
      else if text_eqb (tok_text c) (bs "flag") then
        '(k, sc, ts) <- read_pragma ts ;; p <- prag_flag (tok_text k) sc p ;; Ok (p, ts)
      else Err PE19_pragma_unknown.

  (** directives.rs:151-198: the path of an include directive. *)
  Fixpoint read_path (close : sym) (ts : list token) : run (text * list token) :=
    match ts with
    | [] => Ok ([], [])
    | t :: r =>
        if sym_dec (t_sym t) close then Ok ([], r)
        else if is_newline (t_sym t) then Err PE13_include_not_encased
        else if is_eoi (t_sym t) then Err PE2_unexpected_eof
        else '(p, ts) <- read_path close r ;; Ok (tok_text t ++ p, ts)
    end.
  Definition include_path (ts : list token) : run (text * list token) :=
    match skip_ws ts with
    | [] => Panic
    | t :: r =>
        match t_sym t with
        | DQuote => read_path DQuote r
        | LAngle => read_path RAngle r
        | _ => Err PE13_include_not_encased
        end
    end.

  (** defines.rs:236-258: the warnings about arguments with white space at an end. *)
  Definition pad_prefixes := [bs "ARR_"; bs "TRACE_"; bs "INFO_"; bs "WARNING_"; bs "ERROR_"; bs "DEBUG_"; bs "FORMAT_"].
  Definition pad_checked (p : pragma) (name : text) : bool :=
    negb (suppressed pw3_padded_arg p)
    && (negb (flagged pw3_ignore_format p) || forallb (fun x => negb (starts_with x name)) pad_prefixes).
  Definition same_padded (t : token) (w : warning) : bool :=
    match w with WPadded t' => if token_dec t t' then true else false | _ => false end.
  Definition warn_padded (t : option token) (s : state) : state :=
    match t with
    | Some t => if is_space (t_sym t) && negb (existsb (same_padded t) (warnings s)) then add_warning (WPadded t) s else s
    | None => s
    end.
  Definition last_opt {A} (l : list A) : option A := match rev l with x :: _ => Some x | [] => None end.
  (** defines.rs:233-268: the frame of a call. *)
  Fixpoint bind_args (chk : bool) (params : list token) (args : list (list token)) (s : state) (tbl : table) : state * table :=
    match params, args with
    | a :: params, v :: args =>
        let s := if chk then warn_padded (last_opt v) (warn_padded (hd_error v) s) else s in
        bind_args chk params args s (ins (tok_text a) (a, Value v, Argument) tbl)
    | _, _ => (s, tbl)
    end.

  Definition directive_names := map bs ["if"; "else"; "endif"; "ifdef"; "ifndef"; "define"; "undef"; "include"; "pragma"]%string.
  Definition drop_joins (l : list token) : list token := filter (fun t => negb (is_join (t_sym t))) l.

  Definition result : Type := state * pragma * list token * list output.

  (** The functions below call each other. Each is written once, over the functions it may call; [fns n] ties them
      together, every call costing one unit of fuel. *)
  Record calls := Calls {
    c_file : state -> pragma -> list token -> list output -> run result;
    c_walk : option pos -> option text -> state -> pragma -> list token -> list output -> bool -> option pos -> bool -> run result;
    c_directive : state -> pragma -> list token -> list output -> run (bool * result);
    c_define_use : pos -> state -> pragma -> list token -> list output -> run result;
    c_call_args : pos -> state -> pragma -> list token -> bool -> N -> list (list token) -> list token ->
                  run (state * pragma * list token * list (list token)) }.

  Section Bodies.
  Context (go : calls).

  (** mod.rs:123-141 [line]. *)
  Definition line (s : state) (p : pragma) (ts : list token) (out : list output) : run result :=
    let (ts, out) := skip_ws_out s ts out in
    '(done, (s, p, ts, out)) <- c_directive go s p ts out ;;
    if done : bool then Ok (s, p, ts, out)
    else
      '(s, p, ts, out) <-
        (if is_reading s then c_walk go None None s p ts out false None true else Ok (s, p, skip_line ts, out)) ;;
      Ok (s, clear_line p, ts, out).
  (** mod.rs:107-121 [file]. *)
  Definition file (s : state) (p : pragma) (ts : list token) (out : list output) : run result :=
    match ts with
    | [] => Ok (s, p, ts, out)
    | t :: _ =>
        if is_eoi (t_sym t) then Ok (s, p, ts, out)
        else
          '(s, p, ts, out) <- line s p ts out ;;
          c_file go s p ts out
    end.

  (** mod.rs:143-218 [walk]. Its locals: [q] in quotes, [qp] the quote to close, [jw] only white space so far. *)
  Definition walk (callsite : option pos) (in_macro : option text) (s : state) (p : pragma) (ts : list token)
                  (out : list output) (q : bool) (qp : option pos) (jw : bool) : run result :=
    let close s out := match qp with Some p => emit s (Tok DQuote p) out | None => out end in
    match ts with
    | [] => Ok (s, p, ts, out)
    | t :: r =>
        (* copy the token and go on *)
        let copy q jw := c_walk go callsite in_macro s p r (close s (emit s t out)) q None jw in
        match t_sym t, q with
        | Word w, false =>
            if text_eqb w (bs "__EXEC") then Err PE25_exec
            else if is_unsupported w then Err PE26_builtin
            else if negb (match in_macro with Some m => text_eqb w m | None => false end) && contains_key w (defs s) then
              '(s, p, ts, out) <- c_define_use go (match callsite with Some c => c | None => t_pos t end) s p ts out ;;
              c_walk go callsite in_macro s p ts (close s out) q None false
            else copy q false
        | Hash, false =>
            if jw && (match r with c :: _ => among (tok_text c) directive_names | [] => false end) then
              '(_, (s, p, ts, out)) <- c_directive go s p ts out ;;
              c_walk go callsite in_macro s p ts out q qp true
            else if (match in_macro, r with
                     | Some _, w :: _ => is_word (t_sym w) && contains_key (tok_text w) (defs s)
                     | _, _ => false
                     end) then
              match callsite with
              | None => Panic
              | Some c =>
                  if negb (text_eqb (p_path (t_pos t)) (p_path c)) || (lc_off (p_start (t_pos t)) <? lc_off (p_start c))
                  then c_walk go callsite in_macro s p r (emit s (Tok DQuote (t_pos t)) out) q (Some (t_pos t)) jw
                  else copy q jw
              end
            else copy q jw
        | Newline, false =>
            match in_macro with
            | None => Ok (s, p, r, emit s t out)
            | Some _ => copy q true
            end
        | DQuote, _ => copy (negb q) false
        | Eoi, _ => Ok (s, p, ts, out)
        | (Space | Tab), _ => copy q jw
        | _, _ => copy q false
        end
    end.

  (** directives.rs:151-230 [directive_include]. *)
  Definition directive_include (s : state) (p : pragma) (ts : list token) (out : list output) : run (bool * result) :=
    '(path, ts) <- include_path ts ;;
    match expect_nothing ts with
    | Ok ts =>
        match files s with
        | [] => Panic
        | cur :: _ =>
            match locate cur path with
            | None => Err PE12_include_not_found
            | Some (found, mismatch) =>
                let s := if mismatch then add_warning (WIncludeCase found) s else s in
                toks <- parse found ;;
                let s := add_included found (with_files (found :: files s) s) in
                '(s, _, _, out) <- c_file go s (prag_child p) toks out ;;
                Ok (true, (with_files (tl (files s)) s, p, ts, out))
            end
        end
    | Err _ => Err PE14_include_suffix
    | Panic => Panic
    | NoFuel => NoFuel
    end.
  (** directives.rs:58-121 [directive_command]; [c] is the command word [w], [ts] what follows it. *)
  Definition directive_command (s : state) (p : pragma) (c : token) (w : text) (ts : list token) (out : list output)
    : run (bool * result) :=
    let rd := is_reading s in
    let is k := text_eqb w (bs k) in
    let lift (r : run (state * list token)) : run (bool * result) := '(s, ts) <- r ;; Ok (true, (s, p, ts, out)) in
    if is "include"%string && rd then directive_include s p ts out
    else if is "define"%string && rd then lift (directive_define s ts)
    else if is "undef"%string && rd then lift (directive_undef s ts)
    else if is "if"%string && rd then lift (directive_if s p c ts)
    else if is "ifdef"%string && rd then lift (directive_ifdef s c true ts)
    else if is "ifndef"%string && rd then lift (directive_ifdef s c false ts)
    else if is "if"%string || is "ifdef"%string || is "ifndef"%string then
      Ok (true, (with_ifs (if_push PassingChild c (ifs s)) s, p, skip_line ts, out))
    else if is "else"%string then
      lift (i <- flip c (ifs s) ;; ts <- expect_nothing ts ;; Ok (with_ifs i s, ts))
    else if is "endif"%string then lift (ts <- expect_nothing ts ;; Ok (with_ifs (if_pop (ifs s)) s, ts))
    else if is "pragma"%string && rd then
      '(p, ts) <- directive_pragma p ts ;; Ok (true, (s, p, ts, out))
    else if rd then Err PE4_unknown_directive
    else Ok (true, (s, p, skip_line ts, out)).
  (** directives.rs:36-56 [directive]: a '#' that no word follows is dropped. *)
  Definition directive (s : state) (p : pragma) (ts : list token) (out : list output) : run (bool * result) :=
    match ts with
    | h :: r =>
        match t_sym h with
        | Hash =>
            match r with
            | c :: ts' =>
                match t_sym c with
                | Word w => directive_command s p c w ts' out
                | _ => Ok (false, (s, p, r, out))
                end
            | [] => Ok (false, (s, p, r, out))
            end
        | _ => Ok (false, (s, p, ts, out))
        end
    | [] => Ok (false, (s, p, ts, out))
    end.

  (** defines.rs:186-331 [define_use]. *)
  Definition define_use (callsite : pos) (s : state) (p : pragma) (ts : list token) (out : list output) : run result :=
    '(ts, w) <- current_word ts ;;
    match w with
    | inr c => Err c
    | inl ident =>
        '(d, e) <- get_with_gen ident callsite (defs s) ;;
        let s := with_defs d s in
        let name := tok_text ident in
        match e with
        | None => Ok (s, p, ts, Direct ident :: out)
        | Some (_, Func _ params body, _) =>
            match ts with
            | [] => Panic
            | t :: r =>
                if is_lparen (t_sym t) then
                  '(s, p, ts, args) <- c_call_args go callsite s p r false 0 [] [] ;;
                  if negb (Nat.eqb (length args) (length params)) then Err PE9_argument_count
                  else
                    let (s, tbl) := bind_args (pad_checked p name) params args s [] in
                    let s := with_defs (d_push name tbl (defs s)) s in
                    '(s, p, _, layer) <- c_walk go (Some callsite) (Some name) s p (drop_joins body) [] false None true ;;
                    Ok (with_defs (d_pop (defs s)) s, p, ts, Macro ident (rev layer) :: out)
                else Err PE10_function_as_value
            end
        | Some (_, Value body, src) =>
            match src with
            | Argument => Ok (s, p, ts, Macro ident (map Direct body) :: out)
            | _ =>
                '(s, p, _, layer) <- c_walk go (Some callsite) (Some name) s p (drop_joins body) [] false None true ;;
                Ok (s, p, ts, Macro ident (rev layer) :: out)
            end
        | Some (_, Void, _) => Ok (s, p, ts, out)
        | Some (_, Unit, _) => match ts with [] => Panic | _ => Err PE11_expected_function_or_value end
        end
    end.
  (** defines.rs:31-97 [call_read_args], from after the parenthesis; [args] and [arg] in reverse. *)
  Definition call_args (callsite : pos) (s : state) (p : pragma) (ts : list token) (q : bool) (depth : N)
                       (args : list (list token)) (arg : list token) : run (state * pragma * list token * list (list token)) :=
    let fin ts := Ok (s, p, ts, rev (match arg with [] => args | _ => rev arg :: args end)) in
    match ts with
    | [] => fin []
    | t :: r =>
        let more q depth := c_call_args go callsite s p r q depth args (t :: arg) in
        if q then more (match t_sym t with DQuote => false | _ => true end) depth
        else
          match t_sym t with
          | Word w =>
              if contains_key w (defs s) then
                '(s, p, ts, inner) <- c_define_use go callsite s p ts [] ;;
                c_call_args go callsite s p ts q depth args (rev (flat_map out_toks (rev inner)) ++ arg)
              else more q depth
          | LParen => more q (depth + 1)
          | RParen => if depth =? 0 then fin r else more q (depth - 1)
          | Comma => c_call_args go callsite s p r q depth (rev arg :: args) []
          | DQuote => more true depth
          | _ => more q depth
          end
    end.
  End Bodies.

  Fixpoint fns (n : nat) : calls :=
    match n with
    | O => Calls (fun _ _ _ _ => NoFuel) (fun _ _ _ _ _ _ _ _ _ => NoFuel) (fun _ _ _ _ => NoFuel) (fun _ _ _ _ _ => NoFuel)
             (fun _ _ _ _ _ _ _ _ => NoFuel)
    | S n => let go := fns n in Calls (file go) (walk go) (directive go) (define_use go) (call_args go)
    end.

  Definition init (path : text) : state := St (Ifs [] None) (Defs [] [] 0) [path] [] [] [] false.
  (** mod.rs:70-105 [run], up to [Processed::new] (Preproc/ProcessedModel.v). *)
  Definition preprocess (n : nat) (path : text) : run (state * list output) :=
    toks <- parse path ;;
    '(s, _, _, out) <- c_file (fns n) (init path) prag_root toks [] ;;
    match if_stack (ifs s) with
    | _ :: _ => Err PE18_eoi_ifstate
    | [] =>
        let s := if text_eqb (filename path) (bs "Config.cpp") then add_warning WConfigCase s else s in
        Ok (s, rev out)
    end.
End Processor.
