(** The SQF lexer: libs/sqf/src/parser/lexer.rs (text to tokens).

    The combinators are chumsky 0.9's, as in [Sqf.ParseModel]: alternatives in order, the first success is kept;
    [repeated] is greedy and gives back the input of the attempt that fails; [p.not()] takes one character where [p]
    fails; [padded] skips white space on both sides; positions count characters. The messages of failed parses are not
    modelled: [None] is any failure. *)
From Coq Require Import String.
From Verif Require Import Base.Tactics Base.Bytes Base.Ascii Base.Text Sqf.Ast Sqf.ParseModel.
Local Open Scope N_scope.
Local Open Scope list_scope.

Section Lexer.
  (** [f32::from_str] on the texts of :222-246 (it accepts them all) and the cast [u32 as f32] (:189-190), as bit
      patterns. *)
  Context (parse_f32 : text -> N) (f32_of : N -> N).

  (** [just] on a string. *)
  Definition just (p s : text) : option text := if starts_with p s then Some (skipn (length p) s) else None.
  (** [filter(f).repeated()]. *)
  Fixpoint many (f : N -> bool) (s : text) : text * text :=
    match s with
    | c :: r => if f c then let (a, b) := many f r in (c :: a, b) else ([], s)
    | [] => ([], [])
    end.
  Definition many1 (f : N -> bool) (s : text) : option (text * text) :=
    match many f s with ([], _) => None | x => Some x end.
  (** [p.not().repeated()]. *)
  Fixpoint before (p : text -> bool) (s : text) : text * text :=
    match s with
    | c :: r => if p s then ([], s) else let (a, b) := before p r in (c :: a, b)
    | [] => ([], [])
    end.

  (** :168-173 [multi_line_comment]. *)
  Definition multi_line_comment (s : text) : option (token * text) :=
    match just (bs "/*") s with
    | Some r =>
        let (c, r) := before (starts_with (bs "*/")) r in
        match just (bs "*/") r with
        | Some r => Some (TComment (bs "/*" ++ c ++ bs "*/"), r)
        | None => None
        end
    | None => None
    end.
  (** :181-183 [newline]. *)
  Definition at_newline (s : text) : bool := starts_with [13; 10] s || starts_with [10] s.
  (** :175-179 [single_line_comment]. *)
  Definition single_line_comment (s : text) : option (token * text) :=
    match just (bs "//") s with
    | Some r => let (c, r) := before at_newline r in Some (TComment (bs "//" ++ c), r)
    | None => None
    end.
  (** :161-166 [comment]. *)
  Definition comment (s : text) : option (token * text) :=
    match multi_line_comment s with Some x => Some x | None => single_line_comment s end.

  (** :248-250 [number_digits]. *)
  Definition number_digits : text -> option (text * text) := many1 is_digit.
  (** A digit of [one_of("0123456789abcdefABCDEF")] (:200) and its value. *)
  Definition hex_value (c : N) : option N :=
    if is_digit c then Some (c - 48)
    else if (97 <=? c) && (c <=? 102) then Some (c - 87)
    else if (65 <=? c) && (c <=? 70) then Some (c - 55)
    else None.
  Definition is_hex (c : N) : bool := match hex_value c with Some _ => true | None => false end.
  Definition radix_value (radix : N) (s : text) : N :=
    fold_left (fun v c => v * radix + match hex_value c with Some d => d | None => 0 end) s 0.
  (** [u32::from_str_radix] on digits: the value if it fits. *)
  Definition fits_u32 (v : N) : option N := if v <? 2 ^ 32 then Some v else None.
  (** :199-207 [number_hex]. *)
  Definition number_hex (s : text) : option (N * text) :=
    match match just (bs "$") s with Some r => Some r | None => just (bs "0x") s end with
    | Some r =>
        match many1 is_hex r with
        | Some (ds, r) => match fits_u32 (radix_value 16 ds) with Some v => Some (v, r) | None => None end
        | None => None
        end
    | None => None
    end.
  (** :209-215 [number_int]. *)
  Definition number_int (s : text) : option (N * text) :=
    match number_digits s with
    | Some (ds, r) => match fits_u32 (radix_value 10 ds) with Some v => Some (v, r) | None => None end
    | None => None
    end.
  (** :217-228 [number_float_exponent]. *)
  Definition is_exponent (c : N) : bool := (c =? 101) || (c =? 69).
  Definition is_sign (c : N) : bool := (c =? 45) || (c =? 43).
  Definition whole_and_point (s : text) : text * text :=
    match number_digits s with
    | Some (ds, 46 :: r) => (ds ++ [46], r)
    | _ => ([], s)
    end.
  Definition number_float_exponent (s : text) : option (N * text) :=
    let (a, s) := whole_and_point s in
    match number_digits s with
    | Some (b, c :: s) =>
        if is_exponent c then
          let (sign, s) := match s with d :: r => if is_sign d then ([d], r) else ([], s) | [] => ([], s) end in
          match number_digits s with
          | Some (e, s) => Some (parse_f32 (a ++ b ++ [c] ++ sign ++ e), s)
          | None => None
          end
        else None
    | _ => None
    end.
  (** :230-239 [number_float_basic]. *)
  Definition number_float_basic (s : text) : option (N * text) :=
    let (a, s) := many is_digit s in
    match s with
    | 46 :: s =>
        match number_digits s with
        | Some (b, s) => Some (parse_f32 (a ++ [46] ++ b), s)
        | None => None
        end
    | _ => None
    end.
  (** :186-196 [number]. *)
  Definition number (s : text) : option (N * text) :=
    match number_float_exponent s with
    | Some x => Some x
    | None =>
        match number_float_basic s with
        | Some x => Some x
        | None =>
            match number_hex s with
            | Some (v, r) => Some (f32_of v, r)
            | None => match number_int s with Some (v, r) => Some (f32_of v, r) | None => None end
            end
        end
    end.

  (** [chumsky::text::ident]: an ASCII letter or underscore, then letters, digits and underscores. *)
  Definition is_name_start (c : N) : bool := ((65 <=? c) && (c <=? 90)) || ((97 <=? c) && (c <=? 122)) || (c =? 95).
  Definition identifier (s : text) : option (text * text) :=
    match s with
    | c :: r => if is_name_start c then let (a, b) := many is_name_char r in Some (c :: a, b) else None
    | [] => None
    end.

  (** :252-258 [string]: two delimiters in a row stand for one. *)
  Fixpoint string_content (d : N) (s : text) : text * text :=
    match s with
    | c :: r =>
        if c =? d then
          match r with
          | c' :: r' => if c' =? d then let (a, b) := string_content d r' in (d :: a, b) else ([], s)
          | [] => ([], s)
          end
        else let (a, b) := string_content d r in (c :: a, b)
    | [] => ([], [])
    end.
  Definition string_literal (d : N) (s : text) : option (text * text) :=
    match just [d] s with
    | Some r =>
        let (c, r) := string_content d r in
        match just [d] r with Some r => Some (c, r) | None => None end
    | None => None
    end.
  (** lib.rs:149-157 [StringWrapper::as_str]. *)
  Definition wrapper_char (w : wrapper) : N := match w with SingleQuote => 39 | DoubleQuote => 34 end.

  (** [choice] of [just]s. *)
  Fixpoint first_just {A} (table : list (string * A)) (s : text) : option (A * text) :=
    match table with
    | [] => None
    | (p, a) :: rest => match just (bs p) s with Some r => Some (a, r) | None => first_just rest s end
    end.
  (** :260-282 [operator]. *)
  Definition operator_table : list (string * operator) :=
    [("&&", OAnd); ("||", OOr); ("==", OEq); ("!=", ONotEq); (">>", OConfigPath); (">=", OGreaterEq); ("<=", OLessEq);
     (">", OGreater); ("<", OLess); ("!", ONot); ("+", OAdd); ("-", OSub); ("*", OMul); ("/", ODiv); ("%", ORem); ("^", OExp);
     ("=", OAssign); (":", OAssociate); ("#", OSelect)]%string.
  (** :284-295 [control]. *)
  Definition control_table : list (string * control) :=
    [(";", Terminator); (",", Separator); ("[", SquareOpen); ("]", SquareClose); ("(", RoundOpen); (")", RoundClose);
     ("{", CurlyOpen); ("}", CurlyClose)]%string.

  (** :146-149. *)
  Definition constant (s : text) : option (token * text) :=
    match number s with
    | Some (v, r) => Some (TNumber v, r)
    | None =>
        match identifier s with
        | Some (x, r) => Some (TIdent x, r)
        | None =>
            match string_literal (wrapper_char SingleQuote) s with
            | Some (x, r) => Some (TString x SingleQuote, r)
            | None =>
                match string_literal (wrapper_char DoubleQuote) s with
                | Some (x, r) => Some (TString x DoubleQuote, r)
                | None => None
                end
            end
        end
    end.
  (** :150 [not_constant]: at the end, or where no constant can be read. *)
  Definition not_constant (s : text) : bool :=
    match s with [] => true | _ => match constant s with Some _ => false | None => true end end.
  (** :140-158 [base]. *)
  Definition base_token (s : text) : option (token * text) :=
    match first_just operator_table s with
    | Some (o, r) => Some (TOp o, r)
    | None =>
        match first_just control_table s with
        | Some (c, r) => Some (TCtl c, r)
        | None =>
            match constant s with
            | Some (t, r) => if not_constant r then Some (t, r) else None
            | None => None
            end
        end
    end.
  Definition next_token (s : text) : option (token * text) :=
    match comment s with Some x => Some x | None => base_token s end.

  (** :131-138 [lexer]: [pos] is the place of the first character of [s]. Every round takes at least one character, so
      as many rounds as there are characters suffice. *)
  Definition chars (s : text) : N := N.of_nat (length s).
  Fixpoint lex_tokens (n : nat) (pos : N) (s : text) : option (list ltoken) :=
    match n with
    | O => None
    | S n =>
        let t := trim_start s in
        let pos := pos + (chars s - chars t) in
        match t with
        | [] => Some []
        | _ =>
            match next_token t with
            | Some (tok, r) =>
                let stop := pos + (chars t - chars r) in
                match lex_tokens n stop r with
                | Some ts => Some ((tok, (pos, stop)) :: ts)
                | None => None
                end
            | None => None
            end
        end
    end.
  (** :127-129 [run]. *)
  Definition lex (s : text) : option (list ltoken) := lex_tokens (S (length s)) 0 s.
End Lexer.
