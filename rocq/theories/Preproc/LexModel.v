(** The preprocessor's lexer: libs/preprocessor/src/parse/mod.rs and config.pest. *)
From Coq Require Import String.
From Verif Require Import Base.Tactics Base.Bytes Base.Ascii Base.Text Preproc.Model.
Local Open Scope N_scope.
Local Open Scope list_scope.

Section Lex.
  (** Unicode general category L (pest's LETTER), and the categories listed for [unicode] in config.pest:22. *)
  Context (letter other : N -> bool).

  (** [char::len_utf8]. *)
  Definition ulen (c : N) : N := if c <? 128 then 1 else if c <? 2048 then 2 else if c <? 65536 then 3 else 4.
  Definition byte_len (s : text) : N := fold_right (fun c n => ulen c + n) 0 s.

  (** What pest hands over for each match: the text, and the symbol it stands for (parse/mod.rs:107-160
      [to_symbol]). *)
  Record pair := Pair { pr_sym : sym; pr_text : text }.

  (** The longest run of word characters (config.pest:7 [word]). *)
  Definition word_char (c : N) : bool := letter c || is_digit c || (c =? 95).
  Fixpoint word_run (s : text) : text * text :=
    match s with
    | c :: r => if word_char c then let (a, b) := word_run r in (c :: a, b) else ([], s)
    | [] => ([], [])
    end.

  (** config.pest:9-21: the characters that are symbols of their own. *)
  Definition punctuation : list (N * sym) :=
    [(40, LParen); (41, RParen); (35, Hash); (92, Escape); (44, Comma); (34, DQuote); (39, SQuote); (60, LAngle); (62, RAngle);
     (61, Equals); (10, Newline)].
  Fixpoint symbol_of (c : N) (l : list (N * sym)) : option sym :=
    match l with [] => None | (k, y) :: l => if c =? k then Some y else symbol_of c l end.
  (** What follows [k], if [s] starts with it. *)
  Definition after_char (k : N) (s : text) : option text :=
    match s with c :: r => if c =? k then Some r else None | [] => None end.
  (** config.pest:1-6 [file]: one match. Spaces and comments are tried first (pest's implicit skipping, whose
      matches are kept), then the alternatives in order. *)
  Definition lex_plain (c : N) (r : text) : option (pair * text) :=
    if letter c || (c =? 95) then let (a, b) := word_run r in Some (Pair (Word (c :: a)) (c :: a), b)
    else if is_digit c then Some (Pair (Digit (c - 48)) [c], r)
    else match (if c =? 35 then after_char 35 r else None) with
         | Some r' => Some (Pair Join [35; 35], r')
         | None =>
             match symbol_of c punctuation with
             | Some y => Some (Pair y [c], r)
             | None => if other c then Some (Pair (Unicode [c]) [c], r) else None
             end
         end.
  Definition lex1 (s : text) : option (pair * text) :=
    match s with
    | [] => None
    | c :: r =>
        if c =? 32 then Some (Pair Space [32], r)
        else if c =? 9 then Some (Pair Tab [9], r)
        else if c =? 47 then
          match after_char 42 r with
          | Some r' =>
              match split_once_str [42; 47] r' with
              | Some (a, b) => Some (Pair (Comment ([47; 42] ++ a ++ [42; 47])) ([47; 42] ++ a ++ [42; 47]), b)
              | None => lex_plain c r
              end
          | None =>
              match after_char 47 r with
              | Some r' => Some (Pair (Comment [47; 47]) [47; 47], r')
              | None => lex_plain c r
              end
          end
        else lex_plain c r
    end.
  Fixpoint lex_all (n : nat) (s : text) : run (list pair) :=
    match n with
    | O => NoFuel
    | S n =>
        match s with
        | [] => Ok [Pair Eoi []]
        | _ => match lex1 s with
               | None => Err PE24_parse
               | Some (p, r) => l <- lex_all n r ;; Ok (p :: l)
               end
        end
    end.

  (** parse/mod.rs:28-98: the loop. *)
  Record lex_state := LS { ls_line : N; ls_col : N; ls_off : N; in_single : bool; in_double : bool; skipping : bool }.
  Definition lex_init : lex_state := LS 1 0 0 false false false.
  Definition place (st : lex_state) : linecol := LC (ls_off st) (ls_line st) (ls_col st).
  Definition newlines (s : text) : N := N.of_nat (length (split_on 10 s)) - 1.
  Definition lex_step (path : text) (st : lex_state) (p : pair) : lex_state * list token :=
    let '(LS line col off si di sk) := st in
    let start := place st in
    let len := byte_len (pr_text p) in
    let inner :=
      match pr_sym p with
      | Comment c =>
          if (si || di) && negb sk then
            [Tok (Word c) (Pos start (LC (off + 2) (line + 2) (col + 2)) path)]
          else []
      | _ => []
      end in
    let '(line, col, si, di, sk) :=
      match pr_sym p with
      | Newline => (line + 1, 0, si, di, false)
      | Comment c =>
          if si || di then (line, col, si, di, sk)
          else
            let ls := split_on 10 c in
            let count := newlines c in
            (line + count, (if 0 <? count then byte_len (last ls []) + 1 else 0), si, di, sk || text_eqb c [47; 47])
      | SQuote => if negb sk && negb di then (line, col + 1, negb si, di, sk) else (line, col, si, di, sk)
      | DQuote => if negb sk && negb si then (line, col + 1, si, negb di, sk) else (line, col, si, di, sk)
      | _ => (line, col + len, si, di, sk)
      end in
    let st := LS line col (off + len) si di sk in
    (st, if sk then inner else inner ++ [Tok (pr_sym p) (Pos start (place st) path)]).
  Fixpoint lex_loop (path : text) (st : lex_state) (ps : list pair) : list token :=
    match ps with
    | [] => []
    | p :: r => let (st, ts) := lex_step path st p in ts ++ lex_loop path st r
    end.

  (** parse/mod.rs:24-99 [parse] on the content of a file; carriage returns were removed on reading (path.rs:108). *)
  Definition parse_text (path src : text) : run (list token) :=
    ps <- lex_all (S (length src)) src ;;
    Ok (lex_loop path lex_init ps).
End Lex.

(** ASCII letters and printable characters, for examples. *)
Definition ascii_letter (c : N) : bool := ((65 <=? c) && (c <=? 90)) || ((97 <=? c) && (c <=? 122)).
Definition ascii_other (c : N) : bool := (33 <=? c) && (c <=? 126).
