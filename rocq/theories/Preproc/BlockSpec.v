(** Programs with conditional blocks and what they mean: a block reading, without a stack of states. *)
From Coq Require Import String.
From Verif Require Import Base.Tactics Base.Bytes Base.Ascii Base.Text Preproc.Model Preproc.Spec.
Local Open Scope N_scope.
Local Open Scope list_scope.

(** A line is its tokens and the newline that ends it. *)
Record pline := Line { on : list token; newline : token }.
(** Source text as a sequence of lines and of blocks
      #if ... / lines / #endif      and      #if ... / lines / #else / lines / #endif. *)
Inductive prog :=
| Done
| Then (l : pline) (rest : prog)
| If (open : pline) (yes : prog) (close : pline) (rest : prog)
| IfElse (open : pline) (yes : prog) (middle : pline) (no : prog) (close : pline) (rest : prog).
Definition line_toks (l : pline) : list token := on l ++ [newline l].
Fixpoint source_of (pr : prog) : list token :=
  match pr with
  | Done => []
  | Then l rest => line_toks l ++ source_of rest
  | If o y c rest => line_toks o ++ source_of y ++ line_toks c ++ source_of rest
  | IfElse o y m n c rest => line_toks o ++ source_of y ++ line_toks m ++ source_of n ++ line_toks c ++ source_of rest
  end.

Definition blank (l : list token) : Prop := forall t, In t l -> is_space (t_sym t) = true.
Definition solid (l : list token) : Prop := l <> [] /\ forall t, In t l -> is_space (t_sym t) = false.
(** A line of the file: nothing in it is a newline or the end of the file. *)
Definition good (l : pline) : Prop :=
  t_sym (newline l) = Newline /\ forall t, In t (on l) -> t_sym t <> Newline /\ t_sym t <> Eoi.
(** [l] is the directive [#w], [args] what follows it. *)
Definition is_directive (l : pline) (c : token) (w : text) (args : list token) : Prop :=
  good l /\ t_sym c = Word w /\ exists ws h, blank ws /\ t_sym h = Hash /\ on l = ws ++ h :: c :: args.
(** A program without blocks and includes. *)
Fixpoint flat (pr : prog) : Prop :=
  match pr with
  | Done => True
  | Then l rest => ~ (exists c args, is_directive l c (bs "include") args) /\ flat rest
  | _ => False
  end.
(** [l] is not a directive: it is empty, or starts with something else than [#]. *)
Definition is_text (l : pline) : Prop :=
  good l /\ exists ws ts, blank ws /\ on l = ws ++ ts /\ match ts with [] => True | t :: _ => is_space (t_sym t) = false /\ t_sym t <> Hash end.
(** The white space before a directive: it is written like that of any other line. *)
Fixpoint leading (l : list token) : list token := match l with t :: r => if is_space (t_sym t) then t :: leading r else [] | [] => [] end.
Definition indent (l : pline) : list output := flat_map shown (leading (on l)).
Definition opens (w : text) : Prop := w = bs "if" \/ w = bs "ifdef" \/ w = bs "ifndef".

(** Lines that are skipped in a branch that is not taken: anything but the conditional directives, which must be those
    of the blocks. *)
Inductive skippable : prog -> Prop :=
| K_done : skippable Done
| K_text l rest : is_text l -> skippable rest -> skippable (Then l rest)
| K_directive l c w args rest :
    is_directive l c w args -> ~ opens w -> w <> bs "else" -> w <> bs "endif" -> skippable rest -> skippable (Then l rest)
| K_if o y c rest c1 w args c2 ws2 :
    is_directive o c1 w args -> opens w -> skippable y -> is_directive c c2 (bs "endif") ws2 -> blank ws2 ->
    skippable rest -> skippable (If o y c rest)
| K_ifelse o y m n c rest c1 w args c2 ws2 c3 ws3 :
    is_directive o c1 w args -> opens w -> skippable y -> is_directive m c2 (bs "else") ws2 -> blank ws2 -> skippable n ->
    is_directive c c3 (bs "endif") ws3 -> blank ws3 -> skippable rest -> skippable (IfElse o y m n c rest).

(** A definition line: name and macro, without the source of the definition. *)
Definition ends_escaped (l : list token) : Prop := exists a t, l = a ++ [t] /\ t_sym t = Escape.
Inductive defines_macro : list token -> token -> definition -> Prop :=
| D_unit ws name w : blank ws -> t_sym name = Word w -> defines_macro (ws ++ [name]) name Unit
| D_value ws name w sep ws' body :
    blank ws -> t_sym name = Word w -> is_space (t_sym sep) = true -> blank ws' ->
    (match body with [] => True | b :: _ => is_space (t_sym b) = false end) -> ~ ends_escaped body ->
    defines_macro (ws ++ name :: sep :: ws' ++ body) name (Value body)
| D_func0 ws name w lp rp ws' body :
    blank ws -> t_sym name = Word w -> t_sym lp = LParen -> t_sym rp = RParen -> blank ws' ->
    (match body with [] => True | b :: _ => is_space (t_sym b) = false end) -> ~ ends_escaped body ->
    defines_macro (ws ++ name :: lp :: rp :: ws' ++ body) name
      (Func (match body with [] => t_pos name | b :: _ => Pos (p_start (t_pos b)) (p_end (t_pos (last body b))) (p_path (t_pos name)) end) [] body)
| D_func ws name w lp ps params rp ws' body :
    blank ws -> t_sym name = Word w -> t_sym lp = LParen -> parameters ps params -> t_sym rp = RParen -> blank ws' ->
    (match body with [] => True | b :: _ => is_space (t_sym b) = false end) -> ~ ends_escaped body ->
    defines_macro (ws ++ name :: lp :: ps ++ rp :: ws' ++ body) name
      (Func (match body with [] => t_pos name | b :: _ => Pos (p_start (t_pos b)) (p_end (t_pos (last body b))) (p_path (t_pos name)) end) params body)
(** Parameter names between commas, white space around them. *)
with parameters : list token -> list token -> Prop :=
| R_one ws1 p w ws2 : blank ws1 -> t_sym p = Word w -> blank ws2 -> parameters (ws1 ++ p :: ws2) [p]
| R_more ws1 p w ws2 comma r ps :
    blank ws1 -> t_sym p = Word w -> blank ws2 -> t_sym comma = Comma -> parameters r ps ->
    parameters (ws1 ++ p :: ws2 ++ comma :: r) (p :: ps).

Definition update (g : names) (k : text) (m : option entry) : names := fun k' => if text_dec k' k then m else g k'.

Section Blocks.
  Context (project : option (option text * text)).
  Context (F : Type) (parse_f64 : text -> option F) (flt fle : F -> F -> bool).
  (** Finding the file an include names, and its tokens. *)
  Context (locate : text -> text -> option (text * bool)) (parse : text -> run (list token)).

  (** The value of an operand of [#if]: a single word that is a macro stands for the macro's body, everything else for
      itself. *)
  Inductive operand (g : names) : N -> list token -> N -> list token -> Prop :=
  | O_macro c t c1 body from : meaning project (Env g None) (t_pos t) t c c1 (Value body, from) -> operand g c [t] c1 body
  | O_plain c t : ~ computed (tok_text t) -> g (tok_text t) = None -> operand g c [t] c [t]
  | O_long c t1 t2 ts : operand g c (t1 :: t2 :: ts) c (t1 :: t2 :: ts).
  Inductive compares : text -> text -> text -> bool -> Prop :=
  | C_eq a b : compares (bs "==") a b (text_eqb a b)
  | C_ne a b : compares (bs "!=") a b (negb (text_eqb a b))
  | C_gt a b x y : parse_f64 a = Some x -> parse_f64 b = Some y -> compares (bs ">") a b (flt y x)
  | C_ge a b x y : parse_f64 a = Some x -> parse_f64 b = Some y -> compares (bs ">=") a b (fle y x)
  | C_lt a b x y : parse_f64 a = Some x -> parse_f64 b = Some y -> compares (bs "<") a b (flt x y)
  | C_le a b x y : parse_f64 a = Some x -> parse_f64 b = Some y -> compares (bs "<=") a b (fle x y).
  (** [holds g c l c' b]: the condition opened by the line [l] is [b]. *)
  Inductive holds (g : names) : N -> pline -> N -> bool -> Prop :=
  | H_ifdef c l cmd ws x w ws' b :
      is_directive l cmd (bs "ifdef") (ws ++ x :: ws') -> blank ws -> t_sym x = Word w -> blank ws' ->
      (b = true <-> visible (Env g None) w) -> holds g c l c b
  | H_ifndef c l cmd ws x w ws' b :
      is_directive l cmd (bs "ifndef") (ws ++ x :: ws') -> blank ws -> t_sym x = Word w -> blank ws' ->
      (b = true <-> ~ visible (Env g None) w) -> holds g c l c b
  | H_if c l cmd ws x ws' c1 body from :
      is_directive l cmd (bs "if") (ws ++ x :: ws') -> blank ws -> is_space (t_sym x) = false ->
      t_sym x <> Word (bs "__has_include") -> blank ws' ->
      meaning project (Env g None) (t_pos x) x c c1 (Value body, from) -> body <> [] ->
      holds g c l c1 (text_eqb (toks_text body) (bs "1"))
  | H_compare c l cmd ws a wa op wo b wb c1 c2 va vb r :
      is_directive l cmd (bs "if") (ws ++ a ++ wa ++ op ++ wo ++ b ++ wb) -> blank ws -> solid a -> blank wa -> wa <> [] ->
      solid op -> blank wo -> wo <> [] -> solid b -> blank wb ->
      (match a with t :: _ => t_sym t <> Word (bs "__has_include") | [] => True end) ->
      operand g c a c1 va -> va <> [] -> operand g c1 b c2 vb ->
      compares (toks_text op) (toks_text va) (toks_text vb) r -> holds g c l c2 r.

  (** [exec from g c pr g' c' o]: the program [pr] in the file [hd from] (included by the rest of [from]), run with the macros [g], writes [o] and leaves the macros [g']. The line of
      a definition without a body leaves its newline in the text, all other directives take theirs away. *)
  Inductive exec : list text -> names -> N -> prog -> names -> N -> list output -> Prop :=
  | E_done fs g c : exec fs g c Done g c []
  | E_text fs g c l rest c1 o1 g2 c2 o2 :
      is_text l -> expand project (Env g None) None None c (on l) c1 o1 -> exec fs g c1 rest g2 c2 o2 ->
      exec fs g c (Then l rest) g2 c2 (o1 ++ Direct (newline l) :: o2)
  | E_define fs g c l cmd args name def rest g2 c2 o2 :
      is_directive l cmd (bs "define") args -> defines_macro args name def -> is_builtin (tok_text name) = false ->
      exec fs (update g (tok_text name) (Some (name, def, FromFile fs))) c rest g2 c2 o2 ->
      exec fs g c (Then l rest) g2 c2 (indent l ++ (match def with Unit => [Direct (newline l)] | _ => [] end) ++ o2)
  | E_undef fs g c l cmd ws x w ws' rest g2 c2 o2 :
      is_directive l cmd (bs "undef") (ws ++ x :: ws') -> blank ws -> t_sym x = Word w -> blank ws' ->
      exec fs (update g w None) c rest g2 c2 o2 -> exec fs g c (Then l rest) g2 c2 (indent l ++ o2)
  | E_include cur up g c l cmd ws q path q' ws' found other pr eoi rest g1 c1 o1 g2 c2 o2 :
      is_directive l cmd (bs "include") (ws ++ q :: path ++ q' :: ws') -> blank ws -> blank ws' ->
      (t_sym q = DQuote /\ t_sym q' = DQuote \/ t_sym q = LAngle /\ t_sym q' = RAngle) ->
      (forall t, In t path -> t_sym t <> t_sym q') ->
      locate cur (toks_text path) = Some (found, other) -> parse found = Ok (source_of pr ++ [eoi]) -> t_sym eoi = Eoi ->
      exec (found :: cur :: up) g c pr g1 c1 o1 -> exec (cur :: up) g1 c1 rest g2 c2 o2 ->
      exec (cur :: up) g c (Then l rest) g2 c2 (indent l ++ o1 ++ o2)
  | E_if_yes fs g c o y cl rest c1 c2 ws2 g1 c3 o1 g2 c4 o2 :
      holds g c o c1 true -> exec fs g c1 y g1 c3 o1 -> is_directive cl c2 (bs "endif") ws2 -> blank ws2 ->
      exec fs g1 c3 rest g2 c4 o2 -> exec fs g c (If o y cl rest) g2 c4 (indent o ++ o1 ++ indent cl ++ o2)
  | E_if_no fs g c o y cl rest c1 c2 ws2 g2 c4 o2 :
      holds g c o c1 false -> skippable y -> is_directive cl c2 (bs "endif") ws2 -> blank ws2 ->
      exec fs g c1 rest g2 c4 o2 -> exec fs g c (If o y cl rest) g2 c4 (indent o ++ o2)
  | E_else_yes fs g c o y m n cl rest c1 c2 ws2 c3 ws3 g1 cc o1 g2 c4 o2 :
      holds g c o c1 true -> exec fs g c1 y g1 cc o1 -> is_directive m c2 (bs "else") ws2 -> blank ws2 -> skippable n ->
      is_directive cl c3 (bs "endif") ws3 -> blank ws3 ->
      exec fs g1 cc rest g2 c4 o2 -> exec fs g c (IfElse o y m n cl rest) g2 c4 (indent o ++ o1 ++ indent m ++ o2)
  | E_else_no fs g c o y m n cl rest c1 c2 ws2 c3 ws3 g1 cc o1 g2 c4 o2 :
      holds g c o c1 false -> skippable y -> is_directive m c2 (bs "else") ws2 -> blank ws2 -> exec fs g c1 n g1 cc o1 ->
      is_directive cl c3 (bs "endif") ws3 -> blank ws3 ->
      exec fs g1 cc rest g2 c4 o2 -> exec fs g c (IfElse o y m n cl rest) g2 c4 (indent o ++ o1 ++ indent cl ++ o2).
End Blocks.

(** ** The lines that remain of a program whose conditions are all [#ifdef] and [#ifndef] and whose lines use no macro *)
Section Selected.
  Context (defined : text -> bool).
  (** [#ifdef X] holds if [X] is defined, [#ifndef X] if not. *)
  Definition taken (l : pline) : bool :=
    match on l with
    | [_; c; _; x] => if text_eqb (tok_text c) (bs "ifdef") then defined (tok_text x) else negb (defined (tok_text x))
    | _ => false
    end.
  Fixpoint selected (pr : prog) : list pline :=
    match pr with
    | Done => []
    | Then l rest => l :: selected rest
    | If o y _ rest => (if taken o then selected y else []) ++ selected rest
    | IfElse o y _ n _ rest => (if taken o then selected y else selected n) ++ selected rest
    end.
  (** A line of text: no directive, quotes, backslashes, or names that stand for something. *)
  Definition tidy_line (l : pline) : Prop :=
    t_sym (newline l) = Newline /\
    forall t, In t (on l) -> match t_sym t with
                             | Word w => ~ refused w /\ defined w = false
                             | Hash | DQuote | Newline | Eoi | Escape => False
                             | _ => True
                             end.
  Definition tidy_open (l : pline) : Prop :=
    t_sym (newline l) = Newline /\
    exists h c sp x w, on l = [h; c; sp; x] /\ t_sym h = Hash /\ (t_sym c = Word (bs "ifdef") \/ t_sym c = Word (bs "ifndef")) /\
      t_sym sp = Space /\ t_sym x = Word w.
  Definition tidy_word (k : text) (l : pline) : Prop :=
    t_sym (newline l) = Newline /\ exists h c, on l = [h; c] /\ t_sym h = Hash /\ t_sym c = Word k.
  Fixpoint tidy (pr : prog) : Prop :=
    match pr with
    | Done => True
    | Then l rest => tidy_line l /\ tidy rest
    | If o y c rest => tidy_open o /\ tidy y /\ tidy_word (bs "endif") c /\ tidy rest
    | IfElse o y m n c rest => tidy_open o /\ tidy y /\ tidy_word (bs "else") m /\ tidy n /\ tidy_word (bs "endif") c /\ tidy rest
    end.
End Selected.
