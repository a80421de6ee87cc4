(** Model of libs/config/src/parse: config text to config tree.
    Text is a list of code points; the strings of the tree hold code points here (RapModel.v stores their
    UTF-8 bytes). The parser is written with the chumsky 0.9.3 combinators; the
    meaning given to each combinator used is stated next to its definition. chumsky is a dependency whose source is
    not part of the repository: these meanings are part of the trusted base. *)
From Coq Require Import String.
From Verif Require Import Base.Tactics Base.Bytes Base.Ascii Base.Text Config.RapModel.
Local Open Scope N_scope.

(** Outcome of a parser: a value and the rest of the text; an ordinary failure; the error-recovery paths
    ([recover_with]), whose results carry errors so that the build stops, left unspecified; a panic;
    or the model's own recursion bound (excluded by a theorem). *)
Inductive pres (A : Type) :=
| POk (a : A) (rest : text)
| PErr
| PRec
| PPanic
| PFuel.
Arguments POk {A} a rest.
Arguments PErr {A}.
Arguments PRec {A}.
Arguments PPanic {A}.
Arguments PFuel {A}.
Definition parser (A : Type) := text -> pres A.

(** Sequencing ([then], [ignore_then], [then_ignore], [chain]): stop at the first part that does not succeed. *)
Definition pbind {A B} (p : parser A) (k : A -> parser B) : parser B :=
  fun s => match p s with
           | POk a r => k a r
           | PErr => PErr | PRec => PRec | PPanic => PPanic | PFuel => PFuel
           end.
Notation "x <-- p ;; k" := (pbind p (fun x => k)) (at level 61, p at next level, right associativity).
Definition pret {A} (a : A) : parser A := fun s => POk a s.
(** [map]. *)
Definition pmap {A B} (f : A -> B) (p : parser A) : parser B := x <-- p ;; pret (f x).
(** [just(str)] / [just(char)]. *)
Definition just (w : text) : parser unit :=
  fun s => if starts_with w s then POk tt (skipn (length w) s) else PErr.
(** [one_of] / [none_of] / [not]: one character satisfying a test. *)
Definition sat (f : N -> bool) : parser N :=
  fun s => match s with c :: r => if f c then POk c r else PErr | [] => PErr end.
(** [padded]: white space before and after. *)
Definition padded {A} (p : parser A) : parser A :=
  fun s => match p (trim_start s) with
           | POk a r => POk a (trim_start r)
           | e => e
           end.
(** [or_not]: failure rewinds. *)
Definition or_not {A} (p : parser A) : parser (option A) :=
  fun s => match p s with
           | POk a r => POk (Some a) r
           | PErr => POk None s
           | PRec => PRec | PPanic => PPanic | PFuel => PFuel
           end.
(** [choice]: the first alternative that succeeds, even by recovery. *)
Definition alt {A} (p q : parser A) : parser A :=
  fun s => match p s with PErr => q s | r => r end.
(** [a.or(b)]: as [choice], but when [a] only succeeds by recovery a clean success of [b] is preferred. *)
Definition por {A} (p q : parser A) : parser A :=
  fun s => match p s with
           | PErr => q s
           | PRec => match q s with
                     | POk a r => POk a r
                     | PErr => PRec
                     | e => e
                     end
           | r => r
           end.
(** [repeated]: as many as possible; the failing attempt is rewound. [fuel] bounds the number of items. *)
Fixpoint repeated {A} (fuel : nat) (p : parser A) : parser (list A) :=
  fun s =>
    match fuel with
    | O => PFuel
    | S f =>
        match p s with
        | POk a r => match repeated f p r with
                     | POk l r' => POk (a :: l) r'
                     | e => e
                     end
        | PErr => POk [] s
        | PRec => PRec | PPanic => PPanic | PFuel => PFuel
        end
    end.
(** [.at_least(n)]. *)
Definition at_least {A} (n : nat) (p : parser (list A)) : parser (list A) :=
  fun s => match p s with
           | POk l r => if (length l <? n)%nat then PErr else POk l r
           | e => e
           end.
(** [p.separated_by(d)]: items with separators between; a separator not followed by an item is rewound
    ... *)
Fixpoint sep_tail {A} (fuel : nat) (p : parser A) (d : parser unit) : parser (list A) :=
  fun s =>
    match fuel with
    | O => PFuel
    | S f =>
        match d s with
        | POk _ r =>
            match p r with
            | POk a r' => match sep_tail f p d r' with
                          | POk l r'' => POk (a :: l) r''
                          | e => e
                          end
            | PErr => POk [] s
            | PRec => PRec | PPanic => PPanic | PFuel => PFuel
            end
        | PErr => POk [] s
        | PRec => PRec | PPanic => PPanic | PFuel => PFuel
        end
    end.
Definition separated_by {A} (fuel : nat) (p : parser A) (d : parser unit) : parser (list A) :=
  fun s => match p s with
           | POk a r => match sep_tail fuel p d r with
                        | POk l r' => POk (a :: l) r'
                        | e => e
                        end
           | PErr => POk [] s
           | PRec => PRec | PPanic => PPanic | PFuel => PFuel
           end.
(** ... unless [.allow_trailing()] lets one separator be read after at least one item. *)
Definition allow_trailing {A} (d : parser unit) (p : parser (list A)) : parser (list A) :=
  fun s => match p s with
           | POk l r =>
               match l with
               | [] => POk l r
               | _ => match d r with
                      | POk _ r' => POk l r'
                      | PErr => POk l r
                      | PRec => PRec | PPanic => PPanic | PFuel => PFuel
                      end
               end
           | e => e
           end.
(** [recover_with(strategy)]: [can s] says whether the strategy finds a place to resume. *)
Definition recover {A} (can : text -> bool) (p : parser A) : parser A :=
  fun s => match p s with PErr => if can s then PRec else PErr | r => r end.
(** [.map(f)] where [f] may panic ([expect]). *)
Definition pexpect {A B} (f : A -> option B) (p : parser A) : parser B :=
  fun s => match p s with
           | POk a r => match f a with Some b => POk b r | None => PPanic end
           | PErr => PErr | PRec => PRec | PPanic => PPanic | PFuel => PFuel
           end.
(** [.try_map(f)] where [f] may reject. *)
Definition ptry {A B} (f : A -> option B) (p : parser A) : parser B :=
  fun s => match p s with
           | POk a r => match f a with Some b => POk b r | None => PErr end
           | PErr => PErr | PRec => PRec | PPanic => PPanic | PFuel => PFuel
           end.

(** ** parse/ident.rs:5-11 *)
Definition ident_char (c : N) : bool :=
  is_digit c || ((97 <=? c) && (c <=? 122)) || ((65 <=? c) && (c <=? 90)) || (c =? 95).
Definition ident : parser text := fun s => at_least 1 (repeated (S (length s)) (sat ident_char)) s.

(** ** parse/str.rs *)
(** str.rs:6: one character of a string: anything but the delimiter, or a doubled delimiter. *)
Definition str_content (d : N) : parser N :=
  alt (sat (fun c => negb (c =? d))) (pmap (fun _ => d) (just [d; d])).
(** str.rs:7-10. *)
Definition str_segment (d : N) : parser text :=
  _ <-- just [d] ;;
  cs <-- (fun s => repeated (S (length s)) (str_content d) s) ;;
  _ <-- just [d] ;;
  pret cs.
(** [str::replace("\\\n", "")] (str.rs:21): drop every backslash-newline pair, left to right. *)
Fixpoint drop_continuations (s : text) : text :=
  match s with
  | [] => []
  | c :: r =>
      match r with
      | [] => [c]
      | c2 :: r2 => if (c =? 92) && (c2 =? 10) then drop_continuations r2 else c :: drop_continuations r
      end
  end.
(** str.rs:5-24 [string]. *)
Definition string_lit (d : N) : parser text :=
  pmap (fun segs => drop_continuations (join [10] segs))
    (fun s => at_least 1 (separated_by (S (length s)) (str_segment d) (padded (just (bs "\n")))) s).

(** ** parse/number.rs *)
Section Params.
  (** [f32::from_str] as a bit pattern; [f32]'s Display; [Number::try_evaulation] (model/number.rs:32-51), which
      evaluates an arithmetic expression in f64 (common/src/math.rs, Common/MathModel.v) and converts the result. *)
  Context (f32_parse : text -> option N) (f32_show : N -> text) (try_eval : text -> option number).

  (** number.rs:78-80. *)
  Definition number_digits : parser text := fun s => at_least 1 (repeated (S (length s)) (sat is_digit)) s.

  (** A digit's value in base 16; [u64::from_str_radix] style accumulation with overflow check against
      [i64::MAX] (the digits carry no sign). *)
  Definition hex_val (c : N) : option N :=
    if is_digit c then Some (c - 48)
    else if (97 <=? c) && (c <=? 102) then Some (c - 87)
    else if (65 <=? c) && (c <=? 70) then Some (c - 55)
    else None.
  Fixpoint radix_val (radix : N) (acc : N) (s : text) : option N :=
    match s with
    | [] => Some acc
    | c :: r =>
        match hex_val c with
        | Some v =>
            let acc' := acc * radix + v in
            if acc' <=? 9223372036854775807 then radix_val radix acc' r else None
        | None => None
        end
    end.
  (** number.rs:38-45 [number_hex]. *)
  Definition number_hex : parser N :=
    ptry (radix_val 16 0)
      (_ <-- just (bs "0x") ;;
       (fun s => at_least 1 (repeated (S (length s)) (sat (fun c => match hex_val c with Some _ => true | None => false end))) s)).
  (** number.rs:47-53 [number_int]: [i64::from_str]. *)
  Definition number_int : parser N := ptry (radix_val 10 0) number_digits.

  (** number.rs:55-66 [number_float_exponent]. *)
  Definition one_char (f : N -> bool) : parser text := pmap (fun c => [c]) (sat f).
  Definition number_float_exponent : parser N :=
    ptry f32_parse
      (a <-- or_not (ds <-- number_digits ;; _ <-- just [46] ;; pret (ds ++ [46])) ;;
       b <-- number_digits ;;
       e <-- one_char (fun c => (c =? 101) || (c =? 69)) ;;
       sg <-- or_not (one_char (fun c => (c =? 45) || (c =? 43))) ;;
       x <-- number_digits ;;
       pret ((match a with Some t => t | None => [] end) ++ b ++ e ++ (match sg with Some t => t | None => [] end) ++ x)).
  (** number.rs:68-76 [number_float_basic]. *)
  Definition number_float_basic : parser N :=
    ptry f32_parse
      (a <-- or_not number_digits ;;
       _ <-- just [46] ;;
       b <-- number_digits ;;
       pret ((match a with Some t => t | None => [] end) ++ [46] ++ b)).

  (** number.rs:12-19 and 22-29: an [i64] becomes an Int32 unless it exceeds [i32::MAX]. *)
  Definition int_number (v : N) : number :=
    if 2147483647 <? v then Int64 (Z.of_N v) else Int32 (Z.of_N v).
  (** model/number.rs:55-70 [negate]. Negating an f32 flips the sign bit. *)
  Definition negate (n : number) : number :=
    match n with
    | Int32 v => Int32 (- v)
    | Int64 v => Int64 (- v)
    | Float32 b => Float32 (N.lxor b 2147483648)
    end.
  (** number.rs:5-36 [number]. *)
  Definition number_lit : parser number :=
    sign <-- or_not (just [45]) ;;
    n <-- alt (pmap Float32 number_float_exponent)
         (alt (pmap Float32 number_float_basic)
         (alt (pmap int_number number_hex)
              (pmap int_number number_int))) ;;
    pret (match sign with Some _ => negate n | None => n end).

  (** ** parse/value.rs *)
  (** model/number.rs:83-91 [Display]. *)
  Definition show_int (v : Z) : text := (if (v <? 0)%Z then [45] else []) ++ dec (Z.to_N (Z.abs v)).
  Definition show_number (n : number) : text :=
    match n with
    | Int32 v | Int64 v => show_int v
    | Float32 b => f32_show b
    end.
  (** value.rs:17-46 [math]: at least two tokens, trimmed, evaluated. *)
  Definition is_math_char (c : N) : bool :=
    (c =? 45) || (c =? 43) || (c =? 42) || (c =? 47) || (c =? 37) || (c =? 94) || (c =? 40) || (c =? 41) || (c =? 32).
  Definition math_token : parser text := alt (pmap show_number number_lit) (one_char is_math_char).
  Definition math : parser number :=
    ptry (fun ts => try_eval (trim (concat ts)))
      (fun s => at_least 2 (repeated (S (length s)) math_token) s).

  (** value.rs:48-68 [eval]. [eval_inner]: the recursive part (lines 50-59). *)
  Fixpoint eval_inner (fuel : nat) : parser text :=
    match fuel with
    | O => fun _ => PFuel
    | S f =>
        por
          (_ <-- just (bs "(") ;;
           ts <-- (fun s => at_least 1 (repeated (S (length s)) (eval_inner f)) s) ;;
           _ <-- just (bs ")") ;;
           pret (bs "(" ++ concat ts ++ bs ")"))
          (fun s => at_least 1 (repeated (S (length s)) (sat (fun c => negb ((c =? 40) || (c =? 41))))) s)
    end.
  (** value.rs:61-65: [strip_prefix('(').and_then(strip_suffix(')')).expect(...)]. *)
  Definition strip_parens (t : text) : option text :=
    match t with
    | 40 :: r => match rev r with 41 :: r' => Some (rev r') | _ => None end
    | _ => None
    end.
  Definition eval : parser text :=
    pexpect strip_parens (_ <-- just (bs "__EVAL") ;; (fun s => eval_inner (S (length s)) s)).

  (** ** parse/array.rs *)
  (** array.rs:30-36 [array_value]. *)
  Definition array_value : parser item :=
    alt (pmap IStr (string_lit 34)) (alt (pmap INum math) (pmap INum number_lit)).
  (** array.rs:11-17: the strategy [skip_parser(none_of("},").padded().repeated().at_least(1))]. *)
  Definition can_skip_item (s : text) : bool :=
    match trim_start s with
    | [] => false
    | c :: _ => negb ((c =? 125) || (c =? 44))
    end.
  (** array.rs:8-22: the recursive part. *)
  Fixpoint array_items (fuel : nat) : parser (list item) :=
    match fuel with
    | O => fun _ => PFuel
    | S f =>
        let it := padded (por (pmap IArr (array_items f)) (recover can_skip_item array_value)) in
        _ <-- padded (just (bs "{")) ;;
        l <-- (fun s => allow_trailing (padded (just (bs ","))) (separated_by (S (length s)) it (padded (just (bs ",")))) s) ;;
        _ <-- padded (just (bs "}")) ;;
        pret l
    end.
  Definition array : parser (list item) := fun s => array_items (S (length s)) s.

  (** value.rs:7-15 [value]. *)
  Definition value_lit : parser value :=
    alt (pmap VExpr eval)
    (alt (pmap (VUnexpectedArr false) array)
    (alt (pmap VStr (string_lit 34))
    (alt (pmap VNum math)
         (pmap VNum number_lit)))).

  (** ** parse/property.rs *)
  (** property.rs:7-11 [class_parent]. *)
  Definition class_parent_p : parser text := _ <-- padded (just (bs ":")) ;; padded ident.
  (** property.rs:37-41, 13-25 [class_missing_braces] and 42-53. *)
  Definition class_head : parser text := _ <-- padded (just (bs "class ")) ;; padded ident.
  Definition class_external : parser class := pmap External (padded class_head).
  Definition class_missing : parser class :=
    padded (n <-- class_head ;; p <-- class_parent_p ;; pret (Local n (Some p) [] true)).
  (** [skip_until([';'], …)] (property.rs:76, 84, 91) resumes at the next semicolon. *)
  Definition can_skip_semicolon (s : text) : bool := contains 59 s.
  (** property.rs:61-101: an entry. *)
  Definition entry_value : parser (value * bool) :=
    por
      (_ <-- padded (just (bs "[]")) ;;
       pmap (fun v => (v, true))
         (recover can_skip_semicolon
           (por
             (_ <-- padded (just (bs "=")) ;;
              recover can_skip_semicolon (padded (por (pmap (VArr false) array) value_lit)))
             (padded
               (por (_ <-- padded (just (bs "+=")) ;; pmap (VArr true) array)
                    value_lit)))))
      (_ <-- padded (just (bs "=")) ;;
       pmap (fun v => (v, false)) (padded (recover can_skip_semicolon value_lit))).
  Definition entry : parser property :=
    n <-- padded ident ;;
    ve <-- entry_value ;;
    pret (let (v, e) := ve : value * bool in Entry n v e).
  (** property.rs:57-60. *)
  Definition delete : parser property := pmap Delete (_ <-- padded (just (bs "delete ")) ;; ident).

  (** model/property.rs:31-36, total on the properties the parser builds. *)
  Definition parsed_name (p : property) : text :=
    match p with
    | PClass (Local n _ _ _) | PClass (External n) | Delete n | MissingSemicolon n | Entry n _ _ => n
    | PClass (Root _) => []
    end.
  (** property.rs:28-112 [property]. *)
  Fixpoint property_p (fuel : nat) : parser property :=
    match fuel with
    | O => fun _ => PFuel
    | S f =>
        let properties : parser (list property) :=
          _ <-- just (bs "{") ;;
          ps <-- padded (fun s => repeated (S (length s)) (padded (property_p f)) s) ;;
          _ <-- just (bs "}") ;;
          pret ps in
        let class_local : parser class :=
          np <-- padded (n <-- class_head ;; p <-- or_not class_parent_p ;; pret (n, p)) ;;
          ps <-- properties ;;
          pret (let (n, p) := np : text * option text in Local n p ps false) in
        let cls := alt class_local (alt class_missing class_external) in
        p <-- alt (pmap PClass cls) (alt delete entry) ;;
        semi <-- or_not (padded (just (bs ";"))) ;;
        pret (match semi with Some _ => p | None => MissingSemicolon (parsed_name p) end)
    end.

  (** ** parse/mod.rs:17-26 [config]: properties up to the end of the text. *)
  Definition at_end {A} (p : parser A) : parser A :=
    x <-- p ;; (fun s => match s with [] => POk x [] | _ => PErr end).
  Definition parse_config : parser config :=
    fun s =>
      alt (at_end (repeated (S (length s)) (padded (property_p (S (length s))))))
          (padded (at_end (pret []))) s.
End Params.
