(** Model of the lints that suggest another text for an expression: libs/sqf/src/analyze/lints/ s03, s05, s06, s07, s18 and
    s20. Each function gives the suggestion of the code the lint reports on an expression, [None] if it reports nothing.
    Left out: the places, the notes, and that nothing is reported without a processed text (the lints' first lines).
    [to_lowercase] of a command's name is [to_ascii_lower]: a name is ASCII ([LexSpec.name_text]). *)
From Coq Require Import String.
From Verif Require Import Base.Tactics Base.Bytes Base.Ascii Base.Text Base.Sort Sqf.Ast Sqf.ParseModel Sqf.LexModel Sqf.SourceModel.
Local Open Scope N_scope.
Local Open Scope list_scope.

(** Comparisons of f32, on the bits. [f32::EPSILON] is 2^-23, of bits 0x34000000. *)
Definition f32_abs (b : N) : N := b mod 2 ^ 31.
Definition f32_nan (b : N) : bool := 2139095040 <? f32_abs b.
(** [x.abs() < f32::EPSILON]. *)
Definition tiny (b : N) : bool := f32_abs b <? 872415232.
(** [x.abs() > f32::EPSILON]. *)
Definition beyond_zero (b : N) : bool := negb (f32_nan b) && (872415232 <? f32_abs b).
(** [(x - 1.0).abs() > f32::EPSILON]: the difference is exact near 1, and the four floats from 1 - 2^-23 to 1 + 2^-23 are
    those it does not hold of. *)
Definition beyond_one (b : N) : bool := negb (f32_nan b) && negb ((1065353214 <=? b) && (b <=? 1065353217)).

(** The types of a command's results as s07 tells them apart: [Value] of the wiki. *)
Inductive result_type := RBoolean | RString | ROneOf (l : list result_type) | ROther.

Section Lints.
  Context (show_f32 : N -> text).
  (** [wiki().commands().get]: the types of the results of a command's syntaxes. *)
  Context (results : text -> option (list result_type)).
  Notation source := (expr_source show_f32).

  (** s03_static_typename.rs:76-118; its suggestion: :155-157. *)
  Definition nular_types : list (text * text) :=
    [(bs "scriptnull", bs "SCRIPT"); (bs "objnull", bs "OBJECT"); (bs "grpnull", bs "GROUP"); (bs "controlnull", bs "CONTROL");
     (bs "teammembernull", bs "TEAM_MEMBER"); (bs "displaynull", bs "DISPLAY"); (bs "tasknull", bs "TASK"); (bs "locationnull", bs "LOCATION");
     (bs "sideunknown", bs "SIDE"); (bs "configfile", bs "CONFIG"); (bs "confignull", bs "CONFIG"); (bs "missionnamespace", bs "NAMESPACE");
     (bs "profilenamespace", bs "NAMESPACE"); (bs "uinamespace", bs "NAMESPACE"); (bs "parsingnamespace", bs "NAMESPACE");
     (bs "diaryrecordnull", bs "DIARY_RECORD"); (bs "createhashmap", bs "HASHMAP")].
  Definition assoc (l : list (text * text)) (x : text) : option text := option_map snd (find (fun p => eqb_bytes (fst p) x) l).
  Definition constant_type (e : expr) : option text :=
    match e with
    | EString _ _ _ => Some (bs "STRING")
    | ENumber _ _ => Some (bs "SCALAR")
    | EBool _ _ => Some (bs "BOOL")
    | ECode [] _ _ => Some (bs "CODE")
    | EArray [] _ => Some (bs "ARRAY")
    | ENular n _ => assoc nular_types n
    | EUnary (UNamed n) _ _ => if eqb_bytes n (bs "text") then Some (bs "TEXT") else None
    | _ => None
    end.
  Definition s03 (e : expr) : option text :=
    match e with
    | EUnary (UNamed n) x _ =>
        if eqb_bytes (to_ascii_lower n) (bs "typename") then option_map (fun t => bs """" ++ t ++ bs """") (constant_type x) else None
    | _ => None
    end.

  (** analyze/mod.rs:161-176 [extract_constant]: the text and whether it is that of a string. *)
  Definition extract_constant (e : expr) : option (text * bool) :=
    match e with
    | ECode [SExpr x _] _ _ =>
        match x with
        | EBool b _ => Some (if b then bs "true" else bs "false", false)
        | ENumber n _ => Some (show_f32 n, false)
        | EString s _ _ => Some (s, true)
        | EVar n _ => Some (n, false)
        | _ => None
        end
    | _ => None
    end.
  (** s05_if_assign.rs:145-167. *)
  Definition in_quotes (p : text * bool) : text := if snd p then bs """" ++ fst p ++ bs """" else fst p.
  Definition s05_text (condition : text) (lhs rhs : text * bool) : text :=
    if eqb_bytes (fst lhs) (bs "1") && eqb_bytes (fst rhs) (bs "0") then bs "parseNumber " ++ condition
    else bs "[" ++ in_quotes rhs ++ bs ", " ++ in_quotes lhs ++ bs "] select (" ++ condition ++ bs ")".
  (** s05:62-104. *)
  Definition s05 (e : expr) : option text :=
    match e with
    | EBinary (BNamed n) (EUnary (UNamed _) condition _) (EBinary BElse l r _) _ =>
        if eqb_bytes (to_ascii_lower n) (bs "then") then
          match extract_constant l, extract_constant r with
          | Some lhs, Some rhs =>
              if (match condition with EUnary (UNamed m) _ _ => eqb_bytes (to_ascii_lower m) (bs "isnil") | _ => false end) then None
              else Some (s05_text (source condition) lhs rhs)
          | _, _ => None
          end
        else None
    | _ => None
    end.

  (** s06_find_in_str.rs:54-103; its suggestion: :132-138. *)
  Definition s06 (e : expr) : option text :=
    match e with
    | EBinary BGreater (EBinary (BNamed n) haystack (EString needle _ _) _) (EUnary UMinus (ENumber num _) _) _ =>
        if beyond_one num then None
        else if negb (eqb_bytes (to_ascii_lower n) (bs "find")) then None
        else match (match haystack with
                    | EString s _ w => Some ([wrapper_char w] ++ s ++ [wrapper_char w])
                    | EVar x _ => Some x
                    | _ => None
                    end) with
             | Some h => Some (bs """" ++ needle ++ bs """" ++ bs " in " ++ h)
             | None => None
             end
    | _ => None
    end.

  (** s07_select_parse_number.rs:125-139 [safe_command]. *)
  Definition boolean_or_string (r : result_type) : bool := match r with RBoolean | RString => true | _ => false end.
  Definition safe_result (r : result_type) : bool := match r with ROneOf l => forallb boolean_or_string l | _ => boolean_or_string r end.
  Definition safe_command (c : text) : bool :=
    if existsb (eqb_bytes c) [bs "=="; bs "!="; bs "<"; bs "<="; bs ">"; bs ">="; bs "&&"; bs "||"] then true
    else match results c with Some l => forallb safe_result l | None => false end.
  Definition safe (e : expr) : bool :=
    match e with
    | EString _ _ _ | EBool _ _ => true
    | ENular n _ => safe_command n
    | EUnary c _ _ => safe_command (unary_str c)
    | EBinary c _ _ _ => safe_command (binary_str c)
    | _ => false
    end.
  (** s07:168-216. *)
  Definition s07_text (e : expr) (negate : bool) : text :=
    bs "parseNumber " ++
    (if (match e with EUnary _ _ _ | EBinary _ _ _ _ => true | _ => false end) || negate then
       let '(shown, display) :=
         if negate then
           match e with
           | EBinary BNotEq a b c => (source (EBinary BEq a b c), false)
           | EBinary BEq a b c => (source (EBinary BNotEq a b c), false)
           | _ => (source e, true)
           end
         else (source e, true) in
       (if negate && display then bs "!" else []) ++ bs "(" ++ shown ++ bs ")"
     else source e).
  (** s07:63-122. *)
  Definition s07 (e : expr) : option text :=
    match e with
    | EBinary (BNamed n) (EArray [ENumber a _; ENumber b _] _) condition _ =>
        if negb (eqb_bytes (to_ascii_lower n) (bs "select")) then None
        else if negb (safe condition) then None
        else let negate := tiny b in
             let '(lhs, rhs) := if negate then (b, a) else (a, b) in
             if beyond_zero lhs || beyond_one rhs then None else Some (s07_text condition negate)
    | _ => None
    end.

  (** s18_in_vehicle_check.rs:86-105 [is_in_vehicle_check]. *)
  Definition ident (e : expr) : option text := match e with EVar x _ | ENular x _ => Some x | _ => None end.
  Definition is_in_vehicle_check (lhs rhs : expr) : option text :=
    match lhs with
    | EUnary (UNamed n) object _ =>
        if negb (eqb_bytes (to_ascii_lower n) (bs "vehicle")) then None
        else match ident object, ident rhs with
             | Some x, Some y => if eqb_bytes x y then Some x else None
             | _, _ => None
             end
    | _ => None
    end.
  Definition or_else {A} (a b : option A) : option A := match a with Some x => Some x | None => b end.
  (** s18:57-83; its suggestion: :140-144. *)
  Definition s18 (e : expr) : option text :=
    match e with
    | EBinary BEq lhs rhs _ => option_map (fun x => bs "isNull" ++ bs " objectParent " ++ x) (or_else (is_in_vehicle_check lhs rhs) (is_in_vehicle_check rhs lhs))
    | EBinary BNotEq lhs rhs _ => option_map (fun x => bs "!isNull" ++ bs " objectParent " ++ x) (or_else (is_in_vehicle_check lhs rhs) (is_in_vehicle_check rhs lhs))
    | _ => None
    end.

  (** s20_bool_static_comparison.rs:82-92 [is_static_comparison]. *)
  Definition is_static_comparison (lhs rhs : expr) : option (text * bool) :=
    match rhs, lhs with EBool b _, EVar x _ => Some (x, b) | _, _ => None end.
  (** s20:125-137. *)
  Definition s20_text (x : text) (against_true negated : bool) : text :=
    if against_true then (if negated then bs "!" ++ x else x) else if negated then x else bs "!" ++ x.
  (** s20:52-80. *)
  Definition s20 (e : expr) : option text :=
    match e with
    | EBinary BEq lhs rhs _ => option_map (fun p => s20_text (fst p) (snd p) false) (or_else (is_static_comparison lhs rhs) (is_static_comparison rhs lhs))
    | EBinary BNotEq lhs rhs _ => option_map (fun p => s20_text (fst p) (snd p) true) (or_else (is_static_comparison lhs rhs) (is_static_comparison rhs lhs))
    | _ => None
    end.
End Lints.
