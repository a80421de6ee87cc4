(** What the suggestions of the lints should be, independently of how their texts are put together: which expression they
    stand for ([better]), and what the commands in it mean ([commands]). *)
From Coq Require Import String.
From Verif Require Import Base.Tactics Base.Bytes Base.Ascii Base.Text Sqf.Ast Sqf.ParseModel Sqf.LexModel Sqf.LexSpec Sqf.SourceModel Sqf.SourceSpec
  Sqf.OptimizeModel Sqf.OptimizeSpec.
Local Open Scope N_scope.
Local Open Scope list_scope.

(** At most 2^-23 from 0 and from 1; the bits without the sign grow with the absolute value. *)
Definition near_zero (b : N) : Prop := b mod 2 ^ 31 <= 872415232.
Definition near_one (b : N) : Prop := 1065353214 <= b <= 1065353217.
Definition not_a_number (b : N) : Prop := 2139095040 < b mod 2 ^ 31.

(** The types of the constants: https://community.bistudio.com/wiki/typeName. *)
Definition documented_types : list (text * text) :=
  [(bs "objnull", bs "OBJECT"); (bs "grpnull", bs "GROUP"); (bs "controlnull", bs "CONTROL"); (bs "displaynull", bs "DISPLAY"); (bs "locationnull", bs "LOCATION");
   (bs "scriptnull", bs "SCRIPT"); (bs "tasknull", bs "TASK"); (bs "teammembernull", bs "TEAM_MEMBER"); (bs "diaryrecordnull", bs "DIARY_RECORD");
   (bs "sideunknown", bs "SIDE"); (bs "confignull", bs "CONFIG"); (bs "configfile", bs "CONFIG"); (bs "createhashmap", bs "HASHMAP");
   (bs "missionnamespace", bs "NAMESPACE"); (bs "profilenamespace", bs "NAMESPACE"); (bs "uinamespace", bs "NAMESPACE"); (bs "parsingnamespace", bs "NAMESPACE")].
Inductive has_type : expr -> text -> Prop :=
| T_string : forall s sp w, has_type (EString s sp w) (bs "STRING")
| T_number : forall n sp, has_type (ENumber n sp) (bs "SCALAR")
| T_bool : forall b sp, has_type (EBool b sp) (bs "BOOL")
| T_code : forall c s sp, has_type (ECode c s sp) (bs "CODE")
| T_array : forall sp, has_type (EArray [] sp) (bs "ARRAY")
| T_nular : forall x t sp, In (to_ascii_lower x, t) documented_types -> has_type (ENular x sp) t.

(** What an operand has to evaluate to. *)
Inductive need := NeedsBoolean (e : expr) | NeedsString (e : expr) | NeedsObject (e : expr) | NeedsNothing | NeedsText (e : expr).

(** [negation c c']. *)
Inductive negation : expr -> expr -> Prop :=
| N_not : forall c sp, negation c (EUnary UNot c sp)
| N_equal : forall a b sp sp', negation (EBinary BEq a b sp) (EBinary BNotEq a b sp')
| N_differ : forall a b sp sp', negation (EBinary BNotEq a b sp) (EBinary BEq a b sp').
(** A string in double quotes; other constants as they are. *)
Definition requoted (e : expr) : expr := match e with EString s sp _ => EString s sp DoubleQuote | _ => e end.
Definition is_ident (e : expr) : Prop := match e with EVar _ _ | ENular _ _ => True | _ => False end.

Section Better.
  Context (f32_of : N -> N).
  (** [better e e' n]: [e'] does what [e] does, provided that [n]. *)
  Inductive better : expr -> expr -> need -> Prop :=
  | B_type : forall n x t sp sp', to_ascii_lower n = bs "typename" -> has_type x t ->
      better (EUnary (UNamed n) x sp) (EString t sp' DoubleQuote) NeedsNothing
  | B_type_text : forall n x sp1 sp sp', to_ascii_lower n = bs "typename" ->
      better (EUnary (UNamed n) (EUnary (UNamed (bs "text")) x sp1) sp) (EString (bs "TEXT") sp' DoubleQuote) (NeedsText x)
  | B_choose : forall n i c a b s1 s2 s3 s4 s5 s6 s7 s8 s9 t1 t2, to_ascii_lower n = bs "then" ->
      better (EBinary (BNamed n) (EUnary (UNamed i) c s1) (EBinary BElse (ECode [SExpr a s2] t1 s3) (ECode [SExpr b s4] t2 s5) s6) s7)
        (EBinary (BNamed (bs "select")) (EArray [requoted b; requoted a] s8) c s9) (NeedsBoolean c)
  | B_choose_number : forall n i c s1 s2 s3 s4 s5 s6 s7 s8 s9 s10 t1 t2, to_ascii_lower n = bs "then" ->
      better (EBinary (BNamed n) (EUnary (UNamed i) c s1)
                (EBinary BElse (ECode [SExpr (ENumber (f32_of 1) s8) s2] t1 s3) (ECode [SExpr (ENumber (f32_of 0) s9) s4] t2 s5) s6) s7)
        (EUnary (UNamed (bs "parseNumber")) c s10) (NeedsBoolean c)
  | B_search : forall n h s w x s1 s2 s3 s4 s5 s6 s7, to_ascii_lower n = bs "find" -> near_one x ->
      better (EBinary BGreater (EBinary (BNamed n) h (EString s s1 w) s2) (EUnary UMinus (ENumber x s3) s4) s5)
        (EBinary (BNamed (bs "in")) (EString s s6 DoubleQuote) h s7) (NeedsString h)
  | B_number : forall n x y c s1 s2 s3 s4 s5, to_ascii_lower n = bs "select" -> near_zero x -> near_one y ->
      better (EBinary (BNamed n) (EArray [ENumber x s1; ENumber y s2] s3) c s4) (EUnary (UNamed (bs "parseNumber")) c s5) (NeedsBoolean c)
  | B_number_not : forall n x y c c' s1 s2 s3 s4 s5, to_ascii_lower n = bs "select" -> near_one x -> near_zero y -> negation c c' ->
      better (EBinary (BNamed n) (EArray [ENumber x s1; ENumber y s2] s3) c s4) (EUnary (UNamed (bs "parseNumber")) c' s5) (NeedsBoolean c)
  | B_on_foot : forall n x y a b s1 s2 s3 s4, to_ascii_lower n = bs "vehicle" -> is_ident x -> bare x = bare y ->
      (a = EUnary (UNamed n) x s1 /\ b = y \/ a = y /\ b = EUnary (UNamed n) x s1) ->
      better (EBinary BEq a b s2) (EUnary (UNamed (bs "isNull")) (EUnary (UNamed (bs "objectParent")) x s3) s4) (NeedsObject x)
  | B_in_vehicle : forall n x y a b s1 s2 s3 s4 s5, to_ascii_lower n = bs "vehicle" -> is_ident x -> bare x = bare y ->
      (a = EUnary (UNamed n) x s1 /\ b = y \/ a = y /\ b = EUnary (UNamed n) x s1) ->
      better (EBinary BNotEq a b s2) (EUnary UNot (EUnary (UNamed (bs "isNull")) (EUnary (UNamed (bs "objectParent")) x s3) s4) s5) (NeedsObject x)
  | B_holds : forall x s v s1 a b s2 c, (c = BEq /\ v = true \/ c = BNotEq /\ v = false) ->
      (a = EVar x s /\ b = EBool v s1 \/ a = EBool v s1 /\ b = EVar x s) -> better (EBinary c a b s2) (EVar x s) (NeedsBoolean (EVar x s))
  | B_fails : forall x s v s1 a b s2 s3 c, (c = BEq /\ v = false \/ c = BNotEq /\ v = true) ->
      (a = EVar x s /\ b = EBool v s1 \/ a = EBool v s1 /\ b = EVar x s) -> better (EBinary c a b s2) (EUnary UNot (EVar x s) s3) (NeedsBoolean (EVar x s)).
End Better.

(** ** The texts *)
Section Fit.
  Context (number_text : N -> text -> Prop) (show_f32 : N -> text).
  Notation shown_well := (shown_well number_text show_f32).
  Definition fit_constant (e : expr) : Prop := match e with EString s _ _ => ~ In 34 s | ENumber n _ => number_text n (show_f32 n) | _ => True end.
  (** The text of a constant, without quotes. *)
  Definition face (e : expr) : text := 
    match e with EString s _ _ => s | ENumber n _ => show_f32 n | EVar x _ => x | EBool b _ => if b then bs "true" else bs "false" | _ => [] end.
  Definition is_number (e : expr) : Prop := match e with ENumber _ _ => True | _ => False end.
  (** The parts shown are shown well; strings are without double quotes; where the branches of an [if] look like 1 and 0,
      they are those numbers, and the condition is not an infix command; the literals are numbers. *)
  Definition fit (e : expr) : Prop :=
    match e with
    | EBinary (BNamed _) (EUnary _ c _) (EBinary BElse (ECode [SExpr a _] _ _) (ECode [SExpr b _] _ _) _) _ =>
        shown_well c /\ fit_constant a /\ fit_constant b /\
        (face a = bs "1" -> face b = bs "0" -> is_number a /\ is_number b /\ is_binary c = false)
    | EBinary BGreater (EBinary _ h (EString s _ _) _) (EUnary _ (ENumber x _) _) _ => shown_well h /\ ~ In 34 s /\ ~ not_a_number x
    | EBinary (BNamed _) (EArray [ENumber x _; ENumber y _] _) c _ => shown_well c /\ ~ not_a_number x /\ ~ not_a_number y
    | _ => True
    end.
End Fit.

(** ** The commands *)
(** Literals that differ only in where their blocks stood. *)
Fixpoint bare_literal (l : literal) : literal :=
  match l with
  | LCode c _ _ => LCode (map bare_stmt c) [] (0, 0)
  | LArr l => LArr (map bare_literal l)
  | _ => l
  end.
Section Commands.
  Context (L : lang) (zero one minus_one : N) (array : list (Val L) -> Val L) (branch : bool -> Val L) (pair : Val L -> Val L -> Val L)
    (object : Val L -> Prop) (nothing : Val L).
  Notation bool b := (lit L (LBool b)).
  (** What the commands named in the suggestions do. Making an array changes nothing else (so arrays are compared by what they
      hold). [c_then]: the block chosen is run, wherever it stood. *)
  Record commands : Prop := {
    c_places : forall l l', bare_literal l = bare_literal l' -> lit L l = lit L l';
    c_array : forall vs w, fresh L vs w = (array vs, w);
    c_select : forall r x y b w, binary_cmd L r (bs "select") (array [x; y]) (bool b) w = Some (if b then y else x, w);
    c_number : forall r b w, unary_cmd L r (bs "parsenumber") (bool b) w = Some (lit L (LNum (if b then one else zero)), w);
    c_not : forall r b w, unary_cmd L r (bs "!") (bool b) w = Some (bool (negb b), w);
    c_differ : forall r u v b w w', binary_cmd L r (bs "==") u v w = Some (bool b, w') <-> binary_cmd L r (bs "!=") u v w = Some (bool (negb b), w');
    c_equal : forall r a b w, binary_cmd L r (bs "==") (bool a) (bool b) w = Some (bool (Bool.eqb a b), w);
    c_if : forall r b w, unary_cmd L r (bs "if") (bool b) w = Some (branch b, w);
    c_else : forall r x y w, binary_cmd L r (bs "else") x y w = Some (pair x y, w);
    c_then : forall r b c d s s' sp sp' w, binary_cmd L r (bs "then") (branch b) (pair (lit L (LCode c s sp)) (lit L (LCode d s' sp'))) w =
      match r (map bare_stmt (if b then c else d)) w with Some (Some v, w') => Some (v, w') | Some (None, w') => Some (nothing, w') | None => None end;
    c_negative : forall r w, unary_cmd L r (bs "-") (lit L (LNum one)) w = Some (lit L (LNum minus_one), w);
    c_find : forall r h s, exists k b, (b = true <-> holds s h) /\ forall w,
      binary_cmd L r (bs "find") (lit L (LStr h)) (lit L (LStr s)) w = Some (lit L (LNum k), w) /\
      binary_cmd L r (bs ">") (lit L (LNum k)) (lit L (LNum minus_one)) w = Some (bool b, w);
    c_in : forall r h s, exists b, (b = true <-> holds s h) /\ forall w, binary_cmd L r (bs "in") (lit L (LStr s)) (lit L (LStr h)) w = Some (bool b, w);
    c_type_string : forall r s w, unary_cmd L r (bs "typename") (lit L (LStr s)) w = Some (lit L (LStr (bs "STRING")), w);
    c_type_number : forall r n w, unary_cmd L r (bs "typename") (lit L (LNum n)) w = Some (lit L (LStr (bs "SCALAR")), w);
    c_type_bool : forall r b w, unary_cmd L r (bs "typename") (bool b) w = Some (lit L (LStr (bs "BOOL")), w);
    c_type_code : forall r c s sp w, unary_cmd L r (bs "typename") (lit L (LCode c s sp)) w = Some (lit L (LStr (bs "CODE")), w);
    c_type_array : forall r vs w, unary_cmd L r (bs "typename") (array vs) w = Some (lit L (LStr (bs "ARRAY")), w);
    c_type_nular : forall r x t sp w, In (to_ascii_lower x, t) documented_types ->
      exists v, eval L r (ENular x sp) w = Some (v, w) /\ unary_cmd L r (bs "typename") v w = Some (lit L (LStr t), w);
    c_vehicle : forall r o, object o -> exists v p b, forall w, unary_cmd L r (bs "vehicle") o w = Some (v, w) /\ unary_cmd L r (bs "objectparent") o w = Some (p, w) /\
      binary_cmd L r (bs "==") v o w = Some (bool b, w) /\ binary_cmd L r (bs "==") o v w = Some (bool b, w) /\ unary_cmd L r (bs "isnull") p w = Some (bool b, w) }.

  (** The operand has the type the command is documented for. *)
  Definition met (r : runner (Val L) (World L)) (w : World L) (n : need) : Prop :=
    match n with
    | NeedsNothing => True
    | NeedsText _ => False
    | NeedsBoolean e => exists b w', eval L r e w = Some (bool b, w')
    | NeedsString e => exists s w', eval L r e w = Some (lit L (LStr s), w')
    | NeedsObject e => exists o, object o /\ eval L r e w = Some (o, w)
    end.
  (** The literals that are taken for 0 and 1 are 0 and 1; the branches of an [if] are literals, and it is an [if]. *)
  Definition exact (e : expr) : Prop :=
    (forall x sp, within (ENumber x sp) e -> (near_zero x -> x = zero) /\ (near_one x -> x = one)) /\
    match e with
    | EBinary _ (EUnary (UNamed i) _ _) (EBinary BElse (ECode [SExpr a _] _ _) (ECode [SExpr b _] _ _) _) _ =>
        to_ascii_lower i = bs "if" /\ literal_of a <> None /\ literal_of b <> None
    | _ => True
    end.
End Commands.
