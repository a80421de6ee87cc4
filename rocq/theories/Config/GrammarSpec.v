(** The config language as a grammar: which text says which tree. Used by C45. *)
From Coq Require Import String.
From Verif Require Import Base.Tactics Base.Bytes Base.Ascii Base.Text Config.RapModel Config.ParseSpec.
Local Open Scope N_scope.

(** A name: letters, digits and underscores, at least one. *)
Definition name (n : text) : Prop :=
  n <> [] /\ Forall (fun c => 48 <= c <= 57 \/ 65 <= c <= 90 \/ 97 <= c <= 122 \/ c = 95) n.

Section Grammar.
  (** [f32 t b]: the decimal text [t] denotes the float with bits [b]. [agrees n]: the number [n], printed and
      evaluated as an arithmetic expression, gives [n] again or nothing. It is needed of a number only
      when a space follows, because the parser then takes it for an expression. *)
  Context (f32 : text -> N -> Prop) (agrees : number -> Prop).

  Definition digits (ds : text) : Prop := ds <> [] /\ Forall (fun c => 48 <= c <= 57) ds.

  Inductive unsigned_text : number -> text -> Prop :=
  | nt_int ds v : spells 10 ds v -> ds <> [] -> v < 2 ^ 31 -> unsigned_text (Int32 (Z.of_N v)) ds
  | nt_int64 ds v : spells 10 ds v -> ds <> [] -> 2 ^ 31 <= v < 2 ^ 63 -> unsigned_text (Int64 (Z.of_N v)) ds
  | nt_hex ds v : spells 16 ds v -> ds <> [] -> v < 2 ^ 31 -> unsigned_text (Int32 (Z.of_N v)) (bs "0x" ++ ds)
  | nt_hex64 ds v : spells 16 ds v -> ds <> [] -> 2 ^ 31 <= v < 2 ^ 63 -> unsigned_text (Int64 (Z.of_N v)) (bs "0x" ++ ds)
  | nt_float ds ds' b : digits ds \/ ds = [] -> digits ds' -> f32 (ds ++ bs "." ++ ds') b ->
      unsigned_text (Float32 b) (ds ++ bs "." ++ ds')
  | nt_exp ds frac e s x b : digits ds \/ ds = [] -> digits frac ->
      In e (bs "eE") -> In s [[]; bs "-"; bs "+"] -> digits x ->
      f32 ((match ds with [] => [] | _ => ds ++ bs "." end) ++ frac ++ [e] ++ s ++ x) b ->
      unsigned_text (Float32 b) ((match ds with [] => [] | _ => ds ++ bs "." end) ++ frac ++ [e] ++ s ++ x).

  (** Negation of integers, and of floats by the sign bit. *)
  Definition minus (n : number) : number :=
    match n with
    | Int32 v => Int32 (- v)
    | Int64 v => Int64 (- v)
    | Float32 b => Float32 (N.lxor b (2 ^ 31))
    end.
  Inductive number_text : number -> text -> Prop :=
  | nt_pos n t : unsigned_text n t -> number_text n t
  | nt_neg n t : unsigned_text n t -> number_text (minus n) (bs "-" ++ t).

  (** [w] is the white space after the number. *)
  Definition after_number (n : number) (w : text) : Prop := (exists r, w = 32 :: r) -> agrees n.

  Definition string_text (s t : text) : Prop := exists segs, literal segs t /\ unfolded (join [10] segs) s.

  (** Array items and arrays. [elems l t]: [t] runs from the first item to the closing brace; a
      trailing comma is allowed. The third argument of [item_text] is the white space that follows. *)
  Inductive item_text : item -> text -> text -> Prop :=
  | it_str s t w : string_text s t -> item_text (IStr s) t w
  | it_num n t w : number_text n t -> after_number n w -> item_text (INum n) t w
  | it_arr l t w : array_text l t -> item_text (IArr l) t w
  with array_text : list item -> text -> Prop :=
  | at_intro l w t : blank w -> elems l t -> array_text l (bs "{" ++ w ++ t)
  with elems : list item -> text -> Prop :=
  | el_end : elems [] (bs "}")
  | el_last i t w : blank w -> item_text i t w -> elems [i] (t ++ w ++ bs "}")
  | el_more i t w1 w2 l u : blank w1 -> blank w2 -> item_text i t w1 -> elems l u ->
      elems (i :: l) (t ++ w1 ++ bs "," ++ w2 ++ u).

  (** The body of an expression: parentheses balance and enclose something. *)
  Definition run (t : text) : Prop := t <> [] /\ Forall (fun c => c <> 40 /\ c <> 41) t.
  Inductive expr : text -> Prop :=
  | ex_run t : run t -> expr t
  | ex_group t : expr t -> expr (bs "(" ++ t ++ bs ")")
  | ex_run_then r t : run r -> expr (bs "(" ++ t) -> expr (r ++ bs "(" ++ t)
  | ex_group_then t u : expr t -> expr u -> expr (bs "(" ++ t ++ bs ")" ++ u).

  Inductive value_text : value -> text -> text -> Prop :=
  | vt_str s t w : string_text s t -> value_text (VStr s) t w
  | vt_num n t w : number_text n t -> after_number n w -> value_text (VNum n) t w
  | vt_expr t w : expr t -> value_text (VExpr t) (bs "__EVAL(" ++ t ++ bs ")") w.

  (** Properties, up to and including the semicolon. *)
  Inductive property_text : property -> text -> Prop :=
  | pt_value n v t w1 w2 w3 : name n -> blank w1 -> blank w2 -> blank w3 -> value_text v t w3 ->
      property_text (Entry n v false) (n ++ w1 ++ bs "=" ++ w2 ++ t ++ w3 ++ bs ";")
  | pt_array n l t w1 w2 w3 w4 : name n -> blank w1 -> blank w2 -> blank w3 -> blank w4 -> array_text l t ->
      property_text (Entry n (VArr false l) true) (n ++ w1 ++ bs "[]" ++ w2 ++ bs "=" ++ w3 ++ t ++ w4 ++ bs ";")
  | pt_append n l t w1 w2 w3 w4 : name n -> blank w1 -> blank w2 -> blank w3 -> blank w4 -> array_text l t ->
      property_text (Entry n (VArr true l) true) (n ++ w1 ++ bs "[]" ++ w2 ++ bs "+=" ++ w3 ++ t ++ w4 ++ bs ";")
  | pt_delete n w1 w2 : name n -> blank w1 -> blank w2 ->
      property_text (Delete n) (bs "delete " ++ w1 ++ n ++ w2 ++ bs ";")
  | pt_external n w1 w2 : name n -> blank w1 -> blank w2 ->
      property_text (PClass (External n)) (bs "class " ++ w1 ++ n ++ w2 ++ bs ";")
  | pt_class n w1 w2 ps w3 t w4 : name n -> blank w1 -> blank w2 -> blank w3 -> blank w4 -> properties_text ps t ->
      property_text (PClass (Local n None ps false))
        (bs "class " ++ w1 ++ n ++ w2 ++ bs "{" ++ w3 ++ t ++ bs "}" ++ w4 ++ bs ";")
  | pt_subclass n w1 w2 v1 p v2 ps w3 t w4 : name n -> name p -> blank w1 -> blank w2 -> blank v1 -> blank v2 ->
      blank w3 -> blank w4 -> properties_text ps t ->
      property_text (PClass (Local n (Some p) ps false))
        (bs "class " ++ w1 ++ n ++ w2 ++ bs ":" ++ v1 ++ p ++ v2 ++ bs "{" ++ w3 ++ t ++ bs "}" ++ w4 ++ bs ";")
  with properties_text : list property -> text -> Prop :=
  | ps_nil : properties_text [] []
  | ps_cons p t w ps u : property_text p t -> blank w -> properties_text ps u -> properties_text (p :: ps) (t ++ w ++ u).

  (** A whole config. *)
  Definition config_text (c : config) (t : text) : Prop := exists w u, t = w ++ u /\ blank w /\ properties_text c u.
End Grammar.
