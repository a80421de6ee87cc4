(** What it means that optimising keeps the meaning of a program, independently of how the optimiser works.

    A program is run by an interpretation of the commands ([lang]): any values, any world, any effects. Code blocks are
    values; a command is given a way to run code ([runner]). Two runs are compared through a correspondence between the
    values and worlds of the one and those of the other: the optimised program's code blocks are optimised too, and it
    makes fewer arrays, so the two worlds are never literally equal. *)
From Coq Require Import String.
From Verif Require Import Base.Tactics Base.Bytes Base.Ascii Base.Text Sqf.Ast Sqf.OptimizeModel.
Local Open Scope N_scope.
Local Open Scope list_scope.

(** ** Literals *)
Inductive literal :=
| LNum (bits : N) | LStr (s : text) | LBool (b : bool) | LNull (name : text)
| LCode (body : list stmt) (source : text) (sp : span)
| LArr (l : list literal).
(** The literal an expression spells, if it spells one. *)
Fixpoint literal_of (e : expr) : option literal :=
  match e with
  | ECode c s sp => Some (LCode c s sp)
  | EString s _ _ => Some (LStr s)
  | ENumber x _ => Some (LNum x)
  | EBool b _ => Some (LBool b)
  | ENular x _ => if is_in nular_constants x then Some (LNull (to_ascii_lower x)) else None
  | EArray l _ => option_map LArr (map_opt literal_of l)
  | _ => None
  end.
(** [["_a", []]]: an array whose second element is an array. *)
Definition has_array_default (l : literal) : bool :=
  match l with LArr (_ :: LArr _ :: _) => true | _ => false end.

(** ** Interpretations *)

(** Runs a code block: the value of its last statement (an assignment has none) and the world after it. [None] is an
    abort. *)
Definition runner (V W : Type) : Type := list stmt -> W -> option (option V * W).
Record lang := Lang {
  Val : Type; World : Type;
  lit : literal -> Val;                 (** a constant; for an array, one array shared by all its uses *)
  fresh : list Val -> World -> Val * World;        (** a new array *)
  nular : runner Val World -> text -> World -> option (Val * World);
  unary_cmd : runner Val World -> text -> Val -> World -> option (Val * World);
  binary_cmd : runner Val World -> text -> Val -> Val -> World -> option (Val * World);
  this : World -> Val;                  (** the variable [_this] *)
  get : text -> World -> option (Val * World);     (** the other variables *)
  set_global : text -> Val -> World -> option World;
  set_local : text -> Val -> World -> option World }.

Section Run.
  Context (L : lang).
  Notation V := (Val L).
  Notation W := (World L).
  Context (r : runner V W).
  Definition eval_list (f : expr -> W -> option (V * W)) : list expr -> W -> option (list V * W) :=
    fix go l w := match l with
                  | [] => Some ([], w)
                  | e :: l => match f e w with
                              | Some (v, w) => match go l w with Some (vs, w) => Some (v :: vs, w) | None => None end
                              | None => None
                              end
                  end.
  (** Left to right. An array expression makes a new array every time; a consumable array is a shared constant. *)
  Fixpoint eval (e : expr) (w : W) : option (V * W) :=
    match e with
    | ECode c s sp => Some (lit L (LCode c s sp), w)
    | EString s _ _ => Some (lit L (LStr s), w)
    | ENumber x _ => Some (lit L (LNum x), w)
    | EBool b _ => Some (lit L (LBool b), w)
    | EArray l _ => match eval_list eval l w with Some (vs, w) => Some (fresh L vs w) | None => None end
    | EConsumable l _ =>
        match map_opt literal_of l with
        | Some ls => Some (lit L (LArr ls), w)
        | None => match eval_list eval l w with Some (vs, w) => Some (fresh L vs w) | None => None end
        end
    | ENular x _ =>
        if is_in nular_constants x then Some (lit L (LNull (to_ascii_lower x)), w) else nular L r (to_ascii_lower x) w
    | EUnary u e _ => match eval e w with Some (v, w) => unary_cmd L r (to_ascii_lower (unary_str u)) v w | None => None end
    | EBinary b e1 e2 _ =>
        match eval e1 w with
        | Some (v1, w) =>
            match eval e2 w with
            | Some (v2, w) => binary_cmd L r (to_ascii_lower (binary_str b)) v1 v2 w
            | None => None
            end
        | None => None
        end
    | EVar x _ => if same_text (to_ascii_lower x) (bs "_this") then Some (this L w, w) else get L (to_ascii_lower x) w
    end.
  Definition run_stmt (s : stmt) (w : W) : option (option V * W) :=
    match eval (stmt_expr s) w with
    | None => None
    | Some (v, w) =>
        match s with
        | SGlobal x _ _ => option_map (fun w => (None, w)) (set_global L (to_ascii_lower x) v w)
        | SLocal x _ _ => option_map (fun w => (None, w)) (set_local L (to_ascii_lower x) v w)
        | SExpr _ _ => Some (Some v, w)
        end
    end.
  Fixpoint run_block (last : option V) (l : list stmt) (w : W) : option (option V * W) :=
    match l with
    | [] => Some (last, w)
    | s :: l => match run_stmt s w with Some (v, w) => run_block v l w | None => None end
    end.
End Run.
(** Code that runs code that runs code ... [n] deep; deeper nesting aborts. *)
Fixpoint exec (L : lang) (n : nat) (l : list stmt) (w : World L) : option (option (Val L) * World L) :=
  match n with
  | O => None
  | S n => run_block L (exec L n) None l w
  end.

(** The array a literal array expression makes. *)
Definition build_list {V W} (f : literal -> W -> V * W) : list literal -> W -> list V * W :=
  fix go l w := match l with
                | [] => ([], w)
                | x :: l => let (v, w) := f x w in let (vs, w) := go l w in (v :: vs, w)
                end.
Fixpoint build (L : lang) (l : literal) (w : World L) : Val L * World L :=
  match l with
  | LArr l => let (vs, w) := build_list (build L) l w in fresh L vs w
  | l => (lit L l, w)
  end.

(** ** Correspondences *)

(** Values and worlds of two runs, related through what is known ([K]) about which objects of the one stand for which
    of the other; knowledge only grows. [Rw k p w w']: the worlds correspond, and [p] lists the arrays that only the
    first run has made, with their contents: each is held by the expression being evaluated and by nothing else. *)
Record correspondence (L : lang) := Correspondence {
  K : Type; le : K -> K -> Prop;
  Rv : K -> Val L -> Val L -> Prop;
  Rw : K -> list (Val L * list literal) -> World L -> World L -> Prop }.
Arguments K {L}. Arguments le {L}. Arguments Rv {L}. Arguments Rw {L}.

Section Laws.
  Context (fneg fsqrt : N -> N) (fadd fsub fmul fdiv frem : N -> N -> N) (finite : N -> bool).
  Notation optimize_block := (optimize_block fneg fsqrt fadd fsub fmul fdiv frem finite).
  (** The code the second run has where the first has [c]. *)
  Definition code_rel (c c' : list stmt) : Prop := c' = c \/ optimize_block c = Some c'.
  Fixpoint lit_rel (l l' : literal) : Prop :=
    match l, l' with
    | LCode c s sp, LCode c' s' sp' => code_rel c c' /\ s' = s /\ sp' = sp
    | LArr l, LArr l' => (fix go l l' := match l, l' with [], [] => True | x :: l, y :: l' => lit_rel x y /\ go l l' | _, _ => False end) l l'
    | LCode _ _ _, _ | LArr _, _ => False
    | _, _ => l' = l
    end.

  Context (L : lang) (C : correspondence L).
  Notation V := (Val L).
  Notation W := (World L).
  Notation K := (K C).
  Notation le := (le C).
  Notation Rv := (Rv C).
  Notation Rw := (Rw C).

  (** Both runs abort, or both go on with corresponding results. *)
  Definition same {A} (R : K -> A -> A -> Prop) (k : K) p (x y : option (A * W)) : Prop :=
    match x, y with
    | None, None => True
    | Some (a, w), Some (b, w') => exists k', le k k' /\ R k' a b /\ Rw k' p w w'
    | _, _ => False
    end.
  Definition Ro (k : K) (x y : option V) : Prop :=
    match x, y with Some v, Some v' => Rv k v v' | None, None => True | _, _ => False end.
  Definition same_run (r r' : runner V W) : Prop :=
    forall c c' k p w w', code_rel c c' -> Rw k p w w' -> same Ro k p (r c w) (r' c' w').
  (** Running code leaves [_this] as it was. *)
  Definition keeps (r : runner V W) : Prop := forall c w v w', r c w = Some (v, w') -> this L w' = this L w.

  (** The correspondence is one: commands cannot tell corresponding values apart. *)
  Record congruence : Prop := {
    le_refl : forall k, le k k;
    le_trans : forall a b c, le a b -> le b c -> le a c;
    rv_le : forall a b v v', le a b -> Rv a v v' -> Rv b v v';
    rv_lit : forall k l l', lit_rel l l' -> Rv k (lit L l) (lit L l');
    r_fresh : forall k p w w' vs vs', Rw k p w w' -> Forall2 (Rv k) vs vs' -> same Rv k p (Some (fresh L vs w)) (Some (fresh L vs' w'));
    r_nular : forall r r' k p w w' x, same_run r r' -> keeps r -> Rw k p w w' -> same Rv k p (nular L r x w) (nular L r' x w');
    r_unary : forall r r' k p w w' x v v', same_run r r' -> keeps r -> Rw k p w w' -> Rv k v v' ->
      same Rv k p (unary_cmd L r x v w) (unary_cmd L r' x v' w');
    r_binary : forall r r' k p w w' x v v' u u', same_run r r' -> keeps r -> Rw k p w w' -> Rv k v v' -> Rv k u u' ->
      same Rv k p (binary_cmd L r x v u w) (binary_cmd L r' x v' u' w');
    r_this : forall k p w w', Rw k p w w' -> Rv k (this L w) (this L w');
    r_get : forall k p w w' x, Rw k p w w' -> same Rv k p (get L x w) (get L x w');
    r_global : forall k p w w' x v v', Rw k p w w' -> Rv k v v' ->
      match set_global L x v w, set_global L x v' w' with
      | Some w, Some w' => exists k', le k k' /\ Rw k' p w w' | None, None => True | _, _ => False end;
    r_local : forall k p w w' x v v', Rw k p w w' -> Rv k v v' ->
      match set_local L x v w, set_local L x v' w' with
      | Some w, Some w' => exists k', le k k' /\ Rw k' p w w' | None, None => True | _, _ => False end }.

  (** The documented results of the folded commands. *)
  Record arithmetic : Prop := {
    a_neg : forall r x w, finite (fneg x) = true -> unary_cmd L r (bs "-") (lit L (LNum x)) w = Some (lit L (LNum (fneg x)), w);
    a_sqrt : forall r x w, finite (fsqrt x) = true -> unary_cmd L r (bs "sqrt") (lit L (LNum x)) w = Some (lit L (LNum (fsqrt x)), w);
    a_lower : forall r c s w, In c [bs "tolower"; bs "toloweransi"] -> is_ascii s = true ->
      unary_cmd L r c (lit L (LStr s)) w = Some (lit L (LStr (to_ascii_lower s)), w);
    a_upper : forall r c s w, In c [bs "toupper"; bs "toupperansi"] -> is_ascii s = true ->
      unary_cmd L r c (lit L (LStr s)) w = Some (lit L (LStr (to_ascii_upper s)), w);
    a_num : forall r c f x y w,
      In (c, f) [(bs "+", fadd); (bs "-", fsub); (bs "*", fmul); (bs "/", fdiv); (bs "%", frem); (bs "mod", frem)] ->
      finite (f x y) = true ->
      binary_cmd L r c (lit L (LNum x)) (lit L (LNum y)) w = Some (lit L (LNum (f x y)), w);
    a_cat : forall r s t w, is_ascii s = true -> is_ascii t = true ->
      binary_cmd L r (bs "+") (lit L (LStr s)) (lit L (LStr t)) w = Some (lit L (LStr (s ++ t)), w) }.

  (** [_this]: only passing an argument to code sets it, and only for that code. Then [_this call c] is [call c]. *)
  Record this_is_kept : Prop := {
    t_fresh : forall vs w, this L (snd (fresh L vs w)) = this L w;
    t_nular : forall r x w v w', keeps r -> nular L r x w = Some (v, w') -> this L w' = this L w;
    t_unary : forall r x u w v w', keeps r -> unary_cmd L r x u w = Some (v, w') -> this L w' = this L w;
    t_binary : forall r x a b w v w', keeps r -> binary_cmd L r x a b w = Some (v, w') -> this L w' = this L w;
    t_get : forall x w v w', get L x w = Some (v, w') -> this L w' = this L w;
    t_global : forall x v w w', set_global L x v w = Some w' -> this L w' = this L w;
    t_local : forall x v w w', set_local L x v w = Some w' -> this L w' = this L w;
    t_call : forall r r' k p w w' c c', same_run r r' -> keeps r -> Rw k p w w' -> Rv k c c' ->
      same Rv k p (binary_cmd L r (bs "call") (this L w) c w) (unary_cmd L r' (bs "call") c' w') }.

  (** Arrays. [y_pending]: an array that has just been made from a literal, and that nothing else holds, need not be
      made. [y_else]: [{a} else {b}] is the array of the two blocks. [y_copy]: [+] of a shared array
      makes a new one with the same contents. The others:
      the command only looks at its array argument, so a shared one will do. *)
  Record arrays : Prop := {
    y_pending : forall k k' p ls v v' w1 w w' w1', Rw k p w w' -> build L (LArr ls) w' = (v', w1') -> le k k' ->
      Rv k' v v' -> Rw k' p w1 w1' -> exists k'', le k k'' /\ Rw k'' ((v, ls) :: p) w1 w';
    y_copy : forall r ls w, unary_cmd L r (bs "+") (lit L (LArr ls)) w = Some (build L (LArr ls) w);
    y_else : forall r k p a b v u w w', Rw k p w w' -> Rv k v (lit L a) -> Rv k u (lit L b) ->
      (exists c s sp, a = LCode c s sp) -> (exists c s sp, b = LCode c s sp) ->
      same Rv k p (binary_cmd L r (bs "else") v u w) (Some (lit L (LArr [a; b]), w'));
    y_unary : forall r r' k p c ls v w w', same_run r r' -> keeps r -> Rw k ((v, ls) :: p) w w' ->
      (c = bs "params" /\ forallb (fun l => negb (has_array_default l)) ls = true) \/
      (c = bs "param" /\ has_array_default (LArr ls) = false) \/
      In c [bs "positioncameratoworld"; bs "random"] ->
      same Rv k p (unary_cmd L r c v w) (unary_cmd L r' c (lit L (LArr ls)) w');
    y_right : forall r r' k p c ls u u' v w w', same_run r r' -> keeps r -> Rw k ((v, ls) :: p) w w' -> Rv k u u' ->
      (c = bs "params" /\ forallb (fun l => negb (has_array_default l)) ls = true) \/
      (In c [bs "param"; bs "getvariable"; bs "setvariable"; bs "getordefault"] /\ has_array_default (LArr ls) = false) \/
      In c [bs "vectoradd"; bs "vectordiff"; bs "vectorcrossproduct"; bs "vectordotproduct"] ->
      same Rv k p (binary_cmd L r c u v w) (binary_cmd L r' c u' (lit L (LArr ls)) w');
    y_left : forall r r' k p c ls u u' v w w', same_run r r' -> keeps r -> Rw k ((v, ls) :: p) w w' -> Rv k u u' ->
      In c [bs "vectoradd"; bs "vectordiff"; bs "vectorcrossproduct"; bs "vectordotproduct"] ->
      same Rv k p (binary_cmd L r c v u w) (binary_cmd L r' c (lit L (LArr ls)) u' w');
    y_both : forall r r' k p c ls lt v u w w', same_run r r' -> keeps r -> Rw k ((u, lt) :: (v, ls) :: p) w w' ->
      In c [bs "vectoradd"; bs "vectordiff"; bs "vectorcrossproduct"; bs "vectordotproduct"] ->
      same Rv k p (binary_cmd L r c v u w) (binary_cmd L r' c (lit L (LArr ls)) (lit L (LArr lt)) w') }.

  Definition documented : Prop := congruence /\ arithmetic /\ this_is_kept /\ arrays.
End Laws.
