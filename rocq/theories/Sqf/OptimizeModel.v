(** The SQF optimiser: libs/sqf/src/compiler/optimizer/mod.rs.

    [None] stands for the panic of [unreachable!] (:228). The f32 operations are parameters: a number is the bit
    pattern of an f32 and [fneg], [fadd] ... act on bit patterns; [finite] is [f32::is_finite]. Log output is not
    modelled. [op_name.to_lowercase()] (:55, :118) is the Unicode lower-casing; it is compared only with ASCII names
    without the letter k, and the only non-ASCII character whose lower case is an ASCII letter is the Kelvin sign (k),
    so comparing the ASCII lower-casing gives the same answer. *)
From Coq Require Import String.
From Verif Require Import Base.Tactics Base.Bytes Base.Ascii Base.Text Sqf.Ast.
Local Open Scope N_scope.
Local Open Scope list_scope.

(** [Iterator::all] over a test that can panic: stops at the first [false]. *)
Definition all_opt {A} (f : A -> option bool) : list A -> option bool :=
  fix go l :=
    match l with
    | [] => Some true
    | x :: r => match f x with Some true => go r | b => b end
    end.
(** [Iterator::map] ... [collect] over a function that can panic. *)
Definition map_opt {A B} (f : A -> option B) : list A -> option (list B) :=
  fix go l :=
    match l with
    | [] => Some []
    | x :: r => match f x with Some y => match go r with Some s => Some (y :: s) | None => None end | None => None end
    end.

(** :222-232 [is_constant]. *)
Fixpoint is_constant (e : expr) : option bool :=
  match e with
  | ECode _ _ _ | EString _ _ _ | ENumber _ _ | EBool _ _ => Some true
  | ENular n _ => Some (is_constant_command n)
  | EArray l _ => all_opt is_constant l
  | EConsumable _ _ => None
  | _ => Some false
  end.
(** lib.rs:328-330 [is_array]. *)
Definition is_array (e : expr) : bool := match e with EArray _ _ => true | _ => false end.
(** :247-256 [is_not_array_default_value]. *)
Definition is_not_array_default_value (e : expr) : bool :=
  match e with
  | EArray (_ :: d :: _) _ => negb (is_array d)
  | _ => true
  end.
(** :261-290 [get_consumable_array]: the outer [None] is the panic, [Some None] the answer [None]. *)
Definition get_consumable_array (direct : bool) (e : expr) : option (option expr) :=
  match e with
  | EArray l sp =>
      match is_constant e with
      | None => None
      | Some false => Some None
      | Some true =>
          match l with
          | [] => Some None
          | _ => if direct then Some (Some (EConsumable l sp)) else Some (Some (EUnary UPlus (EConsumable l sp) sp))
          end
      end
  | _ => Some None
  end.
(** The pattern [if let Some(c) = e.get_consumable_array(..) { e = c }] (:97-100, :104-106, ...). *)
Definition consume (direct : bool) (e : expr) : option expr :=
  match get_consumable_array direct e with
  | None => None
  | Some None => Some e
  | Some (Some c) => Some c
  end.
(** :84-93 and :120-129: the argument of [params]. *)
Definition consume_params (e : expr) : option expr :=
  match e with
  | EArray l _ => consume (forallb is_not_array_default_value l) e
  | _ => Some e
  end.

(** :294-325 [op_uni_string], :360-394 [op_bin_string]. *)
Definition op_uni_string (op : text -> text) (sp : span) (r : expr) : option expr :=
  match r with
  | EString s _ w => if is_ascii s then Some (EString (op s) sp w) else None
  | _ => None
  end.
Definition op_bin_string (sp : span) (l r : expr) : option expr :=
  match l, r with
  | EString a _ _, EString b _ w => if is_ascii b && is_ascii a then Some (EString (a ++ b) sp w) else None
  | _, _ => None
  end.

(** The names matched at :56-103 and :120-147. *)
Definition lower_names : list text := [bs "tolower"; bs "toloweransi"].
Definition upper_names : list text := [bs "toupper"; bs "toupperansi"].
Definition consumers : list text := [bs "positioncameratoworld"; bs "random"].
Definition second_is_default : list text := [bs "param"; bs "getvariable"; bs "setvariable"; bs "getordefault"].
Definition vector_names : list text := [bs "vectoradd"; bs "vectordiff"; bs "vectorcrossproduct"; bs "vectordotproduct"].
Definition named (n : text) (l : list text) : bool := existsb (same_text (to_ascii_lower n)) l.

Section Optimize.
  Context (fneg fsqrt : N -> N) (fadd fsub fmul fdiv frem : N -> N -> N) (finite : N -> bool).

  (** :329-356 [op_uni_float], :398-428 [op_bin_float]. *)
  Definition op_uni_float (op : N -> N) (sp : span) (r : expr) : option expr :=
    match r with
    | ENumber x _ => if finite (op x) then Some (ENumber (op x) sp) else None
    | _ => None
    end.
  Definition op_bin_float (op : N -> N -> N) (sp : span) (l r : expr) : option expr :=
    match l, r with
    | ENumber x _, ENumber y _ => if finite (op x y) then Some (ENumber (op x y) sp) else None
    | _, _ => None
    end.

  Definition folded (o : option expr) (e : expr) : option expr := match o with Some f => Some f | None => Some e end.

  (** :45-113: a unary command whose operand has been optimised to [r]. *)
  Definition optimize_unary (c : unary) (r : expr) (sp : span) : option expr :=
    match c with
    | UMinus => folded (op_uni_float fneg sp r) (EUnary c r sp)
    | UNamed n =>
        if named n lower_names then folded (op_uni_string to_ascii_lower sp r) (EUnary c r sp)
        else if named n upper_names then folded (op_uni_string to_ascii_upper sp r) (EUnary c r sp)
        else if named n [bs "sqrt"] then folded (op_uni_float fsqrt sp r) (EUnary c r sp)
        else if named n [bs "params"] then match consume_params r with Some r => Some (EUnary c r sp) | None => None end
        else if named n [bs "param"] then
          match consume (is_not_array_default_value r) r with Some r => Some (EUnary c r sp) | None => None end
        else if named n consumers then match consume true r with Some r => Some (EUnary c r sp) | None => None end
        else Some (EUnary c r sp)
    | _ => Some (EUnary c r sp)
    end.

  (** :148. *)
  Definition is_this (e : expr) : bool := match e with EVar n _ => same_text n (bs "_this") | _ => false end.

  (** :114-215: a binary command whose operands have been optimised to [l] and [r]. *)
  Definition optimize_binary (c : binary) (l r : expr) (sp : span) : option expr :=
    match c with
    | BNamed n =>
        if named n [bs "params"] then match consume_params r with Some r => Some (EBinary c l r sp) | None => None end
        else if named n second_is_default then
          match consume (is_not_array_default_value r) r with Some r => Some (EBinary c l r sp) | None => None end
        else if named n vector_names then
          match consume true r with
          | Some r => match consume true l with Some l => Some (EBinary c l r sp) | None => None end
          | None => None
          end
        else if named n [bs "call"] then
          if is_this l then Some (EUnary (UNamed (bs "call")) r sp) else Some (EBinary c l r sp)
        else Some (EBinary c l r sp)
    | BAdd =>
        match op_bin_float fadd sp l r with
        | Some f => Some f
        | None => folded (op_bin_string sp l r) (EBinary c l r sp)
        end
    | BSub => folded (op_bin_float fsub sp l r) (EBinary c l r sp)
    | BMul => folded (op_bin_float fmul sp l r) (EBinary c l r sp)
    | BDiv => folded (op_bin_float fdiv sp l r) (EBinary c l r sp)
    | BRem | BMod => folded (op_bin_float frem sp l r) (EBinary c l r sp)
    | BElse =>
        match l, r with
        | ECode _ _ _, ECode _ _ _ => Some (EConsumable [l; r] sp)
        | _, _ => Some (EBinary c l r sp)
        end
    | _ => Some (EBinary c l r sp)
    end.

  (** :38-218 [Expression::optimize], :21-31 [Statement::optimize]. *)
  Fixpoint optimize_expr (e : expr) : option expr :=
    match e with
    | ECode c s sp => match map_opt optimize_stmt c with Some c => Some (ECode c s sp) | None => None end
    | EArray l sp => match map_opt optimize_expr l with Some l => Some (EArray l sp) | None => None end
    | EUnary c r sp => match optimize_expr r with Some r => optimize_unary c r sp | None => None end
    | EBinary c l r sp =>
        match optimize_expr l with
        | Some l => match optimize_expr r with Some r => optimize_binary c l r sp | None => None end
        | None => None
        end
    | _ => Some e
    end
  with optimize_stmt (s : stmt) : option stmt :=
    match s with
    | SGlobal n e sp => match optimize_expr e with Some e => Some (SGlobal n e sp) | None => None end
    | SLocal n e sp => match optimize_expr e with Some e => Some (SLocal n e sp) | None => None end
    | SExpr e sp => match optimize_expr e with Some e => Some (SExpr e sp) | None => None end
    end.
  Definition optimize_block (l : list stmt) : option (list stmt) := map_opt optimize_stmt l.
  (** :12-15 [Statements::optimize]. *)
  Definition optimize (s : statements) : option statements :=
    match optimize_block (content s) with
    | Some c => Some (Statements c (source s) (st_span s))
    | None => None
    end.
End Optimize.
