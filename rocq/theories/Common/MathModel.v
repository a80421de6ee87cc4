(** Model of libs/common/src/math.rs. Floats and their arithmetic are parameters. *)
From Verif Require Import Base.Tactics Base.Bytes Base.Text.
Local Open Scope N_scope.

Section Params.
  (** [F]: f64; [parse]: [f64::from_str]; [arith op l r]: the operators of math.rs:80-88. *)
  Context (F : Type) (parse : text -> option F) (arith : N -> F -> F -> F).

  (** math.rs:99-105 [Token]. *)
  Inductive token := Number (x : F) | Operator (c : N) | LeftP | RightP.

  (** math.rs:117 and 128: '+' '*' '/' '^' '%'. *)
  Definition is_plain_op (c : N) : bool := (c =? 43) || (c =? 42) || (c =? 47) || (c =? 94) || (c =? 37).

  (** math.rs:122-129 / 154-160: finish the number being read. *)
  Definition flush_number (num : text) (toks : list token) : option (list token) :=
    match num with
    | [] => Some toks
    | _ => match parse num with Some x => Some (toks ++ [Number x]) | None => None end
    end.

  (** math.rs:135-143: a minus directly after an operator or '(' starts a number. *)
  Definition minus_is_sign (toks : list token) : bool :=
    match last (map Some toks) None with
    | Some (Operator _) | Some LeftP => true
    | _ => false
    end.

  (** math.rs:113-163 [tokenize]. [num]: current_number. *)
  Fixpoint tokenize_go (s : text) (num : text) (toks : list token) : option (list token) :=
    match s with
    | [] => flush_number num toks
    | c :: r =>
        if is_digit c || (c =? 46) then tokenize_go r (num ++ [c]) toks
        else
          match flush_number num toks with
          | None => None
          | Some toks =>
              if is_plain_op c then tokenize_go r [] (toks ++ [Operator c])
              else if c =? 40 then tokenize_go r [] (toks ++ [LeftP])
              else if c =? 41 then tokenize_go r [] (toks ++ [RightP])
              else if c =? 45 then
                if minus_is_sign toks then tokenize_go r [45] toks
                else tokenize_go r [] (toks ++ [Operator 45])
              else if c =? 32 then tokenize_go r [] toks
              else None
          end
    end.
  Definition tokenize (s : text) : option (list token) := tokenize_go s [] [].

  (** math.rs:14-24, the operator table: precedence and left associativity. *)
  Definition op_info (c : N) : option (N * bool) :=
    if (c =? 43) || (c =? 45) then Some (1, true)
    else if (c =? 42) || (c =? 47) || (c =? 37) then Some (2, true)
    else if c =? 94 then Some (3, false)
    else None.

  (** math.rs:33-40: whether operator [top] on the stack is popped before pushing [op]. *)
  Definition pops (op top : N) : bool :=
    match op_info op, op_info top with
    | Some (p, la), Some (tp, _) => (la && (p <=? tp)) || (negb la && (p <? tp))
    | _, _ => false
    end.

  (** math.rs:31-47: pop while the top is such an operator. Stack head = top; [out] grows at the end. *)
  Fixpoint pop_ops (op : N) (out stack : list token) : list token * list token :=
    match stack with
    | Operator top :: st => if pops op top then pop_ops op (out ++ [Operator top]) st else (out, stack)
    | _ => (out, stack)
    end.

  (** math.rs:51-61: pop until '('; [None]: there is none. *)
  Fixpoint pop_paren (out stack : list token) : option (list token * list token) :=
    match stack with
    | [] => None
    | LeftP :: st => Some (out, st)
    | t :: st => pop_paren (out ++ [t]) st
    end.

  (** math.rs:10-71 [shunting_yard] on tokens. *)
  Fixpoint yard (toks out stack : list token) : option (list token) :=
    match toks with
    | [] => Some (out ++ stack)
    | Number x :: r => yard r (out ++ [Number x]) stack
    | Operator c :: r => let (out', st') := pop_ops c out stack in yard r out' (Operator c :: st')
    | LeftP :: r => yard r out (LeftP :: stack)
    | RightP :: r =>
        match pop_paren out stack with
        | Some (out', st') => yard r out' st'
        | None => None
        end
    end.

  (** math.rs:72-97 [evaluate_postfix]; stack head = top. *)
  Definition known_op (c : N) : bool := match op_info c with Some _ => true | None => false end.
  Fixpoint postfix (toks : list token) (stack : list F) : option (list F) :=
    match toks with
    | [] => Some stack
    | Number x :: r => postfix r (x :: stack)
    | Operator c :: r =>
        match stack with
        | y :: x :: st => if known_op c then postfix r (arith c x y :: st) else None
        | _ => None
        end
    | _ :: _ => None
    end.

  (** math.rs:5-9 [eval]. *)
  Definition eval (s : text) : option F :=
    match tokenize s with
    | None => None
    | Some toks =>
        match yard toks [] [] with
        | None => None
        | Some rpn =>
            match postfix rpn [] with
            | Some (x :: _) => Some x
            | _ => None
            end
        end
    end.
End Params.
Arguments Number {F}. Arguments Operator {F}. Arguments LeftP {F}. Arguments RightP {F}.
