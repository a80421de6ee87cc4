(** Model of the lint on format strings: libs/sqf/src/analyze/lints/s08_format_args.rs. *)
From Coq Require Import String.
From Verif Require Import Base.Tactics Base.Bytes Base.Ascii Base.Text Base.Sort Sqf.Ast Sqf.WalkModel.
Local Open Scope N_scope.
Local Open Scope list_scope.

(** lib.rs:298-310 [full_span], with lib.rs:283-295 [span] for arrays: from one before what is between the brackets. (The parser gives no array
    that starts at 0: a bracket is before it.) *)
Fixpoint full_span (e : expr) : span :=
  match e with
  | EConsumable _ sp | EArray _ sp => (fst sp - 1, snd sp)
  | ECode _ _ sp | EString _ sp _ | ENumber _ sp | EBool _ sp | ENular _ sp | EVar _ sp => sp
  | EUnary _ a sp => (fst sp, snd (full_span a))
  | EBinary _ a b _ => (fst (full_span a), snd (full_span b))
  end.

(** s08:117-122: [parse::<usize>] of digits, 0 when it does not fit. *)
Definition parse_index (d : text) : N :=
  match digits_val 0 d with Some v => if v <? 2 ^ 64 then v else 0 | None => 0 end.
(** s08:109-139: the loop of [get_format_problem]. The left is the place of a [%] that is not escaped, the right the tokens. *)
Fixpoint scan (format rest : text) (i : N) (active : bool) (start : N) (tokens : list N) : N + list N :=
  match rest with
  | [] => inr tokens
  | c :: r =>
      let outside := negb active || (start <? i) in
      let ends := active && negb (is_digit c) in
      if ends && negb (start <? i) && negb (c =? 37) then inl start
      else
        let tokens' := if ends && (start <? i) then tokens ++ [parse_index (skipn (N.to_nat start) (firstn (N.to_nat i) format))] else tokens in
        let active' := if ends then false else active in
        if negb active' && (c =? 37) && outside then scan format r (i + 1) true (i + 1) tokens'
        else scan format r (i + 1) active' start tokens'
  end.
(** The messages, with their numbers. *)
Inductive format_problem :=
| EmptyArray
| Unescaped (at_index : N)
| Undefined (used passed : N)
| Unused (used passed : N)
| Skipped (used tokens : N).
Definition max_of (l : list N) : N := fold_left N.max l 0.
(** s08:109-166 [get_format_problem]. *)
Definition get_format_problem (input : text) (extra_args : N) : option format_problem :=
  match scan (input ++ [32]) (input ++ [32]) 0 false 0 [] with
  | inl i => Some (Unescaped i)
  | inr tokens =>
      let m := max_of tokens in
      match extra_args ?= m with
      | Lt => Some (Undefined m extra_args)
      | Gt => Some (Unused m extra_args)
      | Eq => if N.of_nat (length tokens) <? m then Some (Skipped m (N.of_nat (length tokens))) else None
      end
  end.
(** s08:61-106: the runner, on expressions; [lower] is [to_lowercase]. *)
Definition s08 (lower : text -> text) (t : target) : list (span * format_problem) :=
  match t with
  | OnExpression (EUnary (UNamed name) (EArray args asp) sp as e) =>
      if negb (eqb_bytes (lower name) (bs "format")) && negb (eqb_bytes (lower name) (bs "formattext")) then []
      else
        match args with
        | [] => [(full_span e, EmptyArray)]
        | EString f _ _ :: r => match get_format_problem f (N.of_nat (length r)) with Some p => [(full_span e, p)] | None => [] end
        | _ => []
        end
  | _ => []
  end.
