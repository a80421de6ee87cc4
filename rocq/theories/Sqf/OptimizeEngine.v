(** A small engine that meets the laws of OptimizeSpec.v: arrays are references into a heap and can be changed in
    place, code blocks are values that can be called. It shows that the hypotheses of C30 can be met, and its variants
    show which of them are needed. *)
From Coq Require Import String.
From Verif Require Import Base.Tactics Base.Bytes Base.Ascii Base.Text Sqf.Ast Sqf.OptimizeModel Sqf.OptimizeSpec Sqf.OptimizeProofs.
Local Open Scope N_scope.
Local Open Scope list_scope.

Inductive val :=
| VNum (x : N) | VStr (s : text) | VBool (b : bool) | VNull (n : text) | VCode (c : list stmt) (s : text) (sp : span)
| VRef (a : nat)                  (** an array in the heap *)
| VConst (l : list literal).      (** a shared constant array; it cannot be changed *)
Record world := Wld { heap : list (list val); vars : list (text * val); me : val }.

Definition lit_val (l : literal) : val :=
  match l with
  | LNum x => VNum x | LStr s => VStr s | LBool b => VBool b | LNull n => VNull n | LCode c s sp => VCode c s sp | LArr l => VConst l
  end.
Definition alloc (vs : list val) (w : world) : val * world :=
  (VRef (length (heap w)), Wld (heap w ++ [vs]) (vars w) (me w)).
Fixpoint lookup (x : text) (l : list (text * val)) : option val :=
  match l with [] => None | (y, v) :: l => if same_text x y then Some v else lookup x l end.
(** The elements of an array. *)
Definition contents (v : val) (w : world) : option (list val) :=
  match v with VRef a => nth_error (heap w) a | VConst l => Some (map lit_val l) | _ => None end.
Fixpoint numbers (l : list val) : option (list N) :=
  match l with
  | [] => Some []
  | VNum x :: l => option_map (cons x) (numbers l)
  | _ => None
  end.
Fixpoint update (l : list (list val)) (a : nat) (c : list val) : list (list val) :=
  match l, a with
  | [], _ => []
  | _ :: l, O => c :: l
  | x :: l, S a => x :: update l a c
  end.
Fixpoint zip (f : N -> N -> N) (a b : list N) : list N :=
  match a, b with x :: a, y :: b => f x y :: zip f a b | _, _ => [] end.
Definition is_nil (v : val) : bool := match v with VNull _ => true | _ => false end.
(** The value of a block: [nil] if its last statement has none. *)
Definition value_of (r : option (option val * world)) : option (val * world) :=
  match r with Some (Some v, w) => Some (v, w) | Some (None, w) => Some (VNull (bs "nil"), w) | None => None end.
(** Copies literals into the heap. *)
Fixpoint alloc_lit (l : literal) (w : world) : val * world :=
  match l with
  | LArr l => let (vs, w) := build_list alloc_lit l w in alloc vs w
  | l => (lit_val l, w)
  end.

(** [writable]: assigning to [_this] changes it. [mutable]: [else] makes a new array. *)
Section Engine.
  Context (fneg fsqrt : N -> N) (fadd fsub fmul fdiv frem : N -> N -> N) (finite : N -> bool).
  Context (writable mutable : bool).
  Notation rn := (runner val world).
  Definition is_name (x : text) (l : list string) : bool := existsb (fun n => same_text x (bs n)) l.

  (** [param [i, d]]: the argument, or [d] if there is none. *)
  Definition param (v : val) (w : world) : option (val * world) :=
    match contents v w with
    | Some (_ :: d :: _) => Some (if is_nil (me w) then d else me w, w)
    | Some _ => Some (me w, w)
    | None => None
    end.
  Definition unary_impl (r : rn) (x : text) (v : val) (w : world) : option (val * world) :=
    if is_name x ["-"]%string then match v with VNum a => Some (VNum (fneg a), w) | _ => None end
    else if is_name x ["sqrt"]%string then match v with VNum a => Some (VNum (fsqrt a), w) | _ => None end
    else if is_name x ["tolower"; "toloweransi"]%string then match v with VStr s => Some (VStr (to_ascii_lower s), w) | _ => None end
    else if is_name x ["toupper"; "toupperansi"]%string then match v with VStr s => Some (VStr (to_ascii_upper s), w) | _ => None end
    else if is_name x ["+"]%string then match v with VConst l => Some (alloc_lit (LArr l) w) | _ => None end
    else if is_name x ["call"]%string then match v with VCode c _ _ => value_of (r c w) | _ => None end
    else if is_name x ["param"]%string then param v w
    else if is_name x ["random"]%string then
      match contents v w with Some (VNum x :: _) => Some (VNum x, w) | _ => None end
    else if is_name x ["count"]%string then
      match contents v w with Some l => Some (VNum (N.of_nat (length l)), w) | _ => None end
    else None.
  Definition arith (x : text) : option (N -> N -> N) :=
    if is_name x ["+"]%string then Some fadd else if is_name x ["-"]%string then Some fsub
    else if is_name x ["*"]%string then Some fmul else if is_name x ["/"]%string then Some fdiv
    else if is_name x ["%"; "mod"]%string then Some frem else None.
  Definition binary_impl (r : rn) (x : text) (u v : val) (w : world) : option (val * world) :=
    match arith x with
    | Some f =>
        match u, v with
        | VNum a, VNum b => Some (VNum (f a b), w)
        | VStr a, VStr b => if is_name x ["+"]%string then Some (VStr (a ++ b), w) else None
        | _, _ => None
        end
    | None =>
        if is_name x ["call"]%string then
          match v with
          | VCode c _ _ =>
              match value_of (r c (Wld (heap w) (vars w) u)) with
              | Some (v, w') => Some (v, Wld (heap w') (vars w') (me w))
              | None => None
              end
          | _ => None
          end
        else if is_name x ["else"]%string then
          match u, v with
          | VCode c s q, VCode c' s' q' => if mutable then Some (alloc [u; v] w) else Some (VConst [LCode c s q; LCode c' s' q'], w)
          | _, _ => None
          end
        else if is_name x ["pushback"]%string then
          match u with
          | VRef a =>
              match nth_error (heap w) a with
              | Some l => Some (VNum (N.of_nat (length l)), Wld (update (heap w) a (l ++ [v])) (vars w) (me w))
              | None => None
              end
          | _ => None
          end
        else if is_name x ["vectoradd"]%string then
          match contents u w, contents v w with
          | Some a, Some b =>
              match numbers a, numbers b with
              | Some a, Some b => Some (alloc (map VNum (zip fadd a b)) w)
              | _, _ => None
              end
          | _, _ => None
          end
        else None
    end.
  Definition assign (x : text) (v : val) (w : world) : option world :=
    if (writable && same_text x (bs "_this"))%bool then Some (Wld (heap w) (vars w) v)
    else Some (Wld (heap w) ((x, v) :: vars w) (me w)).
  Definition heap_lang : lang := {|
    Val := val; World := world; lit := lit_val; fresh := alloc;
    nular := fun _ _ _ => None; unary_cmd := unary_impl; binary_cmd := binary_impl;
    this := me; get := fun x w => match lookup x (vars w) with Some v => Some (v, w) | None => None end;
    set_global := assign; set_local := assign |}.

  (** ** The correspondence: a partial bijection between the two heaps. *)
  Notation code_rel := (code_rel fneg fsqrt fadd fsub fmul fdiv frem finite).
  Notation lit_rel := (lit_rel fneg fsqrt fadd fsub fmul fdiv frem finite).
  Definition val_rel (k : list (nat * nat)) (v v' : val) : Prop :=
    match v, v' with
    | VRef a, VRef a' => In (a, a') k
    | VCode c s q, VCode c' s' q' => code_rel c c' /\ s' = s /\ q' = q
    | VConst l, VConst l' => Forall2 lit_rel l l'
    | VRef _, _ | VCode _ _ _, _ | VConst _, _ => False
    | _, _ => v' = v
    end.
  (** [v] is an array that nothing related refers to, with the contents [l]. *)
  Fixpoint holds (k : list (nat * nat)) (h : list (list val)) (v : val) (l : literal) : Prop :=
    match l with
    | LArr ls => exists a c, v = VRef a /\ (forall b, ~ In (a, b) k) /\ nth_error h a = Some c /\
        (fix go (c : list val) (ls : list literal) {struct ls} : Prop := match ls, c with [], [] => True | y :: ls, x :: c => holds k h x y /\ go c ls | _, _ => False end) c ls
    | l => val_rel [] v (lit_val l)
    end.
  Record world_rel (k : list (nat * nat)) (p : list (val * list literal)) (w w' : world) : Prop := {
    w_fun : forall a b b', In (a, b) k -> In (a, b') k -> b = b';
    w_inj : forall a a' b, In (a, b) k -> In (a', b) k -> a = a';
    w_heap : forall a b, In (a, b) k -> exists c c', nth_error (heap w) a = Some c /\ nth_error (heap w') b = Some c' /\ Forall2 (val_rel k) c c';
    w_vars : Forall2 (fun x y => fst x = fst y /\ val_rel k (snd x) (snd y)) (vars w) (vars w');
    w_me : val_rel k (me w) (me w');
    w_pending : Forall (fun vl => holds k (heap w) (fst vl) (LArr (snd vl))) p }.
  Definition heap_corr : correspondence heap_lang := {|
    K := list (nat * nat); le := fun a b => incl a b; Rv := val_rel : _ -> Val heap_lang -> Val heap_lang -> Prop;
    Rw := world_rel : _ -> list (Val heap_lang * list literal) -> World heap_lang -> World heap_lang -> Prop |}.
End Engine.
