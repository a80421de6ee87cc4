(** What a script and a compiled script mean. *)
From Coq Require Import String.
From Verif Require Import Base.Tactics Base.Bytes Base.Ascii Base.Text Preproc.Model Preproc.LexModel Workspace.ProcessedModel Sqf.Ast Sqf.CompileModel.
Local Open Scope N_scope.
Local Open Scope list_scope.

(** ** Values and the actions of the engine's stack machine *)

(** A place in the source: the byte of the preprocessed text, the file and the line it came from. *)
Record place := Place { pl_byte : N; pl_file : text; pl_line : N }.
(** A literal value. Code is its text, for error messages, and what it does. [VNull] is what a command such as [objNull]
    or [nil] stands for. *)
Inductive value :=
| VString (s : text) | VNumber (bits : N) | VBool (b : bool) | VArray (l : list value) | VNull (name : text)
| VCode (src : text) (body : list action)
with action :=
| Next | Lit (v : value) | Make (n : N)
| Nular (x : text) (at_ : place) | Unary (x : text) (at_ : place) | Binary (x : text) (at_ : place)
| Get (x : text) (at_ : place) | SetGlobal (x : text) (at_ : place) | SetLocal (x : text) (at_ : place).

Definition opt_map {A B} (f : A -> option B) : list A -> option (list B) :=
  fix go l := match l with
              | [] => Some []
              | x :: r => match f x, go r with Some y, Some ys => Some (y :: ys) | _, _ => None end
              end.

(** ** The meaning of a script: its operations in postfix order *)
Section Source.
  Context (p : processed) (virtual : text -> text).
  (** The place of the character number [i] of the preprocessed text; the line is kept in 16 bits. *)
  Definition place_of (i : N) : place :=
    match mapping_at p i with
    | Some m => Place (byte_len (take i (o_text p))) (virtual (p_path (m_orig m))) (lc_line (p_start (m_orig m)) mod 65536)
    | None => Place 0 [] 0
    end.
  (** The text of a block; a block without statements shows nothing. *)
  Definition block_text (c : list stmt) (sp : span) : text :=
    match c with [] => [] | _ => take (snd sp - fst sp) (drop (fst sp) (o_text p)) end.

  (** An expression in postfix order. A shared array ([EConsumable], made by the optimiser) is one value when its
      elements are constant. *)
  Fixpoint postfix (e : expr) : list action :=
    match e with
    | ECode c _ sp => [Lit (VCode (block_text c sp) (flat_map postfix_stmt c))]
    | EString s _ _ => [Lit (VString s)]
    | ENumber x _ => [Lit (VNumber x)]
    | EBool b _ => [Lit (VBool b)]
    | EArray l _ => flat_map postfix l ++ [Make (N.of_nat (length l))]
    | EConsumable l _ => match opt_map constant_value l with Some vs => [Lit (VArray vs)] | None => flat_map postfix l ++ [Make (N.of_nat (length l))] end
    | ENular x sp =>
        if is_in nular_constants x then [Lit (VNull (to_ascii_lower x))] else [Nular (to_ascii_lower x) (place_of (fst sp))]
    | EUnary u e sp => postfix e ++ [Unary (to_ascii_lower (unary_str u)) (place_of (fst sp))]
    | EBinary b e1 e2 sp => postfix e1 ++ postfix e2 ++ [Binary (to_ascii_lower (binary_str b)) (place_of (fst sp))]
    | EVar x sp => [Get (to_ascii_lower x) (place_of (fst sp))]
    end
  with postfix_stmt (s : stmt) : list action :=
    match s with
    | SGlobal x e sp => Next :: postfix e ++ [SetGlobal (to_ascii_lower x) (place_of (fst sp))]
    | SLocal x e sp => Next :: postfix e ++ [SetLocal (to_ascii_lower x) (place_of (fst sp))]
    | SExpr e _ => Next :: postfix e
    end
  with constant_value (e : expr) : option value :=
    match e with
    | ECode c _ sp => Some (VCode (block_text c sp) (flat_map postfix_stmt c))
    | EString s _ _ => Some (VString s)
    | ENumber x _ => Some (VNumber x)
    | EBool b _ => Some (VBool b)
    | EArray l _ | EConsumable l _ => match opt_map constant_value l with Some vs => Some (VArray vs) | None => None end
    | ENular x _ => if is_in nular_constants x then Some (VNull (to_ascii_lower x)) else None
    | EUnary _ _ _ | EBinary _ _ _ _ | EVar _ _ => None
    end.
  Definition meaning (s : list stmt) : list action := flat_map postfix_stmt s.
End Source.

(** ** Loading a compiled script: every index is looked up in the pools *)
Definition nth_n {A} (l : list A) (i : N) : option A := nth_error l (N.to_nat i).
Section Load.
  (** The text of the whole script, and the file names. *)
  Context (main : text) (files : list text).
  Definition load_place (si : source_info) : option place :=
    match nth_n files (si_file si) with Some f => Some (Place (si_offset si) f (si_line si)) | None => None end.
  Definition load_named (ns : list text) (f : text -> place -> action) (n : N) (si : source_info) : option action :=
    match nth_n ns n, load_place si with Some x, Some at_ => Some (f x at_) | _, _ => None end.
  (** [vs]: the values of the constants before the one being loaded; [ns]: the names. *)
  Definition load_instr (vs : list value) (ns : list text) (i : instr) : option action :=
    match i with
    | EndStatement => Some Next
    | Push c => option_map Lit (nth_n vs c)
    | MakeArray n _ => Some (Make n)
    | CallNular n si => load_named ns Nular n si
    | CallUnary n si => load_named ns Unary n si
    | CallBinary n si => load_named ns Binary n si
    | GetVariable n si => load_named ns Get n si
    | AssignTo n si => load_named ns SetGlobal n si
    | AssignToLocal n si => load_named ns SetLocal n si
    end.
  Definition load_pointer (vs : list value) (q : code_pointer) : option text :=
    match q with
    | PConstant i => match nth_n vs i with Some (VString s) => Some s | _ => None end
    | PSource o l => slice main o (o + l)
    end.
  Fixpoint load_constant (vs : list value) (ns : list text) (k : constant) : option value :=
    match k with
    | KString s => Some (VString s)
    | KScalar x => Some (VNumber x)
    | KBool b => Some (VBool b)
    | KNular x => Some (VNull (to_ascii_lower x))
    | KArray l | KConsumable l => option_map VArray (opt_map (load_constant vs ns) l)
    | KCode is q => match load_pointer vs q, opt_map (load_instr vs ns) is with Some s, Some b => Some (VCode s b) | _, _ => None end
    end.
  Fixpoint load_pool (ns : list text) (vs : list value) (ks : list constant) : option (list value) :=
    match ks with
    | [] => Some vs
    | k :: r => match load_constant vs ns k with Some v => load_pool ns (vs ++ [v]) r | None => None end
    end.
End Load.
(** The whole script: the code at the entry point, whose text is the string it points to. *)
Definition load (c : compiled) : option value :=
  match nth_n (constants c) (entry_point c) with
  | Some (KCode _ (PConstant i)) =>
      match nth_n (constants c) i with
      | Some (KString main) =>
          match load_pool main (file_names c) (names c) [] (constants c) with
          | Some vs => nth_n vs (entry_point c)
          | None => None
          end
      | _ => None
      end
  | _ => None
  end.

(** ** Running *)

(** An interpretation of the commands: any type of values and of worlds, any effect of each command, of variables, of
    making an array, and of the boundary between two statements on the values left on the stack. [None] is an abort. *)
Record engine := Engine {
  V : Type; W : Type;
  literal : value -> V;
  array : list V -> W -> option (V * W);
  nular : text -> place -> W -> option (V * W);
  unary_cmd : text -> place -> V -> W -> option (V * W);
  binary_cmd : text -> place -> V -> V -> W -> option (V * W);
  get : text -> place -> W -> option (V * W);
  set_global : text -> place -> V -> W -> option W;
  set_local : text -> place -> V -> W -> option W;
  boundary : list V -> W -> option (list V * W) }.

Section Run.
  Context (E : engine).
  Notation stack := (list (V E)).
  (** The stack machine; the head of the list is the top of the stack. Popping an empty stack aborts. *)
  Definition push_result (st : stack) (r : option (V E * W E)) : option (stack * W E) :=
    match r with Some (v, w) => Some (v :: st, w) | None => None end.
  Definition step (a : action) (st : stack) (w : W E) : option (stack * W E) :=
    match a with
    | Next => boundary E st w
    | Lit v => Some (literal E v :: st, w)
    | Make n => if N.of_nat (length st) <? n then None
                else push_result (skipn (N.to_nat n) st) (array E (rev (firstn (N.to_nat n) st)) w)
    | Nular x at_ => push_result st (nular E x at_ w)
    | Get x at_ => push_result st (get E x at_ w)
    | Unary x at_ => match st with v :: st => push_result st (unary_cmd E x at_ v w) | _ => None end
    | Binary x at_ => match st with v2 :: v1 :: st => push_result st (binary_cmd E x at_ v1 v2 w) | _ => None end
    | SetGlobal x at_ => match st with v :: st => option_map (fun w => (st, w)) (set_global E x at_ v w) | _ => None end
    | SetLocal x at_ => match st with v :: st => option_map (fun w => (st, w)) (set_local E x at_ v w) | _ => None end
    end.
  Fixpoint run (l : list action) (st : stack) (w : W E) : option (stack * W E) :=
    match l with
    | [] => Some (st, w)
    | a :: r => match step a st w with Some (st, w) => run r st w | None => None end
    end.

  (** The tree, from left to right. *)
  Context (p : processed) (virtual : text -> text).
  Definition eval_list (f : expr -> W E -> option (V E * W E)) : list expr -> W E -> option (list (V E) * W E) :=
    fix go l w := match l with
                  | [] => Some ([], w)
                  | e :: r => match f e w with
                              | Some (v, w) => match go r w with Some (vs, w) => Some (v :: vs, w) | None => None end
                              | None => None
                              end
                  end.
  Fixpoint eval (e : expr) (w : W E) : option (V E * W E) :=
    match e with
    | ECode c _ sp => Some (literal E (VCode (block_text p c sp) (meaning p virtual c)), w)
    | EString s _ _ => Some (literal E (VString s), w)
    | ENumber x _ => Some (literal E (VNumber x), w)
    | EBool b _ => Some (literal E (VBool b), w)
    | EArray l _ => match eval_list eval l w with Some (vs, w) => array E vs w | None => None end
    | EConsumable l _ =>
        match opt_map (constant_value p virtual) l with
        | Some vs => Some (literal E (VArray vs), w)
        | None => match eval_list eval l w with Some (vs, w) => array E vs w | None => None end
        end
    | ENular x sp =>
        if is_in nular_constants x then Some (literal E (VNull (to_ascii_lower x)), w)
        else nular E (to_ascii_lower x) (place_of p virtual (fst sp)) w
    | EUnary u e sp =>
        match eval e w with
        | Some (v, w) => unary_cmd E (to_ascii_lower (unary_str u)) (place_of p virtual (fst sp)) v w
        | None => None
        end
    | EBinary b e1 e2 sp =>
        match eval e1 w with
        | Some (v1, w) =>
            match eval e2 w with
            | Some (v2, w) => binary_cmd E (to_ascii_lower (binary_str b)) (place_of p virtual (fst sp)) v1 v2 w
            | None => None
            end
        | None => None
        end
    | EVar x sp => get E (to_ascii_lower x) (place_of p virtual (fst sp)) w
    end.
  (** One statement after the other; an expression statement adds its value to those of the statements before. *)
  Definition exec_stmt (s : stmt) (st : stack) (w : W E) : option (stack * W E) :=
    match boundary E st w with
    | None => None
    | Some (st, w) =>
        match eval (stmt_expr s) w with
        | None => None
        | Some (v, w) =>
            match s with
            | SGlobal x _ sp => option_map (fun w => (st, w)) (set_global E (to_ascii_lower x) (place_of p virtual (fst sp)) v w)
            | SLocal x _ sp => option_map (fun w => (st, w)) (set_local E (to_ascii_lower x) (place_of p virtual (fst sp)) v w)
            | SExpr _ _ => Some (v :: st, w)
            end
        end
    end.
  Fixpoint exec (l : list stmt) (st : stack) (w : W E) : option (stack * W E) :=
    match l with
    | [] => Some (st, w)
    | s :: r => match exec_stmt s st w with Some (st, w) => exec r st w | None => None end
    end.
End Run.
