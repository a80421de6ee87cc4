(** From the syntax tree to instructions and pools: libs/sqf/src/compiler/mod.rs, with the data types of
    libs/sqf/src/compiler/serializer/mod.rs. *)
From Coq Require Import String.
From Verif Require Import Base.Tactics Base.Bytes Base.Ascii Base.Text Preproc.Model Preproc.LexModel Workspace.ProcessedModel Sqf.Ast.
Local Open Scope N_scope.
Local Open Scope list_scope.

(** ** serializer/mod.rs: data *)

(** :18-24 [SourceInfo]. *)
Record source_info := Info { si_offset : N; si_file : N; si_line : N }.
(** :52-63 [CodePointer]. *)
Inductive code_pointer := PConstant (i : N) | PSource (offset length : N).
(** :92-119 [Instruction]. *)
Inductive instr :=
| EndStatement | Push (c : N)
| CallUnary (n : N) (si : source_info) | CallBinary (n : N) (si : source_info) | CallNular (n : N) (si : source_info)
| AssignTo (n : N) (si : source_info) | AssignToLocal (n : N) (si : source_info) | GetVariable (n : N) (si : source_info)
| MakeArray (len : N) (si : source_info).
(** :206-211 [Instructions]; :252-261 [Constant]. A scalar is its bit pattern. *)
Inductive constant :=
| KCode (contents : list instr) (pointer : code_pointer)
| KString (s : text) | KScalar (bits : N) | KBool (b : bool)
| KArray (l : list constant) | KConsumable (l : list constant) | KNular (name : text).

Definition info_eqb (a b : source_info) : bool :=
  (si_offset a =? si_offset b) && (si_file a =? si_file b) && (si_line a =? si_line b).
Definition pointer_eqb (a b : code_pointer) : bool :=
  match a, b with
  | PConstant i, PConstant j => i =? j
  | PSource o l, PSource o' l' => (o =? o') && (l =? l')
  | _, _ => false
  end.
Definition instr_eqb (a b : instr) : bool :=
  match a, b with
  | EndStatement, EndStatement => true
  | Push i, Push j => i =? j
  | CallUnary n s, CallUnary m u | CallBinary n s, CallBinary m u | CallNular n s, CallNular m u
  | AssignTo n s, AssignTo m u | AssignToLocal n s, AssignToLocal m u | GetVariable n s, GetVariable m u
  | MakeArray n s, MakeArray m u => (n =? m) && info_eqb s u
  | _, _ => false
  end.
Definition list_eqb {A} (f : A -> A -> bool) : list A -> list A -> bool :=
  fix go a b := match a, b with
                | [], [] => true
                | x :: a, y :: b => f x y && go a b
                | _, _ => false
                end.
(** :322-339 [PartialEq for Constant]: scalars by [total_cmp] (equal bits), nular commands without case; two
    [ConsumeableArray]s are never equal. *)
Fixpoint constant_eqb (a b : constant) : bool :=
  match a, b with
  | KCode c p, KCode d q => list_eqb instr_eqb c d && pointer_eqb p q
  | KString s, KString t => same_text s t
  | KScalar x, KScalar y => x =? y
  | KBool x, KBool y => Bool.eqb x y
  | KArray l, KArray m => list_eqb constant_eqb l m
  | KNular x, KNular y => eq_ignore_case x y
  | _, _ => false
  end.

(** :396-408 [Compiled], without [constants_cache_compression], which is always true. *)
Record compiled := Compiled { entry_point : N; constants : list constant; names : list text; file_names : list text }.

(** ** compiler/mod.rs *)

(** :277-283 [CompileError]; [Panic]: expect and unreachable!. *)
Inductive outcome (A : Type) := Ok (a : A) | ListTooLong | InvalidName (x : text) | Panic.
Arguments Ok {A} a.
Arguments ListTooLong {A}.
Arguments InvalidName {A} x.
Arguments Panic {A}.
Definition obind {A B} (r : outcome A) (k : A -> outcome B) : outcome B :=
  match r with Ok a => k a | ListTooLong => ListTooLong | InvalidName x => InvalidName x | Panic => Panic end.
Notation "'do' x <- r ;; k" := (obind r (fun x => k)) (at level 61, x pattern, r at next level, right associativity).

(** :287-291 [Context]: constants, names. *)
Notation ctx := (list constant * list text)%type.

(** :322-334 [add_or_get_index]. *)
Fixpoint index_of {A} (f : A -> A -> bool) (l : list A) (x : A) : option N :=
  match l with
  | [] => None
  | y :: r => if f y x then Some 0 else option_map N.succ (index_of f r x)
  end.
Definition add_or_get {A} (f : A -> A -> bool) (l : list A) (x : A) : outcome (N * list A) :=
  let (i, l) := match index_of f l x with Some i => (i, l) | None => (N.of_nat (length l), l ++ [x]) end in
  if i <? 2 ^ 16 then Ok (i, l) else ListTooLong.
(** :312-320 [try_normalize_name]. *)
Definition normalize (x : text) : outcome text :=
  let y := to_ascii_lower x in if is_valid_command y then Ok y else InvalidName x.
(** :294-302 [add_constant], [add_name]. *)
Definition add_constant (k : constant) (c : ctx) : outcome (N * ctx) :=
  do (i, ks) <- add_or_get constant_eqb (fst c) k ;; Ok (i, (ks, snd c)).
Definition add_name (x : text) (c : ctx) : outcome (N * ctx) :=
  do y <- normalize x ;; do (i, ns) <- add_or_get same_text (snd c) y ;; Ok (i, (fst c, ns)).

(** A loop over a list that threads the context and collects the results. *)
Definition each {A B} (f : A -> ctx -> outcome (B * ctx)) : list A -> ctx -> outcome (list B * ctx) :=
  fix go l c := match l with
                | [] => Ok ([], c)
                | x :: r => do (y, c) <- f x c ;; do (ys, c) <- go r c ;; Ok (y :: ys, c)
                end.
(** The same when a result may be missing: collecting into [Result<Option<Vec<_>>>] stops at the first [None]. *)
Definition each_opt {A B} (f : A -> ctx -> outcome (option B * ctx)) : list A -> ctx -> outcome (option (list B) * ctx) :=
  fix go l c := match l with
                | [] => Ok (Some [], c)
                | x :: r =>
                    do (y, c) <- f x c ;;
                    match y with
                    | None => Ok (None, c)
                    | Some y => do (ys, c) <- go r c ;; Ok (option_map (cons y) ys, c)
                    end
                end.

(** mod.rs:157-185 [push_constant]. An array built here has the empty source info. *)
Fixpoint push_constant (k : constant) (c : ctx) {struct k} : outcome (list instr * ctx) :=
  match k with
  | KArray l =>
      do (is, c) <- each push_constant l c ;;
      if N.of_nat (length l) <? 2 ^ 16 then Ok (concat is ++ [MakeArray (N.of_nat (length l)) (Info 0 0 0)], c) else Panic
  | _ => do (i, c) <- add_constant k c ;; Ok ([Push i], c)
  end.

Section Compile.
  Context (p : processed).

  (** mod.rs:96-114 [location_to_source]: the last casts to u16 and u32 truncate. *)
  Definition location_to_source (sp : span) : outcome source_info :=
    match mapping_at p (fst sp) with
    | None => Panic
    | Some m =>
        match position (p_path (m_orig m)) (sources p) with
        | None => Panic
        | Some i => if N.of_nat i <? 2 ^ 8 then Ok (Info (get_byte_offset p (fst sp)) (N.of_nat i) (lc_line (p_start (m_orig m)) mod 2 ^ 16)) else Panic
        end
    end.
  (** :71-83: the code pointer of a block. [extract] panics when the span is no range of the text. *)
  Definition block_pointer (content : list stmt) (sp : span) : outcome code_pointer :=
    match extract p (fst sp) (snd sp) with
    | None => Panic
    | Some s => Ok (PSource (get_byte_offset p (fst sp)) (match content with [] => 0 | _ => byte_len s mod 2 ^ 32 end))
    end.
  (** A command or variable: its name, then the place of [sp]. *)
  Definition named (f : N -> source_info -> instr) (x : text) (sp : span) (c : ctx) : outcome (list instr * ctx) :=
    do (i, c) <- add_name x c ;; do si <- location_to_source sp ;; Ok ([f i si], c).

  (** mod.rs:149-243 [Expression::compile_instructions] and :245-275 [compile_constant], as a pair of functions of the
      context; :116-146 [Statement::compile_instructions]. *)
  Fixpoint comp (e : expr) : (ctx -> outcome (option constant * ctx)) * (ctx -> outcome (list instr * ctx)) :=
    let const := fun c =>
      match e with
      | ECode content _ sp =>
          do (is, c) <- each comp_stmt content c ;; do q <- block_pointer content sp ;; Ok (Some (KCode (concat is) q), c)
      | EString s _ _ => Ok (Some (KString s), c)
      | ENumber x _ => Ok (Some (KScalar x), c)
      | EBool b _ => Ok (Some (KBool b), c)
      | EArray l _ => do (ks, c) <- each_opt (fun e => fst (comp e)) l c ;; Ok (option_map KArray ks, c)
      | EConsumable l _ => do (ks, c) <- each_opt (fun e => fst (comp e)) l c ;; Ok (option_map KConsumable ks, c)
      | ENular x _ => if is_constant_command x then do y <- normalize x ;; Ok (Some (KNular y), c) else Ok (None, c)
      | EUnary _ _ _ | EBinary _ _ _ _ | EVar _ _ => Ok (None, c)
      end in
    (const, fun c =>
      do (k, c) <- const c ;;
      match k with
      | Some k => push_constant k c
      | None =>
          match e with
          | EArray l sp =>
              if N.of_nat (length l) <? 2 ^ 16 then
                do (is, c) <- each (fun e => snd (comp e)) l c ;;
                do si <- location_to_source sp ;;
                Ok (concat is ++ [MakeArray (N.of_nat (length l)) si], c)
              else ListTooLong
          | ENular x sp => named CallNular x sp c
          | EUnary u e sp =>
              do (is, c) <- snd (comp e) c ;; do (js, c) <- named CallUnary (unary_str u) sp c ;; Ok (is ++ js, c)
          | EBinary b e1 e2 sp =>
              do (is, c) <- snd (comp e1) c ;; do (js, c) <- snd (comp e2) c ;;
              do (ks, c) <- named CallBinary (binary_str b) sp c ;; Ok (is ++ js ++ ks, c)
          | EVar x sp => named GetVariable x sp c
          | EConsumable _ _ | ECode _ _ _ | EString _ _ _ | ENumber _ _ | EBool _ _ => Panic
          end
      end)
  with comp_stmt (s : stmt) : ctx -> outcome (list instr * ctx) := fun c =>
    match s with
    | SGlobal x e sp => do (is, c) <- snd (comp e) c ;; do (js, c) <- named AssignTo x sp c ;; Ok (EndStatement :: is ++ js, c)
    | SLocal x e sp => do (is, c) <- snd (comp e) c ;; do (js, c) <- named AssignToLocal x sp c ;; Ok (EndStatement :: is ++ js, c)
    | SExpr e _ => do (is, c) <- snd (comp e) c ;; Ok (EndStatement :: is, c)
    end.
  Definition compile_constant (e : expr) := fst (comp e).
  Definition compile_instructions (e : expr) := snd (comp e).

  (** [WorkspacePath::as_virtual_str]. *)
  Context (virtual : text -> text).
  (** mod.rs:29-48 [Statements::compile] with :61-92 [compile_to_instructions] of the root. The entry point is a
      truncated index. *)
  Definition compile (s : statements) : outcome compiled :=
    do (is, c) <- each comp_stmt (content s) ([], []) ;;
    do (i, c) <- add_constant (KString (source s)) c ;;
    Ok (Compiled (N.of_nat (length (fst c)) mod 2 ^ 16) (fst c ++ [KCode (concat is) (PConstant i)]) (snd c)
          (map (fun f => virtual (fst f)) (sources p))).
End Compile.
