(** Model of libs/config/src/model and libs/config/src/rapify: config trees and their binary form. *)
From Verif Require Import Base.Tactics Base.Bytes Io.Model.
Local Open Scope N_scope.

(** ** The tree (model/*.rs). Spans are source positions and never reach the output: dropped.
    A string is its UTF-8 bytes. A float is its bit pattern ([f32::to_bits]). *)

(** model/number.rs:5-27 [Number]. *)
Inductive number :=
| Int32 (v : Z)
| Int64 (v : Z)
| Float32 (bits : N).

(** model/array.rs:15-24 [Item]. *)
Inductive item :=
| IStr (s : bytes)
| INum (n : number)
| IArr (l : list item)
| IInvalid.

(** model/value.rs:7-38 [Value], with model/array.rs:7-11 [Array] inlined as (expand, items). *)
Inductive value :=
| VStr (s : bytes)
| VNum (n : number)
| VExpr (s : bytes)
| VArr (expand : bool) (l : list item)
| VUnexpectedArr (expand : bool) (l : list item)
| VInvalid.

(** model/class.rs:9-47 [Class] and model/property.rs:7-23 [Property]. *)
Inductive class :=
| Root (ps : list property)
| Local (name : bytes) (parent : option bytes) (ps : list property) (missing_braces : bool)
| External (name : bytes)
with property :=
| Entry (name : bytes) (v : value) (expected_array : bool)
| PClass (c : class)
| Delete (name : bytes)
| MissingSemicolon (name : bytes).

(** model/config.rs:7 [Config]. *)
Definition config := list property.

(** ** Outcomes: [unreachable!], [expect] and failed [assert_eq!] are [Panic]; a write past the end of
    a fixed-size cursor is [IoErr]. Sizes are unbounded [N]: overflow of the 64-bit [usize]
    counters is not modelled; every [as u32] is. *)
Inductive res (A : Type) :=
| Ok (a : A)
| Panic
| IoErr.
Arguments Ok {A} a.
Arguments Panic {A}.
Arguments IoErr {A}.

Definition bind {A B} (r : res A) (k : A -> res B) : res B :=
  match r with Ok a => k a | Panic => Panic | IoErr => IoErr end.
Notation "x <- r ;; k" := (bind r (fun x => k)) (at level 61, r at next level, right associativity).

Definition as_u32 (n : N) : N := n mod 4294967296.

(** [WriteExt::write_compressed_int] (common/src/io.rs:84-98) on [len() as u32]: bytes and count. *)
Definition write_len (n : nat) : res (bytes * N) :=
  match write_compressed_int (as_u32 (N.of_nat n)) with
  | Some b => Ok (b, blen b)
  | None => Panic
  end.
(** [compressed_int_len(len() as u32)] (common/src/io.rs:102-113). *)
Definition len_len (n : nat) : res N :=
  match compressed_int_len (as_u32 (N.of_nat n)) with
  | Some k => Ok k
  | None => Panic
  end.

(** [write_i32::<LittleEndian>], [write_i64::<LittleEndian>]: two's complement. *)
Definition i32_bytes (v : Z) : bytes := u32_bytes (Z.to_N (v mod 4294967296)).
Definition i64_bytes (v : Z) : bytes := u64_bytes (Z.to_N (v mod 18446744073709551616)).

(** ** rapify/number.rs *)
(** number.rs:8-29 [rapify]: the bytes written and the count returned. *)
Definition number_rapify (n : number) : bytes * N :=
  match n with
  | Int32 v => (i32_bytes v, 4)
  | Int64 v => (i64_bytes v, 8)
  | Float32 b => (u32_bytes b, 4)
  end.
(** number.rs:31-36 [rapified_length]. *)
Definition number_len (n : number) : N :=
  match n with Int32 _ | Float32 _ => 4 | Int64 _ => 8 end.
(** number.rs:38-44 [rapified_code]. *)
Definition number_code (n : number) : N :=
  match n with Int32 _ => 2 | Int64 _ => 6 | Float32 _ => 1 end.

(** ** rapify/str.rs:7-24 and rapify/expression.rs:7-24 *)
Definition str_rapify (s : bytes) : bytes * N := (write_cstring s, blen s + 1).
Definition str_len (s : bytes) : N := blen s + 1.

(** ** rapify/array.rs *)
(** array.rs:63-70 [Item::rapified_code]. *)
Definition item_code (i : item) : res N :=
  match i with
  | IStr _ => Ok 0
  | INum n => Ok (number_code n)
  | IArr _ => Ok 3
  | IInvalid => Panic
  end.

(** array.rs:51-61 [Item::rapified_length]; the inner loop is [usize::sum(iter.map(|e| e.rapified_length() + 1))]. *)
Fixpoint item_len (i : item) : res N :=
  match i with
  | IStr s => Ok (str_len s)
  | INum n => Ok (number_len n)
  | IArr l =>
      k <- len_len (length l) ;;
      s <- (fix go (l : list item) : res N :=
              match l with
              | [] => Ok 0
              | e :: r => n <- item_len e ;; m <- go r ;; Ok (n + 1 + m)
              end) l ;;
      Ok (k + s)
  | IInvalid => Panic
  end.
(** array.rs:24-27 [Array::rapified_length]. *)
Fixpoint items_len (l : list item) : res N :=
  match l with
  | [] => Ok 0
  | e :: r => n <- item_len e ;; m <- items_len r ;; Ok (n + 1 + m)
  end.
Definition array_len (l : list item) : res N :=
  k <- len_len (length l) ;; s <- items_len l ;; Ok (k + s).

(** array.rs:31-49 [Item::rapify]. *)
Fixpoint item_rapify (i : item) : res (bytes * N) :=
  match i with
  | IStr s => Ok (str_rapify s)
  | INum n => Ok (number_rapify n)
  | IArr l =>
      kw <- write_len (length l) ;;
      let (out0, w0) := kw in
      (fix go (l : list item) (out : bytes) (written : N) : res (bytes * N) :=
         match l with
         | [] => Ok (out, written)
         | e :: r =>
             c <- item_code e ;;
             bn <- item_rapify e ;;
             let (b, n) := bn in
             go r (out ++ [c] ++ b) (written + (n + 1))
         end) l out0 w0
  | IInvalid => Panic
  end.
(** array.rs:15-22 [Array::rapify], the loop of lines 16-19. *)
Fixpoint items_rapify (l : list item) (out : bytes) (written : N) : res (bytes * N) :=
  match l with
  | [] => Ok (out, written)
  | e :: r =>
      c <- item_code e ;;
      bn <- item_rapify e ;;
      let (b, n) := bn in
      items_rapify r (out ++ [c] ++ b) (written + (n + 1))
  end.
Definition array_rapify (l : list item) : res (bytes * N) :=
  kw <- write_len (length l) ;;
  let (out0, w0) := kw in
  bw <- items_rapify l out0 w0 ;;
  let (out, written) := bw in
  n <- array_len l ;;
  if written =? n then Ok (out, written) else Panic.

(** ** rapify/value.rs *)
(** value.rs:22-30 [rapified_length]. *)
Definition value_len (v : value) : res N :=
  match v with
  | VStr s => Ok (str_len s)
  | VNum n => Ok (number_len n)
  | VExpr s => Ok (str_len s)
  | VArr _ l => array_len l
  | VUnexpectedArr _ _ | VInvalid => Panic
  end.
(** value.rs:6-20 [rapify]. *)
Definition value_rapify (v : value) : res (bytes * N) :=
  bw <- match v with
        | VStr s => Ok (str_rapify s)
        | VNum n => Ok (number_rapify n)
        | VExpr s => Ok (str_rapify s)
        | VArr _ l => array_rapify l
        | VUnexpectedArr _ _ | VInvalid => Panic
        end ;;
  let (b, written) := bw in
  n <- value_len v ;;
  if written =? n then Ok (b, written) else Panic.

(** ** rapify/property.rs *)
(** model/class.rs:52-57 [Class::name]. *)
Definition class_name (c : class) : option bytes :=
  match c with
  | External name | Local name _ _ _ => Some name
  | Root _ => None
  end.
(** model/property.rs:31-36 [Property::name], an [expect] on the name of a class. *)
Definition prop_name (p : property) : res bytes :=
  match p with
  | PClass c => match class_name c with Some n => Ok n | None => Panic end
  | MissingSemicolon n | Delete n | Entry n _ _ => Ok n
  end.
(** property.rs:38-62 [property_code]. *)
Definition prop_code (p : property) : res bytes :=
  match p with
  | Entry _ v _ =>
      match v with
      | VStr _ => Ok [1; 0]
      | VNum n => Ok [1; number_code n]
      | VExpr _ => Ok [1; 4]
      | VArr expand _ => Ok (if expand then [5; 1; 0; 0; 0] else [2])
      | VUnexpectedArr _ _ | VInvalid => Panic
      end
  | PClass c => match c with Local _ _ _ _ | Root _ => Ok [0] | External _ => Ok [3] end
  | Delete _ => Ok [4]
  | MissingSemicolon _ => Panic
  end.
(** property.rs:14-32 [rapified_length]. *)
Definition prop_len (p : property) : res N :=
  c <- prop_code p ;;
  n <- match p with
       | Entry _ v _ => value_len v
       | PClass c => match c with Root _ => Panic | Local _ _ _ _ => Ok 4 | External _ => Ok 0 end
       | Delete _ => Ok 0
       | MissingSemicolon _ => Panic
       end ;;
  Ok (blen c + n).

(** ** rapify/class.rs *)
(** model/class.rs:61-66 [Class::parent]. *)
Definition class_parent (c : class) : option bytes :=
  match c with
  | External _ | Root _ => None
  | Local _ parent _ _ => parent
  end.
(** model/class.rs:70-75 [Class::properties]. *)
Definition class_props (c : class) : list property :=
  match c with
  | Root ps | Local _ _ ps _ => ps
  | External _ => []
  end.

(** class.rs:88-111 [rapified_length]. *)
Fixpoint class_len (c : class) : res N :=
  let body (parent : option bytes) (ps : list property) : res N :=
    k <- len_len (length ps) ;;
    s <- (fix go (ps : list property) : res N :=
            match ps with
            | [] => Ok 0
            | p :: r =>
                nm <- prop_name p ;;
                pl <- prop_len p ;;
                cl <- match p with PClass c' => class_len c' | _ => Ok 0 end ;;
                m <- go r ;;
                Ok (blen nm + 1 + pl + cl + m)
            end) ps ;;
    Ok (match parent with Some p => blen p | None => 0 end + 1 + 4 + k + s) in
  match c with
  | External _ => Ok 0
  | Local _ parent ps _ => body parent ps
  | Root ps => body None ps
  end.

(** class.rs:28-31: [properties.iter().map(|p| p.name().len() + 1 + p.rapified_length()).sum()]. *)
Fixpoint props_len (ps : list property) : res N :=
  match ps with
  | [] => Ok 0
  | p :: r =>
      nm <- prop_name p ;;
      pl <- prop_len p ;;
      m <- props_len r ;;
      Ok (blen nm + 1 + pl + m)
  end.

(** [Cursor::new(vec![0; len].into_boxed_slice())] after writing [b] (class.rs:51-54, config.rs:21-23):
    a write past the end fails, unwritten bytes stay zero. Simplification: the failure is reported once,
    after the body is complete, instead of at the write that overruns. *)
Definition cursor_fill (len : N) (b : bytes) : res bytes :=
  if len <? blen b then IoErr
  else Ok (b ++ repeat 0 (N.to_nat (len - blen b))).

(** Loop state of class.rs:36-67. *)
Record loop_state := mkst {
  st_out : bytes;
  st_written : N;
  st_class_offset : N;
  st_bodies : list bytes
}.

(** class.rs:11-86 [rapify]. *)
Fixpoint class_rapify (c : class) (offset : N) : res (bytes * N) :=
  let body (parent : option bytes) (ps : list property) : res (bytes * N) :=
    let (out0, w0) := match parent with
                      | Some p => (write_cstring p, blen p + 1)
                      | None => ([0], 1)
                      end in
    kw <- write_len (length ps) ;;
    let (outk, k) := kw in
    let out1 := out0 ++ outk in
    let written := w0 + k in
    properties_len <- props_len ps ;;
    let pre_properties := written in
    st <- (fix go (ps : list property) (st : loop_state) : res loop_state :=
             match ps with
             | [] => Ok st
             | p :: r =>
                 let pre_write := st_written st in
                 code <- prop_code p ;;
                 nm <- prop_name p ;;
                 let out := st_out st ++ code ++ write_cstring nm in
                 let written := st_written st + blen code + (blen nm + 1) in
                 let check (st' : loop_state) : res loop_state :=
                   n <- prop_len p ;;
                   if st_written st' - pre_write =? n + blen nm + 1 then Ok st' else Panic in
                 match p with
                 | Entry _ v _ =>
                     bn <- value_rapify v ;;
                     let (b, n) := bn in
                     st' <- check (mkst (out ++ b) (written + n) (st_class_offset st) (st_bodies st)) ;;
                     go r st'
                 | PClass c' =>
                     match c' with
                     | Local _ _ _ _ =>
                         let out := out ++ u32_bytes (as_u32 (st_class_offset st)) in
                         let written := written + 4 in
                         len <- class_len c' ;;
                         bn <- class_rapify c' (st_class_offset st) ;;
                         let (b, body_size) := bn in
                         buf <- cursor_fill len b ;;
                         st' <- (if body_size =? len
                                 then check (mkst out written (st_class_offset st + body_size)
                                               (st_bodies st ++ [buf]))
                                 else Panic) ;;
                         go r st'
                     | _ =>
                         st' <- check (mkst out written (st_class_offset st) (st_bodies st)) ;;
                         go r st'
                     end
                 | Delete _ => go r (mkst out written (st_class_offset st) (st_bodies st))
                 | MissingSemicolon _ => Panic
                 end
             end) ps (mkst out1 written (offset + written + properties_len + 4) []) ;;
    if st_written st - pre_properties =? properties_len then
      Ok (st_out st ++ u32_bytes (as_u32 (st_class_offset st)) ++ concat (st_bodies st),
          st_written st + 4 + blen (concat (st_bodies st)))
    else Panic in
  match c with
  | Local _ parent ps _ => body parent ps
  | Root ps => body None ps
  | External name => Ok ([3] ++ write_cstring name, 1)
  end.

(** ** rapify/config.rs *)
(** config.rs:36-41 [rapified_length]. *)
Definition config_len (c : config) : res N :=
  n <- class_len (Root c) ;; Ok (n + 20).
(** config.rs:10-34 [rapify]: the file's bytes and the count returned. *)
Definition config_rapify (c : config) : res (bytes * N) :=
  len <- class_len (Root c) ;;
  bn <- class_rapify (Root c) 16 ;;
  let (b, written) := bn in
  buf <- cursor_fill len b ;;
  if written =? len then
    total <- config_len c ;;
    if written + 20 =? total then
      Ok ([0; 114; 97; 80] ++ [0; 0; 0; 0; 8; 0; 0; 0]
            ++ u32_bytes (as_u32 (16 + as_u32 (blen buf))) ++ buf ++ [0; 0; 0; 0],
          written + 20)
    else Panic
  else Panic.
