(** Writing a compiled script to an SQFC file: libs/sqf/src/compiler/serializer/mod.rs. *)
From Coq Require Import String.
From Verif Require Import Base.Tactics Base.Bytes Base.Ascii Base.Text Io.Spec Lzo.Model Sqf.Ast Sqf.CompileModel.
Local Open Scope N_scope.
Local Open Scope list_scope.

(** serializer/mod.rs:678-699 [SerializeError]; [LzoFault] is a panic or an error of the compressor. The writer itself
    does not fail. *)
Inductive ser_error :=
| StringTooLong | ArrayTooLong | InstructionsLimit | BufferSizeLimit | ListTooLongBlock
| InvalidConstantIndex (i : N) | InvalidNameIndex (i : N) | LzoFault.
Inductive ser := Wrote (b : bytes) | SerFail (e : ser_error).
Definition andthen (r : ser) (k : bytes -> ser) : ser := match r with Wrote b => k b | SerFail e => SerFail e end.
(** One write after another. *)
Definition also (r r' : ser) : ser := andthen r (fun a => andthen r' (fun b => Wrote (a ++ b))).
Definition ser_all {A} (f : A -> ser) : list A -> ser :=
  fix go l := match l with [] => Wrote [] | x :: r => also (f x) (go r) end.

(** The bytes of a [str]. *)
Definition utf8 (s : text) : bytes := flat_map utf8_char s.
(** mod.rs:635-644 [serialize_string]. *)
Definition ser_string (s : text) : ser :=
  let b := utf8 s in if blen b <? 2 ^ 24 then Wrote (u24_bytes (blen b) ++ b) else SerFail StringTooLong.
(** mod.rs:31-36 [SourceInfo::serialize]. *)
Definition ser_info (si : source_info) : bytes := u32_bytes (si_offset si) ++ [si_file si] ++ u16_bytes (si_line si).
(** mod.rs:67-79 [CodePointer::serialize]. *)
Definition ser_pointer (q : code_pointer) : bytes :=
  match q with
  | PConstant i => u64_bytes (N.land i 0x7fffffff)
  | PSource o l => u32_bytes o ++ u32_bytes (N.lor l 0x80000000)
  end.

Section Serialize.
  Context (c : compiled).
  (** mod.rs:426-440 [assert_has_constant], [assert_has_name]. *)
  Definition has_constant (i : N) : ser := if N.of_nat (length (constants c)) <=? i then SerFail (InvalidConstantIndex i) else Wrote (u16_bytes i).
  Definition has_name (i : N) : ser := if N.of_nat (length (names c)) <=? i then SerFail (InvalidNameIndex i) else Wrote (u16_bytes i).
  (** mod.rs:139-151 [Instruction::to_byte], :158-184 [serialize]. *)
  Definition ser_named (tag i : N) (si : source_info) : ser := also (Wrote (tag :: ser_info si)) (has_name i).
  Definition ser_instr (i : instr) : ser :=
    match i with
    | EndStatement => Wrote [0]
    | Push k => also (Wrote [1]) (has_constant k)
    | CallUnary x si => ser_named 2 x si
    | CallBinary x si => ser_named 3 x si
    | CallNular x si => ser_named 4 x si
    | AssignTo x si => ser_named 5 x si
    | AssignToLocal x si => ser_named 6 x si
    | GetVariable x si => ser_named 7 x si
    | MakeArray n si => Wrote (8 :: ser_info si ++ u16_bytes n)
    end.
  (** mod.rs:233-243 [Instructions::serialize]. *)
  Definition ser_code (is : list instr) (q : code_pointer) : ser :=
    if N.of_nat (length is) <? 2 ^ 32 then also (Wrote (ser_pointer q ++ u32_bytes (N.of_nat (length is)))) (ser_all ser_instr is)
    else SerFail InstructionsLimit.
  (** mod.rs:280-289 [Constant::to_byte], :296-325 [serialize]. *)
  Fixpoint ser_constant (k : constant) : ser :=
    match k with
    | KCode is q => also (Wrote [0]) (ser_code is q)
    | KString s => also (Wrote [1]) (ser_string s)
    | KScalar x => Wrote (2 :: u32_bytes x)
    | KBool b => Wrote [3; if b then 1 else 0]
    | KArray l | KConsumable l =>
        if N.of_nat (length l) <? 2 ^ 32 then also (Wrote (4 :: u32_bytes (N.of_nat (length l)))) (ser_all ser_constant l)
        else SerFail ArrayTooLong
    | KNular x => also (Wrote [5]) (ser_string x)
    end.
  (** A list with its length in 16 bits. *)
  Definition ser_list {A} (f : A -> ser) (l : list A) : ser :=
    if N.of_nat (length l) <? 2 ^ 16 then also (Wrote (u16_bytes (N.of_nat (length l)))) (ser_all f l) else SerFail ListTooLongBlock.
  (** mod.rs:611-633 [serialize_compress], [serialize_compress_buffer]: the buffer given to the compressor has
      [worst_compress] room. *)
  Definition ser_compressed (r : ser) : ser :=
    andthen r (fun b =>
      if blen b <? 2 ^ 32 then
        match Lzo.Model.compress b (worst_compress (blen b)) with
        | Val packed => Wrote (u32_bytes (blen b) ++ [2] ++ packed)
        | _ => SerFail LzoFault
        end
      else SerFail BufferSizeLimit).
  (** mod.rs:465-506 [Compiled::serialize], :508-517 [serialize_constants_cache]; the constants are always compressed. *)
  Definition serialize : ser :=
    also (Wrote (u32_bytes 1 ++ [5])) (also (ser_compressed (ser_list ser_string (names c)))
   (also (Wrote [1]) (also (ser_compressed (ser_list ser_constant (constants c)))
   (also (Wrote [2]) (also (ser_list ser_string (file_names c))
         (Wrote (3 :: u64_bytes (entry_point c)))))))).
End Serialize.

(** mod.rs:81-91 [CodePointer::deserialize] (not reachable from the command line tool). *)
Definition des_pointer (s : bytes) : option (code_pointer * bytes) :=
  match read_u32 s with
  | None => None
  | Some (a, s) =>
      if N.land a 0x80000000 =? 0 then Some (PConstant a, s)
      else match read_u32 s with Some (b, s) => Some (PSource (N.land a 0x7fffffff) b, s) | None => None end
  end.
