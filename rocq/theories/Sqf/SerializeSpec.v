(** A reader of SQFC files, and when a script's parts fit the file. *)
From Coq Require Import String.
From Verif Require Import Base.Tactics Base.Bytes Base.Ascii Base.Text Io.Spec Lzo.Model Sqf.Ast Sqf.CompileModel.
Local Open Scope N_scope.
Local Open Scope list_scope.

Notation "'ask' x <- r ;; k" := (match r with Some x => k | None => None end) (at level 61, x pattern, r at next level, right associativity).

(** [n] things, one after the other. *)
Fixpoint times {A} (f : bytes -> option (A * bytes)) (n : nat) (s : bytes) : option (list A * bytes) :=
  match n with
  | O => Some ([], s)
  | S n => ask (x, s) <- f s ;; ask (xs, s) <- times f n s ;; Some (x :: xs, s)
  end.
(** Bytes to characters: the first byte tells how many more belong to it. *)
Fixpoint chars_of (s : bytes) : option text :=
  match s with
  | [] => Some []
  | a :: s1 =>
      if a <? 128 then option_map (cons a) (chars_of s1)
      else match s1 with
           | [] => None
           | b :: s2 =>
               if a <? 224 then option_map (cons ((a - 192) * 64 + (b - 128))) (chars_of s2)
               else match s2 with
                    | [] => None
                    | d :: s3 =>
                        if a <? 240 then option_map (cons ((a - 224) * 4096 + (b - 128) * 64 + (d - 128))) (chars_of s3)
                        else match s3 with
                             | [] => None
                             | e :: s4 => option_map (cons ((a - 240) * 262144 + (b - 128) * 4096 + (d - 128) * 64 + (e - 128))) (chars_of s4)
                             end
                    end
           end
  end.
(** A string: 24 bits of length, UTF-8. *)
Definition read_string (s : bytes) : option (text * bytes) :=
  ask (n, s) <- read_u24 s ;; ask (b, s) <- take_exact (N.to_nat n) s ;; ask t <- chars_of b ;; Some (t, s).
Definition read_info (s : bytes) : option (source_info * bytes) :=
  ask (o, s) <- read_u32 s ;; ask (f, s) <- read_u8 s ;; ask (l, s) <- read_u16 s ;; Some (Info o f l, s).
(** 64 bits: with the top bit clear the index of a constant, else an offset and a length of 31 bits. *)
Definition read_pointer (s : bytes) : option (code_pointer * bytes) :=
  ask (a, s) <- read_u32 s ;; ask (b, s) <- read_u32 s ;;
  Some (if b <? 2 ^ 31 then PConstant (a + 2 ^ 32 * b) else PSource a (b - 2 ^ 31), s).
Definition read_named (f : N -> source_info -> instr) (s : bytes) : option (instr * bytes) :=
  ask (si, s) <- read_info s ;; ask (x, s) <- read_u16 s ;; Some (f x si, s).
Definition read_instr (s : bytes) : option (instr * bytes) :=
  ask (tag, s) <- read_u8 s ;;
  if tag =? 0 then Some (EndStatement, s)
  else if tag =? 1 then ask (i, s) <- read_u16 s ;; Some (Push i, s)
  else if tag =? 2 then read_named CallUnary s
  else if tag =? 3 then read_named CallBinary s
  else if tag =? 4 then read_named CallNular s
  else if tag =? 5 then read_named AssignTo s
  else if tag =? 6 then read_named AssignToLocal s
  else if tag =? 7 then read_named GetVariable s
  else if tag =? 8 then read_named MakeArray s
  else None.
(** A constant; [depth] bounds the nesting. *)
Fixpoint read_constant (depth : nat) (s : bytes) : option (constant * bytes) :=
  match depth with
  | O => None
  | S depth =>
      ask (tag, s) <- read_u8 s ;;
      if tag =? 0 then
        ask (q, s) <- read_pointer s ;; ask (n, s) <- read_u32 s ;; ask (is, s) <- times read_instr (N.to_nat n) s ;; Some (KCode is q, s)
      else if tag =? 1 then ask (t, s) <- read_string s ;; Some (KString t, s)
      else if tag =? 2 then ask (x, s) <- read_u32 s ;; Some (KScalar x, s)
      else if tag =? 3 then ask (b, s) <- read_u8 s ;; Some (KBool (negb (b =? 0)), s)
      else if tag =? 4 then ask (n, s) <- read_u32 s ;; ask (l, s) <- times (read_constant depth) (N.to_nat n) s ;; Some (KArray l, s)
      else if tag =? 5 then ask (t, s) <- read_string s ;; Some (KNular t, s)
      else None
  end.
Definition read_list {A} (f : bytes -> option (A * bytes)) (s : bytes) : option (list A * bytes) :=
  ask (n, s) <- read_u16 s ;; times f (N.to_nat n) s.
(** The compressed data at the start of [s]: the first beginning of [s] that decompresses. *)
Fixpoint first_unpacked (size : N) (n more : nat) (s : bytes) : option (bytes * bytes) :=
  match decompress size (firstn n s), more with
  | Val (Decoded d), _ => Some (d, skipn n s)
  | _, S more => first_unpacked size (S n) more s
  | _, O => None
  end.
(** A compressed block: the size, the method, the data. *)
Definition read_compressed (s : bytes) : option (bytes * bytes) :=
  ask (size, s) <- read_u32 s ;; ask (m, s) <- read_u8 s ;;
  if m =? 2 then first_unpacked size 0 (length s) s else None.
Definition whole {A} (r : option (A * bytes)) : option A := match r with Some (x, []) => Some x | _ => None end.
Definition expect (b : N) (s : bytes) : option (unit * bytes) := match s with c :: s => if c =? b then Some (tt, s) else None | [] => None end.
Definition read_sqfc (s : bytes) : option compiled :=
  ask (v, s) <- read_u32 s ;;
  if negb (v =? 1) then None else
  ask (_, s) <- expect 5 s ;; ask (b, s) <- read_compressed s ;; ask ns <- whole (read_list read_string b) ;;
  ask (_, s) <- expect 1 s ;; ask (b, s) <- read_compressed s ;; ask ks <- whole (read_list (read_constant (length b)) b) ;;
  ask (_, s) <- expect 2 s ;; ask (fs, s) <- read_list read_string s ;;
  ask (_, s) <- expect 3 s ;; ask (e, s) <- read_u64 s ;;
  match s with [] => Some (Compiled e ks ns fs) | _ => None end.

(** What a file does not tell apart: a shared array is written as an array. *)
Fixpoint plain (k : constant) : constant :=
  match k with KArray l | KConsumable l => KArray (map plain l) | _ => k end.
Definition as_written (c : compiled) : compiled := Compiled (entry_point c) (map plain (constants c)) (names c) (file_names c).

(** The Rust types of the parts. A length in a code pointer has 31 bits ("Actually u31"), a constant index as well. *)
Definition is_text (s : text) : Prop := Forall is_scalar s.
Definition typed_info (si : source_info) : Prop := si_offset si < 2 ^ 32 /\ si_file si < 2 ^ 8 /\ si_line si < 2 ^ 16.
Definition typed_pointer (q : code_pointer) : Prop := match q with PConstant i => i < 2 ^ 31 | PSource o l => o < 2 ^ 32 /\ l < 2 ^ 31 end.
Definition typed_instr (i : instr) : Prop :=
  match i with
  | EndStatement => True
  | Push k => k < 2 ^ 16
  | CallUnary x si | CallBinary x si | CallNular x si | AssignTo x si | AssignToLocal x si | GetVariable x si | MakeArray x si => x < 2 ^ 16 /\ typed_info si
  end.
Inductive typed : constant -> Prop :=
| TCode is q : Forall typed_instr is -> typed_pointer q -> typed (KCode is q)
| TString s : is_text s -> typed (KString s)
| TScalar x : x < 2 ^ 32 -> typed (KScalar x)
| TBool b : typed (KBool b)
| TArray l : Forall typed l -> typed (KArray l)
| TShared l : Forall typed l -> typed (KConsumable l)
| TNular x : is_text x -> typed (KNular x).
Definition typed_script (c : compiled) : Prop :=
  entry_point c < 2 ^ 16 /\ Forall typed (constants c) /\ Forall is_text (names c) /\ Forall is_text (file_names c).
