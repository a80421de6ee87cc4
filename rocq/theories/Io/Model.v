(** Model of libs/common/src/io.rs. *)
From Verif Require Import Base.Tactics Base.Bytes.
Local Open Scope N_scope.

(** ** UTF-8 validity: what [String::from_utf8] accepts (core::str::validations).
    Used by io.rs:40-46. One step checks the leading byte and the number and range of the
    continuation bytes; [skip] counts continuation bytes still expected, [lo]/[hi] bound the next one. *)
Fixpoint utf8_go (skip : nat) (lo hi : N) (l : bytes) : bool :=
  match l with
  | [] => match skip with O => true | _ => false end
  | b :: r =>
      match skip with
      | S k => if (lo <=? b) && (b <=? hi) then utf8_go k 128 191 r else false
      | O =>
          if b <? 128 then utf8_go 0 128 191 r
          else if b <? 194 then false
          else if b <? 224 then utf8_go 1 128 191 r
          else if b =? 224 then utf8_go 2 160 191 r
          else if b <? 237 then utf8_go 2 128 191 r
          else if b =? 237 then utf8_go 2 128 159 r
          else if b <? 240 then utf8_go 2 128 191 r
          else if b =? 240 then utf8_go 3 144 191 r
          else if b <? 244 then utf8_go 3 128 191 r
          else if b =? 244 then utf8_go 3 128 143 r
          else false
      end
  end.

Definition utf8_valid (l : bytes) : bool := utf8_go 0 128 191 l.

(** io.rs:30-38: bytes up to the first zero byte (consumed) or the end of input. *)
Fixpoint until_nul (l : bytes) : bytes * bytes :=
  match l with
  | [] => ([], [])
  | b :: r => if b =? 0 then ([], r) else let (x, rest) := until_nul r in (b :: x, rest)
  end.

(** io.rs:30-47 [read_cstring]: never fails on an in-memory reader; bytes that are not UTF-8 give
    the empty string. Result: the string and the remaining input. *)
Definition read_cstring (l : bytes) : bytes * bytes :=
  let (x, rest) := until_nul l in
  (if utf8_valid x then x else [], rest).

(** io.rs:77-81 [write_cstring]. *)
Definition write_cstring (s : bytes) : bytes := s ++ [0].

(** Outcome of a computation that may hit an arithmetic-overflow panic. *)
Inductive int_result : Type :=
| IntOk (v : N) (rest : bytes)
| IntOverflow.

(** io.rs:49-59 [read_compressed_int]. [i] is the enumerate index. The shift [<< (i * 7)] of a u32
    overflows for i >= 5: a panic with overflow checks, a masked shift without; modelled as
    [IntOverflow]. For i = 4 bits shifted out of the u32 are lost silently (mod 2^32). End of input
    ends the loop without an error. *)
Fixpoint read_cint_go (i : N) (result : N) (l : bytes) : int_result :=
  match l with
  | [] => IntOk result []
  | b :: r =>
      if 32 <=? i * 7 then IntOverflow
      else
        let result' := N.lor result (N.shiftl (N.land b 127) (i * 7) mod 4294967296) in
        if b <? 128 then IntOk result' r else read_cint_go (i + 1) result' r
  end.

Definition read_compressed_int (l : bytes) : int_result := read_cint_go 0 0 l.

(** io.rs:84-98 [write_compressed_int]: the loop [while temp > 0x7f]; [temp &= !0x7f; temp >>= 7].
    [fuel] bounds the number of iterations; [None] = out of fuel (excluded in Proofs.v:
    five iterations suffice for a u32). *)
Fixpoint write_cint_go (fuel : nat) (temp : N) : option bytes :=
  match fuel with
  | O => None
  | S f =>
      if 127 <? temp then
        match write_cint_go f (N.shiftr (N.ldiff temp 127) 7) with
        | Some r => Some (N.lor 128 (N.land temp 127) :: r)
        | None => None
        end
      else Some [temp]
  end.

Definition write_compressed_int (x : N) : option bytes := write_cint_go 5 x.

(** io.rs:102-113 [compressed_int_len]. *)
Fixpoint cint_len_go (fuel : nat) (temp : N) : option N :=
  match fuel with
  | O => None
  | S f =>
      if 127 <? temp then
        match cint_len_go f (N.shiftr (N.ldiff temp 127) 7) with
        | Some n => Some (n + 1)
        | None => None
        end
      else Some 1
  end.

Definition compressed_int_len (x : N) : option N := cint_len_go 5 x.
