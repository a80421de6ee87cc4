(** Specification vocabulary for C01 and C02, independent of the model's helpers. *)
From Verif Require Import Base.Tactics Base.Bytes.
Local Open Scope N_scope.

(** [leb128 l v]: the byte string [l] is a LEB128 encoding of [v]: little-endian groups of seven bits,
    every byte but the last has its top bit set. *)
Inductive leb128 : bytes -> N -> Prop :=
| leb_last b : b < 128 -> leb128 [b] b
| leb_more g r v : g < 128 -> leb128 r v -> leb128 (128 + g :: r) (g + 128 * v).

(** A string as [write_cstring] can hold it: no zero byte. *)
Definition no_nul (s : bytes) : Prop := ~ In 0 s.

(** UTF-8, from the Unicode standard: scalar values and the bytes of each. *)
Definition is_scalar (c : N) : Prop := c < 55296 \/ 57344 <= c < 1114112.
Definition utf8_char (c : N) : bytes :=
  if c <? 128 then [c]
  else if c <? 2048 then [192 + c / 64; 128 + c mod 64]
  else if c <? 65536 then [224 + c / 4096; 128 + c / 64 mod 64; 128 + c mod 64]
  else [240 + c / 262144; 128 + c / 4096 mod 64; 128 + c / 64 mod 64; 128 + c mod 64].
Definition is_utf8 (s : bytes) : Prop := exists cs, Forall is_scalar cs /\ s = flat_map utf8_char cs.
