(** The LZO1X stream format, stated on its own (after the format's public description), for C57. Numbers are
    plain arithmetic; nothing here comes from the decompressor's model. *)
From Verif Require Import Base.Tactics Base.Bytes.
Local Open Scope N_scope.

(** A length field of an instruction byte: a non-zero field stands for itself; a zero field is followed by any
    number of zero bytes, worth 255 each, and a non-zero byte. *)
Inductive length_field (field base : N) : bytes -> N -> Prop :=
| field_itself : field <> 0 -> length_field field base [] field
| field_extended zeros last : field = 0 -> last <> 0 ->
    length_field field base (repeat 0 zeros ++ [last]) (base + 255 * N.of_nat zeros + last).

(** [o'] is [o] followed by [len] bytes, each equal to the one [dist] places before it. *)
Definition copied (dist len : N) (o o' : bytes) : Prop :=
  1 <= dist <= blen o /\ blen o' = blen o + len /\ firstn (length o) o' = o /\
  forall i, (length o <= i < length o')%nat -> nth_error o' i = nth_error o' (i - N.to_nat dist).

(** [instruction state code len dist lits]: in [state] (the number of literals just copied; 4 for four or more)
    the bytes [code] ask to copy [len] bytes from [dist] back and then [lits] literals. *)
Inductive instruction (state : N) : bytes -> N -> N -> N -> Prop :=
| i_two d s h : 1 <= state <= 3 -> d < 4 -> s < 4 ->
    instruction state [4 * d + s; h] 2 (4 * h + d + 1) s
| i_three d s h : state = 4 -> d < 4 -> s < 4 ->
    instruction state [4 * d + s; h] 3 (4 * h + d + 2049) s
| i_far top l extra n d s : top < 2 -> l < 8 -> length_field l 7 extra n -> d < 16384 -> s < 4 ->
    16384 * top + d <> 0 ->
    instruction state ((16 + 8 * top + l) :: extra ++ [(4 * d + s) mod 256; (4 * d + s) / 256])
      (n + 2) (16384 + 16384 * top + d) s
| i_near l extra n d s : l < 32 -> length_field l 31 extra n -> d < 16384 -> s < 4 ->
    instruction state ((32 + l) :: extra ++ [(4 * d + s) mod 256; (4 * d + s) / 256]) (n + 2) (d + 1) s
| i_short k d s h : 2 <= k <= 7 -> d < 8 -> s < 4 ->
    instruction state [32 * k + 4 * d + s; h] (k + 1) (8 * h + d + 1) s.

(** [stream state o s out]: with [o] already produced, the input [s] completes it to [out]. *)
Inductive stream : N -> bytes -> bytes -> bytes -> Prop :=
| st_literals f extra n lits o rest out : f < 16 -> length_field f 15 extra n -> blen lits = n + 3 ->
    stream 4 (o ++ lits) rest out -> stream 0 o (f :: extra ++ lits ++ rest) out
| st_copy state code len dist k lits o o' rest out : instruction state code len dist k ->
    copied dist len o o' -> blen lits = k -> stream k (o' ++ lits) rest out ->
    stream state o (code ++ lits ++ rest) out
| st_end state o s : s < 4 -> stream state o [17; s; 0] o.

(** A whole stream: a first byte above 17 announces that many literals plus 17; otherwise it is an instruction. *)
Inductive lzo1x : bytes -> bytes -> Prop :=
| first_literals b lits rest out : 17 < b -> blen lits = b - 17 ->
    stream (N.min (b - 17) 4) lits rest out -> lzo1x (b :: lits ++ rest) out
| first_instruction b rest out : b <= 17 -> stream 0 [] (b :: rest) out -> lzo1x (b :: rest) out.
