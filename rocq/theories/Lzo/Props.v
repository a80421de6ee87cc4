(** C16-C18: LZO compression. In the model every access outside a buffer is a [Fault], and a loop that does not
    end is [NoFuel]; [Val] rules both out. *)
From Verif Require Import Base.Tactics Base.Bytes Lzo.Model Lzo.Safety Lzo.Roundtrip.
Local Open Scope N_scope.

(** C16. Compression into a buffer of [worst_compress] bytes or more, then decompression into a buffer no smaller
    than the input, gives the input back. *)
Theorem C16_decompress_inverts_compress : forall input room buffer,
  is_bytes input -> blen input < 2 ^ 63 -> worst_compress (blen input) <= room -> blen input <= buffer ->
  exists packed, compress input room = Val packed /\ decompress buffer packed = Val (Decoded input).
Proof.
  intros input room buffer H1 H2 H3 H4. destruct (roundtrip input room buffer H1 H2 H3 H4) as (out & E & _ & D). eauto.
Qed.
Print Assumptions C16_decompress_inverts_compress.

(** C17. The output never exceeds [worst_compress], and no write of the compressor leaves a buffer of that size. *)
Theorem C17_worst_compress_bounds : forall input room,
  is_bytes input -> blen input < 2 ^ 63 -> worst_compress (blen input) <= room ->
  exists packed, compress input room = Val packed /\ blen packed <= blen input + blen input / 16 + 67.
Proof.
  intros input room H1 H2 H3. destruct (roundtrip input room (blen input) H1 H2 H3 (N.le_refl _)) as (out & E & W & _).
  unfold worst_compress in W. exists out. split; [exact E|lia].
Qed.
Print Assumptions C17_worst_compress_bounds.
(** compress does not look at the capacity: a smaller buffer is overrun. *)
Theorem C17_small_buffer_overrun_refuted :
  forall input room, is_bytes input -> 0 < blen input <= 20 -> room < blen input + 4 -> compress input room = Fault.
Proof.
  intros input room _ Hl Hr. unfold compress.
  assert (B : blocks input room (S (length input)) 0 (blen input) 0 [] = Val ([], 0 + blen input)).
  { cbn [blocks]. destruct (N.leb_spec (blen input) 20); [reflexivity|lia]. }
  rewrite B. cbn [rbind]. rewrite N.add_0_l. destruct (N.eqb_spec (blen input) 0); [lia|].
  destruct (N.leb_spec (blen input) 238); [|lia]. cbn [andb]. unfold put at 1.
  change (blen [] + blen [(17 + blen input) mod 256]) with 1.
  destruct (N.leb_spec 1 room); [|reflexivity]. cbn [rbind rev app]. rewrite N.sub_diag.
  unfold rd_slice. rewrite N.add_0_l, N.leb_refl. cbn [rbind].
  assert (L : blen (slice input 0 (blen input)) = blen input).
  { unfold slice, blen. rewrite Nnat.Nat2N.id. cbn. now rewrite firstn_all. }
  unfold put at 1. rewrite L. change (blen [(17 + blen input) mod 256]) with 1.
  destruct (N.leb_spec (1 + blen input) room); [|reflexivity]. cbn [rbind]. unfold put.
  destruct (N.leb_spec (blen (rev (slice input 0 (blen input)) ++ [(17 + blen input) mod 256]) + blen [17; 0; 0]) room) as [Q|]; [|reflexivity].
  exfalso. rewrite blen_app in Q. unfold blen in Q at 1. rewrite rev_length in Q. unfold blen in L at 1. cbn in Q. lia.
Qed.
Print Assumptions C17_small_buffer_overrun_refuted.

(** C18. Decompression of any bytes into a buffer of any size ends without leaving a buffer, with a
    documented error or with at most [buffer] bytes. *)
Theorem C18_decompress_safe : forall buffer (input : bytes),
  (exists out, decompress buffer input = Val (Decoded out) /\ blen out <= buffer) \/
  (exists e, decompress buffer input = Val (Failed e)).
Proof.
  intros buffer input. destruct (decompress_safe buffer input) as ([out|e] & E & W); [left|right]; eauto.
Qed.
Print Assumptions C18_decompress_safe.

(** Non-trivial runs: literals, a long run of zeros, a match of each kind, and hostile inputs. *)
Example C16_example_short : compress [1; 2; 3] 70 = Val [20; 1; 2; 3; 17; 0; 0] /\ decompress 3 [20; 1; 2; 3; 17; 0; 0] = Val (Decoded [1; 2; 3]).
Proof. split; vm_compute; reflexivity. Qed.
Example C16_example_match :
  let input := [1; 2; 3; 4; 5; 6] ++ [1; 2; 3; 4; 5; 6] ++ repeat 7 40 in
  exists packed, compress input (worst_compress 52) = Val packed /\ (blen packed < 40) /\ decompress 52 packed = Val (Decoded input).
Proof. cbv zeta. eexists. split; [vm_compute; reflexivity|]. split; vm_compute; reflexivity. Qed.
Example C18_example_errors :
  decompress 10 [255; 1; 2; 3] = Val (Failed EOutputOverrun) /\
  decompress 300 [255; 1; 2; 3] = Val (Failed EInputOverrun) /\
  decompress 300 [18; 1; 64; 9; 17; 0; 0] = Val (Failed ELookbehindOverrun) /\
  decompress 300 [0; 0; 0; 0; 0; 0] = Val (Failed EInputOverrun) /\
  decompress 300 [17; 0; 0; 9] = Val (Failed EInputNotConsumed).
Proof. repeat split; vm_compute; reflexivity. Qed.
