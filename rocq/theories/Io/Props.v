(** C01 and C02: binary primitives. *)
From Verif Require Import Base.Tactics Base.Bytes Io.Model Io.Spec Io.Proofs Io.Utf8.
Local Open Scope N_scope.

(** C01. Writing any u32 and reading it back, whatever follows, gives the integer and leaves
    exactly what followed; the bytes are a shortest LEB128 encoding, at most five, and
    [compressed_int_len] is their number. *)
Theorem C01_compressed_int_roundtrip :
  forall x suffix, x < 2 ^ 32 ->
  exists r,
    write_compressed_int x = Some r /\
    read_compressed_int (r ++ suffix) = IntOk x suffix /\
    compressed_int_len x = Some (blen r) /\
    leb128 r x /\
    (1 <= length r <= 5)%nat /\
    (forall other, leb128 other x -> (length r <= length other)%nat).
Proof.
  intros x suffix Hx. destruct (roundtrip x suffix Hx) as (r & Hw & Hr). exists r.
  exact (conj Hw (conj Hr (conj (len_matches _ _ _ Hw) (conj (write_is_leb _ _ _ Hw)
    (conj (write_length_bounds _ _ _ Hw) (fun o => write_minimal _ _ _ o Hw)))))).
Qed.
Print Assumptions C01_compressed_int_roundtrip.

Example C01_example :
  2097152 < 2 ^ 32 /\ write_compressed_int 2097152 = Some [128; 128; 128; 1]
  /\ read_compressed_int [128; 128; 128; 1; 77] = IntOk 2097152 [77].
Proof. vm_compute. auto. Qed.

(** The reader is not total: a run of six continuation bytes overflows the shift. *)
Theorem C01_reader_total_refuted :
  exists l, is_bytes l /\ read_compressed_int l = IntOverflow.
Proof. exists [128; 128; 128; 128; 128; 1]. split; [apply is_bytesb_spec|]; reflexivity. Qed.
Print Assumptions C01_reader_total_refuted.

(** C02. A string round-trips exactly when it has no NUL; with a NUL only the part before the first
    one is returned and the rest of it is left in the input. *)
Theorem C02_cstring_roundtrip :
  forall s suffix, is_utf8 s -> no_nul s ->
  read_cstring (write_cstring s ++ suffix) = (s, suffix).
Proof. intros s suffix Hu Hn. exact (read_write_cstring s suffix Hn (valid_of_utf8 s Hu)). Qed.
Print Assumptions C02_cstring_roundtrip.

Theorem C02_cstring_nul_truncates :
  forall a b suffix, is_utf8 a -> no_nul a ->
  read_cstring (write_cstring (a ++ 0 :: b) ++ suffix) = (a, b ++ 0 :: suffix).
Proof. intros a b suffix Hu Hn. exact (read_write_cstring_nul a b suffix Hn (valid_of_utf8 a Hu)). Qed.
Print Assumptions C02_cstring_nul_truncates.

Theorem C02_cstring_invalid_utf8_is_empty :
  forall s suffix, ~ is_utf8 s -> no_nul s ->
  read_cstring (write_cstring s ++ suffix) = ([], suffix).
Proof. intros s suffix Hu Hn. apply (read_cstring_invalid s suffix Hn). rewrite <- utf8_valid_iff in Hu. now destruct (utf8_valid s). Qed.
Print Assumptions C02_cstring_invalid_utf8_is_empty.

Example C02_example :
  (* "café" in UTF-8 has no NUL; a lone continuation byte and an encoded surrogate are not UTF-8 *)
  is_utf8 [99; 97; 102; 195; 169] /\ no_nul [99; 97; 102; 195; 169] /\
  ~ is_utf8 [99; 169] /\ ~ is_utf8 [237; 160; 128] /\ is_utf8 [240; 159; 152; 128].
Proof. rewrite <- !utf8_valid_iff. vm_compute. intuition discriminate. Qed.

(** The validity check the readers and the other areas' specifications use is exactly UTF-8. *)
Theorem C02_utf8_check_exact s : utf8_valid s = true <-> is_utf8 s.
Proof. apply utf8_valid_iff. Qed.
Print Assumptions C02_utf8_check_exact.
