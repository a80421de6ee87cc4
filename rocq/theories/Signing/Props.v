(** C09-C11: keys and signatures. *)
From Coq Require Import String.
From Verif Require Import Base.Tactics Base.Bytes Base.Sort Base.Ascii Io.Model Io.Spec
  Pbo.Model Pbo.Spec Pbo.History Pbo.Final Pbo.Props Signing.Fermat Signing.Model Signing.Spec Signing.Proofs Signing.Proth.
Local Open Scope N_scope.

(** C09. Reading back what was written gives the same key or signature, whatever follows it. *)
Theorem C09_key_files_roundtrip :
  (forall k rest, private_fits k -> read_private (write_private k ++ rest) = SOk (k, rest)) /\
  (forall k rest, public_fits k -> read_public (write_public k ++ rest) = SOk (k, rest)) /\
  (forall s rest, sign_fits s -> read_sign (write_sign s ++ rest) = SOk (s, rest)).
Proof. split; [|split]; [exact private_roundtrip|exact public_roundtrip|exact sign_roundtrip]. Qed.
Print Assumptions C09_key_files_roundtrip.

(** A modulus one byte too long for its declared length is silently truncated. *)
Theorem C09_oversized_number_refuted :
  exists k k', storable (p_authority k) /\ read_public (write_public k) = SOk (k', []) /\ p_n k' <> p_n k.
Proof.
  exists (PublicKey (bs "auth") 16 3 65537). eexists. split.
  { split; [unfold no_nul; cbn; intuition discriminate|reflexivity]. }
  split; [vm_compute; reflexivity|]. cbn. discriminate.
Qed.
Print Assumptions C09_oversized_number_refuted.

(** C10. Signing then verifying with the corresponding public key succeeds: for every RSA key, every
    archive in sorted order, both signature versions, any 20 byte digest function. *)
Theorem C10_sign_then_verify :
  forall (lower sha : bytes -> bytes) k r v s,
  (forall x, length (sha x) = 20%nat) -> (forall x, is_bytes (sha x)) ->
  rsa_key k -> is_sorted lower r = true ->
  sign lower sha k r v = SOk s -> verify lower sha (to_public_key k) r s = SOk tt.
Proof. intros lower sha k r v s Hl Hb. exact (sign_verifies lower sha Hl Hb k r v s). Qed.
Print Assumptions C10_sign_then_verify.

Lemma sorted_is_sorted lower r :
  StronglySorted (fun x y => cmp_bytes (lower (h_name x)) (lower (h_name y)) <> Gt) (r_headers r) ->
  is_sorted lower r = true.
Proof.
  unfold is_sorted. destruct (r_headers r) as [|h hs]; [reflexivity|]. revert h.
  induction hs as [|h' hs IH]; intros h H; [reflexivity|]. cbn [sorted_go].
  inversion H as [|? ? H1 H2]; subst. inversion H2 as [|? ? H3 H4]; subst. unfold lname.
  destruct (cmp_bytes (lower (h_name h)) (lower (h_name h'))); try contradiction; now apply IH.
Qed.

(** C10, end to end: every archive built with at least one file (no two paths equal ignoring case) and
    written with its properties can be opened, signed, and the signature verifies. *)
Theorem C10_built_archive_signs_and_verifies :
  forall (lower sha : bytes -> bytes) k v ops iter name c,
  (forall x, length (sha x) = 20%nat) -> (forall x, is_bytes (sha x)) ->
  rsa_key k -> Forall plain_op ops -> Permutation iter (w_files (run ops)) ->
  unique_ignoring_case lower ops -> newest_file name ops c ->
  exists out digest r s,
    write lower sha iter true (run ops) = Ok (out, digest) /\ read out = Ok r /\
    sign lower sha k r v = SOk s /\ verify lower sha (to_public_key k) r s = SOk tt.
Proof.
  intros lower sha k v ops iter name c Hl Hb Hk Hp HP Hu Hf.
  destruct (C03_written_archive_reads_back lower sha ops iter true Hl Hp HP)
    as (out & digest & r & Hw & Hr & _ & _ & Hs & _ & Hin & Hfile & _).
  destruct (C04_recomputed_checksum lower sha ops iter true out digest r Hl Hp HP Hu Hw Hr) as (pre & _ & _ & Hg).
  assert (Hne : r_headers r <> []).
  { intro E. assert (HN : r_file lower name r = Some c).
    { apply Hfile; [exact Hf|]. intros n' c' H1 H2. eapply Hu; eauto. }
    unfold r_file in HN. rewrite E in HN. discriminate. }
  destruct (sign_total lower sha Hl Hb k r v _ Hk Hne Hg) as [s Es].
  exists out, digest, r, s. repeat split; auto.
  apply C10_sign_then_verify with (v := v); auto. now apply sorted_is_sorted.
Qed.
Print Assumptions C10_built_archive_signs_and_verifies.

(** C11. What a successful verification says, exactly. *)
Theorem C11_what_verification_pins :
  forall lower sha key r s, verify lower sha key r s = SOk tt ->
  p_authority key = s_authority s /\ is_sorted lower r = true /\
  exists h1 h2 h3, generate_hashes lower sha r (s_version s) (p_length key) = SOk (h1, h2, h3) /\
    h1 = s_sig1 s ^ s_exponent s mod s_n s /\ h2 = s_sig2 s ^ s_exponent s mod s_n s /\
    h3 = s_sig3 s ^ s_exponent s mod s_n s.
Proof.
  intros lower sha key r s H. destruct (verify_inv lower sha key r s H) as (A & B & _ & C).
  split; [exact A|]. split; [exact B|]. eauto 8.
Qed.
Print Assumptions C11_what_verification_pins.

(** One signature accepts two different built archives only if it exhibits two byte strings with the same digest. *)
Theorem C11_signature_fits_one_archive :
  forall (lower sha : bytes -> bytes) key s ops1 iter1 ops2 iter2 out1 out2 d1 d2 r1 r2,
  (forall x, length (sha x) = 20%nat) -> (forall x, is_bytes (sha x)) ->
  Forall plain_op ops1 -> Permutation iter1 (w_files (run ops1)) -> unique_ignoring_case lower ops1 ->
  Forall plain_op ops2 -> Permutation iter2 (w_files (run ops2)) -> unique_ignoring_case lower ops2 ->
  write lower sha iter1 true (run ops1) = Ok (out1, d1) -> read out1 = Ok r1 ->
  write lower sha iter2 true (run ops2) = Ok (out2, d2) -> read out2 = Ok r2 ->
  verify lower sha key r1 s = SOk tt -> verify lower sha key r2 s = SOk tt ->
  out1 = out2 \/ exists x y, x <> y /\ sha x = sha y.
Proof.
  intros lower sha key s ops1 iter1 ops2 iter2 out1 out2 d1 d2 r1 r2 Hl Hb P1 I1 U1 P2 I2 U2 W1 R1 W2 R2 V1 V2.
  pose proof (verify_same_signature lower sha Hl Hb key r1 r2 s V1 V2) as E.
  destruct (C04_recomputed_checksum lower sha ops1 iter1 true out1 d1 r1 Hl P1 I1 U1 W1 R1) as (p1 & D1 & O1 & G1).
  destruct (C04_recomputed_checksum lower sha ops2 iter2 true out2 d2 r2 Hl P2 I2 U2 W2 R2) as (p2 & D2 & O2 & G2).
  rewrite G1, G2 in E. assert (Es : sha p1 = sha p2) by congruence.
  destruct (eqb_bytes p1 p2) eqn:Ep.
  - left. apply eqb_bytes_spec in Ep. congruence.
  - right. apply eqb_bytes_false in Ep. eauto.
Qed.
Print Assumptions C11_signature_fits_one_archive.

(** The forgery: whoever knows only the authority name makes, for any archive that can be hashed, a
    signature that verifies against a public key whose private key they do not have. Its exponent is 1,
    its modulus any large number, its values the padded digests. *)
Theorem C11_signature_without_private_key :
  forall lower sha key r v h1 h2 h3,
  is_sorted lower r = true -> generate_hashes lower sha r v (p_length key) = SOk (h1, h2, h3) ->
  exists s, s_n s <> p_n key /\ s_exponent s = 1 /\ verify lower sha key r s = SOk tt.
Proof.
  intros lower sha key r v h1 h2 h3 Hs Hg.
  exists (BISign v (p_authority key) (p_length key) 1 (1 + p_n key + h1 + h2 + h3) h1 h2 h3).
  cbn [s_n s_exponent]. split; [lia|]. split; [reflexivity|]. eapply forged; eauto; lia.
Qed.
Print Assumptions C11_signature_without_private_key.

(** ** Concrete cases *)

(** A 320 bit RSA key, certified by Proth's criterion. *)
Definition ex_key : private_key :=
  PrivateKey (bs "author") 320 65537
    1139768280906158997505762059217178250177775658464108239930462464595794059709461843053132958924801
    1052953781354142646118840421676563027048735440897 1082448537712993698887352246894959259263678021633
    486591669165380841057039550344025326719227330561 590914465626406084579593227293909660476930719745
    63615534770350359186908330515229927561098024280
    273342280922618656326431454909676516653630985448206405224904150549987329.

Example ex_key_is_rsa : rsa_key ex_key.
Proof.
  split. { apply (proth _ 870982953850546484201221 79 3); vm_compute; try reflexivity; discriminate. }
  split. { apply (proth _ 895380444482563206177157 79 3); vm_compute; try reflexivity; discriminate. }
  split. { vm_compute. discriminate. } split. { vm_compute. reflexivity. }
  split. { exists 17013123825613183480572160157. vm_compute. reflexivity. }
  split. { exists 16549547106114233746307400221. vm_compute. reflexivity. }
  split; vm_compute; discriminate.
Qed.

Example ex_key_fits : private_fits ex_key /\ public_fits (to_public_key ex_key).
Proof.
  repeat split; try (unfold no_nul; cbn; intuition discriminate); vm_compute; reflexivity.
Qed.

Definition ex_archive : res (bytes * bytes) :=
  write ascii_lower len_digest (w_files (run demo_ops)) true (run demo_ops).

Example ex_hyps : Forall plain_op demo_ops /\ unique_ignoring_case ascii_lower demo_ops /\
  (exists c, newest_file (bs "config.bin") demo_ops c).
Proof.
  split; [exact demo_plain|]. split; [exact (proj2 C05_example)|].
  eexists. apply file_history. vm_compute. reflexivity.
Qed.

(** A signature made with this key over that archive verifies (by the theorem above). *)
Example ex_sign_verify : exists out d r s, ex_archive = Ok (out, d) /\ read out = Ok r /\
  sign ascii_lower len_digest ex_key r V2 = SOk s /\
  verify ascii_lower len_digest (to_public_key ex_key) r s = SOk tt.
Proof.
  destruct ex_hyps as (H1 & H2 & c & H3).
  apply (C10_built_archive_signs_and_verifies ascii_lower len_digest ex_key V2 demo_ops _ (bs "config.bin") c); auto.
  - intro x. apply le_bytes_is_bytes.
  - exact ex_key_is_rsa.
Qed.

Example ex_sign_fits : sign_fits (BISign V3 (bs "author") 1024 65537 (2 ^ 1023) 5 6 7).
Proof. repeat split; try (unfold no_nul; cbn; intuition discriminate); vm_compute; reflexivity. Qed.
