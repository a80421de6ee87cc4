(** Lemmas for C09-C11. *)
From Verif Require Import Base.Tactics Base.Bytes Base.Sort Io.Model Io.Spec Io.Proofs Pbo.Model
  Signing.Fermat Signing.Model Signing.Spec.
Local Open Scope N_scope.

(** ** modpow *)
Lemma modpow_pos_spec a e n : n <> 0 -> modpow_pos a e n = a ^ Npos e mod n.
Proof.
  intro Hn. induction e as [e IH|e IH|]; cbn [modpow_pos].
  - rewrite IH. replace (N.pos e~1) with (N.pos e + N.pos e + 1) by lia.
    rewrite !N.pow_add_r, N.pow_1_r.
    rewrite <- N.mul_mod by auto. now rewrite N.mul_mod_idemp_l by auto.
  - rewrite IH. replace (N.pos e~0) with (N.pos e + N.pos e) by lia.
    rewrite N.pow_add_r. now rewrite <- N.mul_mod by auto.
  - now rewrite N.pow_1_r.
Qed.

Lemma modpow_spec a e n : n <> 0 -> modpow a e n = Some (a ^ e mod n).
Proof.
  intro Hn. unfold modpow. destruct n; [contradiction|]. f_equal. destruct e.
  - now rewrite N.pow_0_r.
  - now apply modpow_pos_spec.
Qed.

(** ** RSA *)
Lemma pow_mod_pow a e n : n <> 0 -> (a mod n) ^ e mod n = a ^ e mod n.
Proof.
  intro Hn. induction e using N.peano_ind; [reflexivity|].
  rewrite !N.pow_succ_r'. rewrite N.mul_mod, IHe, N.mod_mod, <- N.mul_mod by auto. reflexivity.
Qed.

Lemma fermat_steps p m k : prime_N p -> m ^ (1 + k * (p - 1)) mod p = m mod p.
Proof.
  intros Hp. assert (Hn : p <> 0) by (destruct Hp; lia).
  induction k using N.peano_ind.
  - now rewrite N.mul_0_l, N.add_0_r, N.pow_1_r.
  - replace (1 + N.succ k * (p - 1)) with ((1 + k * (p - 1)) + (p - 1)) by lia.
    rewrite N.pow_add_r, N.mul_mod, IHk, <- N.mul_mod by auto.
    replace (m * m ^ (p - 1)) with (m ^ p); [now apply fermat_N|].
    replace p with (1 + (p - 1)) at 1 by lia. now rewrite N.pow_add_r, N.pow_1_r.
Qed.

Lemma prime_coprime p q : prime_N p -> prime_N q -> p <> q -> N.gcd p q = 1.
Proof.
  intros [Hp1 Hp] [Hq1 Hq] Hne.
  destruct (N.gcd_divide_l p q) as [a Ha]. destruct (N.gcd_divide_r p q) as [b Hb].
  set (g := N.gcd p q) in *.
  destruct (Hp g a); [lia|assumption|]. destruct (Hq g b); [lia|assumption|]. congruence.
Qed.

Lemma mod_eq_divide a b p : p <> 0 -> b <= a -> a mod p = b mod p -> (p | a - b).
Proof.
  intros Hp Hle H. apply N.mod_divide; [auto|].
  pose proof (N.div_mod a p Hp). pose proof (N.div_mod b p Hp).
  assert (b / p <= a / p) by (apply N.div_le_mono; auto).
  replace (a - b) with ((a / p - b / p) * p); [now apply N.mod_mul|].
  rewrite N.mul_sub_distr_r, (N.mul_comm (a / p)), (N.mul_comm (b / p)). lia.
Qed.

Lemma crt_eq a b p q : p <> 0 -> q <> 0 -> N.gcd p q = 1 ->
  a mod p = b mod p -> a mod q = b mod q -> a mod (p * q) = b mod (p * q).
Proof.
  intros Hp Hq Hg H1 H2.
  assert (W : forall a b, b <= a -> a mod p = b mod p -> a mod q = b mod q -> a mod (p * q) = b mod (p * q)).
  { clear a b H1 H2. intros a b Hle H1 H2.
    pose proof (mod_eq_divide a b p Hp Hle H1) as [x Hx]. pose proof (mod_eq_divide a b q Hq Hle H2) as D2.
    assert (D : (q | x)).
    { apply (N.gauss q p x); [|now rewrite N.gcd_comm]. rewrite N.mul_comm, <- Hx. exact D2. }
    destruct D as [y Hy]. assert (E : a = b + y * (p * q)) by (subst x; nia).
    rewrite E. apply N.mod_add. nia. }
  destruct (N.le_ge_cases b a) as [H|H]; [now apply W|symmetry; now apply W].
Qed.

Lemma rsa_inverse k m : rsa_key k -> m < k_n k ->
  (m ^ k_d k mod k_n k) ^ k_exponent k mod k_n k = m.
Proof.
  intros (Hp & Hq & Hne & Hn & [a Ha] & [b Hb] & _) Hm.
  assert (Hp0 : k_p k <> 0) by (destruct Hp; lia). assert (Hq0 : k_q k <> 0) by (destruct Hq; lia).
  assert (Hn0 : k_n k <> 0) by lia.
  rewrite pow_mod_pow by auto. rewrite <- N.pow_mul_r, (N.mul_comm (k_d k)).
  transitivity (m mod k_n k); [|now apply N.mod_small].
  rewrite Hn. apply crt_eq; auto.
  - now apply prime_coprime.
  - rewrite Ha. now apply fermat_steps.
  - rewrite Hb. now apply fermat_steps.
Qed.

(** ** Padding *)
Lemma is_bytes_rev l : is_bytes l -> is_bytes (rev l).
Proof. unfold is_bytes. rewrite !Forall_forall. intros H x Hx. apply H. now apply in_rev. Qed.

Lemma be_val_app a b : be_val (a ++ b) = be_val a * 256 ^ blen b + be_val b.
Proof.
  unfold be_val. rewrite rev_app_distr, le_val_app. unfold blen. rewrite rev_length. lia.
Qed.
Lemma be_val_lt l : is_bytes l -> be_val l < 256 ^ blen l.
Proof. intro H. unfold be_val, blen. rewrite <- rev_length. apply le_val_lt. now apply is_bytes_rev. Qed.

Lemma be_val_inj a b : is_bytes a -> is_bytes b -> length a = length b -> be_val a = be_val b -> a = b.
Proof.
  intros Ha Hb Hl H. unfold be_val in H.
  apply is_bytes_rev in Ha, Hb. rewrite <- (rev_involutive a), <- (rev_involutive b). f_equal.
  rewrite <- (le_bytes_val _ Ha), <- (le_bytes_val _ Hb), H. now rewrite !rev_length, Hl.
Qed.

Lemma is_bytes_repeat n x : x < 256 -> is_bytes (repeat x n).
Proof. intro H. induction n; cbn; constructor; auto. Qed.
Lemma is_bytes_firstn n l : is_bytes l -> is_bytes (firstn n l).
Proof.
  intro H. rewrite <- (firstn_skipn n l) in H. apply is_bytes_app in H. tauto.
Qed.
Lemma is_bytes_resize n x l : x < 256 -> is_bytes l -> is_bytes (resize n x l).
Proof.
  intros Hx H. unfold resize. destr.
  - now apply is_bytes_firstn.
  - apply is_bytes_app. split; [auto|]. now apply is_bytes_repeat.
Qed.
Lemma resize_length n x l : length (resize n x l) = n.
Proof.
  unfold resize. destruct (n <=? length l)%nat eqn:E.
  - apply Nat.leb_le in E. now apply firstn_length_le.
  - apply Nat.leb_gt in E. rewrite app_length, repeat_length. lia.
Qed.

Lemma der_bytes : is_bytes [0; 48; 33; 48; 9; 6; 5; 43] /\ is_bytes [14; 3; 2; 26; 5; 0; 4; 20].
Proof. split; apply is_bytesb_spec; reflexivity. Qed.

(** The padded digest has a leading zero byte, then a one, so it is below 2^(8 size - 15). *)
Lemma pad_hash_bound h size v : is_bytes h -> length h = 20%nat -> 38 <= size ->
  pad_hash h size = Some v -> v < 2 ^ (8 * size - 15).
Proof.
  intros Hb Hl Hs. unfold pad_hash. destruct (N.ltb_spec size 36); [lia|].
  intro E. apply Some_inj in E. subst v.
  unfold resize. destruct (Nat.leb_spec (N.to_nat (size - 36)) (length [0; 1])) as [Hle|Hgt].
  - cbn [length] in Hle. replace (N.to_nat (size - 36)) with 2%nat by lia. cbn [firstn].
    assert (size = 38) by lia. subst size.
    match goal with |- be_val (?a ++ ?r) < _ => remember r as rest eqn:Er end.
    assert (Hr : is_bytes rest).
    { subst rest. destruct der_bytes. apply is_bytes_app. split; [auto|]. apply is_bytes_app. auto. }
    assert (Hrl : blen rest = 36).
    { subst rest. unfold blen. rewrite !app_length, Hl. reflexivity. }
    rewrite be_val_app, Hrl. pose proof (be_val_lt _ Hr) as HH. rewrite Hrl in HH.
    change (be_val [0; 1]) with 1. change (8 * 38 - 15) with (288 + 1). rewrite N.pow_add_r.
    change (256 ^ 36) with (2 ^ 288) in *. lia.
  - cbn [length] in Hgt. rewrite <- app_assoc.
    match goal with |- be_val (?a ++ ?r) < _ => remember r as rest eqn:Er end.
    assert (Hr : is_bytes rest).
    { subst rest. destruct der_bytes. apply is_bytes_app. split; [apply is_bytes_repeat; lia|].
      apply is_bytes_app. split; [auto|]. apply is_bytes_app. auto. }
    assert (Hrl : blen rest = size - 2).
    { subst rest. unfold blen. rewrite !app_length, repeat_length, Hl. cbn [length]. lia. }
    rewrite be_val_app, Hrl. pose proof (be_val_lt _ Hr) as HH. rewrite Hrl in HH.
    change (be_val [0; 1]) with 1. change 256 with (2 ^ 8) in *. rewrite <- N.pow_mul_r in *.
    replace (8 * size - 15) with (8 * (size - 2) + 1) by lia. rewrite N.pow_add_r. lia.
Qed.

Lemma pad_hash_inj h h' size v : is_bytes h -> is_bytes h' -> length h = length h' ->
  pad_hash h size = Some v -> pad_hash h' size = Some v -> h = h'.
Proof.
  intros Hb Hb' Hl. unfold pad_hash. destruct (size <? 36); [discriminate|].
  intros E E'. rewrite <- E' in E. clear E'. apply Some_inj in E.
  destruct der_bytes as [D1 D2].
  apply be_val_inj in E.
  - repeat apply app_inv_head in E. exact E.
  - repeat (apply is_bytes_app; split); auto. apply is_bytes_resize; [lia|]. apply is_bytesb_spec. reflexivity.
  - repeat (apply is_bytes_app; split); auto. apply is_bytes_resize; [lia|]. apply is_bytesb_spec. reflexivity.
  - rewrite !app_length. lia.
Qed.

Lemma pad_hash_some h size : 36 <= size -> exists v, pad_hash h size = Some v.
Proof. intro H. unfold pad_hash. destruct (N.ltb_spec size 36); [lia|]. eauto. Qed.

(** ** Files *)
Lemma read_biguint_app v size rest : fits v size ->
  read_biguint size (write_biguint v size ++ rest) = SOk (v, rest).
Proof.
  intro H. unfold read_biguint, write_biguint.
  rewrite take_exact_app' by apply le_bytes_length. cbn [of_opt_eof sbind].
  rewrite le_val_bytes; [reflexivity|]. now rewrite N2Nat.id.
Qed.
Lemma read32_app v rest : v < 2 ^ 32 -> read32 (u32_bytes v ++ rest) = SOk (v, rest).
Proof. intro H. unfold read32. now rewrite read_u32_app. Qed.
Lemma read32_exp v rest : fits v 4 -> read32 (write_biguint v 4 ++ rest) = SOk (v, rest).
Proof. intro H. apply read32_app. exact H. Qed.
Lemma skip12 x rest : length x = 12%nat ->
  exists a b c l1 l2, read32 (x ++ rest) = SOk (a, l1) /\ read32 l1 = SOk (b, l2) /\ read32 l2 = SOk (c, rest).
Proof.
  intro H. do 13 (destruct x as [|? x]; cbn in H; try discriminate H).
  unfold read32, read_u32, read_le. cbn [app take_exact of_opt_eof]. repeat eexists.
Qed.

Lemma private_roundtrip k rest : private_fits k -> read_private (write_private k ++ rest) = SOk (k, rest).
Proof.
  intros ([Ha Hu] & Hl & He & Hn & Hp & Hq & Hdp & Hdq & Hqi & Hd).
  unfold read_private, write_private. cbv zeta. rewrite <- !app_assoc.
  rewrite read_write_cstring by auto.
  rewrite read32_app by lia. cbn [sbind].
  match goal with |- context [read32 ([7; 2; 0; 0; 0; 36; 0; 0] ++ [82; 83; 65; 50] ++ ?r)] =>
    destruct (skip12 ([7; 2; 0; 0; 0; 36; 0; 0] ++ [82; 83; 65; 50]) r eq_refl) as (a & b & c & l1 & l2 & E1 & E2 & E3) end.
  rewrite <- app_assoc in E1. rewrite E1. cbn [sbind]. rewrite E2. cbn [sbind]. rewrite E3. cbn [sbind].
  rewrite read32_app by auto. cbn [sbind]. rewrite N.eqb_refl. cbn [negb].
  do 7 (rewrite read_biguint_app by auto; cbn [sbind]). rewrite read_biguint_app by auto. cbn [sbind].
  now destruct k.
Qed.

Lemma public_roundtrip k rest : public_fits k -> read_public (write_public k ++ rest) = SOk (k, rest).
Proof.
  intros ([Ha Hu] & Hl & He & Hn).
  unfold read_public, write_public. rewrite <- !app_assoc.
  rewrite read_write_cstring by auto. rewrite read32_app by lia. cbn [sbind].
  match goal with |- context [read32 ([6; 2; 0; 0; 0; 36; 0; 0] ++ [82; 83; 65; 49] ++ ?r)] =>
    destruct (skip12 ([6; 2; 0; 0; 0; 36; 0; 0] ++ [82; 83; 65; 49]) r eq_refl) as (a & b & c & l1 & l2 & E1 & E2 & E3) end.
  rewrite <- app_assoc in E1. rewrite E1. cbn [sbind]. rewrite E2. cbn [sbind]. rewrite E3. cbn [sbind].
  rewrite read32_app by auto. cbn [sbind]. rewrite read32_exp by auto. cbn [sbind].
  rewrite N.eqb_refl. cbn [negb]. rewrite read_biguint_app by auto. cbn [sbind]. now destruct k.
Qed.

Lemma sign_roundtrip s rest : sign_fits s -> read_sign (write_sign s ++ rest) = SOk (s, rest).
Proof.
  intros ([Ha Hu] & Hl & He & Hn & H1 & H2 & H3).
  unfold read_sign, write_sign. cbv zeta. rewrite <- !app_assoc.
  rewrite read_write_cstring by auto. rewrite read32_app by lia. cbn [sbind].
  match goal with |- context [read32 ([6; 2; 0; 0; 0; 36; 0; 0] ++ [82; 83; 65; 49] ++ ?r)] =>
    destruct (skip12 ([6; 2; 0; 0; 0; 36; 0; 0] ++ [82; 83; 65; 49]) r eq_refl) as (a & b & c & l1 & l2 & E1 & E2 & E3) end.
  rewrite <- app_assoc in E1. rewrite E1. cbn [sbind]. rewrite E2. cbn [sbind]. rewrite E3. cbn [sbind].
  rewrite read32_app by auto. cbn [sbind]. rewrite read32_exp by auto. cbn [sbind].
  rewrite N.eqb_refl. cbn [negb]. rewrite read_biguint_app by auto. cbn [sbind].
  assert (Hf : s_length s / 8 < 2 ^ 32) by lia.
  rewrite read32_app by auto. cbn [sbind]. rewrite read_biguint_app by auto. cbn [sbind].
  rewrite read32_app by (destruct (s_version s); cbn; lia). cbn [sbind].
  assert (Hv : (if version_u32 (s_version s) =? 2 then SOk V2
    else if version_u32 (s_version s) =? 3 then SOk V3 else SErr (SUnknownVersion (version_u32 (s_version s))))
    = SOk (s_version s)) by (destruct (s_version s); reflexivity).
  rewrite Hv. cbn [sbind].
  rewrite read32_app by auto. cbn [sbind]. rewrite read_biguint_app by auto. cbn [sbind].
  rewrite read32_app by auto. cbn [sbind]. rewrite read_biguint_app by auto. cbn [sbind].
  now destruct s.
Qed.

(** ** Signing *)
Section Params.
  Context (lower sha : bytes -> bytes).
  Context (Hlen : forall x, length (sha x) = 20%nat) (Hby : forall x, is_bytes (sha x)).

  Lemma gen_checksum_sha r c : gen_checksum lower sha r = Ok c -> exists x, c = sha x.
  Proof.
    unfold gen_checksum. intro H. destruct (files_by_name lower r _); [|discriminate].
    match type of H with Ok (sha ?x) = _ => exists x end. congruence.
  Qed.

  Lemma generate_hashes_inv r v len a b c : generate_hashes lower sha r v len = SOk (a, b, c) ->
    exists x y z, pad_hash (sha x) (len / 8) = Some a /\ pad_hash (sha y) (len / 8) = Some b /\
      pad_hash (sha z) (len / 8) = Some c /\ gen_checksum lower sha r = Ok (sha x).
  Proof.
    unfold generate_hashes. intro H.
    destruct (gen_checksum lower sha r) as [h1|e] eqn:E1; [|destruct e; discriminate]. cbn [of_pbo sbind] in H.
    destruct (hash_filenames lower sha r) as [nm|e]; [|destruct e; discriminate]. cbn [of_pbo sbind] in H.
    destruct (hash_files lower sha _ _ r) as [fs|e]; [|destruct e; discriminate]. cbn [of_pbo sbind] in H.
    destruct (gen_checksum_sha _ _ E1) as [x ->].
    destruct (pad_hash (sha x) (len / 8)) as [pa|] eqn:Pa; [|discriminate]. cbn [of_opt_panic sbind] in H.
    match type of H with context [pad_hash (sha ?y) _] => set (Y := y) in *;
      destruct (pad_hash (sha Y) (len / 8)) as [pb|] eqn:Pb; [|discriminate]; cbn [of_opt_panic sbind] in H end.
    match type of H with context [pad_hash (sha ?y) _] => set (Z := y) in *;
      destruct (pad_hash (sha Z) (len / 8)) as [pc|] eqn:Pc; [|discriminate]; cbn [of_opt_panic sbind] in H end.
    exists x, Y, Z. repeat split; congruence.
  Qed.

  Lemma key_room k : rsa_key k -> 38 <= k_length k / 8 /\ 2 ^ (8 * (k_length k / 8) - 15) <= k_n k.
  Proof.
    intros (_ & _ & _ & _ & _ & _ & H1 & H2). split; [lia|].
    eapply N.le_trans; [|exact H2]. apply N.pow_le_mono_r; lia.
  Qed.

  Lemma sign_verifies k r v s : rsa_key k -> is_sorted lower r = true ->
    sign lower sha k r v = SOk s -> verify lower sha (to_public_key k) r s = SOk tt.
  Proof.
    intros Hk Hs H. unfold sign in H.
    destruct (generate_hashes lower sha r v (k_length k)) as [[[a b] c]|] eqn:Eg; [|discriminate].
    cbn [sbind] in H. destruct (generate_hashes_inv _ _ _ _ _ _ Eg) as (x & y & z & Pa & Pb & Pc & _).
    destruct (key_room k Hk) as [Hsz Hn].
    assert (Hn0 : k_n k <> 0).
    { assert (2 ^ (8 * (k_length k / 8) - 15) <> 0) by (apply N.pow_nonzero; lia). lia. }
    rewrite !modpow_spec in H by auto. cbn [of_opt_panic sbind] in H.
    assert (Es : s = BISign v (k_authority k) (k_length k) (k_exponent k) (k_n k)
      (a ^ k_d k mod k_n k) (b ^ k_d k mod k_n k) (c ^ k_d k mod k_n k)) by congruence.
    subst s. unfold verify. cbn [to_public_key p_authority p_length s_authority s_version s_sig1 s_sig2 s_sig3 s_exponent s_n].
    rewrite eqb_bytes_refl, Hs, Eg. cbn [negb sbind]. rewrite !modpow_spec by auto. cbn [of_opt_panic sbind].
    assert (B : forall h m, pad_hash (sha h) (k_length k / 8) = Some m -> m < k_n k).
    { intros h m E. apply pad_hash_bound in E; auto. lia. }
    rewrite !rsa_inverse by eauto. now rewrite !N.eqb_refl.
  Qed.

  (** An archive with at least one file whose every name can be looked up again can be signed. *)
  Lemma sign_total k r v c : rsa_key k -> r_headers r <> [] -> gen_checksum lower sha r = Ok c ->
    exists s, sign lower sha k r v = SOk s.
  Proof.
    intros Hk Hh Hc. destruct (key_room k Hk) as [Hsz Hn].
    assert (Hn0 : k_n k <> 0).
    { assert (2 ^ (8 * (k_length k / 8) - 15) <> 0) by (apply N.pow_nonzero; lia). lia. }
    unfold sign, generate_hashes. rewrite Hc. cbn [of_pbo sbind].
    unfold hash_filenames. destruct (r_headers r) as [|h0 hs]; [contradiction|]. cbn [of_pbo sbind].
    unfold hash_files. cbn [of_pbo sbind].
    repeat match goal with |- context [pad_hash ?h (k_length k / 8)] =>
      let p := fresh "p" in destruct (pad_hash_some h (k_length k / 8)) as [p ->]; [lia|]; cbn [of_opt_panic sbind] end.
    rewrite !modpow_spec by auto. cbn [of_opt_panic sbind]. eauto.
  Qed.

  Lemma verify_inv key r s : verify lower sha key r s = SOk tt ->
    p_authority key = s_authority s /\ is_sorted lower r = true /\ s_n s <> 0 /\
    generate_hashes lower sha r (s_version s) (p_length key) =
      SOk (s_sig1 s ^ s_exponent s mod s_n s, s_sig2 s ^ s_exponent s mod s_n s, s_sig3 s ^ s_exponent s mod s_n s).
  Proof.
    unfold verify. intro H.
    destruct (eqb_bytes _ _) eqn:Ea; [|discriminate]. apply eqb_bytes_spec in Ea. cbn [negb] in H.
    destruct (is_sorted lower r); [|discriminate]. cbn [negb] in H.
    destruct (generate_hashes _ _ _ _ _) as [[[a b] c]|]; [|discriminate]. cbn [sbind] in H.
    assert (Hn : s_n s <> 0). { intro E. rewrite E in H. discriminate. }
    rewrite !modpow_spec in H by auto. cbn [of_opt_panic sbind] in H.
    destruct (N.eqb_spec a (s_sig1 s ^ s_exponent s mod s_n s)); [|discriminate].
    destruct (N.eqb_spec b (s_sig2 s ^ s_exponent s mod s_n s)); [|discriminate].
    destruct (N.eqb_spec c (s_sig3 s ^ s_exponent s mod s_n s)); [|discriminate].
    subst. auto.
  Qed.

  Lemma verify_same_signature key r r' s : verify lower sha key r s = SOk tt -> verify lower sha key r' s = SOk tt ->
    gen_checksum lower sha r = gen_checksum lower sha r'.
  Proof.
    intros H H'. apply verify_inv in H, H'. destruct H as (_ & _ & _ & H). destruct H' as (_ & _ & _ & H').
    apply generate_hashes_inv in H, H'. destruct H as (x & y & z & Hx & _ & _ & E). destruct H' as (x' & y' & z' & Hx' & _ & _ & E').
    rewrite E, E'. f_equal. eapply pad_hash_inj; eauto. now rewrite !Hlen.
  Qed.

  (** The padded digests themselves, with exponent one and a large modulus, pass as a signature. *)
  Lemma forged key r v a b c n : is_sorted lower r = true ->
    generate_hashes lower sha r v (p_length key) = SOk (a, b, c) -> a < n -> b < n -> c < n ->
    verify lower sha key r (BISign v (p_authority key) (p_length key) 1 n a b c) = SOk tt.
  Proof.
    intros Hs Hg Ha Hb Hc. unfold verify. cbn [s_authority s_version s_sig1 s_sig2 s_sig3 s_exponent s_n].
    rewrite eqb_bytes_refl, Hs, Hg. cbn [negb sbind]. rewrite !modpow_spec by lia. cbn [of_opt_panic sbind].
    rewrite !N.pow_1_r, !N.mod_small by auto. now rewrite !N.eqb_refl.
  Qed.
End Params.
