(** C51: what the three numbers of a signature are the digests of. *)
From Coq Require Import String.
From Verif Require Import Base.Tactics Base.Bytes Base.Sort Base.Ascii Io.Model Io.Spec Pbo.Model Pbo.Spec Pbo.History Pbo.Roundtrip Pbo.Final Pbo.Props Signing.Spec Signing.Model Signing.Proofs Signing.Props.
Local Open Scope N_scope.

(** ** The layout of a signature *)
(** The files of an archive under their names with backslashes, ordered by name ignoring case. *)
Definition listing (lower : bytes -> bytes) (ops : list op) (fs : list (bytes * bytes)) : Prop :=
  StronglySorted (fun x y => cmp_bytes (lower (fst x)) (lower (fst y)) <> Gt) fs /\ NoDup (map fst fs) /\
  forall n c, In (n, c) fs <-> newest_file n ops c /\ ~ In 47 n.
(** The names of the files that are not empty, in lower case. *)
Definition names_text (lower : bytes -> bytes) (fs : list (bytes * bytes)) : bytes :=
  concat (map (fun f => lower (fst f)) (filter (fun f => negb (blen (snd f) =? 0)) fs)).
(** A name (without '/') ends in a dot and [e], with something before the dot. *)
Definition ends_in (name e : bytes) : Prop := exists b, b <> [] /\ name = b ++ [46] ++ e /\ ~ In 46 e.
Definition hashed_exts (v : version) : list string :=
  match v with
  | V2 => ["fxy"; "jpg"; "lip"; "ogg"; "p3d"; "paa"; "pac"; "png"; "rtm"; "rvmat"; "tga"; "wrp"; "wss"]
  | V3 => ["sqf"; "inc"; "bikb"; "ext"; "fsm"; "sqm"; "hpp"; "cfg"; "sqs"; "h"; "sqfc"]
  end%string.
Definition hashed (v : version) (name : bytes) : Prop := exists e, In e (hashed_exts v) /\ ends_in name (bs e).
(** The contents of the files whose names are [hashed]; a word if there are none. *)
Inductive picked (v : version) : list (bytes * bytes) -> list bytes -> Prop :=
| picked_nil : picked v [] []
| picked_yes n c fs cs : hashed v n -> picked v fs cs -> picked v ((n, c) :: fs) (c :: cs)
| picked_no n c fs cs : ~ hashed v n -> picked v fs cs -> picked v ((n, c) :: fs) cs.
Definition contents_text (v : version) (fs : list (bytes * bytes)) (t : bytes) : Prop :=
  exists cs, picked v fs cs /\
    t = match cs with [] => match v with V2 => bs "nothing" | V3 => bs "gnihton" end | _ => concat cs end.
(** The prefix with one backslash at its end; nothing if there is no prefix. *)
Definition directory (prefix : option bytes) (d : bytes) : Prop :=
  match prefix with
  | None => d = []
  | Some p => (d = p /\ exists q, p = q ++ [92]) \/ (d = p ++ [92] /\ ~ exists q, p = q ++ [92])
  end.
(** A digest padded to [len] bits as in PKCS #1 v1.5, as a number: 00 01 ff … ff 00, the SHA-1 identifier, the digest. *)
Definition number (l : bytes) : N := fold_left (fun a b => 256 * a + b) l 0.
Definition sha1_info : bytes := [48; 33; 48; 9; 6; 5; 43; 14; 3; 2; 26; 5; 0; 4; 20].
Definition padded (digest : bytes) (len : N) (n : N) : Prop :=
  exists k, let block := [0; 1] ++ repeat 255 k ++ [0] ++ sha1_info ++ digest in blen block = len / 8 /\ n = number block.

(** ** Proofs *)
Lemma number_be l : number l = be_val l.
Proof.
  unfold number. assert (forall l a, fold_left (fun a b => 256 * a + b) l a = a * 256 ^ blen l + be_val l) as H.
  { clear. induction l as [|b l IH]; intro a; cbn [fold_left].
    - unfold blen, be_val. cbn. lia.
    - rewrite IH. change (b :: l) with ([b] ++ l). rewrite be_val_app. unfold blen. cbn [app length]. replace (N.of_nat (S (length l))) with (1 + N.of_nat (length l)) by lia.
      rewrite N.pow_add_r, N.pow_1_r. replace (be_val [b]) with b by (unfold be_val; cbn; lia). lia. }
  rewrite H. lia.
Qed.
Lemma pad_padded d len n : length d = 20%nat -> pad_hash d (len / 8) = Some n -> 304 <= len -> padded d len n.
Proof.
  intros L. unfold pad_hash. destruct (N.ltb_spec (len / 8) 36) as [H|H]; [discriminate|]. intros [= <-] Hl.
  assert (38 <= len / 8) as H38 by (apply N.div_le_lower_bound; lia).
  exists (N.to_nat (len / 8 - 38)). unfold resize. rewrite number_be.
  destruct (Nat.leb_spec (N.to_nat (len / 8 - 36)) (length [0; 1])) as [X|X]; cbn [length] in X.
  - assert (len / 8 = 38) as -> by lia. split; [unfold blen, sha1_info; rewrite !app_length, L; reflexivity|reflexivity].
  - replace (N.to_nat (len / 8 - 36) - length [0; 1])%nat with (N.to_nat (len / 8 - 38)) by (cbn [length]; lia). split.
    + unfold blen, sha1_info. rewrite !app_length, repeat_length, L. cbn [length]. lia.
    + f_equal. rewrite <- !app_assoc. do 2 f_equal. cbn [Datatypes.length]. do 2 f_equal. lia.
Qed.

Lemma prefix_directory r : directory (im_get s_prefix (r_props r)) (prefix_bytes r).
Proof.
  unfold directory, prefix_bytes. destruct (im_get s_prefix (r_props r)) as [p|]; [|reflexivity].
  destruct (rev p) as [|c x] eqn:E.
  - right. split; auto. intros (q & ->). rewrite rev_app_distr in E. discriminate.
  - assert (p = rev x ++ [c]) as -> by (rewrite <- (rev_involutive p), E; reflexivity).
    destruct (N.eq_dec c 92) as [->|Ne].
    + left. split; [now rewrite app_nil_r|eauto].
    + right. split; [|intros (q & X); apply app_inj_tail in X; tauto].
      destruct c as [|[[[]|[]|]|[[[]|[[[]|[]|]|[[]|[]|]|]|]|[]|]|]]; try reflexivity; try congruence;
        repeat match goal with |- context [match ?p with _ => _ end] => destruct p; try reflexivity; try congruence end.
Qed.

Lemma after_last_spec c l : match after_last c l with
  | Some x => exists a, l = a ++ c :: x /\ ~ In c x
  | None => ~ In c l end.
Proof.
  induction l as [|b l IH]; cbn [after_last]; [intros []|]. destruct (after_last c l) as [x|].
  - destruct IH as (a & -> & N). exists (b :: a). auto.
  - destruct (N.eqb_spec b c) as [->|Ne]; [exists []; auto|]. intros [X|X]; auto.
Qed.
Lemma extension_spec name e : ~ In 47 name -> e <> [] -> (extension name = e <-> ends_in name e).
Proof.
  intros Hn Ne. unfold extension, file_name. pose proof (after_last_spec 47 name) as H. destruct (after_last 47 name) as [x|].
  { destruct H as (a & -> & _). destruct Hn. apply in_or_app. right. now left. }
  clear H. unfold ends_in. destruct name as [|c r].
  - split; [intro; subst; contradiction|]. intros (b & Hb & X & _). destruct b; discriminate.
  - pose proof (after_last_spec 46 r) as H. destruct (after_last 46 r) as [x|].
    + destruct H as (a & -> & Nx). split.
      * intros <-. exists (c :: a). repeat split; auto. discriminate.
      * intros (b & Hb & X & Ne'). destruct b as [|c' b]; [contradiction|]. cbn [app] in X. apply (f_equal (@tl N)) in X. cbn [tl] in X.
        revert X Nx Ne'. clear. intros X Nx Ne. revert b X. induction a as [|y a IH]; intros [|z b] X; cbn [app] in X.
        -- congruence.
        -- exfalso. apply Nx. injection X as -> ->. apply in_or_app. right. now left.
        -- exfalso. apply Ne. injection X as -> <-. apply in_or_app. right. now left.
        -- injection X as -> X. eauto.
    + split; [intro; subst; contradiction|]. intros (b & Hb & X & _). exfalso. destruct b as [|c' b]; [contradiction|]. apply H. injection X as -> ->. apply in_or_app. right. now left.
Qed.
Lemma hashed_spec v name : ~ In 47 name -> (should_hash_file v name = true <-> hashed v name).
Proof.
  intro N. unfold should_hash_file, hashed. rewrite existsb_exists.
  assert (forall e, In e (hashed_exts v) -> bs e <> []) as Ne.
  { intros e He. destruct v; cbn in He; repeat destruct He as [<-|He]; try discriminate; contradiction. }
  assert (forall x, In x (match v with V2 => v2_exts | V3 => v3_exts end) <-> exists e, In e (hashed_exts v) /\ x = bs e) as Eq.
  { intro x. destruct v; cbn -[bs]; (split; [intro H; repeat destruct H as [<-|H]; try contradiction; eexists; (split; [|reflexivity]); cbn; tauto|]);
      intros (e & H & ->); repeat destruct H as [<-|H]; try contradiction; tauto. }
  split.
  - intros (x & Hx & E). apply eqb_bytes_spec in E. apply Eq in Hx. destruct Hx as (e & He & ->). exists e. split; auto. apply extension_spec; auto.
  - intros (e & He & E). exists (bs e). split; [apply Eq; eauto|]. apply eqb_bytes_spec. apply extension_spec; auto.
Qed.

Lemma norm_no_slash n : norm n = n <-> ~ In 47 n.
Proof.
  unfold norm. induction n as [|b n IH]; [cbn; tauto|]. cbn [map In]. destruct (N.eqb_spec b 47) as [->|Ne].
  - split; [intro H; discriminate|]. intro H. exfalso. auto.
  - split.
    + intros H [X|X]; [auto|]. apply IH; auto. congruence.
    + intro H. f_equal. apply IH. tauto.
Qed.

Lemma get_prefix_first (l : list (bytes * bytes)) : im_get s_prefix (prefix_first l) = im_get s_prefix l.
Proof.
  unfold prefix_first. assert (forall m, im_get s_prefix m = None -> im_get s_prefix (filter (fun kv => eqb_bytes (fst kv) s_prefix) l ++ m) = im_get s_prefix l) as H.
  { intros m Hm. induction l as [|[k v] l IH]; [exact Hm|]. cbn [filter fst im_get]. rewrite (eqb_bytes_sym k). destruct (eqb_bytes s_prefix k) eqn:E; [|exact IH].
    cbn [app im_get]. now rewrite E. }
  apply H. clear H. induction l as [|[k v] l IH]; [reflexivity|]. cbn [filter fst]. rewrite (eqb_bytes_sym k). destruct (eqb_bytes s_prefix k) eqn:E; cbn [negb]; [exact IH|].
  cbn [im_get]. now rewrite E.
Qed.

Section Built.
  Context (lower sha : bytes -> bytes) (Hl : forall x, length (sha x) = 20%nat).
  Context (ops : list op) (iter : list (bytes * (bytes * header))) (out digest : bytes) (r : rpbo).
  Context (Hp : Forall plain_op ops) (HP : Permutation iter (w_files (run ops))) (Hu : unique_ignoring_case lower ops).
  Context (properties : bool) (Hw : write lower sha iter properties (run ops) = Ok (out, digest)) (Hr : read out = Ok r).

  Definition fs : list (bytes * bytes) := map (fun h => (h_name h, match r_file lower (h_name h) r with Some c => c | None => [] end)) (r_headers r).
  Lemma headers_facts :
    StronglySorted (fun x y => cmp_bytes (lower (h_name x)) (lower (h_name y)) <> Gt) (r_headers r) /\
    NoDup (map h_name (r_headers r)) /\
    (forall h, In h (r_headers r) -> norm (h_name h) = h_name h /\ exists c, newest_file (h_name h) ops c /\ r_file lower (h_name h) r = Some c) /\
    (forall n c, newest_file n ops c -> norm n = n -> exists h, In h (r_headers r) /\ h_name h = n /\ r_file lower n r = Some c) /\
    r_props r = (if properties then prefix_first (w_props (run ops)) else []).
  Proof.
    destruct (C03_written_archive_reads_back lower sha ops iter properties Hl Hp HP) as (out' & digest' & r' & Hw' & Hr' & _ & Hpr & Hs & Hn & Hin & Hf & _).
    rewrite Hw in Hw'. injection Hw' as <- <-. rewrite Hr in Hr'. injection Hr' as <-.
    assert (forall n c, newest_file n ops c -> r_file lower n r = Some c) as Hf'.
    { intros n c H. apply Hf; [exact H|]. intros n' c' H1 H2. eapply Hu; eauto. }
    split; [exact Hs|]. split; [exact Hn|]. split; [|split; [|exact Hpr]].
    - intros h H. apply Hin in H. destruct H as (c & H1 & H2 & _). split; auto. exists c. split; auto.
    - intros n c H Nn. exists (header_for_file n (blen c)). split; [|split; [reflexivity|auto]]. apply Hin. exists c. auto.
  Qed.
  Lemma newest_functional n c c' : newest_file n ops c -> newest_file n ops c' -> c = c'.
  Proof. intros A B. apply file_history in A, B. congruence. Qed.
  Lemma listing_fs : listing lower ops fs.
  Proof.
    destruct headers_facts as (Hs & Hn & H1 & H2 & _). unfold listing, fs. split; [|split].
    - clear -Hs. induction Hs as [|h l Hl IH Hf]; cbn [map]; constructor; auto. apply Forall_map. eapply Forall_impl; [|exact Hf]. auto.
    - rewrite map_map. exact Hn.
    - intros n c. rewrite in_map_iff. split.
      + intros (h & E & Hh). destruct (H1 h Hh) as (Nn & c' & Hc & Rf). rewrite Rf in E. injection E as <- <-. split; auto. now apply norm_no_slash.
      + intros [Hc Nn]. apply norm_no_slash in Nn. destruct (H2 n c Hc Nn) as (h & Hh & <- & Rf). exists h. rewrite Rf. auto.
  Qed.
  Lemma sorted_id : files_sorted lower (r_headers r) = r_headers r.
  Proof. destruct headers_facts as (Hs & _). apply sort_by_id. exact Hs. Qed.
  Lemma names_spec : r_headers r <> [] -> hash_filenames lower sha r = Ok (sha (names_text lower fs)).
  Proof.
    intro Ne. unfold hash_filenames. destruct (r_headers r) as [|h0 l0] eqn:E; [contradiction|]. rewrite <- E. rewrite sorted_id. do 2 f_equal.
    destruct headers_facts as (_ & _ & H1 & _). unfold names_text, fs. clear E Ne. revert H1. generalize (r_headers r). intros l H.
    induction l as [|h l IH]; [reflexivity|]. cbn [flat_map map filter snd]. rewrite IH by (intros; apply H; cbn; auto).
    destruct (H h (or_introl eq_refl)) as (Nn & c & _ & Rf). rewrite Rf, Nn. destruct c as [|b c]; [reflexivity|]. unfold blen. cbn [length].
    replace (N.of_nat (S (length c)) =? 0) with false by (symmetry; apply N.eqb_neq; lia). reflexivity.
  Qed.
  Lemma files_spec v : exists t, contents_text v fs t /\ hash_files lower sha (should_hash_file v) (nothing v) r = Ok (sha t).
  Proof.
    unfold hash_files, contents_text. rewrite sorted_id. destruct headers_facts as (_ & _ & H1 & _). unfold fs. revert H1. generalize (r_headers r). intros l H.
    assert (exists cs, picked v (map (fun h => (h_name h, match r_file lower (h_name h) r with Some c => c | None => [] end)) l) cs /\
      cs = map (fun h => match r_file lower (h_name h) r with Some c => c | None => [] end) (filter (fun h => should_hash_file v (h_name h)) l)) as (cs & P & E).
    { induction l as [|h l IH]; [exists []; split; [constructor|reflexivity]|]. destruct IH as (cs & P & E); [intros; apply H; cbn; auto|].
      destruct (H h (or_introl eq_refl)) as (Nn & _). apply norm_no_slash in Nn. pose proof (hashed_spec v (h_name h) Nn) as Hs. cbn [map filter].
      destruct (should_hash_file v (h_name h)).
      - eexists (_ :: cs). split; [apply picked_yes; [tauto|exact P]|]. cbn [map]. now rewrite E.
      - exists cs. split; [apply picked_no; auto; intro X; apply Hs in X; discriminate|exact E]. }
    eexists. split; [exists cs; split; [exact P|reflexivity]|]. do 2 f_equal. rewrite E. rewrite flat_map_concat_map.
    destruct (filter (fun h => should_hash_file v (h_name h)) l); [destruct v; reflexivity|reflexivity].
  Qed.
End Built.

(** ** The theorems *)
(** Signing and verifying compute three padded digests of: the archive; the first digest with the names and the
    directory; the contents with the names and the directory. For every archive opened, also a foreign one. *)
Theorem C51_digests_of_any_archive lower sha r v len n1 n2 n3 :
  (forall x, length (sha x) = 20%nat) -> 304 <= len ->
  generate_hashes lower sha r v len = SOk (n1, n2, n3) ->
  exists d1 names files dir, gen_checksum lower sha r = Ok d1 /\ hash_filenames lower sha r = Ok names /\
    hash_files lower sha (should_hash_file v) (nothing v) r = Ok files /\ directory (im_get s_prefix (r_props r)) dir /\
    padded d1 len n1 /\ padded (sha (d1 ++ names ++ dir)) len n2 /\ padded (sha (files ++ names ++ dir)) len n3.
Proof.
  intros Hs L H. unfold generate_hashes in H.
  destruct (gen_checksum lower sha r) as [d1|e] eqn:E1; [|destruct e; discriminate]. cbn [of_pbo sbind] in H.
  destruct (hash_filenames lower sha r) as [d2|e] eqn:E2; [|destruct e; discriminate]. cbn [of_pbo sbind] in H.
  destruct (hash_files lower sha (should_hash_file v) (nothing v) r) as [d3|e] eqn:E3; [|destruct e; discriminate]. cbn [of_pbo sbind] in H.
  assert (length d1 = 20%nat) as L1.
  { unfold gen_checksum in E1. destruct (files_by_name lower r _); [|discriminate]. injection E1 as <-. apply Hs. }
  destruct (pad_hash d1 (len / 8)) as [a|] eqn:P1; [|discriminate]. cbn [of_opt_panic sbind] in H.
  destruct (pad_hash (sha (d1 ++ d2 ++ prefix_bytes r)) (len / 8)) as [b|] eqn:P2; [|discriminate]. cbn [of_opt_panic sbind] in H.
  destruct (pad_hash (sha (d3 ++ d2 ++ prefix_bytes r)) (len / 8)) as [c|] eqn:P3; [|discriminate]. cbn [of_opt_panic sbind] in H. injection H as -> -> ->.
  exists d1, d2, d3, (prefix_bytes r). repeat split; auto using pad_padded. apply prefix_directory.
Qed.
Lemma digests_of_a_built_archive lower sha ops iter out digest r v len n1 n2 n3 :
  (forall x, length (sha x) = 20%nat) -> 304 <= len ->
  Forall plain_op ops -> Permutation iter (w_files (run ops)) -> unique_ignoring_case lower ops ->
  write lower sha iter true (run ops) = Ok (out, digest) -> read out = Ok r ->
  generate_hashes lower sha r v len = SOk (n1, n2, n3) ->
  exists fs content dir, listing lower ops fs /\ contents_text v fs content /\
    (exists prefix, (forall p, prefix = Some p <-> newest_property s_prefix ops p) /\ directory prefix dir) /\
    let names := sha (names_text lower fs) in
    padded digest len n1 /\ padded (sha (digest ++ names ++ dir)) len n2 /\ padded (sha (sha content ++ names ++ dir)) len n3.
Proof.
  intros Hs L Hp HP Hu Hw Hr H. destruct (C51_digests_of_any_archive lower sha r v len n1 n2 n3 Hs L H) as (d1 & nm & fl & dir & E1 & E2 & E3 & D & P1 & P2 & P3).
  destruct (C04_recomputed_checksum lower sha ops iter true out digest r Hs Hp HP Hu Hw Hr) as (pre & Ed & _ & E1'). rewrite E1 in E1'. injection E1' as ->. rewrite <- Ed in *.
  destruct (files_spec lower sha Hs ops iter out digest r Hp HP Hu true Hw Hr v) as (t & Ct & E3'). rewrite E3 in E3'. injection E3' as ->.
  assert (r_headers r <> []) as Ne. { intro X. unfold hash_filenames in E2. rewrite X in E2. discriminate. }
  rewrite (names_spec lower sha Hs ops iter out digest r Hp HP Hu true Hw Hr Ne) in E2. injection E2 as <-.
  exists (fs lower r), t, dir. split; [eapply listing_fs; eauto|]. split; [exact Ct|]. split; [|cbv zeta; auto].
  exists (im_get s_prefix (r_props r)). split; [|exact D].
  intro p. destruct (headers_facts lower sha Hs ops iter out digest r Hp HP Hu true Hw Hr) as (_ & _ & _ & _ & ->).
  rewrite <- property_history. unfold w_property. now rewrite get_prefix_first.
Qed.

(** The three numbers [n1 n2 n3] are the padded digests of the archive made by [ops], whose trailer is [digest]. *)
Definition bi_digests (lower sha : bytes -> bytes) (v : version) (ops : list op) (digest : bytes) (len n1 n2 n3 : N) : Prop :=
  exists fs content dir, listing lower ops fs /\ contents_text v fs content /\
    (exists prefix, (forall p, prefix = Some p <-> newest_property s_prefix ops p) /\ directory prefix dir) /\
    let names := sha (names_text lower fs) in
    padded digest len n1 /\ padded (sha (digest ++ names ++ dir)) len n2 /\ padded (sha (sha content ++ names ++ dir)) len n3.
(** For an archive built through the API, an accepted signature holds the digests of its files as they were put in. *)
Theorem C51_verified_digests lower sha ops iter out digest r key s :
  (forall x, length (sha x) = 20%nat) -> 304 <= p_length key ->
  Forall plain_op ops -> Permutation iter (w_files (run ops)) -> unique_ignoring_case lower ops ->
  write lower sha iter true (run ops) = Ok (out, digest) -> read out = Ok r ->
  verify lower sha key r s = SOk tt ->
  bi_digests lower sha (s_version s) ops digest (p_length key)
    (s_sig1 s ^ s_exponent s mod s_n s) (s_sig2 s ^ s_exponent s mod s_n s) (s_sig3 s ^ s_exponent s mod s_n s).
Proof.
  intros Hs L Hp HP Hu Hw Hr H. destruct (verify_inv lower sha key r s H) as (_ & _ & _ & G).
  exact (digests_of_a_built_archive lower sha ops iter out digest r (s_version s) _ _ _ _ Hs L Hp HP Hu Hw Hr G).
Qed.
(** And a signature made for it holds them raised to the private exponent. *)
Theorem C51_signed_digests lower sha ops iter out digest r k v s :
  (forall x, length (sha x) = 20%nat) -> 304 <= k_length k ->
  Forall plain_op ops -> Permutation iter (w_files (run ops)) -> unique_ignoring_case lower ops ->
  write lower sha iter true (run ops) = Ok (out, digest) -> read out = Ok r ->
  sign lower sha k r v = SOk s ->
  exists n1 n2 n3, bi_digests lower sha v ops digest (k_length k) n1 n2 n3 /\
    s_sig1 s = n1 ^ k_d k mod k_n k /\ s_sig2 s = n2 ^ k_d k mod k_n k /\ s_sig3 s = n3 ^ k_d k mod k_n k /\
    s_n s = k_n k /\ s_exponent s = k_exponent k /\ s_version s = v /\ s_authority s = k_authority k /\ s_length s = k_length k.
Proof.
  intros Hs L Hp HP Hu Hw Hr H. unfold sign in H. destruct (generate_hashes lower sha r v (k_length k)) as [[[n1 n2] n3]|] eqn:G; [|discriminate]. cbn [sbind] in H.
  destruct (modpow n1 (k_d k) (k_n k)) as [x1|] eqn:M1; [|discriminate]. destruct (modpow n2 (k_d k) (k_n k)) as [x2|] eqn:M2; [|discriminate].
  destruct (modpow n3 (k_d k) (k_n k)) as [x3|] eqn:M3; [|discriminate]. cbn [of_opt_panic sbind] in H. injection H as <-. cbn.
  assert (k_n k <> 0) as Nz by (intro X; rewrite X in M1; discriminate). rewrite modpow_spec in M1, M2, M3 by auto. apply Some_inj in M1, M2, M3. exists n1, n2, n3. split; [|auto 10].
  exact (digests_of_a_built_archive lower sha ops iter out digest r v _ _ _ _ Hs L Hp HP Hu Hw Hr G).
Qed.

(** ** A concrete case: the archive and the key of Signing/Props.v; no file has a version 2 extension. *)
Example C51_example : exists n1 n2 n3, bi_digests ascii_lower len_digest V2 demo_ops (le_bytes 20 158) 320 n1 n2 n3.
Proof.
  destruct ex_hyps as (H1 & H2 & _). destruct ex_sign_verify as (out & d & r & s & W & R & S & _).
  destruct (C51_signed_digests ascii_lower len_digest demo_ops _ out d r ex_key V2 s ltac:(intro; reflexivity) ltac:(discriminate) H1 (Permutation_refl _) H2 W R S) as (n1 & n2 & n3 & B & _).
  exists n1, n2, n3. replace (le_bytes 20 158) with d; [exact B|].
  assert (match ex_archive with Ok (_, d) => Some d | _ => None end = Some d) as E by (unfold ex_archive in *; now rewrite W). vm_compute in E. apply Some_inj in E. rewrite <- E. vm_compute. reflexivity.
Qed.
Example C51_listing : exists content, contents_text V3 [(bs "config.bin", [0; 114; 97; 80]); (bs "functions\fnc_init.sqf", [104; 111])] content /\ content = [104; 111].
Proof.
  eexists. split; [|reflexivity]. exists [[104; 111]]. split; [|reflexivity].
  apply picked_no; [|apply picked_yes; [|constructor]].
  - intros (e & He & X). apply extension_spec in X.
    + cbn in He. repeat destruct He as [<-|He]; vm_compute in X; discriminate || contradiction.
    + vm_compute. intuition discriminate.
    + cbn in He. repeat destruct He as [<-|He]; discriminate || contradiction.
  - exists "sqf"%string. split; [cbn; auto|]. exists (bs "functions\fnc_init"). repeat split; try discriminate. vm_compute. intuition discriminate.
Qed.

Print Assumptions C51_digests_of_any_archive.
Print Assumptions C51_verified_digests.
Print Assumptions C51_signed_digests.
