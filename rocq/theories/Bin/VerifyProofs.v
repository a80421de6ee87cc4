(** Lemmas for C94. *)
From Coq Require Import String.
From Verif Require Import Base.Tactics Base.Bytes Base.Sort Base.Ascii Io.Model Io.Spec Pbo.Model Pbo.Spec Pbo.Roundtrip Pbo.History Pbo.Final Pbo.Props.
From Verif Require Import Signing.Model Signing.Spec Signing.Proofs Signing.Digests Signing.Props.
From Verif Require Import Bin.AddonModel Bin.AddonSpec Bin.AddonProps Bin.VerifyModel Bin.VerifySpec.
From Verif Require Bin.PackModel Bin.PackSpec Bin.PackProofs Bin.PackProps.
Local Open Scope N_scope.
Local Open Scope list_scope.

(** ** Names *)
Lemma signature_path folder name a : name <> [] -> set_extension (bs "pbo." ++ a ++ bs ".bisign") (pbo_at folder name) = signature_at folder name a.
Proof.
  intros H. unfold pbo_at, signature_at. rewrite set_extension_snoc. change (bs ".pbo") with ([46] ++ bs "pbo"). rewrite stem_ext; [reflexivity|exact H|].
  unfold no_dot. cbn. intuition discriminate.
Qed.
Lemma slash_none s : existsb (N.eqb 47) s = false <-> ~ In 47 s.
Proof.
  rewrite <- not_true_iff_false, existsb_exists. split; intros H.
  - intros I. apply H. exists 47. split; [exact I|apply N.eqb_refl].
  - intros (x & I & E). apply N.eqb_eq in E as <-. auto.
Qed.

(** ** Archives *)
Section A.
  Context (lower sha : bytes -> bytes) (Hl : forall x, length (sha x) = 20%nat).
  Lemma packed_ops b : packed_by_hemtt lower sha b -> exists ops iter digest,
    Forall plain_op ops /\ Permutation iter (w_files (run ops)) /\ unique_ignoring_case lower ops /\
    write lower sha iter true (run ops) = Ok (b, digest) /\ exists v, w_property (bs "prefix") (run ops) = Some v.
  Proof using Hl.
    intros (glob & pf & s & tree & iter & Hit & Hs & Ht & Hp & (t & Hsrc) & Hu & H). unfold PackModel.build_pbo in H.
    destruct (PackModel.pack lower glob pf s tree) as [w|] eqn:Ew; [|discriminate].
    apply PackProps.pack_ops in Ew as (ops & Hw & ->); [|auto]. exists (PackProps.all_ops s ops).
    pose proof (PackProps.all_plain lower glob pf s tree ops Hs Ht Hp Hw) as Hf.
    assert (Hpl : Forall plain_op (PackProps.all_ops s ops)) by (eapply Forall_impl; [|exact Hf]; intros o [K _]; exact K).
    destruct (write lower sha (iter (w_files (run (PackProps.all_ops s ops)))) true (run (PackProps.all_ops s ops))) as [[out digest]|] eqn:W; [|discriminate]. injection H as ->.
    eexists _, digest. split; [exact Hpl|]. split; [|split; [|split; [exact W|]]].
    - apply Hit.
    - intros n1 c1 n2 c2 N1 N2 E.
      apply (PackProps.newest_packed lower glob pf s tree ops n1 c1 Hs Ht Hp Hw) in N1 as (e1 & P1 & S1).
      apply (PackProps.newest_packed lower glob pf s tree ops n2 c2 Hs Ht Hp Hw) in N2 as (e2 & P2 & S2).
      apply same_path_norm in S1. apply same_path_norm in S2. apply same_path_norm.
      assert (I1 : In e1 tree) by (destruct P1 as ((I & _) & _); exact I). assert (I2 : In e2 tree) by (destruct P2 as ((I & _) & _); exact I).
      rewrite <- S1, <- S2, !(PackProofs.inner_no_slash s tree Ht) in E by auto. assert (Q : e2 = e1) by exact (Hu e1 c1 e2 c2 P1 P2 (eq_sym E)). rewrite <- S1, <- S2. now rewrite Q.
    - exists (trim_matches 92 t). apply (PackProps.packed_props lower glob pf s tree ops _ _ Hs Hw). exists t. split; [exact Hsrc|apply trim_matches_stripped].
  Qed.
  Lemma packed_reads b : packed_by_hemtt lower sha b -> exists r, read b = Ok r /\ is_sorted lower r = true /\
    gen_checksum lower sha r = Ok (r_checksum r) /\ exists v, im_get s_prefix (r_props r) = Some v.
  Proof using Hl.
    intros H. destruct (packed_ops b H) as (ops & iter & digest & Hp & HP & Hu & W & v & V).
    destruct (C03_written_archive_reads_back lower sha ops iter true Hl Hp HP) as (out & digest' & r & W' & Hr & Hc & Hpr & Hs & _).
    rewrite W in W'. injection W' as <- <-.
    destruct (C04_recomputed_checksum lower sha ops iter true b digest r Hl Hp HP Hu W Hr) as (pre & D & _ & G).
    exists r. split; [exact Hr|]. split; [now apply sorted_is_sorted|]. split; [rewrite G, Hc, D; reflexivity|]. exists v. rewrite Hpr, get_prefix_first. exact V.
  Qed.
End A.

(** ** Keys *)
Lemma sign_inv lower sha k r v s : sign lower sha k r v = SOk s -> k_n k <> 0 ->
  s_version s = v /\ s_authority s = k_authority k /\ s_length s = k_length k /\ s_exponent s = k_exponent k /\ s_n s = k_n k /\
  s_sig1 s < k_n k /\ s_sig2 s < k_n k /\ s_sig3 s < k_n k.
Proof.
  intros H Hn. unfold sign in H. destruct (generate_hashes lower sha r v (k_length k)) as [[[h1 h2] h3]|]; [|discriminate]. cbn [sbind] in H.
  rewrite !modpow_spec in H by exact Hn. cbn [of_opt_panic sbind] in H. injection H as <-.
  cbn [s_version s_authority s_length s_exponent s_n s_sig1 s_sig2 s_sig3]. repeat (split; [reflexivity|]). repeat split; now apply N.mod_lt.
Qed.
Lemma signature_fits lower sha k r v s : rsa_key k -> public_fits (to_public_key k) -> sign lower sha k r v = SOk s -> sign_fits s.
Proof.
  intros Hk (Hs & HL & He & Hf) H. cbn [to_public_key p_authority p_length p_exponent p_n] in *.
  assert (Hn : k_n k <> 0). { destruct Hk as (_ & _ & _ & _ & _ & _ & _ & Hn). assert (2 ^ (k_length k - 1) <> 0) by (apply N.pow_nonzero; lia). lia. }
  destruct (sign_inv lower sha k r v s H Hn) as (_ & A & B & C & D & L1 & L2 & L3). unfold sign_fits, fits in *. rewrite A, B, C, D.
  split; [exact Hs|]. split; [exact HL|]. split; [exact He|]. split; [exact Hf|]. repeat split; eapply N.lt_trans; eassumption.
Qed.

Section V.
  Context (lower sha : bytes -> bytes) (Hl : forall x, length (sha x) = 20%nat) (Hb : forall x, is_bytes (sha x)).
  Lemma signed_verifies v k b s disk folder name key : name <> [] ->
    packed_by_hemtt lower sha b -> rsa_key k -> public_fits (to_public_key k) -> ~ In 47 (k_authority k) ->
    sign_file lower sha v k b = inl s ->
    disk (pbo_at folder name) = Some b -> disk key = Some (public_file k) -> disk (signature_at folder name (k_authority k)) = Some s ->
    verify_command lower sha disk (pbo_at folder name) key = Exits [Verified].
  Proof using Hl Hb.
    intros Hname Hp Hk Hf Hsl Hs D1 D2 D3. destruct (packed_reads lower sha Hl b Hp) as (r & R & So & G & px & Px).
    unfold sign_file in Hs. rewrite R in Hs. destruct (sign lower sha k r v) as [sg|] eqn:S; [|discriminate]. injection Hs as <-.
    pose proof (signature_fits lower sha k r v sg Hk Hf S) as Fs. destruct C09_key_files_roundtrip as (_ & Rp & Rs).
    specialize (Rp (to_public_key k) [] Hf). rewrite app_nil_r in Rp. specialize (Rs sg [] Fs). rewrite app_nil_r in Rs.
    unfold verify_command. rewrite D1. cbn [file]. rewrite R. cbn [opened]. rewrite D2. cbn [file]. unfold public_file. rewrite Rp. cbn [signed_ fst].
    change (p_authority (to_public_key k)) with (k_authority k). rewrite (proj2 (slash_none _) Hsl). rewrite signature_path by exact Hname. rewrite D3. cbn [file]. rewrite Rs. cbn [signed_ fst].
    rewrite G. cbn [opened]. rewrite eqb_bytes_refl, Px. cbn [app].
    now rewrite (C10_sign_then_verify lower sha k r v sg Hl Hb Hk So S).
  Qed.

  Lemma verified_iff disk folder name key : name <> [] ->
    (exists l, verify_command lower sha disk (pbo_at folder name) key = Exits l /\ In Verified l) <->
    exists b r kb k kr sb s sr, disk (pbo_at folder name) = Some b /\ read b = Ok r /\ disk key = Some kb /\ read_public kb = SOk (k, kr) /\
      ~ In 47 (p_authority k) /\ disk (signature_at folder name (p_authority k)) = Some sb /\ read_sign sb = SOk (s, sr) /\ verify lower sha k r s = SOk tt.
  Proof using.
    clear Hl Hb. intros Hname. unfold verify_command. split.
    - intros (l & H & I). destruct (disk (pbo_at folder name)) as [b|]; [|discriminate]. cbn [file] in H.
      destruct (read b) as [r|e] eqn:R; [|now destruct e]. cbn [opened] in H. destruct (disk key) as [kb|]; [|discriminate]. cbn [file] in H.
      destruct (read_public kb) as [[k kr]|e] eqn:RP; [|now destruct e]. cbn [signed_ fst] in H. destruct (existsb (N.eqb 47) (p_authority k)) eqn:Sl; [discriminate|].
      rewrite signature_path in H by exact Hname. destruct (disk (signature_at folder name (p_authority k))) as [sb|] eqn:DS; [|discriminate]. cbn [file] in H.
      destruct (read_sign sb) as [[s sr]|e] eqn:RS; [|now destruct e]. cbn [signed_ fst] in H.
      destruct (gen_checksum lower sha r) as [actual|e]; [|now destruct e]. cbn [opened] in H.
      destruct (verify lower sha k r s) as [[]|e] eqn:V.
      + exists b, r, kb, k, kr, sb, s, sr. apply slash_none in Sl. auto 10.
      + exfalso. set (ls := (if eqb_bytes (r_checksum r) actual then [] else [StoredWrong]) ++ match im_get s_prefix (r_props r) with Some _ => if eqb_bytes (r_checksum r) actual then [] else [HashWrong] | None => [NoPrefix] end) in *.
        assert (Hx : ~ In Verified ls).
        { subst ls. destruct (eqb_bytes (r_checksum r) actual), (im_get s_prefix (r_props r)); cbn; intuition discriminate. }
        destruct e; try discriminate; injection H as <-; apply in_app_or in I as [I|[I|[]]]; auto; discriminate.
    - intros (b & r & kb & k & kr & sb & s & sr & D1 & R & D2 & RP & Sl & D3 & RS & V).
      rewrite D1. cbn [file]. rewrite R. cbn [opened]. rewrite D2. cbn [file]. rewrite RP. cbn [signed_ fst]. rewrite (proj2 (slash_none _) Sl), signature_path by exact Hname.
      rewrite D3. cbn [file]. rewrite RS. cbn [signed_ fst]. rewrite V.
      assert (G : exists c, gen_checksum lower sha r = Ok c).
      { destruct (verify_inv lower sha k r s V) as (_ & _ & _ & G). unfold generate_hashes in G. destruct (gen_checksum lower sha r) as [c|e]; [eauto|]. exfalso. revert G. clear. destruct e; discriminate. }
      destruct G as (c & G). rewrite G. cbn [opened]. eexists. split; [reflexivity|]. apply in_or_app. right. now left.
  Qed.
End V.
