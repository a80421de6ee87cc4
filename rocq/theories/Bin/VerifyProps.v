(** C94: verifying an archive with its key and signature, and what a release verifies as. *)
From Coq Require Import String.
From Verif Require Import Base.Tactics Base.Bytes Base.Ascii Base.Sort Base.Text Io.Model Io.Spec Pbo.Model Pbo.Spec Pbo.Final Signing.Model Signing.Spec Signing.Props.
From Verif Require Import Bin.AddonModel Bin.AddonSpec Bin.AddonProps.
From Verif Require Import Bin.OutputModel Bin.OutputSpec Bin.OutputProofs Bin.OutputProps Bin.VerifyModel Bin.VerifySpec Bin.VerifyProofs Bin.VerifyRelease.
From Verif Require Bin.ExecModel Bin.ExecSpec Bin.ExecProps.
Local Open Scope N_scope.
Local Open Scope list_scope.

(** C94. The command says "Verified!" exactly if the archive, the key and the signature of the key's authority beside the archive
    can be read and the signature fits. *)
Theorem C94_verified : forall lower sha disk folder name key, name <> [] ->
  (exists l, verify_command lower sha disk (pbo_at folder name) key = Exits l /\ In Verified l) <->
  exists b r kb k kr sb s sr, disk (pbo_at folder name) = Some b /\ read b = Ok r /\ disk key = Some kb /\ read_public kb = SOk (k, kr) /\
    ~ In 47 (p_authority k) /\ disk (signature_at folder name (p_authority k)) = Some sb /\ read_sign sb = SOk (s, sr) /\ verify lower sha k r s = SOk tt.
Proof. exact verified_iff. Qed.
Print Assumptions C94_verified.

(** Two archives that HEMTT made and that the same key and signature files verify are the same, or two texts have the same digest. *)
Theorem C94_tampered : forall (lower sha : bytes -> bytes) disk disk' folder name key b b' l l', name <> [] ->
  (forall x, length (sha x) = 20%nat) -> (forall x, is_bytes (sha x)) ->
  packed_by_hemtt lower sha b -> packed_by_hemtt lower sha b' ->
  disk (pbo_at folder name) = Some b -> disk' (pbo_at folder name) = Some b' -> (forall p, p <> pbo_at folder name -> disk' p = disk p) -> key <> pbo_at folder name ->
  verify_command lower sha disk (pbo_at folder name) key = Exits l -> In Verified l ->
  verify_command lower sha disk' (pbo_at folder name) key = Exits l' -> In Verified l' ->
  b = b' \/ exists x y, x <> y /\ sha x = sha y.
Proof.
  intros lower sha disk disk' folder name key b b' l l' Hn Hl Hb P P' D D' Same Hk V I V' I'.
  assert (X : exists l, verify_command lower sha disk (pbo_at folder name) key = Exits l /\ In Verified l) by eauto.
  assert (X' : exists l, verify_command lower sha disk' (pbo_at folder name) key = Exits l /\ In Verified l) by eauto.
  apply verified_iff in X as (b1 & r & kb & k & kr & sb & s & sr & D1 & R & D2 & RP & Sl & D3 & RS & Ve); [|exact Hn].
  apply verified_iff in X' as (b2 & r' & kb' & k' & kr' & sb' & s' & sr' & D1' & R' & D2' & RP' & Sl' & D3' & RS' & Ve'); [|exact Hn].
  assert (b1 = b) as -> by congruence. assert (b2 = b') as -> by congruence. rewrite Same in D2' by exact Hk. assert (k' = k) as -> by congruence.
  rewrite Same in D3'.
  2:{ unfold signature_at, pbo_at. intros Q. apply app_inj_tail in Q as [_ Q]. apply app_inv_head in Q. apply (f_equal (@length N)) in Q. rewrite !app_length in Q. cbn in Q. lia. }
  assert (s' = s) as -> by congruence.
  destruct (packed_ops lower sha Hl b P) as (ops & iter & d & A1 & A2 & A3 & A4 & _). destruct (packed_ops lower sha Hl b' P') as (ops' & iter' & d' & B1 & B2 & B3 & B4 & _).
  exact (C11_signature_fits_one_archive lower sha k s ops iter ops' iter' b b' d d' r r' Hl Hb A1 A2 A3 B1 B2 B3 A4 R B4 R' Ve Ve').
Qed.
Print Assumptions C94_tampered.

Section Q.
  Context {D R E C : Type} (lower sha : bytes -> bytes) (glob : bytes -> option (bytes -> bool)) (pr : project) (given : list bytes) (addons : list (addon D)).
  Context (pbo_of : inputs R -> addon D -> bytes + E) (version_of : inputs R -> bytes + E)
          (other : ExecModel.module -> ExecModel.stage -> inputs R -> inputs R * ExecModel.result E C)
          (au : bytes) (keygen : option bytes -> bytes -> private_key) (sign_version : Signing.Model.version) (fault : sign_error -> E) (bad_pattern not_found : E)
          (severity_of : C -> ExecModel.severity).
  Definition signs (k : private_key) (b : bytes) : bytes + E := match sign_file lower sha sign_version k b with inl s => inl s | inr e => inr (fault e) end.
  Notation release_ := (release_ glob pr (include_of given) addons pbo_of version_of other au keygen public_file signs bad_pattern not_found severity_of).

  (** Whatever addons a signed release has: if it succeeds, each of their archives is found good with the key that lies beside it. *)
  Theorem C94_release : forall nr nb na ar (w w' : world R) codes, let x := ExecModel.release_command nr nb false na true ar in
    (forall y, length (sha y) = 20%nat) -> (forall y, is_bytes (sha y)) -> makes_keys keygen ->
    (forall i a b, pbo_of i a = inl b -> packed_by_hemtt lower sha b) ->
    (forall i v a k o, version_of i = inl v -> In a addons -> key_name pr au v a k o -> storable k /\ ~ In 47 k) ->
    keeps other -> kept_well (from w) -> no_dots pr addons -> NoDup (map name addons) -> apart glob pr given other au x (from w) addons ->
    release_ nr nb false na true ar w = (w', ExecModel.Ok codes) -> ~ ExecSpec.has_error severity_of codes ->
    exists i v, arrives other x (from w) (ExecSpec.Phase ExecModel.Sign ExecModel.PreRelease) i /\ version_of i = inl v /\
      forall a p kp, In a addons -> pbo_place pr a p -> key_place pr au v a kp ->
        verify_command lower sha (files_of (out w')) p kp = Exits [Verified].
  Proof.
    intros nr nb na ar w w' codes x Hl Hb Hkeys Hpbo Hnames K W Nd Nn Ap H Hn.
    destruct (C87_folder glob pr given addons pbo_of version_of other au keygen public_file signs bad_pattern not_found severity_of nr nb false na true ar w w' codes K W Nd Nn Ap H Hn) as (No & Lo & _).
    destruct (release_signs glob pr given addons pbo_of version_of other au keygen public_file signs bad_pattern not_found severity_of nr nb na ar w w' codes K W Nd Nn Ap H Hn)
      as (iB & iS & v & AB & AS & V & Sg). fold x in Lo, AB, AS.
    exists iS, v. split; [exact AS|]. split; [exact V|]. intros a p kp I Pp Pk. destruct (Sg a I) as (b & s & B & S). clear Sg.
    assert (Fo : forall q c, released glob pr given pbo_of version_of other au keygen public_file signs x (from w) addons q c -> files_of (out w') q = Some c).
    { intros q c Rl. unfold files_of. assert (X : In (q, File c) (out w')) by (apply Lo; eauto). apply (look_in _ _ _ No) in X. now rewrite X. }
    destruct Pp as [f sub Mf Sf]. destruct Pk as [f' k o Mf' Kn]. rewrite (mod_folder_fun pr a f' f Mf' Mf) in *. clear f' Mf'.
    rewrite (key_for_name pr au keygen v a k o Kn) in S. destruct (Hnames iS v a k o V I Kn) as (Sk & Slash). destruct (Hkeys o k Sk) as (Rk & Ka & Pf).
    assert (Sfile : sign_file lower sha sign_version (keygen o k) b = inl s) by (unfold signs in S; now destruct (sign_file lower sha sign_version (keygen o k) b); [injection S as ->|]).
    set (nm := p_prefix pr ++ bs "_" ++ name a).
    assert (E1 : f ++ [sub; pbo_file pr a] = pbo_at (f ++ [sub]) nm) by (unfold pbo_at, pbo_file, nm; rewrite <- !app_assoc; reflexivity).
    assert (E2 : f ++ [sub; pbo_file pr a ++ bs "." ++ k ++ bs ".bisign"] = signature_at (f ++ [sub]) nm k) by (unfold signature_at, pbo_file, nm; rewrite <- !app_assoc; reflexivity).
    rewrite E1. apply (signed_verifies lower sha Hl Hb sign_version (keygen o k) b s); auto.
    - unfold nm. destruct (p_prefix pr); discriminate.
    - eapply Hpbo; eauto.
    - now rewrite Ka.
    - rewrite <- E1. apply Fo. apply the_pbo with a iB; auto. now constructor.
    - apply Fo. destruct (own_mod_dec pr a) as [O|O].
      + inversion Kn as [Z|Z]; subst; [contradiction|]. apply an_own_key with (i := iS) (v := v); auto. econstructor; eauto.
      + inversion Kn as [Z|Z]; subst; [|contradiction]. destruct Mf as [(Z' & _)|(_ & ->)]; [contradiction|]. apply the_key with iS; auto. cbn [app]. now rewrite <- !app_assoc.
    - rewrite Ka, <- E2. apply Fo. eapply the_signature with (i := iS) (i' := iB); eauto. econstructor; eauto.
  Qed.
End Q.
Print Assumptions C94_release.

(** ** Concrete cases *)
Module Verifying.
  (** Any name gets this key; the exponents are 1. *)
  Definition keygen (o : option bytes) (n : bytes) : private_key :=
    PrivateKey n 320 1 (k_n ex_key) (k_p ex_key) (k_q ex_key) 1 1 (k_qinv ex_key) 1.
  Lemma makes : makes_keys keygen.
  Proof.
    intros o n Hn. split; [|split; [reflexivity|]].
    - destruct ex_key_is_rsa as (P & Q & Ne & M & _ & _ & L & B). split; [exact P|]. split; [exact Q|]. split; [exact Ne|]. split; [exact M|].
      split; [exists 0; reflexivity|]. split; [exists 0; reflexivity|]. split; [exact L|exact B].
    - destruct ex_key_fits as (_ & _ & A & B & Cc). split; [exact Hn|]. split; [exact A|]. split; [reflexivity|exact Cc].
  Qed.
  Definition tree (a : addon unit) : list PackModel.entry := [PackModel.Entry [] (bs "$PBOPREFIX$") (Some (bs "x\" ++ name a)); PackModel.Entry [bs "f"] (bs "a.sqf") (Some (name a))].
  Definition settings : PackModel.settings := PackModel.Settings (bs "addons/a") [] [] [] [] (bs "1") (bs "2") None.
  Definition pbo_of (i : inputs unit) (a : addon unit) : bytes + unit :=
    if eqb_bytes (name a) (bs "main") || eqb_bytes (name a) (bs "extra") then
      match PackModel.build_pbo ascii_lower PackProps.len20 PackProps.no_glob Some settings (tree a) (fun l => l) with inl b => inl b | inr _ => inr tt end
    else inr tt.
  Lemma packs i a b : pbo_of i a = inl b -> packed_by_hemtt ascii_lower PackProps.len20 b.
  Proof.
    unfold pbo_of. destruct (_ || _) eqn:Na; [|discriminate].
    assert (Nm : name a = bs "main" \/ name a = bs "extra") by (apply orb_true_iff in Na as [X|X]; apply eqb_bytes_spec in X; auto).
    destruct (PackModel.build_pbo _ _ _ _ _ _ _) as [b'|] eqn:B; [|discriminate]. intros [= <-].
    exists PackProps.no_glob, Some, settings, (tree a), (fun l => l). split; [reflexivity|]. split.
    { repeat split; try reflexivity; try (unfold no_nul; cbn; intuition discriminate); try constructor; discriminate. }
    split. { split; [apply PackProps.names_okb; reflexivity|cbn; repeat constructor; cbn; intuition discriminate]. }
    split. { intros e c p (I & _) Hf Ec [= <-]. destruct I as [<-|[<-|[]]]; injection Ec as <-; destruct Nm as [-> | ->]; (split; [reflexivity|unfold no_nul; cbn; intuition discriminate]). }
    split. { exists (bs "x\" ++ name a). eapply PackSpec.from_prefix_file with (c := bs "x\" ++ name a); try (intros []); try reflexivity.
      - exists [], [PackModel.Entry [bs "f"] (bs "a.sqf") (Some (name a))]. split; [reflexivity|]. split.
        { split; [now left|]. split; [discriminate|]. split; [intros (X & _); discriminate|]. split; [discriminate|]. split; intros (? & ? & [] & _). }
        split; [now left|]. intros e [<-|[]] _ X. cbn in X. intuition discriminate.
      - reflexivity. }
    split; [|exact B]. intros e c e' c' ((I & _) & Hp & _) ((I' & _) & Hp' & _) _.
    assert (Pf : PackSpec.is_prefix_file ascii_lower (PackModel.Entry [] (bs "$PBOPREFIX$") (Some (bs "x\" ++ name a)))) by now left.
    destruct I as [<-|[<-|[]]]; [contradiction|]. destruct I' as [<-|[<-|[]]]; [contradiction|reflexivity].
  Qed.
  Lemma keys i v a k o : Ex.version_of i = inl v -> In a [Ex.main; Ex.extra] -> key_name Ex.pr (bs "abe") v a k o -> storable k /\ ~ In 47 k.
  Proof.
    intros V I Kn. assert (v = bs "1") as -> by (unfold Ex.version_of in V; congruence).
    destruct I as [<-|[<-|[]]]; destruct Kn; (split; [split; [unfold no_nul; cbn; intuition discriminate|reflexivity]|cbn; intuition discriminate]).
  Qed.
  Notation a_run := (release_ Ex.glob Ex.pr (include_of []) [Ex.main; Ex.extra] pbo_of Ex.version_of Ex.other (bs "abe") keygen public_file
    (signs ascii_lower PackProps.len20 V3 (fun _ => tt)) tt tt Ex.warn true true false false true true Ex.w0).
  (** A release of an addon and of an optional one, which is a mod of its own: both archives verify, each with the key of its mod. *)
  Example C94_case : snd a_run = ExecModel.Ok [] /\
    verify_command ascii_lower PackProps.len20 (files_of (out (fst a_run))) [bs "addons"; bs "abe_main.pbo"] [bs "keys"; bs "abe_1.bikey"] = Exits [Verified] /\
    verify_command ascii_lower PackProps.len20 (files_of (out (fst a_run))) [bs "optionals"; bs "@abe_extra"; bs "addons"; bs "abe_extra.pbo"]
      [bs "optionals"; bs "@abe_extra"; bs "keys"; bs "abe_1_abe_extra.bikey"] = Exits [Verified].
  Proof.
    assert (S : snd a_run = ExecModel.Ok []) by (vm_compute; reflexivity). split; [exact S|].
    assert (H : a_run = (fst a_run, ExecModel.Ok [])) by (rewrite <- S; apply surjective_pairing).
    destruct (C94_release ascii_lower PackProps.len20 Ex.glob Ex.pr [] [Ex.main; Ex.extra] pbo_of Ex.version_of Ex.other (bs "abe") keygen V3 (fun _ => tt) tt tt Ex.warn true true false true Ex.w0 (fst a_run) [])
      as (i & v & _ & V & G).
    - intros y. apply le_bytes_length.
    - intros y. apply le_bytes_is_bytes.
    - exact makes.
    - exact packs.
    - exact keys.
    - exact Ex.keeps_.
    - exact Ex.kept.
    - exact Ex.dots.
    - exact Ex.names.
    - exact Ex.apart_.
    - exact H.
    - intros (c & [] & _).
    - assert (v = bs "1") as -> by (unfold Ex.version_of in V; congruence). split.
      + apply (G Ex.main); [now left| |].
        * apply (a_pbo_place Ex.pr Ex.main [] (bs "addons")); [right; split; [intros [X _]; discriminate|reflexivity]|left; auto].
        * apply (a_key_place Ex.pr (bs "abe") (bs "1") Ex.main [] (bs "abe_1") None); [right; split; [intros [X _]; discriminate|reflexivity]|apply (common_key Ex.pr (bs "abe") (bs "1") Ex.main); intros [X _]; discriminate].
      + apply (G Ex.extra); [now right; left| |].
        * apply (a_pbo_place Ex.pr Ex.extra [bs "optionals"; bs "@abe_extra"] (bs "addons")); [left; split; [split; reflexivity|reflexivity]|left; auto].
        * apply (a_key_place Ex.pr (bs "abe") (bs "1") Ex.extra [bs "optionals"; bs "@abe_extra"] (bs "abe_1_abe_extra") (Some (bs "extra"))); [left; split; [split; reflexivity|reflexivity]|].
          apply (own_key_ Ex.pr (bs "abe") (bs "1") Ex.extra). split; reflexivity.
  Qed.
End Verifying.

(** A verification that fails ends with exit status 0. *)
Definition on_disk (l : list (path * bytes)) (p : path) : option bytes := look p l.
Definition made_pbo (tree : list PackModel.entry) : bytes :=
  match PackModel.build_pbo ascii_lower PackProps.len20 PackProps.no_glob Some Verifying.settings tree (fun l => l) with inl b => b | inr _ => [] end.
Definition made_signature (k : private_key) (b : bytes) : bytes := match sign_file ascii_lower PackProps.len20 V3 k b with inl s => s | inr _ => [] end.
Theorem C94_exit_refuted : exists disk folder name key e,
  verify_command ascii_lower PackProps.len20 disk (pbo_at folder name) key = Exits [NotVerified e].
Proof.
  pose (k := Verifying.keygen None (bs "k")). pose (b := made_pbo (Verifying.tree Ex.main)).
  exists (on_disk [([bs "a.pbo"], b); ([bs "k.bikey"], public_file k); ([bs "a.pbo.k.bisign"], made_signature (Verifying.keygen None (bs "j")) b)]), [], (bs "a"), [bs "k.bikey"].
  eexists. vm_compute. reflexivity.
Qed.
Print Assumptions C94_exit_refuted.
(** "Verified!" follows the line that the verification failed for want of a prefix. *)
Theorem C94_no_prefix_refuted : exists disk folder name key,
  verify_command ascii_lower PackProps.len20 disk (pbo_at folder name) key = Exits [NoPrefix; Verified].
Proof.
  pose (k := Verifying.keygen None (bs "k")). pose (b := made_pbo (tl (Verifying.tree Ex.main))).
  exists (on_disk [([bs "a.pbo"], b); ([bs "k.bikey"], public_file k); ([bs "a.pbo.k.bisign"], made_signature k b)]), [], (bs "a"), [bs "k.bikey"].
  vm_compute. reflexivity.
Qed.
Print Assumptions C94_no_prefix_refuted.
(** An archive whose stored checksum was changed after it was signed still verifies, with two warnings. *)
Theorem C94_checksum_refuted : exists disk disk' folder name key,
  verify_command ascii_lower PackProps.len20 disk (pbo_at folder name) key = Exits [Verified] /\
  (exists b x y, disk (pbo_at folder name) = Some (b ++ [x]) /\ disk' (pbo_at folder name) = Some (b ++ [y]) /\ x <> y) /\ (forall p, p <> pbo_at folder name -> disk' p = disk p) /\
  verify_command ascii_lower PackProps.len20 disk' (pbo_at folder name) key = Exits [StoredWrong; HashWrong; Verified].
Proof.
  pose (k := Verifying.keygen None (bs "k")). pose (b := made_pbo (Verifying.tree Ex.main)). pose (rest := [([bs "k.bikey"], public_file k); ([bs "a.pbo.k.bisign"], made_signature k b)]).
  exists (on_disk (([bs "a.pbo"], b) :: rest)), (on_disk (([bs "a.pbo"], removelast b ++ [9]) :: rest)), [], (bs "a"), [bs "k.bikey"].
  split; [vm_compute; reflexivity|]. split; [exists (removelast b), (last b 0), 9; split; [|split]; vm_compute; [reflexivity|reflexivity|discriminate]|]. split; [|vm_compute; reflexivity].
  intros p Hp. unfold on_disk. unfold look. cbn [find fst]. change (pbo_at [] (bs "a")) with [bs "a.pbo"] in Hp. rewrite (proj2 (same_path_neq [bs "a.pbo"] p)) by auto. reflexivity.
Qed.
Print Assumptions C94_checksum_refuted.
