(** C86, C87. *)
From Coq Require Import String.
From Verif Require Import Base.Tactics Base.Bytes Base.Ascii Base.Sort Base.Text Bin.ExecModel Bin.ExecSpec Bin.ExecProps Bin.AddonModel Bin.AddonSpec Bin.AddonProps.
From Verif Require Import Bin.OutputModel Bin.OutputSpec Bin.OutputProofs.
Local Open Scope N_scope.
Local Open Scope list_scope.

Section Which.
  Context {D : Type} (lower : bytes -> bytes).
  (** ** Which addons *)
  Lemma member_in s l : member s l = true <-> In s l.
  Proof. unfold member. rewrite existsb_exists. split; [intros (x & I & Q); apply eqb_bytes_spec in Q as <-; exact I|]. intros I. exists s. split; [exact I|apply eqb_bytes_refl]. Qed.
  Lemma told_in names (a : addon D) : member (lower (name a)) (map lower names) = true <-> told lower names a.
  Proof. rewrite member_in, in_map_iff. unfold told. split; intros (n & H1 & H2); exists n; auto. Qed.
  Lemma empty_nil {A} (l : list A) : empty l = true <-> l = [].
  Proof. destruct l; cbn [empty]; split; congruence. Qed.
  Lemma excluded_iff l (a : addon D) : existsb (fun e => starts_with (e ++ [47]) (folder_of a ++ [47])) l = true <-> excluded l a.
  Proof.
    rewrite existsb_exists. unfold excluded. split.
    - intros (f & I & S). apply starts_with_spec in S as (r & Q). exists f, r. split; [exact I|]. unfold folder_of in Q. rewrite <- !app_assoc in Q. exact Q.
    - intros (f & r & I & Q). exists f. split; [exact I|]. apply starts_with_spec. exists r. unfold folder_of. rewrite <- !app_assoc. exact Q.
  Qed.
  (** [hemtt dev] takes an addon exactly if it is among those named by [--just], if any are, and is an optional of a launch
      configuration, or is wanted (not optional, or asked for) and in no excluded folder. *)
  Theorem C86_selection : forall d (a : addon D), dev_selects lower d a = true <-> dev_builds lower d a.
  Proof.
    intros d a. unfold dev_selects, dev_builds. rewrite <- told_in, <- (empty_nil (just d)), <- (member_in (name a) (launch_optionals d)), <- (member_in (name a) (optional d)), <- excluded_iff.
    destruct (empty (just d)); cbn [negb andb]; destruct (member (lower (name a)) (map lower (just d))); cbn [negb]; destruct (member (name a) (launch_optionals d));
      destruct (loc a); cbn [same_location andb]; destruct (all_optionals d); cbn [negb andb]; destruct (member (name a) (optional d)); cbn [negb];
      destruct (existsb _ (exclude d)); cbn [negb]; intuition congruence.
  Qed.
  Theorem C86_build_selection : forall just (a : addon D), build_selects lower just a = true <-> just = [] \/ told lower just a.
  Proof. intros just a. unfold build_selects. rewrite orb_true_iff, told_in, empty_nil. reflexivity. Qed.

End Which.

Section P.
  Context {D R E C key : Type} (lower : bytes -> bytes) (glob : bytes -> option (bytes -> bool)) (pr : project) (given : list bytes) (addons : list (addon D)).
  Context (pbo_of : inputs R -> addon D -> bytes + E) (version_of : inputs R -> bytes + E)
          (other : module -> stage -> inputs R -> inputs R * result E C)
          (au : bytes) (keygen : option bytes -> bytes -> key) (public : key -> bytes) (sign : key -> bytes -> bytes + E) (bad_pattern not_found : E)
          (severity_of : C -> severity).
  Notation has_error := (has_error severity_of).
  Notation release_ := (release_ glob pr (include_of given) addons pbo_of version_of other au keygen public sign bad_pattern not_found severity_of).
  Notation build_ := (build_ lower glob pr (include_of given) addons pbo_of version_of other au keygen public sign bad_pattern not_found severity_of).
  Notation dev_ := (dev_ lower glob pr (include_of given) addons pbo_of version_of other au keygen public sign bad_pattern not_found severity_of).
  Notation released := (released glob pr given pbo_of version_of other au keygen public sign).
  Notation archive_holds := (archive_holds glob pr given pbo_of version_of other au keygen public sign).

  (** ** The folder of [hemtt dev] and of [hemtt build] *)
  Definition dev_built (d : dev_args) (a : addon D) : Prop := In a addons /\ dev_builds lower d a.
  Lemma dev_filter d a : In a (filter (dev_selects lower d) addons) <-> dev_built d a.
  Proof. rewrite filter_In, C86_selection. reflexivity. Qed.
  Lemma nodup_filter {A B} (f : A -> B) (t : A -> bool) l : NoDup (map f l) -> NoDup (map f (filter t l)).
  Proof.
    induction l as [|a l IH]; intros N; [constructor|]. cbn [map filter] in *. inversion N as [|? ? N1 N2]; subst. destruct (t a); [|auto]. cbn [map]. constructor; [|auto].
    intros I. apply N1. apply in_map_iff in I as (x & Q & I). apply filter_In in I as (I & _). rewrite <- Q. now apply in_map.
  Qed.
  Lemma forall_filter {A} (P : A -> Prop) t l : Forall P l -> Forall P (filter t l).
  Proof. rewrite !Forall_forall. intros H x I. apply filter_In in I as (I & _). auto. Qed.
  Lemma dev_target (a : addon D) p : no_dot (p_prefix pr) -> no_dot (name a) -> p = target_pbo pr true a <-> dev_place pr a p.
  Proof. intros P Na. rewrite target_pbo_is, stem_name by auto. reflexivity. Qed.

  Theorem C86_dev : forall d rapify no_rap force_binarize binarize (w w' : world R) codes ib ic,
    keeps other -> kept_well (from w) -> no_dots pr addons -> NoDup (map name addons) -> NoDup (map fst (out w)) ->
    dev_ d rapify no_rap force_binarize binarize w = (w', Some (Ok codes)) -> ~ has_error codes ->
    let x := dev_command rapify no_rap force_binarize binarize in
    let old p n := just d <> [] /\ In (p, n) (out w) in
    arrives other x (from w) BuildPbos ib -> arrives other x (from w) (Phase Files PostBuild) ic ->
    not_through glob given True (dev_built d) ic old ->
    (forall p n, In (p, n) (out w') <-> left_at glob given pbo_of (dev_place pr) True (dev_built d) ib ic old p n) /\
    NoDup (map fst (out w')) /\ (forall a, dev_built d a -> exists b, pbo_of ib a = inl b) /\
    releases w' = releases w /\ from w' = fold_left (fun i s => effect other s i) (steps x) (from w).
  Proof.
    intros d ra nr fb bi w w' codes ib ic K W (P & Fd) Nn No H Hn x old Ab Af Th. unfold OutputModel.dev_ in H.
    set (l := filter (dev_selects lower d) addons) in H. destruct (existsb _ (optional d)); [discriminate|]. destruct (run_command _ _ _ _ _ _ _ _ _ _ _ _ _ _ _ _ _) as [w1 r] eqn:Rn. injection H as -> ->.
    unfold run_command in Rn. apply C37_fail_stop in Rn as (did & H). fold x in H.
    set (w0 := start (negb (empty (just d))) w) in H.
    assert (I0 : from w0 = from w) by (unfold w0, start; destruct (negb _); reflexivity). assert (R0 : releases w0 = releases w) by (unfold w0, start; destruct (negb _); reflexivity).
    assert (No0 : NoDup (map fst (out w0))) by (unfold w0, start; destruct (negb _); [exact No|constructor]).
    assert (O0 : forall p n, look p (out w0) = Some n <-> old p n).
    { intros p n. unfold w0, start, old. destruct (just d) as [|j js]; cbn [empty negb with_out out]; [split; [discriminate|intros [X _]; congruence]|]. rewrite (look_in p n _ No). split; [intros X; split; [discriminate|exact X]|now intros [_ X]]. }
    clearbody w0. destruct (dev_steps ra nr fb bi) as (A & B & Cc & F & Q & QA & QB & QC & QF). fold x in Q.
    change (runs severity_of (doing glob pr given pbo_of version_of other au keygen public sign bad_pattern not_found true l) (steps x) w0 did w' (Ok codes)) in H.
    assert (Nl : NoDup (map name l)) by now apply nodup_filter. assert (Fl : no_dots pr l) by (split; [exact P|now apply forall_filter]).
    assert (Bl : forall a, In a l <-> dev_built d a) by (intros a; apply dev_filter).
    rewrite Q in H. apply runs_split in H as (w1 & w2 & c1 & c2 & c3 & R1 & N1 & S2 & _ & R3 & N3); [|exact Hn].
    apply quiet_runs in R1 as (F1 & O1 & Rl1); [|exact QA|exact N1].
    change (link_step (E := E) (C := C) l w1 = (w2, Ok c2)) in S2. destruct (link_step_is (E := E) (C := C) l w1) as (F2 & Rl2 & Nd2 & Lo2). rewrite S2 in F2, Rl2, Nd2, Lo2. cbn [fst] in F2, Rl2, Nd2, Lo2.
    rewrite O1 in Nd2, Lo2. specialize (Lo2 Nl). specialize (Nd2 No0).
    assert (Eb : ib = fold_left (fun i s => effect other s i) B (from w2)).
    { apply (arrives_iff other x (from w) (A ++ Phase FilePatching PreBuild :: B) BuildPbos (Cc ++ Phase Files PostBuild :: F)) in Ab.
      - rewrite Ab, fold_left_app. cbn [fold_left]. rewrite F2, F1, I0. reflexivity.
      - rewrite Q, <- app_assoc. reflexivity.
      - intros I. apply in_app_or in I as [I|[I|I]]; [|discriminate|]; revert I; now apply quiet_not_in.
      - intros I. apply in_app_or in I as [I|[I|I]]; [|discriminate|]; revert I; now apply quiet_not_in. }
    assert (Ef : ic = fold_left (fun i s => effect other s i) Cc ib).
    { apply (arrives_iff other x (from w) (A ++ Phase FilePatching PreBuild :: B ++ BuildPbos :: Cc) (Phase Files PostBuild) F) in Af.
      - rewrite Af, fold_left_app. cbn [fold_left]. rewrite fold_left_app. cbn [fold_left]. rewrite Eb, F2, F1, I0. reflexivity.
      - rewrite Q, <- app_assoc. cbn [app]. rewrite <- app_assoc. reflexivity.
      - intros I. repeat (apply in_app_or in I as [I|I] || destruct I as [I|I]); try discriminate; revert I; now apply quiet_not_in.
      - now apply quiet_not_in. }
    assert (Lk : forall a, In a l -> dev_built d a) by (intros a; apply Bl).
    apply built_and_copied in R3; auto; rewrite ?F2, ?F1, ?I0.
    2:{ apply went_kept; assumption. }
    2:{ intros p b q t Cb L. rewrite <- I0, <- F1, <- F2, <- Eb, <- Ef in Cb. apply (Th p b q t Cb). apply Lo2 in L as [L|(_ & a & I & -> & [= ->])].
        - left. now apply O0.
        - right. split; [exact Logic.I|]. exists a. split; [now apply Bl|]. now split. }
    destruct R3 as (F3 & Rl3 & Nd3 & Bs & Lo3). rewrite <- Eb in Bs, Lo3. rewrite <- Ef in Lo3.
    split; [|split; [exact Nd3|split; [intros a I; apply Bs; now apply Bl|split; [congruence|]]]].
    - intros p n. rewrite <- (look_in p n _ Nd3), Lo3. unfold left_at, a_copy, a_pbo, a_link. rewrite Forall_forall in Fd.
      assert (Tg : forall a, dev_built d a -> p = target_pbo pr true a <-> dev_place pr a p) by (intros a (I & _); apply dev_target; auto).
      assert (Pb : (exists a b, In a l /\ p = target_pbo pr true a /\ pbo_of ib a = inl b /\ n = File b) <-> exists a b, dev_built d a /\ dev_place pr a p /\ pbo_of ib a = inl b /\ n = File b).
      { split; intros (a & b & I & T & X & Y); exists a, b; [apply Bl in I; apply Tg in T; auto|apply Tg in T; [|exact I]; apply Bl in I; auto]. }
      rewrite Pb. assert (Nc : (~ exists b, chosen glob given ic p b) <-> forall n', ~ exists b, chosen glob given ic p b /\ n' = File b).
      { split; [intros X n' (b & Y & _); eauto|]. intros X (b & Y). apply (X (File b)). eauto. }
      rewrite Nc. assert (Np : (forall a, In a l -> p <> target_pbo pr true a) <-> forall n', ~ exists a b, dev_built d a /\ dev_place pr a p /\ pbo_of ib a = inl b /\ n' = File b).
      { split.
        - intros X n' (a & b & I & T & _). apply (X a); [now apply Bl|now apply Tg].
        - intros X a I T. destruct (Bs a I) as (b & B'). apply Bl in I. apply (X (File b)). exists a, b. apply Tg in T; auto. }
      rewrite Np. rewrite Lo2, O0.
      assert (Nold : look p (out w0) = None <-> forall n', ~ old p n').
      { split; [intros X n' Y; apply O0 in Y; congruence|]. intros X. destruct (look p (out w0)) as [n'|] eqn:L; [|reflexivity]. exfalso. apply (X n'). now apply O0. }
      rewrite Nold. assert (Ln : (exists a, In a l /\ p = link_path a /\ n = Link [location_name (loc a); name a]) <-> True /\ exists a t, dev_built d a /\ link_of a p t /\ n = Link t).
      { split; [intros (a & I & -> & ->)|intros (_ & a & t & I & (-> & ->) & ->)].
        - split; [exact Logic.I|]. exists a, [location_name (loc a); name a]. split; [now apply Bl|]. split; [now split|reflexivity].
        - exists a. split; [now apply Bl|]. split; reflexivity. }
      rewrite Ln. reflexivity.
    - rewrite F3, Q, (fold_left_app _ A). cbn [fold_left]. rewrite F2, F1, I0. reflexivity.
  Qed.
  (** Without an addon for each optional that was asked for, nothing is built. *)
  Theorem C86_optional_missing : forall d rapify no_rap force_binarize binarize (w : world R),
    (exists w', dev_ d rapify no_rap force_binarize binarize w = (w', None)) <-> exists o, In o (optional d) /\ forall a, dev_built d a -> name a <> o.
  Proof.
    intros d ra nr fb bi w. unfold OutputModel.dev_.
    assert (X : existsb (fun o => negb (existsb (fun a => eqb_bytes (name a) o) (filter (dev_selects lower d) addons))) (optional d) = true <-> exists o, In o (optional d) /\ forall a, dev_built d a -> name a <> o).
    { rewrite existsb_exists. split; intros (o & I & H); exists o; (split; [exact I|]).
      - intros a Ha Q. apply negb_true_iff in H. assert (Y : existsb (fun a => eqb_bytes (name a) o) (filter (dev_selects lower d) addons) = true); [|congruence].
        apply existsb_exists. exists a. split; [now apply dev_filter|]. rewrite Q. apply eqb_bytes_refl.
      - apply negb_true_iff. destruct (existsb _ (filter _ addons)) eqn:Y; [|reflexivity]. apply existsb_exists in Y as (a & Ia & Q). apply eqb_bytes_spec in Q. apply dev_filter in Ia. now apply H in Ia. }
    rewrite <- X. destruct (existsb _ (optional d)); [split; [reflexivity|eauto]|]. destruct (run_command _ _ _ _ _ _ _ _ _ _ _ _ _ _ _ _ _) as [w1 r]. split; [intros (w' & Q)|]; discriminate.
  Qed.

  Theorem C86_build : forall just no_rap no_bin (w w' : world R) codes ib ic,
    keeps other -> kept_well (from w) -> no_dots pr addons -> NoDup (map name addons) -> NoDup (map fst (out w)) ->
    build_ just no_rap no_bin w = (w', Ok codes) -> ~ has_error codes ->
    let x := build_command no_rap no_bin in
    let old p n := just <> [] /\ In (p, n) (out w) in
    let built a := In a addons /\ (just = [] \/ told lower just a) in
    arrives other x (from w) BuildPbos ib -> arrives other x (from w) (Phase Files PostBuild) ic ->
    not_through glob given False built ic old ->
    (forall p n, In (p, n) (out w') <-> left_at glob given pbo_of (pbo_place pr) False built ib ic old p n) /\
    NoDup (map fst (out w')) /\ (forall a, built a -> exists b, pbo_of ib a = inl b) /\
    releases w' = releases w /\ from w' = fold_left (fun i s => effect other s i) (steps x) (from w).
  Proof.
    intros jst nr nb w w' codes ib ic K W (P & Fd) Nn No H Hn x old built Ab Af Th. unfold OutputModel.build_ in H.
    set (l := if empty jst then addons else filter (build_selects lower jst) addons) in H.
    unfold run_command in H. apply C37_fail_stop in H as (did & H). fold x in H. set (w0 := start (negb (empty jst)) w) in H.
    assert (I0 : from w0 = from w) by (unfold w0, start; destruct (negb _); reflexivity). assert (R0 : releases w0 = releases w) by (unfold w0, start; destruct (negb _); reflexivity).
    assert (No0 : NoDup (map fst (out w0))) by (unfold w0, start; destruct (negb _); [exact No|constructor]).
    assert (O0 : forall p n, look p (out w0) = Some n <-> old p n).
    { intros p n. unfold w0, start, old. destruct jst as [|j js]; cbn [empty negb with_out out]; [split; [discriminate|intros [X _]; congruence]|]. rewrite (look_in p n _ No). split; [intros X; split; [discriminate|exact X]|now intros [_ X]]. }
    clearbody w0.
    assert (Q : exists A B F, steps x = A ++ BuildPbos :: B ++ Phase Files PostBuild :: F /\ forallb quiet A = true /\ forallb quiet B = true /\ forallb quiet F = true).
    { pose (s := steps x). pose (A := span s). pose (B := span (tl (snd A))). exists (fst A), (fst B), (tl (snd B)). subst B A s x. destruct nr, nb; vm_compute; repeat split. }
    destruct Q as (A & B & F & Q & QA & QB & QF).
    change (runs severity_of (doing glob pr given pbo_of version_of other au keygen public sign bad_pattern not_found false l) (steps x) w0 did w' (Ok codes)) in H.
    assert (Nl : NoDup (map name l)) by (unfold l; destruct (empty jst); [exact Nn|now apply nodup_filter]).
    assert (Fl : no_dots pr l) by (split; [exact P|]; unfold l; destruct (empty jst); [exact Fd|now apply forall_filter]).
    assert (Bl : forall a, In a l <-> built a).
    { intros a. unfold l, built. destruct (empty jst) eqn:Em; [apply empty_nil in Em; tauto|]. rewrite filter_In, C86_build_selection. reflexivity. }
    clearbody l. rewrite Q in H.
    assert (Eb : ib = fold_left (fun i s => effect other s i) A (from w)).
    { apply (arrives_iff other x (from w) A BuildPbos (B ++ Phase Files PostBuild :: F)) in Ab; [exact Ab|exact Q|now apply quiet_not_in|].
      intros I. apply in_app_or in I as [I|[I|I]]; [|discriminate|]; revert I; now apply quiet_not_in. }
    assert (Ef : ic = fold_left (fun i s => effect other s i) B ib).
    { apply (arrives_iff other x (from w) (A ++ BuildPbos :: B) (Phase Files PostBuild) F) in Af.
      - rewrite Af, fold_left_app. cbn [fold_left]. now rewrite Eb.
      - rewrite Q, <- app_assoc. reflexivity.
      - intros I. repeat (apply in_app_or in I as [I|I] || destruct I as [I|I]); try discriminate; revert I; now apply quiet_not_in.
      - now apply quiet_not_in. }
    apply built_and_copied in H; auto; rewrite ?I0; [|exact W|].
    2:{ intros p b q t Cb L. rewrite <- Eb, <- Ef in Cb. apply (Th p b q t Cb). left. now apply O0. }
    destruct H as (F3 & Rl3 & Nd3 & Bs & Lo3). rewrite I0, <- Eb in Bs, Lo3. rewrite <- Ef in Lo3.
    split; [|split; [exact Nd3|split; [intros a I; apply Bs; now apply Bl|split; [congruence|now rewrite F3, Q, I0]]]].
    intros p n. rewrite <- (look_in p n _ Nd3), Lo3. unfold left_at, a_copy, a_pbo, a_link. rewrite Forall_forall in Fd.
    assert (Tg : forall a, built a -> p = target_pbo pr false a <-> pbo_place pr a p) by (intros a (I & _); symmetry; apply pbo_place_iff; auto).
    assert (Pb : (exists a b, In a l /\ p = target_pbo pr false a /\ pbo_of ib a = inl b /\ n = File b) <-> exists a b, built a /\ pbo_place pr a p /\ pbo_of ib a = inl b /\ n = File b).
    { split; intros (a & b & I & T & X & Y); exists a, b; [apply Bl in I; apply Tg in T; auto|apply Tg in T; [|exact I]; apply Bl in I; auto]. }
    rewrite Pb. assert (Nc : (~ exists b, chosen glob given ic p b) <-> forall n', ~ exists b, chosen glob given ic p b /\ n' = File b).
    { split; [intros X n' (b & Y & _); eauto|]. intros X (b & Y). apply (X (File b)). eauto. }
    rewrite Nc. assert (Np : (forall a, In a l -> p <> target_pbo pr false a) <-> forall n', ~ exists a b, built a /\ pbo_place pr a p /\ pbo_of ib a = inl b /\ n' = File b).
    { split.
      - intros X n' (a & b & I & T & _). apply (X a); [now apply Bl|now apply Tg].
      - intros X a I T. destruct (Bs a I) as (b & B'). apply Bl in I. apply (X (File b)). exists a, b. apply Tg in T; auto. }
    rewrite Np, O0. assert (Nl' : forall y, ~ (False /\ y)) by tauto. intuition.
  Qed.

End P.

Section Q.
  Context {D R E C key : Type} (glob : bytes -> option (bytes -> bool)) (pr : project) (given : list bytes) (addons : list (addon D)).
  Context (pbo_of : inputs R -> addon D -> bytes + E) (version_of : inputs R -> bytes + E)
          (other : module -> stage -> inputs R -> inputs R * result E C)
          (au : bytes) (keygen : option bytes -> bytes -> key) (public : key -> bytes) (sign : key -> bytes -> bytes + E) (bad_pattern not_found : E)
          (severity_of : C -> severity).
  Notation has_error := (has_error severity_of).
  Notation release_ := (release_ glob pr (include_of given) addons pbo_of version_of other au keygen public sign bad_pattern not_found severity_of).
  Notation released := (released glob pr given pbo_of version_of other au keygen public sign).
  Notation archive_holds := (archive_holds glob pr given pbo_of version_of other au keygen public sign).

  (** ** Releases *)
  Notation x_ := release_command.
  Lemma latest_is : no_dot (p_prefix pr) -> latest pr = latest_name pr.
  Proof.
    intros P. unfold latest, latest_name. pose proof (set_extension_snoc (bs "zip") [] (p_prefix pr ++ bs "-latest")) as X. cbn [app] in X. rewrite X. clear X. rewrite stem_no_dot.
    - rewrite <- app_assoc. reflexivity.
    - apply no_dot_app. split; [exact P|]. intros X. cbn in X. intuition discriminate.
  Qed.
  Lemma numbered_is v : numbered pr v = version_name pr v.
  Proof. reflexivity. Qed.
  Lemma zip_holds x i0 o : NoDup (map fst o) -> (forall p n, look p o = Some n <-> exists b, n = File b /\ released x i0 addons p b) -> archive_holds x i0 addons (zip_of pr o).
  Proof.
    intros N L. assert (I : forall p b, In (p, File b) o <-> released x i0 addons p b).
    { intros p b. rewrite <- (look_in p (File b) o N), L. split; [intros (b' & [= ->] & X); exact X|eauto]. }
    split.
    - intros n b. rewrite zip_files. split; intros (p & -> & X); exists p; (split; [reflexivity|]); now apply I.
    - intros n. rewrite zip_folders.
      + split; intros (p & q & y & H1 & H2 & -> & X).
        * assert (Y := X). apply (look_in _ _ _ N) in Y. apply L in Y as (b & -> & Y). exists p, q, b. auto.
        * exists p, q, (File y). apply I in X. auto.
      + intros p t X. apply (look_in _ _ _ N) in X. apply L in X as (b & Q & _). discriminate.
  Qed.
  Lemma updated_one {A} q (z : A) old : updated [q] z old (put q z old).
  Proof. intros p. split; [intros [<-|[]]; apply look_put_same|]. intros H. apply look_put_other. intros ->. apply H. now left. Qed.
  Lemma updated_two {A} q r (z : A) old : updated [q; r] z old (put r z (put q z old)).
  Proof.
    intros p. destruct (path_dec p r) as [->|Hr]; [split; [intros _; apply look_put_same|intros H; exfalso; apply H; right; now left]|]. rewrite look_put_other by auto.
    destruct (path_dec p q) as [->|Hq]; [split; [intros _; apply look_put_same|intros H; exfalso; apply H; now left]|]. rewrite look_put_other by auto. split; [intros [?|[?|[]]]; congruence|reflexivity].
  Qed.

  (** From whatever was in the output folder and in the releases before: however the release ends, either the releases are
      what they were, or the archive is one that holds exactly what is released. *)
  Theorem C87_archives : forall nr nb ns na sg ar (w w' : world R) r, let x := x_ nr nb ns na sg ar in
    keeps other -> kept_well (from w) -> no_dots pr addons -> NoDup (map name addons) -> apart glob pr given other au x (from w) addons ->
    release_ nr nb ns na sg ar w = (w', r) ->
    releases w' = releases w /\ (forall codes, r = Ok codes -> ~ has_error codes -> na = true \/ ar = false) \/
    exists z i, archive_holds x (from w) addons z /\ arrives other x (from w) MakeArchive i /\
      ((exists v, version_of i = inl v /\ updated [latest_name pr; version_name pr v] z (releases w) (releases w')) \/
       (exists e, version_of i = inr e /\ r = Err e /\ updated [latest_name pr] z (releases w) (releases w'))).
  Proof.
    intros nr nb ns na sg ar w w' r x K W Nd Nn Ap H. unfold OutputModel.release_, run_command in H. apply C37_fail_stop in H as (did & H). fold x in H.
    change (runs severity_of (doing glob pr given pbo_of version_of other au keygen public sign bad_pattern not_found false addons) (steps x) (start false w) did w' r) in H.
    destruct (release_steps nr nb ns na sg ar) as (A & B & Cc & Dd & F & Q & QA & QB & QC & QD & QF). fold x in Q.
    set (pre := A ++ BuildPbos :: B ++ Phase Files PostBuild :: Cc ++ signing ns sg ++ Dd).
    assert (Qp : steps x = pre ++ archiving na ar ++ F) by (rewrite Q; unfold pre; repeat (rewrite <- app_assoc; cbn [app]); reflexivity).
    assert (Pn : forall s, In s pre -> s <> MakeArchive).
    { intros s I ->. unfold pre in I. repeat (apply in_app_or in I as [I|I] || destruct I as [I|I]); try discriminate; try (revert I; now apply quiet_not_in). apply signing_only in I. discriminate. }
    rewrite Qp in H. apply runs_parts in H as [(H & Hb)|(w1 & c1 & did1 & r1 & H1 & N1 & H2 & Hr)].
    { left. split; [apply runs_same in H; [exact H|exact Pn]|]. intros codes -> Hn. exfalso. apply Hn. now apply Hb. }
    destruct (release_before _ _ _ _ _ _ _ _ _ _ _ _ _ nr nb ns na sg ar addons A B Cc Dd F w (start false w) w1 pre c1 Q QA QB QC QD QF K W Nd Nn Ap eq_refl H1 N1) as (Lo & No & Rl & Fr).
    fold x in Lo. unfold archiving in H2, Q, Qp. destruct (if na then false else ar) eqn:Ar.
    2:{ left. cbn [app] in H2. split; [|intros codes _ _; destruct na; auto]. rewrite <- Rl. apply runs_same in H2; [exact H2|].
        intros s I ->. revert I. now apply quiet_not_in. }
    right. exists (zip_of pr (out w1)), (from w1). split; [now apply zip_holds|]. split; [exists pre, F; split; [exact Qp|exact Fr]|].
    assert (Ac : doing glob pr given pbo_of version_of other au keygen public sign bad_pattern not_found false addons MakeArchive w1 =
       match version_of (from w1) with
       | inr e => (World (from w1) (out w1) (put (latest pr) (zip_of pr (out w1)) (releases w1)), Err e)
       | inl v => (World (from w1) (out w1) (put (numbered pr v) (zip_of pr (out w1)) (put (latest pr) (zip_of pr (out w1)) (releases w1))), Ok [])
       end) by reflexivity.
    destruct Nd as (P & _). rewrite latest_is, Rl in Ac by exact P. destruct (version_of (from w1)) as [v|e].
    - left. exists v. split; [reflexivity|]. rewrite numbered_is in Ac.
      assert (X : releases w' = put (version_name pr v) (zip_of pr (out w1)) (put (latest_name pr) (zip_of pr (out w1)) (releases w))); [|rewrite X; apply updated_two].
      inversion H2 as [|s0 ss w0 w2 e A0|s0 ss w0 w2 c0 A0 B0|s0 ss w0 w2 c0 did' w'' r' A0 B0 Rr]; subst.
      + congruence.
      + rewrite Ac in A0. injection A0 as <- <-. reflexivity.
      + rewrite Ac in A0. injection A0 as <- <-. apply runs_same in Rr; [exact Rr|]. intros s I ->. revert I. now apply quiet_not_in.
    - right. exists e. split; [reflexivity|].
      inversion H2 as [|s0 ss w0 w2 e0 A0|s0 ss w0 w2 c0 A0 B0|s0 ss w0 w2 c0 did' w'' r' A0 B0 Rr]; subst; rewrite Ac in A0; try discriminate. injection A0 as <- <-. split.
      + reflexivity.
      + apply updated_one.
  Qed.

  (** A release without errors: both archives are there, and hold exactly what is released; the output folder too. *)
  Theorem C87_release : forall nr nb ns sg (w w' : world R) codes, let x := x_ nr nb ns false sg true in
    keeps other -> kept_well (from w) -> no_dots pr addons -> NoDup (map name addons) -> apart glob pr given other au x (from w) addons ->
    release_ nr nb ns false sg true w = (w', Ok codes) -> ~ has_error codes ->
    exists z i v, arrives other x (from w) MakeArchive i /\ version_of i = inl v /\ archive_holds x (from w) addons z /\
      updated [latest_name pr; version_name pr v] z (releases w) (releases w').
  Proof.
    intros nr nb ns sg w w' codes x K W Nd Nn Ap H Hn. destruct (C87_archives nr nb ns false sg true w w' (Ok codes) K W Nd Nn Ap H) as [(_ & X)|(z & i & Z & Ai & [(v & V & U)|(e & _ & X & _)])]; [|eauto 8|discriminate].
    destruct (X codes eq_refl Hn); discriminate.
  Qed.
  Theorem C87_folder : forall nr nb ns na sg ar (w w' : world R) codes, let x := x_ nr nb ns na sg ar in
    keeps other -> kept_well (from w) -> no_dots pr addons -> NoDup (map name addons) -> apart glob pr given other au x (from w) addons ->
    release_ nr nb ns na sg ar w = (w', Ok codes) -> ~ has_error codes ->
    NoDup (map fst (out w')) /\ (forall p n, In (p, n) (out w') <-> exists b, n = File b /\ released x (from w) addons p b) /\ (na = true \/ ar = false -> releases w' = releases w).
  Proof.
    intros nr nb ns na sg ar w w' codes x K W Nd Nn Ap H Hn. unfold OutputModel.release_, run_command in H. apply C37_fail_stop in H as (did & H). fold x in H.
    change (runs severity_of (doing glob pr given pbo_of version_of other au keygen public sign bad_pattern not_found false addons) (steps x) (start false w) did w' (Ok codes)) in H.
    destruct (release_steps nr nb ns na sg ar) as (A & B & Cc & Dd & F & Q & QA & QB & QC & QD & QF). fold x in Q.
    set (pre := A ++ BuildPbos :: B ++ Phase Files PostBuild :: Cc ++ signing ns sg ++ Dd).
    assert (Qp : steps x = pre ++ archiving na ar ++ F) by (rewrite Q; unfold pre; repeat (rewrite <- app_assoc; cbn [app]); reflexivity).
    rewrite Qp in H. apply runs_cut in H as (w1 & c1 & c2 & H1 & N1 & H2 & N2); [|exact Hn].
    destruct (release_before _ _ _ _ _ _ _ _ _ _ _ _ _ nr nb ns na sg ar addons A B Cc Dd F w (start false w) w1 pre c1 Q QA QB QC QD QF K W Nd Nn Ap eq_refl H1 N1) as (Lo & No & Rl & Fr). fold x in Lo.
    assert (O : out w' = out w1).
    { unfold archiving in H2. destruct (if na then false else ar).
      - change ([MakeArchive] ++ F) with ([] ++ MakeArchive :: F) in H2. apply runs_split in H2 as (w2 & w3 & d1 & d2 & d3 & R1 & _ & A1 & _ & R2 & _); [|exact N2]. inversion R1; subst.
        apply quiet_same in R2; [|exact QF]. rewrite R2. unfold doing, act, archive_step in A1. cbn [from] in A1. destruct (version_of (from w2)); [|discriminate]. injection A1 as <- _. reflexivity.
      - apply quiet_same in H2; [exact H2|exact QF]. }
    rewrite O. split; [exact No|]. split; [intros p n; rewrite <- (look_in p n _ No); apply Lo|]. intros Ha. unfold archiving in H2.
    assert (Az : (if na then false else ar) = false) by (destruct Ha as [->| ->]; [reflexivity|now destruct na]). rewrite Az in H2. rewrite <- Rl. apply runs_same in H2; [exact H2|]. intros s I ->. revert I. now apply quiet_not_in.
  Qed.
  (** Nothing is released twice. *)
  Theorem C87_once : forall nr nb ns na sg ar (w w' : world R) codes p b b', let x := x_ nr nb ns na sg ar in
    keeps other -> kept_well (from w) -> no_dots pr addons -> NoDup (map name addons) -> apart glob pr given other au x (from w) addons ->
    release_ nr nb ns na sg ar w = (w', Ok codes) -> ~ has_error codes ->
    released x (from w) addons p b -> released x (from w) addons p b' -> b = b'.
  Proof.
    intros nr nb ns na sg ar w w' codes p b b' x K W Nd Nn Ap H Hn Rb Rb'. destruct (C87_folder nr nb ns na sg ar w w' codes K W Nd Nn Ap H Hn) as (No & Lo & _).
    assert (I1 : In (p, File b) (out w')) by (apply Lo; eauto). assert (I2 : In (p, File b') (out w')) by (apply Lo; eauto).
    apply (look_in _ _ _ No) in I1. apply (look_in _ _ _ No) in I2. congruence.
  Qed.

  (** ** The past does not matter *)
  Definition writes (us : list (path * zip)) (l : list (path * zip)) : list (path * zip) := fold_left (fun l u => put (fst u) (snd u) l) us l.
  Lemma writes_app a b l : writes (a ++ b) l = writes b (writes a l).
  Proof. apply fold_left_app. Qed.
  Notation does := (doing glob pr given pbo_of version_of other au keygen public sign bad_pattern not_found).
  Lemma step_blind c l s i o : exists i' o' us res, forall rl, does c l s (World i o rl) = (World i' o' (writes us rl), res).
  Proof.
    unfold doing, act. destruct s as [m st| |].
    - destruct (quiet (Phase m st)) eqn:Qt.
      + destruct (other m st i) as [i' r'] eqn:Ot. exists i', o, [], r'. intros rl.
        assert (X : phase glob pr (include_of given) version_of other au keygen public sign bad_pattern not_found l m st (World i o rl) = (let '(i, r) := other m st i in (World i o rl, r))) by (destruct m, st; try discriminate; reflexivity).
        rewrite X, Ot. reflexivity.
      + destruct m, st; try discriminate; cbn [phase].
        * unfold copy_step. destruct (BinarizeModel.patterns glob (include_of given)) as [ms|]; [|exists i, o, [], (Err bad_pattern); reflexivity]. cbn [from].
          generalize (filter (wanted ms) (walk i)) as ps. intros ps. enough (X : exists i' o', forall rl, fold_left (fun w p => copy_file p w) ps (World i o rl) = World i' o' rl).
          { destruct X as (i' & o' & X). exists i', o', [], (Ok []). intros rl. now rewrite X. }
          revert i o. induction ps as [|p ps IH]; intros i o; cbn [fold_left]; [exists i, o; reflexivity|]. unfold copy_file at 2. cbn [from out releases].
          destruct (content p i) as [b|]; [|apply IH]. destruct (through o p) as [t|]; cbv zeta; unfold with_out; cbn [from out releases]; apply IH.
        * unfold link_step. enough (X : exists o', forall rl, fold_left (fun w a => match look (link_path a) (out w) with Some _ => w | None => with_out (put (link_path a) (Link [location_name (loc a); name a]) (out w)) w end) l (World i o rl) = World i o' rl).
          { destruct X as (o' & X). exists i, o', [], (Ok []). intros rl. now rewrite X. }
          revert o. induction l as [|a l IH]; intros o; cbn [fold_left]; [exists o; reflexivity|]. cbn [out]. destruct (look (link_path a) o); unfold with_out; cbn [from out releases]; apply IH.
        * unfold sign_step. cbn [from out]. destruct (version_of i) as [v|e]; [|exists i, o, [], (Err e); reflexivity]. cbv zeta. unfold with_out. cbn [from out releases].
          generalize (put [bs "keys"; get_authority au v None ++ bs ".bikey"] (File (public (keygen None (get_authority au v None)))) o) as o1. intros o1. clear o.
          enough (X : exists o' res, forall rl, sign_all pr au keygen public sign not_found v l (World i o1 rl) = (World i o' rl, res : result E C)) by (destruct X as (o' & res & X); exists i, o', [], res; exact X).
          revert o1. induction l as [|a l IH]; intros o; cbn [sign_all]; [exists o, (Ok []); reflexivity|]. cbv zeta. cbn [out]. unfold with_out. cbn [from releases].
          destruct (look _ _) as [[b|]|]; [|eexists _, _; reflexivity|eexists _, _; reflexivity]. destruct (sign _ b) as [sg|e]; [|eexists _, _; reflexivity]. cbn [out]. apply IH.
    - unfold build_step. cbn [from]. destruct (version_of i) as [v|e]; [|exists i, o, [], (Err e); reflexivity].
      enough (X : exists o' res, forall rl, build_all pr pbo_of c l (World i o rl) = (World i o' rl, res : result E C)) by (destruct X as (o' & res & X); exists i, o', [], res; exact X).
      revert o. induction l as [|a l IH]; intros o; cbn [build_all]; [exists o, (Ok []); reflexivity|]. cbn [from out]. unfold with_out. cbn [from releases].
      destruct (pbo_of i a); [apply IH|eexists _, _; reflexivity].
    - unfold archive_step. cbn [from out releases]. destruct (version_of i) as [v|e].
      + exists i, o, [(latest pr, zip_of pr o); (numbered pr v, zip_of pr o)], (Ok []). reflexivity.
      + exists i, o, [(latest pr, zip_of pr o)], (Err e). reflexivity.
  Qed.
  Lemma runs_blind c l : forall ss i o, exists did i' o' us res, forall rl, runs severity_of (does c l) ss (World i o rl) did (World i' o' (writes us rl)) res.
  Proof.
    induction ss as [|s ss IH]; intros i o; [exists [], i, o, [], (Ok []); constructor|].
    destruct (step_blind c l s i o) as (i1 & o1 & us1 & [codes|e] & H1).
    - destruct (failed severity_of codes) eqn:Fl.
      + exists [s], i1, o1, us1, (Ok codes). intros rl. apply runs_bad; [apply H1|now apply failed_has_error].
      + destruct (IH i1 o1) as (did & i2 & o2 & us2 & res & H2). exists (s :: did), i2, o2, (us1 ++ us2), (match res with Ok more => Ok (codes ++ more) | Err e => Err e end).
        intros rl. rewrite writes_app. eapply runs_next; [apply H1|now apply not_failed|apply H2].
    - exists [s], i1, o1, us1, (Err e). intros rl. apply runs_err, H1.
  Qed.
  (** What a release answers, what it leaves in the output folder and what it writes to the releases depends on the project
      alone, not on what an earlier run left. *)
  Theorem C87_past : forall nr nb ns na sg ar i, exists i' o' us r, forall w : world R, from w = i ->
    release_ nr nb ns na sg ar w = (World i' o' (writes us (releases w)), r).
  Proof.
    intros nr nb ns na sg ar i. destruct (runs_blind false addons (steps (x_ nr nb ns na sg ar)) i []) as (did & i' & o' & us & r & H).
    exists i', o', us, r. intros w <-. unfold OutputModel.release_, run_command. apply C37_fail_stop. exists did. apply H.
  Qed.
End Q.

(** ** Concrete cases *)
Module Ex.
  Definition t (s : string) : bytes := bs s.
  Definition glob (q : bytes) : option (bytes -> bool) := Some (eqb_bytes q).
  Definition pr := Project (bs "abe") (bs "abe") true.
  Definition main : addon unit := Addon (bs "main") Addons tt.
  Definition extra : addon unit := Addon (bs "extra") Optionals tt.
  Definition pbo_of (i : inputs unit) (a : addon unit) : bytes + unit := inl (bs "pbo " ++ name a).
  Definition version_of (i : inputs unit) : bytes + unit := inl (bs "1").
  Definition other (m : module) (s : stage) (i : inputs unit) : inputs unit * result unit unit := (i, Ok []).
  Definition keygen (o : option bytes) (n : bytes) : bytes := n.
  Definition public (k : bytes) : bytes := bs "key " ++ k.
  Definition sign (k b : bytes) : bytes + unit := inl (bs "sig " ++ k ++ bs " " ++ b).
  Definition warn (_ : unit) : severity := SWarning.
  Definition cfg : path := [bs "addons"; bs "main"; bs "config.cpp"].
  Definition mod_ : path := [bs "mod.cpp"].
  Definition proj : inputs unit := Inputs [(mod_, bs "name"); (cfg, bs "class")] [] tt.
  (** A folder and releases with leftovers. *)
  Definition w0 : world unit := World proj [([bs "addons"; bs "abe_gone.pbo"], File (bs "x")); (mod_, File (bs "old"))] [([bs "abe-latest.zip"], []); ([bs "abe-0.zip"], [])].
  Definition rel (given : list bytes) (w : world unit) : world unit * result unit unit :=
    release_ glob pr (include_of given) [main; extra] pbo_of version_of other (bs "abe") keygen public sign tt tt warn true true false false true true w.
  Definition dev (given : list bytes) (d : dev_args) (w : world unit) : world unit * option (result unit unit) :=
    dev_ ascii_lower glob pr (include_of given) [main; extra] pbo_of version_of other (bs "abe") keygen public sign tt tt warn d false false false false w.
  Definition x := release_command true true false false true true.
  Definition all (d : dev_args) := d.
  Definition plain : dev_args := DevArgs [] [] false [] [].

  Lemma still ss i : fold_left (fun i s => effect (E := unit) (C := unit) other s i) ss i = i.
  Proof. revert i. induction ss as [|s ss IH]; intros i; [reflexivity|]. cbn [fold_left]. rewrite <- (IH i) at 2. f_equal. destruct s as [m st| |]; [|reflexivity|reflexivity]. destruct m, st; reflexivity. Qed.
  Lemma keeps_ : keeps (R := unit) (E := unit) (C := unit) other.
  Proof. intros m s i H. exact H. Qed.
  Lemma kept : kept_well proj.
  Proof. split; repeat constructor; cbn; intuition discriminate. Qed.
  Lemma dots : no_dots pr [main; extra].
  Proof. split; [|repeat constructor]; intros H; cbn in H; intuition discriminate. Qed.
  Lemma names : NoDup (map name [main; extra]).
  Proof. repeat constructor; cbn; intuition discriminate. Qed.
  Lemma made_length p : made pr (bs "abe") [main; extra] p -> length p = 2%nat \/ length p = 4%nat.
  Proof.
    assert (F : forall (a : addon unit) f, mod_folder pr a f -> length f = 0%nat \/ length f = 2%nat) by (intros a f [(_ & ->)|(_ & ->)]; auto).
    intros [(a & _ & [f s Mf _])|[(a & v & _ & [[f s k o Mf _ _]|[f k o Mf _]])|(v & ->)]]; [| | |now left]; destruct (F a f Mf) as [L|L]; rewrite app_length, L; auto.
  Qed.
  Lemma chosen_files i p b g : i = proj -> chosen glob g i p b -> p = mod_ \/ p = cfg.
  Proof. intros -> ([[]|(I & _)] & _). cbn [physical proj] in I. destruct I as [I|[I|[]]]; injection I; auto. Qed.
  Lemma apart_ : apart glob pr [] other (bs "abe") x proj [main; extra].
  Proof.
    intros i p b (bf & af & _ & ->) Cb M. rewrite still in Cb. apply made_length in M. apply chosen_files in Cb as [-> | ->]; [| |reflexivity]; cbn in M; lia.
  Qed.
  Notation a_run := (release_ glob pr (include_of []) [main; extra] pbo_of version_of other (bs "abe") keygen public sign tt tt warn true true false false true true w0).
  Example a_release : snd a_run = Ok [] /\ exists z i v,
    arrives other x proj MakeArchive i /\ version_of i = inl v /\ archive_holds glob pr [] pbo_of version_of other (bs "abe") keygen public sign x proj [main; extra] z /\
    updated [[bs "abe-latest.zip"]; [bs "abe-1.zip"]] z (releases w0) (releases (fst a_run)) /\
    look [bs "abe-0.zip"] (releases (fst a_run)) = Some [].
  Proof.
    split; [vm_compute; reflexivity|]. assert (H : a_run = (fst a_run, Ok [])) by (vm_compute; reflexivity). destruct (C87_release glob pr [] [main; extra] pbo_of version_of other (bs "abe") keygen public sign tt tt warn true true false true w0 (fst a_run) [] keeps_ kept dots names apart_ H) as (z & i & v & Ai & V & Z & U).
    { intros (c & [] & _). }
    exists z, i, v. split; [exact Ai|]. split; [exact V|]. split; [exact Z|]. assert (v = bs "1") as -> by (unfold version_of in V; congruence). split; [exact U|]. vm_compute. reflexivity.
  Qed.
  Example its_entries : forall n, In n (map fst (zip_of pr (out (fst (rel [] w0))))) <-> In n
    [bs "@abe/mod.cpp"; bs "@abe/addons"; bs "@abe/addons/abe_main.pbo"; bs "@abe/addons/abe_main.pbo.abe_1.bisign"; bs "@abe/keys"; bs "@abe/keys/abe_1.bikey";
     bs "@abe/optionals"; bs "@abe/optionals/@abe_extra"; bs "@abe/optionals/@abe_extra/addons"; bs "@abe/optionals/@abe_extra/addons/abe_extra.pbo";
     bs "@abe/optionals/@abe_extra/addons/abe_extra.pbo.abe_1_abe_extra.bisign"; bs "@abe/optionals/@abe_extra/keys"; bs "@abe/optionals/@abe_extra/keys/abe_1_abe_extra.bikey"].
  Proof. intros n. match goal with |- In n ?a <-> In n ?b => let a' := eval vm_compute in a in let b' := eval vm_compute in b in change (In n a' <-> In n b') end. cbn [In]. tauto. Qed.

  (** Without options, [dev] takes the addons and not the optionals; an excluded folder is left out, unless a launch configuration asks for the addon. *)
  Example dev_choice : dev_selects ascii_lower plain main = true /\ dev_selects ascii_lower plain extra = false /\
    dev_selects ascii_lower (DevArgs [bs "EXTRA"] [bs "extra"] false [] []) extra = true /\
    dev_selects ascii_lower (DevArgs [] [] true [] [bs "optionals"]) extra = false /\ dev_selects ascii_lower (DevArgs [] [] true [bs "extra"] [bs "optionals"]) extra = true.
  Proof. repeat split; vm_compute; reflexivity. Qed.
  Example a_dev : snd (dev [] plain w0) = Some (Ok []) /\ not_through glob [] True (dev_built ascii_lower [main; extra] plain) proj (fun p n => just plain <> [] /\ In (p, n) (out w0)) /\
    out (fst (dev [] plain w0)) = [(mod_, File (bs "name")); ([bs "addons"; bs "abe_main.pbo"], File (bs "pbo main")); ([bs "addons"; bs "main"], Link [bs "addons"; bs "main"])].
  Proof.
    split; [vm_compute; reflexivity|]. split; [|vm_compute; reflexivity]. intros p b q l Cb [(X & _)|(_ & a & _ & (-> & _))] (r & Q); [now apply X|].
    destruct Cb as (H & s & Sp & _ & qq & m & Pt & [= <-] & M). apply eqb_bytes_spec in M. subst s. destruct Pt as [I|(g & [] & _)].
    apply spelled_iff in Sp. destruct H as [[]|(I' & _)]. cbn [physical proj] in I'. destruct I' as [I'|[I'|[]]]; injection I' as <- _.
    - discriminate.
    - cbn in Sp. cbn in I. intuition congruence.
  Qed.
End Ex.

(** A pattern of the project that meets a file of an addon makes [hemtt dev] empty that file: the copy goes through the link
    that was made for file patching, to the file it is read from. *)
Theorem C86_emptied_refuted : exists (w w' : world unit) p,
  let given := [bs "/addons/main/config.cpp"] in
  content p (from w) = Some (bs "class") /\ Ex.dev given Ex.plain w = (w', Some (Ok [])) /\ content p (from w') = Some [].
Proof. exists Ex.w0, (fst (Ex.dev [bs "/addons/main/config.cpp"] Ex.plain Ex.w0)), Ex.cfg. vm_compute. repeat split. Qed.
(** [--just] of one addon and [-o] of another: the second is not found, though it exists. *)
Theorem C86_just_and_optional_refuted : exists d (w : world unit), In (bs "extra") (optional d) /\ In Ex.extra [Ex.main; Ex.extra] /\ snd (Ex.dev [] d w) = None.
Proof. exists (DevArgs [bs "main"] [bs "extra"] false [] []), Ex.w0. split; [now left|]. split; [now right; left|vm_compute; reflexivity]. Qed.
(** A dot in the prefix: the text after it is not in the name of the latest archive. *)
Theorem C87_dotted_refuted : exists pr, latest pr = [bs "a.zip"] /\ latest_name pr = [bs "a.b-latest.zip"].
Proof. exists (Project (bs "a.b") (bs "a") true). split; reflexivity. Qed.
(** A file of the project that is copied to the place of a PBO is released and signed instead of it. *)
Theorem C87_instead_refuted : exists (w : world unit) given, let '(w', r) := Ex.rel given w in r = Ok [] /\
  look [bs "addons"; bs "abe_main.pbo"] (out w') = Some (File (bs "stale")) /\ Ex.pbo_of (from w') Ex.main = inl (bs "pbo main") /\
  look [bs "addons"; bs "abe_main.pbo.abe_1.bisign"] (out w') = Some (File (bs "sig abe_1 stale")).
Proof. exists (World (Inputs [([bs "addons"; bs "abe_main.pbo"], bs "stale")] [] tt) [] []), [bs "addons/abe_main.pbo"]. vm_compute. repeat split. Qed.

Print Assumptions C86_selection.
Print Assumptions C86_build_selection.
Print Assumptions C86_dev.
Print Assumptions C86_optional_missing.
Print Assumptions C86_build.
Print Assumptions C86_emptied_refuted.
Print Assumptions C86_just_and_optional_refuted.
Print Assumptions C87_archives.
Print Assumptions C87_release.
Print Assumptions C87_folder.
Print Assumptions C87_once.
Print Assumptions C87_past.
Print Assumptions C87_dotted_refuted.
Print Assumptions C87_instead_refuted.
