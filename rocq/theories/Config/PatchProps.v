(** C66: the version of the game that a project asks for. *)
From Coq Require Import String.
From Verif Require Import Base.Tactics Base.Bytes Base.Ascii Base.Sort Base.Text Config.RapModel Common.VersionModel Common.VersionSpec Common.VersionProofs
  Config.PatchModel Config.PatchSpec Config.PatchProofs.
Local Open Scope N_scope.
Local Open Scope list_scope.

Lemma gtb_spec : forall a b, gtb a b = true <-> version_lt b a.
Proof. intros a b. unfold gtb. rewrite <- compare_lt, (compare_antisym a b). destruct (compare a b); cbn; intuition discriminate. Qed.

(** A version [X.YY] in a config, read as the nearest [f32], is the version X.YY again; [X.Y] is [X.Y0]. *)
Theorem C66_number_reads_back : forall bits x X Y, X < 131072 -> Y < 100 ->
  f32_bits bits x -> nearest_to_hundredths x (100 * X + Y) -> version_from bits = Version X Y 0 None None.
Proof. exact reads_back. Qed.
(** Beyond that bound it need not be. *)
Theorem C66_number_bound_refuted : exists bits x, f32_bits bits x /\ nearest_to_hundredths x (100 * 131072 + 1) /\ version_from bits = Version 131072 2 0 None None.
Proof.
  exists 1207959553, ((2 ^ 23 + 1) * 2 ^ 143). split; [|split].
  - right. exists 144, 1. split; [lia|]; split; [reflexivity|]; split; reflexivity.
  - split; [exists (2 ^ 23 + 1), 143; split; [reflexivity|split; [lia|reflexivity]]|]. intros y (m & e & Hm & He & ->).
    assert (E1 : 2 ^ 149 = 64 * 2 ^ 143) by reflexivity. rewrite E1. change (2 ^ 23 + 1) with 8388609. change (100 * 131072 + 1) with 13107201.
    destruct (N.le_gt_cases 143 e) as [H|H].
    + replace e with ((e - 143) + 143) by lia. rewrite N.pow_add_r. generalize (2 ^ (e - 143)) as k. intros k. set (j := m * k).
      replace (m * (k * 2 ^ 143)) with (j * 2 ^ 143) by (unfold j; ring). clearbody j. generalize (2 ^ 143) as w. intros w. unfold apart.
      assert (C : j <= 8388608 \/ 8388609 <= j) by lia. destruct C as [C|C].
      * assert (j * w <= 8388608 * w) by (apply N.mul_le_mono_r; exact C). set (jw := j * w) in *. clearbody jw. lia.
      * assert (8388609 * w <= j * w) by (apply N.mul_le_mono_r; exact C). set (jw := j * w) in *. clearbody jw. lia.
    + assert (Hy : m * 2 ^ e <= 8388608 * 2 ^ 143).
      { change (8388608 * 2 ^ 143) with (2 ^ 24 * 2 ^ 142). apply N.mul_le_mono; [lia|]. apply N.pow_le_mono_r; lia. }
      set (y := m * 2 ^ e) in *. clearbody y. revert Hy. generalize (2 ^ 143) as w. intros w Hy. unfold apart. lia.
  - vm_compute. reflexivity.
Qed.
(** With more than two digits it can be a hundredth that there is not: what is less than 2.00 is read as 1.100. *)
Theorem C66_third_digit_refuted : exists bits x, f32_bits bits x /\ 199 * 2 ^ 149 < 100 * x < 200 * 2 ^ 149 /\ version_from bits = Version 1 100 0 None None.
Proof.
  exists 1073733435, (16768827 * 2 ^ 126). split; [|split].
  - right. exists 127, 8380219. split; [lia|]; split; [reflexivity|]; split; reflexivity.
  - split; reflexivity.
  - vm_compute. reflexivity.
Qed.

Section Low.
  Context (low : bytes -> bytes).
  Notation asks := (asks low (bs "requiredversion")).
  Notation patch_in := (patch_in low (bs "cfgpatches")).
  (** A patch and the version that it asks for: that of its last requiredVersion that is a number with a fraction, or 0.0.0. *)
  Definition wants (c : config) (n : bytes) (v : version) : Prop :=
    exists ps, patch_in c n ps /\
      ((exists bits, asks ps bits /\ v = version_from bits) \/ ((forall bits, ~ asks ps bits) /\ v = Version 0 0 0 None None)).

  Lemma patch_version_spec : forall ps v, patch_version low ps = v <->
    (exists bits, asks ps bits /\ v = version_from bits) \/ ((forall bits, ~ asks ps bits) /\ v = zero).
  Proof.
    intros ps. assert (K : (exists bits, asks ps bits /\ patch_version low ps = version_from bits) \/ ((forall bits, ~ asks ps bits) /\ patch_version low ps = zero)).
    { unfold patch_version. induction ps as [|p ps IH] using rev_ind.
      - right. split; [|reflexivity]. intros b (l & n & e & r & E & _). now destruct l.
      - rewrite fold_left_app. cbn [fold_left]. 
        assert (Skip : (forall n b e, p = Entry n (VNum (Float32 b)) e -> low n <> bs "requiredversion") -> forall b, asks (ps ++ [p]) b <-> asks ps b).
        { intros Hp b. split.
          - intros (l & n & e & r & E & Hn & Hr). destruct r as [|q r _] using rev_ind.
            + apply app_inj_tail in E as (_ & ->). exfalso. exact (Hp n b e eq_refl Hn).
            + rewrite app_comm_cons, app_assoc in E. apply app_inj_tail in E as (-> & ->). exists l, n, e, r. split; [reflexivity|]. split; [exact Hn|].
              intros n' b' e' Hi. apply (Hr n' b' e'). apply in_app_iff. now left.
          - intros (l & n & e & r & -> & Hn & Hr). exists l, n, e, (r ++ [p]). rewrite <- app_assoc. split; [reflexivity|]. split; [exact Hn|].
            intros n' b' e' Hi. apply in_app_iff in Hi as [Hi|[->|[]]]; [now apply (Hr n' b' e')|now apply (Hp n' b' e')]. }
        assert (Same : (forall n b e, p = Entry n (VNum (Float32 b)) e -> low n <> bs "requiredversion") -> forall v,
          ((exists bits, asks ps bits /\ v = version_from bits) \/ ((forall bits, ~ asks ps bits) /\ v = zero)) ->
          (exists bits, asks (ps ++ [p]) bits /\ v = version_from bits) \/ ((forall bits, ~ asks (ps ++ [p]) bits) /\ v = zero)).
        { intros Hp v [(b & Ha & E)|(Ha & E)]; [left; exists b; split; [now apply Skip|exact E]|right; split; [intros b Hb; apply (Ha b); now apply Skip|exact E]]. }
        destruct p as [n v e|? | |]; try (apply Same; [intros ? ? ? [=]|exact IH]).
        destruct v as [?|num|?|? ?|? ?|]; try (apply Same; [intros ? ? ? [=]|exact IH]).
        destruct num as [?|?|b]; try (apply Same; [intros ? ? ? [=]|exact IH]).
        destruct (eqb_bytes (low n) (bs "requiredversion")) eqn:En.
        + left. exists b. split; [|reflexivity]. exists ps, n, e, []. split; [reflexivity|]. split; [now apply eqb_bytes_spec|intros ? ? ? []].
        + apply Same; [|exact IH]. intros ? ? ? [= <- <- <-] E. apply eqb_bytes_spec in E. congruence. }
    intros v. split; [intros <-; exact K|].
    assert (U : forall b b', asks ps b -> asks ps b' -> b = b').
    { intros b b' (l & n & e & r & E & Hn & Hr) (l' & n' & e' & r' & E' & Hn' & Hr'). rewrite E in E'.
      assert (G : forall (A : Type) (l l' r r' : list A) x x', l ++ x :: r = l' ++ x' :: r' -> (l = l' /\ x = x' /\ r = r') \/ In x' r \/ In x r').
      { clear. intros A l. induction l as [|a l IH]; intros [|a' l'] r r' x x' E; cbn in E; injection E as E1 E2; subst; auto.
        - right. left. apply in_app_iff. right. now left.
        - right. right. apply in_app_iff. right. now left.
        - destruct (IH _ _ _ _ _ E2) as [(-> & -> & ->)|H]; auto. }
      destruct (G _ _ _ _ _ _ _ E') as [(_ & [= _ ->] & _)|[Hi|Hi]]; [reflexivity| |]; exfalso; [eapply Hr|eapply Hr']; eauto. }
    intros [(b & Ha & ->)|(Ha & ->)]; destruct K as [(b' & Ha' & E)|(Ha' & E)]; rewrite E.
    - now rewrite (U b b').
    - now destruct (Ha' b).
    - now destruct (Ha b').
    - reflexivity.
  Qed.
  Lemma patches_spec : forall c n v, In (n, v) (get_patches low c) <-> wants c n v.
  Proof.
    intros c n v. unfold get_patches, wants, PatchSpec.patch_in. rewrite in_flat_map. split.
    - intros (p & Hp & Hi). destruct p as [?|[?|k kp qs kb|?]|?|?]; try (now destruct Hi). destruct (eqb_bytes (low k) _) eqn:Ek; [|destruct Hi].
      apply eqb_bytes_spec in Ek. apply in_flat_map in Hi as (q & Hq & Hi). destruct q as [?|[?|k' kp' qs' kb'|?]|?|?]; try (now destruct Hi).
      destruct Hi as [[= -> E]|[]]. exists qs'. split; [exists k, kp, qs, kb, kp', kb'; auto|]. now apply patch_version_spec.
    - intros (ps & (k & kp & qs & kb & p & b & Hc & Hk & Hq) & Hv). apply patch_version_spec in Hv. exists (PClass (Local k kp qs kb)). split; [exact Hc|].
      apply eqb_bytes_spec in Hk. rewrite Hk. apply in_flat_map. eexists. split; [exact Hq|]. left. now rewrite Hv.
  Qed.
  Lemma highest_spec : forall ps, let '(v, p) := highest ps in
    (forall n w, In (n, w) ps -> ~ version_lt v w) /\ match p with Some n => In (n, v) ps | None => v = zero end.
  Proof.
    intros ps. unfold highest. set (f := fun best p => _). induction ps as [|(n, w) ps IH] using rev_ind; [cbn; split; [intros ? ? []|reflexivity]|].
    rewrite fold_left_app. cbn [fold_left]. destruct (fold_left f ps (zero, None)) as (v, p). destruct IH as (IH1 & IH2).
    unfold f at 1. cbn [fst snd]. destruct (gtb w v) eqn:Eg.
    - apply gtb_spec in Eg. split; [|apply in_app_iff; right; now left]. intros n' w' Hi Hlt. apply in_app_iff in Hi as [Hi|[[= <- <-]|[]]].
      + eapply IH1; [exact Hi|]. eapply version_lt_trans; eauto.
      + apply compare_lt in Hlt. assert (compare w w = Eq) by (apply compare_eq; unfold same_numbers; auto). congruence.
    - split.
      + intros n' w' Hi Hlt. apply in_app_iff in Hi as [Hi|[[= <- <-]|[]]]; [eapply IH1; eauto|]. apply gtb_spec in Hlt. congruence.
      + destruct p; [apply in_app_iff; now left|exact IH2].
  Qed.
  (** A config asks for the highest version that one of its patches asks for. *)
  Theorem C66_highest_patch : forall c, let '(v, p) := required_version low c in
    (forall n w, wants c n w -> ~ version_lt v w) /\ match p with Some n => wants c n v | None => v = Version 0 0 0 None None end.
  Proof.
    intros c. unfold required_version. pose proof (highest_spec (get_patches low c)) as H. destruct (highest _) as (v, p). destruct H as (H1 & H2). split.
    - intros n w Hw. eapply H1, patches_spec, Hw.
    - destruct p; [now apply patches_spec|exact H2].
  Qed.

  (** An addon with one config.cpp asks for what that asks for, in whatever order its files are converted. *)
  Theorem C66_one_config : forall files c, In (true, Some c) files ->
    (forall l r f, files = l ++ f :: r -> f = (true, Some c) -> forall c', ~ In (true, Some c') (l ++ r)) ->
    forall order, Permutation files order -> addon_version low order = Some (fst (required_version low c)).
  Proof.
    intros files c Hc Hone order Hp.
    assert (No : forall l v, (forall c', ~ In (true, Some c') l) -> fold_left (fun v f => match f with (true, Some c) => Some (fst (required_version low c)) | _ => v end) l v = v).
    { induction l as [|f l IH]; intros v Hl; [reflexivity|]. cbn [fold_left]. destruct f as ([|], [c'|]); try (apply IH; intros c'' Hi; apply (Hl c''); now right).
      exfalso. apply (Hl c'). now left. }
    assert (Ho : In (true, Some c) order) by (eapply Permutation_in; eauto). apply in_split in Ho as (l & r & ->).
    apply in_split in Hc as (l' & r' & ->).
    assert (Hn : forall c', ~ In (true, Some c') (l ++ r)).
    { intros c' Hi. apply (Hone l' r' _ eq_refl eq_refl c'). apply (Permutation_in (l := l ++ r)); [|exact Hi].
      apply Permutation_sym. exact (Permutation_app_inv l' r' l r _ Hp). }
    unfold addon_version. rewrite fold_left_app. cbn [fold_left]. apply No. intros c' Hi. apply (Hn c'). apply in_app_iff. now right.
  Qed.
End Low.

(** With two, it depends on which is converted last. *)
Theorem C66_two_configs_refuted : exists files order, Permutation files order /\ addon_version ascii_lower files <> addon_version ascii_lower order.
Proof.
  set (cfg bits := [PClass (Local (bs "CfgPatches") None [PClass (Local (bs "A") None [Entry (bs "requiredVersion") (VNum (Float32 bits)) false] false)] false)]).
  exists [(true, Some (cfg 1073741824)); (true, Some (cfg 1065353216))], [(true, Some (cfg 1065353216)); (true, Some (cfg 1073741824))].
  split; [apply perm_swap|]. vm_compute. discriminate.
Qed.
(** A requiredVersion that is a whole number or a string does not count. *)
Theorem C66_whole_number_refuted : forall low v, (forall b, v <> VNum (Float32 b)) ->
  forall n k x e b b', fst (required_version low [PClass (Local n None [PClass (Local k None [Entry x v e] b)] b')]) = Version 0 0 0 None None.
Proof.
  intros low v Hv n k x e b b'. unfold required_version, get_patches. cbn [flat_map]. destruct (eqb_bytes (low n) _); [|reflexivity].
  assert (E : patch_version low [Entry x v e] = zero) by (unfold patch_version; cbn [fold_left]; destruct v as [?|[?|?|f]|?|? ?|? ?|]; try reflexivity; now destruct (Hv f)).
  cbn [flat_map app]. rewrite E. reflexivity.
Qed.

(** ** All addons *)
Lemma project_spec : forall addons, (forall a v, In (a, Some v) addons -> build v = None) ->
  let '(v, names) := project_version addons in
  build v = None /\ (forall a w, In (a, Some w) addons -> ~ version_lt v w) /\ (v = zero \/ exists a, In (a, Some v) addons) /\
  names = map fst (filter (fun a => match snd a with Some w => version_eqb w v | None => false end) addons).
Proof.
  assert (Eqb : forall a b, build a = None -> build b = None -> version_eqb a b = true <-> same_numbers a b).
  { intros a b Ha Hb. unfold version_eqb, same_numbers. rewrite !andb_true_iff, !N.eqb_eq, Ha, Hb. tauto. }
  intros addons. unfold project_version. set (f := fun best a => _). induction addons as [|(a, o) addons IH] using rev_ind; intros Hb.
  - cbn. split; [reflexivity|]. split; [intros ? ? []|]. auto.
  - rewrite fold_left_app. cbn [fold_left]. specialize (IH ltac:(intros; eapply Hb, in_app_iff; eauto)).
    destruct (fold_left f addons (zero, [])) as (v, names). destruct IH as (IH0 & IH1 & IH2 & ->). unfold f at 1. cbn [fst snd].
    destruct o as [w|].
    + assert (Hbw : build w = None) by (eapply Hb, in_app_iff; right; now left). destruct (gtb w v) eqn:Eg.
      * apply gtb_spec in Eg. split; [exact Hbw|]. split; [|split].
        -- intros a' w' Hi Hlt. apply in_app_iff in Hi as [Hi|[[= <- <-]|[]]]; [eapply IH1; [exact Hi|]; eapply version_lt_trans; eauto|].
           apply compare_lt in Hlt. assert (compare w w = Eq) by (apply compare_eq; unfold same_numbers; auto). congruence.
        -- right. exists a. apply in_app_iff. right. now left.
        -- rewrite filter_app, map_app. cbn [filter snd]. assert (Er : version_eqb w w = true) by (apply Eqb; auto; unfold same_numbers; auto). rewrite Er. cbn [map fst].
           assert (Hnil : filter (fun a0 => match snd a0 with Some w0 => version_eqb w0 w | None => false end) addons = []).
           { clear - IH1 Eg Eqb Hb Hbw. assert (Hb' : forall a v, In (a, Some v) addons -> build v = None) by (intros; eapply Hb, in_app_iff; eauto). clear Hb.
             induction addons as [|(a', [w'|]) l IH]; cbn [filter snd]; [reflexivity| |apply IH; intros; [eapply IH1|eapply Hb']; right; eauto].
             destruct (version_eqb w' w) eqn:E; [|apply IH; intros; [eapply IH1|eapply Hb']; right; eauto].
             exfalso. apply Eqb in E; [|eapply Hb'; now left|exact Hbw]. apply (IH1 a' w'); [now left|]. apply compare_lt. apply compare_eq in E.
             apply compare_lt in Eg. clear - E Eg. apply compare_lt in Eg. apply compare_eq in E. destruct E as (E1 & E2 & E3 & E4). apply compare_lt.
             destruct Eg as [H|H1 H2|H1 H2 H3|H1 H2 H3 H4]; rewrite <- ?E1, <- ?E2, <- ?E3, <- ?E4 in *.
             - now apply lt_major.
             - now apply lt_minor.
             - now apply lt_patch.
             - now apply lt_build. }
           now rewrite Hnil.
      * assert (Hng : ~ version_lt v w) by (rewrite <- gtb_spec; congruence). assert (Hin : forall a0 w0, In (a0, Some w0) (addons ++ [(a, Some w)]) -> ~ version_lt v w0).
        { intros a' w' Hi. apply in_app_iff in Hi as [Hi|[[= <- <-]|[]]]; [eapply IH1; eauto|exact Hng]. }
        assert (Hex : v = zero \/ exists a0, In (a0, Some v) (addons ++ [(a, Some w)])).
        { destruct IH2 as [->|(a' & Ha)]; [now left|right; exists a'; apply in_app_iff; now left]. }
        destruct (version_eqb w v) eqn:Ev; rewrite filter_app, map_app; cbn [filter snd]; rewrite Ev; cbn [map fst]; rewrite ?app_nil_r; auto.
    + rewrite filter_app, map_app. cbn [filter snd map]. rewrite app_nil_r. split; [exact IH0|]. split; [|split; [|reflexivity]].
      * intros a' w' Hi. apply in_app_iff in Hi as [Hi|[[=]|[]]]. eapply IH1; eauto.
      * destruct IH2 as [->|(a' & Ha)]; [now left|right; exists a'; apply in_app_iff; now left].
Qed.
(** The warning about a version that is not out yet: it is given if the highest version that an addon asks for is above the
    stable one, and it names the addons that ask for it. Versions with numbers above 255 are left out. *)
Theorem C66_future_warning : forall stable addons,
  (forall a v, In (a, Some v) addons -> build v = None /\ patch v = 0 /\ major v < 256 /\ minor v < 256) ->
  match future_warning stable addons with
  | Some (w, names) =>
      wiki_lt stable w = true /\
      (exists v, wiki_version v = w /\ (forall a u, In (a, Some u) addons -> ~ version_lt v u) /\ (exists a, In (a, Some v) addons)) /\
      names = map fst (filter (fun a => match snd a with Some u => (major u =? fst w) && (minor u =? snd w) | None => false end) addons)
  | None => forall a v, In (a, Some v) addons -> wiki_lt stable (major v, minor v) = false
  end.
Proof.
  intros stable addons H. pose proof (project_spec addons (fun a v Hi => proj1 (H a v Hi))) as K. unfold future_warning.
  destruct (project_version addons) as (v, names). destruct K as (Hb & Hmax & Hin & Hnames).
  assert (Hv : patch v = 0 /\ major v < 256 /\ minor v < 256).
  { destruct Hin as [->|(a & Ha)]; [cbn; repeat split; lia|]. destruct (H _ _ Ha) as (_ & ? & ? & ?). auto. }
  destruct Hv as (Hv0 & Hv1 & Hv2).
  assert (Ew : wiki_version v = (major v, minor v)).
  { unfold wiki_version, u8_or_zero. apply N.ltb_lt in Hv1, Hv2. now rewrite Hv1, Hv2. }
  destruct (wiki_lt stable (wiki_version v)) eqn:El.
  - split; [exact El|]. split.
    + exists v. split; [reflexivity|]. split; [exact Hmax|]. destruct Hin as [->|Hin]; [|exact Hin]. exfalso. unfold wiki_lt in El. cbn in El.
      rewrite orb_true_iff, andb_true_iff, !N.ltb_lt in El. lia.
    + rewrite Hnames, Ew. f_equal. apply filter_ext_in. intros (a, [u|]) Hi; [|reflexivity]. cbn [snd fst]. unfold version_eqb.
      destruct (H _ _ Hi) as (_ & Hp & _). rewrite Hp, Hv0, N.eqb_refl, andb_true_r. reflexivity.
  - intros a u Hu. destruct (wiki_lt stable (major u, minor u)) eqn:E; [|reflexivity]. exfalso. apply (Hmax _ _ Hu).
    rewrite Ew in El. unfold wiki_lt in *. cbn [fst snd] in *. destruct (H _ _ Hu) as (Hb' & Hp & _).
    rewrite orb_true_iff, andb_true_iff, !N.ltb_lt, N.eqb_eq in E. rewrite orb_false_iff, andb_false_iff, !N.ltb_ge, N.eqb_neq in El.
    destruct (N.lt_trichotomy (major v) (major u)) as [L|[L|L]]; [now apply lt_major| |exfalso; lia]. apply lt_minor; [exact L|lia].
Qed.
(** The warning is not given for a version that is far too high. *)
Theorem C66_far_future_refuted : future_warning (2, 18) [(bs "main", Some (Version 300 0 0 None None))] = None.
Proof. reflexivity. Qed.

Print Assumptions C66_number_reads_back.
Print Assumptions C66_number_bound_refuted.
Print Assumptions C66_third_digit_refuted.
Print Assumptions C66_highest_patch.
Print Assumptions C66_one_config.
Print Assumptions C66_two_configs_refuted.
Print Assumptions C66_whole_number_refuted.
Print Assumptions C66_future_warning.
Print Assumptions C66_far_future_refuted.

(** 2.18 and 2.10, as [f32] has them. *)
Example reads_2_18 : version_from 1074497454 = Version 2 18 0 None None.
Proof. vm_compute. reflexivity. Qed.
Example reads_2_1 : version_from 1074161254 = Version 2 10 0 None None.
Proof. vm_compute. reflexivity. Qed.
Example two_is_nearest : f32_bits 1073741824 (2 * 2 ^ 149) /\ nearest_to_hundredths (2 * 2 ^ 149) (100 * 2 + 0).
Proof.
  split; [right; exists 128, 0; split; [lia|]; split; [reflexivity|]; split; reflexivity|]. split; [exists 2, 149; split; [reflexivity|split; [lia|reflexivity]]|].
  intros y _. assert (E : apart (100 * (2 * 2 ^ 149)) ((100 * 2 + 0) * 2 ^ 149) = 0) by reflexivity. rewrite E. lia.
Qed.
Example a_config_asks :
  required_version ascii_lower [PClass (Local (bs "CfgPatches") None
    [PClass (Local (bs "A") None [Entry (bs "requiredVersion") (VNum (Float32 1074497454)) false; Entry (bs "x") (VStr []) false] false);
     PClass (Local (bs "B") None [Entry (bs "requiredversion") (VNum (Float32 1074161254)) false] false)] false)] = (Version 2 18 0 None None, Some (bs "A")).
Proof. vm_compute. reflexivity. Qed.
Example a_warning : future_warning (2, 18) [(bs "a", Some (Version 2 20 0 None None)); (bs "b", None); (bs "c", Some (Version 2 20 0 None None)); (bs "d", Some (Version 1 90 0 None None))] = Some ((2, 20), [bs "a"; bs "c"]).
Proof. vm_compute. reflexivity. Qed.
