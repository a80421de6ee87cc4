(** C56: what an addon's archive contains. *)
From Coq Require Import String.
From Verif Require Import Base.Tactics Base.Bytes Base.Sort Base.Ascii Base.Text Io.Model Io.Spec
  Pbo.Model Pbo.Spec Pbo.Proofs Pbo.Roundtrip Pbo.History Pbo.Final Bin.PackModel Bin.PackSpec Bin.PackProofs.
Local Open Scope N_scope.
Local Open Scope list_scope.

Section S.
  Context (lower : bytes -> bytes) (glob : bytes -> option (bytes -> bool)) (prefix_of : bytes -> option bytes).

  (** The prefix files that are read give strings the format can hold. *)
  Definition prefixes_ok (s : settings) (tree : list entry) : Prop :=
    forall e c p, considered glob s tree e -> is_prefix_file lower e -> e_content e = Some c ->
      prefix_of c = Some p -> good_str p.

  Definition all_ops (s : settings) (ops : list op) : list op :=
    [AddProperty (bs "hemtt") (p_hemtt s); AddProperty (bs "version") (p_version s)] ++ ops ++
    map (fun kv => AddProperty (fst kv) (snd kv)) (p_props s) ++ map (fun kv => AddProperty (fst kv) (snd kv)) (a_props s).

  Lemma pack_ops s tree w : listing tree -> pack lower glob prefix_of s tree = inl w ->
    exists ops, walk_does lower glob prefix_of s tree tree ops /\ w = run (all_ops s ops).
  Proof.
    intros Hl H. unfold pack in H. destruct (pack_walk _ _ _ _ _ _ _) as [w1|] eqn:E; [|discriminate].
    apply (walk_step lower glob prefix_of s tree Hl) in E; [|apply incl_refl]. destruct E as (ops & Ho & ->). injection H as <-.
    exists ops. split; [exact Ho|]. unfold run, all_ops. rewrite !fold_left_app, !props_as_ops. reflexivity.
  Qed.

  Lemma all_plain s tree ops : settings_ok s -> listing tree -> prefixes_ok s tree ->
    walk_does lower glob prefix_of s tree tree ops ->
    Forall (fun o => plain_op o /\ match o with AddFile _ c => blen c < 2 ^ 32 | _ => True end) (all_ops s ops).
  Proof.
    intros (Hh & Hv & Hg & Hps & _) Hl Hp Hw.
    assert (Hgood : good_str (bs "hemtt") /\ good_str (bs "version")).
    { repeat split; try reflexivity; unfold no_nul; cbn; intuition discriminate. }
    apply Forall_app in Hps as [Hp1 Hp2].
    assert (Hm : forall l, Forall (fun kv : bytes * bytes => good_str (fst kv) /\ fst kv <> [] /\ good_str (snd kv)) l ->
      Forall (fun o => plain_op o /\ match o with AddFile _ c => blen c < 2 ^ 32 | _ => True end)
        (map (fun kv => AddProperty (fst kv) (snd kv)) l)).
    { induction 1 as [|kv l (K1 & K2 & K3) _ IH]; cbn [map]; constructor; auto. cbn [plain_op]. auto. }
    unfold all_ops. repeat (apply Forall_app; split); auto.
    - constructor; [|constructor; [|constructor]]; cbn [plain_op]; intuition discriminate.
    - refine (walk_plain lower glob prefix_of s tree Hl tree ops _ (incl_refl _) Hv Hg Hw). intros e c p _ Hc Hk Hf Hpr. eapply Hp; eauto.
  Qed.

  Lemma all_files s tree ops n c : walk_does lower glob prefix_of s tree tree ops ->
    (In (AddFile n c) (all_ops s ops) <-> exists e, In e tree /\ packed lower glob s tree e c /\ n = inner_name e).
  Proof.
    intro Hw. rewrite <- (walk_files lower glob prefix_of s tree tree ops n c Hw). unfold all_ops. rewrite !in_app_iff.
    assert (Hno : forall l, ~ In (AddFile n c) (map (fun kv : bytes * bytes => AddProperty (fst kv) (snd kv)) l)).
    { intros l Hin. apply in_map_iff in Hin as (? & ? & _). discriminate. }
    split; [|auto]. intros [[?|[?|[]]]|[?|[?|?]]]; try discriminate; auto; exfalso; eapply Hno; eauto.
  Qed.

  Lemma newest_packed s tree ops name c : settings_ok s -> listing tree -> prefixes_ok s tree ->
    walk_does lower glob prefix_of s tree tree ops ->
    (newest_file name (all_ops s ops) c <-> exists e, packed lower glob s tree e c /\ same_path (inner_name e) name).
  Proof.
    intros Hs Hl Hp Hw. pose proof (all_plain s tree ops Hs Hl Hp Hw) as Hf.
    assert (Hin : forall e c, packed lower glob s tree e c -> In e tree) by (intros e c' ((H & _) & _); exact H).
    rewrite newest_unique.
    - split.
      + intros (n & Hi & En). apply (all_files s tree) in Hi; [|exact Hw]. destruct Hi as (e & _ & Hpk & ->).
        exists e. split; [auto|]. now apply same_path_norm.
      + intros (e & Hpk & Hsp). exists (inner_name e). split; [|now apply same_path_norm].
        apply (all_files s tree); [exact Hw|]. exists e. eauto.
    - eapply Forall_impl; [|exact Hf]. intros [n c'|h c'|k v|k] [H1 H2]; auto.
    - intros n1 c1 n2 c2 H1 H2 En. apply (all_files s tree) in H1; [|exact Hw]. apply (all_files s tree) in H2; [|exact Hw].
      destruct H1 as (e1 & I1 & P1 & ->), H2 as (e2 & I2 & P2 & ->).
      rewrite !(inner_no_slash s tree Hl) in En by auto. apply (inner_inj tree Hl) in En; auto. subst.
      destruct P1 as (_ & _ & K1), P2 as (_ & _ & K2). congruence.
  Qed.

  Lemma packed_props s tree ops k v : settings_ok s -> walk_does lower glob prefix_of s tree tree ops ->
    (w_property k (run (all_ops s ops)) = Some v <->
     exists t, property_source lower glob prefix_of s tree k t /\ stripped t v).
  Proof.
    intros (_ & _ & _ & _ & Hn1 & Hn2) Hw. unfold run, all_ops. rewrite !fold_left_app, <- !props_as_ops.
    set (w0 := fold_left step [_; _] wpbo_new). set (w1 := fold_left step ops w0).
    set (w2 := fold_left _ (p_props s) w1).
    destruct (fold_props (a_props s) w2 k Hn2) as [A1 A2].
    destruct (fold_props (p_props s) w1 k Hn1) as [B1 B2]. fold w2 in B1, B2.
    assert (Hst : forall t v, stripped t v <-> v = trim_matches 92 t).
    { intros t u. split; [intro H; eapply stripped_unique; [exact H|apply trim_matches_stripped]|].
      intros ->. apply trim_matches_stripped. }
    assert (Hdec : forall l : list (bytes * bytes), has_key k l \/ ~ has_key k l).
    { intro l. unfold has_key. destruct (in_dec (list_eq_dec N.eq_dec) k (map fst l)); auto. }
    assert (Hval : forall l : list (bytes * bytes), has_key k l -> exists u, In (k, u) l).
    { intros l H. apply in_map_iff in H as ([k' u] & Ek & Hin). cbn in Ek. subst. eauto. }
    assert (Hkey : forall (l : list (bytes * bytes)) u, In (k, u) l -> has_key k l).
    { intros l u H. apply (in_map fst) in H. exact H. }
    destruct (Hdec (a_props s)) as [Ha|Ha].
    { destruct (Hval _ Ha) as [u Hu]. rewrite (A1 u Hu). split.
      - intros [= <-]. exists u. split; [now apply from_addon|]. now apply Hst.
      - intros (t & Ht & Hv). apply Hst in Hv. subst v. rewrite <- (A1 u Hu).
        inversion Ht; subst; try contradiction. erewrite A1 by eassumption. reflexivity. }
    rewrite (A2 Ha). destruct (Hdec (p_props s)) as [Hp|Hp].
    { destruct (Hval _ Hp) as [u Hu]. rewrite (B1 u Hu). split.
      - intros [= <-]. exists u. split; [now apply from_project|]. now apply Hst.
      - intros (t & Ht & Hv). apply Hst in Hv. subst v. rewrite <- (B1 u Hu).
        inversion Ht; subst; try contradiction; [exfalso; eauto|]. erewrite B1 by eassumption. reflexivity. }
    rewrite (B2 Hp). unfold w1. clear A1 A2 B1 B2.
    assert (E0 : w_property k w0 = if eqb_bytes k (bs "version") then Some (trim_matches 92 (p_version s))
                 else if eqb_bytes k (bs "hemtt") then Some (trim_matches 92 (p_hemtt s)) else None).
    { unfold w0. cbn [fold_left step]. rewrite !w_property_add. reflexivity. }
    destruct (walk_props lower glob prefix_of s tree tree ops w0 Hw) as [[Hno Hwp]|(b & e & a & c & p & Et & Hc & Ha' & Hk & Hpv & Hwp)].
    - rewrite Hwp, E0. split.
      + intro H. destruct (eqb_bytes k (bs "version")) eqn:E1.
        * apply eqb_bytes_spec in E1. exists (p_version s). split; [now apply from_version|]. apply Hst. congruence.
        * destruct (eqb_bytes k (bs "hemtt")) eqn:E2; [|discriminate]. apply eqb_bytes_spec in E2.
          exists (p_hemtt s). split; [now apply from_hemtt|]. apply Hst. congruence.
      + intros (t & Ht & Hv). apply Hst in Hv. subst v.
        inversion Ht as [u Hu|u _ Hu|e c u _ _ Ek (b & a & Et & H1 & H2 & _)|e u _ _ Ek (b & a & Et & H1 & H2 & _)|_ _ Ek|_ _ Ek];
          try subst k; try subst t; try subst u.
        * exfalso. eauto.
        * exfalso. eauto.
        * exfalso. apply (Hno e); [rewrite Et; apply in_or_app; right; now left|split; auto].
        * exfalso. apply (Hno e); [rewrite Et; apply in_or_app; right; now left|split; auto].
        * reflexivity.
        * reflexivity.
    - assert (Hlast : last_prefix lower glob s tree e).
      { exists b, a. destruct Hc as [Hc1 Hc2]. split; [exact Et|]. split; [exact Hc1|]. split; [exact Hc2|].
        intros e' Hin K1 K2. apply (Ha' e' Hin). split; auto. }
      rewrite Hwp. split.
      + intro H. destruct (eqb_bytes k (bs "prefix")) eqn:E1.
        { apply eqb_bytes_spec in E1. exists p. split; [eapply from_prefix_file; eauto|]. apply Hst. congruence. }
        destruct (eqb_bytes k (bs "version")) eqn:E2.
        { apply eqb_bytes_spec in E2. exists (p_version s). split; [now apply from_version|]. apply Hst. congruence. }
        destruct (eqb_bytes k (bs "git")) eqn:E3.
        { apply eqb_bytes_spec in E3. destruct (p_git s) as [h|] eqn:Eg.
          - exists h. split; [eapply from_git; eauto|]. apply Hst. congruence.
          - rewrite E0 in H. subst k. discriminate H. }
        rewrite E0 in H. destruct (eqb_bytes k (bs "hemtt")) eqn:E4; [|discriminate]. apply eqb_bytes_spec in E4.
        exists (p_hemtt s). split; [now apply from_hemtt|]. apply Hst. congruence.
      + intros (t & Ht & Hv). apply Hst in Hv. subst v.
        inversion Ht as [u Hu|u _ Hu|e1 c1 u _ _ Ek Hl1 Hk1 Hp1|e1 u _ _ Ek Hl1 Hg|_ _ Ek|_ _ Ek];
          try subst k; try subst t; try subst u.
        * exfalso. eauto.
        * exfalso. eauto.
        * cbn [eqb_bytes]. rewrite eqb_bytes_refl. f_equal. f_equal.
          assert (e1 = e).
          { destruct Hl1 as (b1 & a1 & Et1 & K1 & K2 & K3). rewrite Et in Et1.
            assert (Gu : forall b b1 : list entry, b ++ e :: a = b1 ++ e1 :: a1 -> e1 = e).
            { clear - Hc Ha' K1 K2 K3 Hlast. destruct Hc as [Hc1 Hc2].
              induction b as [|x b IH]; intros [|y b1] E; cbn [app] in E.
              - injection E as -> _. reflexivity.
              - injection E as -> ->. exfalso. apply (Ha' e1); [apply in_or_app; right; now left|split; auto].
              - injection E as -> <-. exfalso. apply (K3 e); auto. apply in_or_app. right. now left.
              - injection E as -> E. eauto. }
            now apply (Gu b b1). }
          congruence.
        * change (eqb_bytes (bs "git") (bs "prefix")) with false. change (eqb_bytes (bs "git") (bs "version")) with false.
          rewrite eqb_bytes_refl, Hg. reflexivity.
        * change (eqb_bytes (bs "version") (bs "prefix")) with false. rewrite eqb_bytes_refl. reflexivity.
        * change (eqb_bytes (bs "hemtt") (bs "prefix")) with false. change (eqb_bytes (bs "hemtt") (bs "version")) with false.
          change (eqb_bytes (bs "hemtt") (bs "git")) with false. rewrite E0. reflexivity.
  Qed.
End S.

(** C56. A built archive opens again; it has exactly one file per packed file of the addon, named by its path
    below the addon's folder; opening that name (ignoring case, if no other packed file is equal to it
    ignoring case) gives the file's bytes; and its properties are exactly those of the most specific source. *)
Theorem C56_archive_contents :
  forall lower sha glob prefix_of s tree iter out,
  (forall x, length (sha x) = 20%nat) -> (forall l, Permutation (iter l) l) ->
  settings_ok s -> listing tree -> prefixes_ok lower glob prefix_of s tree ->
  build_pbo lower sha glob prefix_of s tree iter = inl out ->
  exists r, read out = Ok r /\
    NoDup (map h_name (r_headers r)) /\
    (forall n size, (exists h, In h (r_headers r) /\ h_name h = n /\ h_size h = size) <->
       exists e c, packed lower glob s tree e c /\ n = inner_name e /\ size = blen c) /\
    (forall e c, packed lower glob s tree e c ->
       (forall e' c', packed lower glob s tree e' c' -> lower (inner_name e') = lower (inner_name e) -> e' = e) ->
       r_file lower (inner_name e) r = Some c) /\
    NoDup (map fst (r_props r)) /\
    (forall k v, In (k, v) (r_props r) <->
       exists t, property_source lower glob prefix_of s tree k t /\ stripped t v).
Proof.
  intros lower sha glob prefix_of s tree iter out Hsha Hit Hs Hl Hp H. unfold build_pbo in H.
  destruct (pack lower glob prefix_of s tree) as [w|] eqn:Ew; [|discriminate].
  apply pack_ops in Ew as (ops & Hw & ->); [|auto].
  pose proof (all_plain lower glob prefix_of s tree ops Hs Hl Hp Hw) as Hf.
  assert (Hpl : Forall plain_op (all_ops s ops)) by (eapply Forall_impl; [|exact Hf]; intros o [K _]; exact K).
  destruct (written_and_read lower sha Hsha (all_ops s ops) (iter (w_files (run (all_ops s ops)))) true Hpl (Hit _))
    as (out' & digest & r & E1 & E2 & E3 & E4 & E5 & E6 & E7 & E8 & E9).
  rewrite E1 in H. injection H as <-. exists r. split; [exact E2|]. split; [exact E6|].
  pose proof (newest_packed lower glob prefix_of s tree ops) as Hnew.
  assert (Hin : forall e c, packed lower glob s tree e c -> In e tree) by (intros e c ((K & _) & _); exact K).
  pose proof (run_props_nodup (all_ops s ops)) as HNP.
  split.
  { intros n size. split.
    - intros (h & Hh & <- & <-). apply E7 in Hh as (c & Hc & Hn & Eh). apply Hnew in Hc as (e & Hpk & Hsp); auto.
      exists e, c. split; [exact Hpk|]. apply same_path_norm in Hsp. split.
      + rewrite <- Hn, <- Hsp. eapply inner_no_slash; eauto.
      + rewrite Eh. reflexivity.
    - intros (e & c & Hpk & -> & ->). exists (header_for_file (inner_name e) (blen c)). split; [|split; reflexivity].
      apply E7. exists c. split; [|split; [eapply inner_no_slash; eauto|reflexivity]].
      apply Hnew; auto. exists e. split; [exact Hpk|]. now apply same_path_norm. }
  split.
  { intros e c Hpk Hu. apply E8.
    - apply Hnew; auto. exists e. split; [exact Hpk|]. now apply same_path_norm.
    - intros n' c' Hn' El. apply Hnew in Hn' as (e' & Hpk' & Hsp'); auto. apply same_path_norm in Hsp'.
      rewrite <- Hsp', !(inner_no_slash s tree Hl) in El by eauto. apply (Hu e' c' Hpk') in El. subst e'.
      apply same_path_norm. congruence. }
  rewrite E4. split.
  { eapply Permutation_NoDup; [symmetry; apply Permutation_map, prefix_first_perm|exact HNP]. }
  intros k v. rewrite <- packed_props by eauto. unfold w_property. split.
  - intro K. apply im_get_of_in; [exact HNP|]. eapply Permutation_in; [apply prefix_first_perm|exact K].
  - intro K. apply im_get_in in K. eapply Permutation_in; [symmetry; apply prefix_first_perm|exact K].
Qed.
Print Assumptions C56_archive_contents.

(** ... and the build does produce an archive when every pattern is valid, every prefix file that is read has
    a prefix, and no packed file reaches 4 GiB. *)
Theorem C56_build_succeeds :
  forall lower sha glob prefix_of s tree iter,
  (forall x, length (sha x) = 20%nat) -> (forall l, Permutation (iter l) l) ->
  settings_ok s -> listing tree -> prefixes_ok lower glob prefix_of s tree ->
  Forall (fun p => glob p <> None) (p_exclude s ++ a_exclude s) ->
  (forall e c, considered glob s tree e -> is_prefix_file lower e -> e_content e = Some c -> prefix_of c <> None) ->
  (forall e c, packed lower glob s tree e c -> blen c < 2 ^ 32) ->
  exists out, build_pbo lower sha glob prefix_of s tree iter = inl out.
Proof.
  intros lower sha glob prefix_of s tree iter Hsha Hit Hs Hl Hp Hg Hpre Hsz.
  apply Forall_app in Hg as [Hg1 Hg2].
  assert (Hentry : forall e w, In e tree -> exists w', pack_entry lower glob prefix_of s tree e w = inl w').
  { intros e w Hin. unfold pack_entry. destruct (e_content e) as [c|] eqn:Ec; [|eauto].
    destruct (_ && _) eqn:Ecfg; [eauto|]. destruct (eqb_bytes (e_name e) (bs "addon.toml")) eqn:Et; [eauto|].
    destruct (excluded_total glob (p_exclude s) (as_str (p_folder s) e) Hg1) as [b1 E1]. rewrite E1.
    destruct b1; [eauto|].
    destruct (excluded_total glob (a_exclude s) (below (p_folder s) e) Hg2) as [b2 E2]. rewrite E2.
    destruct b2; [eauto|].
    assert (Hc : considered glob s tree e).
    { split; [auto|]. split; [congruence|]. split; [intro K; apply skip_config_spec in K; congruence|].
      split; [now apply eqb_bytes_false|]. split; [now apply excluded_false in E1|].
      rewrite below_join in E2 by now apply entry_names with (tree := tree). now apply excluded_false in E2. }
    destruct (existsb _ prefix_files) eqn:Ep.
    - apply prefix_file_spec in Ep. destruct (prefix_of c) eqn:Epo; [eauto|]. exfalso. eapply Hpre; eauto.
    - unfold add_file. destruct (4294967295 <? blen c) eqn:El; [|eauto]. exfalso. apply N.ltb_lt in El.
      assert (K : blen c < 2 ^ 32); [|cbn in K; lia]. apply (Hsz e). split; [exact Hc|]. split; [|exact Ec].
      intro K. apply prefix_file_spec in K. congruence. }
  assert (Hwalk : forall todo w, incl todo tree -> exists w', pack_walk lower glob prefix_of s tree todo w = inl w').
  { induction todo as [|e r IH]; intros w Hi; cbn [pack_walk]; [eauto|].
    destruct (Hentry e w) as [w1 ->]; [apply Hi; now left|]. apply IH. intros x Hx. apply Hi. now right. }
  assert (Hpack : exists w, pack lower glob prefix_of s tree = inl w).
  { unfold pack. destruct (Hwalk tree (add_property (bs "version") (p_version s)
      (add_property (bs "hemtt") (p_hemtt s) wpbo_new)) (incl_refl _)) as [w ->]. eauto. }
  unfold build_pbo. destruct Hpack as [w Ew]. rewrite Ew. apply pack_ops in Ew as (ops & Hw & ->); [|auto].
  pose proof (all_plain lower glob prefix_of s tree ops Hs Hl Hp Hw) as Hf.
  assert (Hpl : Forall plain_op (all_ops s ops)) by (eapply Forall_impl; [|exact Hf]; intros o [K _]; exact K).
  destruct (written_and_read lower sha Hsha (all_ops s ops) (iter (w_files (run (all_ops s ops)))) true Hpl (Hit _))
    as (out' & digest & r & E1 & _). rewrite E1. eauto.
Qed.
Print Assumptions C56_build_succeeds.

(** ** Concrete cases *)

Definition name_okb (n : bytes) : bool :=
  negb (eqb_bytes n []) && forallb (fun b => negb (b =? 47) && negb (b =? 92) && negb (b =? 0)) n && utf8_valid n.
Lemma name_okb_ok n : name_okb n = true -> name_ok n.
Proof.
  unfold name_okb. rewrite !andb_true_iff, forallb_forall. intros [[H1 H2] H3]. unfold name_ok, good_str, no_nul.
  assert (G : forall b, In b n -> b <> 47 /\ b <> 92 /\ b <> 0).
  { intros b Hb. specialize (H2 b Hb). rewrite !andb_true_iff, !negb_true_iff, !N.eqb_neq in H2. tauto. }
  repeat split; auto.
  - intros ->. discriminate.
  - intro K. now apply G in K.
  - intro K. now apply G in K.
  - intro K. now apply G in K.
Qed.
Lemma names_okb tree : forallb (fun e => forallb name_okb (e_dirs e) && name_okb (e_name e)) tree = true ->
  Forall (fun e => Forall name_ok (e_dirs e) /\ name_ok (e_name e)) tree.
Proof.
  rewrite forallb_forall, Forall_forall. intros H e He. specialize (H e He). apply andb_prop in H as [H1 H2].
  split; [|now apply name_okb_ok]. rewrite forallb_forall in H1. apply Forall_forall. intros n Hn.
  apply name_okb_ok. now apply H1.
Qed.

Definition no_glob (p : bytes) : option (bytes -> bool) := Some (eqb_bytes p).
Definition len20 (x : bytes) : bytes := le_bytes 20 (blen x).

Definition demo_settings (props : list (bytes * bytes)) : settings :=
  Settings (bs "addons/main") [bs "/addons/main/notes.md"] props [bs "tmp/a.txt"] [(bs "author", bs "x")]
    (bs "1") (bs "2.0.0") (Some (bs "abc")).

Definition demo_tree : list entry :=
  [Entry [] (bs "$PBOPREFIX$") (Some (bs "z\m\addons\main")); Entry [] (bs "config.cpp") (Some (bs "class A;"));
   Entry [] (bs "config.bin") (Some [0; 1]); Entry [] (bs "addon.toml") (Some (bs "x"));
   Entry [] (bs "notes.md") (Some (bs "n")); Entry [] (bs "tmp") None; Entry [bs "tmp"] (bs "a.txt") (Some (bs "t"));
   Entry [] (bs "data") None; Entry [bs "data"] (bs "B.sqf") (Some (bs "hint"))].

Definition shown (r : rpbo) : list (bytes * option bytes) * list (bytes * bytes) :=
  (map (fun h => (h_name h, r_file ascii_lower (h_name h) r)) (r_headers r), r_props r).
Definition opened (s : settings) (tree : list entry) : option (list (bytes * option bytes) * list (bytes * bytes)) :=
  match build_pbo ascii_lower len20 no_glob Some s tree (fun l => l) with
  | inl out => match read out with Ok r => Some (shown r) | Err _ => None end
  | inr _ => None
  end.

Example C56_demo : opened (demo_settings [(bs "version", bs "9")]) demo_tree =
  Some ([(bs "config.bin", Some [0; 1]); (bs "data\B.sqf", Some (bs "hint"))],
        [(bs "prefix", bs "z\m\addons\main"); (bs "hemtt", bs "1"); (bs "version", bs "9"); (bs "git", bs "abc");
         (bs "author", bs "x")]).
Proof. vm_compute. reflexivity. Qed.

Example C56_demo_meets_hypotheses :
  settings_ok (demo_settings [(bs "version", bs "9")]) /\ listing demo_tree /\
  prefixes_ok ascii_lower no_glob Some (demo_settings [(bs "version", bs "9")]) demo_tree.
Proof.
  split.
  { repeat split; try reflexivity; try (unfold no_nul; cbn; intuition discriminate).
    - cbn in H. injection H as <-. reflexivity.
    - cbn in H. injection H as <-. unfold no_nul. cbn. intuition discriminate.
    - repeat constructor; cbn; try discriminate; unfold no_nul; cbn; intuition discriminate.
    - repeat constructor; cbn; intuition.
    - repeat constructor; cbn; intuition. }
  split.
  { split; [apply names_okb; reflexivity|]. cbn. repeat constructor; cbn; intuition discriminate. }
  intros e c p (Hin & _) Hf Hc [= ->]. cbn in Hin.
  repeat (destruct Hin as [<-|Hin];
    [cbn in Hc; first [discriminate Hc | injection Hc as <-];
     first [split; [reflexivity|unfold no_nul; cbn; intuition discriminate]
           | exfalso; vm_compute in Hf; intuition discriminate]|]).
  destruct Hin.
Qed.

(** A prefix file in a subfolder is not packed, and it replaces the addon's own prefix. *)
Theorem C56_nested_prefix_file_refuted :
  exists s tree r out,
    settings_ok s /\ listing tree /\ build_pbo ascii_lower len20 no_glob Some s tree (fun l => l) = inl out /\
    read out = Ok r /\ In (Entry [] (bs "$PBOPREFIX$") (Some (bs "right"))) tree /\
    In (Entry [bs "docs"] (bs "pboprefix.txt") (Some (bs "wrong"))) tree /\
    In (bs "prefix", bs "wrong") (r_props r) /\ map h_name (r_headers r) = [bs "a.sqf"].
Proof.
  exists (Settings (bs "addons/main") [] [] [] [] (bs "1") (bs "2") None),
    [Entry [] (bs "$PBOPREFIX$") (Some (bs "right")); Entry [] (bs "a.sqf") (Some [1]);
     Entry [bs "docs"] (bs "pboprefix.txt") (Some (bs "wrong"))].
  eexists. eexists. split.
  { repeat split; try reflexivity; try (unfold no_nul; cbn; intuition discriminate); try constructor; discriminate. }
  split.
  { split; [|cbn; repeat constructor; cbn; intuition discriminate].
    apply names_okb. reflexivity. }
  split; [vm_compute; reflexivity|]. split; [vm_compute; reflexivity|].
  split; [now left|]. split; [right; right; now left|]. split; [vm_compute; tauto|]. vm_compute. reflexivity.
Qed.
Print Assumptions C56_nested_prefix_file_refuted.

(** A property with an empty key (possible in TOML) ends the property table early: the archive that was
    written does not open. *)
Theorem C56_empty_key_refuted :
  exists s tree out,
    p_props s = [([], bs "v")] /\ listing tree /\
    build_pbo ascii_lower len20 no_glob Some s tree (fun l => l) = inl out /\
    exists e, read out = Err e.
Proof.
  exists (Settings (bs "addons/main") [] [([], bs "v")] [] [] (bs "1") (bs "2") None), [Entry [] (bs "a.sqf") (Some [1])].
  eexists. split; [reflexivity|]. split.
  { split; [|cbn; repeat constructor; cbn; intuition discriminate].
    apply names_okb. reflexivity. }
  split; [vm_compute; reflexivity|]. eexists. vm_compute. reflexivity.
Qed.
Print Assumptions C56_empty_key_refuted.
