(** Lemmas for C56. *)
From Coq Require Import String.
From Verif Require Import Base.Tactics Base.Bytes Base.Sort Base.Ascii Base.Text Io.Model Io.Spec Io.Utf8
  Pbo.Model Pbo.Spec Pbo.Proofs Pbo.Roundtrip Pbo.History Pbo.Final Bin.PackModel Bin.PackSpec.
Local Open Scope N_scope.
Local Open Scope list_scope.

(** ** Paths *)

Lemma skipn_here {A} (a b : list A) : skipn (length a) (a ++ b) = b.
Proof. induction a; cbn; auto. Qed.

Lemma join_cons sep x y l : join sep (x :: y :: l) = x ++ sep ++ join sep (y :: l).
Proof. reflexivity. Qed.

Lemma join_head c l : l <> [] -> Forall (fun n : bytes => n <> [] /\ ~ In c n) l ->
  exists b r, join [c] l = b :: r /\ b <> c.
Proof.
  intros Hl H. destruct l as [|n l]; [congruence|]. inversion H as [|? ? [Hn Hc] _]; subst.
  destruct n as [|b n]; [congruence|].
  assert (Hb : b <> c) by (intro E; apply Hc; left; exact E).
  destruct l as [|m l]; [exists b, n|exists b, (n ++ [c] ++ join [c] (m :: l))]; split; auto.
Qed.

Lemma below_join folder e : Forall name_ok (parts e) ->
  below folder e = join [47] (parts e).
Proof.
  intro H. unfold below, as_str. set (s := join [47] (parts e)).
  assert (Hs : exists b r, s = b :: r /\ b <> 47).
  { apply join_head; [unfold parts; destruct (e_dirs e); discriminate|].
    eapply Forall_impl; [|exact H]. intros n (H1 & H2 & _). auto. }
  replace (47 :: folder ++ 47 :: s) with ((47 :: folder ++ [47]) ++ s) by (cbn; now rewrite <- app_assoc).
  set (p := 47 :: folder ++ [47]).
  assert (Ep : exists p', p = 47 :: p') by (exists (folder ++ [47]); reflexivity).
  destruct (length (p ++ s)) as [|n] eqn:El.
  { destruct Ep as [p' Ep]. rewrite Ep in El. discriminate. }
  cbn [trim_start_matches].
  assert (Et : starts_with p (p ++ s) = true) by (apply starts_with_spec; eauto).
  rewrite Et, skipn_here. destruct n as [|n]; [reflexivity|]. cbn [trim_start_matches].
  destruct Hs as (b & r & Hs & Hb), Ep as [p' Ep]. rewrite Hs, Ep. cbn [starts_with].
  assert (E : (47 =? b) = false) by (apply N.eqb_neq; congruence). now rewrite E.
Qed.

Lemma norm_app a b : norm (a ++ b) = norm a ++ norm b.
Proof. apply map_app. Qed.

Lemma norm_no_slash n : ~ In 47 n -> norm n = n.
Proof.
  induction n as [|b n IH]; intro H; [reflexivity|].
  change (norm (b :: n)) with ((if b =? 47 then 92 else b) :: norm n). rewrite IH by (intro; apply H; now right).
  destruct (b =? 47) eqn:E; [|reflexivity]. apply N.eqb_eq in E. exfalso. apply H. now left.
Qed.

Lemma norm_join l : Forall (fun n => ~ In 47 n) l -> norm (join [47] l) = join [92] l.
Proof.
  induction l as [|n l IH]; intro H; [reflexivity|]. inversion H as [|? ? Hn Hl]; subst.
  destruct l as [|m l]; [cbn [join]; now apply norm_no_slash|].
  rewrite !join_cons, !norm_app, IH, norm_no_slash by auto. reflexivity.
Qed.

Lemma join_inj c l l' : l <> [] -> l' <> [] ->
  Forall (fun n => ~ In c n) l -> Forall (fun n => ~ In c n) l' -> join [c] l = join [c] l' -> l = l'.
Proof.
  intros Hl Hl' H H' E.
  assert (G : forall l, l <> [] -> Forall (fun n => ~ In c n) l -> split_on c (join [c] l) = l).
  { clear. induction l as [|n l IH]; intros Hl H; [congruence|]. inversion H as [|? ? Hn Hr]; subst.
    destruct l as [|m l]; [cbn [join]; now apply split_on_none|].
    rewrite join_cons. cbn [app]. rewrite split_on_app by auto. f_equal. apply IH; [discriminate|auto]. }
  rewrite <- (G l), <- (G l'), E by auto. reflexivity.
Qed.

Lemma eqb_parts_spec a b : eqb_parts a b = true <-> a = b.
Proof.
  revert b. induction a as [|x a IH]; intros [|y b]; cbn; split; intro H; try discriminate; auto.
  - apply andb_prop in H as [H1 H2]. apply eqb_bytes_spec in H1. apply IH in H2. congruence.
  - injection H as -> ->. rewrite eqb_bytes_refl. now apply IH.
Qed.

Lemma exists_at_spec tree p n : exists_at tree (p ++ [n]) = true <->
  exists e, In e tree /\ e_dirs e = p /\ e_name e = n.
Proof.
  unfold exists_at. rewrite existsb_exists. split.
  - intros (e & Hin & H). apply eqb_parts_spec in H. unfold parts in H. apply app_inj_tail in H as [H1 H2]. eauto.
  - intros (e & Hin & H1 & H2). exists e. split; [auto|]. apply eqb_parts_spec. unfold parts. congruence.
Qed.

Lemma utf8_valid_app a b : utf8_valid a = true -> utf8_valid b = true -> utf8_valid (a ++ b) = true.
Proof.
  rewrite !utf8_valid_iff. intros Ha (cb & Hb & Eb). destruct Ha as (ca & Ha & Ea).
  exists (ca ++ cb). split; [now apply Forall_app|]. rewrite flat_map_app. congruence.
Qed.

Lemma good_app a b : good_str a -> good_str b -> good_str (a ++ b).
Proof.
  intros [H1 H2] [H3 H4]. split; [now apply utf8_valid_app|]. intro H. apply in_app_or in H as [H|H]; auto.
Qed.

Lemma good_join l : Forall name_ok l -> good_str (join [92] l).
Proof.
  induction l as [|n l IH]; intro H; [split; [reflexivity|intros []]|].
  inversion H as [|? ? (_ & _ & _ & Hn) Hl]; subst. destruct l as [|m l]; [exact Hn|].
  rewrite join_cons. apply good_app; [auto|]. apply good_app; [|auto]. split; [reflexivity|].
  intros [E|[]]. discriminate.
Qed.

Section S.
  Context (lower : bytes -> bytes) (glob : bytes -> option (bytes -> bool))
    (prefix_of : bytes -> option bytes).

  Lemma excluded_true pats path : excluded glob pats path = inl true -> matches glob pats path.
  Proof.
    induction pats as [|p pats IH]; cbn; [discriminate|]. destruct (glob p) as [m|] eqn:E; [|discriminate].
    destruct (m path) eqn:Em; intro H.
    - exists p, m. cbn. auto.
    - destruct (IH H) as (q & m' & Hq & H'). exists q, m'. split; [now right|exact H'].
  Qed.

  Lemma excluded_false pats path : excluded glob pats path = inl false -> ~ matches glob pats path.
  Proof.
    induction pats as [|p pats IH]; cbn; [intros _ (q & _ & [] & _)|]. destruct (glob p) as [m|] eqn:E; [|discriminate].
    destruct (m path) eqn:Em; [discriminate|]. intros H (q & m' & [->|Hq] & Hg & Hm); [congruence|].
    apply (IH H). exists q, m'. auto.
  Qed.

  Lemma excluded_total pats path : Forall (fun p => glob p <> None) pats ->
    exists b, excluded glob pats path = inl b.
  Proof.
    induction 1 as [|p pats Hp _ IH]; cbn; [eauto|]. destruct (glob p) as [m|]; [|congruence].
    destruct (m path); eauto.
  Qed.

  Context (s : settings) (tree : list entry).

  Definition prefix_ops (p : bytes) : list op :=
    AddProperty (bs "prefix") p :: AddProperty (bs "version") (p_version s) ::
    match p_git s with Some h => [AddProperty (bs "git") h] | None => [] end.

  (** What one entry does. *)
  Inductive entry_does (e : entry) : list op -> Prop :=
  | does_nothing : ~ considered glob s tree e -> entry_does e []
  | does_prefix c p : considered glob s tree e -> is_prefix_file lower e -> e_content e = Some c ->
      prefix_of c = Some p -> entry_does e (prefix_ops p)
  | does_file c : packed lower glob s tree e c -> blen c < 2 ^ 32 -> entry_does e [AddFile (inner_name e) c].

  Lemma prefix_file_spec e : existsb (eqb_bytes (lower (e_name e))) prefix_files = true <-> is_prefix_file lower e.
  Proof.
    unfold is_prefix_file. rewrite existsb_exists. split.
    - intros (x & Hin & H). apply eqb_bytes_spec in H. rewrite H. exact Hin.
    - intro H. eexists. split; [exact H|]. apply eqb_bytes_refl.
  Qed.

  Lemma skip_config_spec e :
    eqb_bytes (e_name e) (bs "config.cpp") && exists_at tree (e_dirs e ++ [bs "config.bin"]) = true <->
    e_name e = bs "config.cpp" /\ exists e', In e' tree /\ e_dirs e' = e_dirs e /\ e_name e' = bs "config.bin".
  Proof. rewrite andb_true_iff, eqb_bytes_spec, exists_at_spec. reflexivity. Qed.

  Hypothesis Hl : listing tree.

  Lemma entry_names e : In e tree -> Forall name_ok (parts e).
  Proof.
    intro H. destruct Hl as [Hn _]. rewrite Forall_forall in Hn. destruct (Hn e H) as [H1 H2].
    unfold parts. apply Forall_app. auto.
  Qed.

  Lemma stored_name e : In e tree -> norm (below (p_folder s) e) = inner_name e.
  Proof.
    intro H. pose proof (entry_names e H) as Hn. rewrite below_join by auto. apply norm_join.
    eapply Forall_impl; [|exact Hn]. intros n (_ & H1 & _). exact H1.
  Qed.

  Lemma inner_no_slash e : In e tree -> norm (inner_name e) = inner_name e.
  Proof. intro H. rewrite <- stored_name by auto. apply norm_idem. Qed.

  Lemma entry_step e w w' : In e tree -> pack_entry lower glob prefix_of s tree e w = inl w' ->
    exists ops, entry_does e ops /\ w' = fold_left step ops w.
  Proof.
    intros Hin H. unfold pack_entry in H.
    destruct (e_content e) as [c|] eqn:Ec.
    2:{ injection H as <-. exists []. split; [|reflexivity]. apply does_nothing.
        intros (_ & Hc & _). congruence. }
    destruct (_ && _) eqn:Ecfg.
    { apply skip_config_spec in Ecfg. injection H as <-. exists []. split; [|reflexivity]. apply does_nothing.
      intros (_ & _ & Hc & _). auto. }
    assert (Hcfg : ~ (e_name e = bs "config.cpp" /\ exists e', In e' tree /\ e_dirs e' = e_dirs e /\ e_name e' = bs "config.bin")).
    { intro K. apply skip_config_spec in K. congruence. }
    destruct (eqb_bytes (e_name e) (bs "addon.toml")) eqn:Et.
    { apply eqb_bytes_spec in Et. injection H as <-. exists []. split; [|reflexivity]. apply does_nothing.
      intros (_ & _ & _ & Hc & _). auto. }
    assert (Ht : e_name e <> bs "addon.toml") by now apply eqb_bytes_false.
    assert (Ea : as_str (p_folder s) e = [47] ++ p_folder s ++ [47] ++ join [47] (e_dirs e ++ [e_name e])) by reflexivity.
    destruct (excluded glob (p_exclude s) _) as [[|]|] eqn:E1; [| |discriminate].
    { injection H as <-. exists []. split; [|reflexivity]. apply does_nothing. apply excluded_true in E1.
      rewrite Ea in E1. intros (_ & _ & _ & _ & Hc & _). auto. }
    apply excluded_false in E1. rewrite Ea in E1. rewrite below_join in H by now apply entry_names.
    destruct (excluded glob (a_exclude s) _) as [[|]|] eqn:E2; [| |discriminate].
    { injection H as <-. exists []. split; [|reflexivity]. apply does_nothing. apply excluded_true in E2.
      intros (_ & _ & _ & _ & _ & Hc). auto. }
    apply excluded_false in E2.
    assert (Hc : considered glob s tree e).
    { repeat split; auto. congruence. }
    destruct (existsb _ prefix_files) eqn:Ep.
    - apply prefix_file_spec in Ep. destruct (prefix_of c) as [p|] eqn:Epo; [|discriminate]. injection H as <-.
      exists (prefix_ops p). split; [eapply does_prefix; eauto|]. unfold prefix_ops. cbn [fold_left].
      destruct (p_git s); reflexivity.
    - assert (Hnp : ~ is_prefix_file lower e) by (intro K; apply prefix_file_spec in K; congruence).
      rewrite <- below_join with (folder := p_folder s), stored_name in H by (auto using entry_names).
      destruct (add_file (inner_name e) c w) as [w1|x] eqn:Ew; [|discriminate]. injection H as <-.
      exists [AddFile (inner_name e) c]. split; [|cbn [fold_left step]; now rewrite Ew]. apply does_file.
      + repeat split; auto; try apply Hc.
      + unfold add_file in Ew. destruct (4294967295 <? blen c) eqn:El; [discriminate|]. apply N.ltb_ge in El. cbn. lia.
  Qed.

  Inductive walk_does : list entry -> list op -> Prop :=
  | walk_nil : walk_does [] []
  | walk_cons e r ops ops' : entry_does e ops -> walk_does r ops' -> walk_does (e :: r) (ops ++ ops').

  Lemma walk_step todo w w' : incl todo tree -> pack_walk lower glob prefix_of s tree todo w = inl w' ->
    exists ops, walk_does todo ops /\ w' = fold_left step ops w.
  Proof.
    revert w. induction todo as [|e r IH]; intros w Hi H; cbn [pack_walk] in H.
    - injection H as <-. exists []. split; [constructor|reflexivity].
    - destruct (pack_entry _ _ _ _ _ e w) as [w1|] eqn:E; [|discriminate].
      apply entry_step in E as (o & Ho & ->); [|apply Hi; now left].
      apply IH in H as (os & Hos & ->); [|intros x Hx; apply Hi; now right].
      exists (o ++ os). split; [now constructor|now rewrite fold_left_app].
  Qed.

  (** ** Files *)

  Lemma walk_files todo ops n c : walk_does todo ops ->
    (In (AddFile n c) ops <-> exists e, In e todo /\ packed lower glob s tree e c /\ n = inner_name e).
  Proof.
    intro H. induction H as [|e r o os He Hr IH].
    - split; [intros []|intros (e & [] & _)].
    - rewrite in_app_iff, IH. clear IH. split.
      + intros [Hin|(e' & Hin & Hp)]; [|exists e'; split; [now right|exact Hp]].
        inversion He as [Hn|c' p Hc Hp Hk Hv|c' Hp Hs]; subst; [destruct Hin| |].
        * unfold prefix_ops in Hin. destruct Hin as [?|[?|Hin]]; try discriminate.
          destruct (p_git s); [destruct Hin as [?|[]]; discriminate|destruct Hin].
        * destruct Hin as [E|[]]. injection E as <- <-. exists e. split; [now left|auto].
      + intros (e' & [<-|Hin] & Hp & Hn); [left|right; exists e'; auto].
        inversion He as [Hk|c' p Hc Hpf Hk Hv|c' Hp' Hs]; subst.
        * exfalso. apply Hk, Hp.
        * exfalso. now apply Hp.
        * destruct Hp as (_ & _ & Hk), Hp' as (_ & _ & Hk'). rewrite Hk in Hk'. injection Hk' as ->. now left.
  Qed.

  Lemma walk_plain todo ops : (forall e c p, In e todo -> e_content e = Some c -> considered glob s tree e ->
      is_prefix_file lower e -> prefix_of c = Some p -> good_str p) ->
    incl todo tree -> good_str (p_version s) -> (forall h, p_git s = Some h -> good_str h) ->
    walk_does todo ops ->
    Forall (fun o => plain_op o /\ match o with AddFile _ c => blen c < 2 ^ 32 | _ => True end) ops.
  Proof.
    intros Hpre Hi Hv Hg H. induction H as [|e r o os He Hr IH]; [constructor|]. apply Forall_app. split.
    - assert (Hg' : good_str (bs "prefix") /\ good_str (bs "version") /\ good_str (bs "git")).
      { repeat split; try reflexivity; unfold no_nul; cbn; intuition discriminate. }
      inversion He as [Hk|c p Hc Hpf Hk Hp|c Hp Hs]; subst.
      + constructor.
      + assert (Hgp : good_str p) by (eapply Hpre; eauto; now left). unfold prefix_ops.
        constructor; [cbn [plain_op]; intuition (try discriminate)|].
        constructor; [cbn [plain_op]; intuition (try discriminate)|].
        destruct (p_git s) as [h|]; [|constructor]. constructor; [|constructor]. cbn [plain_op].
        specialize (Hg h eq_refl). intuition (try discriminate).
      + constructor; [|constructor]. split; [|exact Hs]. cbn [plain_op].
        assert (Hin : In e tree) by (apply Hi; now left). pose proof (entry_names e Hin) as Hn.
        split; [now apply good_join|]. unfold inner_name.
        destruct (join_head 92 (parts e)) as (b & r' & E & _).
        { unfold parts. destruct (e_dirs e); discriminate. }
        { eapply Forall_impl; [|exact Hn]. intros n (H1 & _ & H2 & _). auto. }
        unfold parts in E. rewrite E. discriminate.
    - apply IH; [|intros x Hx; apply Hi; now right]. intros e' c p Hin. apply Hpre. now right.
  Qed.

  Lemma inner_inj e e' : In e tree -> In e' tree -> inner_name e = inner_name e' -> e = e'.
  Proof.
    intros H H' E. destruct Hl as [Hn HN]. unfold inner_name in E. apply join_inj in E.
    - assert (Ei : forall l, NoDup (map (fun e => e_dirs e ++ [e_name e]) l) -> In e l -> In e' l -> e = e').
      { clear - E. induction l as [|x l IH]; [intros _ []|]. cbn [map]. intros HN [->|Hi] [->|Hi']; auto.
        - inversion HN as [|? ? Hx _]; subst. exfalso. apply Hx. rewrite E. apply (in_map (fun e => e_dirs e ++ [e_name e]) _ _ Hi').
        - inversion HN as [|? ? Hx _]; subst. exfalso. apply Hx. rewrite <- E. apply (in_map (fun e => e_dirs e ++ [e_name e]) _ _ Hi).
        - inversion HN; subst. now apply IH. }
      exact (Ei tree HN H H').
    - destruct (e_dirs e); discriminate.
    - destruct (e_dirs e'); discriminate.
    - eapply Forall_impl; [|apply (entry_names e H)]. intros n (_ & _ & H1 & _). exact H1.
    - eapply Forall_impl; [|apply (entry_names e' H')]. intros n (_ & _ & H1 & _). exact H1.
  Qed.
End S.

(** In a history without custom headers, with accepted sizes and at most one content per path, the newest
    content of a path is the one added. *)
Lemma newest_unique ops name c :
  Forall (fun o => match o with AddFile _ c => blen c < 2 ^ 32 | AddFileWithHeader _ _ => False | _ => True end) ops ->
  (forall n1 c1 n2 c2, In (AddFile n1 c1) ops -> In (AddFile n2 c2) ops -> norm n1 = norm n2 -> c1 = c2) ->
  (newest_file name ops c <-> exists n, In (AddFile n c) ops /\ norm n = norm name).
Proof.
  intros Hf Hu. rewrite <- file_history. revert Hf Hu. induction ops as [|o ops IH] using rev_ind; intros Hf Hu.
  - split; [discriminate|intros (n & [] & _)].
  - apply Forall_app in Hf as [Hf Ho]. inversion Ho as [|? ? Ho' _]; subst. clear Ho.
    assert (Hu' : forall n1 c1 n2 c2, In (AddFile n1 c1) ops -> In (AddFile n2 c2) ops -> norm n1 = norm n2 -> c1 = c2).
    { intros n1 c1 n2 c2 H1 H2. apply Hu; apply in_or_app; now left. }
    specialize (IH Hf Hu'). rewrite run_snoc.
    assert (Hother : forall w, w_file name w = w_file name (run ops) -> (forall n c, o <> AddFile n c) ->
      (w_file name w = Some c <-> exists n, In (AddFile n c) (ops ++ [o]) /\ norm n = norm name)).
    { intros w Ew Hno. rewrite Ew, IH. split; intros (n & Hin & En); exists n; (split; [|exact En]).
      - apply in_or_app. now left.
      - apply in_app_or in Hin as [Hin|[Hin|[]]]; [auto|]. exfalso. exact (Hno n c Hin). }
    destruct o as [n1 c1|h c1|k v|k]; cbn [step].
    + unfold add_file. destruct (4294967295 <? blen c1) eqn:El; [apply N.ltb_lt in El; cbn in Ho'; lia|].
      rewrite w_file_insert. destruct (eqb_bytes (norm name) (norm n1)) eqn:E.
      * apply eqb_bytes_spec in E. split.
        -- intros [= <-]. exists n1. split; [apply in_or_app; right; now left|congruence].
        -- intros (n & Hin & En). f_equal. eapply Hu; [apply in_or_app; right; now left|exact Hin|congruence].
      * apply eqb_bytes_false in E. change (WPbo (w_props (run ops)) (w_files (run ops))) with
          {| w_props := w_props (run ops); w_files := w_files (run ops) |}.
        assert (Ew : {| w_props := w_props (run ops); w_files := w_files (run ops) |} = run ops) by (destruct (run ops); reflexivity).
        rewrite Ew, IH. split; intros (n & Hin & En); exists n; (split; [|exact En]).
        -- apply in_or_app. now left.
        -- apply in_app_or in Hin as [Hin|[Hin|[]]]; [auto|]. injection Hin as <- <-. congruence.
    + destruct Ho'.
    + apply Hother; [reflexivity|discriminate].
    + apply Hother; [reflexivity|discriminate].
Qed.

(** ** Properties *)

Lemma w_property_add k k' v w :
  w_property k (add_property k' v w) = if eqb_bytes k k' then Some (trim_matches 92 v) else w_property k w.
Proof.
  unfold w_property, add_property. cbn. destruct (eqb_bytes k k') eqn:E.
  - apply eqb_bytes_spec in E. subst. apply im_get_insert_same.
  - apply eqb_bytes_false in E. now apply im_get_insert_other.
Qed.

Lemma fold_props l w k :  NoDup (map fst l) ->
  (forall v, In (k, v) l -> w_property k (fold_left (fun w kv => add_property (fst kv) (snd kv) w) l w) = Some (trim_matches 92 v)) /\
  (~ has_key k l -> w_property k (fold_left (fun w kv => add_property (fst kv) (snd kv) w) l w) = w_property k w).
Proof.
  revert w. induction l as [|[k1 v1] l IH]; intros w HN; cbn [fold_left fst snd].
  - split; [intros v []|reflexivity].
  - cbn [map fst] in HN. inversion HN as [|? ? Hn HN']; subst. specialize (IH (add_property k1 v1 w) HN') as [I1 I2]. split.
    + intros v [E|Hin]; [|auto]. injection E as -> ->. rewrite I2 by exact Hn. now rewrite w_property_add, eqb_bytes_refl.
    + intro Hk. unfold has_key in *. cbn [map fst] in Hk. rewrite I2 by (intro; apply Hk; now right).
      rewrite w_property_add. destruct (eqb_bytes k k1) eqn:E; [|reflexivity]. apply eqb_bytes_spec in E. subst.
      exfalso. apply Hk. now left.
Qed.

Lemma props_as_ops l w : fold_left (fun w kv => add_property (fst kv) (snd kv) w) l w =
  fold_left step (map (fun kv => AddProperty (fst kv) (snd kv)) l) w.
Proof. revert w. induction l as [|kv l IH]; intro w; cbn; auto. Qed.

Section P.
  Context (lower : bytes -> bytes) (glob : bytes -> option (bytes -> bool))
    (prefix_of : bytes -> option bytes) (s : settings) (tree : list entry).

  Lemma add_file_prop n c w k : w_property k (step w (AddFile n c)) = w_property k w.
  Proof. cbn [step]. unfold add_file. destruct (_ <? _); reflexivity. Qed.

  Lemma prefix_ops_prop p w k : w_property k (fold_left step (prefix_ops s p) w) =
    if eqb_bytes k (bs "prefix") then Some (trim_matches 92 p)
    else if eqb_bytes k (bs "version") then Some (trim_matches 92 (p_version s))
    else if eqb_bytes k (bs "git") then match p_git s with Some h => Some (trim_matches 92 h) | None => w_property k w end
    else w_property k w.
  Proof.
    unfold prefix_ops. destruct (p_git s) as [h|]; cbn [fold_left step]; rewrite !w_property_add.
    - destruct (eqb_bytes k (bs "prefix")) eqn:E1.
      { apply eqb_bytes_spec in E1. subst. reflexivity. }
      destruct (eqb_bytes k (bs "version")) eqn:E2; [|reflexivity]. apply eqb_bytes_spec in E2. subst. reflexivity.
    - destruct (eqb_bytes k (bs "prefix")) eqn:E1.
      { apply eqb_bytes_spec in E1. subst. reflexivity. }
      destruct (eqb_bytes k (bs "version")); [reflexivity|]. destruct (eqb_bytes k (bs "git")); reflexivity.
  Qed.

  Definition counts (e : entry) : Prop := considered glob s tree e /\ is_prefix_file lower e.

  Lemma walk_props todo ops w : walk_does lower glob prefix_of s tree todo ops ->
    ((forall e, In e todo -> ~ counts e) /\ forall k, w_property k (fold_left step ops w) = w_property k w) \/
    (exists before e after c p, todo = before ++ e :: after /\ counts e /\ (forall e', In e' after -> ~ counts e') /\
       e_content e = Some c /\ prefix_of c = Some p /\
       forall k, w_property k (fold_left step ops w) =
         if eqb_bytes k (bs "prefix") then Some (trim_matches 92 p)
         else if eqb_bytes k (bs "version") then Some (trim_matches 92 (p_version s))
         else if eqb_bytes k (bs "git") then match p_git s with Some h => Some (trim_matches 92 h) | None => w_property k w end
         else w_property k w).
  Proof.
    intro H. revert w. induction H as [|e r o os He Hr IH]; intro w.
    - left. split; [intros e []|reflexivity].
    - rewrite fold_left_app. destruct (IH (fold_left step o w)) as [[Hn Hp]|(b & e1 & a & c & p & -> & Hc & Ha & Hk & Hv & Hp)].
      + inversion He as [Hs|c p Hc Hpf Hk Hv|c Hp' Hs]; subst.
        * left. split; [|exact Hp]. intros e' [<-|Hin]; [intros [K _]; auto|auto].
        * right. exists [], e, r, c, p. repeat split; auto; try apply Hc. intro k. rewrite Hp. apply prefix_ops_prop.
        * left. split.
          -- intros e' [<-|Hin]; [intros [_ K]; now apply Hp'|auto].
          -- intro k. rewrite Hp. cbn [fold_left]. apply add_file_prop.
      + right. exists (e :: b), e1, a, c, p. split; [reflexivity|]. split; [exact Hc|]. split; [exact Ha|].
        split; [exact Hk|]. split; [exact Hv|].
        intro k. rewrite Hp. destruct (eqb_bytes k (bs "prefix")) eqn:E1; [reflexivity|].
        destruct (eqb_bytes k (bs "version")) eqn:E2; [reflexivity|].
        inversion He as [Hs|c' p' Hc' Hpf Hk' Hv'|c' Hp' Hs]; subst.
        * reflexivity.
        * rewrite prefix_ops_prop, E1, E2. destruct (eqb_bytes k (bs "git")); [destruct (p_git s)|]; reflexivity.
        * cbn [fold_left]. rewrite add_file_prop. reflexivity.
  Qed.
End P.
