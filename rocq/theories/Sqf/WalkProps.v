(** What the SQF analysis looks at (C68), the version that commands need (C67) and event handlers (C69). *)
From Coq Require Import String.
From Verif Require Import Base.Tactics Base.Bytes Base.Ascii Base.Text Base.Sort Sqf.Ast Sqf.ParseModel Sqf.ParseSpec Sqf.ParseProofs Sqf.ParseComplete Sqf.ParseProps
  Sqf.SourceModel Sqf.SourceSpec Sqf.SourceProofs Sqf.SourceBack Sqf.SourceProps Common.VersionModel Config.PatchModel Sqf.WalkSpec Sqf.WalkModel Sqf.WalkProofs.
From Verif Require Bin.LintModel.
Local Open Scope N_scope.
Local Open Scope list_scope.

(** ** C67: the version that commands need *)
(** What is reported is a command of the script that came after the version the addon requires. *)
Theorem C67_reported_commands_are_newer : forall db required c n since sp, db [] = None -> In ((n, since), sp) (s01 db required c) ->
  exists v e, required = Some v /\ part e c /\ uses e n sp /\ db n = Some since /\ earlier (wiki_version v) since.
Proof.
  intros db required c n since sp Hdb H. unfold s01 in H. destruct required as [v|]; [|destruct H]. destruct (wiki_lt _ _) eqn:E; [|destruct H].
  destruct H as [H|[]]. apply wiki_lt_spec in E. destruct (script_version_from db c) as [Hn|(s & Hs & Es)].
  - rewrite Hn in E. unfold earlier in E. cbn [nothing fst snd] in E. exfalso. lia.
  - destruct (extract_sound db Hdb _ _ Es) as [(y & Hy & Hu & Hd)|Hn].
    + rewrite H in Hu, Hd, E. cbn [fst snd] in *. exists v, y. split; [reflexivity|]. split; [exists s; auto|]. auto.
    + rewrite Hn in E. unfold earlier in E. cbn [nothing fst snd] in E. exfalso. lia.
Qed.
(** Where statements are commands and blocks only, a command that came later is not missed: there is one report, of a command
    that came no earlier than it. *)
Theorem C67_newer_commands_are_reported : forall db v c s e n sp since, db [] = None -> In s c -> simple db (stmt_expr s) ->
  within e (stmt_expr s) -> uses e n sp -> db n = Some since -> earlier (wiki_version v) since ->
  exists m, s01 db (Some v) c = [m] /\ ~ earlier (snd (fst m)) since.
Proof.
  intros db v c s e n sp since Hdb Hs Hsimple Hw Hu Hd Hv. destruct (extract_simple db Hdb _ Hsimple) as (m & Em & _ & Hm).
  specialize (Hm _ _ _ _ Hw Hu Hd). assert (Hc := script_version_max db c s m Hs Em). exists (script_version db c).
  assert (Hn : ~ earlier (snd (fst (script_version db c))) since) by (eapply not_earlier_trans; eauto). split; [|exact Hn].
  unfold s01. replace (wiki_lt _ _) with true; [reflexivity|]. symmetry. apply wiki_lt_spec. unfold earlier in *. lia.
Qed.
(** But a command with a literal, a variable or an array as its right argument is missed, whatever version it is from. *)
Theorem C67_operands_hide_commands_refuted : forall db required a,
  (exists x sp w, a = EString x sp w) \/ (exists x sp, a = ENumber x sp) \/ (exists x sp, a = EBool x sp) \/ (exists x sp, a = EVar x sp) \/ (exists l sp, a = EArray l sp) ->
  forall c sp sp', s01 db required [SExpr (EUnary c a sp) sp'] = [] /\ forall b l, s01 db required [SExpr (EBinary b l a sp) sp'] = [].
Proof.
  intros db required a Ha c sp sp'. assert (E : extract db a = None) by (destruct Ha as [(?&?&?&->)|[(?&?&->)|[(?&?&->)|[(?&?&->)|(?&?&->)]]]]; reflexivity).
  assert (Z : forall v, wiki_lt (wiki_version v) (0, 0) = false) by (intros v; apply wiki_lt_false; unfold earlier; cbn [fst snd]; lia).
  split; [|intros b l]; (destruct required as [v|]; [|reflexivity]); unfold s01, script_version; cbn [fold_left]; unfold better; cbn [stmt_expr extract]; rewrite E.
  - destruct (db (unary_str c)); cbn [nothing fst snd]; now rewrite Z.
  - destruct (db (binary_str b)); [|cbn [nothing fst snd]; now rewrite Z]. destruct (extract db l) as [m|]; [|cbn [nothing fst snd]; now rewrite Z].
    destruct (db (fst (fst m))); cbn [nothing fst snd]; now rewrite Z.
Qed.
Print Assumptions C67_reported_commands_are_newer.
Print Assumptions C67_newer_commands_are_reported.
Print Assumptions C67_operands_hide_commands_refuted.
(** [removeAllWeapons player] with a command of 2.04 in an addon that requires 2.00, within a block. *)
Definition db67 (n : text) : option (N * N) :=
  if eqb_bytes n (bs "removeall") then Some (2, 4) else if eqb_bytes n (bs "player") then Some (1, 0) else if eqb_bytes n (bs "call") then Some (1, 0) else None.
Definition call67 : expr := EUnary (UNamed (bs "call")) (ECode [SExpr (EUnary (UNamed (bs "removeall")) (ENular (bs "player") (20, 26)) (10, 19)) (10, 26)] (bs "removeall player") (10, 26)) (0, 4).
Definition v67 (mi : N) : version := Version 2 mi 0 None None.
Example C67_case : db67 [] = None /\ simple db67 call67 /\ s01 db67 (Some (v67 0)) [SExpr call67 (0, 27)] = [((bs "removeall", (2, 4)), (10, 19))] /\
  s01 db67 (Some (v67 4)) [SExpr call67 (0, 27)] = [] /\
  (** with a variable for [player] nothing is reported *)
  s01 db67 (Some (v67 0)) [SExpr (EUnary (UNamed (bs "removeall")) (EVar (bs "_unit") (20, 25)) (10, 19)) (10, 25)] = [].
Proof.
  split; [reflexivity|]. split; [|vm_compute; auto]. unfold call67. apply simple_unary; [vm_compute; discriminate|]. apply simple_code.
  - intros s [<-|[]]. cbn [stmt_expr]. apply simple_unary; [vm_compute; discriminate|]. apply simple_nular. vm_compute; discriminate.
  - eexists (EUnary (UNamed (bs "removeall")) (ENular (bs "player") (20, 26)) (10, 19)), (bs "removeall"), (10, 19), (2, 4). split.
    + exists (SExpr (EUnary (UNamed (bs "removeall")) (ENular (bs "player") (20, 26)) (10, 19)) (10, 26)). split; [now left|apply within_here].
    + vm_compute. auto.
Qed.

(** ** C68: what the analysis looks at *)
(** A lint gives something for a script exactly if it gives it for the script or a block in it, for one of their statements, for
    an expression in it or for the command of one. *)
Theorem C68_lints_see_everything : forall {C} (run : target -> list C) script x, In x (analyze_script run script) <->
  (exists c, block_of script c /\ In x (run (OnScript c))) \/
  (exists c s, block_of script c /\ In s c /\ In x (run (OnStatement s))) \/
  (exists e, part e script /\ In x (run (OnExpression e))) \/
  (exists e n sp, part e script /\ uses e n sp /\ In x (run (OnCommand e))).
Proof.
  intros C run script x. unfold analyze_script. rewrite in_app_iff, in_flat_map. unfold analyze_statement. split.
  - intros [H|(s & Hs & H)].
    + left. exists script. split; [now left|exact H].
    + apply in_app_iff in H as [H|H]; [right; left; exists script, s; split; [now left|auto]|]. apply expression_walk in H as (e & He & H).
      unfold here in H. apply in_app_iff in H as [H|H]; [right; right; left; exists e; split; [exists s; auto|exact H]|].
      assert (P : part e script) by (exists s; auto). destruct e as [c src sp|s0 sp w|b sp|b sp|l sp|l sp|n sp|c a sp|c a b sp|n sp]; try (destruct H; fail).
      * apply in_app_iff in H as [H|H]; [left; exists c; split; [right; eauto|exact H]|]. apply in_flat_map in H as (st & Hst & H).
        right; left. exists c, st. split; [right; eauto|auto].
      * right; right; right. exists (ENular n sp), n, sp. split; [exact P|split; [cbn; auto|exact H]].
      * right; right; right. exists (EUnary c a sp), (unary_str c), sp. split; [exact P|split; [cbn; auto|exact H]].
      * right; right; right. exists (EBinary c a b sp), (binary_str c), sp. split; [exact P|split; [cbn; auto|exact H]].
  - assert (G : forall e, part e script -> In x (here run e) -> exists s, In s script /\ In x (run (OnStatement s) ++ analyze_expression run (stmt_expr s))).
    { intros e (s & Hs & Hw) H. exists s. split; [exact Hs|]. apply in_app_iff. right. apply expression_walk. eauto. }
    intros [(c & [->|(src & sp & P)] & H)|[(c & s & [->|(src & sp & P)] & Hs & H)|[(e & P & H)|(e & n & sp & P & U & H)]]].
    + now left.
    + right. apply (G _ P). unfold here. rewrite !in_app_iff. auto.
    + right. exists s. split; [exact Hs|]. apply in_app_iff. now left.
    + right. apply (G _ P). unfold here. rewrite !in_app_iff, in_flat_map. eauto.
    + right. apply (G _ P). unfold here. rewrite !in_app_iff. auto.
    + right. apply (G _ P). unfold here. rewrite !in_app_iff. right. destruct e; try (destruct U; fail); exact H.
Qed.
Print Assumptions C68_lints_see_everything.
(** What a text reads as has no pooled array, the one kind of expression that the analysis does not go into. *)
Theorem C68_no_pooled_arrays : forall wiki custom parse_f32 f32_of, (forall e, In e custom -> In CallBinary (snd e) -> reserved (fst e) = None) ->
  forall s r e, read_sqf (a3_with_workspace wiki custom) parse_f32 f32_of s = Some r -> part e (content r) -> forall l sp, e <> EConsumable l sp.
Proof.
  intros wiki custom parse_f32 f32_of Hc s r e R (st & I & W) l sp ->.
  apply (read_iff _ parse_f32 f32_of (custom_apart wiki custom Hc)) in R as (ts & R & _ & S & _).
  destruct (parts_spelled (a3_with_workspace wiki custom) (between s)) as (_ & _ & _ & P). destruct (P _ _ S _ _ I W) as (m & tse & _ & Se). clear - Se.
  remember (EConsumable l sp) as e eqn:E. induction Se; try discriminate; auto. destruct H; discriminate.
Qed.
Print Assumptions C68_no_pooled_arrays.
(** A script with a block in an array: the lint of all commands finds both. *)
Example C68_case : exists r, read_sqf db0 zero_float (fun n => n) (bs "x = [{player}, - player];") = Some r /\
  analyze_script (fun t => match t with OnCommand e => [e] | _ => [] end) (content r) =
  [ENular (bs "player") (6, 12); EUnary UMinus (ENular (bs "player") (17, 23)) (15, 16); ENular (bs "player") (17, 23)].
Proof. eexists. split; vm_compute; reflexivity. Qed.

(** ** C69: event handlers *)
Section Events.
  Context {Place : Type} (place_dec : forall a b : Place, {a = b} + {a <> b}).
  Context (by_command : text -> list Place) (event_handler : text -> list (Place * option (N * N))).
  Context (ignore : LintModel.config -> list text) (required : option version) (st : LintModel.settings) (m : LintModel.manager unit).
  Hypothesis manager_of : LintModel.sqf_manager st = Some m.
  Notation findings := (event_findings place_dec by_command event_handler ignore required m).
  (** What the project's settings make of the lint on unknown events. *)
  Notation unknown := (LintModel.effective (LintModel.sqf_settings st) (LintModel.mk "event_unknown" LintModel.warning_config)).
  (** A command that takes events names one, and is not about user actions. *)
  Notation hears e n id sp := (registers e n id sp /\ by_command n <> [] /\ ~ mentions n (bs "UserAction")).

  Let cfg : option LintModel.config := if LintModel.enabled unknown then Some unknown else None.
  Lemma group_run : forall c, flat_map (LintModel.run_group (fun _ cs => s02 place_dec by_command event_handler ignore required cs c) m) (LintModel.groups m) =
    flat_map (fun s => flat_map (event_at place_dec by_command event_handler ignore required cfg) (walk_expressions (stmt_expr s))) c.
  Proof using manager_of.
    intros c. unfold LintModel.sqf_manager, LintModel.build_manager, LintModel.extend in manager_of. destruct (LintModel.check_lints _ _); [|discriminate].
    unfold LintModel.sqf_groups in manager_of. cbn [LintModel.push_groups] in manager_of. unfold LintModel.push_group in manager_of.
    destruct (LintModel.check_lints _ _) eqn:E in manager_of; [|discriminate]. injection manager_of as <-.
    unfold LintModel.new_manager in *. cbn [LintModel.groups LintModel.lints LintModel.configs app flat_map] in *. rewrite app_nil_r.
    unfold LintModel.check_lints in E. cbn [fold_left] in E.
    assert (E2 : LintModel.enabled (LintModel.effective (LintModel.sqf_settings st) (LintModel.mk "event_incorrect_command" LintModel.error_config)) = true).
    { unfold LintModel.effective. assert (X : LintModel.lint_errors (G := unit) {| LintModel.lints := LintModel.sqf_lints; LintModel.groups := []; LintModel.configs := LintModel.sqf_settings st |}
        (LintModel.mk "event_incorrect_command" LintModel.error_config) = 0%nat) by lia. unfold LintModel.lint_errors in X. cbn [LintModel.configs] in X.
      destruct (LintModel.get (LintModel.sqf_settings st) _) as [o|]; [|reflexivity]. destruct (LintModel.enabled (LintModel.apply o (LintModel.default_config (LintModel.mk "event_incorrect_command" LintModel.error_config)))); [reflexivity|].
      cbn [negb andb LintModel.mk LintModel.minimum LintModel.config_severity LintModel.error_config LintModel.b2n] in X. lia. }
    unfold LintModel.run_group. cbn [fst snd]. unfold LintModel.group_configs. cbn [fold_left LintModel.configs]. rewrite E2. unfold cfg.
    destruct (LintModel.enabled unknown) eqn:E1; destruct (LintModel.enabled (LintModel.effective (LintModel.sqf_settings st) (LintModel.mk "event_insufficient_version" _)));
      cbn [app]; unfold s02; cbn [LintModel.get LintModel.mk LintModel.ident]; reflexivity.
  Qed.
  Lemma id_spec : forall e id sp, get_id e = Some (id, sp) <-> event_of e id sp.
  Proof using.
    intros e id sp. split.
    - revert id sp. assert (K : (forall e id sp, get_id e = Some (id, sp) -> event_of e id sp) /\ (forall s id sp, get_id (stmt_expr s) = Some (id, sp) -> event_of (stmt_expr s) id sp)).
      { apply tree_ind; try (intros; discriminate); try (intros; cbn [stmt_expr] in *; now auto).
        - intros s p w id sp [= -> ->]. constructor.
        - intros l p F id sp H. destruct l as [|x l]; [discriminate|]. cbn [get_id] in H. inversion F as [|? ? Fx _]; subst. constructor. now apply Fx. }
      exact (proj1 K e).
    - intros H. induction H; [reflexivity|]. cbn [get_id]. exact IHevent_of.
  Qed.
  Lemma contains_spec : forall s w, contains s w = true <-> mentions s w.
  Proof using.
    induction s as [|x s IH]; intros w; cbn [contains]; rewrite orb_true_iff, starts_with_spec.
    - split; [intros [(b & H)|H]; [|discriminate]; exists [], b; exact H|]. intros (a & b & H). left. exists b. destruct a; [exact H|discriminate].
    - rewrite IH. split.
      + intros [(b & H)|(a & b & ->)]; [exists [], b; exact H|]. exists (x :: a), b. reflexivity.
      + intros (a & b & H). destruct a as [|y a]; [left; exists b; exact H|]. right. injection H as _ H. exists a, b. exact H.
  Qed.
  Lemma findings_at : forall script x, In x (findings script) <-> exists e n id sp, part e script /\ hears e n id sp /\
    In x (check_unknown place_dec ignore (by_command n) n (id, sp) (event_handler id) cfg ++ check_version place_dec required (by_command n) n (id, sp) (event_handler id)).
  Proof using manager_of.
    intros script x. unfold event_findings. rewrite C68_lints_see_everything.
    assert (A : forall e, In x (event_at place_dec by_command event_handler ignore required cfg e) <-> exists n id sp, hears e n id sp /\
      In x (check_unknown place_dec ignore (by_command n) n (id, sp) (event_handler id) cfg ++ check_version place_dec required (by_command n) n (id, sp) (event_handler id))).
    { intros e. unfold event_at. destruct (get_namespaces by_command e) as [((ns, name), (id, sp))|] eqn:G.
      - assert (R : registers e name id sp /\ ns = by_command name).
        { unfold get_namespaces in G. destruct e as [| | | | | | |[]|[]|]; try discriminate; destruct (get_id _) as [(id', sp')|] eqn:Ei in G; try discriminate; injection G as <- <- <- <-;
            apply id_spec in Ei; (split; [|reflexivity]); [right|left]; repeat eexists; exact Ei. }
        assert (U : forall n' id' sp', registers e n' id' sp' -> n' = name /\ id' = id /\ sp' = sp).
        { intros n' id' sp' [(a & b & q & -> & Hi)|(a & q & -> & Hi)]; apply id_spec in Hi; cbn [get_namespaces] in G; rewrite Hi in G; injection G as _ <- <- <-; auto. }
        destruct R as (R & ->). destruct (by_command name) as [|p ps] eqn:Eb.
        + split; [intros []|]. intros (n & i & q & (R' & Hn & _) & _). apply U in R' as (-> & -> & ->). congruence.
        + destruct (contains name (bs "UserAction")) eqn:Ec.
          * split; [intros []|]. intros (n & i & q & (R' & _ & Hm) & _). apply U in R' as (-> & -> & ->). apply contains_spec in Ec. contradiction.
          * rewrite <- Eb. cbn [fst]. split.
            -- intros H. exists name, id, sp. split; [|exact H]. split; [exact R|]. split; [congruence|]. intros Hm. apply contains_spec in Hm. congruence.
            -- intros (n & i & q & (R' & _) & H). apply U in R' as (-> & -> & ->). exact H.
      - split; [intros []|]. intros (n & i & q & ([(a & b & p & -> & Hi)|(a & p & -> & Hi)] & _) & _); apply id_spec in Hi; cbn [get_namespaces] in G; rewrite Hi in G; discriminate. }
    split.
    - intros [(c & Hc & H)|[(c & s & _ & _ & [])|[(e & _ & [])|(e & n & sp & _ & _ & [])]]].
      rewrite group_run in H. apply in_flat_map in H as (s & Hs & H). apply in_flat_map in H as (e & He & H). apply walk_expressions_spec in He.
      apply A in H as (n & id & sp & Hh & H). exists e, n, id, sp. split; [|auto]. destruct Hc as [->|(src & q & t & Ht & Hw)]; [exists s; auto|].
      exists t. split; [exact Ht|]. eapply within_trans; [|exact Hw]. eapply within_code; eauto.
    - intros (e & n & id & sp & (s & Hs & Hw) & Hh & H). left. exists script. split; [now left|]. rewrite group_run. apply in_flat_map. exists s. split; [exact Hs|].
      apply in_flat_map. exists e. split; [now apply walk_expressions_spec|]. apply A. eauto.
  Qed.
  Lemma among_spec : forall p l, among place_dec p l = true <-> In p l.
  Proof using.
    intros p l. unfold among. rewrite existsb_exists. split; [intros (q & Hq & H); destruct (place_dec p q); [now subst|discriminate]|].
    intros H. exists p. split; [exact H|]. destruct (place_dec p p); congruence.
  Qed.

  (** An event is reported as unknown exactly if a command for events names it and the wiki has no such event; but for those commands
      that the lint's settings list. With the lint off, it is reported with the usual severity. *)
  Theorem C69_unknown_events : forall script n id sp sev, In (UnknownEvent n id sp sev) (findings script) <->
    event_handler id = [] /\ (exists e, part e script /\ hears e n id sp) /\
    if LintModel.enabled unknown then ~ In n (ignore unknown) /\ sev = LintModel.config_severity unknown else sev = ExecModel.SWarning.
  Proof using manager_of.
    intros script n id sp sev. rewrite findings_at. unfold cfg. split.
    - intros (e & n' & id' & sp' & P & Hh & H). apply in_app_iff in H as [H|H].
      + unfold check_unknown in H. destruct (LintModel.enabled unknown) eqn:E; [rewrite E in H; cbn [negb] in H|].
        * destruct (existsb _ _) eqn:Ei; [destruct H|]. destruct (event_handler id') eqn:Ev.
          -- destruct H as [H|[]]. cbn [fst snd] in H. injection H as -> -> -> ->. split; [exact Ev|]. split; [eauto|]. split; [|reflexivity].
             intros Hi. assert (X : existsb (fun i => eqb_bytes i n) (ignore unknown) = true). { apply existsb_exists. exists n. split; [exact Hi|]. now apply eqb_bytes_spec. } congruence.
          -- destruct (existsb _ _) in H; [destruct H|]. destruct H as [H|[]]. discriminate.
        * destruct (event_handler id') eqn:Ev.
          -- destruct H as [H|[]]. cbn [fst snd] in H. injection H as -> -> -> <-. split; [exact Ev|]. split; [eauto|reflexivity].
          -- destruct (existsb _ _) in H; [destruct H|]. destruct H as [H|[]]. discriminate.
      + unfold check_version in H. destruct required; [|destruct H]. destruct (List.find _ _) as [(?, [?|])|]; try (destruct H; fail). destruct (wiki_lt _ _); [|destruct H]. destruct H as [H|[]]. discriminate.
    - intros (Ev & (e & P & Hh) & H). exists e, n, id, sp. split; [exact P|]. split; [exact Hh|]. apply in_app_iff. left. unfold check_unknown. rewrite Ev. destruct (LintModel.enabled unknown) eqn:E.
      + rewrite E. cbn [negb]. destruct H as (Hi & ->). destruct (existsb _ _) eqn:X; [|left; reflexivity]. apply existsb_exists in X as (i & Hin & X). apply eqb_bytes_spec in X. subst. contradiction.
      + rewrite H. left. reflexivity.
  Qed.
  (** An event is reported as being for another command exactly if it is known, but in none of the places that the command is for. *)
  Theorem C69_wrong_commands : forall script n id sp, In (IncorrectCommand n id sp) (findings script) <->
    event_handler id <> [] /\ (exists e, part e script /\ hears e n id sp) /\ (LintModel.enabled unknown = true -> ~ In n (ignore unknown)) /\
    forall p since, In p (by_command n) -> ~ In (p, since) (event_handler id).
  Proof using manager_of.
    intros script n id sp. rewrite findings_at. unfold cfg. split.
    - intros (e & n' & id' & sp' & P & Hh & H). apply in_app_iff in H as [H|H].
      + unfold check_unknown in H.
        assert (G : forall l, event_handler id' = l -> In (IncorrectCommand n id sp) (match l with
          | [] => [UnknownEvent n' (fst (id', sp')) (snd (id', sp')) match (if LintModel.enabled unknown then Some unknown else None) with Some c => LintModel.config_severity c | None => ExecModel.SWarning end]
          | _ => if existsb (fun q => among place_dec q (map fst l)) (by_command n') then [] else [IncorrectCommand n' (fst (id', sp')) (snd (id', sp'))] end) ->
          n' = n /\ id' = id /\ sp' = sp /\ l <> [] /\ forall p since, In p (by_command n) -> ~ In (p, since) l).
        { intros l _ Hl. destruct l as [|h l]; [destruct Hl as [Hl|[]]; discriminate|]. destruct (existsb _ _) eqn:X in Hl; [destruct Hl|]. destruct Hl as [Hl|[]]. cbn [fst snd] in Hl. injection Hl as -> -> ->.
          split; [reflexivity|]. split; [reflexivity|]. split; [reflexivity|]. split; [discriminate|]. intros p since Hp Hin.
          assert (Y : existsb (fun q => among place_dec q (map fst (h :: l))) (by_command n) = true); [|congruence].
          apply existsb_exists. exists p. split; [exact Hp|]. apply among_spec. apply in_map_iff. now exists (p, since). }
        destruct (LintModel.enabled unknown) eqn:E; [rewrite E in H; cbn [negb] in H; destruct (existsb _ _) eqn:Ei in H; [destruct H|]|];
          apply (G _ eq_refl) in H as (-> & -> & -> & Hne & Hp); (split; [exact Hne|]); (split; [eauto|]); (split; [|exact Hp]); [|discriminate].
        intros _ Hi. assert (X : existsb (fun i => eqb_bytes i n) (ignore unknown) = true). { apply existsb_exists. exists n. split; [exact Hi|]. now apply eqb_bytes_spec. } congruence.
      + unfold check_version in H. destruct required; [|destruct H]. destruct (List.find _ _) as [(?, [?|])|]; try (destruct H; fail). destruct (wiki_lt _ _); [|destruct H]. destruct H as [H|[]]. discriminate.
    - intros (Hne & (e & P & Hh) & Hi & Hp). exists e, n, id, sp. split; [exact P|]. split; [exact Hh|]. apply in_app_iff. left. unfold check_unknown.
      assert (X : existsb (fun q => among place_dec q (map fst (event_handler id))) (by_command n) = false).
      { apply not_true_is_false. intros X. apply existsb_exists in X as (p & Hin & X). apply among_spec in X. apply in_map_iff in X as ((q, since) & Eq & X). cbn [fst] in Eq. subst q. exact (Hp p since Hin X). }
      rewrite X. destruct (LintModel.enabled unknown) eqn:E; [|destruct (event_handler id); [congruence|left; reflexivity]].
      rewrite E. cbn [negb]. destruct (existsb (fun i => eqb_bytes i n) (ignore unknown)) eqn:Y; [|destruct (event_handler id); [congruence|left; reflexivity]].
      apply existsb_exists in Y as (i & Hin & Y). apply eqb_bytes_spec in Y. subst. now destruct (Hi eq_refl).
  Qed.
  (** And as being too new exactly if the first of its places that the command is for has it only since after the version the addon requires. *)
  Theorem C69_new_events : forall script n id sp since, In (InsufficientVersion n id sp since) (findings script) <->
    (exists e, part e script /\ hears e n id sp) /\ exists v before p after, required = Some v /\ event_handler id = before ++ (p, Some since) :: after /\
      In p (by_command n) /\ (forall q, In q (map fst before) -> ~ In q (by_command n)) /\ earlier (wiki_version v) since.
  Proof using manager_of.
    assert (F : forall ns l p since, List.find (fun h : Place * option (N * N) => among place_dec (fst h) ns) l = Some (p, since) <->
      exists before after, l = before ++ (p, since) :: after /\ In p ns /\ forall q, In q (map fst before) -> ~ In q ns).
    { intros ns l p since. induction l as [|h l IH]; cbn [List.find].
      - split; [discriminate|]. intros ([|? ?] & ? & H & _); discriminate.
      - destruct (among place_dec (fst h) ns) eqn:E.
        + apply among_spec in E. split.
          * intros [= ->]. exists [], l. cbn [fst] in E. split; [reflexivity|]. split; [exact E|]. intros q [].
          * intros ([|k before] & after & H & Hp & Hb); [injection H as -> _; reflexivity|]. injection H as -> _. exfalso. apply (Hb (fst k)); [now left|exact E].
        + rewrite IH. split.
          * intros (before & after & -> & Hp & Hb). exists (h :: before), after. split; [reflexivity|]. split; [exact Hp|]. intros q [<-|Hq]; [intros X; apply among_spec in X; congruence|auto].
          * intros ([|k before] & after & H & Hp & Hb).
            -- injection H as -> _. apply among_spec in Hp. cbn [fst] in E. congruence.
            -- injection H as -> ->. exists before, after. split; [reflexivity|]. split; [exact Hp|]. intros q Hq. apply Hb. now right. }
    intros script n id sp since. rewrite findings_at. split.
    - intros (e & n' & id' & sp' & P & Hh & H). apply in_app_iff in H as [H|H].
      + unfold check_unknown in H. destruct (match cfg with Some c => negb (LintModel.enabled c) | None => false end); [destruct H|].
        destruct (match cfg with Some c => existsb _ _ | None => false end); [destruct H|].
        destruct (event_handler id'); [destruct H as [H|[]]; discriminate|]. destruct (existsb _ _); [destruct H|destruct H as [H|[]]; discriminate].
      + unfold check_version in H. destruct required as [v|]; [|destruct H]. destruct (List.find _ _) as [(p, [s|])|] eqn:Ef; try (destruct H; fail).
        destruct (wiki_lt _ _) eqn:El; [|destruct H]. destruct H as [H|[]]. cbn [fst snd] in H. injection H as -> -> -> ->. split; [eauto|].
        apply F in Ef as (before & after & Hl & Hp & Hb). apply wiki_lt_spec in El. exists v, before, p, after. auto.
    - intros ((e & P & Hh) & v & before & p & after & Ev & Hl & Hp & Hb & He). exists e, n, id, sp. split; [exact P|]. split; [exact Hh|]. apply in_app_iff. right.
      unfold check_version. rewrite Ev. assert (Ef := proj2 (F (by_command n) (event_handler id) p (Some since)) (ex_intro _ before (ex_intro _ after (conj Hl (conj Hp Hb))))).
      rewrite Ef. apply wiki_lt_spec in He. rewrite He. left. reflexivity.
  Qed.

  (** An expression without blocks is reported once, and once more for every block it stands in. *)
  Theorem C69_once_per_block_refuted : forall e sp, (forall c src p, ~ within (ECode c src p) e) -> forall k src sp',
    findings [SExpr (nest k src sp' e) sp] = concat (repeat (findings [SExpr e sp]) (S k)).
  Proof using manager_of.
    intros e sp Hc k src sp'. unfold event_findings. set (run := fun t => match t with OnScript c =>
      flat_map (LintModel.run_group (fun _ cs => s02 place_dec by_command event_handler ignore required cs c) m) (LintModel.groups m) | _ => [] end).
    assert (L : forall d, (forall c src p, ~ within (ECode c src p) d) -> analyze_expression run d = []).
    { intros d Hd. destruct (analyze_expression run d) as [|x l] eqn:E; [reflexivity|]. assert (X : In x (analyze_expression run d)) by (rewrite E; now left).
      apply expression_walk in X as (y & Hy & X). unfold here in X. apply in_app_iff in X as [[]|X]. destruct y; try (destruct X; fail). exfalso. eapply Hd. exact Hy. }
    assert (W : forall j s, run (OnScript [SExpr (nest j src sp' e) s]) = run (OnScript [SExpr e s])).
    { intros j s. unfold run. rewrite !group_run. cbn [flat_map stmt_expr]. rewrite !app_nil_r. induction j as [|j IH]; [reflexivity|]. cbn [nest walk_expressions flat_map]. rewrite app_nil_r, <- IH. reflexivity. }
    assert (W' : forall s s', run (OnScript [SExpr e s]) = run (OnScript [SExpr e s'])) by (intros s s'; unfold run; rewrite !group_run; reflexivity).
    unfold analyze_script. cbn [flat_map]. unfold analyze_statement. cbn [stmt_expr]. rewrite (L e Hc). rewrite W. change (run (OnStatement (SExpr (nest k src sp' e) sp))) with (@nil event_code).
    change (run (OnStatement (SExpr e sp))) with (@nil event_code). rewrite !app_nil_r. cbn [app repeat concat]. f_equal.
    induction k as [|k IH]; [cbn [nest repeat concat]; now apply L|]. cbn [nest repeat concat analyze_expression flat_map].
    change (run (OnExpression (ECode [SExpr (nest k src sp' e) sp'] src sp'))) with (@nil event_code). change (run (OnStatement (SExpr (nest k src sp' e) sp'))) with (@nil event_code).
    cbn [app]. rewrite app_nil_r, IH, W. now rewrite (W' sp' sp).
  Qed.
End Events.
Print Assumptions C69_unknown_events.
Print Assumptions C69_wrong_commands.
Print Assumptions C69_new_events.
Print Assumptions C69_once_per_block_refuted.

(** Events of units ([true]) and of missions ([false]), as the wiki might have them. *)
Definition by69 (n : text) : list bool := if eqb_bytes n (bs "addEventHandler") then [true] else if eqb_bytes n (bs "addMissionEventHandler") then [false] else [].
Definition handlers69 (id : text) : list (bool * option (N * N)) :=
  if eqb_bytes id (bs "Killed") then [(true, Some (1, 0))] else if eqb_bytes id (bs "Optics") then [(false, None); (true, Some (2, 10))] else if eqb_bytes id (bs "Loaded") then [(false, Some (1, 0))] else [].
(** [player addEventHandler ["…", {}]] *)
Definition add69 (id : string) : expr :=
  EBinary (BNamed (bs "addEventHandler")) (ENular (bs "player") (0, 6)) (EArray [EString (bs id) (24, 30) DoubleQuote; ECode [] (bs "}") (32, 34)] (23, 35)) (7, 22).
Definition plain69 : LintModel.settings := LintModel.Settings [] [] [].
Definition off69 : LintModel.settings := LintModel.Settings [] [(bs "event_unknown", LintModel.Override (Some false) None [])] [].
Definition ignore69 (c : LintModel.config) : list text := match LintModel.options c with [] => [] | o => map snd o end.
Definition ignoring69 : LintModel.settings := LintModel.Settings [] [(bs "event_unknown", LintModel.Override None None [(bs "ignore", bs "Healed")])] [].
Notation find69 := (event_findings Bool.bool_dec by69 handlers69 ignore69 (Some (v67 0))).
Example C69_case : exists m, LintModel.sqf_manager plain69 = Some m /\
  find69 m (map (fun id => SExpr (add69 id) (0, 36)) ["Killed"%string; "Healed"%string; "Optics"%string; "Loaded"%string]) =
  [UnknownEvent (bs "addEventHandler") (bs "Healed") (24, 30) ExecModel.SWarning; InsufficientVersion (bs "addEventHandler") (bs "Optics") (24, 30) (2, 10);
   IncorrectCommand (bs "addEventHandler") (bs "Loaded") (24, 30)].
Proof. eexists. split; [reflexivity|]. vm_compute. reflexivity. Qed.
(** Switching the lint off is accepted and changes nothing. *)
Theorem C69_switched_off_refuted : exists m, LintModel.sqf_check off69 = true /\ LintModel.sqf_manager off69 = Some m /\
  LintModel.enabled (LintModel.effective (LintModel.sqf_settings off69) (LintModel.mk "event_unknown" LintModel.warning_config)) = false /\
  find69 m [SExpr (add69 "Healed") (0, 36)] = [UnknownEvent (bs "addEventHandler") (bs "Healed") (24, 30) ExecModel.SWarning].
Proof. eexists. split; [vm_compute; reflexivity|]. split; [reflexivity|]. vm_compute. auto. Qed.
(** An event that the settings say to ignore is reported all the same: the list is looked up for the command. *)
Theorem C69_ignored_event_refuted : exists m, LintModel.sqf_manager ignoring69 = Some m /\
  ignore69 (LintModel.effective (LintModel.sqf_settings ignoring69) (LintModel.mk "event_unknown" LintModel.warning_config)) = [bs "Healed"] /\
  find69 m [SExpr (add69 "Healed") (0, 36)] = [UnknownEvent (bs "addEventHandler") (bs "Healed") (24, 30) ExecModel.SWarning].
Proof. eexists. split; [reflexivity|]. vm_compute. auto. Qed.
Print Assumptions C69_switched_off_refuted.
Print Assumptions C69_ignored_event_refuted.
