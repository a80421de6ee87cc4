(** C38. *)
From Coq Require Import String.
From Verif Require Import Base.Tactics Base.Bytes Base.Ascii Base.Sort Bin.ExecModel Bin.LintModel Bin.LintSpec.
Local Open Scope N_scope.
Local Open Scope list_scope.

Lemma get_app : forall {V} (a b : map_of V) k, get (a ++ b) k = match get b k with Some v => Some v | None => get a k end.
Proof.
  intros V a b k. induction a as [|[k' v] a IH]; cbn [get app]; [now destruct (get b k)|]. rewrite IH. now destruct (get b k).
Qed.
(** Each lint is set as the settings say. *)
Theorem C38_effective_is_set : forall s l, is_set s l (effective s l).
Proof.
  intros s l. unfold effective. split.
  - destruct (get s (ident l)) as [[[|] ? ?]|]; reflexivity.
  - destruct (get s (ident l)) as [[? [|] ?]|]; reflexivity.
  - intros k. destruct (get s (ident l)) as [[? ? o]|]; [|reflexivity]. cbn [apply options o_options]. apply get_app.
Qed.

Section P.
  Context {C G : Type}.
  Lemma check_lints_none : forall (m : manager G) ls, check_lints m ls = 0%nat <-> forall l, In l ls -> lint_errors m l = 0%nat.
  Proof.
    intros m ls. unfold check_lints.
    assert (K : forall ls n, fold_left (fun n l => (n + lint_errors m l)%nat) ls n = 0%nat <-> n = 0%nat /\ forall l, In l ls -> lint_errors m l = 0%nat).
    { clear ls. induction ls as [|l ls IH]; intros n; cbn [fold_left]; [firstorder|]. rewrite IH. split.
      - intros [H1 H2]. split; [lia|]. intros k [<-|Hk]; [lia|auto].
      - intros [H1 H2]. split; [rewrite H2; [lia|now left]|]. intros k Hk. apply H2. now right. }
    rewrite K. tauto.
  Qed.
  Lemma lint_errors_none : forall (m : manager G) l, lint_errors m l = 0%nat <->
    (forall k, In k (lints m) -> ident k <> ident l) /\ (get (configs m) (ident l) <> None -> allowed l (effective (configs m) l)).
  Proof.
    intros m l. unfold lint_errors.
    assert (D : existsb (fun k => eqb_bytes (ident k) (ident l)) (lints m) = false <-> forall k, In k (lints m) -> ident k <> ident l).
    { split.
      - intros H k Hk E. assert (X : existsb (fun k => eqb_bytes (ident k) (ident l)) (lints m) = true); [|congruence].
        apply existsb_exists. exists k. split; [auto|]. now apply eqb_bytes_spec.
      - intros H. destruct (existsb _ _) eqn:X; [|reflexivity]. apply existsb_exists in X as (k & Hk & E). apply eqb_bytes_spec in E. destruct (H k Hk E). }
    assert (B : forall b, b2n b = 0%nat <-> b = false) by (intros [|]; cbn; split; congruence).
    unfold effective, allowed. destruct (get (configs m) (ident l)) as [o|]; cbv zeta.
    - rewrite <- D, !Nat.eq_add_0, !B, N.ltb_ge, andb_false_iff, negb_false_iff. split.
      + intros (H1 & H2 & H3). split; [auto|]. intros _. split; [auto|]. intros Hm. rewrite Hm in H3. destruct H3; [auto|discriminate].
      + intros [H1 H2]. destruct H2 as [H2 H3]; [discriminate|]. split; [auto|]. split; [auto|]. destruct (minimum l); auto.
    - rewrite Nat.add_0_r, B, D. firstorder.
  Qed.
  Lemma push_groups_some : forall gs (m : manager G), (exists m', push_groups m gs = Some m') <-> forall g, In g gs -> check_lints m (fst g) = 0%nat.
  Proof.
    induction gs as [|[ls g] gs IH]; intros m; cbn [push_groups].
    - split; [intros _ g []|eauto].
    - unfold push_group. destruct (check_lints m ls) eqn:E.
      + rewrite IH. split.
        * intros H [ls' g'] [X|Hg]; [injection X as <- <-; auto|]. exact (H _ Hg).
        * intros H g' Hg. exact (H g' (or_intror Hg)).
      + split; [intros (m' & H); discriminate|]. intros H. specialize (H (ls, g) (or_introl eq_refl)). cbn [fst] in H. congruence.
  Qed.

  (** A set of lints is accepted exactly if every setting is allowed, and no lint of a group has the name of one outside. *)
  Theorem C38_accepted_iff : forall s ls (gs : list (list lint * G)),
    lint_check s ls gs = true <->
    (forall l, In l (ls ++ flat_map fst gs) -> get s (ident l) <> None -> allowed l (effective s l)) /\
    (forall k l, In k ls -> In l (flat_map fst gs) -> ident k <> ident l).
  Proof.
    intros s ls gs. unfold lint_check, build_manager, extend.
    destruct (check_lints (new_manager s) ls) eqn:E.
    - set (m := Manager (lints (new_manager s) ++ ls) (groups (new_manager s)) (configs (new_manager s))).
      pose proof (proj1 (check_lints_none _ _) E) as E1.
      assert (P : (exists m' : manager G, push_groups m gs = Some m') <-> forall g, In g gs -> check_lints m (fst g) = 0%nat) by apply push_groups_some.
      transitivity (exists m' : manager G, push_groups m gs = Some m'); [destruct (push_groups m gs); split; eauto; [discriminate|intros (? & [=])]|].
      rewrite P. split.
      + intros H. split.
        * intros l Hl. apply in_app_or in Hl as [Hl|Hl].
          -- apply (lint_errors_none (new_manager s)). now apply E1.
          -- apply in_flat_map in Hl as (g & Hg & Hl). apply (lint_errors_none m). apply (proj1 (check_lints_none _ _) (H g Hg)). exact Hl.
        * intros k l Hk Hl. apply in_flat_map in Hl as (g & Hg & Hl).
          apply (proj1 (lint_errors_none m l)); [|exact Hk]. apply (proj1 (check_lints_none _ _) (H g Hg)). exact Hl.
      + intros [H1 H2] g Hg. apply check_lints_none. intros l Hl. apply lint_errors_none.
        assert (I : In l (flat_map fst gs)) by (apply in_flat_map; eauto). split.
        * intros k Hk. apply H2; auto.
        * intros Hn. apply H1; [apply in_or_app; auto|auto].
    - split; [discriminate|]. intros [H1 _]. exfalso. assert (Z : check_lints (new_manager (G := G) s) ls = 0%nat); [|congruence].
      apply check_lints_none. intros l Hl. apply lint_errors_none. split; [intros k []|]. intros Hn. apply H1; [apply in_or_app; auto|auto].
  Qed.

  (** Then every lint is within its bounds, if its default is. *)
  Theorem C38_mandatory_lints_stay : forall s ls (gs : list (list lint * G)) l, lint_check s ls gs = true ->
    In l (ls ++ flat_map fst gs) -> allowed l (default_config l) -> allowed l (effective s l).
  Proof.
    intros s ls gs l H Hl Hd. apply C38_accepted_iff in H as [H _]. destruct (get s (ident l)) eqn:E; [apply H; auto; congruence|].
    unfold effective. now rewrite E.
  Qed.

  (** The lints that are on run, in order, each as it is set; a group runs with those of its lints that are on, if any is. *)
  Theorem C38_runs_as_set : forall (find : lint -> config -> list C) (find_group : G -> map_of config -> list C) s ls gs m,
    build_manager s ls gs = Some m ->
    run_lints find find_group m =
      flat_map (fun l => find l (effective s l)) (filter (fun l => enabled (effective s l)) ls) ++
      flat_map (fun g => find_group (snd g) (map (fun l => (ident l, effective s l)) (filter (fun l => enabled (effective s l)) (fst g))))
        (filter (fun g => existsb (fun l => enabled (effective s l)) (fst g)) gs).
  Proof.
    intros find find_group s ls gs m H.
    assert (X : m = Manager ls gs s).
    { unfold build_manager, extend in H. destruct (check_lints _ _); [|discriminate]. cbn [lints groups configs new_manager app] in H.
      assert (K : forall (gs gs0 : list (list lint * G)) m, push_groups (Manager ls gs0 s) gs = Some m -> m = Manager ls (gs0 ++ gs) s).
      { clear. induction gs as [|[l g] gs IH]; intros gs0 m H; cbn [push_groups] in H; [rewrite app_nil_r; congruence|].
        unfold push_group in H. destruct (check_lints _ _); [|discriminate]. cbn [lints groups configs] in H. apply IH in H. now rewrite <- app_assoc in H. }
      apply (K gs [] m H). }
    assert (Hc : configs m = s) by now subst m. unfold run_lints. replace (lints m) with ls by now subst m. replace (groups m) with gs by now subst m. clear X H. f_equal.
    - induction ls as [|l ls IH]; cbn [flat_map filter]; [reflexivity|]. unfold run_lint at 1. rewrite Hc. cbv zeta.
      destruct (enabled (effective s l)); cbn [flat_map app]; now rewrite IH.
    - assert (K : forall ks acc, fold_left (fun acc l => let c := effective s l in if enabled c then acc ++ [(ident l, c)] else acc) ks acc =
        acc ++ map (fun l => (ident l, effective s l)) (filter (fun l => enabled (effective s l)) ks)).
      { clear. induction ks as [|l ks IH]; intros acc; cbn [fold_left filter]; [now rewrite app_nil_r|]. cbv zeta.
        destruct (enabled (effective s l)); rewrite IH; [|reflexivity]. cbn [map]. now rewrite <- app_assoc. }
      induction gs as [|[l g] gs IH]; cbn [flat_map filter]; [reflexivity|]. unfold run_group at 1, group_configs. rewrite Hc. cbn [fst snd]. cbv zeta.
      rewrite K. cbn [app].
      assert (N : existsb (fun l => enabled (effective s l)) l = negb (match filter (fun l => enabled (effective s l)) l with [] => true | _ => false end)).
      { clear. induction l as [|x l IH]; cbn [existsb filter]; [reflexivity|]. now destruct (enabled (effective s x)). }
      rewrite N. destruct (filter _ l) as [|y k] eqn:Fl; cbn [map negb flat_map app fst snd]; rewrite IH; [reflexivity|]. now rewrite Fl.
  Qed.
End P.

(** HEMTT's own lints have defaults within their bounds, so its checks keep all of them within bounds. *)
Theorem C38_own_lints : forall st,
  (rapifier_check st = true -> forall l, In l config_lints -> allowed l (effective (config_settings st) l)) /\
  (sqf_check st = true -> forall l, In l (sqf_lints ++ flat_map fst sqf_groups) -> allowed l (effective (sqf_settings st) l)).
Proof.
  assert (D : forall l, In l (config_lints ++ sqf_lints ++ flat_map fst sqf_groups) -> allowed l (default_config l)).
  { intros l H. cbn in H. repeat destruct H as [<-|H]; try (split; [discriminate|reflexivity]); try (split; [discriminate|discriminate]). destruct H. }
  intros st. split; intros H l Hl.
  - apply (C38_mandatory_lints_stay (G := unit) (config_settings st) config_lints []); auto.
    apply D. apply in_or_app. auto.
  - apply (C38_mandatory_lints_stay (G := unit) (sqf_settings st) sqf_lints sqf_groups); auto. apply D. apply in_or_app. auto.
Qed.
(** The check of the stringtables looks at the settings of the SQF lints: it passes settings that are not allowed, and
    fails on SQF settings that mean nothing to it. *)
Theorem C38_stringtables_check_refuted :
  (exists st, stringtables_check st = true /\ stringtable_manager st = None) /\
  (exists st, stringtables_check st = false /\ stringtable_manager st <> None /\ sqf_check st = true).
Proof.
  split.
  - exists (Settings [] [] [(bs "sorted", override_of (FSeverity SHelp))]). split; vm_compute; reflexivity.
  - exists (Settings [] [(bs "sorted", override_of (FSeverity SHelp))] []). split; [vm_compute; reflexivity|]. split; [vm_compute; discriminate|vm_compute; reflexivity].
Qed.
(** Two lints of one list may have the same name. *)
Theorem C38_same_name_refuted : exists a b, a <> b /\ ident a = ident b /\ lint_check (G := unit) [] [a; b] [] = true.
Proof. exists (mk "a" error_config), (mk "a" help_config). split; [discriminate|]. split; reflexivity. Qed.

(** Which of HEMTT's own lints can be set to what: to a severity not below the lowest, and off if that is not error. *)
Lemma unknown_name : forall (ls : list lint) (gs : list (list lint * unit)) name o, ~ In name (map ident (ls ++ flat_map fst gs)) -> lint_check [] ls gs = true -> lint_check [(name, o)] ls gs = true.
Proof.
  intros ls gs name o N H. apply C38_accepted_iff in H as [_ H]. apply C38_accepted_iff. split; [|exact H]. intros l I G. exfalso. apply G. cbn [get].
  destruct (eqb_bytes (ident l) name) eqn:E; [|reflexivity]. apply eqb_bytes_spec in E. elim N. rewrite <- E. now apply in_map.
Qed.
Lemma found_help table name : ~ In name (map (fun e => bs (fst e)) table) -> found table name = SHelp.
Proof.
  unfold found. induction table as [|[k v] table IH]; intros N; [reflexivity|]. cbn [find fst map In] in *. destruct (eqb_bytes (bs k) name) eqn:E; [apply eqb_bytes_spec in E; tauto|]. apply IH. tauto.
Qed.
Definition all_severities : list severity := [SHelp; SNote; SWarning; SError; SBug].
Lemma names_settle : forall (ls : list lint) (gs : list (list lint * unit)) table, lint_check [] ls gs = true ->
  (forall k, In k (map (fun e => bs (fst e)) table) -> In k (map ident (ls ++ flat_map fst gs))) ->
  forallb (fun name => forallb (fun v => Bool.eqb (lint_check [(name, override_of (FSeverity v))] ls gs) (rank (found table name) <=? rank v)) all_severities &&
    Bool.eqb (lint_check [(name, override_of (FEnabled false))] ls gs) (negb (match found table name with SError => true | _ => false end)) &&
    lint_check [(name, override_of (FEnabled true))] ls gs) (map ident (ls ++ flat_map fst gs)) = true ->
  forall name, (forall v, lint_check [(name, override_of (FSeverity v))] ls gs = true <-> rank (found table name) <= rank v) /\
    (lint_check [(name, override_of (FEnabled false))] ls gs = true <-> found table name <> SError) /\ lint_check [(name, override_of (FEnabled true))] ls gs = true.
Proof.
  intros ls gs table E T H name. destruct (in_dec (list_eq_dec N.eq_dec) name (map ident (ls ++ flat_map fst gs))) as [I|I].
  - rewrite forallb_forall in H. specialize (H name I). apply andb_prop in H as [H C]. apply andb_prop in H as [A B]. split; [|split; [|exact C]].
    + intros v. rewrite forallb_forall in A. specialize (A v ltac:(unfold all_severities; destruct v; cbn [In]; tauto)). apply Bool.eqb_prop in A. rewrite A. apply N.leb_le.
    + apply Bool.eqb_prop in B. rewrite B. destruct (found table name); cbn [negb]; split; congruence.
  - rewrite found_help by (intros K; apply I, T, K). split; [|split].
    + intros v. split; [intros _; destruct v; vm_compute; discriminate|intros _; now apply unknown_name].
    + split; [discriminate|intros _; now apply unknown_name].
    + now apply unknown_name.
Qed.
Lemma in_names (l k : list bytes) : forallb (fun x => existsb (eqb_bytes x) k) l = true -> forall x, In x l -> In x k.
Proof. intros H x I. rewrite forallb_forall in H. specialize (H x I). apply existsb_exists in H as (y & J & E). apply eqb_bytes_spec in E. now subst. Qed.
Theorem C38_lowest : forall name,
  (forall v, rapifier_check (Settings [(name, override_of (FSeverity v))] [] []) = true <-> rank (lowest_config name) <= rank v) /\
  (rapifier_check (Settings [(name, override_of (FEnabled false))] [] []) = true <-> lowest_config name <> SError) /\
  (forall v, sqf_check (Settings [] [(name, override_of (FSeverity v))] []) = true <-> rank (lowest_sqf name) <= rank v) /\
  (sqf_check (Settings [] [(name, override_of (FEnabled false))] []) = true <-> lowest_sqf name <> SError).
Proof.
  intros name. unfold rapifier_check, sqf_check, lowest_config, lowest_sqf. cbn [config_settings sqf_settings].
  match goal with |- context [found ?t name <> SError] => pose proof (names_settle config_lints [] t) as A end.
  match goal with |- _ /\ _ /\ _ /\ (_ <-> found ?t name <> SError) => pose proof (names_settle sqf_lints sqf_groups t) as B end.
  destruct (A ltac:(vm_compute; reflexivity) ltac:(apply in_names; vm_compute; reflexivity) ltac:(vm_compute; reflexivity) name) as (A1 & A2 & _).
  destruct (B ltac:(vm_compute; reflexivity) ltac:(apply in_names; vm_compute; reflexivity) ltac:(vm_compute; reflexivity) name) as (B1 & B2 & _).
  split; [exact A1|]. split; [exact A2|]. split; [exact B1|exact B2].
Qed.

Definition some_settings : settings := Settings
  [(bs "magwell_missing_magazine", override_of (FSeverity SWarning)); (bs "external_parent_case", override_of (FEnabled false))]
  [(bs "banned_commands", override_of (FFull (Override (Some false) (Some SWarning) [(bs "ignore", bs "x")]))); (bs "this_call", override_of (FEnabled true))] [].
Example accepted : rapifier_check some_settings = true /\ sqf_check some_settings = true.
Proof. split; vm_compute; reflexivity. Qed.
Example rejected : rapifier_check (Settings [(bs "invalid_value", override_of (FEnabled false))] [] []) = false /\
  sqf_check (Settings [] [(bs "event_incorrect_command", override_of (FSeverity SWarning))] []) = false.
Proof. split; vm_compute; reflexivity. Qed.

Print Assumptions C38_effective_is_set.
Print Assumptions C38_accepted_iff.
Print Assumptions C38_mandatory_lints_stay.
Print Assumptions C38_runs_as_set.
Print Assumptions C38_own_lints.
Print Assumptions C38_lowest.
Print Assumptions C38_stringtables_check_refuted.
Print Assumptions C38_same_name_refuted.
