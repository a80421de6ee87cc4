(** When the version that an addon's config asks for is known in a run (C91). Modelled: the order of the modules
    (commands/mod.rs:22-27, check.rs:26-47, dev.rs:95-171, build.rs:96-116, release.rs:71-94, executor.rs:80-131: Bin/ExecModel.v),
    together with [BuildData] (workspace/src/addons.rs:238-275): a cell for each addon that is empty at first and that only the
    conversion of configs sets (modules/rapifier.rs:143-160). *)
From Coq Require Import String.
From Verif Require Import Base.Tactics Base.Bytes Base.Ascii Base.Text Base.Sort Common.VersionModel Config.PatchModel Bin.ExecModel Bin.ExecSpec Bin.RequiredSpec.
From Verif Require Sqf.Ast Sqf.WalkModel Sqf.WalkProps Bin.LintModel Config.PatchProps.
Local Open Scope list_scope.

Section Steps.
  Context {W E C K : Type} (severity_of : C -> severity).
  Context (phase : module -> stage -> W -> W * result E C) (build_pbos release_archive : W -> W * result E C).
  Definition act (s : step module) (w : W) : W * result E C :=
    match s with Phase m s => phase m s w | BuildPbos => build_pbos w | MakeArchive => release_archive w end.
  (** What is known about the addons, and that only converting configs changes it. *)
  Context (known : W -> K).
  Hypothesis only_rapifier : forall s w, s <> Phase Rapifier PreBuild -> known (fst (act s w)) = known w.
  Notation runs := (runs severity_of act).
  Notation reaches := (reaches severity_of act).

  Lemma runs_kept : forall ss w did w1 r, runs ss w did w1 r -> ~ In (Phase Rapifier PreBuild) did -> known w1 = known w.
  Proof using only_rapifier.
    intros ss w did w1 r H. induction H as [w|s ss w w1 e A|s ss w w1 codes A Hc|s ss w w1 codes did w2 r A Hc R IH]; intros Hn; [reflexivity| | |].
    1, 2: pose proof (only_rapifier s w) as O; rewrite A in O; apply O; intros ->; apply Hn; now left.
    pose proof (only_rapifier s w) as O. rewrite A in O. cbn [fst] in O. rewrite IH; [apply O; intros ->; apply Hn; now left|]. intros X; apply Hn; now right.
  Qed.
  Lemma runs_cons : forall s ss w w1 codes, runs (s :: ss) w (s :: ss) w1 (Ok codes) -> ~ has_error severity_of codes ->
    exists w2 c1 c2, act s w = (w2, Ok c1) /\ ~ has_error severity_of c1 /\ runs ss w2 ss w1 (Ok c2) /\ ~ has_error severity_of c2 /\ codes = c1 ++ c2.
  Proof using.
    intros s ss w w1 codes R He. remember (s :: ss) as l eqn:Hl in R at 1. remember (s :: ss) as d eqn:Hd in R. remember (Ok codes) as r eqn:Hr in R.
    destruct R as [w|s' ss' w w' e A|s' ss' w w' c A Hc|s' ss' w w' c did w2 r A Hc R]; [discriminate|discriminate| |].
    - injection Hr as ->. contradiction.
    - injection Hl as -> ->. injection Hd as ->. destruct r as [more|e]; [|discriminate]. injection Hr as <-. exists w', c, more.
      split; [exact A|]. split; [exact Hc|]. split; [exact R|]. split; [|reflexivity]. intros (k & Hk & Hs). apply He. exists k. split; [apply in_or_app; now right|exact Hs].
  Qed.
  Lemma runs_split : forall w w1 codes before s after, runs (before ++ s :: after) w (before ++ s :: after) w1 (Ok codes) -> ~ has_error severity_of codes ->
    exists w0 codes0 codes2, runs before w before w0 (Ok codes0) /\ ~ has_error severity_of codes0 /\
      runs after (fst (act s w0)) after w1 (Ok codes2) /\ ~ has_error severity_of codes2.
  Proof using.
    intros w w1 codes before s after. revert w codes. induction before as [|b before IH]; intros w codes R He; cbn [app] in R;
      destruct (runs_cons _ _ _ _ _ R He) as (w2 & c1 & c2 & A & H1 & R2 & H2 & ->).
    - exists w, [], c2. split; [constructor|]. split; [intros (? & [] & _)|]. rewrite A. split; [exact R2|exact H2].
    - destruct (IH _ _ R2 H2) as (w0 & k0 & k2 & X & Xe & Y & Ye). exists w0, (c1 ++ k0), k2.
      split; [exact (runs_next _ _ _ _ _ _ _ _ _ _ A H1 X)|]. split; [|split; assumption].
      intros (c & Hc & Hs). apply in_app_or in Hc as [Hc|Hc]; [apply H1|apply Xe]; now exists c.
  Qed.
  (** The steps of the commands. *)
  Lemma first_at : forall (a : step module) pre post before after, ~ In a pre -> ~ In a post -> pre ++ a :: post = before ++ a :: after -> before = pre.
  Proof using.
    intros a pre. induction pre as [|p pre IH]; intros post before after Hn Hp H.
    - destruct before as [|b before]; [reflexivity|]. injection H as <- H. exfalso. apply Hp. rewrite H. apply in_or_app. right. now left.
    - destruct before as [|b before]; [injection H as -> _; exfalso; apply Hn; now left|]. injection H as -> H. f_equal.
      apply (IH post before after); auto. intros X; apply Hn; now right.
  Qed.
  Ltac absent := let X := fresh in intros X; repeat (destruct X as [X|X]; [discriminate|]); exact X.
  Lemma sqf_at : forall x rap writes, command x rap writes -> exists pre post, steps x = pre ++ Phase SQFCompiler PreBuild :: post /\
    ~ In (Phase SQFCompiler PreBuild) pre /\ ~ In (Phase SQFCompiler PreBuild) post /\ ~ In (Phase Rapifier PreBuild) pre.
  Proof using.
    intros x rap writes H.
    destruct H as [|[|] [|] [|] [|]|[|] [|]|[|] [|] [|] [|] [|] [|]]; cbv -[not In].
    all: match goal with |- exists pre post, ?l = _ /\ _ =>
      let rec go acc l := lazymatch l with
        | Phase SQFCompiler PreBuild :: ?post => exists (rev acc), post
        | ?a :: ?r => go (a :: acc) r
        end in go (@nil (step module)) l end.
    all: cbn [rev app]; split; [reflexivity|]; split; [absent|]; split; absent.
  Qed.

  (** When the scripts are checked and compiled, nothing is known that was not before the run: the configs are converted after
      that, in every command and with all flags. *)
  Theorem C91_scripts_first : forall x rap writes w w1, command x rap writes -> reaches x w (Phase SQFCompiler PreBuild) w1 -> known w1 = known w.
  Proof using only_rapifier.
    intros x rap writes w w1 Hx (before & after & codes & Hs & R & He). destruct (sqf_at _ _ _ Hx) as (pre & post & Hp & N1 & N2 & N3).
    rewrite Hp in Hs. apply first_at in Hs; [|assumption..]. subst before. eapply runs_kept; [exact R|exact N3].
  Qed.

  Lemma post_at : forall x writes, command x true writes -> writes = true -> exists pre mid post,
    steps x = (pre ++ Phase Rapifier PreBuild :: mid) ++ Phase SQFCompiler PostBuild :: post /\
    ~ In (Phase SQFCompiler PostBuild) (pre ++ Phase Rapifier PreBuild :: mid) /\ ~ In (Phase SQFCompiler PostBuild) post /\ ~ In (Phase Rapifier PreBuild) mid.
  Proof using.
    intros x writes H Hw. remember true as rap eqn:Hr in H.
    destruct H as [|[|] [|] [|] [|]|[|] [|]|[|] [|] [|] [|] [|] [|]]; try discriminate; clear Hr Hw; cbv -[not In].
    all: match goal with |- exists pre mid post, ?l = _ /\ _ =>
      let rec go2 acc l k := lazymatch l with
        | Phase SQFCompiler PostBuild :: ?post => k acc post
        | ?a :: ?r => go2 (a :: acc) r k
        end in
      let rec go acc l := lazymatch l with
        | Phase Rapifier PreBuild :: ?r => exists (rev acc); go2 (@nil (step module)) r ltac:(fun m p => exists (rev m), p)
        | ?a :: ?r => go (a :: acc) r
        end in go (@nil (step module)) l end.
    all: cbn [rev app]; split; [reflexivity|]; split; [absent|]; split; absent.
  Qed.
  (** When it is said which addons need a game that is not out yet, what the conversion of the configs left is known. *)
  Theorem C91_after_the_configs : forall x w w1, command x true true -> reaches x w (Phase SQFCompiler PostBuild) w1 ->
    exists w0, reaches x w (Phase Rapifier PreBuild) w0 /\ known w1 = known (fst (phase Rapifier PreBuild w0)).
  Proof using only_rapifier.
    intros x w w1 Hx (before & after & codes & Hs & R & He). destruct (post_at _ _ Hx eq_refl) as (pre & mid & post & Hp & N1 & N2 & N3).
    pose proof Hs as Hs'. rewrite Hp in Hs. apply first_at in Hs; [|assumption..]. subst before.
    destruct (runs_split _ _ _ _ _ _ R He) as (w0 & c0 & c2 & R0 & H0 & R2 & H2). exists w0. split.
    - exists pre, (mid ++ Phase SQFCompiler PostBuild :: after), c0. split; [|split; assumption]. rewrite Hs', <- app_assoc. reflexivity.
    - exact (runs_kept _ _ _ _ _ R2 N3).
  Qed.
  (** A run that does not convert configs, and a check, say nothing of it: the first knows of no version, the second does not
      come so far. *)
  Theorem C91_without_configs : forall x rap writes w w1, command x rap writes -> reaches x w (Phase SQFCompiler PostBuild) w1 ->
    writes = true /\ (rap = false -> known w1 = known w).
  Proof using only_rapifier.
    intros x rap writes w w1 Hx (before & after & codes & Hs & R & He). split.
    - destruct Hx; try reflexivity. exfalso. assert (X : In (Phase SQFCompiler PostBuild) (steps check_command)) by (rewrite Hs; apply in_or_app; right; now left).
      cbv in X. revert X. absent.
    - intros Hr. eapply runs_kept; [exact R|]. intros X. assert (Y : In (Phase Rapifier PreBuild) (steps x)) by (rewrite Hs; apply in_or_app; now left).
      revert Y. clear -Hx Hr. destruct Hx as [|[|] [|] [|] [|]|[|] [|]|[|] [|] [|] [|] [|] [|]]; try discriminate; cbv; absent.
  Qed.
End Steps.

(** ** What the lints make of it *)
(** The two lints that compare with the version of the addon: too new commands (s01_command_required_version.rs:61-98) and too
    new events (s02_event_handlers.rs:260-300), on a script of the addon [a] in the world [w]. *)
Section Lints.
  Context {W E C A Place : Type} (severity_of : C -> severity).
  Context (phase : module -> stage -> W -> W * result E C) (build_pbos release_archive : W -> W * result E C).
  Context (required : W -> A -> option version).
  Hypothesis only_rapifier : forall s w, s <> Phase Rapifier PreBuild -> required (fst (act phase build_pbos release_archive s w)) = required w.
  Context (place_dec : forall a b : Place, {a = b} + {a <> b}) (by_command : text -> list Place) (event_handler : text -> list (Place * option (N * N))).
  Context (db : text -> option (N * N)) (ignore : LintModel.config -> list text) (st : LintModel.settings) (m : LintModel.manager unit).
  Hypothesis manager_of : LintModel.sqf_manager st = Some m.

  (** In no run of any command, with any flags, settings, configs and scripts, is a command or an event too new for the addon
      reported: no version is known then. *)
  Theorem C91_never_too_new_refuted : forall x rap writes w w1, command x rap writes -> (forall a, required w a = None) ->
    reaches severity_of (act phase build_pbos release_archive) x w (Phase SQFCompiler PreBuild) w1 ->
    forall a script, WalkModel.s01 db (required w1 a) script = [] /\
      forall n id sp since, ~ In (WalkModel.InsufficientVersion n id sp since) (WalkModel.event_findings place_dec by_command event_handler ignore (required w1 a) m script).
  Proof using only_rapifier manager_of.
    intros x rap writes w w1 Hx H0 Hr a script. assert (Hk : required w1 a = None).
    { rewrite (C91_scripts_first severity_of phase build_pbos release_archive required only_rapifier x rap writes w w1 Hx Hr). apply H0. }
    rewrite Hk. split; [reflexivity|]. intros n id sp since Hin.
    apply (WalkProps.C69_new_events place_dec by_command event_handler ignore None st m manager_of) in Hin as (_ & v & _ & _ & _ & X & _). discriminate.
  Qed.
End Lints.

Print Assumptions C91_scripts_first.
Print Assumptions C91_after_the_configs.
Print Assumptions C91_without_configs.
Print Assumptions C91_never_too_new_refuted.

(** A build of one addon whose config asks for 2.00 and whose script has a command that came with 2.04: the hypotheses are met,
    the steps are reached, the command is not reported, and it would be if the version were known. *)
Definition phase91 (m : module) (s : stage) (w : option version) : option version * result unit unit :=
  match m, s with Rapifier, PreBuild => (Some (Version 2 0 0 None None), Ok []) | _, _ => (w, Ok []) end.
Definition idle91 (w : option version) : option version * result unit unit := (w, Ok []).
Notation act91 := (act phase91 idle91 idle91).
Definition ms91 : list module := [BOMCheck; Hooks; Stringtables; SQFCompiler; Rapifier; Binarize false; Files].
Example C91_case :
  (forall s w, s <> Phase Rapifier PreBuild -> fst (act91 s w) = w) /\
  command (build_command false false) true true /\
  reaches (fun _ => SError) act91 (build_command false false) None (Phase SQFCompiler PreBuild) None /\
  WalkModel.s01 WalkProps.db67 None [Ast.SExpr WalkProps.call67 (0, 27)%N] = [] /\
  reaches (fun _ => SError) act91 (build_command false false) None (Phase SQFCompiler PostBuild) (Some (Version 2 0 0 None None)) /\
  WalkModel.s01 WalkProps.db67 (Some (Version 2 0 0 None None)) [Ast.SExpr WalkProps.call67 (0, 27)%N] = [((bs "removeall", (2, 4)%N), (10, 19)%N)].
Proof.
  split; [|split; [|split; [|split; [reflexivity|split; [|vm_compute; reflexivity]]]]].
  - intros [m s| |] w H; [|reflexivity|reflexivity]. destruct m; try reflexivity. destruct s; try reflexivity. contradiction.
  - exact (c_build false false).
  - exists (map (fun m => Phase m Init) ms91 ++ map (fun m => Phase m Check) ms91 ++ map (fun m => Phase m PreBuild) [BOMCheck; Hooks; Stringtables]).
    eexists _, []. split; [reflexivity|]. split; [|intros (? & [] & _)]. cbn [map app ms91]. repeat (eapply (runs_next _ _ _ _ _ _ [] _ _ (Ok [])); [reflexivity|intros (? & [] & _)|]). constructor.
  - exists (map (fun m => Phase m Init) ms91 ++ map (fun m => Phase m Check) ms91 ++ map (fun m => Phase m PreBuild) ms91 ++ BuildPbos :: map (fun m => Phase m PostBuild) [BOMCheck; Hooks; Stringtables]).
    eexists _, []. split; [reflexivity|]. split; [|intros (? & [] & _)]. cbn [map app ms91]. repeat (eapply (runs_next _ _ _ _ _ _ [] _ _ (Ok [])); [reflexivity|intros (? & [] & _)|]). constructor.
Qed.
