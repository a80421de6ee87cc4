(** C37. *)
From Verif Require Import Base.Tactics Bin.ExecModel Bin.ExecSpec.
Local Open Scope list_scope.

Section P.
  Context {W E C M : Type} (severity_of : C -> severity).
  Context (phase : M -> stage -> W -> W * result E C) (build_pbos release_archive : W -> W * result E C).
  Definition act (s : step M) (w : W) : W * result E C :=
    match s with Phase m s => phase m s w | BuildPbos => build_pbos w | MakeArchive => release_archive w end.
  Notation runs := (runs severity_of act).

  Lemma failed_has_error : forall codes, failed severity_of codes = true <-> has_error severity_of codes.
  Proof.
    intros codes. unfold failed, errors, has_error. split.
    - destruct (filter _ codes) as [|c l] eqn:F; [discriminate|]. intros _.
      assert (I : In c (filter (is_error severity_of) codes)) by (rewrite F; now left). apply filter_In in I as [I H]. exists c. split; [auto|].
      unfold is_error in H. destruct (severity_of c); try discriminate. reflexivity.
    - intros (c & I & H). assert (I' : In c (filter (is_error severity_of) codes)) by (apply filter_In; split; [auto|]; unfold is_error; now rewrite H).
      destruct (filter _ codes); [destruct I'|reflexivity].
  Qed.
  Lemma failed_app : forall a b, failed severity_of a = false -> failed severity_of (a ++ b) = failed severity_of b.
  Proof.
    intros a b H. unfold failed, errors in *. rewrite filter_app. destruct (filter _ a); [reflexivity|discriminate].
  Qed.
  Lemma not_failed : forall codes, failed severity_of codes = false <-> ~ has_error severity_of codes.
  Proof. intros codes. rewrite <- failed_has_error. destruct (failed _ _); split; congruence. Qed.

  Definition after (report : list C) (r : result E C) : result E C := match r with Ok more => Ok (report ++ more) | Err e => Err e end.
  Lemma after_nil : forall r, after [] r = r.
  Proof. now intros [|]. Qed.
  Lemma after_after : forall a b r, after a (after b r) = after (a ++ b) r.
  Proof. intros a b [|]; cbn; [now rewrite app_assoc|reflexivity]. Qed.

  (** Steps of a part, then of the rest. *)
  Lemma runs_app : forall ss w did w' codes, runs ss w did w' (Ok codes) -> ~ has_error severity_of codes ->
    forall ss' did' w'' r, runs ss' w' did' w'' r -> runs (ss ++ ss') w (did ++ did') w'' (after codes r).
  Proof.
    intros ss w did w' codes H. remember (Ok codes) as r0 eqn:E0. revert codes E0. induction H; intros codes0 E0 Hn ss' did' w2 r2 H2; cbn [app].
    - injection E0 as <-. now rewrite after_nil.
    - discriminate.
    - injection E0 as <-. contradiction.
    - destruct r as [more|]; [|discriminate]. injection E0 as <-.
      rewrite <- after_after. apply (runs_next severity_of act s (ss ++ ss') w w' codes (did ++ did') w2 (after more r2)); auto.
      apply IHruns; auto. intros (c & I & S). apply Hn. exists c. split; [apply in_or_app; auto|auto].
  Qed.
  Lemma runs_stop : forall ss w did w' r, runs ss w did w' r -> (forall codes, r = Ok codes -> has_error severity_of codes) ->
    forall ss', runs (ss ++ ss') w did w' r.
  Proof.
    intros ss w did w' r H. induction H; intros Hs ss'; cbn [app]; try (now constructor).
    - destruct (Hs [] eq_refl) as (c & [] & _).
    - econstructor; eauto. apply IHruns. intros more ->. destruct (Hs _ eq_refl) as (c & I & S).
      apply in_app_or in I as [I|I]; [exfalso; apply H0; exists c; auto|exists c; auto].
  Qed.
  Lemma runs_not_failed_all : forall ss w did w' codes, runs ss w did w' (Ok codes) -> ~ has_error severity_of codes -> did = ss.
  Proof.
    intros ss w did w' codes H. remember (Ok codes) as r0 eqn:E0. revert codes E0. induction H; intros codes0 E0 Hn; auto; try discriminate.
    - injection E0 as <-. contradiction.
    - destruct r as [more|]; [|discriminate]. injection E0 as <-. f_equal. apply (IHruns more eq_refl).
      intros (c & I & S). apply Hn. exists c. split; [apply in_or_app; auto|auto].
  Qed.

  Lemma run_modules_runs : forall s ms report w, failed severity_of report = false ->
    exists did w' r, runs (map (fun m => Phase m s) ms) w did w' r /\ run_modules severity_of phase ms s report w = (w', after report r).
  Proof.
    intros s ms. induction ms as [|m ms IH]; intros report w Hf; cbn [map run_modules].
    - exists [], w, (Ok []). split; [constructor|]. cbn [after]. now rewrite app_nil_r.
    - destruct (phase m s w) as [w1 [codes|e]] eqn:A.
      + cbv zeta. rewrite failed_app by auto. destruct (failed severity_of codes) eqn:F.
        * eexists _, _, _. split; [eapply runs_bad; [exact A|now apply failed_has_error]|reflexivity].
        * destruct (IH (report ++ codes) w1) as (did & w' & r & R & Q); [now rewrite failed_app|].
          exists (Phase m s :: did), w', (after codes r). split; [apply (runs_next severity_of act (Phase m s) (map (fun m => Phase m s) ms) w w1 codes did w' r); [exact A|now apply not_failed|exact R]|].
          now rewrite Q, after_after.
      + eexists _, _, _. split; [eapply runs_err; exact A|reflexivity].
  Qed.
  Definition stage_steps (ms : list M) (s : stage) : list (step M) :=
    match s with Build => [BuildPbos] | Archive => [MakeArchive] | s => map (fun m => Phase m s) ms end.
  Lemma run_one : forall s (w : W), exists did w' r, runs [s] w did w' r /\ act s w = (w', r).
  Proof.
    intros s w. destruct (act s w) as [w1 [codes|e]] eqn:A.
    - destruct (failed severity_of codes) eqn:F.
      + exists [s], w1, (Ok codes). split; [eapply runs_bad; [exact A|now apply failed_has_error]|auto].
      + exists [s], w1, (after codes (Ok [])). split; [apply (runs_next severity_of act s [] w w1 codes [] w1 (Ok [])); [exact A|now apply not_failed|constructor]|]. cbn [after]. now rewrite app_nil_r.
    - exists [s], w1, (Err e). split; [now apply runs_err|auto].
  Qed.
  Lemma run_stage_runs : forall ms s w, exists did w' r,
    runs (stage_steps ms s) w did w' r /\ run_stage severity_of phase build_pbos release_archive ms s w = (w', r).
  Proof.
    intros ms s w.
    assert (K : forall s, exists did w' r, runs (map (fun m => Phase m s) ms) w did w' r /\ run_modules severity_of phase ms s [] w = (w', r)).
    { intros s0. destruct (run_modules_runs s0 ms [] w eq_refl) as (did & w' & r & R & Q). rewrite after_nil in Q. eauto 6. }
    destruct s; cbn [stage_steps run_stage]; try apply K; [exact (run_one BuildPbos w) | exact (run_one MakeArchive w)].
  Qed.
  Lemma run_stages_runs : forall ms ss report w, failed severity_of report = false -> exists did w' r,
    runs (concat (map (stage_steps ms) ss)) w did w' r /\ run_stages severity_of phase build_pbos release_archive ms ss report w = (w', after report r).
  Proof.
    intros ms ss. induction ss as [|s ss IH]; intros report w Hf; cbn [map concat run_stages].
    - exists [], w, (Ok []). split; [constructor|]. cbn [after]. now rewrite app_nil_r.
    - destruct (run_stage_runs ms s w) as (did & w1 & r & R & ->). destruct r as [codes|e].
      + cbv zeta. rewrite failed_app by auto. destruct (failed severity_of codes) eqn:F.
        * exists did, w1, (Ok codes). split; [|reflexivity]. apply runs_stop; auto. intros c [= <-]. now apply failed_has_error.
        * destruct (IH (report ++ codes) w1) as (did' & w' & r & R' & Q); [now rewrite failed_app|].
          exists (did ++ did'), w', (after codes r). split; [|now rewrite Q, after_after]. eapply runs_app; eauto. now apply not_failed.
      + exists did, w1, (Err e). split; [|reflexivity]. apply runs_stop; auto. discriminate.
  Qed.

  Lemma runs_det : forall ss w did w' r, runs ss w did w' r -> forall did2 w2 r2, runs ss w did2 w2 r2 -> did = did2 /\ w' = w2 /\ r = r2.
  Proof.
    intros ss w did w' r H. induction H; intros did2 w2 r2 H2; inversion H2; subst; auto;
      repeat match goal with A : act _ _ = _, B : act _ _ = _ |- _ => rewrite A in B; injection B as ?; subst end; try contradiction; try discriminate; auto.
    match goal with R : ExecSpec.runs _ _ ss _ _ _ _ |- _ => apply IHruns in R as (<- & <- & <-) end. auto.
  Qed.

  (** The executor does the steps it was asked for, in that order, up to and with the first that gives an error or an
      error-level code, and answers that error, or all the codes of the steps it did. *)
  Theorem C37_fail_stop : forall x w w' r,
    run severity_of phase build_pbos release_archive x w = (w', r) <-> exists did, runs (steps x) w did w' r.
  Proof.
    intros x w w' r. unfold run. destruct (run_stages_runs (modules x) (stages x) [] w eq_refl) as (did & w1 & r1 & R & Q).
    rewrite after_nil in Q. rewrite Q. split.
    - intros [= <- <-]. exists did. exact R.
    - intros (did' & R'). destruct (runs_det _ _ _ _ _ R _ _ _ R') as (_ & -> & ->). reflexivity.
  Qed.

  (** What was done is a beginning of what was asked for, and all before the last of it went well. *)
  Theorem C37_prefix : forall ss w did w' r, runs ss w did w' r -> exists rest, ss = did ++ rest /\
    (forall before s later, did = before ++ s :: later -> later <> [] -> exists w1 w2 codes, act s w1 = (w2, Ok codes) /\ ~ has_error severity_of codes) /\
    (rest <> [] -> (exists e, r = Err e) \/ exists codes, r = Ok codes /\ has_error severity_of codes).
  Proof.
    intros ss w did w' r H. induction H.
    - exists []. split; [auto|]. split; [intros [|] ? ?; discriminate|contradiction].
    - exists ss. split; [auto|]. split; [|left; eauto]. intros [|? [|]] ? ? [=]; subst; contradiction.
    - exists ss. split; [auto|]. split; [|right; eauto]. intros [|? [|]] ? ? [=]; subst; contradiction.
    - destruct IHruns as (rest & -> & Q & L). exists rest. split; [auto|]. split.
      + intros [|y before] s0 later Q0 Hl; injection Q0 as ? ?; subst; [eauto 6|]. eapply Q; eauto.
      + intros Hr. destruct (L Hr) as [(e & ->)|(more & -> & c & I & S)]; [left; eauto|]. right. eexists. split; [reflexivity|].
        exists c. split; [apply in_or_app; auto|auto].
  Qed.

  (** Success is reported only if all was done and nothing failed. *)
  Theorem C37_exit_status : forall x w w' r annotate, run severity_of phase build_pbos release_archive x w = (w', r) ->
    exit_status severity_of annotate r = 0 -> runs (steps x) w (steps x) w' r /\ exists codes, r = Ok codes /\ ~ has_error severity_of codes.
  Proof.
    intros x w w' r annotate H Z. apply C37_fail_stop in H as (did & R). unfold exit_status in Z.
    destruct r as [codes|]; [|discriminate]. destruct annotate; [|discriminate]. destruct (failed severity_of codes) eqn:F; [discriminate|].
    apply not_failed in F. assert (did = steps x) by (eapply runs_not_failed_all; eauto). subst did. eauto.
  Qed.
End P.

(** [hemtt release]: the archive is made only after every module has passed every earlier phase and the PBOs are built;
    with signing on, that includes signing them. *)
Theorem C37_archive_is_last : forall (W E C : Type) (severity_of : C -> severity) (phase : module -> stage -> W -> W * result E C) build_pbos release_archive
    no_rap no_bin no_sign no_archive sign archive w did w' r,
  let x := release_command no_rap no_bin no_sign no_archive sign archive in
  runs severity_of (act phase build_pbos release_archive) (steps x) w did w' r -> In MakeArchive did ->
  exists before later, did = before ++ MakeArchive :: later /\ In BuildPbos before /\
    (forall m s, In m (modules x) -> In s [Init; Check; PreBuild; PostBuild; PreRelease] -> In (Phase m s) before) /\
    (no_sign = false -> sign = true -> In (Phase Sign PreRelease) before) /\
    forall s, In s before -> exists w1 w2 codes, act phase build_pbos release_archive s w1 = (w2, Ok codes) /\ ~ has_error severity_of codes.
Proof.
  intros W E C severity_of phase build_pbos release_archive no_rap no_bin no_sign no_archive sign archive w did w' r x R I.
  destruct (C37_prefix _ _ _ _ _ _ _ _ _ R) as (rest & Q & G & _).
  set (ms := modules x).
  set (early := map (fun m => Phase m Init) ms ++ map (fun m => Phase m Check) ms ++ map (fun m => Phase m PreBuild) ms ++ [BuildPbos] ++
                map (fun m => Phase m PostBuild) ms ++ map (fun m => Phase m PreRelease) ms).
  assert (S : steps x = early ++ (if (if no_archive then false else archive) then [MakeArchive] else []) ++ map (fun m => Phase m PostRelease) ms).
  { assert (St : stages x = [Init; Check; PreBuild; Build; PostBuild; PreRelease] ++ (if (if no_archive then false else archive) then [Archive] else []) ++ [PostRelease]).
    { subst x. clear. destruct no_rap, no_bin, no_sign, no_archive, sign, archive; reflexivity. }
    unfold steps. rewrite St. subst early. fold ms. destruct (if no_archive then false else archive); cbn [app map concat]; rewrite ?app_nil_r, <- ?app_assoc; cbn [app]; rewrite <- ?app_assoc; reflexivity. }
  assert (NE : forall s l, ~ In (@MakeArchive module) (map (fun m => Phase m s) l)).
  { intros s l H. apply in_map_iff in H as (m & H & _). discriminate. }
  assert (NE' : ~ In MakeArchive early).
  { subst early. rewrite !in_app_iff. intros [H|[H|[H|[[H|[]]|[H|H]]]]]; try discriminate H; eapply NE; exact H. }
  apply in_split in I as (before & later & ->).
  assert (B : before = early).
  { rewrite Q, <- app_assoc in S. destruct (if no_archive then false else archive).
    - cbn [app] in S. clear - S NE' NE. clearbody early. revert early S NE'. induction before as [|b before IH]; intros [|e early] S NE'; auto.
      + injection S as <- _. destruct NE'. now left.
      + injection S as -> S. exfalso. apply (NE PostRelease ms). rewrite <- S. apply in_or_app. right. now left.
      + injection S as -> S. f_equal. apply IH; auto. intros H. apply NE'. now right.
    - exfalso. cbn [app] in S. assert (H : In MakeArchive (early ++ map (fun m => Phase m PostRelease) ms)) by (rewrite <- S; apply in_or_app; right; now left).
      apply in_app_or in H as [H|H]; [auto|now apply NE in H]. }
  exists before, later. split; [reflexivity|].
  assert (P : forall m s, In m ms -> In s [Init; Check; PreBuild; PostBuild; PreRelease] -> In (Phase m s) before).
  { intros m s Hm Hs. rewrite B. subst early. rewrite !in_app_iff, !in_map_iff. cbn [In] in Hs.
    destruct Hs as [<-|[<-|[<-|[<-|[<-|[]]]]]]; eauto 12. }
  split; [rewrite B; subst early; rewrite !in_app_iff; cbn; tauto|]. split; [exact P|]. split.
  - intros -> ->. apply P; [|cbn; tauto]. subst ms x. unfold release_command, add_if. cbn [negb andb release push add_module modules].
    apply in_or_app. right. now left.
  - intros s Hs. apply in_split in Hs as (b1 & b2 & ->). apply (G b1 s (b2 ++ MakeArchive :: later)); [now rewrite <- app_assoc|]. now destruct b2.
Qed.

Local Ltac absent H := repeat (destruct H as [H|H]; [discriminate H|]); destruct H.
Local Ltac there := repeat first [left; reflexivity | right].
(** What the flags and settings ask for: a release is signed exactly if signing is set and not declined, archived exactly if archiving
    is set and not declined; the other commands do neither; [hemtt check] builds nothing. *)
Theorem C37_flags : forall no_rap no_bin no_sign no_archive sign archive rapify force_binarize binarize,
  let release := release_command no_rap no_bin no_sign no_archive sign archive in
  let others := [check_command; build_command no_rap no_bin; dev_command rapify no_rap force_binarize binarize] in
  (In (Phase Sign PreRelease) (steps release) <-> sign = true /\ no_sign = false) /\
  (In MakeArchive (steps release) <-> archive = true /\ no_archive = false) /\
  (forall x s, In x others -> In s (steps x) -> s <> MakeArchive /\ forall t, s <> Phase Sign t) /\
  ~ In BuildPbos (steps check_command) /\
  (forall x, In x [release; build_command no_rap no_bin; dev_command rapify no_rap force_binarize binarize] -> In BuildPbos (steps x)).
Proof.
  intros. cbv zeta. split; [|split; [|split; [|split]]].
  - destruct no_rap, no_bin, no_sign, no_archive, sign, archive; cbn; split; intro H;
      try (split; reflexivity); try (destruct H; discriminate); try (absent H); there.
  - destruct no_rap, no_bin, no_sign, no_archive, sign, archive; cbn; split; intro H;
      try (split; reflexivity); try (destruct H; discriminate); try (absent H); there.
  - intros x s [<-|[<-|[<-|[]]]].
    + cbn. intros H. repeat (destruct H as [<-|H]; [split; [discriminate|intro; discriminate]|]). destruct H.
    + destruct no_rap, no_bin; cbn; intros H; repeat (destruct H as [<-|H]; [split; [discriminate|intro; discriminate]|]); destruct H.
    + destruct no_rap, rapify, force_binarize, binarize; cbn; intros H; repeat (destruct H as [<-|H]; [split; [discriminate|intro; discriminate]|]); destruct H.
  - cbn. intro H. absent H.
  - intros x [<-|[<-|[<-|[]]]].
    + destruct no_rap, no_bin, no_sign, no_archive, sign, archive; cbn; there.
    + destruct no_rap, no_bin; cbn; there.
    + destruct no_rap, rapify, force_binarize, binarize; cbn; there.
Qed.

(** The hooks come before all that converts, copies or signs: a run gets to a module other than the check for byte order marks
    only when the hooks of the same stage have run. *)
Lemma app_at {A} : forall (u v a b : list A) y, u ++ v = a ++ y :: b -> (exists u', u = a ++ y :: u') \/ exists a', a = u ++ a' /\ v = a' ++ y :: b.
Proof.
  induction u as [|z u IH]; intros v a b y E; [right; exists a; now split|]. destruct a as [|z' a]; cbn [app] in E; injection E as -> E; [left; now exists u|].
  destruct (IH _ _ _ _ E) as [(u' & ->)|(a' & -> & ->)]; [left; now exists u'|right; now exists a'].
Qed.
Lemma hooks_lead (ms : list module) : forall ss a m s b,
  concat (map (fun s => match s with Build => [BuildPbos] | Archive => [MakeArchive] | s => map (fun m => Phase m s) (BOMCheck :: Hooks :: ms) end) ss) = a ++ Phase m s :: b ->
  m <> BOMCheck -> m <> Hooks -> In (Phase Hooks s) a.
Proof.
  induction ss as [|s0 ss IH]; intros a m s b E B H; [now destruct a|]. cbn [map concat] in E. apply app_at in E as [(u & E)|(a' & -> & E)].
  - assert (D : map (fun m => Phase m s0) (BOMCheck :: Hooks :: ms) = a ++ Phase m s :: u).
    { destruct s0; try exact E; destruct a as [|? [|]]; discriminate. }
    clear E. destruct a as [|y a]; [injection D as <- _; contradiction|]. destruct a as [|z a]; [injection D as _ <- _; contradiction|].
    injection D as _ <- D. right. left. apply (f_equal (@In (step module) (Phase m s))) in D.
    assert (I : In (Phase m s) (map (fun m => Phase m s0) ms)) by (rewrite D; apply in_or_app; right; now left).
    apply in_map_iff in I as (? & [= _ <-] & _). reflexivity.
  - apply in_or_app. right. now apply (IH a' m s b).
Qed.
Theorem C37_hooks_first : forall (W E C : Type) (severity_of : C -> severity) (phase : module -> stage -> W -> W * result E C) build_pbos release_archive
    no_rap no_bin no_sign no_archive sign archive rapify force_binarize binarize x w did w' r before m s later,
  In x [check_command; build_command no_rap no_bin; release_command no_rap no_bin no_sign no_archive sign archive; dev_command rapify no_rap force_binarize binarize] ->
  runs severity_of (act phase build_pbos release_archive) (steps x) w did w' r ->
  did = before ++ Phase m s :: later -> m <> BOMCheck -> m <> Hooks ->
  In (Phase Hooks s) before /\ forall t, In t before -> exists w1 w2 codes, act phase build_pbos release_archive t w1 = (w2, Ok codes) /\ ~ has_error severity_of codes.
Proof.
  intros W E C severity_of phase build_pbos release_archive no_rap no_bin no_sign no_archive sign archive rapify force_binarize binarize x w did w' r before m s later I R -> B H.
  destruct (C37_prefix _ _ _ _ _ _ _ _ _ R) as (rest & Q & G & _). split.
  - assert (M : exists ms, modules x = BOMCheck :: Hooks :: ms).
    { destruct I as [<-|[<-|[<-|[<-|[]]]]]; [|destruct no_rap, no_bin|destruct no_rap, no_bin, no_sign, sign|destruct no_rap, rapify, force_binarize, binarize]; cbn; eexists; reflexivity. }
    destruct M as (ms & M). unfold steps in Q. rewrite M, <- app_assoc in Q. eapply hooks_lead; [exact Q|exact B|exact H].
  - intros t T. apply in_split in T as (u & v & ->). apply (G u t (v ++ Phase m s :: later)); [now rewrite <- app_assoc|now destruct v].
Qed.

(** A case: the second module gives an error-level code in its check, so nothing is built. *)
Definition noisy (m : module) (s : stage) (w : list (module * stage)) : list (module * stage) * result unit severity :=
  ((m, s) :: w, match m, s with Stringtables, Check => Ok [SWarning; SError] | Hooks, Check => Ok [SWarning] | _, _ => Ok [] end).
Example stops : let x := build_command true true in
  run (fun c => c) noisy (fun w => (w, Err tt)) (fun w => (w, Err tt)) x [] =
    ([(Stringtables, Check); (Hooks, Check); (BOMCheck, Check); (Files, Init); (SQFCompiler, Init); (Stringtables, Init); (Hooks, Init); (BOMCheck, Init)],
     Ok [SWarning; SWarning; SError]).
Proof. reflexivity. Qed.
Example release_signs : let x := release_command false false false false true true in
  exists did w r, runs (fun c : severity => c) (act (fun m s w => (w, Ok [SWarning])) (fun w => (w, @Ok unit _ [])) (fun w => (w, Ok []))) (steps x) tt did w r /\ In MakeArchive did.
Proof.
  cbv zeta. edestruct (proj1 (C37_fail_stop (W := unit) (E := unit) (fun c : severity => c) (fun (m : module) s w => (w, Ok [SWarning])) (fun w => (w, Ok [])) (fun w => (w, Ok []))
    (release_command false false false false true true) tt tt _) eq_refl) as (did & R).
  exists did. eexists _, _. split; [exact R|]. assert (did = steps (release_command false false false false true true)) as ->.
  { eapply runs_not_failed_all; [exact R|]. intros (c & I & S). cbn in I. intuition congruence. }
  vm_compute. tauto.
Qed.

Print Assumptions C37_fail_stop.
Print Assumptions C37_prefix.
Print Assumptions C37_exit_status.
Print Assumptions C37_archive_is_last.
Print Assumptions C37_flags.
Print Assumptions C37_hooks_first.
