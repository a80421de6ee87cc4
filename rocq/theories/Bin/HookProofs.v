(** Proofs for C90. *)
From Coq Require Import String.
From Verif Require Import Base.Tactics Base.Bytes Base.Ascii Base.Sort Base.Text Common.VersionModel Common.ProjectVersionModel Bin.HookModel Bin.HookSpec.
Local Open Scope list_scope.

Section Proofs.
  Context {R M V : Type} (look : R -> M -> text -> node) (around_of : R -> M -> around) (cfg : config)
    (compile : text -> option (script R M V)) (nothing : V).
  Notation world := (world R M).
  Notation stands := (at_ look).
  Notation run := (run look around_of cfg compile nothing).
  Notation runs := (runs look around_of cfg compile nothing).
  Notation calls := (calls look around_of cfg compile nothing).
  Notation starts := (starts look around_of cfg compile nothing).
  Notation folder_runs := (folder_runs look around_of cfg compile nothing).
  Notation tells := (tells around_of cfg).
  Definition given (o : option V) : V := match o with Some x => x | None => nothing end.

  (** [HEMTT.script] with some fuel left. *)
  Definition call_of (fuel : nat) (name : text) (w : world) : world * list start * result V :=
    match stands w (script_path name) with
    | Missing => match stands w script_folder with Folder _ => (w, [], Done [NotFound name] nothing) | _ => (w, [], Fault) end
    | _ => run fuel (script_path name) false true w
    end.
  Lemma run_S fuel p vfs nested w :
    run (S fuel) p vfs nested w =
      let '(o, k) := get cfg (now around_of w) (kept w) in
      match o with
      | Ok v =>
          match stands w p with
          | File (Some t) =>
              match compile t with
              | None => (with_kept k w, [Start p vfs nested v (now around_of w)], Done [RuntimeError p] nothing)
              | Some s =>
                  let '(w', l, e) := exec (call_of fuel) vfs v s false (with_kept k w) in
                  (w', Start p vfs nested v (now around_of w) :: l,
                    match e with
                    | Value x fatal => Done (if fatal then [ScriptFatal p] else []) x
                    | Raised => Done [RuntimeError p] nothing
                    | Crashed => Panics
                    | Endless => OutOfFuel
                    end)
              end
          | _ => (with_kept k w, [], Fault)
          end
      | Err _ | Panic => (with_kept k w, [], Panics)
      end.
  Proof.
    cbn [HookModel.run]. destruct (get cfg (now around_of w) (kept w)) as [[v|e|] k]; try reflexivity.
  Qed.

  Lemma exec_sound (call : text -> world -> world * list start * result V) vfs v :
    (forall name w w' l r, call name w = (w', l, r) -> match r with Done _ x => calls name w l (Some x) w' | Fault => calls name w l None w' | _ => True end) ->
    forall s fatal w w' l e, exec call vfs v s fatal w = (w', l, e) ->
      match e with
      | Value x f => exists b, runs v vfs s w l b (Some x) w' /\ f = fatal || b
      | Raised => exists b, runs v vfs s w l b None w'
      | _ => True
      end.
  Proof.
    intros HC. induction s as [x| |k IH|f k IH|f k IH|k IH|name k IH]; intros fatal w w' l e E; cbn [exec] in E.
    - injection E as <- <- <-. exists false. split; [constructor|]. now rewrite orb_false_r.
    - injection E as <- <- <-. exists false. constructor.
    - specialize (IH _ _ _ _ _ E). destruct e; auto.
      + destruct IH as (b & HR & ->). exists true. split; [econstructor; eauto|]. now rewrite orb_true_r.
      + destruct IH as (b & HR). exists true. econstructor; eauto.
    - destruct (f (disk w)) as [d x] eqn:F. specialize (IH _ _ _ _ _ _ E). destruct e; auto.
      + destruct IH as (b & HR & ->). exists b. split; [econstructor; eauto|auto].
      + destruct IH as (b & HR). exists b. econstructor; eauto.
    - destruct vfs.
      + destruct (f (disk w) (memory w)) as [m x] eqn:F. specialize (IH _ _ _ _ _ _ E). destruct e; auto.
        * destruct IH as (b & HR & ->). exists b. split; [eapply runs_virtual; eauto|auto].
        * destruct IH as (b & HR). exists b. eapply runs_virtual; eauto.
      + specialize (IH _ _ _ _ _ _ E). destruct e; auto.
        * destruct IH as (b & HR & ->). exists b. split; [eapply runs_not_virtual; eauto|auto].
        * destruct IH as (b & HR). exists b. eapply runs_not_virtual; eauto.
    - specialize (IH _ _ _ _ _ _ E). destruct e; auto.
      + destruct IH as (b & HR & ->). exists b. split; [econstructor; eauto|auto].
      + destruct IH as (b & HR). exists b. econstructor; eauto.
    - destruct (call name w) as [[w1 l1] r] eqn:C. specialize (HC _ _ _ _ _ C).
      assert (HN : forall x, calls name w l1 x w1 -> (let '(w, l', e) := exec call vfs v (k x) fatal w1 in (w, l1 ++ l', e)) = (w', l, e) ->
                match e with
                | Value x f => exists b, runs v vfs (Call name k) w l b (Some x) w' /\ f = fatal || b
                | Raised => exists b, runs v vfs (Call name k) w l b None w'
                | _ => True
                end).
      { intros x HX EE. destruct (exec call vfs v (k x) fatal w1) as [[w2 l2] e2] eqn:X. injection EE as -> <- ->.
        specialize (IH _ _ _ _ _ _ X). destruct e; auto.
        + destruct IH as (b & HR & ->). exists b. split; [econstructor; eauto|auto].
        + destruct IH as (b & HR). exists b. econstructor; eauto. }
      destruct r as [c x| | |].
      + apply (HN _ HC E).
      + apply (HN _ HC E).
      + injection E as <- <- <-. exact I.
      + injection E as <- <- <-. exact I.
  Qed.

  Lemma run_sound fuel : forall p vfs nested w w' l r, run fuel p vfs nested w = (w', l, r) ->
    match r with
    | Done codes x => exists b o, starts p vfs nested w l b o w' /\ codes = complaint (p, b, o) /\ x = given o
    | Fault => l = [] /\ (exists v, tells w v w') /\ forall t, stands w p <> File (Some t)
    | _ => True
    end.
  Proof.
    induction fuel as [|fuel IH]; intros p vfs nested w w' l r E.
    - cbn in E. injection E as <- <- <-. exact I.
    - rewrite run_S in E. destruct (get cfg (now around_of w) (kept w)) as [o k] eqn:G.
      destruct o as [v|e|]; [|injection E as <- <- <-; exact I|injection E as <- <- <-; exact I].
      assert (HT : tells w v (with_kept k w)) by (exists k; auto).
      destruct (stands w p) as [|[t|]|ns] eqn:A; try (injection E as <- <- <-; repeat split; [eauto|discriminate]).
      destruct (compile t) as [s|] eqn:C.
      + destruct (exec (call_of fuel) vfs v s false (with_kept k w)) as [[w2 l2] e] eqn:X.
        assert (HS := exec_sound (call_of fuel) vfs v). specialize (fun H => HS H _ _ _ _ _ _ X).
        assert (HC : forall name w w' l r, call_of fuel name w = (w', l, r) ->
                  match r with Done _ x => calls name w l (Some x) w' | Fault => calls name w l None w' | _ => True end).
        { clear -IH. intros name w w' l r E. unfold call_of in E. destruct (stands w (script_path name)) as [|c|ns] eqn:A.
          - destruct (stands w script_folder) as [|c|ns] eqn:B.
            + injection E as <- <- <-. apply calls_nowhere; [auto|]. rewrite B. discriminate.
            + injection E as <- <- <-. apply calls_nowhere; [auto|]. rewrite B. discriminate.
            + injection E as <- <- <-. eapply calls_nothing; eauto.
          - specialize (IH _ _ _ _ _ _ _ E). destruct r; auto.
            + destruct IH as (b & o & HR & _ & ->). eapply calls_script; eauto.
            + destruct IH as (-> & (v & HT) & HN). eapply calls_unreadable; eauto. congruence.
          - specialize (IH _ _ _ _ _ _ _ E). destruct r; auto.
            + destruct IH as (b & o & HR & _ & ->). eapply calls_script; eauto.
            + destruct IH as (-> & (v & HT) & HN). eapply calls_unreadable; eauto. congruence. }
        specialize (HS HC). injection E as -> <- <-. destruct e as [x f| | |]; auto.
        * destruct HS as (b & HR & ->). exists b, (Some x). split; [eapply starts_good; eauto|]. split; [destruct b; reflexivity|reflexivity].
        * destruct HS as (b & HR). exists b, None. split; [eapply starts_good; eauto|]. split; [destruct b; reflexivity|reflexivity].
      + injection E as <- <- <-. exists false, None. split; [eapply starts_bad; eauto|]. split; reflexivity.
  Qed.

  Scheme runs_mut := Minimality for HookSpec.runs Sort Prop
    with calls_mut := Minimality for HookSpec.calls Sort Prop
    with starts_mut := Minimality for HookSpec.starts Sort Prop.
  Combined Scheme runs_calls_starts from runs_mut, calls_mut, starts_mut.

  Lemma complete :
    (forall v vfs s w l b o w', runs v vfs s w l b o w' ->
       exists N, forall n fatal, (N <= n)%nat ->
         exec (call_of n) vfs v s fatal w = (w', l, match o with Some x => Value x (fatal || b) | None => Raised end)) /\
    (forall name w l x w', calls name w l x w' ->
       exists N, forall n, (N <= n)%nat -> exists c, call_of n name w = (w', l, match x with Some x => Done c x | None => Fault end)) /\
    (forall p vfs nested w l b o w', starts p vfs nested w l b o w' ->
       exists N, forall n, (N <= n)%nat -> run n p vfs nested w = (w', l, Done (complaint (p, b, o)) (given o))).
  Proof.
    apply (runs_calls_starts R M V look around_of cfg compile nothing
      (fun v vfs s w l b o w' => exists N, forall n fatal, (N <= n)%nat ->
         exec (call_of n) vfs v s fatal w = (w', l, match o with Some x => Value x (fatal || b) | None => Raised end))
      (fun name w l x w' => exists N, forall n, (N <= n)%nat -> exists c, call_of n name w = (w', l, match x with Some x => Done c x | None => Fault end))
      (fun p vfs nested w l b o w' => exists N, forall n, (N <= n)%nat -> run n p vfs nested w = (w', l, Done (complaint (p, b, o)) (given o)))).
    - intros v vfs x w. exists 0%nat. intros n fatal _. cbn. now rewrite orb_false_r.
    - intros v vfs w. exists 0%nat. intros n fatal _. reflexivity.
    - intros v vfs k w l b o w' _ (n0 & IH). exists n0. intros n fatal L. cbn [exec]. rewrite IH by auto. destruct o; [|auto]. now rewrite orb_true_r.
    - intros v vfs f k w d x l b o w' F _ (n0 & IH). exists n0. intros n fatal L. cbn [exec]. rewrite F. now apply IH.
    - intros v vfs f k w m x l b o w' -> F _ (n0 & IH). exists n0. intros n fatal L. cbn [exec]. rewrite F. now apply IH.
    - intros v vfs f k w l b o w' -> _ (n0 & IH). exists n0. intros n fatal L. cbn [exec]. now apply IH.
    - intros v vfs k w l b o w' _ (n0 & IH). exists n0. intros n fatal L. cbn [exec]. now apply IH.
    - intros v vfs name k w l1 x w1 l2 b o w2 _ (n1 & IH1) _ (n2 & IH2). exists (Nat.max n1 n2). intros n fatal L. cbn [exec].
      destruct (IH1 n) as (c & ->); [lia|]. destruct x as [x|]; rewrite IH2 by lia; reflexivity.
    - intros name w ns A B. exists 0%nat. intros n _. unfold call_of. rewrite A, B. eauto.
    - intros name w A B. exists 0%nat. intros n _. unfold call_of. rewrite A. exists []. destruct (stands w script_folder) as [| |ns] eqn:F; auto. now destruct (B ns).
    - intros name w v w' A (k & G & ->) B. exists 1%nat. intros n L. exists []. unfold call_of. destruct n as [|n]; [lia|].
      rewrite run_S, G. destruct (stands w (script_path name)) as [|[t|]|ns] eqn:F; auto; [congruence|now destruct (B t)].
    - intros name w l b o w' S (n0 & IH). exists n0. intros n L. unfold call_of.
      destruct (stands w (script_path name)) as [|c|ns] eqn:F; [|rewrite IH by auto; destruct o; eauto..].
      exfalso. inversion S; subst; congruence.
    - intros p vfs nested w v w' t (k & G & ->) A C. exists 1%nat. intros n L. destruct n as [|n]; [lia|]. rewrite run_S, G, A, C. reflexivity.
    - intros p vfs nested w v w1 t s l b o w2 (k & G & ->) A C _ (n0 & IH). exists (S n0). intros n L. destruct n as [|n]; [lia|]. rewrite run_S, G, A, C.
      rewrite IH by lia. destruct o, b; reflexivity.
  Qed.

  Notation run_entries := (run_entries look around_of cfg compile nothing).

  Lemma entries_sound fuel folder vfs : forall ns report w w' l codes x, run_entries fuel folder vfs ns report w = (w', l, Done codes x) ->
    exists hs, folder_runs folder vfs ns w hs l w' /\ codes = report ++ flat_map complaint hs /\ x = nothing.
  Proof.
    induction ns as [|n ns IH]; intros report w w' l codes x E; cbn [HookModel.run_entries] in E.
    - injection E as <- <- <- <-. exists []. split; [constructor|]. cbn. now rewrite app_nil_r.
    - assert (HO : run_entries fuel folder vfs ns report w = (w', l, Done codes x) -> (forall c, stands w (below folder n) <> File c) ->
                exists hs, folder_runs folder vfs (n :: ns) w hs l w' /\ codes = report ++ flat_map complaint hs /\ x = nothing).
      { intros E' HN. destruct (IH _ _ _ _ _ _ E') as (hs & HF & HH). exists hs. split; [now apply folder_skips|auto]. }
      destruct (stands w (below folder n)) as [|c|ls] eqn:A; try (apply HO; [auto|discriminate]).
      destruct (run fuel (below folder n) vfs false w) as [[w1 l1] r] eqn:X. destruct r as [c1 x1| | |]; try discriminate.
      destruct (run_entries fuel folder vfs ns (report ++ c1) (with_kept None w1)) as [[w2 l2] r2] eqn:Y. injection E as -> <- ->.
      destruct (IH _ _ _ _ _ _ Y) as (hs & HF & -> & ->). pose proof (run_sound fuel _ _ _ _ _ _ _ X) as HS. cbn [fst snd] in HS.
      destruct HS as (b & o & HR & -> & _). exists ((below folder n, b, o) :: hs). split; [eapply folder_hook; eauto|]. cbn [flat_map]. now rewrite app_assoc.
  Qed.
  Lemma entries_complete folder vfs ns w hs l w' : folder_runs folder vfs ns w hs l w' ->
    exists N, forall n report, (N <= n)%nat -> run_entries n folder vfs ns report w = (w', l, Done (report ++ flat_map complaint hs) nothing).
  Proof.
    induction 1 as [w|m ns w hs l w' HN HF (n0 & IH)|m ns w l1 b o w1 hs l2 w2 HS HF (n0 & IH)].
    - exists 0%nat. intros n report _. cbn. now rewrite app_nil_r.
    - exists n0. intros n report L. cbn [HookModel.run_entries]. destruct (stands w (below folder m)) as [|c|] eqn:A; auto. now destruct (HN c).
    - destruct (proj2 (proj2 complete) _ _ _ _ _ _ _ _ HS) as (n1 & H1). exists (Nat.max n0 n1). intros n report L. cbn [HookModel.run_entries].
      assert (HA : exists c, stands w (below folder m) = File c) by (inversion HS; subst; eauto). destruct HA as (c & ->).
      rewrite H1 by lia. cbn beta iota. rewrite IH by lia. cbn [flat_map]. now rewrite app_assoc.
  Qed.

  (** The log of a script that was started: itself, then only scripts it called, without the memory layer. *)
  Notation inner := (Forall (fun s => called s = true /\ virtual s = false)).
  Lemma logs :
    (forall v vfs s w l b o w', runs v vfs s w l b o w' -> inner l) /\
    (forall name w l x w', calls name w l x w' -> inner l) /\
    (forall p vfs nested w l b o w', starts p vfs nested w l b o w' ->
       exists v w1 l', tells w v w1 /\ l = Start p vfs nested v (now around_of w) :: l' /\ inner l').
  Proof.
    apply (runs_calls_starts R M V look around_of cfg compile nothing
      (fun v vfs s w l b o w' => inner l) (fun name w l x w' => inner l)
      (fun p vfs nested w l b o w' => exists v w1 l', tells w v w1 /\ l = Start p vfs nested v (now around_of w) :: l' /\ inner l')); auto.
    - intros. apply Forall_app. auto.
    - intros name w l b o w' _ (v & w1 & l' & HT & -> & HI). constructor; auto.
    - intros. eauto 10.
    - intros. eauto 10.
  Qed.
  Lemma direct_inner l : inner l -> direct l = [].
  Proof. induction 1 as [|s l [H _] _ IH]; cbn; [auto|]. now rewrite H. Qed.
  Lemma direct_app l l' : direct (l ++ l') = direct l ++ direct l'.
  Proof. apply filter_app. Qed.
  Lemma direct_starts p vfs w l b o w' : starts p vfs false w l b o w' -> exists v w1, tells w v w1 /\ direct l = [Start p vfs false v (now around_of w)].
  Proof.
    intros H. apply (proj2 (proj2 logs)) in H as (v & w1 & l' & HT & -> & HI). exists v, w1. split; [auto|]. unfold direct. cbn [filter called negb].
    f_equal. now apply direct_inner.
  Qed.

  Lemma no_memory :
    (forall v vfs s w l b o w', runs v vfs s w l b o w' -> vfs = false -> memory w' = memory w) /\
    (forall name w l x w', calls name w l x w' -> memory w' = memory w) /\
    (forall p vfs nested w l b o w', starts p vfs nested w l b o w' -> vfs = false -> memory w' = memory w).
  Proof.
    apply (runs_calls_starts R M V look around_of cfg compile nothing
      (fun v vfs s w l b o w' => vfs = false -> memory w' = memory w) (fun name w l x w' => memory w' = memory w)
      (fun p vfs nested w l b o w' => vfs = false -> memory w' = memory w)); auto.
    - intros. congruence.
    - intros v vfs name k w l1 x w1 l2 b o w2 _ H1 _ H2 E. rewrite H2; auto.
    - intros name w v w' _ (k & _ & ->) _. reflexivity.
    - intros p vfs nested w v w' t (k & _ & ->) _ _ _. reflexivity.
    - intros p vfs nested w v w1 t s l b o w2 (k & _ & ->) _ _ _ H E. rewrite H; auto.
  Qed.

  Lemma undisturbed ps : (forall t s, compile t = Some s -> minds look ps s) ->
    (forall v vfs s w l b o w', runs v vfs s w l b o w' -> minds look ps s -> forall p, In p ps -> is_file (stands w' p) = is_file (stands w p)) /\
    (forall name w l x w', calls name w l x w' -> forall p, In p ps -> is_file (stands w' p) = is_file (stands w p)) /\
    (forall p vfs nested w l b o w', starts p vfs nested w l b o w' -> forall p, In p ps -> is_file (stands w' p) = is_file (stands w p)).
  Proof.
    intros HM. apply (runs_calls_starts R M V look around_of cfg compile nothing
      (fun v vfs s w l b o w' => minds look ps s -> forall p, In p ps -> is_file (stands w' p) = is_file (stands w p))
      (fun name w l x w' => forall p, In p ps -> is_file (stands w' p) = is_file (stands w p))
      (fun p vfs nested w l b o w' => forall p, In p ps -> is_file (stands w' p) = is_file (stands w p))); auto.
    - intros v vfs f k w d x l b o w' F _ IH [H1 H2] p HP. rewrite (IH (H2 x) p HP). specialize (H1 (disk w) (memory w) p HP). now rewrite F in H1.
    - intros v vfs f k w m x l b o w' _ F _ IH [H1 H2] p HP. rewrite (IH (H2 _) p HP). specialize (H1 (disk w) (memory w) p HP). now rewrite F in H1.
    - intros v vfs f k w l b o w' _ _ IH [_ H2] p HP. now rewrite (IH (H2 _) p HP).
    - intros v vfs name k w l1 x w1 l2 b o w2 _ H1 _ H2 H p HP. rewrite H2; auto.
    - intros name w v w' _ (k & _ & ->) _ p HP. reflexivity.
    - intros q vfs nested w v w' t (k & _ & ->) _ _ p HP. reflexivity.
    - intros q vfs nested w v w1 t s l b o w2 (k & _ & ->) _ HC _ IH p HP. rewrite IH; eauto.
  Qed.

  Lemma folder_direct folder vfs ns w hs l w' : folder_runs folder vfs ns w hs l w' -> map path (direct l) = map (fun h => fst (fst h)) hs.
  Proof.
    induction 1 as [w|n ns w hs l w' HN HF IH|n ns w l1 b o w1 hs l2 w2 HS HF IH]; auto.
    rewrite direct_app, map_app, IH. apply direct_starts in HS as (v & w3 & _ & ->). reflexivity.
  Qed.
  Lemma folder_chosen folder vfs ns w hs l w' : folder_runs folder vfs ns w hs l w' ->
    exists flags, length flags = length ns /\ map (fun h => fst (fst h)) hs = map (below folder) (map fst (filter snd (combine ns flags))).
  Proof.
    induction 1 as [w|n ns w hs l w' HN HF (fl & HL & IH)|n ns w l1 b o w1 hs l2 w2 HS HF (fl & HL & IH)].
    - exists []. auto.
    - exists (false :: fl). cbn. auto.
    - exists (true :: fl). cbn. split; [auto|]. now rewrite IH.
  Qed.
  Lemma folder_undisturbed folder vfs ps ns w hs l w' : (forall t s, compile t = Some s -> minds look ps s) -> incl (map (below folder) ns) ps ->
    folder_runs folder vfs ns w hs l w' -> map (fun h => fst (fst h)) hs = filter (fun p => is_file (stands w p)) (map (below folder) ns).
  Proof.
    intros HM HI. induction 1 as [w|n ns w hs l w' HN HF IH|n ns w l1 b o w1 hs l2 w2 HS HF IH]; auto.
    - cbn [map filter]. rewrite IH by (intros x HX; apply HI; right; auto). destruct (stands w (below folder n)) as [|c|] eqn:A; auto. now destruct (HN c).
    - cbn [map filter]. assert (HA : exists c, stands w (below folder n) = File c) by (inversion HS; subst; eauto). destruct HA as (c & HA).
      rewrite HA. cbn [is_file fst]. f_equal. rewrite IH by (intros x HX; apply HI; right; auto).
      apply filter_ext_in. intros p HP. apply (proj2 (proj2 (undisturbed ps HM)) _ _ _ _ _ _ _ _ HS). apply HI. right. auto.
  Qed.
  Lemma folder_memory folder ns w hs l w' : folder_runs folder false ns w hs l w' -> memory w' = memory w.
  Proof.
    induction 1 as [w|n ns w hs l w' HN HF IH|n ns w l1 b o w1 hs l2 w2 HS HF IH]; auto.
    rewrite IH. now apply (proj2 (proj2 no_memory)) in HS.
  Qed.
  (** The version a script is told is the one the project has when it starts. *)
  Definition fresh (s : start) : Prop := fst (get cfg (was s) None) = Ok (told s).
  Lemma folder_fresh folder vfs ns w hs l w' : folder_runs folder vfs ns w hs l w' ->
    (kept w = None -> Forall fresh (direct l)) /\ Forall fresh (tl (direct l)) /\ (l <> [] -> kept w' = None) /\ (l = [] -> w' = w).
  Proof.
    induction 1 as [w|n ns w hs l w' HN HF IH|n ns w l1 b o w1 hs l2 w2 HS HF IH].
    - cbn. repeat split; auto. congruence.
    - auto.
    - destruct IH as (I1 & I2 & I3 & I4). pose proof (direct_starts _ _ _ _ _ _ _ HS) as (v & w3 & (k & G & _) & HD).
      rewrite direct_app, HD. cbn [app tl]. specialize (I1 eq_refl). repeat split; auto.
      + intros HK. constructor; [|auto]. unfold fresh. cbn [was told]. now rewrite <- HK, G.
      + intros _. destruct l2 as [|s l2]; [|apply I3; discriminate]. now rewrite I4 by auto.
      + intros E. apply app_eq_nil in E as [-> ->]. cbn in HD. discriminate.
  Qed.
  Lemma folder_inner folder vfs ns w hs l w' : folder_runs folder vfs ns w hs l w' ->
    Forall (fun s => virtual s = if called s then false else vfs) l.
  Proof.
    induction 1 as [w|n ns w hs l w' HN HF IH|n ns w l1 b o w1 hs l2 w2 HS HF IH]; auto.
    apply Forall_app. split; [|auto]. apply (proj2 (proj2 logs)) in HS as (v & w3 & l' & _ & -> & HI). constructor; [auto|].
    revert HI. apply Forall_impl. intros s [-> ->]. auto.
  Qed.

  (** Nothing but a version that cannot be told or a file that cannot be read keeps a folder from being run to its end. *)
  Lemma exec_goes_on (call : text -> world -> world * list start * result V) vfs v :
    (forall name w w' l r, call name w = (w', l, r) -> r <> Panics) ->
    forall s fatal w w' l e, exec call vfs v s fatal w = (w', l, e) -> e <> Crashed.
  Proof.
    intros HC. induction s as [x| |k IH|f k IH|f k IH|k IH|name k IH]; intros fatal w w' l e E; cbn [exec] in E.
    - injection E as <- <- <-. discriminate.
    - injection E as <- <- <-. discriminate.
    - eauto.
    - destruct (f (disk w)). eauto.
    - destruct vfs; [destruct (f (disk w) (memory w))|]; eauto.
    - eauto.
    - destruct (call name w) as [[w1 l1] r] eqn:C. specialize (HC _ _ _ _ _ C). destruct r as [c x| | |].
      + destruct (exec call vfs v (k (Some x)) fatal w1) as [[w2 l2] e2] eqn:X. injection E as <- <- <-. eauto.
      + destruct (exec call vfs v (k None) fatal w1) as [[w2 l2] e2] eqn:X. injection E as <- <- <-. eauto.
      + congruence.
      + injection E as <- <- <-. discriminate.
  Qed.
  Lemma run_goes_on : (forall w, exists v, fst (get cfg (now around_of w) (kept w)) = Ok v) ->
    forall fuel p vfs nested w w' l r, run fuel p vfs nested w = (w', l, r) -> r <> Panics.
  Proof.
    intros HV. induction fuel as [|fuel IH]; intros p vfs nested w w' l r E.
    - cbn in E. injection E as <- <- <-. discriminate.
    - rewrite run_S in E. destruct (HV w) as (v & HG). destruct (get cfg (now around_of w) (kept w)) as [o k]. cbn [fst] in HG. subst o.
      destruct (stands w p) as [|[t|]|ns]; try (injection E as <- <- <-; discriminate).
      destruct (compile t) as [s|]; [|injection E as <- <- <-; discriminate].
      destruct (exec (call_of fuel) vfs v s false (with_kept k w)) as [[w2 l2] e] eqn:X.
      assert (HE : e <> Crashed).
      { eapply exec_goes_on; [|exact X]. clear -IH. intros name w w' l r E. unfold call_of in E. destruct (stands w (script_path name)).
        - destruct (stands w script_folder); injection E as <- <- <-; discriminate.
        - eauto.
        - eauto. }
      injection E as <- <- <-. destruct e; congruence.
  Qed.
  Lemma entries_go_on fuel folder vfs : (forall w, exists v, fst (get cfg (now around_of w) (kept w)) = Ok v) -> (forall w p, stands w p <> File None) ->
    forall ns report w w' l r, run_entries fuel folder vfs ns report w = (w', l, r) -> (exists codes x, r = Done codes x) \/ r = OutOfFuel.
  Proof.
    intros HV HR. induction ns as [|n ns IH]; intros report w w' l r E; cbn [HookModel.run_entries] in E.
    - injection E as <- <- <-. eauto.
    - destruct (stands w (below folder n)) as [|c|] eqn:A; eauto.
      destruct (run fuel (below folder n) vfs false w) as [[w1 l1] r1] eqn:X. pose proof (run_goes_on HV _ _ _ _ _ _ _ _ X) as HP.
      pose proof (run_sound fuel _ _ _ _ _ _ _ X) as HS. destruct r1 as [c1 x1| | |].
      + destruct (run_entries fuel folder vfs ns (report ++ c1) (with_kept None w1)) as [[w2 l2] r2] eqn:Y. injection E as <- <- <-. eauto.
      + exfalso. destruct HS as (_ & _ & HS). destruct c as [t|]; [now apply (HS t)|now apply HR in A].
      + congruence.
      + injection E as <- <- <-. auto.
  Qed.
End Proofs.
