(** C90: the hooks of a phase and the scripts of a project. *)
From Coq Require Import String.
From Verif Require Import Base.Tactics Base.Bytes Base.Ascii Base.Sort Base.Text Common.VersionModel Common.ProjectVersionModel
  Bin.HookModel Bin.HookSpec Bin.HookProofs.
Local Open Scope list_scope.

Section Theorems.
  Context {R M V : Type} (look : R -> M -> text -> node) (on_disk : R -> text -> node) (around_of : R -> M -> around) (cfg : config)
    (compile : text -> option (script R M V)) (nothing : V).
  Notation hooks := (hooks look around_of cfg compile nothing).
  Notation run_file := (run_file look around_of cfg compile nothing).
  Notation folder_runs := (folder_runs look around_of cfg compile nothing).
  Notation starts := (starts look around_of cfg compile nothing).
  Notation calls := (calls look around_of cfg compile nothing).
  Notation stands := (at_ look).

  Lemma sort_alphabetical (l : list text) : alphabetical (sort_by (fun n => n) l).
  Proof. exact (sort_by_sorted (fun n : text => n) l). Qed.
  Lemma alphabetical_unique (l names : list text) : NoDup names -> Permutation l names -> alphabetical l -> l = sort_by (fun n => n) names.
  Proof.
    intros HN HP HA. rewrite <- (sort_by_id (fun n : text => n) l HA). apply sort_by_perm_eq; [auto|]. rewrite map_id.
    apply Permutation_NoDup with (l := names); [now symmetry|auto].
  Qed.

  (** A phase with a folder of hooks comes to its end with a report exactly if its files, in alphabetical order, are run one
      after the other, whatever became of the ones before; its report has one complaint for each that raised or called
      [fatal], and no other. *)
  Theorem C90_phase (p : phase) w names w' l codes : stands w (hook_folder (phase_name p)) = Folder names -> NoDup names ->
    (exists fuel x, hooks fuel true p w = (w', l, Done codes x)) <->
    exists ordered hs, Permutation ordered names /\ alphabetical ordered /\
      folder_runs (hook_folder (phase_name p)) (phase_vfs p) ordered w hs l w' /\ codes = flat_map complaint hs.
  Proof.
    intros HF HN. unfold HookModel.hooks, run_folder. rewrite HF. split.
    - intros (fuel & x & E). apply entries_sound in E as (hs & HR & -> & _). exists (sort_by (fun n => n) names), hs.
      split; [apply sort_by_perm|]. split; [apply sort_alphabetical|]. auto.
    - intros (ordered & hs & HP & HA & HR & ->). rewrite (alphabetical_unique _ _ HN HP HA) in HR.
      apply entries_complete in HR as (n & HR). exists n, nothing. now apply (HR n []).
  Qed.

  (** The scripts that are started as hooks are entries of the folder, each at most once, in alphabetical order. *)
  Theorem C90_order fuel (p : phase) w names w' l codes x : stands w (hook_folder (phase_name p)) = Folder names ->
    hooks fuel true p w = (w', l, Done codes x) ->
    exists ordered flags, Permutation ordered names /\ alphabetical ordered /\ length flags = length ordered /\
      map path (direct l) = map (below (hook_folder (phase_name p))) (map fst (filter snd (combine ordered flags))).
  Proof.
    intros HF E. unfold HookModel.hooks, run_folder in E. rewrite HF in E. apply entries_sound in E as (hs & HR & _).
    exists (sort_by (fun n => n) names). destruct (folder_chosen _ _ _ _ _ _ _ _ _ _ _ _ HR) as (flags & HL & HC). exists flags.
    split; [apply sort_by_perm|]. split; [apply sort_alphabetical|]. split; [auto|]. rewrite <- HC. eapply folder_direct; eauto.
  Qed.

  (** If no script of the project makes or removes an entry of the folder, then they are all its files. *)
  Theorem C90_all fuel (p : phase) w names w' l codes x : stands w (hook_folder (phase_name p)) = Folder names ->
    (forall t s, compile t = Some s -> minds look (map (below (hook_folder (phase_name p))) names) s) ->
    hooks fuel true p w = (w', l, Done codes x) ->
    Permutation (map path (direct l)) (filter (fun q => is_file (stands w q)) (map (below (hook_folder (phase_name p))) names)).
  Proof.
    intros HF HM E. unfold HookModel.hooks, run_folder in E. rewrite HF in E. apply entries_sound in E as (hs & HR & _).
    rewrite (folder_direct _ _ _ _ _ _ _ _ _ _ _ _ HR).
    rewrite (folder_undisturbed _ _ _ _ _ _ _ _ _ _ _ _ _ HM (fun x H => Permutation_in x (Permutation_map _ (sort_by_perm (fun n => n) names)) H) HR).
    assert (HP : forall a b, Permutation a b -> Permutation (filter (fun q => is_file (stands w q)) a) (filter (fun q => is_file (stands w q)) b)).
    { clear. induction 1 as [|y a b _ IH|y z a|a b c _ IH1 _ IH2]; cbn.
      - constructor.
      - destruct (is_file (stands w y)); auto.
      - destruct (is_file (stands w y)), (is_file (stands w z)); auto. constructor.
      - etransitivity; eauto. }
    apply HP, Permutation_map, sort_by_perm.
  Qed.

  (** Only a version that cannot be told or a file that is no text stops a phase before its last hook. *)
  Theorem C90_goes_on fuel enabled (p : phase) w w' l r : (forall w, exists v, fst (get cfg (now around_of w) (kept w)) = Ok v) ->
    (forall w q, stands w q <> File None) -> (forall c, stands w (hook_folder (phase_name p)) <> File c) ->
    hooks fuel enabled p w = (w', l, r) -> (exists codes x, r = Done codes x) \/ r = OutOfFuel.
  Proof.
    intros HV HR HN E. unfold HookModel.hooks, run_folder in E. destruct enabled; [|injection E as <- <- <-; eauto].
    destruct (stands w (hook_folder (phase_name p))) as [|c|names] eqn:F.
    - injection E as <- <- <-. eauto.
    - now destruct (HN c).
    - eapply entries_go_on; eauto.
  Qed.

  (** Every hook but the first of its phase is told the version the project has when it starts, and so is the first if no
      version is kept; none is kept once a hook has run. *)
  Theorem C90_version fuel enabled (p : phase) w w' l codes x : hooks fuel enabled p w = (w', l, Done codes x) ->
    Forall (fresh cfg) (tl (direct l)) /\ (kept w = None -> Forall (fresh cfg) (direct l)) /\ (l <> [] -> kept w' = None).
  Proof.
    intros E. unfold HookModel.hooks, run_folder in E. destruct enabled; [|injection E as <- <- <- <-; cbn; repeat split; auto; congruence].
    destruct (stands w (hook_folder (phase_name p))) as [|c|names] eqn:F.
    - injection E as <- <- <- <-. cbn. repeat split; auto. congruence.
    - discriminate.
    - apply entries_sound in E as (hs & HR & _). apply folder_fresh in HR as (H1 & H2 & H3 & _). auto.
  Qed.

  (** Scripts that are called, the ones of [hemtt script] and the hooks of post_release never reach the files in memory. *)
  Theorem C90_memory fuel enabled (p : phase) w w' l codes x : hooks fuel enabled p w = (w', l, Done codes x) ->
    (forall s, In s l -> called s = true \/ p = PostRelease -> virtual s = false) /\ (p = PostRelease -> memory w' = memory w).
  Proof.
    intros E. unfold HookModel.hooks, run_folder in E. destruct enabled; [|injection E as <- <- <- <-; cbn; intuition].
    destruct (stands w (hook_folder (phase_name p))) as [|c|names] eqn:F.
    - injection E as <- <- <- <-. cbn. intuition.
    - discriminate.
    - apply entries_sound in E as (hs & HR & _). split.
      + apply folder_inner in HR. rewrite Forall_forall in HR. intros s HS HP. rewrite (HR s HS). destruct (called s); [auto|].
        destruct HP as [HP| ->]; [discriminate|reflexivity].
      + intros ->. eapply folder_memory; eauto.
  Qed.
  Theorem C90_called_memory name w l y w' : calls name w l y w' -> memory w' = memory w.
  Proof. apply no_memory. Qed.

  (** [hemtt script]: a script that is not there is complained about; one that ends is complained about exactly if it raised
      or called [fatal]; it leaves the files in memory alone, and no version is kept. *)
  Theorem C90_script fuel name w w' l codes x : run_file fuel name w = (w', l, Done codes x) ->
    stands w (script_path name) = Missing /\ codes = [NotFound name] /\ l = [] /\ w' = w \/
    exists b o w1, starts (script_path name) false false w l b o w1 /\ codes = complaint (script_path name, b, o) /\
      disk w' = disk w1 /\ memory w' = memory w /\ kept w' = None.
  Proof.
    intros E. unfold HookModel.run_file in E. destruct (stands w (script_path name)) as [|c|ns] eqn:A.
    - left. destruct (stands w script_folder); try discriminate. injection E as <- <- <- <-. auto.
    - right. destruct (run look around_of cfg compile nothing fuel (script_path name) false false w) as [[w1 l1] r] eqn:X. injection E as <- <- ->.
      apply run_sound in X as (b & o & HS & -> & _). exists b, o, w1. repeat split; auto. now apply no_memory in HS.
    - right. destruct (run look around_of cfg compile nothing fuel (script_path name) false false w) as [[w1 l1] r] eqn:X. injection E as <- <- ->.
      apply run_sound in X as (b & o & HS & -> & _). exists b, o, w1. repeat split; auto. now apply no_memory in HS.
  Qed.

  Lemma compile_all_spec folder w : forall names l, compile_all look compile folder names w = inl l ->
    forall c, In c l <-> exists n t, In n names /\ stands w (below folder n) = File (Some t) /\ compile t = None /\ c = ParseError (below folder n).
  Proof.
    induction names as [|n names IH]; intros l E c; cbn [compile_all] in E.
    - injection E as <-. cbn. split; [tauto|]. intros (n & t & [] & _).
    - destruct (stands w (below folder n)) as [|[t|]|] eqn:A; try discriminate. destruct (compile_all look compile folder names w) as [l'|] eqn:X; [|discriminate].
      specialize (IH _ eq_refl c). injection E as <-. split.
      + intros HI. assert (HC : In c l' \/ compile t = None /\ c = ParseError (below folder n)).
        { destruct (compile t); [auto|]. destruct HI as [<-|HI]; auto. }
        destruct HC as [HC|[HC ->]].
        * apply IH in HC as (n' & t' & HN & HH). exists n', t'. split; [now right|auto].
        * exists n, t. split; [now left|auto].
      + intros (n' & t' & [->|HN] & HA & HC & ->).
        * rewrite A in HA. injection HA as ->. rewrite HC. now left.
        * assert (HI : In (ParseError (below folder n')) l') by (apply IH; eauto 10). destruct (compile t); [auto|now right].
  Qed.
  Lemma compile_all_files folder w : forall names l, compile_all look compile folder names w = inl l -> forall n, In n names -> exists t, stands w (below folder n) = File (Some t).
  Proof.
    induction names as [|n names IH]; intros l E m HM; [destruct HM|]; cbn [compile_all] in E. destruct HM as [->|HM].
    - destruct (stands w (below folder m)) as [|[t|]|] eqn:A; try discriminate. eauto.
    - destruct (stands w (below folder n)) as [|[t|]|] eqn:A; try discriminate. destruct (compile_all look compile folder names w) as [l'|] eqn:X; [|discriminate]. eauto.
  Qed.
  (** Before anything is built every entry of the four folders is read and parsed: the ones that do not parse are reported,
      and only they are. *)
  Theorem C90_init w e codes x : init look on_disk compile nothing w = (e, Done codes x) ->
    (e = false <-> on_disk (disk w) (bs "/.hemtt/hooks") = Missing) /\
    (e = true -> forall (p : phase) names, on_disk (disk w) (hook_folder (phase_name p)) = Folder names ->
       forall n, In n names -> exists t, stands w (below (hook_folder (phase_name p)) n) = File (Some t) /\
         (compile t = None <-> In (ParseError (below (hook_folder (phase_name p)) n)) codes)) /\
    (forall c, In c codes -> exists (p : phase) names n t, on_disk (disk w) (hook_folder (phase_name p)) = Folder names /\ In n names /\
       stands w (below (hook_folder (phase_name p)) n) = File (Some t) /\ compile t = None /\ c = ParseError (below (hook_folder (phase_name p)) n)).
  Proof.
    unfold init. intros E.
    assert (HI : forall p, In p [PreBuild; PostBuild; PreRelease; PostRelease]) by (intros p; destruct p; cbn; auto).
    revert HI E. generalize [PreBuild; PostBuild; PreRelease; PostRelease]. intros qs HI E.
    assert (HP : forall ps codes, compile_phases look on_disk compile nothing ps w = Done codes x ->
      (forall p names, In p ps -> on_disk (disk w) (hook_folder (phase_name p)) = Folder names ->
         exists l, compile_all look compile (hook_folder (phase_name p)) names w = inl l /\ incl l codes) /\
      (forall c, In c codes -> exists p names l, on_disk (disk w) (hook_folder (phase_name p)) = Folder names /\
         compile_all look compile (hook_folder (phase_name p)) names w = inl l /\ In c l)).
    { clear. induction ps as [|p ps IH]; intros codes E; cbn [compile_phases] in E.
      - injection E as <- <-. split; [intros p names []|intros c []].
      - destruct (on_disk (disk w) (hook_folder (phase_name p))) as [|c|names] eqn:D; [|discriminate|].
        + destruct (IH _ E) as [H1 H2]. split; [|exact H2]. intros q names [->|HQ] HD; [congruence|eauto].
        + destruct (compile_all look compile (hook_folder (phase_name p)) names w) as [l|] eqn:X; [|discriminate].
          destruct (compile_phases look on_disk compile nothing ps w) as [l' y| | |] eqn:Y; try discriminate. injection E as <- ->.
          destruct (IH _ eq_refl) as [H1 H2]. split.
          * intros q ns [->|HQ] HD; [rewrite D in HD; injection HD as <-; exists l; split; [auto|apply incl_appl, incl_refl]|].
            destruct (H1 q ns HQ HD) as (l2 & HC & HI). exists l2. split; [auto|]. now apply incl_appr.
          * intros c HC. apply in_app_iff in HC as [HC|HC]; [exists p, names, l; auto|auto]. }
    destruct (on_disk (disk w) (bs "/.hemtt/hooks")) as [|c|ns] eqn:D.
    { injection E as <- <- <-. split; [split; auto|]. split; [discriminate|]. intros c []. }
    1-2: injection E as <- E; destruct (HP _ _ E) as [H1 H2]; clear HP.
    1-2: split; [split; discriminate|]; split.
    1,3: intros _ p names HD n HN;
      destruct (H1 p names (HI p) HD) as (l & HC & HL); destruct (compile_all_files _ _ _ _ HC n HN) as (t & HT); exists t; split; [exact HT|];
      split; [intros HB; apply HL; apply (compile_all_spec _ _ _ _ HC); eauto 10|];
      intros HB; apply H2 in HB as (q & ns' & l' & HD' & HC' & HB); apply (compile_all_spec _ _ _ _ HC') in HB as (n' & t' & HN' & HT' & HB & EQ);
      apply (f_equal (fun c => match c with ParseError q => q | _ => [] end)) in EQ; cbv beta iota in EQ; rewrite <- EQ, HT in HT'; now injection HT' as ->.
    1-2: intros c' HC; apply H2 in HC as (p & names & l & HD & HC' & HB); apply (compile_all_spec _ _ _ _ HC') in HB as (n & t & HN & HT & HB' & ->); eauto 10.
  Qed.
End Theorems.
Print Assumptions C90_phase.
Print Assumptions C90_order.
Print Assumptions C90_all.
Print Assumptions C90_goes_on.
Print Assumptions C90_version.
Print Assumptions C90_memory.
Print Assumptions C90_script.
Print Assumptions C90_init.

(** ** Cases *)

Local Notation tree := (list (text * node)).
Fixpoint find (t : tree) (p : text) : option node :=
  match t with [] => None | (q, n) :: t => if eqb_bytes q p then Some n else find t p end.
Definition seen (r m : tree) (p : text) : node :=
  match find m p with Some n => n | None => match find r p with Some n => n | None => Missing end end.
Definition alone (r : tree) (p : text) : node := seen r [] p.
Definition around_tree (r m : tree) : around :=
  Around (fun q => match seen r m q with File (Some t) => Holds t | File None => Unreadable | _ => Absent end) None.
(** The version stands in the file [v]. *)
Definition in_file : config := Config (bs "v") None 0.
Definition version_one : text := bs "#define MAJOR 1" ++ [10%N] ++ bs "#define MINOR 0" ++ [10%N] ++ bs "#define PATCH 0" ++ [10%N].
Definition version_two : text := bs "#define MAJOR 2" ++ [10%N] ++ bs "#define MINOR 0" ++ [10%N] ++ bs "#define PATCH 0" ++ [10%N].
(** A few scripts. *)
Local Notation program := (script tree tree nat).
Definition write_version (t : text) (k : program) : program := Virtual (fun r m => ((bs "v", File (Some t)) :: m, 0%nat)) (fun _ => k).
Definition programs : list (text * program) :=
  [ (bs "good", Give 1%nat);
    (bs "fatal", Fatal (Give 2%nat));
    (bs "raise", Raise);
    (bs "call", Call (bs "x") (fun o => match o with Some _ => Give 3%nat | None => Raise end));
    (bs "bump", write_version version_two (Give 4%nat));
    (bs "bump, call", write_version version_two (Call (bs "x") (fun _ => Give 5%nat)));
    (bs "break", write_version (bs "nothing") (Give 6%nat));
    (bs "memory", Virtual (fun r m => (m, 0%nat)) (fun o => match o with Some _ => Give 7%nat | None => Raise end)) ].
Fixpoint compile_table (l : list (text * program)) (t : text) : option program :=
  match l with [] => None | (u, s) :: l => if eqb_bytes u t then Some s else compile_table l t end.
Definition parse (t : text) : option program := compile_table programs t.
Local Notation phase_of := (hooks seen around_tree in_file parse 0%nat).
Local Notation script_of := (run_file seen around_tree in_file parse 0%nat).
Definition hook (phase name content : text) : text * node := (below (hook_folder phase) name, File (Some content)).
Definition lib (name content : text) : text * node := (below script_folder name, File (Some content)).
Definition begin (r : tree) : world tree tree := World ((bs "v", File (Some version_one)) :: r) [] None.
(** What can be seen of a run: the scripts that were started with the major number they were told, and the result. *)
Definition outcome (x : world tree tree * list start * result nat) : list (text * N) * result nat :=
  let '(_, l, r) := x in (map (fun s => (path s, major (told s))) l, r).

(** Four hooks, one of them raises and one calls [fatal], and a folder beside them: all four run, in order, and two are
    complained about. *)
Definition four : tree :=
  [ (hook_folder (bs "pre_build"), Folder [bs "2"; bs "10"; bs "old"; bs "B"; bs "a"]);
    hook (bs "pre_build") (bs "2") (bs "raise"); hook (bs "pre_build") (bs "10") (bs "bump"); (below (hook_folder (bs "pre_build")) (bs "old"), Folder []);
    hook (bs "pre_build") (bs "B") (bs "fatal"); hook (bs "pre_build") (bs "a") (bs "memory") ].
Example C90_example :
  outcome (phase_of 5%nat true PreBuild (begin four)) =
    ([ (bs "/.hemtt/hooks/pre_build/10", 1%N); (bs "/.hemtt/hooks/pre_build/2", 2%N); (bs "/.hemtt/hooks/pre_build/B", 2%N); (bs "/.hemtt/hooks/pre_build/a", 2%N) ],
     Done [RuntimeError (bs "/.hemtt/hooks/pre_build/2"); ScriptFatal (bs "/.hemtt/hooks/pre_build/B")] 0%nat).
Proof. vm_compute. reflexivity. Qed.
Example C90_example_minds : forall t s, parse t = Some s -> minds seen (map (below (hook_folder (bs "pre_build"))) [bs "2"; bs "10"; bs "old"; bs "B"; bs "a"]) s.
Proof.
  assert (HW : forall t k, minds seen (map (below (hook_folder (bs "pre_build"))) [bs "2"; bs "10"; bs "old"; bs "B"; bs "a"]) k ->
                 minds seen (map (below (hook_folder (bs "pre_build"))) [bs "2"; bs "10"; bs "old"; bs "B"; bs "a"]) (write_version t k)).
  { intros t k HK. split; [|auto]. intros r m p HP. cbn [fst]. unfold seen. cbn [find]. destruct (eqb_bytes (bs "v") p) eqn:E; [|auto].
    apply eqb_bytes_spec in E as <-. exfalso. cbn in HP. intuition discriminate. }
  intros t s. unfold parse, programs. cbn [compile_table].
  destruct (eqb_bytes (bs "good") t); [intros [= <-]; exact I|].
  destruct (eqb_bytes (bs "fatal") t); [intros [= <-]; exact I|].
  destruct (eqb_bytes (bs "raise") t); [intros [= <-]; exact I|].
  destruct (eqb_bytes (bs "call") t); [intros [= <-] [x|]; exact I|].
  destruct (eqb_bytes (bs "bump") t); [intros E; injection E as <-; apply HW; exact I|].
  destruct (eqb_bytes (bs "bump, call") t); [intros E; injection E as <-; apply HW; intros x; exact I|].
  destruct (eqb_bytes (bs "break") t); [intros E; injection E as <-; apply HW; exact I|].
  destruct (eqb_bytes (bs "memory") t); [|discriminate].
  intros [= <-]. split; [auto|]. intros [x|]; exact I.
Qed.

(** Not so of the scripts a hook calls: one that is not there, that raises or that calls [fatal] goes by unseen. *)
Definition calling (x : text) : tree :=
  [ (hook_folder (bs "pre_build"), Folder [bs "a"]); hook (bs "pre_build") (bs "a") (bs "call"); (script_folder, Folder [bs "x.rhai"]); lib (bs "x.rhai") x ].
Theorem C90_called_refuted :
  outcome (phase_of 5%nat true PreBuild (begin (calling (bs "fatal")))) =
    ([(bs "/.hemtt/hooks/pre_build/a", 1%N); (bs "/.hemtt/scripts/x.rhai", 1%N)], Done [] 0%nat) /\
  outcome (phase_of 5%nat true PreBuild (begin (calling (bs "raise")))) =
    ([(bs "/.hemtt/hooks/pre_build/a", 1%N); (bs "/.hemtt/scripts/x.rhai", 1%N)], Done [] 0%nat) /\
  outcome (phase_of 5%nat true PreBuild (begin (firstn 3 (calling (bs "raise"))))) = ([(bs "/.hemtt/hooks/pre_build/a", 1%N)], Done [] 0%nat) /\
  outcome (script_of 5%nat (bs "x") (begin (calling (bs "fatal")))) =
    ([(bs "/.hemtt/scripts/x.rhai", 1%N)], Done [ScriptFatal (bs "/.hemtt/scripts/x.rhai")] 2%nat) /\
  snd (script_of 5%nat (bs "y") (begin (calling (bs "fatal")))) = Done [NotFound (bs "y")] 0%nat.
Proof. repeat split; vm_compute; reflexivity. Qed.
Print Assumptions C90_called_refuted.

(** Nor is a script that is called told the version the hook has just written. *)
Theorem C90_called_version_refuted :
  let w := begin [ (hook_folder (bs "pre_build"), Folder [bs "a"; bs "b"]); hook (bs "pre_build") (bs "a") (bs "bump, call");
                   hook (bs "pre_build") (bs "b") (bs "call"); (script_folder, Folder [bs "x.rhai"]); lib (bs "x.rhai") (bs "good") ] in
  fst (outcome (phase_of 5%nat true PreBuild w)) =
    [(bs "/.hemtt/hooks/pre_build/a", 1%N); (bs "/.hemtt/scripts/x.rhai", 1%N); (bs "/.hemtt/hooks/pre_build/b", 2%N); (bs "/.hemtt/scripts/x.rhai", 2%N)].
Proof. vm_compute. reflexivity. Qed.
Print Assumptions C90_called_version_refuted.

(** A hook that leaves no version behind makes the next one panic. *)
Theorem C90_panic_refuted :
  let w := begin [ (hook_folder (bs "pre_build"), Folder [bs "a"; bs "b"]); hook (bs "pre_build") (bs "a") (bs "break"); hook (bs "pre_build") (bs "b") (bs "good") ] in
  outcome (phase_of 5%nat true PreBuild w) = ([(bs "/.hemtt/hooks/pre_build/a", 1%N)], Panics).
Proof. vm_compute. reflexivity. Qed.
Print Assumptions C90_panic_refuted.

(** A folder among the hooks, that the phase would leave out, ends the run before the phase begins; and what is no script but
      stands there is taken for one. *)
Theorem C90_folder_refuted :
  let w := begin ((bs "/.hemtt/hooks", Folder [bs "pre_build"]) :: four) in
  init seen alone parse 0%nat w = (true, Fault) /\
  let w := begin [ (bs "/.hemtt/hooks", Folder [bs "pre_build"]); (hook_folder (bs "pre_build"), Folder [bs "README.md"]); hook (bs "pre_build") (bs "README.md") (bs "# Hooks") ] in
  init seen alone parse 0%nat w = (true, Done [ParseError (bs "/.hemtt/hooks/pre_build/README.md")] 0%nat).
Proof. repeat split; vm_compute; reflexivity. Qed.
Print Assumptions C90_folder_refuted.

(** The name of a script loses what is after its last dot. *)
Theorem C90_name_refuted :
  let w := begin [ (script_folder, Folder [bs "v1.rhai"; bs "v1.2.rhai"]); lib (bs "v1.rhai") (bs "raise"); lib (bs "v1.2.rhai") (bs "good") ] in
  outcome (script_of 5%nat (bs "v1.2") w) = ([(bs "/.hemtt/scripts/v1.rhai", 1%N)], Done [RuntimeError (bs "/.hemtt/scripts/v1.rhai")] 0%nat) /\
  outcome (script_of 5%nat (bs "v1.2.rhai") w) = ([(bs "/.hemtt/scripts/v1.2.rhai", 1%N)], Done [] 1%nat).
Proof. repeat split; vm_compute; reflexivity. Qed.
Print Assumptions C90_name_refuted.

(** The hooks of post_release have no files in memory. *)
Example C90_example_memory :
  let w := begin [ (hook_folder (bs "post_release"), Folder [bs "a"]); hook (bs "post_release") (bs "a") (bs "memory") ] in
  outcome (phase_of 5%nat true PostRelease w) = ([(bs "/.hemtt/hooks/post_release/a", 1%N)], Done [RuntimeError (bs "/.hemtt/hooks/post_release/a")] 0%nat).
Proof. vm_compute. reflexivity. Qed.
