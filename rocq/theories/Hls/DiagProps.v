(** C97: the editor shows what the configs give with the files as saved. *)
From Coq Require Import String Permutation.
From Verif Require Import Base.Tactics Base.Bytes Base.Sort Base.Ascii Base.Text.
From Verif Require Import Hls.DiagModel Hls.DiagSpec Hls.DiagProofs.
Local Open Scope list_scope.

Section Server.
  Context {diag : Type}.
  Context (outcome : (text -> text) -> text -> list text * list (text * diag)) (to_url : text -> text).
  Context (order_entries : nat -> list (text * text * list diag) -> list (text * text * list diag)).
  Context (order_urls : nat -> list text -> list text).
  Context (order_files : nat -> list (text * list diag) -> list (text * list diag)).
  (** Hash maps and sets list what they hold, in any order; different files have different URLs. *)
  Hypothesis Entries : forall n l, Permutation (order_entries n l) l.
  Hypothesis Urls : forall n l, Permutation (order_urls n l) l.
  Hypothesis Files : forall n l, Permutation (order_files n l) l.
  Hypothesis Distinct : forall f g, to_url f = to_url g -> f = g.
  Context (addons : list text) (Once : NoDup addons).
  Notation step := (step outcome to_url order_entries order_urls order_files).
  Notation run := (run outcome to_url order_entries order_urls order_files).

  (** [matters d c]: files such that writing any other leaves the outcome of a check of [c] as it is.
      After any orderly schedule, with nothing going on, the editor shows at every URL just the findings of all configs there. *)
  Theorem C97_shown : forall matters,
    (forall d f x c, ~ In f (matters d c) -> outcome (fun g => if eqb_bytes g f then x else d g) c = outcome d c) ->
    forall d l, orderly step outcome addons matters l (start d addons) ->
    idle (run l (start d addons)) ->
    forall u, Permutation (view (run l (start d addons)) u) (expected outcome to_url addons (files (run l (start d addons))) u).
  Proof using Entries Urls Files Distinct Once.
    intros matters Frame d l O Id. apply (idle_right outcome to_url order_files addons Once); [|exact Id].
    apply (orderly_inv outcome to_url order_entries order_urls order_files Entries Urls Files Distinct addons Once matters Frame l); [|exact O]. now apply start_inv.
  Qed.

  (** *** It comes to rest *)
  Definition reading (a : action diag) : bool := match a with Read => true | _ => false end.
  Lemma run_app l1 l2 s : run (l1 ++ l2) s = run l2 (run l1 s).
  Proof. unfold DiagModel.run. apply fold_left_app. Qed.
  Lemma perform_jobs n c a rest s : jobs (snd (perform outcome to_url order_entries order_urls order_files n c a rest s)) = jobs s /\ files (snd (perform outcome to_url order_entries order_urls order_files n c a rest s)) = files s.
  Proof. destruct a; cbn [perform]; auto. destruct (outcome (files s) c); auto. Qed.
  Lemma step_job c a rest js s : jobs s = (c, a :: rest) :: js -> reading a = false ->
    files (step (Check 0 0) s) = files s /\ jobs (step (Check 0 0) s) = match rest with [] => js | _ => (c, rest) :: js end.
  Proof.
    intros Ej R. cbn [DiagModel.step]. rewrite Ej. cbn [nth_error]. pose proof (perform_jobs 0 c a rest s) as (P & Q).
    destruct (perform _ _ _ _ _ 0 c a rest s) as [rest' s'] eqn:Pe. cbn [snd] in P, Q. unfold with_jobs. cbn [files jobs replace_at]. split; [exact Q|].
    assert (rest' = rest) as -> by (destruct a; cbn [perform] in Pe; try discriminate R; [injection Pe as <- _; reflexivity..]).
    destruct rest; reflexivity.
  Qed.
  Lemma drain_plain acts : forallb (fun a => negb (reading a)) acts = true -> forall c js s, jobs s = (c, acts) :: js -> acts <> [] ->
    exists k, jobs (run (repeat (Check 0 0) k) s) = js /\ files (run (repeat (Check 0 0) k) s) = files s.
  Proof.
    induction acts as [|a acts IH]; intros R c js s Ej NE; [congruence|]. cbn [forallb] in R. apply andb_true_iff in R as (Ra & R). apply negb_true_iff in Ra.
    destruct (step_job c a acts js s Ej Ra) as (F & J). destruct acts as [|a' acts]; [exists 1%nat; cbn [repeat DiagModel.run fold_left]; auto|].
    destruct (IH R c js _ J ltac:(discriminate)) as (k & K1 & K2). exists (S k). cbn [repeat DiagModel.run fold_left]. split; [exact K1|]. etransitivity; [exact K2|exact F].
  Qed.
  Lemma drain acts : forall c js s, jobs s = (c, acts) :: js -> acts <> [] ->
    exists k, jobs (run (repeat (Check 0 0) k) s) = js /\ files (run (repeat (Check 0 0) k) s) = files s.
  Proof.
    induction acts as [|a acts IH]; intros c js s Ej NE; [congruence|]. destruct (reading a) eqn:Ra.
    - destruct a; try discriminate Ra. destruct (outcome (files s) c) as [srcs found] eqn:Oc.
      assert (J : jobs (step (Check 0 0) s) = (c, puts to_url order_files 0 found ++ [Sync; Cache srcs]) :: js /\ files (step (Check 0 0) s) = files s).
      { cbn [DiagModel.step]. rewrite Ej. cbn [nth_error perform]. rewrite Oc. unfold with_jobs. cbn [files jobs replace_at]. split; [|reflexivity].
        destruct (puts to_url order_files 0 found ++ [Sync; Cache srcs]) eqn:E; [apply app_eq_nil in E as [_ E]; discriminate E|reflexivity]. }
      destruct J as (J & F). destruct (drain_plain (puts to_url order_files 0 found ++ [Sync; Cache srcs])) with (c := c) (js := js) (s := step (Check 0 0) s) as (k & K1 & K2).
      + rewrite forallb_app, andb_true_iff. split; [|reflexivity]. apply forallb_forall. intros a I. apply in_map_iff in I as (y & <- & _). reflexivity.
      + exact J.
      + intros E. apply app_eq_nil in E as [_ E]. discriminate E.
      + exists (S k). cbn [repeat DiagModel.run fold_left]. split; [exact K1|]. etransitivity; [exact K2|exact F].
    - destruct (step_job c a acts js s Ej Ra) as (F & J). destruct acts as [|a' acts]; [exists 1%nat; cbn [repeat DiagModel.run fold_left]; auto|].
      destruct (IH c js _ J ltac:(discriminate)) as (k & K1 & K2). exists (S k). cbn [repeat DiagModel.run fold_left]. split; [exact K1|]. etransitivity; [exact K2|exact F].
  Qed.
  Lemma checks_orderly matters k : forall s, orderly step outcome addons matters (repeat (Check 0 0) k) s.
  Proof. induction k as [|k IH]; intros s; cbn [repeat orderly]; [exact I|]; try split; auto. Qed.
  Lemma sends_orderly matters k : forall s, orderly step outcome addons matters (repeat (Publish 0) k) s.
  Proof. induction k as [|k IH]; intros s; cbn [repeat orderly]; [exact I|]; try split; auto. Qed.
  Lemma orderly_checks matters k l : forall s, orderly step outcome addons matters l (run (repeat (Check 0 0) k) s) -> orderly step outcome addons matters (repeat (Check 0 0) k ++ l) s.
  Proof. induction k as [|k IH]; intros s; intros O; cbn [repeat app orderly]; [exact O|]. apply IH. exact O. Qed.
  Lemma drain_tasks ts : forall s, jobs s = [] -> tasks s = ts -> exists k, idle (run (repeat (Publish 0) k) s) /\ files (run (repeat (Publish 0) k) s) = files s.
  Proof.
    induction ts as [|ms ts IH]; intros s J Ts; [exists O; split; [split|]; auto|]. revert s J Ts. induction ms as [|[u ds] ms IHm]; intros s J Ts.
    - destruct (IH (step (Publish 0) s)) as (k & K1 & K2); [cbn [DiagModel.step]; rewrite Ts; exact J|cbn [DiagModel.step]; rewrite Ts; reflexivity|].
      exists (S k). cbn [repeat DiagModel.run fold_left]. split; [exact K1|]. etransitivity; [exact K2|]. cbn [DiagModel.step]. now rewrite Ts.
    - destruct (IHm (step (Publish 0) s)) as (k & K1 & K2); [cbn [DiagModel.step]; rewrite Ts; exact J|cbn [DiagModel.step]; rewrite Ts; reflexivity|].
      exists (S k). cbn [repeat DiagModel.run fold_left]. split; [exact K1|]. etransitivity; [exact K2|]. cbn [DiagModel.step]. now rewrite Ts.
  Qed.
  Lemma settles matters s : Forall (fun j => snd j <> []) (jobs s) ->
    exists l, orderly step outcome addons matters l s /\ idle (run l s) /\ files (run l s) = files s.
  Proof using.
    remember (jobs s) as js eqn:Ej. revert s Ej. induction js as [|[c acts] js IH]; intros s Ej F.
    - destruct (drain_tasks (tasks s) s (eq_sym Ej) eq_refl) as (k & K1 & K2). exists (repeat (Publish 0) k). split; [apply sends_orderly|auto].
    - inversion F as [|? ? NE F']; subst. cbn [snd] in NE. destruct (drain acts c js s (eq_sym Ej) NE) as (k & K1 & K2).
      destruct (IH (run (repeat (Check 0 0) k) s) (eq_sym K1) F') as (l & O & Id & Fi).
      exists (repeat (Check 0 0) k ++ l). split; [now apply orderly_checks|]. rewrite run_app. split; [exact Id|congruence].
  Qed.
  Lemma replace_busy {A} (P : A -> Prop) i (l : list A) r : Forall P l -> Forall P r -> Forall P (replace_at i l r).
  Proof. intros F R. revert i. induction F as [|x l Px F IH]; intros [|i]; cbn [replace_at]; auto. apply Forall_app. auto. Qed.
  Lemma busy l : forall s, Forall (fun j => snd j <> []) (jobs s) -> Forall (fun j => snd j <> []) (jobs (run l s)).
  Proof.
    induction l as [|t l IH]; intros s F; [exact F|]. cbn [DiagModel.run fold_left]. apply IH. clear IH. destruct t as [f x|f|i n|i]; cbn [DiagModel.step].
    - exact F.
    - unfold with_jobs. cbn [jobs]. apply Forall_app. split; [exact F|]. apply Forall_forall. intros j I. apply in_map_iff in I as (y & <- & _). discriminate.
    - destruct (nth_error (jobs s) i) as [[c [|a rest]]|]; [exact F| |exact F]. destruct (perform _ _ _ _ _ n c a rest s) as [rest' s']. unfold with_jobs. cbn [jobs]. apply replace_busy; [exact F|]. destruct rest'; constructor; [discriminate|constructor].
    - destruct (nth_error (tasks s) i) as [[|[u ds] ms]|]; exact F.
  Qed.
  (** However things stand after any schedule, what is going on can go on in an orderly way until nothing is, with the files as they are. *)
  Theorem C97_settles : forall matters d l, exists l',
    orderly step outcome addons matters l' (run l (start d addons)) /\ idle (run (l ++ l') (start d addons)) /\
    files (run (l ++ l') (start d addons)) = files (run l (start d addons)).
  Proof using.
    clear. intros matters d l. destruct (settles matters (run l (start d addons))) as (l' & O & Id & Fi).
    - apply busy. cbn [start jobs]. apply Forall_forall. intros j I. apply in_map_iff in I as (y & <- & _). discriminate.
    - exists l'. rewrite run_app. auto.
  Qed.

  (** *** Nothing is made up, whatever the schedule *)
  Section Told.
    Context (T : text -> diag -> Prop).
    Notation tells u ds := (Forall (T u) ds).
    Record told (s : state diag) : Prop := {
      t_current : Forall (fun e => tells (snd (fst e)) (snd e)) (current (work s));
      t_jobs : Forall (fun j => In (fst j) addons /\ Forall (fun a => match a with Put u ds => tells u ds | _ => True end) (snd j)) (jobs s);
      t_tasks : Forall (Forall (fun m => tells (fst m) (snd m))) (tasks s);
      t_cache : Forall (fun x => In (fst x) addons) (cache s);
      t_view : forall u, tells u (view s u) }.
    Lemma extend_tells k l m : tells k l -> Forall (fun x => tells (fst x) (snd x)) m -> Forall (fun x => tells (fst x) (snd x)) (extend k l m).
    Proof.
      intros A B. induction B as [|[k' l'] m B1 B2 IH]; cbn [extend]; [repeat constructor; exact A|]. destruct (eqb_bytes k' k) eqn:E; constructor; auto. apply eqb_bytes_spec in E as ->. cbn [fst snd] in *. apply Forall_app. auto.
    Qed.
    Lemma perm_forall {A} (P : A -> Prop) l l' : Permutation l' l -> Forall P l -> Forall P l'.
    Proof. intros Pm. rewrite !Forall_forall. intros F x I. apply F. exact (Permutation_in _ Pm I). Qed.
    Lemma filter_forall {A} (P : A -> Prop) p l : Forall P l -> Forall P (filter p l).
    Proof. rewrite !Forall_forall. intros F x I. apply filter_In in I as [I _]. auto. Qed.
    Lemma replace_forall {A} (P : A -> Prop) i (l : list A) r : Forall P l -> Forall P r -> Forall P (replace_at i l r).
    Proof. intros F R. revert i. induction F as [|x l Px F IH]; intros [|i]; cbn [replace_at]; auto. apply Forall_app. auto. Qed.
    Lemma step_told t s : (forall c f x, In c addons -> In (f, x) (snd (outcome (files s) c)) -> T (to_url f) x) -> told s -> told (step t s).
    Proof using Entries Urls Files.
      intros Src [Tc Tj Tt Tk Tv]. destruct t as [f x|f|i n|i]; cbn [DiagModel.step].
      - constructor; auto.
      - constructor; cbn [with_jobs files cache work jobs tasks view]; auto. unfold with_jobs. cbn [jobs]. apply Forall_app. split; [exact Tj|]. apply Forall_forall. intros j I. apply in_map_iff in I as (y & <- & I). apply filter_In in I as [I _].
        cbn [start_job fst snd]. split; [rewrite Forall_forall in Tk; now apply Tk|]. repeat constructor.
      - destruct (nth_error (jobs s) i) as [[c [|a rest]]|] eqn:Nt; try (constructor; assumption). pose proof (nth_error_In _ _ Nt) as Ij. rewrite Forall_forall in Tj. pose proof (Tj _ Ij) as (Ic & Fa). cbn [fst snd] in Ic, Fa. rewrite <- Forall_forall in Tj. inversion Fa as [|? ? Pa Fr]; subst.
        assert (Go : forall rest' s', told s' -> jobs s' = jobs s -> Forall (fun a => match a with Put u ds => tells u ds | _ => True end) rest' -> told (with_jobs (replace_at i (jobs s) (match rest' with [] => [] | _ => [(c, rest')] end)) s')).
        { intros rest' s' [A B C D E'] Ejs Fr'. unfold with_jobs. constructor; cbn [files cache work jobs tasks view]; auto. apply replace_forall; [exact Tj|]. destruct rest'; [constructor|]. constructor; [|constructor]. cbn [fst snd]. auto. }
        destruct a as [| |u ds| |srcs]; cbn [perform].
        + apply Go; auto. constructor; cbn [files cache work jobs tasks view clear_current current]; auto. now apply filter_forall.
        + destruct (outcome (files s) c) as [srcs found] eqn:Oc. apply Go; [constructor; assumption|reflexivity|]. apply Forall_app. split; [|repeat constructor]. unfold puts. apply Forall_forall. intros a I. apply in_map_iff in I as ([k l] & <- & I). cbn [fst snd].
          assert (Q : Forall (fun x => Forall (T (to_url (fst x))) (snd x)) (by_label found)).
          { assert (Sf : forall f x, In (f, x) found -> T (to_url f) x) by (intros f x If; apply (Src c); [exact Ic|rewrite Oc; exact If]). unfold by_label. assert (G : forall m, Forall (fun x => Forall (T (to_url (fst x))) (snd x)) m -> Forall (fun x => Forall (T (to_url (fst x))) (snd x)) (fold_left (fun m (x : text * diag) => extend (fst x) [snd x] m) found m)).
            { clear - Sf. induction found as [|[f x] found IH]; intros m M; [exact M|]. cbn [fold_left]. apply IH; [intros g y Ig; apply Sf; now right|]. cbn [fst snd].
              assert (Tf : T (to_url f) x) by (apply Sf; now left). clear - M Tf. induction M as [|[k' l'] m B1 B2 IH]; cbn [extend]; [repeat constructor; exact Tf|]. destruct (eqb_bytes k' f) eqn:E; constructor; auto. apply eqb_bytes_spec in E as ->. cbn [fst snd] in *. apply Forall_app. auto. }
            apply G. constructor. }
          apply (perm_forall _ _ _ (Files n (by_label found))) in Q. rewrite Forall_forall in Q. exact (Q _ I).
        + apply Go; auto. constructor; cbn [files cache work jobs tasks view set_current current]; auto. constructor; [exact Pa|]. now apply filter_forall.
        + cbn [sync]. destruct (sync order_entries order_urls order_files n (work s)) as [w ms] eqn:Sy. unfold sync in Sy. injection Sy as <- <-. apply Go; auto. constructor; cbn [files cache work jobs tasks view current]; auto.
          apply Forall_app. split; [exact Tt|]. constructor; [|constructor]. apply Forall_app. split.
          * apply Forall_forall. intros m I. apply in_map_iff in I as (y & <- & _). constructor.
          * apply (perm_forall _ _ _ (Files n _)). unfold by_file. apply (perm_forall _ _ _ (Entries n _)) in Tc.
            assert (G : forall m, Forall (fun x => tells (fst x) (snd x)) m -> Forall (fun x => tells (fst x) (snd x)) (fold_left (fun m (e : text * text * list diag) => extend (snd (fst e)) (snd e) m) (order_entries n (current (work s))) m)).
            { clear - Tc. induction Tc as [|e es P1 P2 IH]; intros m M; [exact M|]. cbn [fold_left]. apply IH. now apply extend_tells. }
            apply G. constructor.
        + apply Go; auto. constructor; cbn [files cache work jobs tasks view]; auto. destruct srcs; [now apply filter_forall|]. constructor; [exact Ic|]. now apply filter_forall.
      - destruct (nth_error (tasks s) i) as [[|[u ds] ms]|] eqn:Nt; [| |constructor; assumption].
        + constructor; cbn [files cache work jobs tasks view]; auto. apply replace_forall; auto.
        + pose proof (nth_error_In _ _ Nt) as Ij. rewrite Forall_forall in Tt. pose proof (Tt _ Ij) as Fm. rewrite <- Forall_forall in Tt. inversion Fm as [|? ? Pm Fr]; subst. cbn [fst snd] in Pm.
          constructor; cbn [files cache work jobs tasks view]; auto; [apply replace_forall; auto|]. intros x. destruct (eqb_bytes x u) eqn:E; [apply eqb_bytes_spec in E as ->; exact Pm|apply Tv].
    Qed.
  End Told.
  (** Whatever the schedule: what is shown at a URL was found, at some moment so far, in the file with that URL by a check of one of the configs. *)
  Theorem C97_truthful : forall d l u x, In x (view (run l (start d addons)) u) ->
    exists l1 l2 c f, l = l1 ++ l2 /\ In c addons /\ In (f, x) (snd (outcome (files (run l1 (start d addons))) c)) /\ to_url f = u.
  Proof using Entries Urls Files.
    clear Distinct Once. intros d l u x Ix.
    assert (Q : forall l2 l1, l = l1 ++ l2 -> told (fun u x => exists l1 l2 c f, l = l1 ++ l2 /\ In c addons /\ In (f, x) (snd (outcome (files (run l1 (start d addons))) c)) /\ to_url f = u) (run l1 (start d addons)) ->
      told (fun u x => exists l1 l2 c f, l = l1 ++ l2 /\ In c addons /\ In (f, x) (snd (outcome (files (run l1 (start d addons))) c)) /\ to_url f = u) (run l (start d addons))).
    { induction l2 as [|t l2 IH]; intros l1 El Tl; [rewrite app_nil_r in El; now subst|]. apply (IH (l1 ++ [t])); [now rewrite <- app_assoc|]. rewrite run_app. cbn [DiagModel.run fold_left].
      apply step_told; [|exact Tl]. intros c f y Ic If. exists l1, (t :: l2), c, f. auto. }
    specialize (Q l [] eq_refl). assert (T0 : told (fun u x => exists l1 l2 c f, l = l1 ++ l2 /\ In c addons /\ In (f, x) (snd (outcome (files (run l1 (start d addons))) c)) /\ to_url f = u) (run [] (start d addons))).
    { cbn [DiagModel.run fold_left start]. constructor; cbn [files cache work jobs tasks view current]; try constructor. apply Forall_forall. intros j I. apply in_map_iff in I as (c & <- & I). cbn [start_job fst snd]. split; [exact I|]. repeat constructor. }
    pose proof (t_view _ _ (Q T0) u) as Tv. rewrite Forall_forall in Tv. exact (Tv x Ix).
  Qed.
End Server.

(** ** A project with two configs that include a common file *)
Definition ex_common : text := bs "common.hpp".
Definition ex_a : text := bs "a/config.cpp".
Definition ex_b : text := bs "b/config.cpp".
(** A config lists itself and the common file. An error in the common file is found from both configs; one in a config is found in it; with a directive that
    the preprocessor rejects nothing is listed as a source. *)
Definition ex_outcome (d : text -> text) (c : text) : list text * list (text * text) :=
  if eqb_bytes (d c) (bs "#nonsense") then ([], [(c, bs "unknown directive")])
  else ([c; ex_common],
    (if eqb_bytes (d ex_common) (bs "bad") then [(ex_common, bs "error from " ++ c)] else []) ++ (if eqb_bytes (d c) (bs "bad") then [(c, bs "error")] else [])).
Definition ex_url (f : text) : text := bs "file:///" ++ f.
Definition ex_run := run (diag := text) ex_outcome ex_url (fun _ l => l) (fun _ l => l) (fun _ l => l).
Definition ex_step := step (diag := text) ex_outcome ex_url (fun _ l => l) (fun _ l => l) (fun _ l => l).
Definition ex_disk (f : text) : text := if eqb_bytes f ex_common then bs "bad" else if eqb_bytes f ex_b then bs "bad" else bs "good".
Definition ex_first : list turn := repeat (Check 1 0) 3 ++ repeat (Check 0 0) 20 ++ repeat (Publish 0) 20.
Definition ex_fix : list turn := [Write ex_common (bs "good"); Saved ex_common] ++ repeat (Check 1 0) 3 ++ repeat (Check 0 0) 20 ++ repeat (Publish 0) 20.

(** Both configs are checked at once, and after the common file was put right only the error in the second config is left. *)
Example C97_project :
  (forall n f x c, ~ In f ((fun (_ : text -> text) c => [c; ex_common]) n c) -> ex_outcome (fun g => if eqb_bytes g f then x else n g) c = ex_outcome n c) /\
  orderly ex_step ex_outcome [ex_a; ex_b] (fun _ c => [c; ex_common]) (ex_first ++ ex_fix) (start ex_disk [ex_a; ex_b]) /\
  idle (ex_run ex_first (start ex_disk [ex_a; ex_b])) /\ idle (ex_run (ex_first ++ ex_fix) (start ex_disk [ex_a; ex_b])) /\
  view (ex_run ex_first (start ex_disk [ex_a; ex_b])) (ex_url ex_common) = [bs "error from a/config.cpp"; bs "error from b/config.cpp"] /\
  view (ex_run (ex_first ++ ex_fix) (start ex_disk [ex_a; ex_b])) (ex_url ex_common) = [] /\
  view (ex_run (ex_first ++ ex_fix) (start ex_disk [ex_a; ex_b])) (ex_url ex_b) = [bs "error"].
Proof.
  split; [|split].
  - intros d f x c NI. unfold ex_outcome. assert (E1 : eqb_bytes c f = false) by (apply eqb_bytes_false; intros ->; apply NI; now left). assert (E2 : eqb_bytes ex_common f = false) by (apply eqb_bytes_false; intros <-; apply NI; right; now left).
    rewrite E1, E2. reflexivity.
  - vm_compute. repeat split; intros c [<-|[<-|[]]] _; auto.
  - vm_compute. repeat split.
Qed.

(** *** Where it is not so *)
(** The messages of a later check overtake those of an earlier one: an error that is no longer there stays. *)
Definition bad_disk (f : text) : text := if eqb_bytes f ex_a then bs "bad" else bs "good".
Theorem C97_late_refuted : exists l,
  idle (ex_run l (start bad_disk [ex_a])) /\ files (ex_run l (start bad_disk [ex_a])) ex_a = bs "good" /\
  (forall f x, In (Write f x) l -> exists l1 l2, l = l1 ++ Write f x :: Saved f :: l2 /\ jobs (ex_run l1 (start bad_disk [ex_a])) = []) /\
  expected ex_outcome ex_url [ex_a] (files (ex_run l (start bad_disk [ex_a]))) (ex_url ex_a) = [] /\
  view (ex_run l (start bad_disk [ex_a])) (ex_url ex_a) = [bs "error"].
Proof.
  exists (repeat (Check 0 0) 10 ++ [Write ex_a (bs "good"); Saved ex_a] ++ repeat (Check 0 0) 10 ++ repeat (Publish 1) 2 ++ repeat (Publish 0) 9).
  split; [vm_compute; auto|]. split; [vm_compute; auto|]. split; [|vm_compute; auto].
  intros f x I. apply in_app_or in I as [I|I]; [|apply in_app_or in I as [[I|[I|[]]]|I]].
  - apply repeat_spec in I. discriminate I.
  - assert (f = ex_a /\ x = bs "good") as (-> & ->) by (split; congruence). eexists (repeat (Check 0 0) 10), _. split; [reflexivity|vm_compute; reflexivity].
  - discriminate I.
  - repeat (apply in_app_or in I as [I|I]); apply repeat_spec in I; discriminate I.
Qed.
(** A save while the config is being checked: the older check, which read the older file, has the last word. *)
Theorem C97_overlap_refuted : exists l,
  idle (ex_run l (start (fun _ => bs "good") [ex_a])) /\ files (ex_run l (start (fun _ => bs "good") [ex_a])) ex_a = bs "good" /\
  Forall (fun t => match t with Publish i => i = 0%nat | _ => True end) l /\
  expected ex_outcome ex_url [ex_a] (files (ex_run l (start (fun _ => bs "good") [ex_a]))) (ex_url ex_a) = [] /\
  view (ex_run l (start (fun _ => bs "good") [ex_a])) (ex_url ex_a) = [bs "error"].
Proof.
  exists (repeat (Check 0 0) 10 ++ repeat (Publish 0) 5 ++ [Write ex_a (bs "bad"); Saved ex_a; Check 0 0; Check 0 0; Write ex_a (bs "good"); Saved ex_a] ++
          repeat (Check 1 0) 6 ++ repeat (Check 0 0) 6 ++ repeat (Publish 0) 9).
  split; [vm_compute; auto|]. split; [vm_compute; auto|]. split; [|vm_compute; auto]. repeat constructor.
Qed.
(** A config that the preprocessor rejected lists no sources: it is not checked again when it is saved, and its error stays. All else is in order. *)
Definition nonsense_disk (f : text) : text := if eqb_bytes f ex_a then bs "#nonsense" else bs "good".
Theorem C97_failed_refuted : exists l1 l2,
  let s := ex_run l1 (start nonsense_disk [ex_a]) in
  let s' := ex_run ([Write ex_a (bs "good"); Saved ex_a] ++ l2) s in
  idle s /\ idle s' /\ files s' ex_a = bs "good" /\ expected ex_outcome ex_url [ex_a] (files s') (ex_url ex_a) = [] /\
  Forall (fun t => match t with Publish i => i = 0%nat | _ => True end) (l1 ++ l2) /\
  view s' (ex_url ex_a) = [bs "unknown directive"].
Proof.
  exists (repeat (Check 0 0) 10 ++ repeat (Publish 0) 5), (repeat (Check 0 0) 10 ++ repeat (Publish 0) 5).
  split; [vm_compute; auto|]. split; [vm_compute; auto|]. split; [vm_compute; auto|]. split; [vm_compute; auto|]. split; [|vm_compute; auto]. repeat constructor.
Qed.

Print Assumptions C97_shown.
Print Assumptions C97_settles.
Print Assumptions C97_truthful.
Print Assumptions C97_late_refuted.
Print Assumptions C97_overlap_refuted.
Print Assumptions C97_failed_refuted.
