(** C105. *)
From Coq Require Import String.
From Verif Require Import Base.Tactics Base.Bytes Base.Ascii Base.Text Base.Sort Bin.TempModel Bin.TempSpec.
Local Open Scope N_scope.
Local Open Scope list_scope.

Lemma below_is a p : below a p = true <-> exists q, p = a ++ q.
Proof.
  revert p. induction a as [|x a IH]; intros p; cbn [below app]; [split; [now exists p|reflexivity]|]. destruct p as [|y p].
  - split; [discriminate|intros (q & [=])].
  - rewrite andb_true_iff, IH, eqb_bytes_spec. split.
    + intros [-> (q & ->)]. now exists q.
    + intros (q & E). injection E as -> ->. split; [reflexivity|now exists q].
Qed.
Lemma same_is p q : same p q = true <-> p = q.
Proof.
  revert q. induction p as [|x p IH]; intros [|y q]; cbn [same]; try (split; discriminate || reflexivity). rewrite andb_true_iff, IH, eqb_bytes_spec. split; [now intros [-> ->]|now intros [= -> ->]].
Qed.
Lemma join_inj : forall l m, Forall plain l -> Forall plain m -> join [95] l = join [95] m -> l = m.
Proof.
  intros l m L M E.
  assert (G : forall l, Forall plain l -> l <> [] -> split_on 95 (join [95] l) = l).
  { induction l0 as [|x k IH]; intros F NE; [contradiction|]. inversion F as [|? ? (P1 & P2 & P3 & P4) B]; subst. destruct k as [|y k].
    - cbn [join]. now apply split_on_none.
    - change (join [95] (x :: y :: k)) with (x ++ 95 :: join [95] (y :: k)). rewrite split_on_app by exact P4. f_equal. apply IH; [exact B|discriminate]. }
  assert (Z : forall k, Forall plain k -> k <> [] -> join [95] k <> []).
  { intros k F NE H. destruct k as [|x k]; [contradiction|]. inversion F as [|? ? (P1 & _) B]; subst. destruct k; cbn [join] in H; [contradiction|]. apply app_eq_nil in H as [H _]. contradiction. }
  destruct l as [|x l], m as [|y m]; [reflexivity|exfalso; now apply (Z (y :: m))|exfalso; now apply (Z (x :: l))|].
  rewrite <- (G (x :: l)), <- (G (y :: m)), E by (assumption || discriminate). reflexivity.
Qed.
Lemma join_map s : (s = 47 \/ s = 92) -> forall l, Forall plain l -> map (fun c => if (c =? 92) || (c =? 47) then 95 else c) (join [s] l) = join [95] l.
Proof.
  intros S l F. assert (P : forall x, plain x -> map (fun c => if (c =? 92) || (c =? 47) then 95 else c) x = x).
  { intros x (_ & A & B & _). induction x as [|c x IH]; [reflexivity|]. cbn [map]. assert (c <> 92) by (intros ->; apply B; now left). assert (c <> 47) by (intros ->; apply A; now left).
    rewrite (proj2 (N.eqb_neq c 92)), (proj2 (N.eqb_neq c 47)) by assumption. cbn [orb]. f_equal. apply IH; intros I; [apply A|apply B]; now right. }
  induction F as [|x l X F IH]; [reflexivity|]. destruct l as [|y l]; [now apply P|].
  change (join [s] (x :: y :: l)) with (x ++ s :: join [s] (y :: l)). change (join [95] (x :: y :: l)) with (x ++ 95 :: join [95] (y :: l)).
  rewrite map_app, (P x X). cbn [map]. rewrite IH. f_equal. f_equal. destruct S as [-> | ->]; reflexivity.
Qed.
Lemma ordinary_kept r : ordinary r -> kept r <> [] /\ Forall plain (kept r) /\ kept r <> [bs "profile"].
Proof. destruct r as [[|a names]|d names]; cbn [ordinary kept skipn]; tauto. Qed.
Lemma ordinary_name r : ordinary r -> tmp_name r = join [95] (kept r) /\ tmp_name r <> [] /\ tmp r = [tmp_name r].
Proof.
  intros O. apply ordinary_kept in O as (NE & F & _). assert (E : tmp_name r = join [95] (kept r)) by (unfold tmp_name; apply join_map; [destruct r; [now left|now right]|exact F]).
  assert (X : tmp_name r <> []).
  { rewrite E. destruct (kept r) as [|x k]; [contradiction|]. inversion F as [|? ? (P & _) _]; subst. destruct k; cbn [join]; [exact P|]. intros H. apply app_eq_nil in H as [H _]. contradiction. }
  split; [exact E|]. split; [exact X|]. unfold tmp. now destruct (tmp_name r).
Qed.
Lemma tmp_apart r s : ordinary r -> ordinary s -> together r s -> r <> s -> tmp_name r <> tmp_name s.
Proof.
  intros R S T NE E. destruct (ordinary_name r R) as (ER & _), (ordinary_name s S) as (ES & _). rewrite ER, ES in E.
  apply ordinary_kept in R as (_ & FR & _), S as (_ & FS & _). apply (join_inj _ _ FR FS) in E.
  destruct r as [[|a n]|d n], s as [[|b m]|e m]; cbn [together] in T; try contradiction; cbn [kept skipn] in E; subst; contradiction.
Qed.
Lemma not_profile r : ordinary r -> tmp_name r <> bs "profile".
Proof.
  intros R E. destruct (ordinary_name r R) as (ER & _). apply ordinary_kept in R as (_ & FR & NP). rewrite ER in E. apply NP.
  apply join_inj; [exact FR| |exact E]. constructor; [|constructor]. split; [discriminate|]. vm_compute. intuition discriminate.
Qed.
Lemma below_one n p : below [n] p = true -> forall m q, same p (m :: q) = true -> n = m.
Proof. intros B m q S. apply below_is in B as (u & ->). apply same_is in S. cbn [app] in S. congruence. Qed.
Lemma write_away n m q t d p : n <> m -> below [n] p = true -> write (m :: q) t d p = d p.
Proof. intros NE B. unfold write. destruct (same p (m :: q)) eqn:S; [|reflexivity]. destruct NE. exact (below_one n p B m q S). Qed.
Lemma remove_away n m d p : n <> m -> below [n] p = true -> remove [m] d p = d p.
Proof.
  intros NE B. unfold remove. destruct (below [m] p) eqn:S; [|reflexivity]. apply below_is in B as (u & ->), S as (v & E). cbn [app] in E. congruence.
Qed.
(** A step of another project, or of nobody's folder, does not reach. *)
Lemma step_away r s d p : ordinary r -> ordinary (of_ s) -> together (of_ s) r -> of_ s <> r -> below (tmp r) p = true -> perform s d p = d p.
Proof.
  intros R S T NE B. destruct (ordinary_name r R) as (_ & _ & ER). rewrite ER in B. assert (A : tmp_name r <> tmp_name (of_ s)) by (intros E; symmetry in E; revert E; now apply tmp_apart).
  destruct (ordinary_name _ S) as (_ & _ & ES). destruct s as [q|q u t|q files]; cbn [of_ perform] in *.
  - rewrite ES. now apply remove_away with (n := tmp_name r).
  - rewrite ES. cbn [app]. now apply write_away with (n := tmp_name r).
  - assert (P : forall d, fold_left (fun d f => write (profile ++ fst f) (Some (snd f)) d) files d p = d p).
    { induction files as [|f files IH]; intros d0; [reflexivity|]. cbn [fold_left]. rewrite IH. apply write_away with (n := tmp_name r); [now apply not_profile|exact B]. }
    rewrite P. apply remove_away with (n := tmp_name r); [now apply not_profile|exact B].
Qed.
Lemma step_same r s d d' p : (forall q, below (tmp r) q = true -> d q = d' q) -> below (tmp r) p = true -> perform s d p = perform s d' p.
Proof.
  intros H B. assert (W : forall q t d d', (forall x, below (tmp r) x = true -> d x = d' x) -> forall x, below (tmp r) x = true -> write q t d x = write q t d' x) by (intros q t d1 d2 E x X; unfold write; destruct (same x q); auto).
  assert (M : forall q d d', (forall x, below (tmp r) x = true -> d x = d' x) -> forall x, below (tmp r) x = true -> remove q d x = remove q d' x) by (intros q d1 d2 E x X; unfold remove; destruct (below q x); auto).
  destruct s as [q|q u t|q files]; cbn [perform]; [now apply M|now apply W|].
  assert (F : forall d d', (forall x, below (tmp r) x = true -> d x = d' x) -> forall x, below (tmp r) x = true ->
    fold_left (fun d f => write (profile ++ fst f) (Some (snd f)) d) files d x = fold_left (fun d f => write (profile ++ fst f) (Some (snd f)) d) files d' x).
  { induction files as [|f files IH]; intros d1 d2 E x X; [now apply E|]. cbn [fold_left]. apply IH; [|exact X]. now apply W. }
  apply F; [|exact B]. now apply M.
Qed.

(** Projects at ordinary places do not meet: whatever runs of other projects come between, a project's temporary folder holds what its own
    runs have put there. *)
Theorem C105_apart : forall r l own d, ordinary r -> (forall s, In s l -> ordinary (of_ s) /\ together (of_ s) r) -> only r l own ->
  forall p, run l d (tmp r ++ p) = run own d (tmp r ++ p).
Proof.
  intros r l own d R O H p.
  assert (G : forall d d', (forall q, below (tmp r) q = true -> d q = d' q) -> forall q, below (tmp r) q = true -> run l d q = run own d' q).
  { clear d p. revert O. induction H as [|s l l' E _ IH|s l l' E _ IH]; intros O d d' D q B.
    - now apply D.
    - unfold run. cbn [fold_left]. apply IH; [intros x X; apply O; now right| |exact B]. intros x X. now apply step_same with (r := r).
    - unfold run. cbn [fold_left]. apply IH; [intros x X; apply O; now right| |exact B]. intros x X. destruct (O s (or_introl eq_refl)) as (O1 & O2). rewrite (step_away r s d x); auto. }
  apply G; [reflexivity|]. apply below_is. now exists p.
Qed.
(** Opening a project leaves nothing of an earlier run of it. *)
Theorem C105_emptied : forall r d p, run [Opens r] d (tmp r ++ p) = None.
Proof. intros r d p. cbn [run fold_left perform]. unfold remove. assert (B : below (tmp r) (tmp r ++ p) = true) by (apply below_is; now exists p). now rewrite B. Qed.
(** And nothing anywhere else is touched by it: not the profile, not what is outside of the folder. *)
Theorem C105_nothing_else : forall r d p, (forall q, p <> tmp r ++ q) -> run [Opens r] d p = d p.
Proof. intros r d p H. cbn [run fold_left perform]. unfold remove. destruct (below (tmp r) p) eqn:B; [|reflexivity]. apply below_is in B as (q & E). now destruct (H q). Qed.
Theorem C105_profile_kept : forall r d p, ordinary r -> run [Opens r] d (profile ++ p) = d (profile ++ p).
Proof.
  intros r d p R. apply C105_nothing_else. intros q E. destruct (ordinary_name r R) as (_ & _ & T). rewrite T in E. cbn [profile app] in E. apply (not_profile r R). congruence.
Qed.

(** ** Places that are not ordinary *)
Definition u (l : list string) : place := Unix (map bs l).
(** An underscore in a name is like a folder in between. *)
Theorem C105_underscore_refuted : exists r s p t d, r <> s /\ together r s /\ run [Opens r; Puts r p (Some t)] d (tmp r ++ p) = Some t /\ run [Opens r; Puts r p (Some t); Opens s] d (tmp r ++ p) = None.
Proof.
  exists (u ["home"; "me"; "my_mod"]%string), (u ["home"; "me"; "my"; "mod"]%string), [bs "x"], [1], (fun _ => None). split; [vm_compute; discriminate|]. split; [reflexivity|]. split; vm_compute; reflexivity.
Qed.
(** The first folder, or the drive, does not count. *)
Theorem C105_first_refuted : forall a b names p t d, names <> [] ->
  run [Opens (Unix (a :: names)); Puts (Unix (a :: names)) p (Some t); Opens (Unix (b :: names))] d (tmp (Unix (a :: names)) ++ p) = None /\
  run [Opens (Windows a names); Puts (Windows a names) p (Some t); Opens (Windows b names)] d (tmp (Windows a names) ++ p) = None.
Proof.
  intros a b names p t d _. split; unfold run; cbn [fold_left perform]; unfold remove at 1.
  - change (tmp (Unix (b :: names))) with (tmp (Unix (a :: names))). rewrite (proj2 (below_is _ _)) by now exists p. reflexivity.
  - change (tmp (Windows b names)) with (tmp (Windows a names)). rewrite (proj2 (below_is _ _)) by now exists p. reflexivity.
Qed.
(** A project right below the root has all of hemtt's folder, and empties it. *)
Theorem C105_top_refuted : forall a d p, run [Opens (Unix [a])] d p = None.
Proof. intros a d p. reflexivity. Qed.
(** A project called profile in the first folder has the profile's. *)
Theorem C105_profile_refuted : forall a d p, run [Opens (Unix [a; bs "profile"])] d (profile ++ p) = None.
Proof. intros a d p. change profile with (tmp (Unix [a; bs "profile"])). apply C105_emptied. Qed.
(** There is one profile for all projects: the second to ask for one removes what the first has there. *)
Theorem C105_one_profile_refuted : exists r s p t files d, ordinary r /\ ordinary s /\ together r s /\ r <> s /\
  run [Profile r [(p, t)]] d (profile ++ p) = Some t /\ run [Profile r [(p, t)]; Profile s files] d (profile ++ p) = None.
Proof.
  exists (u ["home"; "me"; "a"]%string), (u ["home"; "me"; "b"]%string), [bs "x"], [1], [], (fun _ => None).
  assert (O : forall n, plain n -> n <> [] -> ordinary (Unix [bs "home"; bs "me"; n])).
  { intros n P NE. cbn [ordinary]. split; [discriminate|]. split; [|vm_compute; discriminate]. constructor; [|constructor; [exact P|constructor]]. split; [discriminate|]. vm_compute. intuition discriminate. }
  split; [apply O; [split; [discriminate|vm_compute; intuition discriminate]|discriminate]|]. split; [apply O; [split; [discriminate|vm_compute; intuition discriminate]|discriminate]|].
  split; [reflexivity|]. split; [vm_compute; discriminate|]. split; vm_compute; reflexivity.
Qed.
Example C105_case : exists r s l own, ordinary r /\ ordinary s /\ together s r /\ r <> s /\ l = [Opens r; Opens s; Puts r [bs "x"] (Some [1]); Puts s [bs "x"] (Some [2]); Profile s []; Opens s] /\
  only r l own /\ run l (fun _ => None) (tmp r ++ [bs "x"]) = Some [1] /\ tmp r = [bs "me_mods_a"].
Proof.
  exists (u ["home"; "me"; "mods"; "a"]%string), (u ["home"; "me"; "mods"; "b"]%string).
  eexists _, [Opens (u ["home"; "me"; "mods"; "a"]%string); Puts (u ["home"; "me"; "mods"; "a"]%string) [bs "x"] (Some [1])].
  assert (O : forall n, plain n -> ordinary (Unix [bs "home"; bs "me"; bs "mods"; n])).
  { intros n P. cbn [ordinary]. split; [discriminate|]. split; [|vm_compute; discriminate]. repeat (constructor; [first [exact P|split; [discriminate|vm_compute; intuition discriminate]]|]). constructor. }
  assert (NE : u ["home"; "me"; "mods"; "b"]%string <> u ["home"; "me"; "mods"; "a"]%string) by (vm_compute; discriminate).
  split; [apply O; split; [discriminate|vm_compute; intuition discriminate]|]. split; [apply O; split; [discriminate|vm_compute; intuition discriminate]|].
  split; [reflexivity|]. split; [now apply not_eq_sym|]. split; [reflexivity|]. split; [|split; vm_compute; reflexivity].
  apply only_own; [reflexivity|]. apply only_other; [exact NE|]. apply only_own; [reflexivity|]. repeat (apply only_other; [exact NE|]). constructor.
Qed.

Print Assumptions C105_apart.
Print Assumptions C105_emptied.
Print Assumptions C105_nothing_else.
Print Assumptions C105_profile_kept.
Print Assumptions C105_underscore_refuted.
Print Assumptions C105_first_refuted.
Print Assumptions C105_top_refuted.
Print Assumptions C105_profile_refuted.
Print Assumptions C105_one_profile_refuted.
