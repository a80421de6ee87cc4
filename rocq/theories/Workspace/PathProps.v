(** What a path in a config or script names: C79. *)
From Coq Require Import String Permutation.
From Verif Require Import Base.Tactics Base.Bytes Base.Ascii Base.Text Base.Sort Common.VersionModel Workspace.PathModel Workspace.PathSpec Workspace.PathProofs.
Local Open Scope N_scope.
Local Open Scope list_scope.

(** A path that does not begin with a slash is looked for from the folder of the file that names it, and
    nowhere else. *)
Theorem C79_relative : forall w cur req, let s := slashes req in ~ absolute s ->
  (forall v, leads (removelast cur) s v -> locate w cur req = if exists_ w v then Found (InWorkspace v) None else Missing) /\
  ((forall v, ~ leads (removelast cur) s v) -> locate w cur req = Invalid).
Proof.
  intros w cur req s A. assert (T : starts_with [47] s = false). { destruct (starts_with [47] s) eqn:E; [now apply abs_test in E|reflexivity]. }
  assert (T3 : starts_with (bs "/a3/") (ascii_lower s) = false). { destruct (starts_with (bs "/a3/") (ascii_lower s)) eqn:E; [|reflexivity]. exfalso. apply A. clear T. apply starts_with_spec in E as (r & E). destruct s as [|c t]; [discriminate E|]. injection E as E _. exists t. f_equal. now apply lower_slash. }
  assert (L : locate w cur req = beside w cur s) by (unfold locate; fold s; now rewrite T3, T). rewrite L. unfold beside. split.
  - intros v LV. apply join_leads in LV. rewrite LV. destruct (exists_ w v); [|reflexivity]. unfold found. assert (is_wrong_case v s = false) as ->; [|reflexivity].
    unfold is_wrong_case. destruct v as [|n v].
    + cbn [as_str flat_map slashes map]. destruct s; [reflexivity|]. reflexivity.
    + rewrite as_str_cons. unfold slashes at 1. cbn [map]. destruct s as [|c t]; [reflexivity|]. destruct (eqb_bytes _ (ascii_lower (c :: t))) eqn:E; [|reflexivity]. apply eqb_bytes_spec in E. injection E as E _. exfalso. apply A. exists t. f_equal. symmetry in E. now apply lower_slash.
  - intros N. destruct (vfs_join (removelast cur) s) as [v|] eqn:J; [|reflexivity]. apply join_leads in J. now apply N in J.
Qed.
Print Assumptions C79_relative.

(** A path from the root that is in the workspace names that file, as it is spelled. *)
Theorem C79_workspace : forall w cur req v, let s := slashes req in absolute s -> no_pdrive w s -> leads [] s v -> exists_ w v = true ->
  locate w cur req = Found (InWorkspace v) None.
Proof.
  intros w cur req v s A NP L E. unfold locate. fold s. rewrite (pd_none w s NP). assert (AT := A). apply abs_test in AT. rewrite AT. assert (vfs_join [] s = Some v) as -> by now apply join_leads. rewrite E.
  assert (PV : Forall plain v) by (eapply leads_plain; [constructor|apply slashes_clean|exact L]). destruct (found_noted InWorkspace v s PV) as (mm & N & F). rewrite F. destruct N as [S NE|]; [|reflexivity]. exfalso. apply NE. now apply (asked s v []).
Qed.
Print Assumptions C79_workspace.

(** Otherwise, if it is below the prefix of an addon, it names the file below the addon's folder: as it is
    spelled, or else up to case in the project folder and then in include. *)
Theorem C79_prefix : forall w cur req base root rest u v, let s := slashes req in usual_disk w ->
  absolute s -> no_pdrive w s -> leads [] s v -> exists_ w v = false ->
  apart (map fst (pointers w)) -> In (base, root) (pointers w) -> under base s rest -> Forall plain root -> leads root rest u ->
  (exists_ w u = true -> exists mm, noted u s mm /\ locate w cur req = Found (InWorkspace u) mm) /\
  (exists_ w u = false -> forall r, locate w cur req = r <-> searched w u r).
Proof.
  intros w cur req base root rest u v s U A NP L E AP I UN PR L2. assert (K := locate_prefix w cur req base root rest u v U A NP L E AP I UN PR L2). fold s in K. destruct (exists_ w u).
  - split; [auto|discriminate].
  - split; [discriminate|]. intros _ r. destruct K as (r' & S & R). rewrite R. split; [now intros <-|intros S2; now apply (searched_fun w u)].
Qed.
Print Assumptions C79_prefix.

(** Otherwise, if it is below no prefix, it is looked for up to case in the project folder and then in include. *)
Theorem C79_no_prefix : forall w cur req v, let s := slashes req in usual_disk w ->
  absolute s -> no_pdrive w s -> leads [] s v -> exists_ w v = false -> ~ In (bs "..") (split_on 47 s) ->
  (forall base root rest, In (base, root) (pointers w) -> ~ under base s rest) ->
  forall r, locate w cur req = r <-> searched w v r.
Proof.
  intros w cur req v s U A NP L E ND NB r. assert (PV : Forall plain v) by (eapply leads_plain; [constructor|apply slashes_clean|exact L]).
  destruct (search_found w v U PV) as (r' & S & R). assert (K : locate w cur req = r').
  { unfold locate. fold s. rewrite (pd_none w s NP). assert (AT := A). apply abs_test in AT. rewrite AT. assert (vfs_join [] s = Some v) as -> by now apply join_leads. rewrite E.
    rewrite (pointer_none fst (pointers w) s) by (intros (base, root) rest I; now apply NB with root). rewrite <- R. unfold exists_ci. rewrite (normal_leads s v A ND L).
    destruct (match ci_from w [] v with Some p => Some p | None => ci_from w [bs "include"] v end); [reflexivity|]. now apply (beside_missing w cur s v). }
  rewrite K. split; [now intros <-|intros S2; now apply (searched_fun w v)].
Qed.
Print Assumptions C79_no_prefix.

(** What is found is there, whatever the prefixes are. *)
Theorem C79_found_exists : forall w cur req v mm, usual_disk w -> (forall d, on_disk w d -> exists_ w d = true) ->
  locate w cur req = Found (InWorkspace v) mm -> exists_ w v = true.
Proof.
  intros w cur req v mm U OV. set (s := slashes req).
  assert (CI : forall names d, (match ci_from w [] names with Some p => Some p | None => ci_from w [bs "include"] names end) = Some d -> found_ci d = Found (InWorkspace v) mm -> exists_ w v = true).
  { intros names d E F. assert (D : on_disk w d). { destruct (ci_from w [] names) as [d'|] eqn:E1; [injection E as <-; apply (ci_recased w U) in E1|apply (ci_recased w U) in E]; [destruct E1 as (? & _ & _ & D & _)|destruct E as (? & _ & _ & D & _)]; exact D. }
    rewrite (found_ci_plain d (plain_names w U d D)) in F. injection F as <- _. auto. }
  assert (B : beside w cur s = Found (InWorkspace v) mm -> exists_ w v = true).
  { unfold beside. destruct (vfs_join _ s) as [v'|]; [|discriminate]. destruct (exists_ w v') eqn:E; [|discriminate]. unfold found. intros F. injection F as <- _. exact E. }
  unfold locate. fold s. destruct (if starts_with _ _ then _ else _) as [| |p]; [discriminate| |unfold found; discriminate].
  destruct (starts_with [47] s); [|exact B]. destruct (vfs_join [] s) as [v'|]; [|discriminate]. destruct (exists_ w v') eqn:E; [unfold found; intros F; injection F as <- _; exact E|].
  destruct (find _ (pointers w)) as [(base, root)|].
  - destruct (vfs_join root _) as [u|]; [|discriminate]. destruct (exists_ w u) eqn:EU; [unfold found; intros F; injection F as <- _; exact EU|]. unfold exists_ci.
    destruct (match ci_from w [] (normal (trim_slashes (as_str u))) with Some p => _ | None => _ end) as [d|] eqn:C; [now apply (CI _ _ C)|exact B].
  - unfold exists_ci. destruct (match ci_from w [] (normal s) with Some p => _ | None => _ end) as [d|] eqn:C; [now apply (CI _ _ C)|exact B].
Qed.
Print Assumptions C79_found_exists.

(** The order in which prefixes are kept has no effect. *)
Theorem C79_order : forall ex l1 l2 pd li al cur req, apart (map fst l1) -> Permutation l1 l2 ->
  locate (Workspace ex l1 pd li al) cur req = locate (Workspace ex l2 pd li al) cur req.
Proof.
  intros ex l1 l2 pd li al cur req AP P. assert (F : find (fun bp => starts_with (ascii_lower (fst bp) ++ [47]) (ascii_lower (slashes req))) l1 = find (fun bp => starts_with (ascii_lower (fst bp) ++ [47]) (ascii_lower (slashes req))) l2).
  { set (f := fun bp : text * vpath => _). assert (T := apart_tests fst l1 (slashes req) AP). change (ForallOrdPairs (fun a b => f a = true -> f b = true -> False) l1) in T.
    assert (T2 : ForallOrdPairs (fun a b => f a = true -> f b = true -> False) l2).
    { clear AP. induction P as [|x l l' P IH|x y l|l l' l'' P1 IH1 P2 IH2]; [constructor| | |auto].
      - inversion T as [|? ? A B]; subst. constructor; [|auto]. eapply Permutation_Forall; eauto.
      - inversion T as [|? ? A B]; subst. inversion A as [|? ? A1 A2]; subst. inversion B as [|? ? B1 B2]; subst. constructor; [constructor; [tauto|exact B1]|constructor; assumption]. }
    destruct (find f l1) as [x|] eqn:E1.
    - apply find_some in E1 as [I E1]. symmetry. apply find_apart; [exact T2|eapply Permutation_in; eauto|exact E1].
    - destruct (find f l2) as [x|] eqn:E2; [|reflexivity]. apply find_some in E2 as [I E2]. apply find_none with (x := x) in E1; [congruence|]. eapply Permutation_in; [symmetry; exact P|exact I]. }
  unfold locate. cbn [exists_ pointers pdrive listing alive]. cbv zeta. rewrite F. unfold exists_ci, beside. cbn [exists_].
  assert (C : forall names cur, ci_from (Workspace ex l1 pd li al) cur names = ci_from (Workspace ex l2 pd li al) cur names).
  { clear. induction names as [|n names IH]; intros c; cbn [ci_from listing alive]; [reflexivity|]. destruct (li c); [|reflexivity]. destruct (find _ _); [apply IH|reflexivity]. }
  destruct (if starts_with _ _ then _ else _); [reflexivity| |reflexivity]. destruct (starts_with _ _); [|reflexivity]. destruct (vfs_join [] _) as [v|]; [|reflexivity]. destruct (ex v); [reflexivity|]. destruct (find _ l2) as [(base, root)|].
  - destruct (vfs_join root _) as [u|]; [|reflexivity]. now rewrite !C.
  - now rewrite !C.
Qed.
Print Assumptions C79_order.

(** The path the game sees for a file, and back. *)
Theorem C79_round_trip : forall w cur base root rest, usual_disk w ->
  apart (map fst (pointers w)) -> apart (map (fun bp => as_str (snd bp)) (pointers w)) -> In (base, root) (pointers w) ->
  absolute base -> ~ In 92 base -> Forall plain root -> Forall plain rest -> rest <> [] -> exists_ w (root ++ rest) = true ->
  no_pdrive w (base ++ as_str rest) -> (forall v, leads [] (base ++ as_str rest) v -> exists_ w v = true -> v = root ++ rest) ->
  as_virtual_str w (root ++ rest) = base ++ as_str rest /\
  exists mm, locate w cur (as_virtual_str w (root ++ rest)) = Found (InWorkspace (root ++ rest)) mm.
Proof.
  intros w cur base root rest U AP AR I AB NB PR PS NE EX NP UQ.
  assert (PV : Forall plain (root ++ rest)) by now apply Forall_app.
  assert (exists n r, rest = n :: r) as (n & r & ER) by (destruct rest; [now destruct NE|eauto]).
  assert (V : as_virtual_str w (root ++ rest) = base ++ as_str rest).
  { unfold as_virtual_str. rewrite (plain_slashes _ PV). rewrite (pointer_found (fun bp => as_str (snd bp)) (pointers w) (as_str (root ++ rest)) (base, root) (n ++ as_str r) AR I).
    - rewrite as_str_app. f_equal. rewrite skipn_app, skipn_all2 by lia. replace (length (as_str root) - length (as_str root))%nat with 0%nat by lia. reflexivity.
    - exists (as_str root). split; [|reflexivity]. cbn [snd]. now rewrite as_str_app, ER, as_str_cons. }
  split; [exact V|]. rewrite V. set (s := base ++ as_str rest) in *.
  assert (CS : slashes s = s). { apply slashes_none. unfold s. intros K. apply in_app_iff in K as [K|K]; [auto|]. assert (Q := plain_slashes rest PS). apply slashes_none in Q. auto. }
  assert (A : absolute s) by (destruct AB as (b & ->); exists (b ++ as_str rest); reflexivity).
  assert (exists v, leads [] s v) as (v & L).
  { exists (fold_left vfs_step (split_on 47 s) []). split; [|apply steps_fold; now destruct (starts_with [47] s)]. right. intros (a & K). apply (last_plain rest PS NE). unfold s in K.
    destruct (as_str rest) as [|c t] eqn:ET using rev_ind; [subst rest; discriminate ET|]. rewrite app_assoc in K. apply app_inj_tail in K as [_ ->]. eauto. }
  destruct (exists_ w v) eqn:E.
  - rewrite <- (UQ v L E). exists None. apply C79_workspace; rewrite ?CS; auto.
  - assert (J : leads root (n ++ as_str r) (root ++ rest)).
    { subst rest. apply Forall_inv_tail in PS as Pr. apply Forall_inv in PS as Pn. split.
      - right. intros (a & K). apply (last_plain (n :: r)); [now constructor|discriminate|]. exists (47 :: a). rewrite as_str_cons, K. reflexivity.
      - assert (starts_with [47] (n ++ as_str r) = false) as ->. { destruct (starts_with _ _) eqn:T; [|reflexivity]. apply abs_test in T as (t & T). destruct Pn as (N1 & _ & _ & N2 & _). destruct n as [|c n]; [now destruct N1|]. injection T as -> _. destruct N2; now left. }
        rewrite split_as_str by assumption. apply steps_plain. now constructor. }
    assert (UN : under base s (n ++ as_str r)) by (exists base; split; [unfold s; now rewrite ER, as_str_cons|reflexivity]).
    destruct (C79_prefix w cur s base root (n ++ as_str r) (root ++ rest) v U) as [K _]; rewrite ?CS; auto. destruct (K EX) as (mm & _ & F). eauto.
Qed.
Print Assumptions C79_round_trip.

(** ** Discovery *)
Definition decl (e : entry) : list (text * vpath) :=
  if in_hemtt (e_path e) then [] else
  if existsb (eqb_bytes (ascii_lower (last (e_path e) []))) prefix_files then
    match e_text e with
    | None => []
    | Some s => match prefix_new ascii_lower s with POk parts => [(pointer_key parts, removelast (e_path e))] | PErr _ => [] end
    end
  else [].
Definition named (n : text) (e : entry) : bool := negb (in_hemtt (e_path e)) && eqb_bytes (ascii_lower (last (e_path e) [])) n.
Definition fine (e : entry) : bool := negb (negb (in_hemtt (e_path e)) && existsb (eqb_bytes (ascii_lower (last (e_path e) []))) prefix_files) || negb (Nat.eqb (length (decl e)) 0).
Lemma discover_spec : forall es a m ps,
  discover es a m ps = Discovered (a ++ map e_path (filter (named (bs "config.cpp")) es)) (m ++ map e_path (filter (named (bs "mission.sqm")) es)) (ps ++ flat_map decl es) /\ Forall (fun e => fine e = true) es /\ (NoDup (map fst ps) -> NoDup (map fst (ps ++ flat_map decl es))) \/
  (forall a' m' ps', discover es a m ps <> Discovered a' m' ps') /\ (Forall (fun e => fine e = true) es -> ~ NoDup (map fst (ps ++ flat_map decl es))).
Proof.
  induction es as [|e es IH]; intros a m ps; [left; cbn [discover filter map flat_map]; rewrite !app_nil_r; auto|].
  cbn [discover filter map flat_map].
  assert (DE : decl e = if in_hemtt (e_path e) then [] else if existsb (eqb_bytes (ascii_lower (last (e_path e) []))) prefix_files then match e_text e with None => [] | Some s => match prefix_new ascii_lower s with POk parts => [(pointer_key parts, removelast (e_path e))] | PErr _ => [] end end else []) by reflexivity.
  assert (NE : forall n, named n e = negb (in_hemtt (e_path e)) && eqb_bytes (ascii_lower (last (e_path e) [])) n) by reflexivity. rewrite DE, !NE. destruct (in_hemtt (e_path e)) eqn:H; cbn [negb andb app].
  { destruct (IH a m ps) as [(D & F & N)|(D & F)]; [left|right]; (split; [exact D|]).
    - split; [constructor; [unfold fine; now rewrite H|exact F]|exact N].
    - intros F2. inversion F2; subst. auto. }
  set (nm := ascii_lower (last (e_path e) [])). destruct (eqb_bytes nm (bs "config.cpp")) eqn:C.
  { apply eqb_bytes_spec in C. assert (existsb (eqb_bytes nm) prefix_files = false) as P by now rewrite C. rewrite P. assert (eqb_bytes nm (bs "mission.sqm") = false) as -> by now rewrite C. cbn [app map].
    destruct (IH (a ++ [e_path e]) m ps) as [(D & F & N)|(D & F)]; [left|right]; (split; [rewrite <- ?app_assoc in D; exact D|]).
    - split; [constructor; [unfold fine; fold nm; now rewrite P, Bool.andb_false_r|exact F]|exact N].
    - intros F2. inversion F2; subst. auto. }
  destruct (eqb_bytes nm (bs "mission.sqm")) eqn:M.
  { apply eqb_bytes_spec in M. assert (existsb (eqb_bytes nm) prefix_files = false) as P by now rewrite M. rewrite P. cbn [app map].
    destruct (IH a (m ++ [e_path e]) ps) as [(D & F & N)|(D & F)]; [left|right]; (split; [rewrite <- ?app_assoc in D; exact D|]).
    - split; [constructor; [unfold fine; fold nm; now rewrite P, Bool.andb_false_r|exact F]|exact N].
    - intros F2. inversion F2; subst. auto. }
  destruct (existsb (eqb_bytes nm) prefix_files) eqn:P.
  - destruct (e_text e) as [s|] eqn:T.
    + destruct (prefix_new ascii_lower s) as [parts|x] eqn:PN.
      * cbn [app]. destruct (existsb (fun bp => eqb_bytes (fst bp) (pointer_key parts)) ps) eqn:DUP.
        -- right. split; [discriminate|]. intros _ N. apply existsb_exists in DUP as (bp & I & E). apply eqb_bytes_spec in E. rewrite map_app in N. cbn [map fst] in N. apply NoDup_remove_2 in N. apply N. apply in_app_iff. left. rewrite <- E. now apply in_map.
        -- destruct (IH a m (ps ++ [(pointer_key parts, removelast (e_path e))])) as [(D & F & N)|(D & F)]; [left|right]; rewrite <- !app_assoc in *; cbn [app] in *; (split; [exact D|]).
           ++ split; [constructor; [unfold fine, decl; fold nm; now rewrite H, P, T, PN|exact F]|]. intros ND. apply N. rewrite map_app. cbn [map fst].
              rewrite <- (rev_involutive (map fst ps ++ [pointer_key parts])). apply NoDup_rev. rewrite rev_app_distr. cbn [rev app]. constructor; [|now apply NoDup_rev]. rewrite <- in_rev. intros I. apply in_map_iff in I as (bp & E & I). 
              assert (existsb (fun bp => eqb_bytes (fst bp) (pointer_key parts)) ps = true) by (apply existsb_exists; exists bp; split; [exact I|apply eqb_bytes_spec; exact E]). congruence.
           ++ intros F2. inversion F2; subst. auto.
      * right. split; [discriminate|]. intros F. exfalso. inversion F as [|? ? K _]; subst. unfold fine, decl in K. fold nm in K. rewrite H, P, T, PN in K. discriminate K.
    + right. split; [discriminate|]. intros F. exfalso. inversion F as [|? ? K _]; subst. unfold fine, decl in K. fold nm in K. rewrite H, P, T in K. discriminate K.
  - cbn [app]. destruct (IH a m ps) as [(D & F & N)|(D & F)]; [left|right]; (split; [exact D|]).
    + split; [constructor; [unfold fine; fold nm; now rewrite P, Bool.andb_false_r|exact F]|exact N].
    + intros F2. inversion F2; subst. auto.
Qed.
Lemma existsb_name n l : existsb (eqb_bytes n) l = true <-> In n l.
Proof. rewrite existsb_exists. split; [intros (x & I & E); apply eqb_bytes_spec in E; now subst|intros I; exists n; split; [exact I|apply eqb_bytes_refl]]. Qed.
Lemma prefix_file_spec e : prefix_file e <-> in_hemtt (e_path e) = false /\ existsb (eqb_bytes (ascii_lower (last (e_path e) []))) prefix_files = true.
Proof.
  rewrite existsb_name. unfold prefix_file, counts_as, prefix_files, same.
  assert (LOW : forall n, In n [bs "$pboprefix$"; bs "$pboprefix$.txt"; bs "pboprefix.txt"; bs "$prefix$"] -> ascii_lower n = n) by (intros n [<-|[<-|[<-|[<-|[]]]]]; reflexivity).
  split.
  - intros (n & I & H & E). rewrite (LOW n I) in E. rewrite E. split; [|exact I]. destruct (in_hemtt (e_path e)) eqn:K; [now apply in_hemtt_spec in K|reflexivity].
  - intros (H & I). eexists. split; [exact I|]. split; [|symmetry; now apply LOW]. intros K. apply in_hemtt_spec in K. congruence.
Qed.
Lemma decl_cases e : (exists base, decl e = [(base, removelast (e_path e))] /\ prefix_file e /\ declares e base) \/ (decl e = [] /\ (prefix_file e -> forall base, ~ declares e base)).
Proof.
  destruct (in_hemtt (e_path e)) eqn:H.
  { right. unfold decl. rewrite H. split; [reflexivity|]. intros P. apply prefix_file_spec in P as [P _]. congruence. }
  destruct (existsb (eqb_bytes (ascii_lower (last (e_path e) []))) prefix_files) eqn:P.
  - assert (PF : prefix_file e) by now apply prefix_file_spec. destruct (e_text e) as [s|] eqn:T.
    + destruct (prefix_new ascii_lower s) as [parts|x] eqn:PN.
      * left. exists (prefix_path parts). split; [|split; [exact PF|exists s, parts; auto]]. unfold decl. rewrite H, P, T, PN. now rewrite (key_path parts (prefix_parts s parts PN)).
      * right. split; [unfold decl; now rewrite H, P, T, PN|]. intros _ base (s' & parts & T2 & PN2 & _). congruence.
    + right. split; [unfold decl; now rewrite H, P, T|]. intros _ base (s' & parts & T2 & _). congruence.
  - right. split; [unfold decl; now rewrite H, P|]. intros PF. apply prefix_file_spec in PF as [_ PF]. congruence.
Qed.
Lemma declares_fun e b1 b2 : declares e b1 -> declares e b2 -> b1 = b2.
Proof. intros (s & p & T & N & ->) (s' & p' & T' & N' & ->). congruence. Qed.
Lemma decl_in e base folder : In (base, folder) (decl e) <-> prefix_file e /\ declares e base /\ folder = removelast (e_path e).
Proof.
  destruct (decl_cases e) as [(b & -> & P & D)|(-> & N)].
  - cbn. split; [intros [[= <- <-]|[]]; auto|]. intros (_ & D2 & ->). left. f_equal. now apply (declares_fun e).
  - split; [intros []|]. intros (P & D & _). now apply (N P base).
Qed.
Lemma fine_spec e : fine e = true <-> (prefix_file e -> exists base, declares e base).
Proof.
  unfold fine. destruct (decl_cases e) as [(b & -> & P & D)|(-> & N)].
  - split; [eauto|]. intros _. apply Bool.orb_true_r.
  - cbn [length Nat.eqb negb]. rewrite Bool.orb_false_r. split.
    + intros F P. apply prefix_file_spec in P as [P1 P2]. rewrite P1, P2 in F. discriminate F.
    + intros F. destruct (negb (in_hemtt (e_path e)) && _) eqn:K; [|reflexivity]. exfalso. apply Bool.andb_true_iff in K as [K1 K2]. apply Bool.negb_true_iff in K1. assert (P : prefix_file e) by now apply prefix_file_spec. destruct (F P) as (b & D). now apply (N P b).
Qed.
Lemma named_spec n e : ascii_lower n = n -> (named n e = true <-> counts_as n e).
Proof.
  intros L. unfold named, counts_as, same. rewrite <- in_hemtt_spec, Bool.andb_true_iff, eqb_bytes_spec, Bool.negb_true_iff, L. destruct (in_hemtt (e_path e)); split; intros [A B]; split; auto; congruence.
Qed.
Definition twice (e1 e2 : entry) : Prop := exists base, prefix_file e1 /\ prefix_file e2 /\ declares e1 base /\ declares e2 base.
Lemma nodup_decl es : NoDup (map fst (flat_map decl es)) <-> ForallOrdPairs (fun e1 e2 => ~ twice e1 e2) es.
Proof.
  induction es as [|e es IH]; [split; constructor|]. cbn [flat_map]. rewrite map_app. destruct (decl_cases e) as [(b & -> & P & D)|(-> & N)]; cbn [map fst app].
  - split.
    + intros ND. inversion ND as [|? ? N1 N2]; subst. constructor; [|now apply IH]. apply Forall_forall. intros e2 I (b2 & _ & P2 & D1 & D2). rewrite (declares_fun e b2 b D1 D) in D2.
      apply N1. apply in_map_iff. exists (b, removelast (e_path e2)). split; [reflexivity|]. apply in_flat_map. exists e2. split; [exact I|]. now apply decl_in.
    + intros F. inversion F as [|? ? F1 F2]; subst. constructor; [|now apply IH]. intros I. apply in_map_iff in I as ((b2, f) & E & I). cbn in E. subst b2. apply in_flat_map in I as (e2 & I & I2). apply decl_in in I2 as (P2 & D2 & _).
      rewrite Forall_forall in F1. apply (F1 e2 I). exists b. auto.
  - rewrite IH. split; [intros F; constructor; [|exact F]|intros F; now inversion F]. apply Forall_forall. intros e2 _ (b & P & _ & D & _). now apply (N P b).
Qed.

(** The prefixes of a workspace are exactly those of its prefix files, each with its folder. *)
Theorem C79_discovered : forall es addons missions ps, discover es [] [] [] = Discovered addons missions ps ->
  (forall base folder, In (base, folder) ps <-> exists e, In e es /\ prefix_file e /\ declares e base /\ folder = removelast (e_path e)) /\
  NoDup (map fst ps) /\
  (forall v, In v addons <-> exists e, In e es /\ counts_as (bs "config.cpp") e /\ v = e_path e) /\
  (forall v, In v missions <-> exists e, In e es /\ counts_as (bs "mission.sqm") e /\ v = e_path e).
Proof.
  intros es addons missions ps E. destruct (discover_spec es [] [] []) as [(D & F & N)|(D & _)]; [|now apply D in E]. rewrite D in E. cbn [app] in E. injection E as <- <- <-. cbn [app map] in N.
  assert (M : forall n v, ascii_lower n = n -> In v (map e_path (filter (named n) es)) <-> exists e, In e es /\ counts_as n e /\ v = e_path e).
  { intros n v L. rewrite in_map_iff. split.
    - intros (e & <- & I). apply filter_In in I as [I NM]. apply (named_spec n e L) in NM. eauto.
    - intros (e & I & C & ->). exists e. split; [reflexivity|]. apply filter_In. split; [exact I|now apply named_spec]. }
  split; [|split; [apply N; constructor|split; intros v; now apply M]]. intros base folder. rewrite in_flat_map. split; intros (e & I & K); exists e; (split; [exact I|]); now apply decl_in.
Qed.
Print Assumptions C79_discovered.

(** A workspace is refused exactly if a prefix file has no valid prefix or two have the same. *)
Theorem C79_refused : forall es, (forall addons missions ps, discover es [] [] [] <> Discovered addons missions ps) <->
  (exists e, In e es /\ prefix_file e /\ forall base, ~ declares e base) \/
  (exists l1 e1 l2 e2 l3 base, es = l1 ++ e1 :: l2 ++ e2 :: l3 /\ prefix_file e1 /\ prefix_file e2 /\ declares e1 base /\ declares e2 base).
Proof.
  intros es. assert (PAIRS : forall l : list entry, ForallOrdPairs (fun e1 e2 => ~ twice e1 e2) l <-> ~ exists l1 e1 l2 e2 l3, l = l1 ++ e1 :: l2 ++ e2 :: l3 /\ twice e1 e2).
  { induction l as [|e l IH]; [split; [intros _ ([|] & e1 & l2 & e2 & l3 & K & _); discriminate K|constructor]|]. split.
    - intros F (l1 & e1 & l2 & e2 & l3 & K & T). inversion F as [|? ? F1 F2]; subst. destruct l1 as [|x l1]; injection K as -> ->.
      + rewrite Forall_forall in F1. apply (F1 e2); [|exact T]. apply in_app_iff. right. now left.
      + apply (proj1 IH F2). now exists l1, e1, l2, e2, l3.
    - intros N. constructor.
      + apply Forall_forall. intros e2 I T. apply in_split in I as (l2 & l3 & ->). apply N. now exists [], e, l2, e2, l3.
      + apply IH. intros (l1 & e1 & l2 & e2 & l3 & -> & T). apply N. now exists (e :: l1), e1, l2, e2, l3. }
  assert (FINE : forall l, Forall (fun e => fine e = true) l \/ exists e, In e l /\ prefix_file e /\ forall base, ~ declares e base).
  { induction l as [|e l IH]; [now left|]. destruct (fine e) eqn:FE.
    - destruct IH as [IH|(x & I & K)]; [left; now constructor|right; exists x; split; [now right|exact K]].
    - right. exists e. split; [now left|]. destruct (decl_cases e) as [(b & DE & _)|(DE & N)]; [unfold fine in FE; rewrite DE in FE; cbn in FE; rewrite Bool.orb_true_r in FE; discriminate FE|].
      assert (P : prefix_file e). { apply prefix_file_spec. unfold fine in FE. rewrite DE in FE. cbn [length Nat.eqb negb] in FE. rewrite Bool.orb_false_r in FE. apply Bool.negb_false_iff, Bool.andb_true_iff in FE as [F1 F2]. apply Bool.negb_true_iff in F1. auto. }
      split; [exact P|auto]. }
  split.
  - intros D. destruct (discover_spec es [] [] []) as [(K & _)|(_ & K)]; [now apply D in K|]. cbn [app] in K. destruct (FINE es) as [F|F]; [right|now left]. specialize (K F).
    assert (DEC : forall l : list entry, ForallOrdPairs (fun e1 e2 => ~ twice e1 e2) l \/ exists l1 e1 l2 e2 l3, l = l1 ++ e1 :: l2 ++ e2 :: l3 /\ twice e1 e2).
    { assert (T2 : forall e1 e2, twice e1 e2 \/ ~ twice e1 e2). { intros e1 e2. destruct (decl_cases e1) as [(b1 & _ & P1 & D1)|(_ & N)]; [|right; intros (b & P & _ & D1 & _); now apply (N P b)]. destruct (decl_cases e2) as [(b2 & _ & P2 & D2)|(_ & N)]; [|right; intros (b & _ & P & _ & D2); now apply (N P b)].
        destruct (eqb_bytes b1 b2) eqn:E; [apply eqb_bytes_spec in E; subst; left; exists b2; auto|right]. intros (b & _ & _ & A & B). rewrite (declares_fun e1 b b1 A D1) in B. rewrite (declares_fun e2 b1 b2 B D2), eqb_bytes_refl in E. discriminate E. }
      induction l as [|e l IH]; [left; constructor|]. destruct IH as [IH|(l1 & e1 & l2 & e2 & l3 & -> & T)]; [|right; now exists (e :: l1), e1, l2, e2, l3].
      assert (G : forall l, Forall (fun e2 => ~ twice e e2) l \/ exists e2, In e2 l /\ twice e e2). { induction l0 as [|x l0 [H|(x2 & I & H)]]; [left; constructor| |right; exists x2; split; [now right|exact H]]. destruct (T2 e x) as [T|T]; [right; exists x; split; [now left|exact T]|left; now constructor]. }
      destruct (G l) as [H|(e2 & I & T)]; [left; now constructor|]. right. apply in_split in I as (l2 & l3 & ->). now exists [], e, l2, e2, l3. }
    destruct (DEC es) as [F2|(l1 & e1 & l2 & e2 & l3 & E & b & T)]; [destruct K; now apply nodup_decl|]. exists l1, e1, l2, e2, l3, b. auto.
  - intros H a m ps E. destruct (discover_spec es [] [] []) as [(_ & F & N)|(D & _)]; [|now apply D in E]. cbn [app map] in N. specialize (N (NoDup_nil _)). apply nodup_decl in N. destruct H as [(e & I & P & ND)|(l1 & e1 & l2 & e2 & l3 & b & ES & T)].
    + rewrite Forall_forall in F. destruct (proj1 (fine_spec e) (F e I) P) as (b & D). now apply (ND b).
    + apply (proj1 (PAIRS es) N). exists l1, e1, l2, e2, l3. split; [exact ES|]. exists b. exact T.
Qed.
Print Assumptions C79_refused.

(** ** The P drive *)
Lemma locate_without : forall ex ps pd li al cur req,
  (if starts_with (bs "/a3/") (ascii_lower (slashes req)) then match pd with Some f => f (slashes req) | None => PdNone end else PdNone) = PdNone ->
  locate (Workspace ex ps pd li al) cur req = locate (Workspace ex ps None li al) cur req.
Proof.
  intros ex ps pd li al cur req N. unfold locate. cbn [pdrive]. rewrite N. clear N.
  assert ((if starts_with (bs "/a3/") (ascii_lower (slashes req)) then PdNone else PdNone) = PdNone) as -> by now destruct (starts_with _ _).
  unfold exists_ci, beside. cbn [exists_ pointers].
  assert (C : forall names cur, ci_from (Workspace ex ps pd li al) cur names = ci_from (Workspace ex ps None li al) cur names).
  { clear. induction names as [|n names IH]; intros c; cbn [ci_from listing alive]; [reflexivity|]. destruct (li c); [|reflexivity]. destruct (find _ _); [apply IH|reflexivity]. }
  destruct (starts_with _ _); [|reflexivity]. destruct (vfs_join [] _) as [v|]; [|reflexivity]. destruct (ex v); [reflexivity|]. destruct (find _ _) as [(base, root)|].
  - destruct (vfs_join root _) as [u|]; [|reflexivity]. now rewrite !C.
  - now rewrite !C.
Qed.
(** A path below /a3 that is on the P drive is taken from there; any other is located as without a P drive. *)
Theorem C79_pdrive : forall ex ps there li al cur req v, let s := slashes req in let w := Workspace ex ps (Some (tools_path_to there)) li al in
  leads [] s v ->
  ((exists rest, under (bs "/a3") s rest) -> there v = true -> locate w cur req = Found (OnPDrive v) None) /\
  (there v = false \/ ~ (exists rest, under (bs "/a3") s rest) -> locate w cur req = locate (Workspace ex ps None li al) cur req).
Proof.
  intros ex ps there li al cur req v s w L. assert (J : vfs_join [] s = Some v) by now apply join_leads. split.
  - intros UN T. assert (A : absolute s). { destruct UN as (rest & b & -> & S). destruct b as [|c b]; [discriminate S|]. injection S as S _. apply (proj1 (lower_slash c)) in S. rewrite S. now exists (b ++ 47 :: rest). }
    unfold locate. fold s. assert (starts_with (bs "/a3/") (ascii_lower s) = true) as -> by (apply (proj2 (under_test (bs "/a3") s)); exact UN). cbn [pdrive w]. unfold tools_path_to. rewrite J, T.
    assert (PV : Forall plain v) by (eapply leads_plain; [constructor|apply slashes_clean|exact L]). destruct (found_noted OnPDrive v s PV) as (mm & N & F). rewrite F. destruct N as [S NE|]; [|reflexivity]. exfalso. apply NE. now apply (asked s v []).
  - intros H. apply locate_without. fold s. destruct (starts_with (bs "/a3/") (ascii_lower s)) eqn:E; [|reflexivity]. destruct H as [T|N]; [unfold tools_path_to; now rewrite J, T|].
    exfalso. apply N. now apply (proj1 (under_test (bs "/a3") s)).
Qed.
Print Assumptions C79_pdrive.

  Lemma rsplit_spec s a b : rsplit_once 46 s = Some (a, b) <-> s = a ++ 46 :: b /\ ~ In 46 b.
  Proof.
    unfold rsplit_once. destruct (split_once 46 (rev s)) as [(x, y)|] eqn:E.
    - apply split_once_some in E as [E ND]. apply (f_equal (@rev N)) in E. rewrite rev_involutive, rev_app_distr in E. cbn [rev] in E. rewrite <- app_assoc in E. cbn [app] in E. split.
      + intros [= <- <-]. split; [exact E|]. now rewrite <- in_rev.
      + intros [-> NB]. f_equal. apply (f_equal (@rev N)) in E. rewrite !rev_app_distr in E. cbn [rev] in E. rewrite !rev_involutive in E. rewrite <- !app_assoc in E. cbn [app] in E.
        assert (K1 : split_once 46 (rev b ++ 46 :: rev a) = Some (rev b, rev a)) by (apply split_once_some; split; [reflexivity|now rewrite <- in_rev]).
        assert (K2 : split_once 46 (x ++ 46 :: y) = Some (x, y)) by (apply split_once_some; auto). rewrite E in K1. rewrite K2 in K1. injection K1 as -> ->. now rewrite !rev_involutive.
    - split; [discriminate|]. intros [-> NB]. apply split_once_none in E. destruct E. rewrite <- in_rev. apply in_app_iff. right. now left.
  Qed.
  Lemma split_pbo f name : split_name f = (name, bs "pbo") <-> f = name ++ bs ".pbo" /\ name <> [].
  Proof.
    unfold split_name. destruct (rsplit_once 46 f) as [(a, b)|] eqn:E.
    - apply rsplit_spec in E as [-> N]. destruct a as [|c a].
      + split; [intros [= _ K]; discriminate K|]. intros [K NE]. exfalso. destruct name as [|x name]; [now destruct NE|]. injection K as <- K. apply N. rewrite K. apply in_app_iff. right. now left.
      + split; [intros [= <- ->]; split; [reflexivity|discriminate]|]. intros [K NE]. f_equal; assert (rsplit_once 46 ((c :: a) ++ 46 :: b) = Some (c :: a, b)) as K1 by (apply rsplit_spec; auto); assert (rsplit_once 46 (name ++ bs ".pbo") = Some (name, bs "pbo")) as K2 by (apply rsplit_spec; split; [reflexivity|intros I; cbn in I; lia]); rewrite K in K1; congruence.
    - split; [intros [= _ K]; discriminate K|]. intros [-> NE]. assert (rsplit_once 46 (name ++ bs ".pbo") = Some (name, bs "pbo")) by (apply rsplit_spec; split; [reflexivity|intros I; cbn in I; lia]). congruence.
  Qed.
Section Game.
  Context {pbo : Type} (file : pbo -> text -> option bytes).
  (** The archives of the game: every file of the folders, folder by folder. *)
  Fixpoint game_files (game : text -> option (list (text * pbo))) (ds : list text) (all : list (text * pbo)) : Prop :=
    match ds with
    | [] => all = []
    | d :: ds => exists here rest, game d = Some here /\ all = here ++ rest /\ game_files game ds rest
    end.
  Definition keep (f : text * pbo) : list (text * pbo) := if eqb_bytes (snd (split_name (fst f))) (bs "pbo") then [(fst (split_name (fst f)), snd f)] else [].
  Lemma od_new_spec game ds cache : od_new game ds = Some cache <-> exists all, game_files game ds all /\ cache = flat_map keep all.
  Proof using.
    revert cache. induction ds as [|d ds IH]; intros cache; cbn [od_new game_files].
    - split; [intros [= <-]; exists []; auto|intros (all & -> & ->); reflexivity].
    - destruct (game d) as [here|]; [|split; [discriminate|intros (all & (h & r & K & _) & _); discriminate K]]. destruct (od_new game ds) as [c|].
      + split.
        * intros [= <-]. destruct (proj1 (IH c) eq_refl) as (all & G & ->). exists (here ++ all). split; [exists here, all; auto|]. rewrite flat_map_app. reflexivity.
        * intros (all & (h & r & [= <-] & -> & G) & ->). f_equal. rewrite flat_map_app. f_equal. assert (K : Some c = Some (flat_map keep r)) by (apply IH; exists r; auto). now injection K.
      + split; [discriminate|]. intros (all & (h & r & _ & _ & G) & _). assert (None = Some (flat_map keep r)) by (apply IH; exists r; auto). discriminate.
  Qed.
  Lemma keep_name name f a : In (name, a) (keep f) <-> f = (name ++ bs ".pbo", a) /\ name <> [].
  Proof using.
    destruct f as [f x]. unfold keep. cbn [fst snd]. destruct (split_name f) as (n, e) eqn:S. cbn [fst snd]. destruct (eqb_bytes e (bs "pbo")) eqn:E.
    - apply eqb_bytes_spec in E. subst e. apply split_pbo in S as [-> N]. split.
      + intros [[= -> ->]|[]]. auto.
      + intros [[= K ->] _]. left. apply app_inv_tail in K. now subst.
    - split; [intros []|]. intros [K0 N]. assert (split_name (name ++ bs ".pbo") = (name, bs "pbo")) as K by now apply split_pbo. assert (Hf : f = name ++ bs ".pbo") by congruence. rewrite <- Hf, S in K. assert (e = bs "pbo") as -> by congruence. rewrite eqb_bytes_refl in E. discriminate E.
  Qed.
  Lemma od_get_spec all name a : name <> [] -> od_get (flat_map keep all) name = Some a <->
    exists l1 l2, all = l1 ++ (name ++ bs ".pbo", a) :: l2 /\ forall x, ~ In (name ++ bs ".pbo", x) l2.
  Proof using.
    intros NN. unfold od_get. induction all as [|f all IH] using rev_ind.
    - cbn. split; [discriminate|]. intros ([|] & l2 & K & _); discriminate K.
    - rewrite flat_map_app. cbn [flat_map]. rewrite app_nil_r, rev_app_distr. assert (SPL : forall l1 (z : text * pbo) l2, all ++ [f] = l1 ++ z :: l2 -> l2 = [] /\ all = l1 /\ f = z \/ exists l3, l2 = l3 ++ [f] /\ all = l1 ++ z :: l3).
      { intros l1 z l2 E. destruct l2 as [|q l2] using rev_ind; [apply app_inj_tail in E as [-> ->]; now left|]. rewrite app_comm_cons, app_assoc in E. apply app_inj_tail in E as [-> ->]. right. eauto. }
      assert (KN := keep_name name f). destruct f as [f x]. unfold keep in KN |- * at 1. unfold keep at 1. cbn [fst snd] in *. destruct (eqb_bytes (snd (split_name f)) (bs "pbo")) eqn:E; cbn [rev app find fst].
      + destruct (eqb_bytes (fst (split_name f)) name) eqn:E2.
        * apply eqb_bytes_spec in E2. cbn [snd]. destruct (proj1 (KN x)) as [K _]; [left; now rewrite E2|]. injection K as ->. split.
          -- intros [= <-]. exists all, []. split; [reflexivity|intros y []].
          -- intros (l1 & l2 & K & N). apply SPL in K as [(-> & -> & K)|(l3 & -> & ->)]; [congruence|]. destruct (N x). apply in_app_iff. right. now left.
        * rewrite IH. split.
          -- intros (l1 & l2 & -> & N). exists l1, (l2 ++ [(f, x)]). split; [now rewrite <- app_assoc|]. intros y I. apply in_app_iff in I as [I|[[= -> ->]|[]]]; [now apply N in I|]. destruct (proj2 (KN y)) as [K|[]]; [auto|]. injection K as K. rewrite K, eqb_bytes_refl in E2. discriminate E2.
          -- intros (l1 & l2 & K & N). apply SPL in K as [(-> & -> & K)|(l3 & -> & ->)].
             ++ exfalso. destruct (proj2 (KN a)) as [K2|[]]; [split; [exact K|exact NN]|]. injection K2 as K2 _. rewrite K2, eqb_bytes_refl in E2. discriminate E2.
             ++ exists l1, l3. split; [reflexivity|]. intros y I. apply (N y). apply in_app_iff. now left.
      + rewrite IH. split.
        * intros (l1 & l2 & -> & N). exists l1, (l2 ++ [(f, x)]). split; [now rewrite <- app_assoc|]. intros y I. apply in_app_iff in I as [I|[K|[]]]; [now apply N in I|]. destruct (proj2 (KN y) (conj K NN)).
        * intros (l1 & l2 & K & N). apply SPL in K as [(-> & -> & K)|(l3 & -> & ->)]; [destruct (proj2 (KN a) (conj K NN))|]. exists l1, l3. split; [reflexivity|]. intros y I. apply (N y). apply in_app_iff. now left.
  Qed.

  Lemma above_spec v f : above v f = true <-> exists r, f = v ++ r.
  Proof using.
    revert f. induction v as [|a v IH]; intros f; cbn [above]; [split; [intros _; now exists f|auto]|]. destruct f as [|b f]; [split; [discriminate|intros (r & K); discriminate K]|].
    rewrite Bool.andb_true_iff, eqb_bytes_spec, IH. split; [intros [-> (r & ->)]; now exists r|intros (r & [= -> ->]); eauto].
  Qed.
  (** Already unpacked: a file at the path or below it. *)
  Definition stored (st : list (vpath * bytes)) (v : vpath) : Prop := v = [] \/ exists below c, In (v ++ below, c) st.
  Lemma stored_spec st v : od_there st v = true <-> stored st v.
  Proof using.
    unfold od_there, stored. destruct v as [|n v]; [split; auto|]. rewrite existsb_exists. split.
    - intros ((f, c) & I & A). right. apply above_spec in A as (r & E). cbn [fst] in E. subst f. eauto.
    - intros [K|(r & c & I)]; [discriminate K|]. exists ((n :: v) ++ r, c). split; [exact I|]. apply above_spec. now exists r.
  Qed.
  (** Without an unpacked P drive the files come from the archives of the game: from the last archive of that
      name, and only once. *)
  Theorem C79_on_demand : forall game cache st a name inner v, od_new game dirs = Some cache ->
    ~ In 47 a -> ~ In 47 name -> name <> [] -> let s := bs "/" ++ a ++ bs "/" ++ name ++ bs "/" ++ inner in leads [] s v ->
    exists all, game_files game dirs all /\
      let archive p := exists l1 l2, all = l1 ++ (name ++ bs ".pbo", p) :: l2 /\ forall x, ~ In (name ++ bs ".pbo", x) l2 in
      (stored st v -> od_path_to file cache st s = (PdFound v, st)) /\
      (~ stored st v -> forall p content, archive p -> file p inner = Some content -> od_path_to file cache st s = (PdFound v, (v, content) :: st)) /\
      (~ stored st v -> (forall p, archive p -> file p inner = None) -> od_path_to file cache st s = (PdNone, st)).
  Proof using.
    intros game cache st a name inner v N NA NN NE s L. apply od_new_spec in N as (all & G & ->). exists all. split; [exact G|]. intros archive.
    assert (J : vfs_join [] s = Some v) by now apply join_leads.
    assert (SP : split_on 47 s = [] :: a :: name :: split_on 47 inner). { unfold s. change (bs "/") with [47]. cbn [app]. change (47 :: a ++ 47 :: name ++ 47 :: inner) with ([] ++ 47 :: a ++ 47 :: name ++ 47 :: inner). rewrite !split_on_app by (assumption || intros []). reflexivity. }
    unfold od_path_to. rewrite J, SP. cbn [nth_error skipn]. rewrite join_split. assert (AR : forall p, archive p <-> od_get (flat_map keep all) name = Some p) by (intros p; symmetry; now apply od_get_spec).
    split; [|split].
    - intros T. apply stored_spec in T. now rewrite T.
    - intros T p content A F. destruct (od_there st v) eqn:E; [now apply stored_spec in E|]. apply AR in A. now rewrite A, F.
    - intros T F. destruct (od_there st v) eqn:E; [now apply stored_spec in E|]. destruct (od_get (flat_map keep all) name) as [p|] eqn:A; [|reflexivity]. now rewrite (F p (proj2 (AR p) eq_refl)).
  Qed.
  (** The game is used at all only if every one of the fourteen folders can be listed. *)
  Theorem C79_on_demand_folders : forall game : text -> option (list (text * pbo)), (exists cache, od_new game dirs = Some cache) <-> forall d, In d dirs -> game d <> None.
  Proof using.
    intros game. generalize dirs as ds. induction ds as [|d ds IH]; cbn [od_new].
    - split; [intros _ d []|eauto].
    - destruct (game d) as [here|] eqn:E.
      + destruct (od_new game ds) as [c|].
        * split; [|eauto]. intros _ d' [<-|I]; [congruence|]. apply IH; eauto.
        * split; [intros (c & K); discriminate K|]. intros H. destruct (proj2 IH) as (c & K); [intros d' I; apply H; now right|discriminate K].
      + split; [intros (c & K); discriminate K|]. intros H. exfalso. apply (H d); [now left|exact E].
  Qed.
End Game.
Print Assumptions C79_on_demand.
Print Assumptions C79_on_demand_folders.

(** ** Boundaries *)
Definition nothing : list text -> option (list text) := fun _ => None.
Definition at_ (vs : list vpath) (v : vpath) : bool := existsb (fun u => eqb_bytes (as_str u) (as_str v)) vs.
(** A prefix below another prefix: which of the two is used depends on the order of a HashMap. *)
Theorem C79_nested_refuted : ~ (forall ex l1 l2 pd li al cur req, NoDup (map fst l1) -> Permutation l1 l2 ->
  locate (Workspace ex l1 pd li al) cur req = locate (Workspace ex l2 pd li al) cur req).
Proof.
  intros H. specialize (H (at_ [[bs "a"; bs "f"]]) [(bs "/z", [bs "b"]); (bs "/z/x", [bs "a"])] [(bs "/z/x", [bs "a"]); (bs "/z", [bs "b"])] None nothing (fun _ => false) [] (bs "\z\x\f")).
  assert (K : NoDup (map fst [(bs "/z", [bs "b"]); (bs "/z/x", [bs "a"])])) by (repeat constructor; cbn; intros I; repeat (destruct I as [I|I]; [discriminate I|]); exact I).
  specialize (H K (perm_swap _ _ _)). vm_compute in H. discriminate H.
Qed.
Print Assumptions C79_nested_refuted.

(** A file beside the including one, asked for in another case, is not found. *)
Theorem C79_relative_case_refuted : ~ (forall w cur req d, recased w [] (removelast cur ++ [req]) d -> exists_ w d = true ->
  exists mm, locate w cur req = Found (InWorkspace d) mm).
Proof.
  intros H. set (w := Workspace (at_ [[bs "a.hpp"]]) [] None (fun d => match d with [] => Some [bs "a.hpp"] | _ => None end) (at_ [[]; [bs "a.hpp"]])).
  destruct (H w [bs "f"] (bs "A.hpp") [bs "a.hpp"]) as (mm & K); [|reflexivity|vm_compute in K; discriminate K].
  exists [bs "a.hpp"]. split; [reflexivity|]. split; [repeat constructor|]. split; [|reflexivity]. apply (inside w [] [bs "a.hpp"] (bs "a.hpp")); [constructor|reflexivity|now left].
Qed.
Print Assumptions C79_relative_case_refuted.

(** With two folders that differ in case only, a file of the second is not found. *)
Theorem C79_twins_refuted : ~ (forall w cur req v d, absolute req -> leads [] req v -> pointers w = [] -> pdrive w = None -> recased w [] v d ->
  exists r, locate w cur req = r /\ r <> Missing).
Proof.
  intros H. set (w := Workspace (fun _ => false) [] None (fun d => if eqb_bytes (as_str d) [] then Some [bs "data"; bs "Data"] else if eqb_bytes (as_str d) (bs "/Data") then Some [bs "f"] else Some []) (fun _ => true)).
  destruct (H w [] (bs "/DATA/f") [bs "DATA"; bs "f"] [bs "Data"; bs "f"]) as (r & K & N).
  - now exists (bs "DATA/f").
  - apply join_leads. reflexivity.
  - reflexivity.
  - reflexivity.
  - exists [bs "Data"; bs "f"]. split; [reflexivity|]. split; [repeat constructor|]. split; [|reflexivity]. apply (inside w [bs "Data"] [bs "f"] (bs "f")); [|reflexivity|now left]. apply (inside w [] [bs "data"; bs "Data"] (bs "Data")); [constructor|reflexivity|right; now left].
  - apply N. rewrite <- K. reflexivity.
Qed.
Print Assumptions C79_twins_refuted.

(** Two slashes after a prefix lead to the root of the project, not to the addon. *)
Theorem C79_double_slash_refuted : ~ (forall w cur req base root u mm, pointers w = [(base, root)] -> pdrive w = None -> Forall plain root -> root <> [] -> absolute req ->
  (forall v, leads [] req v -> exists_ w v = false) -> (exists rest, under base req rest) -> locate w cur req = Found (InWorkspace u) mm -> exists r, u = root ++ r).
Proof.
  intros H. destruct (H (Workspace (at_ [[bs "f"]]) [(bs "/z", [bs "a"])] None nothing (fun _ => false)) [] (bs "/z//f") (bs "/z") [bs "a"] [bs "f"] None) as (r & K); try reflexivity.
  - repeat constructor; cbn; try discriminate; intros K; repeat (destruct K as [K|K]; [discriminate K|]); exact K.
  - discriminate.
  - now exists (bs "z//f").
  - intros v L. apply join_leads in L. vm_compute in L. injection L as <-. reflexivity.
  - exists (bs "/f"), (bs "/z"). split; reflexivity.
  - discriminate K.
Qed.
Print Assumptions C79_double_slash_refuted.

(** A name in another case is not looked for behind "..". *)
Theorem C79_up_refuted : ~ (forall w cur req v d, absolute req -> leads [] req v -> pointers w = [] -> pdrive w = None -> recased w [] v d ->
  exists_ w v = false -> locate w cur req = Found (InWorkspace d) (Some (bs "." ++ as_str d))).
Proof.
  intros H. set (w := Workspace (fun _ => false) [] None (fun d => match d with [] => Some [bs "f"] | _ => None end) (fun _ => true)).
  assert (K : locate w [] (bs "/a/../F") = Found (InWorkspace [bs "f"]) (Some (bs "." ++ as_str [bs "f"]))).
  { apply (H w [] (bs "/a/../F") [bs "F"] [bs "f"]); try reflexivity; [now exists (bs "a/../F")|now apply join_leads|]. exists [bs "f"]. split; [reflexivity|]. split; [repeat constructor|]. split; [|reflexivity]. apply (inside w [] [bs "f"] (bs "f")); [constructor|reflexivity|now left]. }
  vm_compute in K. discriminate K.
Qed.
Print Assumptions C79_up_refuted.

(** Asking the game's archives for a path that ends in a slash is a panic, and names of archives are compared
    with case. *)
Theorem C79_archive_slash_refuted : ~ (forall (file : unit -> text -> option bytes) cache st s, absolute s -> fst (od_path_to file cache st s) <> PdPanic).
Proof. intros H. apply (H (fun _ _ => None) [] [] (bs "/a3/ui_f/")); [now exists (bs "a3/ui_f/")|reflexivity]. Qed.
Print Assumptions C79_archive_slash_refuted.
Theorem C79_archive_case_refuted : ~ (forall (file : unit -> text -> option bytes) cache name1 name2 inner, same name1 name2 ->
  fst (od_path_to file cache [] (bs "/a3/" ++ name1 ++ bs "/" ++ inner)) <> PdNone -> fst (od_path_to file cache [] (bs "/a3/" ++ name2 ++ bs "/" ++ inner)) <> PdNone).
Proof. intros H. apply (H (fun _ _ => Some []) [(bs "ui_f", tt)] (bs "ui_f") (bs "UI_F") (bs "a.hpp")); [reflexivity|vm_compute; discriminate|reflexivity]. Qed.
Print Assumptions C79_archive_case_refuted.

(** ** Examples *)
Definition disk_names : list text := [bs "addons"; bs "main"; bs "script.hpp"].
Definition ex_listing (d : list text) : option (list text) :=
  if above d disk_names then match nth_error disk_names (length d) with Some n => Some [n] | None => None end else None.
Definition ex_w : workspace := Workspace (fun v => above v disk_names) [(bs "/z/test/main", [bs "addons"; bs "main"])] None ex_listing (fun d => above d disk_names).
Lemma ex_disk : usual_disk ex_w.
Proof.
  assert (D : forall d, above d disk_names = true <-> on_disk ex_w d).
  { intros d. split.
    - intros A. apply above_spec in A as (r & E). destruct d as [|a [|b [|c [|e d]]]]; [constructor| | | |discriminate E]; injection E; intros; subst.
      + apply (inside ex_w [] [bs "addons"]); [constructor|reflexivity|now left].
      + apply (inside ex_w [bs "addons"] [bs "main"]); [|reflexivity|now left]. apply (inside ex_w [] [bs "addons"]); [constructor|reflexivity|now left].
      + apply (inside ex_w [bs "addons"; bs "main"] [bs "script.hpp"]); [|reflexivity|now left]. apply (inside ex_w [bs "addons"] [bs "main"]); [|reflexivity|now left]. apply (inside ex_w [] [bs "addons"]); [constructor|reflexivity|now left].
    - induction 1 as [|d es n D IH L I]; [reflexivity|]. cbn [listing ex_w] in L. unfold ex_listing in L. rewrite IH in L. apply above_spec in IH as (r & E). apply above_spec. destruct (nth_error disk_names (length d)) as [m|] eqn:NE; [|discriminate L]. injection L as <-. destruct I as [<-|[]].
      rewrite E in NE. rewrite nth_error_app2 in NE by lia. replace (length d - length d)%nat with 0%nat in NE by lia. destruct r as [|x r]; [discriminate NE|]. injection NE as ->. exists r. rewrite E, <- app_assoc. reflexivity. }
  constructor.
  - exact D.
  - intros d es L. apply D. cbn [listing ex_w] in L. unfold ex_listing in L. now destruct (above d disk_names).
  - intros d A. apply D, above_spec in A as (r & E). assert (P : Forall plain disk_names) by (repeat constructor; cbn; try discriminate; intros K; repeat (destruct K as [K|K]; [discriminate K|]); exact K). rewrite E in P. now apply Forall_app in P.
  - intros d es L. cbn [listing ex_w] in L. unfold ex_listing in L. destruct (above d disk_names); [|discriminate L]. destruct (nth_error _ _); [|discriminate L]. injection L as <-. repeat constructor. intros [].
Qed.
(** The hypotheses of [C79_prefix] are met: the file is found below the prefix, in either case. *)
Example ex_prefix : locate ex_w [bs "x"] (bs "\z\Test\main\script.hpp") = Found (InWorkspace disk_names) None /\
  locate ex_w [bs "x"] (bs "\z\test\main\Script.hpp") = Found (InWorkspace disk_names) (Some (bs "./addons/main/script.hpp")).
Proof. split; reflexivity. Qed.
Example ex_hypotheses : absolute (bs "/z/Test/main/script.hpp") /\ no_pdrive ex_w (bs "/z/Test/main/script.hpp") /\
  leads [] (bs "/z/Test/main/script.hpp") [bs "z"; bs "Test"; bs "main"; bs "script.hpp"] /\ apart (map fst (pointers ex_w)) /\
  under (bs "/z/test/main") (bs "/z/Test/main/script.hpp") (bs "script.hpp") /\ leads [bs "addons"; bs "main"] (bs "script.hpp") disk_names.
Proof.
  split; [now exists (bs "z/Test/main/script.hpp")|]. split; [intros _ f K; discriminate K|]. split; [now apply join_leads|]. split; [repeat constructor|]. split; [exists (bs "/z/Test/main"); split; reflexivity|now apply join_leads].
Qed.
Example ex_virtual : as_virtual_str ex_w disk_names = bs "/z/test/main/script.hpp".
Proof. reflexivity. Qed.
Example ex_discover : discover [Entry [bs "addons"; bs "main"; bs "$PBOPREFIX$"] (Some (bs "z\Test\main")); Entry [bs "addons"; bs "main"; bs "Config.cpp"] None] [] [] [] =
  Discovered [[bs "addons"; bs "main"; bs "Config.cpp"]] [] [(bs "/z/test/main", [bs "addons"; bs "main"])].
Proof. reflexivity. Qed.

(** The file written beside another one, with another extension (compiled scripts and configs): only what
    follows the last dot of the name changes. *)
Theorem C79_with_extension : forall d stem old ext, ext <> [] -> ~ In 47 ext -> ~ In 46 ext -> ~ In 47 stem ->
  (~ In 46 old -> ~ In 47 old -> with_extension ext (d ++ [stem ++ bs "." ++ old]) = Some (d ++ [stem ++ bs "." ++ ext])) /\
  (~ In 46 stem -> with_extension ext (d ++ [stem]) = Some (d ++ [stem ++ bs "." ++ ext])).
Proof.
  intros d stem old ext NE N1 N2 N3. change (bs ".") with [46].
  assert (J : vfs_join d (stem ++ [46] ++ ext) = Some (d ++ [stem ++ [46] ++ ext])).
  { assert (NS : ~ In 47 (stem ++ [46] ++ ext)) by (intros I; rewrite !in_app_iff in I; destruct I as [I|[[I|[]]|I]]; [auto|discriminate I|auto]). apply join_leads. split.
    - right. intros (a & K). apply NS. rewrite K. apply in_app_iff. right. now left.
    - assert (starts_with [47] (stem ++ [46] ++ ext) = false) as ->. { destruct (starts_with _ _) eqn:E; [|reflexivity]. apply abs_test in E as (r & E). destruct NS. rewrite E. now left. }
      rewrite split_on_none by exact NS. assert (L : forall x : text, stem ++ [46] ++ ext = x -> (length x < 2)%nat \/ x = [46; 46] -> False).
      { intros x <- [K|K]; [rewrite !app_length in K; cbn [length] in K; destruct ext; [now destruct NE|cbn [length] in K; lia]|]. destruct stem as [|c stem]; [injection K as K; destruct ext as [|e ext]; [now destruct NE|injection K as -> _; apply N2; now left]|]. cbn [app] in K. injection K as _ K. destruct stem as [|c2 stem]; [injection K as K; destruct NE; exact K|]. injection K as _ K. destruct stem; discriminate K. }
      apply down; [| | |constructor]; intros K; apply (L _ K); cbn; auto. }
  split.
  - intros N4 N5. unfold with_extension. rewrite last_last, removelast_last. assert (split_once 46 (rev (stem ++ [46] ++ old)) = Some (rev old, rev stem)) as ->; [|now rewrite rev_involutive].
    apply split_once_some. rewrite !rev_app_distr. cbn [rev app]. rewrite <- app_assoc. split; [reflexivity|]. now rewrite <- in_rev.
  - intros N4. unfold with_extension. rewrite last_last, removelast_last. assert (split_once 46 (rev stem) = None) as -> by (apply split_once_none; now rewrite <- in_rev). exact J.
Qed.
Print Assumptions C79_with_extension.
Example ex_sqfc : with_extension (bs "sqfc") [bs "addons"; bs "fnc_a.b.sqf"] = Some [bs "addons"; bs "fnc_a.b.sqfc"].
Proof. reflexivity. Qed.
