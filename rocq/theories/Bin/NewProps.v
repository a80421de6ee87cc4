(** C103. *)
From Coq Require Import String.
From Verif Require Import Base.Tactics Base.Bytes Base.Ascii Base.Text Base.Sort Bin.BinarizeModel Common.ProjectVersionModel Common.LaunchModel Bin.ExecModel Bin.SettingsModel Bin.NewSpec.
From Verif Require Import Bin.NewModel.
Local Open Scope N_scope.
Local Open Scope list_scope.

(** ** The text *)
Definition absent (p s : text) : Prop := forall a b, s <> a ++ p ++ b.
Lemma starts_is p s : starts_with p s = true <-> exists r, s = p ++ r.
Proof. apply starts_with_spec. Qed.
Lemma replace_absent p q s : absent p s -> replace p q s = s.
Proof.
  unfold replace. induction s as [|c s IH]; intros A; [reflexivity|]. cbn [replace_go]. destruct (starts_with p (c :: s)) eqn:E.
  - apply starts_is in E as (r & E). now destruct (A [] r).
  - f_equal. apply IH. intros a b ->. exact (A (c :: a) b eq_refl).
Qed.
Lemma split_at {A} : forall (a b u v : list A) x, a ++ b = u ++ x :: v -> (exists m, a = u ++ x :: m /\ v = m ++ b) \/ exists m, u = a ++ m /\ b = m ++ x :: v.
Proof.
  induction a as [|y a IH]; intros b u v x E; [right; now exists u|]. destruct u as [|z u]; cbn [app] in E; injection E as -> E; [left; now exists a|].
  destruct (IH _ _ _ _ E) as [(m & -> & ->)|(m & -> & ->)]; [left|right]; now exists m.
Qed.
Lemma absent_quote p u v : p <> [] -> ~ In 34 p -> absent p u -> absent p v -> absent p (u ++ 34 :: v).
Proof.
  intros NE Q U V a b E. symmetry in E. apply split_at in E as [(m & -> & ->)|(m & -> & E)].
  - apply (V m b). reflexivity.
  - apply split_at in E as [(m' & -> & ->)|(m' & -> & ->)].
    + apply Q. apply in_or_app. right. now left.
    + apply (U a m'). reflexivity.
Qed.
Lemma absent_first c p s : ~ In c s -> absent (c :: p) s.
Proof. intros H a b ->. apply H. apply in_or_app. right. now left. Qed.
Lemma between_simple w : Forall itself w -> between w w.
Proof. induction 1; now constructor. Qed.
Lemma quoted_line k w v s t : bare k -> between w v -> ~ In k (map fst t) -> document s t -> document (quoted k w ++ s) ((k, TStr v) :: t).
Proof.
  intros B W I D. replace (quoted k w ++ s) with (k ++ bs " = " ++ [34] ++ w ++ [34] ++ [] ++ [10] ++ s).
  - constructor; auto. constructor. constructor.
  - unfold quoted. rewrite <- !app_assoc. reflexivity.
Qed.
Lemma bare_is k : k <> [] -> forallb (fun c => (97 <=? c) && (c <=? 122)) k = true -> bare k.
Proof.
  intros NE H. split; [exact NE|]. apply Forall_forall. intros c I. apply (proj1 (forallb_forall _ _) H) in I. apply andb_true_iff in I as [A B].
  apply N.leb_le in A, B. now split.
Qed.
Lemma not_in_keys k l : existsb (eqb_bytes k) l = false -> ~ In k l.
Proof. intros H I. enough (existsb (eqb_bytes k) l = true) by congruence. apply existsb_exists. exists k. split; [exact I|apply eqb_bytes_refl]. Qed.
Definition table_of (n a p m : text) : list (text * toml) := [(bs "name", TStr n); (bs "author", TStr a); (bs "prefix", TStr p); (bs "mainprefix", TStr m)].
Lemma project_document x n a p m : between (full_name x) n -> between (author x) a -> between (prefix x) p -> between (mainprefix x) m ->
  document (project_toml x) (table_of n a p m).
Proof.
  intros A B C D. unfold project_toml, table_of.
  apply quoted_line; [apply bare_is; [discriminate|reflexivity]|exact A|apply not_in_keys; reflexivity|].
  apply quoted_line; [apply bare_is; [discriminate|reflexivity]|exact B|apply not_in_keys; reflexivity|].
  apply quoted_line; [apply bare_is; [discriminate|reflexivity]|exact C|apply not_in_keys; reflexivity|].
  rewrite <- (app_nil_r (quoted (bs "mainprefix") _)). apply quoted_line; [apply bare_is; [discriminate|reflexivity]|exact D|intros []|constructor].
Qed.
Definition pattern : text := bs "[hemtt.launch]".
Lemma project_absent x : absent pattern (full_name x) -> absent pattern (author x) -> absent pattern (prefix x) -> absent pattern (mainprefix x) -> absent pattern (project_toml x).
Proof.
  intros A B C D.
  assert (Q : ~ In 34 pattern) by (vm_compute; intuition discriminate).
  assert (L : forall s, existsb (N.eqb 91) s = false -> absent pattern s).
  { intros s H. apply absent_first. intros I. enough (existsb (N.eqb 91) s = true) by congruence. apply existsb_exists. exists 91. split; [exact I|apply N.eqb_refl]. }
  replace (project_toml x) with ((bs "name = ") ++ 34 :: full_name x ++ 34 :: (10 :: bs "author = ") ++ 34 :: author x ++ 34 :: (10 :: bs "prefix = ") ++ 34 :: prefix x ++ 34 :: (10 :: bs "mainprefix = ") ++ 34 :: mainprefix x ++ 34 :: [10]).
  - repeat (apply absent_quote; [discriminate|exact Q|first [assumption|apply L; reflexivity]|]). apply L. reflexivity.
  - unfold project_toml, quoted. rewrite <- !app_assoc. reflexivity.
Qed.

(** ** The folder *)
Lemma toml_there templates a : settings_in (fst (execute templates true None a [])) (bs "project.toml") = Holds (project_toml a).
Proof. unfold execute, ops, license_text. cbn [negb at_]. destruct (license a =? 7); reflexivity. Qed.
Lemma others_absent templates a : settings_in (fst (execute templates true None a [])) (bs "launch.toml") = Absent /\ settings_in (fst (execute templates true None a [])) (bs "lints.toml") = Absent.
Proof. unfold execute, ops, license_text. cbn [negb at_]. destruct (license a =? 7); split; reflexivity. Qed.

Section Reading.
  Context (lower : text -> text) (severity_of : text -> option severity) (kept : toml -> bytes) (parse : text -> option (list (text * toml))).
  Definition plain_project (n p : text) (m : option text) : project :=
    Project n p m (Config (bs "addons/main/script_version.hpp") None 8) [] (included []) [] (Lints [] [] []) Ignore [] [] true Ignore p true true V3 None.
  Lemma read_table sibling fuel s n a p m : sibling (bs "project.toml") = Holds s -> sibling (bs "launch.toml") = Absent -> sibling (bs "lints.toml") = Absent ->
    parse (replace (bs "[hemtt.launch]") (bs "[hemtt.launch.default]") s) = Some (table_of n a p m) -> p <> [] ->
    read_project lower severity_of kept parse fuel sibling = Done (plain_project n p (Some m)).
  Proof.
    intros H1 H2 H3 P NE. unfold read_project. rewrite H1, P.
    assert (D : d_project lower severity_of kept (table_of n a p m) = Some (File_ n p (Some m) (Section_ None None None None None None) [] [] [] (Lints [] [] []) None [] [] None None None None None None None)) by reflexivity.
    rewrite D. unfold finish. cbn [f_prefix f_launch f_version f_lints f_name f_mainprefix f_properties f_include f_exclude f_check_pdrive f_dev_exclude f_optional_mod_folders f_build_pdrive f_folder f_sign f_archive f_sign_version f_authority].
    destruct p as [|c p]; [contradiction|]. unfold launch_source, lints_source. rewrite H2, H3. reflexivity.
  Qed.
  Lemma read_short sibling fuel s n a p : sibling (bs "project.toml") = Holds s -> sibling (bs "launch.toml") = Absent -> sibling (bs "lints.toml") = Absent ->
    parse (replace (bs "[hemtt.launch]") (bs "[hemtt.launch.default]") s) = Some [(bs "name", TStr n); (bs "author", TStr a); (bs "prefix", TStr p)] -> p <> [] ->
    read_project lower severity_of kept parse fuel sibling = Done (plain_project n p None).
  Proof.
    intros H1 H2 H3 P NE. unfold read_project. rewrite H1, P.
    assert (D : d_project lower severity_of kept [(bs "name", TStr n); (bs "author", TStr a); (bs "prefix", TStr p)] = Some (File_ n p None (Section_ None None None None None None) [] [] [] (Lints [] [] []) None [] [] None None None None None None None)) by reflexivity.
    rewrite D. unfold finish. cbn [f_prefix f_launch f_version f_lints f_name f_mainprefix f_properties f_include f_exclude f_check_pdrive f_dev_exclude f_optional_mod_folders f_build_pdrive f_folder f_sign f_archive f_sign_version f_authority].
    destruct p as [|c p]; [contradiction|]. unfold launch_source, lints_source. rewrite H2, H3. reflexivity.
  Qed.
End Reading.

(** What was answered is what hemtt reads in the new folder. *)
Theorem C103_reads_back : forall lower severity_of kept parse fuel templates a,
  reads_toml parse -> simple (full_name a) -> simple (author a) -> simple (prefix a) -> simple (mainprefix a) -> prefix a <> [] ->
  exists p, read_project lower severity_of kept parse fuel (settings_in (fst (execute templates true None a []))) = Done p /\
    p_name p = full_name a /\ p_prefix p = prefix a /\ p_mainprefix p = Some (mainprefix a) /\
    p_folder p = prefix a /\ p_sign p = true /\ p_archive p = true /\ p_launch p = [] /\ p_properties p = [] /\ p_exclude p = [].
Proof.
  intros lower severity_of kept parse fuel templates a R (A & A') (B & B') (C & C') (D & D') NE. destruct (others_absent templates a) as (H2 & H3).
  eexists. split; [eapply read_table; [apply toml_there|exact H2|exact H3| |exact NE]|repeat split].
  rewrite replace_absent by now apply project_absent. apply R. apply project_document; now apply between_simple.
Qed.

(** What is in the new folder. *)
Theorem C103_folder : forall templates a,
  snd (execute templates true None a []) = Created /\ forall p e, at_ (fst (execute templates true None a [])) p = Some e <->
    In (p, e) ([([], Folder); ([bs "addons"], Folder); ([bs ".git"], Folder); ([bs ".hemtt"], Folder);
                ([bs ".hemtt"; bs "project.toml"], File (bs "name = """ ++ full_name a ++ bs """" ++ [10] ++ bs "author = """ ++ author a ++ bs """" ++ [10] ++
                  bs "prefix = """ ++ prefix a ++ bs """" ++ [10] ++ bs "mainprefix = """ ++ mainprefix a ++ bs """" ++ [10]));
                ([bs ".gitignore"], File (join [10] (map bs ["*.pbo"; ".hemttout"; "hemtt"; "hemtt.exe"; "*.biprivatekey"; ""]%string)))] ++
               match license_text templates a with Some t => [([bs "LICENSE"], File t)] | None => [] end).
Proof.
  intros templates a.
  match goal with |- context [File (bs "name = """ ++ ?x)] => assert (TX : bs "name = """ ++ x = project_toml a) by (unfold project_toml, quoted; rewrite <- !app_assoc; reflexivity); rewrite TX; clear TX end.
  assert (EQ : forall p q, eqb_path p q = true <-> p = q).
  { induction p as [|x p IH]; intros [|y q]; cbn [eqb_path]; try (split; discriminate || reflexivity). rewrite andb_true_iff, IH. split.
    - intros [H ->]. apply eqb_bytes_spec in H. now subst.
    - intros [= -> ->]. split; [apply eqb_bytes_refl|reflexivity]. }
  assert (G : forall d p e, NoDup (map fst d) -> (at_ d p = Some e <-> In (p, e) d)).
  { induction d as [|(q & f) d IH]; intros p e ND; [split; [discriminate|intros []]|]. inversion ND as [|? ? X Y]; subst. cbn [at_]. destruct (eqb_path p q) eqn:E.
    - apply EQ in E as ->. split; [intros [= ->]; now left|]. intros [H|H]; [now injection H as ->|]. destruct X. now apply (in_map fst) in H.
    - rewrite (IH p e Y). split; [now right|]. intros [H|H]; [|exact H]. injection H as -> ->. rewrite (proj2 (EQ p p) eq_refl) in E. discriminate. }
  assert (SH : forall p x y d q, at_ ((p, x) :: (p, y) :: d) q = at_ ((p, x) :: d) q) by (intros p x y d q; cbn [at_]; now destruct (eqb_path q p)).
  assert (ND : forall (l : list (list text)), (fix go l := match l with [] => true | x :: r => negb (existsb (eqb_path x) r) && go r end) l = true -> NoDup l).
  { induction l as [|x r IH]; intros H; [constructor|]. apply andb_true_iff in H as [H1 H2]. constructor; [|now apply IH]. intros I. apply negb_true_iff in H1.
    enough (existsb (eqb_path x) r = true) by congruence. apply existsb_exists. exists x. split; [exact I|now apply EQ]. }
  unfold execute, ops. cbn [negb at_]. destruct (license_text templates a) as [t|].
  - split; [reflexivity|]. intros p e.
    transitivity (at_ [([bs "LICENSE"], File t); ([bs ".gitignore"], File gitignore); ([bs ".hemtt"; bs "project.toml"], File (project_toml a)); ([bs ".hemtt"], Folder); ([bs ".git"], Folder); ([bs "addons"], Folder); ([], Folder)] p = Some e).
    + match goal with |- ?u = _ <-> ?v = _ => enough (u = v) as -> by reflexivity end.
      transitivity (at_ [([bs "LICENSE"], File t); ([bs "LICENSE"], File []); ([bs ".gitignore"], File gitignore); ([bs ".gitignore"], File []); ([bs ".hemtt"; bs "project.toml"], File (project_toml a)); ([bs ".hemtt"; bs "project.toml"], File []); ([bs ".hemtt"], Folder); ([bs ".git"], Folder); ([bs "addons"], Folder); ([], Folder)] p); [reflexivity|].
      cbn [at_]. repeat match goal with |- context [eqb_path p ?q] => destruct (eqb_path p q); try reflexivity end.
    + rewrite G by (apply ND; vm_compute; reflexivity). change (join [10] _) with gitignore. cbn [app In]. tauto.
  - split; [reflexivity|]. intros p e.
    transitivity (at_ [([bs ".gitignore"], File gitignore); ([bs ".hemtt"; bs "project.toml"], File (project_toml a)); ([bs ".hemtt"], Folder); ([bs ".git"], Folder); ([bs "addons"], Folder); ([], Folder)] p = Some e).
    + match goal with |- ?u = _ <-> ?v = _ => enough (u = v) as -> by reflexivity end.
      transitivity (at_ [([bs ".gitignore"], File gitignore); ([bs ".gitignore"], File []); ([bs ".hemtt"; bs "project.toml"], File (project_toml a)); ([bs ".hemtt"; bs "project.toml"], File []); ([bs ".hemtt"], Folder); ([bs ".git"], Folder); ([bs "addons"], Folder); ([], Folder)] p); [reflexivity|].
      cbn [at_]. repeat match goal with |- context [eqb_path p ?q] => destruct (eqb_path p q); try reflexivity end.
    + rewrite G by (apply ND; vm_compute; reflexivity). change (join [10] _) with gitignore. cbn [app In]. tauto.
Qed.

(** ** Refusals and interruptions *)
(** A folder that is there is left as it is, and so is everything if nobody is at the terminal. *)
Theorem C103_refuses : forall templates terminal stop a d,
  (at_ d [] <> None -> execute templates terminal stop a d = (d, if terminal then FolderExists else NotTerminal)) /\
  (terminal = false -> execute templates terminal stop a d = (d, NotTerminal)).
Proof.
  intros templates terminal stop a d. unfold execute. split; [intros H|intros ->; reflexivity]. destruct terminal; [|reflexivity]. cbn [negb]. destruct (at_ d []); [reflexivity|now destruct H].
Qed.

Lemma keeps_at part o d p : at_ d p <> None -> at_ (perform part o d) p <> None.
Proof.
  intros H. destruct o as [q|q|q t]; cbn [perform]; [destruct part|destruct part|destruct (at_ d q) as [[]|]]; try exact H;
    cbn [at_]; destruct (eqb_path p q); congruence.
Qed.
Lemma run_keeps : forall l stop d p, at_ d p <> None -> at_ (fst (run stop l d)) p <> None.
Proof.
  induction l as [|o l IH]; intros stop d p H; [exact H|]. cbn [run]. destruct stop as [[[|n] part]|]; cbn [fst].
  - now apply keeps_at.
  - apply IH. now apply keeps_at.
  - apply IH. now apply keeps_at.
Qed.
Lemma stopped_run l stop : fst (run stop (MakeFolder [] :: l) []) = [] \/ at_ (fst (run stop (MakeFolder [] :: l) [])) [] <> None.
Proof. cbn [run]. destruct stop as [[[|n] part]|]; [now left|right|right]; apply run_keeps; discriminate. Qed.
Lemma stopped_cases templates a stop d' r : execute templates true stop a [] = (d', r) -> d' = [] \/ at_ d' [] <> None.
Proof.
  unfold execute. cbn [negb at_]. destruct (run stop (ops templates a) []) as [d1 b] eqn:X. intros [= <- _].
  change d1 with (fst (d1, b)). rewrite <- X. apply stopped_run.
Qed.
Definition place (o : op) : list text := match o with MakeFolder p => p | MakeFile p => p | Write p _ => p end.
Lemma away part o d p : eqb_path p (place o) = false -> at_ (perform part o d) p = at_ d p.
Proof.
  destruct o as [q|q|q t]; cbn [perform place]; intros H; [destruct part|destruct part|destruct (at_ d q) as [[]|]]; try reflexivity; cbn [at_]; now rewrite H.
Qed.
Lemma run_away p : forall l stop d, forallb (fun o => negb (eqb_path p (place o))) l = true -> at_ (fst (run stop l d)) p = at_ d p.
Proof.
  induction l as [|o l IH]; intros stop d H; [reflexivity|]. cbn [forallb] in H. apply andb_true_iff in H as [H1 H2]. apply negb_true_iff in H1. cbn [run].
  destruct stop as [[[|n] part]|]; cbn [fst].
  - now apply away.
  - rewrite IH by exact H2. now apply away.
  - rewrite IH by exact H2. now apply away.
Qed.
Lemma run_two : forall l m stop d, fst (run stop (l ++ m) d) = fst (run stop l d) \/ exists stop', fst (run stop (l ++ m) d) = fst (run stop' m (fst (run None l d))).
Proof.
  induction l as [|o l IH]; intros m stop d; [right; now exists stop|]. cbn [app run]. destruct stop as [[[|n] part]|]; cbn [fst]; [now left|apply IH|apply IH].
Qed.
Lemma run_file p w l m stop :
  (forall q, eqb_path q q = true) ->
  forallb (fun o => negb (eqb_path p (place o))) l = true -> forallb (fun o => negb (eqb_path p (place o))) m = true ->
  at_ (fst (run stop (l ++ [MakeFile p; Write p w] ++ m) [])) p = None \/ exists s rest, at_ (fst (run stop (l ++ [MakeFile p; Write p w] ++ m) [])) p = Some (File s) /\ w = s ++ rest.
Proof.
  intros R L M.
  destruct (run_two l ([MakeFile p; Write p w] ++ m) stop []) as [E|(st & E)]; rewrite E; clear E.
  - left. now rewrite run_away.
  - pose proof (run_away p l None [] L) as N0. set (d0 := fst (run None l [])) in *. cbn [at_] in N0. cbn [app run].
    assert (P1 : at_ (perform None (MakeFile p) d0) p = Some (File [])) by (cbn [perform at_]; now rewrite R).
    assert (P2 : at_ (perform None (Write p w) (perform None (MakeFile p) d0)) p = Some (File w)) by (cbn [perform at_]; rewrite R; cbn [at_]; rewrite R; reflexivity).
    destruct st as [[[|[|n]] part]|]; cbn [fst].
    + left. exact N0.
    + right. exists (firstn part w), (skipn part w). split; [|symmetry; apply firstn_skipn]. cbn [perform at_]. rewrite R. cbn [at_]. now rewrite R.
    + right. exists w, []. split; [|symmetry; apply app_nil_r]. now rewrite run_away.
    + right. exists w, []. split; [|symmetry; apply app_nil_r]. now rewrite run_away.
Qed.
Lemma path_refl q : eqb_path q q = true.
Proof. induction q as [|x q IH]; [reflexivity|]. cbn [eqb_path]. rewrite IH, eqb_bytes_refl. reflexivity. Qed.
Lemma ops_split templates a : exists l m, ops templates a = l ++ [MakeFile [bs ".hemtt"; bs "project.toml"]; Write [bs ".hemtt"; bs "project.toml"] (project_toml a)] ++ m /\
  forallb (fun o => negb (eqb_path [bs ".hemtt"; bs "project.toml"] (place o))) l = true /\ forallb (fun o => negb (eqb_path [bs ".hemtt"; bs "project.toml"] (place o))) m = true.
Proof.
  exists [MakeFolder []; MakeFolder [bs "addons"]; MakeFolder [bs ".git"]; MakeFolder [bs ".hemtt"]].
  eexists. split; [unfold ops; cbn [app]; reflexivity|]. split; [reflexivity|]. destruct (license_text templates a); reflexivity.
Qed.
Lemma run_done : forall l st d d2, run st l d = (d2, true) -> d2 = fst (run None l d).
Proof.
  induction l as [|o l IH]; intros st d d2 G; [now injection G as <-|]. cbn [run] in *. destruct st as [[[|n] part]|]; [discriminate|eauto|eauto].
Qed.
Lemma execute_fst templates stop a : fst (execute templates true stop a []) = fst (run stop (ops templates a) []).
Proof. unfold execute. cbn [negb at_]. now destruct (run stop (ops templates a) []). Qed.
(** Interrupted anywhere: nothing was made, or every later run is refused and changes nothing; and the settings that are there are the
    beginning of the ones meant. *)
Theorem C103_interrupted : forall templates stop a d' r, execute templates true stop a [] = (d', r) ->
  (d' = [] \/ forall terminal stop' a', execute templates terminal stop' a' d' = (d', if terminal then FolderExists else NotTerminal)) /\
  (forall s, settings_in d' (bs "project.toml") = Holds s -> exists rest, project_toml a = s ++ rest) /\
  (r = Created -> d' = fst (execute templates true None a [])).
Proof.
  intros templates stop a d' r E. split; [|split].
  - destruct (stopped_cases _ _ _ _ _ E) as [H|H]; [now left|right]. intros. now apply C103_refuses.
  - intros s H. unfold settings_in in H. apply (f_equal fst) in E. rewrite execute_fst in E. cbn [fst] in E. rewrite <- E in H.
    destruct (ops_split templates a) as (l & m & X & L & M). rewrite X in H.
    destruct (run_file _ (project_toml a) l m stop path_refl L M) as [Y|(s' & rest & Y & Z)]; rewrite Y in H; [discriminate|].
    injection H as <-. now exists rest.
  - intros ->. rewrite execute_fst. unfold execute in E. cbn [negb at_] in E. destruct (run stop (ops templates a) []) as [d1 b] eqn:X. destruct b; [|discriminate]. injection E as <-.
    eapply run_done. exact X.
Qed.

(** ** The license *)
(** The file LICENSE is there unless "None" is chosen; a license that names neither the author nor the year is written as it is. *)
Theorem C103_license : forall templates a,
  (license a = 7 -> at_ (fst (execute templates true None a [])) [bs "LICENSE"] = None) /\
  (license a <> 7 -> exists t, at_ (fst (execute templates true None a [])) [bs "LICENSE"] = Some (File t) /\
     ((forall u v, templates (license a) <> u ++ bs "{author}" ++ v) -> (forall u v, templates (license a) <> u ++ bs "{year}" ++ v) -> t = templates (license a))).
Proof.
  intros templates a. destruct (C103_folder templates a) as [_ F]. unfold license_text in F. split; intros H.
  - destruct (at_ (fst (execute templates true None a [])) [bs "LICENSE"]) as [e|] eqn:E; [|reflexivity]. apply F in E. rewrite H in E. cbn [N.eqb Pos.eqb app In] in E.
    exfalso. repeat (destruct E as [E|E]; [apply (f_equal (fun x => eqb_path (fst x) [bs "LICENSE"])) in E; vm_compute in E; discriminate E|]). exact E.
  - apply N.eqb_neq in H. rewrite H in F. eexists. split; [apply F; apply in_or_app; right; now left|]. intros A B. rewrite (replace_absent _ _ _ A). now apply replace_absent.
Qed.
(** In the texts of the MIT license and of the others the places for the year and the author are written in upper case, and are left. *)
Theorem C103_license_refuted : forall templates a rest,
  license a <> 7 -> templates (license a) = bs "Copyright (c) {YEAR} {AUTHOR}" ++ rest ->
  exists rest', at_ (fst (execute templates true None a [])) [bs "LICENSE"] = Some (File (bs "Copyright (c) {YEAR} {AUTHOR}" ++ rest')).
Proof.
  intros templates a rest H T. destruct (C103_folder templates a) as [_ F]. unfold license_text in F. apply N.eqb_neq in H. rewrite H, T in F.
  exists (replace (bs "{year}") (year a) (replace (bs "{author}") (author a) rest)). apply F. apply in_or_app. right. left. reflexivity.
Qed.

(** ** What is not read back *)
Definition sample (n : text) : answers := Answers n (bs "Me") (bs "tst") (bs "x") 7 (bs "2026").
Lemma between_is w : forallb (fun c => ((c =? 9) || (32 <=? c)) && negb (c =? 34) && negb (c =? 92) && negb (c =? 127)) w = true -> between w w.
Proof.
  intros H. apply between_simple. apply Forall_forall. intros c I. apply (proj1 (forallb_forall _ _) H) in I.
  rewrite !andb_true_iff, orb_true_iff, !negb_true_iff, !N.eqb_neq, N.eqb_eq, N.leb_le in I. unfold itself. tauto.
Qed.
(** The project's file cut off behind its third line is read, without the main prefix that was asked for. *)
Theorem C103_torn_refuted : exists stop a, forall lower severity_of kept parse fuel templates, reads_toml parse ->
  exists d' p, execute templates true stop a [] = (d', Broken) /\
    read_project lower severity_of kept parse fuel (settings_in d') = Done p /\ mainprefix a = bs "x" /\ p_mainprefix p = None.
Proof.
  exists (Some (5%nat, 45%nat)), (sample (bs "My Mod")). intros lower severity_of kept parse fuel templates R.
  eexists _, (plain_project (bs "My Mod") (bs "tst") None). split; [reflexivity|]. split; [|split; reflexivity].
  eapply (read_short lower severity_of kept parse _ fuel (quoted (bs "name") (bs "My Mod") ++ quoted (bs "author") (bs "Me") ++ quoted (bs "prefix") (bs "tst") ++ []) (bs "My Mod") (bs "Me") (bs "tst"));
    [vm_compute; reflexivity|reflexivity|reflexivity| |discriminate].
  match goal with |- parse ?x = _ => replace x with (quoted (bs "name") (bs "My Mod") ++ quoted (bs "author") (bs "Me") ++ quoted (bs "prefix") (bs "tst") ++ []) by (vm_compute; reflexivity) end.
  apply R.
  apply quoted_line; [apply bare_is; [discriminate|reflexivity]|apply between_is; reflexivity|apply not_in_keys; reflexivity|].
  apply quoted_line; [apply bare_is; [discriminate|reflexivity]|apply between_is; reflexivity|apply not_in_keys; reflexivity|].
  apply quoted_line; [apply bare_is; [discriminate|reflexivity]|apply between_is; reflexivity|intros []|]. constructor.
Qed.
Lemma sample_reads lower severity_of kept parse fuel templates n v : reads_toml parse -> between n v -> absent pattern n ->
  exists p, read_project lower severity_of kept parse fuel (settings_in (fst (execute templates true None (sample n) []))) = Done p /\ p_name p = v.
Proof.
  intros R B A. destruct (others_absent templates (sample n)) as (H2 & H3). eexists. split; [eapply (read_table lower severity_of kept parse _ fuel _ v); [apply toml_there|exact H2|exact H3| |]|reflexivity].
  - rewrite replace_absent.
    + apply R. apply project_document; [exact B|apply between_is; reflexivity|apply between_is; reflexivity|apply between_is; reflexivity].
    + apply project_absent; [exact A|..]; apply absent_first; vm_compute; intuition discriminate.
  - discriminate.
Qed.
(** A backslash in an answer is not escaped: "a\t" is read as "a" and a tab. *)
Theorem C103_escape_refuted : exists a, forall lower severity_of kept parse fuel templates, reads_toml parse ->
  exists p, read_project lower severity_of kept parse fuel (settings_in (fst (execute templates true None a []))) = Done p /\
    full_name a = [97; 92; 116] /\ p_name p = [97; 9].
Proof.
  exists (sample [97; 92; 116]). intros. destruct (sample_reads lower severity_of kept parse fuel templates [97; 92; 116] [97; 9]) as (p & P & Q); eauto.
  - constructor; [unfold itself; lia|]. constructor; [|constructor]. right. now left.
  - apply absent_first. vm_compute. intuition discriminate.
Qed.
(** A quote ends the value: an answer of x, a quote and # is read as x. *)
Theorem C103_quote_refuted : exists a, forall lower severity_of kept parse fuel templates, reads_toml parse ->
  exists p, read_project lower severity_of kept parse fuel (settings_in (fst (execute templates true None a []))) = Done p /\
    full_name a = [120; 34; 32; 35] /\ p_name p = [120].
Proof.
  exists (sample [120; 34; 32; 35]). intros lower severity_of kept parse fuel templates R. destruct (others_absent templates (sample [120; 34; 32; 35])) as (H2 & H3).
  eexists. split; [eapply (read_table lower severity_of kept parse _ fuel _ [120] (bs "Me") (bs "tst") (bs "x")); [apply toml_there|exact H2|exact H3| |discriminate]|split; reflexivity].
  rewrite replace_absent by (apply project_absent; apply absent_first; vm_compute; intuition discriminate). apply R.
  assert (T : document (quoted (bs "author") (bs "Me") ++ quoted (bs "prefix") (bs "tst") ++ quoted (bs "mainprefix") (bs "x") ++ []) (tl (table_of [] (bs "Me") (bs "tst") (bs "x")))).
  { apply quoted_line; [apply bare_is; [discriminate|reflexivity]|apply between_is; reflexivity|apply not_in_keys; reflexivity|].
    apply quoted_line; [apply bare_is; [discriminate|reflexivity]|apply between_is; reflexivity|apply not_in_keys; reflexivity|].
    apply quoted_line; [apply bare_is; [discriminate|reflexivity]|apply between_is; reflexivity|intros []|]. constructor. }
  assert (K : ~ In (bs "name") (map fst (tl (table_of [] (bs "Me") (bs "tst") (bs "x"))))) by (apply not_in_keys; reflexivity).
  pose proof (document_line (bs "name") [120] [120] [32; 35; 34] _ _ (bare_is (bs "name") ltac:(discriminate) eq_refl) (between_is [120] eq_refl)
    (behind_comment [32] [34] ltac:(constructor; [now left|constructor]) ltac:(constructor; [lia|constructor])) K T) as D.
  match type of D with document ?x _ => replace (project_toml (sample [120; 34; 32; 35])) with x by (vm_compute; reflexivity) end. exact D.
Qed.
(** The old form of a launch table is rewritten wherever it is, in the project's name too. *)
Theorem C103_launch_refuted : exists a, forall lower severity_of kept parse fuel templates, reads_toml parse ->
  exists p, read_project lower severity_of kept parse fuel (settings_in (fst (execute templates true None a []))) = Done p /\
    full_name a = bs "[hemtt.launch]" /\ p_name p = bs "[hemtt.launch.default]".
Proof.
  exists (sample (bs "[hemtt.launch]")). intros lower severity_of kept parse fuel templates R. destruct (others_absent templates (sample (bs "[hemtt.launch]"))) as (H2 & H3).
  eexists. split; [eapply (read_table lower severity_of kept parse _ fuel _ (bs "[hemtt.launch.default]") (bs "Me") (bs "tst") (bs "x")); [apply toml_there|exact H2|exact H3| |discriminate]|split; reflexivity].
  replace (replace (bs "[hemtt.launch]") (bs "[hemtt.launch.default]") (project_toml (sample (bs "[hemtt.launch]")))) with (project_toml (sample (bs "[hemtt.launch.default]"))) by (vm_compute; reflexivity).
  apply R. apply project_document; apply between_is; reflexivity.
Qed.

(** ** A reader, so that the hypotheses can be met *)
Definition letter (c : N) : bool := (97 <=? c) && (c <=? 122).
Fixpoint take_letters (s : text) : text * text :=
  match s with [] => ([], []) | c :: r => if letter c then let (k, r') := take_letters r in (c :: k, r') else ([], s) end.
Fixpoint assoc (e : N) (l : list (N * N)) : option N := match l with [] => None | (x, c) :: l => if x =? e then Some c else assoc e l end.
Fixpoint take_value (s : text) : option (text * text) :=
  match s with
  | [] => None
  | c :: r =>
      if c =? 34 then Some ([], r)
      else if c =? 92 then match r with e :: r => match assoc e escapes, take_value r with Some x, Some (v, r) => Some (x :: v, r) | _, _ => None end | [] => None end
      else match take_value r with Some (v, r) => Some (c :: v, r) | None => None end
  end.
Fixpoint skip_line (s : text) : text := match s with [] => [] | c :: r => if c =? 10 then r else skip_line r end.
Fixpoint take_lines (fuel : nat) (s : text) : option (list (text * toml)) :=
  match fuel, s with
  | _, [] => Some []
  | O, _ => None
  | S fuel, _ =>
      let (k, r) := take_letters s in
      match take_value (skipn 4 r) with
      | None => None
      | Some (v, r) => match take_lines fuel (skip_line r) with Some t => Some ((k, TStr v) :: t) | None => None end
      end
  end.
Definition reader (s : text) := take_lines (List.length s) s.
Lemma letters_take k r : Forall (fun c => 97 <= c <= 122) k -> (match r with [] => True | c :: _ => letter c = false end) -> take_letters (k ++ r) = (k, r).
Proof.
  induction 1 as [|c k C _ IH]; intros R; cbn [app take_letters].
  - destruct r as [|x r]; [reflexivity|]. cbn [take_letters]. now rewrite R.
  - assert (E : letter c = true) by (unfold letter; apply andb_true_iff; split; apply N.leb_le; lia). rewrite E, IH by exact R. reflexivity.
Qed.
Lemma value_take w v r : between w v -> take_value (w ++ 34 :: r) = Some (v, r).
Proof.
  induction 1 as [|c w v I _ IH|e c w v I _ IH]; cbn [app take_value].
  - reflexivity.
  - destruct I as (_ & A & B & _). apply N.eqb_neq in A, B. rewrite A, B, IH. reflexivity.
  - change (92 =? 34) with false. change (92 =? 92) with true. cbv iota. rewrite IH. unfold escapes in I. cbn [In] in I.
    repeat (destruct I as [I|I]; [injection I as <- <-; reflexivity|]). destruct I.
Qed.
Lemma line_skip r s : behind r -> skip_line (r ++ 10 :: s) = s.
Proof.
  assert (G : forall r, Forall (fun c => c <> 10) r -> skip_line (r ++ 10 :: s) = s).
  { induction 1 as [|c q C _ IH]; [reflexivity|]. cbn [app skip_line]. apply N.eqb_neq in C. now rewrite C. }
  intros [b B|b c B C]; apply G.
  - eapply Forall_impl; [|exact B]. unfold blank. intros; lia.
  - apply Forall_app. split; [eapply Forall_impl; [|exact B]; unfold blank; intros; lia|]. constructor; [lia|]. eapply Forall_impl; [|exact C]. cbn. intros; lia.
Qed.
Lemma reader_reads : reads_toml reader.
Proof.
  intros s t D. unfold reader. assert (G : forall fuel, (List.length s <= fuel)%nat -> take_lines fuel s = Some t); [|now apply G].
  induction D as [|k w v r s t [NE B] W R _ D IH]; intros fuel L; [now destruct fuel|].
  destruct k as [|c k]; [contradiction|]. destruct fuel as [|fuel]; [cbn [app List.length] in L; lia|].
  assert (TL : take_letters ((c :: k) ++ bs " = " ++ [34] ++ w ++ [34] ++ r ++ [10] ++ s) = (c :: k, bs " = " ++ [34] ++ w ++ [34] ++ r ++ [10] ++ s)) by (apply letters_take; [exact B|reflexivity]).
  cbn [app take_lines]. cbn [app] in TL. rewrite TL.
  replace (skipn 4 (bs " = " ++ 34 :: w ++ 34 :: r ++ 10 :: s)) with (w ++ 34 :: r ++ 10 :: s) by reflexivity.
  rewrite (value_take _ _ _ W), (line_skip _ _ R), IH; [reflexivity|]. repeat (rewrite app_length in L; cbn [app List.length] in L). lia.
Qed.
Example C103_example : exists a, reads_toml reader /\ simple (full_name a) /\ simple (author a) /\ simple (prefix a) /\ simple (mainprefix a) /\ prefix a <> [] /\
  reader (project_toml a) = Some [(bs "name", TStr (bs "My Mod")); (bs "author", TStr (bs "Me")); (bs "prefix", TStr (bs "tst")); (bs "mainprefix", TStr (bs "x"))].
Proof.
  exists (sample (bs "My Mod")). split; [exact reader_reads|].
  assert (S : forall w, between w w -> ~ In 92 w -> ~ In 91 w -> simple w).
  { intros w B E X. split; [|exact (absent_first 91 _ w X)]. clear X. revert E. assert (G : forall u v, between u v -> ~ In 92 u -> Forall itself u).
    - induction 1 as [|c u v I _ IH|e c u v I _ IH]; intros E; [constructor|constructor; [exact I|apply IH; intros H; apply E; now right]|]. destruct E. now left.
    - now apply (G w w). }
  split; [|split; [|split; [|split; [|split]]]]; [| | | |discriminate|vm_compute; reflexivity];
    (apply S; [apply between_is; reflexivity|vm_compute; intuition discriminate|vm_compute; intuition discriminate]).
Qed.
Example C103_example_stopped : exists d', execute (fun _ => bs "Copyright (c) {YEAR} {AUTHOR}") true (Some (9%nat, 3%nat)) (Answers (bs "n") (bs "a") (bs "p") (bs "m") 5 (bs "2026")) [] = (d', Broken) /\
  at_ d' [bs "LICENSE"] = Some (File (bs "Cop")).
Proof. eexists. split; reflexivity. Qed.

Print Assumptions C103_reads_back.
Print Assumptions C103_folder.
Print Assumptions C103_refuses.
Print Assumptions C103_interrupted.
Print Assumptions C103_license.
Print Assumptions C103_license_refuted.
Print Assumptions C103_torn_refuted.
Print Assumptions C103_escape_refuted.
Print Assumptions C103_quote_refuted.
Print Assumptions C103_launch_refuted.
