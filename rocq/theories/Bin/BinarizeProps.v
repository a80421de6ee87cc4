(** C80: binarize is run for exactly the models, animations and terrains that want it; missing textures and
    materials are reported exactly. *)
From Coq Require Import String.
From Verif Require Import Base.Tactics Base.Bytes Base.Sort Base.Ascii Base.Text Bin.PackModel Bin.PackSpec Workspace.PathModel Bin.PackProofs.
From Verif Require Import Bin.PackModel Bin.BinarizeModel Bin.BinarizeSpec Bin.BinarizeProofs.
From Verif Require Workspace.PathSpec Workspace.PathProps.
Local Open Scope N_scope.
Local Open Scope list_scope.

Definition enumerates (order : list text -> list text) : Prop := forall ts t, In t (order ts) <-> In t ts.
Definition sel glob l := fun p : addon * entry => exists content, wanted glob l (fst p) (snd p) content.

(** The targets are the wanted files, in the order of the walk, with the folder they are read from and the one
    they are written to. *)
Theorem C80_targets : forall located order read_p3d glob tmp opt has_pdrive l s, enumerates order -> laid_out l ->
  check located order read_p3d glob tmp opt has_pdrive l = Done s ->
  exists ws, selected (sel glob l) (walk l) ws /\ s_targets s = map (fun p => target_for tmp (fst p) (snd p)) ws.
Proof.
  intros located order read_p3d glob tmp opt has_pdrive l s O L C.
  assert (A := addons_spec located order O read_p3d glob tmp opt l L l (State [] (if has_pdrive then [] else match opt with Require => [NoPDrive] | _ => [] end) []) (fun a I => I)).
  unfold check in C. rewrite C in A. destruct A as [(ws & W & T) _]. exists ws. split; [exact W|exact T].
Qed.
Print Assumptions C80_targets.

(** The binarized file is the file of the same path below hemtt_binarize_output, so no two files share one. *)
Theorem C80_results : forall tmp a e, t_output (target_for tmp a e) ++ bs "/" ++ t_entry (target_for tmp a e) = result_file tmp a e.
Proof.
  intros tmp a e. unfold target_for, result_file, root_path, parts. cbn [t_output t_entry]. change (bs "/") with [47].
  change (bs "/hemtt_binarize_output/") with (bs "/hemtt_binarize_output" ++ [47]). rewrite <- !app_assoc. do 3 f_equal.
  rewrite join_dirs. generalize (b_folder a) as f. induction (e_dirs e) as [|d ds IH]; intro f; [cbn [join flat_map]; reflexivity|].
  rewrite join_cons, <- !app_assoc. f_equal. f_equal. rewrite IH. cbn [flat_map]. change (bs "/") with [47]. now rewrite <- !app_assoc.
Qed.
Print Assumptions C80_results.
Theorem C80_separate : forall tmp a e a' e' fa fa', b_folder a = join (bs "/") fa -> b_folder a' = join (bs "/") fa' ->
  length fa = length fa' -> fa <> [] -> Forall folder_name (fa ++ parts e) -> Forall folder_name (fa' ++ parts e') ->
  result_file tmp a e = result_file tmp a' e' -> b_folder a = b_folder a' /\ e_dirs e = e_dirs e' /\ e_name e = e_name e'.
Proof.
  intros tmp a e a' e' fa fa' Fa Fa' Le NE N1 N2 E. unfold result_file, root_path in E. apply app_inv_head, app_inv_head, app_inv_head in E. rewrite Fa, Fa' in E.
  assert (J : forall x y : list text, x <> [] -> y <> [] -> join [47] x ++ [47] ++ join [47] y = join [47] (x ++ y)).
  { clear. induction x as [|n x IH]; intros y X Y; [congruence|]. destruct x as [|m x].
    - cbn [app]. destruct y; [congruence|]. rewrite join_cons. reflexivity.
    - cbn [app]. rewrite !join_cons, <- !app_assoc. f_equal. f_equal. apply (IH y); [discriminate|exact Y]. }
  assert (PN : forall x, parts x <> []) by (intro x; unfold parts; destruct (e_dirs x); discriminate).
  change (bs "/") with [47] in E. rewrite !J in E; auto; [|destruct fa'; [destruct fa; [congruence|discriminate]|discriminate]].
  assert (S : forall m, Forall folder_name m -> Forall (fun n => ~ In 47 n) m) by (intros m; apply Forall_impl; intros n (_ & H & _); exact H).
  apply join_inj in E; [|destruct fa; [congruence|discriminate]|destruct fa'; [destruct fa; [congruence|discriminate]|discriminate]|auto|auto].
  assert (fa = fa' /\ parts e = parts e') as [-> P].
  { apply (f_equal (firstn (length fa))) in E as E1. apply (f_equal (skipn (length fa))) in E as E2. rewrite skipn_here in E2. rewrite Le, skipn_here in E2.
    rewrite (firstn_app _ fa), firstn_all, Nat.sub_diag in E1. rewrite Le, firstn_app, firstn_all, Nat.sub_diag, !firstn_O, !app_nil_r in E1. auto. }
  unfold parts in P. apply app_inj_tail in P as [-> ->]. rewrite Fa, Fa'. auto.
Qed.
Print Assumptions C80_separate.

(** Binarize is run once per target, in [tmp], with the folder of the file below the addon's prefix, the folder
    below hemtt_binarize_output and the name; not without the tools and not in a check. Failures are exactly the
    files without a result. *)
Theorem C80_runs : forall located order read_p3d glob tmp opt has_pdrive l s command check_only succeeds written cmds failed,
  enumerates order -> laid_out l -> tmp <> [] ->
  (forall a, In a l -> Forall folder_name (b_prefix a) /\ b_prefix a <> [] /\ exists fa, fa <> [] /\ Forall folder_name fa /\ b_folder a = join (bs "/") fa) ->
  (forall t r, In t (s_targets s) -> t_source t <> tmp ++ tmp ++ r /\ t_output t <> tmp ++ tmp ++ r) ->
  check located order read_p3d glob tmp opt has_pdrive l = Done s ->
  pre_build tmp command check_only succeeds written (s_targets s) = Some (cmds, failed) ->
  (command = false \/ check_only = true -> cmds = [] /\ failed = []) /\
  (command = true -> check_only = false -> exists ws, selected (sel glob l) (walk l) ws /\
     cmds = map (fun p => [bs "-norecurse"; bs "-always"; bs "-silent"; bs "-maxProcesses=0";
                           flat_map (fun n => n ++ bs "\") (b_prefix (fst p) ++ e_dirs (snd p));
                           bs "hemtt_binarize_output\" ++ join (bs "\") (split_on 47 (b_folder (fst p)) ++ e_dirs (snd p));
                           e_name (snd p)]) ws /\
     forall n, In n failed <-> exists p, In p ws /\ n = e_name (snd p) /\ written (result_file tmp (fst p) (snd p)) = false).
Proof.
  intros located order read_p3d glob tmp opt has_pdrive l s command check_only succeeds written cmds failed O L NT FN NP C P.
  unfold pre_build in P. destruct (negb command || check_only) eqn:Off.
  { assert (cmds = [] /\ failed = []) as [-> ->] by (split; congruence). split; [auto|]. intros -> ->. discriminate Off. }
  apply orb_false_iff in Off as [Off1 Off2]. apply negb_false_iff in Off1. subst. split; [intros [K|K]; discriminate K|]. intros _ _.
  destruct (forallb succeeds (s_targets s)); [|discriminate P].
  destruct (C80_targets _ _ _ _ _ _ _ _ _ O L C) as (ws & W & T). exists ws. split; [exact W|].
  assert (IW : forall p, In p ws -> In (fst p) l /\ In (snd p) (b_tree (fst p))).
  { assert (forall p, In p ws -> In p (walk l)) as K by (clear -W; induction W; intros p I; [exact I|destruct I as [<-|I]; [now left|right; auto]|right; auto]).
    intros p I. apply K in I. unfold walk in I. apply in_flat_map in I as (a & Ia & I). apply in_map_iff in I as (e & <- & I). auto. }
  assert (Ec : cmds = map (arguments tmp) (s_targets s)) by congruence.
  assert (Ef : failed = flat_map (fun t => if written (t_output t ++ [47] ++ t_entry t) then [] else [t_entry t]) (s_targets s)) by congruence.
  clear P C W. split.
  - rewrite Ec, T, map_map. apply map_ext_in. intros (a, e) I. cbn [fst snd]. destruct (IW _ I) as [Ia Ie]. cbn [fst snd] in Ia, Ie.
    assert (IT : In (target_for tmp a e) (s_targets s)) by (rewrite T; apply in_map_iff; exists (a, e); auto).
    destruct (FN a Ia) as (FP & NE & fa & NF & FF & Ea).
    assert (Lo := proj1 (Forall_forall _ _) L a Ia). destruct Lo as [(c0 & r0 & Fo & C0) Pa]. assert (Pe := proj1 (Forall_forall _ _) Pa e Ie). cbv beta in Pe.
    assert (Pd : Forall folder_name (e_dirs e)).
    { unfold parts in Pe. apply Forall_app in Pe as [Pe _]. eapply Forall_impl; [|exact Pe]. intros n (H1 & H2 & H3 & _). split; auto. }
    assert (B : forall n, ~ In 47 n -> backslashes n = n) by exact norm_no_slash.
    assert (BA : forall x y, backslashes (x ++ y) = backslashes x ++ backslashes y) by exact norm_app.
    assert (R : forall rest c r, (forall q, tmp ++ bs "/" ++ rest <> tmp ++ tmp ++ q) -> rest = c :: r -> c <> 47 -> c <> 92 -> relative tmp (tmp ++ bs "/" ++ rest) = backslashes rest).
    { intros rest c r Q E1 E2 E3. unfold relative. rewrite trim_start_once; [|exact NT|].
      - change (bs "/" ++ rest) with (47 :: rest). cbn [trim_slashes]. rewrite N.eqb_refl, E1, trim_slashes_id by exact E2.
        cbn [trim_backslashes]. apply N.eqb_neq in E3. rewrite E3. reflexivity.
      - destruct (starts_with tmp (bs "/" ++ rest)) eqn:S; [|reflexivity]. apply starts_with_spec in S as (q & S). destruct (Q q). now rewrite S. }
    assert (BJ : forall x, Forall folder_name x -> backslashes (flat_map (fun d => d ++ bs "/") x) = flat_map (fun d => d ++ bs "\") x).
    { clear -B BA. induction x as [|n x IH]; intro F; [reflexivity|]. inversion F as [|? ? (H1 & H2 & H3) F']; subst. cbn [flat_map]. rewrite !BA, IH, B by auto. reflexivity. }
    unfold arguments, target_for. cbn [t_source t_output t_entry]. do 4 f_equal. f_equal; [|f_equal; [|f_equal]].
    + assert (J : join (bs "/") (b_prefix a) ++ bs "/" = flat_map (fun d => d ++ bs "/") (b_prefix a)).
      { clear -NE. induction (b_prefix a) as [|x p IH]; [congruence|]. destruct p as [|y p]; [cbn [join flat_map]; now rewrite app_nil_r|].
        rewrite join_cons. cbn [flat_map]. cbn [flat_map] in IH. rewrite <- !app_assoc. do 2 f_equal. rewrite IH by discriminate. now rewrite <- !app_assoc. }
      assert (J' : join (bs "/") (b_prefix a) ++ bs "/" ++ flat_map (fun d => d ++ bs "/") (e_dirs e) = flat_map (fun d => d ++ bs "/") (b_prefix a ++ e_dirs e)).
      { rewrite flat_map_app, <- J, <- app_assoc. reflexivity. }
      destruct (b_prefix a) as [|n pr] eqn:EP; [congruence|]. inversion FP as [|? ? (H1 & H2 & H3) F']; subst. destruct n as [|c n]; [congruence|].
      rewrite (R _ c (n ++ bs "/" ++ flat_map (fun d => d ++ bs "/") (pr ++ e_dirs e))).
      * rewrite J'. apply BJ. apply Forall_app. split; auto.
      * intro q. destruct (NP _ q IT) as [K _]. unfold target_for in K. cbn [t_source] in K. rewrite EP in K. exact K.
      * rewrite J'. cbn [app flat_map]. rewrite <- !app_assoc. reflexivity.
      * intros ->. apply H2. now left.
      * intros ->. apply H3. now left.
    + change (bs "/hemtt_binarize_output/") with (bs "/" ++ bs "hemtt_binarize_output/"). rewrite <- app_assoc. rewrite (R _ 104 (bs "emtt_binarize_output/" ++ join (bs "/") (b_folder a :: e_dirs e))); [|intro q; destruct (NP _ q IT) as [_ K]; unfold target_for in K; cbn [t_output] in K; change (bs "/hemtt_binarize_output/") with (bs "/" ++ bs "hemtt_binarize_output/") in K; rewrite <- app_assoc in K; exact K|reflexivity|discriminate|discriminate].
      rewrite BA. f_equal. assert (SF : split_on 47 (b_folder a) = fa).
      { rewrite Ea. clear -NF FF. induction fa as [|n fa IH]; [congruence|]. inversion FF as [|? ? (H1 & H2 & H3) F']; subst. destruct fa as [|m fa].
        - cbn [join]. now apply split_on_none.
        - rewrite join_cons. change (bs "/") with [47]. cbn [app]. rewrite split_on_app by exact H2. f_equal. apply IH; [discriminate|exact F']. }
      rewrite SF, Ea. assert (JJ : join (bs "/") (join (bs "/") fa :: e_dirs e) = join [47] (fa ++ e_dirs e)).
      { clear -NF. change (bs "/") with [47]. induction fa as [|n fa IH]; [congruence|]. destruct fa as [|m fa]; [reflexivity|].
        specialize (IH ltac:(discriminate)). cbn [app] in IH |- *. rewrite (join_cons [47] n m fa), (join_cons [47] n m (fa ++ e_dirs e)), <- IH. destruct (e_dirs e) as [|d ds]; [reflexivity|].
        rewrite (join_cons [47] (n ++ [47] ++ join [47] (m :: fa)) d ds), (join_cons [47] (join [47] (m :: fa)) d ds). now rewrite <- !app_assoc. }
      rewrite JJ. apply norm_join. apply Forall_app. split; (eapply Forall_impl; [|eassumption]); intros n (_ & H & _); exact H.
    + apply B. unfold parts in Pe. apply Forall_app in Pe as [_ Pe]. inversion Pe as [|? ? (_ & H & _) _]; subst. exact H.
  - intro n. rewrite Ef, T, in_flat_map. split.
    + intros (t & I & H). apply in_map_iff in I as ((a, e) & <- & I). exists (a, e). split; [exact I|]. cbn [fst snd] in H |- *. change [47] with (bs "/") in H. rewrite C80_results in H.
      destruct (written (result_file tmp a e)); [destruct H|]. destruct H as [<-|[]]. auto.
    + intros ((a, e) & I & -> & H). cbn [fst snd] in H |- *. exists (target_for tmp a e). split; [apply in_map_iff; exists (a, e); auto|]. change [47] with (bs "/"). rewrite C80_results, H. now left.
Qed.
Print Assumptions C80_runs.

(** What is reported. *)
Section Reports.
  Context (located : text -> option bool) (glob : bytes -> option (bytes -> bool)) (read_p3d : bytes -> option (list (text * text))) (l : list addon).
  Notation model := (model glob read_p3d l).
  (** No texture path has its extension elsewhere in it. *)
  Definition plain_textures : Prop := forall a e faces k, model a e faces -> uses_texture faces k -> plain_texture k.
  (** No path is a texture here and a material there while only the converted texture exists. *)
  Definition no_clash : Prop := forall a e faces a' e' faces' k, model a e faces -> model a' e' faces' -> uses_texture faces k -> uses_material faces' k ->
    located k = Some false -> forall o, alternative k o -> located o = Some false.

  Lemma verdict_missing k : plain_texture k -> verdict located k = Some false <-> texture_missing located k.
  Proof.
    intro P. unfold verdict, texture_missing. destruct (located k) as [[|]|]; [split; [discriminate|intros [K _]; discriminate K]| |split; [discriminate|intros [K _]; discriminate K]].
    assert (O := other_spec k P). destruct (other k) as [o|].
    - split; [intro H; split; [reflexivity|]; intros o' A; apply O in A; congruence|]. intros [_ H]. apply H, O. reflexivity.
    - split; [|reflexivity]. intros _. split; [reflexivity|]. intros o A. apply O in A. discriminate A.
  Qed.
  Lemma verdict_none k : plain_texture k -> verdict located k = None -> located k = None \/ exists o, alternative k o /\ located o = None.
  Proof.
    intros P. unfold verdict. destruct (located k) as [[|]|]; [discriminate| |now left].
    assert (O := other_spec k P). destruct (other k) as [o|]; [|discriminate]. intro H. right. exists o. split; [now apply O|exact H].
  Qed.
  Lemma no_clash_agreeing : plain_textures -> no_clash -> agreeing located read_p3d glob l.
  Proof.
    intros P NC k (a & e & f & M & U) (a' & e' & f' & M' & U'). assert (Pk := P _ _ _ _ M U). unfold verdict.
    destruct (located k) as [[|]|] eqn:L; [reflexivity| |reflexivity]. assert (O := other_spec k Pk). destruct (other k) as [o|]; [|reflexivity].
    apply (NC _ _ _ _ _ _ _ M M' U U' L). now apply O.
  Qed.

  Theorem C80_reported : forall order tmp opt has_pdrive s, enumerates order -> laid_out l -> plain_textures -> no_clash ->
    check located order read_p3d glob tmp opt has_pdrive l = Done s ->
    (In NoPDrive (s_report s) <-> has_pdrive = false /\ opt = Require) /\
    (forall file ms w, In (NoTextures file ms w) (s_report s) -> exists a e faces, model a e faces /\ file = root_path a e /\ (w = true <-> opt = Ignore) /\
       ms <> [] /\ forall k, In k ms <-> uses_texture faces k /\ texture_missing located k) /\
    (forall file ms w, In (NoMaterials file ms w) (s_report s) -> exists a e faces, model a e faces /\ file = root_path a e /\ (w = true <-> opt = Ignore) /\
       ms <> [] /\ forall k, In k ms <-> uses_material faces k /\ material_missing located k) /\
    (forall a e faces k, model a e faces -> uses_texture faces k -> texture_missing located k ->
       exists ms w, In (NoTextures (root_path a e) ms w) (s_report s) /\ In k ms) /\
    (forall a e faces k, model a e faces -> uses_material faces k -> material_missing located k ->
       exists ms w, In (NoMaterials (root_path a e) ms w) (s_report s) /\ In k ms).
  Proof.
    intros order tmp opt has_pdrive s O L PT NC C. assert (Ag := no_clash_agreeing PT NC).
    set (first := if has_pdrive then [] else match opt with Require => [NoPDrive] | _ => [] end).
    assert (A := addons_spec located order O read_p3d glob tmp opt l L l (State [] first []) (fun a I => I)).
    unfold check in C. fold first in C. rewrite C in A. destruct A as [_ A]. destruct (A Ag (good_nil _ _ _)) as (_ & msgs & E & S & K). cbn [s_report] in E.
    assert (F : forall m, In m first <-> m = NoPDrive /\ has_pdrive = false /\ opt = Require).
    { intro m. unfold first. destruct has_pdrive; [split; [intros []|intros (_ & K' & _); discriminate K']|]. destruct opt; try (split; [intros []|intros (_ & _ & K'); discriminate K']).
      split; [intros [<-|[]]; auto|intros (-> & _); now left]. }
    assert (Wn : warn opt = true <-> opt = Ignore) by (unfold warn; destruct opt; split; congruence).
    assert (RP : forall a e, as_str (b_folder a) e = root_path a e) by reflexivity.
    assert (IW : forall a e faces, model a e faces -> In (a, e) (walk l)).
    { intros a e faces (c & ((Ia & Ie & _) & _) & _). apply in_flat_map. exists a. split; [exact Ia|]. now apply in_map. }
    rewrite E. split; [|split; [|split; [|split]]].
    - rewrite in_app_iff, F. split; [|intro; left; auto]. intros [(_ & H)|I]; [exact H|]. destruct (S _ I) as (a & e & _ & f & _ & [(ms & Q & _)|(ms & Q & _)]); discriminate Q.
    - intros file ms w I. apply in_app_iff in I as [I|I]; [apply F in I as [Q _]; discriminate Q|]. destruct (S _ I) as (a & e & _ & f & M & [(ms' & Q & NE & H)|(ms' & Q & _)]); [|discriminate Q].
      injection Q as -> -> ->. exists a, e, f. rewrite RP. split; [exact M|]. split; [reflexivity|]. split; [exact Wn|]. split; [exact NE|]. intro k. rewrite H.
      split; intros [U V]; (split; [exact U|]); apply (verdict_missing k (PT _ _ _ _ M U)); exact V.
    - intros file ms w I. apply in_app_iff in I as [I|I]; [apply F in I as [Q _]; discriminate Q|]. destruct (S _ I) as (a & e & _ & f & M & [(ms' & Q & _)|(ms' & Q & NE & H)]); [discriminate Q|].
      injection Q as -> -> ->. exists a, e, f. rewrite RP. split; [exact M|]. split; [reflexivity|]. split; [exact Wn|]. split; [exact NE|]. exact H.
    - intros a e faces k M U V. destruct (K a e faces (IW _ _ _ M) M) as [KT _]. destruct (KT k U) as (ms & I & J); [apply (verdict_missing k (PT _ _ _ _ M U)); exact V|].
      rewrite RP in J. exists ms, (warn opt). split; [apply in_app_iff; now right|exact I].
    - intros a e faces k M U V. destruct (K a e faces (IW _ _ _ M) M) as [_ KM]. destruct (KM k U V) as (ms & I & J).
      rewrite RP in J. exists ms, (warn opt). split; [apply in_app_iff; now right|exact I].
  Qed.

  (** The check gives up only over a file that is too short or unreadable, a pattern that is not one, or a path
      that cannot be looked up. *)
  Theorem C80_gives_up : forall order tmp opt has_pdrive, enumerates order -> laid_out l -> plain_textures -> no_clash ->
    (check located order read_p3d glob tmp opt has_pdrive l = Panics ->
       exists a e content, candidate glob l a e content /\ ((length content < 4)%nat \/ is_mlod content /\ read_p3d content = None)) /\
    (check located order read_p3d glob tmp opt has_pdrive l = Fails ->
       (exists a on exclude p, In a l /\ b_config a = Some (on, exclude) /\ In p exclude /\ glob p = None) \/
       exists a e faces k o, model a e faces /\ (uses_texture faces k /\ (o = k \/ alternative k o) \/ uses_material faces k /\ o = k) /\ located o = None).
  Proof.
    intros order tmp opt has_pdrive O L PT NC. assert (Ag := no_clash_agreeing PT NC).
    set (first := if has_pdrive then [] else match opt with Require => [NoPDrive] | _ => [] end).
    assert (A := addons_spec located order O read_p3d glob tmp opt l L l (State [] first []) (fun a I => I)).
    unfold check. fold first. split; intro C; rewrite C in A.
    - exact A.
    - destruct A as [A|A]; [left; exact A|right]. destruct (A Ag (good_nil _ _ _)) as (k & [((a & e & f & M & U) & V)|((a & e & f & M & U) & V)]).
      + destruct (verdict_none k (PT _ _ _ _ M U) V) as [H|(o & Al & H)]; [exists a, e, f, k, k|exists a, e, f, k, o]; auto 6.
      + exists a, e, f, k, k. auto 6.
  Qed.
End Reports.
Print Assumptions C80_reported.
Print Assumptions C80_gives_up.

(** ** Examples *)
Definition mlod : bytes := bs "MLODx".
Definition ex_tree : list entry :=
  [Entry [bs "data"] (bs "a.p3d") (Some mlod); Entry [bs "data"] (bs "b.p3d") (Some (bs "ODOLx")); Entry [] (bs "c.rtm") (Some (bs "RTM_0101"));
   Entry [bs "data"] (bs "a.paa") (Some (bs "x")); Entry [bs "old"] (bs "d.p3d") (Some mlod); Entry [] (bs "data") None].
Definition ex_l : list addon := [Addon (bs "addons/main") [bs "z"; bs "test"; bs "main"] (Some (true, [bs "old/d.p3d"])) ex_tree;
  Addon (bs "addons/off") [bs "z"; bs "test"; bs "off"] (Some (false, [])) ex_tree].
Definition ex_glob (p : bytes) : option (bytes -> bool) := Some (eqb_bytes p).
Definition ex_faces : list (text * text) := [(bs "z\test\main\data\a.paa", bs "z\test\main\a.rvmat"); (bs "#(argb,8,8,3)color(1,0,0,1)", []); (bs "\z\test\main\data\b.paa", []); (bs "z\gone.paa", [])].
Definition ex_read (b : bytes) : option (list (text * text)) := Some ex_faces.
Definition ex_located (t : text) : option bool := Some (existsb (eqb_bytes t) [bs "\z\test\main\data\a.paa"; bs "\z\test\main\data\b.tga"]).
Example ex_check : check ex_located (fun l => l) ex_read ex_glob (bs "/tmp/hemtt") Ignore false ex_l =
  Done (State [(bs "\z\test\main\a.rvmat", false); (bs "\z\gone.paa", false); (bs "\z\test\main\data\b.paa", true); (bs "\z\test\main\data\a.paa", true)]
    [NoTextures (bs "/addons/main/data/a.p3d") [bs "\z\gone.paa"] true; NoMaterials (bs "/addons/main/data/a.p3d") [bs "\z\test\main\a.rvmat"] true]
    [Target (bs "/tmp/hemtt/z/test/main/data/") (bs "/tmp/hemtt/hemtt_binarize_output/addons/main/data") (bs "a.p3d");
     Target (bs "/tmp/hemtt/z/test/main/") (bs "/tmp/hemtt/hemtt_binarize_output/addons/main") (bs "c.rtm")]).
Proof. vm_compute. reflexivity. Qed.
Example ex_arguments : arguments (bs "/tmp/hemtt") (Target (bs "/tmp/hemtt/z/test/main/data/") (bs "/tmp/hemtt/hemtt_binarize_output/addons/main/data") (bs "a.p3d")) =
  [bs "-norecurse"; bs "-always"; bs "-silent"; bs "-maxProcesses=0"; bs "z\test\main\data\"; bs "hemtt_binarize_output\addons\main\data"; bs "a.p3d"].
Proof. vm_compute. reflexivity. Qed.
Example ex_laid_out : laid_out ex_l.
Proof.
  assert (T : Forall (fun e => Forall name_ok (parts e)) ex_tree).
  { repeat constructor; try (cbn; lia); try discriminate; intros K; cbn in K; repeat (destruct K as [K|K]; [discriminate K|]); exact K. }
  constructor; [|constructor; [|constructor]]; (split; [eexists; eexists; split; [reflexivity|discriminate]|exact T]).
Qed.

(** ** Where it goes wrong *)
Definition one (name : text) (content : bytes) : list addon := [Addon (bs "addons/a") [bs "a"] None [Entry [] name (Some content)]].
Definition yes (t : text) : option bool := Some true.
Definition none (b : bytes) : option (list (text * text)) := Some [].

(** A model whose extension is in upper case is not binarized. *)
Theorem C80_extension_case_refuted : ~ (forall located order read_p3d glob tmp opt has_pdrive l s a e content, enumerates order -> laid_out l ->
  check located order read_p3d glob tmp opt has_pdrive l = Done s -> In a l -> In e (b_tree a) -> b_config a = None -> e_content e = Some content ->
  has_extension [bs "rtm"; bs "p3d"; bs "wrp"] (ascii_lower (e_name e)) -> ~ already_binarized content ->
  In (target_for tmp a e) (s_targets s)).
Proof.
  intro H. destruct (H yes (fun x => x) none ex_glob (bs "/t") Ignore false (one (bs "A.P3D") mlod) (State [] [] [])
    (Addon (bs "addons/a") [bs "a"] None [Entry [] (bs "A.P3D") (Some mlod)]) (Entry [] (bs "A.P3D") (Some mlod)) mlod).
  - intros ts t. reflexivity.
  - constructor; [|constructor]. split; [eexists; eexists; split; [reflexivity|discriminate]|]. repeat constructor; try (cbn; lia); try discriminate; intros K; cbn in K; repeat (destruct K as [K|K]; [discriminate K|]); exact K.
  - reflexivity.
  - now left.
  - now left.
  - reflexivity.
  - reflexivity.
  - exists (bs "a"), (bs "p3d"). split; [reflexivity|]. split; [discriminate|right; now left].
  - intros (m & r & [<-|[<-|[<-|[]]]] & K); discriminate K.
Qed.
Print Assumptions C80_extension_case_refuted.

(** A file of less than four bytes ends the build with a panic, although everything can be read. *)
Theorem C80_short_refuted : ~ (forall located order read_p3d glob tmp opt has_pdrive l, enumerates order -> laid_out l ->
  (forall t, located t <> None) -> (forall b, read_p3d b <> None) -> (forall p, glob p <> None) ->
  check located order read_p3d glob tmp opt has_pdrive l <> Panics).
Proof.
  intro H. apply (H yes (fun x => x) none ex_glob (bs "/t") Ignore false (one (bs "a.rtm") [])); try discriminate.
  - intros ts t. reflexivity.
  - constructor; [|constructor]. split; [eexists; eexists; split; [reflexivity|discriminate]|]. repeat constructor; try (cbn; lia); try discriminate; intros K; cbn in K; repeat (destruct K as [K|K]; [discriminate K|]); exact K.
  - reflexivity.
Qed.
Print Assumptions C80_short_refuted.

(** A texture or material named without a leading slash is there exactly if the workspace has it from the root; one
    named with a leading slash is there if the workspace has it (the other places it is looked for are C79's). *)
Theorem C80_located : forall w t v, let s := PathModel.slashes t in PathSpec.leads [] s v ->
  (~ PathSpec.absolute s -> located_in w t = Some (exists_ w v)) /\
  (PathSpec.absolute s -> PathSpec.no_pdrive w s -> exists_ w v = true -> located_in w t = Some true).
Proof.
  intros w t v s L. split.
  - intro A. destruct (PathProps.C79_relative w [] t A) as [K _]. specialize (K v L). unfold located_in. rewrite K. now destruct (exists_ w v).
  - intros A NP E. unfold located_in. now rewrite (PathProps.C79_workspace w [] t v A NP L E).
Qed.
Print Assumptions C80_located.

(** A texture path that ends in a backslash ends the build with an error. *)
Theorem C80_trailing_refuted : ~ (forall w order read_p3d glob tmp opt has_pdrive l, enumerates order -> laid_out l ->
  (forall b, read_p3d b <> None) -> (forall p, glob p <> None) ->
  check (located_in w) order read_p3d glob tmp opt has_pdrive l <> Fails).
Proof.
  intro H. apply (H (Workspace (fun _ => false) [] None (fun _ => None) (fun _ => false)) (fun x => x) (fun _ => Some [(bs "z\data\", [])]) ex_glob (bs "/t") Ignore false (one (bs "a.p3d") mlod)); try discriminate.
  - intros ts t. reflexivity.
  - constructor; [|constructor]. split; [eexists; eexists; split; [reflexivity|discriminate]|]. repeat constructor; try (cbn; lia); try discriminate; intros K; cbn in K; repeat (destruct K as [K|K]; [discriminate K|]); exact K.
  - vm_compute. reflexivity.
Qed.
Print Assumptions C80_trailing_refuted.

Lemma one_model name content faces : has_extension [bs "rtm"; bs "p3d"; bs "wrp"] name -> is_mlod content ->
  model ex_glob (fun _ => Some faces) (one name content) (Addon (bs "addons/a") [bs "a"] None [Entry [] name (Some content)]) (Entry [] name (Some content)) faces.
Proof.
  intros X M. exists content. split; [|auto]. split.
  - split; [now left|]. split; [now left|]. split; [reflexivity|]. split; [exact X|]. intros on ex K. discriminate K.
  - destruct M as (r & ->). intros (m & q & [<-|[<-|[<-|[]]]] & K); discriminate K.
Qed.
(** A material of the same path as a texture is not reported if the texture can be made from another file. *)
Theorem C80_clash_refuted : ~ (forall located order read_p3d glob tmp opt has_pdrive l s a e faces k, enumerates order -> laid_out l -> plain_textures glob read_p3d l ->
  check located order read_p3d glob tmp opt has_pdrive l = Done s -> model glob read_p3d l a e faces -> uses_material faces k -> material_missing located k ->
  exists ms w, In (NoMaterials (root_path a e) ms w) (s_report s) /\ In k ms).
Proof.
  intro H. set (faces := [(bs "\x.paa", bs "\x.paa")]). set (located := fun t => Some (eqb_bytes t (bs "\x.tga"))).
  assert (X : has_extension [bs "rtm"; bs "p3d"; bs "wrp"] (bs "a.p3d")) by (exists (bs "a"), (bs "p3d"); split; [reflexivity|]; split; [discriminate|right; now left]).
  assert (M := one_model (bs "a.p3d") mlod faces X ltac:(exists (bs "x"); reflexivity)).
  destruct (H located (fun x => x) (fun _ => Some faces) ex_glob (bs "/t") Ignore false (one (bs "a.p3d") mlod)
    (State [(bs "\x.paa", true)] [] [Target (bs "/t/a/") (bs "/t/hemtt_binarize_output/addons/a") (bs "a.p3d")])
    (Addon (bs "addons/a") [bs "a"] None [Entry [] (bs "a.p3d") (Some mlod)]) (Entry [] (bs "a.p3d") (Some mlod)) faces (bs "\x.paa")) as (ms & w & [] & _).
  - intros ts t. reflexivity.
  - constructor; [|constructor]. split; [eexists; eexists; split; [reflexivity|discriminate]|]. repeat constructor; try (cbn; lia); try discriminate; intros K; cbn in K; repeat (destruct K as [K|K]; [discriminate K|]); exact K.
  - intros a e f k (c & _ & _ & R) (x & m & I & _ & _ & Fr). injection R as <-. destruct I as [I|[]]. injection I as <- <-. destruct Fr as [[-> _]|[_ K]]; [|destruct K; now exists (bs "x.paa")].
    intros p q u n b I E1 E2. destruct I as [I|[I|[I|[]]]]; injection I as <- <-.
    + destruct u as [|? [|? [|? u]]]; [discriminate E2|discriminate E2| |].
      * injection E2 as _ _ E2. congruence.
      * apply (f_equal (@length N)) in E2. rewrite !app_length in E2. cbn in E2. lia.
    + apply (f_equal (@rev N)) in E1. rewrite rev_app_distr in E1. discriminate E1.
    + apply (f_equal (@rev N)) in E1. rewrite rev_app_distr in E1. discriminate E1.
  - vm_compute. reflexivity.
  - exact M.
  - exists (bs "\x.paa"), (bs "\x.paa"). split; [now left|]. split; [discriminate|]. left. split; [reflexivity|]. now exists (bs "x.paa").
  - reflexivity.
Qed.
Print Assumptions C80_clash_refuted.

(** A texture in a folder with .paa in its name is reported although it can be made from the .tga beside it. *)
Theorem C80_folder_refuted : ~ (forall located order read_p3d glob tmp opt has_pdrive l s file ms w, enumerates order -> laid_out l -> no_clash located glob read_p3d l ->
  check located order read_p3d glob tmp opt has_pdrive l = Done s -> In (NoTextures file ms w) (s_report s) -> forall k, In k ms -> texture_missing located k).
Proof.
  intro H. set (faces := [(bs "\x.paa.d\y.paa", [] : text)]). set (located := fun t => Some (eqb_bytes t (bs "\x.paa.d\y.tga"))).
  destruct (H located (fun x => x) (fun _ => Some faces) ex_glob (bs "/t") Ignore false (one (bs "a.p3d") mlod)
    (State [(bs "\x.paa.d\y.paa", false)] [NoTextures (bs "/addons/a/a.p3d") [bs "\x.paa.d\y.paa"] true] [Target (bs "/t/a/") (bs "/t/hemtt_binarize_output/addons/a") (bs "a.p3d")])
    (bs "/addons/a/a.p3d") [bs "\x.paa.d\y.paa"] true) with (k := bs "\x.paa.d\y.paa") as [_ K].
  - intros ts t. reflexivity.
  - constructor; [|constructor]. split; [eexists; eexists; split; [reflexivity|discriminate]|]. repeat constructor; try (cbn; lia); try discriminate; intros K; cbn in K; repeat (destruct K as [K|K]; [discriminate K|]); exact K.
  - intros a e f a' e' f' k _ (c & _ & _ & R) _ (x & m & I & NE & _). injection R as <-. destruct I as [I|[]]. injection I as <- <-. now destruct NE.
  - vm_compute. reflexivity.
  - now left.
  - now left.
  - specialize (K (bs "\x.paa.d\y.tga")). discriminate K. exists (bs "\x.paa.d\y"), (bs ".paa"), (bs ".tga"). split; [now left|split; reflexivity].
Qed.
Print Assumptions C80_folder_refuted.
(** The hypotheses of C80_reported and C80_gives_up are met by a model with a texture that has only its .tga and
    a material that is missing. *)
Definition few : list (text * text) := [(bs "\x.paa", bs "\x.rvmat")].
Definition only_tga (t : text) : option bool := Some (eqb_bytes t (bs "\x.tga")).
Example ex_hypotheses : laid_out (one (bs "a.p3d") mlod) /\ plain_textures ex_glob (fun _ => Some few) (one (bs "a.p3d") mlod) /\
  no_clash only_tga ex_glob (fun _ => Some few) (one (bs "a.p3d") mlod) /\
  check only_tga (fun x => x) (fun _ => Some few) ex_glob (bs "/t") Require false (one (bs "a.p3d") mlod) =
    Done (State [(bs "\x.rvmat", false); (bs "\x.paa", true)] [NoPDrive; NoMaterials (bs "/addons/a/a.p3d") [bs "\x.rvmat"] false]
      [Target (bs "/t/a/") (bs "/t/hemtt_binarize_output/addons/a") (bs "a.p3d")]).
Proof.
  split; [|split; [|split]].
  - constructor; [|constructor]. split; [eexists; eexists; split; [reflexivity|discriminate]|]. repeat constructor; try (cbn; lia); try discriminate; intros K; cbn in K; repeat (destruct K as [K|K]; [discriminate K|]); exact K.
  - intros a e f k (c & _ & _ & R) (x & m & I & _ & _ & Fr). injection R as <-. destruct I as [I|[]]. injection I as <- <-. destruct Fr as [[-> _]|[_ K]]; [|destruct K; now exists (bs "x.paa")].
    intros p q u n b I E1 E2. destruct I as [I|[I|[I|[]]]]; injection I as <- <-.
    + destruct u as [|? [|? [|? u]]]; [discriminate E2|discriminate E2| |].
      * injection E2 as _ _ E2. congruence.
      * apply (f_equal (@length N)) in E2. rewrite !app_length in E2. cbn in E2. lia.
    + apply (f_equal (@rev N)) in E1. rewrite rev_app_distr in E1. discriminate E1.
    + apply (f_equal (@rev N)) in E1. rewrite rev_app_distr in E1. discriminate E1.
  - intros a e f a' e' f' k (c & _ & _ & R) (c' & _ & _ & R') (x & m & I & _ & _ & Fr) (x' & m' & I' & _ & Fr'). injection R as <-. injection R' as <-.
    destruct I as [I|[]]. injection I as <- <-. destruct I' as [I'|[]]. injection I' as <- <-. destruct Fr as [[-> _]|[_ K]]; [|destruct K; now exists (bs "x.paa")].
    destruct Fr' as [[K _]|[K _]]; discriminate K.
  - vm_compute. reflexivity.
Qed.
