(** C96: a photoshoot is for the missing pictures that the configs name, and takes them. *)
From Coq Require Import String Permutation.
From Verif Require Import Base.Tactics Base.Bytes Base.Sort Base.Ascii Base.Text.
From Verif Require Config.RapModel Workspace.PathModel Bin.PackModel.
From Verif Require Import Shoot.ShootModel Shoot.ShootSpec Shoot.ShootProps Shoot.PictureModel Shoot.PictureSpec.
Import RapModel.
Local Open Scope N_scope.
Local Open Scope list_scope.

(** ** Paths *)
Lemma trims_from : forall fuel p s, p <> [] -> (length s <= fuel)%nat -> exists k, s = times k p ++ PackModel.trim_start_matches fuel p s /\ starts_with p (PackModel.trim_start_matches fuel p s) = false.
Proof.
  induction fuel as [|fuel IH]; intros p s NE L; cbn [PackModel.trim_start_matches].
  - exists O. split; [reflexivity|]. destruct s; [|cbn [length] in L; lia]. destruct p; [congruence|reflexivity].
  - destruct (starts_with p s) eqn:E; [|exists O; auto]. apply starts_with_spec in E as (r & ->). rewrite skipn_app, skipn_all, Nat.sub_diag. cbn [app skipn].
    destruct (IH p r NE) as (k & E & N0).
    { rewrite app_length in L. destruct p; [congruence|]. cbn [length] in L. lia. }
    exists (S k). split; [|exact N0]. unfold times in *. cbn [repeat concat]. rewrite <- app_assoc, <- E. reflexivity.
Qed.
Lemma trims_more : forall k fuel p s, p <> [] -> starts_with p s = false -> (k <= fuel)%nat -> PackModel.trim_start_matches fuel p (times k p ++ s) = s.
Proof.
  unfold times. induction k as [|k IH]; intros fuel p s NE N0 L.
  - cbn [repeat concat app]. destruct fuel as [|fuel]; [reflexivity|]. cbn [PackModel.trim_start_matches]. now rewrite N0.
  - destruct fuel as [|fuel]; [lia|]. cbn [repeat concat PackModel.trim_start_matches]. rewrite <- app_assoc.
    assert (starts_with p (p ++ concat (repeat p k) ++ s) = true) as -> by (apply starts_with_spec; eauto). rewrite skipn_app, skipn_all, Nat.sub_diag. cbn [app skipn]. apply IH; auto. lia.
Qed.
Lemma times_length k p : p <> [] -> (k <= length (times k p))%nat.
Proof. intros NE. unfold times. induction k as [|k IH]; [lia|]. cbn [repeat concat]. rewrite app_length. destruct p; [congruence|]. cbn [length]. lia. Qed.
Lemma trims_is p s r : p <> [] -> trims p s = r <-> exists k, s = times k p ++ r /\ apart p r.
Proof.
  intros NE. unfold trims. assert (A : forall r, starts_with p r = false <-> apart p r).
  { clear r. intros r. split.
    - intros F x ->. assert (starts_with p (p ++ x) = true) by (apply starts_with_spec; eauto). congruence.
    - intros Ap. destruct (starts_with p r) eqn:E; [|reflexivity]. apply starts_with_spec in E as (x & ->). now destruct (Ap x). }
  split.
  - intros <-. destruct (trims_from (length s) p s NE (Nat.le_refl _)) as (k & E & N0). exists k. split; [exact E|now apply A].
  - intros (k & -> & Ap). apply trims_more; [exact NE|now apply A|]. rewrite app_length. pose proof (times_length k p NE). lia.
Qed.
Lemma starts_with_times p s r k : apart p r -> s = times k p ++ r -> starts_with p s = true -> exists k', k = S k'.
Proof. intros Ap -> S. destruct k as [|k]; [|eauto]. cbn [times repeat concat app] in S. unfold times in S. cbn in S. apply starts_with_spec in S as (x & ->). now destruct (Ap x). Qed.
Lemma times_starts k p s : starts_with p (times (S k) p ++ s) = true.
Proof. apply starts_with_spec. exists (times k p ++ s). unfold times. cbn [repeat concat]. now rewrite <- app_assoc. Qed.

Lemma inside_spec main prefix p rel : prefix <> [] -> inside main prefix p = Some rel <-> points main prefix p rel.
Proof.
  intros NE. unfold inside, points. change ([92] ++ main ++ [92]) with (main_part main). assert (NM : main_part main <> []) by (unfold main_part; destruct main; discriminate). split.
  - destruct (starts_with (main_part main) p) eqn:S1; [|discriminate]. destruct (starts_with prefix _) eqn:S2; [|discriminate]. intros [= Er].
    destruct (proj1 (trims_is _ _ _ NM) (eq_refl (trims (main_part main) p))) as (k & E1 & A1). remember (trims (main_part main) p) as p1.
    destruct (proj1 (trims_is _ _ _ NE) (eq_refl (trims prefix p1))) as (j & E2 & A2). remember (trims prefix p1) as p2.
    assert (N92 : [92] <> []) by discriminate. apply (trims_is _ _ _ N92) in Er as (i & E3 & A3).
    destruct (starts_with_times _ _ _ _ A1 E1 S1) as (k' & ->). destruct (starts_with_times _ _ _ _ A2 E2 S2) as (j' & ->).
    exists k', j', i. rewrite <- E3, <- E2. auto.
  - intros (k & j & i & -> & A1 & A2 & A3). rewrite times_starts.
    assert (trims (main_part main) (times (S k) (main_part main) ++ times (S j) prefix ++ times i [92] ++ rel) = times (S j) prefix ++ times i [92] ++ rel) as -> by (apply trims_is; eauto).
    rewrite times_starts. f_equal. assert (trims prefix (times (S j) prefix ++ times i [92] ++ rel) = times i [92] ++ rel) as -> by (apply trims_is; eauto).
    apply trims_is; [discriminate|]. eauto.
Qed.

(** ** The search *)
Lemma picture_of_spec entry ps p : picture_of entry ps = Some p <-> exists before e after, ps = before ++ Entry entry (VStr p) e :: after /\ forall s e', ~ In (Entry entry (VStr s) e') before.
Proof.
  induction ps as [|q ps IH]; cbn [picture_of].
  - split; [discriminate|]. intros ([|? ?] & e & after & E & _); discriminate E.
  - assert (Skip : (forall s e, q <> Entry entry (VStr s) e) ->
      (exists before e after, ps = before ++ Entry entry (VStr p) e :: after /\ forall s e', ~ In (Entry entry (VStr s) e') before) <->
      exists before e after, q :: ps = before ++ Entry entry (VStr p) e :: after /\ forall s e', ~ In (Entry entry (VStr s) e') before).
    { intros Nq. split.
      - intros (before & e & after & -> & Nb). exists (q :: before), e, after. split; [reflexivity|]. intros s e' [E|I]; [now apply Nq in E|now apply Nb in I].
      - intros ([|q' before] & e & after & E & Nb); cbn [app] in E; [injection E as -> _; now destruct (Nq p e)|]. injection E as -> ->. exists before, e, after. split; [reflexivity|]. intros s e' I. apply (Nb s e'). now right. }
    destruct q as [name v b|c|name|name]; try (rewrite IH; apply Skip; discriminate). destruct v; try (rewrite IH; apply Skip; discriminate).
    destruct (eqb_bytes name entry) eqn:En.
    + apply eqb_bytes_spec in En as ->. split.
      * intros [= ->]. exists [], b, ps. split; [reflexivity|]. intros s' e' [].
      * intros ([|q' before] & e & after & E & Nb); cbn [app] in E; [now injection E as -> _ _|]. injection E as <- _. destruct (Nb s b). now left.
    + rewrite IH. apply Skip. intros s' e [= -> _ _]. now rewrite eqb_bytes_refl in En.
Qed.

Section Find.
  Context (main prefix : text) (file : PathModel.vpath -> bool).
  Context (NE : prefix <> []).
  (** What a scan of declared pictures gives. *)
  Notation wants p rel := (points main prefix p rel /\ missing file rel).
  (** [R]: the declared pictures so far. *)
  Record kept (R : text -> text -> Prop) (m : list (text * text)) : Prop := {
    k_from : forall c rel, In (c, rel) m -> exists p, R c p /\ wants p rel;
    k_all : forall c p rel, R c p -> wants p rel -> exists rel', In (c, rel') m;
    k_once : NoDup (map fst m) }.
  Lemma in_insert k t m c r : In (c, r) (insert k t m) <-> (c = k /\ r = t) \/ (c <> k /\ In (c, r) m).
  Proof.
    unfold insert. cbn [In]. rewrite filter_In. cbn [fst]. rewrite negb_true_iff. split.
    - intros [[= <- <-]|[I F]]; [now left|]. right. split; [|exact I]. intros ->. now rewrite eqb_bytes_refl in F.
    - intros [[-> ->]|[Nq I]]; [now left|]. right. split; [exact I|]. now apply eqb_bytes_false.
  Qed.
  Lemma once_insert k t m : NoDup (map fst m) -> NoDup (map fst (insert k t m)).
  Proof.
    intros ND. unfold insert. cbn [map fst]. constructor.
    - intros I. apply in_map_iff in I as (x & E & I). apply filter_In in I as [_ F]. rewrite <- E in F. now rewrite eqb_bytes_refl in F.
    - induction m as [|x m IH]; [constructor|]. cbn [map] in ND. inversion ND as [|? ? N1 N2]; subst. cbn [filter]. destruct (negb _); [|auto]. cbn [map]. constructor; [|auto].
      intros I. apply N1. apply in_map_iff in I as (y & E & I). apply filter_In in I as [I _]. rewrite <- E. now apply in_map.
  Qed.
  Lemma kept_same R R' m : (forall c p, R c p <-> R' c p) -> kept R m -> kept R' m.
  Proof. intros S [A B C]. constructor; [intros c rel I; destruct (A c rel I) as (p & Q); exists p; now rewrite <- S|intros c p rel Q; rewrite <- S in Q; now apply B|exact C]. Qed.
  Lemma points_same p r r' : points main prefix p r -> points main prefix p r' -> r = r'.
  Proof using NE. intros A B. apply (inside_spec _ _ _ _ NE) in A, B. congruence. Qed.

  Definition class_has (entry : text) (ps : list property) (c p : text) : Prop := exists parent qs mb, In (PClass (Local c parent qs mb)) ps /\ picture_of entry qs = Some p.
  Lemma class_has_cons entry q ps c p : class_has entry (q :: ps) c p <-> (exists parent qs mb, q = PClass (Local c parent qs mb) /\ picture_of entry qs = Some p) \/ class_has entry ps c p.
  Proof.
    unfold class_has. split.
    - intros (pa & qs & mb & [E|I] & P); [left|right]; eauto 6.
    - intros [(pa & qs & mb & E & P)|(pa & qs & mb & I & P)]; exists pa, qs, mb; split; auto; [left; exact E|now right].
  Qed.
  Lemma classes_ok entry ps : forall R m m', kept R m -> classes main prefix file entry ps m = Some m' -> kept (fun c p => R c p \/ class_has entry ps c p) m'.
  Proof using NE.
    induction ps as [|q ps IH]; intros R m m' K; cbn [classes].
    - intros [= <-]. apply (kept_same R); [|exact K]. intros c p. split; [now left|]. now intros [Q|(? & ? & ? & [] & _)].
    - assert (Skip : (forall c p rel, (exists parent qs mb, q = PClass (Local c parent qs mb) /\ picture_of entry qs = Some p) -> ~ wants p rel) ->
        classes main prefix file entry ps m = Some m' -> kept (fun c p => R c p \/ class_has entry (q :: ps) c p) m').
      { intros Nq Cl. destruct (IH R m m' K Cl) as [A B C]. constructor; [| |exact C].
        - intros c rel I. destruct (A c rel I) as (p & [Q|Q] & Wn); exists p; (split; [|exact Wn]); [now left|]. right. rewrite class_has_cons. now right.
        - intros c p rel [Q|Q] Wn; [apply (B c p rel); auto|]. rewrite class_has_cons in Q. destruct Q as [Q|Q]; [now apply (Nq c p rel Q) in Wn|]. apply (B c p rel); auto. }
      destruct q as [name v b|[ps0|name parent qs mb|name]|name|name]; try (apply Skip; intros c p rel (? & ? & ? & E & _); discriminate E).
      destruct (picture_of entry qs) as [p0|] eqn:Pp; [|apply Skip; intros c p rel (? & ? & ? & [= <- _ <- _] & E); congruence].
      destruct (inside main prefix p0) as [r0|] eqn:In0.
      2:{ apply Skip. intros c p rel (? & ? & ? & [= <- _ <- _] & E) (Pt & _). apply (inside_spec _ _ _ _ NE) in Pt. congruence. }
      unfold absent. destruct (PathModel.vfs_join [] (PathModel.slashes r0)) as [v|] eqn:J; [|discriminate]. destruct (file v) eqn:Fv; cbn [negb].
      + apply Skip. intros c p rel (? & ? & ? & [= <- _ <- _] & E) (Pt & v' & J' & F'). apply (inside_spec _ _ _ _ NE) in Pt. rewrite Pp in E. injection E as <-. rewrite In0 in Pt. injection Pt as <-. congruence.
      + intros Cl. assert (W0 : wants p0 r0) by (split; [now apply inside_spec|exists v; auto]).
        apply (kept_same (fun c p => (R c p \/ (c = name /\ p = p0)) \/ class_has entry ps c p)).
        { intros c p. rewrite class_has_cons. split.
          - intros [[Q|[-> ->]]|Q]; auto. right. left. eauto 6.
          - intros [Q|[(? & ? & ? & [= <- _ <- _] & E)|Q]]; auto. left. right. split; congruence. }
        apply (IH _ (insert name r0 m) m'); [|exact Cl]. destruct K as [A B C]. constructor; [| |now apply once_insert].
        * intros c rel I. apply in_insert in I as [[-> ->]|[Nc I]]; [exists p0; auto|]. destruct (A c rel I) as (p & Q & Wn). exists p. auto.
        * intros c p rel Q Wn. destruct (list_eq_dec N.eq_dec c name) as [->|Nc]; [exists r0; apply in_insert; now left|].
          destruct Q as [Q|[-> _]]; [|congruence]. destruct (B c p rel Q Wn) as (r' & I). exists r'. apply in_insert. now right.
  Qed.

  Definition section_has (section entry : text) (cfg : config) (c p : text) : Prop := exists parent ps mb, In (PClass (Local section parent ps mb)) cfg /\ class_has entry ps c p.
  Lemma sections_ok section entry cfg : forall R m m', kept R m -> sections main prefix file section entry cfg m = Some m' -> kept (fun c p => R c p \/ section_has section entry cfg c p) m'.
  Proof using NE.
    induction cfg as [|q cfg IH]; intros R m m' K; cbn [sections].
    - intros [= <-]. apply (kept_same R); [|exact K]. intros c p. split; [now left|]. now intros [Q|(? & ? & ? & [] & _)].
    - assert (Skip : (forall parent ps mb, q <> PClass (Local section parent ps mb)) ->
        sections main prefix file section entry cfg m = Some m' -> kept (fun c p => R c p \/ section_has section entry (q :: cfg) c p) m').
      { intros Nq Cl. apply (kept_same (fun c p => R c p \/ section_has section entry cfg c p)); [|exact (IH R m m' K Cl)]. intros c p. split.
        - intros [Q|(a & b & d & I & Q)]; [now left|]. right. exists a, b, d. split; [now right|exact Q].
        - intros [Q|(a & b & d & [E|I] & Q)]; [now left|now apply Nq in E|]. right. exists a, b, d. auto. }
      destruct q as [name v b|[ps0|name parent qs mb|name]|name|name]; try (apply Skip; discriminate).
      destruct (eqb_bytes name section) eqn:En.
      2:{ apply Skip. intros pa ps mb' [= -> _ _ _]. now rewrite eqb_bytes_refl in En. }
      apply eqb_bytes_spec in En as ->. destruct (classes main prefix file entry qs m) as [m1|] eqn:Cl; [|discriminate]. intros Se.
      apply (kept_same (fun c p => (R c p \/ class_has entry qs c p) \/ section_has section entry cfg c p)).
      { intros c p. split.
        - intros [[Q|Q]|(a & b & d & I & Q)]; [now left| |]; right; [exists parent, qs, mb; split; [now left|exact Q]|exists a, b, d; split; [now right|exact Q]].
        - intros [Q|(a & b & d & [E|I] & Q)]; [now left; left| |]; [injection E as -> -> ->; now left; right|]. right. exists a, b, d. auto. }
      apply (IH _ m1 m'); [|exact Se]. now apply (classes_ok entry qs R m m1).
  Qed.
  Lemma all_ok section entry cs : forall R m m', kept R m -> find_all main prefix file section entry cs m = Some m' -> kept (fun c p => R c p \/ exists cfg, In cfg cs /\ section_has section entry cfg c p) m'.
  Proof using NE.
    induction cs as [|q cs IH]; intros R m m' K; cbn [find_all].
    - intros [= <-]. apply (kept_same R); [|exact K]. intros c p. split; [now left|]. now intros [Q|(? & [] & _)].
    - destruct (sections main prefix file section entry q m) as [m1|] eqn:Cl; [|discriminate]. intros Se.
      apply (kept_same (fun c p => (R c p \/ section_has section entry q c p) \/ exists cfg, In cfg cs /\ section_has section entry cfg c p)).
      { intros c p. split.
        - intros [[Q|Q]|(cfg & I & Q)]; [now left| |]; right; [exists q|exists cfg]; (split; [cbn [In]; auto|exact Q]).
        - intros [Q|(cfg & [->|I] & Q)]; [now left; left|now left; right|]. right. exists cfg. auto. }
      apply (IH _ m1 m'); [|exact Se]. now apply (sections_ok section entry q R m m1).
  Qed.
  Lemma declares_is section entry cs c p : (exists cfg, In cfg cs /\ section_has section entry cfg c p) <-> declares section entry cs c p.
  Proof.
    unfold section_has, class_has, declares. split.
    - intros (cfg & Ic & parent & ps & mb & Is & parent' & qs & mb' & Ip & P). apply picture_of_spec in P as (before & e & after & E & Nb).
      exists cfg, parent, ps, mb, parent', qs, mb', before, e, after. auto.
    - intros (cfg & parent & ps & mb & parent' & qs & mb' & before & e & after & Ic & Is & Ip & E & Nb). exists cfg. split; [exact Ic|]. exists parent, ps, mb. split; [exact Is|].
      exists parent', qs, mb'. split; [exact Ip|]. apply picture_of_spec. eauto.
  Qed.
End Find.

(** *** The pictures looked for are the missing ones that the configs name *)
Lemma found_ok section entry main prefix file cs m : prefix <> [] -> find_pictures section entry (Some main) prefix file cs = Some m ->
  (forall c rel, In (c, rel) m -> exists p, declares section entry cs c p /\ points main prefix p rel /\ missing file rel) /\
  (forall c p rel, declares section entry cs c p -> points main prefix p rel -> missing file rel ->
     exists rel', In (c, rel') m /\ ((forall p', declares section entry cs c p' -> p' = p) -> rel' = rel)) /\
  NoDup (map fst m).
Proof.
  intros NE F. cbn [find_pictures] in F.
  assert (K0 : kept main prefix file (fun _ _ => False) []) by (constructor; [intros ? ? []|intros ? ? ? []|constructor]).
  destruct (all_ok main prefix file NE section entry cs _ _ _ K0 F) as [A B C]. split; [|split; [|exact C]].
  - intros c rel I. destruct (A c rel I) as (p & [[]|Q] & P & M). exists p. rewrite <- declares_is. auto.
  - intros c p rel Q P M. destruct (B c p rel) as (rel' & I); [right; now apply declares_is|auto|]. exists rel'. split; [exact I|]. intros U.
    destruct (A c rel' I) as (p' & [[]|Q'] & P' & _). apply declares_is, U in Q' as ->. exact (points_same main prefix NE p rel' rel P' P).
Qed.

(** Weapons: an addon's CfgWeapons, and the entry picture. Every picture looked for is a declared one in the project that is missing;
    every class with such a picture is looked for, once; and for it, if no other config declares another picture for the class. *)
Theorem C96_weapons : forall main prefix file cs m, prefix <> [] -> find_weapons (Some main) prefix file cs = Some m ->
  (forall c rel, In (c, rel) m -> exists p, declares (bs "CfgWeapons") (bs "picture") cs c p /\ points main prefix p rel /\ missing file rel) /\
  (forall c p rel, declares (bs "CfgWeapons") (bs "picture") cs c p -> points main prefix p rel -> missing file rel ->
     exists rel', In (c, rel') m /\ ((forall p', declares (bs "CfgWeapons") (bs "picture") cs c p' -> p' = p) -> rel' = rel)) /\
  NoDup (map fst m).
Proof. intros main prefix file cs m NE F. exact (found_ok _ _ main prefix file cs m NE F). Qed.
(** Previews: CfgVehicles and the entry editorPreview. *)
Theorem C96_previews : forall main prefix file cs m, prefix <> [] -> find_previews (Some main) prefix file cs = Some m ->
  (forall c rel, In (c, rel) m -> exists p, declares (bs "CfgVehicles") (bs "editorPreview") cs c p /\ points main prefix p rel /\ missing file rel) /\
  (forall c p rel, declares (bs "CfgVehicles") (bs "editorPreview") cs c p -> points main prefix p rel -> missing file rel ->
     exists rel', In (c, rel') m /\ ((forall p', declares (bs "CfgVehicles") (bs "editorPreview") cs c p' -> p' = p) -> rel' = rel)) /\
  NoDup (map fst m).
Proof. intros main prefix file cs m NE F. exact (found_ok _ _ main prefix file cs m NE F). Qed.

(** Without a main prefix there is nothing to do. *)
Theorem C96_no_main : forall prefix file cs, find_weapons None prefix file cs = Some [] /\ find_previews None prefix file cs = Some [].
Proof. intros. split; reflexivity. Qed.

(** A path written as it should be, "\main\prefix\rel", is that of the file rel of the project. *)
Theorem C96_plain : forall main prefix rel, prefix <> [] -> apart [92] prefix -> apart [92] rel -> forall rel',
  points main prefix ([92] ++ main ++ [92] ++ prefix ++ [92] ++ rel) rel' <-> rel' = rel.
Proof.
  intros main prefix rel NE Ap Ar rel'. assert (P : points main prefix ([92] ++ main ++ [92] ++ prefix ++ [92] ++ rel) rel).
  { exists O, O, 1%nat. unfold times. cbn [repeat concat]. rewrite !app_nil_r. split; [now rewrite <- !app_assoc|]. split; [|split; [|exact Ar]].
    - intros r E. destruct prefix as [|c prefix]; [congruence|]. cbn [app] in E. injection E as -> _. now apply (Ap prefix).
    - intros r E. destruct prefix as [|c prefix]; [congruence|]. cbn [app] in E. injection E as <- _. now apply (Ap prefix). }
  split; [|now intros ->]. intros P'. exact (points_same main prefix NE _ _ _ P' P).
Qed.

(** *** The search ends in a panic exactly if a picture's path cannot be joined (it ends with a backslash, or leads out of the project) *)
Lemma classes_none main prefix file (NE : prefix <> []) entry ps : forall m, classes main prefix file entry ps m = None <->
  exists c p rel, class_has entry ps c p /\ points main prefix p rel /\ PathModel.vfs_join [] (PathModel.slashes rel) = None.
Proof.
  induction ps as [|q ps IH]; intros m; cbn [classes].
  - split; [discriminate|]. intros (c & p & rel & (? & ? & ? & [] & _) & _).
  - assert (Skip : (forall c p rel, (exists parent qs mb, q = PClass (Local c parent qs mb) /\ picture_of entry qs = Some p) -> points main prefix p rel -> PathModel.vfs_join [] (PathModel.slashes rel) = None -> False) ->
      forall m, classes main prefix file entry ps m = None <->
        exists c p rel, class_has entry (q :: ps) c p /\ points main prefix p rel /\ PathModel.vfs_join [] (PathModel.slashes rel) = None).
    { intros Nq m'. rewrite IH. split.
      - intros (c & p & rel & Q & R). exists c, p, rel. rewrite class_has_cons. auto.
      - intros (c & p & rel & Q & P & J). rewrite class_has_cons in Q. destruct Q as [Q|Q]; [destruct (Nq c p rel Q P J)|]. exists c, p, rel. auto. }
    destruct q as [name v b|[ps0|name parent qs mb|name]|name|name]; try (apply Skip; intros c p rel (? & ? & ? & E & _); discriminate E).
    destruct (picture_of entry qs) as [p0|] eqn:Pp; [|apply Skip; intros c p rel (? & ? & ? & [= <- _ <- _] & E); congruence].
    destruct (inside main prefix p0) as [r0|] eqn:In0.
    2:{ apply Skip. intros c p rel (? & ? & ? & [= <- _ <- _] & E) Pt _. apply (inside_spec _ _ _ _ NE) in Pt. congruence. }
    unfold absent. destruct (PathModel.vfs_join [] (PathModel.slashes r0)) as [v|] eqn:J.
    + assert (Nq : forall c p rel, (exists parent' qs' mb', PClass (Local name parent qs mb) = PClass (Local c parent' qs' mb') /\ picture_of entry qs' = Some p) -> points main prefix p rel -> PathModel.vfs_join [] (PathModel.slashes rel) = None -> False).
      { intros c p rel (? & ? & ? & [= <- _ <- _] & E) Pt J'. apply (inside_spec _ _ _ _ NE) in Pt. rewrite Pp in E. injection E as <-. rewrite In0 in Pt. injection Pt as <-. congruence. }
      destruct (negb (file v)); apply Skip; exact Nq.
    + split; [intros _|reflexivity]. exists name, p0, r0. split; [|split; [now apply inside_spec|exact J]]. apply class_has_cons. left. eauto 6.
Qed.
Lemma found_none main prefix file (NE : prefix <> []) section entry cs : forall m, find_all main prefix file section entry cs m = None <->
  exists c p rel, declares section entry cs c p /\ points main prefix p rel /\ PathModel.vfs_join [] (PathModel.slashes rel) = None.
Proof.
  assert (S : forall cfg m, sections main prefix file section entry cfg m = None <->
    exists c p rel, section_has section entry cfg c p /\ points main prefix p rel /\ PathModel.vfs_join [] (PathModel.slashes rel) = None).
  { induction cfg as [|q cfg IH]; intros m; cbn [sections].
    - split; [discriminate|]. intros (c & p & rel & (? & ? & ? & [] & _) & _).
    - assert (Skip : (forall parent ps mb, q <> PClass (Local section parent ps mb)) -> forall m, sections main prefix file section entry cfg m = None <->
        exists c p rel, section_has section entry (q :: cfg) c p /\ points main prefix p rel /\ PathModel.vfs_join [] (PathModel.slashes rel) = None).
      { intros Nq m'. rewrite IH. split; intros (c & p & rel & (pa & ps & mb & I & Q) & R); exists c, p, rel; (split; [|exact R]); exists pa, ps, mb; (split; [|exact Q]); [now right|]. destruct I as [E|I]; [now apply Nq in E|exact I]. }
      destruct q as [name v b|[ps0|name parent qs mb|name]|name|name]; try (apply Skip; discriminate).
      destruct (eqb_bytes name section) eqn:En.
      2:{ apply Skip. intros pa ps mb' [= -> _ _ _]. now rewrite eqb_bytes_refl in En. }
      apply eqb_bytes_spec in En as ->. destruct (classes main prefix file entry qs m) as [m1|] eqn:Cl.
      + rewrite IH. split; intros (c & p & rel & (pa & ps & mb' & I & Q) & R).
        * exists c, p, rel. split; [|exact R]. exists pa, ps, mb'. split; [now right|exact Q].
        * destruct I as [E|I]; [|exists c, p, rel; split; [|exact R]; exists pa, ps, mb'; auto]. exfalso. injection E as -> -> ->.
          assert (X : classes main prefix file entry ps m = None) by (apply classes_none; [exact NE|]; exists c, p, rel; auto). congruence.
      + split; [intros _|reflexivity]. apply classes_none in Cl as (c & p & rel & Q & R); [|exact NE]. exists c, p, rel. split; [|exact R]. exists parent, qs, mb. split; [now left|exact Q]. }
  induction cs as [|q cs IH]; intros m; cbn [find_all].
  - split; [discriminate|]. intros (c & p & rel & Q & _). apply declares_is in Q as (? & [] & _).
  - destruct (sections main prefix file section entry q m) as [m1|] eqn:Cl.
    + rewrite IH. split; intros (c & p & rel & Q & R); apply declares_is in Q as (cfg & I & Q).
      * exists c, p, rel. split; [|exact R]. apply declares_is. exists cfg. split; [now right|exact Q].
      * destruct I as [->|I]; [|exists c, p, rel; split; [|exact R]; apply declares_is; eauto]. exfalso.
        assert (X : sections main prefix file section entry cfg m = None) by (apply S; exists c, p, rel; auto). congruence.
    + split; [intros _|reflexivity]. apply S in Cl as (c & p & rel & Q & R). exists c, p, rel. split; [|exact R]. apply declares_is. exists q. split; [now left|exact Q].
Qed.
Theorem C96_panics : forall main prefix file cs, prefix <> [] ->
  (find_weapons (Some main) prefix file cs = None <->
   exists c p rel, declares (bs "CfgWeapons") (bs "picture") cs c p /\ points main prefix p rel /\ PathModel.vfs_join [] (PathModel.slashes rel) = None) /\
  (find_previews (Some main) prefix file cs = None <->
   exists c p rel, declares (bs "CfgVehicles") (bs "editorPreview") cs c p /\ points main prefix p rel /\ PathModel.vfs_join [] (PathModel.slashes rel) = None).
Proof. intros main prefix file cs NE. split; apply (found_none main prefix file NE). Qed.

(** *** From the configs to the pictures *)
(** A session with what was found, in whatever order the hash maps list it: when it ends, every class that declares a picture of the
    project has it, whether it was there before or was made. *)
Theorem C96_photoshoot : forall write_g read_g write_h read_h uniform menus folder main prefix file cs ws ps weapons previews,
  let there := fun t => match PathModel.vfs_join [] (PathModel.slashes t) with Some v => file v | None => false end in
  let missions := menus ++ [folder ++ bs "\autotest\photoshoot.VR\"] in
  let begin := start weapons menus folder in
  let session := fun l => run write_g read_g write_h read_h weapons previews there uniform l begin in
  prefix <> [] ->
  find_weapons (Some main) prefix file cs = Some ws -> find_previews (Some main) prefix file cs = Some ps -> Permutation ws weapons -> Permutation ps previews ->
  (forall a b, folder ++ [92] <> a ++ bs "\autotest\" ++ b) ->
  (forall m a b, In m menus -> m <> a ++ bs "\autotest\" ++ b) ->
  (forall m, read_g (write_g m) = Some m /\ write_g m <> []) -> (forall m, read_h (write_h m) = Some m /\ write_h m <> []) ->
  (forall m, In m (requests weapons previews) -> blen (write_g m) < 2 ^ 32 - 1) ->
  (forall m, could_say weapons missions m -> blen (write_h m) < 2 ^ 32 - 1) ->
  (forall c p, declares (bs "CfgWeapons") (bs "picture") cs c p -> uniform c = true) ->
  exists k, forall l, rounds k l -> careful (act write_g read_g write_h read_h weapons previews there uniform) l begin ->
    h_at (H (session l)) = Gone /\
    (forall c p rel, declares (bs "CfgWeapons") (bs "picture") cs c p -> (forall p', declares (bs "CfgWeapons") (bs "picture") cs c p' -> p' = p) ->
       points main prefix p rel -> there_now there (session l) rel) /\
    (forall c p rel, declares (bs "CfgVehicles") (bs "editorPreview") cs c p -> (forall p', declares (bs "CfgVehicles") (bs "editorPreview") cs c p' -> p' = p) ->
       points main prefix p rel -> there_now there (session l) rel).
Proof.
  intros write_g read_g write_h read_h uniform menus folder main prefix file cs ws ps weapons previews there missions begin session NE Fw Fp Pw Pp Fo Me Gj Hj Gs Hs Un.
  destruct (C96_weapons _ _ _ _ _ NE Fw) as (W1 & W2 & W3). destruct (C96_previews _ _ _ _ _ NE Fp) as (P1 & P2 & P3).
  assert (Cl : NoDup (map fst weapons) /\ NoDup (map fst previews)).
  { split; [apply (Permutation_NoDup (l := map fst ws))|apply (Permutation_NoDup (l := map fst ps))]; auto using Permutation_map. }
  assert (Uw : forall w, In w (map fst weapons) -> uniform w = true).
  { intros w I. apply in_map_iff in I as ((c, rel) & <- & I). apply (Permutation_in _ (Permutation_sym Pw)) in I. destruct (W1 c rel I) as (p & Q & _). exact (Un c p Q). }
  destruct (C95_complete write_g read_g write_h read_h weapons previews there uniform Cl menus folder Fo Me Gj Hj Gs Hs Uw) as (k & K).
  exists k. intros l R Ca. destruct (K l R Ca) as (Gn & Tw & Tp). split; [exact Gn|].
  assert (Sp : forall section entry c p rel, declares section entry cs c p -> points main prefix p rel -> there rel = true \/ missing file rel \/ PathModel.vfs_join [] (PathModel.slashes rel) = None).
  { intros section entry c p rel _ _. unfold there, missing. destruct (PathModel.vfs_join _ _) as [v|]; [|auto]. destruct (file v) eqn:Fv; [now left|]. right. left. eauto. }
  split.
  - intros c p rel Q U P. destruct (Sp _ _ c p rel Q P) as [T|[M|J]]; [now left| |].
    + destruct (W2 c p rel Q P M) as (rel' & I & E). rewrite (E U) in I. apply (Tw c rel). exact (Permutation_in _ Pw I).
    + exfalso. assert (X : find_weapons (Some main) prefix file cs = None) by (apply C96_panics; [exact NE|]; eauto 6). congruence.
  - intros c p rel Q U P. destruct (Sp _ _ c p rel Q P) as [T|[M|J]]; [now left| |].
    + destruct (P2 c p rel Q P M) as (rel' & I & E). rewrite (E U) in I. right. exists c. apply (Tp c rel). exact (Permutation_in _ Pp I).
    + exfalso. assert (X : find_previews (Some main) prefix file cs = None) by (apply C96_panics; [exact NE|]; eauto 6). congruence.
Qed.

(** *** A project: two uniforms and a vehicle; the picture of one uniform is there *)
Definition ex_class (c entry p : string) : property := PClass (Local (bs c) None [Entry (bs "displayName") (VStr (bs "x")) false; Entry (bs entry) (VStr (bs p)) false] false).
Definition ex_section (s : string) (l : list property) : property := PClass (Local (bs s) None l false).
Definition ex_configs : list config :=
  [[ex_section "CfgPatches" []; ex_section "CfgWeapons" [PClass (External (bs "Base")); ex_class "U_A" "picture" "\z\ace\addons\main\a.paa"; ex_class "U_B" "picture" "\z\ace\addons\main\b.paa"]];
   [ex_section "CfgVehicles" [ex_class "C" "editorPreview" "\z\ace\addons\main\c.jpg"; ex_class "Other" "editorPreview" "\a3\x.jpg"]]].
Definition ex_file (v : PathModel.vpath) : bool := eqb_bytes (join [47] v) (bs "addons/main/b.paa").
Example C96_project :
  find_weapons (Some (bs "z")) (bs "ace") ex_file ex_configs = Some [(bs "U_A", bs "addons\main\a.paa")] /\
  find_previews (Some (bs "z")) (bs "ace") ex_file ex_configs = Some [(bs "C", bs "addons\main\c.jpg")] /\
  declares (bs "CfgWeapons") (bs "picture") ex_configs (bs "U_A") (bs "\z\ace\addons\main\a.paa") /\
  points (bs "z") (bs "ace") (bs "\z\ace\addons\main\a.paa") (bs "addons\main\a.paa") /\ missing ex_file (bs "addons\main\a.paa").
Proof.
  split; [vm_compute; reflexivity|]. split; [vm_compute; reflexivity|]. split; [|split].
  - exists (nth 0 ex_configs []), None, [PClass (External (bs "Base")); ex_class "U_A" "picture" "\z\ace\addons\main\a.paa"; ex_class "U_B" "picture" "\z\ace\addons\main\b.paa"], false, None,
      [Entry (bs "displayName") (VStr (bs "x")) false; Entry (bs "picture") (VStr (bs "\z\ace\addons\main\a.paa")) false], false,
      [Entry (bs "displayName") (VStr (bs "x")) false], false, [].
    split; [now left|]. split; [right; now left|]. split; [right; now left|]. split; [reflexivity|]. intros s e' [E|[]]. discriminate E.
  - apply inside_spec; [discriminate|vm_compute; reflexivity].
  - eexists. split; vm_compute; reflexivity.
Qed.

(** Limits. The prefix is compared without the backslash after it: a picture of another project whose prefix begins with ours is looked for. *)
Theorem C96_prefix_refuted :
  find_weapons (Some (bs "z")) (bs "ace") (fun _ => false) [[ex_section "CfgWeapons" [ex_class "U" "picture" "\z\acex\addons\u.paa"]]] = Some [(bs "U", bs "x\addons\u.paa")].
Proof. vm_compute. reflexivity. Qed.
(** Names are compared with their case, which the game does not do; so are paths. *)
Theorem C96_case_refuted :
  find_weapons (Some (bs "z")) (bs "ace") (fun _ => false)
    [[ex_section "cfgWeapons" [ex_class "U" "picture" "\z\ace\u.paa"]]; [ex_section "CfgWeapons" [ex_class "V" "Picture" "\z\ace\v.paa"; ex_class "W" "picture" "\Z\ace\w.paa"]]] = Some [].
Proof. vm_compute. reflexivity. Qed.
(** A path without the backslash at its start is not seen. *)
Theorem C96_bare_refuted :
  find_weapons (Some (bs "z")) (bs "ace") (fun _ => false) [[ex_section "CfgWeapons" [ex_class "U" "picture" "z\ace\addons\u.paa"]]] = Some [].
Proof. vm_compute. reflexivity. Qed.
(** A path that ends with a backslash makes HEMTT panic. *)
Theorem C96_panic_refuted :
  find_weapons (Some (bs "z")) (bs "ace") (fun _ => false) [[ex_section "CfgWeapons" [ex_class "U" "picture" "\z\ace\addons\"]]] = None.
Proof. vm_compute. reflexivity. Qed.

Print Assumptions C96_weapons.
Print Assumptions C96_previews.
Print Assumptions C96_no_main.
Print Assumptions C96_plain.
Print Assumptions C96_panics.
Print Assumptions C96_photoshoot.
Print Assumptions C96_prefix_refuted.
Print Assumptions C96_case_refuted.
Print Assumptions C96_bare_refuted.
Print Assumptions C96_panic_refuted.
