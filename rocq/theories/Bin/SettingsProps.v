(** The settings of projects and addons are what their files say (C93). *)
From Coq Require Import String ZArith Sorting.Sorted.
From Verif Require Import Base.Tactics Base.Bytes Base.Ascii Base.Text Base.Sort.
From Verif Require Import Common.LaunchModel Common.LaunchSpec Common.LaunchProofs Common.LaunchProps Common.ProjectVersionModel Common.ProjectVersionSpec Common.ProjectVersionProps Bin.ExecModel.
From Verif Require Import Bin.BinarizeModel Bin.BinarizeProofs Bin.SettingsModel Bin.SettingsSpec Bin.SettingsProofs.
From Verif Require Bin.LintModel.
Local Open Scope N_scope.
Local Open Scope list_scope.

Lemma mentions_spec p s : mentions p s = true <-> exists a b, s = a ++ p ++ b.
Proof.
  unfold mentions. induction s as [|c s IH]; cbn [split_once_str].
  - destruct (starts_with p []) eqn:E.
    + apply starts_spec in E as (r & E). split; [|reflexivity]. intros _. now exists [], r.
    + split; [discriminate|]. intros (a & b & H). destruct a; [|discriminate]. assert (starts_with p [] = true) by (apply starts_spec; now exists b). congruence.
  - destruct (starts_with p (c :: s)) eqn:E.
    + apply starts_spec in E as (r & E). split; [|reflexivity]. intros _. now exists [], r.
    + assert (R : (match match split_once_str p s with Some (a, b) => Some (c :: a, b) | None => None end with Some _ => true | None => false end) =
                  match split_once_str p s with Some _ => true | None => false end) by (destruct (split_once_str p s) as [(a & b)|]; reflexivity).
      rewrite R, IH. split; [intros (a & b & ->); now exists (c :: a), b|]. intros (a & b & H). destruct a as [|c' a].
      * assert (starts_with p (c :: s) = true) by (apply starts_spec; now exists b). congruence.
      * injection H as -> ->. eauto.
Qed.
Lemma no_mention p s : mentions p s = false <-> forall a b, s <> a ++ p ++ b.
Proof.
  split.
  - intros H a b E. assert (mentions p s = true) by (apply mentions_spec; eauto). congruence.
  - intros H. destruct (mentions p s) eqn:E; [|reflexivity]. apply mentions_spec in E as (a & b & E). now destruct (H a b).
Qed.
Lemma replace_front pat rep r : pat <> [] -> replace pat rep (pat ++ r) = rep ++ replace pat rep r.
Proof.
  intros NE. unfold replace. destruct pat as [|c q]; [contradiction|]. assert (SW : starts_with (c :: q) ((c :: q) ++ r) = true) by (apply starts_spec; eauto).
  cbn [app] in *. cbn [replace_go]. rewrite SW. f_equal. cbn [length]. rewrite Nat.sub_succ, Nat.sub_0_r. apply replace_go_skip.
Qed.
Lemma renamed_is s s' : renamed s s' <-> s' = replace (bs "[hemtt.launch]") (bs "[hemtt.launch.default]") s.
Proof.
  assert (OLD : forall r, replace (bs "[hemtt.launch]") (bs "[hemtt.launch.default]") (bs "[hemtt.launch]" ++ r) = bs "[hemtt.launch.default]" ++ replace (bs "[hemtt.launch]") (bs "[hemtt.launch.default]") r).
  { intros r. apply replace_front. discriminate. }
  assert (SAME : forall c r, (forall q, c :: r <> bs "[hemtt.launch]" ++ q) -> replace (bs "[hemtt.launch]") (bs "[hemtt.launch.default]") (c :: r) = c :: replace (bs "[hemtt.launch]") (bs "[hemtt.launch.default]") r).
  { intros c r H. unfold replace. cbn [replace_go]. destruct (starts_with (bs "[hemtt.launch]") (c :: r)) eqn:E; [|reflexivity]. apply starts_spec in E as (q & E). now destruct (H q). }
  split.
  - intros H. induction H as [|s s' H ->|c s s' NE H ->]; [reflexivity|now rewrite OLD|now rewrite SAME].
  - intros ->. remember (length s) as n eqn:L. assert (LE : (length s <= n)%nat) by lia. clear L. revert s LE. induction n as [|n IH]; intros s LE; (destruct s as [|c s]; [constructor|]); [cbn in LE; lia|].
    destruct (starts_with (bs "[hemtt.launch]") (c :: s)) eqn:E.
    + apply starts_spec in E as (q & E). rewrite E, OLD. constructor. apply IH. apply (f_equal (@length N)) in E. rewrite app_length in E. cbn in E, LE. lia.
    + assert (NE : forall q, c :: s <> bs "[hemtt.launch]" ++ q) by (intros q Q; assert (starts_with (bs "[hemtt.launch]") (c :: s) = true) by (apply starts_spec; eauto); congruence).
      rewrite (SAME c s NE). constructor; [exact NE|]. apply IH. cbn in LE. lia.
Qed.
Lemma included_is names : StronglySorted (fun a b => cmp_bytes a b = Lt) (included names) /\
  forall x, In x (included names) <-> In x [bs "/mod.cpp"; bs "/meta.cpp"; bs "/LICENSE"; bs "/logo_ca.paa"; bs "/logo_co.paa"] \/
    exists n, In n names /\ (x = n /\ (exists r, n = bs "/" ++ r) \/ x = bs "/" ++ n /\ ~ exists r, n = bs "/" ++ r).
Proof.
  unfold included, tidy. destruct (tidied eqb_bytes (fun x => x) eqb_bytes_spec (fun a b E => E) (map SettingsModel.rooted names ++ usual_files)) as [S I].
  split; [exact S|]. intros x. rewrite (I x), in_app_iff, in_map_iff. unfold usual_files, SettingsModel.rooted. split.
  - intros [(n & E & K)|K]; [|now left]. right. exists n. split; [exact K|]. destruct (starts_with (bs "/") n) eqn:W.
    + left. split; [congruence|]. now apply starts_spec.
    + right. split; [congruence|]. intros H. apply starts_spec in H. congruence.
  - intros [K|(n & K & [(-> & H)|(-> & H)])]; [now right|left|left]; exists n; (split; [|exact K]); destruct (starts_with (bs "/") n) eqn:W; try reflexivity.
    + apply starts_spec in H. congruence.
    + destruct H. now apply starts_spec.
Qed.

(** What a document says is determined. *)
Lemma says_distinct d p v : says d p v -> distinct d -> distinct v.
Proof. induction 1 as [v|t k v p x I S IH]; intros D; [exact D|]. apply IH. now apply (distinct_in t k). Qed.
Lemma says_unique d p v : says d p v -> distinct d -> forall w, says d p w -> v = w.
Proof.
  induction 1 as [v|t k v p x I S IH]; intros D w H; inversion H; subst; [reflexivity|]. apply IH; [now apply (distinct_in t k)|].
  match goal with A : In (k, ?u) t, B : says ?u p w |- _ => assert (v = u) as -> by (apply (lookup_in t k _ (distinct_nodup t D)) in I, A; congruence); exact B end.
Qed.
Lemma given_unique {A} (r : toml -> option A) P d p y x x' : reads_in r P -> distinct d -> given P d p y x -> given P d p y x' -> x = x'.
Proof.
  intros R D [(v & S & H)|(U & ->)] [(w & S' & H')|(U' & ->)]; [|now destruct (U' v)|now destruct (U w)|reflexivity].
  rewrite (says_unique _ _ _ S D _ S') in H. apply (R w) in H, H'; [congruence|now apply (says_distinct d p)..].
Qed.
Lemma maybe_unique {A} (r : toml -> option A) P d p x x' : reads_in r P -> distinct d -> maybe P d p x -> maybe P d p x' -> x = x'.
Proof.
  intros R D [(v & a & S & H & ->)|(U & ->)] [(w & b & S' & H' & ->)|(U' & ->)]; [|now destruct (U' v)|now destruct (U w)|reflexivity].
  rewrite (says_unique _ _ _ S D _ S') in H. apply (R w) in H, H'; [congruence|now apply (says_distinct d p)..].
Qed.
Lemma version_unique d s s' : distinct d -> is_version d s -> is_version d s' -> s = s'.
Proof.
  intros D [A1 A2 A3 A4 A5 A6] [B1 B2 B3 B4 B5 B6]. destruct s as [x0 x1 x2 x3 x4 x5], s' as [y0 y1 y2 y3 y4 y5]. cbn [s_path s_major s_minor s_patch s_build s_git_hash] in *.
  f_equal; (eapply maybe_unique; [|exact D|eassumption|eassumption]); apply always; first [apply r_str|apply r_num].
Qed.

Section Settings.
  Context (lower : text -> text) (severity_of : text -> option severity) (kept : toml -> bytes) (parse : text -> option (list (text * toml))).
  Context (Parsed : forall s t, parse s = Some t -> distinct (TTable t)).
  Notation read_project := (read_project lower severity_of kept parse).
  Notation well_kinded := (well_kinded lower severity_of kept).
  Notation is_project := (is_project lower).
  Notation launch_from := (launch_from lower parse).
  Notation lints_from := (lints_from severity_of kept parse).

  Lemma lints_unique d root g g' : distinct d -> is_lints severity_of kept d root g -> is_lints severity_of kept d root g' -> g = g'.
  Proof.
    clear. intros D [A1 A2 A3] [B1 B2 B3]. destruct g as [x0 x1 x2], g' as [y0 y1 y2]. cbn [l_config l_sqf l_stringtables] in *.
    f_equal; (eapply given_unique; [|exact D|eassumption|eassumption]); apply r_map, r_lint.
  Qed.
  Lemma entries_table t l : distinct (TTable t) -> (d_entries (d_profile lower) t = Some l <-> is_table (is_profile lower) (TTable t) l).
  Proof. clear. intros D. apply (r_map _ _ (r_profile lower) (TTable t) l D). Qed.
  Lemma launch_is sibling d f l : distinct d -> given (is_table (is_profile lower)) d [bs "hemtt"; bs "launch"] [] f ->
    (launch_source lower parse sibling f = inl l <-> launch_from sibling d l).
  Proof using Parsed.
    clear severity_of kept. intros D G. unfold launch_source. split.
    - destruct (sibling (bs "launch.toml")) as [| |s] eqn:E.
      + intros X. assert (f = l) as -> by congruence. now apply profiles_here.
      + destruct f; discriminate.
      + destruct f; [|discriminate]. destruct (mentions _ s) eqn:M; [discriminate|]. destruct (parse s) as [t|] eqn:P; [|discriminate].
        destruct (d_entries _ t) as [l'|] eqn:L; [|discriminate]. intros X. assert (l' = l) as -> by congruence.
        eapply profiles_beside; [exact E|exact G|now apply no_mention|exact P|]. apply entries_table; [now apply (Parsed s)|exact L].
    - intros [l' E H|s t l' E H M P H'].
      + rewrite E. f_equal. eapply given_unique; [apply r_map, r_profile|exact D|exact G|exact H].
      + rewrite E. assert (f = []) as -> by (eapply given_unique; [apply r_map, r_profile|exact D|exact G|exact H]).
        apply no_mention in M. rewrite M, P. apply entries_table in H'; [|now apply (Parsed s)]. now rewrite H'.
  Qed.
  Lemma lints_read sibling d own g : distinct d -> is_lints severity_of kept d [bs "lints"] own ->
    (lints_source severity_of kept parse sibling own = inl g <-> lints_from sibling d g).
  Proof using Parsed.
    clear lower. intros D G. unfold lints_source. split.
    - destruct (sibling (bs "lints.toml")) as [| |s] eqn:E.
      + intros X. assert (own = g) as -> by congruence. now apply lints_here.
      + destruct (no_lints own); discriminate.
      + destruct (no_lints own) eqn:O; [|discriminate]. destruct (mentions _ s) eqn:M; [discriminate|]. destruct (parse s) as [t|] eqn:P; [|discriminate].
        destruct (d_lints _ _ t) as [l'|] eqn:L; [|discriminate]. intros X. assert (l' = g) as -> by congruence.
        unfold no_lints in O. destruct (l_config own) eqn:O1; [|discriminate]. destruct (l_sqf own) eqn:O2; [|discriminate].
        eapply lints_beside; [exact E|exact G|exact O1|exact O2|now apply no_mention|exact P|]. apply lints_is; [now apply (Parsed s)|exact L].
    - intros [l' E H|own' s t l' E H O1 O2 M P H'].
      + rewrite E. f_equal. eapply lints_unique; eassumption.
      + rewrite E. assert (own = own') as -> by (eapply lints_unique; eassumption). unfold no_lints. rewrite O1, O2.
        apply no_mention in M. rewrite M, P. apply lints_is in H'; [|now apply (Parsed s)]. now rewrite H'.
  Qed.
  Lemma names_distinct sibling d l : distinct d -> launch_from sibling d l -> NoDup (map fst l).
  Proof using Parsed.
    clear severity_of kept.
    assert (T : forall v l, distinct v -> is_table (is_profile lower) v l -> NoDup (map fst l)).
    { intros v l' D (t & -> & F). apply distinct_nodup in D. assert (E : map fst t = map fst l'); [|now rewrite <- E].
      clear D. induction F as [|e x t' l' (H & _) F IH]; [reflexivity|]. cbn [map]. now rewrite H, IH. }
    intros D [l' E H|s t l' E H M P H'].
    - destruct H as [(v & S & H)|(_ & ->)]; [|constructor]. apply (T v); [now apply (says_distinct d [bs "hemtt"; bs "launch"])|exact H].
    - apply (T (TTable t)); [now apply (Parsed s)|exact H'].
  Qed.

  (** The settings of a project are what its files say. *)
  Theorem C93_project sibling fuel p : read_project fuel sibling = Done p ->
    exists s s' t l g, sibling (bs "project.toml") = Holds s /\ renamed s s' /\ parse s' = Some t /\ well_kinded (TTable t) /\
      launch_from sibling (TTable t) l /\ lints_from sibling (TTable t) g /\ p_prefix p <> [] /\ is_project (TTable t) l g p.
  Proof using Parsed.
    unfold SettingsModel.read_project. destruct (sibling (bs "project.toml")) as [| |s]; try discriminate.
    destruct (parse _) as [t|] eqn:P; [|discriminate]. assert (D := Parsed _ _ P). destruct (d_project _ _ _ t) as [f|] eqn:F; [|discriminate].
    pose proof (file_is lower severity_of kept t f D F) as I. pose proof (file_fits lower severity_of kept t f D F) as K.
    unfold finish. destruct (f_prefix f) as [|c r] eqn:NE; [discriminate|]. destruct (launch_source _ _ sibling _) as [l|] eqn:L; [|discriminate].
    apply (launch_is sibling (TTable t) _ l D (i_launch _ _ _ _ _ I)) in L. destruct (load fuel l) as [r'| |] eqn:LD; try discriminate.
    pose proof (names_distinct _ _ _ D L) as ND. pose proof (C77_loaded_profiles l fuel r' ND LD) as LS.
    destruct (try_into (f_version f)) as [v|] eqn:V; [|discriminate].
    destruct (lints_source _ _ _ sibling _) as [g|] eqn:G; [|discriminate]. apply (lints_read sibling (TTable t) _ g D (i_lints _ _ _ _ _ I)) in G.
    intros X. injection X as <-. exists s, (replace (bs "[hemtt.launch]") (bs "[hemtt.launch.default]") s), t, l, g.
    split; [reflexivity|]. split; [now apply renamed_is|]. split; [exact P|]. split; [exact K|]. split; [exact L|]. split; [exact G|]. split; [cbn; discriminate|].
    destruct I. constructor; cbn [p_name p_prefix p_mainprefix p_version p_properties p_include p_exclude p_lints p_check_pdrive p_dev_exclude p_launch p_optional_mod_folders p_build_pdrive p_folder p_sign p_archive p_sign_version p_authority].
    all: try assumption. all: try (now apply maybe_given). all: try reflexivity.
    - rewrite NE in i_prefix. exact i_prefix.
    - exists (f_version f). split; [assumption|]. destruct (try_into_eq _ _ V) as (A & B & C). split; [exact B|]. split; [exact A|].
      assert (CA : complete (f_version f) \/ absent (f_version f)) by (apply C85_settings; eauto).
      destruct C as [C|(ma & mi & pa & E1 & E2 & E3 & E4)]; [now right|]. left. split; [|eauto 10].
      destruct CA as [CA|(CA & _)]; [exact CA|congruence].
    - exists (f_include f). split; [assumption|apply included_is].
  Qed.

  (** The projects that are accepted. *)
  Theorem C93_accepted sibling : (exists fuel p, read_project fuel sibling = Done p) <->
    exists s s' t l g v, sibling (bs "project.toml") = Holds s /\ renamed s s' /\ parse s' = Some t /\ well_kinded (TTable t) /\
      ~ says (TTable t) [bs "prefix"] (TStr []) /\ is_version (TTable t) v /\ (complete v \/ absent v) /\
      launch_from sibling (TTable t) l /\ (forall k, LaunchModel.get l k <> None -> exists line_, line l k line_) /\ lints_from sibling (TTable t) g.
  Proof using Parsed.
    split.
    - intros (fuel & p & R). pose proof (C93_project sibling fuel p R) as (s & s' & t & l & g & E & RN & P & K & L & G & NE & I). assert (D := Parsed _ _ P).
      destruct (of_version _ _ _ _ _ I) as (v & V & _ & _ & C). exists s, s', t, l, g, v.
      split; [exact E|]. split; [exact RN|]. split; [exact P|]. split; [exact K|]. split.
      { intros S. destruct (of_prefix _ _ _ _ _ I) as (w & W & X). pose proof (says_unique _ _ _ S D _ W). unfold is_str in X. congruence. }
      split; [exact V|]. split; [tauto|]. split; [exact L|]. split; [|exact G].
      destruct (of_launch _ _ _ _ _ I) as (NM & LN). intros k H. destruct (LaunchModel.get (p_launch p) k) as [o|] eqn:O.
      { apply LN in O as (line_ & LL & _). eauto. }
      exfalso. apply H. destruct (LaunchModel.get l k) as [q|] eqn:Q; [|reflexivity]. exfalso.
      apply in_get in Q. assert (M : In k (map fst (p_launch p))) by (rewrite NM; apply in_map_iff; now exists (k, q)).
      apply in_map_iff in M as ((k', o') & X & M). cbn in X. subst k'. apply get_in in M; [congruence|]. rewrite NM. now apply (names_distinct sibling (TTable t)).
    - intros (s & s' & t & l & g & v & E & RN & P & K & NE & V & C & L & H & G). assert (D := Parsed _ _ P). apply renamed_is in RN.
      destruct (fits_file lower severity_of kept t D K) as (f & F). pose proof (file_is lower severity_of kept t f D F) as I.
      assert (f_version f = v) by (apply (version_unique (TTable t)); [exact D|exact (i_version _ _ _ _ _ I)|exact V]).
      apply (launch_is sibling (TTable t) _ l D (i_launch _ _ _ _ _ I)) in L as L'. apply (lints_read sibling (TTable t) _ g D (i_lints _ _ _ _ _ I)) in G.
      destruct (proj2 (C77_accepted_profiles l (names_distinct _ _ _ D L)) H) as (fuel & r & LD). apply C85_settings in C as (c & C). subst v.
      exists fuel. unfold SettingsModel.read_project. rewrite E, <- RN, P, F. unfold finish.
      destruct (f_prefix f) eqn:FP.
      { destruct NE. destruct (i_prefix _ _ _ _ _ I) as (w & W & X). unfold is_str in X. congruence. }
      rewrite L', LD, C, G. eauto.
  Qed.

  (** The keys that count. *)
  Definition documented : list (list text) := [
    [bs "name"]; [bs "prefix"]; [bs "mainprefix"]; [bs "properties"]; [bs "files"; bs "include"]; [bs "files"; bs "exclude"];
    [bs "version"; bs "path"]; [bs "version"; bs "major"]; [bs "version"; bs "minor"]; [bs "version"; bs "patch"]; [bs "version"; bs "build"]; [bs "version"; bs "git_hash"];
    [bs "lints"; bs "config"]; [bs "lints"; bs "sqf"]; [bs "lints"; bs "stringtables"];
    [bs "hemtt"; bs "check"; bs "pdrive"]; [bs "hemtt"; bs "dev"; bs "exclude"]; [bs "hemtt"; bs "launch"];
    [bs "hemtt"; bs "build"; bs "optional_mod_folders"]; [bs "hemtt"; bs "build"; bs "pdrive"];
    [bs "hemtt"; bs "release"; bs "folder"]; [bs "hemtt"; bs "release"; bs "sign"]; [bs "hemtt"; bs "release"; bs "archive"];
    [bs "signing"; bs "version"]; [bs "signing"; bs "authority"]].
  Definition the_sections : list (list text) :=
    [[bs "version"]; [bs "files"]; [bs "lints"]; [bs "hemtt"]; [bs "hemtt"; bs "check"]; [bs "hemtt"; bs "dev"]; [bs "hemtt"; bs "build"]; [bs "hemtt"; bs "release"]; [bs "signing"]].

  Ltac listed := unfold documented; cbn [In app]; repeat first [left; reflexivity|right].
  Ltac each := intros p I; cbn [In] in I; repeat (destruct I as [<-|I]; [listed|]); destruct I.
  Section Agree.
    Context (d d' : toml) (A : forall p v, In p documented -> (says d p v <-> says d' p v)).
    Lemma agree_unsaid p : In p documented -> unsaid d p <-> unsaid d' p.
    Proof using A. intros I. split; intros U v S; apply (U v), (A p v I), S. Qed.
    Lemma agree_given {B} (P : toml -> B -> Prop) p y x : In p documented -> given P d p y x -> given P d' p y x.
    Proof using A. intros I [(v & S & H)|(U & ->)]; [left; exists v; split; [now apply A|exact H]|right; split; [now apply agree_unsaid|reflexivity]]. Qed.
    Lemma agree_maybe {B} (P : toml -> B -> Prop) p x : In p documented -> maybe P d p x -> maybe P d' p x.
    Proof using A. intros I [(v & a & S & H & ->)|(U & ->)]; [left; exists v, a; split; [now apply A|auto]|right; split; [now apply agree_unsaid|reflexivity]]. Qed.
    Lemma agree_fits {B} (P : toml -> B -> Prop) p : In p documented -> fits P d p -> fits P d' p.
    Proof using A. intros I H v S. apply H. now apply A. Qed.
    Lemma agree_kinds : sections d' the_sections -> well_kinded d -> well_kinded d'.
    Proof using A.
      intros S [K0 (K1 & K2) K3 K4 K5 K6 K7 K8 K9 K10 K11 K12]. constructor; [exact S| | | | | | | | | | | ].
      - split; intros U; [apply K1|apply K2]; (apply agree_unsaid; [listed|exact U]).
      - intros p I. apply agree_fits; [|now apply K3]. revert p I. each.
      - intros p I. apply agree_fits; [|now apply K4]. revert p I. each.
      - intros p I. apply agree_fits; [|now apply K5]. revert p I. each.
      - intros p I. apply agree_fits; [|now apply K6]. revert p I. each.
      - apply agree_fits; [listed|exact K7].
      - intros p I. apply agree_fits; [|now apply K8]. revert p I. each.
      - apply agree_fits; [listed|exact K9].
      - apply agree_fits; [listed|exact K10].
      - apply agree_fits; [listed|exact K11].
      - intros p I. apply agree_fits; [|now apply K12]. revert p I. each.
    Qed.
    Lemma agree_file f : is_file lower severity_of kept d f -> is_file lower severity_of kept d' f.
    Proof using A.
      intros []. constructor; try (apply agree_given; [listed|assumption]); try (apply agree_maybe; [listed|assumption]).
      - destruct i_name as (v & S & H). exists v. split; [apply A; [listed|exact S]|exact H].
      - destruct i_prefix as (v & S & H). exists v. split; [apply A; [listed|exact S]|exact H].
      - destruct i_version. constructor; (apply agree_maybe; [listed|assumption]).
      - destruct i_lints. constructor; (apply agree_given; [listed|assumption]).
    Qed.
  End Agree.
  Lemma file_unique d f f' : distinct d -> is_file lower severity_of kept d f -> is_file lower severity_of kept d f' -> f = f'.
  Proof.
    clear Parsed parse. intros D [] []. 
    assert (S : forall p x y, (exists v, says d p v /\ is_str v x) -> (exists v, says d p v /\ is_str v y) -> x = y).
    { intros p x y (v & S & E) (w & S' & E'). pose proof (says_unique _ _ _ S D _ S'). unfold is_str in *. congruence. }
    destruct f as [x0 x1 x2 x3 x4 x5 x6 x7 x8 x9 x10 x11 x12 x13 x14 x15 x16 x17], f' as [y0 y1 y2 y3 y4 y5 y6 y7 y8 y9 y10 y11 y12 y13 y14 y15 y16 y17]. cbn [f_name f_prefix f_mainprefix f_version f_properties f_include f_exclude f_lints f_check_pdrive f_dev_exclude f_launch f_optional_mod_folders f_build_pdrive f_folder f_sign f_archive f_sign_version f_authority] in *.
    assert (x0 = y0) as -> by exact (S _ _ _ i_name i_name0).
    assert (x1 = y1) as -> by exact (S _ _ _ i_prefix i_prefix0).
    assert (x2 = y2) as -> by exact (maybe_unique _ _ _ _ _ _ (always _ _ r_str) D i_mainprefix i_mainprefix0).
    assert (x3 = y3) as -> by exact (version_unique d _ _ D i_version i_version0).
    assert (x4 = y4) as -> by exact (given_unique _ _ _ _ _ _ _ (r_map _ _ (always _ _ r_str)) D i_properties i_properties0).
    assert (x5 = y5) as -> by exact (given_unique _ _ _ _ _ _ _ (always _ _ r_strings) D i_include i_include0).
    assert (x6 = y6) as -> by exact (given_unique _ _ _ _ _ _ _ (always _ _ r_strings) D i_exclude i_exclude0).
    assert (x7 = y7) as -> by exact (lints_unique d _ _ _ D i_lints i_lints0).
    assert (x8 = y8) as -> by exact (maybe_unique _ _ _ _ _ _ (always _ _ (r_pdrive lower)) D i_check i_check0).
    assert (x9 = y9) as -> by exact (given_unique _ _ _ _ _ _ _ (always _ _ r_strings) D i_dev i_dev0).
    assert (x10 = y10) as -> by exact (given_unique _ _ _ _ _ _ _ (r_map _ _ (r_profile lower)) D i_launch i_launch0).
    assert (x11 = y11) as -> by exact (maybe_unique _ _ _ _ _ _ (always _ _ r_bool) D i_folders i_folders0).
    assert (x12 = y12) as -> by exact (maybe_unique _ _ _ _ _ _ (always _ _ (r_pdrive lower)) D i_pdrive i_pdrive0).
    assert (x13 = y13) as -> by exact (maybe_unique _ _ _ _ _ _ (always _ _ r_str) D i_folder i_folder0).
    assert (x14 = y14) as -> by exact (maybe_unique _ _ _ _ _ _ (always _ _ r_bool) D i_sign i_sign0).
    assert (x15 = y15) as -> by exact (maybe_unique _ _ _ _ _ _ (always _ _ r_bool) D i_archive i_archive0).
    assert (x16 = y16) as -> by exact (maybe_unique _ _ _ _ _ _ (always _ _ r_signs) D i_signs i_signs0).
    assert (x17 = y17) as -> by exact (maybe_unique _ _ _ _ _ _ (always _ _ r_str) D i_authority i_authority0).
    reflexivity.
  Qed.
  (** No other key of project.toml counts, wherever it stands. *)
  Theorem C93_unknown_keys sibling sibling' s s' t t' fuel :
    (forall n, n <> bs "project.toml" -> sibling n = sibling' n) ->
    sibling (bs "project.toml") = Holds s -> sibling' (bs "project.toml") = Holds s' ->
    (forall q, renamed s q -> parse q = Some t) -> (forall q, renamed s' q -> parse q = Some t') ->
    sections (TTable t) the_sections -> sections (TTable t') the_sections ->
    (forall p v, In p documented -> (says (TTable t) p v <-> says (TTable t') p v)) ->
    read_project fuel sibling = read_project fuel sibling'.
  Proof using Parsed.
    intros SB E E' P P' S S' A. unfold SettingsModel.read_project. rewrite E, E', (P _ (proj2 (renamed_is _ _) eq_refl)), (P' _ (proj2 (renamed_is _ _) eq_refl)).
    assert (D := Parsed _ _ (P _ (proj2 (renamed_is _ _) eq_refl))). assert (D' := Parsed _ _ (P' _ (proj2 (renamed_is _ _) eq_refl))).
    assert (F : d_project lower severity_of kept t = d_project lower severity_of kept t').
    { assert (A' : forall p v, In p documented -> (says (TTable t') p v <-> says (TTable t) p v)) by (intros p v I; symmetry; now apply A).
      destruct (d_project _ _ _ t) as [f|] eqn:F.
      - destruct (fits_file lower severity_of kept t' D' (agree_kinds _ _ A S' (file_fits _ _ _ _ _ D F))) as (f' & F'). rewrite F'. f_equal.
        apply (file_unique (TTable t') _ _ D'); [|now apply file_is]. apply (agree_file _ _ A). now apply file_is.
      - destruct (d_project _ _ _ t') as [f'|] eqn:F'; [|reflexivity].
        destruct (fits_file lower severity_of kept t D (agree_kinds _ _ A' S (file_fits _ _ _ _ _ D' F'))) as (f & X). congruence. }
    rewrite F. destruct (d_project _ _ _ t') as [f|]; [|reflexivity]. unfold finish, launch_source, lints_source.
    rewrite (SB (bs "launch.toml")), (SB (bs "lints.toml")); [reflexivity|discriminate|discriminate].
  Qed.

  Lemma given_maybe {A} (P : toml -> A -> Prop) d p y x : given P d p y x -> exists o, maybe P d p o /\ x = match o with Some a => a | None => y end.
  Proof. clear. intros [(v & S & H)|(U & ->)]; [exists (Some x); split; [left; eauto|reflexivity]|exists None; split; [right; auto|reflexivity]]. Qed.
  Lemma addon_is t a : distinct (TTable t) -> (d_addon t = Some a <-> is_addon (TTable t) a).
  Proof.
    clear. intros D. unfold d_addon. split.
    - repeat (match goal with |- (match ?a with Some _ => _ | None => None end) = _ -> _ => destruct a eqn:? end; [|discriminate]). intros [= <-].
      match goal with E : rapify_section t = Some ?r |- _ => rename E into RS; rename r into rs end.
      assert (N : exists name other, (name = bs "rapify" /\ other = bs "preprocess" \/ name = bs "preprocess" /\ other = bs "rapify") /\ lookup t other = None /\ section t name = Some rs).
      { unfold rapify_section in RS. destruct (lookup t (bs "rapify")) eqn:L1, (lookup t (bs "preprocess")) eqn:L2; try discriminate.
        - exists (bs "rapify"), (bs "preprocess"). auto.
        - exists (bs "preprocess"), (bs "rapify"). auto.
        - exists (bs "rapify"), (bs "preprocess"). auto. }
      destruct N as (name & other & NO & LO & SN). pose proof (section_distinct t rs name D SN) as Drs.
      match goal with H : section t (bs "binarize") = Some _ |- _ => rename H into S2 end. match goal with H : section t (bs "files") = Some _ |- _ => rename H into S3 end.
      pose proof (section_distinct t _ _ D S2) as D2. pose proof (section_distinct t _ _ D S3) as D3.
      constructor; cbn [a_rapify a_rapify_exclude a_binarize a_binarize_exclude a_properties a_exclude].
      + exists name, other. split; [exact NO|]. split; [now apply (unsaid_one t D)|]. split.
        { intros p v [<-|[]] S. exact (section_table t name rs v D SN S). }
        split; [apply maybe_given, (section_maybe t rs name D SN), (opt_maybe rs Drs d_bool is_bool (always _ _ r_bool)); assumption|].
        apply (section_given t rs name D SN), (dflt_given rs Drs _ _ (always _ _ r_strings)). assumption.
      + intros p v [<-|[<-|[]]] S; (eapply section_table; [exact D| |exact S]; eassumption).
      + apply maybe_given, (section_maybe t _ _ D S2), (opt_maybe _ D2 d_bool is_bool (always _ _ r_bool)). assumption.
      + do 2 eexists. split; [|split; [|reflexivity]].
        * apply (section_given t _ _ D S2), (dflt_given _ D2 _ _ (always _ _ r_strings)). eassumption.
        * apply (dflt_given t D _ _ (always _ _ r_strings)). eassumption.
      + apply (dflt_given t D _ _ (r_map _ _ (always _ _ r_str))). assumption.
      + do 2 eexists. split; [|split; [|reflexivity]].
        * apply (section_given t _ _ D S3), (dflt_given _ D3 _ _ (always _ _ r_strings)). eassumption.
        * apply (dflt_given t D _ _ (always _ _ r_strings)). eassumption.
    - intros [(name & other & NO & U & SN & RE & RX) SS BE (bx & nb & BX & NB & EB) PR (fx & old & FX & OL & EF)].
      destruct (section t name) as [rs|] eqn:S1; [|exfalso; revert S1; apply (section_some t name D); intros v; apply SN; now left].
      destruct (section t (bs "binarize")) as [b|] eqn:S2; [|exfalso; revert S2; apply (section_some t _ D); intros v; apply SS; now left].
      destruct (section t (bs "files")) as [f|] eqn:S3; [|exfalso; revert S3; apply (section_some t _ D); intros v; apply SS; right; now left].
      assert (RS : rapify_section t = Some rs).
      { apply (unsaid_one t D) in U. unfold rapify_section. destruct NO as [(-> & ->)|(-> & ->)]; rewrite U.
        - now destruct (lookup t (bs "rapify")).
        - destruct (lookup t (bs "preprocess")) eqn:L; [exact S1|]. unfold section in S1 |- *. now rewrite U; rewrite L in S1. }
      pose proof (section_distinct t rs name D S1) as D1. pose proof (section_distinct t b _ D S2) as D2. pose proof (section_distinct t f _ D S3) as D3.
      rewrite RS. apply given_maybe in RE as (re & RE & E1), BE as (be & BE & E2).
      apply (section_maybe t rs name D S1), (opt_maybe rs D1 d_bool is_bool (always _ _ r_bool)) in RE. rewrite RE.
      apply (section_given t rs name D S1), (dflt_given rs D1 _ _ (always _ _ r_strings)) in RX. rewrite RX.
      apply (dflt_given t D _ _ (always _ _ r_strings)) in NB, OL. rewrite NB.
      apply (section_maybe t b _ D S2), (opt_maybe b D2 d_bool is_bool (always _ _ r_bool)) in BE. rewrite BE.
      apply (section_given t b _ D S2), (dflt_given b D2 _ _ (always _ _ r_strings)) in BX. rewrite BX.
      apply (dflt_given t D _ _ (r_map _ _ (always _ _ r_str))) in PR. rewrite PR, OL.
      apply (section_given t f _ D S3), (dflt_given f D3 _ _ (always _ _ r_strings)) in FX. rewrite FX.
      destruct a as [a1 a2 a3 a4 a5 a6]. cbn [a_rapify a_rapify_exclude a_binarize a_binarize_exclude a_properties a_exclude] in *. now subst.
  Qed.
  (** The settings of an addon are what its addon.toml says. *)
  Theorem C93_addon s a : addon_of parse s = inl a <-> exists t, parse s = Some t /\ is_addon (TTable t) a /\ forall x y, s <> x ++ bs "preprocess = " ++ y /\ s <> x ++ bs "preprocess=" ++ y.
  Proof using Parsed.
    clear lower severity_of kept. unfold addon_of. split.
    - destruct (parse s) as [t|] eqn:P; [|discriminate]. destruct (d_addon t) as [a'|] eqn:E; [|discriminate].
      destruct (mentions (bs "preprocess = ") s) eqn:M1; [discriminate|]. destruct (mentions (bs "preprocess=") s) eqn:M2; [discriminate|].
      intros X. assert (a' = a) as -> by (injection X; auto). exists t. split; [reflexivity|]. split; [apply addon_is; [now apply (Parsed s)|exact E]|].
      intros x y. split; now apply no_mention.
    - intros (t & P & I & M). rewrite P. apply addon_is in I; [|now apply (Parsed s)]. rewrite I.
      rewrite (proj2 (no_mention (bs "preprocess = ") s)), (proj2 (no_mention (bs "preprocess=") s)); [reflexivity|intros x y; apply M..].
  Qed.
  (** Without the file an addon has no settings of its own; a file that cannot be read, or is refused, is not passed over. *)
  Theorem C93_addon_file x r : read_addon parse x = inl r <->
    x = Absent /\ r = None \/ exists s t a, x = Holds s /\ r = Some a /\ parse s = Some t /\ is_addon (TTable t) a /\ forall u v, s <> u ++ bs "preprocess = " ++ v /\ s <> u ++ bs "preprocess=" ++ v.
  Proof using Parsed.
    unfold read_addon. destruct x as [| |s].
    - split; [intros [= <-]; now left|]. intros [(_ & ->)|(s & t & a & X & _)]; [reflexivity|discriminate].
    - split; [discriminate|]. intros [(X & _)|(s & t & a & X & _)]; discriminate.
    - destruct (addon_of parse s) as [a|e] eqn:A.
      + split.
        * intros H. right. apply C93_addon in A as (t & P & I & M). exists s, t, a. split; [reflexivity|]. split; [congruence|]. auto.
        * intros [(X & _)|(s' & t & a' & X & -> & P & I & M)]; [discriminate|]. assert (s' = s) as -> by congruence.
          assert (Y : addon_of parse s = inl a') by (apply C93_addon; eauto). congruence.
      + split; [discriminate|]. intros [(X & _)|(s' & t & a' & X & -> & P & I & M)]; [discriminate|]. assert (s' = s) as -> by congruence.
        assert (Y : addon_of parse s = inl a') by (apply C93_addon; eauto). congruence.
  Qed.
End Settings.

Print Assumptions C93_addon_file.
Print Assumptions C93_project.
Print Assumptions C93_accepted.
Print Assumptions C93_unknown_keys.
Print Assumptions C93_addon.

(** ** Cases *)
Definition key (s : string) : text := bs s.
Definition str (s : string) : toml := TStr (bs s).
(** A parser that knows some texts. *)
Fixpoint knows (l : list (text * list (text * toml))) (s : text) : option (list (text * toml)) :=
  match l with [] => None | (q, t) :: l => if eqb_bytes s q then Some t else knows l s end.
Fixpoint folder_of (l : list (text * text)) (n : text) : answer :=
  match l with [] => Absent | (k, s) :: l => if eqb_bytes n k then Holds s else folder_of l n end.
Lemma knows_in l s t : knows l s = Some t -> exists q, In (q, t) l.
Proof. induction l as [|(q & u) l IH]; cbn [knows]; [discriminate|]. destruct (eqb_bytes s q); [intros [= ->]; exists q; now left|]. intros H. destruct (IH H) as (x & I). exists x. now right. Qed.
Ltac keys := repeat (constructor; [cbn; intuition discriminate|]); constructor.
Ltac plain := apply distinct_other; discriminate.
Ltac tables := apply distinct_table; [keys|intros ? ? I; cbn [In] in I; repeat (destruct I as [I|I]; [apply (f_equal snd) in I; cbn [snd] in I; subst; first [plain|tables]|]); destruct I].

Definition words : text := bs "name = ...".
Definition doc : list (text * toml) := [
  (key "name", str "Advanced Banana Environment"); (key "prefix", str "abe"); (key "unknown", TOther);
  (key "files", TTable [(key "include", TArr [str "README.md"; str "/LICENSE"])]);
  (key "version", TTable [(key "major", TInt 1); (key "minor", TInt 2); (key "patch", TInt 0); (key "git_hash", TInt 0)]);
  (key "hemtt", TTable [
    (key "launch", TTable [(key "default", TTable [(key "workshop", TArr [str "450814997"]); (key "dlc", TArr [str "Creator DLC: Western Sahara"])]); (key "ace", TTable [(key "extends", str "default"); (key "instances", TInt 2)])]);
    (key "build", TTable [(key "pdrive", str "Require")]); (key "release", TTable [(key "sign", TBool false)])]);
  (key "signing", TTable [(key "version", TInt 2)])].
Definition case_parse := knows [(words, doc)].
Definition case_folder := folder_of [(bs "project.toml", words)].
Definition no_severity (s : text) : option severity := None.
Lemma case_parsed : forall s t, case_parse s = Some t -> distinct (TTable t).
Proof. intros s t H. apply knows_in in H as (q & [[= <- <-]|[]]). unfold doc. tables. Qed.
Example C93_case : exists p, read_project ascii_lower no_severity (fun _ => []) case_parse 10 case_folder = Done p /\
  p_name p = bs "Advanced Banana Environment" /\ p_prefix p = bs "abe" /\ defined (p_version p) = Some (1, 2, 0, None) /\ p_build_pdrive p = Require_ /\ p_check_pdrive p = Ignore /\
  p_folder p = bs "abe" /\ p_sign p = false /\ p_archive p = true /\ p_sign_version p = V2 /\
  p_include p = [bs "/LICENSE"; bs "/README.md"; bs "/logo_ca.paa"; bs "/logo_co.paa"; bs "/meta.cpp"; bs "/mod.cpp"] /\
  option_map (fun o => (workshop o, dlc o, instances o)) (LaunchModel.get (p_launch p) (bs "ace")) = Some ([bs "450814997"], [4], Some 2).
Proof. eexists. split; [vm_compute; reflexivity|]. vm_compute. repeat split. Qed.
Example C93_case_accepted : exists s s' t l g v, case_folder (bs "project.toml") = Holds s /\ renamed s s' /\ case_parse s' = Some t /\ well_kinded ascii_lower no_severity (fun _ => []) (TTable t) /\
  ~ says (TTable t) [bs "prefix"] (TStr []) /\ is_version (TTable t) v /\ (complete v \/ absent v) /\
  launch_from ascii_lower case_parse case_folder (TTable t) l /\ (forall k, LaunchModel.get l k <> None -> exists line_, line l k line_) /\ lints_from no_severity (fun _ => []) case_parse case_folder (TTable t) g.
Proof. apply C93_accepted; [exact case_parsed|]. destruct C93_case as (p & H & _). eauto. Qed.

(** Lints of stringtables in project.toml are dropped without a word if there is a lints.toml. *)
Definition lint_words : text := bs "[config.c01]".
Definition stringtable_doc (more : list (text * toml)) : list (text * toml) := [(key "name", str "a"); (key "prefix", str "a"); (key "lints", TTable more)].
Definition lints_in (section_ : string) : list (text * toml) := [(key section_, TTable [(key "sorted", TBool false)])].
Theorem C93_stringtable_lints_refuted :
  let folder := folder_of [(bs "project.toml", words); (bs "lints.toml", lint_words)] in
  let read section_ := read_project ascii_lower no_severity (fun _ => []) (knows [(words, stringtable_doc (lints_in section_)); (lint_words, [(key "config", TTable [(key "c01", TBool true)])])]) 10 folder in
  (exists p, read "stringtables"%string = Done p /\ l_stringtables (p_lints p) = []) /\ read "sqf"%string = Refused LintsConflict /\ read "config"%string = Refused LintsConflict.
Proof. cbv zeta. split; [|split; vm_compute; reflexivity]. eexists. split; [vm_compute; reflexivity|reflexivity]. Qed.

(** The old name of the launch section is replaced in strings as well. *)
Theorem C93_replaced_in_strings_refuted : forall lower severity_of kept parse,
  let text_ n := bs "name = '" ++ n ++ bs "'" in let doc_ n := [(key "name", TStr n); (key "prefix", str "a")] in
  (forall n, parse (text_ n) = Some (doc_ n)) ->
  exists n p, read_project lower severity_of kept parse 1 (folder_of [(bs "project.toml", text_ n)]) = Done p /\ p_name p <> n.
Proof.
  intros lower severity_of kept parse text_ doc_ H. exists (bs "[hemtt.launch]"). eexists. split.
  - unfold read_project. change (folder_of _ _) with (Holds (text_ (bs "[hemtt.launch]"))). cbv beta iota.
    assert (E : replace (bs "[hemtt.launch]") (bs "[hemtt.launch.default]") (text_ (bs "[hemtt.launch]")) = text_ (bs "[hemtt.launch.default]")) by (vm_compute; reflexivity).
    rewrite E, H. vm_compute. reflexivity.
  - vm_compute. discriminate.
Qed.

(** A comment can make an addon.toml refused. *)
Theorem C93_comment_refuted : forall parse, let s := bs "# preprocess = {}" in parse s = Some [] ->
  addon_of parse s = inr Misplaced /\ is_addon (TTable []) (Addon true [] true [] [] []).
Proof.
  intros parse s H. split; [unfold addon_of; rewrite H; reflexivity|]. apply addon_is; [apply distinct_table; [constructor|intros ? ? []]|reflexivity].
Qed.
Example C93_addon_case : let t := [(key "no_bin", TArr [str "*.p3d"]); (key "preprocess", TTable [(key "enabled", TBool false)]); (key "binarize", TTable [(key "exclude", TArr [str "a.rtm"])])] in
  addon_of (knows [(bs "[preprocess]", t)]) (bs "[preprocess]") = inl (Addon false [] true [bs "a.rtm"; bs "*.p3d"] [] []) /\
  read_addon (knows []) Absent = inl None.
Proof. vm_compute. repeat split. Qed.

Print Assumptions C93_stringtable_lints_refuted.
Print Assumptions C93_replaced_in_strings_refuted.
Print Assumptions C93_comment_refuted.
