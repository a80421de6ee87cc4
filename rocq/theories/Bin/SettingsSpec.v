(** Specification vocabulary for C93: what a settings file says. *)
From Coq Require Import String ZArith Sorting.Sorted.
From Verif Require Import Base.Tactics Base.Bytes Base.Ascii Base.Text Base.Sort.
From Verif Require Import Common.LaunchModel Common.LaunchSpec Common.ProjectVersionModel Common.ProjectVersionSpec Bin.ExecModel.
From Verif Require Import Bin.SettingsModel.
From Verif Require Bin.LintModel.
Local Open Scope N_scope.
Local Open Scope list_scope.

(** [says v path x]: in the document [v], under the keys [path], stands [x]. *)
Inductive says : toml -> list text -> toml -> Prop :=
| says_here v : says v [] v
| says_below t k v path x : In (k, v) t -> says v path x -> says (TTable t) (k :: path) x.
(** No table has a key twice, as TOML wants it. *)
Inductive distinct : toml -> Prop :=
| distinct_table t : NoDup (map fst t) -> (forall k v, In (k, v) t -> distinct v) -> distinct (TTable t)
| distinct_other v : (forall t, v <> TTable t) -> distinct v.

(** The kinds of values. *)
Definition is_str (v : toml) (s : text) : Prop := v = TStr s.
Definition is_bool (v : toml) (b : bool) : Prop := v = TBool b.
Definition is_num (bound : N) (v : toml) (n : N) : Prop := v = TInt (Z.of_N n) /\ n < bound.
Definition is_list {A} (P : toml -> A -> Prop) (v : toml) (l : list A) : Prop := exists vs, v = TArr vs /\ Forall2 P vs l.
Definition is_table {A} (P : toml -> A -> Prop) (v : toml) (m : list (text * A)) : Prop :=
  exists t, v = TTable t /\ Forall2 (fun e x => fst e = fst x /\ P (snd e) (snd x)) t m.
Definition is_signs (v : toml) (s : signs) : Prop := v = TInt 2 /\ s = V2 \/ v = TInt 3 /\ s = V3.

(** What a key gives: what stands there, or without it the default. *)
Definition unsaid (d : toml) (path : list text) : Prop := forall v, ~ says d path v.
Definition given {A} (P : toml -> A -> Prop) (d : toml) (path : list text) (default x : A) : Prop :=
  (exists v, says d path v /\ P v x) \/ unsaid d path /\ x = default.
Definition maybe {A} (P : toml -> A -> Prop) (d : toml) (path : list text) (x : option A) : Prop :=
  (exists v a, says d path v /\ P v a /\ x = Some a) \/ unsaid d path /\ x = None.
(** A key that may be missing but has a value of its kind if it is there; a section. *)
Definition fits {A} (P : toml -> A -> Prop) (d : toml) (path : list text) : Prop := forall v, says d path v -> exists x, P v x.
Definition sections (d : toml) (paths : list (list text)) : Prop := forall p v, In p paths -> says d p v -> exists t, v = TTable t.

Section Kinds.
  Context (lower : text -> text) (severity_of : text -> option severity) (kept : toml -> bytes).
  Definition is_pdrive (v : toml) (p : pdrive) : Prop :=
    exists s, v = TStr s /\ (lower s = bs "disallow" /\ p = Disallow \/ lower s = bs "require" /\ p = Require_ \/ lower s = bs "ignore" /\ p = Ignore).
  (** A DLC by its number, its short name or its name, with or without its kind before it. *)
  Definition is_dlc (v : toml) (d : N) : Prop :=
    exists s n names name, v = TStr s /\ nth_error [
      ["1021790"; "contact"]; ["1042220"; "gm"; "global mobilization"; "global mobilization - cold war germany"];
      ["1227700"; "vn"; "sog"; "prairie fire"; "s.o.g. prairie fire"]; ["1294440"; "csla"; "iron curtain"; "csla iron curtain"];
      ["1681170"; "ws"; "western sahara"]; ["1175380"; "spe"; "spearhead"; "spearhead 1944"]; ["2647760"; "rf"; "reaction forces"];
      ["2647830"; "ef"; "expeditionary forces"]]%string (N.to_nat d) = Some names /\ In name names /\
      lower s = concat (repeat (bs "creator dlc: ") n) ++ bs name.
  Definition is_severity (v : toml) (x : severity) : Prop := exists s, v = TStr s /\ severity_of s = Some x.
  (** A lint: switched on or off, a severity, or a table. *)
  Inductive is_lint : toml -> LintModel.override -> Prop :=
  | lint_switch b : is_lint (TBool b) (LintModel.Override (Some b) None [])
  | lint_severity s x : severity_of s = Some x -> is_lint (TStr s) (LintModel.Override None (Some x) [])
  | lint_table t e s o : maybe is_bool (TTable t) [bs "enabled"] e -> maybe is_severity (TTable t) [bs "severity"] s ->
      given (is_table (fun v b => b = kept v)) (TTable t) [bs "options"] [] o -> is_lint (TTable t) (LintModel.Override e s o).
  Definition strings := is_list is_str.
  Inductive is_profile : toml -> profile -> Prop :=
  | a_profile t p : let d := TTable t in let o := own p in
      maybe is_str d [bs "extends"] (extends p) -> given strings d [bs "workshop"] [] (workshop o) -> given (is_list is_dlc) d [bs "dlc"] [] (dlc o) ->
      given strings d [bs "presets"] [] (presets o) -> given strings d [bs "optionals"] [] (optionals o) -> given strings d [bs "parameters"] [] (parameters o) ->
      maybe is_str d [bs "mission"] (mission o) -> maybe is_str d [bs "executable"] (executable o) -> maybe is_bool d [bs "binarize"] (binarize o) ->
      maybe is_bool d [bs "file_patching"] (file_patching o) -> maybe (is_num (2 ^ 8)) d [bs "instances"] (instances o) -> maybe is_bool d [bs "rapify"] (rapify o) ->
      is_profile d p.
  Record is_lints (d : toml) (root : list text) (g : lint_group) : Prop := {
    of_config : given (is_table is_lint) d (root ++ [bs "config"]) [] (l_config g);
    of_sqf : given (is_table is_lint) d (root ++ [bs "sqf"]) [] (l_sqf g);
    of_stringtables : given (is_table is_lint) d (root ++ [bs "stringtables"]) [] (l_stringtables g) }.
  Record is_version (d : toml) (s : ProjectVersionModel.section) : Prop := {
    of_path : maybe is_str d [bs "version"; bs "path"] (s_path s);
    of_major : maybe (is_num (2 ^ 32)) d [bs "version"; bs "major"] (s_major s);
    of_minor : maybe (is_num (2 ^ 32)) d [bs "version"; bs "minor"] (s_minor s);
    of_patch : maybe (is_num (2 ^ 32)) d [bs "version"; bs "patch"] (s_patch s);
    of_build : maybe (is_num (2 ^ 32)) d [bs "version"; bs "build"] (s_build s);
    of_git_hash : maybe (is_num (2 ^ 8)) d [bs "version"; bs "git_hash"] (s_git_hash s) }.

  (** The document of project.toml: every documented key that is there has a value of its kind; name and prefix are there. *)
  Record well_kinded (d : toml) : Prop := {
    k_sections : sections d [[bs "version"]; [bs "files"]; [bs "lints"]; [bs "hemtt"]; [bs "hemtt"; bs "check"]; [bs "hemtt"; bs "dev"]; [bs "hemtt"; bs "build"]; [bs "hemtt"; bs "release"]; [bs "signing"]];
    k_there : ~ unsaid d [bs "name"] /\ ~ unsaid d [bs "prefix"];
    k_strings : forall p, In p [[bs "name"]; [bs "prefix"]; [bs "mainprefix"]; [bs "version"; bs "path"]; [bs "hemtt"; bs "release"; bs "folder"]; [bs "signing"; bs "authority"]] -> fits is_str d p;
    k_switches : forall p, In p [[bs "hemtt"; bs "build"; bs "optional_mod_folders"]; [bs "hemtt"; bs "release"; bs "sign"]; [bs "hemtt"; bs "release"; bs "archive"]] -> fits is_bool d p;
    k_lists : forall p, In p [[bs "files"; bs "include"]; [bs "files"; bs "exclude"]; [bs "hemtt"; bs "dev"; bs "exclude"]] -> fits strings d p;
    k_numbers : forall p, In p [[bs "version"; bs "major"]; [bs "version"; bs "minor"]; [bs "version"; bs "patch"]; [bs "version"; bs "build"]] -> fits (is_num (2 ^ 32)) d p;
    k_git_hash : fits (is_num (2 ^ 8)) d [bs "version"; bs "git_hash"];
    k_pdrives : forall p, In p [[bs "hemtt"; bs "check"; bs "pdrive"]; [bs "hemtt"; bs "build"; bs "pdrive"]] -> fits is_pdrive d p;
    k_signs : fits is_signs d [bs "signing"; bs "version"];
    k_properties : fits (is_table is_str) d [bs "properties"];
    k_launch : fits (is_table is_profile) d [bs "hemtt"; bs "launch"];
    k_lints : forall p, In p [[bs "lints"; bs "config"]; [bs "lints"; bs "sqf"]; [bs "lints"; bs "stringtables"]] -> fits (is_table is_lint) d p }.

  (** The settings of a project: what its document [d] says, its launch profiles [l] (from it or from launch.toml) and its lints. *)
  Record is_project (d : toml) (l : profiles) (g : lint_group) (p : project) : Prop := {
    of_name : exists v, says d [bs "name"] v /\ is_str v (p_name p);
    of_prefix : exists v, says d [bs "prefix"] v /\ is_str v (p_prefix p);
    of_mainprefix : maybe is_str d [bs "mainprefix"] (p_mainprefix p);
    of_version : exists s, is_version d s /\ version_file s (path (p_version p)) /\ git_hash (p_version p) = (match s_git_hash s with Some n => n | None => 8 end) /\
      (complete s /\ (exists a b c, s_major s = Some a /\ s_minor s = Some b /\ s_patch s = Some c /\ defined (p_version p) = Some (a, b, c, s_build s)) \/
       absent s /\ defined (p_version p) = None);
    of_properties : given (is_table is_str) d [bs "properties"] [] (p_properties p);
    of_include : exists names, given strings d [bs "files"; bs "include"] [] names /\
      StronglySorted (fun a b => cmp_bytes a b = Lt) (p_include p) /\
      forall x, In x (p_include p) <-> In x [bs "/mod.cpp"; bs "/meta.cpp"; bs "/LICENSE"; bs "/logo_ca.paa"; bs "/logo_co.paa"] \/
        exists n, In n names /\ (x = n /\ (exists r, n = bs "/" ++ r) \/ x = bs "/" ++ n /\ ~ exists r, n = bs "/" ++ r);
    of_exclude : given strings d [bs "files"; bs "exclude"] [] (p_exclude p);
    of_lints : p_lints p = g;
    of_check : given is_pdrive d [bs "hemtt"; bs "check"; bs "pdrive"] Ignore (p_check_pdrive p);
    of_dev : given strings d [bs "hemtt"; bs "dev"; bs "exclude"] [] (p_dev_exclude p);
    of_launch : map fst (p_launch p) = map fst l /\ forall k o, LaunchModel.get (p_launch p) k = Some o <-> exists line_, line l k line_ /\ inherited line_ o;
    of_folders : given is_bool d [bs "hemtt"; bs "build"; bs "optional_mod_folders"] true (p_optional_mod_folders p);
    of_pdrive : given is_pdrive d [bs "hemtt"; bs "build"; bs "pdrive"] Ignore (p_build_pdrive p);
    of_folder : given is_str d [bs "hemtt"; bs "release"; bs "folder"] (p_prefix p) (p_folder p);
    of_sign : given is_bool d [bs "hemtt"; bs "release"; bs "sign"] true (p_sign p);
    of_archive : given is_bool d [bs "hemtt"; bs "release"; bs "archive"] true (p_archive p);
    of_signs : given is_signs d [bs "signing"; bs "version"] V3 (p_sign_version p);
    of_authority : maybe is_str d [bs "signing"; bs "authority"] (p_authority p) }.

  (** The launch profiles: those of the document, or those of launch.toml; not both. *)
  Inductive launch_from (parse : text -> option (list (text * toml))) (sibling : text -> answer) (d : toml) : profiles -> Prop :=
  | profiles_here l : sibling (bs "launch.toml") = Absent -> given (is_table is_profile) d [bs "hemtt"; bs "launch"] [] l -> launch_from parse sibling d l
  | profiles_beside s t l : sibling (bs "launch.toml") = Holds s -> given (is_table is_profile) d [bs "hemtt"; bs "launch"] [] [] ->
      (forall a b, s <> a ++ bs "[hemtt.launch" ++ b) -> parse s = Some t -> is_table is_profile (TTable t) l -> launch_from parse sibling d l.
  (** The lints: those of the document, or those of lints.toml; not both, but for those of stringtables. *)
  Inductive lints_from (parse : text -> option (list (text * toml))) (sibling : text -> answer) (d : toml) : lint_group -> Prop :=
  | lints_here g : sibling (bs "lints.toml") = Absent -> is_lints d [bs "lints"] g -> lints_from parse sibling d g
  | lints_beside own s t g : sibling (bs "lints.toml") = Holds s -> is_lints d [bs "lints"] own -> l_config own = [] -> l_sqf own = [] ->
      (forall a b, s <> a ++ bs "[lints." ++ b) -> parse s = Some t -> is_lints (TTable t) [] g -> lints_from parse sibling d g.

  (** The settings of an addon. *)
  Record is_addon (d : toml) (a : addon_settings) : Prop := {
    of_rapify : exists name other, (name = bs "rapify" /\ other = bs "preprocess" \/ name = bs "preprocess" /\ other = bs "rapify") /\ unsaid d [other] /\
      sections d [[name]] /\ given is_bool d [name; bs "enabled"] true (a_rapify a) /\ given strings d [name; bs "exclude"] [] (a_rapify_exclude a);
    of_sections : sections d [[bs "binarize"]; [bs "files"]];
    of_binarize : given is_bool d [bs "binarize"; bs "enabled"] true (a_binarize a);
    of_binarize_exclude : exists x old, given strings d [bs "binarize"; bs "exclude"] [] x /\ given strings d [bs "no_bin"] [] old /\ a_binarize_exclude a = x ++ old;
    of_addon_properties : given (is_table is_str) d [bs "properties"] [] (a_properties a);
    of_addon_exclude : exists x old, given strings d [bs "files"; bs "exclude"] [] x /\ given strings d [bs "exclude"] [] old /\ a_exclude a = x ++ old }.
End Kinds.

(** The old name of a section, replaced wherever it stands in the text. *)
Inductive renamed : text -> text -> Prop :=
| renamed_end : renamed [] []
| renamed_old s s' : renamed s s' -> renamed (bs "[hemtt.launch]" ++ s) (bs "[hemtt.launch.default]" ++ s')
| renamed_same c s s' : (forall r, c :: s <> bs "[hemtt.launch]" ++ r) -> renamed s s' -> renamed (c :: s) (c :: s').
