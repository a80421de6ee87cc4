(** Model of how settings are read: libs/common/src/config/project/{mod,files,signing,lint,version}.rs,
    config/project/hemtt/{mod,check,dev,build,release,launch}.rs, config/pdrive.rs, config/addon/{mod,binarize,rapify,files}.rs,
    and the decoding of libs/common/src/sign_version.rs and arma/dlc.rs. *)
From Coq Require Import String ZArith.
From Verif Require Import Base.Tactics Base.Bytes Base.Ascii Base.Text Base.Sort.
From Verif Require Import Common.LaunchModel Common.ProjectVersionModel Bin.ExecModel Bin.BinarizeModel.
From Verif Require Bin.LintModel.
Local Open Scope N_scope.
Local Open Scope list_scope.

(** A TOML document after the toml crate has read it. Dates, times and floats are of no kind a setting has: [TOther]. *)
Inductive toml := TStr (s : text) | TInt (z : Z) | TBool (b : bool) | TOther | TArr (l : list toml) | TTable (t : list (text * toml)).
Notation table := (list (text * toml)) (only parsing).
Fixpoint lookup (t : table) (k : text) : option toml :=
  match t with [] => None | (k', v) :: t => if eqb_bytes k k' then Some v else lookup t k end.

(** What serde makes of a value ([None]: an error). Simplified: an array where a table of settings should be is an error here;
    serde would take its values in the order of the fields. *)
Definition d_str (v : toml) : option text := match v with TStr s => Some s | _ => None end.
Definition d_bool (v : toml) : option bool := match v with TBool b => Some b | _ => None end.
(** Numbers below [bound]: [u8], [u32]. *)
Definition d_num (bound : N) (v : toml) : option N :=
  match v with TInt z => if (0 <=? z)%Z && (z <? Z.of_N bound)%Z then Some (Z.to_N z) else None | _ => None end.
Fixpoint d_all {A} (d : toml -> option A) (l : list toml) : option (list A) :=
  match l with
  | [] => Some []
  | v :: l => match d v with Some x => match d_all d l with Some r => Some (x :: r) | None => None end | None => None end
  end.
Definition d_list {A} (d : toml -> option A) (v : toml) : option (list A) := match v with TArr l => d_all d l | _ => None end.
Fixpoint d_entries {A} (d : toml -> option A) (t : table) : option (list (text * A)) :=
  match t with
  | [] => Some []
  | (k, v) :: t => match d v with Some x => match d_entries d t with Some r => Some ((k, x) :: r) | None => None end | None => None end
  end.
Definition d_map {A} (d : toml -> option A) (v : toml) : option (list (text * A)) := match v with TTable t => d_entries d t | _ => None end.
(** A field of a struct: [Option], with a default, or without. *)
Definition opt {A} (t : table) (k : text) (d : toml -> option A) : option (option A) :=
  match lookup t k with None => Some None | Some v => match d v with Some x => Some (Some x) | None => None end end.
Definition dflt {A} (x : A) (t : table) (k : text) (d : toml -> option A) : option A := match lookup t k with None => Some x | Some v => d v end.
Definition req {A} (t : table) (k : text) (d : toml -> option A) : option A := match lookup t k with None => None | Some v => d v end.
(** A section: all its fields have defaults, so leaving it out is leaving it empty. *)
Definition section (t : table) (k : text) : option table := match lookup t k with None => Some [] | Some (TTable x) => Some x | Some _ => None end.
Notation "'try' x <- a ; b" := (match a with Some x => b | None => None end) (at level 200, x name, right associativity).

(** config/pdrive.rs:3-9. *)
Inductive pdrive := Disallow | Ignore | Require_.
(** sign_version.rs:8-42. *)
Inductive signs := V2 | V3.
(** project/lint.rs:9-13 [LintGroupConfig]; 34-36 [is_empty]. *)
Record lint_group := Lints {
  l_config : list (text * LintModel.override); l_sqf : list (text * LintModel.override); l_stringtables : list (text * LintModel.override) }.
Definition no_lints (g : lint_group) : bool := match l_config g, l_sqf g with [], [] => true | _, _ => false end.

(** project/mod.rs:114-149 [ProjectFile] and its sections. *)
Record file_ := File_ {
  f_name : text; f_prefix : text; f_mainprefix : option text;
  f_version : ProjectVersionModel.section;
  f_properties : list (text * text);
  f_include : list text; f_exclude : list text;
  f_lints : lint_group;
  f_check_pdrive : option pdrive; f_dev_exclude : list text; f_launch : profiles;
  f_optional_mod_folders : option bool; f_build_pdrive : option pdrive;
  f_folder : option text; f_sign : option bool; f_archive : option bool;
  f_sign_version : option signs; f_authority : option text }.
(** project/mod.rs:20-46 [ProjectConfig] and its sections. *)
Record project := Project {
  p_name : text; p_prefix : text; p_mainprefix : option text;
  p_version : ProjectVersionModel.config;
  p_properties : list (text * text);
  p_include : list text; p_exclude : list text;
  p_lints : lint_group;
  p_check_pdrive : pdrive; p_dev_exclude : list text; p_launch : list (text * options);
  p_optional_mod_folders : bool; p_build_pdrive : pdrive;
  p_folder : text; p_sign : bool; p_archive : bool;
  p_sign_version : signs; p_authority : option text }.

Inductive wrong := BadToml | EmptyPrefix | Unread | Misplaced | LaunchConflict | LintsConflict | Extends (e : LaunchModel.outcome) | BadVersionSettings (e : ProjectVersionModel.error).
(** [Never]: the reading does not end (C77). *)
Inductive reading (A : Type) := Done (a : A) | Refused (e : wrong) | Never.
Arguments Done {A}. Arguments Refused {A}. Arguments Never {A}.

(** [str::contains] of a text, [str::trim_start_matches] of a text. *)
Definition mentions (p s : text) : bool := match split_once_str p s with Some _ => true | None => false end.
Fixpoint strip_go (fuel : nat) (p s : text) : text :=
  match fuel with O => s | S fuel => if starts_with p s then strip_go fuel p (skipn (length p) s) else s end.
Definition strip (p s : text) : text := strip_go (length s) p s.

Section Read.
  (** [to_lowercase], the names of the severities, a lint's option as LintModel keeps it, and the toml crate. *)
  Context (lower : text -> text) (severity_of : text -> option severity) (kept : toml -> bytes) (parse : text -> option table).

  (** config/pdrive.rs:11-26. *)
  Definition d_pdrive (v : toml) : option pdrive :=
    try s <- d_str v;
    let s := lower s in
    if eqb_bytes s (bs "disallow") then Some Disallow
    else if eqb_bytes s (bs "require") then Some Require_
    else if eqb_bytes s (bs "ignore") then Some Ignore else None.
  (** sign_version.rs:112-126. *)
  Definition d_signs (v : toml) : option signs :=
    try n <- d_num (2 ^ 32) v; if n =? 2 then Some V2 else if n =? 3 then Some V3 else None.
  (** dlc.rs:95-117, 119-127; the DLC by their places in dlc.rs:10-46. *)
  Definition dlc_names : list (list text) := [
    [bs "1021790"; bs "contact"];
    [bs "1042220"; bs "gm"; bs "global mobilization"; bs "global mobilization - cold war germany"];
    [bs "1227700"; bs "vn"; bs "sog"; bs "prairie fire"; bs "s.o.g. prairie fire"];
    [bs "1294440"; bs "csla"; bs "iron curtain"; bs "csla iron curtain"];
    [bs "1681170"; bs "ws"; bs "western sahara"];
    [bs "1175380"; bs "spe"; bs "spearhead"; bs "spearhead 1944"];
    [bs "2647760"; bs "rf"; bs "reaction forces"];
    [bs "2647830"; bs "ef"; bs "expeditionary forces"]].
  Fixpoint place (n : N) (l : list (list text)) (s : text) : option N :=
    match l with [] => None | x :: l => if existsb (eqb_bytes s) x then Some n else place (n + 1) l s end.
  Definition d_dlc (v : toml) : option N := try s <- d_str v; place 0 dlc_names (strip (bs "creator dlc: ") (lower s)).

  (** version.rs:103-120. *)
  Definition d_version (t : table) : option ProjectVersionModel.section :=
    try p <- opt t (bs "path") d_str; try ma <- opt t (bs "major") (d_num (2 ^ 32)); try mi <- opt t (bs "minor") (d_num (2 ^ 32));
    try pa <- opt t (bs "patch") (d_num (2 ^ 32)); try b <- opt t (bs "build") (d_num (2 ^ 32)); try g <- opt t (bs "git_hash") (d_num (2 ^ 8));
    Some (Section_ p ma mi pa b g).
  (** launch.rs:158-197. *)
  Definition d_profile (v : toml) : option profile :=
    match v with
    | TTable t =>
        try e <- opt t (bs "extends") d_str;
        try w <- dflt [] t (bs "workshop") (d_list d_str); try d <- dflt [] t (bs "dlc") (d_list d_dlc);
        try p <- dflt [] t (bs "presets") (d_list d_str); try o <- dflt [] t (bs "optionals") (d_list d_str);
        try m <- opt t (bs "mission") d_str; try q <- dflt [] t (bs "parameters") (d_list d_str); try x <- opt t (bs "executable") d_str;
        try b <- opt t (bs "binarize") d_bool; try f <- opt t (bs "file_patching") d_bool; try i <- opt t (bs "instances") (d_num (2 ^ 8));
        try r <- opt t (bs "rapify") d_bool;
        Some (Profile e (Options w d p o q m x b f i r))
    | _ => None
    end.
  (** lint.rs:111-118, 184-190 and 198-214: a boolean, a severity, or a table. *)
  Definition d_severity (v : toml) : option severity := try s <- d_str v; severity_of s.
  Definition d_lint (v : toml) : option LintModel.override :=
    match v with
    | TBool b => Some (LintModel.override_of (LintModel.FEnabled b))
    | TStr s => try x <- severity_of s; Some (LintModel.override_of (LintModel.FSeverity x))
    | TTable t =>
        try e <- opt t (bs "enabled") d_bool; try s <- opt t (bs "severity") d_severity; try o <- dflt [] t (bs "options") (d_map (fun v => Some (kept v)));
        Some (LintModel.override_of (LintModel.FFull (LintModel.Override e s o)))
    | _ => None
    end.
  (** lint.rs:151-182. *)
  Definition d_lints (t : table) : option lint_group :=
    try c <- dflt [] t (bs "config") (d_map d_lint); try s <- dflt [] t (bs "sqf") (d_map d_lint); try x <- dflt [] t (bs "stringtables") (d_map d_lint);
    Some (Lints c s x).

  (** project/mod.rs:114-149; hemtt/mod.rs:56-74; files.rs:25-34; signing.rs:23-30; build.rs, check.rs, dev.rs, release.rs. *)
  Definition d_project (t : table) : option file_ :=
    try name <- req t (bs "name") d_str; try prefix <- req t (bs "prefix") d_str; try mainprefix <- opt t (bs "mainprefix") d_str;
    try v <- section t (bs "version"); try version <- d_version v;
    try properties <- dflt [] t (bs "properties") (d_map d_str);
    try f <- section t (bs "files"); try include <- dflt [] f (bs "include") (d_list d_str); try exclude <- dflt [] f (bs "exclude") (d_list d_str);
    try l <- section t (bs "lints"); try lints <- d_lints l;
    try h <- section t (bs "hemtt");
    try check <- section h (bs "check"); try check_pdrive <- opt check (bs "pdrive") d_pdrive;
    try dev <- section h (bs "dev"); try dev_exclude <- dflt [] dev (bs "exclude") (d_list d_str);
    try launch <- dflt [] h (bs "launch") (d_map d_profile);
    try build <- section h (bs "build"); try folders <- opt build (bs "optional_mod_folders") d_bool; try build_pdrive <- opt build (bs "pdrive") d_pdrive;
    try release <- section h (bs "release"); try folder <- opt release (bs "folder") d_str; try sign <- opt release (bs "sign") d_bool; try archive <- opt release (bs "archive") d_bool;
    try s <- section t (bs "signing"); try sign_version <- opt s (bs "version") d_signs; try authority <- opt s (bs "authority") d_str;
    Some (File_ name prefix mainprefix version properties include exclude lints check_pdrive dev_exclude launch folders build_pdrive folder sign archive sign_version authority).

  (** files.rs:36-70: with a slash, and the usual files; in order, each once. *)
  Definition usual_files : list text := [bs "/mod.cpp"; bs "/meta.cpp"; bs "/LICENSE"; bs "/logo_ca.paa"; bs "/logo_co.paa"].
  Definition rooted (i : text) : text := if starts_with (bs "/") i then i else bs "/" ++ i.
  Definition included (l : list text) : list text := tidy (map rooted l ++ usual_files).

  (** hemtt/mod.rs:76-127 [into_config] as to the launch profiles: those of launch.toml, if it is there ([sibling]: what is beside
      project.toml). *)
  Definition launch_source (sibling : text -> answer) (own : profiles) : profiles + wrong :=
    match sibling (bs "launch.toml") with
    | Absent => inl own
    | x =>
        match own, x with
        | _ :: _, _ => inr LaunchConflict
        | [], Holds s =>
            if mentions (bs "[hemtt.launch") s then inr Misplaced
            else match parse s with Some t => match d_entries d_profile t with Some l => inl l | None => inr BadToml end | None => inr BadToml end
        | [], _ => inr Unread
        end
    end.
  (** project/mod.rs:202-218. *)
  Definition lints_source (sibling : text -> answer) (own : lint_group) : lint_group + wrong :=
    match sibling (bs "lints.toml") with
    | Absent => inl own
    | x =>
        if no_lints own then
          match x with
          | Holds s =>
              if mentions (bs "[lints.") s then inr Misplaced
              else match parse s with Some t => match d_lints t with Some l => inl l | None => inr BadToml end | None => inr BadToml end
          | _ => inr Unread
          end
        else inr LintsConflict
    end.
  (** project/mod.rs:182-225 [TryFrom]; [fuel]: rounds of the resolving of launch profiles. *)
  Definition finish (fuel : nat) (sibling : text -> answer) (f : file_) : reading project :=
    if match f_prefix f with [] => true | _ => false end then Refused EmptyPrefix
    else
      match launch_source sibling (f_launch f) with
      | inr e => Refused e
      | inl l =>
          match load fuel l with
          | Hangs => Never
          | Failed e => Refused (Extends e)
          | Loaded launch =>
              match try_into (f_version f) with
              | inr e => Refused (BadVersionSettings e)
              | inl version =>
                  match lints_source sibling (f_lints f) with
                  | inr e => Refused e
                  | inl lints =>
                      let or {A} (x : A) (o : option A) := match o with Some a => a | None => x end in
                      Done (Project (f_name f) (f_prefix f) (f_mainprefix f) version (f_properties f) (included (f_include f)) (f_exclude f) lints
                        (or Ignore (f_check_pdrive f)) (f_dev_exclude f) launch
                        (or true (f_optional_mod_folders f)) (or Ignore (f_build_pdrive f))
                        (or (f_prefix f) (f_folder f)) (or true (f_sign f)) (or true (f_archive f))
                        (or V3 (f_sign_version f)) (f_authority f))
                  end
              end
          end
      end.
  (** project/mod.rs:153-180, 104-111 [from_file]: the old name of a section is replaced in the text. *)
  Definition read_project (fuel : nat) (sibling : text -> answer) : reading project :=
    match sibling (bs "project.toml") with
    | Holds s =>
        match parse (replace (bs "[hemtt.launch]") (bs "[hemtt.launch.default]") s) with
        | Some t => match d_project t with Some f => finish fuel sibling f | None => Refused BadToml end
        | None => Refused BadToml
        end
    | _ => Refused Unread
    end.

  (** addon/mod.rs:15-27 [AddonConfig]. *)
  Record addon_settings := Addon {
    a_rapify : bool; a_rapify_exclude : list text; a_binarize : bool; a_binarize_exclude : list text;
    a_properties : list (text * text); a_exclude : list text }.
  (** addon/mod.rs:67-86; the section [rapify] has another name; both are a field given twice. *)
  Definition rapify_section (t : table) : option table :=
    match lookup t (bs "rapify"), lookup t (bs "preprocess") with
    | Some _, Some _ => None
    | _, None => section t (bs "rapify")
    | None, Some _ => section t (bs "preprocess")
    end.
  (** addon/mod.rs:67-86, 122-139; addon/{rapify,binarize,files}.rs. *)
  Definition d_addon (t : table) : option addon_settings :=
    try r <- rapify_section t; try re <- opt r (bs "enabled") d_bool; try rx <- dflt [] r (bs "exclude") (d_list d_str);
    try no_bin <- dflt [] t (bs "no_bin") (d_list d_str);
    try b <- section t (bs "binarize"); try be <- opt b (bs "enabled") d_bool; try bx <- dflt [] b (bs "exclude") (d_list d_str);
    try p <- dflt [] t (bs "properties") (d_map d_str);
    try old <- dflt [] t (bs "exclude") (d_list d_str);
    try f <- section t (bs "files"); try fx <- dflt [] f (bs "exclude") (d_list d_str);
    let or (x : bool) (o : option bool) := match o with Some a => a | None => x end in
    Some (Addon (or true re) rx (or true be) (bx ++ no_bin) p (fx ++ old)).
  (** addon/mod.rs:90-120 [from_str]. *)
  Definition addon_of (s : text) : addon_settings + wrong :=
    match parse s with
    | Some t =>
        match d_addon t with
        | Some a => if mentions (bs "preprocess = ") s || mentions (bs "preprocess=") s then inr Misplaced else inl a
        | None => inr BadToml
        end
    | None => inr BadToml
    end.
  (** workspace/src/addons.rs:48-55: [None] without an addon.toml. *)
  Definition read_addon (x : answer) : option addon_settings + wrong :=
    match x with
    | Absent => inl None
    | Unreadable => inr Unread
    | Holds s => match addon_of s with inl a => inl (Some a) | inr e => inr e end
    end.
End Read.
