(** Model of the command line with which the game is launched: bin/src/commands/launch/{mod,launcher,platforms,preset}.rs and
    libs/common/src/arma/dlc.rs. *)
From Coq Require Import String.
From Verif Require Import Base.Tactics Base.Bytes Base.Ascii Base.Text Base.Sort Common.LaunchModel.
From Verif Require Bin.AddonModel Bin.PackModel.
Local Open Scope N_scope.
Local Open Scope list_scope.

(** ** Paths: std::path, as far as it is used here. *)
Inductive platform := Windows | Linux.
Definition is_sep (pl : platform) (c : N) : bool := match pl with Windows => (c =? 47) || (c =? 92) | Linux => c =? 47 end.
Definition is_letter (c : N) : bool := ((65 <=? c) && (c <=? 90)) || ((97 <=? c) && (c <=? 122)).
(** A drive or the start of a network path. *)
Definition prefixed (p : text) : bool :=
  match p with a :: b :: _ => (is_letter a && (b =? 58)) || (is_sep Windows a && is_sep Windows b) | _ => false end.
(** [Path::is_absolute]. *)
Definition absolute (pl : platform) (p : text) : bool :=
  match pl with
  | Linux => match p with c :: _ => c =? 47 | [] => false end
  | Windows => prefixed p && match p with _ :: b :: c :: _ => (b =? 58) && is_sep Windows c || is_sep Windows b | _ => false end
  end.
(** [Path::join] and [PathBuf::push]. *)
Definition under_path (pl : platform) (base p : text) : text :=
  base ++ (if is_sep pl (last base 0) then [] else [match pl with Windows => 92 | Linux => 47 end]) ++ p.
Definition join_path (pl : platform) (base p : text) : text :=
  match pl with
  | Linux => if absolute Linux p then p else under_path Linux base p
  | Windows =>
      if prefixed p then p
      else match p with c :: _ => if is_sep Windows c then firstn 2 base ++ p else under_path Windows base p | [] => under_path Windows base p end
  end.
(** The components of a path but its first separators: [.] is dropped. *)
Fixpoint components_from (pl : platform) (p cur : text) : list text :=
  match p with
  | [] => [cur]
  | c :: p => if is_sep pl c then cur :: components_from pl p [] else components_from pl p (cur ++ [c])
  end.
Definition components (pl : platform) (p : text) : list text :=
  filter (fun c => negb (eqb_bytes c []) && negb (eqb_bytes c [46])) (components_from pl p []).
(** [Path::ends_with] of one component. *)
Definition ends_with (pl : platform) (p c : text) : bool := eqb_bytes (last (components pl p) []) c.

(** ** DLC *)
(** dlc.rs:50-62 [to_mod], 66-77 [to_appid], 80-97 [Display], 99-121 [TryFrom]: the folder, the Steam number, the name and the names understood. *)
Definition dlcs : list (text * text * text * list text) :=
  [(bs "contact", bs "1021790", bs "Contact", map bs ["1021790"; "contact"]%string);
   (bs "gm", bs "1042220", bs "Creator DLC: Global Mobilization - Cold War Germany", map bs ["1042220"; "gm"; "global mobilization"; "global mobilization - cold war germany"]%string);
   (bs "vn", bs "1227700", bs "Creator DLC: S.O.G. Prairie Fire", map bs ["1227700"; "vn"; "sog"; "prairie fire"; "s.o.g. prairie fire"]%string);
   (bs "csla", bs "1294440", bs "Creator DLC: CSLA Iron Curtain", map bs ["1294440"; "csla"; "iron curtain"; "csla iron curtain"]%string);
   (bs "ws", bs "1681170", bs "Creator DLC: Western Sahara", map bs ["1681170"; "ws"; "western sahara"]%string);
   (bs "spe", bs "1175380", bs "Creator DLC: Spearhead 1944", map bs ["1175380"; "spe"; "spearhead"; "spearhead 1944"]%string);
   (bs "rf", bs "2647760", bs "Creator DLC: Reaction Forces", map bs ["2647760"; "rf"; "reaction forces"]%string);
   (bs "ef", bs "2647830", bs "Creator DLC: Expeditionary Forces", map bs ["2647830"; "ef"; "expeditionary forces"]%string)].
Definition dlc_mod (d : N) : text := match nth_error dlcs (N.to_nat d) with Some (m, _, _, _) => m | None => [] end.
Fixpoint dlc_named (l : list (text * text * text * list text)) (i : N) (s : text) : option N :=
  match l with
  | [] => None
  | (_, _, _, names) :: l => if existsb (eqb_bytes s) names then Some i else dlc_named l (i + 1) s
  end.
(** [lower]: [str::to_lowercase]. *)
Definition dlc_of (lower : text -> text) (s : text) : option N :=
  let s := lower s in dlc_named dlcs 0 (PackModel.trim_start_matches (length s) (bs "creator dlc: ") s).

(** ** Texts searched by regular expressions. [digit]: the class [\d]. *)
Definition lit (p s : text) : option text := if starts_with p s then Some (skipn (length p) s) else None.
Fixpoint span (f : N -> bool) (s : text) : text * text :=
  match s with c :: s' => if f c then let '(a, b) := span f s' in (c :: a, b) else ([], s) | [] => ([], []) end.
(** One or more digits and the character that follows. *)
Definition number (digit : N -> bool) (close : N) (s : text) : option (text * text) :=
  match span digit s with (d :: ds, c :: s) => if c =? close then Some (d :: ds, s) else None | _ => None end.
(** preset.rs:11-14, 24: a link to what follows [site]. *)
Definition link (digit : N -> bool) (site s : text) : option (text * text) :=
  match lit (bs "href=""http") s with
  | None => None
  | Some s =>
      let s := match s with c :: s' => if c =? 115 then s' else s | [] => [] end in
      match lit (bs "://" ++ site) s with None => None | Some s => number digit 34 s end
  end.
Definition workshop_site : text := bs "steamcommunity.com/sharedfiles/filedetails/?id=".
Definition store_site : text := bs "store.steampowered.com/app/".
(** [Regex::captures_iter]: from left to right, without overlap. *)
Fixpoint find_all (fuel : nat) (m : text -> option (text * text)) (s : text) : list text :=
  match fuel with
  | O => []
  | S fuel => match m s with Some (x, s') => x :: find_all fuel m s' | None => match s with [] => [] | _ :: s' => find_all fuel m s' end end
  end.
(** launcher.rs:154: one entry of [meta.cpp]; [is_ws] is the class [\s]. *)
Definition published (digit : N -> bool) (s : text) : option (text * text) :=
  match lit (bs "publishedid") s with
  | None => None
  | Some s => match snd (span is_ws s) with c :: s => if c =? 61 then number digit 59 (snd (span is_ws s)) else None | [] => None end
  end.
Definition push_new {A} (eqb : A -> A -> bool) (acc : list A) (l : list A) : list A :=
  fold_left (fun acc x => if existsb (eqb x) acc then acc else acc ++ [x]) l acc.
Definition some_list {A} (o : option A) : list A := match o with Some x => [x] | None => [] end.
(** preset.rs:8-41 [read]. *)
Definition preset_read (digit : N -> bool) (lower : text -> text) (html : text) : list text * list N :=
  (push_new eqb_bytes [] (find_all (S (length html)) (link digit workshop_site) html),
   push_new N.eqb [] (flat_map (fun id => some_list (dlc_of lower id)) (find_all (S (length html)) (link digit store_site) html))).

(** ** Launching *)
(** What is found on the computer: Arma 3; the folder [workshop/content/107410] next to it, if it is there; the current folder; the text of
    [meta.cpp]; the texts of the files in [.hemtt/presets] by name; which paths there are and which are files; whether [flatpak list] works and
    names Steam; whether the build succeeded, or with [--quick] its result is in place. *)
Record world := World {
  arma3 : option text; workshop_folder : option text; cwd : text; meta : option text; preset_file : text -> option text;
  there : text -> bool; is_file : text -> bool; flatpak : option bool; ready : bool }.
(** mod.rs:188-232 [LaunchArgs], without the names of profiles. *)
Record cli := Cli { c_executable : option text; passthrough : list text; c_instances : option N; no_filepatching : bool }.
Inductive error := ArmaNotFound | PresetNotFound (n : text) | NotReady | WorkshopNotFound | ModNotFound (m : text) | MissionAbsolute (m : text) | MissionNotFound (m : text) | NoFlatpak.
Record command := Command { program : text; arguments : list text }.
Inductive outcome := Started (l : list command) | Refused (l : list error) | Panicked.

Section Launch.
  Context (pl : platform) (digit : N -> bool) (lower : text -> text).

  (** launcher.rs:96-118 [add_preset] for each. A preset's name has no separator. *)
  Definition preset_path (n : text) : text := AddonModel.stem n ++ bs ".html".
  Fixpoint add_presets (w : world) (ps : list text) (mods : list text) (ds : list N) (es : list error) : list text * list N * list error :=
    match ps with
    | [] => (mods, ds, es)
    | p :: ps =>
        match preset_file w (preset_path p) with
        | None => add_presets w ps mods ds (es ++ [PresetNotFound p])
        | Some html => let '(m, d) := preset_read digit lower html in add_presets w ps (push_new eqb_bytes mods m) (push_new N.eqb ds d) es
        end
    end.
  (** launch.rs:82-96 [executable]. *)
  Definition has_exe (e : text) : bool :=
    match AddonModel.last_dot e 0 None with Some (S i) => eqb_bytes (ascii_lower (skipn (S (S i)) e)) (bs "exe") | _ => false end.
  Definition executable_of (o : options) : text :=
    let e := match executable o with Some e => e | None => bs "arma3_x64" end in if has_exe e then e else e ++ bs ".exe".
  (** platforms.rs:8-23 [windows]: the program. The name of the executable is neither empty nor begins with a dot. *)
  Definition windows_program (folder exe : text) : text := AddonModel.stem (join_path Windows folder exe) ++ bs ".exe".
  (** launcher.rs:55, mod.rs:77-80. *)
  Definition fixed_options : list text := map bs ["-skipIntro"; "-noSplash"; "-showScriptErrors"; "-debug"]%string.
  Definition mod_arg (m : text) : text := bs "-mod=""" ++ m ++ bs """".
  (** launcher.rs:80-91 [add_self_mod]. *)
  Definition self_mod (w : world) : text :=
    match pl with Windows => [] | Linux => bs "Z:" end ++ join_path pl (cwd w) (bs ".hemttout/dev").
  (** launcher.rs:150-160. *)
  Definition meta_id (w : world) : option text :=
    match meta w with None => None | Some c => hd_error (find_all (S (length c)) (published digit) c) end.
  Definition same_id (a b : option text) : bool := match a, b with Some x, Some y => eqb_bytes x y | _, _ => false end.
  (** launcher.rs:162-179. *)
  Definition loaded_mods (w : world) (folder : text) (mods : list text) : list text :=
    map (join_path pl folder) (filter (fun m => negb (same_id (Some m) (meta_id w))) mods).
  Definition missing_mods (w : world) (folder : text) (mods : list text) : list error :=
    flat_map (fun m => if there w (join_path pl folder m) then [] else [ModNotFound m]) (filter (fun m => negb (same_id (Some m) (meta_id w))) mods).
  Definition shown (p : text) : text := match pl with Windows => p | Linux => bs "Z:" ++ p end.
  (** launcher.rs:199-229: the argument for the mission. *)
  Definition mission_arg (w : world) (m : text) : text + error :=
    if absolute pl m then inr (MissionAbsolute m)
    else
      let p := join_path pl (cwd w) m in
      let p := if ends_with pl p (bs "mission.sqm") then p else join_path pl p (bs "mission.sqm") in
      let p := if is_file w p then p else join_path pl (join_path pl (join_path pl (join_path pl (cwd w) (bs ".hemtt")) (bs "missions")) m) (bs "mission.sqm") in
      if is_file w p then inl (bs """" ++ p ++ bs """") else inr (MissionNotFound m).
  (** platforms.rs:25-70 [linux]; the flatpak override is left out. *)
  Definition linux_command (w : world) (args : list text) : command + error :=
    match flatpak w with
    | None => inr NoFlatpak
    | Some true => inl (Command (bs "flatpak") (map bs ["run"; "com.valvesoftware.Steam"; "-applaunch"; "107410"; "-nolauncher"]%string ++ args))
    | Some false => inl (Command (bs "steam") (map bs ["-applaunch"; "107410"; "-nolauncher"]%string ++ args))
    end.
  (** launcher.rs:231-262: [args] are those of the first [n] instances; [outer] those before [-filePatching]. *)
  Definition start (w : world) (folder exe : text) (n : N) (outer args : list text) : outcome :=
    let one (a : list text) := match pl with Windows => inl (Command (windows_program folder exe) a) | Linux => linux_command w a end in
    if n =? 1 then
      match one (match pl with Windows => args | Linux => outer end) with inl c => Started [c] | inr e => Refused [e] end
    else if n =? 0 then Panicked
    else match one args with inl c => Started (repeat c (N.to_nat n)) | inr e => Refused [e] end.
  (** launcher.rs:46-74 [Launcher::new], mod.rs:258-317 [execute], launcher.rs:127-263 [launch]. *)
  Definition run (w : world) (c : cli) (o : options) : outcome :=
    match arma3 w with
    | None => Refused [ArmaNotFound]
    | Some arma =>
        let n := match c_instances c with Some n => n | None => match instances o with Some n => n | None => 1 end end in
        let fp := match file_patching o with Some b => b | None => true end && negb (no_filepatching c) in
        let '(mods, ds, es) := add_presets w (presets o) (workshop o) (dlc o) [] in
        match es with
        | _ :: _ => Refused es
        | [] =>
            if negb (ready w) then Refused [NotReady]
            else match workshop_folder w with
                 | None => Refused [WorkshopNotFound]
                 | Some folder =>
                     let mods := mods ++ [self_mod w] in
                     match missing_mods w folder mods with
                     | (_ :: _) as es => Refused es
                     | [] =>
                         let args := map mod_arg (map dlc_mod (tidy_dlc ds)) ++ map mod_arg (tidy (map shown (loaded_mods w folder mods))) ++ fixed_options ++ parameters o ++ passthrough c in
                         match match mission o with None => inl [] | Some m => match mission_arg w m with inl a => inl [a] | inr e => inr e end end with
                         | inr e => Refused [e]
                         | inl mi => start w arma (executable_of o) n (args ++ mi) (args ++ mi ++ if fp then [bs "-filePatching"] else [])
                         end
                     end
                 end
        end
    end.
End Launch.
