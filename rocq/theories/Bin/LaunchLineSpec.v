(** Specification for C78: what the game is launched with. *)
From Coq Require Import String Sorting.Sorted.
From Verif Require Import Base.Tactics Base.Bytes Base.Ascii Base.Text Base.Sort Common.LaunchModel Bin.LaunchLineModel.
Local Open Scope N_scope.
Local Open Scope list_scope.

Section Spec.
  Context (pl : platform) (digit : N -> bool) (lower : text -> text).
  Definition digits (d : text) : Prop := d <> [] /\ Forall (fun c => digit c = true) d.
  Definition spaces (w : text) : Prop := Forall (fun c => is_ws c = true) w.
  (** A page has a link to a number on a site. *)
  Definition linked (site html id : text) : Prop :=
    digits id /\ exists a s b, (s = bs "http" \/ s = bs "https") /\ html = a ++ bs "href=""" ++ s ++ bs "://" ++ site ++ id ++ bs """" ++ b.
  (** The page of a preset named in the options. *)
  Definition preset_page (w : world) (o : options) (html : text) : Prop := exists p, In p (presets o) /\ preset_file w (preset_path p) = Some html.
  Definition wanted (w : world) (o : options) (id : text) : Prop :=
    In id (workshop o) \/ exists html, preset_page w o html /\ linked (bs "steamcommunity.com/sharedfiles/filedetails/?id=") html id.
  Definition wanted_dlc (w : world) (o : options) (d : N) : Prop :=
    In d (dlc o) \/ exists html id, preset_page w o html /\ linked (bs "store.steampowered.com/app/") html id /\ dlc_of lower id = Some d.
  (** The number under which [meta.cpp] says the project is published: the first one in it. *)
  Definition entry (c a id : text) : Prop :=
    digits id /\ exists w1 w2 b, spaces w1 /\ spaces w2 /\ c = a ++ bs "publishedid" ++ w1 ++ bs "=" ++ w2 ++ id ++ bs ";" ++ b.
  Definition published_as (w : world) (id : text) : Prop :=
    exists c a, meta w = Some c /\ entry c a id /\ forall a' id', entry c a' id' -> (length a <= length a')%nat.
  (** The folders loaded as mods: the project's build and the wanted mods, but not the project itself. *)
  Definition load_folder (w : world) (o : options) (folder m : text) : Prop :=
    m = join_path pl (cwd w) (bs ".hemttout/dev") \/ exists id, wanted w o id /\ ~ published_as w id /\ m = join_path pl folder id.
  Definition mission_places (w : world) (m : text) : list text :=
    let p := join_path pl (cwd w) m in
    [if ends_with pl p (bs "mission.sqm") then p else join_path pl p (bs "mission.sqm");
     join_path pl (join_path pl (join_path pl (join_path pl (cwd w) (bs ".hemtt")) (bs "missions")) m) (bs "mission.sqm")].
  (** The file opened in the editor: the first of the two places at which there is one. *)
  Definition mission_file (w : world) (m p : text) : Prop :=
    absolute pl m = false /\ exists l1 l2, mission_places w m = l1 ++ p :: l2 /\ is_file w p = true /\ forall q, In q l1 -> is_file w q = false.
  (** What has to be there. *)
  Record can_launch (w : world) (o : options) (folder : text) : Prop := {
    l_presets : forall p, In p (presets o) -> preset_file w (preset_path p) <> None;
    l_ready : ready w = true;
    l_folder : workshop_folder w = Some folder;
    l_mods : forall m, load_folder w o folder m -> there w m = true;
    l_mission : forall m, mission o = Some m -> exists p, mission_file w m p }.
  (** The arguments. *)
  Definition argument_list (w : world) (c : cli) (o : options) (folder : text) (args : list text) : Prop :=
    exists ds ms mi,
      args = map (fun d => bs "-mod=""" ++ dlc_mod d ++ bs """") ds ++ map (fun m => bs "-mod=""" ++ m ++ bs """") ms ++
        map bs ["-skipIntro"; "-noSplash"; "-showScriptErrors"; "-debug"]%string ++ parameters o ++ passthrough c ++ mi ++
        (if match file_patching o with Some b => b | None => true end && negb (no_filepatching c) then [bs "-filePatching"] else []) /\
      StronglySorted N.lt ds /\ (forall d, In d ds <-> wanted_dlc w o d) /\
      StronglySorted (fun a b => cmp_bytes a b = Lt) ms /\ (forall m, In m ms <-> load_folder w o folder m) /\
      match mission o with None => mi = [] | Some m => exists p, mission_file w m p /\ mi = [bs """" ++ p ++ bs """"] end.
  Definition copies (c : cli) (o : options) : N := match c_instances c with Some n => n | None => match instances o with Some n => n | None => 1 end end.
End Spec.
(** A class of digits: among the ASCII characters the ten, and no white space. *)
Definition digit_class (digit : N -> bool) : Prop := (forall c, c < 128 -> digit c = is_digit c) /\ forall c, is_ws c = true -> digit c = false.
