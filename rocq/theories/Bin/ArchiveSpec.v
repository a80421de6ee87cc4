(** Specification for C92: from the files of an addon to the archive that is built of it. *)
From Coq Require Import String.
From Verif Require Import Base.Tactics Base.Bytes Base.Sort Base.Ascii Base.Text Workspace.PathModel.
From Verif Require Import Bin.PackModel Bin.ConvertModel Bin.ConvertSpec.
From Verif Require Bin.PackSpec Bin.BinarizeSpec.
Local Open Scope N_scope.
Local Open Scope list_scope.

(** An addon: its folder, and what its addon.toml says about rapify, if there is one. *)
Notation addon := (vpath * option (bool * list text))%type.
Definition head (a : source) : addon := (c_folder a, c_rapify a).
(** The walk of a folder shows the files that are on the disk below it. *)
Definition lists (st : store) (folder : vpath) (tree : list entry) : Prop :=
  PackSpec.listing tree /\ forall dirs name c, In (Entry dirs name (Some c)) tree <-> st (Disk (folder ++ dirs ++ [name])) = Some c.
Definition shows (st : store) (l : list source) : Prop := forall a, In a l -> lists st (c_folder a) (c_tree a).
(** No addon is in the folder of another. *)
Definition separate (addons : list addon) : Prop :=
  ForallOrdPairs (fun a b => ~ (exists d, fst b = fst a ++ d) /\ ~ (exists d, fst a = fst b ++ d)) addons.

(** Scripts and configs of the addons, in the words of C81. *)
Definition script_at (addons : list addon) (st : store) (v : vpath) : Prop :=
  exists a dirs n c, In a addons /\ v = fst a ++ dirs ++ [n] /\ st (Disk v) = Some c /\
    BinarizeSpec.has_extension [bs "sqf"] n /\ ~ exists m, n = m ++ bs ".inc.sqf".
Definition config_at (glob : text -> option (text -> bool)) (addons : list addon) (st : store) (folder v : vpath) : Prop :=
  exists rapify dirs n c, In (folder, rapify) addons /\ v = folder ++ dirs ++ [n] /\ st (Disk v) = Some c /\
    BinarizeSpec.has_extension [bs "cpp"; bs "rvmat"; bs "ext"] n /\
    forall on exclude, rapify = Some (on, exclude) -> on = true /\ ~ PackSpec.matches glob exclude (PathModel.as_str v).

Section Build.
  Context {report error : Type} (glob : text -> option (text -> bool)) (addons : list addon) (st : store).
  (** The conversion of a script, and of a config of an addon. *)
  Context (script : vpath -> job report error) (config : vpath -> vpath -> job report error).
  (** [output j p b]: alone, on the files as they were, the conversion [j] succeeds and makes [b] the content of [p]. *)
  Definition output (j : job report error) (p : vpath) (b : bytes) : Prop :=
    exists ps notes pieces r, alone st j ps (notes ++ Put (Disk p) [] :: map (Add (Disk p)) pieces) (inl r) /\
      (forall q, ~ In (Disk q) (map target notes)) /\ b = concat pieces.
  (** What a file holds when all is converted: what it was converted to, or what it held. *)
  Inductive after (p : vpath) (b : bytes) : Prop :=
  | after_config f v : config_at glob addons st f v -> rapify_out v = Some p -> output (config f v) p b -> after p b
  | after_script v : script_at addons st v -> sqf_out v = Some p -> output (script v) p b -> after p b
  | after_same : st (Disk p) = Some b ->
      (forall f v c, config_at glob addons st f v -> rapify_out v = Some p -> ~ output (config f v) p c) ->
      (forall v c, script_at addons st v -> sqf_out v = Some p -> ~ output (script v) p c) -> after p b.
  (** No conversion fails, and none reads what another one makes. *)
  Definition all_convert : Prop :=
    (forall v, script_at addons st v -> exists r, ends st (script v) (inl r)) /\
    (forall f v, config_at glob addons st f v -> exists r, ends st (config f v) (inl r)).
  Definition independent : Prop :=
    (forall v p w, script_at addons st v -> reads st (script v) p -> script_at addons st w -> w <> v -> sqf_out w <> Some p) /\
    (forall f v p w, config_at glob addons st f v -> reads st (config f v) p -> script_at addons st w -> sqf_out w <> Some p) /\
    (forall f v p g w, config_at glob addons st f v -> reads st (config f v) p -> config_at glob addons st g w -> w <> v -> rapify_out w <> Some p).
  (** At most one config.cpp is converted in an addon. *)
  Definition single_config : Prop :=
    forall f v w, config_at glob addons st f v -> config_at glob addons st f w -> last v [] = bs "config.cpp" -> last w [] = bs "config.cpp" -> v = w.

  (** What is packed: the files as they are after the conversion, but for a config.cpp with a config.bin beside it, addon.toml,
      prefix files and what is excluded ([patterns]: how patterns are matched then). *)
  Definition goes_in (lower : bytes -> bytes) (patterns : bytes -> option (bytes -> bool)) (s : settings) (folder dirs : vpath) (name : bytes) (b : bytes) : Prop :=
    after (folder ++ dirs ++ [name]) b /\
    ~ (name = bs "config.cpp" /\ exists c, after (folder ++ dirs ++ [bs "config.bin"]) c) /\
    name <> bs "addon.toml" /\
    ~ PackSpec.matches patterns (p_exclude s) ([47] ++ p_folder s ++ [47] ++ join [47] (dirs ++ [name])) /\
    ~ PackSpec.matches patterns (a_exclude s) (join [47] (dirs ++ [name])) /\
    ~ In (lower name) [bs "$pboprefix$"; bs "$pboprefix$.txt"; bs "pboprefix.txt"; bs "$prefix$"].
End Build.

(** The conversions of a build (modules/sqf.rs:48-135, then modules/rapifier.rs:49-107): the addons are walked and their scripts
    are compiled, at once and in any order; when that is over they are walked again and their configs are converted. *)
Definition converted {report error : Type} (glob : text -> option (text -> bool)) (addons : list addon)
    (script : vpath -> job report error) (config : vpath -> vpath -> job report error) (st0 st2 : store) : Prop :=
  exists l0 l1 st1 es d1 d2,
    map head l0 = addons /\ shows st0 l0 /\
    run (st0, begin (map (fun x => script (snd x)) (sqf_entries l0))) (st1, d1) /\ Forall (fun x => over (snd x)) d1 /\
    map head l1 = addons /\ shows st1 l1 /\ rapify_entries glob l1 = Some es /\
    run (st1, begin (map (fun x => config (c_folder (fst x)) (snd x)) es)) (st2, d2) /\ Forall (fun x => over (snd x)) d2.
(** What is asked of the addons and their conversions. *)
Definition orderly {report error : Type} (glob : text -> option (text -> bool)) (addons : list addon)
    (script : vpath -> job report error) (config : vpath -> vpath -> job report error) (st : store) : Prop :=
  separate addons /\ (forall v, sqf_job v (script v)) /\ (forall f v, rapify_job f v (config f v)) /\
  all_convert glob addons st script config /\ independent glob addons st script config /\ single_config glob addons st.
