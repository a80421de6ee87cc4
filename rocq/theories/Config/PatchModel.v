(** Model of the required version: libs/config/src/model/config.rs, lib.rs, analyze/cfgpatch.rs, [Version::from] of
    libs/common/src/version.rs, and what bin/src/modules/{rapifier,sqf}.rs do with it. *)
From Coq Require Import String.
From Verif Require Import Base.Tactics Base.Bytes Base.Ascii Base.Sort Base.Text Config.RapModel Common.VersionModel.
Local Open Scope N_scope.
Local Open Scope list_scope.

(** ** [f32] *)
(** A finite [f32] that is not negative is a multiple of 2^-149, the smallest step of the type; numbers are counted in these
    steps. [bits] is the number that [f32::to_bits] gives. *)
Definition one : N := 2 ^ 149.
Definition sign_of (bits : N) : N := bits / 2 ^ 31.
Definition exponent_of (bits : N) : N := (bits / 2 ^ 23) mod 256.
Definition mantissa_of (bits : N) : N := bits mod 2 ^ 23.
Definition steps (bits : N) : N :=
  if exponent_of bits =? 0 then mantissa_of bits else (2 ^ 23 + mantissa_of bits) * 2 ^ (exponent_of bits - 1).
(** Rounding to 24 binary places, to the nearest, and if there are two to the even one: what every [f32] operation ends in. *)
Definition round24 (p : N) : N :=
  let places := N.size p in
  if places <=? 24 then p
  else
    let unit := 2 ^ (places - 24) in
    let q := p / unit in let r := p mod unit in
    if 2 * r <? unit then q * unit
    else if unit <? 2 * r then (q + 1) * unit
    else if N.even q then q * unit else (q + 1) * unit.
(** version.rs:167-174 [Version::from(f32)]. [as u32] saturates and makes NaN 0; [fract] is exact; [round] goes away from zero
    at a half. *)
Definition version_from (bits : N) : version :=
  if exponent_of bits =? 255 then
    if (mantissa_of bits =? 0) && (sign_of bits =? 0) then Version (2 ^ 32 - 1) 0 0 None None else Version 0 0 0 None None
  else if sign_of bits =? 0 then
    Version (N.min (2 ^ 32 - 1) (steps bits / one)) ((round24 (100 * (steps bits mod one)) + one / 2) / one) 0 None None
  else Version 0 0 0 None None.

(** ** The patches of a config *)
Definition zero : version := Version 0 0 0 None None.
Definition gtb (a b : version) : bool := match compare a b with Gt => true | _ => false end.
Section Patches.
  Context (low : bytes -> bytes).
  (** config.rs:34-45. *)
  Definition patch_version (ps : list property) : version :=
    fold_left (fun v p => match p with
                          | Entry n (VNum (Float32 b)) _ => if eqb_bytes (low n) (bs "requiredversion") then version_from b else v
                          | _ => v
                          end) ps zero.
  (** config.rs:21-53 [get_patches]: name and version. *)
  Definition get_patches (c : config) : list (bytes * version) :=
    flat_map (fun p => match p with
                       | PClass (Local n _ ps _) =>
                           if eqb_bytes (low n) (bs "cfgpatches") then
                             flat_map (fun q => match q with PClass (Local n _ qs _) => [(n, patch_version qs)] | _ => [] end) ps
                           else []
                       | _ => []
                       end) c.
  (** lib.rs:112-122 [required_version]: the version, and the name of the patch it is from. *)
  Definition highest (ps : list (bytes * version)) : version * option bytes :=
    fold_left (fun best p => if gtb (snd p) (fst best) then (snd p, Some (fst p)) else best) ps (zero, None).
  Definition required_version (c : config) : version * option bytes := highest (get_patches c).

  (** modules/rapifier.rs:84-101, 143-160, workspace/src/addons.rs:270-275: the files of one addon are converted in some order;
      every one that is called config.cpp and has no errors sets the version of the addon. A file is its name's being that, and
      its config if there were no errors. *)
  Definition addon_version (files : list (bool * option config)) : option version :=
    fold_left (fun v f => match f with (true, Some c) => Some (fst (required_version c)) | _ => v end) files None.
End Patches.

(** ** The game's version *)
(** [u8::try_from(n).unwrap_or_default()]. *)
Definition u8_or_zero (n : N) : N := if n <? 256 then n else 0.
(** The version of arma3_wiki: major and minor, compared in this order. *)
Definition wiki_lt (a b : N * N) : bool := (fst a <? fst b) || (fst a =? fst b) && (snd a <? snd b).
Definition wiki_version (v : version) : N * N := (u8_or_zero (major v), u8_or_zero (minor v)).
(** modules/sqf.rs:142-154: the highest version of all addons, and the addons that have it. Build and hash are never set, so
    equality is that of the numbers. *)
Definition version_eqb (a b : version) : bool := (major a =? major b) && (minor a =? minor b) && (patch a =? patch b).
Definition project_version (addons : list (bytes * option version)) : version * list bytes :=
  fold_left (fun best a => match snd a with
                           | Some v => if gtb v (fst best) then (v, [fst a])
                                       else if version_eqb v (fst best) then (fst best, snd best ++ [fst a]) else best
                           | None => best
                           end) addons (zero, []).
(** modules/sqf.rs:156-170: the warning, with the version it shows and the addons it names. *)
Definition future_warning (stable : N * N) (addons : list (bytes * option version)) : option ((N * N) * list bytes) :=
  let '(v, by_) := project_version addons in
  if wiki_lt stable (wiki_version v) then Some (wiki_version v, by_) else None.
