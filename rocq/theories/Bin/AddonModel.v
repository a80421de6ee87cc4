(** Model of libs/workspace/src/addons.rs (finding addons), of the paths that bin/src/modules/pbo.rs writes and
    bin/src/modules/sign.rs reads and writes. Names are bytes; a path is its components. *)
From Coq Require Import String.
From Verif Require Import Base.Tactics Base.Bytes Base.Ascii Base.Sort Io.Model.
Local Open Scope N_scope.
Local Open Scope list_scope.

(** addons.rs:166-169, 218-230. *)
Inductive location := Addons | Optionals.
Definition location_name (l : location) : bytes := match l with Addons => bs "addons" | Optionals => bs "optionals" end.
Definition same_location (a b : location) : bool := match a, b with Addons, Addons | Optionals, Optionals => true | _, _ => false end.

Section Scan.
  (** Rust's [str::to_lowercase]; [load]: reading addon.toml and the prefix file, addons.rs:47-84, gives what is kept, or fails. *)
  Context {D E : Type} (lower : bytes -> bytes) (load : location -> bytes -> D + E).
  (** addons.rs:30-36. *)
  Record addon := Addon { name : bytes; loc : location; data : D }.
  Inductive scan_error := NameDuplicate (n : bytes) | Duplicate (n : bytes) | LocationInvalid (n : bytes) | LoadError (e : E).
  (** What a directory holds: names, and whether each is a directory. *)
  Definition listing := list (bytes * bool).
  (** addons.rs:176-202 [Location::scan]; a missing folder gives nothing. *)
  Fixpoint scan_entries (l : location) (es : listing) : list addon + scan_error :=
    match es with
    | [] => inl []
    | (n, is_dir) :: es =>
        if is_dir then
          if utf8_valid n then
            match load l n with
            | inr e => inr (LoadError e)
            | inl d => match scan_entries l es with inl r => inl (Addon n l d :: r) | inr e => inr e end
            end
          else inr (LocationInvalid n)
        else scan_entries l es
    end.
  Definition scan_location (l : location) (folder : option listing) : list addon + scan_error :=
    match folder with None => inl [] | Some es => scan_entries l es end.
  (** addons.rs:134-160: the checks of one addon against all. *)
  Definition same_name (a b : addon) : bool := eqb_bytes (lower (name a)) (lower (name b)).
  Fixpoint check_addons (all todo : list addon) : option scan_error :=
    match todo with
    | [] => None
    | x :: todo =>
        if existsb (fun a => same_name a x && negb (eqb_bytes (name a) (name x))) all then Some (NameDuplicate (name x))
        else if existsb (fun a => same_name a x && negb (same_location (loc a) (loc x))) all then Some (Duplicate (name x))
        else check_addons all todo
    end.
  (** addons.rs:122-162 [Addon::scan]. *)
  Definition scan (addons optionals : option listing) : list addon + scan_error :=
    match scan_location Addons addons with
    | inr e => inr e
    | inl a => match scan_location Optionals optionals with
        | inr e => inr e
        | inl b => match check_addons (a ++ b) (a ++ b) with Some e => inr e | None => inl (a ++ b) end
        end
    end.
End Scan.
Arguments addon : clear implicits.
Arguments scan_error : clear implicits.

(** ** Paths *)
Definition path := list bytes.
(** std::path [rsplit_file_at_dot], [file_stem], [set_extension] on the last component; no component here is [..].
    The last dot splits, unless it is the first byte. *)
Fixpoint last_dot (s : bytes) (i : nat) (at_ : option nat) : option nat :=
  match s with
  | [] => at_
  | c :: s => last_dot s (S i) (if c =? 46 then Some i else at_)
  end.
Definition stem (s : bytes) : bytes := match last_dot s 0 None with Some (S i) => firstn (S i) s | _ => s end.
Definition set_extension (ext : bytes) (p : path) : path :=
  match rev p with [] => [] | s :: r => rev r ++ [stem s ++ [46] ++ ext] end.

(** What of the project's settings goes into the paths. *)
Record project := Project { p_prefix : bytes; release_folder : bytes; optional_mod_folders : bool }.
(** addons.rs:93-95 [pbo_name]. *)
Definition pbo_name {D} (prefix : bytes) (a : addon D) : bytes := prefix ++ [95] ++ name a.
(** modules/pbo.rs:75-99 [target_pbo], below the build folder. *)
Definition target_pbo {D} (p : project) (collapse : bool) (a : addon D) : path :=
  set_extension (bs "pbo")
    (if collapse then [bs "addons"; pbo_name (p_prefix p) a]
     else match loc a with
          | Addons => [bs "addons"; pbo_name (p_prefix p) a]
          | Optionals =>
              if optional_mod_folders p then [bs "optionals"; [64] ++ pbo_name (release_folder p) a; bs "addons"; pbo_name (p_prefix p) a]
              else [location_name (loc a); pbo_name (p_prefix p) a]
          end).
(** modules/sign.rs:83-131: the PBO opened, and the signature written next to it; [authority] and [version] make the key's name. *)
Definition get_authority (authority version : bytes) (suffix : option bytes) : bytes :=
  authority ++ [95] ++ version ++ match suffix with Some s => [95] ++ s | None => [] end.
Definition sign_pbo {D} (p : project) (authority version : bytes) (a : addon D) : path * bytes :=
  match loc a with
  | Addons => (set_extension (bs "pbo") [bs "addons"; pbo_name (p_prefix p) a], get_authority authority version None)
  | Optionals =>
      if optional_mod_folders p then
        (set_extension (bs "pbo") ([bs "optionals"; [64] ++ pbo_name (release_folder p) a] ++ [bs "addons"; pbo_name (p_prefix p) a]),
         get_authority authority version (Some (pbo_name (p_prefix p) a)))
      else (set_extension (bs "pbo") [location_name (loc a); pbo_name (p_prefix p) a], get_authority authority version None)
  end.
Definition sig_location {D} (p : project) (authority version : bytes) (a : addon D) : path :=
  let '(target, auth) := sign_pbo p authority version a in set_extension (bs "pbo." ++ auth ++ bs ".bisign") target.
(** modules/sign.rs:67-76, 100-116: the public keys written. *)
Definition key_location {D} (p : project) (authority version : bytes) (a : addon D) : path :=
  match loc a with
  | Optionals =>
      if optional_mod_folders p then
        [bs "optionals"; [64] ++ pbo_name (release_folder p) a; bs "keys"; get_authority authority version (Some (pbo_name (p_prefix p) a)) ++ bs ".bikey"]
      else [bs "keys"; get_authority authority version None ++ bs ".bikey"]
  | Addons => [bs "keys"; get_authority authority version None ++ bs ".bikey"]
  end.
