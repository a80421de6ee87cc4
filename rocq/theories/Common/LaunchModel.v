(** Model of the launch profiles: libs/common/src/config/project/hemtt/{mod,launch}.rs and [read_config] of
    bin/src/commands/launch/mod.rs. *)
From Coq Require Import String.
From Verif Require Import Base.Tactics Base.Bytes Base.Ascii Base.Text Base.Sort.
Local Open Scope N_scope.
Local Open Scope list_scope.

(** launch.rs:8-43 [LaunchOptions]. A DLC is its place in the list of dlc.rs:10-46, by which they are ordered. *)
Record options := Options {
  workshop : list text; dlc : list N; presets : list text; optionals : list text; parameters : list text;
  mission : option text; executable : option text; binarize : option bool; file_patching : option bool; instances : option N; rapify : option bool }.
Definition no_options : options := Options [] [] [] [] [] None None None None None None.
(** launch.rs:155-193 [LaunchOptionsFile]: the same and [extends]. *)
Record profile := Profile { extends : option text; own : options }.
Definition over {A} (a b : option A) : option A := match b with Some _ => b | None => a end.
(** launch.rs:123-153 [overlay]. *)
Definition overlay (base other : options) : options :=
  Options (workshop base ++ workshop other) (dlc base ++ dlc other) (presets base ++ presets other) (optionals base ++ optionals other)
    (parameters base ++ parameters other) (over (mission base) (mission other)) (over (executable base) (executable other)) (over (binarize base) (binarize other))
    (over (file_patching base) (file_patching other)) (over (instances base) (instances other)) (over (rapify base) (rapify other)).
(** launch.rs:196-224 [extend]: [other] is what is extended, and what it extends is what is to be extended next. *)
Definition extend (self other : profile) : profile := Profile (extends other) (overlay (own other) (own self)).
(** launch.rs:226-237 [dedup]: [Vec::sort] and [Vec::dedup] of each list. *)
Fixpoint dedup_list {A} (eqb : A -> A -> bool) (l : list A) : list A :=
  match l with
  | x :: (y :: _) as l' => if eqb x y then dedup_list eqb l' else x :: dedup_list eqb l'
  | _ => l
  end.
Definition tidy (l : list text) : list text := dedup_list eqb_bytes (sort_by (fun x => x) l).
Definition dlc_key (d : N) : list N := [d].
Definition tidy_dlc (l : list N) : list N := dedup_list N.eqb (sort_by dlc_key l).
Definition dedup (o : options) : options :=
  Options (tidy (workshop o)) (tidy_dlc (dlc o)) (tidy (presets o)) (tidy (optionals o)) (tidy (parameters o))
    (mission o) (executable o) (binarize o) (file_patching o) (instances o) (rapify o).

(** The profiles in the order in which the hash map gives them. *)
Definition profiles : Type := list (text * profile).
Definition get {A} (s : list (text * A)) (k : text) : option A := match find (fun p => eqb_bytes (fst p) k) s with Some p => Some (snd p) | None => None end.
Inductive outcome := Resolved (o : options) | ExtendsSelf (k : text) | ExtendsMissing (k x : text) | Endless.
(** mod.rs:101-118: the loop for one profile; [Endless]: not done after so many rounds. *)
Fixpoint resolve (fuel : nat) (s : profiles) (k : text) (base : profile) : outcome :=
  match fuel with
  | O => Endless
  | S fuel =>
      match extends base with
      | None => Resolved (dedup (own base))
      | Some x => if eqb_bytes x k then ExtendsSelf k else match get s x with Some y => resolve fuel s k (extend base y) | None => ExtendsMissing k x end
      end
  end.
(** mod.rs:96-121: all of them, until one fails. *)
Inductive loading := Loaded (l : list (text * options)) | Failed (e : outcome) | Hangs.
Fixpoint load_all (fuel : nat) (s : profiles) (l : profiles) : loading :=
  match l with
  | [] => Loaded []
  | (k, v) :: l =>
      match resolve fuel s k v with
      | Resolved o => match load_all fuel s l with Loaded r => Loaded ((k, o) :: r) | e => e end
      | Endless => Hangs
      | e => Failed e
      end
  end.
Definition load (fuel : nat) (s : profiles) : loading := load_all fuel s s.

(** commands/launch/mod.rs:323-358 [read_config]: the options, or the name reported as unknown. *)
Fixpoint gather (l : list (text * options)) (acc : options) (names : list text) : options + text :=
  match names with
  | [] => inl acc
  | n :: names => match get l n with Some o => gather l (overlay acc o) names | None => inr n end
  end.
Definition read_config (l : list (text * options)) (names : list text) : options + text :=
  match names with
  | [] => inl match get l (bs "default") with Some o => o | None => no_options end
  | _ => gather l no_options names
  end.
