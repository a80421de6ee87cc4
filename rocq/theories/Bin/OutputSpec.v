(** Specification vocabulary for C86 and C87: what should be in the output folder, and in a release. *)
From Coq Require Import String.
From Verif Require Import Base.Tactics Base.Bytes Base.Ascii Base.Text Bin.ExecModel Bin.ExecSpec Bin.AddonModel Bin.AddonSpec Bin.OutputModel.
Local Open Scope N_scope.
Local Open Scope list_scope.

(** The path written out, with a slash before every name. *)
Inductive spelled : path -> bytes -> Prop :=
| spelled_nil : spelled [] []
| spelled_cons n p s : spelled p s -> spelled (n :: p) (bs "/" ++ n ++ s).

Section Spec.
  Context {D R E C key : Type} (lower : bytes -> bytes) (glob : bytes -> option (bytes -> bool)) (project_ : project) (given : list bytes).
  Context (pbo_of : inputs R -> addon D -> bytes + E) (version_of : inputs R -> bytes + E)
          (other : module -> stage -> inputs R -> inputs R * result E C)
          (authority : bytes) (keygen : option bytes -> bytes -> key) (public : key -> bytes) (sign : key -> bytes -> bytes + E).
  Notation addon := (addon D).
  Notation inputs := (inputs R).

  (** ** Which addons *)
  Definition told (names : list bytes) (a : addon) : Prop := exists n, In n names /\ lower n = lower (name a).
  (** An optional addon counts only if it, or all, were asked for; an excluded folder covers the folders below it. *)
  Definition excluded (folders : list bytes) (a : addon) : Prop :=
    exists f rest, In f folders /\ location_name (loc a) ++ bs "/" ++ name a ++ bs "/" = f ++ bs "/" ++ rest.
  Definition dev_builds (d : dev_args) (a : addon) : Prop :=
    (just d = [] \/ told (just d) a) /\
    (In (name a) (launch_optionals d) \/
     (loc a = Addons \/ all_optionals d = true \/ In (name a) (optional d)) /\ ~ excluded (exclude d) a).

  (** ** The files of the project *)
  Definition kept_well (i : inputs) : Prop := NoDup (map fst (physical i)) /\ NoDup (map fst (layered i)).
  Definition holds (i : inputs) (p : path) (b : bytes) : Prop :=
    In (p, b) (layered i) \/ In (p, b) (physical i) /\ forall b', ~ In (p, b') (layered i).
  (** The patterns of the project, which begin at its root, and the five files that are always copied. *)
  Definition pattern (q : bytes) : Prop :=
    In q [bs "/mod.cpp"; bs "/meta.cpp"; bs "/LICENSE"; bs "/logo_ca.paa"; bs "/logo_co.paa"] \/
    exists g, In g given /\ (q = g /\ (exists r, g = bs "/" ++ r) \/ q = bs "/" ++ g /\ ~ exists r, g = bs "/" ++ r).
  Definition chosen (i : inputs) (p : path) (b : bytes) : Prop :=
    holds i p b /\ exists s, spelled p s /\ (~ exists r, s = bs "/.hemtt" ++ r) /\ exists q m, pattern q /\ glob q = Some m /\ m s = true.

  (** ** Places *)
  Definition own_mod (a : addon) : Prop := loc a = Optionals /\ optional_mod_folders project_ = true.
  (** The folder of the mod an addon belongs to, in the output folder. *)
  Definition mod_folder (a : addon) (f : path) : Prop :=
    (own_mod a /\ f = [bs "optionals"; bs "@" ++ release_folder project_ ++ bs "_" ++ name a]) \/ ~ own_mod a /\ f = [].
  Definition pbo_file (a : addon) : bytes := p_prefix project_ ++ bs "_" ++ name a ++ bs ".pbo".
  Definition subfolder (a : addon) (s : bytes) : Prop :=
    (loc a = Addons \/ optional_mod_folders project_ = true) /\ s = bs "addons" \/ (loc a = Optionals /\ optional_mod_folders project_ = false) /\ s = bs "optionals".
  Inductive pbo_place (a : addon) : path -> Prop :=
  | a_pbo_place f s : mod_folder a f -> subfolder a s -> pbo_place a (f ++ [s; pbo_file a]).
  (** The name of the key that signs an addon, with the version; an addon that is its own mod has its own key. *)
  Inductive key_name (v : bytes) (a : addon) : bytes -> option bytes -> Prop :=
  | common_key : ~ own_mod a -> key_name v a (authority ++ bs "_" ++ v) None
  | own_key_ : own_mod a -> key_name v a (authority ++ bs "_" ++ v ++ bs "_" ++ p_prefix project_ ++ bs "_" ++ name a) (Some (name a)).
  Inductive key_place (v : bytes) (a : addon) : path -> Prop :=
  | a_key_place f k o : mod_folder a f -> key_name v a k o -> key_place v a (f ++ [bs "keys"; k ++ bs ".bikey"]).
  Inductive sig_place (v : bytes) (a : addon) : path -> Prop :=
  | a_sig_place f s k o : mod_folder a f -> subfolder a s -> key_name v a k o -> sig_place v a (f ++ [s; pbo_file a ++ bs "." ++ k ++ bs ".bisign"]).

  (** ** The project over time *)
  (** What a step makes of the project. *)
  Definition effect (s : step module) (i : inputs) : inputs :=
    match s with
    | BuildPbos | MakeArchive | Phase Files PostBuild | Phase FilePatching PreBuild | Phase Sign PreRelease => i
    | Phase m s => fst (other m s i)
    end.
  (** The project [i] when the step [s] comes. *)
  Definition arrives (x : executor module) (i0 : inputs) (s : step module) (i : inputs) : Prop :=
    exists before later, steps x = before ++ s :: later /\ i = fold_left (fun i s => effect s i) before i0.

  (** ** What a build leaves in its folder, for the addons that are [built], from what it found there *)
  Definition below (q p : path) : Prop := exists r, p = q ++ r.
  Definition link_of (a : addon) (q t : path) : Prop := q = [bs "addons"; name a] /\ t = [location_name (loc a); name a].
  Definition dev_place (a : addon) (p : path) : Prop := p = [bs "addons"; pbo_file a].
  Section Left.
    Context (place : addon -> path -> Prop) (links : Prop) (built : addon -> Prop) (ib ic : inputs) (old : path -> node -> Prop).
    (** Copied files come before PBOs, PBOs before what was there, and that before links. *)
    Definition a_copy (p : path) (n : node) : Prop := exists b, chosen ic p b /\ n = File b.
    Definition a_pbo (p : path) (n : node) : Prop := exists a b, built a /\ place a p /\ pbo_of ib a = inl b /\ n = File b.
    Definition a_link (p : path) (n : node) : Prop := links /\ exists a t, built a /\ link_of a p t /\ n = Link t.
    Definition left_at (p : path) (n : node) : Prop :=
      a_copy p n \/
      (forall n', ~ a_copy p n') /\ (a_pbo p n \/
      (forall n', ~ a_pbo p n') /\ (old p n \/
      (forall n', ~ old p n') /\ a_link p n)).
    (** Nothing is copied to below a link. *)
    Definition not_through : Prop := forall p b q t, chosen ic p b -> (old q (Link t) \/ links /\ exists a, built a /\ link_of a q t) -> ~ below q p.
  End Left.

  (** ** What a release holds, for the addons [l] *)
  Inductive released (x : executor module) (i0 : inputs) (l : list addon) : path -> bytes -> Prop :=
  | the_pbo a i p b : In a l -> arrives x i0 BuildPbos i -> pbo_of i a = inl b -> pbo_place a p -> released x i0 l p b
  | the_file i p b : arrives x i0 (Phase Files PostBuild) i -> chosen i p b -> released x i0 l p b
  | the_key i v p : arrives x i0 (Phase Sign PreRelease) i -> version_of i = inl v -> p = [bs "keys"; authority ++ bs "_" ++ v ++ bs ".bikey"] ->
      released x i0 l p (public (keygen None (authority ++ bs "_" ++ v)))
  | an_own_key a i v k p : In a l -> arrives x i0 (Phase Sign PreRelease) i -> version_of i = inl v -> own_mod a -> key_name v a k (Some (name a)) -> key_place v a p ->
      released x i0 l p (public (keygen (Some (name a)) k))
  | the_signature a i v i' b k o s p : In a l -> arrives x i0 (Phase Sign PreRelease) i -> version_of i = inl v -> key_name v a k o ->
      arrives x i0 BuildPbos i' -> pbo_of i' a = inl b -> sign (keygen o k) b = inl s -> sig_place v a p -> released x i0 l p s.

  (** Names in an archive: what is released, below the folder of the mod, and each folder on the way. *)
  Definition entry (p : path) : bytes := bs "@" ++ release_folder project_ ++ bs "/" ++ join (bs "/") p.
  Definition archive_holds (x : executor module) (i0 : inputs) (l : list addon) (z : zip) : Prop :=
    (forall n b, In (n, Some b) z <-> exists p, n = entry p /\ released x i0 l p b) /\
    (forall n, In (n, None) z <-> exists p q b, p <> [] /\ q <> [] /\ n = entry p /\ released x i0 l (p ++ q) b).
  Definition latest_name : path := [p_prefix project_ ++ bs "-latest.zip"].
  Definition version_name (v : bytes) : path := [p_prefix project_ ++ bs "-" ++ v ++ bs ".zip"].
  (** The files [names] have become [z], the others are what they were. *)
  Definition updated {A} (names : list path) (z : A) (old new : list (path * A)) : Prop :=
    forall q, (In q names -> look q new = Some z) /\ (~ In q names -> look q new = look q old).

  (** The places that are made, not copied. *)
  Definition made (l : list addon) (p : path) : Prop :=
    (exists a, In a l /\ pbo_place a p) \/ (exists a v, In a l /\ (sig_place v a p \/ key_place v a p)) \/ exists v, p = [bs "keys"; authority ++ bs "_" ++ v ++ bs ".bikey"].
  (** What is copied does not take the place of what is made. *)
  Definition apart (x : executor module) (i0 : inputs) (l : list addon) : Prop :=
    forall i p b, arrives x i0 (Phase Files PostBuild) i -> chosen i p b -> ~ made l p.
End Spec.
