(** Specification vocabulary for C94. *)
From Coq Require Import String.
From Verif Require Import Base.Tactics Base.Bytes Base.Sort Base.Ascii Io.Model Io.Spec Pbo.Model Pbo.Spec Signing.Model Signing.Spec Bin.AddonModel Bin.VerifyModel.
From Verif Require Bin.PackModel Bin.PackSpec Bin.PackProps Bin.OutputModel.
Local Open Scope N_scope.
Local Open Scope list_scope.

(** What the files of a folder hold; a link is not followed. *)
Definition files_of (o : list (path * OutputModel.node)) (p : path) : option bytes :=
  match OutputModel.look p o with Some (OutputModel.File b) => Some b | _ => None end.

(** The archive [name].pbo, and its signature by an authority beside it. *)
Definition pbo_at (folder : path) (name : bytes) : path := folder ++ [name ++ bs ".pbo"].
Definition signature_at (folder : path) (name authority : bytes) : path := folder ++ [name ++ bs ".pbo." ++ authority ++ bs ".bisign"].

Section S.
  Context (lower sha : bytes -> bytes).
  (** [b] is what HEMTT writes for some addon: the names and properties fit the format, a prefix comes from somewhere, and no two
      packed files have names that differ in case only. *)
  Definition packed_by_hemtt (b : bytes) : Prop :=
    exists glob prefix_of s tree iter,
      (forall l, Permutation (iter l) l) /\ PackSpec.settings_ok s /\ PackSpec.listing tree /\ PackProps.prefixes_ok lower glob prefix_of s tree /\
      (exists t, PackSpec.property_source lower glob prefix_of s tree (bs "prefix") t) /\
      (forall e c e' c', PackSpec.packed lower glob s tree e c -> PackSpec.packed lower glob s tree e' c' ->
         lower (PackSpec.inner_name e') = lower (PackSpec.inner_name e) -> e' = e) /\
      PackModel.build_pbo lower sha glob prefix_of s tree iter = inl b.

  (** Making keys: an RSA key for every name a key file can hold, with numbers that fit its file. *)
  Definition makes_keys (keygen : option bytes -> bytes -> private_key) : Prop :=
    forall o n, storable n -> rsa_key (keygen o n) /\ k_authority (keygen o n) = n /\ public_fits (to_public_key (keygen o n)).
End S.
