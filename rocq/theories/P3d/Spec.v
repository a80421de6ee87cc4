(** What models can be written and read back (C35). *)
From Coq Require Import String.
From Verif Require Import Base.Tactics Base.Bytes Base.Ascii Io.Model Io.Spec P3d.Model.
Local Open Scope N_scope.
Local Open Scope list_scope.

(** What the Rust types already guarantee. *)
Definition u32 (n : N) : Prop := n < 4294967296.
Definition string (s : bytes) : Prop := is_bytes s /\ utf8_valid s = true.
Definition typed_vertex (v : vertex) : Prop := u32 (point_index v) /\ u32 (normal_index v) /\ u32 (uv0 v) /\ u32 (uv1 v).
Definition typed_point (p : point) : Prop := u32 (x p) /\ u32 (y p) /\ u32 (z p) /\ u32 (point_flags p).
Definition typed_normal (n : N * N * N) : Prop := let '(a, b, c) := n in u32 a /\ u32 b /\ u32 c.
Definition typed_face (f : face) : Prop := Forall typed_vertex (vertices f) /\ u32 (face_flags f) /\ string (texture f) /\ string (material f).
Definition typed_lod (d : lod) : Prop :=
  u32 (version_major d) /\ u32 (version_minor d) /\ u32 (resolution d) /\ Forall typed_point (points d) /\ Forall typed_normal (face_normals d) /\
  Forall typed_face (faces d) /\ Forall (fun t => string (fst t) /\ is_bytes (snd t)) (taggs d) /\ NoDup (map fst (taggs d)).
Definition typed (m : p3d) : Prop := u32 (version m) /\ Forall typed_lod (lods m).

(** What it takes beyond that. *)
Definition fits {A} (l : list A) : Prop := N.of_nat (length l) < 4294967296.
Definition storable_face (f : face) : Prop := (length (vertices f) = 3 \/ length (vertices f) = 4)%nat.
Definition storable_lod (d : lod) : Prop :=
  fits (points d) /\ fits (face_normals d) /\ fits (faces d) /\ Forall storable_face (faces d) /\ Forall (fun t => fits (snd t)) (taggs d).
Definition storable (m : p3d) : Prop := fits (lods m) /\ Forall storable_lod (lods m).
(** Names in the file end at the first NUL, and one of them ends the list. *)
Definition plain_face (f : face) : Prop := no_nul (texture f) /\ no_nul (material f).
Definition plain_lod (d : lod) : Prop := Forall plain_face (faces d) /\ Forall (fun t => no_nul (fst t) /\ fst t <> bs "#EndOfFile#") (taggs d).
Definition plain (m : p3d) : Prop := Forall plain_lod (lods m).
