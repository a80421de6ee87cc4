(** C35. *)
From Coq Require Import String.
From Verif Require Import Base.Tactics Base.Bytes Base.Ascii Io.Model Io.Spec P3d.Model P3d.Spec P3d.Proofs.
Local Open Scope N_scope.
Local Open Scope list_scope.

(** Writing succeeds exactly for models with three or four vertices in every face and counts below 2^32; and what is
    written reads back, whatever follows it in the stream. *)
Theorem C35_p3d_roundtrip : forall m, typed m ->
  ((exists b, write m = Some b) <-> storable m) /\
  (plain m -> forall b, write m = Some b -> forall rest, read (b ++ rest) = Some m).
Proof. intros m H. split; [apply write_some | intros; now apply read_write]. Qed.
(** Every model that can be read can be written, and reads back as it was. *)
Theorem C35_p3d_read_then_write : forall l m, is_bytes l -> read l = Some m -> exists b, write m = Some b /\ read b = Some m.
Proof.
  intros l m Hb H. apply read_in_order in H as (T & S & P); auto. destruct (proj2 (write_some m) S) as [b E]. exists b. split; auto.
  rewrite <- (app_nil_r b). eapply read_write; eauto.
Qed.

(** A case: a triangle and a quad, two tags. *)
Definition v0 := Vertex 1 2 3 4.
Definition small_lod := Lod 28 256 1065353216 [Point 1 2 3 4; Point 5 6 7 4294967295] [(1, 2, 3)]
  [Face [v0; v0; v0] 7 (bs "a\b.paa") (bs ""); Face [v0; v0; v0; v0] 0 [] (bs "m.rvmat")] [(bs "#Mass#", [0; 255; 0]); (bs "sel", [])].
Definition small := P3d 257 [small_lod; small_lod].
Ltac settle := repeat first [exact I | apply Forall_nil | apply Forall_cons | split | apply NoDup_nil | apply NoDup_cons | reflexivity];
  try (intros Hin; vm_compute in Hin; intuition discriminate); try discriminate; try (vm_compute; reflexivity).
Example small_ok : typed small /\ storable small /\ plain small.
Proof.
  split; [|split].
  - settle.
  - split; [reflexivity|]. repeat (apply Forall_cons || apply Forall_nil); (split; [reflexivity|]; split; [reflexivity|]; split; [reflexivity|]; split;
      repeat (apply Forall_cons || apply Forall_nil); unfold storable_face; cbn; auto; reflexivity).
  - settle.
Qed.
Example small_back : exists b, write small = Some b /\ read b = Some small.
Proof. eexists. split; [vm_compute; reflexivity|]. vm_compute. reflexivity. Qed.

(** A tag that is called like the end marker is written, and cuts off what follows: the next tag is gone and the
    resolution is made of its bytes. *)
Definition marked := P3d 257 [Lod 28 256 7 [] [] [] [(bs "#EndOfFile#", []); (bs "sel", [9])]].
Theorem C35_end_marker_tag_refuted : exists m b m', typed m /\ storable m /\ write m = Some b /\ read b = Some m' /\ m' <> m.
Proof.
  exists marked. eexists _, _. split; [settle|]. split; [|split; [vm_compute; reflexivity|]; split; [vm_compute; reflexivity|discriminate]].
  split; [reflexivity|]. repeat (apply Forall_cons || apply Forall_nil). repeat split; try reflexivity; repeat (apply Forall_cons || apply Forall_nil); reflexivity.
Qed.

Print Assumptions C35_p3d_roundtrip.
Print Assumptions C35_p3d_read_then_write.
Print Assumptions C35_end_marker_tag_refuted.
