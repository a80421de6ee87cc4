(** What C108 says. *)
From Coq Require Import String.
From Verif Require Import Base.Tactics Base.Bytes Base.Ascii Base.Sort Io.Model Paa.Model Paa.ConvertModel.
Local Open Scope N_scope.
Local Open Scope list_scope.

(** The bytes of the blocks of four by four pixels: 8 for each in DXT1, 16 otherwise. *)
Definition blocks_size (f : format) (w h : N) : N :=
  ((w + 3) / 4) * ((h + 3) / 4) * match f with Bc1 => 8 | _ => 16 end.
(** A decoder reads all blocks: it panics if there are fewer. *)
Definition reads_blocks (decode : format -> bytes -> N -> N -> option bytes) : Prop :=
  forall f data w h, blen data < blocks_size f w h -> decode f data w h = None.
(** Only the file at [path] changed, and has that content. *)
Definition wrote (d d' : disk) (path content : bytes) : Prop :=
  d' path = Some content /\ forall p, p <> path -> d' p = d p.
