From Coq Require Import String.
From Verif Require Import Base.Tactics Base.Bytes Base.Ascii Io.Model Paa.Model.
Local Open Scope N_scope.
Local Open Scope list_scope.

Definition red (p : N * N * N * N) : N := let '(r, _, _, _) := p in r.
Definition green (p : N * N * N * N) : N := let '(_, g, _, _) := p in g.
Definition blue (p : N * N * N * N) : N := let '(_, _, b, _) := p in b.
Definition alpha (p : N * N * N * N) : N := let '(_, _, _, a) := p in a.
Definition total (c : N * N * N * N -> N) (ps : list (N * N * N * N)) : N := fold_right (fun p s => c p + s) 0 ps.
Definition highest (c : N * N * N * N -> N) (ps : list (N * N * N * N)) : N := fold_right (fun p m => N.max (c p) m) 0 ps.
(** An image of [image::RgbaImage]: as many pixels as its size says, four bytes each. *)
Definition well_formed (i : image) : Prop :=
  i_width i < 4294967296 /\ i_height i < 4294967296 /\ N.of_nat (length (pixels i)) = i_width i * i_height i /\
  Forall (fun p => red p < 256 /\ green p < 256 /\ blue p < 256 /\ alpha p < 256) (pixels i).
(** The coder fills blocks of four by four pixels with 16 bytes. *)
Definition coder (compress : image -> bytes) : Prop :=
  forall i, is_bytes (compress i) /\ N.of_nat (length (compress i)) = ((i_width i + 3) / 4) * ((i_height i + 3) / 4) * 16.
Definition average (c : N * N * N * N -> N) (i : image) : N := total c (pixels i) / (i_width i * i_height i).
