(** Model of hemtt utils pbo inspect: bin/src/utils/pbo/inspect.rs.

    Simplifications: the layout of the table (the four formats show the same rows); checksums are shown as [hex] gives them. *)
From Coq Require Import String.
From Verif Require Import Base.Tactics Base.Bytes Base.Sort Io.Model Pbo.Model.
Local Open Scope N_scope.
Local Open Scope list_scope.

(** libs/pbo/src/model/checksum.rs:28-34 [hex]. *)
Definition digit (n : N) : N := if n <? 10 then 48 + n else 87 + n.
Definition hex (l : bytes) : bytes := flat_map (fun b => [digit (b / 16); digit (b mod 16)]) l.
(** inspect.rs:21-28 [FileInfo]. *)
Record row := Row { filename : bytes; kind : mime; size : N; original : N; timestamp : N }.
(** What is printed. [unsorted] and [invalid] are the two warnings at the end. *)
Record listing := Listing {
  properties : list (bytes * bytes);
  stored : bytes;
  actual : bytes;
  sorted : bool;
  rows : list row;
  unsorted : bool;
  invalid : bool }.
Inductive outcome := Shows (l : listing) | Fails (e : pbo_error) | Panics.

Section Params.
  Context (lower sha : bytes -> bytes).
  (** inspect.rs:37-81 [inspect]. *)
  Definition inspect (input : bytes) : outcome :=
    match read input with
    | Err EPanic => Panics
    | Err e => Fails e
    | Ok r =>
        match gen_checksum lower sha r with
        | Err EPanic => Panics
        | Err e => Fails e
        | Ok a =>
            Shows (Listing (r_props r) (r_checksum r) a (is_sorted lower r)
              (map (fun h => Row (h_name h) (h_mime h) (h_size h) (h_original h) (h_timestamp h)) (r_headers r))
              (negb (is_sorted lower r)) (negb (eqb_bytes (r_checksum r) a)))
        end
    end.
End Params.
