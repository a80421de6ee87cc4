(** What a listing of an archive should say (C107). *)
From Coq Require Import String.
From Verif Require Import Base.Tactics Base.Bytes Base.Sort Io.Model Io.Spec Pbo.Model Pbo.Spec Pbo.ListModel.
Local Open Scope N_scope.
Local Open Scope list_scope.

(** Names are in order, upper and lower case being the same. *)
Definition in_order (lower : bytes -> bytes) (names : list bytes) : Prop := StronglySorted (fun x y => cmp_bytes (lower x) (lower y) <> Gt) names.
(** The rows of a history of calls: one for each file, with its length. *)
Definition rows_of (ops : list op) (l : list row) : Prop :=
  NoDup (map filename l) /\
  forall n k s o t, In (Row n k s o t) l <-> ~ In 47 n /\ exists c, newest_file n ops c /\ k = Blank /\ s = N.of_nat (length c) /\ o = s /\ t = 0.
