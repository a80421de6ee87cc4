(** Specification for C95: a photoshoot session. *)
From Coq Require Import String.
From Verif Require Import Base.Tactics Base.Bytes Base.Sort Base.Ascii Base.Text.
From Verif Require Import Shoot.ShootModel.
Local Open Scope N_scope.
Local Open Scope list_scope.

(** What the game is to be asked for, in order: all previews and to take them; the weapons one by one; to stop. *)
Definition requests (weapons previews : list (text * text)) : list to_game :=
  (match previews with [] => [] | _ => map Preview (map fst previews) ++ [PreviewRun] end) ++
  map Weapon (rev (map fst weapons)) ++ [Done].

(** What the game may say in a session. *)
Definition could_say (weapons : list (text * text)) (missions : list text) (m : to_hemtt) : Prop :=
  match m with
  | Mission p => In p missions
  | Log _ => exists w u, In w (map fst weapons) /\ In m (logs w u)
  | Shot w => In w (map fst weapons)
  | Ready | Previews => True
  end.

(** A picture is at [t] now. *)
Definition there_now (there : text -> bool) (s : state) (t : text) : Prop := there t = true \/ exists c, In (t, c) (made (D s)).

(** The loop of HEMTT, or that of the extension, found a message of which only the length had arrived. *)
Definition torn (s : state) : Prop := h_at (H s) = Dead Torn \/ e_at (E s) = Stopped.

(** A schedule in which no side looks for a message while the other has written the length of one and not yet the rest. *)
Definition in_between (ws : list bytes) : Prop := Nat.odd (length ws) = true.
Fixpoint careful (go : actor -> state -> state) (l : list actor) (s : state) : Prop :=
  match l with
  | [] => True
  | a :: l' =>
      (a = Hemtt_turn -> h_at (H s) = Polling -> forall ws, e_at (E s) = Sending ws -> ~ in_between ws) /\
      (a = Ext_read -> e_at (E s) = Waiting -> forall ws, h_at (H s) = Writing ws -> ~ in_between ws) /\
      careful go l' (go a s)
  end.

(** In each of [k] rounds everyone has a turn. *)
Fixpoint rounds (k : nat) (l : list actor) : Prop :=
  match k with
  | O => True
  | S k' => exists a b, l = a ++ b /\ (forall x : actor, In x a) /\ rounds k' b
  end.
