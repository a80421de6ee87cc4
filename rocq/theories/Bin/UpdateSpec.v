(** Specification for C100: news of releases. *)
From Coq Require Import String.
From Verif Require Import Base.Tactics Base.Bytes Base.Ascii Base.Text Bin.UpdateModel.
Local Open Scope N_scope.
Local Open Scope list_scope.

(** Half a day, in seconds. *)
Definition half_day : N := 43200.
(** The answer that counts at the end of a history: the service is asked when it never answered before, or its last answer is older than half a day. *)
Fixpoint last_answer (seen : option (N * text)) (l : list attempt) : option (N * text) :=
  match l with
  | [] => seen
  | a :: r =>
      last_answer (match answer a with
                   | Some s => match seen with None => Some (now a, s) | Some (t, _) => if t + half_day <? now a then Some (now a, s) else seen end
                   | None => seen
                   end) r
  end.
(** The service is needed and silent. *)
Definition unanswered (seen : option (N * text)) (a : attempt) : Prop :=
  answer a = None /\ match seen with None => True | Some (t, _) => t + half_day < now a end.
(** A release's name is "v" and its version. *)
Definition names {V} (parse : text -> option V) (s : text) (v : V) : Prop := exists r, s = bs "v" ++ r /\ parse r = Some v.
