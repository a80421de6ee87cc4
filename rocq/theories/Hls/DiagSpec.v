(** Specification for C97: what the editor shows. *)
From Coq Require Import String.
From Verif Require Import Base.Tactics Base.Bytes Base.Sort Base.Ascii Base.Text.
From Verif Require Import Hls.DiagModel.
Local Open Scope list_scope.

(** The findings at [u] in the configs of [addons] with the files as they are. *)
Definition at_url {diag} (to_url : text -> text) (u : text) (l : list (text * diag)) : list diag :=
  map snd (filter (fun x => eqb_bytes (to_url (fst x)) u) l).
Definition expected {diag} (outcome : (text -> text) -> text -> list text * list (text * diag)) (to_url : text -> text) (addons : list text) (d : text -> text) (u : text) : list diag :=
  flat_map (fun c => at_url to_url u (snd (outcome d c))) addons.

(** Nothing is going on in the server. *)
Definition idle {diag} (s : state diag) : Prop := jobs s = [] /\ tasks s = [].

Section Orderly.
  Context {diag : Type} (go : turn -> state diag -> state diag).
  Context (outcome : (text -> text) -> text -> list text * list (text * diag)) (addons : list text).
  (** The files that matter to a config. *)
  Context (matters : (text -> text) -> text -> list text).
  (** The editor saves only when no check is running, and only files which, if they matter to a config, are among the sources that its
      check lists; messages are sent in the order of the tasks. Checks of different configs and messages may come in any order. *)
  Fixpoint orderly (l : list turn) (s : state diag) : Prop :=
    match l with
    | [] => True
    | Write f x :: l' =>
        jobs s = [] /\ (forall c, In c addons -> In f (matters (files s) c) -> In f (fst (outcome (files s) c))) /\
        match l' with Saved g :: l'' => g = f /\ orderly l'' (go (Saved f) (go (Write f x) s)) | _ => False end
    | Saved f :: l' => jobs s = [] /\ orderly l' (go (Saved f) s)
    | Publish i :: l' => i = O /\ orderly l' (go (Publish i) s)
    | Check i n :: l' => orderly l' (go (Check i n) s)
    end.
End Orderly.
