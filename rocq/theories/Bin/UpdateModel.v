(** Model of the check for a newer release: bin/src/update.rs, called by bin/src/lib.rs:109-127 in every command outside CI.

    Modelled is what a released build does (update.rs:11-14 skips the others), with the folder for temporary files at hand. *)
From Coq Require Import String.
From Verif Require Import Base.Tactics Base.Bytes Base.Ascii Base.Text.
Local Open Scope N_scope.
Local Open Scope list_scope.

(** The file [latest] (update.rs:19): what it holds, and when it was written, in seconds. *)
Record latest := Latest { tag : text; stamp : N }.
(** One run of the program: the time, what the releases service answers (the name of the latest release, or nothing), and, if the run is
    interrupted while it writes the answer down, how much was written by then. *)
Record attempt := Attempt { now : N; answer : option text; interrupted : option nat }.
Inductive result {V : Type} := Failed | Panicked | Newer (v : V) | UpToDate | Interrupted.
Arguments result : clear implicits.

Section Update.
  Context {V : Type}.
  (** [String::from_utf8] accepts it; [semver::Version::parse] and [>]; the program's own version. *)
  Context (utf8 : text -> bool) (parse : text -> option V) (gt : V -> V -> bool) (current : V).

  (** update.rs:20-29: [duration_since] of a time to come is no time at all. *)
  Definition needs_check (f : option latest) (t : N) : bool :=
    match f with None => true | Some l => 12 * 60 * 60 <? t - stamp l end.
  (** update.rs:56-71: the slice [latest[1..]] panics if there is nothing to cut off or if that is in the middle of a character. *)
  Definition compare (s : text) : result V :=
    if utf8 s then
      match s with
      | [] => Panicked
      | _ :: r =>
          match r with
          | b :: _ => if ((128 <=? b) && (b <? 192))%bool then Panicked
                      else match parse r with None => Failed | Some v => if gt v current then Newer v else UpToDate end
          | [] => match parse r with None => Failed | Some v => if gt v current then Newer v else UpToDate end
          end
      end
    else Failed.
  (** update.rs:11-72 [check]. *)
  Definition check (f : option latest) (a : attempt) : option latest * result V :=
    if needs_check f (now a) then
      match answer a with
      | None => (f, Failed)
      | Some s =>
          match interrupted a with
          | Some k => (Some (Latest (firstn k s) (now a)), Interrupted)
          | None => (Some (Latest s (now a)), compare s)
          end
      end
    else match f with Some l => (f, compare (tag l)) | None => (f, Failed) end.
  Definition after (f : option latest) (l : list attempt) : option latest := fold_left (fun f a => fst (check f a)) l f.
  Definition report (f : option latest) (l : list attempt) (a : attempt) : result V := snd (check (after f l) a).
End Update.
