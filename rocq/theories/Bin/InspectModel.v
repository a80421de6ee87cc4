(** Model of hemtt utils inspect: bin/src/utils/inspect.rs.

    Simplifications: what is shown of an archive, a picture or a config is not modelled, only that the file is taken for one; of a
    key and of a signature, what was read. *)
From Coq Require Import String.
From Verif Require Import Base.Tactics Base.Bytes Base.Ascii Base.Sort Signing.Model.
Local Open Scope N_scope.
Local Open Scope list_scope.

(** What the file is taken for. *)
Inductive shown := Archive | Picture | Config | Key (k : public_key) | Signature (s : bisign).
(** [Unsupported]: said so; [Fails]: an error, status 1; [Panics]. *)
Inductive outcome := Shows (k : shown) | Unsupported | Fails | Panics.
(** inspect.rs:86-96 [bikey], inspect.rs:103-114 [bisign]. *)
Definition bikey (file : bytes) : outcome :=
  match read_public file with SOk (k, _) => Shows (Key k) | SErr SPanic => Panics | SErr _ => Fails end.
Definition bisign (file : bytes) : outcome :=
  match read_sign file with SOk (s, _) => Shows (Signature s) | SErr SPanic => Panics | SErr _ => Fails end.
(** inspect.rs:48-79: a file with another extension. *)
Definition sniff (file : bytes) : outcome :=
  match take_exact 6 file with
  | None => Fails
  | Some (buf, _) =>
      if eqb_bytes buf [0; 115; 114; 101; 86; 0] then Shows Archive
      else if eqb_bytes (skipn 2 buf) (bs "GGAT") then Shows Picture
      else match read_sign file with
           | SErr SPanic => Panics
           | SOk _ => bisign file
           | SErr _ =>
               match read_public file with
               | SErr SPanic => Panics
               | SOk _ => bikey file
               | SErr _ => Unsupported
               end
           end
  end.
(** inspect.rs:26-81 [execute]. *)
Definition inspect (path file : bytes) : outcome :=
  let e := extension path in
  if eqb_bytes e (bs "paa") then Shows Picture
  else if eqb_bytes e (bs "pbo") then Shows Archive
  else if eqb_bytes e (bs "bikey") then bikey file
  else if eqb_bytes e (bs "bisign") then bisign file
  else if eqb_bytes e (bs "cpp") || eqb_bytes e (bs "hpp") then Shows Config
  else sniff file.
