(** Model of the language server's workspaces: hls/src/workspace.rs.

    A URL is the text of its path: all URLs here are file URLs without a host. Texts are UTF-8 bytes. *)
From Coq Require Import String.
From Verif Require Import Base.Tactics Base.Bytes Base.Sort Base.Ascii Base.Text Workspace.PathModel.
Local Open Scope N_scope.
Local Open Scope list_scope.

(** ** The urlencoding crate *)
Definition unreserved (b : N) : bool :=
  (((48 <=? b) && (b <=? 57)) || ((65 <=? b) && (b <=? 90)) || ((97 <=? b) && (b <=? 122)) || (b =? 45) || (b =? 46) || (b =? 95) || (b =? 126))%bool.
Definition hex (n : N) : N := if n <? 10 then 48 + n else 55 + n.
Definition escape (b : N) : text := [37; hex (b / 16); hex (b mod 16)].
(** [urlencoding::encode]. *)
Definition encode (s : text) : text := flat_map (fun b => if unreserved b then [b] else escape b) s.
Definition unhex (c : N) : option N :=
  if ((48 <=? c) && (c <=? 57))%bool then Some (c - 48)
  else if ((65 <=? c) && (c <=? 70))%bool then Some (c - 55)
  else if ((97 <=? c) && (c <=? 102))%bool then Some (c - 87) else None.
(** [urlencoding::decode]: an escape that is none is kept. *)
Fixpoint decode (s : text) : text :=
  match s with
  | [] => []
  | a :: t =>
      if a =? 37 then
        match t with
        | h :: l :: r =>
            match unhex h, unhex l with
            | Some x, Some y => 16 * x + y :: decode r
            | _, _ => a :: h :: l :: decode r
            end
        | _ => s
        end
      else a :: decode t
  end.
(** workspace.rs:141 [replace("%2F", "/")]. *)
Fixpoint unslash (s : text) : text :=
  match s with
  | [] => []
  | a :: t =>
      match t with
      | b :: c :: r => if ((a =? 37) && (b =? 50) && (c =? 70))%bool then 47 :: unslash r else a :: unslash t
      | _ => a :: unslash t
      end
  end.

(** ** The folders *)
(** workspace.rs:101-128 [EditorWorkspace::new]: the root on disk. Simplified: [replace("file://", "")] removes the scheme only. *)
Definition root_of (folder : text) : text := decode folder.
(** workspace.rs:135-146 [to_url]. Simplified: [set_path] keeps a path of unreserved characters, escapes and slashes as it is, which it does if no
    segment is one of "." and ".."; the root of the workspace is the empty text. *)
Definition to_url (folder : text) (p : vpath) : text := folder ++ unslash (encode (slashes (as_str p))).
Definition strip_prefix (p s : text) : option text := if starts_with p s then Some (skipn (length p) s) else None.
Inductive outcome := Joined (p : vpath) | Rejected | Panics | Unknown.
(** workspace.rs:130-133 [join_url]; [unwrap] panics. *)
Definition join_url (folder url : text) : outcome :=
  match strip_prefix folder url with
  | None => Panics
  | Some rest => match vfs_join [] rest with Some p => Joined p | None => Rejected end
  end.
(** workspace.rs:67-71. *)
Fixpoint common (a b : text) : nat :=
  match a, b with
  | x :: a', y :: b' => if x =? y then S (common a' b') else O
  | _, _ => O
  end.
(** workspace.rs:60-77 [guess_workspace]: [ws] are the folders in the order of the hash map. *)
Definition better (url : text) (best : option text * nat) (folder : text) : option text * nat :=
  if (snd best <? common folder url)%nat then (Some folder, common folder url) else best.
Definition guess (ws : list text) (url : text) : option text := fst (fold_left (better url) ws (None, O)).
(** sqf/mod.rs:39-50, config/mod.rs [did_save]: the file of a URL. Simplified: no retries. *)
Definition file_of (ws : list text) (url : text) : outcome :=
  match guess ws url with None => Unknown | Some f => join_url f url end.

(** workspace.rs:39-58 [changed], one folder after the other: a folder is removed; one is added, which works or not. Simplified: a change that
    both removes and adds is the removals followed by the additions. *)
Inductive event := Removed (folder : text) | Added (folder : text) (works : bool).
Definition change (ws : list text) (e : event) : list text :=
  match e with
  | Removed f => filter (fun g => negb (eqb_bytes g f)) ws
  | Added f works => let ws' := filter (fun g => negb (eqb_bytes g f)) ws in if works then f :: ws' else ws'
  end.
Definition changes (ws : list text) (es : list event) : list text := fold_left change es ws.
