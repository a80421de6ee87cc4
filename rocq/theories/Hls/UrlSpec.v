(** Specification for C98: files, folders and URLs. *)
From Coq Require Import String.
From Verif Require Import Base.Tactics Base.Bytes Base.Sort Base.Ascii Base.Text.
From Verif Require Import Hls.UrlModel.
Local Open Scope N_scope.
Local Open Scope list_scope.

(** The path of a file in a folder. *)
Definition proper (p : list text) : Prop :=
  p <> [] /\ Forall (fun c => c <> [] /\ ~ In 47 c /\ ~ In 92 c /\ c <> bs "." /\ c <> bs "..") p.
(** Letters, digits, "-", ".", "_" and "~". *)
Definition plain_char (b : N) : Prop := 48 <= b <= 57 \/ 65 <= b <= 90 \/ 97 <= b <= 122 \/ In b (bs "-._~").
Definition plain_path (p : list text) : Prop := Forall (Forall plain_char) p.
(** [u] begins with [f]. *)
Definition begins (f u : text) : Prop := exists r, u = f ++ r.

(** [u] is a way to write [s] with escapes. *)
Definition hex_digit (c n : N) : Prop := (n < 10 /\ c = 48 + n) \/ (10 <= n < 16 /\ (c = 55 + n \/ c = 87 + n)).
Inductive encodes : text -> text -> Prop :=
| encodes_nil : encodes [] []
| encodes_char b u s : b <> 37 -> encodes u s -> encodes (b :: u) (b :: s)
| encodes_escape h l x y u s : hex_digit h x -> hex_digit l y -> encodes u s -> encodes (37 :: h :: l :: u) (16 * x + y :: s).

(** The last word on the folder [f] is that it was added. *)
Definition mentions (f : text) (e : event) : Prop := match e with Removed g => g = f | Added g _ => g = f end.
Definition open_after (ws : list text) (es : list event) (f : text) : Prop :=
  (In f ws /\ Forall (fun e => ~ mentions f e) es) \/
  exists es1 es2, es = es1 ++ Added f true :: es2 /\ Forall (fun e => ~ mentions f e) es2.
