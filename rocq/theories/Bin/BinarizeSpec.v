(** Specification vocabulary for C80: which files are binarized, and which textures and materials are missing. *)
From Coq Require Import String.
From Verif Require Import Base.Tactics Base.Bytes Base.Sort Base.Ascii Base.Text Bin.BinarizeModel Bin.PackModel Bin.PackSpec.
Local Open Scope N_scope.
Local Open Scope list_scope.

Definition has_extension (exts : list text) (name : text) : Prop := exists n x, name = n ++ bs "." ++ x /\ n <> [] /\ In x exts.
(** Binarized models (ODOL), animations (BMTR) and terrains (OPRW). *)
Definition already_binarized (content : bytes) : Prop := exists magic r, In magic [bs "ODOL"; bs "BMTR"; bs "OPRW"] /\ content = magic ++ r.
Definition is_mlod (content : bytes) : Prop := exists r, content = bs "MLOD" ++ r.

Section S.
  Context (glob : bytes -> option (bytes -> bool)).
  (** A file that binarize may be for: a model, animation or terrain by its extension, of an addon for which
      binarization is on, and not excluded by the addon's patterns. *)
  Definition candidate (l : list addon) (a : addon) (e : entry) (content : bytes) : Prop :=
    In a l /\ In e (b_tree a) /\ e_content e = Some content /\ has_extension [bs "rtm"; bs "p3d"; bs "wrp"] (e_name e) /\
    forall on exclude, b_config a = Some (on, exclude) -> on = true /\ ~ matches glob exclude (join [47] (parts e)).
  Definition wanted (l : list addon) (a : addon) (e : entry) (content : bytes) : Prop :=
    candidate l a e content /\ ~ already_binarized content.
  (** All files, addon by addon. *)
  Definition walk (l : list addon) : list (addon * entry) := flat_map (fun a => map (pair a) (b_tree a)) l.
  (** A model that is checked for missing files, with its faces' textures and materials. *)
  Definition model (read_p3d : bytes -> option (list (text * text))) (l : list addon) (a : addon) (e : entry) (faces : list (text * text)) : Prop :=
    exists content, wanted l a e content /\ is_mlod content /\ read_p3d content = Some faces.
End S.

(** The target of a file: read where its folder is linked below [tmp], written below hemtt_binarize_output. *)
Definition target_for (tmp : text) (a : addon) (e : entry) : target :=
  Target (tmp ++ bs "/" ++ join (bs "/") (b_prefix a) ++ bs "/" ++ flat_map (fun d => d ++ bs "/") (e_dirs e))
         (tmp ++ bs "/hemtt_binarize_output/" ++ join (bs "/") (b_folder a :: e_dirs e))
         (e_name e).

(** Paths are from the root, whether or not they begin with a backslash. *)
Definition from_root (x t : text) : Prop := t = x /\ (exists r, x = 92 :: r) \/ t = 92 :: x /\ ~ exists r, x = 92 :: r.
Definition uses_texture (faces : list (text * text)) (t : text) : Prop :=
  exists x m, In (x, m) faces /\ x <> [] /\ (~ exists r, x = 35 :: r) /\ from_root x t.
Definition uses_material (faces : list (text * text)) (t : text) : Prop :=
  exists x m, In (x, m) faces /\ m <> [] /\ from_root m t.
(** A .paa may come from a .tga, a .tga or .png stands for a .paa. *)
Definition conversions : list (text * text) := [(bs ".paa", bs ".tga"); (bs ".tga", bs ".paa"); (bs ".png", bs ".paa")].
Definition alternative (t o : text) : Prop := exists n x y, In (x, y) conversions /\ t = n ++ x /\ o = n ++ y.
(** The extension occurs nowhere else in the path. *)
Definition plain_texture (t : text) : Prop := forall x y a n b, In (x, y) conversions -> t = n ++ x -> t = a ++ x ++ b -> b = [].
Definition texture_missing (located : text -> option bool) (t : text) : Prop :=
  located t = Some false /\ forall o, alternative t o -> located o = Some false.
Definition material_missing (located : text -> option bool) (t : text) : Prop := located t = Some false.

(** What the walk of the disk guarantees: names are not empty and hold no slash, folders are from the root. *)
Definition laid_out (l : list addon) : Prop :=
  Forall (fun a => (exists c r, b_folder a = c :: r /\ c <> 47) /\ Forall (fun e => Forall name_ok (parts e)) (b_tree a)) l.

(** [r] is the elements of [l] with [P], in order. *)
Inductive selected {A} (P : A -> Prop) : list A -> list A -> Prop :=
| selected_nil : selected P [] []
| selected_keep x l r : P x -> selected P l r -> selected P (x :: l) (x :: r)
| selected_drop x l r : ~ P x -> selected P l r -> selected P (x :: l) r.

(** The path of a file from the root of the workspace, and where its binarized form goes. *)
Definition root_path (a : addon) (e : entry) : text := bs "/" ++ b_folder a ++ bs "/" ++ join (bs "/") (parts e).
Definition result_file (tmp : text) (a : addon) (e : entry) : text := tmp ++ bs "/hemtt_binarize_output" ++ root_path a e.
(** Folder names on disk; prefixes are made of such names too. *)
Definition folder_name (n : text) : Prop := n <> [] /\ ~ In 47 n /\ ~ In 92 n.
