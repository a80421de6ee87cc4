(** Specification vocabulary for unpacking an archive (C88). *)
From Coq Require Import String.
From Verif Require Import Base.Tactics Base.Bytes Base.Sort Base.Ascii Base.Text Io.Model Pbo.Model Pbo.UnpackModel.
Local Open Scope N_scope.
Local Open Scope list_scope.

(** [pieces name ps]: the name is the pieces [ps] put together with backslashes. *)
Fixpoint glued (ps : list bytes) : bytes :=
  match ps with
  | [] => []
  | [p] => p
  | p :: r => p ++ [92] ++ glued r
  end.

(** A piece that is an ordinary file or folder name. *)
Definition ordinary (p : bytes) : Prop :=
  p <> [] /\ p <> bs "." /\ p <> bs ".." /\ ~ In 47 p /\ ~ In 92 p.

(** [name] leads to [ps] below the output folder. *)
Definition leads_to (name : bytes) (ps : path) : Prop :=
  name = glued ps /\ ps <> [] /\ Forall ordinary ps.

(** A name that, whatever else is wrong with it, does not climb: it does not start with a separator and no
    piece between separators of either kind is `..`. *)
Definition separator (b : N) : Prop := b = 47 \/ b = 92.
Definition climbs (name : bytes) : Prop :=
  (exists b r, name = b :: r /\ separator b) \/
  (exists a b, name = a ++ bs ".." ++ b /\
    (a = [] \/ exists a' s, a = a' ++ [s] /\ separator s) /\
    (b = [] \/ exists s b', b = s :: b' /\ separator s)).

(** [q] is a folder on the way to [p]. *)
Definition on_the_way (q p : path) : Prop := exists x r, p = q ++ x :: r.

(** Below [out] the disk holds exactly the files [fs] and the folders they need. *)
Definition holds_exactly (d : disk) (out : path) (fs : list (path * bytes)) : Prop :=
  d out = Some Dir /\
  forall q, q <> [] ->
    (forall c, d (out ++ q) = Some (File c) <-> In (q, c) fs) /\
    (d (out ++ q) = Some Dir <-> exists p c, In (p, c) fs /\ on_the_way q p).

(** Outside [out] nothing changed but that the folders leading to it now exist. *)
Definition outside_kept (d d' : disk) (out : path) : Prop :=
  forall p, (forall r, p <> out ++ r) ->
    d' p = d p \/ (d p = None /\ d' p = Some Dir /\ on_the_way p out).

(** A disk is a tree: what is below something exists only if that is a folder. *)
Definition tree (d : disk) : Prop :=
  forall p r, r <> [] -> d (p ++ r) <> None -> p = [] \/ d p = Some Dir.

(** No file is on the way to another, and no two are the same. *)
Definition apart (ps : list path) : Prop :=
  NoDup ps /\ forall p q, In p ps -> In q ps -> ~ on_the_way p q.

(** The two files made from the properties. *)
Definition property_text (props : list (bytes * bytes)) : bytes :=
  concat (map (fun kv => fst kv ++ bs "=" ++ snd kv ++ [10])
    (filter (fun kv => negb (eqb_bytes (fst kv) (bs "prefix"))) props)).
Definition property_files (props : list (bytes * bytes)) (fs : list (path * bytes)) : Prop :=
  forall p c, In (p, c) fs <->
    (p = [bs "$PBOPREFIX$"] /\ In (bs "prefix", c) props) \/
    (p = [bs "properties.txt"] /\ c = property_text props /\ exists k v, In (k, v) props /\ k <> bs "prefix").

(** [out] can be made: it is a path from the root, nothing is there and no file is on the way to it. *)
Definition can_be_made (d : disk) (out : path) : Prop :=
  out <> [] /\ ~ In (bs "..") out /\ d out = None /\ forall p c, on_the_way p out -> d p <> Some (File c).

(** The stored name [name], up to the kind of separator, leads to [p]. *)
Definition stored_at (name : bytes) (p : path) : Prop :=
  exists n, leads_to n p /\ map (fun b => if b =? 47 then 92 else b) name = n.
