(** Specification vocabulary for C81: the conversion of files at once and one after the other. *)
From Coq Require Import String.
From Verif Require Import Base.Tactics Base.Bytes Base.Sort Base.Ascii Base.Text Workspace.PathModel.
From Verif Require Import Bin.PackModel Bin.ConvertModel.
From Verif Require Bin.PackSpec Bin.BinarizeSpec.
Local Open Scope N_scope.
Local Open Scope list_scope.

(** All files, addon by addon. *)
Definition walk (l : list source) : list (source * entry) := flat_map (fun a => map (pair a) (c_tree a)) l.
Definition is_file (e : entry) : Prop := e_content e <> None.
(** A config: a file of an addon for which rapify is not switched off, with one of the three extensions, and not
    matched, from the root of the workspace, by a pattern of its addon. *)
Definition config_file (glob : text -> option (text -> bool)) (x : source * entry) : Prop :=
  is_file (snd x) /\ BinarizeSpec.has_extension [bs "cpp"; bs "rvmat"; bs "ext"] (e_name (snd x)) /\
  forall on exclude, c_rapify (fst x) = Some (on, exclude) -> on = true /\ ~ PackSpec.matches glob exclude (PathModel.as_str (place (fst x) (snd x))).
(** A script: a .sqf that is not a .inc.sqf. *)
Definition script_file (x : source * entry) : Prop :=
  is_file (snd x) /\ BinarizeSpec.has_extension [bs "sqf"] (e_name (snd x)) /\ ~ exists n, e_name (snd x) = n ++ bs ".inc.sqf".
Definition placed (x : source * entry) : source * vpath := (fst x, place (fst x) (snd x)).
Definition file_name (n : text) : Prop := n <> [] /\ ~ In 47 n.

(** What a job does when nothing else happens: the files it reads, its writes, its end. *)
Section Alone.
  Context {report error : Type}.
  Inductive alone (st : store) : job report error -> list vpath -> list write -> report + error -> Prop :=
  | alone_over ws x : alone st (Over ws x) [] ws x
  | alone_read p k ps ws x : alone st (k (st (Disk p))) ps ws x -> alone st (Read p k) (p :: ps) ws x.
  Definition reads (st : store) (j : job report error) (p : vpath) : Prop := exists ps ws x, alone st j ps ws x /\ In p ps.
  Definition writes (st : store) (j : job report error) (c : cell) : Prop := exists ps ws x, alone st j ps ws x /\ In c (map target ws).
  Definition ends (st : store) (j : job report error) (x : report + error) : Prop := exists ps ws, alone st j ps ws x.
  (** Neither of two jobs writes what the other one writes or reads. *)
  Definition apart (st : store) (j1 j2 : job report error) : Prop :=
    (forall c, writes st j1 c -> writes st j2 c -> False) /\
    (forall p, reads st j1 p -> writes st j2 (Disk p) -> False) /\
    (forall p, reads st j2 p -> writes st j1 (Disk p) -> False).
  (** The jobs one after the other, in the order of the files; none of them fails. *)
  Inductive in_turn : store -> list (job report error) -> store -> list report -> Prop :=
  | turn_nil st : in_turn st [] st []
  | turn_cons st j js ps ws r st' rs : alone st j ps ws (inl r) -> in_turn (fold_left perform ws st) js st' rs -> in_turn st (j :: js) st' (r :: rs).
End Alone.

Section Outcome.
  Context {report error : Type}.
  (** However the actions of the jobs are mixed, once they are over the files are those that the jobs leave when
      they run one after the other, and the answer is their reports in the order of the files. *)
  Definition as_in_turn (st : store) (js : list (job report error)) : Prop :=
    forall st' l, run (st, begin js) (st', l) -> Forall (fun x => over (snd x)) l ->
    exists seq rs, in_turn st js seq rs /\ (forall c, st' c = seq c) /\ forall y, answer l y <-> y = inl rs.
  (** No job reads what another one is to write. *)
  Definition reads_no_output (out : vpath -> option vpath) (st : store) (vs : list vpath) (js : list (job report error)) : Prop :=
    forall i k j p, nth_error js i = Some j -> i <> k -> reads st j p -> forall v, nth_error vs k = Some v -> out v <> Some p.
  Definition all_succeed (st : store) (js : list (job report error)) : Prop := forall j, In j js -> exists r, ends st j (inl r).
End Outcome.
(** No two files of the addons are in the same place, and their names are names. *)
Definition proper_tree (l : list source) : Prop :=
  NoDup (map (fun x => place (fst x) (snd x)) (walk l)) /\ Forall (fun x => file_name (e_name (snd x))) (walk l).
(** At most one config.cpp in an addon: those of all addons are in different addons. *)
Definition one_config (es : list (source * vpath)) : Prop :=
  forall i k a b v w, nth_error es i = Some (a, v) -> nth_error es k = Some (b, w) -> last v [] = bs "config.cpp" -> last w [] = bs "config.cpp" ->
    c_folder a = c_folder b -> i = k.
