(** Specification for C77: what launch profiles inherit. *)
From Coq Require Import String Sorting.Sorted.
From Verif Require Import Base.Tactics Base.Bytes Base.Ascii Base.Text Base.Sort Common.LaunchModel.
Local Open Scope N_scope.
Local Open Scope list_scope.

Section Profiles.
  Context (s : profiles).
  (** Profile [k] extends [x]; [k] leads to [x] in one or more such steps. *)
  Definition step (k x : text) : Prop := exists p, get s k = Some p /\ extends p = Some x.
  Inductive leads : text -> text -> Prop :=
  | leads_step : forall k x, step k x -> leads k x
  | leads_more : forall k x y, step k x -> leads x y -> leads k y.
  (** A profile and all those it extends, to one that extends nothing. *)
  Inductive line : text -> list options -> Prop :=
  | line_end : forall k p, get s k = Some p -> extends p = None -> line k [own p]
  | line_more : forall k p x l, get s k = Some p -> extends p = Some x -> line x l -> line k (own p :: l).
End Profiles.

(** All entries of lists, each once and in order. *)
Definition joined {A} (key : A -> list N) (f : options -> list A) (l : list options) (o : options) : Prop :=
  StronglySorted (fun a b => cmp_bytes (key a) (key b) = Lt) (f o) /\ forall x, In x (f o) <-> exists p, In p l /\ In x (f p).
(** The value of the first, and of the last, that has one. *)
Definition first_set {A} (f : options -> option A) (l : list options) (o : options) : Prop :=
  forall v, f o = Some v <-> exists l1 p l2, l = l1 ++ p :: l2 /\ f p = Some v /\ forall q, In q l1 -> f q = None.
Definition last_set {A} (f : options -> option A) (l : list options) (o : options) : Prop :=
  forall v, f o = Some v <-> exists l1 p l2, l = l1 ++ p :: l2 /\ f p = Some v /\ forall q, In q l2 -> f q = None.

(** The options of a profile: the lists of its line joined, and the nearest value of each setting. *)
Record inherited (l : list options) (o : options) : Prop := {
  i_workshop : joined (fun x => x) workshop l o;
  i_dlc : joined dlc_key dlc l o;
  i_presets : joined (fun x => x) presets l o;
  i_optionals : joined (fun x => x) optionals l o;
  i_parameters : joined (fun x => x) parameters l o;
  i_mission : first_set mission l o;
  i_executable : first_set executable l o;
  i_binarize : first_set binarize l o;
  i_file_patching : first_set file_patching l o;
  i_instances : first_set instances l o;
  i_rapify : first_set rapify l o }.
(** Several profiles chosen at once: the lists one after the other, and the last value of each setting. *)
Record combined (l : list options) (o : options) : Prop := {
  m_workshop : workshop o = flat_map workshop l;
  m_dlc : dlc o = flat_map dlc l;
  m_presets : presets o = flat_map presets l;
  m_optionals : optionals o = flat_map optionals l;
  m_parameters : parameters o = flat_map parameters l;
  m_mission : last_set mission l o;
  m_executable : last_set executable l o;
  m_binarize : last_set binarize l o;
  m_file_patching : last_set file_patching l o;
  m_instances : last_set instances l o;
  m_rapify : last_set rapify l o }.
