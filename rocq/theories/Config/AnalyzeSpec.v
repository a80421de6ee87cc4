(** What the lints of a config are to find (C62 to C66), in terms of the config tree alone. *)
From Verif Require Import Base.Tactics Base.Bytes Config.RapModel.
Local Open Scope N_scope.

(** ** Where things are *)
(** [body c b]: [b] is the list of properties between the braces of the whole file [c] or of a class in it, at any depth. *)
Inductive body : list property -> list property -> Prop :=
| B_all : forall c, body c c
| B_root : forall c ps b, In (PClass (Root ps)) c -> body ps b -> body c b
| B_local : forall c n parent ps m b, In (PClass (Local n parent ps m)) c -> body ps b -> body c b.
(** [within c p]: the property [p] is somewhere in the file. *)
Definition within (c : list property) (p : property) : Prop := exists b, body c b /\ In p b.
(** [nested l i]: the item [i] is in the array [l], or in an array in it, at any depth. *)
Inductive nested : list item -> item -> Prop :=
| N_here : forall l i, In i l -> nested l i
| N_in : forall l l' i, In (IArr l') l -> nested l' i -> nested l i.

(** A tree as the parser makes them: the root is not in the tree again, and a class without braces has a parent. *)
Definition well_made (c : config) : Prop := forall p, within c p ->
  match p with PClass (Root _) => False | PClass (Local _ None _ true) => False | _ => True end.

(** ** What a raP file cannot hold (C62) *)
(** A value that is not one: text that could not be read, or that is in an array, at any depth. *)
Definition unreadable (c : config) : Prop :=
  exists n v e, within c (Entry n v e) /\
    (v = VInvalid \/ exists x l, (v = VArr x l \/ v = VUnexpectedArr x l) /\ nested l IInvalid).
(** [x = {1};] *)
Definition stray_array (c : config) (n : bytes) : Prop := exists x l e, within c (Entry n (VUnexpectedArr x l) e).
(** [x = 1] without a semicolon. *)
Definition no_semicolon (c : config) (n : bytes) : Prop := within c (MissingSemicolon n).
Definition broken (c : config) : Prop := unreadable c \/ (exists n, stray_array c n) \/ (exists n, no_semicolon c n).

Section Names.
  Context (low : bytes -> bytes).

  (** ** Duplicates (C63) *)
  (** Every named thing but declarations of external classes and deletions, by its path (the names of the classes it is in and
      its own, lower-cased), whether it is a class, and its name as written. A class comes after what is in it. *)
  Fixpoint places_class (scope : list bytes) (c : class) : list (list bytes * (bool * bytes)) :=
    match c with
    | Local n _ ps _ =>
        flat_map (fun p => match p with
                           | PClass c => places_class (scope ++ [low n]) c
                           | Entry m _ _ | MissingSemicolon m => [(scope ++ [low n] ++ [low m], (false, m))]
                           | Delete _ => []
                           end) ps ++ [(scope ++ [low n], (true, n))]
    | Root _ | External _ => []
    end.
  Definition places (c : config) : list (list bytes * (bool * bytes)) :=
    flat_map (fun p => match p with
                       | PClass c => places_class [] c
                       | Entry m _ _ | MissingSemicolon m => [([low m], (false, m))]
                       | Delete _ => []
                       end) c.
  Definition path_dec : forall a b : list bytes, {a = b} + {a <> b} := list_eq_dec (list_eq_dec N.eq_dec).
  (** No name has a dot in it, lower-cased. *)
  Definition dotless (c : config) : Prop := forall p, within c p ->
    match p with
    | Entry n _ _ | Delete n | MissingSemicolon n | PClass (Local n _ _ _) | PClass (External n) => ~ In 46 (low n)
    | PClass (Root _) => True
    end.
  (** The names that stand at a path. *)
  Definition names_at (c : config) (path : list bytes) : list bytes :=
    map (fun e => snd (snd e)) (filter (fun e => if path_dec (fst e) path then true else false) (places c)).
  (** More than one thing at a path, and not all of them classes. *)
  Definition clash (c : config) (path : list bytes) : Prop :=
    (2 <= length (names_at c path))%nat /\ exists n, In (path, (false, n)) (places c).

  (** The classes of one body that have this name, lower-cased. *)
  Definition classes_called (b : list property) (k : bytes) : list bytes :=
    flat_map (fun p => match p with
                       | PClass (Local n _ _ _) | PClass (External n) => if list_eq_dec N.eq_dec (low n) k then [n] else []
                       | _ => []
                       end) b.

  (** ** Parents (C64) *)
  (** The classes of a file in the order of their headers: name, parent, and whether it is a declaration only ([class x;]). *)
  Record header := Header { h_name : bytes; h_parent : option bytes; h_external : bool }.
  Fixpoint headers_class (c : class) : list header :=
    match c with
    | External n => [Header n None true]
    | Local n parent ps _ => Header n parent false :: flat_map (fun p => match p with PClass c => headers_class c | _ => [] end) ps
    | Root ps => flat_map (fun p => match p with PClass c => headers_class c | _ => [] end) ps
    end.
  Definition headers (c : config) : list header := headers_class (Root c).
  (** The parent of a class is neither called as itself nor declared before it, anywhere. *)
  Definition orphan (c : config) (n p : bytes) : Prop :=
    exists before after, headers c = before ++ Header n (Some p) false :: after /\
      low p <> low n /\ forall h, In h before -> low (h_name h) <> low p.
  (** The header that says how a name is to be written: the last class with a body, or else the first declaration. *)
  Definition spelled (before : list header) (k d : bytes) : Prop :=
    (exists l parent r, before = l ++ Header d parent false :: r /\ low d = k /\
       forall h, In h r -> h_external h = false -> low (h_name h) <> k) \/
    ((forall h, In h before -> h_external h = false -> low (h_name h) <> k) /\
     exists l r, before = l ++ Header d None true :: r /\ low d = k /\ forall h, In h l -> low (h_name h) <> k).
  (** In a list of headers, a class writes its parent otherwise than the header [d] does that defines it. *)
  Definition misspelled (hs : list header) (n p d : bytes) : Prop :=
    exists before after, hs = before ++ Header n (Some p) false :: after /\ p <> d /\
      if list_eq_dec N.eq_dec (low p) (low n) then d = n else spelled before (low p) d.

  (** ** Magazines (C65) *)
  (** The first property of a list with this name, whatever it is. *)
  Definition first_named (ps : list property) (word : bytes) (p : property) : Prop :=
    exists l r n, ps = l ++ p :: r /\
      (match p with Entry m _ _ | Delete m | MissingSemicolon m | PClass (Local m _ _ _) | PClass (External m) => n = m | PClass (Root _) => False end) /\
      low n = word /\
      forall q, In q l -> match q with
                          | Entry m _ _ | Delete m | MissingSemicolon m | PClass (Local m _ _ _) | PClass (External m) => low m <> word
                          | PClass (Root _) => False
                          end.
  (** A magazine of the project that is named in a well and is not among the classes of CfgMagazines. [cfgmagazinewells] and
      [cfgmagazines] are those words. *)
  Definition unknown_magazine (cfgmagazinewells cfgmagazines : bytes) (prefix : option bytes) (ps : config) (array mag : bytes) : Prop :=
    exists wn wp wells wm mn mp magazines mm,
      first_named ps cfgmagazinewells (PClass (Local wn wp wells wm)) /\
      first_named ps cfgmagazines (PClass (Local mn mp magazines mm)) /\
      (exists n p addons b ex items e, In (PClass (Local n p addons b)) wells /\ In (Entry array (VArr ex items) e) addons /\ In (IStr mag) items) /\
      (forall p, prefix = Some p -> exists r, low mag = low p ++ r) /\
      (forall p qs b, ~ In (PClass (Local mag p qs b)) magazines).
End Names.
