(** Model of libs/config/src/analyze: the walk over a config, the ten lints, and what the build does with what they find
    (bin/src/modules/rapifier.rs). Names and strings are compared as they are; [low] stands for [str::to_lowercase].
    Where a lint goes over a [HashMap] the order of what it finds is not fixed; here it is the order of first use. A code keeps
    the names its labels point to; spans, the text of the diagnostics and [processed] are left out (all the lints return
    nothing without [processed], but the walk always passes it). *)
From Coq Require Import String.
From Verif Require Import Base.Tactics Base.Bytes Base.Ascii Base.Text Base.Sort Config.RapModel.
From Verif Require Bin.LintModel.
Local Open Scope N_scope.
Local Open Scope list_scope.

(** The codes of analyze/lints/c01_invalid_value.rs to c10_class_missing_braces.rs. *)
Inductive code :=
| InvalidValue
| DuplicateProperty (names : list bytes)
| DuplicateClasses (names : list bytes)
| ExternalMissing (name parent : bytes)
| ParentCase (name parent definition : bytes)
| UnexpectedArray (name : bytes)
| ExpectedArray (name : bytes)
| NoSemicolon (name : bytes)
| MissingMagazine (array magazine : bytes)
| MissingBraces (parent : bytes).

(** What a lint gives: codes, or a panic ([None]). *)
Definition finding := option code.

(** A [HashMap<String, Vec<A>>] as its entries, in order of first use: [entry(k).or_default().push(x)]. *)
Section Groups.
  Context {A : Type}.
  Fixpoint push (k : bytes) (x : A) (m : list (bytes * list A)) : list (bytes * list A) :=
    match m with
    | [] => [(k, [x])]
    | (k', l) :: m => if eqb_bytes k k' then (k', l ++ [x]) :: m else (k', l) :: push k x m
    end.
End Groups.

(** A [HashSet<String>]. *)
Definition has (k : bytes) (s : list bytes) : bool := existsb (eqb_bytes k) s.
(** A [HashMap<String, Class>] of which only the name of the class is used: the newest entry first. *)
Fixpoint definition (k : bytes) (m : list (bytes * bytes)) : option bytes :=
  match m with
  | [] => None
  | (k', n) :: m => if eqb_bytes k k' then Some n else definition k m
  end.

Definition class_props (c : class) : list property :=
  match c with Root ps | Local _ _ ps _ => ps | External _ => [] end.

(** model/property.rs:38-49 [name], with model/class.rs:53-58: a root class has none ([expect]). *)
Definition prop_name (p : property) : option bytes :=
  match p with
  | Entry n _ _ | Delete n | MissingSemicolon n | PClass (Local n _ _ _) | PClass (External n) => Some n
  | PClass (Root _) => None
  end.

Section Lints.
  Context (low : bytes -> bytes).

  (** c01_invalid_value.rs:58-121: [RunnerValue] and [RunnerItem]. *)
  Definition c01_value (v : value) : list finding := match v with VInvalid => [Some InvalidValue] | _ => [] end.
  Definition c01_item (i : item) : list finding := match i with IInvalid => [Some InvalidValue] | _ => [] end.

  (** c02_duplicate_property.rs:96-126 [duplicate_properties_inner], with [scope] and [name] joined by a dot. *)
  Definition scoped (scope name : bytes) : bytes := scope ++ 46 :: low name.
  Fixpoint c02_class (scope : bytes) (c : class) (seen : list (bytes * list (bool * bytes))) : list (bytes * list (bool * bytes)) :=
    match c with
    | Local n _ ps _ =>
        let inner := fold_left (fun seen p => match p with
                                             | PClass c => c02_class (scoped scope n) c seen
                                             | Entry m _ _ | MissingSemicolon m => push (scoped (scoped scope n) m) (false, m) seen
                                             | Delete _ => seen
                                             end) ps seen in
        push (scoped scope n) (true, n) inner
    | Root _ | External _ => seen
    end.
  Definition c02_props (scope : bytes) (ps : list property) (seen : list (bytes * list (bool * bytes))) :=
    fold_left (fun seen p => match p with
                             | PClass c => c02_class scope c seen
                             | Entry m _ _ | MissingSemicolon m => push (scoped scope m) (false, m) seen
                             | Delete _ => seen
                             end) ps seen.
  (** c02_duplicate_property.rs:71-94 [run]. *)
  Definition c02 (ps : config) : list finding :=
    flat_map (fun e => if (1 <? length (snd e))%nat && negb (forallb fst (snd e)) then [Some (DuplicateProperty (map snd (snd e)))] else [])
             (c02_props [] ps []).

  (** c03_duplicate_classes.rs:85-128 [check]. *)
  Definition c03_report (defined : list (bytes * list bytes)) : list finding :=
    flat_map (fun e => if (1 <? length (snd e))%nat then [Some (DuplicateClasses (snd e))] else []) defined.
  Fixpoint c03_class (c : class) : list finding :=
    match c with
    | External _ => []
    | Root ps | Local _ _ ps _ =>
        let r := fold_left (fun st p => match p with
                                        | PClass c => (fst st ++ c03_class c,
                                                       match c with Root _ => snd st | External n | Local n _ _ _ => push (low n) n (snd st) end)
                                        | _ => st
                                        end) ps ([], []) in
        fst r ++ c03_report (snd r)
    end.
  (** c03_duplicate_classes.rs:67-83 [run]. *)
  Definition c03 (ps : config) : list finding := c03_class (Root ps).

  (** c04_external_missing.rs:78-114 [check]: what was found and the set [defined]. *)
  Fixpoint c04_class (c : class) (st : list finding * list bytes) : list finding * list bytes :=
    match c with
    | Root ps => fold_left (fun st p => match p with PClass c => c04_class c st | _ => st end) ps st
    | External n => (fst st, low n :: snd st)
    | Local n parent ps _ =>
        let found := match parent with
                     | Some p => if negb (eqb_bytes (low p) (low n)) && negb (has (low p) (snd st)) then [Some (ExternalMissing n p)] else []
                     | None => []
                     end in
        fold_left (fun st p => match p with PClass c => c04_class c st | _ => st end) ps (fst st ++ found, low n :: snd st)
    end.
  (** c04_external_missing.rs:60-76 [run]. *)
  Definition c04 (ps : config) : list finding := fst (c04_class (Root ps) ([], [])).

  (** c05_external_parent_case.rs:83-133 [check]: a root class within is a panic. *)
  Fixpoint c05_class (c : class) (st : list finding * list (bytes * bytes)) : list finding * list (bytes * bytes) :=
    match c with
    | Root _ => (fst st ++ [None], snd st)
    | External n => (fst st, match definition (low n) (snd st) with Some _ => snd st | None => (low n, n) :: snd st end)
    | Local n parent ps _ =>
        let found := match parent with
                     | Some p =>
                         if negb (eqb_bytes (low p) (low n)) then
                           match definition (low p) (snd st) with
                           | Some d => if negb (eqb_bytes d p) then [Some (ParentCase n p d)] else []
                           | None => []
                           end
                         else if negb (eqb_bytes p n) then [Some (ParentCase n p n)] else []
                     | None => []
                     end in
        fold_left (fun st p => match p with PClass c => c05_class c st | _ => st end) ps (fst st ++ found, (low n, n) :: snd st)
    end.
  (** c05_external_parent_case.rs:63-81 [run]. *)
  Definition c05 (c : class) : list finding :=
    fst (fold_left (fun st p => match p with PClass c => c05_class c st | _ => st end) (class_props c) ([], [])).

  (** c06_unexpected_array.rs:57-84 [run]. *)
  Definition c06 (p : property) : list finding :=
    match p with Entry n (VUnexpectedArr _ _) _ => [Some (UnexpectedArray n)] | _ => [] end.
  (** c07_expected_array.rs:57-96 [run]. *)
  Definition c07 (p : property) : list finding :=
    match p with
    | Entry n v expected =>
        if negb expected then [] else match v with VArr _ _ | VInvalid => [] | _ => [Some (ExpectedArray n)] end
    | _ => []
    end.
  (** c08_missing_semicolon.rs:72-95 [run]. *)
  Definition c08 (p : property) : list finding := match p with MissingSemicolon n => [Some (NoSemicolon n)] | _ => [] end.
  (** c10_class_missing_braces.rs:64-89 [run]: [expect]s a parent. *)
  Definition c10 (p : property) : list finding :=
    match p with PClass (Local _ parent _ true) => [option_map MissingBraces parent] | _ => [] end.

  (** [iter().find(|p| p.name().value.to_lowercase() == word)]: the property found, or a panic at a nameless one before it. *)
  Fixpoint find_named (word : bytes) (ps : list property) : option (option property) :=
    match ps with
    | [] => Some None
    | p :: ps => match prop_name p with
                 | None => None
                 | Some n => if eqb_bytes (low n) word then Some (Some p) else find_named word ps
                 end
    end.
  (** c09_magwell_missing_magazine.rs:79-158 [run]; [prefix] is that of the project, if there is one. *)
  Definition c09 (prefix : option bytes) (ps : config) : list finding :=
    match find_named (bs "cfgmagazinewells") ps with
    | None => [None]
    | Some (Some (PClass (Local _ _ wells _))) =>
        match find_named (bs "cfgmagazines") ps with
        | None => [None]
        | Some (Some (PClass (Local _ _ magazines _))) =>
            let classes := flat_map (fun p => match p with PClass (Local n _ _ _) => [n] | _ => [] end) magazines in
            flat_map (fun well => match well with
              | PClass (Local _ _ addons _) =>
                  flat_map (fun addon => match addon with
                    | Entry name (VArr _ items) _ =>
                        flat_map (fun mag => match mag with
                          | IStr s =>
                              if match prefix with Some p => negb (starts_with (low p) (low s)) | None => false end then []
                              else if negb (has s classes) then [Some (MissingMagazine name s)] else []
                          | _ => []
                          end) items
                    | _ => []
                    end) addons
              | _ => []
              end) wells
        | _ => []
        end
    | _ => []
    end.

  (** What a lint is run on. *)
  Inductive target :=
  | OnConfig (ps : config)
  | OnClass (c : class)
  | OnProperty (p : property)
  | OnValue (v : value)
  | OnItem (i : item).
  Definition named (l : LintModel.lint) (s : string) : bool := eqb_bytes (LintModel.ident l) (bs s).
  (** The lints, by their [ident]s, with the types their [runners] take; workspace/src/lint/mod.rs:77-114: a runner gives nothing
      on a target of another type. *)
  Definition runners (prefix : option bytes) (t : target) (l : LintModel.lint) (_ : LintModel.config) : list finding :=
    match t with
    | OnConfig ps =>
        if named l "duplicate_property" then c02 ps else if named l "duplicate_classes" then c03 ps
        else if named l "external_missing" then c04 ps else if named l "magwell_missing_magazine" then c09 prefix ps else []
    | OnClass c => if named l "external_parent_case" then c05 c else []
    | OnProperty p =>
        if named l "unexpected_array" then c06 p else if named l "expected_array" then c07 p
        else if named l "missing_semicolon" then c08 p else if named l "class_missing_braces" then c10 p else []
    | OnValue v => if named l "invalid_value" then c01_value v else []
    | OnItem i => if named l "invalid_value" then c01_item i else []
    end.

  Context (prefix : option bytes) (m : LintModel.manager unit).
  (** workspace/src/lint/mod.rs:215-257 [run]; there are no groups of config lints. *)
  Definition run (t : target) : list finding := LintModel.run_lints (runners prefix t) (fun _ _ => []) m.

  (** analyze/mod.rs:149-172 [Item::analyze]. Strings, numbers and expressions (mod.rs:42-44) and arrays as such have no lints. *)
  Fixpoint analyze_item (i : item) : list finding :=
    run (OnItem i) ++ match i with IArr l => flat_map analyze_item l | _ => [] end.
  (** analyze/mod.rs:106-147 [Value::analyze] and [Array::analyze]. *)
  Definition analyze_value (v : value) : list finding :=
    run (OnValue v) ++ match v with VArr _ l | VUnexpectedArr _ l => flat_map analyze_item l | _ => [] end.
  (** analyze/mod.rs:64-104 [Class::analyze] and [Property::analyze]. *)
  Fixpoint analyze_class (c : class) : list finding :=
    run (OnClass c) ++
    match c with
    | External _ => []
    | Root ps | Local _ _ ps _ =>
        flat_map (fun p => run (OnProperty p) ++
                           match p with Entry _ v _ => analyze_value v | PClass c => analyze_class c | Delete _ | MissingSemicolon _ => [] end) ps
    end.
  Definition analyze_prop (p : property) : list finding :=
    run (OnProperty p) ++
    match p with Entry _ v _ => analyze_value v | PClass c => analyze_class c | Delete _ | MissingSemicolon _ => [] end.
  (** analyze/mod.rs:46-62 [Config::analyze]. *)
  Definition analyze (ps : config) : list finding :=
    run (OnConfig ps) ++ run (OnClass (Root ps)) ++ flat_map analyze_prop ps.

  (** What comes of one config: the codes of the panic-free analysis. *)
  Fixpoint codes (l : list finding) : option (list code) :=
    match l with
    | [] => Some []
    | None :: _ => None
    | Some x :: l => match codes l with Some xs => Some (x :: xs) | None => None end
    end.

  (** workspace/src/reporting/mod.rs:56-58 [Code::severity]: the config codes do not override it, and nothing else sets it: all
      are errors, whatever severity the lint is configured to have. *)
  Definition severity (_ : code) : ExecModel.severity := ExecModel.SError.
  Definition is_error (x : code) : bool := match severity x with ExecModel.SError => true | _ => false end.

  (** bin/src/modules/rapifier.rs:125-190 [rapify], from the parsed tree on, for a file that is not told to be left as it is and
      that can be created; config/src/lib.rs:44-76 [parse] when there is a tree. *)
  Inductive outcome :=
  | Reported (errors : list code)
  | Written (file : bytes)
  | Failed
  | Panicked.
  Definition convert (ps : config) : outcome :=
    match codes (analyze ps) with
    | None => Panicked
    | Some found =>
        match filter is_error found with
        | [] => match config_rapify ps with Ok (f, _) => Written f | IoErr => Failed | Panic => Panicked end
        | errors => Reported errors
        end
    end.
End Lints.
