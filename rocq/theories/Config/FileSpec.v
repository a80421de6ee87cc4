(** What is to become of a config file (C82), in terms of the tree that its text says. *)
From Coq Require Import String.
From Verif Require Import Base.Tactics Base.Bytes Base.Ascii Base.Text Config.RapModel Config.RapTree Config.AnalyzeSpec Config.AnalyzeModel Config.FileModel.
From Verif Require Config.RapSpec Preproc.Model Preproc.LexModel Preproc.LexSpec.
Local Open Scope N_scope.
Local Open Scope list_scope.

Section Outcome.
  (** [low] lower-cases; [case_on], [magazines_on]: the project has these two lints on; [prefix] of the project. *)
  Context (low : bytes -> bytes) (case_on magazines_on : bool) (prefix : option bytes).

  (** What is wrong with a tree that the grammar allows. *)
  Inductive wrong (c : config) : code -> Prop :=
  | W_property path : clash low c path -> wrong c (DuplicateProperty (names_at low c path))
  | W_class b k : body c b -> (2 <= length (classes_called low b k))%nat -> wrong c (DuplicateClasses (classes_called low b k))
  | W_parent n p : orphan low c n p -> wrong c (ExternalMissing n p)
  | W_case b n p d : case_on = true -> body c b -> misspelled low (headers b) n p d -> wrong c (ParentCase n p d)
  | W_magazine a s : magazines_on = true -> unknown_magazine low (bs "cfgmagazinewells") (bs "cfgmagazines") prefix c a s ->
      wrong c (MissingMagazine a s).

  (** The file is reported with just what is wrong, or, if nothing is, becomes the raP file of the tree: of this tree and no
      other. [alone]: the file asks not to be converted. *)
  Definition deserved (alone : bool) (c : config) (r : fate) : Prop :=
    (exists errors, r = Errors errors /\ errors <> [] /\ forall x, In x errors <-> wrong c x) \/
    ((forall x, ~ wrong c x) /\
     if alone then r = LeftAlone
     else exists f es, r = File f /\ tree c = Some es /\
       (blen f < 2 ^ 32 -> RapSpec.rap_file true f es /\ forall es', RapSpec.rap_file false f es' -> es' = es)).
End Outcome.

(** The file [path] has the text [src], with no number sign (so no directives), no two underscores in a row (so none of the
    macros of the preprocessor itself) and no backslash that ends a line; and the text can be cut into tokens. *)
Definition plain_file (letter other : N -> bool) (tokens : text -> Preproc.Model.run (list Preproc.Model.token))
    (read : text -> option text) (path src : text) : Prop :=
  read path = Some src /\
  (exists ts, LexModel.parse_text letter other path src = Preproc.Model.Ok ts /\ tokens path = Preproc.Model.Ok ts) /\
  ~ In 35 src /\ ~ LexSpec.occurs [92; 10] (LexSpec.uncommented src) /\ ~ LexSpec.occurs (bs "__") src.
