(** Specification vocabulary for C89: stringtable files with comments, as a person lays them out. *)
From Coq Require Import String.
From Verif Require Import Base.Tactics Base.Bytes Base.Ascii Base.Sort Base.Text Stringtable.Model Stringtable.FileModel.
Local Open Scope N_scope.
Local Open Scope list_scope.

Definition opens (l : bytes) : Prop := exists r, trim l = bs "<!--" ++ r.
Definition closes (l : bytes) : Prop := exists r, trim l = r ++ bs "-->".
Definition plain (l : bytes) : Prop := ~ In 10 l /\ ~ In 13 l.

(** The lines of one comment: it starts a line, it ends one, and the line that ends it is not mistaken for a key's. *)
Inductive one_comment : list bytes -> Prop :=
| on_a_line l : plain l -> opens l -> closes l -> one_comment [l]
| on_lines l m z : plain l -> opens l -> ~ closes l -> Forall (fun x => plain x /\ ~ opens x /\ ~ closes x) m ->
    plain z -> ~ opens z -> closes z -> (forall r, trim z <> bs "<Key" ++ r) -> (forall r, trim z <> bs "</Key>" ++ r) ->
    one_comment (l :: m ++ [z]).
(** Any number of comments below each other. *)
Inductive comments : list bytes -> Prop :=
| no_comment : comments []
| more_comments c b : one_comment c -> comments b -> comments (c ++ b).

(** A file: the header, then lines, each with the comments that stand right above it. A line is kept here as the XML library
    writes it; in the file an ampersand is an ampersand. *)
Notation item := (list bytes * bytes)%type.
Definition file_lines (its : list item) : list bytes := header :: flat_map (fun i => fst i ++ [unprotected (snd i)]) its.
Definition file_of (its : list item) : bytes := flat_map ended (file_lines its).
(** Without the comments it is what the stringtable looks like when written. *)
Definition lays_out (its : list item) (p : project) : Prop := map snd its = project_lines p.

(** The lines with the start of the key they stand in. *)
Fixpoint keyed {A} (line : A -> bytes) (k : option bytes) (l : list A) : list (option bytes * A) :=
  match l with
  | [] => []
  | a :: r =>
      (k, a) :: keyed line (if starts_with (bs "<Key") (trim (line a)) then Some (trim (line a))
                            else if starts_with (bs "</Key>") (trim (line a)) then None else k) r
  end.
(** A line below a comment can be told from all other lines of its key, and neither it nor the start of its key has an
    ampersand. *)
Definition anchored (its : list item) : Prop :=
  forall n k b l, nth_error (keyed snd None its) n = Some (k, (b, l)) -> b <> [] ->
    ~ In 38 l /\ (forall x, k = Some x -> ~ In 38 x) /\
    forall m b' l', nth_error (keyed snd None its) m = Some (k, (b', l')) -> (exists r, trim l' = trim l ++ r) -> m = n.
(** The comments are indented like the lines below them, and one step more above the end of an element. *)
Inductive blanks_of : bytes -> bytes -> Prop :=
| blanks_intro w l : Forall (fun c => c = 32) w -> (forall r, l <> 32 :: r) -> blanks_of (w ++ l) w.
Definition neat_item (i : item) : Prop :=
  fst i = [] \/ exists w, blanks_of (snd i) w /\
    join [10] (fst i) = w ++ (if starts_with (bs "</") (trim (snd i)) then bs "    " else []) ++ trim (join [10] (fst i)).
Definition neat (its : list item) : Prop := Forall neat_item its.

(** Names, IDs and translations are without line breaks; every key has a translation. *)
Inductive keys_all (P : key -> Prop) : package -> Prop :=
| keys_all_intro n ks cs : Forall P ks -> Forall (keys_all P) cs -> keys_all P (Package n ks cs).
Inductive names_all (P : bytes -> Prop) : package -> Prop :=
| names_all_intro n ks cs : P n -> Forall (names_all P) cs -> names_all P (Package n ks cs).
Definition one_line (s : bytes) : Prop := ~ In 10 s.
Definition one_lines (p : project) : Prop :=
  one_line (p_name p) /\ Forall (names_all one_line) (packages p) /\
  Forall (keys_all (fun k => one_line (id k) /\ Forall (fun t => one_line (snd t)) (translations k))) (packages p).
Definition no_empty_key (p : project) : Prop := Forall (keys_all (fun k => translations k <> [])) (packages p).

(** What reading the file of a layout gives. *)
Definition reads_as (parse : bytes -> option project) (its : list item) (p : project) : Prop :=
  parse (join [10] (map protect (file_lines its))) = Some p.
(** The comments above each line, however they are indented. *)
Definition above (i : option bytes * item) : option bytes * (bytes * bytes) := (fst i, (trim (join [10] (fst (snd i))), snd (snd i))).

(** What a key says, by the name of the element. *)
Inductive says (k : key) : bytes -> bytes -> Prop :=
| says_original s : original k = Some s -> says k (bs "Original") s
| says_english s : english k = Some s -> says k (bs "English") s
| says_czech s : czech k = Some s -> says k (bs "Czech") s
| says_french s : french k = Some s -> says k (bs "French") s
| says_spanish s : spanish k = Some s -> says k (bs "Spanish") s
| says_italian s : italian k = Some s -> says k (bs "Italian") s
| says_polish s : polish k = Some s -> says k (bs "Polish") s
| says_portuguese s : portuguese k = Some s -> says k (bs "Portuguese") s
| says_russian s : russian k = Some s -> says k (bs "Russian") s
| says_german s : german k = Some s -> says k (bs "German") s
| says_korean s : korean k = Some s -> says k (bs "Korean") s
| says_japanese s : japanese k = Some s -> says k (bs "Japanese") s
| says_chinese s : chinese k = Some s -> says k (bs "Chinese") s
| says_chinesesimp s : chinesesimp k = Some s -> says k (bs "Chinesesimp") s
| says_turkish s : turkish k = Some s -> says k (bs "Turkish") s
| says_swedish s : swedish k = Some s -> says k (bs "Swedish") s
| says_slovak s : slovak k = Some s -> says k (bs "Slovak") s
| says_serbocroatian s : serbocroatian k = Some s -> says k (bs "Serbocroatian") s
| says_norwegian s : norwegian k = Some s -> says k (bs "Norwegian") s
| says_icelandic s : icelandic k = Some s -> says k (bs "Icelandic") s
| says_hungarian s : hungarian k = Some s -> says k (bs "Hungarian") s
| says_greek s : greek k = Some s -> says k (bs "Greek") s
| says_finnish s : finnish k = Some s -> says k (bs "Finnish") s
| says_dutch s : dutch k = Some s -> says k (bs "Dutch") s.
(** A key in a package or in a container in it. *)
Inductive holds (k : key) : package -> Prop :=
| holds_key n ks cs : In k ks -> holds k (Package n ks cs)
| holds_container n ks cs c : In c cs -> holds k c -> holds k (Package n ks cs).
