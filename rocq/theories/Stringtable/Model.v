(** Model of libs/stringtable (keys, packages, totals, sorting, the text of a translation on its way through a file) and of
    bin/src/commands/localization/coverage.rs. *)
From Coq Require Import String.
From Verif Require Import Base.Tactics Base.Bytes Base.Ascii Base.Sort.
Local Open Scope N_scope.
Local Open Scope list_scope.

(** key.rs:15-92: a key; each translation may be missing. *)
Record key := Key {
  id : bytes;
  original : option bytes;
  english : option bytes;
  czech : option bytes;
  french : option bytes;
  spanish : option bytes;
  italian : option bytes;
  polish : option bytes;
  portuguese : option bytes;
  russian : option bytes;
  german : option bytes;
  korean : option bytes;
  japanese : option bytes;
  chinese : option bytes;
  chinesesimp : option bytes;
  turkish : option bytes;
  swedish : option bytes;
  slovak : option bytes;
  serbocroatian : option bytes;
  norwegian : option bytes;
  icelandic : option bytes;
  hungarian : option bytes;
  greek : option bytes;
  finnish : option bytes;
  dutch : option bytes }.
(** package.rs:5-14. *)
Inductive package := Package (name : bytes) (keys : list key) (containers : list package).
Definition name (p : package) : bytes := let '(Package n _ _) := p in n.
Definition keys (p : package) : list key := let '(Package _ k _) := p in k.
Definition containers (p : package) : list package := let '(Package _ _ c) := p in c.
(** lib.rs:16-25, without the comments. *)
Record project := Project { p_name : bytes; packages : list package }.

(** package.rs:34-39 [Package::sort]. *)
Fixpoint sort_package (p : package) : package :=
  let '(Package n k c) := p in Package n (sort_by id k) (map sort_package c).
(** lib.rs:38-43 [Project::sort]. *)
Definition sort (p : project) : project := Project (p_name p) (map sort_package (sort_by name (packages p))).

(** totals.rs:1-28: the counters, 32 bits each. *)
Record totals := Totals {
  total : N;
  n_original : N;
  n_english : N;
  n_czech : N;
  n_french : N;
  n_spanish : N;
  n_italian : N;
  n_polish : N;
  n_portuguese : N;
  n_russian : N;
  n_german : N;
  n_korean : N;
  n_japanese : N;
  n_chinese : N;
  n_chinesesimp : N;
  n_turkish : N;
  n_swedish : N;
  n_slovak : N;
  n_serbocroatian : N;
  n_norwegian : N;
  n_icelandic : N;
  n_hungarian : N;
  n_greek : N;
  n_finnish : N;
  n_dutch : N }.
(** 32-bit addition; a build with overflow checks panics where this wraps. *)
Definition add32 (a b : N) : N := (a + b) mod 2 ^ 32.
(** [Totals::default]. *)
Definition no_totals : totals := Totals 0 0 0 0 0 0 0 0 0 0 0 0 0 0 0 0 0 0 0 0 0 0 0 0 0.
(** totals.rs:30-52 [inc] and the [inc_..] made by [field!]. *)
Definition inc_total (t : totals) : totals :=
  Totals (add32 (total t) 1) (n_original t) (n_english t) (n_czech t) (n_french t) (n_spanish t) (n_italian t) (n_polish t) (n_portuguese t) (n_russian t) (n_german t) (n_korean t) (n_japanese t) (n_chinese t) (n_chinesesimp t) (n_turkish t) (n_swedish t) (n_slovak t) (n_serbocroatian t) (n_norwegian t) (n_icelandic t) (n_hungarian t) (n_greek t) (n_finnish t) (n_dutch t).
Definition inc_original (t : totals) : totals :=
  Totals (total t) (add32 (n_original t) 1) (n_english t) (n_czech t) (n_french t) (n_spanish t) (n_italian t) (n_polish t) (n_portuguese t) (n_russian t) (n_german t) (n_korean t) (n_japanese t) (n_chinese t) (n_chinesesimp t) (n_turkish t) (n_swedish t) (n_slovak t) (n_serbocroatian t) (n_norwegian t) (n_icelandic t) (n_hungarian t) (n_greek t) (n_finnish t) (n_dutch t).
Definition inc_english (t : totals) : totals :=
  Totals (total t) (n_original t) (add32 (n_english t) 1) (n_czech t) (n_french t) (n_spanish t) (n_italian t) (n_polish t) (n_portuguese t) (n_russian t) (n_german t) (n_korean t) (n_japanese t) (n_chinese t) (n_chinesesimp t) (n_turkish t) (n_swedish t) (n_slovak t) (n_serbocroatian t) (n_norwegian t) (n_icelandic t) (n_hungarian t) (n_greek t) (n_finnish t) (n_dutch t).
Definition inc_czech (t : totals) : totals :=
  Totals (total t) (n_original t) (n_english t) (add32 (n_czech t) 1) (n_french t) (n_spanish t) (n_italian t) (n_polish t) (n_portuguese t) (n_russian t) (n_german t) (n_korean t) (n_japanese t) (n_chinese t) (n_chinesesimp t) (n_turkish t) (n_swedish t) (n_slovak t) (n_serbocroatian t) (n_norwegian t) (n_icelandic t) (n_hungarian t) (n_greek t) (n_finnish t) (n_dutch t).
Definition inc_french (t : totals) : totals :=
  Totals (total t) (n_original t) (n_english t) (n_czech t) (add32 (n_french t) 1) (n_spanish t) (n_italian t) (n_polish t) (n_portuguese t) (n_russian t) (n_german t) (n_korean t) (n_japanese t) (n_chinese t) (n_chinesesimp t) (n_turkish t) (n_swedish t) (n_slovak t) (n_serbocroatian t) (n_norwegian t) (n_icelandic t) (n_hungarian t) (n_greek t) (n_finnish t) (n_dutch t).
Definition inc_spanish (t : totals) : totals :=
  Totals (total t) (n_original t) (n_english t) (n_czech t) (n_french t) (add32 (n_spanish t) 1) (n_italian t) (n_polish t) (n_portuguese t) (n_russian t) (n_german t) (n_korean t) (n_japanese t) (n_chinese t) (n_chinesesimp t) (n_turkish t) (n_swedish t) (n_slovak t) (n_serbocroatian t) (n_norwegian t) (n_icelandic t) (n_hungarian t) (n_greek t) (n_finnish t) (n_dutch t).
Definition inc_italian (t : totals) : totals :=
  Totals (total t) (n_original t) (n_english t) (n_czech t) (n_french t) (n_spanish t) (add32 (n_italian t) 1) (n_polish t) (n_portuguese t) (n_russian t) (n_german t) (n_korean t) (n_japanese t) (n_chinese t) (n_chinesesimp t) (n_turkish t) (n_swedish t) (n_slovak t) (n_serbocroatian t) (n_norwegian t) (n_icelandic t) (n_hungarian t) (n_greek t) (n_finnish t) (n_dutch t).
Definition inc_polish (t : totals) : totals :=
  Totals (total t) (n_original t) (n_english t) (n_czech t) (n_french t) (n_spanish t) (n_italian t) (add32 (n_polish t) 1) (n_portuguese t) (n_russian t) (n_german t) (n_korean t) (n_japanese t) (n_chinese t) (n_chinesesimp t) (n_turkish t) (n_swedish t) (n_slovak t) (n_serbocroatian t) (n_norwegian t) (n_icelandic t) (n_hungarian t) (n_greek t) (n_finnish t) (n_dutch t).
Definition inc_portuguese (t : totals) : totals :=
  Totals (total t) (n_original t) (n_english t) (n_czech t) (n_french t) (n_spanish t) (n_italian t) (n_polish t) (add32 (n_portuguese t) 1) (n_russian t) (n_german t) (n_korean t) (n_japanese t) (n_chinese t) (n_chinesesimp t) (n_turkish t) (n_swedish t) (n_slovak t) (n_serbocroatian t) (n_norwegian t) (n_icelandic t) (n_hungarian t) (n_greek t) (n_finnish t) (n_dutch t).
Definition inc_russian (t : totals) : totals :=
  Totals (total t) (n_original t) (n_english t) (n_czech t) (n_french t) (n_spanish t) (n_italian t) (n_polish t) (n_portuguese t) (add32 (n_russian t) 1) (n_german t) (n_korean t) (n_japanese t) (n_chinese t) (n_chinesesimp t) (n_turkish t) (n_swedish t) (n_slovak t) (n_serbocroatian t) (n_norwegian t) (n_icelandic t) (n_hungarian t) (n_greek t) (n_finnish t) (n_dutch t).
Definition inc_german (t : totals) : totals :=
  Totals (total t) (n_original t) (n_english t) (n_czech t) (n_french t) (n_spanish t) (n_italian t) (n_polish t) (n_portuguese t) (n_russian t) (add32 (n_german t) 1) (n_korean t) (n_japanese t) (n_chinese t) (n_chinesesimp t) (n_turkish t) (n_swedish t) (n_slovak t) (n_serbocroatian t) (n_norwegian t) (n_icelandic t) (n_hungarian t) (n_greek t) (n_finnish t) (n_dutch t).
Definition inc_korean (t : totals) : totals :=
  Totals (total t) (n_original t) (n_english t) (n_czech t) (n_french t) (n_spanish t) (n_italian t) (n_polish t) (n_portuguese t) (n_russian t) (n_german t) (add32 (n_korean t) 1) (n_japanese t) (n_chinese t) (n_chinesesimp t) (n_turkish t) (n_swedish t) (n_slovak t) (n_serbocroatian t) (n_norwegian t) (n_icelandic t) (n_hungarian t) (n_greek t) (n_finnish t) (n_dutch t).
Definition inc_japanese (t : totals) : totals :=
  Totals (total t) (n_original t) (n_english t) (n_czech t) (n_french t) (n_spanish t) (n_italian t) (n_polish t) (n_portuguese t) (n_russian t) (n_german t) (n_korean t) (add32 (n_japanese t) 1) (n_chinese t) (n_chinesesimp t) (n_turkish t) (n_swedish t) (n_slovak t) (n_serbocroatian t) (n_norwegian t) (n_icelandic t) (n_hungarian t) (n_greek t) (n_finnish t) (n_dutch t).
Definition inc_chinese (t : totals) : totals :=
  Totals (total t) (n_original t) (n_english t) (n_czech t) (n_french t) (n_spanish t) (n_italian t) (n_polish t) (n_portuguese t) (n_russian t) (n_german t) (n_korean t) (n_japanese t) (add32 (n_chinese t) 1) (n_chinesesimp t) (n_turkish t) (n_swedish t) (n_slovak t) (n_serbocroatian t) (n_norwegian t) (n_icelandic t) (n_hungarian t) (n_greek t) (n_finnish t) (n_dutch t).
Definition inc_chinesesimp (t : totals) : totals :=
  Totals (total t) (n_original t) (n_english t) (n_czech t) (n_french t) (n_spanish t) (n_italian t) (n_polish t) (n_portuguese t) (n_russian t) (n_german t) (n_korean t) (n_japanese t) (n_chinese t) (add32 (n_chinesesimp t) 1) (n_turkish t) (n_swedish t) (n_slovak t) (n_serbocroatian t) (n_norwegian t) (n_icelandic t) (n_hungarian t) (n_greek t) (n_finnish t) (n_dutch t).
Definition inc_turkish (t : totals) : totals :=
  Totals (total t) (n_original t) (n_english t) (n_czech t) (n_french t) (n_spanish t) (n_italian t) (n_polish t) (n_portuguese t) (n_russian t) (n_german t) (n_korean t) (n_japanese t) (n_chinese t) (n_chinesesimp t) (add32 (n_turkish t) 1) (n_swedish t) (n_slovak t) (n_serbocroatian t) (n_norwegian t) (n_icelandic t) (n_hungarian t) (n_greek t) (n_finnish t) (n_dutch t).
Definition inc_swedish (t : totals) : totals :=
  Totals (total t) (n_original t) (n_english t) (n_czech t) (n_french t) (n_spanish t) (n_italian t) (n_polish t) (n_portuguese t) (n_russian t) (n_german t) (n_korean t) (n_japanese t) (n_chinese t) (n_chinesesimp t) (n_turkish t) (add32 (n_swedish t) 1) (n_slovak t) (n_serbocroatian t) (n_norwegian t) (n_icelandic t) (n_hungarian t) (n_greek t) (n_finnish t) (n_dutch t).
Definition inc_slovak (t : totals) : totals :=
  Totals (total t) (n_original t) (n_english t) (n_czech t) (n_french t) (n_spanish t) (n_italian t) (n_polish t) (n_portuguese t) (n_russian t) (n_german t) (n_korean t) (n_japanese t) (n_chinese t) (n_chinesesimp t) (n_turkish t) (n_swedish t) (add32 (n_slovak t) 1) (n_serbocroatian t) (n_norwegian t) (n_icelandic t) (n_hungarian t) (n_greek t) (n_finnish t) (n_dutch t).
Definition inc_serbocroatian (t : totals) : totals :=
  Totals (total t) (n_original t) (n_english t) (n_czech t) (n_french t) (n_spanish t) (n_italian t) (n_polish t) (n_portuguese t) (n_russian t) (n_german t) (n_korean t) (n_japanese t) (n_chinese t) (n_chinesesimp t) (n_turkish t) (n_swedish t) (n_slovak t) (add32 (n_serbocroatian t) 1) (n_norwegian t) (n_icelandic t) (n_hungarian t) (n_greek t) (n_finnish t) (n_dutch t).
Definition inc_norwegian (t : totals) : totals :=
  Totals (total t) (n_original t) (n_english t) (n_czech t) (n_french t) (n_spanish t) (n_italian t) (n_polish t) (n_portuguese t) (n_russian t) (n_german t) (n_korean t) (n_japanese t) (n_chinese t) (n_chinesesimp t) (n_turkish t) (n_swedish t) (n_slovak t) (n_serbocroatian t) (add32 (n_norwegian t) 1) (n_icelandic t) (n_hungarian t) (n_greek t) (n_finnish t) (n_dutch t).
Definition inc_icelandic (t : totals) : totals :=
  Totals (total t) (n_original t) (n_english t) (n_czech t) (n_french t) (n_spanish t) (n_italian t) (n_polish t) (n_portuguese t) (n_russian t) (n_german t) (n_korean t) (n_japanese t) (n_chinese t) (n_chinesesimp t) (n_turkish t) (n_swedish t) (n_slovak t) (n_serbocroatian t) (n_norwegian t) (add32 (n_icelandic t) 1) (n_hungarian t) (n_greek t) (n_finnish t) (n_dutch t).
Definition inc_hungarian (t : totals) : totals :=
  Totals (total t) (n_original t) (n_english t) (n_czech t) (n_french t) (n_spanish t) (n_italian t) (n_polish t) (n_portuguese t) (n_russian t) (n_german t) (n_korean t) (n_japanese t) (n_chinese t) (n_chinesesimp t) (n_turkish t) (n_swedish t) (n_slovak t) (n_serbocroatian t) (n_norwegian t) (n_icelandic t) (add32 (n_hungarian t) 1) (n_greek t) (n_finnish t) (n_dutch t).
Definition inc_greek (t : totals) : totals :=
  Totals (total t) (n_original t) (n_english t) (n_czech t) (n_french t) (n_spanish t) (n_italian t) (n_polish t) (n_portuguese t) (n_russian t) (n_german t) (n_korean t) (n_japanese t) (n_chinese t) (n_chinesesimp t) (n_turkish t) (n_swedish t) (n_slovak t) (n_serbocroatian t) (n_norwegian t) (n_icelandic t) (n_hungarian t) (add32 (n_greek t) 1) (n_finnish t) (n_dutch t).
Definition inc_finnish (t : totals) : totals :=
  Totals (total t) (n_original t) (n_english t) (n_czech t) (n_french t) (n_spanish t) (n_italian t) (n_polish t) (n_portuguese t) (n_russian t) (n_german t) (n_korean t) (n_japanese t) (n_chinese t) (n_chinesesimp t) (n_turkish t) (n_swedish t) (n_slovak t) (n_serbocroatian t) (n_norwegian t) (n_icelandic t) (n_hungarian t) (n_greek t) (add32 (n_finnish t) 1) (n_dutch t).
Definition inc_dutch (t : totals) : totals :=
  Totals (total t) (n_original t) (n_english t) (n_czech t) (n_french t) (n_spanish t) (n_italian t) (n_polish t) (n_portuguese t) (n_russian t) (n_german t) (n_korean t) (n_japanese t) (n_chinese t) (n_chinesesimp t) (n_turkish t) (n_swedish t) (n_slovak t) (n_serbocroatian t) (n_norwegian t) (n_icelandic t) (n_hungarian t) (n_greek t) (n_finnish t) (add32 (n_dutch t) 1).
(** totals.rs:54-80 [merge]. *)
Definition merge (t u : totals) : totals :=
  Totals (add32 (total t) (total u)) (add32 (n_original t) (n_original u)) (add32 (n_english t) (n_english u)) (add32 (n_czech t) (n_czech u)) (add32 (n_french t) (n_french u)) (add32 (n_spanish t) (n_spanish u)) (add32 (n_italian t) (n_italian u)) (add32 (n_polish t) (n_polish u)) (add32 (n_portuguese t) (n_portuguese u)) (add32 (n_russian t) (n_russian u)) (add32 (n_german t) (n_german u)) (add32 (n_korean t) (n_korean u)) (add32 (n_japanese t) (n_japanese u)) (add32 (n_chinese t) (n_chinese u)) (add32 (n_chinesesimp t) (n_chinesesimp u)) (add32 (n_turkish t) (n_turkish u)) (add32 (n_swedish t) (n_swedish u)) (add32 (n_slovak t) (n_slovak u)) (add32 (n_serbocroatian t) (n_serbocroatian u)) (add32 (n_norwegian t) (n_norwegian u)) (add32 (n_icelandic t) (n_icelandic u)) (add32 (n_hungarian t) (n_hungarian u)) (add32 (n_greek t) (n_greek u)) (add32 (n_finnish t) (n_finnish u)) (add32 (n_dutch t) (n_dutch u)).
(** package.rs:41-122 [totals]: the keys, one after the other, then the containers. *)
Definition is_some {A} (o : option A) : bool := match o with Some _ => true | None => false end.
Definition when_some {A} (o : option A) (inc : totals -> totals) (t : totals) : totals := if is_some o then inc t else t.
Definition steps_of (k : key) : list (totals -> totals) :=
  [inc_total
   ; when_some (original k) inc_original
   ; when_some (english k) inc_english
   ; when_some (czech k) inc_czech
   ; when_some (french k) inc_french
   ; when_some (spanish k) inc_spanish
   ; when_some (italian k) inc_italian
   ; when_some (polish k) inc_polish
   ; when_some (portuguese k) inc_portuguese
   ; when_some (russian k) inc_russian
   ; when_some (german k) inc_german
   ; when_some (korean k) inc_korean
   ; when_some (japanese k) inc_japanese
   ; when_some (chinese k) inc_chinese
   ; when_some (chinesesimp k) inc_chinesesimp
   ; when_some (turkish k) inc_turkish
   ; when_some (swedish k) inc_swedish
   ; when_some (slovak k) inc_slovak
   ; when_some (serbocroatian k) inc_serbocroatian
   ; when_some (norwegian k) inc_norwegian
   ; when_some (icelandic k) inc_icelandic
   ; when_some (hungarian k) inc_hungarian
   ; when_some (greek k) inc_greek
   ; when_some (finnish k) inc_finnish
   ; when_some (dutch k) inc_dutch
  ].
Definition count_key (t : totals) (k : key) : totals := fold_left (fun t f => f t) (steps_of k) t.
Fixpoint package_totals (p : package) : totals :=
  let '(Package _ k c) := p in
  fold_left (fun t c => merge t (package_totals c)) c (fold_left count_key k no_totals).

(** ** The coverage report *)
(** The lines of coverage.rs:117-140 and of :146-169, one for each language, in this order. *)
Inductive language :=
Original | English | Czech | French | Spanish | Italian | Polish | Portuguese | Russian | German | Korean | Japanese | Chinese | Chinesesimp | Turkish | Swedish | Slovak | Serbocroatian | Norwegian | Icelandic | Hungarian | Greek | Finnish | Dutch.
Definition languages : list language :=
  [Original; English; Czech; French; Spanish; Italian; Polish; Portuguese; Russian; German; Korean; Japanese; Chinese; Chinesesimp; Turkish; Swedish; Slovak; Serbocroatian; Norwegian; Icelandic; Hungarian; Greek; Finnish; Dutch].
Definition of_language (t : totals) (l : language) : N :=
  match l with
  | Original => n_original t
  | English => n_english t
  | Czech => n_czech t
  | French => n_french t
  | Spanish => n_spanish t
  | Italian => n_italian t
  | Polish => n_polish t
  | Portuguese => n_portuguese t
  | Russian => n_russian t
  | German => n_german t
  | Korean => n_korean t
  | Japanese => n_japanese t
  | Chinese => n_chinese t
  | Chinesesimp => n_chinesesimp t
  | Turkish => n_turkish t
  | Swedish => n_swedish t
  | Slovak => n_slovak t
  | Serbocroatian => n_serbocroatian t
  | Norwegian => n_norwegian t
  | Icelandic => n_icelandic t
  | Hungarian => n_hungarian t
  | Greek => n_greek t
  | Finnish => n_finnish t
  | Dutch => n_dutch t
  end.
Definition same_language (a b : language) : bool :=
  match a, b with
  | Original, Original | English, English | Czech, Czech | French, French | Spanish, Spanish | Italian, Italian | Polish, Polish | Portuguese, Portuguese | Russian, Russian | German, German | Korean, Korean | Japanese, Japanese | Chinese, Chinese | Chinesesimp, Chinesesimp | Turkish, Turkish | Swedish, Swedish | Slovak, Slovak | Serbocroatian, Serbocroatian | Norwegian, Norwegian | Icelandic, Icelandic | Hungarian, Hungarian | Greek, Greek | Finnish, Finnish | Dutch, Dutch => true
  | _, _ => false
  end.
(** coverage.rs:22-30 [missing!]: the map from a language to the addons that lack a translation. *)
Definition missing_map := language -> list bytes.
Definition push_missing (folder : bytes) (t : totals) (m : missing_map) (l : language) : missing_map :=
  if of_language t l =? total t then m else fun l' => if same_language l l' then m l' ++ [folder] else m l'.
(** coverage.rs:115-142: one package of an addon's stringtable. *)
Definition cover_package (folder : bytes) (s : totals * missing_map) (p : package) : totals * missing_map :=
  let t := package_totals p in (merge (fst s) t, fold_left (push_missing folder t) languages (snd s)).
(** coverage.rs:100-144: the addons that have a stringtable, in order. *)
Definition cover_addon (s : totals * missing_map) (a : bytes * project) : totals * missing_map :=
  fold_left (cover_package (fst a)) (packages (snd a)) s.
Definition cover (addons : list (bytes * project)) : totals * missing_map := fold_left cover_addon addons (no_totals, fun _ => []).
(** coverage.rs:32-44 [row!], :146-169: a row has the two numbers whose quotient is shown. *)
Definition coverage (addons : list (bytes * project)) : list (language * N * N * list bytes) :=
  let '(global, missing) := cover addons in
  flat_map (fun l => if of_language global l =? 0 then [] else [(l, of_language global l, total global, missing l)]) languages.

(** ** The text of a translation *)
(** [str::replace] of one byte; lib.rs:91. *)
Definition amp : bytes := bs "&amp;".
Definition replace_byte (c : N) (by_ : bytes) (s : bytes) : bytes := flat_map (fun x => if x =? c then by_ else [x]) s.
Definition protect (s : bytes) : bytes := replace_byte 38 amp s.
(** quick_xml's reading of text: the entities of XML are replaced; number entities are not modelled (none gets here, see
    [protect]) and are refused here. *)
Fixpoint starts (p s : bytes) : option bytes :=
  match p, s with
  | [], _ => Some s
  | a :: p, b :: s => if a =? b then starts p s else None
  | _, [] => None
  end.
Fixpoint unescape (fuel : nat) (s : bytes) : option bytes :=
  match fuel with
  | O => None
  | S fuel =>
      match s with
      | [] => Some []
      | c :: r =>
          if c =? 38 then
            match starts (bs "amp;") r, starts (bs "lt;") r, starts (bs "gt;") r, starts (bs "quot;") r, starts (bs "apos;") r with
            | Some r, _, _, _, _ => option_map (cons 38) (unescape fuel r)
            | _, Some r, _, _, _ => option_map (cons 60) (unescape fuel r)
            | _, _, Some r, _, _ => option_map (cons 62) (unescape fuel r)
            | _, _, _, Some r, _ => option_map (cons 34) (unescape fuel r)
            | _, _, _, _, Some r => option_map (cons 39) (unescape fuel r)
            | _, _, _, _, _ => None
            end
          else option_map (cons c) (unescape fuel r)
      end
  end.
(** quick_xml's [minimal_escape] (key.rs:4-13) and the [partial_escape] with which it writes text. *)
Definition minimal_escape (s : bytes) : bytes :=
  flat_map (fun x => if x =? 38 then amp else if x =? 60 then bs "&lt;" else [x]) s.
Definition partial_escape (s : bytes) : bytes :=
  flat_map (fun x => if x =? 38 then amp else if x =? 60 then bs "&lt;" else if x =? 62 then bs "&gt;" else [x]) s.
(** In an attribute also the double quote is replaced. *)
Definition attribute_escape (s : bytes) : bytes :=
  flat_map (fun x => if x =? 38 then amp else if x =? 60 then bs "&lt;" else if x =? 62 then bs "&gt;" else if x =? 34 then bs "&quot;" else [x]) s.
(** lib.rs:143: [replace("&amp;amp;", "&")] on what was written. *)
Fixpoint unprotect (fuel : nat) (s : bytes) : bytes :=
  match fuel with
  | O => s
  | S fuel =>
      match s with
      | [] => []
      | c :: r => match starts (bs "&amp;amp;") s with Some r => 38 :: unprotect fuel r | None => c :: unprotect fuel r end
      end
  end.
(** lib.rs:52-108: what a translation of the file becomes in memory; [cdata] is text between [<![CDATA[] and []]>], which
    XML takes as it is, but the line was protected. Leading and trailing blanks are left out of the model. *)
Definition text_read (s : bytes) : option bytes := let s := protect s in unescape (S (length s)) s.
Definition cdata_read (s : bytes) : bytes := protect s.
(** key.rs:4-13 and lib.rs:113-152: how a translation, and how a name, is written. *)
Definition text_written (s : bytes) : bytes := let s := partial_escape (minimal_escape s) in unprotect (length s) s.
Definition name_written (s : bytes) : bytes := let s := attribute_escape s in unprotect (length s) s.
