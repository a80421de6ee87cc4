(** C82: from the text of a config file to its raP file. *)
From Coq Require Import String.
From Verif Require Import Base.Tactics Base.Bytes Base.Ascii Base.Text Base.Sort Config.RapModel Config.RapTree Config.RapProofs Config.RapReads Config.RapProps Config.ParseSpec Config.GrammarSpec
  Config.ParseModel Config.ParseProps Config.AnalyzeSpec Config.AnalyzeModel Config.AnalyzeWalk Config.AnalyzeMore Config.AnalyzeProofs Config.AnalyzeTree Config.AnalyzeProps Config.FileModel Config.FileSpec Config.FileProofs.
From Verif Require Config.RapSpec Preproc.Model Preproc.LexModel Preproc.LexSpec Preproc.LexProofs Preproc.Props Workspace.ProcessedModel Workspace.Props Bin.LintModel Preproc.Examples.
Local Open Scope N_scope.
Local Open Scope list_scope.

Section File.
  Context (checked : bool) (locate : text -> text -> option (text * bool)) (tokens : text -> Preproc.Model.run (list Preproc.Model.token))
          (project : option (option text * text)) (F : Type) (parse_f64 : text -> option F) (flt fle : F -> F -> bool)
          (read : text -> option text)
          (f32_parse : text -> option N) (f32_show : N -> text) (try_eval : text -> option number)
          (low : bytes -> bytes) (prefix : option bytes) (st : LintModel.settings) (m : LintModel.manager unit)
          (Accepted : LintModel.config_manager st = Some m)
          (Dots : forall s, ~ In 46 s -> ~ In 46 (low s))
          (Words : forall t b, f32_parse t = Some b -> b < 2 ^ 32).
  Notation rapify := (rapify_file checked locate tokens project F parse_f64 flt fle read f32_parse f32_show try_eval low prefix m).
  Notation preprocess := (Preproc.Model.preprocess checked locate tokens project F parse_f64 flt fle).
  Notation says := (config_text (denotes f32_parse) (kept f32_show try_eval)).
  Notation deserves := (deserved low (is_on st p05) (is_on st p09) prefix).
  Notation mistake := (wrong low (is_on st p05) (is_on st p09) prefix).

  Lemma found_wrong c t : says c t -> forall x, In (Some x) (analyze low prefix m c) <-> mistake c x.
  Proof using Accepted Dots.
    intros H x. pose proof (C45_config_parses _ _ _ _ _ H) as P. destruct (C63_parsed_dotless low Dots _ _ _ _ _ _ P) as [Hw Hd].
    pose proof (config_clean _ _ _ _ H) as C.
    assert (None_ : forall q, within c q -> of_property q x -> False).
    { intros q Hq Ho. specialize (C q Hq). destruct x; cbn [of_property] in Ho; try contradiction.
      - destruct Ho as (n & v & e & -> & [->|(ex & l & [->| ->] & Hn)]); destruct e; cbn [clean] in C; auto.
      - destruct Ho as (ex & l & e & ->). destruct e; exact C.
      - destruct Ho as (v & -> & H1 & H2). cbn [clean] in C. destruct v; auto. now apply (H2 expand l).
      - rewrite Ho in C. exact C.
      - destruct Ho as (n & ps & ->). exact C. }
    rewrite (found_iff low prefix st m Accepted) by exact Hw. split.
    - destruct x; try (intros (q & Hq & Ho); now destruct (None_ q Hq Ho)).
      + destruct (c02_exact low c Hd) as (paths & _ & Hp & ->). intros I. apply in_map_iff in I as (path & [= <-] & I). apply Hp in I. now constructor.
      + intros I. apply c03_exact in I as (b & k & Hb & Hl & [= ->]). econstructor; eauto.
      + intros I. apply c04_exact in I as (n & p & [= -> ->] & I). now constructor.
      + intros (On & b & Hb & Hm). econstructor; eauto.
      + intros (On & I). apply c09_exact in I; [|now apply well_rootless]. destruct I as (a & s & [= -> ->] & I). now constructor.
    - intros W; destruct W as [path K|b k Hb Hl|n p O|b n p d On Hb Hm|a s On U].
      + destruct (c02_exact low c Hd) as (paths & _ & Hp & ->). apply in_map_iff. exists path. split; [reflexivity|]. now apply Hp.
      + apply c03_exact. exists b, k. auto.
      + apply c04_exact. eauto.
      + split; [exact On|]. eauto.
      + split; [exact On|]. apply c09_exact; [now apply well_rootless|]. eauto.
  Qed.

  (** C82. Whatever the preprocessor makes of a file, if its text says the tree [c], the file gets what [c] deserves. *)
  Theorem C82_file : forall n path s out p c,
    preprocess n path = Preproc.Model.Ok (s, out) -> ProcessedModel.new read out = ProcessedModel.Done p ->
    says c (ProcessedModel.o_text p) -> ~ In 0 (ProcessedModel.o_text p) ->
    deserves (Preproc.Model.no_rapify s) c (rapify n path).
  Proof using Accepted Dots Words.
    intros n path s out p c E1 E2 S Nul. pose proof (C45_config_parses _ _ _ _ _ S) as P.
    destruct (C63_parsed_dotless low Dots _ _ _ _ _ _ P) as [Hw _]. pose proof (found_wrong c _ S) as W.
    unfold rapify_file. rewrite E1, E2, P. unfold deserved.
    destruct (C62_reported_or_written low prefix st m Accepted c Hw) as [(errors & -> & Hn & Hi)|(_ & Hf & es & f & Ht & -> & Hr)].
    - left. exists errors. split; [reflexivity|]. split; [exact Hn|]. intros x. now rewrite Hi, W.
    - right. split; [intros x X; apply (Hf x); now apply W|]. destruct (Preproc.Model.no_rapify s); [reflexivity|].
      exists f, es. split; [reflexivity|]. split; [exact Ht|]. intros L.
      assert (R : RapSpec.rap_file true f es).
      { apply Hr; [|exact L]. apply (config_storable (denotes f32_parse) (kept f32_show try_eval) Words c _ S Nul). }
      split; [exact R|]. intros es' R'. exact (rap_file_det _ _ _ _ _ R' R).
  Qed.

  Section Plain.
    (** ASCII letters are letters, other characters may be. *)
    Context (letter other : N -> bool) (Letters : forall c, c < 128 -> letter c = LexModel.ascii_letter c).
    Notation plain := (plain_file letter other tokens read).

    Lemma plain_text path src : plain path src -> exists n0, forall n, (n0 <= n)%nat -> exists s out p,
      preprocess n path = Preproc.Model.Ok (s, out) /\ ProcessedModel.new read out = ProcessedModel.Done p /\
      ProcessedModel.o_text p = LexSpec.uncommented src /\ Preproc.Model.no_rapify s = false.
    Proof using Letters.
      intros (Readable & (ts & Lexed & Tokens) & Hash & Continued & Own).
      destruct (Preproc.Props.plain_output checked locate tokens project F parse_f64 flt fle letter other path src ts Letters Lexed Tokens Hash Continued Own) as (n0 & H).
      exists n0. intros n L. destruct (H n L) as (s & out & E & T & D & NR). clear H.
      destruct (append_direct read out ProcessedModel.empty) as (p & Hp).
      { intros o Ho. destruct (D o Ho) as (t & -> & Ht). exists t. split; [reflexivity|].
        destruct (LexProofs.parse_text_places letter other Letters path src ts t Lexed Ht) as (_ & _ & _ & _ & _ & -> & _). congruence. }
      exists s, out, p. split; [exact E|]. split; [exact Hp|]. split; [|exact NR].
      rewrite (Workspace.Props.C33_text_without_joins read out p Hp).
      - exact T.
      - intros t Ht X. apply in_flat_map in Ht as (o & Ho & Ht). destruct (D o Ho) as (t' & -> & Ht').
        cbn in Ht. destruct Ht as [<-|[]].
        destruct (LexProofs.parse_text_places letter other Letters path src ts t' Lexed Ht') as (a & b & z & Es & Tx & _).
        apply Hash. destruct Tx as [Tx|Tx].
        + rewrite Es, <- Tx, X. apply in_or_app. right. now left.
        + unfold Preproc.Model.tok_text in X. rewrite Tx in X. discriminate.
    Qed.

    (** A file without directives whose text, without its comments, says [c], gets what [c] deserves, once the model has
        fuel enough. *)
    Theorem C82_plain_file : forall path src c, plain path src -> says c (LexSpec.uncommented src) -> ~ In 0 (LexSpec.uncommented src) ->
      exists r n0, deserves false c r /\ forall n, (n0 <= n)%nat -> rapify n path = r.
    Proof using Accepted Dots Words Letters.
      intros path src c Pl S Nul. destruct (plain_text path src Pl) as (n0 & H). exists (rapify n0 path), n0. split.
      - destruct (H n0 ltac:(lia)) as (s & out & p & E1 & E2 & T & NR). rewrite <- NR. apply (C82_file n0 path s out p); auto; now rewrite T.
      - intros n L. destruct (H n0 ltac:(lia)) as (s & out & p & E1 & E2 & T & NR). destruct (H n L) as (s' & out' & p' & E1' & E2' & T' & NR').
        unfold rapify_file. now rewrite E1, E2, E1', E2', T, T', NR, NR'.
    Qed.
    (** And a text that the parser does not read to its end is not converted. *)
    Theorem C82_plain_not_parsed : forall path src, plain path src -> (forall c, parse_config f32_parse f32_show try_eval (LexSpec.uncommented src) <> POk c []) ->
      exists n0, forall n, (n0 <= n)%nat -> rapify n path = NotParsed \/ rapify n path = Crash.
    Proof using Letters.
      intros path src Pl Hp. destruct (plain_text path src Pl) as (n0 & H). exists n0. intros n L. destruct (H n L) as (s & out & p & E1 & E2 & T & NR).
      unfold rapify_file. rewrite E1, E2, T. destruct (parse_config _ _ _ _) as [c [|? ?]| | | |] eqn:E; auto. now destruct (Hp c).
    Qed.
    (** The layout does not count: files that say one tree have one fate, and are the same file if they are written. *)
    Theorem C82_layout : forall path src path' src' c, plain path src -> plain path' src' ->
      says c (LexSpec.uncommented src) -> says c (LexSpec.uncommented src') ->
      exists n0, forall n, (n0 <= n)%nat -> rapify n path = rapify n path'.
    Proof using Letters.
      clear Words Dots Accepted. intros path src path' src' c Pl Pl' S S'. destruct (plain_text path src Pl) as (n1 & H1). destruct (plain_text path' src' Pl') as (n2 & H2).
      exists (Nat.max n1 n2). intros n L. destruct (H1 n ltac:(lia)) as (s & out & p & E1 & E2 & T & NR). destruct (H2 n ltac:(lia)) as (s' & out' & p' & E1' & E2' & T' & NR').
      unfold rapify_file. now rewrite E1, E2, E1', E2', T, T', NR, NR', (C45_config_parses _ _ _ _ _ S), (C45_config_parses _ _ _ _ _ S').
    Qed.
    (** The values do: files of up to 4 GiB that are the same come from trees that say the same. *)
    Theorem C82_values : forall path src path' src' c c', plain path src -> plain path' src' ->
      says c (LexSpec.uncommented src) -> says c' (LexSpec.uncommented src') ->
      ~ In 0 (LexSpec.uncommented src) -> ~ In 0 (LexSpec.uncommented src') ->
      exists n0, forall n f, (n0 <= n)%nat -> rapify n path = File f -> rapify n path' = File f -> blen f < 2 ^ 32 ->
        exists es, tree c = Some es /\ tree c' = Some es.
    Proof using Accepted Dots Words Letters.
      intros path src path' src' c c' Pl Pl' S S' Nul Nul'.
      destruct (C82_plain_file path src c Pl S Nul) as (r & n1 & D1 & H1). destruct (C82_plain_file path' src' c' Pl' S' Nul') as (r' & n2 & D2 & H2).
      exists (Nat.max n1 n2). intros n f L E E' Len. rewrite H1 in E by lia. rewrite H2 in E' by lia. subst r r'.
      destruct D1 as [(? & [=] & _)|(_ & f1 & es & [= <-] & T & R)]. destruct D2 as [(? & [=] & _)|(_ & f2 & es' & [= <-] & T' & R')].
      destruct (R Len) as [R1 _]. destruct (R' Len) as [R1' _]. exists es. split; [exact T|]. now rewrite (rap_file_det _ _ _ _ _ R1 R1').
    Qed.
  End Plain.

  (** Nothing is written for a file but the raP form of the tree that its preprocessed text was parsed to, in full, and against
      which nothing was reported. *)
  Theorem C82_written_only : forall n path f, rapify n path = File f ->
    exists s out p c, preprocess n path = Preproc.Model.Ok (s, out) /\ Preproc.Model.no_rapify s = false /\
      ProcessedModel.new read out = ProcessedModel.Done p /\
      parse_config f32_parse f32_show try_eval (ProcessedModel.o_text p) = POk c [] /\
      (forall x, ~ In (Some x) (analyze low prefix m c)) /\ ~ broken c /\ exists es, tree c = Some es.
  Proof using Accepted.
    intros n path f. unfold rapify_file.
    destruct (preprocess n path) as [[s out]|e| |] eqn:E1; try discriminate.
    destruct (ProcessedModel.new read out) as [p| |] eqn:E2; try discriminate.
    destruct (parse_config _ _ _ _) as [c [|? ?]| | | |] eqn:E3; try discriminate.
    destruct (convert low prefix m c) eqn:E4; try discriminate. destruct (Preproc.Model.no_rapify s) eqn:E5; try discriminate. intros _.
    exists s, out, p, c. do 4 (split; [first [assumption|reflexivity]|]).
    destruct (C62_reported_or_written low prefix st m Accepted c (parsed_well _ _ _ _ _ _ E3)) as [(errors & X & _)|(Hb & Hf & es & g & Ht & _)]; [congruence|].
    split; [exact Hf|]. split; [exact Hb|]. eauto.
  Qed.
End File.
Print Assumptions C82_file.
Print Assumptions C82_plain_file.
Print Assumptions C82_plain_not_parsed.
Print Assumptions C82_layout.
Print Assumptions C82_values.
Print Assumptions C82_written_only.

(** ** Cases *)
(** The config of C45's example, with comments: its class has a parent that is declared nowhere. With the parent, it is
    converted. *)
Definition case_eval (t : text) : option number := if eqb_bytes t (bs "17") then Some (Int32 17) else None.
Definition case_src : text :=
  bs " /* the */class A: B {" ++ [10; 9] ++ bs "x[] = {17 ,""q"""""" , {}};// array" ++ [10] ++ bs "};delete C;".
Definition case_tokens (src : text) (_ : text) := LexModel.parse_text LexModel.ascii_letter LexModel.ascii_other (bs "config.cpp") src.
Definition case_tree : config :=
  [ PClass (Local (bs "A") (Some (bs "B")) [Entry (bs "x") (VArr false [INum (Int32 17); IStr [113; 34]; IArr []]) true] false); Delete (bs "C") ].
Example case_plain : plain_file LexModel.ascii_letter LexModel.ascii_other (case_tokens case_src) (fun _ => Some case_src) (bs "config.cpp") case_src.
Proof.
  split; [reflexivity|]. split.
  - unfold case_tokens. destruct (LexModel.parse_text _ _ _ _) as [ts| | |] eqn:E; [eauto|exfalso..]; vm_compute in E; discriminate.
  - split; [|split].
    + intro H. vm_compute in H. repeat destruct H as [H|H]; discriminate || contradiction.
    + apply Preproc.Examples.occurs_dec. vm_compute. reflexivity.
    + apply Preproc.Examples.occurs_dec. vm_compute. reflexivity.
Qed.
Example case_says : config_text (denotes (fun _ => None)) (kept (fun _ => []) case_eval) case_tree (LexSpec.uncommented case_src).
Proof. exact (C45_applies (fun _ => None) (fun _ => []) case_eval eq_refl). Qed.
Example case_no_nul : ~ In 0 (LexSpec.uncommented case_src).
Proof. intro H. vm_compute in H. repeat destruct H as [H|H]; discriminate || contradiction. Qed.
Definition case_fate (src : text) (m : LintModel.manager unit) : fate :=
  rapify_file true (fun _ _ => None) (case_tokens src) None N (fun _ => None) N.ltb N.leb (fun _ => Some src)
    (fun _ => None) (fun _ => []) case_eval ascii_lower None m 40 (bs "config.cpp").
Example case_reported : with_manager defaults (case_fate case_src) = Some (Errors [ExternalMissing (bs "A") (bs "B")]).
Proof. vm_compute. reflexivity. Qed.
Example case_written : exists f, with_manager defaults (case_fate (bs "class B;" ++ case_src)) = Some (File f) /\
  with_manager defaults (case_fate (bs "class B;class A:B{x[]={17,""q"""""",{}};};delete C;")) = Some (File f).
Proof. eexists. split; vm_compute; reflexivity. Qed.
