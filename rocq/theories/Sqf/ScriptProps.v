(** C84: from the text of a script to its .sqfc file. *)
From Coq Require Import String.
From Verif Require Import Base.Tactics Base.Bytes Base.Ascii Base.Text Sqf.Ast Sqf.SourceModel Sqf.BuildSpec Sqf.ScriptModel Sqf.ScriptSpec.
From Verif Require Preproc.Model Preproc.LexModel Preproc.LexSpec Preproc.LexProofs Preproc.Props Workspace.ProcessedModel Workspace.ProcessedProofs Workspace.Props Config.FileSpec Config.FileProofs
  Sqf.ParseModel Sqf.ParseSpec Sqf.LexModel Sqf.LexSpec Sqf.SourceBack Sqf.ParseProps Sqf.OptimizeModel Sqf.OptimizeSpec Sqf.OptimizeTotal Sqf.OptimizeProps Sqf.CompileModel Sqf.SerializeModel Sqf.SerializeSpec Sqf.SerializeProofs Sqf.SerializeProps
  Sqf.BuildProofs Sqf.BuildProps Preproc.Examples.
Local Open Scope N_scope.
Local Open Scope list_scope.

(** The sources of a text of tokens of one file. *)
Section Sources.
  Import Preproc.Model Workspace.ProcessedModel.
  Context (read : text -> option text).
  Lemma one_source out path : (forall o, In o out -> exists t, o = Direct t /\ p_path (t_pos t) = path) ->
    forall p q, append read out p = Done q -> incl (map fst (sources q)) (path :: map fst (sources p)).
  Proof.
    induction out as [|o out IH]; intros H p q E; [injection E as <-; intros x Hx; now right|].
    destruct (H o (or_introl eq_refl)) as (t & -> & Pt). cbn [append append1] in E.
    destruct (append_token read p t) as [p1| |] eqn:E1; try discriminate.
    assert (incl (map fst (sources p1)) (path :: map fst (sources p))) as K.
    { unfold append_token in E1. rewrite Pt in E1. unfold source_index in E1.
      destruct (position path (sources p)); [|destruct (read path); [|discriminate]];
        destruct (is_newline _); try (injection E1 as <-); try (destruct (text_eqb _ _); try (injection E1 as <-); try (destruct (_ && _); injection E1 as <-)); cbn [sources];
        rewrite ?map_app; cbn [map fst]; intros x Hx; try (apply in_app_or in Hx as [Hx|[<-|[]]]); cbn; auto. }
    intros x Hx. apply (IH (fun o Ho => H o (or_intror Ho)) p1 q E) in Hx. destruct Hx as [<-|Hx]; [now left|]. now apply K.
  Qed.
End Sources.

Section Script.
  Context (checked : bool) (locate : text -> text -> option (text * bool)) (tokens : text -> Preproc.Model.run (list Preproc.Model.token))
          (project : option (option text * text)) (F : Type) (parse_f64 : text -> option F) (flt fle : F -> F -> bool)
          (read : text -> option text)
          (wiki custom : list ParseModel.wiki_entry) (parse_f32 : text -> N) (f32_of : N -> N)
          (fneg fsqrt : N -> N) (fadd fsub fmul fdiv frem : N -> N -> N) (finite : N -> bool)
          (failed : statements -> ProcessedModel.processed -> bool) (virtual : text -> text).
  Hypothesis no_new_word_operators : forall e, In e custom -> In ParseModel.CallBinary (snd e) -> ParseSpec.reserved (fst e) = None.
  Hypothesis floats1 : (forall s, parse_f32 s < 2 ^ 32) /\ (forall n, f32_of n < 2 ^ 32) /\ (forall x, fneg x < 2 ^ 32) /\ (forall x, fsqrt x < 2 ^ 32).
  Hypothesis floats2 : forall x y, fadd x y < 2 ^ 32 /\ fsub x y < 2 ^ 32 /\ fmul x y < 2 ^ 32 /\ fdiv x y < 2 ^ 32 /\ frem x y < 2 ^ 32.
  Hypothesis names : forall f, SerializeSpec.is_text (virtual f).
  Notation db := (ParseModel.a3_with_workspace wiki custom).
  Notation read_sqf := (read_sqf db parse_f32 f32_of).
  Notation optimize := (OptimizeModel.optimize fneg fsqrt fadd fsub fmul fdiv frem finite).
  Notation documented := (OptimizeSpec.documented fneg fsqrt fadd fsub fmul fdiv frem finite).
  Notation preprocess := (Preproc.Model.preprocess checked locate tokens project F parse_f64 flt fle).
  Notation compile := (compile_file checked locate tokens project F parse_f64 flt fle read db parse_f32 f32_of fneg fsqrt fadd fsub fmul fdiv frem finite failed virtual).
  Notation o_text := ProcessedModel.o_text.

  (** A text that is not too long to be compiled, of up to 256 files. *)
  Definition fits (p : ProcessedModel.processed) : Prop :=
    SerializeSpec.is_text (o_text p) /\ LexModel.byte_len (o_text p) < 2 ^ 31 /\ N.of_nat (length (ProcessedModel.sources p)) <= 256.
  (** In every engine that keeps to the documentation the two scripts do the same (C30). *)
  Definition does_the_same (r r' : statements) : Prop :=
    forall (L : OptimizeSpec.lang) (C : OptimizeSpec.correspondence L), documented L C ->
    forall n k w w', OptimizeSpec.Rw C k [] w w' ->
    OptimizeSpec.same L C (OptimizeSpec.Ro L C) k [] (OptimizeSpec.exec L n (content r) w) (OptimizeSpec.exec L n (content r') w').

  (** C84. Whatever the preprocessor makes of a script, if the parser reads its text as [r], without an array of more than 65535
      elements and without [{..} else {..}] as an element of an array, then the analysis reports it, or the file written is a script that does what [r] does,
      with the text as its source, or a part of it is too large. *)
  Theorem C84_script : forall n path s out p r,
    preprocess n path = Preproc.Model.Ok (s, out) -> ProcessedModel.new read out = ProcessedModel.Done p -> fits p ->
    read_sqf (o_text p) = Some r -> short_script r -> forallb OptimizeTotal.no_else_stmt (content r) = true ->
    if failed r p then compile n path = Reported
    else exists r', compiled_as p virtual r' (compile n path) /\ does_the_same r r'.
  Proof using no_new_word_operators floats1 floats2 names.
    intros n path s out p r E1 E2 (T & Sm & Few) R Sh El.
    unfold compile_file. rewrite E1, E2, R.
    destruct (LexModel.lex parse_f32 f32_of (o_text p)) as [ts|] eqn:E3; [|unfold SourceModel.read_sqf in R; rewrite E3 in R; discriminate].
    destruct (failed r p); [reflexivity|].
    destruct (OptimizeProps.C31_optimizer_returns fneg fsqrt fadd fsub fmul fdiv frem finite r El) as (r' & O). rewrite O. exists r'. split.
    - destruct (BuildProps.C83_script_is_typed wiki custom parse_f32 f32_of no_new_word_operators fneg fsqrt fadd fsub fmul fdiv frem finite floats1 floats2 (o_text p) r r' T R Sh (or_intror O)) as [Hs Ty].
      destruct (BuildProps.C83_script_compiles wiki custom parse_f32 f32_of no_new_word_operators fneg fsqrt fadd fsub fmul fdiv frem finite floats1 floats2 read out p virtual r r' E2 Few T R Sh (or_intror O)) as [(c & E)|E]; rewrite E; [|now left].
      unfold write. destruct (SerializeModel.serialize c) as [b|e] eqn:W.
      + right. exists b. split; [reflexivity|]. eapply SerializeProps.C29_compiled_file_is_the_program; eauto.
      + left. pose proof (SerializeProps.C29_only_size_fails p virtual r' c e Sm Hs T Ty (fun f _ => names (fst f)) E W) as L. destruct e; try reflexivity; contradiction.
    - intros L C D. apply (OptimizeProps.C30_optimizer_preserves_meaning fneg fsqrt fadd fsub fmul fdiv frem finite L C D r r' O).
  Qed.

  (** A script that is written was read to its end, and the analysis had nothing against it. *)
  Theorem C84_written_only : forall n path b, compile n path = Script b ->
    exists s out p r, preprocess n path = Preproc.Model.Ok (s, out) /\ ProcessedModel.new read out = ProcessedModel.Done p /\
      read_sqf (o_text p) = Some r /\ failed r p = false /\
      (fits p -> short_script r -> exists r', is_script p virtual r' b /\ does_the_same r r').
  Proof using no_new_word_operators floats1 floats2 names.
    intros n path b. unfold compile_file. destruct (preprocess n path) as [[s out]|e| |] eqn:E1; try discriminate.
    destruct (ProcessedModel.new read out) as [p| |] eqn:E2; try discriminate.
    destruct (LexModel.lex parse_f32 f32_of (o_text p)) as [ts|] eqn:E3; try discriminate.
    destruct (read_sqf (o_text p)) as [r|] eqn:R; [|destruct (looks_like_settings _); discriminate].
    destruct (failed r p) eqn:Fa; [discriminate|]. destruct (optimize r) as [r'|] eqn:O; [|discriminate].
    destruct (CompileModel.compile p virtual r') as [c| | |] eqn:E; try discriminate. unfold write. intros W.
    exists s, out, p, r. do 4 (split; [first [reflexivity|assumption]|]). intros (T & Sm & Few) Sh. exists r'. split.
    - destruct (SerializeModel.serialize c) as [b'|e] eqn:Ws; [|destruct e; discriminate]. injection W as ->.
      destruct (BuildProps.C83_script_is_typed wiki custom parse_f32 f32_of no_new_word_operators fneg fsqrt fadd fsub fmul fdiv frem finite floats1 floats2 (o_text p) r r' T R Sh (or_intror O)) as [Hs Ty].
      eapply SerializeProps.C29_compiled_file_is_the_program; eauto.
    - intros L C D. apply (OptimizeProps.C30_optimizer_preserves_meaning fneg fsqrt fadd fsub fmul fdiv frem finite L C D r r' O).
  Qed.

  (** A text that is not a script is reported, but for what looks like a file of settings: such a text is left out without a
      word. *)
  Theorem C84_not_read : forall n path s out p,
    preprocess n path = Preproc.Model.Ok (s, out) -> ProcessedModel.new read out = ProcessedModel.Done p ->
    read_sqf (o_text p) = None ->
    (compile n path = NotLexed /\ forall ts, ~ LexSpec.reads parse_f32 f32_of 0 (o_text p) ts) \/
    (exists ts, LexSpec.reads parse_f32 f32_of 0 (o_text p) ts /\
      ((compile n path = Skipped /\ exists a b, o_text p = a ++ bs "force " ++ b /\ (a = [] \/ exists a', a = a' ++ [10])) \/
       (compile n path = NotParsed /\ forall a b, o_text p = a ++ bs "force " ++ b -> a <> [] /\ forall a', a <> a' ++ [10]))).
  Proof.
    clear names. intros n path s out p E1 E2 R. unfold compile_file. rewrite E1, E2, R.
    destruct (LexModel.lex parse_f32 f32_of (o_text p)) as [ts|] eqn:E3.
    - right. exists ts. split; [now apply LexProofs.lex_iff|].
      assert (H : forall q t, holds q t = true <-> exists a b, t = a ++ q ++ b).
      { intros q. induction t as [|c t IH]; cbn [holds].
        - rewrite orb_false_r. rewrite starts_with_spec. split.
          + intros (b & E). exists [], b. exact E.
          + intros (a & b & E). symmetry in E. apply app_eq_nil in E as [-> E]. exists b. now rewrite E.
        - rewrite orb_true_iff, starts_with_spec, IH. split.
          + intros [(b & ->)|(a & b & ->)]; [exists [], b; reflexivity|]. exists (c :: a), b. reflexivity.
          + intros ([|x a] & b & E); [left; exists b; exact E|]. injection E as -> ->. right. exists a, b. reflexivity. }
      unfold looks_like_settings. destruct (starts_with (bs "force ") (o_text p)) eqn:S1; cbn [orb].
      + left. split; [reflexivity|]. apply starts_with_spec in S1 as (b & S1). exists [], b. auto.
      + destruct (holds (10 :: bs "force ") (o_text p)) eqn:S2.
        * left. split; [reflexivity|]. apply H in S2 as (a & b & S2). exists (a ++ [10]), b. rewrite <- app_assoc. split; [exact S2|]. right. now exists a.
        * right. split; [reflexivity|]. intros a b E. split.
          -- intros ->. assert (starts_with (bs "force ") (o_text p) = true) by (apply starts_with_spec; exists b; exact E). congruence.
          -- intros a' ->. assert (holds (10 :: bs "force ") (o_text p) = true) by (apply H; exists a', b; rewrite E, <- app_assoc; reflexivity). congruence.
    - left. split; [reflexivity|]. intros ts X. apply LexProofs.lex_iff in X. congruence.
  Qed.

  Section Plain.
    (** ASCII letters are letters, other characters may be. *)
    Context (letter other : N -> bool) (Letters : forall c, c < 128 -> letter c = LexModel.ascii_letter c).
    Notation plain := (FileSpec.plain_file letter other tokens read).
    Lemma plain_script path src : plain path src -> exists n0, forall n, (n0 <= n)%nat -> exists s out p,
      preprocess n path = Preproc.Model.Ok (s, out) /\ ProcessedModel.new read out = ProcessedModel.Done p /\
      o_text p = LexSpec.uncommented src /\ incl (map fst (ProcessedModel.sources p)) [path].
    Proof using Letters.
      intros (Readable & (ts & Lexed & Tokens) & Hash & Continued & Own).
      destruct (Preproc.Props.plain_output checked locate tokens project F parse_f64 flt fle letter other path src ts Letters Lexed Tokens Hash Continued Own) as (n0 & H).
      exists n0. intros n L. destruct (H n L) as (s & out & E & T & D & _). clear H.
      assert (D' : forall o, In o out -> exists t, o = Preproc.Model.Direct t /\ Preproc.Model.p_path (Preproc.Model.t_pos t) = path).
      { intros o Ho. destruct (D o Ho) as (t & -> & Ht). exists t. split; [reflexivity|].
        destruct (LexProofs.parse_text_places letter other Letters path src ts t Lexed Ht) as (_ & _ & _ & _ & _ & -> & _). reflexivity. }
      destruct (FileProofs.append_direct read out ProcessedModel.empty) as (p & Hp).
      { intros o Ho. destruct (D' o Ho) as (t & -> & Ht). exists t. split; [reflexivity|]. rewrite Ht. congruence. }
      exists s, out, p. split; [exact E|]. split; [exact Hp|]. split; [|exact (one_source read out path D' _ _ Hp)].
      rewrite (Workspace.Props.C33_text_without_joins read out p Hp).
      - exact T.
      - intros t Ht X. apply in_flat_map in Ht as (o & Ho & Ht). destruct (D o Ho) as (t' & -> & Ht').
        cbn in Ht. destruct Ht as [<-|[]].
        destruct (LexProofs.parse_text_places letter other Letters path src ts t' Lexed Ht') as (a & b & z & Es & Tx & _).
        apply Hash. destruct Tx as [Tx|Tx].
        + rewrite Es, <- Tx, X. apply in_or_app. right. now left.
        + unfold Preproc.Model.tok_text in X. rewrite Tx in X. discriminate.
    Qed.

    (** A script without directives, of one file: its text is that of the file without comments, and its places are all in that
        file. *)
    Theorem C84_plain_script : forall path src r, plain path src ->
      SerializeSpec.is_text (LexSpec.uncommented src) -> LexModel.byte_len (LexSpec.uncommented src) < 2 ^ 31 ->
      read_sqf (LexSpec.uncommented src) = Some r -> short_script r -> forallb OptimizeTotal.no_else_stmt (content r) = true ->
      exists n0, forall n, (n0 <= n)%nat -> exists p, o_text p = LexSpec.uncommented src /\ incl (map fst (ProcessedModel.sources p)) [path] /\
        if failed r p then compile n path = Reported
        else exists r', compiled_as p virtual r' (compile n path) /\ does_the_same r r'.
    Proof using no_new_word_operators floats1 floats2 names Letters.
      intros path src r Pl T Sm R Sh El. destruct (plain_script path src Pl) as (n0 & H). exists n0. intros n L.
      destruct (H n L) as (s & out & p & E1 & E2 & Et & I). exists p. split; [exact Et|]. split; [exact I|].
      apply (C84_script n path s out p r E1 E2); auto; [|now rewrite Et]. unfold fits. rewrite Et. split; [exact T|]. split; [exact Sm|].
      destruct (ProcessedProofs.append_grows read out ProcessedModel.empty p (ProcessedProofs.inv_empty read) E2) as (a & e & G).
      destruct G as (_ & _ & _ & [_ [Nd _]] & _). pose proof (NoDup_incl_length Nd I) as Le. rewrite map_length in Le. cbn [length] in Le. lia.
    Qed.
  End Plain.
End Script.
Print Assumptions C84_script.
Print Assumptions C84_written_only.
Print Assumptions C84_not_read.
Print Assumptions C84_plain_script.

(** ** Cases *)
Definition case_wiki : list ParseModel.wiki_entry := [(bs "vectorAdd", [ParseModel.CallBinary]); (bs "player", [ParseModel.CallNular])].
Definition case_tokens (src : text) (_ : text) := Preproc.LexModel.parse_text Preproc.LexModel.ascii_letter Preproc.LexModel.ascii_other (bs "a.sqf") src.
Definition case_fate (src : text) : fate :=
  compile_file true (fun _ _ => None) (case_tokens src) None N (fun _ => None) N.ltb N.leb (fun _ => Some src) (ParseModel.a3_with_workspace case_wiki []) (fun _ => 0) (fun n => n mod 2 ^ 32)
    (fun _ => 0) (fun _ => 0) (fun _ _ => 0) (fun _ _ => 0) (fun _ _ => 0) (fun _ _ => 0) (fun _ _ => 0) (fun _ => true) (fun _ _ => false) (fun f => f) 40 (bs "a.sqf").
Definition case_src : text := bs "x = {y vectorAdd [1, 2]};// c".
Example case_plain : FileSpec.plain_file Preproc.LexModel.ascii_letter Preproc.LexModel.ascii_other (case_tokens case_src) (fun _ => Some case_src) (bs "a.sqf") case_src.
Proof.
  split; [reflexivity|]. split.
  - unfold case_tokens. destruct (Preproc.LexModel.parse_text _ _ _ _) as [ts| | |] eqn:E; [eauto|exfalso..]; vm_compute in E; discriminate.
  - split; [|split].
    + intro H. vm_compute in H. repeat destruct H as [H|H]; discriminate || contradiction.
    + apply Preproc.Examples.occurs_dec. vm_compute. reflexivity.
    + apply Preproc.Examples.occurs_dec. vm_compute. reflexivity.
Qed.
Example case_read : exists r, SourceModel.read_sqf (ParseModel.a3_with_workspace case_wiki []) (fun _ => 0) (fun n => n mod 2 ^ 32) (Preproc.LexSpec.uncommented case_src) = Some r /\
  short_script r /\ forallb OptimizeTotal.no_else_stmt (content r) = true /\ length (content r) = 1%nat.
Proof. eexists. split; [vm_compute; reflexivity|]. repeat split. Qed.
Example case_written : exists b, case_fate case_src = Script b.
Proof. eexists. vm_compute. reflexivity. Qed.
(** A script with an error in it that has a line that starts with [force ] is left out without a word. *)
Theorem C84_settings_refuted : case_fate (bs "x = ;" ++ [10] ++ bs "force = 1;") = Skipped /\ case_fate (bs "x = ;" ++ [10] ++ bs " force = 1;") = NotParsed.
Proof. split; vm_compute; reflexivity. Qed.
