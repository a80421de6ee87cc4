(** From SQF text to trees, and from trees back to text: C60 and C61. *)
From Coq Require Import String.
From Verif Require Import Base.Tactics Base.Bytes Base.Ascii Base.Text Sqf.Ast Sqf.ParseModel Sqf.ParseSpec Sqf.ParseProofs Sqf.ParseComplete Sqf.ParseProps
  Sqf.LexModel Sqf.LexSpec Sqf.LexProofs Sqf.SourceModel Sqf.SourceSpec Sqf.SourceProofs Sqf.SourceBack.
From Verif Require Preproc.LexModel Workspace.ProcessedModel Workspace.ProcessedProofs.
Local Open Scope N_scope.
Local Open Scope list_scope.

Section Props.
  Context (wiki custom : list wiki_entry) (parse_f32 : text -> N) (f32_of : N -> N) (show_f32 : N -> text).
  Hypothesis no_new_word_operators : forall e, In e custom -> In CallBinary (snd e) -> reserved (fst e) = None.
  Notation db := (a3_with_workspace wiki custom).
  Notation reads := (reads parse_f32 f32_of).
  Notation read_sqf := (read_sqf db parse_f32 f32_of).
  Notation kept_tokens ts := (strip_noop (strip_comments ts)).
  Let apart : reserved_apart db := custom_apart wiki custom no_new_word_operators.

  (** A text is a script exactly if it is written as tokens that, without comments and empty statements, spell the script. *)
  Theorem C60_text_to_tree : forall s r, read_sqf s = Some r <->
    exists ts, reads 0 s ts /\ spells_statements db (between s) (content r) (kept_tokens ts) /\ source r = s /\
      st_span r = extent (kept_tokens ts) (Preproc.LexModel.byte_len s, Preproc.LexModel.byte_len s + 1).
  Proof.
    intros s r. rewrite (read_iff db parse_f32 f32_of apart).
    split; intros (ts & H); exists ts; change (kept_tokens ts) with (strip true ts) in *; tauto.
  Qed.

  (** Only the tokens matter: texts with the same ones but for comments and empty statements, wherever they stand, have
      the same tree but for places. *)
  Theorem C60_layout_does_not_matter : forall s s' ts ts' r, reads 0 s ts -> reads 0 s' ts' ->
    map fst (kept_tokens ts) = map fst (kept_tokens ts') -> read_sqf s = Some r ->
    exists r', read_sqf s' = Some r' /\ map bare_stmt (content r') = map bare_stmt (content r).
  Proof.
    intros s s' ts ts' r H H' E R. apply (read_iff db parse_f32 f32_of apart) in R as (ts0 & R0 & _ & S & _).
    assert (ts0 = ts) as -> by (apply lex_iff in R0, H; congruence).
    destruct (respan db (between s) (between s')) as (_ & _ & _ & K). destruct (K _ _ S (strip true ts')) as (c' & S' & B); [symmetry; exact E|].
    exists (Statements c' s' (extent (strip true ts') (Preproc.LexModel.byte_len s', Preproc.LexModel.byte_len s' + 1))). split; auto.
    apply (read_iff db parse_f32 f32_of apart). exists ts'. cbn. auto.
  Qed.

  (** The text kept with a block that is not empty is the text of its statements: read alone it gives them again. *)
  Theorem C60_blocks_read_back : forall s r c src sp, read_sqf s = Some r -> part (ECode c src sp) (content r) -> c <> [] ->
    exists r', read_sqf src = Some r' /\ map bare_stmt (content r') = map bare_stmt c.
  Proof.
    intros s r c src sp R (st & I & W) N. apply (read_iff db parse_f32 f32_of apart) in R as (ts & R & _ & S & _).
    destruct (parts_spelled db (between s)) as (_ & _ & _ & P). destruct (P _ _ S _ _ I W) as (m & tse & Ie & Se).
    destruct (code_origin _ _ _ _ _ Se _ _ _ eq_refl) as (B & sp' & IB & SB & -> & ->).
    destruct (block_text db parse_f32 f32_of s ts c B sp' R SB (inside_trans _ _ _ IB Ie) N 0 [] []) as (ts' & R' & T'); [exact Logic.I|constructor; constructor|].
    rewrite !app_nil_r in R'. destruct (respan db (between s) (between (between s (extent B sp')))) as (_ & _ & _ & K).
    destruct (K _ _ SB _ (T' true)) as (c' & S' & Bc).
    eexists (Statements c' _ _). split; [|exact Bc]. apply (read_iff db parse_f32 f32_of apart). exists ts'. cbn. eauto.
  Qed.

  (** The range a block takes its text from runs forwards and ends within the text, so taking it out ([extract]) gives the
      text kept and never panics. *)
  Theorem C60_places_run_forwards : forall s r c src a b, read_sqf s = Some r -> part (ECode c src (a, b)) (content r) ->
    a <= b /\ b <= N.of_nat (length s) /\ forall p, Workspace.ProcessedModel.o_text p = s -> Workspace.ProcessedModel.extract p a b = Some src.
  Proof.
    intros s r c src a b R (st & I & W). apply (read_iff db parse_f32 f32_of apart) in R as (ts & R & _ & S & _).
    destruct (parts_spelled db (between s)) as (_ & _ & _ & P). destruct (P _ _ S _ _ I W) as (m & tse & Ie & Se).
    destruct (code_extent _ _ _ _ _ Se _ _ _ eq_refl) as (B & o & cl & IB & E & Esrc).
    assert (IT := inside_trans _ _ _ IB Ie). clear P Se IB Ie. apply reads_forwards in R as [F L]. apply (forwards_strip _ true) in F.
    assert (L' : forall t, In t (strip true ts) -> snd (snd t) <= N.of_nat (length s)) by (intros t It; apply strip_in in It; apply L in It; lia).
    destruct IT as (x & y & IT). rewrite IT in F, L'. apply forwards_tail in F as (p & _ & F). apply forwards_head in F. cbn [forwards] in F. destruct F as (_ & _ & F).
    assert (Fc : fst cl <= snd cl). { apply forwards_tail in F as (p' & _ & F). cbn in F. tauto. }
    assert (AB : a <= b /\ b <= N.of_nat (length s)).
    { destruct B as [|u B].
      - cbn in E. subst cl. split; [exact Fc|]. apply (L' (TCtl CurlyClose, (a, b))). apply in_or_app. right. right. left. reflexivity.
      - cbn [extent] in E. apply forwards_head in F. apply forwards_last in F as [_ F]. injection E as -> ->. split; auto. apply L'.
        apply in_or_app. right. apply in_or_app. left. right. apply in_or_app. left. apply last_in. }
    destruct AB as [H1 H2]. split; auto. split; auto. intros q <-. rewrite (Workspace.ProcessedProofs.extract_spec q a b H1). now rewrite Esrc.
  Qed.

  (** [Expression::source]: of an expression of a script whose strings are without their own quote, whose numbers are shown
      as texts that read as them and whose outermost blocks are not empty, the text shown reads as that expression. *)
  Theorem C61_source_reads_back : forall s r e, read_sqf s = Some r -> part e (content r) ->
    shown_well (number_text parse_f32 f32_of) show_f32 e ->
    exists r' e' sp, read_sqf (expr_source show_f32 e) = Some r' /\ content r' = [SExpr e' sp] /\ bare e' = bare e.
  Proof.
    intros s r e R (st & I & W) H. apply (read_iff db parse_f32 f32_of apart) in R as (ts & R & _ & S & _).
    destruct (parts_spelled db (between s)) as (_ & _ & _ & P). destruct (P _ _ S _ _ I W) as (m & tse & Ie & Se).
    destruct (show_back db parse_f32 f32_of show_f32 (between (expr_source show_f32 e)) s ts R) as (K & _).
    destruct (seg_one _ _ _ _ _ _ (K _ _ _ Se Ie H) 0 [] [] Logic.I) as (raw & Rr & st' & Str & e' & S' & B); [constructor; constructor|].
    rewrite !app_nil_r in Rr. specialize (Str true []). rewrite !app_nil_r in Str.
    eexists (Statements [SExpr e' (extent st' (0, 0))] _ _), e', _. split; [|split; [reflexivity|exact B]].
    apply (read_iff db parse_f32 f32_of apart). exists raw. cbn [content source st_span]. split; [exact Rr|]. split; [reflexivity|]. rewrite Str. split; [|reflexivity].
    constructor. now constructor.
  Qed.
  (** So an expression is shown as a script that shows the same: two such expressions that are shown alike are alike. *)
  Theorem C61_source_tells_apart : forall s1 r1 e1 s2 r2 e2, read_sqf s1 = Some r1 -> part e1 (content r1) -> read_sqf s2 = Some r2 -> part e2 (content r2) ->
    shown_well (number_text parse_f32 f32_of) show_f32 e1 -> shown_well (number_text parse_f32 f32_of) show_f32 e2 ->
    expr_source show_f32 e1 = expr_source show_f32 e2 -> bare e1 = bare e2.
  Proof.
    intros s1 r1 e1 s2 r2 e2 R1 P1 R2 P2 W1 W2 E.
    destruct (C61_source_reads_back _ _ _ R1 P1 W1) as (r & e & sp & Hr & Hc & B). destruct (C61_source_reads_back _ _ _ R2 P2 W2) as (r' & e' & sp' & Hr' & Hc' & B').
    rewrite E in Hr. assert (r = r') by congruence. subst r'. rewrite Hc in Hc'. injection Hc' as -> _. congruence.
  Qed.
End Props.

Definition zero_float (s : text) : N := 0.
Definition db0 : database := a3_with_workspace wiki0 [].
(** An empty block keeps the text [}] (the range taken is that of the token that ends it), which is no script; shown, the
    block has a brace too many. *)
Theorem C60_empty_block_refuted : exists r e sp, read_sqf db0 zero_float (fun n => n) (bs "x = {};") = Some r /\
  content r = [SGlobal (bs "x") e sp] /\ e = ECode [] (bs "}") (5, 6) /\ read_sqf db0 zero_float (fun n => n) (bs "}") = None /\
  forall show, expr_source show e = bs "{}}" /\ read_sqf db0 zero_float (fun n => n) (expr_source show e) = None.
Proof. eexists _, _, _. split; [vm_compute; reflexivity|]. repeat split. Qed.
(** A string that holds its own quote is shown without doubling it: here as a sum of two strings. *)
Theorem C61_quote_refuted : exists r sp1 sp2, read_sqf db0 zero_float (fun n => n) (bs "'a''+''b'") = Some r /\
  content r = [SExpr (EString (bs "a'+'b") sp1 SingleQuote) sp2] /\
  forall show, exists r' a b s1 s2, read_sqf db0 zero_float (fun n => n) (expr_source show (EString (bs "a'+'b") sp1 SingleQuote)) = Some r' /\
    content r' = [SExpr (EBinary BAdd (EString (bs "a") a SingleQuote) (EString (bs "b") b SingleQuote) s1) s2].
Proof.
  eexists _, _, _. split; [vm_compute; reflexivity|]. split; [reflexivity|]. intros show. eexists _, _, _, _, _. cbn [expr_source wrapper_char app].
  split; [vm_compute; reflexivity|reflexivity].
Qed.
(** A number of 2^32 or more is shown (as [f32::to_string] does) as a whole number, which no longer reads. *)
Theorem C61_big_number_refuted : forall show, show 0 = bs "4294967296" -> exists r sp1 sp2, read_sqf db0 zero_float (fun n => n) (bs "4294967296.0") = Some r /\
  content r = [SExpr (ENumber 0 sp1) sp2] /\ read_sqf db0 zero_float (fun n => n) (expr_source show (ENumber 0 sp1)) = None.
Proof. intros show E. eexists _, _, _. split; [vm_compute; reflexivity|]. split; [reflexivity|]. cbn [expr_source]. rewrite E. vm_compute. reflexivity. Qed.

(** ** Cases *)
(** A block with a comment, an empty statement and a block of its own; shown and read again. *)
Definition script2 : text := bs "private _x = {;; y = -1/*a*/; [player, (2 + 3) * 4] count {z}; };".
Definition ints (n : N) : text := [48 + n].
Example script2_reads : exists r e sp c, read_sqf db0 zero_float (fun n => n) script2 = Some r /\ content r = [SLocal (bs "_x") e sp] /\
  e = ECode c (bs "y = -1/*a*/; [player, (2 + 3) * 4] count {z};") (17, 62) /\ c <> [] /\
  shown_well (number_text zero_float (fun n => n)) ints e /\
  expr_source ints e = bs "{y = -1/*a*/; [player, (2 + 3) * 4] count {z};}" /\
  (exists a k x s, In (SExpr (EBinary (BNamed (bs "count")) a k x) s) c /\
     shown_well (number_text zero_float (fun n => n)) ints (EBinary (BNamed (bs "count")) a k x) /\
     expr_source ints (EBinary (BNamed (bs "count")) a k x) = bs "[player,(2 + 3) * 4] count {z}").
Proof.
  eexists _, _, _, _. split; [vm_compute; reflexivity|]. split; [reflexivity|]. split; [reflexivity|]. split; [discriminate|]. split; [discriminate|].
  split; [reflexivity|]. eexists _, _, _, _. split; [right; left; reflexivity|].
  assert (D : forall n, n < 10 -> number_text zero_float (fun n => n) n (ints n)).
  { intros n L. change n with ((fun n => n) n) at 1. apply N_whole; [discriminate| |lia]. apply (numeral_more 10 [] 0 (48 + n) n); [constructor|lia|]. left. split; lia. }
  split; [|reflexivity]. cbn [shown_well fold_right]. repeat split; try discriminate; apply D; lia.
Qed.
(** The same statement laid out otherwise. *)
Example layout : exists ts ts', reads zero_float (fun n => n) 0 (bs "x=1;") ts /\ reads zero_float (fun n => n) 0 (bs " ;x /*y*/ = 1 ;; // z") ts' /\
  map fst (strip_noop (strip_comments ts)) = map fst (strip_noop (strip_comments ts')).
Proof.
  eexists _, _. split; [apply lex_iff; vm_compute; reflexivity|]. split; [apply lex_iff; vm_compute; reflexivity|]. reflexivity.
Qed.

Print Assumptions C60_text_to_tree.
Print Assumptions C60_layout_does_not_matter.
Print Assumptions C60_blocks_read_back.
Print Assumptions C60_places_run_forwards.
Print Assumptions C60_empty_block_refuted.
Print Assumptions C61_source_reads_back.
Print Assumptions C61_source_tells_apart.
Print Assumptions C61_quote_refuted.
Print Assumptions C61_big_number_refuted.
