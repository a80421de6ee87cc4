(** C59. *)
From Coq Require Import String.
From Verif Require Import Base.Tactics Base.Bytes Base.Ascii Base.Text Sqf.Ast Sqf.ParseModel Sqf.LexModel Sqf.LexSpec Sqf.LexProofs.
Local Open Scope N_scope.
Local Open Scope list_scope.

(** The lexer accepts exactly the texts of the grammar and returns the tokens they are made of, each with its place. *)
Theorem C59_lexer_reads_the_grammar : forall parse_f32 f32_of s ts,
  lex parse_f32 f32_of s = Some ts <-> reads parse_f32 f32_of 0 s ts.
Proof. intros. apply lex_iff. Qed.

(** So a text is made of tokens in at most one way. *)
Theorem C59_one_reading : forall parse_f32 f32_of s ts ts',
  reads parse_f32 f32_of 0 s ts -> reads parse_f32 f32_of 0 s ts' -> ts = ts'.
Proof. intros parse_f32 f32_of s ts ts' H H'. apply lex_iff in H, H'. congruence. Qed.

(** Nothing is lost: what the tokens are written as, with white space between, is the whole text; and each token's place
    is where its text stands. *)
Fixpoint layout (l : list (text * (token * text))) (tail : text) : text :=
  match l with [] => tail | (w, (_, s)) :: r => w ++ s ++ layout r tail end.
Lemma reads_layout : forall parse_f32 f32_of pos s ts, reads parse_f32 f32_of pos s ts -> exists l tail,
  s = layout l tail /\ white tail /\ Forall (fun x => white (fst x) /\ written parse_f32 f32_of (fst (snd x)) (snd (snd x))) l /\ map fst ts = map (fun x => fst (snd x)) l /\
  (forall before x after, l = before ++ x :: after -> exists sp, nth_error ts (length before) = Some (fst (snd x), sp) /\
     fst sp = pos + N.of_nat (length (layout before (fst x))) /\ snd sp = fst sp + N.of_nat (length (snd (snd x)))).
Proof.
  intros parse_f32 f32_of pos s ts. induction 1 as [pos w W|pos w t s rest ts W Wr P start stop R (l & tail & -> & Wt & F & M & X)].
  - exists [], w. repeat split; auto. intros before x after E. destruct before; discriminate.
  - exists ((w, (t, s)) :: l), tail. cbn [layout map fst snd]. rewrite M. repeat split; auto.
    intros before x after E. destruct before as [|b before].
    + injection E as <- <-. cbn [app length nth_error layout fst snd]. eexists. repeat split.
    + injection E as <- E. destruct (X before x after E) as (sp & X1 & X2 & X3). exists sp. cbn [length nth_error layout]. repeat split; auto.
      rewrite X2, !app_length. lia.
Qed.
Theorem C59_tokens_cover_the_text : forall parse_f32 f32_of s ts, lex parse_f32 f32_of s = Some ts -> exists l tail,
  s = layout l tail /\ white tail /\ Forall (fun x => white (fst x) /\ written parse_f32 f32_of (fst (snd x)) (snd (snd x))) l /\
  map fst ts = map (fun x => fst (snd x)) l /\
  (forall before x after, l = before ++ x :: after -> exists sp, nth_error ts (length before) = Some (fst (snd x), sp) /\
     fst sp = N.of_nat (length (layout before (fst x))) /\ snd sp = fst sp + N.of_nat (length (snd (snd x)))).
Proof. intros parse_f32 f32_of s ts H. apply lex_iff in H. now apply reads_layout in H. Qed.

(** Every string can be written, with either quote, and reads back as it was. *)
Theorem C59_strings_read_back : forall parse_f32 f32_of w s,
  lex parse_f32 f32_of (quoted w s) = Some [(TString s w, (0, N.of_nat (length (quoted w s))))].
Proof.
  intros parse_f32 f32_of w s. apply lex_iff. rewrite <- (app_nil_r (quoted w s)) at 1.
  apply (R_token _ _ 0 [] (TString s w) (quoted w s) [] []); [constructor|constructor| |constructor; constructor].
  repeat split; intros; discriminate.
Qed.

(** Tokens written apart read back as they were: any list of tokens, each written in any way it may be, with white space
    between them that begins with a line's end after a line comment. *)
Definition gap_after (t : token) (w : text) : Prop :=
  white w /\ match t with TComment (47 :: 47 :: c) => (exists r, w = 10 :: r) /\ ~ (exists c', c = c' ++ [13]) | _ => w <> [] end.
Lemma gap_precedes : forall t w rest, gap_after t w -> may_precede t (w ++ rest).
Proof.
  intros t w rest [W G]. assert (N : w <> []).
  { destruct t as [s| | | | |]; auto. destruct s as [|a [|b s]]; auto; try (destruct a as [|p]; auto; do 6 (destruct p as [p|p|]; auto)).
    destruct b as [|p]; auto; do 6 (destruct p as [p|p|]; auto). destruct G as ((r & ->) & _). discriminate. }
  destruct w as [|c w]; [contradiction|]. inversion W as [|? ? Wc Ww]. subst. cbn [app]. refine (conj _ (conj (fun o E => _) (fun x E => _))).
  - intros _ d r E. injection E as <- _. unfold constant_start, name_char, letter, digit. unfold is_ws in Wc. lia.
  - clear -Wc. unfold is_ws in Wc. repeat split.
    + intros o' r E. destruct o, o'; try (cbn; lia); exfalso; cbn in E;
        try discriminate E; injection E; intros; subst; revert Wc; cbv; let H := fresh in intros H; discriminate H.
    + intros r E. destruct o; cbn in E; try discriminate E. injection E; intros; subst; revert Wc; cbv; let H := fresh in intros H; discriminate H.
    + intros r E. destruct o; cbn in E; try discriminate E. injection E; intros; subst; revert Wc; cbv; let H := fresh in intros H; discriminate H.
  - subst t. cbn in G. destruct G as ((r & G) & G'). injection G as -> ->. right. right. eauto.
Qed.
Inductive apart parse_f32 f32_of : list token -> text -> Prop :=
| A_none : forall w, white w -> apart parse_f32 f32_of [] w
| A_more : forall t s w ts rest, written parse_f32 f32_of t s -> gap_after t w -> apart parse_f32 f32_of ts rest ->
    apart parse_f32 f32_of (t :: ts) (s ++ w ++ rest).
Lemma reads_white : forall parse_f32 f32_of w s ts pos, white w -> reads parse_f32 f32_of (pos + N.of_nat (length w)) s ts ->
  exists ts', reads parse_f32 f32_of pos (w ++ s) ts' /\ map fst ts' = map fst ts.
Proof.
  intros parse_f32 f32_of w s ts pos W H. inversion H as [p u U|p u t x rest ts0 U Wr P start stop R]; subst.
  - exists []. split; auto. constructor. now apply Forall_app.
  - replace (w ++ u ++ x ++ rest) with ((w ++ u) ++ x ++ rest) by now rewrite <- app_assoc. eexists. split.
    + apply R_token; [now apply Forall_app|exact Wr|exact P|].
      replace (pos + N.of_nat (length (w ++ u)) + N.of_nat (length x)) with stop by (subst stop start; rewrite app_length; lia). exact R.
    + reflexivity.
Qed.
Theorem C59_tokens_apart_read_back : forall parse_f32 f32_of ts s, apart parse_f32 f32_of ts s ->
  exists ts', lex parse_f32 f32_of s = Some ts' /\ map fst ts' = ts.
Proof.
  intros parse_f32 f32_of ts s H. assert (A : forall pos, exists ts', reads parse_f32 f32_of pos s ts' /\ map fst ts' = ts).
  { induction H as [w W|t s w ts rest Wr G H IH]; intros pos.
    - exists []. split; auto. now constructor.
    - destruct (IH (pos + N.of_nat (length s) + N.of_nat (length w))) as (t1 & R & M).
      destruct (reads_white parse_f32 f32_of w rest t1 (pos + N.of_nat (length s)) (proj1 G) R) as (t2 & R2 & M2).
      eexists. split.
      + apply (R_token _ _ pos [] t s (w ++ rest)); auto; [constructor|now apply gap_precedes|].
        cbn [length]. replace (pos + N.of_nat 0 + N.of_nat (length s)) with (pos + N.of_nat (length s)) by lia. exact R2.
      + cbn [map fst]. congruence. }
  destruct (A 0) as (ts' & R & M). exists ts'. split; auto. now apply lex_iff.
Qed.

(** A comment nobody closes is not reported: it reads as a division and a multiplication and the words in it. *)
Theorem C59_unclosed_comment_refuted : forall parse_f32 f32_of,
  lex parse_f32 f32_of (bs "/* a") = Some [(TOp ODiv, (0, 1)); (TOp OMul, (1, 2)); (TIdent (bs "a"), (3, 4))].
Proof. reflexivity. Qed.
(** A whole number of 2^32 or more is no token, though the same number with a point is. *)
Theorem C59_big_number_refuted : forall parse_f32 f32_of,
  lex parse_f32 f32_of (bs "4294967296") = None /\
  lex parse_f32 f32_of (bs "4294967296.0") = Some [(TNumber (parse_f32 (bs "4294967296.0")), (0, 12))] /\
  lex parse_f32 f32_of (bs "4294967295") = Some [(TNumber (f32_of 4294967295), (0, 10))].
Proof. repeat split; vm_compute; reflexivity. Qed.

(** ** Cases *)
Definition sample : text := bs "x = ""a""""b"" select -1.5e3>>$fF;/**/'c'" ++ [160] ++ bs "// d" ++ [13; 10].
Example sample_read : lex (fun s => N.of_nat (length s)) (fun n => n) sample =
  Some [(TIdent (bs "x"), (0, 1)); (TOp OAssign, (2, 3)); (TString (bs "a""b") DoubleQuote, (4, 10)); (TIdent (bs "select"), (11, 17));
        (TOp OSub, (18, 19)); (TNumber 5, (19, 24)); (TOp OConfigPath, (24, 26)); (TNumber 255, (26, 29)); (TCtl Terminator, (29, 30));
        (TComment (bs "/**/"), (30, 34)); (TString (bs "c") SingleQuote, (34, 37)); (TComment (bs "// d"), (38, 42))].
Proof. vm_compute. reflexivity. Qed.
Example touching : lex (fun s => 0) (fun n => n) (bs "1a") = None /\ lex (fun s => 0) (fun n => n) (bs "1.5.5") = None /\ lex (fun s => 0) (fun n => n) (bs "'a'""b""") = None /\
  lex (fun s => 0) (fun n => n) (bs "'a") = None.
Proof. repeat split; vm_compute; reflexivity. Qed.
Example apart_sample : apart (fun s => 0) (fun n => n) [TIdent (bs "a"); TComment (bs "//b"); TOp OLess; TOp OEq] (bs "a" ++ bs " " ++ bs "//b" ++ [10] ++ bs "<" ++ bs " " ++ bs "==" ++ bs " " ++ []).
Proof.
  assert (B : white (bs " ")) by (repeat constructor). assert (L : white [10]) by (repeat constructor).
  constructor; [apply W_name; exists 97, []; repeat split; [left; unfold letter; lia|constructor]|split; [exact B|discriminate]|].
  constructor; [apply (W_line _ _ (bs "b")); intros [H|[]]; discriminate H|split; [exact L|split; [now exists []|intros ([|x [|y c]] & H); discriminate H]]|].
  constructor; [apply (W_operator _ _ OLess)|split; [exact B|discriminate]|].
  constructor; [apply (W_operator _ _ OEq)|split; [exact B|discriminate]|]. constructor. constructor.
Qed.

Print Assumptions C59_lexer_reads_the_grammar.
Print Assumptions C59_one_reading.
Print Assumptions C59_tokens_cover_the_text.
Print Assumptions C59_strings_read_back.
Print Assumptions C59_tokens_apart_read_back.
Print Assumptions C59_unclosed_comment_refuted.
Print Assumptions C59_big_number_refuted.
