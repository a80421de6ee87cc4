(** C32, C53. *)
From Coq Require Import String.
From Verif Require Import Base.Tactics Base.Bytes Base.Ascii Base.Text Sqf.Ast Sqf.ParseModel Sqf.ParseSpec Sqf.ParseProofs Sqf.ParseComplete.
Local Open Scope N_scope.
Local Open Scope list_scope.

(** ** The database *)
Lemma reserved_in : forall x, reserved x <> None -> In (to_ascii_lower x) binary_special.
Proof.
  intros x H. unfold reserved in H. unfold binary_special. cbn [map In].
  repeat match type of H with context [same_text ?a ?w] =>
    let E := fresh "E" in destruct (same_text a w) eqn:E; [apply same_text_eq in E; rewrite E; tauto|] end. contradiction.
Qed.
Lemma contains_in : forall l x, contains l x = true <-> In x l.
Proof.
  intros l x. unfold contains. rewrite existsb_exists. split.
  - intros (y & Hy & E). apply same_text_eq in E. now subst.
  - intros H. exists x. split; auto. now apply same_text_eq.
Qed.
Lemma without_spec : forall special l x, In x (without special l) <-> In x l /\ ~ In x special.
Proof.
  intros. unfold without. rewrite filter_In. rewrite negb_true_iff. change (existsb (same_text x) special) with (contains special x).
  rewrite <- not_true_iff_false, contains_in. tauto.
Qed.
Lemma a3_apart : forall wiki, reserved_apart (a3 wiki).
Proof.
  intros wiki x H. apply reserved_in in H. apply not_true_iff_false. unfold has_binary. rewrite contains_in. cbn [a3 binary_commands].
  rewrite without_spec. tauto.
Qed.
Lemma insert_entry_binary : forall e d x, In x (binary_commands (insert_entry d e)) <-> In x (binary_commands d) \/ (x = to_ascii_lower (fst e) /\ In CallBinary (snd e)).
Proof.
  intros [n cs] d x. unfold insert_entry. cbn [fst snd]. revert d. induction cs as [|c cs IH]; intros d; cbn [fold_left In]; [tauto|].
  rewrite IH. destruct c; cbn [insert_call binary_commands In]; intuition (subst; try discriminate; auto).
Qed.
Lemma custom_apart : forall wiki custom, (forall e, In e custom -> In CallBinary (snd e) -> reserved (fst e) = None) -> reserved_apart (a3_with_workspace wiki custom).
Proof.
  intros wiki custom H x Hx. apply not_true_iff_false. unfold has_binary. rewrite contains_in. intros Hin.
  assert (Hor : In (to_ascii_lower x) (binary_commands (a3 wiki)) \/ exists e, In e custom /\ In CallBinary (snd e) /\ to_ascii_lower x = to_ascii_lower (fst e)).
  { revert Hin. unfold a3_with_workspace. generalize (a3 wiki) as d. clear -custom. induction custom as [|e custom IH]; intros d Hin; cbn [fold_left] in Hin; auto.
    apply IH in Hin as [Hin|(e' & ? & ? & ?)]; [|right; exists e'; cbn; auto].
    apply insert_entry_binary in Hin as [Hin|[Hin1 Hin2]]; [now left|]. right. exists e. cbn; auto. }
  destruct Hor as [Hor|(e & He & Hb & E)].
  - assert (A := a3_apart wiki x Hx). unfold has_binary in A. apply not_true_iff_false in A. rewrite contains_in in A. contradiction.
  - apply H in Hb; auto. unfold reserved in Hx, Hb. rewrite E in Hx. contradiction.
Qed.

(** ** C32 *)
(** For every database in which no binary command has the name of a word operator (the game's own commands, and any
    added ones that keep to this): the parser accepts exactly the token lists of the grammar and returns the tree they
    spell. *)
Theorem C32_parser_reads_the_grammar : forall wiki custom extract eoi ts s,
  (forall e, In e custom -> In CallBinary (snd e) -> reserved (fst e) = None) ->
  let db := a3_with_workspace wiki custom in
  run_for_tokens db extract eoi ts = Some s <-> spells_script db extract eoi s ts.
Proof. intros. apply run_iff. now apply custom_apart. Qed.

(** So a token list spells at most one script. *)
Theorem C32_grammar_unambiguous : forall wiki custom extract eoi ts s s',
  (forall e, In e custom -> In CallBinary (snd e) -> reserved (fst e) = None) ->
  let db := a3_with_workspace wiki custom in
  spells_script db extract eoi s ts -> spells_script db extract eoi s' ts -> s = s'.
Proof.
  intros wiki custom extract eoi ts s s' Hc db H H'. apply (C32_parser_reads_the_grammar wiki custom) in H, H'; auto. congruence.
Qed.

(** What that means for two operators in a row: the stronger one takes the middle operand; the first one if they are
    equally strong. *)
Theorem C32_two_operators : forall wiki extract eoi o1 o2 n1 n2 c1 c2 ta tb tc a b c s1 s2,
  let db := a3 wiki in
  infix db o1 = Some (n1, c1) -> infix db o2 = Some (n2, c2) ->
  spells db extract 10 a ta -> spells db extract 10 b tb -> spells db extract 10 c tc ->
  exists s sp, run_for_tokens db extract eoi (ta ++ (o1, s1) :: tb ++ (o2, s2) :: tc) = Some s /\
    content s = [SExpr (if (n1 <? n2)%nat then EBinary c1 a (EBinary c2 b c s2) s1 else EBinary c2 (EBinary c1 a b s1) c s2) sp].
Proof.
  intros wiki extract eoi o1 o2 n1 n2 c1 c2 ta tb tc a b c s1 s2 db H1 H2 Ha Hb Hc.
  assert (L1 := infix_level _ _ _ _ H1). assert (L2 := infix_level _ _ _ _ H2).
  set (ts := ta ++ (o1, s1) :: tb ++ (o2, s2) :: tc).
  assert (S : spells db extract 1 (if (n1 <? n2)%nat then EBinary c1 a (EBinary c2 b c s2) s1 else EBinary c2 (EBinary c1 a b s1) c s2) ts).
  { destruct (n1 <? n2)%nat eqn:E; [apply Nat.ltb_lt in E | apply Nat.ltb_ge in E]; unfold ts.
    - apply stronger with n1; [lia|]. apply S_binary; auto; [apply stronger with 10%nat; auto; lia|].
      apply stronger with n2; [lia|]. apply S_binary; auto; apply stronger with 10%nat; auto; lia.
    - apply stronger with n2; [lia|]. replace (ta ++ (o1, s1) :: tb ++ (o2, s2) :: tc) with ((ta ++ (o1, s1) :: tb) ++ (o2, s2) :: tc) by now rewrite <- app_assoc.
      apply S_binary; auto; [|apply stronger with 10%nat; auto; lia].
      apply stronger with n1; [lia|]. apply S_binary; auto; apply stronger with 10%nat; auto; lia. }
  eexists (Statements [SExpr _ (extent ts eoi)] (extract (extent ts eoi)) (extent ts eoi)), _. split; [|reflexivity].
  apply run_iff; [apply a3_apart|]. unfold spells_script. cbn [content source st_span]. repeat split. apply B_one, A_expression. exact S.
Qed.

(** A command of the project's own called like a word operator changes how every [or] groups: [1 or 2 == 3] is then
    [(1 or 2) == 3]. *)
Definition name (x : string) : ltoken := (TIdent (bs x), (0, 1)).
Definition num (n : N) : ltoken := (TNumber n, (0, 1)).
Theorem C32_custom_or_refuted : exists custom ts tree tree',
  (forall db, db = a3 [] -> exists sp, run_for_tokens db (fun _ => []) (9, 10) ts = Some (Statements [SExpr tree sp] [] sp)) /\
  (forall db, db = a3_with_workspace [] custom -> exists sp, run_for_tokens db (fun _ => []) (9, 10) ts = Some (Statements [SExpr tree' sp] [] sp)) /\
  (exists a b c sp sp', tree = EBinary BOr a (EBinary BEq b c sp) sp') /\
  (exists a b c n sp sp', tree' = EBinary BEq (EBinary (BNamed n) a b sp) c sp').
Proof.
  exists [(bs "Or", [CallBinary])], [num 1; name "or"; num 2; (TOp OEq, (0, 1)); num 3]. eexists _, _. repeat split.
  - intros db ->. eexists. vm_compute. reflexivity.
  - intros db ->. eexists. vm_compute. reflexivity.
  - repeat eexists.
  - repeat eexists.
Qed.

(** ** C53: comments and empty statements make no difference *)
Lemma strip_noop_from_app : forall a l b, strip_noop_from l (a ++ b) =
  strip_noop_from l a ++ strip_noop_from (match rev a with t :: _ => opens_noop (fst t) | [] => l end) b.
Proof.
  induction a as [|t a IH]; intros l b; cbn [app strip_noop_from rev]; [reflexivity|].
  rewrite IH. assert (E : (match rev a ++ [t] with t0 :: _ => opens_noop (fst t0) | [] => l end) =
    match rev a with t0 :: _ => opens_noop (fst t0) | [] => opens_noop (fst t) end) by now destruct (rev a).
  rewrite E. now destruct (is_terminator (fst t) && l)%bool.
Qed.
(** At the start, after [;] and after an opening brace (comments aside) a further [;] can be added. *)
Definition at_statement_start (ts : list ltoken) : Prop :=
  match rev (strip_comments ts) with [] => True | t :: _ => fst t = TCtl Terminator \/ fst t = TCtl CurlyOpen end.
Theorem C53_empty_statements_and_comments : forall db extract source len before after sp,
  (at_statement_start before ->
   parse db extract source len (before ++ (TCtl Terminator, sp) :: after) = parse db extract source len (before ++ after)) /\
  (forall s, parse db extract source len (before ++ (TComment s, sp) :: after) = parse db extract source len (before ++ after)).
Proof.
  intros db extract source len before after sp. unfold parse, strip_comments, at_statement_start, strip_comments.
  split; [intros H | intros s]; rewrite !filter_app; cbn [filter fst]; [|reflexivity].
  unfold strip_noop. rewrite !strip_noop_from_app. cbn [strip_noop_from is_terminator opens_noop fst andb].
  destruct (rev _) as [|t r]; [reflexivity|]. destruct H as [-> | ->]; reflexivity.
Qed.
(** And nothing else is thrown away: a list with no comment and no such [;] is parsed as it stands. *)
Theorem C53_nothing_else_is_dropped : forall ts, (forall t, In t ts -> forall s, fst t <> TComment s) -> noop_free_after true ts ->
  strip_noop (strip_comments ts) = ts.
Proof.
  intros ts Hc Hn. assert (E : strip_comments ts = ts).
  { clear Hn. unfold strip_comments. induction ts as [|[t sp] ts IH]; [reflexivity|]. cbn [filter fst].
    rewrite IH by (intros u Hu; apply Hc; now right). destruct t; try reflexivity. exfalso. eapply (Hc _ (or_introl eq_refl)); reflexivity. }
  rewrite E. clear E Hc. unfold strip_noop. revert Hn. generalize true as l. induction ts as [|t ts IH]; intros l H; [reflexivity|].
  cbn [noop_free_after] in H. destruct H as [H1 H2]. cbn [strip_noop_from].
  destruct (is_terminator (fst t)) eqn:Et; cbn [andb]; [rewrite (H1 eq_refl)|]; now rewrite IH.
Qed.

(** ** Cases *)
Definition wiki0 : list wiki_entry :=
  [(bs "true", [CallNular]); (bs "player", [CallNular]); (bs "count", [CallUnary; CallBinary]); (bs "or", [CallBinary]); (bs "private", [CallUnary])].
(** [x = -1 + 2 * 3 # 4 count [5, player] OR true;] *)
Definition line : list ltoken :=
  [name "x"; (TOp OAssign, (1, 2)); (TOp OSub, (2, 3)); num 1; (TOp OAdd, (3, 4)); num 2; (TOp OMul, (4, 5)); num 3; (TOp OSelect, (5, 6)); num 4;
   name "count"; (TCtl SquareOpen, (6, 7)); num 5; (TCtl Separator, (7, 8)); name "player"; (TCtl SquareClose, (8, 9)); name "OR"; name "true"; (TCtl Terminator, (9, 10))].
Example line_parsed : exists s sp e, run_for_tokens (a3 wiki0) (fun _ => []) (10, 11) line = Some s /\ content s = [SGlobal (bs "x") e sp] /\
  exists n1 n2 n3 n4 l t s1 s2 s3 s4 s5 s6, e =
    EBinary BOr (EBinary (BNamed (bs "count")) (EBinary BAdd (EUnary UMinus n1 s1) (EBinary BMul n2 (EBinary BSelect n3 n4 s2) s3) s4) l s5) t s6.
Proof. eexists _, _, _. split; [vm_compute; reflexivity|]. split; [reflexivity|]. repeat eexists. Qed.
Example line_noop : parse (a3 wiki0) (fun _ => []) [] 10 ([(TCtl Terminator, (0, 1))] ++ (TComment (bs "/* */"), (0, 1)) :: line) = parse (a3 wiki0) (fun _ => []) [] 10 line.
Proof. vm_compute. reflexivity. Qed.
Example unclosed : run_for_tokens (a3 wiki0) (fun _ => []) (10, 11) [(TCtl SquareOpen, (0, 1)); num 1] = None.
Proof. vm_compute. reflexivity. Qed.

Print Assumptions C32_parser_reads_the_grammar.
Print Assumptions C32_grammar_unambiguous.
Print Assumptions C32_two_operators.
Print Assumptions C32_custom_or_refuted.
Print Assumptions C53_empty_statements_and_comments.
Print Assumptions C53_nothing_else_is_dropped.
