(** C33 and C34. *)
From Coq Require Import String.
From Verif Require Import Base.Tactics Base.Bytes Base.Ascii Base.Text Preproc.Model Preproc.LexModel Preproc.LexSpec Workspace.ProcessedModel Workspace.Spec Workspace.ProcessedProofs Workspace.FilesModel Workspace.FilesProofs.
Local Open Scope N_scope.
Local Open Scope list_scope.

Section C33.
  Context (read : text -> option text).

  (** Every character of the text was written by an item of the output. *)
  Theorem C33_every_character_has_a_writer out p i : new read out = Done p -> i < chars (o_text p) ->
    exists o before piece, wrote read out o before piece /\ inside i before piece.
  Proof.
    intros H Hi. pose proof (inv_empty read) as I0. destruct (append_grows read out empty p I0 H) as (a & e & G).
    destruct (find_item read out empty I0 p H i) as (pre & o & post & q & q' & -> & H1 & H2 & H3 & Iq & L).
    { destruct G as (_ & _ & _ & [T _] & _). rewrite T. cbn [total empty]. lia. }
    destruct (append1_good read o q q' Iq H2) as (b & x & G1 & _). pose proof (grows_total read _ _ _ _ Iq G1) as T.
    exists o, (o_text q), x. split.
    - econstructor; [reflexivity|exact H1|reflexivity| |apply G1]. unfold new. rewrite append_app, H1. cbn [append]. now rewrite H2.
    - unfold inside. destruct Iq as [<- _]. lia.
  Qed.

  (** The mapping at a character is that of the item that wrote it: the token itself, or the macro use nearest to the
      file. It names the item's place, the file it is in, and where in the text the item begins. *)
  Theorem C33_mapping_is_the_writer out p o before piece i :
    new read out = Done p -> wrote read out o before piece -> inside i before piece ->
    exists m content after, mapping_at p i = Some m /\
      m_token m = item_token o /\ m_orig m = t_pos (item_token o) /\ m_macro m = item_macro o /\
      nth_error (sources p) (m_source m) = Some (p_path (t_pos (item_token o)), content) /\
      read (p_path (t_pos (item_token o))) = Some content /\ NoDup (map fst (sources p)) /\
      o_text p = before ++ piece ++ after /\
      lc_off (m_start m) = chars before /\
      (Forall one_line (flat_map out_toks out) ->
        lc_line (m_start m) = breaks before /\ lc_col (m_start m) = column before 0).
  Proof.
    intros H [pre post q q' -> Hq Eb Hq' Ep] Hi. pose proof (inv_empty read) as I0.
    destruct (new_app read pre (o :: post) p H) as (q0 & X & H2 & Iq). rewrite Hq in X. injection X as <-.
    cbn [append] in H2. destruct (append1 read o q) as [q1| |] eqn:E1; try discriminate.
    assert (q1 = q') as ->. { unfold new in Hq, Hq'. rewrite append_app, Hq in Hq'. cbn [append] in Hq'. rewrite E1 in Hq'. congruence. }
    destruct (append1_good read o q q' Iq E1) as (a & e & G & M). pose proof (grows_total read _ _ _ _ Iq G) as T.
    assert (total q = chars before) as Tq by (destruct Iq as [-> _]; now rewrite Eb).
    assert (e = piece) as ->. { destruct G as (_ & Ge & _). rewrite Ep, Eb in Ge. now apply app_inv_head in Ge. }
    unfold inside in Hi. destruct (M i ltac:(lia)) as (b & m & -> & Hm & Hc).
    destruct (append_grows read post q' p (proj1 (proj2 (proj2 (proj2 G)))) H2) as (b2 & e2 & G2).
    assert (placed p m) as [Pm (c & Pc)].
    { destruct G as (_ & _ & _ & _ & _ & F). apply Forall_app in F. destruct F as [_ F]. apply Forall_inv in F.
      destruct G2 as (_ & _ & (x & Ex) & _). eapply placed_mono; eauto. }
    destruct Hm as (M1 & M2 & M3 & _). rewrite Pm, M1 in Pc.
    destruct G2 as (_ & Et & _ & [_ [Gs1 Gs2]] & _).
    exists m, c, e2. split; [apply (mapping_of_item read q q' p b piece o m post i Iq E1 H2 G ltac:(lia)); [repeat split; auto; rewrite M3; cbn; lia|exact Hc]|].
    split; [exact M1|]. split; [congruence|]. split; [exact M2|]. split; [exact Pc|]. split.
    { apply Gs2. eapply nth_error_In; eauto. }
    split; [exact Gs1|]. split; [now rewrite Et, Ep, <- app_assoc|]. rewrite M3. cbn [lc_off lc_line lc_col]. split; [exact Tq|].
    intro O. rewrite flat_map_app in O. apply Forall_app in O. destruct O as [O _].
    destruct (append_lc read pre empty q O ltac:(split; reflexivity) Hq) as [L C]. rewrite L, C, Eb. auto.
  Qed.

  (** An item that is a token writes that token's text, or nothing. *)
  Theorem C33_token_writes_itself out t before piece :
    wrote read out (Direct t) before piece -> piece = [] \/ piece = tok_text t.
  Proof.
    intros [pre post q q' -> Hq Eb Hq' Ep]. unfold new in *. rewrite append_app, Hq in Hq'. cbn [append] in Hq'.
    destruct (append1 read (Direct t) q) as [r| |] eqn:E; try discriminate. injection Hq' as ->.
    destruct (direct_text read q t q' E) as [X|X]; rewrite Ep, Eb in X.
    - left. rewrite <- app_nil_r in X. now apply app_inv_head in X.
    - right. now apply app_inv_head in X.
  Qed.

  (** The text is that of the tokens, in order; outside strings [##] is left out. *)
  Theorem C33_text_without_joins out p : new read out = Done p ->
    (forall t, In t (flat_map out_toks out) -> tok_text t <> bs "##") ->
    o_text p = toks_text (flat_map out_toks out).
  Proof. intros H N. rewrite (new_runs read out p H). now apply run_toks_nojoin. Qed.
  Theorem C33_text_without_quotes out p : new read out = Done p ->
    (forall t, In t (flat_map out_toks out) -> t_sym t <> DQuote /\ t_sym t <> SQuote) ->
    o_text p = toks_text (filter (fun t => negb (text_eqb (tok_text t) (bs "##"))) (flat_map out_toks out)).
  Proof. intros H N. rewrite (new_runs read out p H). now apply run_toks_noquote. Qed.

  (** Cutting a span out of the text cuts by characters. *)
  Theorem C33_extract_is_the_span p a m b : o_text p = a ++ m ++ b ->
    extract p (chars a) (chars a + chars m) = Some m /\ extract_from p (chars a) = Some (m ++ b).
  Proof.
    intro E. rewrite extract_spec by lia. rewrite extract_from_spec, E. unfold drop, take, chars.
    rewrite Nnat.Nat2N.id, skipn_app, skipn_all, Nat.sub_diag. cbn [app skipn]. split; [|reflexivity]. f_equal.
    replace (N.to_nat (N.of_nat (length a) + N.of_nat (length m) - N.of_nat (length a))) with (length m) by lia.
    rewrite firstn_app, firstn_all, Nat.sub_diag. cbn. apply app_nil_r.
  Qed.

  (** The label of a diagnostic: from the start of the item at its first character to the start of the item at its
      end, in the file of the first. *)
  Theorem C33_label_place out p a b oa ob xa pa xb pb : new read out = Done p ->
    wrote read out oa xa pa -> inside a xa pa -> wrote read out ob xb pb -> inside b xb pb -> a <> byte_len (o_text p) ->
    from_code_processed p a b =
      LAt (p_path (t_pos (item_token oa))) (lc_off (p_start (t_pos (item_token oa)))) (lc_off (p_start (t_pos (item_token ob)))).
  Proof.
    intros H Wa Ia Wb Ib Ne.
    destruct (C33_mapping_is_the_writer out p oa xa pa a H Wa Ia) as (m & c & x & M & _ & O & _ & S & _).
    destruct (C33_mapping_is_the_writer out p ob xb pb b H Wb Ib) as (m' & _ & _ & M' & _ & O' & _).
    unfold from_code_processed. replace (a =? byte_len (o_text p)) with false by (symmetry; now apply N.eqb_neq). cbn [andb].
    rewrite M, M', S, O, O'. reflexivity.
  Qed.
End C33.

(** ** Concrete cases *)
(** [x = A(b);] in file "f", where [A(b)] became [b 1]; then a line of file "g". *)
Definition P (f : string) (off line col : N) (len : N) : pos := Pos (LC off line col) (LC (off + len) line (col + len)) (bs f).
Definition W (w : string) p : token := Tok (Word (bs w)) p.
Definition out1 : list output :=
  [Direct (W "x" (P "f" 0 1 0 1)); Direct (Tok Space (P "f" 1 1 1 1)); Direct (Tok Equals (P "f" 2 1 2 1)); Direct (Tok Space (P "f" 3 1 3 1));
   Macro (W "A" (P "f" 4 1 4 1)) [Direct (W "b" (P "f" 6 1 6 1)); Direct (Tok Space (P "h" 14 1 14 1)); Direct (Tok (Digit 1) (P "h" 15 1 15 1))];
   Direct (W ";" (P "f" 8 1 8 1)); Direct (Tok Newline (P "f" 9 1 9 1)); Direct (W "yyy" (P "g" 0 1 0 3))].
Definition read1 (f : text) : option text :=
  if text_eqb f (bs "f") then Some (bs "x = A(b);" ++ [10]) else if text_eqb f (bs "g") then Some (bs "yyy")
  else if text_eqb f (bs "h") then Some (bs "#define A(x) x 1") else None.
Definition proc1 : processed := Eval vm_compute in match new read1 out1 with Done p => p | _ => empty end.
Example C33_ex_new : new read1 out1 = Done proc1 /\ o_text proc1 = bs "x = b 1;" ++ [10] ++ bs "yyy" /\ Forall one_line (flat_map out_toks out1).
Proof.
  split; [vm_compute; reflexivity|]. split; [vm_compute; reflexivity|].
  repeat constructor; unfold one_line; cbn; intro H; repeat destruct H as [H|H]; discriminate || contradiction || reflexivity.
Qed.
Example C33_ex_wrote : wrote read1 out1 (nth 4 out1 (Direct (W "" (P "" 0 0 0 0)))) (bs "x = ") (bs "b 1").
Proof. eapply (Wrote _ _ _ _ _ (firstn 4 out1) (skipn 5 out1)); vm_compute; reflexivity. Qed.
(** The digit written by the macro maps to the call; so does the argument, although it stands in the same file. *)
Example C33_ex_macro : exists m, mapping_at proc1 6 = Some m /\ m_orig m = P "f" 4 1 4 1 /\ m_macro m = true.
Proof.
  destruct (C33_mapping_is_the_writer read1 out1 proc1 _ _ _ 6 (proj1 C33_ex_new) C33_ex_wrote ltac:(vm_compute; split; [discriminate|reflexivity])) as (m & c & x & M & _ & O & F & _).
  exists m. auto.
Qed.
Example C33_ex_label : from_code_processed proc1 4 7 = LAt (bs "f") 4 8.
Proof. vm_compute. reflexivity. Qed.

(** The end of an ordinary token's mapping is too far by the token's length: the list of mappings at a character may
    hold tokens that end before it, and there is a mapping past the end of the text. *)
Theorem C33_ends_overshoot_refuted :
  map m_token (mappings proc1 1) = [W "x" (P "f" 0 1 0 1); Tok Space (P "f" 1 1 1 1)] /\
  exists m, mapping_at proc1 (chars (o_text proc1)) = Some m /\ m_token m = W "yyy" (P "g" 0 1 0 3).
Proof. split; [vm_compute; reflexivity|]. eexists. vm_compute. split; reflexivity. Qed.
(** A span that reaches into another file gives a range that belongs to neither. *)
Theorem C33_label_across_files_refuted : from_code_processed proc1 7 10 = LAt (bs "f") 8 0.
Proof. vm_compute. reflexivity. Qed.
(** An error at the end of a text that ends with a line break is kept only by moving it one character back, which is
    done by bytes: with a character of more than one byte in the text it is lost. *)
Definition proc2 : processed := Eval vm_compute in
  match new read1 [Direct (Tok (Unicode [228]) (P "f" 0 1 0 2)); Direct (Tok Newline (P "f" 2 1 2 1))] with Done p => p | _ => empty end.
Theorem C33_label_lost_refuted : o_text proc2 = [228; 10] /\ from_code_processed proc2 (chars (o_text proc2)) (chars (o_text proc2)) = LNone.
Proof. vm_compute. auto. Qed.
(** An error in an empty text panics. *)
Theorem C33_label_empty_text_refuted : from_code_processed empty 0 0 = LPanic.
Proof. reflexivity. Qed.

(** ** C34 *)
(** A character offset has the line and column of the characters before it. *)
Theorem C34_line_and_column s off :
  from_content s off = LC off (1 + breaks (firstn (N.to_nat off) s)) (1 + column (firstn (N.to_nat off) s) 0).
Proof. exact (from_content_spec s off). Qed.
(** In a text without carriage returns before line breaks, the table gives each line its range, and each byte of it
    its number. *)
Theorem C34_line_table s n u mid v : ~ occurs [13; 10] s -> is_line s n u mid v ->
  line_range s n = Some (byte_len u, byte_len u + byte_len mid) /\
  forall b, byte_in b u mid -> line_index s b = Some n.
Proof. intros C. apply (line_ok (S (length s))); auto. Qed.
Theorem C34_every_byte_has_a_line s b : b < byte_len s -> exists n u mid v, is_line s n u mid v /\ byte_in b u mid.
Proof. apply (line_exists (S (length s))). lia. Qed.
Theorem C34_no_other_lines s n : ~ occurs [13; 10] s -> (line_range s n = None <-> ~ exists u mid v, is_line s n u mid v).
Proof. intros C. apply (line_none (S (length s))); auto. Qed.
Theorem C34_past_the_end s n u mid b : ~ occurs [13; 10] s -> is_line s n u mid [] -> byte_len s <= b -> line_index s b = Some n.
Proof. intros C. apply (index_past (S (length s))); auto. Qed.

Definition src3 : text := bs "ab" ++ [10; 10] ++ [228] ++ bs "c" ++ [10].
Example C34_ex_line : is_line src3 2 (bs "ab" ++ [10; 10]) ([228] ++ bs "c" ++ [10]) [] /\ ~ occurs [13; 10] src3 /\
  byte_in 6 (bs "ab" ++ [10; 10]) ([228] ++ bs "c" ++ [10]).
Proof.
  split; [|split].
  - unfold is_line. repeat split; try reflexivity; try discriminate; [right; exists (bs "ab" ++ [10]); reflexivity|].
    left. exists ([228] ++ bs "c"). split; [reflexivity|]. intro H. vm_compute in H. repeat destruct H as [H|H]; discriminate || contradiction.
  - intros (a & b & E). assert (In 13 src3) as H by (rewrite E; apply in_or_app; right; now left).
    vm_compute in H. repeat destruct H as [H|H]; discriminate || contradiction.
  - vm_compute. split; [discriminate|reflexivity].
Qed.
Example C34_ex : line_range src3 2 = Some (4, 8) /\ line_index src3 6 = Some 2.
Proof. destruct C34_ex_line as (A & B & C). destruct (C34_line_table src3 2 _ _ _ B A) as [D E]. split; [exact D|]. apply E. exact C. Qed.
Example C34_ex_col : from_content src3 5 = LC 5 3 2.
Proof. vm_compute. reflexivity. Qed.
(** With carriage returns the table slips by a byte a line: the fifth byte is on the second line, the table says the
    third. *)
Theorem C34_crlf_table_slips_refuted : let s := bs "a" ++ [13; 10] ++ bs "b" ++ [13; 10] ++ bs "c" in
  is_line s 1 (bs "a" ++ [13; 10]) (bs "b" ++ [13; 10]) (bs "c") /\ byte_in 4 (bs "a" ++ [13; 10]) (bs "b" ++ [13; 10]) /\
  line_index s 4 = Some 2 /\ line_range s 1 = Some (2, 4).
Proof.
  cbv zeta. split; [|vm_compute; repeat split; discriminate].
  unfold is_line. repeat split; try reflexivity; try discriminate; [right; exists (bs "a" ++ [13]); reflexivity|].
  left. exists (bs "b" ++ [13]). split; [reflexivity|]. intro H. vm_compute in H. repeat destruct H as [H|H]; discriminate || contradiction.
Qed.
(** In an empty file looking up a line panics. *)
Theorem C34_empty_file_panics_refuted : line_index [] 0 = None.
Proof. reflexivity. Qed.

Print Assumptions C33_every_character_has_a_writer.
Print Assumptions C33_mapping_is_the_writer.
Print Assumptions C33_token_writes_itself.
Print Assumptions C33_text_without_joins.
Print Assumptions C33_text_without_quotes.
Print Assumptions C33_extract_is_the_span.
Print Assumptions C33_label_place.
Print Assumptions C33_ends_overshoot_refuted.
Print Assumptions C33_label_across_files_refuted.
Print Assumptions C33_label_lost_refuted.
Print Assumptions C33_label_empty_text_refuted.
Print Assumptions C34_line_and_column.
Print Assumptions C34_line_table.
Print Assumptions C34_every_byte_has_a_line.
Print Assumptions C34_no_other_lines.
Print Assumptions C34_past_the_end.
Print Assumptions C34_crlf_table_slips_refuted.
Print Assumptions C34_empty_file_panics_refuted.
