(** The lexer loses nothing and knows where its tokens are. *)
From Coq Require Import String.
From Verif Require Import Base.Tactics Base.Bytes Base.Ascii Base.Text Preproc.Model Preproc.LexModel Preproc.LexSpec.
Local Open Scope N_scope.
Local Open Scope list_scope.

Lemma split_once_str_some p s a b : split_once_str p s = Some (a, b) -> s = a ++ p ++ b.
Proof.
  revert a. induction s as [|c s IH]; intros a; cbn [split_once_str].
  - destruct (starts_with p []) eqn:E; [|discriminate]. apply starts_with_spec in E. destruct E as [r E].
    intro H. injection H as <- <-. destruct p; [reflexivity|discriminate].
  - destruct (starts_with p (c :: s)) eqn:E.
    + apply starts_with_spec in E. destruct E as [r E]. intro H. injection H as <- <-. cbn [app]. rewrite E.
      f_equal. rewrite skipn_app, skipn_all, Nat.sub_diag. reflexivity.
    + destruct (split_once_str p s) as [[a' b']|]; [|discriminate]. intro H. injection H as <- <-. cbn [app]. f_equal. auto.
Qed.

Section Lex.
  Context (letter other : N -> bool).
  (** Letters below 128 are those of ASCII. *)
  Context (letter_ascii : forall c, c < 128 -> letter c = ascii_letter c).

  Lemma word_run_app s a b : word_run letter s = (a, b) -> s = a ++ b.
  Proof.
    revert a. induction s as [|c s IH]; intros a; cbn [word_run]; [intro H; injection H as <- <-; reflexivity|].
    destruct (word_char letter c).
    - destruct (word_run letter s) as [x y]. intro H. injection H as <- <-. cbn [app]. f_equal. auto.
    - intro H. injection H as <- <-. reflexivity.
  Qed.
  Lemma word_run_chars s a b : word_run letter s = (a, b) -> forall c, In c a -> word_char letter c = true.
  Proof.
    revert a. induction s as [|c s IH]; intros a; cbn [word_run]; [intro H; injection H as <- <-; intros ? []|].
    destruct (word_char letter c) eqn:E.
    - destruct (word_run letter s) as [x y]. intro H. injection H as <- <-. intros c' [<-|H']; eauto.
    - intro H. injection H as <- <-. intros ? [].
  Qed.
  Lemma dec_digit d : d < 10 -> dec d = [48 + d].
  Proof.
    intro H. assert (In d [0;1;2;3;4;5;6;7;8;9]) as X.
    { cbn. lia. }
    cbn in X. repeat (destruct X as [<-|X]; [reflexivity|]). destruct X.
  Qed.

  (** What one match is. *)
  Inductive lexeme : pair -> Prop :=
  | L_word w : w <> [] -> (forall c, In c w -> word_char letter c = true) -> lexeme (Pair (Word w) w)
  | L_digit c : is_digit c = true -> lexeme (Pair (Digit (c - 48)) [c])
  | L_other c : c <> 10 -> c <> 34 -> c <> 39 -> c <> 35 -> lexeme (Pair (Unicode [c]) [c])
  | L_comment c : (c = [47; 47] \/ exists a, c = [47; 42] ++ a ++ [42; 47]) -> lexeme (Pair (Comment c) c)
  | L_sym s : In s [LParen; RParen; Join; Hash; Escape; Comma; DQuote; SQuote; LAngle; RAngle; Equals; Newline; Space; Tab] -> lexeme (Pair s (sym_text s)).

  Lemma symbol_of_in c l y : symbol_of c l = Some y -> In (c, y) l.
  Proof.
    induction l as [|[k z] l IH]; cbn [symbol_of]; [discriminate|]. destruct (N.eqb_spec c k) as [->|]; cbn; [intro H; left; congruence|auto].
  Qed.
  Lemma symbol_of_none c l : symbol_of c l = None -> forall y, ~ In (c, y) l.
  Proof.
    induction l as [|[k z] l IH]; cbn [symbol_of]; intros H y; [tauto|]. destruct (N.eqb_spec c k); [discriminate|].
    intros [X|X]; [congruence|]. eapply IH; eauto.
  Qed.
  Lemma after_char_some k s r : after_char k s = Some r -> s = k :: r.
  Proof. destruct s as [|c s]; cbn; [discriminate|]. destruct (N.eqb_spec c k); congruence. Qed.
  Lemma lex_plain_spec c s p r : lex_plain letter other c s = Some (p, r) -> c :: s = pr_text p ++ r /\ lexeme p.
  Proof.
    unfold lex_plain. destruct (letter c || (c =? 95)) eqn:E.
    - destruct (word_run letter s) as [a b] eqn:Ew. intro H. injection H as <- <-. cbn [pr_text app].
      split; [f_equal; eauto using word_run_app|]. constructor; [discriminate|]. intros x [<-|Hx]; [|eapply word_run_chars; eauto].
      unfold word_char. apply Bool.orb_true_iff in E. destruct E as [-> | ->]; auto using Bool.orb_true_r.
    - destruct (is_digit c) eqn:Ed; [intro H; injection H as <- <-; split; [reflexivity|constructor; exact Ed]|].
      destruct (if c =? 35 then after_char 35 s else None) as [r'|] eqn:Ej.
      + destruct (N.eqb_spec c 35) as [->|]; [|discriminate]. apply after_char_some in Ej. subst s.
        intro H. injection H as <- <-. split; [reflexivity|]. apply (L_sym Join). cbn. auto.
      + clear Ej. destruct (symbol_of c punctuation) as [y|] eqn:Es.
        * intro H. injection H as <- <-. split; [reflexivity|]. apply symbol_of_in in Es. cbn in Es.
          repeat (destruct Es as [Es|Es]; [injection Es as <- <-; match goal with |- lexeme (Pair ?y _) => apply (L_sym y); cbn; auto 20 end|]).
          destruct Es.
        * pose proof (symbol_of_none _ _ Es) as Nn. destruct (other c); [|discriminate]. intro H. injection H as <- <-. split; [reflexivity|].
          constructor; intros ->; eapply Nn; cbn; eauto 20.
  Qed.
  Lemma lex1_spec s p r : lex1 letter other s = Some (p, r) -> s = pr_text p ++ r /\ lexeme p.
  Proof.
    unfold lex1. destruct s as [|c s]; [discriminate|].
    destruct (N.eqb_spec c 32) as [->|_]; [intro H; injection H as <- <-; split; [reflexivity|apply (L_sym Space); cbn; auto 20]|].
    destruct (N.eqb_spec c 9) as [->|_]; [intro H; injection H as <- <-; split; [reflexivity|apply (L_sym Tab); cbn; auto 20]|].
    destruct (N.eqb_spec c 47) as [->|_]; [|apply lex_plain_spec].
    destruct (after_char 42 s) as [r'|] eqn:E.
    - apply after_char_some in E. destruct (split_once_str [42; 47] r') as [[a b]|] eqn:Es; [|apply lex_plain_spec].
      apply split_once_str_some in Es. intro H. injection H as <- <-. cbn [pr_text]. split; [subst s r'; cbn [app]; now rewrite <- app_assoc|].
      constructor. right. exists a. reflexivity.
    - destruct (after_char 47 s) as [r'|] eqn:E'; [|apply lex_plain_spec].
      apply after_char_some in E'. intro H. injection H as <- <-. split; [subst s; reflexivity|]. constructor. auto.
  Qed.
  Lemma lexeme_nonempty p : lexeme p -> pr_text p <> [].
  Proof.
    destruct 1 as [w Nw _|c _|c|c Hc|y Hy]; cbn [pr_text]; try discriminate; auto.
    - destruct Hc as [->|[a ->]]; discriminate.
    - cbn in Hy. repeat (destruct Hy as [<-|Hy]; [discriminate|]). destruct Hy.
  Qed.
  Lemma lexeme_text p : lexeme p -> sym_text (pr_sym p) = pr_text p \/ pr_sym p = Comment (pr_text p).
  Proof.
    destruct 1 as [w Nw _|c D|c|c Hc|y Hy]; cbn [pr_text pr_sym sym_text]; auto.
    left. unfold is_digit in D. rewrite dec_digit by lia. f_equal. lia.
  Qed.

  (** The matches are the source, cut up. *)
  Lemma lex_all_spec n : forall s ps, lex_all letter other n s = Ok ps ->
    exists ms, ps = ms ++ [Pair Eoi []] /\ flat_map pr_text ms = s /\ Forall lexeme ms.
  Proof.
    induction n as [|n IH]; intros s ps; cbn [lex_all]; [discriminate|]. destruct s as [|c s].
    - intro H. injection H as <-. exists []. auto.
    - destruct (lex1 letter other (c :: s)) as [[p r]|] eqn:E; [|discriminate]. destruct (lex_all letter other n r) as [l| | |] eqn:El; try discriminate.
      intro H. cbn in H. injection H as <-. destruct (IH _ _ El) as (ms & -> & Ht & Hf). destruct (lex1_spec _ _ _ E) as [Es Hl].
      exists (p :: ms). cbn [flat_map app]. rewrite Ht. auto.
  Qed.
  Lemma lex_all_fuel n : forall s, (length s < n)%nat -> lex_all letter other n s <> NoFuel.
  Proof.
    induction n as [|n IH]; intros s H; [lia|]. cbn [lex_all]. destruct s as [|c s]; [discriminate|].
    destruct (lex1 letter other (c :: s)) as [[p r]|] eqn:E; [|discriminate]. destruct (lex1_spec _ _ _ E) as [Es Hl].
    assert (length r < n)%nat as L.
    { pose proof (lexeme_nonempty _ Hl). apply (f_equal (@length N)) in Es. rewrite app_length in Es. destruct (pr_text p); [congruence|]. cbn [length] in *. lia. }
    specialize (IH r L). destruct (lex_all letter other n r); cbn; congruence.
  Qed.

  (** ** What the loop keeps *)
  Definition quiet (c : N) : Prop := c <> 47 /\ c <> 34 /\ c <> 39 /\ c <> 10.
  Definition mode (st : lex_state) : where_ :=
    if skipping st then Rest else if in_single st then Single else if in_double st then Double else Code.
  Definition sane (st : lex_state) : Prop :=
    (skipping st = true -> in_single st = false /\ in_double st = false) /\ ~ (in_single st = true /\ in_double st = true).

  (** The three shapes of a match. *)
  Inductive shape : text -> pair -> text -> Prop :=
  | Sh_block a b : split_once_str [42; 47] (a ++ [42; 47] ++ b) = Some (a, b) ->
      shape ([47; 42] ++ a ++ [42; 47] ++ b) (Pair (Comment ([47; 42] ++ a ++ [42; 47])) ([47; 42] ++ a ++ [42; 47])) b
  | Sh_line r : shape ([47; 47] ++ r) (Pair (Comment [47; 47]) [47; 47]) r
  | Sh_quiet y t r : Forall quiet t -> t <> [] -> sym_text y = t ->
      (match y with Comment _ | Newline | SQuote | DQuote | Eoi => False | _ => True end) -> shape (t ++ r) (Pair y t) r
  | Sh_slash r : (starts_with [47; 42] (47 :: r) = true -> split_once_str [42; 47] (skipn 2 (47 :: r)) = None) ->
      starts_with [47; 47] (47 :: r) = false -> shape (47 :: r) (Pair (Unicode [47]) [47]) r
  | Sh_newline r : shape (10 :: r) (Pair Newline [10]) r
  | Sh_single r : shape (39 :: r) (Pair SQuote [39]) r
  | Sh_double r : shape (34 :: r) (Pair DQuote [34]) r.

  Lemma word_quiet c : word_char letter c = true -> quiet c.
  Proof.
    unfold word_char, quiet. intro H. destruct (N.lt_ge_cases c 128) as [L|]; [|lia]. rewrite (letter_ascii c L) in H.
    unfold ascii_letter, is_digit in H. lia.
  Qed.
  Lemma lex_plain_shape c s p r : (c = 47 -> (starts_with [47; 42] (47 :: s) = true -> split_once_str [42; 47] (skipn 2 (47 :: s)) = None) /\
      starts_with [47; 47] (47 :: s) = false) ->
    lex_plain letter other c s = Some (p, r) -> shape (c :: s) p r.
  Proof.
    intros H47 H. destruct (lex_plain_spec _ _ _ _ H) as [Hs Hl]. unfold lex_plain in H. destruct (letter c || (c =? 95)) eqn:E.
    - destruct (word_run letter s) as [a b] eqn:Ew. injection H as <- <-. rewrite Hs. cbn [pr_text].
      refine (Sh_quiet (Word (c :: a)) (c :: a) b _ _ eq_refl I); [|discriminate]. inversion Hl; subst; [|cbn in *; intuition discriminate].
      apply Forall_forall. intros x Hx. apply word_quiet. auto.
    - destruct (is_digit c) eqn:Ed.
      { injection H as <- <-. apply (Sh_quiet (Digit (c - 48)) [c]); [|discriminate| |exact I].
        - unfold is_digit in Ed. repeat constructor; lia.
        - cbn [sym_text]. unfold is_digit in Ed. rewrite dec_digit by lia. f_equal. lia. }
      destruct (if c =? 35 then after_char 35 s else None) as [r'|] eqn:Ej.
      + destruct (N.eqb_spec c 35) as [->|]; [|discriminate]. apply after_char_some in Ej. subst s. injection H as <- <-.
        apply (Sh_quiet Join [35; 35]); [repeat constructor; lia|discriminate|reflexivity|exact I].
      + destruct (symbol_of c punctuation) as [y|] eqn:Es.
        * injection H as <- <-. apply symbol_of_in in Es. cbn [In punctuation] in Es.
          repeat (destruct Es as [Es|Es]; [injection Es as <- <-; first [constructor | match goal with |- shape (?k :: _) (Pair ?y _) _ => apply (Sh_quiet y [k]); [repeat constructor; lia|discriminate|reflexivity|exact I] end]|]).
          destruct Es.
        * pose proof (symbol_of_none _ _ Es) as Nn. destruct (other c); [|discriminate]. injection H as <- <-.
          destruct (N.eq_dec c 47) as [->|N47].
          { destruct (H47 eq_refl). now constructor. }
          apply (Sh_quiet (Unicode [c]) [c]); [|discriminate|reflexivity|exact I]. constructor; [|constructor].
          split; [exact N47|]. repeat split; intros ->; eapply Nn; cbn; eauto 20.
  Qed.
  Lemma lex1_shape s p r : lex1 letter other s = Some (p, r) -> shape s p r.
  Proof.
    unfold lex1. destruct s as [|c s]; [discriminate|].
    destruct (N.eqb_spec c 32) as [->|_]; [intro H; injection H as <- <-; apply (Sh_quiet Space [32]); [repeat constructor; lia|discriminate|reflexivity|exact I]|].
    destruct (N.eqb_spec c 9) as [->|_]; [intro H; injection H as <- <-; apply (Sh_quiet Tab [9]); [repeat constructor; lia|discriminate|reflexivity|exact I]|].
    destruct (N.eqb_spec c 47) as [->|N47]; [|apply lex_plain_shape; congruence].
    destruct (after_char 42 s) as [r'|] eqn:E.
    - apply after_char_some in E. subst s. destruct (split_once_str [42; 47] r') as [[a b]|] eqn:Es.
      + pose proof (split_once_str_some _ _ _ _ Es) as X. intro H. injection H as <- <-. rewrite X. apply Sh_block. now rewrite <- X.
      + apply lex_plain_shape. intros _. split; [intros _; exact Es|reflexivity].
    - destruct (after_char 47 s) as [r'|] eqn:E'.
      + apply after_char_some in E'. subst s. intro H. injection H as <- <-. apply Sh_line.
      + apply lex_plain_shape. intros _. destruct s as [|d s]; [split; [intro X; discriminate X|reflexivity]|]. cbn [after_char] in E, E'.
        destruct (N.eqb_spec d 42); [discriminate|]. destruct (N.eqb_spec d 47); [discriminate|]. cbn [starts_with].
        split.
        * intro X. exfalso. revert X. replace (42 =? d) with false by lia. cbn. discriminate.
        * replace (47 =? d) with false by lia. reflexivity.
  Qed.

  Lemma wc_fuel : forall n m w s, (length s <= n)%nat -> (length s <= m)%nat -> without_comments n w s = without_comments m w s.
  Proof.
    induction n as [|n IH]; intros m w s Hn Hm; destruct s as [|c r]; cbn [length] in *; try lia.
    { destruct m; reflexivity. } { destruct m; reflexivity. }
    destruct m as [|m]; [lia|]. cbn [without_comments].
    destruct (if starts_with [47; 42] (c :: r) then split_once_str [42; 47] (skipn 2 (c :: r)) else None) as [[a b]|] eqn:E.
    - destruct (starts_with [47; 42] (c :: r)); [|discriminate]. apply split_once_str_some in E.
      assert (length b <= length r)%nat.
      { apply (f_equal (@length N)) in E. rewrite skipn_length, !app_length in E. cbn [length] in E. lia. }
      destruct w; cbn [app]; rewrite (IH m) by lia; reflexivity.
    - destruct (starts_with [47; 47] (c :: r)).
      + assert (length (skipn 2 (c :: r)) <= length r)%nat by (rewrite skipn_length; cbn [length]; lia).
        destruct w; rewrite (IH m) by lia; reflexivity.
      + rewrite (IH m) by lia. reflexivity.
  Qed.
  Lemma wc_S n w c r : without_comments (S n) w (c :: r) =
    match (if starts_with [47; 42] (c :: r) then split_once_str [42; 47] (skipn 2 (c :: r)) else None) with
    | Some (a, b) => (match w with Single | Double => [47; 42] ++ a ++ [42; 47] | _ => [] end) ++ without_comments n w b
    | None =>
        if starts_with [47; 47] (c :: r) then
          match w with
          | Single | Double => [47; 47] ++ without_comments n w (skipn 2 (c :: r))
          | _ => without_comments n Rest (skipn 2 (c :: r))
          end
        else (if keeps w c then [c] else []) ++ without_comments n (next_where w c) r
    end.
  Proof. reflexivity. Qed.
  Definition wc (w : where_) (s : text) : text := without_comments (length s) w s.
  Lemma wc_plain w c r : (starts_with [47; 42] (c :: r) = true -> split_once_str [42; 47] (skipn 2 (c :: r)) = None) ->
    starts_with [47; 47] (c :: r) = false ->
    wc w (c :: r) = (if keeps w c then [c] else []) ++ wc (next_where w c) r.
  Proof.
    intros H1 H2. unfold wc. cbn [length]. rewrite wc_S, H2.
    destruct (starts_with [47; 42] (c :: r)); [rewrite H1 by reflexivity|]; reflexivity.
  Qed.
  Lemma not_slash c r p : c <> 47 -> starts_with (47 :: p) (c :: r) = false.
  Proof. intro H. cbn [starts_with]. replace (47 =? c) with false by lia. reflexivity. Qed.
  Lemma wc_quiet w t r : Forall quiet t -> wc w (t ++ r) = (match w with Rest => [] | _ => t end) ++ wc w r.
  Proof.
    induction 1 as [|c t (H1 & H2 & H3 & H4) Ht IH]; [destruct w; reflexivity|]. cbn [app].
    rewrite wc_plain; [|rewrite not_slash by exact H1; discriminate|now apply not_slash].
    destruct w; cbn [keeps next_where] in *; replace (c =? 34) with false in * by lia; replace (c =? 39) with false in * by lia; replace (c =? 10) with false in * by lia; cbn [app]; now rewrite IH.
  Qed.
  Lemma wc_block w a b : split_once_str [42; 47] (a ++ [42; 47] ++ b) = Some (a, b) ->
    wc w ([47; 42] ++ a ++ [42; 47] ++ b) = (match w with Single | Double => [47; 42] ++ a ++ [42; 47] | _ => [] end) ++ wc w b.
  Proof.
    intro H. unfold wc. change ([42; 47] ++ b) with (42 :: 47 :: b) in *. cbn [app length]. rewrite wc_S. cbn [starts_with N.eqb Pos.eqb andb skipn].
    rewrite H. f_equal. apply wc_fuel; rewrite ?app_length; cbn [length]; rewrite ?app_length; cbn [length]; lia.
  Qed.
  Lemma wc_line w r : wc w ([47; 47] ++ r) = match w with Single | Double => [47; 47] ++ wc w r | _ => wc Rest r end.
  Proof.
    unfold wc. cbn [app length]. rewrite wc_S. cbn [starts_with N.eqb Pos.eqb andb skipn].
    destruct w; cbn [app]; rewrite (wc_fuel (S (length r)) (length r)) by lia; reflexivity.
  Qed.

  Lemma step_text path s p r st : shape s p r -> sane st ->
    sane (fst (lex_step path st p)) /\
    toks_text (snd (lex_step path st p)) ++ wc (mode (fst (lex_step path st p))) r = wc (mode st) s.
  Proof.
    intros Hs [Sa Sb]. destruct st as [line col off si di sk]. cbn [skipping in_single in_double] in Sa, Sb.
    assert (Hm : mode (LS line col off si di sk) = (if sk then Rest else if si then Single else if di then Double else Code)) by reflexivity.
    destruct Hs as [a b H|r|y t r Hq Nt Hy K|r H1 H2|r|r|r].
    - rewrite wc_block, Hm by exact H. unfold lex_step. cbn [pr_sym pr_text]. replace (text_eqb _ _) with false by reflexivity.
      destruct sk; [destruct (Sa eq_refl) as [-> ->]|destruct si, di; try (exfalso; apply Sb; split; reflexivity)]; cbn [orb andb negb fst snd];
        (split; [split; cbn; intuition congruence|]); cbn [toks_text flat_map tok_text sym_text t_sym mode skipping in_single in_double app]; rewrite ?app_nil_r; rewrite <- ?app_assoc; cbn [app]; try reflexivity.
    - rewrite wc_line, Hm. unfold lex_step. cbn [pr_sym pr_text]. replace (text_eqb _ _) with true by reflexivity.
      destruct sk; [destruct (Sa eq_refl) as [-> ->]|destruct si, di; try (exfalso; apply Sb; split; reflexivity)]; cbn [orb andb negb fst snd];
        (split; [split; cbn; intuition congruence|]); reflexivity.
    - rewrite wc_quiet, Hm by exact Hq. unfold lex_step. cbn [pr_sym pr_text].
      assert (toks_text [Tok y (Pos (place (LS line col off si di sk)) (place (LS line (col + byte_len t) (off + byte_len t) si di sk)) path)] = t) as X
        by (unfold toks_text; cbn [flat_map tok_text t_sym]; unfold tok_text; cbn [t_sym]; rewrite Hy; apply app_nil_r).
      assert (fst (lex_step path (LS line col off si di sk) (Pair y t)) = LS line (col + byte_len t) (off + byte_len t) si di sk /\
              snd (lex_step path (LS line col off si di sk) (Pair y t)) = if sk then [] else [Tok y (Pos (place (LS line col off si di sk)) (place (LS line (col + byte_len t) (off + byte_len t) si di sk)) path)]) as [Y1 Y2].
      { unfold lex_step. cbn [pr_sym pr_text]. destruct y; try contradiction; destruct sk; auto. }
      unfold lex_step in Y1, Y2. cbn [pr_sym pr_text] in Y1, Y2. rewrite Y1, Y2. split; [split; cbn; auto|].
      destruct sk; [reflexivity|]. rewrite X. destruct si, di; reflexivity.
    - rewrite wc_plain, Hm by assumption. unfold lex_step. cbn [pr_sym pr_text].
      destruct sk; [destruct (Sa eq_refl) as [-> ->]|destruct si, di; try (exfalso; apply Sb; split; reflexivity)]; cbn [orb andb negb fst snd];
        (split; [split; cbn; intuition congruence|]); reflexivity.
    - rewrite wc_plain, Hm by (try reflexivity; discriminate). unfold lex_step. cbn [pr_sym pr_text].
      destruct sk; [destruct (Sa eq_refl) as [-> ->]|destruct si, di; try (exfalso; apply Sb; split; reflexivity)]; cbn [orb andb negb fst snd];
        (split; [split; cbn; intuition congruence|]); reflexivity.
    - rewrite wc_plain, Hm by (try reflexivity; discriminate). unfold lex_step. cbn [pr_sym pr_text].
      destruct sk; [destruct (Sa eq_refl) as [-> ->]|destruct si, di; try (exfalso; apply Sb; split; reflexivity)]; cbn [orb andb negb fst snd];
        (split; [split; cbn; intuition congruence|]); reflexivity.
    - rewrite wc_plain, Hm by (try reflexivity; discriminate). unfold lex_step. cbn [pr_sym pr_text].
      destruct sk; [destruct (Sa eq_refl) as [-> ->]|destruct si, di; try (exfalso; apply Sb; split; reflexivity)]; cbn [orb andb negb fst snd];
        (split; [split; cbn; intuition congruence|]); reflexivity.
  Qed.
  Lemma lex_loop_text path n : forall s ps st, lex_all letter other n s = Ok ps -> sane st ->
    toks_text (lex_loop path st ps) = wc (mode st) s.
  Proof.
    induction n as [|n IH]; intros s ps st; cbn [lex_all]; [discriminate|]. destruct s as [|c s].
    - intros H _. injection H as <-. cbn [lex_loop]. unfold lex_step. cbn [pr_sym pr_text]. destruct st as [? ? ? ? ? []]; reflexivity.
    - destruct (lex1 letter other (c :: s)) as [[p r]|] eqn:E; [|discriminate]. destruct (lex_all letter other n r) as [l| | |] eqn:El; try discriminate.
      intros H Hs. cbn in H. injection H as <-. apply lex1_shape in E. destruct (step_text path _ _ _ _ E Hs) as [Hs' Ht].
      cbn [lex_loop]. destruct (lex_step path st p) as [st' ts]. cbn [fst snd] in *. unfold toks_text in *. rewrite flat_map_app.
      rewrite (IH _ _ _ El Hs'). exact Ht.
  Qed.
  (** The texts of the tokens are the source without its comments. *)
  Theorem parse_text_keeps path src ts : parse_text letter other path src = Ok ts -> toks_text ts = uncommented src.
  Proof.
    unfold parse_text. destruct (lex_all letter other (S (length src)) src) as [ps| | |] eqn:E; try discriminate.
    intro H. injection H as <-. rewrite (lex_loop_text path _ _ _ _ E); [reflexivity|]. split; cbn; intuition congruence.
  Qed.
  Lemma parse_text_total path src : parse_text letter other path src <> NoFuel /\ parse_text letter other path src <> Panic.
  Proof.
    unfold parse_text. pose proof (lex_all_fuel (S (length src)) src ltac:(lia)) as F.
    assert (forall n s, lex_all letter other n s <> Panic) as P.
    { induction n as [|n IH]; intros s; cbn [lex_all]; [discriminate|]. destruct s as [|c s]; [discriminate|].
      destruct (lex1 letter other (c :: s)) as [[p r]|]; [|discriminate]. specialize (IH r). destruct (lex_all letter other n r); cbn; congruence. }
    specialize (P (S (length src)) src). destruct (lex_all letter other (S (length src)) src); cbn; split; congruence.
  Qed.

  (** ** Where the tokens are *)
  Lemma byte_len_app a b : byte_len (a ++ b) = byte_len a + byte_len b.
  Proof. induction a as [|c a IH]; [reflexivity|]. cbn [app]. change (byte_len (c :: a ++ b)) with (ulen c + byte_len (a ++ b)). change (byte_len (c :: a)) with (ulen c + byte_len a). lia. Qed.
  Lemma breaks_app a b : breaks (a ++ b) = breaks a + breaks b.
  Proof. unfold breaks. rewrite count_occ_app. lia. Qed.
  Lemma tail_bytes_app a b n : tail_bytes (a ++ b) n = tail_bytes b (tail_bytes a n).
  Proof. revert n. induction a as [|c a IH]; intro n; cbn [app tail_bytes]; auto. Qed.
  Lemma newlines_breaks s : newlines s = breaks s.
  Proof.
    unfold newlines, breaks. induction s as [|c s IH]; [reflexivity|]. cbn [split_on count_occ].
    destruct (N.eqb_spec c 10) as [->|Nc].
    - destruct (N.eq_dec 10 10); [|congruence]. cbn [length]. pose proof (split_on_nonempty 10 s). destruct (split_on 10 s); [congruence|]. cbn [length] in *. lia.
    - destruct (N.eq_dec c 10); [congruence|]. pose proof (split_on_nonempty 10 s). destruct (split_on 10 s); [congruence|]. exact IH.
  Qed.
  Lemma quiet_breaks t : Forall quiet t -> breaks t = 0 /\ forall n, tail_bytes t n = n + byte_len t.
  Proof.
    induction 1 as [|c t (H1 & H2 & H3 & H4) Ht [IH1 IH2]]; [split; [reflexivity|intro; cbn; lia]|]. split.
    - unfold breaks in *. cbn [count_occ]. destruct (N.eq_dec c 10); [congruence|exact IH1].
    - intro n. cbn [tail_bytes]. replace (c =? 10) with false by lia. rewrite IH2. unfold byte_len. cbn [fold_right]. lia.
  Qed.

  (** The matches before and after a token's own. *)
  Fixpoint after_matches (path : text) (st : lex_state) (ps : list pair) : lex_state :=
    match ps with [] => st | p :: r => after_matches path (fst (lex_step path st p)) r end.
  Lemma lex_loop_in path t ps : forall st, In t (lex_loop path st ps) ->
    exists a p b, ps = a ++ p :: b /\ In t (snd (lex_step path (after_matches path st a) p)).
  Proof.
    induction ps as [|p ps IH]; intros st; cbn [lex_loop]; [intros []|]. destruct (lex_step path st p) as [st' ts] eqn:E. intro H.
    apply in_app_or in H. destruct H as [H|H].
    - exists [], p, ps. split; [reflexivity|]. cbn [after_matches]. now rewrite E.
    - destruct (IH _ H) as (a & q & b & -> & Hq). exists (p :: a), q, b. split; [reflexivity|]. cbn [after_matches]. now rewrite E.
  Qed.
  Lemma step_off path st p : ls_off (fst (lex_step path st p)) = ls_off st + byte_len (pr_text p).
  Proof. destruct st as [line col off si di sk]. unfold lex_step. destruct (pr_sym p); cbn; repeat (destruct (_ && _) || destruct (_ || _)); reflexivity. Qed.

  (** Sources whose strings hold no block comment. *)
  Definition no_string_blocks (src : text) : Prop := ~ occurs [47; 42] src \/ (~ In 34 src /\ ~ In 39 src).
  Definition plain_source (src : text) : Prop := ~ occurs [47; 42] src /\ ~ occurs [47; 47] src /\ ~ In 39 src.

  Definition tracked (src pre : text) (st : lex_state) : Prop :=
    ls_off st = byte_len pre /\ sane st /\
    (~ In 34 src /\ ~ In 39 src -> in_single st = false /\ in_double st = false) /\
    (~ In 39 src -> in_single st = false) /\
    (no_string_blocks src -> ls_line st = 1 + breaks pre) /\
    (plain_source src -> ls_col st = tail_bytes pre 0 /\ skipping st = false).

  Lemma track path src pre s p r st : src = pre ++ s -> shape s p r -> tracked src pre st ->
    tracked src (pre ++ pr_text p) (fst (lex_step path st p)).
  Proof.
    intros Hs Hsh (To & Ts & Tq & Ti & Tl & Tc). unfold tracked. rewrite step_off, byte_len_app, To. split; [reflexivity|].
    split; [eapply step_text; eauto|]. rewrite breaks_app, tail_bytes_app. clear To.
    assert (no_string_blocks src -> in_single st || in_double st = true -> ~ occurs [47; 42] src) as Hb.
    { intros [H|H]; [auto|]. destruct (Tq H) as [-> ->]. discriminate. }
    destruct st as [line col off si di sk]. cbn [in_single in_double ls_line ls_col skipping] in *.
    destruct Ts as [Ts _]. cbn [in_single in_double skipping] in Ts.
    destruct Hsh as [a b H|r|y t r Hq Nt Hy K|r H1 H2|r|r|r]; unfold lex_step; cbn [pr_sym pr_text].
    - replace (text_eqb _ _) with false by reflexivity. rewrite newlines_breaks.
      assert (occurs [47; 42] src) as Ho by (exists pre, (a ++ [42; 47] ++ b); exact Hs).
      destruct (si || di) eqn:E; cbn [fst in_single in_double ls_line ls_col skipping].
      + split; [exact Tq|]. split; [exact Ti|]. split; [intro X; exfalso; exact (Hb X eq_refl Ho)|]. intros (X & _). contradiction.
      + split; [exact Tq|]. split; [exact Ti|]. split; [intro X; rewrite Tl by exact X; lia|]. intros (X & _). contradiction.
    - replace (text_eqb _ _) with true by reflexivity. rewrite newlines_breaks.
      assert (occurs [47; 47] src) as Ho by (exists pre, r; exact Hs).
      destruct (si || di) eqn:E; cbn [fst in_single in_double ls_line ls_col skipping].
      + split; [exact Tq|]. split; [exact Ti|]. split; [intro X; rewrite Tl by exact X; change (breaks [47; 47]) with 0; lia|]. intros (_ & X & _). contradiction.
      + split; [exact Tq|]. split; [exact Ti|]. split; [intro X; rewrite Tl by exact X; change (breaks [47; 47]) with 0; lia|]. intros (_ & X & _). contradiction.
    - destruct (quiet_breaks _ Hq) as [Q1 Q2]. rewrite Q1, Q2.
      assert (fst (lex_step path (LS line col off si di sk) (Pair y t)) = LS line (col + byte_len t) (off + byte_len t) si di sk) as Y1.
      { unfold lex_step. cbn [pr_sym pr_text]. destruct y; try contradiction; reflexivity. }
      unfold lex_step in Y1. cbn [pr_sym pr_text] in Y1. rewrite Y1. cbn [in_single in_double ls_line ls_col skipping].
      split; [exact Tq|]. split; [exact Ti|]. split; [intro X; rewrite Tl by exact X; lia|]. intro X. destruct (Tc X) as [-> ->]. auto.
    - cbn [fst in_single in_double ls_line ls_col skipping]. split; [exact Tq|]. split; [exact Ti|].
      split; [intro X; rewrite Tl by exact X; try change (breaks [47]) with 0; try change (breaks [10]) with 1; try change (breaks [39]) with 0; try change (breaks [34]) with 0; lia|]. intro X. destruct (Tc X) as [-> ->]. auto.
    - cbn [fst in_single in_double ls_line ls_col skipping]. split; [exact Tq|]. split; [exact Ti|].
      split; [intro X; rewrite Tl by exact X; try change (breaks [47]) with 0; try change (breaks [10]) with 1; try change (breaks [39]) with 0; try change (breaks [34]) with 0; lia|]. intro X. auto.
    - assert (In 39 src) as Ho by (rewrite Hs; apply in_or_app; right; left; reflexivity).
      destruct (negb sk && negb di); cbn [fst in_single in_double ls_line ls_col skipping].
      + split; [tauto|]. split; [tauto|]. split; [intro X; rewrite Tl by exact X; try change (breaks [47]) with 0; try change (breaks [10]) with 1; try change (breaks [39]) with 0; try change (breaks [34]) with 0; lia|]. intros (_ & _ & X). contradiction.
      + split; [tauto|]. split; [tauto|]. split; [intro X; rewrite Tl by exact X; try change (breaks [47]) with 0; try change (breaks [10]) with 1; try change (breaks [39]) with 0; try change (breaks [34]) with 0; lia|]. intros (_ & _ & X). contradiction.
    - assert (In 34 src) as Ho by (rewrite Hs; apply in_or_app; right; left; reflexivity).
      destruct (negb sk && negb si) eqn:E; cbn [fst in_single in_double ls_line ls_col skipping].
      + split; [tauto|]. split; [exact Ti|]. split; [intro X; rewrite Tl by exact X; try change (breaks [47]) with 0; try change (breaks [10]) with 1; try change (breaks [39]) with 0; try change (breaks [34]) with 0; lia|]. intro X. destruct (Tc X) as [-> ->]. auto.
      + split; [tauto|]. split; [exact Ti|]. split; [intro X; rewrite Tl by exact X; try change (breaks [47]) with 0; try change (breaks [10]) with 1; try change (breaks [39]) with 0; try change (breaks [34]) with 0; lia|]. intro X. destruct (Tc X) as [_ Y]. destruct X as (_ & _ & X). rewrite Ti, Y in E by exact X. discriminate.
  Qed.
  Lemma after_tracked path src n : forall s ps pre st, src = pre ++ s -> lex_all letter other n s = Ok ps -> tracked src pre st ->
    forall a p b, ps = a ++ p :: b -> exists u v, src = u ++ pr_text p ++ v /\ tracked src u (after_matches path st a) /\
      (p = Pair Eoi [] \/ shape (pr_text p ++ v) p v).
  Proof.
    induction n as [|n IH]; intros s ps pre st Hs; cbn [lex_all]; [discriminate|]. destruct s as [|c s].
    - intros H Ht a p b. injection H as <-. destruct a as [|q a]; [|destruct a; discriminate]. cbn [app]. intro X. injection X as <- <-.
      exists pre, []. cbn [pr_text app after_matches]. auto.
    - destruct (lex1 letter other (c :: s)) as [[q r]|] eqn:E; [|discriminate]. destruct (lex_all letter other n r) as [l| | |] eqn:El; try discriminate.
      intros H Ht a p b. cbn in H. injection H as <-. apply lex1_spec in E as E'. destruct E' as [E' _]. apply lex1_shape in E. destruct a as [|q' a]; cbn [app]; intro X.
      + injection X as <- <-. exists pre, r. cbn [after_matches]. split; [congruence|]. split; [exact Ht|right]. now rewrite <- E'.
      + injection X as <- X. cbn [after_matches]. eapply (IH r l (pre ++ pr_text q)); eauto.
        * rewrite Hs, E'. apply app_assoc.
        * eapply track; eauto.
  Qed.

  (** A string's comment, which the lexer hands over as a word besides the comment itself. *)
  Definition quoted_comment (t : token) (mid : text) : Prop :=
    t_sym t = Word mid /\ (mid = [47; 47] \/ exists a, mid = [47; 42] ++ a ++ [42; 47]).

  (** Every token has its own piece of the source, and its position names that piece. *)
  Theorem parse_text_places path src ts t : parse_text letter other path src = Ok ts -> In t ts ->
    exists pre mid post, src = pre ++ mid ++ post /\
      (tok_text t = mid \/ t_sym t = Comment mid) /\
      p_path (t_pos t) = path /\
      lc_off (p_start (t_pos t)) = byte_len pre /\
      (no_string_blocks src -> lc_line (p_start (t_pos t)) = 1 + breaks pre) /\
      (plain_source src -> lc_col (p_start (t_pos t)) = tail_bytes pre 0) /\
      (quoted_comment t mid \/
        lc_off (p_end (t_pos t)) = byte_len (pre ++ mid) /\
        (no_string_blocks src -> lc_line (p_end (t_pos t)) = 1 + breaks (pre ++ mid)) /\
        (plain_source src -> lc_col (p_end (t_pos t)) = tail_bytes (pre ++ mid) 0)).
  Proof.
    unfold parse_text. destruct (lex_all letter other (S (length src)) src) as [ps| | |] eqn:E; try discriminate.
    intros H Hin. injection H as <-. apply lex_loop_in in Hin. destruct Hin as (a & p & b & -> & Hin).
    destruct (after_tracked path src _ src _ [] lex_init eq_refl E ltac:(repeat split; cbn; intuition congruence) a p b eq_refl) as (u & v & Hsrc & Ht & Hp).
    set (st := after_matches path lex_init a) in *. exists u, (pr_text p), v. split; [exact Hsrc|].
    assert (tracked src (u ++ pr_text p) (fst (lex_step path st p))) as Ht'.
    { destruct Hp as [->|Hp]; [|eapply track; eauto]. rewrite app_nil_r. destruct st as [line col off si di sk].
      unfold tracked in *. cbn [lex_step pr_sym pr_text fst ls_off ls_line ls_col in_single in_double skipping byte_len fold_right] in *. rewrite !N.add_0_r. exact Ht. }
    assert (exists st', fst (lex_step path st p) = st' /\
      (t = Tok (pr_sym p) (Pos (place st) (place st') path) \/
       exists c, pr_sym p = Comment c /\ t = Tok (Word c) (Pos (place st) (LC (ls_off st + 2) (ls_line st + 2) (ls_col st + 2)) path))) as (st' & Hst' & Htok).
    { eexists. split; [reflexivity|]. destruct st as [line col off si di sk]. unfold lex_step in *.
      set (q := match pr_sym p with Newline => _ | _ => _ end) in *. destruct q as [[[[l' c'] si'] di'] sk']. cbn [fst snd] in *.
      set (i := match pr_sym p with Comment _ => _ | _ => _ end) in *.
      assert (forall x, In x i -> exists c, pr_sym p = Comment c /\ x = Tok (Word c) (Pos (place (LS line col off si di sk)) (LC (off + 2) (line + 2) (col + 2)) path)) as Hi.
      { subst i. intros x. destruct (pr_sym p); try (intros []; fail). destruct (_ && _); [|intros []]. intros [<-|[]]. eauto. }
      destruct sk'; [right; auto|]. apply in_app_or in Hin. destruct Hin as [Hin|[<-|[]]]; auto. }
    rewrite Hst' in Ht'. destruct Ht as (To & _ & _ & _ & Tl & Tc). destruct Ht' as (To' & _ & _ & _ & Tl' & Tc').
    assert ((sym_text (pr_sym p) = pr_text p /\ forall c, pr_sym p <> Comment c) \/
            (pr_sym p = Comment (pr_text p) /\ (pr_text p = [47; 47] \/ exists x, pr_text p = [47; 42] ++ x ++ [42; 47]))) as Hx.
    { destruct Hp as [->|Hp]; [left; split; [reflexivity|discriminate]|]. inversion Hp; subst; cbn [pr_sym pr_text]; eauto;
        left; split; try reflexivity; try discriminate. intros c ->. contradiction. }
    destruct Htok as [->|(c & Ec & ->)]; unfold tok_text, quoted_comment; cbn [t_sym t_pos p_path p_start p_end lc_off lc_line lc_col place].
    - split; [tauto|].
      split; [reflexivity|]. split; [exact To|]. split; [exact Tl|]. split; [intro X; now apply Tc|]. right. split; [exact To'|]. split; [exact Tl'|]. intro X; now apply Tc'.
    - destruct Hx as [[_ Hx]|[Hc Hx]]; [destruct (Hx _ Ec)|]. rewrite Ec in Hc. injection Hc as ->.
      split; [left; reflexivity|]. split; [reflexivity|]. split; [exact To|]. split; [exact Tl|]. split; [intro X; now apply Tc|]. left. auto.
  Qed.

  (** Only the last token can be the end of the file. *)
  Theorem parse_text_ends path src ts : parse_text letter other path src = Ok ts ->
    exists body e, ts = body ++ e /\ (e = [] \/ exists t, e = [t] /\ t_sym t = Eoi) /\ forall t, In t body -> t_sym t <> Eoi.
  Proof.
    unfold parse_text. destruct (lex_all letter other (S (length src)) src) as [ps| | |] eqn:E; try discriminate.
    intro H. injection H as <-. destruct (lex_all_spec _ _ _ E) as (ms & -> & _ & Hf). clear E. generalize lex_init as st.
    induction ms as [|p ms IH]; intro st; cbn [app lex_loop].
    - exists [], (snd (lex_step path st (Pair Eoi []))). cbn [app]. destruct st as [? ? ? ? ? []]; cbn; (split; [reflexivity|]; split; [eauto|intros ? []]).
    - inversion Hf as [|? ? Hp Hms]; subst. destruct (lex_step path st p) as [st' l] eqn:Es. destruct (IH Hms st') as (body & e & -> & He & Hb).
      exists (l ++ body), e. split; [apply app_assoc|]. split; [exact He|]. intros t Ht. apply in_app_or in Ht. destruct Ht as [Ht|Ht]; auto.
      assert (pr_sym p <> Eoi) as Np. { destruct Hp as [| | | |y Hy]; try discriminate. cbn [pr_sym]. intros ->. cbn in Hy. intuition discriminate. }
      assert (l = snd (lex_step path st p)) as -> by now rewrite Es. clear Es. destruct st as [line col off si di sk]. unfold lex_step in Ht.
      set (q := match pr_sym p with Newline => _ | _ => _ end) in *. destruct q as [[[[l' c'] si'] di'] sk']. cbn [snd] in Ht.
      set (i := match pr_sym p with Comment _ => _ | _ => _ end) in *.
      assert (forall x, In x i -> t_sym x <> Eoi) as Hi.
      { subst i. intros x. destruct (pr_sym p); try (intros []; fail). destruct (_ && _); [|intros []]. intros [<-|[]]. discriminate. }
      destruct sk'; auto. apply in_app_or in Ht. destruct Ht as [Ht|[<-|[]]]; auto.
  Qed.
End Lex.
