(** The SQF lexer and the grammar of tokens: each piece takes exactly what the grammar says. *)
From Coq Require Import String.
From Verif Require Import Base.Tactics Base.Bytes Base.Ascii Base.Text Sqf.Ast Sqf.ParseModel Sqf.LexModel Sqf.LexSpec.
Local Open Scope N_scope.
Local Open Scope list_scope.

(** ** Pieces *)
Lemma starts_with_iff : forall p s, starts_with p s = true <-> exists r, s = p ++ r.
Proof.
  induction p as [|x p IH]; intros s; cbn [starts_with app].
  - split; eauto.
  - destruct s as [|y s]; [split; [discriminate|intros (r & H); discriminate]|].
    rewrite andb_true_iff, N.eqb_eq, IH. split.
    + intros (-> & r & ->). eauto.
    + intros (r & H). injection H as -> ->. eauto.
Qed.
Lemma starts_with_app : forall p r, starts_with p (p ++ r) = true.
Proof. intros. apply starts_with_iff. eauto. Qed.
Lemma starts_with_not : forall x p c s, c <> x -> starts_with (x :: p) (c :: s) = false.
Proof. intros x p c s H. cbn [starts_with]. destruct (N.eqb_spec x c); [congruence|reflexivity]. Qed.
Lemma just_app : forall p r, just p (p ++ r) = Some r.
Proof. intros. unfold just. now rewrite starts_with_app, skipn_app, skipn_all, Nat.sub_diag. Qed.
Lemma just_iff : forall p s r, just p s = Some r <-> s = p ++ r.
Proof.
  intros p s r. split; [|intros ->; apply just_app]. unfold just. destruct (starts_with p s) eqn:E; [|discriminate].
  apply starts_with_iff in E as (r' & ->). rewrite skipn_app, skipn_all, Nat.sub_diag. cbn. now intros [= ->].
Qed.
Lemma just_none : forall p s, just p s = None <-> forall r, s <> p ++ r.
Proof.
  intros p s. split.
  - intros H r ->. now rewrite just_app in H.
  - intros H. destruct (just p s) eqn:E; [|reflexivity]. apply just_iff in E. now apply H in E.
Qed.

(** The text does not start with a character of the class. *)
Definition stops (f : N -> bool) (s : text) : Prop := match s with [] => True | c :: _ => f c = false end.
Lemma many_sound : forall f s a b, many f s = (a, b) -> s = a ++ b /\ forallb f a = true /\ stops f b.
Proof.
  intros f. induction s as [|c s IH]; intros a b H; cbn [many] in H.
  - injection H as <- <-. cbn. auto.
  - destruct (f c) eqn:E.
    + destruct (many f s) as [a' b'] eqn:E'. injection H as <- <-. destruct (IH _ _ eq_refl) as (-> & H1 & H2). cbn. rewrite E. auto.
    + injection H as <- <-. cbn. auto.
Qed.
Lemma many_complete : forall f a b, forallb f a = true -> stops f b -> many f (a ++ b) = (a, b).
Proof.
  intros f. induction a as [|c a IH]; intros b H S; cbn [app many].
  - destruct b as [|c b]; cbn in *; [reflexivity|now rewrite S].
  - cbn in H. apply andb_true_iff in H as [-> H]. now rewrite IH.
Qed.
Lemma many1_sound : forall f s a b, many1 f s = Some (a, b) -> s = a ++ b /\ a <> [] /\ forallb f a = true /\ stops f b.
Proof.
  intros f s a b H. unfold many1 in H. destruct (many f s) as [x y] eqn:E. apply many_sound in E as (-> & H1 & H2).
  destruct x as [|c x]; [discriminate|]. injection H as <- <-. repeat split; auto. discriminate.
Qed.
Lemma many1_complete : forall f a b, a <> [] -> forallb f a = true -> stops f b -> many1 f (a ++ b) = Some (a, b).
Proof. intros f a b N H S. unfold many1. rewrite many_complete by auto. now destruct a. Qed.
Lemma many1_stops : forall f s, stops f s -> many1 f s = None.
Proof. intros f [|c s] H; unfold many1; cbn in *; [reflexivity|]. now rewrite H. Qed.

Lemma before_sound : forall p s a b, before p s = (a, b) -> s = a ++ b /\
  (forall x y, a = x ++ y -> y <> [] -> p (y ++ b) = false) /\ (b = [] \/ p b = true).
Proof.
  intros p. induction s as [|c s IH]; intros a b H; cbn [before] in H.
  - injection H as <- <-. repeat split; auto. intros x y E N. symmetry in E. apply app_eq_nil in E as [-> ->]. contradiction.
  - destruct (p (c :: s)) eqn:E.
    + injection H as <- <-. repeat split; auto. intros x y Exy N. symmetry in Exy. apply app_eq_nil in Exy as [-> ->]. contradiction.
    + destruct (before p s) as [a' b'] eqn:E'. injection H as <- <-. destruct (IH _ _ eq_refl) as (-> & H1 & H2).
      repeat split; auto. intros x y Exy N. destruct x as [|d x]; cbn in Exy.
      * subst y. exact E.
      * injection Exy as <- Exy. eauto.
Qed.
Lemma before_complete : forall p a b, (forall x y, a = x ++ y -> y <> [] -> p (y ++ b) = false) -> b = [] \/ p b = true ->
  before p (a ++ b) = (a, b).
Proof.
  intros p. induction a as [|c a IH]; intros b H B; cbn [app before].
  - destruct B as [-> | B]; [reflexivity|]. destruct b as [|c b]; [reflexivity|]. cbn [before]. now rewrite B.
  - assert (E := H [] (c :: a) eq_refl ltac:(discriminate)). cbn [app] in E. rewrite E.
    rewrite IH; auto. intros x y -> N. apply (H (c :: x) y); auto.
Qed.

(** ** Strings *)
Lemma double_app : forall q a b, double_quotes q (a ++ b) = double_quotes q a ++ double_quotes q b.
Proof. intros. apply flat_map_app. Qed.
Lemma string_sound : forall d n s a b, (length s <= n)%nat -> string_content d s = (a, b) -> s = double_quotes d a ++ b.
Proof.
  intros d. induction n as [|n IH]; intros s a b L H.
  - destruct s; [|cbn in L; lia]. cbn in H. injection H as <- <-. reflexivity.
  - destruct s as [|c s]; cbn [string_content] in H; [now injection H as <- <-|]. cbn [length] in L.
    destruct (N.eqb_spec c d) as [->|Ne].
    + destruct s as [|c s]; [now injection H as <- <-|]. destruct (N.eqb_spec c d) as [->|Ne]; [|now injection H as <- <-].
      destruct (string_content d s) as [a' b'] eqn:E. injection H as <- <-. apply IH in E as ->; [|cbn in L; lia].
      unfold double_quotes. cbn [flat_map]. now rewrite N.eqb_refl.
    + destruct (string_content d s) as [a' b'] eqn:E. injection H as <- <-. apply IH in E as ->; [|lia].
      unfold double_quotes. cbn [flat_map]. now destruct (N.eqb_spec c d).
Qed.
Lemma string_complete : forall d a b, stops (N.eqb d) b -> string_content d (double_quotes d a ++ d :: b) = (a, d :: b).
Proof.
  intros d. induction a as [|c a IH]; intros b S.
  - cbn [double_quotes flat_map app string_content]. rewrite N.eqb_refl. destruct b as [|c b]; [reflexivity|].
    cbn in S. rewrite N.eqb_sym in S. now rewrite S.
  - unfold double_quotes. cbn [flat_map]. destruct (N.eqb_spec c d) as [->|Ne]; cbn [app string_content].
    + rewrite N.eqb_refl. fold (double_quotes d a). now rewrite IH.
    + destruct (N.eqb_spec c d); [contradiction|]. fold (double_quotes d a). now rewrite IH.
Qed.
Lemma wrapper_quote : forall w, wrapper_char w = quote_char w.
Proof. now intros []. Qed.
Lemma literal_sound : forall w s a r, string_literal (wrapper_char w) s = Some (a, r) -> s = quoted w a ++ r.
Proof.
  intros w s a r H. unfold string_literal in H. destruct (just _ s) as [s'|] eqn:E; [|discriminate]. apply just_iff in E as ->.
  destruct (string_content _ s') as [c s2] eqn:E. destruct (just _ s2) as [s3|] eqn:E3; [|discriminate]. injection H as <- <-.
  apply just_iff in E3 as ->. apply string_sound with (n := length s') in E; [|lia]. subst s'. unfold quoted. rewrite wrapper_quote.
  now rewrite <- !app_assoc.
Qed.
Lemma literal_complete : forall w a r, stops (N.eqb (quote_char w)) r -> string_literal (wrapper_char w) (quoted w a ++ r) = Some (a, r).
Proof.
  intros w a r S. unfold string_literal, quoted. rewrite wrapper_quote, <- !app_assoc, just_app. cbn [app].
  rewrite string_complete by auto. change (quote_char w :: r) with ([quote_char w] ++ r). now rewrite just_app.
Qed.

(** ** Operators and controls *)
Lemma first_just_sound : forall {A} (table : list (string * A)) s a r, first_just table s = Some (a, r) ->
  exists p, In (p, a) table /\ s = bs p ++ r.
Proof.
  intros A table. induction table as [|[p a'] table IH]; intros s a r H; cbn [first_just] in H; [discriminate|].
  destruct (just (bs p) s) eqn:E.
  - injection H as <- <-. apply just_iff in E as ->. exists p. cbn. auto.
  - apply IH in H as (p' & H & ->). exists p'. cbn. auto.
Qed.
Lemma first_just_some : forall {A} (table : list (string * A)) p a r, In (p, a) table -> first_just table (bs p ++ r) <> None.
Proof.
  intros A table. induction table as [|[p' a'] table IH]; intros p a r H; cbn [In first_just] in *; [contradiction|].
  destruct (just (bs p') (bs p ++ r)) eqn:E; [discriminate|]. destruct H as [H|H]; [|now apply (IH p a r)].
  injection H as -> ->. now rewrite just_app in E.
Qed.
Lemma operator_entry : forall p o, In (p, o) operator_table -> bs p = operator_text o.
Proof. intros p o H. cbn [operator_table In] in H. repeat destruct H as [H|H]; try (injection H as <- <-; reflexivity). contradiction. Qed.
Lemma control_entry : forall p c, In (p, c) control_table -> bs p = control_text c.
Proof. intros p c H. cbn [control_table In] in H. repeat destruct H as [H|H]; try (injection H as <- <-; reflexivity). contradiction. Qed.
Ltac find_entry := first [left; reflexivity | right; find_entry].
Lemma operator_listed : forall o, exists p, In (p, o) operator_table /\ bs p = operator_text o.
Proof. intros []; eexists; (split; [unfold operator_table; find_entry|reflexivity]). Qed.
Lemma control_listed : forall c, exists p, In (p, c) control_table /\ bs p = control_text c.
Proof. intros []; eexists; (split; [unfold control_table; find_entry|reflexivity]). Qed.

Lemma operator_two : forall o r, length (operator_text o) = 2%nat -> first_just operator_table (operator_text o ++ r) = Some (o, r).
Proof. intros [] r H; try discriminate H; reflexivity. Qed.
Lemma operator_length : forall o, length (operator_text o) = 1%nat \/ length (operator_text o) = 2%nat.
Proof. intros []; cbn; auto. Qed.
Lemma operator_text_inj : forall o o', operator_text o = operator_text o' -> o = o'.
Proof. intros [] [] H; try reflexivity; discriminate H. Qed.
Lemma operator_sound : forall s o r, first_just operator_table s = Some (o, r) -> s = operator_text o ++ r /\
  forall o' r', s = operator_text o' ++ r' -> (length (operator_text o') <= length (operator_text o))%nat.
Proof.
  intros s o r H. assert (H' := H). apply first_just_sound in H' as (p & Hp & ->). apply operator_entry in Hp. rewrite Hp in *.
  split; auto. intros o' r' E. destruct (operator_length o') as [L|L]; [destruct (operator_length o); lia|].
  rewrite E, operator_two in H by auto. injection H as <- <-. lia.
Qed.
Lemma app_length_inj : forall (a b c d : text), length a = length c -> a ++ b = c ++ d -> a = c /\ b = d.
Proof.
  induction a as [|x a IH]; intros b [|y c] d L H; cbn in *; try discriminate; auto.
  injection H as -> H. apply IH in H as [-> ->]; auto.
Qed.
Lemma operator_complete : forall o r, (forall o' r', operator_text o ++ r = operator_text o' ++ r' -> (length (operator_text o') <= length (operator_text o))%nat) ->
  first_just operator_table (operator_text o ++ r) = Some (o, r).
Proof.
  intros o r H. destruct (operator_listed o) as (p & Hp & Ep). destruct (first_just operator_table (operator_text o ++ r)) as [[o' r']|] eqn:E.
  - apply operator_sound in E as [E M]. assert (L := M o r eq_refl). assert (L' := H _ _ E).
    apply app_length_inj in E as [E1 ->]; [|lia]. now apply operator_text_inj in E1 as ->.
  - rewrite <- Ep in E. now apply (first_just_some _ p o r) in Hp.
Qed.
Lemma control_sound : forall s c r, first_just control_table s = Some (c, r) -> s = control_text c ++ r.
Proof. intros s c r H. apply first_just_sound in H as (p & Hp & ->). now apply control_entry in Hp as ->. Qed.
Lemma control_complete : forall c r, first_just operator_table (control_text c ++ r) = None /\ first_just control_table (control_text c ++ r) = Some (c, r).
Proof. intros [] r; split; reflexivity. Qed.

(** ** Comments *)
Lemma holds_split : forall p (s : text), ~ holds p s <-> forall a b, s <> a ++ p ++ b.
Proof. intros. unfold holds. split; [intros H a b ->; eauto | intros H (a & b & ->); eapply H; eauto]. Qed.
Lemma block_sound : forall s t r, multi_line_comment s = Some (t, r) -> exists c, t = TComment (bs "/*" ++ c ++ bs "*/") /\
  ~ holds (bs "*/") c /\ s = (bs "/*" ++ c ++ bs "*/") ++ r.
Proof.
  intros s t r H. unfold multi_line_comment in H. destruct (just (bs "/*") s) as [s1|] eqn:E1; [|discriminate]. apply just_iff in E1 as ->.
  destruct (before _ s1) as [c s2] eqn:E2. destruct (just _ s2) as [s3|] eqn:E3; [|discriminate]. injection H as <- <-.
  apply just_iff in E3 as ->. apply before_sound in E2 as (-> & H & _). exists c. repeat split; [|now rewrite <- !app_assoc].
  intros (a & b & ->). specialize (H a (bs "*/" ++ b) eq_refl ltac:(discriminate)). rewrite <- app_assoc, starts_with_app in H. discriminate.
Qed.
Lemma block_complete : forall c r, ~ holds (bs "*/") c ->
  multi_line_comment ((bs "/*" ++ c ++ bs "*/") ++ r) = Some (TComment (bs "/*" ++ c ++ bs "*/"), r).
Proof.
  intros c r H. unfold multi_line_comment. rewrite <- !app_assoc, just_app. rewrite before_complete.
  - now rewrite just_app.
  - intros x y -> N. apply not_true_iff_false. intros T. apply starts_with_iff in T as (z & T). apply H.
    destruct y as [|y1 [|y2 y]]; [contradiction| |].
    + cbn in T. discriminate T.
    + change (bs "*/" ++ z) with (42 :: 47 :: z) in T. cbn [app] in T. injection T as -> -> T. exists x, y. reflexivity.
  - right. apply starts_with_app.
Qed.
Lemma at_newline_iff : forall s, at_newline s = true <-> (exists r, s = 13 :: 10 :: r) \/ exists r, s = 10 :: r.
Proof. intros s. unfold at_newline. rewrite orb_true_iff, !starts_with_iff. reflexivity. Qed.
Lemma line_sound : forall s t r, single_line_comment s = Some (t, r) -> exists c, t = TComment (bs "//" ++ c) /\ ~ In 10 c /\ s = (bs "//" ++ c) ++ r /\
  (r = [] \/ (exists r', r = 13 :: 10 :: r') \/ (exists r', r = 10 :: r') /\ ~ (exists c', c = c' ++ [13])).
Proof.
  intros s t r H. unfold single_line_comment in H. destruct (just (bs "//") s) as [s1|] eqn:E1; [|discriminate]. apply just_iff in E1 as ->.
  destruct (before _ s1) as [c s2] eqn:E2. injection H as <- <-. apply before_sound in E2 as (-> & H & B). exists c. repeat split.
  - intros I. apply in_split in I as (x & y & ->). specialize (H x (10 :: y) eq_refl ltac:(discriminate)).
    apply not_true_iff_false in H. apply H. apply at_newline_iff. right. cbn. eauto.
  - destruct B as [-> | B]; [now left|]. apply at_newline_iff in B as [B|B]; [auto|]. right. right. split; auto. intros (c' & ->).
    destruct B as (r' & ->). specialize (H c' [13] eq_refl ltac:(discriminate)). discriminate H.
Qed.
Lemma line_complete : forall c r, ~ In 10 c ->
  (r = [] \/ (exists r', r = 13 :: 10 :: r') \/ (exists r', r = 10 :: r') /\ ~ (exists c', c = c' ++ [13])) ->
  single_line_comment ((bs "//" ++ c) ++ r) = Some (TComment (bs "//" ++ c), r).
Proof.
  intros c r H B. unfold single_line_comment. rewrite <- app_assoc, just_app, before_complete; [reflexivity| |].
  - intros x y -> N. apply not_true_iff_false. intros T. apply at_newline_iff in T. destruct y as [|y1 y]; [contradiction|]. cbn [app] in T.
    destruct T as [(z & T)|(z & T)].
    + injection T as -> T. destruct y as [|y2 y].
      * cbn in T. subst r. destruct B as [B|[(r' & B)|[(r' & B) C]]]; try discriminate. apply C. now exists x.
      * injection T as -> T. apply H, in_or_app. right. cbn. auto.
    + injection T as -> T. apply H, in_or_app. right. cbn. auto.
  - destruct B as [B|[(r' & ->)|[(r' & ->) C]]]; auto; right; reflexivity.
Qed.

(** ** Numbers and names *)
Lemma digit_iff : forall c, is_digit c = true <-> digit c.
Proof. intros c. unfold is_digit, digit. lia. Qed.
Lemma digits_iff : forall s, forallb is_digit s = true <-> Forall digit s.
Proof. intros s. rewrite forallb_forall, Forall_forall. split; intros H x Hx; apply digit_iff; auto. Qed.
Lemma hex_value_iff : forall c d, hex_value c = Some d <-> d < 16 /\ (c = 48 + d /\ d < 10 \/ c = 87 + d /\ 10 <= d \/ c = 55 + d /\ 10 <= d).
Proof.
  intros c d. unfold hex_value, is_digit. split.
  - destruct ((48 <=? c) && (c <=? 57)) eqn:E1; [intros [= <-]; lia|].
    destruct ((97 <=? c) && (c <=? 102)) eqn:E2; [intros [= <-]; lia|].
    destruct ((65 <=? c) && (c <=? 70)) eqn:E3; [intros [= <-]; lia|discriminate].
  - intros H. destruct ((48 <=? c) && (c <=? 57)) eqn:E1; [f_equal; lia|].
    destruct ((97 <=? c) && (c <=? 102)) eqn:E2; [f_equal; lia|].
    destruct ((65 <=? c) && (c <=? 70)) eqn:E3; [f_equal; lia|lia].
Qed.
Lemma radix_snoc : forall b s c, radix_value b (s ++ [c]) = radix_value b s * b + match hex_value c with Some d => d | None => 0 end.
Proof. intros. unfold radix_value. now rewrite fold_left_app. Qed.
Lemma numeral_sound : forall b s v, b <= 16 -> numeral b s v -> forallb is_hex s = true /\ radix_value b s = v /\ (b = 10 -> forallb is_digit s = true).
Proof.
  intros b s v B. induction 1 as [|s v c d H (IH1 & IH2 & IH3) D C]; [repeat split|].
  assert (E : hex_value c = Some d) by (apply hex_value_iff; split; [lia|tauto]). rewrite !forallb_app, radix_snoc, E, IH1, IH2. repeat split.
  - cbn. unfold is_hex. now rewrite E.
  - intros ->. rewrite IH3 by auto. cbn. rewrite (proj2 (digit_iff c)); auto. unfold digit. lia.
Qed.
Lemma numeral_hex : forall s, forallb is_hex s = true -> numeral 16 s (radix_value 16 s).
Proof.
  intros s. induction s as [|c s IH] using rev_ind; intros H; [constructor|]. rewrite forallb_app in H. apply andb_true_iff in H as [H1 H2].
  cbn in H2. unfold is_hex in H2. rewrite radix_snoc. destruct (hex_value c) as [d|] eqn:E; [|discriminate]. apply hex_value_iff in E as [D C].
  constructor; auto.
Qed.
Lemma numeral_dec : forall s, forallb is_digit s = true -> numeral 10 s (radix_value 10 s).
Proof.
  intros s. induction s as [|c s IH] using rev_ind; intros H; [constructor|]. rewrite forallb_app in H. apply andb_true_iff in H as [H1 H2].
  cbn in H2. rewrite andb_true_r in H2. rewrite radix_snoc. apply digit_iff in H2. unfold digit in H2.
  assert (E : hex_value c = Some (c - 48)) by (apply hex_value_iff; lia). rewrite E. constructor; auto; lia.
Qed.

(** The text does not go on with a number, name or string. *)
Definition calm (s : text) : Prop := forall c r, s = c :: r -> ~ constant_start c.
Ltac calmly := match goal with H : calm ?s |- _ => destruct s as [|?c ?s]; [exact I|]; cbn [stops];
  specialize (H _ _ eq_refl); apply not_true_iff_false; intros ?T; apply H; unfold constant_start, name_char, letter, digit end.
Lemma calm_digit : forall s, calm s -> stops is_digit s.
Proof. intros s H. calmly. apply digit_iff in T. unfold digit in T. lia. Qed.
Lemma calm_hex : forall s, calm s -> stops is_hex s.
Proof.
  intros s H. calmly. unfold is_hex in T. destruct (hex_value c) as [d|] eqn:E; [|discriminate]. apply hex_value_iff in E. lia.
Qed.
Lemma name_char_iff : forall c, is_name_char c = true <-> name_char c.
Proof. intros c. unfold is_name_char, name_char, letter, digit. lia. Qed.
Lemma calm_name : forall s, calm s -> stops is_name_char s.
Proof. intros s H. calmly. apply name_char_iff in T. unfold name_char, letter, digit in T. lia. Qed.
Lemma calm_exponent : forall s, calm s -> stops is_exponent s.
Proof. intros s H. calmly. unfold is_exponent in T. lia. Qed.
Lemma calm_quote : forall w s, calm s -> stops (N.eqb (quote_char w)) s.
Proof. intros w s H. calmly. destruct w; cbn [quote_char] in T; lia. Qed.
Lemma calm_point : forall s, calm s -> stops (N.eqb 46) s.
Proof. intros s H. calmly. lia. Qed.

Section Lexer.
  Context (parse_f32 : text -> N) (f32_of : N -> N).
  Notation number := (number parse_f32 f32_of).
  Notation number_text := (number_text parse_f32 f32_of).
  Notation constant := (constant parse_f32 f32_of).
  Notation next_token := (next_token parse_f32 f32_of).
  Notation not_constant := (not_constant parse_f32 f32_of).
  Notation lex_tokens := (lex_tokens parse_f32 f32_of).
  Notation lex := (lex parse_f32 f32_of).
  Notation reads := (reads parse_f32 f32_of).
  Notation written := (written parse_f32 f32_of).

  Lemma exponent_sound : forall s v r, number_float_exponent parse_f32 s = Some (v, r) -> exists sp, s = sp ++ r /\ number_text v sp.
  Proof.
    intros s v r H. unfold number_float_exponent in H. destruct (whole_and_point s) as [a s1] eqn:E1.
    assert (A : s = a ++ s1 /\ (a = [] \/ exists w, digits w /\ a = w ++ bs ".")).
    { unfold whole_and_point in E1. destruct (number_digits s) as [[ds s2]|] eqn:E2; [|injection E1 as <- <-; auto].
      apply many1_sound in E2 as (-> & N & D & S). destruct s2 as [|c s2]; [injection E1 as <- <-; auto|].
      destruct (N.eq_dec c 46) as [->|Ne].
      - injection E1 as <- <-. split; [now rewrite <- app_assoc|]. right. exists ds. split; auto. split; auto. now apply digits_iff.
      - replace (match c with 46 => (ds ++ [46], s2) | _ => ([], ds ++ c :: s2) end) with (@nil BinNums.N, ds ++ c :: s2) in E1.
        + injection E1 as <- <-. auto.
        + clear -Ne. destruct c as [|p]; [reflexivity|]. do 6 (destruct p as [p|p|]; try reflexivity). contradiction. }
    destruct A as [-> A]. destruct (number_digits s1) as [[b s2]|] eqn:E2; [|discriminate]. apply many1_sound in E2 as (-> & Nb & Db & Sb).
    destruct s2 as [|c s2]; [discriminate|]. destruct (is_exponent c) eqn:Ec; [|discriminate].
    destruct (match s2 with [] => ([], s2) | d :: r => if is_sign d then ([d], r) else ([], s2) end) as [sg s3] eqn:E3.
    destruct (number_digits s3) as [[e s4]|] eqn:E4; [|discriminate]. injection H as <- <-. apply many1_sound in E4 as (-> & Ne & De & Se).
    assert (B : s2 = sg ++ e ++ s4 /\ (sg = [] \/ sg = bs "+" \/ sg = bs "-")).
    { destruct s2 as [|d s2]; [injection E3 as <- <-; auto|]. destruct (is_sign d) eqn:Ed; injection E3 as <- E3; subst; auto.
      split; auto. unfold is_sign in Ed. apply orb_true_iff in Ed as [Ed|Ed]; apply N.eqb_eq in Ed as ->; auto. }
    destruct B as [-> B]. exists (a ++ b ++ [c] ++ sg ++ e). split; [now rewrite <- !app_assoc|].
    apply (N_exponent parse_f32 f32_of a b [c] sg e); auto; try (split; auto; now apply digits_iff).
    unfold is_exponent in Ec. apply orb_true_iff in Ec as [Ec|Ec]; apply N.eqb_eq in Ec as ->; auto.
  Qed.
  Lemma basic_sound : forall s v r, number_float_basic parse_f32 s = Some (v, r) -> exists sp, s = sp ++ r /\ number_text v sp.
  Proof.
    intros s v r H. unfold number_float_basic in H. destruct (many is_digit s) as [a s1] eqn:E1. apply many_sound in E1 as (-> & Da & Sa).
    destruct s1 as [|c s1]; [discriminate|]. destruct (N.eq_dec c 46) as [->|Ne].
    - destruct (number_digits s1) as [[b s2]|] eqn:E2; [|discriminate]. injection H as <- <-. apply many1_sound in E2 as (-> & Nb & Db & Sb).
      exists (a ++ bs "." ++ b). split; [now rewrite <- !app_assoc|]. constructor; [now apply digits_iff|]. split; auto. now apply digits_iff.
    - exfalso. destruct c as [|p]; [discriminate|]. do 6 (destruct p as [p|p|]; try discriminate H). contradiction.
  Qed.
  Lemma hex_sound : forall s v r, number_hex s = Some (v, r) -> exists sp, s = sp ++ r /\ number_text (f32_of v) sp.
  Proof.
    intros s v r H. unfold number_hex in H.
    assert (A : exists p s1, (p = bs "$" \/ p = bs "0x") /\ s = p ++ s1 /\
      match many1 is_hex s1 with Some (ds, r) => match fits_u32 (radix_value 16 ds) with Some v => Some (v, r) | None => None end | None => None end = Some (v, r)).
    { destruct (just (bs "$") s) as [s1|] eqn:E1; [apply just_iff in E1 as ->; eexists _, _; eauto|].
      destruct (just (bs "0x") s) as [s1|] eqn:E2; [apply just_iff in E2 as ->; eexists _, _; eauto|discriminate]. }
    clear H. destruct A as (p & s1 & P & -> & H). destruct (many1 is_hex s1) as [[ds s2]|] eqn:E; [|discriminate].
    apply many1_sound in E as (-> & N & D & S). unfold fits_u32 in H. destruct (_ <? _) eqn:L; [|discriminate]. injection H as <- <-.
    exists (p ++ ds). split; [now rewrite <- app_assoc|]. apply N_hex; auto; [now apply numeral_hex|lia].
  Qed.
  Lemma int_sound : forall s v r, number_int s = Some (v, r) -> exists sp, s = sp ++ r /\ number_text (f32_of v) sp.
  Proof.
    intros s v r H. unfold number_int in H. destruct (number_digits s) as [[ds s2]|] eqn:E; [|discriminate].
    apply many1_sound in E as (-> & N & D & S). unfold fits_u32 in H. destruct (_ <? _) eqn:L; [|discriminate]. injection H as <- <-.
    exists ds. split; auto. apply N_whole; auto; [now apply numeral_dec|lia].
  Qed.
  Lemma number_sound : forall s v r, number s = Some (v, r) -> exists sp, s = sp ++ r /\ number_text v sp.
  Proof.
    intros s v r H. unfold LexModel.number in H.
    destruct (number_float_exponent parse_f32 s) as [[v' r']|] eqn:E1; [injection H as <- <-; eauto using exponent_sound|].
    destruct (number_float_basic parse_f32 s) as [[v' r']|] eqn:E2; [injection H as <- <-; eauto using basic_sound|].
    destruct (number_hex s) as [[v' r']|] eqn:E3; [injection H as <- <-; eauto using hex_sound|].
    destruct (number_int s) as [[v' r']|] eqn:E4; [injection H as <- <-; eauto using int_sound|discriminate].
  Qed.

  Lemma number_digits_complete : forall a b, digits a -> stops is_digit b -> number_digits (a ++ b) = Some (a, b).
  Proof. intros a b [N D] S. apply many1_complete; auto. now apply digits_iff. Qed.
  Lemma whole_and_point_none : forall a b, Forall digit a -> stops is_digit b -> stops (N.eqb 46) b -> whole_and_point (a ++ b) = ([], a ++ b).
  Proof.
    intros a b D S P. unfold whole_and_point. destruct a as [|c a].
    - unfold number_digits. cbn [app]. now rewrite many1_stops.
    - rewrite number_digits_complete; auto; [|split; [discriminate|exact D]]. destruct b as [|d b]; [reflexivity|]. cbn [stops] in P.
      clear -P. apply N.eqb_neq in P. destruct d as [|p]; [reflexivity|]. do 6 (destruct p as [p|p|]; try reflexivity). congruence.
  Qed.
  Lemma whole_and_point_some : forall a b, digits a -> whole_and_point (a ++ bs "." ++ b) = (a ++ bs ".", b).
  Proof. intros a b D. unfold whole_and_point. now rewrite number_digits_complete. Qed.
  (** Where an exponent is missing, there is no number with one. *)
  Lemma exponent_none : forall a b, Forall digit a -> stops is_digit b -> stops (N.eqb 46) b -> stops is_exponent b ->
    number_float_exponent parse_f32 (a ++ b) = None.
  Proof.
    intros a b D S P X. unfold number_float_exponent. rewrite whole_and_point_none by auto. destruct a as [|c a].
    - unfold number_digits. cbn [app]. now rewrite many1_stops.
    - rewrite number_digits_complete; auto; [|split; [discriminate|exact D]]. destruct b as [|d b]; [reflexivity|]. cbn in X. now rewrite X.
  Qed.
  Lemma basic_none : forall a b, Forall digit a -> stops is_digit b -> stops (N.eqb 46) b -> number_float_basic parse_f32 (a ++ b) = None.
  Proof.
    intros a b D S P. unfold number_float_basic. rewrite many_complete; auto; [|now apply digits_iff]. destruct b as [|d b]; [reflexivity|].
    cbn [stops] in P. clear -P. apply N.eqb_neq in P. destruct d as [|p]; [reflexivity|]. do 6 (destruct p as [p|p|]; try reflexivity). congruence.
  Qed.
  Lemma number_complete : forall v s r, number_text v s -> calm r -> number (s ++ r) = Some (v, r).
  Proof.
    intros v s r H C. assert (Cd := calm_digit _ C). assert (Ch := calm_hex _ C). assert (Cp := calm_point _ C). assert (Cx := calm_exponent _ C).
    unfold LexModel.number. destruct H as [s v N H L|p s v P N H L|a b Da Db|a b e sg x A Db E S Dx].
    - apply numeral_sound in H as (_ & <- & D); [|lia]. specialize (D eq_refl). assert (D' := proj1 (digits_iff _) D).
      rewrite exponent_none, basic_none by auto. assert (X : number_hex (s ++ r) = None).
      { unfold number_hex. destruct s as [|c s]; [contradiction|]. inversion D' as [|? ? Dc Ds]. subst. unfold digit in Dc.
        rewrite (proj2 (just_none (bs "$") _)); [|intros z Z; injection Z as -> _; lia].
        rewrite (proj2 (just_none (bs "0x") _)); [reflexivity|]. intros z Z. injection Z as -> Z. destruct s as [|c s].
        - cbn [app] in Z. destruct r as [|c r]; [discriminate|]. injection Z as -> _. eapply C; [reflexivity|]. left. left. unfold letter. lia.
        - injection Z as -> _. inversion Ds as [|? ? Dx Dy]. unfold digit in Dx. lia. }
      rewrite X. unfold number_int. rewrite number_digits_complete by (auto; split; auto). unfold fits_u32.
      destruct (N.ltb_spec (radix_value 10 s) (2 ^ 32)); [reflexivity|lia].
    - apply numeral_sound in H as (D & <- & _); [|lia].
      assert (X : number_hex ((p ++ s) ++ r) = Some (radix_value 16 s, r)).
      { unfold number_hex. rewrite <- app_assoc. destruct P as [-> | ->].
        - rewrite just_app, many1_complete by auto. unfold fits_u32. destruct (N.ltb_spec (radix_value 16 s) (2 ^ 32)); [reflexivity|lia].
        - rewrite (proj2 (just_none (bs "$") _)) by (intros z Z; discriminate Z). rewrite just_app, many1_complete by auto.
          unfold fits_u32. destruct (N.ltb_spec (radix_value 16 s) (2 ^ 32)); [reflexivity|lia]. }
      rewrite X. destruct P as [-> | ->].
      + change ((bs "$" ++ s) ++ r) with ([] ++ (bs "$" ++ s) ++ r). rewrite (exponent_none [] ((bs "$" ++ s) ++ r)), (basic_none [] ((bs "$" ++ s) ++ r)); auto; reflexivity.
      + change ((bs "0x" ++ s) ++ r) with ([48] ++ (120 :: s ++ r)).
        assert (Forall digit [48]) by (constructor; [unfold digit; lia|constructor]).
        rewrite exponent_none, basic_none; auto; reflexivity.
    - assert (X : number_float_exponent parse_f32 ((a ++ bs "." ++ b) ++ r) = None).
      { unfold number_float_exponent. rewrite <- !app_assoc. destruct a as [|c a].
        - change ([] ++ bs "." ++ b ++ r) with ([] ++ (46 :: b ++ r)). unfold whole_and_point, number_digits. cbn [app].
          rewrite many1_stops by reflexivity. now rewrite many1_stops by reflexivity.
        - rewrite whole_and_point_some by (split; [discriminate|exact Da]). rewrite number_digits_complete by auto.
          destruct r as [|d r]; [reflexivity|]. cbn in Cx. now rewrite Cx. }
      rewrite X. unfold number_float_basic. rewrite <- !app_assoc. rewrite many_complete; [|now apply digits_iff|reflexivity].
      change (bs "." ++ b ++ r) with (46 :: b ++ r). cbv iota. now rewrite number_digits_complete by auto.
    - assert (X : forall s, whole_and_point (a ++ b ++ e ++ s) = (a, b ++ e ++ s)).
      { intros s. destruct A as [-> | (w & Dw & ->)].
        - cbn [app]. apply (whole_and_point_none b (e ++ s)); [apply Db| |]; destruct E as [-> | ->]; reflexivity.
        - rewrite <- app_assoc. now apply whole_and_point_some. }
      unfold number_float_exponent. rewrite <- !app_assoc, X.
      assert (Y : forall s, number_digits (b ++ e ++ s) = Some (b, e ++ s)).
      { intros s. apply number_digits_complete; auto. destruct E as [-> | ->]; reflexivity. }
      rewrite Y. assert (Z : exists ec, e = [ec] /\ is_exponent ec = true) by (destruct E as [-> | ->]; eexists; split; reflexivity).
      destruct Z as (ec & -> & Z). cbn [app]. rewrite Z.
      destruct Dx as [Nx Dx]. destruct x as [|x0 x]; [contradiction|]. inversion Dx as [|? ? D0 D1]. subst.
      assert (W : (match sg ++ (x0 :: x) ++ r with [] => ([], sg ++ (x0 :: x) ++ r) | d :: r0 => if is_sign d then ([d], r0) else ([], sg ++ (x0 :: x) ++ r) end) = (sg, (x0 :: x) ++ r)).
      { destruct S as [-> | [-> | ->]]; [|reflexivity|reflexivity]. cbn [app]. unfold digit in D0.
        assert (F : is_sign x0 = false) by (unfold is_sign; lia). now rewrite F. }
      rewrite W. rewrite (number_digits_complete (x0 :: x) r); [reflexivity|split; [discriminate|exact Dx]|exact Cd].
  Qed.

  (** *** Names *)
  Lemma name_start_iff : forall c, is_name_start c = true <-> letter c \/ c = 95.
  Proof. intros c. unfold is_name_start, letter. lia. Qed.
  Lemma identifier_sound : forall s x r, identifier s = Some (x, r) -> s = x ++ r /\ name_text x.
  Proof.
    intros s x r H. unfold identifier in H. destruct s as [|c s]; [discriminate|]. destruct (is_name_start c) eqn:E; [|discriminate].
    destruct (many is_name_char s) as [a b] eqn:Em. injection H as <- <-. apply many_sound in Em as (-> & M & _). split; auto.
    exists c, a. split; auto. split; [now apply name_start_iff|]. apply Forall_forall. intros d Hd. apply name_char_iff.
    rewrite forallb_forall in M. auto.
  Qed.
  Lemma identifier_complete : forall x r, name_text x -> calm r -> identifier (x ++ r) = Some (x, r).
  Proof.
    intros x r (c & s & -> & Hc & Hs) C. cbn [app identifier]. apply name_start_iff in Hc. rewrite Hc.
    rewrite many_complete; auto; [|now apply calm_name]. apply forallb_forall. intros d Hd. apply name_char_iff. rewrite Forall_forall in Hs. auto.
  Qed.

  (** *** Constants *)
  Lemma constant_sound : forall s t r, constant s = Some (t, r) -> exists sp, s = sp ++ r /\ written t sp /\ is_constant t.
  Proof.
    intros s t r H. unfold LexModel.constant in H.
    destruct (number s) as [[v r']|] eqn:E1; [injection H as <- <-; apply number_sound in E1 as (sp & -> & E1); exists sp; repeat split; now constructor|].
    destruct (identifier s) as [[x r']|] eqn:E2; [injection H as <- <-; apply identifier_sound in E2 as (-> & E2); exists x; repeat split; now constructor|].
    destruct (string_literal (wrapper_char SingleQuote) s) as [[x r']|] eqn:E3;
      [injection H as <- <-; apply literal_sound in E3 as ->; exists (quoted SingleQuote x); repeat split; now constructor|].
    destruct (string_literal (wrapper_char DoubleQuote) s) as [[x r']|] eqn:E4; [|discriminate].
    injection H as <- <-. apply literal_sound in E4 as ->. exists (quoted DoubleQuote x). repeat split. now constructor.
  Qed.
  Lemma number_text_start : forall v s, number_text v s -> exists c r, s = c :: r /\ (digit c \/ c = 46 \/ c = 36).
  Proof.
    intros v s H. assert (F : forall a b, Forall digit a -> a <> [] -> exists c r, a ++ b = c :: r /\ (digit c \/ c = 46 \/ c = 36)).
    { intros a b D N. destruct a as [|c a]; [contradiction|]. inversion D; subst. cbn. eauto. }
    destruct H as [s v N H L|p s v P N H L|a b Da Db|a b e sg x A Db E S Dx].
    - apply numeral_sound in H as (_ & _ & D); [|lia]. specialize (D eq_refl). apply digits_iff in D. specialize (F s [] D N). now rewrite app_nil_r in F.
    - destruct P as [-> | ->]; cbn; eexists _, _; split; try reflexivity; unfold digit; lia.
    - destruct a as [|c a]; [cbn; eexists _, _; split; [reflexivity|auto]|]. apply F; auto. discriminate.
    - destruct A as [-> | (w & [Nw Dw] & ->)]; [cbn [app]; apply F; apply Db|]. rewrite <- app_assoc. apply F; auto.
  Qed.
  Lemma number_none : forall c s, ~ digit c -> c <> 46 -> c <> 36 -> number (c :: s) = None.
  Proof.
    intros c s D P Q. destruct (number (c :: s)) as [[v r]|] eqn:E; [|reflexivity]. apply number_sound in E as (sp & E & H).
    apply number_text_start in H as (c' & r' & -> & H). injection E as <- _. tauto.
  Qed.
  Lemma identifier_none : forall c s, ~ letter c -> c <> 95 -> identifier (c :: s) = None.
  Proof. intros c s L U. cbn. destruct (is_name_start c) eqn:E; [|reflexivity]. apply name_start_iff in E. tauto. Qed.
  Lemma constant_complete : forall t s r, written t s -> is_constant t -> calm r -> constant (s ++ r) = Some (t, r).
  Proof.
    intros t s r W K C. unfold LexModel.constant. destruct W; try contradiction.
    - destruct H as (c & x & -> & Hc & Hx). rewrite (identifier_complete (c :: x)); auto; [|exists c, x; auto]. cbn [app].
      rewrite number_none; [reflexivity|..]; unfold letter, digit in *; lia.
    - assert (Q : exists z, quoted w s ++ r = quote_char w :: z) by (eexists; reflexivity). destruct Q as (z & Q).
      assert (L := literal_complete w s r (calm_quote w r C)). rewrite Q in *. unfold quote_char in *.
      rewrite number_none by (destruct w; unfold digit; lia). rewrite identifier_none by (destruct w; unfold letter; lia).
      destruct w; rewrite L; reflexivity.
    - now rewrite (number_complete v s r).
  Qed.

  (** *** One token *)
  Lemma written_start : forall t s, written t s -> is_constant t -> exists c r, s = c :: r /\ constant_start c.
  Proof.
    intros t s W K. destruct W; try contradiction.
    - destruct H as (c & x & -> & Hc & Hx). exists c, x. split; auto. left. unfold name_char. tauto.
    - exists (quote_char w), (double_quotes (quote_char w) s ++ [quote_char w]). split; auto. unfold constant_start. destruct w; auto.
    - apply number_text_start in H as (c & x & -> & H). exists c, x. split; auto. unfold constant_start, name_char. tauto.
  Qed.
  Lemma constant_start_only : forall c s, constant_start c ->
    comment (c :: s) = None /\ first_just operator_table (c :: s) = None /\ first_just control_table (c :: s) = None /\ is_ws c = false.
  Proof.
    intros c s H. unfold constant_start, name_char, letter, digit in H. repeat split.
    - destruct (comment (c :: s)) as [[t r]|] eqn:E; [|reflexivity]. exfalso. unfold comment in E.
      destruct (multi_line_comment _) as [[t' r']|] eqn:E1.
      + apply block_sound in E1 as (x & _ & _ & E1). injection E1 as -> _. lia.
      + apply line_sound in E as (x & _ & _ & E & _). injection E as -> _. lia.
    - destruct (first_just operator_table (c :: s)) as [[o r]|] eqn:E; [|reflexivity]. exfalso. apply operator_sound in E as [E _].
      destruct o; injection E as -> _; lia.
    - destruct (first_just control_table (c :: s)) as [[o r]|] eqn:E; [|reflexivity]. exfalso. apply control_sound in E.
      destruct o; injection E as -> _; lia.
    - unfold is_ws. lia.
  Qed.
  Lemma next_sound : forall s t r, next_token s = Some (t, r) -> exists sp, s = sp ++ r /\ sp <> [] /\ written t sp /\
    (is_constant t -> not_constant r = true) /\ (~ is_constant t -> may_precede t r).
  Proof.
    intros s t r H. unfold LexModel.next_token in H. destruct (comment s) as [[t' r']|] eqn:Ec.
    - injection H as <- <-. unfold comment in Ec. destruct (multi_line_comment s) as [[t2 r2]|] eqn:E1.
      + injection Ec as <- <-. apply block_sound in E1 as (c & -> & Hc & ->). eexists. split; [reflexivity|]. repeat split; try discriminate; try contradiction.
        now constructor.
      + apply line_sound in Ec as (c & -> & Hc & -> & B). eexists. split; [reflexivity|]. repeat split; try discriminate; try contradiction.
        * now constructor.
        * intros c' E. injection E as <-. exact B.
    - unfold base_token in H. destruct (first_just operator_table s) as [[o r']|] eqn:Eo.
      + injection H as <- <-. apply operator_sound in Eo as [-> M]. exists (operator_text o). repeat split; try contradiction; try discriminate.
        * destruct o; discriminate.
        * constructor.
        * injection H0 as <-. exact M.
        * injection H0 as <-. intros z E. rewrite E in Ec. unfold comment in Ec. destruct (multi_line_comment _) as [[? ?]|]; [discriminate|].
          unfold single_line_comment in Ec. rewrite just_app in Ec. now destruct (before at_newline z).
        * injection H0 as <-. intros z E (a & b & Ez). rewrite E in Ec. unfold comment in Ec.
          destruct (multi_line_comment (bs "/*" ++ z)) as [[? ?]|] eqn:Em; [discriminate|]. unfold multi_line_comment in Em. rewrite just_app in Em.
          destruct (before (starts_with (bs "*/")) z) as [x y] eqn:Eb. apply before_sound in Eb as (-> & Eb1 & [-> | Eb2]).
          -- rewrite app_nil_r in *. subst x. specialize (Eb1 a (bs "*/" ++ b) eq_refl ltac:(discriminate)). rewrite app_nil_r, starts_with_app in Eb1. discriminate.
          -- apply starts_with_iff in Eb2 as (y' & ->). now rewrite just_app in Em.
      + destruct (first_just control_table s) as [[c r']|] eqn:Et.
        * injection H as <- <-. apply control_sound in Et as ->. exists (control_text c). repeat split; try contradiction; try discriminate.
          -- destruct c; discriminate.
          -- constructor.
        * destruct (constant s) as [[t' r']|] eqn:Ek; [|discriminate]. destruct (not_constant r') eqn:En; [|discriminate]. injection H as <- <-.
          apply constant_sound in Ek as (sp & -> & W & K). exists sp. repeat split; auto; try contradiction.
          apply written_start in W as (c & x & -> & _); auto. discriminate.
  Qed.
  Lemma next_complete : forall t s r, written t s -> may_precede t r -> next_token (s ++ r) = Some (t, r).
  Proof.
    intros t s r W (Hk & Ho & Hc). unfold LexModel.next_token.
    assert (Kc : is_constant t -> match comment (s ++ r) with Some x => Some x | None => base_token parse_f32 f32_of (s ++ r) end = Some (t, r)).
    { intros K. assert (K' := K). assert (C : calm r) by (intros c z E; now apply (Hk K c z)). assert (S := written_start _ _ W K).
      assert (N := constant_complete _ _ _ W K C). destruct S as (c & x & -> & S). cbn [app] in *.
      destruct (constant_start_only c (x ++ r) S) as (E1 & E2 & E3 & _). rewrite E1. unfold base_token. rewrite E2, E3, N.
      assert (Nc : not_constant r = true).
      { unfold LexModel.not_constant. destruct r as [|d r]; [reflexivity|]. destruct (constant (d :: r)) as [[t2 r2]|] eqn:E; [|reflexivity].
        apply constant_sound in E as (sp & E & W2 & K2). apply written_start in W2 as (c2 & x2 & -> & S2); auto. injection E as <- _.
        exfalso. eapply C; eauto. }
      now rewrite Nc. }
    destruct W; try (apply Kc; exact I).
    - unfold comment. now rewrite block_complete.
    - unfold comment. destruct (multi_line_comment ((bs "//" ++ c) ++ r)) as [[? ?]|] eqn:E.
      + apply block_sound in E as (? & _ & _ & E). discriminate E.
      + rewrite line_complete; auto.
    - destruct (Ho o eq_refl) as (M & NL & NB). unfold base_token. rewrite operator_complete by auto.
      destruct (comment (operator_text o ++ r)) as [[? ?]|] eqn:E; [|reflexivity]. exfalso. unfold comment in E.
      destruct (multi_line_comment _) as [[? z]|] eqn:Em.
      + apply block_sound in Em as (x & _ & _ & Em). rewrite <- !app_assoc in Em. apply (NB _ Em). now exists x, z.
      + apply line_sound in E as (x & _ & _ & E & _). rewrite <- app_assoc in E. now apply NL in E.
    - unfold base_token. destruct (control_complete c r) as [-> ->].
      destruct (comment (control_text c ++ r)) as [[? ?]|] eqn:E; [|reflexivity]. exfalso. unfold comment in E.
      destruct (multi_line_comment _) as [[? ?]|] eqn:Em.
      + apply block_sound in Em as (x & _ & _ & Em). destruct c; discriminate Em.
      + apply line_sound in E as (x & _ & _ & E & _). destruct c; discriminate E.
  Qed.

  (** *** The whole text *)
  Lemma trim_split : forall s, exists w, s = w ++ trim_start s /\ white w /\ stops is_ws (trim_start s).
  Proof.
    induction s as [|c s (w & E & W & S)]; [exists []; cbn; repeat split; constructor|]. cbn [trim_start].
    destruct (is_ws c) eqn:Ec.
    - exists (c :: w). cbn [app]. rewrite <- E. repeat split; auto. now constructor.
    - exists []. cbn. repeat split; auto. constructor.
  Qed.
  Lemma trim_app : forall w s, white w -> stops is_ws s -> trim_start (w ++ s) = s.
  Proof.
    induction w as [|c w IH]; intros s W S; cbn [app].
    - destruct s as [|c s]; [reflexivity|]. cbn in *. now rewrite S.
    - inversion W as [|? ? Wc Ww]. subst. cbn [trim_start]. rewrite Wc. auto.
  Qed.
  Lemma written_solid : forall t s, written t s -> exists c r, s = c :: r /\ is_ws c = false.
  Proof.
    intros t s W. destruct W; try (eexists _, _; split; [reflexivity|reflexivity]).
    - destruct o; eexists _, _; split; reflexivity.
    - destruct c; eexists _, _; split; reflexivity.
    - assert (K : is_constant (TIdent s)) by exact I. apply (written_start (TIdent s) s) in K as (c & x & -> & S); [|now constructor].
      exists c, x. split; auto. now destruct (constant_start_only c x S).
    - assert (K : is_constant (TString s w)) by exact I. apply (written_start (TString s w) (quoted w s)) in K as (c & x & -> & S); [|now constructor].
      exists c, x. split; auto. now destruct (constant_start_only c x S).
    - assert (K : is_constant (TNumber v)) by exact I. apply (written_start (TNumber v) s) in K as (c & x & -> & S); [|now constructor].
      exists c, x. split; auto. now destruct (constant_start_only c x S).
  Qed.
  Lemma lex_sound : forall n pos s ts, lex_tokens n pos s = Some ts -> reads pos s ts.
  Proof.
    induction n as [|n IH]; intros pos s ts H; [discriminate|]. cbn [LexModel.lex_tokens] in H.
    destruct (trim_split s) as (w & E & W & S). remember (trim_start s) as t eqn:Et. clear Et. subst s.
    destruct t as [|c t]; [injection H as <-; rewrite app_nil_r; now constructor|].
    destruct (next_token (c :: t)) as [[tok r]|] eqn:En; [|discriminate].
    apply next_sound in En as (sp & Esp & Nsp & Wr & K & NK). rewrite Esp in *. clear Esp c t.
    destruct (lex_tokens n _ r) as [ts'|] eqn:El; [|discriminate]. injection H as <-.
    assert (A1 : pos + (chars (w ++ sp ++ r) - chars (sp ++ r)) = pos + N.of_nat (length w)) by (unfold chars; rewrite !app_length; lia).
    rewrite A1 in *.
    assert (A2 : pos + N.of_nat (length w) + (chars (sp ++ r) - chars r) = pos + N.of_nat (length w) + N.of_nat (length sp)) by (unfold chars; rewrite !app_length; lia).
    rewrite A2 in *. apply R_token; [exact W|exact Wr| |now apply IH].
    assert (D : is_constant tok \/ ~ is_constant tok) by (destruct tok; cbn; auto). destruct D as [D|D]; [|auto].
    specialize (K D). refine (conj _ (conj (fun o E => _) (fun x E => _))); [|subst; contradiction D|subst; contradiction D].
    intros _ c z -> Sc. destruct (constant_start_only c z Sc) as (E1 & E2 & E3 & E4).
    destruct n as [|n]; [discriminate|]. cbn [LexModel.lex_tokens trim_start] in El. rewrite E4 in El.
    unfold LexModel.next_token, base_token in El. rewrite E1, E2, E3 in El. unfold LexModel.not_constant in K.
    destruct (constant (c :: z)); [discriminate|discriminate].
  Qed.
  Lemma lex_complete : forall pos s ts, reads pos s ts -> forall n, (length s < n)%nat -> lex_tokens n pos s = Some ts.
  Proof.
    induction 1 as [pos w W|pos w t s rest ts W Wr P start stop R IH]; intros n L; (destruct n as [|n]; [lia|]); cbn [LexModel.lex_tokens].
    - rewrite <- (app_nil_r w), (trim_app w []) by (auto; exact I). reflexivity.
    - assert (Sol := written_solid _ _ Wr). assert (T : trim_start (w ++ s ++ rest) = s ++ rest).
      { apply trim_app; auto. destruct Sol as (c & x & -> & Sol). exact Sol. }
      rewrite T. assert (N := next_complete _ _ _ Wr P). rewrite N.
      assert (A1 : pos + (chars (w ++ s ++ rest) - chars (s ++ rest)) = start) by (unfold chars; rewrite !app_length; lia).
      assert (A2 : start + (chars (s ++ rest) - chars rest) = stop) by (unfold chars; rewrite !app_length; lia).
      rewrite A1, A2. rewrite IH.
      + destruct Sol as (c & x & -> & _). reflexivity.
      + destruct Sol as (c & x & -> & _). rewrite !app_length in L. cbn in L. lia.
  Qed.
  Theorem lex_iff : forall s ts, lex s = Some ts <-> reads 0 s ts.
  Proof. intros s ts. unfold LexModel.lex. split; [apply lex_sound|]. intros H. apply lex_complete; auto. Qed.
End Lexer.
