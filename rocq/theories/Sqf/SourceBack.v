(** Blocks and expressions read back. *)
From Coq Require Import String.
From Verif Require Import Base.Tactics Base.Bytes Base.Ascii Base.Text Sqf.Ast Sqf.ParseModel Sqf.ParseSpec Sqf.ParseProofs Sqf.ParseComplete
  Sqf.LexModel Sqf.LexSpec Sqf.LexProofs Sqf.SourceModel Sqf.SourceSpec Sqf.SourceProofs.
Local Open Scope N_scope.
Local Open Scope list_scope.

Definition inside (ts T : list ltoken) : Prop := exists a b, T = a ++ ts ++ b.
Lemma inside_refl : forall ts, inside ts ts.
Proof. intros ts. exists [], []. now rewrite app_nil_r. Qed.
Lemma inside_trans : forall a b c, inside a b -> inside b c -> inside a c.
Proof. intros a b c (x & y & ->) (u & v & ->). exists (u ++ x), (y ++ v). now rewrite <- !app_assoc. Qed.
Lemma inside_left : forall a b, inside a (a ++ b).
Proof. intros a b. now exists [], b. Qed.
Lemma inside_right : forall a b, inside b (a ++ b).
Proof. intros a b. exists a, []. now rewrite app_nil_r. Qed.
Lemma inside_tail : forall t b, inside b (t :: b).
Proof. intros t b. exists [t], []. cbn. now rewrite app_nil_r. Qed.
Lemma inside_bracket : forall t u b, inside b (t :: b ++ [u]).
Proof. intros t u b. exists [t], [u]. reflexivity. Qed.
Lemma inside_mid : forall a t b, inside b (a ++ t :: b).
Proof. intros a t b. exists (a ++ [t]), []. rewrite app_nil_r, <- app_assoc. reflexivity. Qed.
Lemma inside_in : forall t b a, inside (t :: b) a -> In t a.
Proof. intros t b a (x & y & ->). apply in_or_app. right. now left. Qed.
#[local] Hint Resolve inside_refl inside_left inside_right inside_tail inside_bracket inside_mid : core.

Section Origin.
  Context (db : database) (ex : span -> text).
  Definition origin (x : expr) (ts : list ltoken) : Prop := exists m ts', inside ts' ts /\ spells db ex m x ts'.
  Lemma origin_inside : forall x a b, origin x a -> inside a b -> origin x b.
  Proof. intros x a b (m & ts & I & S) I'. exists m, ts. split; auto. eapply inside_trans; eauto. Qed.
  (** Every part of a tree is spelled by a part of the tokens. *)
  Lemma parts_spelled :
    (forall n e ts, spells db ex n e ts -> forall x, within x e -> origin x ts) /\
    (forall es ts, spells_list db ex es ts -> forall e x, In e es -> within x e -> origin x ts) /\
    (forall s ts, spells_statement db ex s ts -> forall x, within x (stmt_expr s) -> origin x ts) /\
    (forall ss ts, spells_statements db ex ss ts -> forall s x, In s ss -> within x (stmt_expr s) -> origin x ts).
  Proof.
    apply (spells_mutual db ex (fun n e ts _ => forall x, within x e -> origin x ts) (fun es ts _ => forall e x, In e es -> within x e -> origin x ts)
      (fun s ts _ => forall x, within x (stmt_expr s) -> origin x ts) (fun ss ts _ => forall s x, In s ss -> within x (stmt_expr s) -> origin x ts)).
    - intros n c a b o sp ta tb I Sa IHa Sb IHb x W. inversion W; subst.
      + exists n, (ta ++ (o, sp) :: tb). split; auto. now constructor.
      + eapply origin_inside; eauto.
      + eapply origin_inside; eauto.
    - auto.
    - intros c e o sp ts P S IH x W. inversion W; subst; [exists 10%nat, ((o, sp) :: ts); split; auto; now constructor|]. eapply origin_inside; eauto.
    - intros o sp e O x W. assert (x = e) as -> by (destruct O; inversion W; reflexivity). exists 10%nat, [(o, sp)]. split; auto. now constructor.
    - intros e ts sp sp' S IH x W. eapply origin_inside; eauto.
    - intros es ts sp sp' S IH x W. inversion W; subst; [|eapply origin_inside; eauto].
      exists 10%nat, ((TCtl SquareOpen, sp) :: ts ++ [(TCtl SquareClose, sp')]). split; auto. now apply S_array.
    - intros es ts sp sp' S IH x W. inversion W; subst; [|eapply origin_inside; eauto].
      exists 10%nat, ((TCtl CurlyOpen, sp) :: ts ++ [(TCtl CurlyClose, sp')]). split; auto. now apply S_code.
    - intros e x [].
    - intros e ts S IH e' x [->|[]] W. auto.
    - intros e ts sp es ts' N S1 IH1 S2 IH2 e' x [->|I] W; eapply origin_inside; eauto.
    - intros y e sp sp' ts N P S IH x W. eapply origin_inside; [eauto|]. eapply inside_trans; [apply inside_tail|apply inside_tail].
    - intros p y e sp sp' sp'' ts N P S IH x W. eapply origin_inside; [eauto|]. eapply inside_trans; [apply inside_tail|]. eapply inside_trans; apply inside_tail.
    - auto.
    - intros s x [].
    - intros s ts S IH s' x [->|[]] W. auto.
    - intros s ts sp S IH s' x [->|[]] W. eapply origin_inside; eauto.
    - intros s ts sp ss ts' N S1 IH1 S2 IH2 s' x [->|I] W; eapply origin_inside; eauto.
  Qed.
  Lemma code_origin : forall n e ts, spells db ex n e ts -> forall c src sp, e = ECode c src sp ->
    exists B sp', inside B ts /\ spells_statements db ex c B /\ sp = extent B sp' /\ src = ex sp.
  Proof.
    induction 1; intros cc src spc E; try discriminate; eauto.
    - destruct H; discriminate.
    - destruct (IHspells _ _ _ E) as (B & s0 & I & K). exists B, s0. split; auto. eapply inside_trans; eauto.
    - injection E as <- <- <-. exists ts, sp'. repeat split; auto.
  Qed.
  Lemma statements_ends : forall c B, spells_statements db ex c B -> c <> [] ->
    exists t sp B', B = (t, sp) :: B' /\ is_terminator t = false.
  Proof.
    assert (E : forall n e ts, spells db ex n e ts -> exists t sp B', ts = (t, sp) :: B' /\ is_terminator t = false).
    { induction 1; eauto 6.
      - destruct IHspells1 as (t & s & B & -> & T). cbn. eauto 6.
      - exists o, sp, ts. split; auto. destruct o; try discriminate; try reflexivity.
      - exists o, sp, []. split; auto. destruct H; reflexivity. }
    assert (E2 : forall s ts, spells_statement db ex s ts -> exists t sp B', ts = (t, sp) :: B' /\ is_terminator t = false).
    { intros s ts H. destruct H; eauto 6. }
    intros c B H. destruct H; intros N; [contradiction|eauto| |].
    - apply E2 in H as (t & s0 & B & -> & T). cbn. eauto 6.
    - apply E2 in H0 as (t & s0 & B & -> & T). cbn. eauto 6.
  Qed.
End Origin.

(** ** Blocks *)
Lemma last_snoc : forall A (l : list A) d, l <> [] -> exists l', l = l' ++ [last l d].
Proof. intros A l d H. exists (removelast l). now apply app_removelast_last. Qed.
Lemma strip_plain : forall ts l x, In x (strip l ts) -> is_comment (fst x) = false.
Proof.
  induction ts as [|t ts IH]; intros l x H; [contradiction|]. rewrite strip_cons in H. apply in_app_or in H as [H|H]; [|eauto].
  unfold kept in H. destruct (is_comment (fst t)) eqn:E; cbn in H; [contradiction|]. destruct (negb _); [|contradiction]. destruct H as [<-|[]]. exact E.
Qed.
Section Back.
  Context (db : database) (parse_f32 : text -> N) (f32_of : N -> N).
  Hypothesis apart : reserved_apart db.
  Notation reads := (reads parse_f32 f32_of).
  Notation written := (written parse_f32 f32_of).
  Notation read_sqf := (read_sqf db parse_f32 f32_of).

  Lemma read_iff : forall s r, read_sqf s = Some r <-> exists ts, reads 0 s ts /\ source r = s /\
    spells_statements db (between s) (content r) (strip true ts) /\
    st_span r = extent (strip true ts) (Preproc.LexModel.byte_len s, Preproc.LexModel.byte_len s + 1).
  Proof.
    intros s r. unfold SourceModel.read_sqf. split.
    - destruct (lex parse_f32 f32_of s) as [ts|] eqn:E; [|discriminate]. apply lex_iff in E. intros H. exists ts. unfold parse in H.
      destruct (run_for_tokens _ _ _ _) as [r'|] eqn:R; [|discriminate]. injection H as <-. apply run_iff in R as (R1 & R2 & R3); auto.
    - intros (ts & R & E & S & L). apply lex_iff in R. rewrite R. unfold parse.
      rewrite (proj2 (run_iff db (between s) _ apart _ (Statements (content r) (between s (st_span r)) (st_span r)))).
      + destruct r. cbn in *. now subst.
      + repeat split; cbn; auto.
  Qed.

  Lemma reads_suffix : forall R1 R2 pos s, reads pos s (R1 ++ R2) -> exists a s2, s = a ++ s2 /\ reads (pos + N.of_nat (length a)) s2 R2.
  Proof.
    induction R1 as [|t R1 IH]; intros R2 pos s H; cbn [app] in H.
    - exists [], s. cbn. rewrite N.add_0_r. auto.
    - inversion H as [|p w t' s1 rest ts0 W Wr P start stop R]; subst. apply IH in R as (a & s2 & -> & R). exists (w ++ s1 ++ a), s2.
      rewrite <- !app_assoc. split; auto. subst stop start. rewrite !app_length, !Nat2N.inj_add. now rewrite !N.add_assoc.
  Qed.
  Lemma between_part : forall a w m b, between (a ++ w ++ m ++ b) (N.of_nat (length a) + N.of_nat (length w), N.of_nat (length a) + N.of_nat (length w) + N.of_nat (length m)) = m.
  Proof.
    intros a w m b. unfold between, Workspace.ProcessedModel.take, Workspace.ProcessedModel.drop. cbn [fst snd].
    replace (N.to_nat (N.of_nat (length a) + N.of_nat (length w))) with (length (a ++ w)) by (rewrite app_length; lia).
    rewrite app_assoc, skipn_app, skipn_all, Nat.sub_diag. cbn [app skipn].
    replace (N.to_nat (N.of_nat (length a) + N.of_nat (length w) + N.of_nat (length m) - (N.of_nat (length a) + N.of_nat (length w)))) with (length m) by lia.
    now rewrite firstn_app, firstn_all, Nat.sub_diag, app_nil_r.
  Qed.
  (** The text a block keeps: it can be read again before anything that may follow, and gives the block's statements. *)
  Lemma block_text : forall s R c B sp', reads 0 s R -> spells_statements db (between s) c B -> inside B (strip true R) -> c <> [] ->
    forall q z tz, follows z -> let src := between s (extent B sp') in reads (q + N.of_nat (length src)) z tz ->
    exists ts, reads q (src ++ z) (ts ++ tz) /\ forall l, toks (strip l ts) = toks B.
  Proof.
    intros s R c B sp' HR HS (A & C & HI) N q z tz F src Rz.
    destruct (statements_ends _ _ _ _ HS N) as (t & sp & B' & EB & T).
    assert (NB : B <> []) by now rewrite EB.
    destruct (last_snoc _ B (t, sp) NB) as (B2 & EB2). destruct (last B (t, sp)) as [u su] eqn:EL.
    destruct (strip_part R true A B C t u sp su HI (ex_intro _ B' EB) (ex_intro _ B2 EB2) T) as (R1 & RB & R2 & -> & (RB1 & ERB) & (RB2 & ERB2) & SB).
    apply reads_suffix in HR as (a & s2 & -> & HR). rewrite ERB in HR. apply reads_part in HR as (w & m & b & -> & W & _ & P1 & P2 & K).
    assert (LRB : last ((t, sp) :: RB1) (t, sp) = (u, su)) by now rewrite <- ERB, ERB2, last_last.
    rewrite LRB in P2, K. cbn [fst snd] in P1, P2, K.
    assert (Esrc : src = m).
    { unfold src, extent. rewrite EB. rewrite EB in EL. cbn [fst snd]. rewrite EL. cbn [snd]. rewrite N.add_0_l in P1, P2. rewrite P1, P2. apply between_part. }
    clearbody src. subst src. destruct (K) with (q := q) (z := z) (tz := tz) as (ts & Rts & Tts); auto.
    - apply (strip_plain RB true (u, su)). rewrite SB, EB2. apply in_or_app. right. now left.
    - destruct (clash (toks ((t, sp) :: RB1))) eqn:Ec; [|reflexivity]. rewrite <- ERB in Ec. apply (clash_raw _ true) in Ec. rewrite SB in Ec.
      destruct (spells_sound db (between (a ++ w ++ m ++ b))) as (_ & _ & _ & Sd). apply Sd in HS as (HS & _). congruence.
    - exists ts. split; auto. intros l. rewrite (strip_toks ts RB) by congruence. now rewrite SB.
  Qed.
End Back.

(** ** Expressions *)
Lemma strip_plain_cons : forall l t sp Y, is_comment t = false -> opens_noop t = false -> strip l ((t, sp) :: Y) = (t, sp) :: strip false Y.
Proof.
  intros l t sp Y C O. rewrite strip_cons. cbn [fst]. rewrite kept_any; auto; [|destruct t; try reflexivity; destruct c; try reflexivity; discriminate].
  unfold state_after. now rewrite C, O.
Qed.
Definition plain (t : token) : Prop := is_comment t = false /\ opens_noop t = false.
Lemma name_of : forall x, forallb (fun c => (97 <=? c) && (c <=? 122) || (48 <=? c) && (c <=? 57)) x = true -> (match x with c :: _ => 97 <=? c | [] => false end) = true -> name_text x.
Proof.
  intros [|c r] H H0; [discriminate|]. cbn [forallb] in H. apply andb_true_iff in H as [H1 H2]. exists c, r. split; auto. split.
  - left. right. lia.
  - apply Forall_forall. intros d I. rewrite forallb_forall in H2. specialize (H2 d I). unfold name_char, letter, digit. lia.
Qed.
Lemma infix_level : forall db o n c, infix db o = Some (n, c) -> (1 <= n <= 9)%nat.
Proof.
  intros db o n c P. destruct o as [|o| | |x|]; try discriminate.
  - destruct o; try discriminate; injection P as <- <-; lia.
  - cbn in P. destruct (reserved x) as [[m d]|] eqn:E.
    + injection P as <- <-. unfold reserved in E. cbv zeta in E.
      repeat match type of E with (if ?b then _ else _) = _ => destruct b; [injection E as <- <-; lia|] end. discriminate E.
    + destruct (has_binary db x) eqn:U; [|discriminate]. injection P as <- <-. lia.
Qed.
Section Show.
  Context (db : database) (parse_f32 : text -> N) (f32_of : N -> N) (show_f32 : N -> text) (ex ex' : span -> text).
  Notation reads := (reads parse_f32 f32_of).
  Notation written := (written parse_f32 f32_of).
  Notation expr_source := (expr_source show_f32).
  (** The text reads as tokens of which, without comments and empty statements, [P] holds, whatever follows. *)
  Definition seg (s : text) (P : list ltoken -> Prop) : Prop := forall q z tz, follows z -> reads (q + N.of_nat (length s)) z tz ->
    exists raw, reads q (s ++ z) (raw ++ tz) /\ exists st, (forall l Y, strip l (raw ++ Y) = st ++ strip false Y) /\ P st.
  Lemma seg_impl : forall s (P Q : list ltoken -> Prop), seg s P -> (forall st, P st -> Q st) -> seg s Q.
  Proof. intros s P Q H I q z tz F R. destruct (H q z tz F R) as (raw & R' & st & S & p). exists raw. split; auto. exists st. auto. Qed.
  Lemma seg_token : forall t s, written t s -> plain t -> seg s (fun st => exists sp, st = [(t, sp)]).
  Proof.
    intros t s W [C O] q z tz F R. exists [(t, (q, q + N.of_nat (length s)))]. split.
    - assert (X := R_token parse_f32 f32_of q [] t s z tz ltac:(constructor) W (follows_precedes parse_f32 f32_of t z C F)). cbn zeta in X. cbn [length app] in X.
      rewrite N.add_0_r in X. now apply X.
    - eexists. split; [|eexists; reflexivity]. intros l Y. cbn [app]. now apply strip_plain_cons.
  Qed.
  Lemma seg_app : forall a b P Q, seg a P -> seg b Q -> (forall z, follows z -> follows (b ++ z)) ->
    seg (a ++ b) (fun st => exists s1 s2, st = s1 ++ s2 /\ P s1 /\ Q s2).
  Proof.
    intros a b P Q Ha Hb L q z tz F R. rewrite app_length, Nat2N.inj_add, N.add_assoc in R.
    destruct (Hb _ z tz F R) as (rb & Rb & sb & Sb & Qb). destruct (Ha q (b ++ z) (rb ++ tz) (L z F) Rb) as (ra & Ra & sa & Sa & Pa).
    exists (ra ++ rb). rewrite <- !app_assoc. split; auto. exists (sa ++ sb). split; [|eauto]. intros l Y. now rewrite <- !app_assoc, Sa, Sb.
  Qed.
  Lemma seg_space : forall b Q, seg b Q -> seg (bs " " ++ b) Q.
  Proof.
    intros b Q H q z tz F R. rewrite app_length, Nat2N.inj_add, N.add_assoc in R. destruct (H _ z tz F R) as (rb & Rb & K).
    exists rb. split; auto. rewrite <- app_assoc. apply reads_shift; [repeat constructor|]. exact Rb.
  Qed.
  Lemma control_precedes : forall c z, may_precede (TCtl c) z.
  Proof. intros c z. refine (conj _ (conj (fun o E => _) (fun x E => _))); try discriminate. intros []. Qed.
  Lemma seg_open : forall c b Q, opens_noop (TCtl c) = false -> seg b Q -> seg (control_text c ++ b) (fun st => exists sp st', st = (TCtl c, sp) :: st' /\ Q st').
  Proof.
    intros c b Q O H q z tz F R. rewrite app_length, Nat2N.inj_add, N.add_assoc in R. destruct (H _ z tz F R) as (rb & Rb & sb & Sb & Qb).
    exists ((TCtl c, (q, q + N.of_nat (length (control_text c)))) :: rb). split.
    - assert (X := R_token parse_f32 f32_of q [] (TCtl c) (control_text c) (b ++ z) (rb ++ tz) ltac:(constructor) ltac:(constructor) (control_precedes c _)).
      cbn zeta in X. cbn [length app] in X. rewrite N.add_0_r in X. rewrite <- app_assoc. now apply X.
    - exists ((TCtl c, (q, q + N.of_nat (length (control_text c)))) :: sb). split; [|eauto]. intros l Y. cbn [app]. rewrite strip_plain_cons; auto. now rewrite Sb.
  Qed.
  Lemma seg_close : forall a c P, In c [RoundClose; SquareClose] -> seg a P -> seg (a ++ control_text c) (fun st => exists s1 sp, st = s1 ++ [(TCtl c, sp)] /\ P s1).
  Proof.
    intros a c P I H. eapply seg_impl.
    - apply (seg_app _ _ _ _ H (seg_token (TCtl c) _ ltac:(constructor) ltac:(destruct I as [<-|[<-|[]]]; split; reflexivity))).
      intros z _. destruct I as [<-|[<-|[]]]; cbn; auto.
    - intros st (s1 & s2 & -> & Ps & sp & ->). eauto.
  Qed.

  (** The grammar's strongest level gives any level. *)
  Lemma weaken : forall n m e ts, (m <= n)%nat -> (n <= 10)%nat -> spells db ex' n e ts -> spells db ex' m e ts.
  Proof.
    intros n m e ts L N H. remember (n - m)%nat as d eqn:D. revert m L D. induction d as [|d IH]; intros m L D.
    - replace m with n by lia. exact H.
    - apply S_stronger; [lia|]. apply IH; lia.
  Qed.
  Definition shows (e : expr) (n : nat) (st : list ltoken) : Prop := exists e', spells db ex' n e' st /\ bare e' = bare e.
  Definition level (e : expr) : nat := if is_binary e then 1%nat else 10%nat.
  Definition enclosed (e : expr) : text := if is_binary e then bs "(" ++ expr_source e ++ bs ")" else expr_source e.
  Lemma seg_one : forall e, seg (expr_source e) (shows e (level e)) -> seg (expr_source e) (shows e 1).
  Proof.
    intros e H. eapply seg_impl; [exact H|]. intros st (e' & S & B). exists e'. split; auto. eapply weaken; [|  |exact S]; unfold level; destruct (is_binary e); lia.
  Qed.
  Lemma seg_enclosed : forall e, seg (expr_source e) (shows e (level e)) -> seg (enclosed e) (shows e 10).
  Proof.
    intros e H. unfold enclosed, level in *. destruct (is_binary e); [|exact H].
    eapply seg_impl; [apply (seg_open RoundOpen _ _ eq_refl (seg_close _ RoundClose _ (or_introl eq_refl) H))|].
    intros st (sp & st' & -> & s1 & sp' & -> & e' & S & B). exists e'. split; auto. now constructor.
  Qed.
  (** What is written in front of an operand or between two. *)
  Lemma prefix_shown : forall o s0 c, written o s0 -> prefix db o = Some c -> exists o', written o' (unary_str c) /\ plain o' /\ prefix db o' = Some c.
  Proof.
    intros o s0 c W P. destruct o as [|o| | |x|]; try discriminate.
    - destruct o; try discriminate; injection P as <-; [exists (TOp ONot)|exists (TOp OAdd)|exists (TOp OSub)]; (split; [constructor|split; [split|]; reflexivity]).
    - cbn in P. destruct (has_unary db x) eqn:U; [|discriminate]. injection P as <-. exists (TIdent x). split; [|split; [split; reflexivity|cbn; now rewrite U]].
      inversion W; subst. now constructor.
  Qed.
  Lemma infix_shown : forall o s0 n c, written o s0 -> infix db o = Some (n, c) -> exists o', written o' (binary_str c) /\ plain o' /\ infix db o' = Some (n, c).
  Proof.
    intros o s0 n c W P. destruct o as [|o| | |x|]; try discriminate.
    - destruct o; try discriminate; injection P as <- <-;
        match goal with |- exists o', _ /\ _ /\ infix _ o' = Some (?n, ?c) =>
          let o' := match c with BOr => OOr | BAnd => OAnd | BEq => OEq | BNotEq => ONotEq | BGreater => OGreater | BLess => OLess | BGreaterEq => OGreaterEq
            | BLessEq => OLessEq | BConfigPath => OConfigPath | BAssociate => OAssociate | BAdd => OAdd | BSub => OSub | BMul => OMul | BDiv => ODiv | BRem => ORem
            | BExp => OExp | BSelect => OSelect end in exists (TOp o') end; (split; [constructor|split; [split|]; reflexivity]).
    - cbn in P. destruct (reserved x) as [[m d]|] eqn:E.
      + injection P as <- <-. unfold reserved in E. cbv zeta in E.
        repeat match type of E with (if ?b then _ else _) = _ => destruct b; [injection E as <- <-|] end; try discriminate E;
        first [ now (exists (TOp OOr); repeat split; constructor) | now (exists (TOp OAnd); repeat split; constructor) |
          match goal with |- exists o', written o' (binary_str ?c) /\ _ => exists (TIdent (binary_str c)) end;
          (split; [constructor; apply name_of; reflexivity|split; [split|]; reflexivity]) ].
      + destruct (has_binary db x) eqn:U; [|discriminate]. injection P as <- <-. exists (TIdent x). split; [|split; [split; reflexivity|cbn; now rewrite E, U]].
        inversion W; subst. now constructor.
  Qed.
End Show.

Lemma strip_in : forall ts l x, In x (strip l ts) -> In x ts.
Proof.
  induction ts as [|t ts IH]; intros l x H; [contradiction|]. rewrite strip_cons in H. apply in_app_or in H as [H|H]; [|right; eauto].
  destruct (kept _ _); [|contradiction]. destruct H as [<-|[]]. now left.
Qed.
Section Again.
  Context (db : database) (parse_f32 : text -> N) (f32_of : N -> N) (show_f32 : N -> text) (ex' : span -> text).
  Hypothesis apart : reserved_apart db.
  Notation reads := (reads parse_f32 f32_of).
  Notation written := (written parse_f32 f32_of).
  Notation expr_source := (expr_source show_f32).
  Notation shown_well := (shown_well (number_text parse_f32 f32_of) show_f32).
  Notation seg := (seg parse_f32 f32_of).
  Notation shows := (shows db ex').
  Lemma reads_written : forall R pos s t, reads pos s R -> In t R -> exists s0, written (fst t) s0.
  Proof. intros R pos s t H. induction H; intros I; [contradiction|]. destruct I as [<-|I]; eauto. Qed.
  Lemma undoubled : forall q s, ~ In q s -> double_quotes q s = s.
  Proof.
    intros q s. induction s as [|c s IH]; intros H; [reflexivity|]. cbn [double_quotes flat_map]. destruct (N.eqb_spec c q) as [->|]; [exfalso; apply H; now left|].
    cbn [app]. f_equal. apply IH. intros I. apply H. now right.
  Qed.
  Lemma word_lower : forall x y, to_ascii_lower x = to_ascii_lower y -> has_unary db x = has_unary db y.
  Proof. intros x y E. unfold has_unary. now rewrite E. Qed.
  Fixpoint elements (l : list expr) : text :=
    match l with [] => [] | [e] => expr_source e | e :: r => expr_source e ++ bs "," ++ elements r end.

  Context (s : text) (R : list ltoken).
  Hypothesis HR : reads 0 s R.
  Notation T := (strip true R).
  Lemma in_written : forall t sp ts, inside ((t, sp) :: ts) T -> exists s0, written t s0.
  Proof. intros t sp ts I. apply inside_in, strip_in in I. exact (reads_written R 0 s (t, sp) HR I). Qed.
  Lemma in_written_mid : forall a t sp ts, inside (a ++ (t, sp) :: ts) T -> exists s0, written t s0.
  Proof. intros a t sp ts I. apply (in_written t sp ts). eapply inside_trans; [|exact I]. apply inside_right. Qed.

  Lemma show_back :
    (forall n e ts, spells db (between s) n e ts -> inside ts T -> shown_well e -> seg (expr_source e) (shows e (level e))) /\
    (forall es ts, spells_list db (between s) es ts -> inside ts T -> Forall shown_well es -> es <> [] ->
      seg (elements es) (fun st => exists es', spells_list db ex' es' st /\ map bare es' = map bare es)) /\
    (forall x ts, spells_statement db (between s) x ts -> True) /\
    (forall ss ts, spells_statements db (between s) ss ts -> True).
  Proof.
    apply (spells_mutual db (between s) (fun n e ts _ => inside ts T -> shown_well e -> seg (expr_source e) (shows e (level e)))
      (fun es ts _ => inside ts T -> Forall shown_well es -> es <> [] -> seg (elements es) (fun st => exists es', spells_list db ex' es' st /\ map bare es' = map bare es))
      (fun _ _ _ => True) (fun _ _ _ => True)); auto.
    - intros n c a b o sp ta tb I Sa IHa Sb IHb In [Wa Wb].
      assert (Ha := IHa (inside_trans _ _ _ (inside_left _ _) In) Wa). assert (Hb := IHb (inside_trans _ _ _ (inside_mid _ _ _) In) Wb).
      destruct (in_written_mid _ _ _ _ In) as (s0 & W0). destruct (infix_shown _ _ _ _ _ _ _ W0 I) as (o' & W' & P' & I'). assert (L := infix_level _ _ _ _ I).
      change (expr_source (EBinary c a b sp)) with (enclosed show_f32 a ++ bs " " ++ binary_str c ++ bs " " ++ enclosed show_f32 b).
      eapply seg_impl.
      + apply seg_app; [apply seg_enclosed, Ha| |intros; cbn; auto].
        apply seg_space. apply seg_app; [apply (seg_token _ _ _ _ W' P')|apply seg_space, seg_enclosed, Hb|intros; cbn; auto].
      + intros st (s1 & s2 & -> & (ea & Sa' & Ba) & s3 & s4 & -> & (sp3 & ->) & (eb & Sb' & Bb)). exists (EBinary c ea eb sp3).
        split; [|cbn; now rewrite Ba, Bb]. cbn [level is_binary]. apply (weaken db ex' n); [lia|lia|]. cbn [app]. apply S_binary; auto; (apply (weaken db ex' 10); [lia|lia|assumption]).
    - intros c e o sp ts P S IH In We. assert (He := IH (inside_trans _ _ _ (inside_tail _ _) In) We).
      destruct (in_written _ _ _ In) as (s0 & W0). destruct (prefix_shown _ _ _ _ _ _ W0 P) as (o' & W' & P' & I').
      change (expr_source (EUnary c e sp)) with (unary_str c ++ bs " " ++ enclosed show_f32 e). eapply seg_impl.
      + apply seg_app; [apply (seg_token _ _ _ _ W' P')|apply seg_space, seg_enclosed, He|intros; cbn; auto].
      + intros st (s1 & s2 & -> & (sp3 & ->) & (e' & S' & B)). exists (EUnary c e' sp3). split; [|cbn; now rewrite B]. now constructor.
    - intros o sp e O In We. destruct (in_written _ _ _ In) as (s0 & W0).
      assert (K : forall o' t', written o' t' -> plain o' -> (forall sp', exists e', operand db o' sp' e' /\ bare e' = bare e) -> seg t' (shows e 10)).
      { intros o' t' W' P' H. eapply seg_impl; [apply (seg_token _ _ _ _ W' P')|]. intros st (sp' & ->). destruct (H sp') as (e' & O' & B). exists e'. split; auto. now constructor. }
      destruct O; cbn [level is_binary SourceModel.expr_source].
      + eapply K; [apply W_number; exact We|split; reflexivity|]. intros sp'. eexists. split; [constructor|reflexivity].
      + eapply (K (TString s1 w)); [|split; reflexivity|].
        * replace ([wrapper_char w] ++ s1 ++ [wrapper_char w]) with (quoted w s1); [constructor|]. unfold quoted. rewrite undoubled; [now destruct w|].
          destruct w; exact We.
        * intros sp'. eexists. split; [constructor|reflexivity].
      + apply (K (TIdent (bs "true"))); [constructor; apply name_of; reflexivity|split; reflexivity|].
        intros sp'. eexists. split; [apply O_true|reflexivity]; [|reflexivity]. refine (eq_trans (word_lower _ x _) H). now rewrite H0.
      + apply (K (TIdent (bs "false"))); [constructor; apply name_of; reflexivity|split; reflexivity|].
        intros sp'. eexists. split; [apply O_false|reflexivity]; [|reflexivity]. refine (eq_trans (word_lower _ x _) H). now rewrite H0.
      + apply (K (TIdent x)); [inversion W0; subst; now constructor|split; reflexivity|]. intros sp'. eexists. split; [now apply O_nular|reflexivity].
      + apply (K (TIdent x)); [inversion W0; subst; now constructor|split; reflexivity|]. intros sp'. eexists. split; [now apply O_variable|reflexivity].
    - intros e ts sp sp' S IH In We. apply IH; auto. eapply inside_trans; [apply inside_bracket|exact In].
    - intros es ts sp sp' S IH In We. change (expr_source (EArray es (extent ts sp'))) with (bs "[" ++ elements es ++ bs "]").
      assert (F : Forall shown_well es) by (clear - We; induction es; constructor; cbn in We; [apply We|apply IHes, We]).
      destruct es as [|e0 es].
      + eapply seg_impl; [eapply (seg_open _ _ SquareOpen (bs "]")); [reflexivity|apply (seg_token _ _ (TCtl SquareClose)); [constructor|split; reflexivity]]|].
        intros st (sp1 & st' & -> & sp2 & ->). eexists. split; [apply (S_array db ex' [] [] sp1 sp2); constructor|reflexivity].
      + eapply seg_impl; [eapply (seg_open _ _ SquareOpen); [reflexivity|]; eapply (seg_close _ _ _ SquareClose); [cbn; auto|]; apply IH; auto; [|discriminate];
          eapply inside_trans; [apply inside_bracket|exact In]|].
        intros st (sp1 & st' & -> & s1 & sp2 & -> & es' & S' & B). eexists. split; [apply S_array; exact S'|]. cbn [bare]. now rewrite B.
    - intros ss ts sp sp' S _ In We. cbn [shown_well SourceSpec.shown_well] in We. cbn [SourceModel.expr_source level is_binary].
      intros q z tz F Rz. assert (In' : inside ts T) by (eapply inside_trans; [apply inside_bracket|exact In]).
      set (src := between s (extent ts sp')) in *. rewrite !app_length, !Nat2N.inj_add, !N.add_assoc in Rz. cbn [length] in Rz.
      assert (R1 := R_token parse_f32 f32_of (q + 1 + N.of_nat (length src)) [] (TCtl CurlyClose) (bs "}") z tz ltac:(constructor) ltac:(apply (W_control _ _ CurlyClose)) (control_precedes _ _)).
      cbn zeta in R1. cbn [length app] in R1. rewrite N.add_0_r in R1. specialize (R1 Rz).
      destruct (block_text db parse_f32 f32_of s R ss ts sp' HR S In' We (q + 1) (bs "}" ++ z) _ ltac:(do 4 right; left; reflexivity) R1) as (raw & Rraw & Traw).
      fold src in Rraw.
      assert (R2 := fun rest ts => R_token parse_f32 f32_of q [] (TCtl CurlyOpen) (bs "{") rest ts ltac:(constructor) ltac:(apply (W_control _ _ CurlyOpen)) (control_precedes _ _)).
      cbn zeta in R2. cbn [length app] in R2. rewrite N.add_0_r in R2. specialize (R2 _ _ Rraw).
      eexists ((TCtl CurlyOpen, _) :: raw ++ [(TCtl CurlyClose, _)]). cbn [app]. rewrite <- !app_assoc. cbn [app]. split; [exact R2|].
      destruct (respan db (between s) ex') as (_ & _ & _ & K). destruct (K _ _ S _ (Traw true)) as (ss' & S' & B).
      eexists ((TCtl CurlyOpen, _) :: strip true raw ++ [(TCtl CurlyClose, _)]). split.
      + intros l Y. cbn [app]. rewrite strip_cons. cbn [fst kept is_comment is_terminator negb andb app]. f_equal. unfold state_after. cbn [is_comment opens_noop].
        rewrite <- !app_assoc, strip_app. f_equal. cbn [app]. now rewrite strip_plain_cons.
      + eexists. split; [apply S_code; exact S'|]. cbn [bare]. now rewrite B.
    - intros _ _ N. contradiction.
    - intros e ts S IH In F _. cbn [elements]. inversion F; subst. eapply seg_impl; [apply seg_one, IH; auto|].
      intros st (e' & S' & B). exists [e']. split; [now constructor|cbn; now rewrite B].
    - intros e ts sp es ts' N S1 IH1 S2 IH2 In F _. inversion F; subst.
      assert (H1' := IH1 (inside_trans _ _ _ (inside_left _ _) In) H1). assert (H2' := IH2 (inside_trans _ _ _ (inside_mid _ _ _) In) H2 N).
      replace (elements (e :: es)) with (expr_source e ++ bs "," ++ elements es) by (destruct es; [contradiction|reflexivity]).
      eapply seg_impl; [apply seg_app; [apply seg_one, H1'|eapply (seg_open _ _ Separator); [reflexivity|exact H2']|intros; cbn; auto]|].
      intros st (s1 & s2 & -> & (e' & S' & B) & sp2 & st' & -> & es' & Ss & Bs). exists (e' :: es'). split; [|cbn; now rewrite B, Bs].
      constructor; auto. intros ->. destruct es; [contradiction|discriminate].
  Qed.
End Again.

(** ** Places run forwards *)
Fixpoint forwards (p : N) (ts : list ltoken) : Prop :=
  match ts with [] => True | t :: r => p <= fst (snd t) /\ fst (snd t) <= snd (snd t) /\ forwards (snd (snd t)) r end.
Lemma forwards_less : forall ts p p', p' <= p -> forwards p ts -> forwards p' ts.
Proof. intros [|t ts] p p' L H; [exact I|]. cbn in *. destruct H as (? & ? & ?). repeat split; auto. lia. Qed.
Lemma forwards_strip : forall ts l p, forwards p ts -> forwards p (strip l ts).
Proof.
  induction ts as [|t ts IH]; intros l p H; [exact I|]. rewrite strip_cons. cbn [forwards] in H. destruct H as (H1 & H2 & H3). destruct (kept _ _); cbn [app].
  - cbn [forwards]. auto.
  - apply (forwards_less _ (snd (snd t))); [lia|auto].
Qed.
Lemma forwards_tail : forall a b p, forwards p (a ++ b) -> exists p', p <= p' /\ forwards p' b.
Proof.
  induction a as [|t a IH]; intros b p H; [exists p; split; [lia|exact H]|]. cbn [app forwards] in H. destruct H as (H1 & H2 & H3). apply IH in H3 as (p' & L & H3).
  exists p'. split; [lia|auto].
Qed.
Lemma forwards_head : forall a b p, forwards p (a ++ b) -> forwards p a.
Proof. induction a as [|t a IH]; intros b p H; [exact I|]. cbn [app forwards] in *. destruct H as (H1 & H2 & H3). eauto. Qed.
Lemma forwards_last : forall ts t p, forwards p (t :: ts) -> p <= fst (snd t) /\ fst (snd t) <= snd (snd (last (t :: ts) t)).
Proof.
  induction ts as [|u ts IH]; intros t p H; cbn [forwards] in H; destruct H as (H1 & H2 & H3); [cbn; auto|]. split; auto.
  change (last (t :: u :: ts) t) with (last (u :: ts) t). rewrite (last_any _ ts u t u). apply IH in H3 as [H3 H4]. lia.
Qed.
Lemma reads_forwards : forall pf ff p s ts, LexSpec.reads pf ff p s ts -> forwards p ts /\ forall t, In t ts -> snd (snd t) <= p + N.of_nat (length s).
Proof.
  intros pf ff p s ts H. induction H as [|p w t s rest ts W Wr P start stop R IH]; [split; [exact I|intros ? []]|].
  destruct IH as [IH1 IH2]. split.
  - cbn [forwards fst snd]. subst stop start. repeat split; auto; lia.
  - intros u [<-|I]; [cbn [snd]|apply IH2 in I]; subst stop start; rewrite !app_length; lia.
Qed.
Lemma last_in : forall A (l : list A) x d, In (last (x :: l) d) (x :: l).
Proof. intros A. induction l as [|y l IH]; intros x d; [now left|]. right. apply (IH y d). Qed.
Lemma extent_forwards : forall p ts t, forwards p ts -> ts <> [] -> fst (extent ts t) <= snd (extent ts t).
Proof. intros p [|u ts] t H N; [contradiction|]. apply forwards_last in H. cbn [extent fst snd]. tauto. Qed.
Lemma code_extent : forall db ex n e ts, spells db ex n e ts -> forall c src sp, e = ECode c src sp ->
  exists B o cl, inside ((TCtl CurlyOpen, o) :: B ++ [(TCtl CurlyClose, cl)]) ts /\ sp = extent B cl /\ src = ex sp.
Proof.
  induction 1; intros cc src spc E; try discriminate; eauto.
  - destruct H; discriminate.
  - destruct (IHspells _ _ _ E) as (B & o & cl & I & K). exists B, o, cl. split; auto. eapply inside_trans; [exact I|]. apply inside_bracket.
  - injection E as <- <- <-. exists ts, sp, sp'. repeat split; auto.
Qed.
