From Coq Require Import String.
From Verif Require Import Base.Tactics Base.Bytes Base.Ascii Base.Text Sqf.Ast Sqf.ParseModel Sqf.ParseSpec.
Local Open Scope N_scope.
Local Open Scope list_scope.

Lemma same_text_eq : forall a b, same_text a b = true <-> a = b.
Proof.
  induction a as [|x a IH]; intros [|y b]; cbn; split; intros H; try discriminate; auto.
  - apply andb_true_iff in H as [H1 H2]. apply N.eqb_eq in H1. apply IH in H2. now subst.
  - injection H as -> ->. rewrite N.eqb_refl. now apply IH.
Qed.
Lemma same_text_neq : forall a b, same_text a b = false <-> a <> b.
Proof. intros. rewrite <- not_true_iff_false, same_text_eq. tauto. Qed.

Section P.
  Context (db : database) (extract : span -> text) (eoi : span).
  Hypothesis apart : reserved_apart db.
  Notation infix := (infix db).
  Notation prefix := (prefix db).
  Notation spells := (spells db extract).
  Notation operand := (operand db).

  (** ** Single tokens *)
  Definition is_lower (w : text) : Prop := to_ascii_lower w = w.
  Lemma ident_is_spec : forall n x, is_lower (bs n) -> ident_is n (TIdent x) = same_text (to_ascii_lower x) (bs n).
  Proof. intros n x H. unfold ident_is, eq_ignore_case. now rewrite H. Qed.

  Lemma ladder_infix : forall n t c, (n < 9)%nat -> nth n (ladder db) (fun _ => None) t = Some c <-> infix t = Some (S n, c).
  Proof using apart.
    clear extract eoi. intros n t c Hn.
    destruct t as [s|o|k|b|x|s w];
      [ | destruct o | | | | ];
      try solve [destruct n as [|[|[|[|[|[|[|[|[|n]]]]]]]]]; [cbn; split; intros H; inversion H; subst; try reflexivity; try discriminate ..| exfalso; lia]].
    assert (Hl : forall w, In w ["or"; "and"; "else"; "max"; "min"; "mod"; "atan2"]%string -> ident_is w (TIdent x) = same_text (to_ascii_lower x) (bs w)).
    { intros w Hw. apply ident_is_spec. cbn in Hw. unfold is_lower.
      repeat (destruct Hw as [<-|Hw]; [reflexivity|]). contradiction. }
    assert (Hr := apart x).
    unfold ParseSpec.infix, reserved in *.
    destruct n as [|[|[|[|[|[|[|[|[|n]]]]]]]]]; [cbn [nth ladder]; unfold binary_command; rewrite ?Hl by (cbn; tauto) ..| exfalso; lia].
    all: repeat match goal with
      | |- context [same_text (to_ascii_lower ?y) (bs ?w)] =>
          let E := fresh "E" in destruct (same_text (to_ascii_lower y) (bs w)) eqn:E; [apply same_text_eq in E; rewrite E in * |]
      end.
    all: try (cbv zeta in Hr; cbn in Hr; rewrite ?Hr by discriminate).
    all: try match goal with |- context [has_binary db ?y] => destruct (has_binary db y) end; cbn; split; intros HH; inversion HH; subst; try reflexivity; try discriminate.
  Qed.
  Lemma infix_level : forall t n c, infix t = Some (n, c) -> (1 <= n <= 9)%nat.
  Proof using.
    clear extract eoi. intros t n c H. unfold ParseSpec.infix, reserved in H.
    destruct t as [s|o|k|b|x|s w]; [| destruct o | | | |]; try discriminate; try (injection H as <- _; lia).
    destr_in H; try (injection H as <- _; lia); try discriminate.
    all: repeat (destr_in H; try (injection H as <- _; lia); try discriminate).
  Qed.

  Lemma just_ctl_spec : forall c ts r, just_ctl c ts = Some (tt, r) <-> exists sp, ts = (TCtl c, sp) :: r.
  Proof.
    intros c ts r. unfold just_ctl, take. destruct ts as [|[t sp] ts].
    - split; [discriminate | intros [sp E]; discriminate].
    - cbn [fst]. split.
      + destruct t as [| |d| | |]; try discriminate. destruct c, d; try discriminate; intros H; injection H as ->; eauto.
      + intros [sp' E]. injection E as -> _ ->. now destruct c.
  Qed.
  Lemma just_ctl_unit : forall c ts u r, just_ctl c ts = Some (u, r) -> exists sp, ts = (TCtl c, sp) :: r.
  Proof. intros c ts [] r. apply just_ctl_spec. Qed.
  Lemma just_ctl_ok : forall c sp r, just_ctl c ((TCtl c, sp) :: r) = Some (tt, r).
  Proof. intros. apply just_ctl_spec. eauto. Qed.

  Lemma used_app : forall a b, used (a ++ b) b = a.
  Proof using.
    clear extract. intros. unfold used. rewrite app_length. replace (length a + length b - length b)%nat with (length a) by lia.
    rewrite firstn_app, Nat.sub_diag, firstn_all. cbn. now rewrite app_nil_r.
  Qed.
  Lemma span_since_app : forall a b, span_since eoi (a ++ b) b = extent a (span_of_next eoi b).
  Proof using. intros a b. unfold span_since. rewrite used_app. destruct a; reflexivity. Qed.
  Lemma span_one : forall t sp r, span_since eoi ((t, sp) :: r) r = sp.
  Proof using. intros t sp r. change ((t, sp) :: r) with ([(t, sp)] ++ r). rewrite span_since_app. cbn. now destruct sp. Qed.
  Lemma extent_any : forall ts a b, ts <> [] -> extent ts a = extent ts b.
  Proof using. intros [|t ts] a b H; [contradiction | reflexivity]. Qed.

  Lemma spells_nonempty : forall n e ts, spells n e ts -> ts <> [].
  Proof.
    intros n e ts H. destruct H; try discriminate.
    - now destruct ta.
    - induction H0; try discriminate; auto. now destruct ta.
  Qed.
  Lemma operand_prefix : forall o sp e, operand o sp e -> prefix o = None.
  Proof.
    intros o sp e H. inversion H; subst; cbn; auto; try now rewrite H0.
    destruct H0 as [H0 _]. unfold has_command in H0. apply orb_false_iff in H0 as [H0 _]. apply orb_false_iff in H0 as [_ H0].
    unfold has_unary. now rewrite H0.
  Qed.
  Lemma stronger : forall n m e ts, (n <= m <= 10)%nat -> spells m e ts -> spells n e ts.
  Proof.
    intros n m e ts [H1 H2]. induction H1 as [|m H1 IH]; auto. intros HS. apply IH; [lia|]. now apply S_stronger.
  Qed.

  (** ** Soundness: what is parsed is spelled *)
  Definition sound {A} (Q : A -> list ltoken -> Prop) (p : parser A) : Prop :=
    forall ts a rest, p ts = Some (a, rest) -> exists used, ts = used ++ rest /\ Q a used.

  Lemma repeated_sound : forall n A (p : parser A) (Q : A -> list ltoken -> Prop) (R : list A -> list ltoken -> Prop),
    sound Q p -> R [] [] -> (forall a l ta tl, Q a ta -> R l tl -> R (a :: l) (ta ++ tl)) ->
    forall ts l rest, repeated_n n p ts = (l, rest) -> exists used, ts = used ++ rest /\ R l used.
  Proof.
    intros n A p Q R Hp H0 H1. induction n as [|n IH]; intros ts l rest H; cbn in H.
    - injection H as <- <-. now exists [].
    - destruct (p ts) as [[a r]|] eqn:E; [|injection H as <- <-; now exists []].
      destruct (repeated_n n p r) as [l' r'] eqn:E'. injection H as <- <-.
      apply Hp in E as (ta & -> & HQ). apply IH in E' as (tl & -> & HR). exists (ta ++ tl). split; [now rewrite app_assoc | auto].
  Qed.
  Lemma apply_binary_sound : forall n base command, (1 <= n <= 9)%nat ->
    (forall t c, command t = Some c -> infix t = Some (n, c)) -> sound (spells (S n)) base -> sound (spells n) (apply_binary eoi base command).
  Proof.
    intros n base command Hn Hc Hb ts e rest H. unfold apply_binary, map_, then_ in H.
    destruct (base ts) as [[e0 r0]|] eqn:E0; [|discriminate]. unfold repeated in H.
    destruct (repeated_n (length r0) _ r0) as [l r] eqn:El. cbn [fst snd] in H. injection H as <- <-.
    apply Hb in E0 as (t0 & -> & H0).
    eapply (repeated_sound _ _ _ (fun x t => exists o tb, t = (o, snd (fst x)) :: tb /\ infix o = Some (n, fst (fst x)) /\ spells (S n) (snd x) tb)
      (fun l t => forall acc ta, spells n acc ta -> spells n (fold_left (fun e1 (c : binary * span * expr) => EBinary (fst (fst c)) e1 (snd c) (snd (fst c))) l acc) (ta ++ t)))
      in El as (t1 & -> & H1).
    - exists (t0 ++ t1). split; [now rewrite app_assoc|]. apply H1. apply S_stronger; auto. lia.
    - intros ts x r' H. unfold with_span, take in H. destruct ts as [|[o sp] ts]; [discriminate|]. cbn [fst] in H.
      destruct (command o) as [c|] eqn:Ec; [|discriminate]. rewrite span_one in H.
      destruct (base ts) as [[b r2]|] eqn:Eb; [|discriminate]. injection H as <- <-.
      apply Hb in Eb as (tb & -> & Hb'). exists ((o, sp) :: tb). split; auto. cbn [fst snd]. exists o, tb. auto.
    - intros acc ta Ha. cbn. now rewrite app_nil_r.
    - intros [[c sp] b] l' ta tl (o & tb & -> & Ho & Htb) Hl acc t Hacc. cbn [fold_left fst snd] in *.
      replace (t ++ ((o, sp) :: tb) ++ tl) with ((t ++ (o, sp) :: tb) ++ tl) by (now rewrite <- app_assoc).
      apply Hl. eapply S_binary; eauto.
  Qed.
  Lemma climb_sound : forall base k, (k <= 9)%nat -> sound (spells 10) base ->
    sound (spells (S (9 - k))) (climb eoi (skipn (9 - k) (ladder db)) base).
  Proof.
    intros base k Hk Hb. induction k as [|k IH].
    - exact Hb.
    - assert (E : skipn (9 - S k) (ladder db) = nth (9 - S k) (ladder db) (fun _ => None) :: skipn (S (9 - S k)) (ladder db)).
      { clear -Hk. do 9 (destruct k as [|k]; [reflexivity|]). lia. }
      rewrite E. cbn [climb].
      assert (E2 : S (9 - S k) = (9 - k)%nat) by lia. rewrite E2. apply apply_binary_sound; [lia| |].
      + intros t c Ht. rewrite <- E2. apply ladder_infix; [lia | exact Ht].
      + apply IH. lia.
  Qed.

  Lemma value_sound : forall ts e rest, value db ts = Some (e, rest) ->
    exists o sp, ts = (o, sp) :: rest /\ (prefix o = None -> operand o sp e).
  Proof.
    intros [|[t sp] r] e rest H; [discriminate|]. exists t, sp. unfold value in H.
    destruct t as [|o|k|b|x|s w]; try discriminate.
    - injection H as <- <-. split; auto. constructor.
    - unfold ParseSpec.prefix.
      unfold eq_ignore_case in H. change (to_ascii_lower (bs "true")) with (bs "true") in H.
      change (to_ascii_lower (bs "false")) with (bs "false") in H.
      destruct (same_text (to_ascii_lower x) (bs "true")) eqn:E1.
      { injection H as <- <-. split; auto. intros Hu. apply O_true; [now destruct (has_unary db x) | now apply same_text_eq]. }
      destruct (same_text (to_ascii_lower x) (bs "false")) eqn:E2.
      { injection H as <- <-. split; auto. intros Hu. apply O_false; [now destruct (has_unary db x) | now apply same_text_eq]. }
      destruct (has_nular db x) eqn:E3; [|discriminate]. injection H as <- <-. split; auto. intros Hu.
      apply O_nular; auto; [now destruct (has_unary db x) | now apply same_text_neq | now apply same_text_neq].
    - injection H as <- <-. split; auto. constructor.
  Qed.
  Lemma variable_spec : forall t x, variable db t = Some x <-> t = TIdent x /\ is_name db x.
  Proof.
    intros t x. unfold variable, is_name. destruct t; try (split; [discriminate | intros [E _]; discriminate]).
    destruct (has_command db s) eqn:E1, (is_special_command s) eqn:E2; cbn; split;
      try discriminate; try (intros [E [E3 E4]]; injection E as ->; congruence).
    intros H. injection H as ->. auto.
  Qed.

  Section Knot.
    Context (ex : parser expr).
    Hypothesis ex_sound : sound (spells 1) ex.

    Lemma separated_sound : forall A (p : parser A) sep tr (Q : A -> list ltoken -> Prop), sound Q p ->
      forall ts l rest, separated p sep tr ts = Some (l, rest) -> exists used, ts = used ++ rest /\
        ((l = [] /\ used = []) \/
         exists a l' ta tl tt, l = a :: l' /\ used = ta ++ tl ++ tt /\ Q a ta /\ (tt = [] \/ tr = true /\ exists sp, tt = [(TCtl sep, sp)]) /\
           fold_right (fun a R t => exists sp ta t', t = (TCtl sep, sp) :: ta ++ t' /\ Q a ta /\ R t') (fun t => t = []) l' tl).
    Proof.
      intros A p sep tr Q Hp ts l rest H. unfold separated in H.
      destruct (p ts) as [[a r]|] eqn:E; [|injection H as <- <-; exists []; auto].
      destruct (repeated_n _ _ r) as [l' r'] eqn:E'. apply Hp in E as (ta & -> & HQ).
      eapply (repeated_sound _ _ _ (fun a t => exists sp ta, t = (TCtl sep, sp) :: ta /\ Q a ta)
        (fun l => fold_right (fun a R t => exists sp ta t', t = (TCtl sep, sp) :: ta ++ t' /\ Q a ta /\ R t') (fun t => t = []) l))
        in E' as (tl & -> & Hl); [..| | reflexivity |].
      2:{ intros ts x rr Hs. destruct (just_ctl sep ts) as [[u r1]|] eqn:Ej; [|discriminate].
          apply just_ctl_unit in Ej as [sp ->]. apply Hp in Hs as (tx & -> & Hx). exists ((TCtl sep, sp) :: tx). eauto. }
      2:{ intros b l2 tb tl2 (sp & tb' & -> & Hb) Hl2. cbn [fold_right]. exists sp, tb', tl2. auto. }
      destruct tr.
      - destruct (just_ctl sep r') as [[u r2]|] eqn:Ej.
        + apply just_ctl_unit in Ej as [sp ->]. injection H as <- <-. exists (ta ++ tl ++ [(TCtl sep, sp)]).
          split; [now rewrite <- !app_assoc|]. right. exists a, l', ta, tl, [(TCtl sep, sp)]. repeat split; eauto.
        + injection H as <- <-. exists (ta ++ tl). split; [now rewrite <- app_assoc|]. right. exists a, l', ta, tl, []. rewrite app_nil_r. auto 6.
      - injection H as <- <-. exists (ta ++ tl). split; [now rewrite <- app_assoc|]. right. exists a, l', ta, tl, []. rewrite app_nil_r. auto 6.
    Qed.
    Lemma list_sound : sound (spells_list db extract) (separated ex Separator false).
    Proof.
      intros ts l rest H. eapply separated_sound in H as (u & -> & H); [|exact ex_sound]. exists u. split; auto.
      destruct H as [[-> ->]|(a & l' & ta & tl & tt & -> & -> & Ha & Htt & Hl)]; [constructor|].
      destruct Htt as [->|[E _]]; [|discriminate]. rewrite app_nil_r.
      revert a ta tl Ha Hl. induction l' as [|b l' IH]; intros a ta tl Ha Hl; cbn [fold_right] in Hl.
      - subst tl. rewrite app_nil_r. now constructor.
      - destruct Hl as (sp & tb & t' & -> & Hb & Hl). apply L_more; auto; discriminate.
    Qed.

    Lemma statement_sound : sound (spells_statement db extract) (statement db eoi ex).
    Proof.
      intros ts s rest H. unfold statement, orelse in H.
      destruct (assignment db eoi ex ts) as [[s0 r0]|] eqn:Ea.
      - injection H as -> ->. unfold assignment, map_, with_span, then_ in Ea.
        assert (Hcase : forall loc ts1, take (variable db) ts1 = loc -> True) by auto. clear Hcase.
        destruct ts as [|[t sp] ts]; [discriminate|].
        unfold take at 1 in Ea. cbn [fst] in Ea. unfold keyword at 1 in Ea.
        destruct (ident_is "private" t) eqn:Ep.
        + destruct t as [| | | |p|]; try discriminate. rewrite ident_is_spec in Ep by reflexivity. apply same_text_eq in Ep.
          unfold take at 1 in Ea. destruct ts as [|[t2 sp2] ts]; [discriminate|]. cbn [fst] in Ea.
          destruct (variable db t2) as [x|] eqn:Ev; [|discriminate]. apply variable_spec in Ev as [-> Hx].
          unfold take at 1 in Ea. destruct ts as [|[t3 sp3] ts]; [discriminate|]. cbn [fst] in Ea.
          destruct t3 as [|o| | | |]; try discriminate. destruct o; try discriminate.
          destruct (ex ts) as [[e r]|] eqn:Ee; [|discriminate]. injection Ea as <- <-.
          apply ex_sound in Ee as (te & -> & He).
          exists ((TIdent p, sp) :: (TIdent x, sp2) :: (TOp OAssign, sp3) :: te). split; [reflexivity|].
          replace (span_since eoi _ r) with (extent ((TIdent p, sp) :: (TIdent x, sp2) :: (TOp OAssign, sp3) :: te) sp).
          * now apply A_local.
          * symmetry. apply (span_since_app ((TIdent p, sp) :: (TIdent x, sp2) :: (TOp OAssign, sp3) :: te) r).
        + unfold take at 1 in Ea. cbn [fst] in Ea.
          destruct (variable db t) as [x|] eqn:Ev; [|discriminate]. apply variable_spec in Ev as [-> Hx].
          unfold take at 1 in Ea. destruct ts as [|[t3 sp3] ts]; [discriminate|]. cbn [fst] in Ea.
          destruct t3 as [|o| | | |]; try discriminate. destruct o; try discriminate.
          destruct (ex ts) as [[e r]|] eqn:Ee; [|discriminate]. injection Ea as <- <-.
          apply ex_sound in Ee as (te & -> & He).
          exists ((TIdent x, sp) :: (TOp OAssign, sp3) :: te). split; [reflexivity|].
          replace (span_since eoi _ r) with (extent ((TIdent x, sp) :: (TOp OAssign, sp3) :: te) sp).
          * apply A_global; auto. rewrite ident_is_spec in Ep by reflexivity. now apply same_text_neq.
          * symmetry. apply (span_since_app ((TIdent x, sp) :: (TOp OAssign, sp3) :: te) r).
      - unfold map_, with_span in H. destruct (ex ts) as [[e r]|] eqn:Ee; [|discriminate]. injection H as <- <-.
        apply ex_sound in Ee as (te & -> & He). exists te. split; auto. cbn [fst snd]. rewrite span_since_app. now constructor.
    Qed.
    Lemma statements_sound : sound (spells_statements db extract) (separated (statement db eoi ex) Terminator true).
    Proof.
      intros ts l rest H. eapply separated_sound in H as (u & -> & H); [|exact statement_sound]. exists u. split; auto.
      destruct H as [[-> ->]|(a & l' & ta & tl & tt & -> & -> & Ha & Htt & Hl)]; [constructor|].
      revert a ta tl Ha Hl. induction l' as [|b l' IH]; intros a ta tl Ha Hl; cbn [fold_right] in Hl.
      - subst tl. cbn [app]. destruct Htt as [->|[_ [sp ->]]]; [rewrite app_nil_r|]; now constructor.
      - destruct Hl as (sp & tb & t' & -> & Hb & Hl).
        replace (ta ++ ((TCtl Terminator, sp) :: tb ++ t') ++ tt) with (ta ++ (TCtl Terminator, sp) :: tb ++ t' ++ tt)
          by (cbn; now rewrite <- app_assoc).
        apply B_more; auto; discriminate.
    Qed.

    Lemma delimited_spec : forall A (p : parser A) o c ts a rest, delimited p o c ts = Some (a, rest) ->
      exists sp sp' r r', ts = (TCtl o, sp) :: r /\ p r = Some (a, r') /\ r' = (TCtl c, sp') :: rest.
    Proof.
      intros A p o c ts a rest H. unfold delimited in H. destruct (just_ctl o ts) as [[u r]|] eqn:E1; [|discriminate].
      destruct (p r) as [[a' r']|] eqn:E2; [|discriminate]. destruct (just_ctl c r') as [[u' r'']|] eqn:E3; [|discriminate].
      injection H as <- <-. apply just_ctl_unit in E1 as [sp ->]. apply just_ctl_unit in E3 as [sp' ->]. exists sp, sp', r, ((TCtl c, sp') :: r''). auto.
    Qed.
    Lemma base_sound : forall ts e rest, base db eoi ex (block_body db extract eoi ex) ts = Some (e, rest) ->
      (match ts with [] => True | t :: _ => prefix (fst t) = None end) -> exists u, ts = u ++ rest /\ spells 10 e u.
    Proof.
      intros ts e rest H Hp. unfold base, orelse in H.
      destruct (value db ts) as [[e1 r1]|] eqn:E1.
      { injection H as -> ->. apply value_sound in E1 as (o & sp & -> & Ho). exists [(o, sp)]. split; auto. apply S_operand. now apply Ho. }
      destruct (delimited _ SquareOpen SquareClose ts) as [[e2 r2]|] eqn:E2.
      { injection H as -> ->. apply delimited_spec in E2 as (sp & sp' & r & r' & -> & E & ->). unfold map_, with_span in E.
        destruct (separated ex Separator false r) as [[l r']|] eqn:El; [|discriminate]. injection E as <- ->. cbn [fst snd].
        apply list_sound in El as (u & -> & Hl). rewrite span_since_app. cbn [span_of_next snd].
        exists ((TCtl SquareOpen, sp) :: u ++ [(TCtl SquareClose, sp')]). split; [cbn; now rewrite <- app_assoc|]. now constructor. }
      destruct (delimited ex RoundOpen RoundClose ts) as [[e3 r3]|] eqn:E3.
      { injection H as -> ->. apply delimited_spec in E3 as (sp & sp' & r & r' & -> & E & ->).
        apply ex_sound in E as (u & -> & Hu). exists ((TCtl RoundOpen, sp) :: u ++ [(TCtl RoundClose, sp')]). split; [cbn; now rewrite <- app_assoc|]. now constructor. }
      unfold map_ at 1 in H.
      destruct (delimited _ CurlyOpen CurlyClose ts) as [[b r4]|] eqn:E4.
      { injection H as <- ->. apply delimited_spec in E4 as (sp & sp' & r & r' & -> & E & ->). unfold block_body, map_, with_span in E.
        destruct (separated (statement db eoi ex) Terminator true r) as [[l r']|] eqn:El; [|discriminate]. injection E as <- ->. cbn [fst snd content source st_span].
        apply statements_sound in El as (u & -> & Hl). rewrite span_since_app. cbn [span_of_next snd].
        exists ((TCtl CurlyOpen, sp) :: u ++ [(TCtl CurlyClose, sp')]). split; [cbn; now rewrite <- app_assoc|]. now constructor. }
      unfold map_, with_span, take in H. destruct ts as [|[t sp] ts]; [discriminate|]. cbn [fst] in H.
      destruct (variable db t) as [x|] eqn:Ev; [|discriminate]. injection H as <- <-. rewrite span_one. cbn [fst snd].
      apply variable_spec in Ev as [-> Hx]. exists [(TIdent x, sp)]. split; auto. apply S_operand. now constructor.
    Qed.
    Definition unary_parser : parser expr := unary_level db eoi ex (block_body db extract eoi ex).
    Lemma unary_parser_cons : forall o sp r, unary_parser ((o, sp) :: r) =
      match prefix o with
      | Some c => match unary_parser r with Some (e, r') => Some (EUnary c e sp, r') | None => None end
      | None => base db eoi ex (block_body db extract eoi ex) ((o, sp) :: r)
      end.
    Proof.
      intros o sp r. unfold unary_parser, unary_level, map_, then_, repeated. cbn [length repeated_n].
      unfold with_span at 1, take at 1. cbn [fst]. change (unary_command db o) with (prefix o).
      destruct (prefix o) as [c|] eqn:E.
      - rewrite span_one. destruct (repeated_n (length r) (with_span eoi (take (unary_command db))) r) as [l r'].
        destruct (base db eoi ex _ r') as [[e r'']|]; reflexivity.
      - destruct (base db eoi ex _ _) as [[e r'']|]; reflexivity.
    Qed.
    Lemma unary_parser_nil : unary_parser [] = None.
    Proof. reflexivity. Qed.
    Lemma unary_sound : sound (spells 10) unary_parser.
    Proof.
      intros ts. induction ts as [|[o sp] ts IH]; intros e rest H; [discriminate|].
      rewrite unary_parser_cons in H. destruct (prefix o) as [c|] eqn:Ec.
      - destruct (unary_parser ts) as [[e' r']|] eqn:E; [|discriminate]. injection H as <- <-.
        destruct (IH _ _ eq_refl) as (u & -> & Hu). exists ((o, sp) :: u). split; auto. now constructor.
      - now apply base_sound in H.
    Qed.
    Lemma body_sound : sound (spells 1) (expression_body db eoi ex (block_body db extract eoi ex)).
    Proof. apply (climb_sound unary_parser 9); [lia|]. exact unary_sound. Qed.
  End Knot.

  Theorem expression_sound : forall n, sound (spells 1) (expression db extract eoi n).
  Proof. induction n as [|n IH]; [intros ts a rest H; discriminate|]. now apply body_sound. Qed.
End P.
