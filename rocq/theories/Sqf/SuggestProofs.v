(** The suggestions of the lints. *)
From Coq Require Import String.
From Verif Require Import Base.Tactics Base.Bytes Base.Ascii Base.Text Base.Sort Sqf.Ast Sqf.ParseModel Sqf.ParseSpec Sqf.ParseProofs Sqf.ParseComplete
  Sqf.LexModel Sqf.LexSpec Sqf.LexProofs Sqf.SourceModel Sqf.SourceSpec Sqf.SourceProofs Sqf.SourceBack
  Sqf.OptimizeModel Sqf.OptimizeSpec Sqf.SuggestModel Sqf.SuggestSpec.
Local Open Scope N_scope.
Local Open Scope list_scope.

(** ** Meaning *)
Lemma map_same : forall A B (f g : A -> B) l, Forall (fun x => f x = g x) l -> map f l = map g l.
Proof. intros A B f g l H. induction H; [reflexivity|]. cbn. now rewrite H, IHForall. Qed.
Lemma bare_again : (forall e, bare (bare e) = bare e) /\ (forall s, bare_stmt (bare_stmt s) = bare_stmt s).
Proof.
  apply tree_ind; intros; cbn [bare bare_stmt]; try reflexivity; try congruence; rewrite map_map; f_equal; now apply map_same.
Qed.
Lemma literal_bare : forall e, literal_of (bare e) = option_map bare_literal (literal_of e).
Proof.
  apply (expr_ind' _ (fun _ => True)); auto.
  - intros l sp H. cbn [bare literal_of]. assert (E : map_opt literal_of (map bare l) = option_map (map bare_literal) (map_opt literal_of l)).
    { induction H as [|x l Hx Hl IH]; [reflexivity|]. cbn [map map_opt]. rewrite Hx. destruct (literal_of x); [|reflexivity]. cbn [option_map].
      change (map_opt literal_of (map bare l) = option_map (map bare_literal) (map_opt literal_of l)) in IH.
      fold (map_opt literal_of). rewrite IH. destruct (map_opt literal_of l); reflexivity. }
    rewrite E. destruct (map_opt literal_of l); reflexivity.
  - intros n sp. cbn [bare literal_of]. destruct (is_in nular_constants n); reflexivity.
Qed.
Lemma literals_bare : forall l, map_opt literal_of (map bare l) = option_map (map bare_literal) (map_opt literal_of l).
Proof.
  intros l. assert (H := literal_bare (EArray l (0, 0))). cbn [bare literal_of] in H.
  destruct (map_opt literal_of (map bare l)), (map_opt literal_of l); cbn in *; congruence.
Qed.
Lemma bare_literal_again : forall e l, literal_of e = Some l -> bare_literal (bare_literal l) = bare_literal l.
Proof.
  intros e l H. assert (A := literal_bare (bare e)). rewrite (proj1 bare_again), literal_bare, H in A. cbn in A. congruence.
Qed.

Section Meaning.
  Context (L : lang) (f32_of : N -> N) (minus_one : N) (array : list (Val L) -> Val L) (branch : bool -> Val L) (pair : Val L -> Val L -> Val L)
    (object : Val L -> Prop) (nothing : Val L).
  Hypothesis C : commands L (f32_of 0) (f32_of 1) minus_one array branch pair object nothing.
  Lemma eval_bare : forall r e w, eval L r (bare e) w = eval L r e w.
  Proof.
    intros r. assert (P := c_places _ _ _ _ _ _ _ _ _ C).
    assert (G : forall l, Forall (fun e => forall w, eval L r (bare e) w = eval L r e w) l -> forall w, eval_list L (eval L r) (map bare l) w = eval_list L (eval L r) l w).
    { intros l H. induction H as [|x l Hx Hl IH]; intros w; [reflexivity|]. cbn [map eval_list]. rewrite Hx. destruct (eval L r x w) as [[v w1]|]; [|reflexivity].
      fold (eval_list L (eval L r)). now rewrite IH. }
    apply (expr_ind' (fun e => forall w, eval L r (bare e) w = eval L r e w) (fun _ => True)); auto.
    - intros c s sp _ w. cbn [bare eval]. do 2 f_equal. apply P. cbn [bare_literal]. f_equal. rewrite map_map. apply map_ext. apply bare_again.
    - intros l sp H w. cbn [bare eval]. now rewrite (G l H).
    - intros l sp H w. cbn [bare eval]. rewrite literals_bare. destruct (map_opt literal_of l) as [ls|] eqn:E; cbn [option_map]; [|now rewrite (G l H)].
      do 2 f_equal. apply P. change (LArr (map bare_literal ls)) with (bare_literal (LArr ls)). apply (bare_literal_again (EArray l (0, 0))). cbn [literal_of]. now rewrite E.
    - intros u e sp H w. cbn [bare eval]. now rewrite H.
    - intros c a b sp Ha Hb w. cbn [bare eval]. rewrite Ha. destruct (eval L r a w) as [[v w1]|]; [|reflexivity]. now rewrite Hb.
  Qed.
  Lemma eval_alike : forall r a b w, bare a = bare b -> eval L r a w = eval L r b w.
  Proof. intros r a b w E. rewrite <- (eval_bare r a), <- (eval_bare r b). now rewrite E. Qed.
  Lemma literal_eval : forall e, literal_of e <> None -> exists v, forall r w, eval L r e w = Some (v, w).
  Proof.
    apply (expr_ind' (fun e => literal_of e <> None -> exists v, forall r w, eval L r e w = Some (v, w)) (fun _ => True)); auto;
      try (intros; cbn [literal_of eval] in *; eexists; reflexivity); try (intros; cbn [literal_of] in *; congruence).
    - intros l sp H N. assert (G : map_opt literal_of l <> None -> exists vs, forall r w, eval_list L (eval L r) l w = Some (vs, w)).
      { clear N. induction H as [|x l Hx Hl IH]; intros N; [now exists []|]. cbn [map_opt] in N. destruct (literal_of x) eqn:E; [|congruence].
        destruct Hx as (v & Hv); [discriminate|]. fold (map_opt literal_of) in N. destruct (map_opt literal_of l) eqn:El; [|congruence].
        destruct IH as (vs & Hvs); [discriminate|]. exists (v :: vs). intros r w. cbn [eval_list]. rewrite Hv. fold (eval_list L (eval L r)). now rewrite Hvs. }
      cbn [literal_of] in N. destruct (map_opt literal_of l); [|now contradiction N]. destruct G as (vs & Hvs); [discriminate|]. exists (array vs). intros r w. cbn [eval].
      now rewrite Hvs, (c_array _ _ _ _ _ _ _ _ _ C).
    - intros n sp N. cbn [literal_of eval] in *. destruct (is_in nular_constants n); [|congruence]. eexists. reflexivity.
  Qed.
  Lemma eval_requoted : forall r e w, eval L r (requoted e) w = eval L r e w.
  Proof. intros r e w. destruct e; reflexivity. Qed.

  Lemma better_means : forall e e' n, better f32_of e e' n -> exact (f32_of 0) (f32_of 1) e -> forall k w, met L object (exec L (S k)) w n ->
    eval L (exec L (S k)) e' w = eval L (exec L (S k)) e w.
  Proof.
    intros e e' n B [X1 X2] k w M. set (r := exec L (S k)) in *. destruct C as [c_places0 c_array0 c_select0 c_number0 c_not0 c_differ0 c_equal0 c_if0 c_else0 c_then0 c_negative0 c_find0 c_in0 c_type_string0 c_type_number0 c_type_bool0 c_type_code0 c_type_array0 c_type_nular0 c_vehicle0].
    destruct B.
    - (* typename *) cbn [eval unary_str]. rewrite H. clear M X1 X2. destruct H0; cbn [eval].
      + now rewrite c_type_string0.
      + now rewrite c_type_number0.
      + now rewrite c_type_bool0.
      + now rewrite c_type_code0.
      + cbn [eval_list]. now rewrite c_array0, c_type_array0.
      + destruct (c_type_nular0 r x t sp0 w H0) as (v & E & T). cbn [eval] in E. rewrite E. now rewrite T.
    - contradiction M.
    - (* if *) destruct X2 as (Hi & Na & Nb). destruct M as (b0 & w' & Ec). destruct (literal_eval a Na) as (va & Ea). destruct (literal_eval b Nb) as (vb & Eb).
      cbn [eval unary_str binary_str]. cbn [eval_list]. rewrite eval_requoted, Eb, eval_requoted, Ea, c_array0, Ec.
      change (to_ascii_lower (bs "select")) with (bs "select"). rewrite c_select0. change (to_ascii_lower (bs "else")) with (bs "else").
      rewrite H, Hi, c_if0, c_else0, c_then0. unfold r. cbn [exec]. destruct b0; cbn [map bare_stmt run_block]; unfold run_stmt; cbn [stmt_expr]; rewrite eval_bare, ?Ea, ?Eb; reflexivity.
    - (* if, numbers *) destruct X2 as (Hi & _ & _). destruct M as (b0 & w' & Ec).
      cbn [eval unary_str binary_str]. rewrite Ec. change (to_ascii_lower (bs "parseNumber")) with (bs "parsenumber"). rewrite c_number0.
      change (to_ascii_lower (bs "else")) with (bs "else").
      rewrite H, Hi, c_if0, c_else0, c_then0. unfold r. cbn [exec]. destruct b0; reflexivity.
    - (* find *) destruct M as (h0 & w' & Eh). destruct (X1 x s3) as [_ Ex]; [apply within_right, within_unary, within_here|]. specialize (Ex H0). subst x.
      destruct (c_find0 r h0 s) as (i & b & Hb & Ef). destruct (c_in0 r h0 s) as (b' & Hb' & Ei).
      cbn [eval unary_str binary_str]. rewrite Eh. change (to_ascii_lower (bs "in")) with (bs "in"). rewrite Ei. rewrite H. rewrite (proj1 (Ef w')).
      change (to_ascii_lower (bs "-")) with (bs "-"). rewrite c_negative0. change (to_ascii_lower (bs ">")) with (bs ">"). rewrite (proj2 (Ef w')).
      assert (b = b') as -> by (apply Bool.eq_true_iff_eq; tauto). reflexivity.
    - (* select *) destruct M as (b0 & w' & Ec). destruct (X1 x s1) as [Ex _]; [apply within_left; eapply within_array; [left; reflexivity|constructor]|].
      destruct (X1 y s2) as [_ Ey]; [apply within_left; eapply within_array; [right; left; reflexivity|constructor]|]. specialize (Ex H0). specialize (Ey H1). subst x y.
      cbn [eval unary_str binary_str eval_list]. rewrite c_array0, Ec, H, c_select0. change (to_ascii_lower (bs "parseNumber")) with (bs "parsenumber"). rewrite c_number0.
      destruct b0; reflexivity.
    - destruct M as (b0 & w' & Ec). destruct (X1 x s1) as [_ Ex]; [apply within_left; eapply within_array; [left; reflexivity|constructor]|].
      destruct (X1 y s2) as [Ey _]; [apply within_left; eapply within_array; [right; left; reflexivity|constructor]|]. specialize (Ex H0). specialize (Ey H1). subst x y.
      assert (E' : eval L r c' w = Some (lit L (LBool (negb b0)), w')).
      { destruct H2.
        - cbn [eval unary_str]. rewrite Ec. change (to_ascii_lower (bs "!")) with (bs "!"). apply c_not0.
        - cbn [eval binary_str] in Ec |- *. destruct (eval L r a w) as [[u w1]|]; [|discriminate]. destruct (eval L r b w1) as [[v w2]|]; [|discriminate].
          now apply (c_differ0 r u v b0 w2 w').
        - cbn [eval binary_str] in Ec |- *. destruct (eval L r a w) as [[u w1]|]; [|discriminate]. destruct (eval L r b w1) as [[v w2]|]; [|discriminate].
          apply (c_differ0 r u v (negb b0) w2 w'). now rewrite Bool.negb_involutive. }
      cbn [eval unary_str binary_str eval_list]. rewrite c_array0, Ec, E', H, c_select0. change (to_ascii_lower (bs "parseNumber")) with (bs "parsenumber"). rewrite c_number0.
      destruct b0; reflexivity.
    - (* vehicle *) destruct M as (o & Ho & Eo). destruct (c_vehicle0 r o Ho) as (v & p & b0 & K). destruct (K w) as (K1 & K2 & K3 & K4 & K5).
      assert (Ey : eval L r y w = Some (o, w)) by (rewrite <- (eval_alike r x y w H1); exact Eo).
      cbn [eval unary_str]. rewrite Eo. change (to_ascii_lower (bs "objectParent")) with (bs "objectparent"). rewrite K2.
      change (to_ascii_lower (bs "isNull")) with (bs "isnull"). rewrite K5. change (to_ascii_lower (binary_str BEq)) with (bs "==").
      destruct H2 as [[-> ->]|[-> ->]]; cbn [eval unary_str]; rewrite ?Ey, Eo, H, K1, ?Ey; [now rewrite K3|now rewrite K4].
    - destruct M as (o & Ho & Eo). destruct (c_vehicle0 r o Ho) as (v & p & b0 & K). destruct (K w) as (K1 & K2 & K3 & K4 & K5).
      assert (Ey : eval L r y w = Some (o, w)) by (rewrite <- (eval_alike r x y w H1); exact Eo).
      cbn [eval unary_str]. rewrite Eo. change (to_ascii_lower (bs "objectParent")) with (bs "objectparent"). rewrite K2.
      change (to_ascii_lower (bs "isNull")) with (bs "isnull"). rewrite K5. change (to_ascii_lower (bs "!")) with (bs "!"). rewrite c_not0.
      change (to_ascii_lower (binary_str BNotEq)) with (bs "!=").
      apply c_differ0 in K3, K4.
      destruct H2 as [[-> ->]|[-> ->]]; cbn [eval unary_str]; rewrite ?Ey, Eo, H, K1, ?Ey; [now rewrite K3|now rewrite K4].
    - (* Boolean *) destruct M as (b0 & w' & Ec).
      assert (Q : forall u v, binary_cmd L r (bs "!=") (lit L (LBool u)) (lit L (LBool v)) w' = Some (lit L (LBool (negb (Bool.eqb u v))), w')).
      { intros u v'. apply c_differ0, c_equal0. }
      destruct H as [[-> ->]|[-> ->]], H0 as [[-> ->]|[-> ->]]; cbn [eval] in Ec |- *;
        rewrite Ec; cbn [binary_str]; change (to_ascii_lower (bs "==")) with (bs "=="); change (to_ascii_lower (bs "!=")) with (bs "!="); rewrite ?c_equal0, ?Q; destruct b0; reflexivity.
    - destruct M as (b0 & w' & Ec).
      assert (Q : forall u v, binary_cmd L r (bs "!=") (lit L (LBool u)) (lit L (LBool v)) w' = Some (lit L (LBool (negb (Bool.eqb u v))), w')).
      { intros u v'. apply c_differ0, c_equal0. }
      destruct H as [[-> ->]|[-> ->]], H0 as [[-> ->]|[-> ->]]; cbn [eval unary_str] in Ec |- *;
        rewrite Ec; cbn [binary_str]; change (to_ascii_lower (bs "==")) with (bs "=="); change (to_ascii_lower (bs "!=")) with (bs "!=");
        change (to_ascii_lower (bs "!")) with (bs "!"); rewrite ?c_equal0, ?Q, c_not0; destruct b0; reflexivity.
  Qed.
End Meaning.

(** ** Reading *)
Lemma within_trans : forall a b c, within a b -> within b c -> within a c.
Proof. intros a b c H H0. induction H0; auto; try (now constructor). - eapply within_array; eauto. - eapply within_code; eauto. Qed.
Lemma part_within : forall a b ss, within a b -> part b ss -> part a ss.
Proof. intros a b ss H (s & I & W). exists s. split; auto. eapply within_trans; eauto. Qed.
Section Reading.
  Context (db : database) (parse_f32 : text -> N) (f32_of : N -> N) (show_f32 : N -> text).
  Hypothesis apart : reserved_apart db.
  Notation reads := (reads parse_f32 f32_of).
  Notation written := (written parse_f32 f32_of).
  Notation expr_source := (expr_source show_f32).
  Notation shown_well := (shown_well (number_text parse_f32 f32_of) show_f32).
  Notation seg := (seg parse_f32 f32_of).
  Notation read_sqf := (read_sqf db parse_f32 f32_of).
  (** The text is a script of one expression, this one. *)
  Definition reads_as (t : text) (e : expr) : Prop := exists r e' sp, read_sqf t = Some r /\ content r = [SExpr e' sp] /\ bare e' = bare e.
  Section Parts.
    Context (ex : span -> text).
    Notation shows := (shows db ex).
    Lemma seg_not : forall b Q, seg b Q -> (match b with c :: _ => c <> 61 | [] => False end) ->
      seg (bs "!" ++ b) (fun st => exists sp st', st = (TOp ONot, sp) :: st' /\ Q st').
    Proof.
      intros b Q H B q z tz F R. rewrite app_length, Nat2N.inj_add, N.add_assoc in R. destruct (H _ z tz F R) as (rb & Rb & sb & Sb & Qb).
      assert (M : may_precede (TOp ONot) (b ++ z)).
      { split; [intros []|split; [|discriminate]]. intros o E. injection E as <-. destruct b as [|c b]; [contradiction|]. cbn [app operator_text]. split; [|split].
        - intros o' r E. destruct o'; cbn in E |- *; try discriminate E; try lia. injection E as E _. congruence.
        - intros r E. discriminate E.
        - intros r E. discriminate E. }
      exists ((TOp ONot, (q, q + N.of_nat (length (bs "!")))) :: rb). split.
      - assert (X := R_token parse_f32 f32_of q [] (TOp ONot) (bs "!") (b ++ z) (rb ++ tz) ltac:(constructor) ltac:(apply (W_operator _ _ ONot)) M).
        cbn zeta in X. cbn [length app] in X. rewrite N.add_0_r in X. rewrite <- app_assoc. now apply X.
      - exists ((TOp ONot, (q, q + N.of_nat (length (bs "!")))) :: sb). split; [|eauto]. intros l Y. cbn [app]. rewrite strip_plain_cons; auto. now rewrite Sb.
    Qed.
    Lemma shows_weaker : forall e n m st, (m <= n)%nat -> (n <= 10)%nat -> shows e n st -> shows e m st.
    Proof. intros e n m st L N (e' & S & B). exists e'. split; auto. eapply weaken; eauto. Qed.
    Lemma seg_paren : forall a e, seg a (shows e 1) -> seg (bs "(" ++ a ++ bs ")") (shows e 10).
    Proof.
      intros a e H. eapply seg_impl; [apply (seg_open _ _ RoundOpen _ _ eq_refl (seg_close _ _ _ RoundClose _ (or_introl eq_refl) H))|].
      intros st (sp & st' & -> & s1 & sp' & -> & e' & S & B). exists e'. split; auto. now constructor.
    Qed.
    Lemma seg_unary : forall x a e sp, name_text x -> has_unary db x = true -> seg a (shows e 10) -> seg (x ++ bs " " ++ a) (shows (EUnary (UNamed x) e sp) 10).
    Proof.
      intros x a e sp W U H. eapply seg_impl.
      - apply seg_app; [apply (seg_token _ _ (TIdent x)); [now constructor|split; reflexivity]|apply seg_space, H|intros; cbn; auto].
      - intros st (s1 & s2 & -> & (sp3 & ->) & (e' & S' & B)). exists (EUnary (UNamed x) e' sp3). split; [|cbn; now rewrite B]. cbn [app]. apply S_unary; auto. cbn. now rewrite U.
    Qed.
    Lemma seg_negated : forall a e sp, (match a with c :: _ => c <> 61 | [] => False end) -> seg a (shows e 10) -> seg (bs "!" ++ a) (shows (EUnary UNot e sp) 10).
    Proof.
      intros a e sp A H. eapply seg_impl; [apply (seg_not _ _ H A)|]. intros st (sp3 & st' & -> & e' & S' & B). exists (EUnary UNot e' sp3).
      split; [|cbn; now rewrite B]. now apply S_unary.
    Qed.
    Lemma seg_binary : forall x a b ea eb sp, name_text x -> reserved x = None -> has_binary db x = true -> seg a (shows ea 10) -> seg b (shows eb 10) ->
      seg (a ++ bs " " ++ x ++ bs " " ++ b) (shows (EBinary (BNamed x) ea eb sp) 1).
    Proof.
      intros x a b ea eb sp W Rx U Ha Hb. eapply seg_impl.
      - apply seg_app; [exact Ha| |intros; cbn; auto].
        apply seg_space. apply seg_app; [apply (seg_token _ _ (TIdent x)); [now constructor|split; reflexivity]|apply seg_space, Hb|intros; cbn; auto].
      - intros st (s1 & s2 & -> & (e1 & S1 & B1) & s3 & s4 & -> & (sp3 & ->) & (e2 & S2 & B2)). exists (EBinary (BNamed x) e1 e2 sp3).
        split; [|cbn; now rewrite B1, B2]. cbn [app]. assert (I : exists n, infix db (TIdent x) = Some (n, BNamed x)) by (cbn; rewrite Rx, U; eauto).
        destruct I as (n & I). assert (L := infix_level _ _ _ _ I). apply (weaken db ex n); [lia|lia|]. apply S_binary; auto; (apply (weaken db ex 10); [lia|lia|assumption]).
    Qed.
    Lemma seg_string : forall s sp, ~ In 34 s -> seg (bs """" ++ s ++ bs """") (shows (EString s sp DoubleQuote) 10).
    Proof.
      intros s sp N. eapply seg_impl; [apply (seg_token _ _ (TString s DoubleQuote)); [|split; reflexivity]|].
      - replace (bs """" ++ s ++ bs """") with (quoted DoubleQuote s); [constructor|]. unfold quoted. rewrite undoubled; [reflexivity|exact N].
      - intros st (sp' & ->). eexists. split; [apply S_operand; constructor|reflexivity].
    Qed.
    Lemma seg_pair : forall a b ea eb sp, seg a (shows ea 10) -> seg b (shows eb 10) -> seg (bs "[" ++ a ++ bs ", " ++ b ++ bs "]") (shows (EArray [ea; eb] sp) 10).
    Proof.
      intros a b ea eb sp Ha Hb. eapply seg_impl.
      - eapply (seg_open _ _ SquareOpen); [reflexivity|]. replace (a ++ bs ", " ++ b ++ bs "]") with ((a ++ bs "," ++ bs " " ++ b) ++ bs "]") by (rewrite <- !app_assoc; reflexivity).
        eapply (seg_close _ _ _ SquareClose); [cbn; auto|]. apply seg_app; [exact Ha|eapply (seg_open _ _ Separator); [reflexivity|apply seg_space, Hb]|intros; cbn; auto].
      - intros st (sp1 & st' & -> & s1 & sp2 & -> & s3 & s4 & -> & (e1 & S1 & B1) & sp5 & s6 & -> & (e2 & S2 & B2)).
        eexists. split; [apply S_array; apply (L_more db ex e1 _ sp5 [e2]); [discriminate| |apply L_one]; (apply (weaken db ex 10); [lia|lia|eassumption])|].
        cbn. now rewrite B1, B2.
    Qed.
  End Parts.
  Lemma seg_reads_as : forall t e, seg t (shows db (between t) e 1) -> reads_as t e.
  Proof.
    intros t e H. destruct (H 0 [] [] Logic.I) as (raw & Rr & st' & Str & e' & S' & B); [constructor; constructor|].
    rewrite !app_nil_r in Rr. specialize (Str true []). rewrite !app_nil_r in Str.
    eexists (Statements [SExpr e' (extent st' (0, 0))] _ _), e', _. split; [|split; [reflexivity|exact B]].
    apply (read_iff db parse_f32 f32_of apart). exists raw. cbn [content source st_span]. split; [exact Rr|]. split; [reflexivity|]. rewrite Str. split; [|reflexivity].
    constructor. now constructor.
  Qed.
  Lemma shown_part : forall s r e ex, read_sqf s = Some r -> part e (content r) -> shown_well e -> seg (expr_source e) (shows db ex e (level e)).
  Proof.
    intros s r e ex R (st & I & W) H. apply (read_iff db parse_f32 f32_of apart) in R as (ts & R & _ & S & _).
    destruct (parts_spelled db (between s)) as (_ & _ & _ & P). destruct (P _ _ S _ _ I W) as (m & tse & Ie & Se).
    destruct (show_back db parse_f32 f32_of show_f32 ex s ts R) as (K & _). eauto.
  Qed.
End Reading.
