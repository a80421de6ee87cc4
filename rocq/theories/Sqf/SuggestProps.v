(** The suggestions of the SQF lints: C75. *)
From Coq Require Import String.
From Verif Require Import Base.Tactics Base.Bytes Base.Ascii Base.Text Base.Sort Sqf.Ast Sqf.ParseModel Sqf.ParseSpec Sqf.ParseProofs Sqf.ParseComplete Sqf.ParseProps
  Sqf.LexModel Sqf.LexSpec Sqf.LexProofs Sqf.SourceModel Sqf.SourceSpec Sqf.SourceProofs Sqf.SourceBack
  Sqf.OptimizeModel Sqf.OptimizeSpec Sqf.SuggestModel Sqf.SuggestSpec Sqf.SuggestProofs.
Local Open Scope N_scope.
Local Open Scope list_scope.

Lemma camel_name : forall x, forallb (fun c => (65 <=? c) && (c <=? 90) || (97 <=? c) && (c <=? 122)) x = true -> negb (match x with [] => true | _ => false end) = true -> name_text x.
Proof.
  intros [|c r] H H0; [discriminate|]. cbn [forallb] in H. apply andb_true_iff in H as [H1 H2]. exists c, r. split; auto. split.
  - left. unfold letter. lia.
  - apply Forall_forall. intros d I. rewrite forallb_forall in H2. specialize (H2 d I). unfold name_char, letter, digit. lia.
Qed.
Section Props.
  Context (wiki custom : list wiki_entry) (parse_f32 : text -> N) (f32_of : N -> N) (show_f32 : N -> text) (results : text -> option (list result_type)).
  Hypothesis no_new_word_operators : forall e, In e custom -> In CallBinary (snd e) -> reserved (fst e) = None.
  Notation db := (a3_with_workspace wiki custom).
  Notation read_sqf := (read_sqf db parse_f32 f32_of).
  Notation reads_as := (reads_as db parse_f32 f32_of).
  Notation number_text := (number_text parse_f32 f32_of).
  Notation shown_well := (shown_well number_text show_f32).
  Notation fit := (fit number_text show_f32).
  Notation better := (better f32_of).
  Notation seg := (seg parse_f32 f32_of).
  Let apart : reserved_apart db := custom_apart wiki custom no_new_word_operators.
  (** The wiki has the commands that are suggested. *)
  Hypothesis known : Forall (fun x => has_unary db x = true) [bs "parseNumber"; bs "isNull"; bs "objectParent"] /\
    Forall (fun x => has_binary db x = true) [bs "select"; bs "in"].

  Lemma number_of : forall n d, number_text n [48 + d] -> d < 10 -> n = f32_of d.
  Proof.
    intros n d H L. remember [48 + d] as txt eqn:E. destruct H as [x v Nx V B|p x v Hp Nx V B|a b A B|a b e sign x Ha B He Hs Hx].
    - f_equal. subst x. inversion V as [|x u c e Vx Le D E]. assert (x = [] /\ c = 48 + d) as [-> ->] by (destruct x as [|y x]; cbn in E; [injection E as ->; auto|]; destruct x; discriminate).
      inversion Vx as [|y u' c' e' Vy _ _ Ey]; subst; [|destruct y; discriminate]. lia.
    - exfalso. apply (f_equal (@length N)) in E. rewrite !app_length in E. cbn in E. destruct x; [contradiction|]. destruct Hp as [-> | ->]; cbn in E; lia.
    - exfalso. apply (f_equal (@length N)) in E. rewrite !app_length in E. cbn in E. destruct B as [B _]. destruct b; [contradiction|cbn in E; lia].
    - exfalso. apply (f_equal (@length N)) in E. rewrite !app_length in E. cbn in E. destruct B as [B _], Hx as [Hx _]. destruct b, x; try contradiction. cbn in E. lia.
  Qed.
  Definition suggests (e : expr) (t : text) : Prop :=
    In (Some t) [s03 e; s05 show_f32 e; s06 e; s07 show_f32 results e; s18 e; s20 e].

  Lemma assoc_in : forall l x t, assoc l x = Some t -> In (x, t) l.
  Proof.
    intros l x t H. unfold assoc in H. destruct (find _ l) as [[y u]|] eqn:F; [|discriminate]. injection H as <-. apply find_some in F as [I E].
    cbn [fst snd] in *. apply eqb_bytes_spec in E. now subst y.
  Qed.
  Lemma in_script : forall s r e c ex, read_sqf s = Some r -> part e (content r) -> within c e -> shown_well c -> seg (expr_source show_f32 c) (shows db ex c (level c)).
  Proof. intros s r e c ex R P W H. eapply shown_part; eauto. eapply part_within; eauto. Qed.

  Lemma reads_strong : forall t e, (forall ex, seg t (shows db ex e 10)) -> reads_as t e.
  Proof. intros t e H. apply seg_reads_as; [exact apart|]. eapply seg_impl; [apply H|]. intros st. apply shows_weaker; lia. Qed.
  Lemma level_one : forall s r e c ex, read_sqf s = Some r -> part e (content r) -> within c e -> shown_well c -> seg (expr_source show_f32 c) (shows db ex c 1).
  Proof. intros. eapply seg_one, in_script; eauto. Qed.
  Lemma level_ten : forall s r e c ex, read_sqf s = Some r -> part e (content r) -> within c e -> shown_well c -> is_binary c = false ->
    seg (expr_source show_f32 c) (shows db ex c 10).
  Proof. intros s r e c ex R P W H B. assert (X := in_script _ _ _ _ ex R P W H). unfold level in X. now rewrite B in X. Qed.
  Lemma known_unary : forall x, In x [bs "parseNumber"; bs "isNull"; bs "objectParent"] -> has_unary db x = true /\ name_text x.
  Proof.
    intros x I. split; [now apply (proj1 (Forall_forall _ _) (proj1 known))|]. cbn in I. 
    repeat (destruct I as [<-|I]; [apply camel_name; reflexivity|]). contradiction.
  Qed.
  Lemma known_binary : forall x, In x [bs "select"; bs "in"] -> has_binary db x = true /\ name_text x /\ reserved x = None.
  Proof.
    intros x I. split; [now apply (proj1 (Forall_forall _ _) (proj2 known))|]. cbn in I.
    repeat (destruct I as [<-|I]; [split; [apply name_of; reflexivity|reflexivity]|]). contradiction.
  Qed.

  Lemma read_type : forall e t, s03 e = Some t -> exists e' n, better e e' n /\ reads_as t e'.
  Proof.
    intros e t H. destruct e as [| | | | | | |u x sp| |]; try discriminate H. cbn [s03] in H. destruct u; try discriminate H.
    destruct (eqb_bytes _ _) eqn:E in H; [|discriminate]. apply eqb_bytes_spec in E.
    assert (K : forall t', constant_type x = Some t' -> ~ In 34 t' /\ (has_type x t' \/ exists y sp1, x = EUnary (UNamed (bs "text")) y sp1 /\ t' = bs "TEXT")).
    { intros t' T. destruct x as [c| | | |l| |n|u y sp1| |]; cbn [constant_type] in T; try discriminate T.
      - destruct c; [|discriminate]. injection T as <-. split; [cbn; lia|left; constructor].
      - injection T as <-. split; [cbn; lia|left; constructor].
      - injection T as <-. split; [cbn; lia|left; constructor].
      - injection T as <-. split; [cbn; lia|left; constructor].
      - destruct l; [|discriminate]. injection T as <-. split; [cbn; lia|left; constructor].
      - apply assoc_in in T. cbn [nular_types In] in T.
        repeat (destruct T as [T|T]; [injection T as <- <-; split; [cbn; lia|left; constructor; vm_compute; tauto]|]). contradiction.
      - destruct u as [m| | |]; try discriminate. destruct (eqb_bytes m _) eqn:Em; [|discriminate]. apply eqb_bytes_spec in Em. subst m. injection T as <-.
        split; [cbn; lia|]. right. eauto. }
    destruct (constant_type x) as [t'|] eqn:T; [|discriminate]. injection H as <-. destruct (K _ eq_refl) as [N [Ht|(y & sp1 & -> & ->)]].
    - eexists _, _. split; [apply (B_type _ _ _ _ _ (0, 0) E Ht)|]. apply reads_strong. intros ex. now apply seg_string.
    - eexists _, _. split; [apply (B_type_text _ _ _ _ _ (0, 0) E)|]. apply reads_strong. intros ex. now apply seg_string.
  Qed.

  Lemma read_choice : forall s r e t, read_sqf s = Some r -> part e (content r) -> s05 show_f32 e = Some t -> fit e -> exists e' n, better e e' n /\ reads_as t e'.
  Proof.
    intros s r e t R P H F. destruct e as [| | | | | | | |b e1 e2 sp|]; try discriminate H. cbn [s05] in H. destruct b as [n| | | | | | | | | | | | | | | | | | | | | |]; try discriminate H.
    destruct e1 as [| | | | | | |u c s1| |]; try discriminate H. destruct u as [i| | |]; try discriminate H.
    destruct e2 as [| | | | | | | |b l x s6|]; try discriminate H. destruct b; try discriminate H. destruct (eqb_bytes _ _) eqn:E in H; [|discriminate]. apply eqb_bytes_spec in E.

    assert (K : forall y p, extract_constant show_f32 y = Some p -> exists a s2 t1 s3, y = ECode [SExpr a s2] t1 s3 /\ fst p = face show_f32 a /\
      forall ex, within y (EBinary (BNamed n) (EUnary (UNamed i) c s1) (EBinary BElse l x s6) sp) -> fit_constant number_text show_f32 a ->
        seg (in_quotes p) (shows db ex (requoted a) 10)).
    { intros y p H0. destruct y as [cy t1 s3| | | | | | | | |]; try discriminate H0. destruct cy as [|y cy]; [discriminate|]. destruct y as [| |a s2]; try discriminate H0.
      destruct cy; [|discriminate]. exists a, s2, t1, s3. split; [reflexivity|].
      assert (W : forall e, within (ECode [SExpr a s2] t1 s3) e -> within a e).
      { intros e We. eapply within_trans; [|exact We]. eapply within_code; [left; reflexivity|constructor]. }
      destruct a; try discriminate H0; injection H0 as <-; (split; [reflexivity|]); intros ex Wy Fa; cbn [in_quotes fst snd requoted].
      - now apply seg_string.
      - apply (level_ten s r _ _ ex R P (W _ Wy)); [exact Fa|reflexivity].
      - apply (level_ten s r _ _ ex R P (W _ Wy)); [exact I|reflexivity].
      - apply (level_ten s r _ _ ex R P (W _ Wy)); [exact I|reflexivity]. }
    destruct (extract_constant show_f32 l) as [lhs|] eqn:El; [|discriminate]. destruct (extract_constant show_f32 x) as [rhs|] eqn:Ex; [|discriminate].
    destruct (K _ _ El) as (a & s2 & t1 & s3 & -> & Fa & Sa). destruct (K _ _ Ex) as (b & s4 & t2 & s5 & -> & Fb & Sb). clear K.
    destruct (match c with EUnary _ _ _ => _ | _ => _ end) in H; [discriminate|]. injection H as <-.
    cbn [fit] in F. destruct F as (Wc & Ca & Cb & F). unfold s05_text. rewrite Fa, Fb.
    set (e := EBinary _ _ _ _) in *.
    assert (Wic : within c e) by apply within_left, within_unary, within_here.
    destruct (eqb_bytes (face show_f32 a) (bs "1") && eqb_bytes (face show_f32 b) (bs "0")) eqn:D.
    - apply andb_true_iff in D as [D1 D2]. apply eqb_bytes_spec in D1, D2. destruct (F D1 D2) as (Na & Nb & Bc).
      destruct a as [| |va sa| | | | | | |]; try contradiction Na. destruct b as [| |vb sb| | | | | | |]; try contradiction Nb. cbn [face fit_constant] in *.
      rewrite D1 in Ca. rewrite D2 in Cb. apply (number_of _ 1) in Ca; [|lia]. apply (number_of _ 0) in Cb; [|lia]. subst va vb.
      eexists _, _. split; [apply (B_choose_number f32_of n i c s1 s2 s3 s4 s5 s6 sp sa sb (0, 0) t1 t2 E)|]. apply reads_strong. intros ex.
      destruct (known_unary (bs "parseNumber")) as [U Nx]; [left; reflexivity|].
      change (bs "parseNumber " ++ expr_source show_f32 c) with (bs "parseNumber" ++ bs " " ++ expr_source show_f32 c). apply seg_unary; auto. eapply level_ten; eauto.
    - eexists _, _. split; [apply (B_choose f32_of n i c a b s1 s2 s3 s4 s5 s6 sp (0, 0) (0, 0) t1 t2 E)|]. apply seg_reads_as; [exact apart|].
      destruct (known_binary (bs "select")) as (U & Nx & Rx); [left; reflexivity|].
      match goal with |- seg ?t _ => replace t with ((bs "[" ++ in_quotes rhs ++ bs ", " ++ in_quotes lhs ++ bs "]") ++ bs " " ++ bs "select" ++ bs " " ++ (bs "(" ++ expr_source show_f32 c ++ bs ")"))
        by (rewrite <- !app_assoc; reflexivity) end.
      apply seg_binary; auto.
      + apply seg_pair; [apply Sb|apply Sa]; auto; apply within_right; [apply within_right|apply within_left]; apply within_here.
      + apply seg_paren. eapply level_one; eauto.
  Qed.

  Lemma near_one_iff : forall x, ~ not_a_number x -> beyond_one x = false -> near_one x.
  Proof.
    intros x N H. unfold not_a_number in N. unfold beyond_one, f32_nan, f32_abs in H. change (2 ^ 31) with 2147483648 in *. unfold near_one.
    destruct (N.ltb_spec 2139095040 (x mod 2147483648)); [contradiction|]. cbn [negb andb] in H. apply Bool.negb_false_iff, andb_true_iff in H as [H1 H2]. lia.
  Qed.
  Lemma near_zero_iff : forall x, ~ not_a_number x -> beyond_zero x = false -> near_zero x.
  Proof.
    intros x N H. unfold not_a_number in N. unfold beyond_zero, f32_nan, f32_abs in H. change (2 ^ 31) with 2147483648 in *. unfold near_zero.
    change (2 ^ 31) with 2147483648. destruct (N.ltb_spec 2139095040 (x mod 2147483648)); [contradiction|]. cbn [negb andb] in H. apply N.ltb_ge in H. exact H.
  Qed.
  Lemma read_search : forall s r e t, read_sqf s = Some r -> part e (content r) -> s06 e = Some t -> fit e -> exists e' n, better e e' n /\ reads_as t e'.
  Proof.
    intros s r e t R P H F. destruct e as [| | | | | | | |b e1 e2 sp|]; try discriminate H. cbn [s06] in H. destruct b; try discriminate H.
    destruct e1 as [| | | | | | | |b h x s2|]; try discriminate H. destruct b as [n| | | | | | | | | | | | | | | | | | | | | |]; try discriminate H.
    destruct x as [|z s1 w| | | | | | | |]; try discriminate H. destruct e2 as [| | | | | | |u y s4| |]; try discriminate H. destruct u; try discriminate H.
    destruct y as [| |x s3| | | | | | |]; try discriminate H. destruct (beyond_one x) eqn:O; [discriminate|]. destruct (eqb_bytes _ _) eqn:E in H; [|discriminate].
    apply eqb_bytes_spec in E. cbn [negb] in H. cbn [fit] in F. destruct F as (Wh & Nz & Nx). apply (near_one_iff x Nx) in O.
    assert (K : exists t', t = bs """" ++ z ++ bs """" ++ bs " in " ++ t' /\ t' = expr_source show_f32 h /\ is_binary h = false).
    { destruct h; try discriminate H; injection H as <-; eexists; (split; [reflexivity|split; reflexivity]). }
    destruct K as (t' & -> & -> & Bh). eexists _, _. split; [apply (B_search f32_of n h z w x s1 s2 s3 s4 sp (0, 0) (0, 0) E O)|]. apply seg_reads_as; [exact apart|].
    destruct (known_binary (bs "in")) as (U & Nn & Rx); [right; left; reflexivity|].
    match goal with |- seg ?t _ => replace t with ((bs """" ++ z ++ bs """") ++ bs " " ++ bs "in" ++ bs " " ++ expr_source show_f32 h) by (rewrite <- !app_assoc; reflexivity) end.
    apply seg_binary; auto; [now apply seg_string|]. eapply level_ten; eauto. apply within_left, within_left, within_here.
  Qed.

  (** The same operands with another operator. *)
  Lemma equality : forall s r e c c' a b sp sp' o ex, read_sqf s = Some r -> part e (content r) -> within (EBinary c a b sp) e -> shown_well (EBinary c a b sp) ->
    operator_text o = binary_str c' -> (exists n, infix db (TOp o) = Some (n, c')) -> seg (expr_source show_f32 (EBinary c' a b sp')) (shows db ex (EBinary c' a b sp') 1).
  Proof.
    intros s r e c c' a b sp sp' o ex R P W [Wa Wb] T (n & I). assert (L := infix_level _ _ _ _ I).
    assert (Ha := in_script s r e a ex R P (within_trans _ _ _ (within_left _ _ _ _ _ (within_here _)) W) Wa).
    assert (Hb := in_script s r e b ex R P (within_trans _ _ _ (within_right _ _ _ _ _ (within_here _)) W) Wb).
    change (expr_source show_f32 (EBinary c' a b sp')) with (enclosed show_f32 a ++ bs " " ++ binary_str c' ++ bs " " ++ enclosed show_f32 b). rewrite <- T.
    eapply seg_impl.
    - apply seg_app; [apply seg_enclosed, Ha| |intros; cbn; auto].
      apply seg_space. apply seg_app; [apply (seg_token _ _ (TOp o)); [constructor|split; reflexivity]|apply seg_space, seg_enclosed, Hb|intros; cbn; auto].
    - intros st (s1 & s2 & -> & (ea & Sa' & Ba) & s3 & s4 & -> & (sp3 & ->) & (eb & Sb' & Bb)). exists (EBinary c' ea eb sp3).
      split; [|cbn; now rewrite Ba, Bb]. apply (weaken db ex n); [lia|lia|]. cbn [app]. apply S_binary; auto; (apply (weaken db ex 10); [lia|lia|assumption]).
  Qed.
  Lemma read_number : forall s r e t, read_sqf s = Some r -> part e (content r) -> s07 show_f32 results e = Some t -> fit e -> exists e' n, better e e' n /\ reads_as t e'.
  Proof.
    intros s r e t R P H F. destruct e as [| | | | | | | |b e1 c sp|]; try discriminate H. cbn [s07] in H. destruct b as [n| | | | | | | | | | | | | | | | | | | | | |]; try discriminate H.
    destruct e1 as [| | | |l s3| | | | |]; try discriminate H. destruct l as [|e1 l]; [discriminate|]. destruct e1 as [| |x s1| | | | | | |]; try discriminate H.
    destruct l as [|e2 l]; [discriminate|]. destruct e2 as [| |y s2| | | | | | |]; try discriminate H. destruct l; [|discriminate].
    destruct (eqb_bytes _ _) eqn:E in H; [|discriminate]. apply eqb_bytes_spec in E. cbn [negb] in H. destruct (safe _ c); [|discriminate]. cbn [negb] in H. cbn zeta in H.
    cbn [fit] in F. destruct F as (Wc & Nx & Ny). set (e := EBinary _ _ _ _) in *.
    assert (Wic : within c e) by apply within_right, within_here.
    destruct (known_unary (bs "parseNumber")) as [U Nn]; [left; reflexivity|].
    destruct (tiny y).
    - destruct (beyond_zero y) eqn:Oy; [discriminate|]. destruct (beyond_one x) eqn:Ox; [discriminate|]. cbn [orb] in H. injection H as <-.
      apply (near_zero_iff y Ny) in Oy. apply (near_one_iff x Nx) in Ox.
      assert (K : forall c' t', negation c c' -> s07_text show_f32 c true = bs "parseNumber " ++ t' -> (forall ex, seg t' (shows db ex c' 10)) ->
        exists e' n0, better e e' n0 /\ reads_as (s07_text show_f32 c true) e').
      { intros c' t' N T S. eexists _, _. split; [apply (B_number_not f32_of n x y c c' s1 s2 s3 sp (0, 0) E Ox Oy N)|]. rewrite T. apply reads_strong. intros ex.
        change (bs "parseNumber " ++ t') with (bs "parseNumber" ++ bs " " ++ t'). apply seg_unary; auto. }
      assert (D : forall b, seg (expr_source show_f32 c) (shows db b c 1)) by (intros b; eapply level_one; eauto).
      assert (G : s07_text show_f32 c true = bs "parseNumber " ++ bs "!" ++ (bs "(" ++ expr_source show_f32 c ++ bs ")") ->
        exists e' n0, better e e' n0 /\ reads_as (s07_text show_f32 c true) e').
      { intros T. apply (K (EUnary UNot c (0, 0)) _ (N_not c _) T). intros ex. apply seg_negated; [exact show_f32|discriminate|]. now apply seg_paren. }
      destruct c as [| | | | | | | |b0 a b s5|]; try (apply G; unfold s07_text; cbn [andb]; rewrite ?Bool.orb_true_r; reflexivity).
      destruct b0; try (apply G; reflexivity).
      + eapply K; [apply N_equal| |].
        * unfold s07_text. cbn [orb andb app]. reflexivity.
        * intros ex. apply seg_paren. apply (equality s r e BEq BNotEq a b s5 (0, 0) ONotEq); auto. eexists. reflexivity.
      + eapply K; [apply N_differ| |].
        * unfold s07_text. cbn [orb andb app]. reflexivity.
        * intros ex. apply seg_paren. apply (equality s r e BNotEq BEq a b s5 (0, 0) OEq); auto. eexists. reflexivity.
    - destruct (beyond_zero x) eqn:Ox; [discriminate|]. destruct (beyond_one y) eqn:Oy; [discriminate|]. cbn [orb] in H. injection H as <-.
      apply (near_zero_iff x Nx) in Ox. apply (near_one_iff y Ny) in Oy.
      eexists _, _. split; [apply (B_number f32_of n x y c s1 s2 s3 sp (0, 0) E Ox Oy)|]. apply reads_strong. intros ex.
      unfold s07_text. cbn [andb]. rewrite Bool.orb_false_r.
      match goal with |- seg (bs "parseNumber " ++ ?t') _ => change (bs "parseNumber " ++ t') with (bs "parseNumber" ++ bs " " ++ t') end.
      apply seg_unary; auto. destruct (match c with EUnary _ _ _ => _ | _ => _ end) eqn:D.
      + cbn [app]. apply seg_paren. eapply level_one; eauto.
      + eapply level_ten; eauto. destruct c; try reflexivity. discriminate D.
  Qed.

  (** A name is of a variable or of a command, not both. *)
  Lemma leaf_operand : forall s r e, read_sqf s = Some r -> part e (content r) -> is_ident e ->
    exists o sp, operand db o sp e /\ exists s0, LexSpec.written parse_f32 f32_of o s0.
  Proof.
    intros s r e R (st & Is & W) Ie. apply (read_iff db parse_f32 f32_of apart) in R as (ts & R & _ & S & _).
    destruct (parts_spelled db (between s)) as (_ & _ & _ & P). destruct (P _ _ S _ _ Is W) as (m & tse & In & Se). clear - Se Ie R In.
    induction Se; try contradiction Ie; auto.
    - exists o, sp. split; auto. exact (in_written parse_f32 f32_of s ts R o sp [] In).
    - apply IHSe; auto. eapply inside_trans; [apply inside_bracket|exact In].
  Qed.
  Lemma in_name : forall s r x sx, read_sqf s = Some r -> part (EVar x sx) (content r) -> name_text x.
  Proof.
    intros s r x sx R P. destruct (leaf_operand _ _ _ R P I) as (o & q & O & s0 & W). inversion O; subst. inversion W; subst. assumption.
  Qed.
  Lemma one_kind : forall s r x sp sp', read_sqf s = Some r -> part (EVar x sp) (content r) -> part (ENular x sp') (content r) -> False.
  Proof.
    intros s r x sp sp' R P1 P2. destruct (leaf_operand _ _ _ R P1 I) as (o & q & O & _). destruct (leaf_operand _ _ _ R P2 I) as (o' & q' & O' & _).
    inversion O; subst. inversion O'; subst. unfold is_name, has_command in *. unfold has_nular in *. cbn zeta in *.
    repeat match goal with H : contains _ _ = _ |- _ => rewrite H in * end. cbn in *. intuition congruence.
  Qed.
  Lemma read_vehicle : forall s r e t, read_sqf s = Some r -> part e (content r) -> s18 e = Some t -> exists e' n, better e e' n /\ reads_as t e'.
  Proof.
    intros s r e t R P H. destruct e as [| | | | | | | |b lhs rhs sp|]; try discriminate H.
    assert (K : forall a b0 x, is_in_vehicle_check a b0 = Some x -> within a (EBinary b lhs rhs sp) -> within b0 (EBinary b lhs rhs sp) ->
      exists n o y s1, a = EUnary (UNamed n) o s1 /\ b0 = y /\ to_ascii_lower n = bs "vehicle" /\ is_ident o /\ bare o = bare y /\
        (forall ex, seg x (shows db ex o 10))).
    { intros a b0 x Hx Wa Wb. destruct a as [| | | | | | |u o s1| |]; try discriminate Hx. cbn [is_in_vehicle_check] in Hx. destruct u as [n| | |]; try discriminate Hx.
      destruct (eqb_bytes _ _) eqn:E in Hx; [|discriminate]. apply eqb_bytes_spec in E. cbn [negb] in Hx.
      assert (Wo : within o (EBinary b lhs rhs sp)) by (eapply within_trans; [|exact Wa]; apply within_unary, within_here).
      assert (Po := part_within _ _ _ Wo P). assert (Pb := part_within _ _ _ Wb P).
      assert (Q : is_ident o /\ bare o = bare b0 /\ x = expr_source show_f32 o /\ shown_well o /\ is_binary o = false).
      { destruct o; try discriminate Hx; cbn [ident] in Hx; destruct b0; try discriminate Hx; cbn [ident] in Hx; destruct (eqb_bytes _ _) eqn:Ex in Hx; try discriminate Hx;
          apply eqb_bytes_spec in Ex; injection Hx as <-; subst; try (exfalso; eapply one_kind; eassumption); repeat split. }
      destruct Q as (Q1 & Q2 & -> & Q4 & Q5). exists n, o, b0, s1. refine (conj eq_refl (conj eq_refl (conj E (conj Q1 (conj Q2 _))))). intros ex. exact (level_ten s r _ o ex R P Wo Q4 Q5). }
    assert (K2 : forall x, or_else (is_in_vehicle_check lhs rhs) (is_in_vehicle_check rhs lhs) = Some x -> exists n o y s1, to_ascii_lower n = bs "vehicle" /\ is_ident o /\ bare o = bare y /\
      (lhs = EUnary (UNamed n) o s1 /\ rhs = y \/ lhs = y /\ rhs = EUnary (UNamed n) o s1) /\ forall ex, seg x (shows db ex o 10)).
    { intros x Hx. destruct (is_in_vehicle_check lhs rhs) as [x1|] eqn:E1; cbn [or_else] in Hx.
      - injection Hx as ->. destruct (K _ _ _ E1 (within_left _ _ _ _ _ (within_here _)) (within_right _ _ _ _ _ (within_here _))) as (n & o & y & s1 & H1 & H2 & H3 & H4 & H5 & H6).
        exists n, o, y, s1. repeat split; auto.
      - destruct (K _ _ _ Hx (within_right _ _ _ _ _ (within_here _)) (within_left _ _ _ _ _ (within_here _))) as (n & o & y & s1 & H1 & H2 & H3 & H4 & H5 & H6).
        exists n, o, y, s1. repeat split; auto. }
    clear K. destruct (known_unary (bs "isNull")) as [U1 N1]; [right; left; reflexivity|]. destruct (known_unary (bs "objectParent")) as [U2 N2]; [right; right; left; reflexivity|].
    assert (G : forall x o ex, seg x (shows db ex o 10) ->
      seg (bs "isNull" ++ bs " " ++ bs "objectParent" ++ bs " " ++ x) (shows db ex (EUnary (UNamed (bs "isNull")) (EUnary (UNamed (bs "objectParent")) o (0, 0)) (0, 0)) 10)).
    { intros x o ex Hx. apply seg_unary; auto. now apply seg_unary. }
    cbn [s18] in H. destruct b; try discriminate H; (destruct (or_else _ _) as [x|]; [|discriminate]); injection H as <-;
      destruct (K2 _ eq_refl) as (n & o & y & s1 & E & Io & B & A & Sx).
    - eexists _, _. split; [apply (B_on_foot f32_of n o y lhs rhs s1 sp (0, 0) (0, 0) E Io B A)|]. apply reads_strong. intros ex. apply (G _ _ ex (Sx ex)).
    - eexists _, _. split; [apply (B_in_vehicle f32_of n o y lhs rhs s1 sp (0, 0) (0, 0) (0, 0) E Io B A)|]. apply reads_strong. intros ex.
      change (seg (bs "!" ++ (bs "isNull" ++ bs " " ++ bs "objectParent" ++ bs " " ++ x)) (shows db ex (EUnary UNot (EUnary (UNamed (bs "isNull")) (EUnary (UNamed (bs "objectParent")) o (0, 0)) (0, 0)) (0, 0)) 10)).
      apply seg_negated; [exact show_f32|discriminate|]. apply (G _ _ ex (Sx ex)).
  Qed.
  Lemma read_boolean : forall s r e t, read_sqf s = Some r -> part e (content r) -> s20 e = Some t -> exists e' n, better e e' n /\ reads_as t e'.
  Proof.
    intros s r e t R P H. destruct e as [| | | | | | | |c lhs rhs sp|]; try discriminate H.
    assert (K2 : forall p, or_else (is_static_comparison lhs rhs) (is_static_comparison rhs lhs) = Some p -> exists sx s1,
      (lhs = EVar (fst p) sx /\ rhs = EBool (snd p) s1 \/ lhs = EBool (snd p) s1 /\ rhs = EVar (fst p) sx)).
    { intros p Hp. destruct lhs, rhs; try discriminate Hp; injection Hp as <-; eexists _, _; [right|left]; split; reflexivity. }
    assert (S : forall x sx, within (EVar x sx) (EBinary c lhs rhs sp) -> (forall ex, seg x (shows db ex (EVar x sx) 10)) /\ (forall ex, seg (bs "!" ++ x) (shows db ex (EUnary UNot (EVar x sx) (0, 0)) 10))).
    { intros x sx W. assert (S1 : forall ex, seg x (shows db ex (EVar x sx) 10)) by (intros ex; apply (level_ten s r _ (EVar x sx) ex R P W I eq_refl)). split; [exact S1|].
      intros ex. apply seg_negated; [exact show_f32| |apply S1]. destruct (in_name s r x sx R (part_within _ _ _ W P)) as (d & q & -> & Hd & _). unfold letter in Hd. lia. }
    cbn [s20] in H. destruct c; try discriminate H; (destruct (or_else _ _) as [[x v]|]; [|discriminate]); injection H as <-; destruct (K2 _ eq_refl) as (sx & s1 & A); cbn [fst snd] in A;
      (destruct (S x sx) as [S1 S2]; [destruct A as [[-> ->]|[-> ->]]; [apply within_left|apply within_right]; apply within_here|]); destruct v; unfold s20_text; cbn [fst snd];
      (eexists _, _; split; [first [eapply B_holds; [|exact A]; tauto|eapply (B_fails _ _ _ _ _ _ _ _ (0, 0)); [|exact A]; tauto]|apply reads_strong; assumption]).
  Qed.

  (** The text suggested for an expression of a script is a script of one expression: a better one. *)
  Theorem C75_suggestion_reads_as_better : forall s r e t, read_sqf s = Some r -> part e (content r) -> suggests e t -> fit e ->
    exists b n r' e' sp, better e b n /\ read_sqf t = Some r' /\ content r' = [SExpr e' sp] /\ bare e' = bare b.
  Proof.
    intros s r e t R P H F. enough (K : exists b n, better e b n /\ reads_as t b).
    { destruct K as (b & n & B & r' & e' & sp & K). exists b, n, r', e', sp. tauto. }
    destruct H as [H|[H|[H|[H|[H|[H|[]]]]]]].
    - now apply read_type.
    - eapply read_choice; eauto.
    - eapply read_search; eauto.
    - eapply read_number; eauto.
    - eapply read_vehicle; eauto.
    - eapply read_boolean; eauto.
  Qed.
  (** Whoever takes the suggestion gets what the expression gave, whatever the commands' values and effects: in every
      interpretation in which the commands named in it do what they are documented to do. *)
  Theorem C75_suggestion_means_the_same : forall s r e t, read_sqf s = Some r -> part e (content r) -> suggests e t -> fit e ->
    exists b n r' e' sp, better e b n /\ read_sqf t = Some r' /\ content r' = [SExpr e' sp] /\
      forall L minus_one array branch pair object nothing, commands L (f32_of 0) (f32_of 1) minus_one array branch pair object nothing ->
      exact (f32_of 0) (f32_of 1) e -> forall depth w, met L object (exec L (S depth)) w n -> eval L (exec L (S depth)) e' w = eval L (exec L (S depth)) e w.
  Proof.
    intros s r e t R P H F. destruct (C75_suggestion_reads_as_better _ _ _ _ R P H F) as (b & n & r' & e' & sp & B & Hr & Hc & E).
    exists b, n, r', e', sp. split; [exact B|]. split; [exact Hr|]. split; [exact Hc|]. intros L m ar br pa ob no C X k w M.
    rewrite (eval_alike _ _ _ _ _ _ _ _ C _ _ _ _ E). exact (better_means _ _ _ _ _ _ _ _ C _ _ _ B X k w M).
  Qed.
End Props.
Print Assumptions C75_suggestion_reads_as_better.
Print Assumptions C75_suggestion_means_the_same.
