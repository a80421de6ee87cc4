From Coq Require Import String.
From Verif Require Import Base.Tactics Base.Bytes Base.Ascii Base.Text Sqf.Ast Sqf.ParseModel Sqf.ParseSpec Sqf.ParseProofs.
Local Open Scope N_scope.
Local Open Scope list_scope.

(** A parser that uses up at least one token. *)
Definition shrinks {A} (p : parser A) : Prop := forall ts a r, p ts = Some (a, r) -> (length r < length ts)%nat.
Lemma repeated_fuel : forall A (p : parser A), shrinks p -> forall n m ts, (length ts <= n)%nat -> (length ts <= m)%nat ->
  repeated_n n p ts = repeated_n m p ts.
Proof.
  intros A p Hp. induction n as [|n IH]; intros m ts Hn Hm.
  - destruct ts as [|t ts]; [|cbn in Hn; lia]. destruct m; [reflexivity|]. cbn. destruct (p []) as [[a r]|] eqn:E; [|reflexivity].
    apply Hp in E. cbn in E. lia.
  - destruct m as [|m].
    + destruct ts as [|t ts]; [|cbn in Hm; lia]. cbn. destruct (p []) as [[a r]|] eqn:E; [|reflexivity]. apply Hp in E. cbn in E. lia.
    + cbn. destruct (p ts) as [[a r]|] eqn:E; [|reflexivity]. apply Hp in E. rewrite (IH m r) by lia. reflexivity.
Qed.

Section C.
  Context (db : database) (extract : span -> text) (eoi : span).
  Hypothesis apart : reserved_apart db.
  Notation infix := (infix db).
  Notation prefix := (prefix db).
  Notation spells := (spells db extract).
  Notation operand := (operand db).
  Notation expression := (expression db extract eoi).
  Notation upper f := (unary_parser db extract eoi (expression f)).
  Notation level n f := (climb eoi (skipn (n - 1) (ladder db)) (upper f)).

  Lemma expression_unfold : forall f, expression (S f) = level 1%nat f.
  Proof. reflexivity. Qed.
  Lemma upper_sound : forall f, sound (spells 10) (upper f).
  Proof. intros f. apply unary_sound. now apply expression_sound. Qed.
  Lemma level_sound : forall n f, (1 <= n <= 10)%nat -> sound (spells n) (level n f).
  Proof.
    intros n f Hn. replace n with (S (9 - (10 - n))) at 1 by lia. replace (n - 1)%nat with (9 - (10 - n))%nat by lia.
    apply climb_sound; [assumption | lia | apply upper_sound].
  Qed.
  Lemma sound_shrinks : forall n p, sound (spells n) p -> shrinks p.
  Proof.
    intros n p Hp ts a r H. apply Hp in H as (u & -> & Hu). apply spells_nonempty in Hu. rewrite app_length.
    destruct u; [contradiction | cbn; lia].
  Qed.
  Lemma expression_shrinks : forall f, shrinks (expression f).
  Proof. intros f. apply (sound_shrinks 1). now apply expression_sound. Qed.
  Lemma statement_shrinks : forall f, shrinks (statement db eoi (expression f)).
  Proof.
    intros f ts a r H. apply (statement_sound db extract) in H as (u & -> & Hu); [|now apply expression_sound].
    rewrite app_length. destruct u; [|cbn; lia]. inversion Hu; subst. now apply spells_nonempty in H.
  Qed.

  (** The rest does not go on with an operator of precedence [n] or more. *)
  Definition ends (n : nat) (rest : list ltoken) : Prop :=
    match rest with [] => True | t :: _ => forall m c, infix (fst t) = Some (m, c) -> (m < n)%nat end.
  Lemma ends_weaken : forall n m rest, (n <= m)%nat -> ends n rest -> ends m rest.
  Proof. intros n m [|t r] H He; cbn in *; auto. intros k c Hk. apply He in Hk. lia. Qed.
  Lemma ends_ctl : forall n c sp r, ends n ((TCtl c, sp) :: r).
  Proof. intros n c sp r m k H. discriminate. Qed.

  Definition step (n f : nat) : parser ((binary * span) * expr) :=
    then_ (with_span eoi (take (nth (n - 1) (ladder db) (fun _ => None)))) (level (S n) f).
  Definition grow (e1 : expr) (c : (binary * span) * expr) : expr := EBinary (fst (fst c)) e1 (snd c) (snd (fst c)).
  Definition loop (n f : nat) (e : expr) (ts : list ltoken) : expr * list ltoken :=
    let (l, r) := repeated_n (length ts) (step n f) ts in (fold_left grow l e, r).
  Lemma level_unfold : forall n f ts, (1 <= n <= 9)%nat ->
    level n f ts = match level (S n) f ts with Some (e, r) => Some (loop n f e r) | None => None end.
  Proof.
    intros n f ts Hn.
    assert (E : skipn (n - 1) (ladder db) = nth (n - 1) (ladder db) (fun _ => None) :: skipn (S n - 1) (ladder db)).
    { clear -Hn. destruct n as [|n]; [lia|]. do 9 (destruct n as [|n]; [reflexivity|]). lia. }
    rewrite E. cbn [climb]. unfold apply_binary at 1. unfold map_, then_ at 1, repeated.
    destruct (level (S n) f ts) as [[e r]|]; [|reflexivity]. unfold loop, step, grow.
    destruct (repeated_n (length r) _ r) as [l r']. reflexivity.
  Qed.
  Lemma step_shrinks : forall n f, (1 <= n <= 9)%nat -> shrinks (step n f).
  Proof.
    intros n f Hn ts a r H. unfold step, then_, with_span, take in H.
    destruct ts as [|[o sp] ts]; [discriminate|]. cbn [fst] in H.
    destruct (nth _ _ _ o); [|discriminate]. destruct (level (S n) f ts) as [[e r']|] eqn:E; [|discriminate]. injection H as <- <-.
    apply (sound_shrinks (S n)) in E; [cbn; lia | apply level_sound; lia].
  Qed.
  Lemma loop_step : forall n f e o sp c r b r', (1 <= n <= 9)%nat -> infix o = Some (n, c) -> level (S n) f r = Some (b, r') ->
    loop n f e ((o, sp) :: r) = loop n f (EBinary c e b sp) r'.
  Proof.
    intros n f e o sp c r b r' Hn Ho Hb. unfold loop. cbn [length repeated_n]. unfold step at 1, then_ at 1, with_span, take. cbn [fst].
    assert (Hl : nth (n - 1) (ladder db) (fun _ => None) o = Some c).
    { apply ladder_infix; auto; [lia|]. now replace (S (n - 1)) with n by lia. }
    rewrite Hl, span_one, Hb.
    rewrite (repeated_fuel _ _ (step_shrinks n f Hn) (length r) (length r') r'); [| |lia].
    - destruct (repeated_n (length r') (step n f) r') as [l r'']. reflexivity.
    - apply (sound_shrinks (S n)) in Hb; [lia | apply level_sound; lia].
  Qed.
  Lemma loop_stop : forall n f e rest, (1 <= n <= 9)%nat -> ends n rest -> loop n f e rest = (e, rest).
  Proof.
    intros n f e [|[o sp] r] Hn He; [reflexivity|]. unfold loop. cbn [length repeated_n]. unfold step at 1, then_ at 1, with_span, take. cbn [fst].
    destruct (nth (n - 1) (ladder db) (fun _ => None) o) as [c|] eqn:E; [|reflexivity].
    apply ladder_infix in E; [|assumption|lia]. apply He in E. lia.
  Qed.

  (** What cannot begin an expression. *)
  Definition closes (rest : list ltoken) : Prop :=
    match rest with
    | [] => True
    | t :: _ => match fst t with TCtl Terminator | TCtl Separator | TCtl SquareClose | TCtl RoundClose | TCtl CurlyClose => True | _ => False end
    end.
  Lemma closes_ends : forall n rest, closes rest -> ends n rest.
  Proof. intros n [|[t sp] r]; cbn; auto. destruct t; try contradiction. intros _ m c' H. discriminate. Qed.
  Lemma climb_none : forall l p ts, p ts = None -> climb eoi l p ts = None.
  Proof. induction l as [|c l IH]; intros p ts H; cbn; auto. unfold apply_binary, map_, then_. now rewrite IH. Qed.
  Lemma expression_none : forall f rest, closes rest -> expression f rest = None.
  Proof.
    intros [|f] rest H; [reflexivity|]. rewrite expression_unfold. apply climb_none.
    destruct rest as [|[t sp] r]; [reflexivity|]. rewrite unary_parser_cons. cbn in H. destruct t as [| |c| | |]; try contradiction.
    cbn [ParseSpec.prefix]. destruct c; try contradiction; reflexivity.
  Qed.
  Lemma statement_none : forall f rest, closes rest -> statement db eoi (expression f) rest = None.
  Proof.
    intros f rest H. unfold statement, orelse.
    assert (E : assignment db eoi (expression f) rest = None).
    { destruct rest as [|[t sp] r]; [reflexivity|]. cbn in H. destruct t as [| |c| | |]; try contradiction. reflexivity. }
    rewrite E. unfold map_, with_span. now rewrite expression_none.
  Qed.

  (** ** Lists *)
  Lemma separated_none : forall A (p : parser A) sep tr ts, p ts = None -> separated p sep tr ts = Some ([], ts).
  Proof. intros A p sep tr ts H. unfold separated. now rewrite H. Qed.
  Lemma separated_one : forall A (p : parser A) sep tr ts a r, p ts = Some (a, r) -> just_ctl sep r = None -> separated p sep tr ts = Some ([a], r).
  Proof.
    intros A p sep tr ts a r H Hj. unfold separated. rewrite H.
    assert (E : forall n, repeated_n n (fun ts0 => match just_ctl sep ts0 with Some (_, r0) => p r0 | None => None end) r = ([], r)).
    { intros [|n]; cbn; [reflexivity|]. now rewrite Hj. }
    rewrite E, Hj. now destruct tr.
  Qed.
  Lemma separated_trailing : forall A (p : parser A) sep ts a sp r, p ts = Some (a, (TCtl sep, sp) :: r) -> p r = None ->
    separated p sep true ts = Some ([a], r).
  Proof.
    intros A p sep ts a sp r H Hn. unfold separated. rewrite H. cbn [length repeated_n]. rewrite just_ctl_ok, Hn, just_ctl_ok. reflexivity.
  Qed.
  Lemma separated_more : forall A (p : parser A) sep tr ts a sp r b l rest, shrinks p ->
    p ts = Some (a, (TCtl sep, sp) :: r) -> separated p sep tr r = Some (b :: l, rest) -> separated p sep tr ts = Some (a :: b :: l, rest).
  Proof.
    intros A p sep tr ts a sp r b l rest Hp H Hs. unfold separated in *. rewrite H. cbn [length repeated_n]. rewrite just_ctl_ok.
    destruct (p r) as [[b' r']|] eqn:E; [|discriminate].
    set (st := fun ts0 => match just_ctl sep ts0 with Some (_, r0) => p r0 | None => None end) in *.
    assert (Hst : shrinks st).
    { intros ts0 x r0 H0. unfold st in H0. destruct (just_ctl sep ts0) as [[u r1]|] eqn:Ej; [|discriminate].
      apply just_ctl_unit in Ej as [sp0 ->]. apply Hp in H0. cbn. lia. }
    rewrite (repeated_fuel _ st Hst (length r) (length r') r'); [| |lia].
    - destruct (repeated_n (length r') st r') as [l' r'']. injection Hs as -> -> Hr. rewrite Hr. reflexivity.
    - apply Hp in E. lia.
  Qed.

  (** ** Assignments and expressions do not look alike *)
  Lemma name_not_unary : forall x, is_name db x -> has_unary db x = false.
  Proof. intros x [H _]. unfold has_command in H. apply orb_false_iff in H as [H _]. now apply orb_false_iff in H as [_ H]. Qed.
  Lemma name_not_nular : forall x, is_name db x -> has_nular db x = false.
  Proof. intros x [H _]. unfold has_command in H. apply orb_false_iff in H as [H _]. now apply orb_false_iff in H as [H _]. Qed.
  Lemma special_spec : forall x, is_special_command x = true <->
    In (to_ascii_lower x) (map bs ["true"; "false"; "or"; "and"; "else"; "max"; "min"; "mod"; "atan2"]%string).
  Proof.
    intros x. unfold is_special_command, is_in, eq_ignore_case, nular_special, binary_special. cbn [existsb map In].
    change (to_ascii_lower (bs "true")) with (bs "true"). change (to_ascii_lower (bs "false")) with (bs "false").
    change (to_ascii_lower (bs "or")) with (bs "or"). change (to_ascii_lower (bs "and")) with (bs "and").
    change (to_ascii_lower (bs "else")) with (bs "else"). change (to_ascii_lower (bs "max")) with (bs "max").
    change (to_ascii_lower (bs "min")) with (bs "min"). change (to_ascii_lower (bs "mod")) with (bs "mod").
    change (to_ascii_lower (bs "atan2")) with (bs "atan2").
    rewrite !orb_true_iff, !same_text_eq. intuition (try discriminate).
  Qed.
  Lemma reserved_special : forall x p, reserved x = Some p -> is_special_command x = true.
  Proof.
    intros x p H. apply special_spec. unfold reserved in H. cbn [map In].
    repeat match type of H with context [same_text ?a ?w] =>
      let E := fresh "E" in destruct (same_text a w) eqn:E; [apply same_text_eq in E; rewrite E; tauto|] end. discriminate.
  Qed.
  Lemma name_not_infix : forall x p, is_name db x -> infix (TIdent x) = Some p -> False.
  Proof.
    intros x p [H1 H2] H. cbn [ParseSpec.infix] in H. destruct (reserved x) as [q|] eqn:E.
    - apply reserved_special in E. congruence.
    - unfold has_command in H1. apply orb_false_iff in H1 as [_ H1]. unfold has_binary in H. rewrite H1 in H. discriminate.
  Qed.
  Lemma no_assign : forall n e ts, spells n e ts ->
    (forall x sp sp' r, ts = (TIdent x, sp) :: (TOp OAssign, sp') :: r -> is_name db x -> False) /\
    (forall p x sp sp' sp'' r, ts = (TIdent p, sp'') :: (TIdent x, sp) :: (TOp OAssign, sp') :: r -> is_name db x -> False).
  Proof.
    intros n e ts H. induction H as [n c a b o sp ta tb Ho Ha IHa Hb IHb|n e ts Hn H IH|c e o sp ts Ho H IH|o sp e H|e ts sp sp' H IH|es ts sp sp' H|ss ts sp sp' H].
    - assert (Hne := spells_nonempty _ _ _ _ _ Ha). split.
      + intros x sp1 sp2 r E Hx. destruct ta as [|t1 [|t2 ta]]; [contradiction | |].
        * cbn in E. injection E as -> -> -> ->. discriminate.
        * cbn in E. injection E as -> -> <-. eapply (proj1 IHa); eauto.
      + intros p x sp1 sp2 sp3 r E Hx. destruct ta as [|t1 [|t2 [|t3 ta]]]; [contradiction | | |].
        * cbn in E. injection E as -> -> -> ->. now apply (name_not_infix x) in Ho.
        * cbn in E. injection E as -> -> -> -> ->. discriminate.
        * cbn in E. injection E as -> -> -> <-. eapply (proj2 IHa); eauto.
    - exact IH.
    - split.
      + intros x sp1 sp2 r E Hx. injection E as -> -> ->. cbn in Ho. now rewrite (name_not_unary x) in Ho.
      + intros p x sp1 sp2 sp3 r E Hx. injection E as -> -> ->. eapply (proj1 IH); eauto.
    - split; intros; discriminate.
    - split; intros; discriminate.
    - split; intros; discriminate.
    - split; intros; discriminate.
  Qed.

  (** ** Completeness *)
  Definition reads (n : nat) (e : expr) (ts : list ltoken) : Prop := (1 <= n <= 10)%nat -> forall f rest, (length ts <= f)%nat ->
    if (n <? 10)%nat then ends (S n) rest -> level n f (ts ++ rest) = Some (loop n f e rest)
    else level n f (ts ++ rest) = Some (e, rest).
  Lemma reads_all : forall n e ts, (1 <= n <= 10)%nat -> reads n e ts -> forall f rest, (length ts <= f)%nat -> ends n rest ->
    level n f (ts ++ rest) = Some (e, rest).
  Proof.
    intros n e ts Hn H f rest Hf He. specialize (H Hn f rest Hf). destruct (n <? 10)%nat eqn:E.
    - apply Nat.ltb_lt in E. rewrite H by (eapply ends_weaken; [|eassumption]; lia). rewrite loop_stop; auto. lia.
    - exact H.
  Qed.
  Lemma reads_expression : forall e ts, reads 1 e ts -> forall f rest, (length ts < f)%nat -> closes rest ->
    expression f (ts ++ rest) = Some (e, rest).
  Proof.
    intros e ts H [|f] rest Hf Hc; [lia|]. rewrite expression_unfold. apply reads_all; auto; [lia|lia|now apply closes_ends].
  Qed.
  Definition reads_list (es : list expr) (ts : list ltoken) : Prop := forall f rest, (length ts < f)%nat -> closes rest -> just_ctl Separator rest = None ->
    separated (expression f) Separator false (ts ++ rest) = Some (es, rest).
  Definition reads_statement (s : stmt) (ts : list ltoken) : Prop := forall f rest, (length ts < f)%nat -> closes rest ->
    statement db eoi (expression f) (ts ++ rest) = Some (s, rest).
  Definition reads_statements (ss : list stmt) (ts : list ltoken) : Prop := forall f rest, (length ts < f)%nat -> closes rest -> just_ctl Terminator rest = None ->
    separated (statement db eoi (expression f)) Terminator true (ts ++ rest) = Some (ss, rest).

  Lemma upper_base : forall f o sp r, prefix o = None ->
    upper f ((o, sp) :: r) = base db eoi (expression f) (block_body db extract eoi (expression f)) ((o, sp) :: r).
  Proof. intros f o sp r H. rewrite unary_parser_cons. now rewrite H. Qed.
  Lemma value_ctl : forall c sp r, value db ((TCtl c, sp) :: r) = None.
  Proof. reflexivity. Qed.
  Lemma delimited_ok : forall A (p : parser A) o c sp sp' ts a rest, p (ts ++ (TCtl c, sp') :: rest) = Some (a, (TCtl c, sp') :: rest) ->
    delimited p o c ((TCtl o, sp) :: (ts ++ [(TCtl c, sp')]) ++ rest) = Some (a, rest).
  Proof.
    intros A p o c sp sp' ts a rest H. unfold delimited. rewrite just_ctl_ok. rewrite <- app_assoc. cbn [app]. rewrite H, just_ctl_ok. reflexivity.
  Qed.
  Lemma operand_read : forall f o sp e rest, operand o sp e -> upper f ((o, sp) :: rest) = Some (e, rest).
  Proof.
    intros f o sp e rest H. rewrite upper_base by (eapply operand_prefix; eauto). unfold base, orelse.
    assert (Ht : to_ascii_lower (bs "true") = bs "true") by reflexivity.
    assert (Hf : to_ascii_lower (bs "false") = bs "false") by reflexivity.
    assert (Htf : bs "false" <> bs "true") by discriminate.
    inversion H as [| |x sp0 Hu Hx E|x sp0 Hu Hx E|x sp0 Hu Hn Hx Hy E|x sp0 Hx E]; subst; try reflexivity; unfold value, eq_ignore_case.
    - rewrite Ht, Hx. now rewrite (proj2 (same_text_eq _ _) eq_refl).
    - rewrite Ht, Hf, Hx. rewrite (proj2 (same_text_neq _ _) Htf). now rewrite (proj2 (same_text_eq _ _) eq_refl).
    - rewrite Ht, Hf. rewrite (proj2 (same_text_neq _ _) Hx), (proj2 (same_text_neq _ _) Hy), Hn. reflexivity.
    - rewrite Ht, Hf. assert (Hs : is_special_command x <> true) by (destruct Hx as [_ ->]; discriminate). rewrite special_spec in Hs.
      cbn [map In] in Hs.
      rewrite (proj2 (same_text_neq _ _)) by (intros E; apply Hs; rewrite E; auto).
      rewrite (proj2 (same_text_neq _ _)) by (intros E; apply Hs; rewrite E; auto).
      rewrite name_not_nular by assumption.
      unfold delimited, just_ctl, map_, with_span, take. cbn [fst].
      rewrite (proj2 (variable_spec db (TIdent x) x)) by auto. now rewrite span_one.
  Qed.

  Lemma assignment_not : forall f e ts rest, spells 1 e ts -> closes rest -> assignment db eoi (expression f) (ts ++ rest) = None.
  Proof.
    intros f e ts rest H Hc. apply no_assign in H as [H1 H2].
    assert (Hr : forall r', take (fun t => match t with TOp OAssign => Some tt | _ => None end) rest = r' -> r' = None).
    { intros r' <-. destruct rest as [|[t sp] r]; [reflexivity|]. cbn in Hc. destruct t; try contradiction. reflexivity. }
    assert (Hv : take (variable db) rest = None).
    { destruct rest as [|[t sp] r]; [reflexivity|]. cbn in Hc. destruct t; try contradiction. reflexivity. }
    assert (Hp : take (keyword "private") rest = None).
    { destruct rest as [|[t sp] r]; [reflexivity|]. cbn in Hc. destruct t; try contradiction. reflexivity. }
    unfold assignment, map_, with_span, then_.
    destruct ts as [|[t sp] ts]; cbn [app].
    { rewrite Hp, Hv. reflexivity. }
    unfold take at 1. cbn [fst]. unfold keyword. destruct (ident_is "private" t) eqn:Ep.
    - destruct t as [| | | |p|]; try discriminate.
      destruct ts as [|[t2 sp2] ts]; cbn [app]; [now rewrite Hv|].
      unfold take at 1. cbn [fst]. destruct (variable db t2) as [x|] eqn:Ev; [|reflexivity]. apply variable_spec in Ev as [-> Hx].
      destruct ts as [|[t3 sp3] ts]; cbn [app]; [now rewrite (Hr _ eq_refl)|].
      unfold take at 1. cbn [fst]. destruct t3 as [|o| | | |]; try reflexivity. destruct o; try reflexivity.
      exfalso. eapply H2; eauto.
    - unfold take at 1. cbn [fst]. destruct (variable db t) as [x|] eqn:Ev; [|reflexivity]. apply variable_spec in Ev as [-> Hx].
      destruct ts as [|[t3 sp3] ts]; cbn [app]; [now rewrite (Hr _ eq_refl)|].
      unfold take at 1. cbn [fst]. destruct t3 as [|o| | | |]; try reflexivity. destruct o; try reflexivity.
      exfalso. eapply H1; eauto.
  Qed.

  Theorem complete :
    (forall n e ts, spells n e ts -> reads n e ts) /\ (forall es ts, spells_list db extract es ts -> reads_list es ts) /\
    (forall s ts, spells_statement db extract s ts -> reads_statement s ts) /\
    (forall ss ts, spells_statements db extract ss ts -> reads_statements ss ts).
  Proof.
    apply spells_mutual.
    - intros n c a b o sp ta tb Ho Ha IHa Hb IHb Hn f rest Hf.
      assert (Hn' := infix_level _ _ _ _ Ho). rewrite (proj2 (Nat.ltb_lt _ _)) by lia. intros He.
      rewrite app_length in Hf. cbn [length] in Hf. rewrite <- app_assoc. cbn [app].
      specialize (IHa Hn f ((o, sp) :: tb ++ rest) ltac:(lia)). rewrite (proj2 (Nat.ltb_lt _ _)) in IHa by lia.
      rewrite IHa.
      + f_equal. apply loop_step; auto. apply reads_all; auto; lia.
      + intros m k Hm. cbn [fst] in Hm. rewrite Ho in Hm. injection Hm as <- _. lia.
    - intros n e ts Hn H IH Hn' f rest Hf. rewrite (proj2 (Nat.ltb_lt _ _)) by lia. intros He.
      rewrite level_unfold by lia. rewrite (reads_all (S n) e ts ltac:(lia) IH f rest Hf He). reflexivity.
    - intros c e o sp ts Ho H IH _ f rest Hf. cbn [Nat.ltb Nat.leb]. cbn [length] in Hf.
      specialize (IH ltac:(lia) f rest ltac:(lia)). cbn [Nat.ltb Nat.leb] in IH.
      change (level 10 f) with (upper f) in *. cbn [app]. rewrite unary_parser_cons, Ho, IH. reflexivity.
    - intros o sp e H _ f rest Hf. cbn [Nat.ltb Nat.leb app]. change (level 10 f) with (upper f). now apply operand_read.
    - intros e ts sp sp' H IH _ f rest Hf. cbn [Nat.ltb Nat.leb]. change (level 10 f) with (upper f). cbn [app].
      cbn [length] in Hf. rewrite app_length in Hf. cbn [length] in Hf.
      rewrite upper_base by reflexivity. unfold base, orelse. rewrite value_ctl.
      unfold delimited at 1. cbn [just_ctl take fst].
      rewrite delimited_ok with (a := e); [reflexivity|]. apply reads_expression; auto; [lia|exact I].
    - intros es ts sp sp' H IH _ f rest Hf. cbn [Nat.ltb Nat.leb]. change (level 10 f) with (upper f). cbn [app].
      cbn [length] in Hf. rewrite app_length in Hf. cbn [length] in Hf.
      rewrite upper_base by reflexivity. unfold base, orelse. rewrite value_ctl.
      rewrite delimited_ok with (a := EArray es (extent ts sp')); [reflexivity|].
      unfold map_, with_span. rewrite IH; [| lia | exact I | reflexivity]. now rewrite span_since_app.
    - intros ss ts sp sp' H IH _ f rest Hf. cbn [Nat.ltb Nat.leb]. change (level 10 f) with (upper f). cbn [app].
      cbn [length] in Hf. rewrite app_length in Hf. cbn [length] in Hf.
      rewrite upper_base by reflexivity. unfold base, orelse. rewrite value_ctl.
      unfold delimited at 1. cbn [just_ctl take fst].
      unfold delimited at 1. cbn [just_ctl take fst].
      unfold map_ at 1. rewrite delimited_ok with (a := Statements ss (extract (extent ts sp')) (extent ts sp')); [reflexivity|].
      unfold block_body, map_, with_span. rewrite IH; [| lia | exact I | reflexivity]. now rewrite span_since_app.
    - intros f rest Hf Hc Hs. apply separated_none. now apply expression_none.
    - intros e ts H IH f rest Hf Hc Hs. apply separated_one; auto. now apply reads_expression.
    - intros e ts sp es ts' Hne H IH Hl IHl f rest Hf Hc Hs. rewrite app_length in Hf. cbn [length] in Hf.
      rewrite <- app_assoc. cbn [app]. destruct es as [|b es]; [contradiction|].
      eapply separated_more; [apply expression_shrinks | apply reads_expression; auto; [lia | exact I] | apply IHl; auto; lia].
    - intros x e sp sp' ts Hx Hp H IH f rest Hf Hc. cbn [length] in Hf. unfold statement, orelse, assignment, map_ at 1, with_span at 1, then_ at 1.
      cbn [app]. unfold take at 1. cbn [fst]. unfold keyword. rewrite ident_is_spec by reflexivity.
      rewrite (proj2 (same_text_neq _ _) Hp). unfold then_ at 1, then_ at 1, take at 1. cbn [fst].
      rewrite (proj2 (variable_spec db (TIdent x) x)) by auto. unfold take at 1. cbn [fst].
      rewrite (reads_expression e ts IH) by (auto; lia).
      pose proof (span_since_app eoi ((TIdent x, sp) :: (TOp OAssign, sp') :: ts) rest) as Hsp. cbn [app] in Hsp. rewrite Hsp. reflexivity.
    - intros p x e sp sp' sp'' ts Hx Hp H IH f rest Hf Hc. cbn [length] in Hf. unfold statement, orelse, assignment, map_ at 1, with_span at 1, then_ at 1.
      cbn [app]. unfold take at 1. cbn [fst]. unfold keyword. rewrite ident_is_spec by reflexivity. rewrite Hp.
      rewrite (proj2 (same_text_eq _ _) eq_refl). unfold then_ at 1, then_ at 1, take at 1. cbn [fst].
      rewrite (proj2 (variable_spec db (TIdent x) x)) by auto. unfold take at 1. cbn [fst].
      rewrite (reads_expression e ts IH) by (auto; lia).
      pose proof (span_since_app eoi ((TIdent p, sp) :: (TIdent x, sp') :: (TOp OAssign, sp'') :: ts) rest) as Hsp. cbn [app] in Hsp. rewrite Hsp. reflexivity.
    - intros e ts sp H IH f rest Hf Hc. unfold statement, orelse. rewrite (assignment_not f e ts rest H Hc).
      unfold map_, with_span. rewrite (reads_expression e ts IH) by auto. cbn [fst snd]. rewrite span_since_app.
      now rewrite (extent_any ts sp (span_of_next eoi rest)) by (eapply spells_nonempty; eauto).
    - intros f rest Hf Hc Hs. apply separated_none. now apply statement_none.
    - intros s ts H IH f rest Hf Hc Hs. apply separated_one; auto.
    - intros s ts sp H IH f rest Hf Hc Hs. rewrite app_length in Hf. cbn [length] in Hf. rewrite <- app_assoc. cbn [app].
      eapply separated_trailing; [apply IH; [lia | exact I] | now apply statement_none].
    - intros s ts sp ss ts' Hne H IH Hl IHl f rest Hf Hc Hs. rewrite app_length in Hf. cbn [length] in Hf.
      rewrite <- app_assoc. cbn [app]. destruct ss as [|b ss]; [contradiction|].
      eapply separated_more; [apply statement_shrinks | apply IH; [lia | exact I] | apply IHl; auto; lia].
  Qed.

  Theorem run_iff : forall ts s, run_for_tokens db extract eoi ts = Some s <-> spells_script db extract eoi s ts.
  Proof.
    intros ts [cs src sp]. unfold run_for_tokens, block, block_body, map_, with_span, spells_script. cbn [content source st_span]. split.
    - destruct (separated _ Terminator true ts) as [[l r]|] eqn:E; [|discriminate].
      apply (statements_sound db extract) in E as (u & -> & Hu); [|now apply expression_sound].
      rewrite span_since_app. cbn [fst snd]. destruct r; [|discriminate]. rewrite app_nil_r. intros H. injection H as <- <- <-. auto.
    - intros (H & -> & ->). apply complete in H. specialize (H (S (length ts)) [] ltac:(lia) I eq_refl). rewrite app_nil_r in H.
      rewrite H. cbn [fst snd]. pose proof (span_since_app eoi ts []) as Hsp. rewrite app_nil_r in Hsp. rewrite Hsp. reflexivity.
  Qed.
End C.
