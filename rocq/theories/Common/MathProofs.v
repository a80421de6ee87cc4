(** Lemmas for C19. *)
From Coq Require Import String.
From Verif Require Import Base.Tactics Base.Bytes Base.Ascii Base.Text Common.MathModel Common.MathSpec.
Local Open Scope N_scope.

Section Proofs.
  Context (F : Type) (parse : text -> option F) (arith : N -> F -> F -> F).
  Notation token := (token F).
  Notation tokenize_go := (tokenize_go F parse).
  Notation yard := (yard F).
  Notation postfix := (postfix F arith).

  Scheme atom_mut := Minimality for atom Sort Prop
    with power_mut := Minimality for power Sort Prop
    with product_mut := Minimality for product Sort Prop
    with sum_mut := Minimality for sum Sort Prop.
  Combined Scheme grammar_ind from atom_mut, power_mut, product_mut, sum_mut.

  (** ** From symbols to tokens *)
  Definition tok (s : sym) : option token :=
    match s with
    | Num neg ds => match parse (numeral neg ds) with Some x => Some (Number x) | None => None end
    | Op c => Some (Operator c)
    | Open => Some LeftP
    | Close => Some RightP
    end.
  Fixpoint toks (ss : list sym) : option (list token) :=
    match ss with
    | [] => Some []
    | s :: r => match tok s, toks r with Some t, Some ts => Some (t :: ts) | _, _ => None end
    end.

  Lemma toks_app a b ta tb : toks a = Some ta -> toks b = Some tb -> toks (a ++ b) = Some (ta ++ tb).
  Proof.
    revert ta. induction a as [|s a IH]; intros ta Ha Hb; cbn in *.
    - apply Some_inj in Ha. now subst.
    - destruct (tok s); [|discriminate]. destruct (toks a) as [ta'|]; [|discriminate].
      apply Some_inj in Ha. subst. now rewrite (IH ta' eq_refl Hb).
  Qed.

  (** ** Placement: what the tokenizer needs to know about neighbours.
      [prev]: 0 start or after a closing symbol, 1 after an operator or '(', 2 after a number. *)
  Definition op_char (c : N) : bool := known_op c.
  Definition good_sym (prev : N) (s : sym) : Prop :=
    match s with
    | Num neg ds => prev <> 2 /\ (neg = true -> prev = 1) /\ ds <> [] /\
        Forall (fun c => (48 <= c /\ c <= 57) \/ c = 46) ds /\ exists v, parse (numeral neg ds) = Some v
    | Op c => prev <> 1 /\ known_op c = true
    | _ => True
    end.
  Definition after (s : sym) : N := match s with Num _ _ => 2 | Op _ | Open => 1 | Close => 0 end.
  Fixpoint placed (prev : N) (ss : list sym) : Prop :=
    match ss with
    | [] => True
    | s :: r => good_sym prev s /\ placed (after s) r
    end.
  Fixpoint final (prev : N) (ss : list sym) : N :=
    match ss with [] => prev | s :: r => final (after s) r end.

  Lemma placed_app p a b : placed p (a ++ b) <-> placed p a /\ placed (final p a) b.
  Proof. revert p. induction a as [|s a IH]; intro p; cbn; [tauto|]. rewrite IH. tauto. Qed.
  Lemma final_app p a b : final p (a ++ b) = final (final p a) b.
  Proof. revert p. induction a as [|s a IH]; intro p; cbn; auto. Qed.

  Lemma known_in c : In c (bs "*/%") \/ In c (bs "+-") \/ c = 94 -> known_op c = true.
  Proof. cbn. intros [H|[H|H]]; [| |subst; reflexivity]; intuition (subst; reflexivity). Qed.

  Lemma known_cases c : known_op c = true -> c = 43 \/ c = 45 \/ c = 42 \/ c = 47 \/ c = 37 \/ c = 94.
  Proof.
    unfold known_op, op_info.
    destruct (N.eqb_spec c 43), (N.eqb_spec c 45), (N.eqb_spec c 42), (N.eqb_spec c 47), (N.eqb_spec c 37), (N.eqb_spec c 94);
      cbn; try discriminate; tauto.
  Qed.

  Lemma grammar_placed :
    (forall b ss v, atom F parse arith b ss v -> forall p, p <> 2 -> (b = true -> p = 1) ->
       placed p ss /\ final p ss <> 1) /\
    (forall b ss v, power F parse arith b ss v -> forall p, p <> 2 -> (b = true -> p = 1) ->
       placed p ss /\ final p ss <> 1) /\
    (forall b ss v, product F parse arith b ss v -> forall p, p <> 2 -> (b = true -> p = 1) ->
       placed p ss /\ final p ss <> 1) /\
    (forall b ss v, sum F parse arith b ss v -> forall p, p <> 2 -> (b = true -> p = 1) ->
       placed p ss /\ final p ss <> 1).
  Proof.
    apply grammar_ind.
    - intros b neg ds v Hn Hne Hd Hp p Hp2 Hb. cbn. repeat split; eauto; lia.
    - intros b ss v _ IH p Hp2 Hb. cbn [app]. destruct (IH 1) as [A B]; [lia|auto|].
      cbn [placed final good_sym after]. rewrite placed_app, final_app. cbn. repeat split; auto; lia.
    - auto.
    - intros b l r x y _ IHl _ IHr p Hp2 Hb. destruct (IHl p Hp2 Hb) as [A B].
      destruct (IHr 1) as [C D]; [lia|auto|]. rewrite placed_app, final_app. cbn [placed final good_sym after].
      repeat split; auto.
    - auto.
    - intros b l r c x y Hc _ IHl _ IHr p Hp2 Hb. destruct (IHl p Hp2 Hb) as [A B].
      destruct (IHr 1) as [C D]; [lia|auto|]. rewrite placed_app, final_app. cbn [placed final good_sym after].
      repeat split; auto. apply known_in. auto.
    - auto.
    - intros b l r c x y Hc _ IHl _ IHr p Hp2 Hb. destruct (IHl p Hp2 Hb) as [A B].
      destruct (IHr 1) as [C D]; [lia|auto|]. rewrite placed_app, final_app. cbn [placed final good_sym after].
      repeat split; auto. apply known_in. auto.
  Qed.

  (** ** The tokenizer *)
  Definition consistent (prev : N) (ts : list token) : Prop :=
    minus_is_sign F ts = true <-> prev = 1.

  Lemma digit_char c : ((48 <= c /\ c <= 57) \/ c = 46) -> is_digit c || (c =? 46) = true.
  Proof. unfold is_digit. intro H. destruct (N.eqb_spec c 46); [apply orb_true_r|]. rewrite orb_false_r. lia. Qed.

  Lemma go_digits ds : forall r num ts, Forall (fun c => (48 <= c /\ c <= 57) \/ c = 46) ds ->
    tokenize_go (ds ++ r) num ts = tokenize_go r (num ++ ds) ts.
  Proof.
    induction ds as [|c ds IH]; intros r num ts H; [now rewrite app_nil_r|].
    inversion H as [|? ? Hc Hds]; subst. cbn [app MathModel.tokenize_go].
    rewrite digit_char by auto. rewrite IH by auto. now rewrite <- app_assoc.
  Qed.

  Lemma go_space r num ts : tokenize_go (32 :: r) num ts =
    match flush_number F parse num ts with Some ts' => tokenize_go r [] ts' | None => None end.
  Proof. reflexivity. Qed.

  Lemma go_spaces n r ts : tokenize_go (repeat 32 n ++ r) [] ts = tokenize_go r [] ts.
  Proof. induction n as [|n IH]; [reflexivity|]. cbn [repeat app]. rewrite go_space. cbn [flush_number]. exact IH. Qed.

  Lemma minus_is_sign_snoc ts t : minus_is_sign F (ts ++ [t]) =
    match t with Operator _ | LeftP => true | _ => false end.
  Proof. unfold minus_is_sign. rewrite map_app. cbn [map]. rewrite last_last. destruct t; reflexivity. Qed.

  (** After a number, the next character is not a digit or '.', so the number is flushed there. *)
  Lemma go_flush r num ts ts' : flush_number F parse num ts = Some ts' ->
    (forall c r', r = c :: r' -> is_digit c || (c =? 46) = false) ->
    tokenize_go r num ts = tokenize_go r [] ts'.
  Proof.
    intros Hf Hr. destruct r as [|c r']; cbn [MathModel.tokenize_go].
    - now rewrite Hf.
    - rewrite (Hr c r' eq_refl). rewrite Hf. cbn [flush_number]. reflexivity.
  Qed.

  Lemma spelled_head prev ss t c r : spelled ss t -> placed 2 ss -> prev = 2 -> t = c :: r ->
    is_digit c || (c =? 46) = false.
  Proof.
    intros Hs Hp _ E. destruct Hs as [n|n s ss t Hs].
    - destruct n; cbn in E; [discriminate|]. injection E as <- _. reflexivity.
    - destruct n; cbn in E.
      + destruct Hp as [Hg _]. destruct s; cbn in E.
        * cbn in Hg. exfalso. apply (proj1 Hg). reflexivity.
        * injection E as <- _. cbn in Hg. destruct Hg as [_ Hg]. apply known_cases in Hg.
          intuition (subst; reflexivity).
        * injection E as <- _. reflexivity.
        * injection E as <- _. reflexivity.
      + injection E as <- _. reflexivity.
  Qed.

  Lemma tokenize_spelled ss : forall t prev ts, spelled ss t -> placed prev ss -> consistent prev ts ->
    exists us, toks ss = Some us /\ tokenize_go t [] ts = Some (ts ++ us).
  Proof.
    induction ss as [|s ss IH]; intros t prev ts Hs Hp Hc.
    - inversion Hs as [n E|]; subst. exists []. split; [reflexivity|]. rewrite app_nil_r.
      replace (repeat 32 n) with (repeat 32 n ++ []) by apply app_nil_r. rewrite go_spaces. reflexivity.
    - inversion Hs as [|n s' ss' t' Hs' E1 E2]; subst. destruct Hp as [Hg Hp]. rewrite go_spaces.
      destruct s as [neg ds|c| |]; cbn [spell].
      + cbn in Hg. destruct Hg as (Hp2 & Hneg & Hne & Hd & v & Hv).
        assert (Hstart : tokenize_go (numeral neg ds ++ t') [] ts = tokenize_go t' (numeral neg ds) ts).
        { unfold numeral. destruct neg; cbn [app].
          - assert (Hm : minus_is_sign F ts = true) by (apply Hc; auto).
            cbn [MathModel.tokenize_go]. cbn [flush_number]. rewrite Hm.
            change (tokenize_go (ds ++ t') [45] ts = tokenize_go t' (45 :: ds) ts).
            rewrite go_digits by auto. reflexivity.
          - rewrite go_digits by auto. reflexivity. }
        rewrite Hstart.
        assert (Hf : flush_number F parse (numeral neg ds) ts = Some (ts ++ [Number v])).
        { unfold flush_number. rewrite Hv. destruct (numeral neg ds) eqn:En; [|reflexivity].
          exfalso. unfold numeral in En. destruct neg; [discriminate|]. apply Hne. exact En. }
        rewrite (go_flush _ _ _ _ Hf); [|intros c r E; eapply spelled_head; eauto].
        destruct (IH t' 2 (ts ++ [Number v]) Hs' Hp) as (us & E1 & E2).
        { unfold consistent. rewrite minus_is_sign_snoc. split; discriminate. }
        exists (Number v :: us). cbn [toks tok]. rewrite Hv, E1. split; [reflexivity|].
        rewrite E2, <- app_assoc. reflexivity.
      + cbn in Hg. destruct Hg as [Hp1 Hk].
        destruct (IH t' 1 (ts ++ [Operator c]) Hs' Hp) as (us & E1 & E2).
        { unfold consistent. rewrite minus_is_sign_snoc. tauto. }
        exists (Operator c :: us). cbn [toks tok]. rewrite E1. split; [reflexivity|].
        rewrite <- app_assoc in E2. cbn [app] in *. rewrite <- E2. cbn [MathModel.tokenize_go flush_number].
        pose proof (known_cases c Hk) as Hcase.
        destruct Hcase as [->|[->|Hcase]]; [reflexivity| |].
        * cbn [is_digit]. change (is_digit 45 || (45 =? 46)) with false. cbv iota.
          change (is_plain_op 45) with false. change (45 =? 40) with false. change (45 =? 41) with false.
          change (45 =? 45) with true. cbv iota.
          destruct (minus_is_sign F ts) eqn:Em; [|reflexivity].
          exfalso. apply Hp1. apply Hc. exact Em.
        * destruct Hcase as [->|[->|[->| ->]]]; reflexivity.
      + destruct (IH t' 1 (ts ++ [LeftP]) Hs' Hp) as (us & E1 & E2).
        { unfold consistent. rewrite minus_is_sign_snoc. tauto. }
        exists (LeftP :: us). cbn [toks tok]. rewrite E1. split; [reflexivity|].
        rewrite <- app_assoc in E2. exact E2.
      + destruct (IH t' 0 (ts ++ [RightP]) Hs' Hp) as (us & E1 & E2).
        { unfold consistent. rewrite minus_is_sign_snoc. split; discriminate. }
        exists (RightP :: us). cbn [toks tok]. rewrite E1. split; [reflexivity|].
        rewrite <- app_assoc in E2. exact E2.
  Qed.

  (** ** The shunting yard *)
  Definition prec (c : N) : N := match op_info c with Some (p, _) => p | None => 0 end.

  (** The operator on top of the stack, if any, binds less tightly than [l]. *)
  Definition top_below (l : N) (st : list token) : Prop :=
    match st with Operator c :: _ => prec c < l | _ => True end.

  (** Pending operators: all at least as tight as [l]. *)
  Definition pending (l : N) (ops : list token) : Prop :=
    Forall (fun t => match t with Operator c => l <= prec c /\ known_op c = true | _ => False end) ops.

  Definition yields (sb l : N) (ss : list sym) (v : F) : Prop :=
    exists us, toks ss = Some us /\
    forall st, top_below sb st ->
    exists o ops, pending l ops /\
      (forall out rest, yard (us ++ rest) out st = yard rest (out ++ o) (ops ++ st)) /\
      (forall r S, postfix (o ++ ops ++ r) S = postfix r (v :: S)).

  Lemma pop_ops_pending op l ops : forall out st,
    op_info op = Some (l, true) -> pending l ops -> top_below l st ->
    pop_ops F op out (ops ++ st) = (out ++ ops, st).
  Proof.
    induction ops as [|t ops IH]; intros out st Hop Hp Ht.
    - rewrite app_nil_r. cbn [app]. destruct st as [|[x|c| |] st]; try reflexivity.
      cbn [pop_ops]. unfold pops. rewrite Hop. cbn in Ht. unfold prec in Ht.
      destruct (op_info c) as [[tp la]|]; [|reflexivity].
      assert (E : (true && (l <=? tp)) || (negb true && (l <? tp)) = false) by (cbn; lia). rewrite E. reflexivity.
    - inversion Hp as [|? ? Hh Hr]; subst. destruct t as [x|c| |]; try contradiction. cbn [app pop_ops].
      destruct Hh as [Hl Hk]. unfold pops. rewrite Hop. unfold prec in Hl. unfold known_op in Hk.
      destruct (op_info c) as [[tp la]|]; [|discriminate].
      assert (E : (true && (l <=? tp)) || (negb true && (l <? tp)) = true) by (cbn; lia). rewrite E.
      rewrite IH by auto. now rewrite <- app_assoc.
  Qed.

  Lemma pop_ops_caret out st : pop_ops F 94 out st = (out, st).
  Proof.
    destruct st as [|[x|c| |] st]; try reflexivity. cbn [pop_ops].
    assert (E : pops 94 c = false).
    { unfold pops. change (op_info 94) with (Some (3, false)). cbv iota beta.
      unfold op_info. repeat match goal with |- context [if ?b then _ else _] => destruct b end; reflexivity. }
    now rewrite E.
  Qed.

  Lemma pop_paren_pending l ops : forall out st, pending l ops ->
    pop_paren F out (ops ++ LeftP :: st) = Some (out ++ ops, st).
  Proof.
    induction ops as [|t ops IH]; intros out st Hp.
    - cbn. now rewrite app_nil_r.
    - inversion Hp as [|? ? Hh Hr]; subst. destruct t as [x|c| |]; try contradiction. cbn [app pop_paren].
      rewrite IH by auto. now rewrite <- app_assoc.
  Qed.

  Lemma yields_weaken sb sb' l l' ss v : sb' <= sb -> l' <= l -> yields sb l ss v -> yields sb' l' ss v.
  Proof.
    intros Hsb Hl (us & E & H). exists us. split; [auto|]. intros st Ht.
    destruct (H st) as (o & ops & Hp & Hy & He).
    { destruct st as [|[x|c| |] st]; cbn in *; auto. lia. }
    exists o, ops. split; [|auto]. unfold pending in *. eapply Forall_impl; [|exact Hp].
    intros [x|c| |]; cbn; auto. intros [? ?]. split; [lia|auto].
  Qed.

  (** A left-associative operator of level [l] between a level-[l] and a tighter operand. *)
  Lemma yields_left l c ls rs x y : op_info c = Some (l, true) ->
    yields l l ls x -> yields (l + 1) (l + 1) rs y -> yields l l (ls ++ Op c :: rs) (arith c x y).
  Proof.
    intros Hop (ul & El & Hl) (ur & Er & Hr).
    exists (ul ++ Operator c :: ur). split.
    { apply toks_app; [auto|]. cbn [toks tok]. now rewrite Er. }
    intros st Ht. destruct (Hl st Ht) as (o1 & ops1 & Hp1 & Hy1 & He1).
    destruct (Hr (Operator c :: st)) as (o2 & ops2 & Hp2 & Hy2 & He2).
    { cbn. unfold prec. rewrite Hop. lia. }
    exists (o1 ++ ops1 ++ o2), (ops2 ++ [Operator c]). split; [|split].
    - apply Forall_app. split.
      + eapply Forall_impl; [|exact Hp2]. intros [?|d| |]; cbn; auto. intros [? ?]. split; [lia|auto].
      + repeat constructor; unfold prec, known_op; rewrite Hop; [lia|reflexivity].
    - intros out rest. rewrite <- app_assoc, Hy1. cbn [app MathModel.yard].
      rewrite (pop_ops_pending c l) by auto. rewrite Hy2. rewrite <- !app_assoc. reflexivity.
    - intros r S. rewrite <- !app_assoc. rewrite He1, He2. cbn [app MathModel.postfix].
      unfold known_op. now rewrite Hop.
  Qed.

  Lemma grammar_yields :
    (forall b ss v, atom F parse arith b ss v -> yields 4 4 ss v) /\
    (forall b ss v, power F parse arith b ss v -> yields 4 3 ss v) /\
    (forall b ss v, product F parse arith b ss v -> yields 2 2 ss v) /\
    (forall b ss v, sum F parse arith b ss v -> yields 1 1 ss v).
  Proof.
    apply grammar_ind.
    - intros b neg ds v _ _ _ Hv. exists [Number v]. split; [cbn; now rewrite Hv|].
      intros st _. exists [Number v], []. split; [constructor|]. split; reflexivity.
    - intros b ss v _ (us & E & H). exists (LeftP :: us ++ [RightP]). split.
      { cbn [toks tok app]. rewrite (toks_app ss [Close] us [RightP] E eq_refl). reflexivity. }
      intros st _. destruct (H (LeftP :: st) I) as (o & ops & Hp & Hy & He).
      exists (o ++ ops), []. split; [constructor|]. split.
      + intros out rest. cbn [app MathModel.yard]. rewrite <- app_assoc, Hy. cbn [app MathModel.yard].
        rewrite (pop_paren_pending 1) by auto. now rewrite <- app_assoc.
      + intros r S. rewrite <- app_assoc. cbn [app]. apply He.
    - intros b ss v _ H. eapply yields_weaken; [| |exact H]; lia.
    - intros b l r x y _ (ul & El & Hl) _ (ur & Er & Hr).
      exists (ul ++ Operator 94 :: ur). split.
      { apply toks_app; [auto|]. cbn [toks tok]. now rewrite Er. }
      intros st Ht. destruct (Hl st) as (o1 & ops1 & Hp1 & Hy1 & He1).
      { exact Ht. }
      assert (ops1 = []).
      { destruct ops1 as [|t ops1]; [auto|]. exfalso. inversion Hp1 as [|? ? Hh _]; subst.
        destruct t as [?|c| |]; try contradiction. destruct Hh as [Hh Hk]. unfold prec, op_info in Hh.
        repeat match type of Hh with context [if ?b then _ else _] => destruct b end; lia. }
      subst ops1.
      destruct (Hr (Operator 94 :: st)) as (o2 & ops2 & Hp2 & Hy2 & He2).
      { cbn. lia. }
      exists (o1 ++ o2), (ops2 ++ [Operator 94]). split; [|split].
      + apply Forall_app. split; [auto|]. repeat constructor. cbn. lia.
      + intros out rest. rewrite <- app_assoc, Hy1. cbn [app MathModel.yard]. rewrite pop_ops_caret, Hy2.
        rewrite <- !app_assoc. reflexivity.
      + intros r' S. rewrite <- !app_assoc. specialize (He1 (o2 ++ ops2 ++ [Operator 94] ++ r') S).
        cbn [app] in *. rewrite He1, He2. reflexivity.
    - intros b ss v _ H. eapply yields_weaken; [| |exact H]; lia.
    - intros b l r c x y Hc _ Hl _ Hr. apply (yields_left 2); [cbn in Hc; intuition (subst; reflexivity)|auto|].
      eapply yields_weaken; [| |exact Hr]; lia.
    - intros b ss v _ H. eapply yields_weaken; [| |exact H]; lia.
    - intros b l r c x y Hc _ Hl _ Hr. apply (yields_left 1); [cbn in Hc; intuition (subst; reflexivity)|auto|].
      eapply yields_weaken; [| |exact Hr]; lia.
  Qed.

  Lemma eval_grammar ss t v : sum F parse arith false ss v -> spelled ss t -> eval F parse arith t = Some v.
  Proof.
    intros Hs Ht. destruct grammar_placed as (_ & _ & _ & GP). destruct grammar_yields as (_ & _ & _ & GY).
    destruct (GP _ _ _ Hs 0) as [Hp _]; [lia|discriminate|].
    destruct (tokenize_spelled ss t 0 [] Ht Hp) as (us & E1 & E2); [split; discriminate|].
    destruct (GY _ _ _ Hs) as (us' & E1' & H). assert (us' = us) by congruence. subst us'.
    destruct (H [] I) as (o & ops & _ & Hy & He).
    unfold eval, tokenize. rewrite E2. cbn [app].
    specialize (Hy [] []). rewrite app_nil_r in Hy. rewrite Hy. cbn [MathModel.yard app].
    rewrite app_nil_r. specialize (He [] []). rewrite app_nil_r in He. rewrite He. reflexivity.
  Qed.
End Proofs.
