(** Proofs about the optimiser. *)
From Coq Require Import String.
From Verif Require Import Base.Tactics Base.Bytes Base.Ascii Base.Text Sqf.Ast Sqf.OptimizeModel Sqf.OptimizeSpec.
Local Open Scope N_scope.
Local Open Scope list_scope.

Lemma same_text_eq a b : same_text a b = true -> a = b.
Proof.
  revert b. induction a as [|x a IH]; intros [|y b] H; try discriminate; [reflexivity|].
  cbn in H. apply andb_prop in H as [H1 H2]. apply N.eqb_eq in H1 as ->. f_equal. auto.
Qed.
Lemma named_in n l : named n l = true -> In (to_ascii_lower n) l.
Proof.
  unfold named. intros H. apply existsb_exists in H as (x & Hx & E). apply same_text_eq in E. now rewrite E.
Qed.

Lemma Forall2_impl {A B} (P Q : A -> B -> Prop) l l' : (forall a b, P a b -> Q a b) -> Forall2 P l l' -> Forall2 Q l l'.
Proof. intros H F. induction F; constructor; auto. Qed.
Lemma map_opt_cons {A B} (f : A -> option B) x l :
  map_opt f (x :: l) = match f x with Some y => match map_opt f l with Some s => Some (y :: s) | None => None end | None => None end.
Proof. reflexivity. Qed.
Lemma map_opt_forall2 {A B} (f : A -> option B) l l' : map_opt f l = Some l' -> Forall2 (fun x y => f x = Some y) l l'.
Proof.
  revert l'. induction l as [|x l IH]; intros l' H; [now injection H as <-|].
  rewrite map_opt_cons in H. destruct (f x) eqn:E; [|discriminate]. destruct (map_opt f l); [|discriminate]. injection H as <-.
  constructor; auto.
Qed.
Lemma all_opt_cons {A} (f : A -> option bool) x l : all_opt f (x :: l) = match f x with Some true => all_opt f l | b => b end.
Proof. reflexivity. Qed.

(** A constant expression spells a literal. *)
Lemma constant_literal e : is_constant e = Some true -> exists l, literal_of e = Some l.
Proof.
  revert e. refine (proj1 (tree_ind (fun e => is_constant e = Some true -> exists l, literal_of e = Some l) (fun _ => True) _ _ _ _ _ _ _ _ _ _ _ _ _)); auto; cbn; try discriminate.
  - eauto. - eauto. - eauto. - eauto.
  - intros l sp F H. change (all_opt is_constant l = Some true) in H.
    change (exists x, option_map LArr (map_opt literal_of l) = Some x).
    assert (exists ls, map_opt literal_of l = Some ls) as [ls E].
    { induction F as [|x l Hx F IH]; [cbn; eauto|]. rewrite all_opt_cons in H. destruct (is_constant x) as [[|]|] eqn:E; try discriminate.
      rewrite map_opt_cons. destruct (Hx eq_refl) as [y ->]. destruct (IH H) as [ys ->]. eauto. }
    rewrite E. cbn. eauto.
  - intros n sp H. apply Some_inj in H. unfold is_constant_command in H. rewrite H. eauto.
Qed.

Section Meaning.
  Context (fneg fsqrt : N -> N) (fadd fsub fmul fdiv frem : N -> N -> N) (finite : N -> bool).
  Notation optimize_expr := (optimize_expr fneg fsqrt fadd fsub fmul fdiv frem finite).
  Notation optimize_stmt := (optimize_stmt fneg fsqrt fadd fsub fmul fdiv frem finite).
  Notation optimize_unary := (optimize_unary fneg fsqrt finite).
  Notation optimize_binary := (optimize_binary fadd fsub fmul fdiv frem finite).
  Notation optimize_block := (optimize_block fneg fsqrt fadd fsub fmul fdiv frem finite).
  Notation code_rel := (code_rel fneg fsqrt fadd fsub fmul fdiv frem finite).
  Notation lit_rel := (lit_rel fneg fsqrt fadd fsub fmul fdiv frem finite).
  Context (L : lang) (C : correspondence L).
  Notation same_run := (same_run fneg fsqrt fadd fsub fmul fdiv frem finite L C).
  Notation congruence := (congruence fneg fsqrt fadd fsub fmul fdiv frem finite L C).
  Notation arithmetic := (arithmetic fneg fsqrt fadd fsub fmul fdiv frem finite L).
  Notation this_is_kept := (this_is_kept fneg fsqrt fadd fsub fmul fdiv frem finite L C).
  Notation arrays := (arrays fneg fsqrt fadd fsub fmul fdiv frem finite L C).
  Notation V := (Val L).
  Notation W := (World L).
  Notation K := (K C).
  Notation le := (le C).
  Notation Rv := (Rv C).
  Notation Rw := (Rw C).
  Notation same := (same L C).
  Notation Ro := (Ro L C).
  Context (HC : congruence) (HA : arithmetic) (HT : this_is_kept) (HY : arrays).

  Lemma lit_rel_refl l : lit_rel l l.
  Proof.
    revert l. fix IH 1. intros [x|s|b|n|c s sp|l]; cbn; auto.
    - split; [now left|auto].
    - induction l as [|x l IHl]; [exact I|]. split; [apply IH|exact IHl].
  Qed.

  (** *** [_this] is kept by evaluation *)
  Section Keep.
    Context (r : runner V W) (Hr : keeps L r).
    Lemma eval_keeps e w v w' : eval L r e w = Some (v, w') -> this L w' = this L w.
    Proof.
      revert w v w'. refine (proj1 (tree_ind (fun e => forall w v w', eval L r e w = Some (v, w') -> this L w' = this L w) (fun _ => True) _ _ _ _ _ _ _ _ _ _ _ _ _) e); auto.
      - intros c s sp _ w v w' H. now injection H as _ <-.
      - intros s sp x w v w' H. now injection H as _ <-.
      - intros n sp w v w' H. now injection H as _ <-.
      - intros n sp w v w' H. now injection H as _ <-.
      - intros l sp F w v w' H. cbn [eval run_block] in H. change (match eval_list L (eval L r) l w with Some (vs, w0) => Some (fresh L vs w0) | None => None end = Some (v, w')) in H.
        destruct (eval_list L (eval L r) l w) as [[vs w1]|] eqn:E; [|discriminate].
        assert (this L w1 = this L w) as E1.
        { clear H. revert w vs w1 E. induction F as [|x l Hx F IH]; intros w vs w1 E; [now injection E as _ <-|].
          cbn in E. destruct (eval L r x w) as [[v0 w0]|] eqn:E0; [|discriminate].
          change (match eval_list L (eval L r) l w0 with Some (vs0, w2) => Some (v0 :: vs0, w2) | None => None end = Some (vs, w1)) in E.
          destruct (eval_list L (eval L r) l w0) as [[vs0 w2]|] eqn:E2; [|discriminate]. injection E as _ <-.
          rewrite (IH _ _ _ E2). eauto. }
        injection H as H. rewrite <- E1, <- (t_fresh _ _ _ _ _ _ _ _ _ _ HT vs w1), H. reflexivity.
      - intros l sp F w v w' H. cbn [eval run_block] in H. destruct (map_opt literal_of l); [now injection H as _ <-|].
        change (match eval_list L (eval L r) l w with Some (vs, w0) => Some (fresh L vs w0) | None => None end = Some (v, w')) in H.
        destruct (eval_list L (eval L r) l w) as [[vs w1]|] eqn:E; [|discriminate].
        assert (this L w1 = this L w) as E1.
        { clear H. revert w vs w1 E. induction F as [|x l Hx F IH]; intros w vs w1 E; [now injection E as _ <-|].
          cbn in E. destruct (eval L r x w) as [[v0 w0]|] eqn:E0; [|discriminate].
          change (match eval_list L (eval L r) l w0 with Some (vs0, w2) => Some (v0 :: vs0, w2) | None => None end = Some (vs, w1)) in E.
          destruct (eval_list L (eval L r) l w0) as [[vs0 w2]|] eqn:E2; [|discriminate]. injection E as _ <-.
          rewrite (IH _ _ _ E2). eauto. }
        injection H as H. rewrite <- E1, <- (t_fresh _ _ _ _ _ _ _ _ _ _ HT vs w1), H. reflexivity.
      - intros n sp w v w' H. cbn [eval run_block] in H. destruct (is_in nular_constants n); [now injection H as _ <-|].
        eapply t_nular in H; eauto.
      - intros c x sp IH w v w' H. cbn [eval run_block] in H. destruct (eval L r x w) as [[v0 w0]|] eqn:E0; [|discriminate].
        eapply t_unary in H; eauto. rewrite H. eauto.
      - intros c a b sp IHa IHb w v w' H. cbn [eval run_block] in H. destruct (eval L r a w) as [[v0 w0]|] eqn:E0; [|discriminate].
        destruct (eval L r b w0) as [[v1 w1]|] eqn:E1; [|discriminate].
        eapply t_binary in H; eauto. rewrite H. rewrite (IHb _ _ _ E1). eauto.
      - intros n sp w v w' H. cbn [eval run_block] in H. destruct (same_text _ _); [now injection H as _ <-|]. eapply t_get; eauto.
    Qed.
    Lemma stmt_keeps s w v w' : run_stmt L r s w = Some (v, w') -> this L w' = this L w.
    Proof.
      unfold run_stmt. destruct (eval L r (stmt_expr s) w) as [[v0 w0]|] eqn:E; [|discriminate]. apply eval_keeps in E. rewrite <- E.
      destruct s; intros H.
      - destruct (set_global L _ _ _) eqn:G; [|discriminate]. injection H as _ <-. eapply t_global; eauto.
      - destruct (set_local L _ _ _) eqn:G; [|discriminate]. injection H as _ <-. eapply t_local; eauto.
      - now injection H as _ <-.
    Qed.
    Lemma block_keeps l last w v w' : run_block L r last l w = Some (v, w') -> this L w' = this L w.
    Proof.
      revert last w. induction l as [|s l IH]; intros last w H; [now injection H as _ <-|].
      cbn [eval run_block] in H. destruct (run_stmt L r s w) as [[v0 w0]|] eqn:E; [|discriminate]. rewrite (IH _ _ H). eapply stmt_keeps; eauto.
    Qed.
  End Keep.
  Lemma exec_keeps n : keeps L (exec L n).
  Proof.
    induction n as [|n IH]; intros c w v w' H; [discriminate|]. cbn [eval run_block] in H. eapply block_keeps; eauto.
  Qed.

  (** *** Corresponding evaluation *)
  Lemma same_le {A} (R : K -> A -> A -> Prop) k k' p x y : le k k' -> same R k' p x y -> same R k p x y.
  Proof.
    intros H. destruct x as [[a w]|], y as [[b w']|]; cbn; auto. intros (k2 & H1 & H2). exists k2. split; [|auto].
    eapply le_trans; eauto.
  Qed.
  Lemma same_bind {A B} (R : K -> A -> A -> Prop) (S : K -> B -> B -> Prop) k p x y (f g : A -> W -> option (B * W)) :
    same R k p x y ->
    (forall a b w w' k', le k k' -> R k' a b -> Rw k' p w w' -> same S k' p (f a w) (g b w')) ->
    same S k p (match x with Some (a, w) => f a w | None => None end) (match y with Some (b, w) => g b w | None => None end).
  Proof.
    intros H F. destruct x as [[a w]|], y as [[b w']|]; cbn in H; try easy.
    destruct H as (k' & H1 & H2 & H3). eapply same_le; eauto.
  Qed.
  Lemma same_ret {A} (R : K -> A -> A -> Prop) k p a b w w' : R k a b -> Rw k p w w' -> same R k p (Some (a, w)) (Some (b, w')).
  Proof. intros H H'. cbn. exists k. split; [eapply le_refl; eauto|auto]. Qed.
  Lemma rvs_le k k' vs vs' : le k k' -> Forall2 (Rv k) vs vs' -> Forall2 (Rv k') vs vs'.
  Proof. intros H F. eapply Forall2_impl; [|exact F]. intros; eapply rv_le; eauto. Qed.

  Section Eval.
    Context (r r' : runner V W) (Hr : same_run r r') (Kr : keeps L r).
    (** Two expressions that do the same in corresponding worlds. *)
    Definition alike (e e' : expr) : Prop := forall k p w w', Rw k p w w' -> same Rv k p (eval L r e w) (eval L r' e' w').

    Lemma list_alike l l' : Forall2 alike l l' -> forall k p w w', Rw k p w w' ->
      same (fun k => Forall2 (Rv k)) k p (eval_list L (eval L r) l w) (eval_list L (eval L r') l' w').
    Proof.
      induction 1 as [|e e' l l' He Hl IH]; intros k p w w' Hw; [now apply same_ret|]. cbn.
      change (same (fun k => Forall2 (Rv k)) k p
        (match eval L r e w with Some (v, w) => match eval_list L (eval L r) l w with Some (vs, w) => Some (v :: vs, w) | None => None end | None => None end)
        (match eval L r' e' w' with Some (v, w) => match eval_list L (eval L r') l' w with Some (vs, w) => Some (v :: vs, w) | None => None end | None => None end)).
      apply (same_bind Rv (fun k => Forall2 (Rv k)) k p _ _
        (fun v w => match eval_list L (eval L r) l w with Some (vs, w) => Some (v :: vs, w) | None => None end)
        (fun v w => match eval_list L (eval L r') l' w with Some (vs, w) => Some (v :: vs, w) | None => None end)); [now apply He|].
      intros v v' w1 w1' k1 L1 Hv Hw1.
      apply (same_bind (fun k => Forall2 (Rv k)) (fun k => Forall2 (Rv k)) k1 p _ _ (fun vs w => Some (v :: vs, w)) (fun vs w => Some (v' :: vs, w))); [now apply IH|].
      intros vs vs' w2 w2' k2 L2 Hvs Hw2. apply same_ret; [|assumption]. constructor; [eapply rv_le; eauto|assumption].
    Qed.
    Lemma array_alike l l' sp sp' : Forall2 alike l l' -> alike (EArray l sp) (EArray l' sp').
    Proof.
      intros F k p w w' Hw. cbn [eval].
      change (same Rv k p (match eval_list L (eval L r) l w with Some (vs, w) => Some (fresh L vs w) | None => None end)
                          (match eval_list L (eval L r') l' w' with Some (vs, w) => Some (fresh L vs w) | None => None end)).
      apply (same_bind (fun k => Forall2 (Rv k)) Rv k p _ _ (fun vs w => Some (fresh L vs w)) (fun vs w => Some (fresh L vs w))); [now apply list_alike|].
      intros vs vs' w1 w1' k1 L1 Hvs Hw1. eapply r_fresh; eauto.
    Qed.
    Lemma unary_alike c e e' sp sp' : alike e e' -> alike (EUnary c e sp) (EUnary c e' sp').
    Proof.
      intros H k p w w' Hw. cbn [eval].
      apply (same_bind Rv Rv k p _ _ (fun v w => unary_cmd L r (to_ascii_lower (unary_str c)) v w) (fun v w => unary_cmd L r' (to_ascii_lower (unary_str c)) v w)); [now apply H|].
      intros. eapply r_unary; eauto.
    Qed.
    Lemma binary_alike c a a' b b' sp sp' : alike a a' -> alike b b' -> alike (EBinary c a b sp) (EBinary c a' b' sp').
    Proof.
      intros H H' k p w w' Hw. cbn [eval].
      apply (same_bind Rv Rv k p _ _
        (fun v w => match eval L r b w with Some (u, w) => binary_cmd L r (to_ascii_lower (binary_str c)) v u w | None => None end)
        (fun v w => match eval L r' b' w with Some (u, w) => binary_cmd L r' (to_ascii_lower (binary_str c)) v u w | None => None end)); [now apply H|].
      intros v v' w1 w1' k1 L1 Hv Hw1.
      apply (same_bind Rv Rv k1 p _ _ (fun u w => binary_cmd L r (to_ascii_lower (binary_str c)) v u w) (fun u w => binary_cmd L r' (to_ascii_lower (binary_str c)) v' u w)); [now apply H'|].
      intros. eapply r_binary; eauto. eapply rv_le; eauto.
    Qed.
    Lemma code_alike c c' s sp : code_rel c c' -> alike (ECode c s sp) (ECode c' s sp).
    Proof. intros H k p w w' Hw. apply same_ret; [|assumption]. eapply rv_lit; eauto. cbn. auto. Qed.
    Lemma lit_alike e l : eval L r e = (fun w => Some (lit L l, w)) -> eval L r' e = (fun w => Some (lit L l, w)) -> alike e e.
    Proof. intros H H' k p w w' Hw. rewrite H, H'. apply same_ret; [|assumption]. eapply rv_lit; eauto. apply lit_rel_refl. Qed.

    Lemma alike_refl e : alike e e.
    Proof.
      refine (proj1 (tree_ind (fun e => alike e e) (fun _ => True) _ _ _ _ _ _ _ _ _ _ _ _ _) e); auto.
      - intros. apply code_alike. now left.
      - intros. eapply lit_alike; reflexivity.
      - intros. eapply lit_alike; reflexivity.
      - intros. eapply lit_alike; reflexivity.
      - intros l sp F. apply array_alike. now induction F; constructor.
      - intros l sp F k p w w' Hw. cbn [eval]. destruct (map_opt literal_of l) eqn:E.
        + apply same_ret; [|assumption]. eapply rv_lit; eauto. apply lit_rel_refl.
        + apply (array_alike l l sp sp); [|assumption]. clear E. now induction F; constructor.
      - intros n sp k p w w' Hw. cbn [eval]. destruct (is_in _ _).
        + apply same_ret; [|assumption]. eapply rv_lit; eauto. reflexivity.
        + eapply r_nular; eauto.
      - intros. now apply unary_alike.
      - intros. now apply binary_alike.
      - intros n sp k p w w' Hw. cbn [eval]. destruct (same_text _ _).
        + apply same_ret; [|assumption]. eapply r_this; eauto.
        + eapply r_get; eauto.
    Qed.

    (** *** Literal arrays *)
    Lemma build_list_cons (f : literal -> W -> V * W) x l w :
      build_list f (x :: l) w = let (v, w) := f x w in let (vs, w) := build_list f l w in (v :: vs, w).
    Proof. reflexivity. Qed.
    Lemma eval_literal q e l w : literal_of e = Some l -> eval L q e w = Some (build L l w).
    Proof.
      revert l w. refine (proj1 (tree_ind (fun e => forall l w, literal_of e = Some l -> eval L q e w = Some (build L l w)) (fun _ => True) _ _ _ _ _ _ _ _ _ _ _ _ _) e); auto; try discriminate.
      - intros c s sp _ l w H. now injection H as <-.
      - intros s sp x l w H. now injection H as <-.
      - intros n sp l w H. now injection H as <-.
      - intros n sp l w H. now injection H as <-.
      - intros es sp F l w H. change (option_map LArr (map_opt literal_of es) = Some l) in H.
        destruct (map_opt literal_of es) as [ls|] eqn:E; [|discriminate]. injection H as <-.
        change ((match eval_list L (eval L q) es w with Some (vs, w) => Some (fresh L vs w) | None => None end) = Some (let (vs, w) := build_list (build L) ls w in fresh L vs w)).
        assert (eval_list L (eval L q) es w = Some (build_list (build L) ls w)) as ->.
        { revert ls w E. induction F as [|x es Hx F IH]; intros ls w E; [now injection E as <-|].
          rewrite map_opt_cons in E. destruct (literal_of x) as [y|] eqn:Ex; [|discriminate]. destruct (map_opt literal_of es) as [ys|]; [|discriminate].
          injection E as <-. rewrite build_list_cons.
          change (eval_list L (eval L q) (x :: es) w) with (match eval L q x w with Some (v, w) => match eval_list L (eval L q) es w with Some (vs, w) => Some (v :: vs, w) | None => None end | None => None end).
          rewrite (Hx _ _ eq_refl). destruct (build L y w) as [v w1]. rewrite (IH _ _ eq_refl). now destruct (build_list (build L) ys w1). }
        now destruct (build_list (build L) ls w).
      - intros n sp l w H. cbn [eval literal_of] in H |- *. destruct (is_in nular_constants n); [|discriminate]. now injection H as <-.
    Qed.

    (** The expression [e] makes a new array with the literal contents [ls] and nothing else, compared with the second
        run doing nothing. *)
    Definition makes (e : expr) (ls : list literal) : Prop := forall k p w w', Rw k p w w' ->
      exists v w1 k', eval L r e w = Some (v, w1) /\ le k k' /\ Rw k' ((v, ls) :: p) w1 w'.
    Lemma alike_makes e l sp ls : alike e (EArray l sp) -> map_opt literal_of l = Some ls -> makes e ls.
    Proof.
      intros H E k p w w' Hw. specialize (H k p w w' Hw).
      rewrite (eval_literal r' (EArray l sp) (LArr ls) w') in H by (cbn; change (option_map LArr (map_opt literal_of l) = Some (LArr ls)); now rewrite E).
      destruct (eval L r e w) as [[v w1]|]; [|contradiction].
      destruct (build L (LArr ls) w') as [v' w1'] eqn:B. destruct H as (k1 & L1 & Hv & Hw1).
      destruct (y_pending _ _ _ _ _ _ _ _ _ _ HY k k1 p ls v v' w1 w w' w1' Hw B L1 Hv Hw1) as (k2 & L2 & H2).
      exists v, w1, k2. auto.
    Qed.
    (** What [consume] does to an operand. *)
    Definition consumed (direct : bool) (e e' : expr) : Prop :=
      alike e e' \/ (direct = true /\ exists ls, makes e ls /\ (forall w, eval L r' e' w = Some (lit L (LArr ls), w))).
    Lemma consume_spec direct e o o' : alike e o -> consume direct o = Some o' ->
      alike e o' \/ (direct = true /\ exists l sp ls, o = EArray l sp /\ map_opt literal_of l = Some ls /\ makes e ls /\ (forall w, eval L r' o' w = Some (lit L (LArr ls), w))).
    Proof.
      intros H. unfold consume. destruct (get_consumable_array direct o) as [[c|]|] eqn:E; try discriminate.
      2: { intros X. injection X as <-. now left. }
      intros X. injection X as <-. unfold get_consumable_array in E. destruct o as [| | | |l sp| | | | |]; try discriminate.
      destruct (is_constant (EArray l sp)) as [[|]|] eqn:Ec; try discriminate.
      apply constant_literal in Ec as [x Ex]. change (option_map LArr (map_opt literal_of l) = Some x) in Ex.
      destruct (map_opt literal_of l) as [ls|] eqn:El; [|discriminate].
      pose proof (alike_makes e l sp ls H El) as M.
      destruct l as [|y l]; [discriminate|]. destruct direct; injection E as <-.
      - right. split; [reflexivity|]. exists (y :: l), sp, ls. repeat split; auto.
        intros w. cbn [eval]. change (match map_opt literal_of (y :: l) with Some ls => Some (lit L (LArr ls), w) | None => match eval_list L (eval L r') (y :: l) w with Some (vs, w0) => Some (fresh L vs w0) | None => None end end = Some (lit L (LArr ls), w)).
        now rewrite El.
      - left. intros k p w w' Hw. specialize (H k p w w' Hw).
        rewrite (eval_literal r' (EArray (y :: l) sp) (LArr ls) w') in H by (cbn [literal_of]; change (option_map LArr (map_opt literal_of (y :: l)) = Some (LArr ls)); now rewrite El).
        cbn [eval]. change (same Rv k p (eval L r e w) (match (match map_opt literal_of (y :: l) with Some ls => Some (lit L (LArr ls), w') | None => match eval_list L (eval L r') (y :: l) w' with Some (vs, w0) => Some (fresh L vs w0) | None => None end end) with Some (v0, w0) => unary_cmd L r' (bs "+") v0 w0 | None => None end)).
        rewrite El, (y_copy _ _ _ _ _ _ _ _ _ _ HY). exact H.
    Qed.
    Lemma default_literal e l : literal_of e = Some l -> has_array_default l = negb (is_not_array_default_value e).
    Proof.
      destruct e as [| | | |es sp| |n sp| | |]; try discriminate; intros H; try (injection H as <-; reflexivity).
      - change (option_map LArr (map_opt literal_of es) = Some l) in H. destruct (map_opt literal_of es) as [ls|] eqn:E; [|discriminate]. injection H as <-.
        destruct es as [|x [|d es]].
        + injection E as <-. reflexivity.
        + rewrite map_opt_cons in E. destruct (literal_of x); [|discriminate]. injection E as <-. reflexivity.
        + rewrite !map_opt_cons in E. destruct (literal_of x) as [y|]; [|discriminate]. destruct (literal_of d) as [z|] eqn:D; [|discriminate].
          destruct (map_opt literal_of es); [|discriminate]. injection E as <-. cbn [has_array_default is_not_array_default_value is_array].
          destruct d; try discriminate; cbn [literal_of] in D; try (injection D as <-; reflexivity).
          * destruct (map_opt literal_of l0); [|discriminate]. now injection D as <-.
          * destruct (is_in _ _); [|discriminate]. now injection D as <-.
      - cbn [literal_of] in H. destruct (is_in _ _); [|discriminate]. now injection H as <-.
    Qed.
    Lemma default_literals l ls : map_opt literal_of l = Some ls ->
      forallb (fun l => negb (has_array_default l)) ls = forallb is_not_array_default_value l.
    Proof.
      revert ls. induction l as [|e l IH]; intros ls H; [now injection H as <-|].
      rewrite map_opt_cons in H. destruct (literal_of e) as [y|] eqn:E; [|discriminate]. destruct (map_opt literal_of l) as [ys|]; [|discriminate].
      injection H as <-. cbn. rewrite (default_literal _ _ E), negb_involutive. f_equal. auto.
    Qed.

    (** *** Folding *)
    Lemma unary_folds c e o sp l l' :
      alike e o -> literal_of o = Some l -> (forall w, build L l w = (lit L l, w)) ->
      (forall w, unary_cmd L r' (to_ascii_lower (unary_str c)) (lit L l) w = Some (lit L l', w)) ->
      forall o', (forall w, eval L r' o' w = Some (lit L l', w)) -> alike (EUnary c e sp) o'.
    Proof.
      intros H E B F o' H' k p w w' Hw. pose proof (unary_alike c e o sp sp H k p w w' Hw) as S.
      cbn [eval] in S |- *. rewrite (eval_literal r' o l w' E), B, F in S. now rewrite H'.
    Qed.
    Lemma binary_folds c a b oa ob sp la lb l' :
      alike a oa -> alike b ob -> literal_of oa = Some la -> literal_of ob = Some lb ->
      (forall w, build L la w = (lit L la, w)) -> (forall w, build L lb w = (lit L lb, w)) ->
      (forall w, binary_cmd L r' (to_ascii_lower (binary_str c)) (lit L la) (lit L lb) w = Some (lit L l', w)) ->
      forall o', (forall w, eval L r' o' w = Some (lit L l', w)) -> alike (EBinary c a b sp) o'.
    Proof.
      intros H1 H2 E1 E2 B1 B2 F o' H' k p w w' Hw. pose proof (binary_alike c a oa b ob sp sp H1 H2 k p w w' Hw) as S.
      cbn [eval] in S |- *. rewrite (eval_literal r' oa la w' E1), B1, (eval_literal r' ob lb w' E2), B2, F in S. now rewrite H'.
    Qed.
    Lemma unary_number c e o sp op f : alike e o -> op_uni_float finite op sp o = Some f ->
      (forall x w, finite (op x) = true -> unary_cmd L r' (to_ascii_lower (unary_str c)) (lit L (LNum x)) w = Some (lit L (LNum (op x)), w)) ->
      alike (EUnary c e sp) f.
    Proof.
      intros H E F. destruct o; try discriminate. cbn in E. destruct (finite (op bits)) eqn:X; [|discriminate]. injection E as <-.
      eapply unary_folds; [exact H|reflexivity|reflexivity|intros w; apply F, X|reflexivity].
    Qed.
    Lemma unary_string c e o sp op f : alike e o -> op_uni_string op sp o = Some f ->
      (forall x w, is_ascii x = true -> unary_cmd L r' (to_ascii_lower (unary_str c)) (lit L (LStr x)) w = Some (lit L (LStr (op x)), w)) ->
      alike (EUnary c e sp) f.
    Proof.
      intros H E F. destruct o; try discriminate. cbn in E. destruct (is_ascii s) eqn:X; [|discriminate]. injection E as <-.
      eapply unary_folds; [exact H|reflexivity|reflexivity|intros w0; apply F, X|reflexivity].
    Qed.
    Lemma binary_number c a b oa ob sp op f : alike a oa -> alike b ob -> op_bin_float finite op sp oa ob = Some f ->
      In (to_ascii_lower (binary_str c), op) [(bs "+", fadd); (bs "-", fsub); (bs "*", fmul); (bs "/", fdiv); (bs "%", frem); (bs "mod", frem)] ->
      alike (EBinary c a b sp) f.
    Proof.
      intros Ha Hb E F. destruct oa; try discriminate. destruct ob; try discriminate. cbn in E. destruct (finite (op bits bits0)) eqn:X; [|discriminate]. injection E as <-.
      eapply binary_folds; [exact Ha|exact Hb|reflexivity|reflexivity|reflexivity|reflexivity| |reflexivity].
      intros w. eapply a_num; eauto.
    Qed.

    Lemma folded_alike x (o : option expr) d f : folded o d = Some f -> (forall y, o = Some y -> alike x y) -> alike x d -> alike x f.
    Proof. unfold folded. destruct o as [y|]; intros E H1 H2; injection E as <-; auto. Qed.

    Lemma unary_optimized c e o f sp : alike e o -> optimize_unary c o sp = Some f -> alike (EUnary c e sp) f.
    Proof.
      intros H E. assert (alike (EUnary c e sp) (EUnary c o sp)) as D by now apply unary_alike.
      destruct c as [n| | |]; cbn [OptimizeModel.optimize_unary] in E; try (injection E as <-; exact D).
      2: { eapply folded_alike; [exact E| |exact D]. intros y Y. eapply unary_number; eauto. intros. cbn. now apply (a_neg _ _ _ _ _ _ _ _ _ HA). }
      destruct (named n lower_names) eqn:N1.
      { eapply folded_alike; [exact E| |exact D]. intros y Y. eapply unary_string; eauto. intros. eapply a_lower; eauto. now apply named_in in N1. }
      destruct (named n upper_names) eqn:N2.
      { eapply folded_alike; [exact E| |exact D]. intros y Y. eapply unary_string; eauto. intros. eapply a_upper; eauto. now apply named_in in N2. }
      destruct (named n [bs "sqrt"]) eqn:N3.
      { eapply folded_alike; [exact E| |exact D]. intros y Y. eapply unary_number; eauto. intros. cbn [unary_str].
        apply named_in in N3 as [<-|[]]. now apply (a_sqrt _ _ _ _ _ _ _ _ _ HA). }
      clear N1 N2 N3.
      destruct (named n [bs "params"]) eqn:N4.
      { apply named_in in N4 as [N4|[]]. destruct (consume_params o) as [o'|] eqn:X; [|discriminate]. injection E as <-.
        unfold consume_params in X. destruct o as [| | | |l sp'| | | | |]; try (injection X as <-; exact D).
        destruct (consume_spec _ _ _ _ H X) as [A|(Hd & l0 & sp0 & ls & Eo & El & M & Ev)]; [now apply unary_alike|].
        injection Eo as <- <-. intros k p w w' Hw. destruct (M k p w w' Hw) as (v & w1 & k1 & Ee & L1 & H1). cbn [eval]. rewrite Ee, Ev.
        eapply same_le; [exact L1|]. eapply y_unary; eauto. left. split; [symmetry; exact N4|]. now rewrite (default_literals _ _ El). }
      destruct (named n [bs "param"]) eqn:N5.
      { apply named_in in N5 as [N5|[]]. destruct (consume (is_not_array_default_value o) o) as [o'|] eqn:X; [|discriminate]. injection E as <-.
        destruct (consume_spec _ _ _ _ H X) as [A|(Hd & l0 & sp0 & ls & Eo & El & M & Ev)]; [now apply unary_alike|].
        intros k p w w' Hw. destruct (M k p w w' Hw) as (v & w1 & k1 & Ee & L1 & H1). cbn [eval]. rewrite Ee, Ev.
        eapply same_le; [exact L1|]. eapply y_unary; eauto. right. left. split; [symmetry; exact N5|]. rewrite (default_literal o); [now rewrite Hd|].
        subst o. cbn. change (option_map LArr (map_opt literal_of l0) = Some (LArr ls)). now rewrite El. }
      destruct (named n consumers) eqn:N6.
      { apply named_in in N6. destruct (consume true o) as [o'|] eqn:X; [|discriminate]. injection E as <-.
        destruct (consume_spec _ _ _ _ H X) as [A|(Hd & l0 & sp0 & ls & Eo & El & M & Ev)]; [now apply unary_alike|].
        intros k p w w' Hw. destruct (M k p w w' Hw) as (v & w1 & k1 & Ee & L1 & H1). cbn [eval]. rewrite Ee, Ev.
        eapply same_le; [exact L1|]. eapply y_unary; eauto. }
      injection E as <-. exact D.
    Qed.

    (** The right operand is consumed, the left is not. *)
    Lemma right_consumed n a oa b ob' ls sp : alike a oa -> makes b ls -> (forall w, eval L r' ob' w = Some (lit L (LArr ls), w)) ->
      (to_ascii_lower n = bs "params" /\ forallb (fun l => negb (has_array_default l)) ls = true) \/
      (In (to_ascii_lower n) [bs "param"; bs "getvariable"; bs "setvariable"; bs "getordefault"] /\ has_array_default (LArr ls) = false) \/
      In (to_ascii_lower n) [bs "vectoradd"; bs "vectordiff"; bs "vectorcrossproduct"; bs "vectordotproduct"] ->
      alike (EBinary (BNamed n) a b sp) (EBinary (BNamed n) oa ob' sp).
    Proof.
      intros Ha M Ev N k p w w' Hw. cbn [eval].
      apply (same_bind Rv Rv k p _ _
        (fun v w => match eval L r b w with Some (u, w) => binary_cmd L r (to_ascii_lower (binary_str (BNamed n))) v u w | None => None end)
        (fun v w => match eval L r' ob' w with Some (u, w) => binary_cmd L r' (to_ascii_lower (binary_str (BNamed n))) v u w | None => None end)); [now apply Ha|].
      intros v v' w1 w1' k1 L1 Hv Hw1. destruct (M k1 p w1 w1' Hw1) as (u & w2 & k2 & -> & L2 & H2). rewrite Ev.
      eapply same_le; [exact L2|]. eapply y_right; eauto. eapply rv_le; eauto.
    Qed.

    Lemma this_call a b ob n sp : is_this a = true -> to_ascii_lower n = bs "call" -> alike b ob ->
      alike (EBinary (BNamed n) a b sp) (EUnary (UNamed (bs "call")) ob sp).
    Proof.
      intros Ha N Hb k p w w' Hw. destruct a; try discriminate. unfold is_this in Ha. apply same_text_eq in Ha as ->. cbn [eval].
      change (same_text (to_ascii_lower (bs "_this")) (bs "_this")) with true.
      change (to_ascii_lower (binary_str (BNamed n))) with (to_ascii_lower n). rewrite N.
      change (to_ascii_lower (unary_str (UNamed (bs "call")))) with (bs "call"). cbv iota.
      assert (same Rv k p (match eval L r b w with Some (u, w) => binary_cmd L r (bs "call") (this L w) u w | None => None end)
                          (match eval L r' ob w' with Some (u, w) => unary_cmd L r' (bs "call") u w | None => None end)) as S.
      { apply (same_bind Rv Rv k p _ _ (fun u w => binary_cmd L r (bs "call") (this L w) u w) (fun u w => unary_cmd L r' (bs "call") u w)); [now apply Hb|].
        intros. eapply t_call; eauto. }
      destruct (eval L r b w) as [[u w1]|] eqn:E; [|exact S]. now rewrite (eval_keeps r Kr b w u w1 E) in S.
    Qed.

    Lemma binary_optimized c a b oa ob f sp : alike a oa -> (is_this oa = true -> is_this a = true) -> alike b ob -> optimize_binary c oa ob sp = Some f ->
      alike (EBinary c a b sp) f.
    Proof.
      intros Ha Ht Hb E. assert (alike (EBinary c a b sp) (EBinary c oa ob sp)) as D by now apply binary_alike.
      assert (forall op, In (to_ascii_lower (binary_str c), op) [(bs "+", fadd); (bs "-", fsub); (bs "*", fmul); (bs "/", fdiv); (bs "%", frem); (bs "mod", frem)] ->
        forall y, op_bin_float finite op sp oa ob = Some y -> alike (EBinary c a b sp) y) as F.
      { intros op I y Y. eapply binary_number; eauto. }
      destruct c as [n| | | | | | | | | | | | | | | | | | | | | |]; cbn [OptimizeModel.optimize_binary] in E; try (injection E as <-; exact D);
        try (eapply folded_alike; [exact E|apply F; cbn; tauto|exact D]).
      - destruct (named n [bs "params"]) eqn:N4.
        { apply named_in in N4 as [N4|[]]. destruct (consume_params ob) as [o'|] eqn:X; [|discriminate]. injection E as <-.
          unfold consume_params in X. destruct ob as [| | | |l sp'| | | | |]; try (injection X as <-; exact D).
          destruct (consume_spec _ _ _ _ Hb X) as [A|(Hd & l0 & sp0 & ls & Eo & El & M & Ev)]; [now apply binary_alike|].
          injection Eo as <- <-. eapply right_consumed; eauto. left. split; [symmetry; exact N4|]. now rewrite (default_literals _ _ El). }
        destruct (named n second_is_default) eqn:N5.
        { apply named_in in N5. destruct (consume (is_not_array_default_value ob) ob) as [o'|] eqn:X; [|discriminate]. injection E as <-.
          destruct (consume_spec _ _ _ _ Hb X) as [A|(Hd & l0 & sp0 & ls & Eo & El & M & Ev)]; [now apply binary_alike|].
          eapply right_consumed; eauto. right. left. split; [exact N5|]. rewrite (default_literal ob); [now rewrite Hd|].
          subst ob. cbn. change (option_map LArr (map_opt literal_of l0) = Some (LArr ls)). now rewrite El. }
        destruct (named n vector_names) eqn:N6.
        { apply named_in in N6. destruct (consume true ob) as [ob'|] eqn:X; [|discriminate]. destruct (consume true oa) as [oa'|] eqn:Y; [|discriminate]. injection E as <-.
          destruct (consume_spec _ _ _ _ Ha Y) as [A|(_ & l0 & sp0 & ls & Eo & El & M & Ev)];
          (destruct (consume_spec _ _ _ _ Hb X) as [B|(_ & l1 & sp1 & lt & Eo' & El' & M' & Ev')]); [now apply binary_alike| | |].
          - eapply right_consumed; eauto.
          - intros k p w w' Hw. cbn [eval]. destruct (M k p w w' Hw) as (v & w1 & k1 & -> & L1 & H1). rewrite Ev. eapply same_le; [exact L1|].
            specialize (B k1 _ w1 w' H1).
            destruct (eval L r b w1) as [[u w2]|], (eval L r' ob' w') as [[u' w2']|]; cbn in B; try easy.
            destruct B as (k2 & L2 & Hu & Hw2). eapply same_le; [exact L2|]. eapply y_left; eauto.
          - intros k p w w' Hw. cbn [eval]. destruct (M k p w w' Hw) as (v & w1 & k1 & -> & L1 & H1). rewrite Ev.
            destruct (M' k1 _ w1 w' H1) as (u & w2 & k2 & -> & L2 & H2). rewrite Ev'.
            eapply same_le; [exact L1|]. eapply same_le; [exact L2|]. eapply y_both; eauto. }
        destruct (named n [bs "call"]) eqn:N7.
        { apply named_in in N7 as [N7|[]]. destruct (is_this oa) eqn:T; injection E as <-; [|exact D]. now apply this_call; [apply Ht| |]. }
        injection E as <-. exact D.
      - destruct oa as [c s q| | | | | | | | |]; try (injection E as <-; exact D). destruct ob as [c' s' q'| | | | | | | | |]; try (injection E as <-; exact D).
        injection E as <-. intros k p w w' Hw. cbn [eval map_opt literal_of].
        specialize (Ha k p w w' Hw). cbn [eval] in Ha. destruct (eval L r a w) as [[v w1]|]; [|contradiction]. destruct Ha as (k1 & L1 & Hv & Hw1).
        specialize (Hb k1 p w1 w' Hw1). cbn [eval] in Hb. destruct (eval L r b w1) as [[u w2]|]; [|contradiction]. destruct Hb as (k2 & L2 & Hu & Hw2).
        eapply same_le; [exact L1|]. eapply same_le; [exact L2|]. eapply y_else; eauto. eapply rv_le; eauto.
      - destruct (op_bin_float finite fadd sp oa ob) as [y|] eqn:Y; [injection E as <-; eapply F; [|eassumption]; cbn; tauto|].
        eapply folded_alike; [exact E| |exact D]. clear Y E. intros y Y. unfold op_bin_string in Y.
        destruct oa; try discriminate. destruct ob; try discriminate. destruct (is_ascii s0 && is_ascii s)%bool eqn:X; [|discriminate]. injection Y as <-.
        apply andb_prop in X as [X1 X2].
        eapply binary_folds; [exact Ha|exact Hb|reflexivity|reflexivity|reflexivity|reflexivity| |reflexivity].
        intros w1. eapply a_cat; eauto.
    Qed.

    Lemma optimized_this e e' : optimize_expr e = Some e' -> is_this e' = true -> is_this e = true.
    Proof.
      destruct e; cbn [OptimizeModel.optimize_expr]; intros E T; try (injection E as <-; exact T); exfalso.
      - destruct (map_opt _ _); [|discriminate]. injection E as <-. discriminate.
      - destruct (map_opt _ _); [|discriminate]. injection E as <-. discriminate.
      - destruct (optimize_expr e); [|discriminate]. unfold OptimizeModel.optimize_unary, folded, op_uni_float, op_uni_string in E.
        repeat (destr_in E; try discriminate); try (injection E as <-; try discriminate).
        all: repeat (destr_in T; try discriminate).
        all: cbn in T; try discriminate.
      - destruct (optimize_expr e1); [|discriminate]. destruct (optimize_expr e2); [|discriminate].
        unfold OptimizeModel.optimize_binary, folded, op_bin_float, op_bin_string in E.
        repeat (destr_in E; try discriminate); try (injection E as <-; discriminate).
    Qed.

    Lemma optimized_alike e e' : optimize_expr e = Some e' -> alike e e'.
    Proof.
      revert e'. refine (proj1 (tree_ind (fun e => forall e', optimize_expr e = Some e' -> alike e e') (fun _ => True) _ _ _ _ _ _ _ _ _ _ _ _ _) e); auto;
        try (intros; match goal with H : _ = Some _ |- _ => injection H as <- end; apply alike_refl).
      - intros c s sp _ e' H. cbn in H. destruct (map_opt _ c) as [c'|] eqn:E; [|discriminate]. injection H as <-. apply code_alike. now right.
      - intros l sp F e' H. cbn in H. destruct (map_opt _ l) as [l'|] eqn:E; [|discriminate]. injection H as <-. apply array_alike.
        apply map_opt_forall2 in E. revert l' E. induction F as [|x l Hx F IH]; intros l' E; inversion E; subst; constructor; auto.
      - intros c x sp IH e' H. cbn in H. destruct (optimize_expr x) as [o|] eqn:E; [|discriminate]. eapply unary_optimized; eauto.
      - intros c a b sp IHa IHb e' H. cbn in H. destruct (optimize_expr a) as [oa|] eqn:E; [|discriminate]. destruct (optimize_expr b) as [ob|] eqn:E'; [|discriminate].
        eapply binary_optimized; eauto. intros T. eapply optimized_this; eauto.
    Qed.

    Definition stmt_rel (s s' : stmt) : Prop := s' = s \/ optimize_stmt s = Some s'.
    Lemma stmt_alike s s' : stmt_rel s s' -> forall k p w w', Rw k p w w' -> same Ro k p (run_stmt L r s w) (run_stmt L r' s' w').
    Proof.
      intros H k p w w' Hw.
      assert (exists e e', alike e e' /\ ((exists n sp, s = SGlobal n e sp /\ s' = SGlobal n e' sp) \/ (exists n sp, s = SLocal n e sp /\ s' = SLocal n e' sp) \/ (exists sp, s = SExpr e sp /\ s' = SExpr e' sp))) as (e & e' & A & X).
      { destruct H as [->|H].
        - exists (stmt_expr s), (stmt_expr s). split; [apply alike_refl|]. destruct s; cbn; eauto 8.
        - destruct s as [n e sp|n e sp|e sp].
          + change (match optimize_expr e with Some e => Some (SGlobal n e sp) | None => None end = Some s') in H.
            destruct (optimize_expr e) as [o|] eqn:E; [|discriminate]. apply Some_inj in H. exists e, o. split; [now apply optimized_alike|eauto 8].
          + change (match optimize_expr e with Some e => Some (SLocal n e sp) | None => None end = Some s') in H.
            destruct (optimize_expr e) as [o|] eqn:E; [|discriminate]. apply Some_inj in H. exists e, o. split; [now apply optimized_alike|eauto 8].
          + change (match optimize_expr e with Some e => Some (SExpr e sp) | None => None end = Some s') in H.
            destruct (optimize_expr e) as [o|] eqn:E; [|discriminate]. apply Some_inj in H. exists e, o. split; [now apply optimized_alike|eauto 8]. }
      specialize (A k p w w' Hw).
      destruct X as [(n & sp & -> & ->)|[(n & sp & -> & ->)|(sp & -> & ->)]]; unfold run_stmt; cbn [stmt_expr];
        (destruct (eval L r e w) as [[v w1]|], (eval L r' e' w') as [[v' w1']|]; cbn in A; try easy);
        destruct A as (k1 & L1 & Hv & Hw1); (eapply same_le; [exact L1|]).
      - pose proof (r_global _ _ _ _ _ _ _ _ _ _ HC k1 p w1 w1' (to_ascii_lower n) v v' Hw1 Hv) as G.
        destruct (set_global L _ v w1), (set_global L _ v' w1'); cbn in *; try easy. destruct G as (k2 & L2 & H2). exists k2. auto.
      - pose proof (r_local _ _ _ _ _ _ _ _ _ _ HC k1 p w1 w1' (to_ascii_lower n) v v' Hw1 Hv) as G.
        destruct (set_local L _ v w1), (set_local L _ v' w1'); cbn in *; try easy. destruct G as (k2 & L2 & H2). exists k2. auto.
    Qed.
    Lemma block_alike l l' : Forall2 stmt_rel l l' -> forall last last' k p w w', Ro k last last' -> Rw k p w w' ->
      same Ro k p (run_block L r last l w) (run_block L r' last' l' w').
    Proof.
      induction 1 as [|s s' l l' Hs Hl IH]; intros last last' k p w w' Ho Hw; [now apply same_ret|]. cbn.
      apply (same_bind Ro Ro k p _ _ (fun v w => run_block L r v l w) (fun v w => run_block L r' v l' w)); [now apply stmt_alike|].
      intros. now apply IH.
    Qed.
  End Eval.

  Lemma code_rel_forall2 c c' : code_rel c c' -> Forall2 stmt_rel c c'.
  Proof.
    intros [->|H].
    - induction c; constructor; auto. now left.
    - apply map_opt_forall2 in H. eapply Forall2_impl; [|exact H]. intros; now right.
  Qed.
  Lemma exec_alike n : same_run (exec L n) (exec L n).
  Proof.
    induction n as [|n IH]; intros c c' k p w w' Hc Hw; [exact I|]. cbn.
    apply block_alike; auto; [apply exec_keeps|now apply code_rel_forall2|exact I].
  Qed.
End Meaning.
