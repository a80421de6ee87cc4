(** When the optimiser panics (C31). *)
From Coq Require Import String.
From Verif Require Import Base.Tactics Base.Bytes Base.Ascii Base.Text Sqf.Ast Sqf.OptimizeModel Sqf.OptimizeProofs.
Local Open Scope N_scope.
Local Open Scope list_scope.

(** [{..} else {..}] *)
Definition else_of_blocks (e : expr) : bool :=
  match e with EBinary BElse (ECode _ _ _) (ECode _ _ _) _ => true | _ => false end.
(** No array expression anywhere in the tree has [{..} else {..}] as an element; the optimiser's own node does not occur. *)
Fixpoint no_else_in_arrays (e : expr) : bool :=
  match e with
  | ECode c _ _ => forallb no_else_stmt c
  | EArray l _ => forallb (fun x => negb (else_of_blocks x) && no_else_in_arrays x)%bool l
  | EConsumable _ _ => false
  | EUnary _ e _ => no_else_in_arrays e
  | EBinary _ a b _ => no_else_in_arrays a && no_else_in_arrays b
  | _ => true
  end
with no_else_stmt (s : stmt) : bool :=
  match s with SGlobal _ e _ | SLocal _ e _ | SExpr e _ => no_else_in_arrays e end.

(** No consumable array at an element position. *)
Fixpoint calm (e : expr) : bool :=
  match e with
  | EConsumable _ _ => false
  | EArray l _ => forallb calm l
  | _ => true
  end.
Lemma calm_constant e : calm e = true -> exists b, is_constant e = Some b.
Proof.
  revert e. refine (proj1 (tree_ind (fun e => calm e = true -> exists b, is_constant e = Some b) (fun _ => True) _ _ _ _ _ _ _ _ _ _ _ _ _)); auto; cbn; eauto; try discriminate.
  intros l sp F H. change (forallb calm l = true) in H. change (exists b, all_opt is_constant l = Some b).
  induction F as [|x l Hx F IH]; [cbn; eauto|]. cbn in H. apply andb_prop in H as [H1 H2]. rewrite all_opt_cons. destruct (Hx H1) as [[|] ->]; eauto.
Qed.

Section Total.
  Context (fneg fsqrt : N -> N) (fadd fsub fmul fdiv frem : N -> N -> N) (finite : N -> bool).
  Notation optimize_expr := (optimize_expr fneg fsqrt fadd fsub fmul fdiv frem finite).
  Notation optimize_stmt := (optimize_stmt fneg fsqrt fadd fsub fmul fdiv frem finite).
  Notation optimize_unary := (optimize_unary fneg fsqrt finite).
  Notation optimize_binary := (optimize_binary fadd fsub fmul fdiv frem finite).

  (** An optimised operand: calm, or the array of an [else]. *)
  Definition shape (e : expr) : Prop := calm e = true \/ exists l sp, e = EConsumable l sp.
  Lemma consume_total d e : shape e -> exists e', consume d e = Some e'.
  Proof.
    intros H. unfold consume, get_consumable_array. destruct e as [| | | |l sp| | | | |]; eauto.
    destruct H as [H|(l' & sp' & H)]; [|discriminate]. destruct (calm_constant _ H) as [[|] ->]; [|eauto].
    destruct l; [eauto|]. destruct d; eauto.
  Qed.
  Lemma consume_params_total e : shape e -> exists e', consume_params e = Some e'.
  Proof. intros H. unfold consume_params. destruct e; eauto. now apply consume_total. Qed.
  Lemma uni_calm op sp r f : op_uni_float finite op sp r = Some f -> calm f = true.
  Proof. destruct r; try discriminate. cbn. destruct (finite _); [|discriminate]. intros X. now injection X as <-. Qed.
  Lemma uni_str_calm op sp r f : op_uni_string op sp r = Some f -> calm f = true.
  Proof. destruct r; try discriminate. cbn. destruct (is_ascii _); [|discriminate]. intros X. now injection X as <-. Qed.
  Lemma bin_calm op sp l r f : op_bin_float finite op sp l r = Some f -> calm f = true.
  Proof. destruct l; try discriminate. destruct r; try discriminate. cbn. destruct (finite _); [|discriminate]. intros X. now injection X as <-. Qed.
  Lemma bin_str_calm sp l r f : op_bin_string sp l r = Some f -> calm f = true.
  Proof. destruct l; try discriminate. destruct r; try discriminate. cbn. destruct (_ && _)%bool; [|discriminate]. intros X. now injection X as <-. Qed.
  Lemma folded_total o d : (forall f, o = Some f -> calm f = true) -> calm d = true -> exists e, folded o d = Some e /\ calm e = true.
  Proof. intros H H'. unfold folded. destruct o as [f|]; eauto. Qed.

  Lemma unary_total c r sp : shape r -> exists e, optimize_unary c r sp = Some e /\ calm e = true.
  Proof.
    intros H. unfold OptimizeModel.optimize_unary. destruct c as [n| | |]; try (eexists; split; reflexivity).
    2: { apply folded_total; [|reflexivity]. intros f. apply uni_calm. }
    repeat match goal with |- context [named n ?l] => destruct (named n l) end;
      try (apply folded_total; [intros f; (apply uni_calm || apply uni_str_calm)|reflexivity]);
      try (destruct (consume_params_total r H) as [e' ->]; eexists; split; reflexivity);
      try (match goal with |- context [consume ?d r] => destruct (consume_total d r H) as [e' ->] end; eexists; split; reflexivity);
      eexists; split; reflexivity.
  Qed.
  Lemma binary_total c l r sp : shape l -> shape r ->
    exists e, optimize_binary c l r sp = Some e /\ (calm e = true \/ (c = BElse /\ (exists b s q, l = ECode b s q) /\ (exists b s q, r = ECode b s q) /\ e = EConsumable [l; r] sp)).
  Proof.
    intros Hl Hr.
    assert (forall o, (forall f, o = Some f -> calm f = true) -> exists e, folded o (EBinary c l r sp) = Some e /\ (calm e = true \/ (c = BElse /\ (exists b s q, l = ECode b s q) /\ (exists b s q, r = ECode b s q) /\ e = EConsumable [l; r] sp))) as F.
    { intros o Ho. destruct (folded_total o (EBinary c l r sp) Ho eq_refl) as (e & He & Hc). eauto. }
    assert (exists e, Some (EBinary c l r sp) = Some e /\ (calm e = true \/ (c = BElse /\ (exists b s q, l = ECode b s q) /\ (exists b s q, r = ECode b s q) /\ e = EConsumable [l; r] sp))) as D by eauto.
    unfold OptimizeModel.optimize_binary. destruct c as [n| | | | | | | | | | | | | | | | | | | | | |]; try exact D; try (apply F; intros f; apply bin_calm).
    - repeat match goal with |- context [named n ?l] => destruct (named n l) end; try exact D.
      + destruct (consume_params_total r Hr) as [e' ->]. eauto.
      + destruct (consume_total (is_not_array_default_value r) r Hr) as [e' ->]. eauto.
      + destruct (consume_total true r Hr) as [e' ->]. destruct (consume_total true l Hl) as [e'' ->]. eauto.
      + destruct (is_this l); eauto.
    - destruct l; try exact D. destruct r; try exact D. eexists. split; [reflexivity|]. right. repeat split; eauto.
    - destruct (op_bin_float finite fadd sp l r) as [f|] eqn:E; [|apply F; intros f; apply bin_str_calm].
      eexists. split; [reflexivity|]. left. eapply bin_calm; eauto.
  Qed.

  Lemma optimized_code e b s q : optimize_expr e = Some (ECode b s q) -> exists b, e = ECode b s q.
  Proof.
    destruct e; cbn [OptimizeModel.optimize_expr]; intros E; try discriminate.
    - destruct (map_opt _ _); [|discriminate]. injection E as <- <- <-. eauto.
    - destruct (map_opt _ _); discriminate.
    - exfalso. destruct (optimize_expr e); [|discriminate]. unfold OptimizeModel.optimize_unary, folded, op_uni_float, op_uni_string in E.
      repeat (destr_in E; try discriminate).
      all: congruence.
    - exfalso. destruct (optimize_expr e1); [|discriminate]. destruct (optimize_expr e2); [|discriminate].
      unfold OptimizeModel.optimize_binary, folded, op_bin_float, op_bin_string in E.
      repeat (destr_in E; try discriminate); congruence.
  Qed.

  Lemma optimize_total :
    (forall e, no_else_in_arrays e = true -> exists e', optimize_expr e = Some e' /\ (calm e' = true \/ else_of_blocks e = true /\ exists l sp, e' = EConsumable l sp)) /\
    (forall s, no_else_stmt s = true -> exists s', optimize_stmt s = Some s').
  Proof.
    apply tree_ind.
    - intros c s sp F H. change (forallb no_else_stmt c = true) in H.
      assert (exists c', map_opt optimize_stmt c = Some c') as [c' E].
      { induction F as [|x c Hx F IH]; [cbn; eauto|]. cbn in H. apply andb_prop in H as [H1 H2]. rewrite map_opt_cons.
        destruct (Hx H1) as [y ->]. destruct (IH H2) as [ys ->]. eauto. }
      exists (ECode c' s sp). split; [|left; reflexivity].
      change (match map_opt optimize_stmt c with Some c => Some (ECode c s sp) | None => None end = Some (ECode c' s sp)). now rewrite E.
    - intros. eexists. split; [reflexivity|now left].
    - intros. eexists. split; [reflexivity|now left].
    - intros. eexists. split; [reflexivity|now left].
    - intros l sp F H. change (forallb (fun x => negb (else_of_blocks x) && no_else_in_arrays x)%bool l = true) in H.
      assert (exists l', map_opt optimize_expr l = Some l' /\ forallb calm l' = true) as (l' & E & Hc).
      { induction F as [|x l Hx F IH]; [cbn; eauto|]. cbn [forallb] in H. apply andb_prop in H as [H1 H2]. apply andb_prop in H1 as [H0 H1].
        rewrite map_opt_cons. destruct (Hx H1) as (y & -> & Hy). destruct (IH H2) as (ys & -> & Hys).
        eexists. split; [reflexivity|]. cbn. rewrite Hys. destruct Hy as [->|[Y _]]; [reflexivity|]. now rewrite Y in H0. }
      exists (EArray l' sp). split; [|left; exact Hc].
      change (match map_opt optimize_expr l with Some l => Some (EArray l sp) | None => None end = Some (EArray l' sp)). now rewrite E.
    - intros. discriminate.
    - intros. eexists. split; [reflexivity|now left].
    - intros c e sp IH H. destruct (IH H) as (o & E & S). assert (shape o) as So by (unfold shape; tauto).
      destruct (unary_total c o sp So) as (e' & E' & C). exists e'. split; [|auto].
      change (match optimize_expr e with Some r => optimize_unary c r sp | None => None end = Some e'). now rewrite E.
    - intros c a b sp IHa IHb H. change ((no_else_in_arrays a && no_else_in_arrays b)%bool = true) in H. apply andb_prop in H as [H1 H2].
      destruct (IHa H1) as (oa & Ea & Sa). destruct (IHb H2) as (ob & Eb & Sb).
      assert (shape oa) as Soa by (unfold shape; tauto). assert (shape ob) as Sob by (unfold shape; tauto).
      destruct (binary_total c oa ob sp Soa Sob) as (e' & E' & X). exists e'. split.
      { change (match optimize_expr a with Some l => match optimize_expr b with Some r => optimize_binary c l r sp | None => None end | None => None end = Some e'). now rewrite Ea, Eb. }
      destruct X as [X|(-> & (b1 & s1 & q1 & ->) & (b2 & s2 & q2 & ->) & ->)]; [now left|]. right.
      destruct (optimized_code _ _ _ _ Ea) as [b1' ->]. destruct (optimized_code _ _ _ _ Eb) as [b2' ->]. cbn. eauto.
    - intros. eexists. split; [reflexivity|now left].
    - intros n e sp IH H. destruct (IH H) as (o & E & _). exists (SGlobal n o sp).
      change (match optimize_expr e with Some e => Some (SGlobal n e sp) | None => None end = Some (SGlobal n o sp)). now rewrite E.
    - intros n e sp IH H. destruct (IH H) as (o & E & _). exists (SLocal n o sp).
      change (match optimize_expr e with Some e => Some (SLocal n e sp) | None => None end = Some (SLocal n o sp)). now rewrite E.
    - intros e sp IH H. destruct (IH H) as (o & E & _). exists (SExpr o sp).
      change (match optimize_expr e with Some e => Some (SExpr e sp) | None => None end = Some (SExpr o sp)). now rewrite E.
  Qed.

  Lemma block_total c : forallb no_else_stmt c = true -> exists c', optimize_block fneg fsqrt fadd fsub fmul fdiv frem finite c = Some c'.
  Proof.
    unfold optimize_block. induction c as [|s c IH]; intros H; [cbn; eauto|]. cbn [forallb] in H. apply andb_prop in H as [H1 H2]. rewrite map_opt_cons.
    destruct (proj2 optimize_total s H1) as [s' ->]. destruct (IH H2) as [c' ->]. eauto.
  Qed.
End Total.
