(** Text that uses no feature of the preprocessor is left alone. *)
From Coq Require Import String.
From Verif Require Import Base.Tactics Base.Bytes Base.Ascii Base.Text Preproc.Model Preproc.Fuel Preproc.Spec Preproc.Expand Preproc.Blocks.
From Verif Require Import Preproc.LexSpec.
Local Open Scope N_scope.
Local Open Scope list_scope.

Section Plain.
  Context (checked : bool) (locate : text -> text -> option (text * bool)) (parse : text -> run (list token))
          (project : option (option text * text)) (F : Type) (parse_f64 : text -> option F) (flt fle : F -> F -> bool).
  Notation G := (fns checked locate parse project F parse_f64 flt fle).

  (** Any property of the tokens of the file. *)
  Context (P : token -> Prop).
  (** Tokens that mean nothing to the preprocessor when no macro is defined. *)
  Definition inert (t : token) : Prop :=
    match t_sym t with
    | Hash | Eoi => False
    | Word w => (~ refused w /\ ~ computed w) /\ P t
    | _ => P t
    end.
  Lemma inert_P t : inert t -> P t.
  Proof. unfold inert. destruct (t_sym t); tauto. Qed.
  Definition no_macros (s : state) : Prop := global (defs s) = [] /\ frames (defs s) = [].
  Definition out_text (o : list output) : text := toks_text (flat_map out_toks o).
  (** No backslash has been written. *)
  Definition calm (out : list output) : Prop := forall o, In o out -> exists t, o = Direct t /\ t_sym t <> Escape.
  (** No macro has been called. *)
  Definition uncalled (out : list output) : Prop := forall o, In o out -> exists t, o = Direct t /\ P t.
  (** No line break follows a backslash. *)
  Definition unbroken (s : text) : Prop := ~ occurs [92; 10] s.
  Lemma unbroken_l a b : unbroken (a ++ b) -> unbroken a.
  Proof. intros H (x & y & ->). apply H. exists x, (y ++ b). now rewrite <- !app_assoc. Qed.

  Lemma emit_calm s t out : is_reading s = true -> uncalled out -> inert t -> unbroken (out_text (rev out) ++ tok_text t) ->
    uncalled (emit s t out) /\ out_text (rev (emit s t out)) = out_text (rev out) ++ tok_text t.
  Proof.
    intros R C I U. unfold emit. rewrite R. cbn [andb].
    assert (uncalled (Direct t :: out)) as C'.
    { intros o [<-|Ho]; [|auto]. exists t. split; [reflexivity|now apply inert_P]. }
    assert (out_text (rev (Direct t :: out)) = out_text (rev out) ++ tok_text t) as E.
    { unfold out_text. cbn [rev]. rewrite flat_map_app. unfold toks_text. rewrite flat_map_app. cbn. rewrite !app_nil_r. reflexivity. }
    destruct (is_comment (t_sym t)) eqn:Ec; cbn [negb].
    - split; auto. unfold tok_text. destruct (t_sym t); try discriminate. cbn. now rewrite app_nil_r.
    - destruct out as [|o r]; [auto|]. destruct (C o (or_introl eq_refl)) as (t' & -> & _). cbn [last_sym].
      destruct (is_newline (t_sym t) && is_escape (t_sym t')) eqn:EB; [|auto]. exfalso. apply andb_true_iff in EB as [B1 B2]. apply U.
      exists (out_text (rev r)), []. unfold out_text. cbn [rev]. rewrite flat_map_app. unfold toks_text, tok_text. rewrite flat_map_app.
      destruct (t_sym t); try discriminate B1. destruct (t_sym t') eqn:E2; try discriminate B2. cbn. rewrite E2. cbn. now rewrite <- app_assoc.
  Qed.
  Lemma not_refused w : ~ refused w -> text_eqb w (bs "__EXEC") = false /\ is_unsupported w = false.
  Proof. apply (refused_false locate parse F parse_f64). Qed.
  Lemma no_key s w : no_macros s -> ~ computed w -> contains_key w (defs s) = false.
  Proof.
    intros [G0 F0] N. unfold contains_key. rewrite G0, F0. destruct (among w builtin_gen) eqn:E; [|reflexivity].
    exfalso. apply N. now apply among_gen.
  Qed.
  Lemma walk_plain s p : no_macros s -> is_reading s = true -> forall ts out q jw,
    (forall t, In t ts -> inert t \/ t_sym t = Eoi) -> uncalled out -> unbroken (out_text (rev out) ++ toks_text ts) ->
    exists n l ts' out', c_walk (G n) None None s p ts out q None jw = Ok (s, p, ts', out') /\ ts = l ++ ts' /\
      (forall t, In t l -> inert t) /\ uncalled out' /\ out_text (rev out') = out_text (rev out) ++ toks_text l /\
      (ts = [] \/ (exists t r, ts = t :: r /\ t_sym t = Eoi) \/ l <> []).
  Proof.
    intros M R. induction ts as [|t r IH]; intros out q jw H C U.
    - exists 1%nat, [], [], out. rewrite walk_S. cbn. rewrite app_nil_r. repeat split; auto; try (intros ? []; fail).
    - destruct (H t (or_introl eq_refl)) as [I|E].
      2:{ exists 1%nat, [], (t :: r), out. rewrite walk_S. unfold walk. rewrite E. cbn [app]. rewrite app_nil_r. repeat split; auto; try (intros ? []; fail); eauto 6. }
      assert (toks_text (t :: r) = tok_text t ++ toks_text r) as ETR by reflexivity. rewrite ETR, app_assoc in U.
      destruct (emit_calm s t out R C I (unbroken_l _ _ U)) as [C1 E1].
      assert (forall q2 jw2, exists n l ts' out', c_walk (G n) None None s p r (emit s t out) q2 None jw2 = Ok (s, p, ts', out') /\ t :: r = l ++ ts' /\
        (forall t, In t l -> inert t) /\ uncalled out' /\ out_text (rev out') = out_text (rev out) ++ toks_text l /\
        (t :: r = [] \/ (exists t0 r0, t :: r = t0 :: r0 /\ t_sym t0 = Eoi) \/ l <> [])) as Go.
      { intros q2 jw2. destruct (IH (emit s t out) q2 jw2) as (n & l & ts' & out' & W & -> & Hl & C' & E' & _); [intros; apply H; cbn; auto|exact C1|now rewrite E1|].
        exists n, (t :: l), ts', out'. repeat split; auto.
        - intros x [<-|Hx]; auto.
        - rewrite E', E1, <- app_assoc. reflexivity.
        - right. right. discriminate. }
      assert (forall q2 jw2, (forall n, walk (G n) None None s p (t :: r) out q None jw = c_walk (G n) None None s p r (emit s t out) q2 None jw2) ->
        exists n l ts' out', c_walk (G n) None None s p (t :: r) out q None jw = Ok (s, p, ts', out') /\ t :: r = l ++ ts' /\
        (forall t, In t l -> inert t) /\ uncalled out' /\ out_text (rev out') = out_text (rev out) ++ toks_text l /\
        (t :: r = [] \/ (exists t0 r0, t :: r = t0 :: r0 /\ t_sym t0 = Eoi) \/ l <> [])) as Step.
      { intros q2 jw2 Hw. destruct (Go q2 jw2) as (n & l & ts' & out' & W & X). exists (S n), l, ts', out'. rewrite walk_S, Hw. auto. }
      pose proof (inert_P _ I) as IP. unfold inert in I. destruct (t_sym t) eqn:Et; try contradiction;
        try (destruct q; eapply Step; intro n; unfold walk; rewrite Et; reflexivity).
      + destruct q; [eapply Step; intro n; unfold walk; rewrite Et; reflexivity|]. destruct I as [[I1 I2] _]. destruct (not_refused _ I1) as [N1 N2].
        eapply Step. intro n. unfold walk. rewrite Et, N1, N2, (no_key s w M I2). reflexivity.
      + destruct q; [eapply Step; intro n; unfold walk; rewrite Et; reflexivity|].
        exists 1%nat, [t], r, (emit s t out). rewrite walk_S. unfold walk. rewrite Et. repeat split; auto.
        * intros x [<-|[]]. unfold inert. now rewrite Et.
        * rewrite E1. cbn. now rewrite app_nil_r.
        * right. right. discriminate.
  Qed.

  Lemma skip_ws_plain s : is_reading s = true -> forall ts out, (forall t, In t ts -> inert t \/ t_sym t = Eoi) -> uncalled out -> unbroken (out_text (rev out) ++ toks_text ts) ->
    exists l ts' out', skip_ws_out s ts out = (ts', out') /\ ts = l ++ ts' /\ (forall t, In t l -> inert t) /\ uncalled out' /\
      out_text (rev out') = out_text (rev out) ++ toks_text l /\
      match ts' with t :: _ => is_space (t_sym t) = false | [] => True end.
  Proof.
    intro R. induction ts as [|t r IH]; intros out H C U; cbn [skip_ws_out].
    - exists [], [], out. cbn. rewrite app_nil_r. repeat split; auto; try (intros ? []; fail).
    - destruct (is_space (t_sym t)) eqn:E.
      + assert (inert t) as I by (destruct (H t (or_introl eq_refl)) as [I|I]; [exact I|rewrite I in E; discriminate E]).
        assert (toks_text (t :: r) = tok_text t ++ toks_text r) as ETR by reflexivity. rewrite ETR, app_assoc in U.
        destruct (emit_calm s t out R C I (unbroken_l _ _ U)) as [C1 E1]. rewrite <- E1 in U.
        destruct (IH _ (fun x Hx => H x (or_intror Hx)) C1 U) as (l & ts' & out' & W & -> & Hl & C' & E' & T). exists (t :: l), ts', out'. repeat split; auto.
        * intros x [<-|Hx]; auto.
        * rewrite E', E1, <- app_assoc. reflexivity.
      + exists [], (t :: r), out. cbn [app toks_text flat_map]. rewrite app_nil_r. repeat split; auto; try (intros ? []; fail).
  Qed.
  (** A file of such tokens, up to its end. *)
  Lemma file_plain s : no_macros s -> is_reading s = true -> forall k ts out p,
    (length ts <= k)%nat -> (forall t, In t ts -> inert t \/ t_sym t = Eoi) -> uncalled out -> unbroken (out_text (rev out) ++ toks_text ts) ->
    exists n p' l ts' out', c_file (G n) s p ts out = Ok (s, p', ts', out') /\ ts = l ++ ts' /\
      (forall t, In t l -> inert t) /\ uncalled out' /\ out_text (rev out') = out_text (rev out) ++ toks_text l /\
      match ts' with t :: _ => t_sym t = Eoi | [] => True end.
  Proof.
    intros M R. induction k as [|k IH]; intros ts out p Hk H C U.
    - destruct ts; [|cbn in Hk; lia]. exists 1%nat, p, [], [], out. rewrite file_S. cbn. rewrite app_nil_r. repeat split; auto; try (intros ? []; fail).
    - destruct ts as [|t r].
      { exists 1%nat, p, [], [], out. rewrite file_S. cbn. rewrite app_nil_r. repeat split; auto; try (intros ? []; fail). }
      destruct (is_eoi (t_sym t)) eqn:Ee.
      { exists 1%nat, p, [], (t :: r), out. rewrite file_S. unfold file. rewrite Ee. cbn [app toks_text flat_map]. rewrite app_nil_r. repeat split; auto; try (intros ? []; fail).
        destruct (t_sym t); try discriminate; reflexivity. }
      destruct (skip_ws_plain s R (t :: r) out H C U) as (l1 & ts1 & out1 & Sk & Ets & Hl1 & C1 & E1 & T1).
      destruct (walk_plain s p M R ts1 out1 false true) as (n1 & l2 & ts2 & out2 & W & E2 & Hl2 & C2 & Et2 & Pr); [intros x Hx; apply H; rewrite Ets; apply in_or_app; auto|exact C1|rewrite E1, <- app_assoc; unfold toks_text; rewrite <- flat_map_app, <- Ets; exact U|].
      assert (length ts2 <= k)%nat as L2.
      { assert (l1 <> [] \/ l2 <> []) as NN.
        { destruct l1; [right|left; discriminate]. cbn [app] in Ets. destruct Pr as [Pr|[(t0 & r0 & Pr & E0)|Pr]]; auto.
          - rewrite Pr in Ets. discriminate.
          - rewrite Pr in Ets. injection Ets as -> _. rewrite E0 in Ee. discriminate. }
        rewrite Ets, E2 in Hk. rewrite !app_length in Hk. destruct NN as [NN|NN]; [destruct l1|destruct l2]; try congruence; cbn [length] in Hk; lia. }
      destruct (IH ts2 out2 (clear_line p) L2) as (n2 & p' & l3 & ts3 & out3 & Fi & E3 & Hl3 & C3 & Et3 & T3); [intros x Hx; apply H; rewrite Ets, E2; repeat (apply in_or_app; right); auto|exact C2|rewrite Et2, E1, <- !app_assoc; unfold toks_text; rewrite <- !flat_map_app, <- E2, <- Ets; exact U|].
      exists (S (S (n1 + n2))), p', (l1 ++ l2 ++ l3), ts3, out3. repeat split; auto.
      + rewrite file_S. unfold file. rewrite Ee. unfold line. rewrite Sk, directive_S.
        assert (forall g, directive checked locate parse project F parse_f64 flt fle g s p ts1 out1 = Ok (false, (s, p, ts1, out1))) as Dr.
        { intro g. unfold directive. destruct ts1 as [|x ts1']; [reflexivity|]. destruct (H x) as [Ix|Ix]; [rewrite Ets; apply in_or_app; cbn; auto| |].
          - unfold inert in Ix. destruct (t_sym x); auto. contradiction.
          - now rewrite Ix. }
        rewrite Dr. cbn [rbind]. rewrite R. rewrite (walk_up _ _ _ _ _ _ _ _ n1 (S (n1 + n2)) _ _ _ _ _ _ _ _ _ _ ltac:(lia) W). cbn [rbind].
        apply (file_up _ _ _ _ _ _ _ _ n2); [lia|exact Fi].
      + rewrite Ets, E2, E3. now rewrite !app_assoc.
      + intros x Hx. apply in_app_or in Hx. destruct Hx as [Hx|Hx]; auto. apply in_app_or in Hx. destruct Hx; auto.
      + rewrite Et3, Et2, E1. unfold toks_text. rewrite !flat_map_app, !app_assoc. reflexivity.
  Qed.
End Plain.
