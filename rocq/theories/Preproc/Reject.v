(** C58: malformed directives are rejected; conditions are either well formed or malformed. *)
From Coq Require Import String.
From Verif Require Import Base.Tactics Base.Bytes Base.Ascii Base.Text Preproc.Model Preproc.Fuel Preproc.Spec Preproc.Expand
  Preproc.BlockSpec Preproc.Blocks Preproc.Props Preproc.RejectSpec.
Local Open Scope N_scope.
Local Open Scope list_scope.

Ltac names := repeat match goal with |- context [text_eqb ?a ?b] => change (text_eqb a b) with true || change (text_eqb a b) with false end.

Lemma is_name_text t : is_name t -> is_word (t_sym t) = true /\ is_space (t_sym t) = false /\ is_newline (t_sym t) = false /\ is_eoi (t_sym t) = false.
Proof. intros [w ->]. auto. Qed.
Lemma skip_ws_at ws t r : blank ws -> is_space (t_sym t) = false -> skip_ws (ws ++ t :: r) = t :: r.
Proof. intros B H. apply skip_ws_blank; auto. Qed.
Lemma not_nl t : t_sym t <> Newline -> is_newline (t_sym t) = false.
Proof. destruct (t_sym t); auto; congruence. Qed.
Lemma not_eoi t : t_sym t <> Eoi -> is_eoi (t_sym t) = false.
Proof. destruct (t_sym t); auto; congruence. Qed.
Lemma expect_bad ws y r : blank ws -> is_space (t_sym y) = false -> t_sym y <> Newline -> t_sym y <> Eoi -> expect_nothing (ws ++ y :: r) = Err PE1_unexpected_token.
Proof.
  intros B H N E. induction ws as [|t ws IH]; cbn [app expect_nothing].
  - rewrite (not_nl _ N), (not_eoi _ E), H. reflexivity.
  - pose proof (B t (or_introl eq_refl)) as X. assert (is_newline (t_sym t) || is_eoi (t_sym t) = false) as -> by (destruct (t_sym t); auto; discriminate).
    rewrite X. apply IH. intros x Hx. apply B. cbn; auto.
Qed.
Lemma next_word_bad ws x r : blank ws -> is_space (t_sym x) = false -> ~ is_name x -> t_sym x <> Eoi -> next_word (ws ++ x :: r) = Err PE3_expected_ident.
Proof.
  intros B H N E. unfold next_word. rewrite skip_ws_at by auto. unfold current_word. rewrite (not_eoi _ E).
  replace (is_word (t_sym x)) with false; [reflexivity|]. unfold is_name in N. destruct (t_sym x); auto. exfalso. eauto.
Qed.
Lemma read_path_open close path nl r : t_sym nl = Newline -> close <> Newline ->
  (forall t, In t path -> t_sym t <> close /\ t_sym t <> Newline /\ t_sym t <> Eoi) -> read_path close (path ++ nl :: r) = Err PE13_include_not_encased.
Proof.
  intros N C H. induction path as [|t path IH]; cbn [app read_path].
  - rewrite N. destruct (sym_dec Newline close); [congruence|]. reflexivity.
  - destruct (H t (or_introl eq_refl)) as (H1 & H2 & H3). destruct (sym_dec (t_sym t) close); [contradiction|].
    rewrite (not_nl _ H2), (not_eoi _ H3), IH by (intros x Hx; apply H; cbn; auto). reflexivity.
Qed.
Lemma read_path_closed close path q r : t_sym q = close ->
  (forall t, In t path -> t_sym t <> close /\ t_sym t <> Newline /\ t_sym t <> Eoi) -> read_path close (path ++ q :: r) = Ok (toks_text path, r).
Proof.
  intros Q H. induction path as [|t path IH]; cbn [app read_path].
  - destruct (sym_dec (t_sym q) close); [reflexivity|contradiction].
  - destruct (H t (or_introl eq_refl)) as (H1 & H2 & H3). destruct (sym_dec (t_sym t) close); [contradiction|].
    rewrite (not_nl _ H2), (not_eoi _ H3), IH by (intros x Hx; apply H; cbn; auto). reflexivity.
Qed.
Lemma read_params_bad after ts e : bad_params after ts e -> forall nl r args, t_sym nl = Newline ->
  (forall t, In t ts -> t_sym t <> Newline /\ t_sym t <> Eoi) -> read_params (ts ++ nl :: r) after args = Err e.
Proof.
  induction 1 as [after t ts e S _ IH|t ts e [w T] _ IH|t ts e T _ IH|t ts [w T]|t ts T|after t ts B N1 N2 N3|after]; intros nl r args N H;
    cbn [app read_params]; try rewrite T; try (apply IH; auto; intros x Hx; apply H; cbn; auto); try reflexivity.
  - destruct (t_sym t); try discriminate S; apply IH; auto; intros x Hx; apply H; cbn; auto.
  - unfold black in B. destruct (t_sym t) eqn:E; try discriminate B; try congruence; try reflexivity. destruct N1. eexists; eauto.
  - rewrite N. reflexivity.
Qed.

Section Reject.
  Context (checked : bool) (locate : text -> text -> option (text * bool)) (parse : text -> run (list token))
          (project : option (option text * text)) (F : Type) (parse_f64 : text -> option F) (flt fle : F -> F -> bool).
  Notation G := (fns checked locate parse project F parse_f64 flt fle).
  Notation cmd_ := (directive_command checked locate parse project F parse_f64 flt fle).
  Notation preprocess := (preprocess checked locate parse project F parse_f64 flt fle).
  Notation exec := (exec project F parse_f64 flt fle locate parse).
  Notation holds := (holds project F parse_f64 flt fle).
  Notation malformed := (malformed project F parse_f64 flt fle locate).
  Notation left_operand := (left_operand project).
  Notation dif := (directive_if checked project F parse_f64 flt fle).

  Lemma valueless_resolve g t s : agrees (Env g None) (defs s) -> valueless g t -> resolve checked project (defs s) [t] = Err PE7_if_unit_or_function.
  Proof.
    intros A [K|(Nc & by_ & def & from & E & D)].
    - unfold resolve, get_with_gen. rewrite K. reflexivity.
    - assert (M : meaning project (Env g None) (t_pos t) t (counter (defs s)) (counter (defs s)) (def, from)) by (eapply M_macro; [exact Nc|exact E]).
      destruct (meaning_get checked project _ _ _ _ _ _ _ _ A eq_refl M) as [b E']; [destruct def; auto|]. unfold resolve. rewrite E'. cbn [rbind].
      destruct def; try reflexivity. destruct D.
  Qed.
  Lemma read_value_end a r nl rest : solid a \/ a = [] -> (forall t, In t (a ++ r) -> t_sym t <> Newline) -> t_sym nl = Newline -> ends_there r ->
    read_value (a ++ r ++ nl :: rest) = (a, r ++ nl :: rest).
  Proof.
    intros Sa Nn N E. apply read_value_line.
    - intros t Ht. split; [destruct Sa as [[_ Sa]| ->]; [auto|destruct Ht]|apply Nn; apply in_or_app; auto].
    - destruct r as [|t r]; cbn [app]; do 2 eexists; (split; [reflexivity|]); [now rewrite N|]. cbn in E. now rewrite E.
  Qed.
  Lemma skip_ws_solid ws a r : blank ws -> solid a -> skip_ws (ws ++ a ++ r) = a ++ r.
  Proof. intros B [N S]. apply skip_ws_blank; auto. destruct a as [|t a]; [congruence|]. apply S. now left. Qed.
  Lemma blank_ends ws r : blank ws -> ws <> [] -> ends_there (ws ++ r).
  Proof. intros B N. destruct ws as [|t ws]; [congruence|]. apply B. now left. Qed.
  Lemma blank_end ws : blank ws -> ends_there ws.
  Proof. intros B. destruct ws as [|t ws]; [exact I|]. apply B. now left. Qed.

  (** [#if] up to the value of its left side. *)
  Lemma if_left s g c ws a r nl rest c1 va : left_operand g c ws a c1 va -> agrees (Env g None) (defs s) -> counter (defs s) = c ->
    (forall t, In t (ws ++ a ++ r) -> t_sym t <> Newline) -> t_sym nl = Newline -> ends_there r ->
    exists b, read_value (skip_ws (ws ++ a ++ r ++ nl :: rest)) = (a, r ++ nl :: rest) /\
      resolve checked project (defs s) a = Ok (Defs (global (defs s)) (frames (defs s)) c1, va, b) /\
      (match a with t :: _ => if sym_dec (t_sym t) (Word (bs "__has_include")) then true else false | [] => false end) = false.
  Proof.
    intros (B & Sa & H & O) A C Nn N E. destruct (resolve_operand checked project g c a c1 va s O A C) as [b Hb]. exists b.
    assert (R : read_value (skip_ws (ws ++ a ++ r ++ nl :: rest)) = (a, r ++ nl :: rest)).
    { rewrite skip_ws_solid by auto. apply read_value_end; auto. intros t Ht. apply Nn. apply in_or_app. auto. }
    assert (Hh : (match a with t :: _ => if sym_dec (t_sym t) (Word (bs "__has_include")) then true else false | [] => false end) = false).
    { destruct a as [|t a]; [reflexivity|]. destruct (sym_dec _ _) as [X|]; [destruct (H t a eq_refl X)|reflexivity]. }
    split; [exact R|]. split; [exact Hb|exact Hh].
  Qed.

  Lemma compare_operator op a b : ~ In op [bs "=="; bs "!="; bs ">"; bs ">="; bs "<"; bs "<="] -> compare F parse_f64 flt fle op a b = Err PE15_if_operator.
  Proof.
    intro H. unfold compare, among. cbn [existsb].
    repeat match goal with |- context [text_eqb ?x ?y] => destruct (text_eqb_spec x y) as [->|_]; [exfalso; apply H; cbn; tauto|] end. reflexivity.
  Qed.
  Lemma compare_types op a b : In op [bs ">"; bs ">="; bs "<"; bs "<="] -> parse_f64 a = None \/ parse_f64 b = None -> compare F parse_f64 flt fle op a b = Err PE16_if_types.
  Proof. intros [<-|[<-|[<-|[<-|[]]]]] [H|H]; unfold compare; names; cbn [among]; rewrite H; destruct (parse_f64 a); reflexivity. Qed.

  Lemma malformed_cmd g c w args e s p cmd nl rest out n cur up : malformed cur g c w args e ->
    files s = cur :: up -> agrees (Env g None) (defs s) -> counter (defs s) = c -> is_reading s = true -> t_sym nl = Newline ->
    (forall t, In t args -> t_sym t <> Newline /\ t_sym t <> Eoi) ->
    cmd_ (G n) s p cmd w (args ++ nl :: rest) out = Err e.
  Proof.
    intros M Hf A C R N H. unfold directive_command. rewrite R.
    assert (Nn : forall t, In t args -> t_sym t <> Newline) by (intros; now apply H).
    assert (Tw : forall ws x r, args = ws ++ x :: r -> t_sym x <> Newline /\ t_sym x <> Eoi) by (intros ws x r ->; apply H; apply in_or_app; cbn; auto).
    assert (Nl : is_space (t_sym nl) = false /\ ~ is_name nl /\ t_sym nl <> Eoi).
    { rewrite N. split; [reflexivity|]. split; [|discriminate]. intros [w' X]. rewrite N in X. discriminate. }
    destruct Nl as (Nl1 & Nl2 & Nl3).
    destruct M as [w args U|w args W B|w ws x r W B X NX|w ws x ws' y r W B [w' X] B' Y|ws y r B Y|ws x r B [w' X] Bi|ws x lp r e B [w' X] Bi L Q
      |args B|ws x r B X X1 X2|ws q path B Q|ws q path q' ws' y r B Q Np B' Y|ws q path q' ws' B Q Np B' L
      |args B|ws x ws' B X Hx B' Nc Ng|ws x y a ws' B S Hx B'|ws x r B X Hx V E|ws a r c1 L E|ws a wa op wo c1 va L V (Ba & Na & So) Bo
      |ws a wa op wo x r c1 va L V (Ba & Na & So) Bo No X Vx E|ws a wa op wo b r c1 va c2 vb L V (Ba & Na & So) Bo No Sb Ob E Op
      |ws a wa op wo b r c1 va c2 vb L V (Ba & Na & So) Bo No Sb Ob E Op Ty|ws a wa op wo b wb y r c1 va c2 vb res L V (Ba & Na & So) Bo No Sb Ob Bb Nb Y Cm].
    - repeat match goal with |- context [text_eqb ?x ?y] => destruct (text_eqb_spec x y) as [->|_]; [exfalso; apply U; unfold directive_name; tauto|] end. reflexivity.
    - assert (X : next_word (args ++ nl :: rest) = Err PE3_expected_ident) by (apply next_word_bad; auto).
      destruct W as [<-|[<-|[<-|[<-|[]]]]]; names; cbn [andb]; unfold directive_define, directive_undef, directive_ifdef; rewrite X; reflexivity.
    - assert (Y : next_word ((ws ++ x :: r) ++ nl :: rest) = Err PE3_expected_ident).
      { rewrite <- app_assoc. cbn [app]. apply next_word_bad; auto. now apply (Tw ws x r). }
      destruct W as [<-|[<-|[<-|[<-|[]]]]]; names; cbn [andb]; unfold directive_define, directive_undef, directive_ifdef; rewrite Y; reflexivity.
    - assert (Z : next_word ((ws ++ x :: ws' ++ y :: r) ++ nl :: rest) = Ok (x, (ws' ++ y :: r) ++ nl :: rest)).
      { rewrite <- app_assoc. cbn [app]. apply (next_word_blank ws x w'); auto. }
      assert (Z' : expect_nothing ((ws' ++ y :: r) ++ nl :: rest) = Err PE1_unexpected_token).
      { rewrite <- app_assoc. cbn [app]. destruct (H y) as [H1 H2]; [apply in_or_app; right; right; apply in_or_app; right; now left|]. apply expect_bad; auto. }
      destruct W as [<-|[<-|[<-|[]]]]; names; cbn [andb]; unfold directive_undef, directive_ifdef; rewrite Z; cbn [rbind]; rewrite Z'; reflexivity.
    - names. cbn [andb orb]. rewrite <- app_assoc. cbn [app]. destruct (Tw ws y r eq_refl) as [H1 H2]. rewrite expect_bad by auto. reflexivity.
    - names. cbn [andb]. unfold directive_define. rewrite <- app_assoc. cbn [app]. rewrite (next_word_blank ws x w') by auto. cbn [rbind].
      destruct r; cbn [app]; rewrite Bi; reflexivity.
    - names. cbn [andb]. unfold directive_define. rewrite <- app_assoc. cbn [app]. rewrite (next_word_blank ws x w') by auto. cbn [rbind]. rewrite Bi.
      destruct (d_remove (tok_text x) (defs s)) as [old d]. rewrite L.
      rewrite (read_params_bad _ _ _ Q) by (auto; intros t Ht; apply H; apply in_or_app; right; cbn; auto). reflexivity.
    - names. cbn [andb]. unfold directive_include, include_path. rewrite skip_ws_at by auto. rewrite N. reflexivity.
    - names. cbn [andb]. unfold directive_include, include_path. rewrite <- app_assoc. cbn [app]. rewrite skip_ws_at by auto. destruct (t_sym x); try reflexivity; congruence.
    - names. cbn [andb]. unfold directive_include, include_path. rewrite <- app_assoc. cbn [app].
      assert (Hp : forall t, In t path -> t_sym t <> Newline /\ t_sym t <> Eoi) by (intros t Ht; apply H; apply in_or_app; right; cbn; auto).
      destruct Q as [[Q Np]|[Q Np]]; (rewrite skip_ws_at by (auto; now rewrite Q)); rewrite Q; rewrite read_path_open; auto; discriminate.
    - names. cbn [andb]. unfold directive_include, include_path. rewrite <- app_assoc. cbn [app]. rewrite <- app_assoc. cbn [app]. rewrite <- app_assoc. cbn [app].
      assert (Hp : forall t, In t path -> t_sym t <> Newline /\ t_sym t <> Eoi) by (intros t Ht; apply H; apply in_or_app; right; right; apply in_or_app; auto).
      assert (Hy : t_sym y <> Newline /\ t_sym y <> Eoi) by (apply H; apply in_or_app; right; right; apply in_or_app; right; right; apply in_or_app; right; now left).
      destruct Hy as [Hy1 Hy2].
      destruct Q as [[Q Q']|[Q Q']]; (rewrite skip_ws_at by (auto; now rewrite Q)); rewrite Q; rewrite read_path_closed; auto;
        try (intros t Ht; split; [rewrite <- Q'; auto|auto]); cbn [rbind]; rewrite expect_bad by auto; reflexivity.
    - names. cbn [andb]. unfold directive_include, include_path. rewrite <- app_assoc. cbn [app]. rewrite <- app_assoc. cbn [app].
      assert (Hp : forall t, In t path -> t_sym t <> Newline /\ t_sym t <> Eoi) by (intros t Ht; apply H; apply in_or_app; right; right; apply in_or_app; auto).
      destruct Q as [[Q Q']|[Q Q']]; (rewrite skip_ws_at by (auto; now rewrite Q)); rewrite Q; rewrite read_path_closed; auto;
        try (intros t Ht; split; [rewrite <- Q'; auto|auto]); cbn [rbind]; rewrite expect_blank by auto; rewrite Hf, L; reflexivity.
    - names. cbn [andb]. unfold directive_if. rewrite skip_ws_at by auto. cbn [read_value]. rewrite N. cbn [is_space is_newline orb resolve rbind]. reflexivity.
    - names. cbn [andb]. unfold directive_if. rewrite <- app_assoc. cbn [app]. rewrite skip_ws_at by auto.
      change (x :: ws' ++ nl :: rest) with ([x] ++ ws' ++ nl :: rest). rewrite read_value_end; auto using blank_end.
      2:{ left. split; [discriminate|]. intros t [<-|[]]. exact X. } 2:{ intros t Ht. apply Nn. apply in_or_app. auto. }
      destruct (sym_dec _ _) as [K|_]; [contradiction|]. unfold resolve. rewrite (get_undefined checked project g) by auto. cbn [rbind].
      rewrite skip_ws_at by auto. rewrite N. reflexivity.
    - names. cbn [andb]. unfold directive_if. rewrite <- !app_assoc. rewrite skip_ws_solid by auto.
      rewrite read_value_end; auto using blank_end.
      2:{ intros t Ht. apply Nn. apply in_or_app. auto. }
      destruct (sym_dec _ _) as [K|_]; [contradiction|]. unfold resolve. cbn [rbind].
      rewrite skip_ws_at by auto. rewrite N. reflexivity.
    - names. cbn [andb]. unfold directive_if. rewrite <- app_assoc. cbn [app]. rewrite skip_ws_at by auto.
      change (x :: r ++ nl :: rest) with ([x] ++ r ++ nl :: rest). rewrite read_value_end; auto.
      2:{ left. split; [discriminate|]. intros t [<-|[]]. exact X. } 2:{ intros t Ht. apply Nn. apply in_or_app. auto. }
      destruct (sym_dec _ _) as [K|_]; [contradiction|]. rewrite (valueless_resolve g) by auto. reflexivity.
    - names. cbn [andb]. rewrite <- !app_assoc. destruct (if_left s g c ws a r nl rest c1 [] L A C Nn N E) as (b & R1 & R2 & R3).
      unfold directive_if. rewrite R1, R3, R2. reflexivity.
    - names. cbn [andb]. rewrite <- !app_assoc.
      destruct (if_left s g c ws a (wa ++ op ++ wo) nl rest c1 va L A C Nn N) as (b & R1 & R2 & R3); [now apply blank_ends|].
      rewrite <- !app_assoc in R1. unfold directive_if. rewrite R1, R3, R2. cbn [rbind]. destruct va as [|v va]; [congruence|].
      rewrite skip_ws_solid by auto. rewrite read_value_end; auto using blank_end.
      2:{ intros t Ht. apply Nn. do 3 (apply in_or_app; right). auto. }
      assert (Hop : (match op ++ wo ++ nl :: rest with t :: _ => is_newline (t_sym t) | [] => false end) = false).
      { destruct op as [|o op]; [destruct So; congruence|]. cbn [app]. apply not_nl, Nn. do 3 (apply in_or_app; right). now left. }
      rewrite Hop. rewrite skip_ws_at by auto. cbn [read_value]. rewrite N. cbn [is_space is_newline orb]. destruct op; [destruct So; congruence|]. reflexivity.
    - names. cbn [andb]. rewrite <- !app_assoc. cbn [app].
      destruct (if_left s g c ws a (wa ++ op ++ wo ++ x :: r) nl rest c1 va L A C Nn N) as (b & R1 & R2 & R3); [now apply blank_ends|].
      rewrite <- !app_assoc in R1. cbn [app] in R1. unfold directive_if. rewrite R1, R3, R2. cbn [rbind]. destruct va as [|v va]; [congruence|].
      rewrite skip_ws_solid by auto.
      assert (Hop : (match op ++ wo ++ x :: r ++ nl :: rest with t :: _ => is_newline (t_sym t) | [] => false end) = false).
      { destruct op as [|o op]; [destruct So; congruence|]. cbn [app]. apply not_nl, Nn. do 3 (apply in_or_app; right). now left. }
      rewrite Hop. change (op ++ wo ++ x :: r ++ nl :: rest) with (op ++ (wo ++ (x :: r) ++ nl :: rest)). rewrite (app_assoc wo (x :: r)).
      rewrite read_value_end; auto using blank_ends.
      2:{ intros t Ht. apply Nn. do 3 (apply in_or_app; right). auto. }
      rewrite <- app_assoc. cbn [app]. rewrite skip_ws_at by auto. change (x :: r ++ nl :: rest) with ([x] ++ r ++ nl :: rest). rewrite read_value_end; auto.
      2:{ left. split; [discriminate|]. intros t [<-|[]]. exact X. } 2:{ intros t Ht. apply Nn. do 5 (apply in_or_app; right). auto. }
      rewrite (valueless_resolve g); [reflexivity| |exact Vx]. exact A.
    - names. cbn [andb]. rewrite <- !app_assoc.
      destruct (if_left s g c ws a (wa ++ op ++ wo ++ b ++ r) nl rest c1 va L A C Nn N) as (b0 & R1 & R2 & R3); [now apply blank_ends|].
      rewrite <- !app_assoc in R1. unfold directive_if. rewrite R1, R3, R2. cbn [rbind]. destruct va as [|v va]; [congruence|].
      rewrite skip_ws_solid by auto.
      assert (Hop : (match op ++ wo ++ b ++ r ++ nl :: rest with t :: _ => is_newline (t_sym t) | [] => false end) = false).
      { destruct op as [|o op]; [destruct So; congruence|]. cbn [app]. apply not_nl, Nn. do 3 (apply in_or_app; right). now left. }
      rewrite Hop. replace (wo ++ b ++ r ++ nl :: rest) with ((wo ++ b ++ r) ++ nl :: rest) by now rewrite <- !app_assoc.
      rewrite read_value_end; auto using blank_ends.
      2:{ intros t Ht. apply Nn. do 3 (apply in_or_app; right). auto. }
      rewrite <- !app_assoc. rewrite skip_ws_solid by auto. rewrite read_value_end; auto.
      2:{ intros t Ht. apply Nn. do 5 (apply in_or_app; right). auto. }
      destruct (resolve_operand checked project g c1 b c2 vb (with_defs (Defs (global (defs s)) (frames (defs s)) c1) s) Ob A eq_refl) as (b1 & E1).
      cbn [defs with_defs] in *. destruct b as [|b2 b]; [destruct Sb; congruence|]. rewrite E1. cbn [rbind]. rewrite compare_operator by auto. reflexivity.
    - names. cbn [andb]. rewrite <- !app_assoc.
      destruct (if_left s g c ws a (wa ++ op ++ wo ++ b ++ r) nl rest c1 va L A C Nn N) as (b0 & R1 & R2 & R3); [now apply blank_ends|].
      rewrite <- !app_assoc in R1. unfold directive_if. rewrite R1, R3, R2. cbn [rbind]. destruct va as [|v va]; [congruence|].
      rewrite skip_ws_solid by auto.
      assert (Hop : (match op ++ wo ++ b ++ r ++ nl :: rest with t :: _ => is_newline (t_sym t) | [] => false end) = false).
      { destruct op as [|o op]; [destruct So; congruence|]. cbn [app]. apply not_nl, Nn. do 3 (apply in_or_app; right). now left. }
      rewrite Hop. replace (wo ++ b ++ r ++ nl :: rest) with ((wo ++ b ++ r) ++ nl :: rest) by now rewrite <- !app_assoc.
      rewrite read_value_end; auto using blank_ends.
      2:{ intros t Ht. apply Nn. do 3 (apply in_or_app; right). auto. }
      rewrite <- !app_assoc. rewrite skip_ws_solid by auto. rewrite read_value_end; auto.
      2:{ intros t Ht. apply Nn. do 5 (apply in_or_app; right). auto. }
      destruct (resolve_operand checked project g c1 b c2 vb (with_defs (Defs (global (defs s)) (frames (defs s)) c1) s) Ob A eq_refl) as (b1 & E1).
      cbn [defs with_defs] in *. destruct b as [|b2 b]; [destruct Sb; congruence|]. rewrite E1. cbn [rbind]. rewrite compare_types by auto. reflexivity.
    - names. cbn [andb]. rewrite <- !app_assoc. cbn [app].
      destruct (if_left s g c ws a (wa ++ op ++ wo ++ b ++ wb ++ y :: r) nl rest c1 va L A C Nn N) as (b0 & R1 & R2 & R3); [now apply blank_ends|].
      rewrite <- !app_assoc in R1. cbn [app] in R1. unfold directive_if. rewrite R1, R3, R2. cbn [rbind]. destruct va as [|v va]; [congruence|].
      rewrite skip_ws_solid by auto.
      assert (Hop : (match op ++ wo ++ b ++ wb ++ y :: r ++ nl :: rest with t :: _ => is_newline (t_sym t) | [] => false end) = false).
      { destruct op as [|o op]; [destruct So; congruence|]. cbn [app]. apply not_nl, Nn. do 3 (apply in_or_app; right). now left. }
      rewrite Hop. replace (wo ++ b ++ wb ++ y :: r ++ nl :: rest) with ((wo ++ b ++ wb ++ y :: r) ++ nl :: rest) by now rewrite <- !app_assoc.
      rewrite read_value_end; auto using blank_ends.
      2:{ intros t Ht. apply Nn. do 3 (apply in_or_app; right). auto. }
      rewrite <- !app_assoc. rewrite skip_ws_solid by auto.
      replace (wb ++ (y :: r) ++ nl :: rest) with ((wb ++ y :: r) ++ nl :: rest) by now rewrite <- !app_assoc.
      rewrite read_value_end; auto using blank_ends.
      2:{ intros t Ht. apply Nn. do 5 (apply in_or_app; right). auto. }
      destruct (resolve_operand checked project g c1 b c2 vb (with_defs (Defs (global (defs s)) (frames (defs s)) c1) s) Ob A eq_refl) as (b1 & E1).
      cbn [defs with_defs] in *. destruct b as [|b2 b]; [destruct Sb; congruence|]. rewrite E1. cbn [rbind]. rewrite (compares_compare _ _ _ _ _ _ _ _ Cm). cbn [rbind].
      rewrite <- app_assoc. cbn [app]. destruct (H y) as [H1 H2]; [do 7 (apply in_or_app; right); now left|]. rewrite expect_bad by auto. reflexivity.
  Qed.

  Notation fails := (fails project F parse_f64 flt fle locate parse).
  Notation yields := (yields checked locate parse project F parse_f64 flt fle).
  Lemma fails_yields fs g c toks e : fails fs g c toks e -> forall s p out, files s = fs -> agrees (Env g None) (defs s) -> counter (defs s) = c ->
    is_reading s = true -> yields s p toks out (Err e).
  Proof.
    induction 1 as [cur up g c pr g1 c1 o l cmd w args rest e X D M|fs g c pr g1 c1 o l c2 more e X H _ IH|fs g c pr g1 c1 o l c2 yes m cmd ws more e X H K D B _ IH
      |cur up g c pr g1 c1 o l cmd ws q path q' ws' found other toks rest e X D B B' Q Np Lc Ps _ IH]; intros s p out Hf A C R;
      destruct (exec_run checked locate parse project F parse_f64 flt fle _ _ _ _ _ _ _ X s p Hf A C R) as (s1 & p1 & Rn & _ & A1 & C1 & Run); apply Run; clear Run;
      assert (R1 : is_reading s1 = true) by (rewrite (ran_reading _ _ Rn); exact R);
      (assert (Hf1 : files s1 = files s) by apply Rn); rewrite Hf in Hf1.
    - pose proof (args_no_newline _ _ _ _ D) as [N Ha].
      apply (line_directive_fail _ _ _ _ _ _ _ _ _ _ _ _ D s1 p1 rest _ (fun T => @Err T e)); try discriminate; auto.
      intro n. eapply malformed_cmd; eauto.
    - destruct (holds_line checked locate parse project F parse_f64 flt fle _ _ _ _ _ s1 H A1 C1 R1) as (cmd & w & args & D & Hc).
      eapply (line_directive _ _ _ _ _ _ _ _ _ _ _ _ D); [intro; apply Hc|]. apply IH; auto.
    - destruct (holds_line checked locate parse project F parse_f64 flt fle _ _ _ _ _ s1 H A1 C1 R1) as (cmd1 & w & args & D1 & Hc).
      set (s2 := opened s1 c2 cmd1 false) in *. assert (R2 : is_reading s2 = false) by reflexivity.
      destruct (skip checked locate parse project F parse_f64 flt fle yes K s2 p1 R2) as (p2 & d & Hd & _ & H2). specialize (Hd eq_refl). subst d.
      eapply (line_directive _ _ _ _ _ _ _ _ _ _ _ _ D1); [intro; apply Hc|]. apply H2.
      eapply (line_directive _ _ _ _ _ _ _ _ _ _ _ _ D).
      { intro. apply else_cmd with (i := Ifs ((ReadingElse, cmd1) :: if_stack (ifs s1)) (Some cmd)); auto; [apply (args_no_newline _ _ _ _ D)|].
        unfold flip. cbn. unfold is_reading, reading in R1. rewrite R1. reflexivity. }
      apply IH; auto.
    - pose proof (args_no_newline _ _ _ _ D) as [N Ha].
      set (s0 := if other then add_warning (WIncludeCase found) s1 else s1).
      set (s2 := add_included found (with_files (found :: files s0) s0)).
      assert (files s0 = cur :: up /\ ifs s0 = ifs s1 /\ defs s0 = defs s1) as (K1 & K2 & K3) by (subst s0; destruct other; cbn; auto).
      pose proof (include_path_line ws q path q' ws' (newline l :: rest) B Q Np Ha) as Ip.
      destruct (IH s2 (prag_child p1) (settle (settle out o) (indent l))) as [NF [n Hn]].
      { subst s2. cbn. now rewrite K1. } { subst s2. cbn. now rewrite K3. } { subst s2. cbn. now rewrite K3. }
      { unfold is_reading. subst s2. cbn. rewrite K2. exact R1. }
      split; [discriminate|]. destruct D as (Gd & Tc & wl & h & Bl & Th & El).
      destruct (good_start l rest Gd) as (t & r' & Et & Ei).
      assert (skip_ws_out s1 (line_toks l ++ rest) (settle out o) = ((h :: cmd :: ws ++ q :: path ++ q' :: ws') ++ newline l :: rest, o0 s1 l (settle out o))) as Sk.
      { apply line_start; auto. exists wl. rewrite Th. auto. }
      exists (S (S n)). rewrite file_S. unfold file. rewrite Et, Ei, <- Et. unfold line. rewrite Sk, directive_S. cbn [app].
      unfold directive. rewrite Th, Tc. unfold directive_command. rewrite R1. names. cbn [andb]. unfold directive_include. rewrite Ip. cbn [rbind].
      rewrite expect_blank by auto. rewrite Hf1, Lc, Ps. cbn [rbind]. fold s0. fold s2.
      unfold o0. rewrite R1. rewrite Hn. reflexivity.
  Qed.

  (** A malformed directive that is reached fails the file, with the diagnostic for it. *)
  Theorem C58_malformed_rejected path toks e : parse path = Ok toks -> fails [path] nothing 0 toks e ->
    exists n0, forall n, (n0 <= n)%nat -> preprocess n path = Err e.
  Proof.
    intros P Fl. pose proof (fails_yields _ _ _ _ _ Fl (init path) prag_root [] eq_refl (agrees_init path) eq_refl eq_refl) as Y.
    destruct (yields_preprocess _ _ _ _ _ _ _ _ path _ _ P Y) as [n0 Hn]. exists n0. intros n L. rewrite (Hn n L). reflexivity.
  Qed.

  (** Splitting a line. *)
  Lemma split_blank ts : exists ws r, ts = ws ++ r /\ blank ws /\ (r = [] \/ exists x r', r = x :: r' /\ black x).
  Proof.
    induction ts as [|t ts (ws & r & -> & B & H)]; [exists [], []; split; [reflexivity|]; split; [intros ? []|auto]|].
    destruct (is_space (t_sym t)) eqn:E.
    - exists (t :: ws), r. split; [reflexivity|]. split; [|exact H]. intros x [<-|Hx]; auto.
    - exists [], (t :: ws ++ r). split; [reflexivity|]. split; [intros ? []|]. right. do 2 eexists. split; [reflexivity|exact E].
  Qed.
  Lemma split_solid x ts : black x -> exists a r, x :: ts = a ++ r /\ solid a /\ ends_there r /\ exists a', a = x :: a'.
  Proof.
    revert x. induction ts as [|t ts IH]; intros x Hx.
    - exists [x], []. split; [reflexivity|]. split; [split; [discriminate|intros y [<-|[]]; exact Hx]|]. split; [exact I|eauto].
    - destruct (is_space (t_sym t)) eqn:E.
      + exists [x], (t :: ts). split; [reflexivity|]. split; [split; [discriminate|intros y [<-|[]]; exact Hx]|]. split; [exact E|eauto].
      + destruct (IH t E) as (a & r & -> & [Na Sa] & Er & _). exists (x :: a), r. split; [reflexivity|].
        split; [split; [discriminate|intros y [<-|Hy]; auto]|]. split; [exact Er|eauto].
  Qed.
  Lemma computed_dec k : computed k \/ ~ computed k.
  Proof.
    unfold computed. destruct (text_dec k (bs "__COUNTER__")); [tauto|]. destruct (text_dec k (bs "__COUNTER_RESET__")); [tauto|].
    destruct (text_dec k (bs "__FILE__")); [tauto|]. destruct (text_dec k (bs "__FILE_NAME__")); [tauto|].
    destruct (text_dec k (bs "__FILE_SHORT__")); [tauto|]. destruct (text_dec k (bs "__LINE__")); tauto.
  Qed.
  (** The value of an operand, if it has one. *)
  Lemma operand_cases g c a : solid a -> c < 65535 -> (forall t, In t a -> forall by_ at_ ps body from, g (tok_text t) = Some (by_, Func at_ ps body, from) -> ~ on_lines at_ t) ->
    (exists c1 va, operand project g c a c1 va /\ c1 <= c + 1) \/ exists t, a = [t] /\ valueless g t.
  Proof.
    intros [Na _] Hc Hl. destruct a as [|t [|t2 a]]; [congruence| |left; exists c; eexists; split; [apply O_long|lia]].
    destruct (computed_dec (tok_text t)) as [K|K].
    - destruct K as [K|[K|[K|[K|[K|K]]]]].
      + left. exists (c + 1). eexists. split; [eapply O_macro; apply M_counter; auto|lia].
      + right. exists t. split; [reflexivity|]. now left.
      + left. exists c. eexists. split; [eapply O_macro; apply M_file; auto|lia].
      + left. exists c. eexists. split; [eapply O_macro; apply M_file_name; auto|lia].
      + left. exists c. eexists. split; [eapply O_macro; apply M_file_short; auto|lia].
      + left. exists c. eexists. split; [eapply O_macro; apply M_line; auto|lia].
    - destruct (g (tok_text t)) as [[[by_ def] from]|] eqn:E.
      + destruct def as [at_ ps body|body| |].
        * right. exists t. split; [reflexivity|]. right. split; [exact K|]. do 3 eexists. split; [exact E|]. eapply Hl; [now left|exact E].
        * left. exists c, body. split; [eapply O_macro, M_macro; [exact K|exact E]|lia].
        * right. exists t. split; [reflexivity|]. right. split; [exact K|]. do 3 eexists. split; [exact E|exact I].
        * right. exists t. split; [reflexivity|]. right. split; [exact K|]. do 3 eexists. split; [exact E|exact I].
      + left. exists c. eexists. split; [apply O_plain; auto|lia].
  Qed.
  Lemma compares_cases op a b : (exists r, compares F parse_f64 flt fle op a b r) \/ ~ In op [bs "=="; bs "!="; bs ">"; bs ">="; bs "<"; bs "<="] \/
    (In op [bs ">"; bs ">="; bs "<"; bs "<="] /\ (parse_f64 a = None \/ parse_f64 b = None)).
  Proof.
    destruct (in_dec text_dec op [bs "=="; bs "!="; bs ">"; bs ">="; bs "<"; bs "<="]) as [H|H]; [|auto].
    destruct (parse_f64 a) as [x|] eqn:Ea, (parse_f64 b) as [y|] eqn:Eb;
      destruct H as [<-|[<-|[<-|[<-|[<-|[<-|[]]]]]]];
      try (left; eexists; econstructor; eassumption); right; right; (split; [cbn; tauto|auto]).
  Qed.

  (** Every line that opens a block is a condition that is true or false, or is malformed. (Left out: [__has_include], which is rejected
      unless a pragma allows it; a counter at its end; and the use of a function-like macro on the lines of its own body.) *)
  Theorem C58_condition_or_malformed cur g c l cmd w args : is_directive l cmd w args -> opens w -> c < 65534 ->
    (forall ws t r, args = ws ++ t :: r -> blank ws -> t_sym t <> Word (bs "__has_include")) ->
    (forall t, In t args -> forall by_ at_ ps body from, g (tok_text t) = Some (by_, Func at_ ps body, from) -> ~ on_lines at_ t) ->
    (exists c' b, holds g c l c' b) \/ exists e, malformed cur g c w args e.
  Proof.
    intros D O Hc Hh Hl. destruct (split_blank args) as (ws & r & -> & B & Hr).
    assert (Vis : forall k, exists b, b = true <-> visible (Env g None) k).
    { intro k. unfold visible, lookup. cbn [inside globals]. destruct (computed_dec k) as [K|K]; [exists true; tauto|].
      destruct (g k) as [m|]; [exists true; split; [intros _; right; split; [discriminate|exact I]|reflexivity]|exists false].
      split; [discriminate|]. intros [X|[X _]]; [contradiction|now destruct X]. }
    destruct O as [->|O].
    - destruct Hr as [->|(x & r' & -> & Hx)].
      { right. eexists. apply B_if_nothing. now rewrite app_nil_r. }
      destruct (split_solid x r' Hx) as (a & r & Ea & Sa & Er & a' & Ha). rewrite Ea in *.
      assert (Hha : forall t q, a = t :: q -> t_sym t <> Word (bs "__has_include")).
      { intros t q E. apply (Hh ws t (q ++ r)); [now rewrite E|exact B]. }
      destruct (operand_cases g c a Sa ltac:(lia)) as [(c1 & va & Oa & Lc)|(t & Et & V)].
      { intros t Ht. apply Hl. apply in_or_app. right. apply in_or_app. auto. }
      2:{ right. subst a. injection Et as E1 E2. subst t a'. eexists. cbn [app]. apply B_if_valueless; auto. eapply Hha; reflexivity. }
      assert (Lo : left_operand g c ws a c1 va) by (repeat split; auto; apply Sa).
      destruct va as [|v0 va]; [right; eexists; eapply B_if_empty; eauto|]. set (va' := v0 :: va) in *. assert (Nv : va' <> []) by discriminate. clearbody va'.
      destruct (split_blank r) as (wa & r2 & -> & Ba & [->|(o0_ & r2' & -> & Ho)]).
      + rewrite app_nil_r in *. subst a. destruct a' as [|y a'].
        * cbn [app] in *. inversion Oa; subst.
          -- left. do 2 eexists. eapply H_if; eauto.
          -- right. eexists. eapply B_if_undefined; eauto.
        * right. eexists. eapply B_if_text; eauto.
      + assert (Nwa : wa <> []). { intros ->. cbn in Er. unfold black in Ho. congruence. }
        destruct (split_solid o0_ r2' Ho) as (op & r3 & Eo & So & Er3 & _). rewrite Eo in *.
        assert (Opr : operator wa op) by (repeat split; auto; apply So).
        destruct (split_blank r3) as (wo & r4 & -> & Bo & [->|(y & r4' & -> & Hy)]).
        { right. rewrite app_nil_r in *. eexists. eapply B_if_half; eauto. }
        assert (Nwo : wo <> []). { intros ->. cbn in Er3. unfold black in Hy. congruence. }
        destruct (split_solid y r4' Hy) as (b & r5 & Eb & Sb & Er5 & b' & Hb). rewrite Eb in *.
        destruct (operand_cases g c1 b Sb ltac:(lia)) as [(c2 & vb & Ob & _)|(t & Et & V)].
        { intros t Ht. apply Hl. do 5 (apply in_or_app; right). apply in_or_app. auto. }
        2:{ right. subst b. injection Et as E1 E2. subst t b'. cbn [app]. eexists. eapply B_if_valueless_right; eauto. }
        destruct (compares_cases (toks_text op) (toks_text va') (toks_text vb)) as [(res & Cm)|[Nop|[Iop Ty]]].
        * destruct (split_blank r5) as (wb & r6 & -> & Bb & [->|(z & r6' & -> & Hz)]).
          -- left. rewrite app_nil_r in *. exists c2, res. eapply H_compare; eauto. destruct a as [|t q]; [exact I|]. eapply Hha; reflexivity.
          -- right. eexists. eapply B_if_more; eauto. intros ->. cbn in Er5. unfold black in Hz. congruence.
        * right. eexists. eapply B_if_operator; eauto.
        * right. eexists. eapply B_if_types; eauto.
    - assert (W : In w [bs "ifdef"; bs "ifndef"]) by (destruct O as [-> | ->]; cbn; auto).
      destruct Hr as [->|(x & r' & -> & Hx)].
      { right. rewrite app_nil_r in *. eexists. apply B_no_name; [cbn; cbn in W; tauto|exact B]. }
      assert (Wx : is_name x \/ ~ is_name x).
      { unfold is_name. destruct (t_sym x); try (right; intros [? X]; discriminate). left. eauto. }
      destruct Wx as [[w' Ex]|Nx]; [|right; eexists; apply B_not_name; [cbn; cbn in W; tauto|exact B|exact Hx|exact Nx]].
      destruct (split_blank r') as (ws' & r2 & -> & B' & [->|(y & r2' & -> & Hy)]).
      2:{ right. eexists. apply B_more; [cbn; cbn in W; tauto|exact B|eexists; eauto|exact B'|exact Hy]. }
      rewrite app_nil_r in *. left. destruct (Vis w') as [b Hb]. destruct O as [-> | ->].
      + exists c, b. eapply H_ifdef; eauto.
      + exists c, (negb b). eapply H_ifndef; eauto. destruct b; cbn; [split; [discriminate|intros X; destruct X; now apply Hb]|].
        split; [intros _ X; apply Hb in X; discriminate|reflexivity].
  Qed.
End Reject.
Print Assumptions C58_malformed_rejected.
Print Assumptions C58_condition_or_malformed.

(** A case: [#define A 1], [#ifdef A], and inside it [#if B] with no macro [B]. *)
Definition at0 := Pos (LC 0 0 0) (LC 0 0 0) [].
Definition tk (s : sym) : token := Tok s at0.
Definition ln (l : list sym) : pline := Line (map tk l) (tk Newline).
Definition demo_toks : list token :=
  line_toks (ln [Hash; Word (bs "define"); Space; Word (bs "A"); Space; Digit 1]) ++
  line_toks (ln [Hash; Word (bs "ifdef"); Space; Word (bs "A")]) ++
  line_toks (ln [Tab; Hash; Word (bs "if"); Space; Word (bs "B")]) ++ [tk Eoi].
Lemma good_ln l : (forall s, In s l -> s <> Newline /\ s <> Eoi) -> good (ln l).
Proof. intro H. split; [reflexivity|]. intros t Ht. cbn in Ht. apply in_map_iff in Ht as (s & <- & Hs). now apply H. Qed.
Ltac tame := apply good_ln; intros s H; repeat (destruct H as [<-|H]; [split; discriminate|]); destruct H.
Ltac blanks := let t := fresh in let H := fresh in intros t H; repeat (destruct H as [<-|H]; [reflexivity|]); destruct H.
Example C58_demo_meets_hypotheses project F parse_f64 flt fle locate parse :
  fails project F parse_f64 flt fle locate parse [bs "config.cpp"] nothing 0 demo_toks PE8_if_undefined.
Proof.
  unfold demo_toks.
  set (l1 := ln [Hash; Word (bs "define"); Space; Word (bs "A"); Space; Digit 1]). set (l2 := ln [Hash; Word (bs "ifdef"); Space; Word (bs "A")]).
  set (l3 := ln [Tab; Hash; Word (bs "if"); Space; Word (bs "B")]).
  set (g := update nothing (bs "A") (Some (tk (Word (bs "A")), Value [tk (Digit 1)], FromFile [bs "config.cpp"]))).
  change (line_toks l1 ++ line_toks l2 ++ line_toks l3 ++ [tk Eoi]) with (source_of (Then l1 Done) ++ line_toks l2 ++ line_toks l3 ++ [tk Eoi]).
  apply (Fail_if _ _ _ _ _ _ _ _ _ _ (Then l1 Done) g 0 [] l2 0 _ _).
  - apply (E_define project F parse_f64 flt fle locate parse _ _ _ l1 (tk (Word (bs "define"))) [tk Space; tk (Word (bs "A")); tk Space; tk (Digit 1)]
      (tk (Word (bs "A"))) (Value [tk (Digit 1)]) Done _ _ []).
    + split; [tame|]. split; [reflexivity|]. exists [], (tk Hash). split; [blanks|]. split; reflexivity.
    + apply (D_value [tk Space] (tk (Word (bs "A"))) (bs "A") (tk Space) [] [tk (Digit 1)]); try reflexivity; try blanks.
      intros (a & t & Ha & Ht). destruct a as [|? [|? ?]]; [|discriminate|discriminate]. injection Ha as <-. discriminate.
    + reflexivity.
    + apply E_done.
  - apply (H_ifdef project F parse_f64 flt fle g 0 l2 (tk (Word (bs "ifdef"))) [tk Space] (tk (Word (bs "A"))) (bs "A") [] true); try blanks; try reflexivity.
    + split; [tame|]. split; [reflexivity|]. exists [], (tk Hash). split; [blanks|]. split; reflexivity.
    + split; [|reflexivity]. intros _. right. split; [discriminate|exact I].
  - apply (Fail_here project F parse_f64 flt fle locate parse _ _ _ _ Done g 0 [] l3 (tk (Word (bs "if"))) (bs "if") [tk Space; tk (Word (bs "B"))] [tk Eoi]).
    + apply E_done.
    + split; [tame|]. split; [reflexivity|]. exists [tk Tab], (tk Hash). split; [blanks|]. split; reflexivity.
    + apply (B_if_undefined project F parse_f64 flt fle locate _ _ _ [tk Space] (tk (Word (bs "B"))) []); try blanks; try reflexivity; try discriminate.
      intros H. unfold computed in H. cbn in H. repeat (destruct H as [H|H]; [discriminate H|]). discriminate H.
Qed.
