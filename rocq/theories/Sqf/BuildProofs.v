(** A script that was read compiles, unless it is too large: lemmas for C83. *)
From Coq Require Import String.
From Verif Require Import Base.Tactics Base.Bytes Base.Ascii Base.Text Io.Spec Preproc.Model Preproc.LexModel Workspace.ProcessedModel Workspace.ProcessedProofs Workspace.Spec
  Sqf.Ast Sqf.CompileModel Sqf.CompileSpec Sqf.CompileProofs Sqf.SerializeSpec Sqf.TypedProofs.
From Verif Require Workspace.Props Sqf.OptimizeModel Sqf.OptimizeProofs.
Local Open Scope N_scope.
Local Open Scope list_scope.

(** The compiler went on, or something was too large for it; no panic and no name it refuses. *)
Definition fair {A} (r : outcome A) (P : A -> Prop) : Prop :=
  match r with Ok a => P a | ListTooLong => True | InvalidName _ | Panic => False end.
Lemma fair_bind {A B} (r : outcome A) (k : A -> outcome B) P Q : fair r P -> (forall a, P a -> fair (k a) Q) -> fair (obind r k) Q.
Proof. destruct r; cbn; auto. Qed.
Lemma fair_impl {A} (r : outcome A) (P Q : A -> Prop) : fair r P -> (forall a, P a -> Q a) -> fair r Q.
Proof. destruct r; cbn; auto. Qed.

(** ** Trees the compiler can compile, over a text of [n] characters *)
Definition command (x : text) : Prop := is_valid_command (to_ascii_lower x) = true.
Inductive sound (n : N) : expr -> Prop :=
| so_code : forall c s sp, fst sp <= snd sp -> Forall (sound_stmt n) c -> sound n (ECode c s sp)
| so_string : forall s sp w, is_text s -> sound n (EString s sp w)
| so_number : forall x sp, x < 2 ^ 32 -> sound n (ENumber x sp)
| so_bool : forall b sp, sound n (EBool b sp)
| so_array : forall l sp, N.of_nat (length l) < 2 ^ 16 -> (l <> [] -> fst sp < n) -> Forall (sound n) l -> sound n (EArray l sp)
| so_consumable : forall l sp, Forall (sound n) l -> Forall (fun e => OptimizeModel.is_constant e = Some true) l -> sound n (EConsumable l sp)
| so_nular : forall x sp, command x -> fst sp < n -> sound n (ENular x sp)
| so_unary : forall u e sp, command (unary_str u) -> fst sp < n -> sound n e -> sound n (EUnary u e sp)
| so_binary : forall b e1 e2 sp, command (binary_str b) -> fst sp < n -> sound n e1 -> sound n e2 -> sound n (EBinary b e1 e2 sp)
| so_variable : forall x sp, command x -> fst sp < n -> sound n (EVar x sp)
with sound_stmt (n : N) : stmt -> Prop :=
| so_global : forall x e sp, command x -> fst sp < n -> sound n e -> sound_stmt n (SGlobal x e sp)
| so_local : forall x e sp, command x -> fst sp < n -> sound n e -> sound_stmt n (SLocal x e sp)
| so_expr : forall e sp, sound n e -> sound_stmt n (SExpr e sp).

Section Compile.
  Context (read : text -> option text) (out : list output) (p : processed).
  Hypothesis made : new read out = Done p.
  Hypothesis few : N.of_nat (length (sources p)) <= 2 ^ 8.
  Notation n := (chars (o_text p)).

  Lemma location_fair sp : fst sp < n -> fair (location_to_source p sp) (fun _ => True).
  Proof using made few.
    intro H. destruct (Workspace.Props.C33_every_character_has_a_writer read out p _ made H) as (o & before & piece & W & I).
    destruct (Workspace.Props.C33_mapping_is_the_writer read out p o before piece _ made W I) as (m & content & after & M & _ & M2 & _ & M4 & _).
    unfold location_to_source. rewrite M, M2.
    pose proof (position_spec (p_path (t_pos (item_token o))) (sources p)) as Ps. destruct (position _ (sources p)) as [i|].
    - destruct Ps as (c & Ps). assert (i < length (sources p))%nat by (apply nth_error_Some; congruence).
      replace (N.of_nat i <? 2 ^ 8) with true by (symmetry; apply N.ltb_lt; lia). exact Logic.I.
    - exfalso. apply Ps. apply nth_error_In in M4. change (p_path (t_pos (item_token o))) with (fst (p_path (t_pos (item_token o)), content)).
      now apply in_map.
  Qed.
  Lemma add_fair {A} f (l : list A) x : fair (add_or_get f l x) (fun _ => True).
  Proof. unfold add_or_get. destruct (index_of f l x) as [j|]; [destruct (j <? 2 ^ 16)|destruct (_ <? _)]; exact Logic.I. Qed.
  Lemma add_constant_fair k c : fair (add_constant k c) (fun _ => True).
  Proof. unfold add_constant. eapply fair_bind; [apply add_fair|]. intros [i ks] _. exact Logic.I. Qed.
  Lemma normalize_fair x : command x -> fair (normalize x) (fun _ => True).
  Proof. unfold command, normalize. intros ->. exact Logic.I. Qed.
  Lemma add_name_fair x c : command x -> fair (add_name x c) (fun _ => True).
  Proof. intro H. unfold add_name. eapply fair_bind; [now apply normalize_fair|]. intros y _. eapply fair_bind; [apply add_fair|]. intros [i ks] _. exact Logic.I. Qed.
  Lemma named_fair f x sp c : command x -> fst sp < n -> fair (named p f x sp c) (fun _ => True).
  Proof using made few.
    intros H L. unfold named. eapply fair_bind; [now apply add_name_fair|]. intros [i c'] _. eapply fair_bind; [now apply location_fair|]. intros si _. exact Logic.I.
  Qed.
  Lemma each_fair {A B} (f : A -> ctx -> outcome (B * ctx)) l : Forall (fun x => forall c, fair (f x c) (fun _ => True)) l ->
    forall c, fair (each f l c) (fun _ => True).
  Proof.
    induction 1 as [|x l Hx _ IH]; intro c; cbn [each]; [exact Logic.I|]. eapply fair_bind; [apply Hx|]. intros [y c'] _.
    eapply fair_bind; [apply IH|]. intros [ys c''] _. exact Logic.I.
  Qed.

  (** A constant that can be pushed. *)
  Definition pushable (k : constant) : Prop := forall c, fair (push_constant k c) (fun _ => True).
  Definition const_fair (e : expr) : Prop := sound n e -> forall c, fair (compile_constant p e c) (fun r =>
    match fst r with Some k => pushable k | None => OptimizeModel.is_constant e <> Some true /\ (forall l sp, e <> EConsumable l sp) end).
  Definition instr_fair (e : expr) : Prop := sound n e -> forall c, fair (compile_instructions p e c) (fun _ => True).
  Definition both_fair (e : expr) : Prop := const_fair e /\ instr_fair e.
  Definition stmt_fair (s : stmt) : Prop := sound_stmt n s -> forall c, fair (comp_stmt p s c) (fun _ => True).

  Lemma pushable_one k : (forall l, k <> KArray l) -> pushable k.
  Proof.
    intros H c. destruct k; try (cbn [push_constant]; eapply fair_bind; [apply add_constant_fair|]; intros [i c'] _; exact Logic.I). exfalso. eapply H. reflexivity.
  Qed.
  Lemma pushable_array l : N.of_nat (length l) < 2 ^ 16 -> Forall pushable l -> pushable (KArray l).
  Proof.
    intros L F c. cbn [push_constant]. eapply fair_bind; [apply each_fair; exact F|]. intros [is c'] _.
    replace (N.of_nat (length l) <? 2 ^ 16) with true by (symmetry; apply N.ltb_lt; exact L). exact Logic.I.
  Qed.
  Lemma each_opt_fair l : Forall const_fair l -> Forall (sound n) l -> forall c, fair (each_opt (compile_constant p) l c) (fun r =>
    match fst r with Some ks => length ks = length l /\ Forall pushable ks | None => ~ Forall (fun e => OptimizeModel.is_constant e = Some true) l end).
  Proof.
    induction 1 as [|e l He _ IH]; intros S c; cbn [each_opt]; [cbn; split; [reflexivity|constructor]|].
    inversion S as [|? ? S1 S2]; subst. eapply fair_bind; [apply (He S1)|]. intros [[k|] c'] Hk; cbn [fst] in Hk.
    - eapply fair_bind; [apply (IH S2)|]. intros [[ks|] c''] Hs; cbn [fst option_map] in *; cbn [fair fst].
      + destruct Hs as [Hl Hs]. split; [cbn; lia|]. now constructor.
      + intro X. apply Forall_inv_tail in X. contradiction.
    - cbn [fair fst]. intro X. apply Forall_inv in X. destruct Hk. contradiction.
  Qed.
  Lemma all_constant l : OptimizeModel.all_opt OptimizeModel.is_constant l = Some true <-> Forall (fun e => OptimizeModel.is_constant e = Some true) l.
  Proof.
    induction l as [|e l IH]; [split; [constructor|reflexivity]|]. rewrite OptimizeProofs.all_opt_cons. split.
    - destruct (OptimizeModel.is_constant e) as [[|]|] eqn:E; try discriminate. intro H. constructor; [exact E|now apply IH].
    - intro H. inversion H as [|? ? H1 H2]; subst. rewrite H1. now apply IH.
  Qed.

  (** An expression that is constant is pushed; any other is one of the cases given. *)
  Lemma instr_fair_of e : const_fair e ->
    (sound n e -> OptimizeModel.is_constant e <> Some true -> (forall l sp, e <> EConsumable l sp) -> forall c, fair (
          match e with
          | EArray l sp =>
              if N.of_nat (length l) <? 2 ^ 16 then
                do (is, c) <- each (compile_instructions p) l c ;;
                do si <- location_to_source p sp ;;
                Ok (concat is ++ [MakeArray (N.of_nat (length l)) si], c)
              else ListTooLong
          | ENular x sp => named p CallNular x sp c
          | EUnary u e sp =>
              do (is, c) <- compile_instructions p e c ;; do (js, c) <- named p CallUnary (unary_str u) sp c ;; Ok (is ++ js, c)
          | EBinary b e1 e2 sp =>
              do (is, c) <- compile_instructions p e1 c ;; do (js, c) <- compile_instructions p e2 c ;;
              do (ks, c) <- named p CallBinary (binary_str b) sp c ;; Ok (is ++ js ++ ks, c)
          | EVar x sp => named p GetVariable x sp c
          | EConsumable _ _ | ECode _ _ _ | EString _ _ _ | ENumber _ _ | EBool _ _ => Panic
          end) (fun _ => True)) -> both_fair e.
  Proof.
    intros H H2. split; [exact H|]. intros S c. rewrite instr_of_const. eapply fair_bind; [apply (H S)|]. intros [[k|] c'] Hk; cbn [fst] in Hk.
    - apply Hk.
    - destruct Hk. now apply H2.
  Qed.

  Lemma compile_fair : (forall e, both_fair e) /\ (forall s, stmt_fair s).
  Proof using made few.
    apply tree_ind.
    - intros c s sp F. apply instr_fair_of; [|intros _ X; exfalso; now apply X].
      intros S c0. inversion S as [? ? ? L Fs| | | | | | | | |]; subst. rewrite const_code. eapply fair_bind.
      { apply each_fair. rewrite Forall_forall in F, Fs |- *. intros x Hx. apply (F x Hx (Fs x Hx)). }
      intros [is c1] _. unfold block_pointer. rewrite (extract_spec p _ _ L). cbn [obind fair fst]. apply pushable_one. discriminate.
    - intros s sp w. apply instr_fair_of; [|intros _ X; exfalso; now apply X]. intros _ c. apply (pushable_one (KString s)). discriminate.
    - intros x sp. apply instr_fair_of; [|intros _ X; exfalso; now apply X]. intros _ c. apply (pushable_one (KScalar x)). discriminate.
    - intros b sp. apply instr_fair_of; [|intros _ X; exfalso; now apply X]. intros _ c. apply (pushable_one (KBool b)). discriminate.
    - intros l sp F. apply instr_fair_of.
      + intros S c. inversion S as [| | | |? ? L P Fs| | | | |]; subst. rewrite const_array. eapply fair_bind.
        { apply each_opt_fair; [eapply Forall_impl; [|exact F]; intros a [Ha _]; exact Ha|exact Fs]. }
        intros [[ks|] c1] Hk; cbn [fst] in Hk; cbn [option_map fair fst].
        * destruct Hk as [Hl Hk]. apply pushable_array; [rewrite Hl; exact L|exact Hk].
        * split; [|discriminate]. change (OptimizeModel.all_opt OptimizeModel.is_constant l <> Some true). rewrite all_constant. exact Hk.
      + intros S X _ c. inversion S as [| | | |? ? L P Fs| | | | |]; subst.
        replace (N.of_nat (length l) <? 2 ^ 16) with true by (symmetry; apply N.ltb_lt; exact L). eapply fair_bind.
        { apply each_fair. rewrite Forall_forall in F, Fs |- *. intros x Hx. apply (proj2 (F x Hx) (Fs x Hx)). }
        intros [is c1] _. eapply fair_bind; [apply location_fair, P; intros ->; now apply X|]. intros si _. exact Logic.I.
    - intros l sp F. apply instr_fair_of; [|intros _ _ X; exfalso; eapply X; reflexivity].
      intros S c. inversion S as [| | | | |? ? Fs Fc| | | |]; subst. rewrite const_consumable. eapply fair_bind.
      { apply each_opt_fair; [eapply Forall_impl; [|exact F]; intros a [Ha _]; exact Ha|exact Fs]. }
      intros [[ks|] c1] Hk; cbn [fst] in Hk; cbn [option_map fair fst]; [|contradiction]. apply pushable_one. discriminate.
    - intros x sp. apply instr_fair_of.
      + intros S c. inversion S as [| | | | | |? ? V L| | |]; subst. rewrite const_nular. destruct (is_constant_command x) eqn:E.
        * eapply fair_bind; [now apply normalize_fair|]. intros y _. cbn [fair fst]. apply pushable_one. discriminate.
        * cbn [fair fst]. split; [|discriminate]. cbn [OptimizeModel.is_constant]. rewrite E. discriminate.
      + intros S _ _ c. inversion S as [| | | | | |? ? V L| | |]; subst. now apply named_fair.
    - intros u e sp [_ He]. apply instr_fair_of; [intros _ c; split; discriminate|]. intros S _ _ c. inversion S as [| | | | | | |? ? ? V L S1| |]; subst.
      eapply fair_bind; [apply (He S1)|]. intros [is c1] _. eapply fair_bind; [now apply named_fair|]. intros [js c2] _. exact Logic.I.
    - intros b e1 e2 sp [_ H1] [_ H2]. apply instr_fair_of; [intros _ c; split; discriminate|]. intros S _ _ c. inversion S as [| | | | | | | |? ? ? ? V L S1 S2|]; subst.
      eapply fair_bind; [apply (H1 S1)|]. intros [is c1] _. eapply fair_bind; [apply (H2 S2)|]. intros [js c2] _.
      eapply fair_bind; [now apply named_fair|]. intros [ks c3] _. exact Logic.I.
    - intros x sp. apply instr_fair_of; [intros _ c; split; discriminate|]. intros S _ _ c. inversion S; subst. now apply named_fair.
    - intros x e sp [_ He] S c. inversion S as [? ? ? V L S1| |]; subst. rewrite stmt_global. eapply fair_bind; [apply (He S1)|]. intros [is c1] _.
      eapply fair_bind; [now apply named_fair|]. intros [js c2] _. exact Logic.I.
    - intros x e sp [_ He] S c. inversion S as [|? ? ? V L S1|]; subst. rewrite stmt_local. eapply fair_bind; [apply (He S1)|]. intros [is c1] _.
      eapply fair_bind; [now apply named_fair|]. intros [js c2] _. exact Logic.I.
    - intros e sp [_ He] S c. inversion S; subst. rewrite stmt_plain. eapply fair_bind; [apply He; assumption|]. intros [is c1] _. exact Logic.I.
  Qed.
  Lemma script_fair virtual s : Forall (sound_stmt n) (content s) -> fair (compile p virtual s) (fun _ => True).
  Proof using made few.
    intros F. unfold compile. eapply fair_bind.
    { apply each_fair. eapply Forall_impl; [|exact F]. intros a Ha. apply (proj2 compile_fair a Ha). }
    intros [is c] _. eapply fair_bind; [apply add_constant_fair|]. intros [i c'] _. exact Logic.I.
  Qed.
End Compile.

(** ** Sound trees are typed *)
Lemma is_in_chars l x : is_in l x = true -> exists i, In i l /\ to_ascii_lower i = to_ascii_lower x.
Proof.
  unfold is_in. rewrite existsb_exists. intros (i & I & E). exists i. split; [exact I|]. unfold eq_ignore_case in E. now apply same_text_spec in E.
Qed.
Lemma lower_is_ascii x : is_ascii (to_ascii_lower x) = is_ascii x.
Proof.
  unfold is_ascii, to_ascii_lower. induction x as [|c x IH]; [reflexivity|]. cbn [map forallb]. rewrite IH. f_equal.
  unfold lower_char. destruct ((65 <=? c) && (c <=? 90)) eqn:E; lia.
Qed.
Lemma ascii_is_text x : is_ascii x = true -> is_text x.
Proof. unfold is_ascii, is_text. rewrite forallb_forall, Forall_forall. intros H c I. specialize (H c I). unfold is_scalar. lia. Qed.
Lemma command_text x : command x -> is_text x.
Proof.
  unfold command, is_valid_command. intro H. apply ascii_is_text. rewrite <- lower_is_ascii. apply orb_prop in H as [H|H].
  - unfold is_valid_name, is_ascii in *. rewrite forallb_forall in H |- *. intros c I. specialize (H c I). unfold is_name_char in H. lia.
  - apply is_in_chars in H as (i & I & E). rewrite <- lower_is_ascii, <- E, lower_is_ascii. revert i I E. 
    assert (Forall (fun i => is_ascii i = true) operators) as F by (repeat constructor). rewrite Forall_forall in F. auto.
Qed.
Lemma sound_typed size : (forall e, sound size e -> typed_expr e) /\ (forall s, sound_stmt size s -> typed_stmt s).
Proof.
  apply tree_ind; intros; match goal with H : sound _ _ |- _ => inversion H; subst | H : sound_stmt _ _ |- _ => inversion H; subst end;
    constructor; auto using command_text.
  all: try match goal with F : Forall (fun e => sound _ e -> _) ?l, G : Forall (sound _) ?l |- _ => rewrite Forall_forall in F, G |- *; auto end.
  - match goal with F : Forall _ c, G : Forall _ c |- _ => rewrite Forall_forall in F, G |- *; auto end.
  - destruct c; cbn in *; auto using command_text.
  - destruct c; cbn in *; auto using command_text.
Qed.

(** ** The optimiser keeps trees sound *)
Section Optimize.
  Import OptimizeModel OptimizeProofs.
  Context (fneg fsqrt : N -> N) (fadd fsub fmul fdiv frem : N -> N -> N) (finite : N -> bool).
  Hypothesis neg32 : forall x, fneg x < 2 ^ 32.
  Hypothesis sqrt32 : forall x, fsqrt x < 2 ^ 32.
  Hypothesis add32 : forall x y, fadd x y < 2 ^ 32.
  Hypothesis sub32 : forall x y, fsub x y < 2 ^ 32.
  Hypothesis mul32 : forall x y, fmul x y < 2 ^ 32.
  Hypothesis div32 : forall x y, fdiv x y < 2 ^ 32.
  Hypothesis rem32 : forall x y, frem x y < 2 ^ 32.
  Notation optimize_expr := (optimize_expr fneg fsqrt fadd fsub fmul fdiv frem finite).
  Notation optimize_stmt := (optimize_stmt fneg fsqrt fadd fsub fmul fdiv frem finite).
  Notation optimize_unary := (optimize_unary fneg fsqrt finite).
  Notation optimize_binary := (optimize_binary fadd fsub fmul fdiv frem finite).
  Context (size : N).
  Notation sound := (sound size).

  Lemma consume_sound d e e' : sound e -> consume d e = Some e' -> sound e'.
  Proof.
    intros S. unfold consume, get_consumable_array. destruct e as [| | | |l sp| | | | |]; try (intros [= <-]; exact S).
    destruct (is_constant (EArray l sp)) as [[|]|] eqn:E; [|intros [= <-]; exact S|discriminate].
    inversion S as [| | | |? ? L P F| | | | |]; subst. destruct l as [|x l]; [intros [= <-]; exact S|].
    assert (sound (EConsumable (x :: l) sp)) as C by (constructor; [exact F|apply all_constant; exact E]).
    destruct d; intros [= <-]; [exact C|]. constructor; [reflexivity|apply P; discriminate|exact C].
  Qed.
  Lemma consume_params_sound e e' : sound e -> consume_params e = Some e' -> sound e'.
  Proof. unfold consume_params. destruct e; try (intros S [= <-]; exact S). apply consume_sound. Qed.
  Lemma uni_float_sound op sp r f : (forall x, op x < 2 ^ 32) -> op_uni_float finite op sp r = Some f -> sound f.
  Proof. intro L. destruct r; try discriminate. cbn. destruct (finite _); [|discriminate]. intros [= <-]. constructor. apply L. Qed.
  Lemma bin_float_sound op sp l r f : (forall x y, op x y < 2 ^ 32) -> op_bin_float finite op sp l r = Some f -> sound f.
  Proof. intro L. destruct l; try discriminate. destruct r; try discriminate. cbn. destruct (finite _); [|discriminate]. intros [= <-]. constructor. apply L. Qed.
  Lemma uni_string_sound op sp r f : (forall s, is_ascii s = true -> is_ascii (op s) = true) -> op_uni_string op sp r = Some f -> sound f.
  Proof.
    intro L. destruct r; try discriminate. cbn [op_uni_string]. destruct (is_ascii s) eqn:E; [|discriminate]. intros [= <-]. constructor. apply ascii_is_text. auto.
  Qed.
  Lemma bin_string_sound sp l r f : op_bin_string sp l r = Some f -> sound f.
  Proof.
    destruct l; try discriminate. destruct r; try discriminate. cbn [op_bin_string]. destruct (is_ascii s0 && is_ascii s) eqn:E; [|discriminate]. intros [= <-].
    apply andb_prop in E as [E1 E2]. constructor. apply ascii_is_text. unfold is_ascii in *. rewrite forallb_app. now rewrite E1, E2.
  Qed.
  Lemma upper_is_ascii x : is_ascii (to_ascii_upper x) = is_ascii x.
  Proof.
    unfold is_ascii, to_ascii_upper. induction x as [|c x IH]; [reflexivity|]. cbn [map forallb]. rewrite IH. f_equal.
    unfold upper_char. destruct ((97 <=? c) && (c <=? 122)) eqn:E; lia.
  Qed.
  Lemma folded_sound o d e : (forall f, o = Some f -> sound f) -> sound d -> folded o d = Some e -> sound e.
  Proof. intros H D. unfold folded. destruct o as [f|]; intros [= <-]; auto. Qed.

  Lemma unary_sound u r sp e : command (unary_str u) -> fst sp < size -> sound r -> optimize_unary u r sp = Some e -> sound e.
  Proof using neg32 sqrt32 add32 sub32 mul32 div32 rem32.
    intros V L S. assert (forall r, sound r -> sound (EUnary u r sp)) as K by (intros; now constructor). unfold OptimizeModel.optimize_unary.
    destruct u as [x| | |]; try (intros [= <-]; now apply K).
    2: { apply folded_sound; [|now apply K]. intros f. now apply uni_float_sound. }
    repeat match goal with |- context [named x ?l] => destruct (named x l) end.
    - apply folded_sound; [|now apply K]. intros f. apply uni_string_sound. intros s. now rewrite lower_is_ascii.
    - apply folded_sound; [|now apply K]. intros f. apply uni_string_sound. intros s. now rewrite upper_is_ascii.
    - apply folded_sound; [|now apply K]. intros f. now apply uni_float_sound.
    - destruct (consume_params r) as [r'|] eqn:E; [|discriminate]. intros [= <-]. apply K. eapply consume_params_sound; eauto.
    - destruct (consume _ r) as [r'|] eqn:E; [|discriminate]. intros [= <-]. apply K. eapply consume_sound; eauto.
    - destruct (consume _ r) as [r'|] eqn:E; [|discriminate]. intros [= <-]. apply K. eapply consume_sound; eauto.
    - intros [= <-]. now apply K.
  Qed.
  Lemma binary_sound b l r sp e : command (binary_str b) -> fst sp < size -> sound l -> sound r -> optimize_binary b l r sp = Some e -> sound e.
  Proof using neg32 sqrt32 add32 sub32 mul32 div32 rem32.
    intros V L S1 S2. assert (forall l r, sound l -> sound r -> sound (EBinary b l r sp)) as K by (intros; now constructor). unfold OptimizeModel.optimize_binary.
    destruct b as [x| | | | | | | | | | | | | | | | | | | | | |]; try (intros [= <-]; now apply K);
      try (apply folded_sound; [|now apply K]; intros f; now apply bin_float_sound).
    - repeat match goal with |- context [named x ?l] => destruct (named x l) end.
      + destruct (consume_params r) as [r'|] eqn:E; [|discriminate]. intros [= <-]. apply K; [exact S1|]. eapply consume_params_sound; eauto.
      + destruct (consume _ r) as [r'|] eqn:E; [|discriminate]. intros [= <-]. apply K; [exact S1|]. eapply consume_sound; eauto.
      + destruct (consume true r) as [r'|] eqn:E; [|discriminate]. destruct (consume true l) as [l'|] eqn:E'; [|discriminate]. intros [= <-].
        apply K; [exact (consume_sound _ _ _ S1 E')|exact (consume_sound _ _ _ S2 E)].
      + destruct (is_this l); intros [= <-]; [|now apply K]. now constructor.
      + intros [= <-]. now apply K.
    - destruct l; try (intros [= <-]; now apply K). destruct r; try (intros [= <-]; now apply K). intros [= <-]. constructor.
      + constructor; [exact S1|constructor; [exact S2|constructor]].
      + repeat constructor.
    - destruct (op_bin_float finite fadd sp l r) as [f|] eqn:E.
      + intros [= <-]. eapply bin_float_sound; [exact add32|exact E].
      + apply folded_sound; [|now apply K]. intros f. apply bin_string_sound.
  Qed.
  Lemma map_opt_sound {A} (f : A -> option A) (P : A -> Prop) l : Forall (fun x => P x -> forall y, f x = Some y -> P y) l -> Forall P l ->
    forall l', map_opt f l = Some l' -> Forall P l' /\ length l' = length l.
  Proof.
    induction 1 as [|x l Hx _ IH]; intros F l' E; [injection E as <-; auto|]. rewrite map_opt_cons in E. inversion F as [|? ? F1 F2]; subst.
    destruct (f x) as [y|] eqn:Ey; [|discriminate]. destruct (map_opt f l) as [ys|]; [|discriminate]. injection E as <-.
    destruct (IH F2 _ eq_refl) as [G1 G2]. split; [constructor; eauto|cbn; lia].
  Qed.
  Lemma optimize_sound : (forall e, sound e -> forall e', optimize_expr e = Some e' -> sound e') /\
    (forall s, sound_stmt size s -> forall s', optimize_stmt s = Some s' -> sound_stmt size s').
  Proof using neg32 sqrt32 add32 sub32 mul32 div32 rem32.
    apply tree_ind.
    - intros c s sp F S e'. inversion S as [? ? ? L Fs| | | | | | | | |]; subst.
      change (match map_opt optimize_stmt c with Some c => Some (ECode c s sp) | None => None end = Some e' -> sound e').
      destruct (map_opt optimize_stmt c) as [c'|] eqn:E; [|discriminate]. intros [= <-]. constructor; [exact L|]. eapply (map_opt_sound optimize_stmt); eauto.
    - intros s sp w S e' [= <-]. exact S.
    - intros x sp S e' [= <-]. exact S.
    - intros b sp S e' [= <-]. exact S.
    - intros l sp F S e'. inversion S as [| | | |? ? L P Fs| | | | |]; subst.
      change (match map_opt optimize_expr l with Some l => Some (EArray l sp) | None => None end = Some e' -> sound e').
      destruct (map_opt optimize_expr l) as [l'|] eqn:E; [|discriminate]. intros [= <-]. destruct (map_opt_sound optimize_expr sound l F Fs _ E) as [G1 G2].
      constructor; [rewrite G2; exact L| |exact G1]. intro X. apply P. intros ->. destruct l'; [now apply X|discriminate].
    - intros l sp _ S e' [= <-]. exact S.
    - intros x sp S e' [= <-]. exact S.
    - intros u r sp IH S e'. inversion S as [| | | | | | |? ? ? V L S1| |]; subst. cbn [OptimizeModel.optimize_expr].
      destruct (optimize_expr r) as [r'|]; [|discriminate]. apply unary_sound; auto.
    - intros b l r sp IH1 IH2 S e'. inversion S as [| | | | | | | |? ? ? ? V L S1 S2|]; subst. cbn [OptimizeModel.optimize_expr].
      destruct (optimize_expr l) as [l'|]; [|discriminate]. destruct (optimize_expr r) as [r'|]; [|discriminate]. apply binary_sound; auto.
    - intros x sp S e' [= <-]. exact S.
    - intros x e sp IH S s'. inversion S as [? ? ? V L S1| |]; subst.
      change (match optimize_expr e with Some e => Some (SGlobal x e sp) | None => None end = Some s' -> sound_stmt size s').
      destruct (optimize_expr e) as [e'|]; [|discriminate]. intros [= <-]. constructor; auto.
    - intros x e sp IH S s'. inversion S as [|? ? ? V L S1|]; subst.
      change (match optimize_expr e with Some e => Some (SLocal x e sp) | None => None end = Some s' -> sound_stmt size s').
      destruct (optimize_expr e) as [e'|]; [|discriminate]. intros [= <-]. constructor; auto.
    - intros e sp IH S s'. inversion S as [| |? ? S1]; subst.
      change (match optimize_expr e with Some e => Some (SExpr e sp) | None => None end = Some s' -> sound_stmt size s').
      destruct (optimize_expr e) as [e'|]; [|discriminate]. intros [= <-]. constructor; auto.
  Qed.
  Lemma block_sound l l' : Forall (sound_stmt size) l -> optimize_block fneg fsqrt fadd fsub fmul fdiv frem finite l = Some l' -> Forall (sound_stmt size) l'.
  Proof using neg32 sqrt32 add32 sub32 mul32 div32 rem32.
    intros F E. eapply (map_opt_sound optimize_stmt); [|exact F|exact E]. apply Forall_forall. intros s _. apply optimize_sound.
  Qed.
End Optimize.
