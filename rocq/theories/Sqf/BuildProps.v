(** C83: a script that was read compiles. (The hypotheses of the first two theorems are met by the script of Sqf/ScriptProps.v, [case_read].) *)
From Coq Require Import String.
From Verif Require Import Base.Tactics Base.Bytes Base.Ascii Base.Text Preproc.LexModel Workspace.ProcessedModel
  Sqf.Ast Sqf.CompileModel Sqf.CompileProofs Sqf.SourceModel Sqf.BuildSpec Sqf.BuildProofs.
From Verif Require Sqf.ParseModel Sqf.ParseSpec Sqf.SerializeSpec Sqf.BuildRead Sqf.TypedProofs Sqf.OptimizeModel Sqf.OptimizeProofs.
Local Open Scope N_scope.
Local Open Scope list_scope.

Section Compiles.
  Context (wiki custom : list ParseModel.wiki_entry) (parse_f32 : text -> N) (f32_of : N -> N).
  Hypothesis no_new_word_operators : forall e, In e custom -> In ParseModel.CallBinary (snd e) -> ParseSpec.reserved (fst e) = None.
  (** A float is 32 bits. *)
  Context (fneg fsqrt : N -> N) (fadd fsub fmul fdiv frem : N -> N -> N) (finite : N -> bool).
  Hypothesis floats1 : (forall s, parse_f32 s < 2 ^ 32) /\ (forall n, f32_of n < 2 ^ 32) /\ (forall x, fneg x < 2 ^ 32) /\ (forall x, fsqrt x < 2 ^ 32).
  Hypothesis floats2 : forall x y, fadd x y < 2 ^ 32 /\ fsub x y < 2 ^ 32 /\ fmul x y < 2 ^ 32 /\ fdiv x y < 2 ^ 32 /\ frem x y < 2 ^ 32.
  Notation read_sqf := (read_sqf (ParseModel.a3_with_workspace wiki custom) parse_f32 f32_of).
  Notation optimize := (OptimizeModel.optimize fneg fsqrt fadd fsub fmul fdiv frem finite).

  Lemma built_sound s r s' : SerializeSpec.is_text s -> read_sqf s = Some r -> short_script r -> s' = r \/ optimize r = Some s' ->
    source s' = s /\ Forall (sound_stmt (chars s)) (content s').
  Proof using no_new_word_operators floats1 floats2.
    intros T R S O. destruct floats1 as (P32 & O32 & N32 & Q32).
    destruct (BuildRead.read_sound wiki custom parse_f32 f32_of s r no_new_word_operators P32 O32 T R S) as [Hs F].
    destruct O as [->|O]; [now split|]. unfold OptimizeModel.optimize in O. destruct (OptimizeModel.optimize_block _ _ _ _ _ _ _ _ _) as [l|] eqn:E; [|discriminate].
    injection O as <-. cbn [source content]. split; [exact Hs|].
    apply (block_sound fneg fsqrt fadd fsub fmul fdiv frem finite N32 Q32) with (l := content r); auto; intros x y; apply (floats2 x y).
  Qed.

  (** C83. The text of a script, preprocessed from up to 256 files, that the parser reads as arrays of up to 65535 elements, is
      compiled, optimised or not, or some table of the compiled script is too long. The compiler neither panics nor refuses
      a name. *)
  Theorem C83_script_compiles : forall read out p virtual r s', new read out = Done p -> N.of_nat (length (sources p)) <= 256 ->
    SerializeSpec.is_text (o_text p) -> read_sqf (o_text p) = Some r -> short_script r -> s' = r \/ optimize r = Some s' ->
    (exists c, compile p virtual s' = Ok c) \/ compile p virtual s' = ListTooLong.
  Proof using no_new_word_operators floats1 floats2.
    intros read out p virtual r s' Hp Few T R S O. destruct (built_sound _ _ _ T R S O) as [_ F].
    pose proof (script_fair read out p Hp Few virtual s' F) as H. destruct (compile p virtual s'); cbn in H; [eauto|now right|contradiction..].
  Qed.
  (** And it has the types that C29 asks for. *)
  Theorem C83_script_is_typed : forall s r s', SerializeSpec.is_text s -> read_sqf s = Some r -> short_script r -> s' = r \/ optimize r = Some s' ->
    source s' = s /\ Forall TypedProofs.typed_stmt (content s').
  Proof using no_new_word_operators floats1 floats2.
    intros s r s' T R S O. destruct (built_sound _ _ _ T R S O) as [Hs F]. split; [exact Hs|]. eapply Forall_impl; [|exact F]. intros a. apply sound_typed.
  Qed.
End Compiles.

(** ** The boundaries *)

(** An array of 65536 zeros, or more, makes the compiler panic. *)
Lemma zeros_const p n : forall c, each_opt (compile_constant p) (repeat (ENumber 0 (0, 0)) n) c = Ok (Some (repeat (KScalar 0) n), c).
Proof. induction n as [|n IH]; intro c; [reflexivity|]. cbn [repeat each_opt]. cbn. rewrite IH. reflexivity. Qed.
Lemma zeros_pushed n : forall c, (c = [] \/ c = [KScalar 0]) -> exists is c', each push_constant (repeat (KScalar 0) n) (c, []) = Ok (is, c').
Proof.
  induction n as [|n IH]; intros c H; [cbn; eauto|]. destruct (IH [KScalar 0] (or_intror eq_refl)) as (is & c' & E).
  destruct H as [-> | ->]; cbn [repeat each]; cbn [push_constant add_constant add_or_get index_of fst snd constant_eqb N.eqb length N.of_nat obind app N.ltb N.compare];
    cbv [add_constant add_or_get index_of constant_eqb]; cbn; rewrite E; cbn; eauto.
Qed.
Theorem C83_long_array_refuted : forall p virtual src n, 65536 <= N.of_nat n ->
  compile p virtual (Statements [SExpr (EArray (repeat (ENumber 0 (0, 0)) n) (0, 0)) (0, 0)] src (0, 0)) = Panic.
Proof.
  intros p virtual src n L. unfold compile. cbn [content each]. rewrite stmt_plain, instr_of_const, const_array, zeros_const. cbn [obind option_map].
  cbn [push_constant]. destruct (zeros_pushed n [] (or_introl eq_refl)) as (is & c' & ->). cbn [obind]. rewrite repeat_length.
  replace (N.of_nat n <? 2 ^ 16) with false; [reflexivity|]. symmetry. apply N.ltb_ge. change (2 ^ 16) with 65536. exact L.
Qed.

(** ** A small script that is too large *)

(** [[{[{ ... x vectorAdd [1, 2] ... }, x]}, x]], of [n] blocks in one another. *)
Definition at0 : span := (0, 0).
Fixpoint nest (n : nat) : expr :=
  match n with
  | O => EBinary (BNamed (bs "vectorAdd")) (EVar (bs "x") at0) (EConsumable [ENumber 1 at0; ENumber 2 at0] at0) at0
  | S n => EArray [ECode [SExpr (nest n) at0] [] at0; EVar (bs "x") at0] at0
  end.
Definition pool (c : ctx) : N := N.of_nat (length (fst c)).
Definition ends {A} (r : outcome (A * ctx)) (P : ctx -> Prop) : Prop := match r with Ok (_, c) => P c | _ => True end.
Lemma ends_bind {A B} (r : outcome (A * ctx)) (k : A * ctx -> outcome (B * ctx)) P Q : ends r P -> (forall a c, P c -> ends (k (a, c)) Q) -> ends (obind r k) Q.
Proof. destruct r as [[a c]| | |]; cbn; auto. Qed.
Lemma ends_impl {A} (r : outcome (A * ctx)) (P Q : ctx -> Prop) : ends r P -> (forall c, P c -> Q c) -> ends r Q.
Proof. destruct r as [[a c]| | |]; cbn; auto. Qed.
Lemma add_constant_ends k c : ends (add_constant k c) (fun c' => pool c <= pool c' /\ (pool c <= 2 ^ 16 -> pool c' <= 2 ^ 16) /\ forall l, k = KConsumable l -> pool c' = pool c + 1).
Proof.
  unfold add_constant, add_or_get. destruct (index_of constant_eqb (fst c) k) as [j|] eqn:E; cbn [obind].
  - destruct (j <? 2 ^ 16); [|exact I]. cbn. unfold pool. cbn [fst]. split; [lia|]. split; [auto|]. intros l ->. exfalso.
    destruct (index_of_some _ _ _ _ E) as (y & a & b & _ & Hy & _). destruct y; discriminate.
  - destruct (N.ltb_spec (N.of_nat (length (fst c))) (2 ^ 16)); [|exact I]. cbn [obind ends]. unfold pool. cbn [fst]. rewrite app_length. cbn [length]. split; [lia|]. split; [lia|]. intros. lia.
Qed.
Lemma named_ends p f x sp c : ends (named p f x sp c) (fun c' => fst c' = fst c).
Proof.
  unfold named, add_name. destruct (normalize x) as [y| | |]; cbn [obind]; try exact I. destruct (add_or_get _ _ _) as [[i ns]| | |]; cbn [obind]; try exact I.
  destruct (location_to_source p sp); cbn [obind]; try exact I. reflexivity.
Qed.
Lemma nest_ends p n : forall c, ends (compile_instructions p (nest n) c) (fun c' => pool c + 2 ^ N.of_nat n <= pool c' /\ (pool c <= 2 ^ 16 -> pool c' <= 2 ^ 16)).
Proof.
  induction n as [|n IH]; intro c.
  - cbn [nest]. rewrite instr_of_const. cbn [compile_constant comp fst obind]. fold (compile_constant p). eapply ends_bind.
    { rewrite instr_of_const. cbn [obind]. apply named_ends. }
    intros is c1 E1. eapply ends_bind.
    { rewrite instr_of_const, const_consumable. cbn [obind]. cbn [each_opt]. cbn. eapply ends_bind; [apply add_constant_ends|]. intros a c2 H. exact H. }
    intros js c2 (H1 & H2 & H3). eapply ends_bind; [apply named_ends|]. intros ks c3 E3. cbn [ends]. specialize (H3 _ eq_refl). unfold pool in *. rewrite E3, <- E1.
    change (2 ^ N.of_nat 0) with 1. split; [lia|exact H2].
  - (* the block, compiled as a constant *)
    assert (Hb : forall c, ends (compile_constant p (ECode [SExpr (nest n) at0] [] at0) c) (fun c' => pool c + 2 ^ N.of_nat n <= pool c' /\ (pool c <= 2 ^ 16 -> pool c' <= 2 ^ 16))).
    { intro c0. rewrite const_code. eapply ends_bind.
      { cbn [each]. rewrite stmt_plain. eapply ends_bind; [eapply ends_bind; [apply IH|intros; eassumption]|]. intros a c1 H. exact H. }
      intros is c1 H. destruct (block_pointer p _ at0); cbn [obind]; try exact I. exact H. }
    assert (Hv : forall c, compile_constant p (EVar (bs "x") at0) c = Ok (None, c)) by reflexivity.
    assert (Hp : 2 ^ N.of_nat (S n) = 2 ^ N.of_nat n + 2 ^ N.of_nat n) by (rewrite Nat2N.inj_succ, N.pow_succ_r'; lia).
    change (nest (S n)) with (EArray [ECode [SExpr (nest n) at0] [] at0; EVar (bs "x") at0] at0). rewrite instr_of_const, const_array.
    cbn [each_opt]. specialize (Hb c) as H1. destruct (compile_constant p (ECode [SExpr (nest n) at0] [] at0) c) as [[k c1]| | |] eqn:E1; cbn [obind]; try exact I.
    cbn [ends] in H1. assert (exists k', k = Some k') as (k' & ->).
    { revert E1. rewrite const_code. destruct (each _ _ _) as [[? ?]| | |]; cbn [obind]; try discriminate. destruct (block_pointer p _ _); cbn [obind]; try discriminate. intros [= <- _]. eauto. }
    rewrite Hv. cbn [obind option_map length N.of_nat]. change (N.of_nat 2 <? 2 ^ 16) with true. cbn iota.
    cbn [each]. eapply ends_bind with (P := fun c' => pool c1 + 2 ^ N.of_nat n <= pool c' /\ (pool c1 <= 2 ^ 16 -> pool c' <= 2 ^ 16)).
    { eapply ends_bind with (P := fun c' => pool c1 + 2 ^ N.of_nat n <= pool c' /\ (pool c1 <= 2 ^ 16 -> pool c' <= 2 ^ 16)).
      - rewrite instr_of_const. specialize (Hb c1) as H2. destruct (compile_constant p (ECode [SExpr (nest n) at0] [] at0) c1) as [[k c2]| | |] eqn:E2; cbn [obind]; try exact I.
        cbn [ends] in H2. assert (exists is q, k = Some (KCode is q)) as (is & q & ->).
        { revert E2. rewrite const_code. destruct (each _ _ _) as [[? ?]| | |]; cbn [obind]; try discriminate. destruct (block_pointer p _ _); cbn [obind]; try discriminate. intros [= <- _]. eauto. }
        cbn [push_constant]. eapply ends_bind; [apply add_constant_ends|]. intros i c3 (H3 & H4 & _). cbn [ends]. split; [lia|]. intro. apply H4, H2. assumption.
      - intros is c2 H2. eapply ends_bind with (P := fun c' => pool c' = pool c2); [|intros js c3 H3; cbn [ends]; rewrite H3; exact H2].
        eapply ends_bind with (P := fun c' => pool c' = pool c2); [|intros js c3 H3; exact H3].
        rewrite instr_of_const, Hv. cbn [obind]. eapply ends_impl; [apply named_ends|]. intros c3 H3. unfold pool. now rewrite H3. }
    intros is c2 H2. destruct (location_to_source p at0); cbn [obind]; try exact I. cbn [ends]. split; [lia|]. intro. apply H2, H1. assumption.
Qed.
(** A script of 17 blocks in one another, whose innermost one holds an array literal that the optimiser shares, is never
    compiled: every block is compiled twice, and every time the array is one more constant. *)
Definition nested (n : nat) : statements := Statements [SExpr (nest n) at0] [] at0.
Theorem C83_small_script_too_large_refuted : forall p virtual n, (17 <= n)%nat -> forall c, compile p virtual (nested n) <> Ok c.
Proof.
  intros p virtual n L c H. unfold compile, nested in H. cbn [content each] in H. rewrite stmt_plain in H.
  pose proof (nest_ends p n ([], [])) as E. destruct (compile_instructions p (nest n) ([], [])) as [[is c1]| | |]; try discriminate. cbn [ends] in E.
  destruct E as [E1 E2]. change (pool ([], [])) with 0 in *. specialize (E2 ltac:(lia)).
  assert (2 ^ 17 <= 2 ^ N.of_nat n) by (apply N.pow_le_mono_r; lia). change (2 ^ 17) with 131072 in *. change (2 ^ 16) with 65536 in *. lia.
Qed.
(** It is what the optimiser makes of [[{[{ ... x vectorAdd [1, 2] ... }, x]}, x]]. *)
Fixpoint written_nest (n : nat) : expr :=
  match n with
  | O => EBinary (BNamed (bs "vectorAdd")) (EVar (bs "x") at0) (EArray [ENumber 1 at0; ENumber 2 at0] at0) at0
  | S n => EArray [ECode [SExpr (written_nest n) at0] [] at0; EVar (bs "x") at0] at0
  end.
Example C83_nested : forall fneg fsqrt fadd fsub fmul fdiv frem finite n,
  OptimizeModel.optimize fneg fsqrt fadd fsub fmul fdiv frem finite (Statements [SExpr (written_nest n) at0] [] at0) = Some (nested n).
Proof.
  intros. unfold OptimizeModel.optimize, OptimizeModel.optimize_block. cbn [content].
  assert (W : forall e e', OptimizeModel.optimize_expr fneg fsqrt fadd fsub fmul fdiv frem finite e = Some e' ->
    OptimizeModel.optimize_stmt fneg fsqrt fadd fsub fmul fdiv frem finite (SExpr e at0) = Some (SExpr e' at0)).
  { intros e e' H. change (match OptimizeModel.optimize_expr fneg fsqrt fadd fsub fmul fdiv frem finite e with Some e => Some (SExpr e at0) | None => None end = Some (SExpr e' at0)). now rewrite H. }
  assert (E : OptimizeModel.optimize_expr fneg fsqrt fadd fsub fmul fdiv frem finite (written_nest n) = Some (nest n)).
  { induction n as [|n IH]; [reflexivity|]. apply W in IH.
    change (match OptimizeModel.map_opt (OptimizeModel.optimize_expr fneg fsqrt fadd fsub fmul fdiv frem finite) [ECode [SExpr (written_nest n) at0] [] at0; EVar (bs "x") at0] with
            | Some l => Some (EArray l at0) | None => None end = Some (nest (S n))).
    change (match match match OptimizeModel.map_opt (OptimizeModel.optimize_stmt fneg fsqrt fadd fsub fmul fdiv frem finite) [SExpr (written_nest n) at0] with
            | Some c => Some (ECode c [] at0) | None => None end with Some y => Some [y; EVar (bs "x") at0] | None => None end with
            | Some l => Some (EArray l at0) | None => None end = Some (nest (S n))).
    rewrite OptimizeProofs.map_opt_cons, IH. reflexivity. }
  apply W in E. rewrite OptimizeProofs.map_opt_cons, E. reflexivity.
Qed.
Print Assumptions C83_script_compiles.
Print Assumptions C83_script_is_typed.
Print Assumptions C83_long_array_refuted.
Print Assumptions C83_small_script_too_large_refuted.
