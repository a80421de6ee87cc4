(** What the compiler makes fits the file: every index, place and string is in its range. *)
From Coq Require Import String.
From Verif Require Import Base.Tactics Base.Bytes Lzo.Model Lzo.Props Base.Ascii Base.Text Io.Spec Preproc.Model Preproc.LexModel Preproc.LexProofs Workspace.ProcessedModel Workspace.ProcessedProofs
  Sqf.Ast Sqf.CompileModel Sqf.CompileSpec Sqf.CompileProofs Sqf.SerializeModel Sqf.SerializeSpec Sqf.SerializeProofs.
Local Open Scope N_scope.
Local Open Scope list_scope.

(** A syntax tree of Rust values: strings are Unicode, numbers have 32 bits. *)
Definition typed_unary (u : unary) : Prop := match u with UNamed x => is_text x | _ => True end.
Definition typed_binary (b : binary) : Prop := match b with BNamed x => is_text x | _ => True end.
Inductive typed_expr : expr -> Prop :=
| TeCode c s sp : Forall typed_stmt c -> typed_expr (ECode c s sp)
| TeString s sp w : is_text s -> typed_expr (EString s sp w)
| TeNumber x sp : x < 2 ^ 32 -> typed_expr (ENumber x sp)
| TeBool b sp : typed_expr (EBool b sp)
| TeArray l sp : Forall typed_expr l -> typed_expr (EArray l sp)
| TeConsumable l sp : Forall typed_expr l -> typed_expr (EConsumable l sp)
| TeNular x sp : is_text x -> typed_expr (ENular x sp)
| TeUnary u e sp : typed_unary u -> typed_expr e -> typed_expr (EUnary u e sp)
| TeBinary b e1 e2 sp : typed_binary b -> typed_expr e1 -> typed_expr e2 -> typed_expr (EBinary b e1 e2 sp)
| TeVar x sp : is_text x -> typed_expr (EVar x sp)
with typed_stmt : stmt -> Prop :=
| TsGlobal x e sp : is_text x -> typed_expr e -> typed_stmt (SGlobal x e sp)
| TsLocal x e sp : is_text x -> typed_expr e -> typed_stmt (SLocal x e sp)
| TsExpr e sp : typed_expr e -> typed_stmt (SExpr e sp).

Lemma lower_text x : is_text x -> is_text (to_ascii_lower x).
Proof.
  unfold is_text, to_ascii_lower. intro H. apply Forall_map. eapply Forall_impl; [|exact H]. intros c Hc. unfold lower_char, is_scalar in *.
  destruct (N.leb_spec 65 c), (N.leb_spec c 90); cbn [andb]; lia.
Qed.
Lemma split_bytes_inv s : forall n a b, split_bytes n s = Some (a, b) -> s = a ++ b.
Proof.
  induction s as [|c s IH]; intros n a b; cbn [split_bytes]; destruct (n =? 0); try (intro Q; injection Q as <- <-; reflexivity); [discriminate|].
  destruct (n <? ulen c); [discriminate|]. destruct (split_bytes (n - ulen c) s) as [[a' b']|] eqn:E; [|discriminate]. intro Q. injection Q as <- <-.
  cbn [app]. f_equal. eauto.
Qed.
Lemma slice_len s a b m : slice s a b = Some m -> byte_len m <= byte_len s.
Proof.
  unfold slice. destruct (b <? a); [discriminate|]. destruct (split_bytes a s) as [[x y]|] eqn:E; [|discriminate].
  destruct (split_bytes (b - a) y) as [[z w]|] eqn:E'; [|discriminate]. intro Q. apply Some_inj in Q. subst z.
  apply split_bytes_inv in E. apply split_bytes_inv in E'. subst. rewrite !byte_len_app. lia.
Qed.

Definition typed_ctx (c : ctx) : Prop := Forall typed (fst c) /\ Forall is_text (snd c).
Lemma index_of_range {A} f (l : list A) x i : index_of f l x = Some i -> i < N.of_nat (length l).
Proof. intro H. destruct (index_of_some _ _ _ _ H) as (y & a & b & -> & _ & ->). rewrite app_length. cbn [length]. lia. Qed.
Lemma add_constant_typed k c i c' : typed_ctx c -> typed k -> add_constant k c = Ok (i, c') -> typed_ctx c' /\ i < 2 ^ 16.
Proof.
  intros [H1 H2] Hk. unfold add_constant, add_or_get. destruct (index_of constant_eqb (fst c) k) as [j|]; cbn [obind].
  - destruct (N.ltb_spec j (2 ^ 16)); [|discriminate]. intro Q. injection Q as <- <-. repeat split; auto.
  - destruct (N.ltb_spec (N.of_nat (length (fst c))) (2 ^ 16)); [|discriminate]. intro Q. injection Q as <- <-. repeat split; auto. apply Forall_app. auto.
Qed.
Lemma normalize_text x y : is_text x -> normalize x = Ok y -> is_text y.
Proof. unfold normalize. destruct (is_valid_command _); [|discriminate]. intros H Q. injection Q as <-. now apply lower_text. Qed.
Lemma add_name_typed x c i c' : typed_ctx c -> is_text x -> add_name x c = Ok (i, c') -> typed_ctx c' /\ i < 2 ^ 16.
Proof.
  intros [H1 H2] Hx. unfold add_name. destruct (normalize x) as [y| | |] eqn:En; cbn [obind]; try discriminate. apply normalize_text in En; [|exact Hx].
  unfold add_or_get. destruct (index_of same_text (snd c) y) as [j|]; cbn [obind].
  - destruct (N.ltb_spec j (2 ^ 16)); [|discriminate]. intro Q. injection Q as <- <-. repeat split; auto.
  - destruct (N.ltb_spec (N.of_nat (length (snd c))) (2 ^ 16)); [|discriminate]. intro Q. injection Q as <- <-. repeat split; auto. apply Forall_app. auto.
Qed.
Lemma each_typed {A} (f : A -> ctx -> outcome (list instr * ctx)) l :
  Forall (fun x => forall c is c', typed_ctx c -> f x c = Ok (is, c') -> typed_ctx c' /\ Forall typed_instr is) l ->
  forall c iss c', typed_ctx c -> each f l c = Ok (iss, c') -> typed_ctx c' /\ Forall typed_instr (concat iss).
Proof.
  induction 1 as [|x l Hx _ IH]; intros c iss c' Hc; cbn [each]; [intro Q; injection Q as <- <-; split; [exact Hc|constructor]|].
  destruct (f x c) as [[is c1]| | |] eqn:E; cbn [obind]; try discriminate. destruct (Hx _ _ _ Hc E) as [H1 H2].
  destruct (each f l c1) as [[iss' c2]| | |] eqn:E'; cbn [obind]; try discriminate. intro Q. injection Q as <- <-.
  destruct (IH _ _ _ H1 E') as [H3 H4]. split; [exact H3|]. cbn [concat]. apply Forall_app. auto.
Qed.
Lemma no_place : typed_info (Info 0 0 0).
Proof. repeat split; reflexivity. Qed.
Lemma push_typed : forall k c is c', typed_ctx c -> typed k -> push_constant k c = Ok (is, c') -> typed_ctx c' /\ Forall typed_instr is.
Proof.
  assert (forall k c is c', typed_ctx c -> typed k -> (do (i, c) <- add_constant k c ;; Ok ([Push i], c)) = Ok (is, c') -> typed_ctx c' /\ Forall typed_instr is) as One.
  { intros k c is c' Hc Hk. destruct (add_constant k c) as [[i c1]| | |] eqn:E; cbn [obind]; try discriminate. intro Q. injection Q as <- <-.
    destruct (add_constant_typed _ _ _ _ Hc Hk E). split; [assumption|]. repeat constructor. assumption. }
  induction k using constant_ind'; intros c0 is c' Hc Hk E; cbn [push_constant] in E; try (eapply One; eauto; fail).
  destruct (each push_constant l c0) as [[iss c1]| | |] eqn:E1; cbn [obind] in E; try discriminate.
  destruct (N.ltb_spec (N.of_nat (length l)) (2 ^ 16)) as [Hl|]; [|discriminate]. injection E as <- <-. inversion Hk as [| | | |? HF| |]; subst.
  destruct (each_typed push_constant l) with (c := c0) (iss := iss) (c' := c1) as [G1 G2]; auto.
  { rewrite Forall_forall in *. intros x Hx c is c' Hcc. apply H; auto. }
  split; [exact G1|]. apply Forall_app. split; [exact G2|]. repeat constructor. exact Hl.
Qed.

Section Typed.
  Context (p : processed) (small : byte_len (o_text p) < 2 ^ 31).
  Lemma location_typed sp si : location_to_source p sp = Ok si -> typed_info si.
  Proof.
    unfold location_to_source. destruct (mapping_at p (fst sp)) as [m|]; [|discriminate]. destruct (position _ (sources p)) as [i|]; [|discriminate].
    destruct (N.ltb_spec (N.of_nat i) (2 ^ 8)) as [Hi|]; [|discriminate]. intro Q. injection Q as <-. unfold typed_info. cbn [si_offset si_file si_line]. repeat split.
    - unfold get_byte_offset. apply N.mod_lt. lia.
    - exact Hi.
    - apply N.mod_lt. lia.
  Qed.
  Lemma block_typed content sp q : block_pointer p content sp = Ok q -> typed_pointer q.
  Proof.
    unfold block_pointer. destruct (extract p (fst sp) (snd sp)) as [s|] eqn:E; [|discriminate]. intro Q. injection Q as <-. cbn [typed_pointer]. split.
    - unfold get_byte_offset. apply N.mod_lt. lia.
    - assert (byte_len s <= byte_len (o_text p)) as L.
      { unfold extract in E. destruct (_ =? _); [apply Some_inj in E; subst s; cbn; lia|]. destruct (offsets_go _ _ _ _ _ _). eapply slice_len; eauto. }
      destruct content; [lia|]. rewrite N.mod_small; lia.
  Qed.
  Lemma named_typed f x sp c is c' : (forall n si, n < 2 ^ 16 -> typed_info si -> typed_instr (f n si)) -> is_text x -> typed_ctx c -> named p f x sp c = Ok (is, c') -> typed_ctx c' /\ Forall typed_instr is.
  Proof.
    intros Hf Hx Hc. unfold named. destruct (add_name x c) as [[i c1]| | |] eqn:E; cbn [obind]; try discriminate.
    destruct (location_to_source p sp) as [si| | |] eqn:El; cbn [obind]; try discriminate. intro Q. injection Q as <- <-.
    destruct (add_name_typed _ _ _ _ Hc Hx E). split; [assumption|]. repeat constructor. apply Hf; [assumption|]. eapply location_typed; eauto.
  Qed.
  Lemma unary_text u : typed_unary u -> is_text (unary_str u).
  Proof. destruct u; cbn [typed_unary unary_str]; auto; intros _; repeat constructor. Qed.
  Lemma binary_text b : typed_binary b -> is_text (binary_str b).
  Proof. destruct b; cbn [typed_binary binary_str]; auto; intros _; repeat constructor. Qed.

  Definition const_typed (e : expr) : Prop := typed_expr e -> forall c k c', typed_ctx c -> compile_constant p e c = Ok (k, c') ->
    typed_ctx c' /\ match k with Some k => typed k | None => True end.
  Definition instr_typed (e : expr) : Prop := typed_expr e -> forall c is c', typed_ctx c -> compile_instructions p e c = Ok (is, c') -> typed_ctx c' /\ Forall typed_instr is.
  Definition stmt_typed (s : stmt) : Prop := typed_stmt s -> forall c is c', typed_ctx c -> comp_stmt p s c = Ok (is, c') -> typed_ctx c' /\ Forall typed_instr is.

  Lemma each_opt_typed l : Forall const_typed l -> Forall typed_expr l -> forall c ks c', typed_ctx c -> each_opt (compile_constant p) l c = Ok (ks, c') ->
    typed_ctx c' /\ match ks with Some ks => Forall typed ks | None => True end.
  Proof.
    induction 1 as [|e l He _ IH]; intros Ht c ks c' Hc; cbn [each_opt]; [intro Q; injection Q as <- <-; split; [exact Hc|constructor]|].
    inversion Ht; subst. destruct (compile_constant p e c) as [[k c1]| | |] eqn:E; cbn [obind]; try discriminate. destruct (He ltac:(assumption) _ _ _ Hc E) as [G1 G2].
    destruct k as [k|]; [|intro Q; injection Q as <- <-; auto]. destruct (each_opt _ l c1) as [[ks' c2]| | |] eqn:E'; cbn [obind]; try discriminate.
    intro Q. injection Q as <- <-. destruct (IH ltac:(assumption) _ _ _ G1 E') as [G3 G4]. split; [exact G3|]. destruct ks'; cbn [option_map]; auto.
  Qed.
  (** When the constant is settled, the instructions are. *)
  Lemma instr_from e : const_typed e -> (typed_expr e -> forall c c0 is c', typed_ctx c -> compile_constant p e c0 = Ok (None, c) ->
      (match e with
       | EArray l sp =>
           if N.of_nat (length l) <? 2 ^ 16 then
             do (is, c) <- each (compile_instructions p) l c ;; do si <- location_to_source p sp ;; Ok (concat is ++ [MakeArray (N.of_nat (length l)) si], c)
           else ListTooLong
       | ENular x sp => named p CallNular x sp c
       | EUnary u e sp => do (is, c) <- compile_instructions p e c ;; do (js, c) <- named p CallUnary (unary_str u) sp c ;; Ok (is ++ js, c)
       | EBinary b e1 e2 sp =>
           do (is, c) <- compile_instructions p e1 c ;; do (js, c) <- compile_instructions p e2 c ;; do (ks, c) <- named p CallBinary (binary_str b) sp c ;; Ok (is ++ js ++ ks, c)
       | EVar x sp => named p GetVariable x sp c
       | _ => Panic
       end) = Ok (is, c') -> typed_ctx c' /\ Forall typed_instr is) -> instr_typed e.
  Proof.
    intros Hk Hi Ht c is c' Hc E. rewrite instr_of_const in E. destruct (compile_constant p e c) as [[k c1]| | |] eqn:Ek; cbn [obind] in E; try discriminate.
    destruct (Hk Ht _ _ _ Hc Ek) as [G1 G2]. destruct k as [k|]; [eapply push_typed; eauto|]. eapply Hi; eauto.
  Qed.
  Lemma stmts_typed content : Forall stmt_typed content -> Forall typed_stmt content -> forall c is c', typed_ctx c -> each (comp_stmt p) content c = Ok (is, c') -> typed_ctx c' /\ Forall typed_instr (concat is).
  Proof. intros HF Ht. apply each_typed. rewrite Forall_forall in *. intros x Hx c is c' Hc. apply HF; auto. Qed.
  Ltac step E := match type of E with obind ?r _ = _ => let H := fresh "E" in destruct r as [[? ?]| | |] eqn:H; cbn [obind] in E; try discriminate E end.
  Lemma compile_typed : (forall e, const_typed e /\ instr_typed e) /\ (forall s, stmt_typed s).
  Proof.
    apply (tree_ind (fun e => const_typed e /\ instr_typed e) stmt_typed).
    - intros content src sp HF. assert (const_typed (ECode content src sp)) as A.
      { intros Ht c k c' Hc E. inversion Ht; subst. rewrite const_code in E. step E. destruct (stmts_typed _ HF ltac:(assumption) _ _ _ Hc E0) as [G1 G2].
        destruct (block_pointer p content sp) as [q| | |] eqn:Eq; cbn [obind] in E; try discriminate. injection E as <- <-. split; [exact G1|].
        constructor; [exact G2|eapply block_typed; eauto]. }
      split; [exact A|apply instr_from; [exact A|]]. intros _ c c0 is c' _ _ E. discriminate.
    - intros s sp w. assert (const_typed (EString s sp w)) as A.
      { intros Ht c k c' Hc E. inversion Ht; subst. cbn [compile_constant comp fst] in E. injection E as <- <-. split; [exact Hc|now constructor]. }
      split; [exact A|apply instr_from; [exact A|]]. intros _ c c0 is c' _ _ E. discriminate.
    - intros x sp. assert (const_typed (ENumber x sp)) as A.
      { intros Ht c k c' Hc E. inversion Ht; subst. cbn [compile_constant comp fst] in E. injection E as <- <-. split; [exact Hc|now constructor]. }
      split; [exact A|apply instr_from; [exact A|]]. intros _ c c0 is c' _ _ E. discriminate.
    - intros b sp. assert (const_typed (EBool b sp)) as A.
      { intros Ht c k c' Hc E. cbn [compile_constant comp fst] in E. injection E as <- <-. split; [exact Hc|now constructor]. }
      split; [exact A|apply instr_from; [exact A|]]. intros _ c c0 is c' _ _ E. discriminate.
    - intros l sp HF. assert (Forall const_typed l) as F1 by (eapply Forall_impl; [|exact HF]; tauto). assert (Forall instr_typed l) as F2 by (eapply Forall_impl; [|exact HF]; tauto).
      assert (const_typed (EArray l sp)) as A.
      { intros Ht c k c' Hc E. inversion Ht; subst. rewrite const_array in E. step E. injection E as <- <-. destruct (each_opt_typed _ F1 ltac:(assumption) _ _ _ Hc E0) as [G1 G2].
        split; [exact G1|]. destruct o; cbn [option_map]; [now constructor|exact I]. }
      split; [exact A|apply instr_from; [exact A|]]. intros Ht c c0 is c' Hc _ E. inversion Ht; subst. destruct (N.ltb_spec (N.of_nat (length l)) (2 ^ 16)) as [Hl|]; [|discriminate].
      step E. destruct (location_to_source p sp) as [si| | |] eqn:El; cbn [obind] in E; try discriminate. injection E as <- <-.
      destruct (each_typed (compile_instructions p) l) with (c := c) (iss := l0) (c' := p0) as [G1 G2]; auto.
      { rewrite Forall_forall in *. intros x Hx c1 is1 c1' Hc1. apply F2; auto. }
      split; [exact G1|]. apply Forall_app. split; [exact G2|]. constructor; [|constructor]. split; [exact Hl|eapply location_typed; eauto].
    - intros l sp HF. assert (Forall const_typed l) as F1 by (eapply Forall_impl; [|exact HF]; tauto).
      assert (const_typed (EConsumable l sp)) as A.
      { intros Ht c k c' Hc E. inversion Ht; subst. rewrite const_consumable in E. step E. injection E as <- <-. destruct (each_opt_typed _ F1 ltac:(assumption) _ _ _ Hc E0) as [G1 G2].
        split; [exact G1|]. destruct o; cbn [option_map]; [now constructor|exact I]. }
      split; [exact A|apply instr_from; [exact A|]]. intros _ c c0 is c' _ _ E. discriminate.
    - intros x sp. assert (const_typed (ENular x sp)) as A.
      { intros Ht c k c' Hc E. inversion Ht; subst. rewrite const_nular in E. destruct (is_constant_command x); [|injection E as <- <-; auto].
        destruct (normalize x) as [y| | |] eqn:Ey; cbn [obind] in E; try discriminate. injection E as <- <-. split; [exact Hc|]. constructor. eapply normalize_text; eauto. }
      split; [exact A|apply instr_from; [exact A|]]. intros Ht c c0 is c' Hc _ E. inversion Ht; subst. eapply named_typed; [|eassumption|exact Hc|exact E]. intros; split; assumption.
    - intros u e sp [_ Hi]. assert (const_typed (EUnary u e sp)) as A.
      { intros Ht c k c' Hc E. cbn [compile_constant comp fst] in E. injection E as <- <-. auto. }
      split; [exact A|apply instr_from; [exact A|]]. intros Ht c c0 is c' Hc _ E. inversion Ht; subst. step E. destruct (Hi ltac:(assumption) _ _ _ Hc E0) as [G1 G2].
      step E. injection E as <- <-. eapply named_typed in E1; [|intros; split; assumption|apply unary_text; assumption|exact G1]. destruct E1 as [G3 G4]. split; [exact G3|]. apply Forall_app; auto.
    - intros b e1 e2 sp [_ Hi1] [_ Hi2]. assert (const_typed (EBinary b e1 e2 sp)) as A.
      { intros Ht c k c' Hc E. cbn [compile_constant comp fst] in E. injection E as <- <-. auto. }
      split; [exact A|apply instr_from; [exact A|]]. intros Ht c c0 is c' Hc _ E. inversion Ht; subst. step E. destruct (Hi1 ltac:(assumption) _ _ _ Hc E0) as [G1 G2].
      step E. destruct (Hi2 ltac:(assumption) _ _ _ G1 E1) as [G3 G4].
      step E. injection E as <- <-. eapply named_typed in E2; [|intros; split; assumption|apply binary_text; assumption|exact G3]. destruct E2 as [G5 G6]. split; [exact G5|].
      rewrite !Forall_app. auto.
    - intros x sp. assert (const_typed (EVar x sp)) as A.
      { intros Ht c k c' Hc E. cbn [compile_constant comp fst] in E. injection E as <- <-. auto. }
      split; [exact A|apply instr_from; [exact A|]]. intros Ht c c0 is c' Hc _ E. inversion Ht; subst. eapply named_typed; [|eassumption|exact Hc|exact E]. intros; split; assumption.
    - intros x e sp [_ Hi] Ht c is c' Hc E. inversion Ht; subst. rewrite stmt_global in E. step E. destruct (Hi ltac:(assumption) _ _ _ Hc E0) as [G1 G2]. step E. injection E as <- <-.
      eapply named_typed in E1; [|intros; split; assumption|eassumption|exact G1]. destruct E1 as [G3 G4]. split; [exact G3|]. constructor; [exact I|apply Forall_app; auto].
    - intros x e sp [_ Hi] Ht c is c' Hc E. inversion Ht; subst. rewrite stmt_local in E. step E. destruct (Hi ltac:(assumption) _ _ _ Hc E0) as [G1 G2]. step E. injection E as <- <-.
      eapply named_typed in E1; [|intros; split; assumption|eassumption|exact G1]. destruct E1 as [G3 G4]. split; [exact G3|]. constructor; [exact I|apply Forall_app; auto].
    - intros e sp [_ Hi] Ht c is c' Hc E. inversion Ht; subst. rewrite stmt_plain in E. step E. destruct (Hi ltac:(assumption) _ _ _ Hc E0) as [G1 G2]. injection E as <- <-.
      split; [exact G1|]. constructor; [exact I|exact G2].
  Qed.
  Lemma script_typed virtual s c : Forall typed_stmt (content s) -> is_text (source s) -> (forall f, In f (sources p) -> is_text (virtual (fst f))) -> compile p virtual s = Ok c -> typed_script c.
  Proof.
    intros Hs Ht Hv H. destruct (compile_inv _ _ _ _ H) as (is & c1 & i & c2 & E & Ea & ->).
    destruct (stmts_typed (content s)) with (c := (@nil constant, @nil text)) (is := is) (c' := c1) as [G1 G2]; auto.
    { apply Forall_forall. intros x _. apply compile_typed. }
    { split; constructor. }
    destruct (add_constant_typed _ _ _ _ G1 (TString _ Ht) Ea) as [[G3 G4] G5]. unfold typed_script. cbn [entry_point constants names file_names]. repeat split.
    - apply N.mod_lt. lia.
    - apply Forall_app. split; [exact G3|]. constructor; [|constructor]. constructor; [exact G2|]. cbn [typed_pointer]. lia.
    - exact G4.
    - apply Forall_map. apply Forall_forall. intros f Hf. apply Hv. exact Hf.
  Qed.
End Typed.

(** ** Reading back what was compiled loads the same script *)
Lemma load_plain main files vs ns : forall k, load_constant main files vs ns (plain k) = load_constant main files vs ns k.
Proof.
  induction k using constant_ind'; cbn [plain load_constant]; try reflexivity; f_equal; induction H as [|x l Hx _ IH]; try reflexivity; cbn [map opt_map]; rewrite Hx; destruct (load_constant main files vs ns x); try reflexivity; now rewrite IH.
Qed.
Lemma load_pool_plain main files ns ks : forall vs, load_pool main files ns vs (map plain ks) = load_pool main files ns vs ks.
Proof. induction ks as [|k ks IH]; intros vs; cbn [map load_pool]; [reflexivity|]. rewrite load_plain. destruct (load_constant main files vs ns k); auto. Qed.
Lemma nth_n_map {A B} (f : A -> B) l i : nth_n (map f l) i = option_map f (nth_n l i).
Proof. unfold nth_n. apply nth_error_map. Qed.
Lemma load_as_written c : load (as_written c) = load c.
Proof.
  unfold load, as_written. cbn [constants entry_point names file_names]. rewrite !nth_n_map. destruct (nth_n (constants c) (entry_point c)) as [k|]; [|reflexivity].
  destruct k as [is [i|]| | | | | |]; cbn [option_map plain]; try reflexivity. rewrite nth_n_map. destruct (nth_n (constants c) i) as [k|]; [|reflexivity].
  destruct k; cbn [option_map plain]; try reflexivity. now rewrite load_pool_plain.
Qed.

(** ** Why writing can fail *)
Definition too_large (e : ser_error) : Prop :=
  match e with StringTooLong | ArrayTooLong | InstructionsLimit | BufferSizeLimit | ListTooLongBlock => True | InvalidConstantIndex _ | InvalidNameIndex _ | LzoFault => False end.
Lemma also_fail r r' e : also r r' = SerFail e -> r = SerFail e \/ r' = SerFail e.
Proof. unfold also, andthen. destruct r; [|auto]. destruct r'; [discriminate|auto]. Qed.
Lemma ser_all_fail {A} (f : A -> ser) l e : ser_all f l = SerFail e -> exists x, In x l /\ f x = SerFail e.
Proof.
  induction l as [|x l IH]; cbn [ser_all]; [discriminate|]. intro H. apply also_fail in H. destruct H as [H|H]; [exists x; cbn; auto|].
  destruct (IH H) as (y & Hy & E). exists y. cbn. auto.
Qed.
Lemma ser_string_fail s e : ser_string s = SerFail e -> too_large e.
Proof. unfold ser_string. cbv zeta. destruct (_ <? _); [discriminate|]. intro H. injection H as <-. exact I. Qed.
Section Fail.
  Context (c : compiled).
  (** The indices of an instruction are in the pools of [c]. *)
  Definition indexed (i : instr) : Prop :=
    match i with
    | EndStatement | MakeArray _ _ => True
    | Push k => k < N.of_nat (length (constants c))
    | CallNular x _ | CallUnary x _ | CallBinary x _ | GetVariable x _ | AssignTo x _ | AssignToLocal x _ => x < N.of_nat (length (names c))
    end.
  Fixpoint codes (k : constant) : list (list instr) :=
    match k with KCode is _ => [is] | KArray l | KConsumable l => flat_map codes l | _ => [] end.
  Lemma ser_instr_fail i e : indexed i -> ser_instr c i = SerFail e -> too_large e.
  Proof.
    assert (forall tag x si, x < N.of_nat (length (names c)) -> ser_named c tag x si = SerFail e -> too_large e) as A.
    { intros tag x si Hx H. unfold ser_named in H. apply also_fail in H. destruct H as [H|H]; [discriminate|]. unfold has_name in H.
      destruct (N.leb_spec (N.of_nat (length (names c))) x); [lia|discriminate]. }
    intros Hi H. destruct i; cbn [ser_instr indexed] in *; try (eapply A; eauto; fail); try discriminate.
    apply also_fail in H. destruct H as [H|H]; [discriminate|]. unfold has_constant in H.
    destruct (N.leb_spec (N.of_nat (length (constants c))) c0); [lia|discriminate].
  Qed.
  Lemma ser_constant_fail e : forall k, Forall (Forall indexed) (codes k) -> ser_constant c k = SerFail e -> too_large e.
  Proof.
    induction k using constant_ind'; intros Hi He; cbn [ser_constant codes] in *; try discriminate.
    - apply also_fail in He. destruct He as [He|He]; [discriminate|]. unfold ser_code in He. destruct (_ <? _); [|injection He as <-; exact I].
      apply also_fail in He. destruct He as [He|He]; [discriminate|]. apply ser_all_fail in He. destruct He as (i & Hin & He).
      eapply ser_instr_fail; [|exact He]. inversion Hi; subst. rewrite Forall_forall in *. auto.
    - apply also_fail in He. destruct He as [He|He]; [discriminate|]. eapply ser_string_fail; eauto.
    - destruct (_ <? _); [|injection He as <-; exact I]. apply also_fail in He. destruct He as [He|He]; [discriminate|].
      apply ser_all_fail in He. destruct He as (k & Hin & He). rewrite Forall_forall in H. apply (H k Hin); [|exact He].
      rewrite Forall_flat_map in Hi. rewrite Forall_forall in Hi. auto.
    - destruct (_ <? _); [|injection He as <-; exact I]. apply also_fail in He. destruct He as [He|He]; [discriminate|].
      apply ser_all_fail in He. destruct He as (k & Hin & He). rewrite Forall_forall in H. apply (H k Hin); [|exact He].
      rewrite Forall_flat_map in Hi. rewrite Forall_forall in Hi. auto.
    - apply also_fail in He. destruct He as [He|He]; [discriminate|]. eapply ser_string_fail; eauto.
  Qed.
  Lemma ser_list_fail {A} (f : A -> ser) l e : ser_list f l = SerFail e -> too_large e \/ exists x, In x l /\ f x = SerFail e.
  Proof.
    unfold ser_list. destruct (_ <? _); [|intro H; injection H as <-; left; exact I]. intro H. apply also_fail in H. destruct H as [H|H]; [discriminate|].
    right. now apply ser_all_fail.
  Qed.
  Lemma ser_compressed_fail r e : (forall d, r = Wrote d -> is_bytes d) -> ser_compressed r = SerFail e -> too_large e \/ r = SerFail e.
  Proof.
    intros Hb. unfold ser_compressed. destruct r as [d|e']; cbn [andthen]; [|auto]. destruct (N.ltb_spec (blen d) (2 ^ 32)); [|intro H1; injection H1 as <-; left; exact I].
    destruct (C16_decompress_inverts_compress d (worst_compress (blen d)) (blen d)) as (packed & -> & _); [auto|lia|lia|lia|discriminate].
  Qed.
  Lemma serialize_fail e : typed_script c -> Forall (fun k => Forall (Forall indexed) (codes k)) (constants c) -> serialize c = SerFail e -> too_large e.
  Proof.
    intros (He & Hk & Hn & Hf) Hi H. rewrite Forall_forall in *. unfold serialize in H.
    apply also_fail in H. destruct H as [H|H]; [discriminate|]. apply also_fail in H. destruct H as [H|H].
    { apply ser_compressed_fail in H.
      - destruct H as [H|H]; [exact H|]. apply ser_list_fail in H. destruct H as [H|(x & Hx & Ex)]; [exact H|]. eapply ser_string_fail; eauto.
      - intros d Hd. eapply list_bytes; [exact Hd|]. intros. eapply string_bytes; eauto. }
    apply also_fail in H. destruct H as [H|H]; [discriminate|]. apply also_fail in H. destruct H as [H|H].
    { apply ser_compressed_fail in H.
      - destruct H as [H|H]; [exact H|]. apply ser_list_fail in H. destruct H as [H|(x & Hx & Ex)]; [exact H|]. eapply ser_constant_fail; eauto.
      - intros d Hd. eapply list_bytes; [exact Hd|]. intros. eapply constant_bytes; eauto. }
    apply also_fail in H. destruct H as [H|H]; [discriminate|]. apply also_fail in H. destruct H as [H|H]; [|discriminate].
    apply ser_list_fail in H. destruct H as [H|(x & Hx & Ex)]; [exact H|]. eapply ser_string_fail; eauto.
  Qed.
End Fail.
