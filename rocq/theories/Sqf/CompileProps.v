(** C27, C28: compiled SQF. *)
From Coq Require Import String.
From Verif Require Import Base.Tactics Base.Bytes Base.Ascii Base.Text Preproc.Model Preproc.LexModel Workspace.ProcessedModel Sqf.Ast Sqf.CompileModel Sqf.CompileSpec Sqf.CompileProofs.
Local Open Scope N_scope.
Local Open Scope list_scope.

(** ** C27 *)

(** A compiled script, loaded, is the code of the script in postfix order. *)
Theorem C27_compiled_script_loads : forall p virtual s c,
  byte_len (o_text p) < 2 ^ 32 -> source s = o_text p -> compile p virtual s = Ok c ->
  N.of_nat (length (constants c)) <= 2 ^ 16 ->
  load c = Some (VCode (o_text p) (meaning p virtual (content s))).
Proof.
  intros p virtual s c Sm Hs H Hl. destruct (compile_loads p virtual s c Sm Hs H) as (vs & L & ks & is & i & Ek & Lk & Ee & Ni).
  assert (Q : entry_point c = N.of_nat (length ks)).
  { rewrite Ee. apply N.mod_small. rewrite Ek, app_length in Hl. cbn [length] in Hl. lia. }
  unfold load. rewrite Q, Ek, nth_n_app, (begins_nth _ _ _ _ (begins_app ks _) Ni), <- Ek, L, Lk. apply nth_n_app.
Qed.

(** Running the compiled script on a stack machine is evaluating the syntax tree from left to right, whatever the
    commands do. *)
Theorem C27_compiled_script_computes : forall p virtual s c,
  byte_len (o_text p) < 2 ^ 32 -> source s = o_text p -> compile p virtual s = Ok c ->
  N.of_nat (length (constants c)) <= 2 ^ 16 ->
  exists body, load c = Some (VCode (o_text p) body) /\
  forall (E : engine) st w, run E body st w = exec E p virtual (content s) st w.
Proof. intros. eexists. split; [eapply C27_compiled_script_loads; eauto|]. intros. apply run_meaning. Qed.

(** One value per expression: an expression adds its value to the stack and touches nothing below. *)
Theorem C27_one_value_per_expression : forall (E : engine) p virtual e st w,
  run E (postfix p virtual e) st w = match eval E p virtual e w with Some (v, w') => Some (v :: st, w') | None => None end.
Proof. intros. rewrite <- (app_nil_r (postfix p virtual e)). apply run_postfix. Qed.

(** ** C28 *)

(** The pieces of code in a constant. *)
Fixpoint codes_in (k : constant) : list (list instr) :=
  match k with KCode is _ => [is] | KArray l | KConsumable l => flat_map codes_in l | _ => [] end.
(** The indices an instruction uses, below [k] constants, [n] names and [f] files. *)
Definition name_in_range (n f x : N) (si : source_info) : Prop := x < n /\ si_file si < f.
Definition in_range (k n f : N) (i : instr) : Prop :=
  match i with
  | EndStatement | MakeArray _ _ => True
  | Push c => c < k
  | CallNular x si | CallUnary x si | CallBinary x si | GetVariable x si | AssignTo x si | AssignToLocal x si => name_in_range n f x si
  end.

Lemma nth_n_lt {A} (l : list A) i x : nth_n l i = Some x -> i < N.of_nat (length l).
Proof. intro H. assert (N.to_nat i < length l)%nat by (apply nth_error_Some; unfold nth_n in H; congruence). lia. Qed.
Lemma load_instr_range files vs ns i a : load_instr files vs ns i = Some a -> in_range (N.of_nat (length vs)) (N.of_nat (length ns)) (N.of_nat (length files)) i.
Proof.
  assert (forall f x si a, load_named files ns f x si = Some a -> name_in_range (N.of_nat (length ns)) (N.of_nat (length files)) x si) as A.
  { intros f x si b. unfold load_named, load_place. destruct (nth_n ns x) eqn:E; [|discriminate]. destruct (nth_n files (si_file si)) eqn:E'; [|discriminate].
    intros _. split; eauto using nth_n_lt. }
  destruct i; cbn; eauto. destruct (nth_n vs c) eqn:E; [|discriminate]. eauto using nth_n_lt.
Qed.
Lemma opt_map_forall {A B} (f : A -> option B) (P : A -> Prop) l : (forall x y, In x l -> f x = Some y -> P x) -> forall ys, opt_map f l = Some ys -> Forall P l.
Proof.
  induction l as [|x l IH]; intros H ys; cbn [opt_map]; [constructor|]. destruct (f x) as [y|] eqn:E; [|discriminate].
  destruct (opt_map f l) as [zs|]; [|discriminate]. intros _. constructor; [eapply H; cbn; eauto|eapply IH; [|reflexivity]; intros; eapply H; cbn; eauto].
Qed.
Lemma load_constant_range main files vs ns : forall k v, load_constant main files vs ns k = Some v ->
  Forall (Forall (in_range (N.of_nat (length vs)) (N.of_nat (length ns)) (N.of_nat (length files)))) (codes_in k).
Proof.
  assert (forall l, Forall (fun k => forall v, load_constant main files vs ns k = Some v -> Forall (Forall (in_range (N.of_nat (length vs)) (N.of_nat (length ns)) (N.of_nat (length files)))) (codes_in k)) l ->
    forall v, option_map VArray (opt_map (load_constant main files vs ns) l) = Some v -> Forall (Forall (in_range (N.of_nat (length vs)) (N.of_nat (length ns)) (N.of_nat (length files)))) (flat_map codes_in l)) as A.
  { intros l HF v. destruct (opt_map _ l) as [ys|] eqn:E; [|discriminate]. intros _. apply Forall_flat_map.
    eapply opt_map_forall; [|exact E]. intros x y Hx Hy. rewrite Forall_forall in HF. eapply HF; eauto. }
  induction k using constant_ind'; intros v; cbn [load_constant codes_in]; try (intros; constructor; fail).
  - destruct (load_pointer main vs q); [|discriminate]. destruct (opt_map (load_instr files vs ns) c) as [b|] eqn:E; [|discriminate].
    intros _. constructor; [|constructor]. eapply opt_map_forall; [|exact E]. intros. eapply load_instr_range; eauto.
  - now apply A.
  - now apply A.
Qed.

(** Every index is in range; a constant is only pushed by code stored after it, so constants are well founded; a code
    pointer into the pool, of the whole script, names a string stored before. *)
Theorem C28_indices_in_range : forall p virtual s c,
  byte_len (o_text p) < 2 ^ 32 -> source s = o_text p -> compile p virtual s = Ok c ->
  forall i k is, nth_error (constants c) i = Some k -> In is (codes_in k) ->
  Forall (in_range (N.of_nat i) (N.of_nat (length (names c))) (N.of_nat (length (file_names c)))) is.
Proof.
  intros p virtual s c Sm Hs H i k is Hk Hin. destruct (compile_loads p virtual s c Sm Hs H) as (vs & L & _).
  apply nth_error_split in Hk. destruct Hk as (a & b & Ek & <-). rewrite Ek, load_pool_app in L.
  destruct (load_pool _ _ _ [] a) as [va|] eqn:Ea; [|discriminate]. cbn [load_pool] in L.
  destruct (load_constant _ _ va _ k) as [v|] eqn:Ev; [|discriminate].
  apply load_constant_range in Ev. rewrite Forall_forall in Ev. apply load_pool_begins in Ea. destruct Ea as [_ La]. cbn in La. rewrite <- La. auto.
Qed.
(** The entry point is the last constant, code whose source is the text of the script. *)
Theorem C28_entry_point : forall p virtual s c,
  byte_len (o_text p) < 2 ^ 32 -> source s = o_text p -> compile p virtual s = Ok c ->
  N.of_nat (length (constants c)) <= 2 ^ 16 ->
  exists is i, constants c <> [] /\ entry_point c = N.of_nat (length (constants c)) - 1 /\
    nth_n (constants c) (entry_point c) = Some (KCode is (PConstant i)) /\ nth_n (constants c) i = Some (KString (o_text p)).
Proof.
  intros p virtual s c Sm Hs H Hl. destruct (compile_loads p virtual s c Sm Hs H) as (vs & L & ks & is & i & Ek & Lk & Ee & Ni).
  assert (Q : entry_point c = N.of_nat (length ks)).
  { rewrite Ee. apply N.mod_small. rewrite Ek, app_length in Hl. cbn [length] in Hl. lia. }
  exists is, i. rewrite Q, Ek, nth_n_app, (begins_nth _ _ _ _ (begins_app ks _) Ni), app_length. cbn [length].
  split; [now destruct ks|]. split; [lia|auto].
Qed.

(** ** The pool that is one too long *)
Definition numbers (a n : nat) : list N := map N.of_nat (seq a n).
Lemma index_of_none {A} (f : A -> A -> bool) l x : (forall y, In y l -> f y x = false) -> index_of f l x = None.
Proof. induction l as [|y l IH]; intro H; [reflexivity|]. cbn [index_of]. rewrite H by (cbn; auto). rewrite IH; [reflexivity|]. intros; apply H; cbn; auto. Qed.
Lemma pushes n : forall a ns, N.of_nat (a + n) <= 2 ^ 16 ->
  each push_constant (map KScalar (numbers a n)) (map KScalar (numbers 0 a), ns) = Ok (map (fun i => [Push i]) (numbers a n), (map KScalar (numbers 0 (a + n)), ns)).
Proof.
  induction n as [|n IH]; intros a ns L; [cbn [numbers seq map each]; now rewrite Nat.add_0_r|].
  unfold numbers at 1. cbn [seq map each push_constant]. unfold add_constant, add_or_get. cbn [fst snd].
  rewrite index_of_none.
  - replace (length (map KScalar (numbers 0 a))) with a by (unfold numbers; now rewrite !map_length, seq_length).
    replace (N.of_nat a <? 2 ^ 16) with true by (symmetry; apply N.ltb_lt; lia). cbn [obind].
    replace (map KScalar (numbers 0 a) ++ [KScalar (N.of_nat a)]) with (map KScalar (numbers 0 (S a))).
    2:{ unfold numbers. rewrite seq_S, !map_app. reflexivity. }
    specialize (IH (S a) ns ltac:(lia)). unfold numbers at 1 in IH. rewrite IH. cbn [obind]. rewrite Nat.add_succ_r. reflexivity.
  - intros y Hy. apply in_map_iff in Hy. destruct Hy as (z & <- & Hz). apply in_map_iff in Hz. destruct Hz as (m & <- & Hm). apply in_seq in Hm.
    cbn [constant_eqb]. apply N.eqb_neq. lia.
Qed.
Lemma consts p n : forall a c, each_opt (compile_constant p) (map (fun x => ENumber x (0, 0)) (numbers a n)) c = Ok (Some (map KScalar (numbers a n)), c).
Proof. induction n as [|n IH]; intros a c; [reflexivity|]. unfold numbers in *. cbn [seq map each_opt]. cbn [compile_constant comp fst obind]. rewrite IH. reflexivity. Qed.

(** One array of the numbers 0 to 65534. *)
Definition wide (n : nat) : statements := Statements [SExpr (EArray (map (fun x => ENumber x (0, 0)) (numbers 0 n)) (0, 0)) (0, 0)] [] (0, 0).
Lemma wide_compiles n : N.of_nat n < 2 ^ 16 -> exists c, compile empty (fun x => x) (wide n) = Ok c /\
  entry_point c = (N.of_nat n + 1) mod 2 ^ 16 /\ N.of_nat (length (constants c)) = N.of_nat n + 2 /\ (n <> O -> nth_n (constants c) 0 = Some (KScalar 0)).
Proof.
  intro L. unfold compile, wide. cbn [content each]. rewrite stmt_plain, instr_of_const, const_array.
  rewrite consts. cbn [obind option_map push_constant].
  pose proof (pushes n 0 [] ltac:(cbn; lia)) as E. cbn [numbers seq map] in E. fold (numbers 0 n) in E. rewrite E. cbn [obind].
  rewrite map_length. unfold numbers at 1. rewrite map_length, seq_length.
  replace (N.of_nat n <? 2 ^ 16) with true by (symmetry; apply N.ltb_lt; lia). cbn [obind].
  unfold add_constant, add_or_get. cbn [fst snd source]. rewrite index_of_none.
  2:{ intros y Hy. apply in_map_iff in Hy. destruct Hy as (z & <- & _). reflexivity. }
  rewrite map_length. unfold numbers at 1. rewrite map_length, seq_length. cbn [Nat.add].
  replace (N.of_nat n <? 2 ^ 16) with true by (symmetry; apply N.ltb_lt; lia). cbn [obind fst snd].
  eexists. split; [reflexivity|]. cbn [entry_point constants]. split.
  - rewrite app_length, map_length. unfold numbers. rewrite map_length, seq_length. cbn [length]. f_equal. lia.
  - split; [rewrite !app_length, map_length; unfold numbers; rewrite map_length, seq_length; cbn [length]; lia|].
    destruct n; [now intros []|]. intros _. reflexivity.
Qed.
(** With 65537 constants the entry point, kept in 16 bits, is the first constant: a number. *)
Theorem C28_entry_point_wraps_refuted : exists s c,
  compile empty (fun x => x) s = Ok c /\ N.of_nat (length (constants c)) = 2 ^ 16 + 1 /\
  entry_point c = 0 /\ nth_n (constants c) 0 = Some (KScalar 0).
Proof.
  assert (exists n, N.of_nat n = 65535) as (n & En) by (exists (N.to_nat 65535); apply Nnat.N2Nat.id).
  destruct (wide_compiles n) as (c & Hc & He & Hk & Hz); [rewrite En; reflexivity|].
  rewrite En in *. exists (wide n), c. split; [exact Hc|]. split; [rewrite Hk; reflexivity|]. split; [exact He|].
  apply Hz. intros ->. discriminate.
Qed.

(** ** A script: [x = [1, {y}, 1] + []; Hint str x] *)
Definition src1 : text := bs "x = [1, {y}, 1] + []; Hint str x".
Definition proc1 : processed :=
  match new (fun _ => Some src1) [Direct (Tok (Word src1) (Pos (LC 0 1 0) (LC 32 1 32) (bs "f")))] with Done p => p | _ => empty end.
Definition one : expr := ENumber 0x3f800000 (5, 6).
Definition script1 : statements :=
  Statements
    [SGlobal (bs "x") (EBinary BAdd (EArray [one; ECode [SExpr (EVar (bs "y") (9, 10)) (9, 10)] (bs "y") (9, 10); one] (4, 15)) (EArray [] (18, 20)) (16, 17)) (0, 20);
     SExpr (EUnary (UNamed (bs "Hint")) (EUnary (UNamed (bs "str")) (EVar (bs "x") (31, 32)) (27, 30)) (22, 26)) (22, 32)]
    src1 (0, 32).
(** The number is stored once; the array is made on the stack; names are stored in lower case. *)
Example C27_ex_compiles : exists c, compile proc1 (fun x => x) script1 = Ok c /\
  constants c = [KScalar 0x3f800000; KCode [EndStatement; GetVariable 0 (Info 9 0 1)] (PSource 9 1); KString src1;
    KCode [EndStatement; Push 0; Push 1; Push 0; MakeArray 3 (Info 0 0 0); MakeArray 0 (Info 0 0 0); CallBinary 1 (Info 16 0 1); AssignTo 2 (Info 0 0 1);
           EndStatement; GetVariable 2 (Info 31 0 1); CallUnary 3 (Info 27 0 1); CallUnary 4 (Info 22 0 1)] (PConstant 2)] /\
  names c = [bs "y"; bs "+"; bs "x"; bs "str"; bs "hint"] /\ entry_point c = 3 /\ file_names c = [bs "f"].
Proof. eexists. split; [vm_compute; reflexivity|]. vm_compute. auto. Qed.
Example C27_ex : exists c, compile proc1 (fun x => x) script1 = Ok c /\ load c = Some (VCode src1 (meaning proc1 (fun x => x) (content script1))).
Proof.
  destruct C27_ex_compiles as (c & Hc & Hk & _). exists c. split; [exact Hc|].
  apply (C27_compiled_script_loads proc1 (fun x => x) script1 c); [reflexivity|reflexivity|exact Hc|rewrite Hk; cbn; discriminate].
Qed.
Example C28_ex : exists c is, compile proc1 (fun x => x) script1 = Ok c /\ nth_error (constants c) 3 = Some (KCode is (PConstant 2)) /\
  Forall (in_range 3 5 1) is /\ entry_point c = 3.
Proof.
  destruct C27_ex_compiles as (c & Hc & Hk & Hn & He & Hf). eexists c, _. split; [exact Hc|]. rewrite Hk. cbn [nth_error]. split; [reflexivity|]. split; [|exact He].
  pose proof (C28_indices_in_range proc1 (fun x => x) script1 c ltac:(reflexivity) eq_refl Hc 3) as H. rewrite Hk, Hn, Hf in H.
  apply (H _ _ eq_refl). left. reflexivity.
Qed.

Print Assumptions C27_compiled_script_loads.
Print Assumptions C27_compiled_script_computes.
Print Assumptions C27_one_value_per_expression.
Print Assumptions C28_indices_in_range.
Print Assumptions C28_entry_point.
Print Assumptions C28_entry_point_wraps_refuted.
