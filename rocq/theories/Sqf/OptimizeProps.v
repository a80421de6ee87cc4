(** C30 and C31: what the SQF optimiser may change. *)
From Coq Require Import String.
From Verif Require Import Base.Tactics Base.Bytes Base.Ascii Base.Text Sqf.Ast Sqf.OptimizeModel Sqf.OptimizeSpec Sqf.OptimizeProofs Sqf.OptimizeTotal
  Sqf.OptimizeEngine Sqf.OptimizeEngineProofs.
Local Open Scope N_scope.
Local Open Scope list_scope.

Section Props.
  Context (fneg fsqrt : N -> N) (fadd fsub fmul fdiv frem : N -> N -> N) (finite : N -> bool).
  Notation optimize := (optimize fneg fsqrt fadd fsub fmul fdiv frem finite).
  Notation optimize_block := (optimize_block fneg fsqrt fadd fsub fmul fdiv frem finite).
  Notation documented := (documented fneg fsqrt fadd fsub fmul fdiv frem finite).

  (** C30. In every interpretation of the commands that meets the documented laws, the script and the optimised script,
      started in corresponding worlds, both abort or both end, with corresponding values and worlds, at every depth of
      nested calls. The source text and place of the script are kept. *)
  Theorem C30_optimizer_preserves_meaning : forall (L : lang) (C : correspondence L), documented L C ->
    forall s s', optimize s = Some s' ->
    source s' = source s /\ st_span s' = st_span s /\
    forall n k w w', Rw C k [] w w' -> same L C (Ro L C) k [] (exec L n (content s) w) (exec L n (content s') w').
  Proof.
    intros L C (HC & HA & HT & HY) s s' H. unfold OptimizeModel.optimize in H. destruct (optimize_block (content s)) as [c|] eqn:E; [|discriminate].
    injection H as <-. cbn [source st_span content]. repeat split. intros n k w w' Hw.
    apply (exec_alike fneg fsqrt fadd fsub fmul fdiv frem finite L C HC HA HT HY n (content s) c k [] w w'); [now right|assumption].
  Qed.

  (** C31. The optimiser returns on every script without [{..} else {..}] as an element of an array expression. *)
  Theorem C31_optimizer_returns : forall s, forallb no_else_stmt (content s) = true -> exists s', optimize s = Some s'.
  Proof.
    intros s H. destruct (block_total fneg fsqrt fadd fsub fmul fdiv frem finite _ H) as [c E]. unfold OptimizeModel.optimize. rewrite E. eauto.
  Qed.
  (** With one, it panics: [params [{} else {}]]. *)
  Theorem C31_else_in_array_refuted : forall sp src,
    optimize (Statements [SExpr (EUnary (UNamed (bs "params")) (EArray [EBinary BElse (ECode [] [] sp) (ECode [] [] sp) sp] sp) sp) sp] src sp) = None.
  Proof. reflexivity. Qed.
  (** Only such an array, the argument of a command that consumes it, matters: [[{} else {}]] alone is fine. *)
  Example C31_else_elsewhere : forall sp src, exists s',
    optimize (Statements [SExpr (EArray [EBinary BElse (ECode [] [] sp) (ECode [] [] sp) sp] sp) sp] src sp) = Some s'.
  Proof. intros. eexists. reflexivity. Qed.
End Props.

(** ** A program and an engine *)
Section Example.
  Notation Lh := (heap_lang N.succ N.sqrt N.add N.sub N.mul N.div N.modulo).
  Notation Ch := (heap_corr N.succ N.sqrt N.add N.sub N.mul N.div N.modulo (fun _ => true)).
  Notation opt := (optimize N.succ N.sqrt N.add N.sub N.mul N.div N.modulo (fun _ => true)).
  Notation z := ((0, 0) : span).
  Let num x := ENumber x z.
  Let var x := EVar (bs x) z.
  Let bin x a b := EBinary (BNamed (bs x)) a b z.
  Let un x a := EUnary (UNamed (bs x)) a z.

  (** [x = [1, 2]; x pushBack (1 + 2); a = x vectorAdd [10, 2 * 10];
       y = {1} else {2}; _this call {(param [0, 7]) + (count a)}] *)
  Definition prog : statements := Statements [
    SGlobal (bs "x") (EArray [num 1; num 2] z) z;
    SExpr (bin "pushBack" (var "x") (EBinary BAdd (num 1) (num 2) z)) z;
    SLocal (bs "a") (bin "vectorAdd" (var "x") (EArray [num 10; EBinary BMul (num 2) (num 10) z] z)) z;
    SGlobal (bs "y") (EBinary BElse (ECode [SExpr (num 1) z] [] z) (ECode [SExpr (num 2) z] [] z) z) z;
    SExpr (bin "call" (var "_this") (ECode [SExpr (EBinary BAdd (un "param" (EArray [num 0; num 7] z)) (un "count" (var "a")) z) z] [] z)) z
    ] [] z.
  Definition prog_optimized : statements := Statements [
    SGlobal (bs "x") (EArray [num 1; num 2] z) z;
    SExpr (bin "pushBack" (var "x") (num 3)) z;
    SLocal (bs "a") (bin "vectorAdd" (var "x") (EConsumable [num 10; num 20] z)) z;
    SGlobal (bs "y") (EConsumable [ECode [SExpr (num 1) z] [] z; ECode [SExpr (num 2) z] [] z] z) z;
    SExpr (un "call" (ECode [SExpr (EBinary BAdd (un "param" (EConsumable [num 0; num 7] z)) (un "count" (var "a")) z) z] [] z)) z
    ] [] z.
  Example C30_ex_optimized : opt prog = Some prog_optimized.
  Proof. vm_compute. reflexivity. Qed.
  Notation start := (Wld [] [] (VNull (bs "nil"))).
  Definition result {A} (r : option (option val * A)) : option val := match r with Some (Some v, _) => Some v | _ => None end.
  Example C30_ex_run : result (exec (Lh false false) 2 (content prog) start) = Some (VNum 9) /\
    result (exec (Lh false false) 2 (content prog_optimized) start) = Some (VNum 9).
  Proof. vm_compute. split; reflexivity. Qed.
  (** The hypotheses of C30 hold for this engine, and its start world corresponds to itself. *)
  Example C30_ex_laws : documented N.succ N.sqrt N.add N.sub N.mul N.div N.modulo (fun _ => true) (Lh false false) (Ch false false) /\
    Rw (Ch false false) [] [] start start.
  Proof.
    split; [now apply heap_documented|]. split; cbn; try (intros; contradiction); constructor.
  Qed.
  (** The worlds differ after the run: the optimised script makes two arrays fewer. *)
  Example C30_ex_worlds :
    match exec (Lh false false) 2 (content prog) start, exec (Lh false false) 2 (content prog_optimized) start with
    | Some (_, w), Some (_, w') => length (heap w) = 4%nat /\ length (heap w') = 2%nat
    | _, _ => False
    end.
  Proof. vm_compute. split; reflexivity. Qed.
  Example C31_ex : forallb no_else_stmt (content prog) = true.
  Proof. reflexivity. Qed.

  (** ** The laws that are needed *)

  (** [_this call {_this = 1}; _this]: where [_this] can be assigned, the optimised script overwrites it. *)
  Definition rebinds : statements := Statements [
    SExpr (bin "call" (var "_this") (ECode [SGlobal (bs "_this") (num 1) z] [] z)) z; SExpr (var "_this") z] [] z.
  Theorem C30_assigning_this_refuted :
    congruence N.succ N.sqrt N.add N.sub N.mul N.div N.modulo (fun _ => true) (Lh true false) (Ch true false) /\
    arithmetic N.succ N.sqrt N.add N.sub N.mul N.div N.modulo (fun _ => true) (Lh true false) /\
    arrays N.succ N.sqrt N.add N.sub N.mul N.div N.modulo (fun _ => true) (Lh true false) (Ch true false) /\
    exists s', opt rebinds = Some s' /\
      result (exec (Lh true false) 2 (content rebinds) (Wld [] [] (VNum 7))) = Some (VNum 7) /\
      result (exec (Lh true false) 2 (content s') (Wld [] [] (VNum 7))) = Some (VNum 1).
  Proof.
    split; [apply heap_congruence|]. split; [apply heap_arithmetic|]. split; [now apply heap_arrays|].
    eexists. split; [vm_compute; reflexivity|]. vm_compute. split; reflexivity.
  Qed.
  (** [({} else {}) pushBack 1]: where [else] makes an array that can be changed, the optimised script has a constant. *)
  Definition changes_else : statements := Statements [
    SExpr (bin "pushBack" (EBinary BElse (ECode [] [] z) (ECode [] [] z) z) (num 1)) z] [] z.
  Theorem C30_changing_else_refuted :
    congruence N.succ N.sqrt N.add N.sub N.mul N.div N.modulo (fun _ => true) (Lh false true) (Ch false true) /\
    arithmetic N.succ N.sqrt N.add N.sub N.mul N.div N.modulo (fun _ => true) (Lh false true) /\
    this_is_kept N.succ N.sqrt N.add N.sub N.mul N.div N.modulo (fun _ => true) (Lh false true) (Ch false true) /\
    exists s', opt changes_else = Some s' /\
      result (exec (Lh false true) 2 (content changes_else) start) = Some (VNum 2) /\
      exec (Lh false true) 2 (content s') start = None.
  Proof.
    split; [apply heap_congruence|]. split; [apply heap_arithmetic|]. split; [now apply heap_this|].
    eexists. split; [vm_compute; reflexivity|]. vm_compute. split; reflexivity.
  Qed.
End Example.

Print Assumptions C30_optimizer_preserves_meaning.
Print Assumptions C31_optimizer_returns.
Print Assumptions C31_else_in_array_refuted.
Print Assumptions C30_assigning_this_refuted.
Print Assumptions C30_changing_else_refuted.
