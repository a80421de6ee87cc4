(** C74: text that does not go with the macros stops the file, and so does the end of the file inside a block. *)
From Coq Require Import String.
From Verif Require Import Base.Tactics Base.Bytes Base.Ascii Base.Text Preproc.Model Preproc.Fuel Preproc.Spec Preproc.Expand
  Preproc.BlockSpec Preproc.Blocks Preproc.Props Preproc.RejectSpec Preproc.Reject Preproc.MisuseSpec.
Local Open Scope N_scope.
Local Open Scope list_scope.

(** The result of a stop. *)
Definition stopped {A} (r : stop) : run A := match r with Some e => Err e | None => Panic end.
Lemma stopped_fuel {A} r : @stopped A r <> NoFuel.
Proof. destruct r; discriminate. Qed.
Lemma stopped_bind {A B} r (k : A -> run B) : rbind (stopped r) k = stopped r.
Proof. destruct r; reflexivity. Qed.
Lemma le_stopped {A} (a b : run A) r : le_run a b -> a = stopped r -> b = stopped r.
Proof. intros [->| ->] H; auto. symmetry in H. destruct (stopped_fuel _ H). Qed.

Section Misuse.
  Context (checked : bool) (locate : text -> text -> option (text * bool)) (parse : text -> run (list token))
          (project : option (option text * text)) (F : Type) (parse_f64 : text -> option F) (flt fle : F -> F -> bool).
  Notation G := (fns checked locate parse project F parse_f64 flt fle).
  Notation le := (fns_le checked locate parse project F parse_f64 flt fle).
  Notation exec_use := (exec_use checked locate parse project F parse_f64 flt fle).
  Notation exec_args := (exec_args checked locate parse project F parse_f64 flt fle).

  Lemma walk_stop n m site im s p ts out q qp jw r : (n <= m)%nat ->
    c_walk (G n) site im s p ts out q qp jw = stopped r -> c_walk (G m) site im s p ts out q qp jw = stopped r.
  Proof. intros H E. exact (le_stopped _ _ _ (le_walk _ _ (le n m H) _ _ _ _ _ _ _ _ _) E). Qed.
  Lemma use_stop n m site s p ts out r : (n <= m)%nat ->
    c_define_use (G n) site s p ts out = stopped r -> c_define_use (G m) site s p ts out = stopped r.
  Proof. intros H E. exact (le_stopped _ _ _ (le_define_use _ _ (le n m H) _ _ _ _ _) E). Qed.
  Lemma args_stop n m site s p ts q d args arg r : (n <= m)%nat ->
    c_call_args (G n) site s p ts q d args arg = stopped r -> c_call_args (G m) site s p ts q d args arg = stopped r.
  Proof. intros H E. exact (le_stopped _ _ _ (le_call_args _ _ (le n m H) _ _ _ _ _ _ _ _) E). Qed.

  Definition P_misuse (e : env) site m c ts r : Prop :=
    forall s p, agrees e (defs s) -> counter (defs s) = c -> is_reading s = true ->
    forall out jw, exists n, c_walk (G n) site m s p ts out false None jw = stopped r.
  Definition P_bad_use (e : env) site c ts r : Prop :=
    forall s p, agrees e (defs s) -> counter (defs s) = c -> is_reading s = true ->
    forall out, exists n, c_define_use (G n) site s p ts out = stopped r.
  Definition P_bad_args (e : env) site c depth ts r : Prop :=
    forall s p, agrees e (defs s) -> counter (defs s) = c -> is_reading s = true ->
    forall args arg, exists n, c_call_args (G n) site s p ts false depth args arg = stopped r.

  Lemma stop_all : forall e, (forall site m c ts r, misuse project e site m c ts r -> P_misuse e site m c ts r) /\
    (forall site c ts r, bad_use project e site c ts r -> P_bad_use e site c ts r) /\
    (forall site c depth ts r, bad_args project e site c depth ts r -> P_bad_args e site c depth ts r).
  Proof.
    apply (misuse_ind3 project P_misuse P_bad_use P_bad_args); unfold P_misuse, P_bad_use, P_bad_args.
    - (* plain *)
      intros e site m c t ts r T _ IH s p A C R out jw.
      assert (exists j, forall n, walk (G n) site m s p (t :: ts) out false None jw
                = c_walk (G n) site m s p ts (settle out (shown t)) false None j) as [j Hj].
      { unfold walk. rewrite (emit_settle s t out R). destruct (t_sym t); try contradiction; eexists; intros; reflexivity. }
      destruct (IH s p A C R (settle out (shown t)) j) as [n Hn]. exists (S n). rewrite walk_S, Hj. exact Hn.
    - (* newline *)
      intros e site m c t ts r T _ IH s p A C R out jw. destruct (IH s p A C R (emit s t out) true) as [n Hn].
      exists (S n). rewrite walk_S. unfold walk. rewrite T. exact Hn.
    - (* quoted *)
      intros e site m c q1 l q2 ts r T1 T2 Hl _ IH s p A C R out jw.
      destruct (walk_quoted checked locate parse project F parse_f64 flt fle site m s p R l Hl ts (settle out [Direct q1]) (stopped r) q2 T2) with (jw := false) as [n Hn].
      { intro. apply IH; auto. }
      exists (S n). rewrite walk_S. unfold walk. rewrite T1, (emit_settle s q1 out R). unfold shown. rewrite T1. exact Hn.
    - (* word *)
      intros e site m c t w ts r T Rf V _ IH s p A C R out jw. destruct (IH s p A C R (emit s t out) false) as [n Hn].
      exists (S n). rewrite walk_S. unfold walk. rewrite T. destruct (refused_false locate parse F parse_f64 w Rf) as [-> ->].
      replace (negb _ && contains_key w (defs s)) with false; [exact Hn|].
      symmetry. destruct V as [V| ->].
      + rewrite (not_true (visible_contains e (defs s) w A) V). apply Bool.andb_false_r.
      + rewrite text_eqb_refl. reflexivity.
    - (* use *)
      intros e site m c t w ts c1 rest o1 r T Rf V Nm U _ IH s p A C R out jw.
      destruct (exec_use _ _ _ _ _ _ _ U) as [_ IU]. destruct (IU s p A C R) as (s1 & Af1 & Hu).
      destruct (Hu [] out) as [n1 Hn1]. rewrite !app_nil_r in Hn1.
      destruct (IH s1 p (after_agrees _ _ _ _ Af1 A) (after_counter _ _ _ Af1) ltac:(rewrite (after_reading _ _ _ Af1); exact R) (rev o1 ++ out) false) as [n2 Hn2].
      exists (S (n1 + n2)). rewrite walk_S. unfold walk. rewrite T. destruct (refused_false locate parse F parse_f64 w Rf) as [-> ->].
      rewrite (proj2 (visible_contains e (defs s) w A) V).
      replace (match m with Some m => _ | None => _ end) with false
        by (destruct m as [m|]; auto; destruct (text_eqb_spec w m); congruence).
      cbn [negb andb]. rewrite (use_up _ _ _ _ _ _ _ _ n1 (n1 + n2) _ _ _ _ _ _ ltac:(lia) Hn1). cbn [rbind].
      eapply walk_stop; [|exact Hn2]. lia.
    - (* hash *)
      intros e site m c t x ts r T N1 N2 _ IH s p A C R out jw. destruct (IH s p A C R (emit s t out) jw) as [n Hn].
      exists (S n). rewrite walk_S. unfold walk. rewrite T, (not_true (among_directive _) N1), Bool.andb_false_r.
      assert (m = None \/ (is_word (t_sym x) && contains_key (tok_text x) (defs s)) = false) as V.
      { destruct N2 as [->|N2]; auto. right. unfold tok_text. destruct (t_sym x) eqn:Ex; cbn [is_word andb]; auto.
        apply (not_true (visible_contains e (defs s) _ A)). apply N2. reflexivity. }
      destruct V as [->| ->]; [exact Hn|]. destruct m; exact Hn.
    - (* exec *)
      intros e site m c t ts T s p A C R out jw. exists 1%nat. rewrite walk_S. unfold walk. rewrite T, text_eqb_refl. reflexivity.
    - (* unsupported *)
      intros e site m c t w ts T Nx U s p A C R out jw. exists 1%nat. rewrite walk_S. unfold walk. rewrite T, U.
      destruct (text_eqb_spec w (bs "__EXEC")); [contradiction|reflexivity].
    - (* bad use *)
      intros e site m c t w ts r T Rf V Nm _ IH s p A C R out jw. destruct (IH s p A C R out) as [n Hn].
      exists (S n). rewrite walk_S. unfold walk. rewrite T. destruct (refused_false locate parse F parse_f64 w Rf) as [-> ->].
      rewrite (proj2 (visible_contains e (defs s) w A) V).
      replace (match m with Some m => _ | None => _ end) with false
        by (destruct m as [m|]; auto; destruct (text_eqb_spec w m); congruence).
      cbn [negb andb]. rewrite Hn. apply stopped_bind.
    - (* unit *)
      intros e site c id c1 from rest w T M Nr s p A C R out. destruct (meaning_get checked project e (defs s) site id c c1 _ _ A C M I) as [by_ E].
      exists 1%nat. rewrite use_S. unfold define_use, current_word. rewrite T. cbn [is_word rbind]. rewrite E. destruct rest; [congruence|reflexivity].
    - intros e site c id c1 from w T M s p A C R out. destruct (meaning_get checked project e (defs s) site id c c1 _ _ A C M I) as [by_ E].
      exists 1%nat. rewrite use_S. unfold define_use, current_word. rewrite T. cbn [is_word rbind]. rewrite E. reflexivity.
    - (* not called *)
      intros e site c id c1 at_ ps body from x rest w T M O Nx s p A C R out.
      destruct (meaning_get checked project e (defs s) site id c c1 _ _ A C M O) as [by_ E].
      exists 1%nat. rewrite use_S. unfold define_use, current_word. rewrite T. cbn [is_word rbind]. rewrite E. cbn [rbind].
      replace (is_lparen (t_sym x)) with false; [reflexivity|]. destruct (t_sym x); auto; congruence.
    - intros e site c id c1 at_ ps body from w T M O s p A C R out.
      destruct (meaning_get checked project e (defs s) site id c c1 _ _ A C M O) as [by_ E].
      exists 1%nat. rewrite use_S. unfold define_use, current_word. rewrite T. cbn [is_word rbind]. rewrite E. reflexivity.
    - (* argument count *)
      intros e site c id c1 at_ ps body from lp ts c2 rest l w T M O Tl Ar Len s p A C R out.
      destruct (meaning_get checked project e (defs s) site id c c1 _ _ A C M O) as [by_ E].
      set (s1 := with_defs (Defs (global (defs s)) (frames (defs s)) c1) s) in *.
      destruct (exec_args _ _ _ _ _ _ _ _ Ar) as [Nl IA]. destruct (IA s1 p A eq_refl R) as (s2 & Af2 & H2).
      destruct (H2 [] [] []) as [n Hn]. rewrite !app_nil_r in Hn.
      exists (S n). rewrite use_S. unfold define_use, current_word. rewrite T. cbn [is_word rbind]. rewrite E. cbn [rbind]. fold s1.
      rewrite Tl. cbn [is_lparen]. rewrite Hn. cbn [rbind rev app].
      replace (match l with a :: l0 => a :: l0 | [] => [] end) with l by (destruct l; reflexivity).
      destruct (Nat.eqb_spec (List.length (drop_empty l)) (List.length ps)); [contradiction|reflexivity].
    - (* bad argument *)
      intros e site c id c1 at_ ps body from lp ts w r T M O Tl _ IH s p A C R out.
      destruct (meaning_get checked project e (defs s) site id c c1 _ _ A C M O) as [by_ E].
      set (s1 := with_defs (Defs (global (defs s)) (frames (defs s)) c1) s) in *.
      destruct (IH s1 p A eq_refl R [] []) as [n Hn].
      exists (S n). rewrite use_S. unfold define_use, current_word. rewrite T. cbn [is_word rbind]. rewrite E. cbn [rbind]. fold s1.
      rewrite Tl. cbn [is_lparen]. rewrite Hn. apply stopped_bind.
    - (* bad body *)
      intros e site c id c1 at_ ps body from lp ts c2 rest l w r T M O Tl Ar Len _ IH s p A C R out.
      destruct (meaning_get checked project e (defs s) site id c c1 _ _ A C M O) as [by_ E].
      set (s1 := with_defs (Defs (global (defs s)) (frames (defs s)) c1) s) in *.
      destruct (exec_args _ _ _ _ _ _ _ _ Ar) as [Nl IA]. destruct (IA s1 p A eq_refl R) as (s2 & Af2 & H2).
      set (args := drop_empty l) in *.
      destruct (bind_args (pad_checked p w) ps args s2 []) as [s3 tbl] eqn:B.
      assert (after s2 c2 s3) as Af3.
      { pose proof (bind_args_after (pad_checked p w) ps args s2 []) as X. rewrite B, (after_counter _ _ _ Af2) in X. exact X. }
      assert (forall k, arg_of k ps args = find k tbl) as Tb.
      { intro k. pose proof (bind_args_table (pad_checked p w) ps args s2 [] k) as X. rewrite B in X. cbn [snd find] in X.
        rewrite X. destruct (arg_of k ps args); auto. }
      set (s4 := with_defs (d_push w tbl (defs s3)) s3) in *.
      assert (after s1 c2 s3) as Af13 by eauto using after_trans.
      destruct (IH s4 p) with (out := @nil output) (jw := true) as [n5 Hn5].
      { destruct Af13 as [ws X]. subst s4. rewrite X. split; cbn; [apply A|]. split; auto. }
      { subst s4. cbn. apply (after_counter _ _ _ Af13). }
      { subst s4. change (is_reading s3 = true). rewrite (after_reading _ _ _ Af13). exact R. }
      destruct (H2 [] [] []) as [n2 Hn2]. rewrite !app_nil_r in Hn2.
      exists (S (n2 + n5)). rewrite use_S. unfold define_use, current_word.
      rewrite T. cbn [is_word rbind]. rewrite E. cbn [rbind]. fold s1. unfold tok_text. rewrite T, Tl. cbn [sym_text is_lparen].
      rewrite (args_up _ _ _ _ _ _ _ _ n2 (n2 + n5) _ _ _ _ _ _ _ _ _ ltac:(lia) Hn2). cbn [rbind rev app].
      replace (match l with a :: l0 => a :: l0 | [] => [] end) with l by (destruct l; reflexivity). fold args.
      rewrite Len, Nat.eqb_refl. cbn [negb]. rewrite B. fold s4.
      rewrite (walk_stop n5 (n2 + n5) _ _ _ _ _ _ _ _ _ _ ltac:(lia) Hn5). apply stopped_bind.
    - (* value *)
      intros e site c id c1 body from rest w r T M Fr _ IH s p A C R out.
      destruct (meaning_get checked project e (defs s) site id c c1 _ _ A C M I) as [by_ E].
      set (s1 := with_defs (Defs (global (defs s)) (frames (defs s)) c1) s) in *.
      destruct (IH s1 p A eq_refl R [] true) as [n Hn].
      exists (S n). rewrite use_S. unfold define_use, current_word.
      rewrite T. cbn [is_word rbind]. rewrite E. cbn [rbind]. fold s1. unfold tok_text. rewrite T. cbn [sym_text].
      destruct from; try congruence; rewrite Hn; apply stopped_bind.
    - (* comma *)
      intros e site c depth t ts r T _ IH s p A C R args arg. destruct (IH s p A C R (rev arg :: args) []) as [n Hn].
      exists (S n). rewrite args_S. unfold call_args. rewrite T. exact Hn.
    - (* open *)
      intros e site c depth t ts r T _ IH s p A C R args arg. destruct (IH s p A C R args (t :: arg)) as [n Hn].
      exists (S n). rewrite args_S. unfold call_args. rewrite T. exact Hn.
    - (* shut *)
      intros e site c depth t ts r T _ IH s p A C R args arg. destruct (IH s p A C R args (t :: arg)) as [n Hn].
      exists (S n). rewrite args_S. unfold call_args. rewrite T.
      replace (depth + 1 =? 0) with false by (symmetry; apply N.eqb_neq; lia). replace (depth + 1 - 1) with depth by lia. exact Hn.
    - (* quoted *)
      intros e site c depth q1 v q2 ts r T1 T2 Hv _ IH s p A C R args arg.
      assert (forall v, (forall t, In t v -> t_sym t <> DQuote) -> forall arg, exists n,
        c_call_args (G n) site s p (v ++ q2 :: ts) true depth args arg = stopped r) as Q.
      { clear v Hv. induction v as [|t v IHv]; intros Hv arg'.
        - destruct (IH s p A C R args (q2 :: arg')) as [n Hn]. exists (S n). rewrite args_S. cbn [app]. unfold call_args. rewrite T2. exact Hn.
        - destruct (IHv (fun t Ht => Hv t (or_intror Ht)) (t :: arg')) as [n Hn]. exists (S n). rewrite args_S. cbn [app]. unfold call_args.
          pose proof (Hv t (or_introl eq_refl)) as Nt. destruct (t_sym t); try congruence; exact Hn. }
      destruct (Q v Hv (q1 :: arg)) as [n Hn]. exists (S n). rewrite args_S. unfold call_args. rewrite T1. exact Hn.
    - (* plain *)
      intros e site c depth t ts r T _ IH s p A C R args arg. destruct (IH s p A C R args (t :: arg)) as [n Hn].
      exists (S n). rewrite args_S. unfold call_args. destruct (t_sym t); try contradiction; try exact Hn.
      rewrite (not_true (visible_contains e (defs s) w A) T). exact Hn.
    - (* use *)
      intros e site c depth t w ts c1 r1 o r T V U _ IH s p A C R args arg.
      destruct (exec_use _ _ _ _ _ _ _ U) as [_ IU]. destruct (IU s p A C R) as (s1 & Af1 & Hu).
      destruct (Hu [] []) as [n1 Hn1]. rewrite !app_nil_r in Hn1.
      destruct (IH s1 p (after_agrees _ _ _ _ Af1 A) (after_counter _ _ _ Af1) ltac:(rewrite (after_reading _ _ _ Af1); exact R) args (rev (flat_map out_toks o) ++ arg)) as [n2 Hn2].
      exists (S (n1 + n2)). rewrite args_S. unfold call_args. rewrite T.
      rewrite (proj2 (visible_contains e (defs s) w A) V), (use_up _ _ _ _ _ _ _ _ n1 (n1 + n2) _ _ _ _ _ _ ltac:(lia) Hn1). cbn [rbind].
      rewrite rev_involutive. eapply args_stop; [|exact Hn2]. lia.
    - (* bad use *)
      intros e site c depth t w ts r T V _ IH s p A C R args arg. destruct (IH s p A C R []) as [n Hn].
      exists (S n). rewrite args_S. unfold call_args. rewrite T, (proj2 (visible_contains e (defs s) w A) V), Hn. apply stopped_bind.
  Qed.

  Notation yields := (yields checked locate parse project F parse_f64 flt fle).
  Notation stops := (stops project F parse_f64 flt fle locate parse).
  Notation line_directive := (line_directive checked locate parse project F parse_f64 flt fle).
  Notation exec_run := (exec_run checked locate parse project F parse_f64 flt fle).
  Notation holds_line := (holds_line checked locate parse project F parse_f64 flt fle).
  Notation skip := (skip checked locate parse project F parse_f64 flt fle).

  Lemma text_stops g c ws t ts r s p out : blank ws -> is_space (t_sym t) = false -> t_sym t <> Hash ->
    misuse project (Env g None) None None c (t :: ts) r -> agrees (Env g None) (defs s) -> counter (defs s) = c -> is_reading s = true ->
    yields s p (ws ++ t :: ts) out (stopped r).
  Proof.
    intros B St Nh M A C R. split; [apply stopped_fuel|].
    assert (Ne : is_eoi (t_sym t) = false) by (apply not_eoi; intro X; inversion M; subst; congruence || (rewrite X in *; contradiction)).
    destruct (proj1 (stop_all (Env g None)) _ _ _ _ _ M s p A C R (fold_left (fun o t => emit s t o) ws out) true) as [n Hn].
    exists (S (S n)). rewrite file_S. unfold file.
    assert (exists t' r', ws ++ t :: ts = t' :: r' /\ is_eoi (t_sym t') = false) as (t' & r' & E & Ei).
    { destruct ws as [|w ws]; cbn [app]; do 2 eexists; (split; [reflexivity|]); auto.
      specialize (B w (or_introl eq_refl)). destruct (t_sym w); auto; discriminate. }
    rewrite E, Ei, <- E. unfold line. rewrite (skip_ws_out_blank s ws (t :: ts) B St out), directive_S. unfold directive.
    replace (match t_sym t with Hash => _ | _ => _ end) with (@Ok (bool * result) (false, (s, p, t :: ts, fold_left (fun o t => emit s t o) ws out)))
      by (destruct (t_sym t) eqn:Z; try reflexivity; congruence).
    cbn [rbind]. rewrite R, (walk_stop n (S n) _ _ _ _ _ _ _ _ _ _ ltac:(lia) Hn), !stopped_bind. reflexivity.
  Qed.

  Lemma stops_yields fs g c toks r : stops fs g c toks r -> forall s p out, files s = fs -> agrees (Env g None) (defs s) -> counter (defs s) = c ->
    is_reading s = true -> flags p = [] -> yields s p toks out (stopped r).
  Proof.
    induction 1 as [fs g c pr g1 c1 o ws t ts r X B St Nh M|fs g c pr g1 c1 o l cmd ws x args rest X D B Tx
      |fs g c pr g1 c1 o l c2 more e X H _ IH|fs g c pr g1 c1 o l c2 yes m cmd ws more e X H K D B _ IH
      |cur up g c pr g1 c1 o l cmd ws q path q' ws' found other toks rest e X D B B' Q Np Lc Ps _ IH]; intros s p out Hf A C R Fl;
      destruct (exec_run _ _ _ _ _ _ _ X s p Hf A C R) as (s1 & p1 & Rn & (_ & Hp) & A1 & C1 & Run); apply Run; clear Run;
      assert (R1 : is_reading s1 = true) by (rewrite (ran_reading _ _ Rn); exact R);
      (assert (Hf1 : files s1 = files s) by apply Rn); rewrite Hf in Hf1; rewrite Fl in Hp.
    - eapply text_stops; eauto.
    - pose proof (args_no_newline _ _ _ _ D) as [N Ha].
      apply (line_directive_fail _ _ _ _ _ _ _ _ _ _ _ _ D s1 p1 rest _ (fun T => @Err T PE23_has_include)); try discriminate; auto.
      intro n. unfold directive_command. rewrite R1. names. cbn [andb]. unfold directive_if. rewrite <- app_assoc. cbn [app].
      rewrite skip_ws_blank by (auto; now rewrite Tx). cbn [read_value]. rewrite Tx. cbn [is_space is_newline orb].
      destruct (read_value _) as [a b]. destruct (sym_dec (Word (bs "__has_include")) (Word (bs "__has_include"))); [|congruence].
      unfold flagged. rewrite Hp. cbn [sget]. rewrite ?Tx. reflexivity.
    - destruct (holds_line _ _ _ _ _ s1 H A1 C1 R1) as (cmd & w & args & D & Hc).
      eapply (line_directive _ _ _ _ D); [intro; apply Hc|]. apply IH; auto.
    - destruct (holds_line _ _ _ _ _ s1 H A1 C1 R1) as (cmd1 & w & args & D1 & Hc).
      set (s2 := opened s1 c2 cmd1 false) in *. assert (R2 : is_reading s2 = false) by reflexivity.
      destruct (skip yes K s2 p1 R2) as (p2 & d & Hd & (_ & Hp2) & H2). specialize (Hd eq_refl). subst d.
      eapply (line_directive _ _ _ _ D1); [intro; apply Hc|]. apply H2.
      eapply (line_directive _ _ _ _ D).
      { intro. apply else_cmd with (i := Ifs ((ReadingElse, cmd1) :: if_stack (ifs s1)) (Some cmd)); auto; [apply (args_no_newline _ _ _ _ D)|].
        unfold flip. cbn. unfold is_reading, reading in R1. rewrite R1. reflexivity. }
      apply IH; auto. congruence.
    - pose proof (args_no_newline _ _ _ _ D) as [N Ha].
      set (s0 := if other then add_warning (WIncludeCase found) s1 else s1).
      set (s2 := add_included found (with_files (found :: files s0) s0)).
      assert (files s0 = cur :: up /\ ifs s0 = ifs s1 /\ defs s0 = defs s1) as (K1 & K2 & K3) by (subst s0; destruct other; cbn; auto).
      pose proof (include_path_line ws q path q' ws' (newline l :: rest) B Q Np Ha) as Ip.
      destruct (IH s2 (prag_child p1) (settle (settle out o) (indent l))) as [NF [n Hn]].
      { subst s2. cbn. now rewrite K1. } { subst s2. cbn. now rewrite K3. } { subst s2. cbn. now rewrite K3. }
      { unfold is_reading. subst s2. cbn. rewrite K2. exact R1. }
      { unfold prag_child. cbn [flags]. rewrite Hp. reflexivity. }
      split; [apply stopped_fuel|]. destruct D as (Gd & Tc & wl & h & Bl & Th & El).
      destruct (good_start l rest Gd) as (t & r' & Et & Ei).
      assert (skip_ws_out s1 (line_toks l ++ rest) (settle out o) = ((h :: cmd :: ws ++ q :: path ++ q' :: ws') ++ newline l :: rest, o0 s1 l (settle out o))) as Sk.
      { apply line_start; auto. exists wl. rewrite Th. auto. }
      exists (S (S n)). rewrite file_S. unfold file. rewrite Et, Ei, <- Et. unfold line. rewrite Sk, directive_S. cbn [app].
      unfold directive. rewrite Th, Tc. unfold directive_command. rewrite R1. names. cbn [andb]. unfold directive_include. rewrite Ip. cbn [rbind].
      rewrite expect_blank by auto. rewrite Hf1, Lc, Ps. cbn [rbind]. fold s0. fold s2.
      unfold o0. rewrite R1. rewrite Hn, !stopped_bind. reflexivity.
  Qed.

  Notation preprocess := (preprocess checked locate parse project F parse_f64 flt fle).
  (** A macro used wrongly, or [#if __has_include], stops the file where it is reached. *)
  Theorem C74_misuse_rejected path toks r : parse path = Ok toks -> stops [path] nothing 0 toks r ->
    exists n0, forall n, (n0 <= n)%nat -> preprocess n path = match r with Some e => Err e | None => Panic end.
  Proof.
    intros P Fl. pose proof (stops_yields _ _ _ _ _ Fl (init path) prag_root [] eq_refl (agrees_init path) eq_refl eq_refl eq_refl) as Y.
    destruct (yields_preprocess _ _ _ _ _ _ _ _ path _ _ P Y) as [n0 Hn]. exists n0. intros n L. rewrite (Hn n L), stopped_bind. reflexivity.
  Qed.

  Notation depth s := (List.length (if_stack (ifs s))).
  Lemma skips_yields toks : skips_to_end toks -> forall s p out, is_reading s = false ->
    exists s' p' ts' out', yields s p toks out (Ok (s', p', ts', out')) /\ (depth s <= depth s')%nat.
  Proof.
    induction 1 as [pr eoi K E|pr l cmd w args more K D O _ IH|pr l cmd w args yes m cmd2 ws more K D O Ky D2 B _ IH]; intros s p out R;
      destruct (skip pr K s p R) as (p1 & d & _ & _ & Run).
    - do 4 eexists. split; [apply Run; now apply yields_eoi|]. cbn. lia.
    - set (s0 := with_ifs (Ifs (if_stack (ifs s)) d) s) in *. set (s1 := with_ifs (if_push PassingChild cmd (ifs s0)) s0).
      destruct (IH s1 p1 out eq_refl) as (s' & p' & ts' & out' & Y & L). do 4 eexists. split; [|cbn in L; eapply Nat.le_trans; [|exact L]; lia].
      apply Run. eapply (line_directive _ _ _ _ D) with (s' := s1) (p' := p1) (out' := out); [|exact Y].
      intros n0. unfold directive_command. change (is_reading s0) with (is_reading s). rewrite R, !Bool.andb_false_r. unfold o0.
      change (is_reading s0) with (is_reading s). rewrite R.
      destruct (args_no_newline _ _ _ _ D) as [N Hl]. rewrite skip_line_suffix; auto; [|intros; apply Hl; auto].
      destruct O as [-> |[-> | ->]]; names; reflexivity.
    - set (s0 := with_ifs (Ifs (if_stack (ifs s)) d) s) in *. set (s1 := with_ifs (if_push PassingChild cmd (ifs s0)) s0).
      destruct (skip yes Ky s1 p1 eq_refl) as (p2 & d2 & Hd & _ & H1). specialize (Hd eq_refl). subst d2.
      set (s2 := with_ifs (Ifs ((PassingChild, cmd) :: if_stack (ifs s)) (Some cmd2)) s0).
      destruct (IH s2 p2 out eq_refl) as (s' & p' & ts' & out' & Y & L). do 4 eexists. split; [|cbn in L; eapply Nat.le_trans; [|exact L]; lia].
      apply Run. eapply (line_directive _ _ _ _ D) with (s' := s1) (p' := p1) (out' := out).
      { intros n0. unfold directive_command. change (is_reading s0) with (is_reading s). rewrite R, !Bool.andb_false_r. unfold o0.
        change (is_reading s0) with (is_reading s). rewrite R.
        destruct (args_no_newline _ _ _ _ D) as [N Hl]. rewrite skip_line_suffix; auto; [|intros; apply Hl; auto].
        destruct O as [-> |[-> | ->]]; names; reflexivity. }
      apply H1. eapply (line_directive _ _ _ _ D2) with (s' := s2) (p' := p2) (out' := out); [|exact Y].
      intros n0. unfold directive_command. names. cbn [andb orb]. unfold flip. cbn [ifs with_ifs did_else if_stack].
      change (if_stack (ifs s1)) with ((PassingChild, cmd) :: if_stack (ifs s)). cbn iota.
      unfold is_reading, reading in R. rewrite R. cbn [rbind].
      rewrite expect_blank by (auto; apply (args_no_newline _ _ _ _ D2)). reflexivity.
  Qed.
  Lemma end_yields fs g c toks b : to_end project F parse_f64 flt fle locate parse fs g c toks b ->
    forall s p out, files s = fs -> agrees (Env g None) (defs s) -> counter (defs s) = c -> is_reading s = true ->
    exists s' p' ts' out', yields s p toks out (Ok (s', p', ts', out')) /\ (depth s + (if b then 1 else 0) <= depth s')%nat.
  Proof.
    induction 1 as [fs g c pr g1 c1 o eoi X E|fs g c pr g1 c1 o l c2 more b X H _ IH|fs g c pr g1 c1 o l c2 yes g2 c3 o2 m cmd ws more X H Xy D B Sk
      |fs g c pr g1 c1 o l c2 more X H Sk|fs g c pr g1 c1 o l c2 yes m cmd ws more b X H K D B _ IH]; intros s p out Hf A C R;
      destruct (exec_run _ _ _ _ _ _ _ X s p Hf A C R) as (s1 & p1 & Rn & _ & A1 & C1 & Run);
      assert (R1 : is_reading s1 = true) by (rewrite (ran_reading _ _ Rn); exact R);
      (assert (Hf1 : files s1 = files s) by apply Rn); rewrite Hf in Hf1;
      (assert (L1 : if_stack (ifs s1) = if_stack (ifs s)) by apply Rn).
    - do 4 eexists. split; [apply Run; now apply yields_eoi|]. rewrite L1. lia.
    - destruct (holds_line _ _ _ _ _ s1 H A1 C1 R1) as (cmd & w & args & D & Hc).
      destruct (IH (opened s1 c2 cmd true) p1 (o0 s1 l (settle out o))) as (s' & p' & ts' & out' & Y & L); auto.
      do 4 eexists. split; [|cbn in L; rewrite L1 in L; eapply Nat.le_trans; [|exact L]; lia].
      apply Run. eapply (line_directive _ _ _ _ D); [intro; apply Hc|exact Y].
    - destruct (holds_line _ _ _ _ _ s1 H A1 C1 R1) as (cmd1 & w & args & D1 & Hc).
      set (s2 := opened s1 c2 cmd1 true) in *. assert (R2 : is_reading s2 = true) by exact R1.
      destruct (exec_run _ _ _ _ _ _ _ Xy s2 p1 Hf1 (agrees_opened _ _ _ _ _ A1) eq_refl R2) as (s3 & p3 & Rn3 & _ & A3 & C3 & Run3).
      assert (if_stack (ifs s3) = (ReadingIf, cmd1) :: if_stack (ifs s1)) as E2 by (apply Rn3).
      assert (did_else (ifs s3) = None) as E3 by (apply Rn3; reflexivity).
      set (s4 := with_ifs (Ifs ((PassingElse, cmd1) :: if_stack (ifs s1)) (Some cmd)) s3).
      destruct (skips_yields _ Sk s4 p3 (o0 s3 m (settle (o0 s1 l (settle out o)) o2)) eq_refl) as (s' & p' & ts' & out' & Y & L).
      do 4 eexists. split; [|cbn in L; rewrite L1 in L; eapply Nat.le_trans; [|exact L]; lia].
      apply Run. eapply (line_directive _ _ _ _ D1); [intro; apply Hc|]. apply Run3.
      eapply (line_directive _ _ _ _ D); [|exact Y].
      intro. apply else_cmd with (i := Ifs ((PassingElse, cmd1) :: if_stack (ifs s1)) (Some cmd)); auto; [apply (args_no_newline _ _ _ _ D)|].
      unfold flip. rewrite E3, E2. unfold is_reading, reading in R1. rewrite R1. reflexivity.
    - destruct (holds_line _ _ _ _ _ s1 H A1 C1 R1) as (cmd & w & args & D & Hc).
      destruct (skips_yields _ Sk (opened s1 c2 cmd false) p1 (o0 s1 l (settle out o)) eq_refl) as (s' & p' & ts' & out' & Y & L).
      do 4 eexists. split; [|cbn in L; rewrite L1 in L; eapply Nat.le_trans; [|exact L]; lia].
      apply Run. eapply (line_directive _ _ _ _ D); [intro; apply Hc|exact Y].
    - destruct (holds_line _ _ _ _ _ s1 H A1 C1 R1) as (cmd1 & w & args & D1 & Hc).
      set (s2 := opened s1 c2 cmd1 false) in *. assert (R2 : is_reading s2 = false) by reflexivity.
      destruct (skip yes K s2 p1 R2) as (p2 & d & Hd & _ & H2). specialize (Hd eq_refl). subst d.
      set (s3 := with_ifs (Ifs ((ReadingElse, cmd1) :: if_stack (ifs s1)) (Some cmd)) s2).
      destruct (IH s3 p2 (o0 s2 m (o0 s1 l (settle out o)))) as (s' & p' & ts' & out' & Y & L); auto.
      do 4 eexists. split; [|cbn in L; rewrite L1 in L; eapply Nat.le_trans; [|exact L]; lia].
      apply Run. eapply (line_directive _ _ _ _ D1); [intro; apply Hc|]. apply H2.
      eapply (line_directive _ _ _ _ D); [|exact Y].
      intro. apply else_cmd with (i := Ifs ((ReadingElse, cmd1) :: if_stack (ifs s1)) (Some cmd)); auto; [apply (args_no_newline _ _ _ _ D)|].
      unfold flip. cbn. unfold is_reading, reading in R1. rewrite R1. reflexivity.
  Qed.
  (** A file that ends inside a block fails. *)
  Theorem C74_unclosed_rejected path toks : parse path = Ok toks -> unclosed project F parse_f64 flt fle locate parse [path] nothing 0 toks ->
    exists n0, forall n, (n0 <= n)%nat -> preprocess n path = Err PE18_eoi_ifstate.
  Proof.
    intros P U. destruct (end_yields _ _ _ _ _ U (init path) prag_root [] eq_refl (agrees_init path) eq_refl eq_refl) as (s' & p' & ts' & out' & Y & L).
    destruct (yields_preprocess _ _ _ _ _ _ _ _ path _ _ P Y) as [n0 Hn]. exists n0. intros n Ln. rewrite (Hn n Ln). cbn [rbind].
    destruct (if_stack (ifs s')); [cbn in L; lia|reflexivity].
  Qed.
End Misuse.
