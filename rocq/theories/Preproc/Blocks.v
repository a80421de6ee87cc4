(** The processor runs block programs (Preproc/BlockSpec.v) the way they read. *)
From Coq Require Import String.
From Verif Require Import Base.Tactics Base.Bytes Base.Ascii Base.Text Preproc.Model Preproc.Fuel Preproc.Spec Preproc.Expand Preproc.BlockSpec.
Local Open Scope N_scope.
Local Open Scope list_scope.

Section Blocks.
  Context (checked : bool) (locate : text -> text -> option (text * bool)) (parse : text -> run (list token))
          (project : option (option text * text)) (F : Type) (parse_f64 : text -> option F) (flt fle : F -> F -> bool).
  Notation G := (fns checked locate parse project F parse_f64 flt fle).
  Notation dir := (directive checked locate parse project F parse_f64 flt fle).
  Notation cmd_ := (directive_command checked locate parse project F parse_f64 flt fle).

  (** White space. *)
  Lemma skip_ws_blank ws r : blank ws -> match r with [] => True | t :: _ => is_space (t_sym t) = false end -> skip_ws (ws ++ r) = r.
  Proof.
    induction ws as [|t ws IH]; intros B N; cbn [app].
    - destruct r as [|t r]; auto. cbn [skip_ws]. now rewrite N.
    - cbn [skip_ws]. rewrite (B t) by (cbn; auto). apply IH; auto. intros x Hx. apply B. cbn; auto.
  Qed.
  Lemma skip_ws_out_blank s ws r : blank ws -> match r with [] => True | t :: _ => is_space (t_sym t) = false end ->
    forall out, skip_ws_out s (ws ++ r) out = (r, fold_left (fun o t => emit s t o) ws out).
  Proof.
    induction ws as [|t ws IH]; intros B N out; cbn [app fold_left].
    - destruct r as [|t r]; auto. cbn [skip_ws_out]. now rewrite N.
    - cbn [skip_ws_out]. rewrite (B t) by (cbn; auto). apply IH; auto. intros x Hx. apply B. cbn; auto.
  Qed.
  Lemma emit_all s ws : is_reading s = true -> forall out, fold_left (fun o t => emit s t o) ws out = settle out (flat_map shown ws).
  Proof.
    intro R. induction ws as [|t ws IH]; intros out; cbn [fold_left flat_map]; auto.
    rewrite IH, settle_app, emit_settle; auto.
  Qed.
  Lemma emit_none s ws : is_reading s = false -> forall out, fold_left (fun o t => emit s t o) ws out = out.
  Proof.
    intro R. induction ws as [|t ws IH]; intros out; cbn [fold_left]; auto. rewrite IH. unfold emit. now rewrite R.
  Qed.
  Lemma skip_line_good l r : good l -> skip_line (line_toks l ++ r) = r.
  Proof.
    intros [N H]. unfold line_toks. rewrite <- app_assoc. induction (on l) as [|t ts IH]; cbn [app skip_line].
    - rewrite N. reflexivity.
    - assert (is_newline (t_sym t) = false) as -> by (destruct (H t (or_introl eq_refl)) as [X _]; destruct (t_sym t); auto; congruence).
      apply IH. intros x Hx. apply H. cbn; auto.
  Qed.
  Lemma skip_line_suffix (ts a b : list token) r n : t_sym n = Newline -> (forall t, In t ts -> t_sym t <> Newline) -> skip_line (ts ++ n :: r) = r.
  Proof.
    intros N H. induction ts as [|t ts IH]; cbn [app skip_line].
    - rewrite N. reflexivity.
    - assert (is_newline (t_sym t) = false) as -> by (pose proof (H t (or_introl eq_refl)); destruct (t_sym t); auto; congruence).
      apply IH. intros x Hx. apply H. cbn; auto.
  Qed.
  Lemma expect_blank ws n r : blank ws -> t_sym n = Newline -> expect_nothing (ws ++ n :: r) = Ok r.
  Proof.
    intros B N. induction ws as [|t ws IH]; cbn [app expect_nothing].
    - rewrite N. reflexivity.
    - pose proof (B t (or_introl eq_refl)) as X.
      assert (is_newline (t_sym t) || is_eoi (t_sym t) = false) as -> by (destruct (t_sym t); auto; discriminate).
      rewrite X. apply IH. intros x Hx. apply B. cbn; auto.
  Qed.
  Lemma word_space w s : s = Word w -> is_space s = false.
  Proof. now intros ->. Qed.
  Lemma next_word_blank ws x w r : blank ws -> t_sym x = Word w -> next_word (ws ++ x :: r) = Ok (x, r).
  Proof.
    intros B T. unfold next_word. rewrite skip_ws_blank; auto; [|rewrite T; auto]. unfold current_word. rewrite T. reflexivity.
  Qed.

  Lemma file_S n s p ts out : c_file (G (S n)) s p ts out = file (G n) s p ts out.
  Proof. reflexivity. Qed.
  Lemma directive_S n s p ts out : c_directive (G (S n)) s p ts out = dir (G n) s p ts out.
  Proof. reflexivity. Qed.

  Definition o0 (s : state) (l : pline) (out : list output) : list output := if is_reading s then settle out (indent l) else out.
  Lemma leading_blank ws r : blank ws -> match r with [] => True | t :: _ => is_space (t_sym t) = false end -> leading (ws ++ r) = ws.
  Proof.
    induction ws as [|t ws IH]; intros B N; cbn [app].
    - destruct r as [|t r]; auto. cbn [leading]. now rewrite N.
    - cbn [leading]. rewrite (B t) by (cbn; auto). rewrite IH; auto. intros x Hx. apply B. cbn; auto.
  Qed.
  Lemma line_start s l ts rest out : good l -> (exists ws, blank ws /\ on l = ws ++ ts /\ match ts with [] => True | t :: _ => is_space (t_sym t) = false end) ->
    skip_ws_out s (line_toks l ++ rest) out = (ts ++ newline l :: rest, o0 s l out).
  Proof.
    intros [N _] (ws & B & E & T). unfold line_toks, o0, indent. rewrite E, leading_blank by auto.
    rewrite <- !app_assoc. cbn [app]. rewrite skip_ws_out_blank; auto.
    - f_equal. destruct (is_reading s) eqn:R; [apply emit_all|apply emit_none]; auto.
    - destruct ts; cbn [app]; [rewrite N|]; auto.
  Qed.
  Lemma good_start l rest : good l -> exists t r, line_toks l ++ rest = t :: r /\ is_eoi (t_sym t) = false.
  Proof.
    intros [N H]. unfold line_toks. destruct (on l) as [|t r]; cbn [app].
    - do 2 eexists. split; [reflexivity|]. now rewrite N.
    - do 2 eexists. split; [reflexivity|]. destruct (H t (or_introl eq_refl)) as [_ X]. destruct (t_sym t); auto; congruence.
  Qed.
  (** Processing the rest of a file ends in [r]. *)
  Definition yields (s : state) (p : pragma) (ts : list token) (out : list output) (r : run result) : Prop :=
    r <> NoFuel /\ exists n, c_file (G n) s p ts out = r.
  Lemma file_le n m s p ts out r : (n <= m)%nat -> r <> NoFuel -> c_file (G n) s p ts out = r -> c_file (G m) s p ts out = r.
  Proof.
    intros H N E. destruct (le_file _ _ (fns_le checked locate parse project F parse_f64 flt fle n m H) s p ts out) as [X|X]; congruence.
  Qed.
  (** One line that is a directive. *)
  Lemma line_directive l c w args : is_directive l c w args ->
    forall s p rest out s' p' rest' out',
    (forall n, cmd_ (G n) s p c w (args ++ newline l :: rest) (o0 s l out) = Ok (true, (s', p', rest', out'))) ->
    forall r, yields s' p' rest' out' r -> yields s p (line_toks l ++ rest) out r.
  Proof.
    intros (Gd & Tc & ws & h & B & Th & E) s p rest out s' p' rest' out' H r [NF [n Hn]]. split; [exact NF|].
    destruct (good_start l rest Gd) as (t & r' & El & Ei).
    assert (skip_ws_out s (line_toks l ++ rest) out = ((h :: c :: args) ++ newline l :: rest, o0 s l out)) as Sk.
    { apply line_start; auto. exists ws. rewrite Th. auto. }
    exists (S (S n)). rewrite file_S. unfold file. rewrite El, Ei, <- El. unfold line. rewrite Sk, directive_S. cbn [app].
    unfold directive. rewrite Th, Tc, H. cbn [rbind]. eapply file_le; [|exact NF|exact Hn]. lia.
  Qed.
  Lemma line_directive_eq l c w args : is_directive l c w args ->
    forall s p rest out s' p' rest' out' n,
    cmd_ (G n) s p c w (args ++ newline l :: rest) (o0 s l out) = Ok (true, (s', p', rest', out')) ->
    c_file (G (S (S n))) s p (line_toks l ++ rest) out = c_file (G (S n)) s' p' rest' out'.
  Proof.
    intros (Gd & Tc & ws & h & B & Th & E) s p rest out s' p' rest' out' n H.
    destruct (good_start l rest Gd) as (t & r' & El & Ei).
    assert (skip_ws_out s (line_toks l ++ rest) out = ((h :: c :: args) ++ newline l :: rest, o0 s l out)) as Sk.
    { apply line_start; auto. exists ws. rewrite Th. auto. }
    rewrite file_S. unfold file. rewrite El, Ei, <- El. unfold line. rewrite Sk, directive_S. cbn [app].
    unfold directive. rewrite Th, Tc, H. reflexivity.
  Qed.
  Lemma line_directive_fail l c w args : is_directive l c w args ->
    forall s p rest out (f : forall A, run A), (forall A, f A <> NoFuel) -> (forall A B (k : A -> run B), rbind (f A) k = f B) ->
    (forall n, cmd_ (G n) s p c w (args ++ newline l :: rest) (o0 s l out) = f _) ->
    yields s p (line_toks l ++ rest) out (f _).
  Proof.
    intros (Gd & Tc & ws & h & B & Th & E) s p rest out f NF Fb H. split; [apply NF|].
    destruct (good_start l rest Gd) as (t & r' & El & Ei).
    assert (skip_ws_out s (line_toks l ++ rest) out = ((h :: c :: args) ++ newline l :: rest, o0 s l out)) as Sk.
    { apply line_start; auto. exists ws. rewrite Th. auto. }
    exists 2%nat. rewrite file_S. unfold file. rewrite El, Ei, <- El. unfold line. rewrite Sk, directive_S. cbn [app].
    unfold directive. rewrite Th, Tc, H, !Fb. reflexivity.
  Qed.
  (** One line that is not, while reading. *)
  Lemma expand_blank e c ws ts c' o : blank ws -> expand project e None None c (ws ++ ts) c' o ->
    exists o', o = flat_map shown ws ++ o' /\ expand project e None None c ts c' o'.
  Proof.
    revert o. induction ws as [|t ws IH]; intros o B X; cbn [app flat_map] in *; [eauto|].
    pose proof (B t (or_introl eq_refl)) as Sp.
    inversion X; subst; try (rewrite H1 in Sp; discriminate); try (rewrite H2 in Sp; discriminate); try (rewrite H3 in Sp; discriminate); try congruence.
    destruct (IH _ (fun x Hx => B x (or_intror Hx)) H7) as (o' & -> & X'). exists o'. rewrite app_assoc. auto.
  Qed.

  (** What a program leaves as it was. *)
  Definition ran (s s' : state) : Prop :=
    if_stack (ifs s') = if_stack (ifs s) /\ (did_else (ifs s) = None -> did_else (ifs s') = None) /\
    files s' = files s /\ no_rapify s' = no_rapify s.
  Lemma ran_refl s : ran s s.
  Proof. repeat split; auto. Qed.
  Lemma ran_trans s1 s2 s3 : ran s1 s2 -> ran s2 s3 -> ran s1 s3.
  Proof. intros (A & B & C & D) (A' & B' & C' & D'). repeat split; try congruence. auto. Qed.
  Lemma after_ran s c s' : after s c s' -> ran s s'.
  Proof. intros [ws ->]. repeat split; auto. Qed.
  Lemma ran_reading s s' : ran s s' -> is_reading s' = is_reading s.
  Proof. intros (A & _). unfold is_reading, reading. now rewrite A. Qed.

  Lemma line_text g c c' o l s p : is_text l -> expand project (Env g None) None None c (on l) c' o ->
    agrees (Env g None) (defs s) -> counter (defs s) = c -> is_reading s = true ->
    exists s', after s c' s' /\
      forall rest out r, yields s' (clear_line p) rest (settle out (o ++ [Direct (newline l)])) r ->
      yields s p (line_toks l ++ rest) out r.
  Proof.
    intros (Gd & ws & ts & B & E & T) X A C R. rewrite E in X.
    destruct (expand_blank _ _ _ _ _ _ B X) as (o' & -> & X').
    destruct (exec_expand checked locate parse project F parse_f64 flt fle _ _ _ _ _ _ _ X' s p A C R) as (s' & Af & H).
    exists s'. split; [exact Af|]. intros rest out r [NF [n Hn]]. split; [exact NF|].
    assert (skip_ws_out s (line_toks l ++ rest) out = (ts ++ newline l :: rest, o0 s l out)) as Sk.
    { apply line_start; auto. exists ws. repeat split; auto. destruct ts; tauto. }
    pose proof (good_start l rest Gd) as (t & r' & El & Ei). destruct Gd as [N _].
    assert (is_reading s' = true) as R' by (rewrite (after_reading _ _ _ Af); auto).
    destruct (H (newline l :: rest) (o0 s l out) (s', p, rest, settle (o0 s l out) (o' ++ [Direct (newline l)]))) with (jw := true) as [n1 Hn1].
    { exact N. }
    { intros jw. exists 1%nat. cbn [fns c_walk]. unfold walk. rewrite N, settle_app, emit_settle by exact R'. unfold shown. rewrite N. reflexivity. }
    exists (S (S (n + n1))). rewrite file_S. unfold file. rewrite El, Ei, <- El. unfold line. rewrite Sk.
    assert (c_directive (G (S (n + n1))) s p (ts ++ newline l :: rest) (o0 s l out) = Ok (false, (s, p, ts ++ newline l :: rest, o0 s l out))) as ->.
    { rewrite directive_S. unfold directive. destruct ts as [|t0 ts]; cbn [app].
      - rewrite N. reflexivity.
      - destruct T as [_ T]. destruct (t_sym t0); auto. congruence. }
    cbn [rbind]. rewrite R.
    rewrite (walk_up _ _ _ _ _ _ _ _ n1 (S (n + n1)) _ _ _ _ _ _ _ _ _ _ ltac:(lia) Hn1). cbn [rbind].
    eapply file_le; [| |]; [|exact NF|replace (settle (o0 s l out) _) with (settle out ((flat_map shown ws ++ o') ++ [Direct (newline l)]));
      [exact Hn|]]; [lia|].
    unfold o0. rewrite R. unfold indent. rewrite E, leading_blank by (auto; destruct ts; tauto).
    rewrite <- settle_app, app_assoc. reflexivity.
  Qed.
  (** While not reading. *)
  Lemma line_text_skip l s p : is_text l -> is_reading s = false ->
    forall rest out r, yields s (clear_line p) rest out r -> yields s p (line_toks l ++ rest) out r.
  Proof.
    intros (Gd & ws & ts & B & E & T) R rest out r [NF [n Hn]]. split; [exact NF|].
    assert (skip_ws_out s (line_toks l ++ rest) out = (ts ++ newline l :: rest, o0 s l out)) as Sk.
    { apply line_start; auto. exists ws. repeat split; auto. destruct ts; tauto. }
    pose proof (good_start l rest Gd) as (t & r' & El & Ei). destruct Gd as [N Hl].
    exists (S (S n)). rewrite file_S. unfold file. rewrite El, Ei, <- El. unfold line. rewrite Sk. unfold o0. rewrite R.
    assert (c_directive (G (S n)) s p (ts ++ newline l :: rest) out = Ok (false, (s, p, ts ++ newline l :: rest, out))) as ->.
    { rewrite directive_S. unfold directive. destruct ts as [|t0 ts]; cbn [app].
      - rewrite N. reflexivity.
      - destruct T as [_ T]. destruct (t_sym t0); auto. congruence. }
    cbn [rbind]. rewrite R, skip_line_suffix; auto.
    - cbn [rbind]. eapply file_le; [|exact NF|exact Hn]. lia.
    - intros x Hx. apply Hl. rewrite E. apply in_or_app. auto.
  Qed.

  Lemma args_no_newline l c w args : is_directive l c w args -> t_sym (newline l) = Newline /\ forall t, In t args -> t_sym t <> Newline /\ t_sym t <> Eoi.
  Proof.
    intros ([N Hl] & _ & ws & h & _ & _ & E). split; auto. intros t Ht. apply Hl. rewrite E. apply in_or_app. cbn. auto.
  Qed.

  Ltac names := repeat match goal with |- context [text_eqb ?a ?b] => change (text_eqb a b) with true || change (text_eqb a b) with false end.
  Lemma neq_eqb a b : a <> b -> text_eqb a b = false.
  Proof. intro. destruct (text_eqb_spec a b); congruence. Qed.

  Lemma ifs_eta s i : with_ifs i s = with_ifs i s. Proof. auto. Qed.

  (** A branch that is not taken. *)
  Lemma skip pr : skippable pr -> forall s p, is_reading s = false ->
    exists p' d, (did_else (ifs s) = None -> d = None) /\ ((flat pr -> d = did_else (ifs s)) /\ flags p' = flags p) /\
      forall rest out r, yields (with_ifs (Ifs (if_stack (ifs s)) d) s) p' rest out r ->
      yields s p (source_of pr ++ rest) out r.
  Proof.
    induction 1 as [|l rest T K IH|l c w args rest D No Ne Nd K IH|o y cl rest c1 w args c2 ws2 D O Ky IHy D2 B2 K IH
                   |o y m n cl rest c1 w args c2 ws2 c3 ws3 D O Ky IHy D2 B2 Kn IHn D3 B3 K IH]; intros s p R.
    - exists p, (did_else (ifs s)). split; auto. split; [auto|]. intros rest out r H. cbn [source_of app]. destruct s as [[? ?] ? ? ? ? ? ?]. exact H.
    - destruct (IH s (clear_line p) R) as (p' & d & Hd & (Hfl & Hp) & H). exists p', d. split; auto. split; [split; [intros [_ X]; exact (Hfl X)|exact Hp]|]. intros k out r Hr. cbn [source_of].
      rewrite <- app_assoc. apply line_text_skip; auto.
    - destruct (IH s p R) as (p' & d & Hd & (Hfl & Hp) & H). exists p', d. split; auto. split; [split; [intros [_ X]; exact (Hfl X)|exact Hp]|]. intros k out r Hr. cbn [source_of]. rewrite <- app_assoc.
      eapply line_directive; [exact D| |apply H; exact Hr]. intros n0. unfold directive_command. rewrite R, !Bool.andb_false_r.
      unfold opens in No. rewrite !neq_eqb by tauto. cbn [orb]. unfold o0. rewrite R.
      destruct (args_no_newline _ _ _ _ D) as [N Hl]. rewrite skip_line_suffix; auto. intros; apply Hl; auto.
    - set (s1 := with_ifs (if_push PassingChild c1 (ifs s)) s).
      destruct (IHy s1 p) as (p1 & d1 & Hd1 & (_ & Hp1) & H1); [reflexivity|]. cbn in Hd1. specialize (Hd1 eq_refl). subst d1.
      destruct (IH (with_ifs (Ifs (if_stack (ifs s)) None) s) p1) as (p2 & d2 & Hd2 & (_ & Hp2) & H2); [exact R|]. specialize (Hd2 eq_refl). subst d2.
      exists p2, None. split; auto. split; [split; [intros []|congruence]|]. intros k out r Hr. cbn [source_of]. rewrite <- !app_assoc.
      eapply (line_directive _ _ _ _ D) with (s' := s1) (p' := p) (out' := out).
      { intros n0. unfold directive_command. rewrite R, !Bool.andb_false_r. unfold o0. rewrite R.
        destruct (args_no_newline _ _ _ _ D) as [N Hl]. rewrite skip_line_suffix; auto; [|intros; apply Hl; auto].
        destruct O as [-> |[-> | ->]]; names; reflexivity. }
      apply H1. eapply (line_directive _ _ _ _ D2) with (s' := with_ifs (Ifs (if_stack (ifs s)) None) s) (p' := p1) (out' := out).
      { intros n0. unfold directive_command. names. cbn [andb orb].
        rewrite expect_blank by (auto; apply (args_no_newline _ _ _ _ D2)). reflexivity. }
      apply H2. exact Hr.
    - set (s1 := with_ifs (if_push PassingChild c1 (ifs s)) s).
      set (s2 := with_ifs (Ifs ((PassingChild, c1) :: if_stack (ifs s)) (Some c2)) s).
      destruct (IHy s1 p) as (p1 & d1 & Hd1 & (_ & Hp1) & H1); [reflexivity|]. cbn in Hd1. specialize (Hd1 eq_refl). subst d1.
      destruct (IHn s2 p1) as (p2 & d2 & _ & (_ & Hp2) & H2); [reflexivity|].
      destruct (IH (with_ifs (Ifs (if_stack (ifs s)) None) s) p2) as (p3 & d3 & Hd3 & (_ & Hp3) & H3); [exact R|]. specialize (Hd3 eq_refl). subst d3.
      exists p3, None. split; auto. split; [split; [intros []|congruence]|]. intros k out r Hr. cbn [source_of]. rewrite <- !app_assoc.
      eapply (line_directive _ _ _ _ D) with (s' := s1) (p' := p) (out' := out).
      { intros n0. unfold directive_command. rewrite R, !Bool.andb_false_r. unfold o0. rewrite R.
        destruct (args_no_newline _ _ _ _ D) as [N Hl]. rewrite skip_line_suffix; auto; [|intros; apply Hl; auto].
        destruct O as [-> |[-> | ->]]; names; reflexivity. }
      apply H1. eapply (line_directive _ _ _ _ D2) with (s' := s2) (p' := p1) (out' := out).
      { intros n0. unfold directive_command. names. cbn [andb orb]. unfold flip. cbn [ifs with_ifs did_else if_stack].
        change (if_stack (ifs s1)) with ((PassingChild, c1) :: if_stack (ifs s)). cbn iota.
        unfold is_reading, reading in R. rewrite R. cbn [rbind].
        rewrite expect_blank by (auto; apply (args_no_newline _ _ _ _ D2)). reflexivity. }
      apply H2. eapply (line_directive _ _ _ _ D3) with (s' := with_ifs (Ifs (if_stack (ifs s)) None) s) (p' := p2) (out' := out).
      { intros n0. unfold directive_command. names. cbn [andb orb].
        rewrite expect_blank by (auto; apply (args_no_newline _ _ _ _ D3)). reflexivity. }
      apply H3. exact Hr.
  Qed.

  (** Definitions. *)
  Lemma read_body_go_line b n r : t_sym n = Newline -> (forall t, In t b -> t_sym t <> Newline /\ t_sym t <> Eoi) -> forall acc,
    match rev b ++ acc with t :: _ => t_sym t <> Escape | [] => True end -> read_body_go (b ++ n :: r) acc = (rev acc ++ b, r).
  Proof.
    intros N. induction b as [|t b IH]; intros Hb acc L; cbn [app read_body_go].
    - rewrite N. cbn [is_newline]. rewrite app_nil_r. destruct acc as [|x acc]; auto. cbn [rev app] in L.
      assert (is_escape (t_sym x) = false) as -> by (destruct (t_sym x); auto; congruence). reflexivity.
    - destruct (Hb t (or_introl eq_refl)) as [H1 H2].
      assert (is_newline (t_sym t) = false) as -> by (destruct (t_sym t); auto; congruence).
      assert (is_eoi (t_sym t) = false) as -> by (destruct (t_sym t); auto; congruence).
      rewrite IH.
      + cbn [rev]. rewrite <- app_assoc. reflexivity.
      + intros x Hx. apply Hb. cbn; auto.
      + cbn [rev] in L. rewrite <- app_assoc in L. exact L.
  Qed.
  Lemma read_body_line ws b n r : blank ws -> t_sym n = Newline -> (forall t, In t b -> t_sym t <> Newline /\ t_sym t <> Eoi) ->
    match b with [] => True | t :: _ => is_space (t_sym t) = false end -> ~ ends_escaped b ->
    read_body (ws ++ b ++ n :: r) = (b, r).
  Proof.
    intros B N Hb H E. unfold read_body. rewrite skip_ws_blank; auto.
    - rewrite read_body_go_line; auto. rewrite app_nil_r. destruct (rev b) as [|t b'] eqn:X; auto.
      intro Y. apply E. exists (rev b'), t. split; auto. rewrite <- (rev_involutive b), X. reflexivity.
    - destruct b; cbn [app]; [now rewrite N|auto].
  Qed.
  Lemma read_params_blank ws r cn acc : blank ws -> read_params (ws ++ r) cn acc = read_params r cn acc.
  Proof.
    induction ws as [|t ws IH]; intros B; cbn [app]; auto. cbn [read_params].
    pose proof (B t (or_introl eq_refl)) as X. destruct (t_sym t); try discriminate; apply IH; intros x Hx; apply B; cbn; auto.
  Qed.
  Lemma read_params_line ps params : parameters ps params -> forall rp r acc, t_sym rp = RParen ->
    read_params (ps ++ rp :: r) false acc = Ok (rev acc ++ params, r).
  Proof.
    induction 1 as [ws1 p w ws2 B1 T B2|ws1 p w ws2 cm r0 ps B1 T B2 Tc _ IH]; intros rp r acc Tr.
    - rewrite <- app_assoc, read_params_blank by auto. cbn [app read_params]. rewrite T, read_params_blank by auto. cbn [read_params].
      rewrite Tr. reflexivity.
    - rewrite <- !app_assoc, read_params_blank by auto. cbn [app read_params]. rewrite T, <- app_assoc, read_params_blank by auto. cbn [app read_params].
      rewrite Tc, IH by auto. cbn [rev]. rewrite <- app_assoc. reflexivity.
  Qed.

  Lemma find_del k k' t : find k (del k' t) = if text_dec k k' then None else find k t.
  Proof.
    induction t as [|[k2 e2] t IH]; cbn [del find]; [destruct (text_dec k k'); auto|].
    destruct (text_dec k' k2) as [<-|]; [rewrite IH; destruct (text_dec k k'); congruence|].
    cbn [find]. rewrite IH. destruct (text_dec k k2); auto. destruct (text_dec k k'); congruence.
  Qed.
  Lemma agrees_top g d : agrees (Env g None) d <-> frames d = [] /\ forall k, g k = find k (global d).
  Proof. unfold agrees. cbn [globals inside]. destruct (frames d); split; intros [? ?]; auto; try contradiction; congruence. Qed.

  Lemma include_path_line ws q path q' ws' rest : blank ws ->
    (t_sym q = DQuote /\ t_sym q' = DQuote \/ t_sym q = LAngle /\ t_sym q' = RAngle) ->
    (forall t, In t path -> t_sym t <> t_sym q') ->
    (forall t, In t (ws ++ q :: path ++ q' :: ws') -> t_sym t <> Newline /\ t_sym t <> Eoi) ->
    include_path ((ws ++ q :: path ++ q' :: ws') ++ rest) = Ok (toks_text path, ws' ++ rest).
  Proof.
    intros B Q Np Ha.
    assert (read_path (t_sym q') ((path ++ q' :: ws') ++ rest) = Ok (toks_text path, ws' ++ rest)) as Rp.
    { assert (forall t, In t path -> t_sym t <> Newline /\ t_sym t <> Eoi) as Hp.
      { intros t Ht. apply Ha. apply in_or_app. right. right. apply in_or_app. auto. }
      clear -Np Hp. rewrite <- app_assoc. cbn [app]. induction path as [|t path IH]; cbn [app read_path].
      - destruct (sym_dec (t_sym q') (t_sym q')); [reflexivity|congruence].
      - destruct (sym_dec (t_sym t) (t_sym q')) as [X|_]; [exfalso; apply (Np t); cbn; auto|].
        destruct (Hp t (or_introl eq_refl)) as [X1 X2].
        assert (is_newline (t_sym t) = false) as -> by (destruct (t_sym t); auto; congruence).
        assert (is_eoi (t_sym t) = false) as -> by (destruct (t_sym t); auto; congruence).
        rewrite (IH (fun t0 H0 => Np t0 (or_intror H0)) (fun t0 H0 => Hp t0 (or_intror H0))). reflexivity. }
    unfold include_path. rewrite <- app_assoc. cbn [app]. rewrite skip_ws_blank by (auto; destruct Q as [[-> _]|[-> _]]; reflexivity).
    destruct Q as [[-> Q]|[-> Q]]; rewrite Q in Rp; exact Rp.
  Qed.
  Lemma define_line args name def : defines_macro args name def -> is_builtin (tok_text name) = false -> forall s g n,
    t_sym n = Newline -> (forall t, In t args -> t_sym t <> Newline /\ t_sym t <> Eoi) -> agrees (Env g None) (defs s) ->
    exists s', (forall rest, directive_define s (args ++ n :: rest) = Ok (s', match def with Unit => n :: rest | _ => rest end)) /\
      ran s s' /\ did_else (ifs s') = did_else (ifs s) /\ counter (defs s') = counter (defs s) /\
      agrees (Env (update g (tok_text name) (Some (name, def, FromFile (files s)))) None) (defs s').
  Proof.
    intros D Bi s g n N Ha A. apply agrees_top in A. destruct A as [Fr A].
    assert (forall def0, let '(old, d) := d_remove (tok_text name) (defs s) in
       forall s1, (ifs s1 = ifs s /\ defs s1 = d /\ files s1 = files s /\ included s1 = included s /\ no_rapify s1 = no_rapify s) ->
       let s' := with_defs (d_insert (tok_text name) (name, def0, FromFile (files s1)) (defs (add_macro (tok_text name, t_pos name) s1))) (add_macro (tok_text name, t_pos name) s1) in
       ran s s' /\ did_else (ifs s') = did_else (ifs s) /\ counter (defs s') = counter (defs s) /\ agrees (Env (update g (tok_text name) (Some (name, def0, FromFile (files s)))) None) (defs s')) as Fin.
    { intros def0. unfold d_remove. rewrite Fr. intros s1 (E1 & E2 & E3 & E4 & E5). cbv zeta. unfold d_insert. cbn [add_macro defs]. rewrite E2. cbn [frames].
      split; [|split; [|split; [reflexivity|]]].
      { unfold ran. cbn. rewrite E1. auto. }
      { cbn. rewrite E1. auto. }
      apply agrees_top. cbn [with_defs defs frames global]. split; [reflexivity|].
      { intros k. rewrite E3. change (update g (tok_text name) (Some (name, def0, FromFile (files s))) k = find k (ins (tok_text name) (name, def0, FromFile (files s)) (del (tok_text name) (global (defs s))))).
        rewrite find_ins, find_del. unfold update. destruct (text_dec k (tok_text name)); auto. } }
    specialize (Fin def). destruct (d_remove (tok_text name) (defs s)) as [old d] eqn:Hr.
    eexists. split; [|refine (Fin (match old with Some (was, _, FromFile _) => add_warning (WRedefine name was) (with_defs d s) | _ => with_defs d s end) _);
      destruct old as [[[? ?] [?| |]]|]; cbn; auto].
    intro rest. unfold directive_define.
    assert (forall ws (x : list token), blank ws -> match x with [] => True | t :: _ => is_space (t_sym t) = false end ->
      (forall t, In t x -> In t args) -> ~ ends_escaped x -> read_body (ws ++ x ++ n :: rest) = (x, rest)) as RB.
    { intros ws x Bw Hx Hi He. apply read_body_line; auto. }
    assert (exists w, t_sym name = Word w) as [w0 Tn] by (destruct D; eauto).
    assert (exists ws aft, blank ws /\ args = ws ++ name :: aft /\
      match def with Unit => aft = [] | _ => True end /\
      exists nx rs, aft ++ n :: rest = nx :: rs /\
      (match t_sym nx with
       | LParen => '(args, ts) <- read_params rs false [] ;;
            let (body, ts) := read_body ts in
            Ok (Func (match body with [] => t_pos name | b :: _ => Pos (p_start (t_pos b)) (p_end (t_pos (last body b))) (p_path (t_pos name)) end) args body, ts)
       | Newline | Eoi => Ok (Unit, nx :: rs)
       | _ => let (body, ts) := read_body (nx :: rs) in Ok (Value body, ts)
       end) = Ok (def, match def with Unit => n :: rest | _ => rest end)) as (ws & aft & Bw & Ea & _ & nx & rs & Ex & Er).
    { destruct D as [ws name w B T|ws name w sep ws' body B T Sp B' Hb He|ws name w lp rp ws' body B T Tl Tr B' Hb He
                    |ws name w lp ps params rp ws' body B T Tl Pp Tr B' Hb He].
      - exists ws, []. split; [exact B|]. split; [reflexivity|]. split; [reflexivity|]. exists n, rest. split; [reflexivity|]. rewrite N. reflexivity.
      - exists ws, (sep :: ws' ++ body). split; [exact B|]. split; [reflexivity|]. split; [exact I|]. do 2 eexists. split; [cbn [app]; reflexivity|].
        assert (read_body (sep :: (ws' ++ body) ++ n :: rest) = (body, rest)) as X.
        { rewrite <- app_assoc. change (sep :: ws' ++ body ++ n :: rest) with ((sep :: ws') ++ body ++ n :: rest). apply RB; auto.
          - intros t [<-|Ht]; auto.
          - intros t Ht. apply in_or_app. right. right. right. apply in_or_app. auto. }
        rewrite X. destruct (t_sym sep); try discriminate; reflexivity.
      - exists ws, (lp :: rp :: ws' ++ body). split; [exact B|]. split; [reflexivity|]. split; [exact I|]. do 2 eexists. split; [cbn [app]; reflexivity|].
        rewrite Tl. cbn [read_params]. rewrite Tr. cbn [rbind rev]. rewrite <- app_assoc, RB; auto.
        intros t Ht. apply in_or_app. right. right. right. right. apply in_or_app. auto.
      - exists ws, (lp :: ps ++ rp :: ws' ++ body). split; [exact B|]. split; [reflexivity|]. split; [exact I|]. do 2 eexists. split; [cbn [app]; reflexivity|].
        rewrite Tl, <- app_assoc. cbn [app]. rewrite (read_params_line ps params Pp) by auto. cbn [rbind rev app]. rewrite <- app_assoc, RB; auto.
        intros t Ht. apply in_or_app. right. right. right. apply in_or_app. right. right. apply in_or_app. auto. }
    rewrite Ea, <- app_assoc. cbn [app]. rewrite (next_word_blank ws name w0) by auto. cbn [rbind]. rewrite Ex, Bi.
    rewrite Hr, Er. reflexivity.
  Qed.

  Lemma undef_line ws x w ws' n s g : blank ws -> t_sym x = Word w -> blank ws' -> t_sym n = Newline -> agrees (Env g None) (defs s) ->
    exists s', (forall rest, directive_undef s ((ws ++ x :: ws') ++ n :: rest) = Ok (s', rest)) /\ ran s s' /\ did_else (ifs s') = did_else (ifs s) /\ counter (defs s') = counter (defs s) /\
      agrees (Env (update g w None) None) (defs s').
  Proof.
    intros B T B' N A. apply agrees_top in A. destruct A as [Fr A].
    eexists. split.
    { intro rest. unfold directive_undef. rewrite <- app_assoc. cbn [app].
      rewrite (next_word_blank ws x w) by auto. cbn [rbind]. rewrite expect_blank by auto. reflexivity. }
    unfold tok_text. rewrite T. cbn [sym_text]. unfold d_remove. rewrite Fr. cbn [snd].
    split; [repeat split; auto|]. split; [reflexivity|]. split; [reflexivity|]. apply agrees_top. cbn [with_defs defs frames global]. split; auto.
    intro k. rewrite find_del. unfold update. destruct (text_dec k w); auto.
  Qed.

  (** Conditions. *)
  Lemma read_value_line a r : (forall t, In t a -> is_space (t_sym t) = false /\ t_sym t <> Newline) ->
    (exists t r', r = t :: r' /\ (is_space (t_sym t) || is_newline (t_sym t)) = true) -> read_value (a ++ r) = (a, r).
  Proof.
    intros H (t0 & r' & -> & Hr). induction a as [|t a IH]; cbn [app read_value].
    - now rewrite Hr.
    - destruct (H t (or_introl eq_refl)) as [-> X]. assert (is_newline (t_sym t) = false) as -> by (destruct (t_sym t); auto; congruence).
      cbn [orb]. rewrite IH by (intros x Hx; apply H; cbn; auto). reflexivity.
  Qed.
  Lemma get_undefined g d t : agrees (Env g None) d -> ~ computed (tok_text t) -> g (tok_text t) = None ->
    get_with_gen checked project t (t_pos t) d = Ok (d, None).
  Proof.
    intros A C Hg. pose proof (lookup_readonly _ _ (tok_text t) A) as L. unfold get_with_gen, computed in *.
    repeat match goal with |- context [text_eqb ?a ?b] => destruct (text_eqb_spec a b) as [X|_]; [exfalso; tauto|] end.
    rewrite L. unfold lookup. cbn [inside globals]. rewrite Hg. reflexivity.
  Qed.
  Lemma resolve_operand g c v c' v' s : operand project g c v c' v' -> agrees (Env g None) (defs s) -> counter (defs s) = c ->
    exists b, resolve checked project (defs s) v = Ok (Defs (global (defs s)) (frames (defs s)) c', v', b).
  Proof.
    intros O A C. destruct O as [c t c1 body from M|c t Nc Ng|c t1 t2 ts].
    - destruct (meaning_get checked project _ _ _ _ _ _ _ _ A C M I) as [by_ E]. exists true. unfold resolve. rewrite E. auto.
    - exists false. unfold resolve. rewrite (get_undefined g) by auto. cbn [rbind]. subst c. destruct (defs s); auto.
    - exists false. unfold resolve. subst c. destruct (defs s); auto.
  Qed.
  Lemma compares_compare op a b r : compares F parse_f64 flt fle op a b r -> compare F parse_f64 flt fle op a b = Ok r.
  Proof.
    intros [a' b'|a' b'|a' b' x y Hx Hy|a' b' x y Hx Hy|a' b' x y Hx Hy|a' b' x y Hx Hy]; unfold compare; try rewrite Hx, Hy; reflexivity.
  Qed.
  Definition opened (s : state) (c : N) (cmd : token) (b : bool) : state :=
    with_ifs (push_if cmd b (ifs s)) (with_defs (Defs (global (defs s)) (frames (defs s)) c) s).
  Lemma holds_line g c l c' b s : holds project F parse_f64 flt fle g c l c' b -> agrees (Env g None) (defs s) -> counter (defs s) = c -> is_reading s = true ->
    exists cmd w args, is_directive l cmd w args /\
      forall p rest out n, cmd_ (G n) s p cmd w (args ++ newline l :: rest) out = Ok (true, (opened s c' cmd b, p, rest, out)).
  Proof.
    intros H A C R. destruct H as [c l cmd ws x w ws' b D B T B' V|c l cmd ws x w ws' b D B T B' V|c l cmd ws x ws' c1 body from D B Sx Nh B' M Nb
      |c l cmd ws a wa op wo bb wb c1 c2 va vb r D B Sa Ba Na So Bo No Sb Bb Nh Oa Nt Ob Cm].
    - do 3 eexists. split; [exact D|]. intros p rest out n. pose proof (args_no_newline _ _ _ _ D) as [N _]. unfold directive_command. rewrite R. names. cbn [andb].
      unfold directive_ifdef. rewrite <- app_assoc. cbn [app]. rewrite (next_word_blank ws x w) by auto. cbn [rbind].
      rewrite expect_blank by auto. cbn [rbind]. unfold opened. unfold tok_text. rewrite T. cbn [sym_text].
      replace (Bool.eqb _ _) with b; [subst c; destruct s as [? [? ? ?] ? ? ? ? ?]; reflexivity|].
      pose proof (visible_contains _ _ w A) as Vc. destruct (contains_key w (defs s)), b; cbn; auto; exfalso; [assert (false = true) by (apply V, Vc; auto)|assert (false = true) by (apply Vc, V; auto)]; discriminate.
    - do 3 eexists. split; [exact D|]. intros p rest out n. pose proof (args_no_newline _ _ _ _ D) as [N _]. unfold directive_command. rewrite R. names. cbn [andb].
      unfold directive_ifdef. rewrite <- app_assoc. cbn [app]. rewrite (next_word_blank ws x w) by auto. cbn [rbind].
      rewrite expect_blank by auto. cbn [rbind]. unfold opened. unfold tok_text. rewrite T. cbn [sym_text].
      replace (Bool.eqb _ _) with b; [subst c; destruct s as [? [? ? ?] ? ? ? ? ?]; reflexivity|].
      pose proof (visible_contains _ _ w A) as Vc. destruct (contains_key w (defs s)), b; cbn; auto.
      + exfalso. apply V; auto. apply Vc; auto.
      + assert (false = true) by (apply V; intro X; apply Vc in X; discriminate). discriminate.
    - do 3 eexists. split; [exact D|]. intros p rest out n. pose proof (args_no_newline _ _ _ _ D) as [N Hn]. unfold directive_command. rewrite R. names. cbn [andb].
      unfold directive_if. rewrite <- app_assoc. cbn [app]. rewrite skip_ws_blank by auto.
      change (x :: ws' ++ newline l :: rest) with ([x] ++ ws' ++ newline l :: rest). rewrite read_value_line.
      + destruct (sym_dec (t_sym x) (Word (bs "__has_include"))); [congruence|].
        destruct (meaning_get checked project _ _ _ _ _ _ _ _ A C M I) as [by_ E]. unfold resolve. rewrite E. cbn [rbind].
        destruct body as [|b0 body]; [congruence|]. rewrite skip_ws_blank by (auto; now rewrite N). rewrite N. cbn [is_newline].
        cbn [rbind]. unfold compare. names. cbn iota. cbn [rbind]. change (newline l :: rest) with ([] ++ newline l :: rest). rewrite expect_blank; auto.
        intros ? [].
      + intros t [<-|[]]. split; auto. apply (Hn x). apply in_or_app. cbn; auto.
      + destruct ws' as [|t ws']; cbn [app]; do 2 eexists; (split; [reflexivity|]).
        * rewrite N. reflexivity.
        * rewrite (B' t) by (cbn; auto). reflexivity.
    - do 3 eexists. split; [exact D|]. intros p rest out n. pose proof (args_no_newline _ _ _ _ D) as [N Hn]. unfold directive_command. rewrite R. names. cbn [andb].
      unfold directive_if. rewrite <- !app_assoc.
      assert (forall ws v r, blank ws -> solid v -> skip_ws (ws ++ v ++ r) = v ++ r) as Sk.
      { intros ws0 v r0 Bw [Nv Sv]. apply skip_ws_blank; auto. destruct v; [congruence|]. cbn [app]. apply Sv. cbn; auto. }
      assert (forall v w' r0, solid v -> (forall t, In t v -> t_sym t <> Newline) -> blank w' ->
        (w' <> [] \/ exists r1, r0 = newline l :: r1) -> read_value (v ++ w' ++ r0) = (v, w' ++ r0)) as Rv.
      { intros v w' r0 [_ Sv] Nv Bw Nw. apply read_value_line; auto. destruct w' as [|t w']; cbn [app].
        - destruct Nw as [Nw|[r1 ->]]; [congruence|]. do 2 eexists. split; [reflexivity|]. rewrite N. reflexivity.
        - do 2 eexists. split; [reflexivity|]. rewrite (Bw t) by (cbn; auto). reflexivity. }
      rewrite Sk by auto. rewrite Rv; auto.
      2:{ intros t Ht. apply Hn. apply in_or_app. right. apply in_or_app. auto. }
      assert ((match a with t :: _ => if sym_dec (t_sym t) (Word (bs "__has_include")) then true else false | [] => false end) = false) as ->.
      { destruct a as [|t a]; auto. destruct (sym_dec (t_sym t) (Word (bs "__has_include"))); congruence. }
      destruct (resolve_operand g c a c1 va s Oa A C) as (ba & Ea). rewrite Ea. cbn [rbind].
      set (s1 := with_defs (Defs (global (defs s)) (frames (defs s)) c1) s) in *.
      destruct va as [|va0 va]; [congruence|].
      rewrite Sk by auto. destruct op as [|op0 op]; [destruct So; congruence|]. cbn [app].
      assert (is_newline (t_sym op0) = false) as ->.
      { assert (t_sym op0 <> Newline) by (apply Hn; do 3 (apply in_or_app; right); cbn; auto). destruct (t_sym op0); auto; congruence. }
      change (op0 :: op ++ wo ++ bb ++ wb ++ newline l :: rest) with ((op0 :: op) ++ wo ++ bb ++ wb ++ newline l :: rest). rewrite Rv; auto.
      2:{ intros t Ht. apply Hn. do 3 (apply in_or_app; right). apply in_or_app. auto. }
      rewrite Sk by auto. rewrite Rv; eauto.
      2:{ intros t Ht. apply Hn. do 5 (apply in_or_app; right). apply in_or_app. auto. }
      destruct (resolve_operand g c1 bb c2 vb s1 Ob A eq_refl) as (b_ & Eb).
      destruct bb as [|bb0 bb]; [destruct Sb; congruence|]. rewrite Eb. cbn [rbind].
      rewrite (compares_compare _ _ _ _ Cm). cbn [rbind]. rewrite expect_blank by auto. reflexivity.
  Qed.

  Lemma endif_cmd s p c n rest out ws nl : blank ws -> t_sym nl = Newline ->
    cmd_ (G n) s p c (bs "endif") (ws ++ nl :: rest) out = Ok (true, (with_ifs (if_pop (ifs s)) s, p, rest, out)).
  Proof. intros B N. unfold directive_command. names. cbn [andb orb]. rewrite expect_blank by auto. reflexivity. Qed.
  Lemma else_cmd s p c n rest out ws nl i : blank ws -> t_sym nl = Newline -> flip checked c (ifs s) = Ok i ->
    cmd_ (G n) s p c (bs "else") (ws ++ nl :: rest) out = Ok (true, (with_ifs i s, p, rest, out)).
  Proof. intros B N H. unfold directive_command. names. cbn [andb orb]. rewrite H. cbn [rbind]. rewrite expect_blank by auto. reflexivity. Qed.

  Lemma agrees_opened e s c cmd b : agrees e (defs s) -> agrees e (defs (opened s c cmd b)).
  Proof. auto. Qed.

  (** A program runs as it reads. *)
  Theorem exec_run stack g c pr g' c' o : exec project F parse_f64 flt fle locate parse stack g c pr g' c' o ->
    forall s p, files s = stack -> agrees (Env g None) (defs s) -> counter (defs s) = c -> is_reading s = true ->
    exists s' p', ran s s' /\ ((flat pr -> did_else (ifs s') = did_else (ifs s)) /\ flags p' = flags p) /\ agrees (Env g' None) (defs s') /\ counter (defs s') = c' /\
      forall rest out r, yields s' p' rest (settle out o) r ->
      yields s p (source_of pr ++ rest) out r.
  Proof.
    induction 1 as [fs g c|fs g c l rest c1 o1 g2 c2 o2 T X _ IH|fs g c l cmd args name def rest g2 c2 o2 D Dm Bi _ IH
      |fs g c l cmd ws x w ws' rest g2 c2 o2 D B T B' _ IH
      |cur up g c l cmd ws q path q' ws' found other pr eoi rest g1 c1 o1 g2 c2 o2 D B B' Q Np Lc Ps Te _ IHi _ IH|fs g c o y cl rest c1 c2 ws2 g1 c3 o1 g2 c4 o2 H Xy IHy D2 B2 _ IH
      |fs g c o y cl rest c1 c2 ws2 g2 c4 o2 H Ky D2 B2 _ IH
      |fs g c o y m n cl rest c1 c2 ws2 c3 ws3 g1 cc o1 g2 c4 o2 H Xy IHy D2 B2 Kn D3 B3 _ IH
      |fs g c o y m n cl rest c1 c2 ws2 c3 ws3 g1 cc o1 g2 c4 o2 H Ky D2 B2 Xn IHn D3 B3 _ IH]; intros s p Hf A C R.
    - exists s, p. split; [apply ran_refl|]. split; [auto|]. split; [exact A|]. split; [exact C|]. intros rest out r Hr. exact Hr.
    - destruct (line_text g c c1 o1 l s p T X A C R) as (s1 & Af & H1).
      pose proof (after_ran _ _ _ Af) as Rn.
      destruct (IH s1 (clear_line p)) as (s2 & p2 & Rn2 & (Fl2 & Hp2) & A2 & C2 & H2).
      { destruct Rn as (_ & _ & -> & _). exact Hf. }
      { apply (after_agrees _ _ _ _ Af A). }
      { apply (after_counter _ _ _ Af). }
      { rewrite (ran_reading _ _ Rn). exact R. }
      exists s2, p2. split; [eauto using ran_trans|]. split; [split; [intros [_ Hfl]; rewrite (Fl2 Hfl); destruct Af as [? ->]; reflexivity|exact Hp2]|]. split; [exact A2|]. split; [exact C2|]. intros k out r Hr.
      cbn [source_of]. rewrite <- app_assoc. apply H1, H2.
      rewrite <- settle_app, <- app_assoc. exact Hr.
    - pose proof (args_no_newline _ _ _ _ D) as [N Ha].
      destruct (define_line args name def Dm Bi s g (newline l) N Ha A) as (s1 & E1 & Rn & Fl1 & C1 & A1).
      set (p1 := match def with Unit => clear_line p | _ => p end).
      assert (is_reading s1 = true) as R1 by (rewrite (ran_reading _ _ Rn); exact R).
      destruct (IH s1 p1) as (s2 & p2 & Rn2 & (Fl2 & Hp2) & A2 & C2 & H2).
      { destruct Rn as (_ & _ & -> & _). exact Hf. } { rewrite <- Hf. exact A1. } { congruence. } { exact R1. }
      exists s2, p2. split; [eauto using ran_trans|]. split; [split; [intros [_ Hfl]; rewrite (Fl2 Hfl); exact Fl1|rewrite Hp2; subst p1; destruct def; reflexivity]|]. split; [exact A2|]. split; [exact C2|]. intros k out r Hr.
      cbn [source_of]. rewrite <- app_assoc.
      eapply (line_directive _ _ _ _ D).
      { intro n0. unfold directive_command. rewrite R. names. cbn [andb]. rewrite E1. reflexivity. }
      unfold o0. rewrite R.
      assert (yields s1 p1 (source_of rest ++ k)
         (settle (settle out (indent l)) (match def with Unit => [Direct (newline l)] | _ => [] end)) r) as Hy.
      { apply H2. rewrite <- !settle_app, <- ?app_assoc. exact Hr. }
      subst p1. destruct def; try exact Hy. destruct Hy as [NF [n1 Hn1]]. split; [exact NF|].
      exists (S (S n1)). rewrite file_S. unfold file. rewrite N. cbn [is_eoi]. unfold line. cbn [skip_ws_out]. rewrite N. cbn [is_space].
      rewrite directive_S. unfold directive. rewrite N. cbn [rbind]. rewrite R1, walk_S. unfold walk. rewrite N, emit_settle by exact R1.
      unfold shown. rewrite N. cbn [rbind is_comment]. eapply file_le; [|exact NF|exact Hn1]. lia.
    - pose proof (args_no_newline _ _ _ _ D) as [N Ha].
      destruct (undef_line ws x w ws' (newline l) s g B T B' N A) as (s1 & E1 & Rn & Fl1 & C1 & A1).
      destruct (IH s1 p) as (s2 & p2 & Rn2 & (Fl2 & Hp2) & A2 & C2 & H2).
      { destruct Rn as (_ & _ & -> & _). exact Hf. } { exact A1. } { congruence. } { rewrite (ran_reading _ _ Rn); exact R. }
      exists s2, p2. split; [eauto using ran_trans|]. split; [split; [intros [_ Hfl]; rewrite (Fl2 Hfl); exact Fl1|exact Hp2]|]. split; [exact A2|]. split; [exact C2|]. intros k out r Hr.
      cbn [source_of]. rewrite <- app_assoc.
      eapply (line_directive _ _ _ _ D).
      { intro n0. unfold directive_command. rewrite R. names. cbn [andb]. rewrite E1. reflexivity. }
      unfold o0. rewrite R. apply H2. rewrite <- settle_app. exact Hr.
    - pose proof (args_no_newline _ _ _ _ D) as [N Ha].
      set (s0 := if other then add_warning (WIncludeCase found) s else s).
      set (s1 := add_included found (with_files (found :: files s0) s0)).
      assert (files s0 = cur :: up /\ ifs s0 = ifs s /\ defs s0 = defs s /\ no_rapify s0 = no_rapify s) as (K1 & K2 & K3 & K4)
        by (subst s0; destruct other; cbn; auto).
      destruct (IHi s1 (prag_child p)) as (s2 & p2 & Rn & _ & A2 & C2 & H2).
      { subst s1. cbn. now rewrite K1. } { subst s1. cbn. now rewrite K3. } { subst s1. cbn. now rewrite K3. }
      { unfold is_reading. subst s1. cbn. rewrite K2. exact R. }
      set (s3 := with_files (tl (files s2)) s2).
      assert (ran s s3) as Rn3.
      { destruct Rn as (E1 & E2 & E3 & E4). subst s1 s3. cbn in *. unfold ran. cbn. rewrite K2 in *. rewrite E3, K1. repeat split; auto; congruence. }
      destruct (IH s3 p) as (s4 & p4 & Rn4 & (_ & Hp4) & A4 & C4 & H4).
      { destruct Rn3 as (_ & _ & -> & _). exact Hf. } { exact A2. } { exact C2. } { rewrite (ran_reading _ _ Rn3). exact R. }
      exists s4, p4. split; [eauto using ran_trans|]. split; [split; [intros [X _]; exfalso; eauto|exact Hp4]|]. split; [exact A4|]. split; [exact C4|].
      intros k out r Hr. cbn [source_of]. rewrite <- app_assoc.
      pose proof (include_path_line ws q path q' ws' (newline l :: source_of rest ++ k) B Q Np Ha) as Ip.
      assert (yields s1 (prag_child p) (source_of pr ++ [eoi]) (settle out (indent l)) (Ok (s2, p2, [eoi], settle (settle out (indent l)) o1))) as [_ [n1 Hn1]].
      { apply H2. split; [discriminate|]. exists 1%nat. cbn [fns c_file]. unfold file. rewrite Te. reflexivity. }
      assert (yields s3 p (source_of rest ++ k) (settle (settle out (indent l)) o1) r) as [NF [n2 Hn2]].
      { apply H4. rewrite <- !settle_app, <- ?app_assoc. exact Hr. }
      split; [exact NF|]. destruct D as (Gd & Tc & wl & h & Bl & Th & El).
      destruct (good_start l (source_of rest ++ k) Gd) as (t & r' & Et & Ei).
      assert (skip_ws_out s (line_toks l ++ source_of rest ++ k) out = ((h :: cmd :: ws ++ q :: path ++ q' :: ws') ++ newline l :: source_of rest ++ k, o0 s l out)) as Sk.
      { apply line_start; auto. exists wl. rewrite Th. auto. }
      exists (S (S (n1 + n2))). rewrite file_S. unfold file. rewrite Et, Ei, <- Et. unfold line. rewrite Sk, directive_S. cbn [app].
      unfold directive. rewrite Th, Tc. unfold directive_command. rewrite R. names. cbn [andb]. unfold directive_include. rewrite Ip. cbn [rbind].
      rewrite expect_blank by auto. rewrite Hf, Lc, Ps. cbn [rbind]. fold s0. fold s1.
      unfold o0. rewrite R. rewrite (file_up _ _ _ _ _ _ _ _ n1 (n1 + n2) _ _ _ _ _ ltac:(lia) Hn1). cbn [rbind]. fold s3.
      eapply file_le; [|exact NF|exact Hn2]. lia.
    - destruct (holds_line _ _ _ _ _ s H A C R) as (cmd & w & args & D & Hc). set (s1 := opened s c1 cmd true) in *.
      assert (is_reading s1 = true) as R1 by exact R.
      destruct (IHy s1 p Hf (agrees_opened _ _ _ _ _ A) eq_refl R1) as (s2 & p2 & Rn & (Fl2 & Hp2) & A2 & C2 & H2).
      set (s3 := with_ifs (if_pop (ifs s2)) s2).
      assert (ran s s3) as Rn3.
      { destruct Rn as (E1 & E2 & E3 & E4). unfold ran. subst s3. cbn. rewrite E1. auto. }
      destruct (IH s3 p2) as (s4 & p4 & Rn4 & (_ & Hp4) & A4 & C4 & H4).
      { destruct Rn3 as (_ & _ & -> & _). exact Hf. } { exact A2. } { exact C2. } { rewrite (ran_reading _ _ Rn3). exact R. }
      exists s4, p4. split; [eauto using ran_trans|]. split; [split; [intros []|congruence]|]. split; [exact A4|]. split; [exact C4|]. intros k out r Hr.
      cbn [source_of]. rewrite <- !app_assoc.
      eapply (line_directive _ _ _ _ D); [intro; apply Hc|]. unfold o0. rewrite R. apply H2.
      eapply (line_directive _ _ _ _ D2); [intro; apply endif_cmd; auto; apply (args_no_newline _ _ _ _ D2)|].
      unfold o0. rewrite (ran_reading _ _ Rn), R1. apply H4. rewrite <- !settle_app, <- ?app_assoc. exact Hr.
    - destruct (holds_line _ _ _ _ _ s H A C R) as (cmd & w & args & D & Hc). set (s1 := opened s c1 cmd false) in *.
      assert (is_reading s1 = false) as R1 by reflexivity.
      destruct (skip y Ky s1 p R1) as (p2 & d & Hd & (_ & Hp2) & H2). specialize (Hd eq_refl). subst d.
      set (s2 := with_ifs (Ifs (if_stack (ifs s1)) None) s1) in *.
      set (s3 := with_ifs (if_pop (ifs s2)) s2).
      assert (ran s s3) as Rn3 by (unfold ran; cbn; auto).
      destruct (IH s3 p2) as (s4 & p4 & Rn4 & (_ & Hp4) & A4 & C4 & H4); [exact Hf|exact A|reflexivity|exact R|].
      exists s4, p4. split; [eauto using ran_trans|]. split; [split; [intros []|congruence]|]. split; [exact A4|]. split; [exact C4|]. intros k out r Hr.
      cbn [source_of]. rewrite <- !app_assoc.
      eapply (line_directive _ _ _ _ D); [intro; apply Hc|]. unfold o0. rewrite R. apply H2.
      eapply (line_directive _ _ _ _ D2); [intro; apply endif_cmd; auto; apply (args_no_newline _ _ _ _ D2)|].
      unfold o0. change (is_reading s2) with false. cbn iota. apply H4. rewrite <- settle_app. exact Hr.
    - destruct (holds_line _ _ _ _ _ s H A C R) as (cmd & w & args & D & Hc). set (s1 := opened s c1 cmd true) in *.
      assert (is_reading s1 = true) as R1 by exact R.
      destruct (IHy s1 p Hf (agrees_opened _ _ _ _ _ A) eq_refl R1) as (s2 & p2 & Rn & (Fl2 & Hp2) & A2 & C2 & H2).
      assert (if_stack (ifs s2) = (ReadingIf, cmd) :: if_stack (ifs s)) as E2 by (apply Rn).
      assert (did_else (ifs s2) = None) as E3 by (apply Rn; reflexivity).
      set (s3 := with_ifs (Ifs ((PassingElse, cmd) :: if_stack (ifs s)) (Some c2)) s2).
      destruct (skip n Kn s3 p2 eq_refl) as (p3 & d & _ & (_ & Hp3) & H3).
      set (s5 := with_ifs (Ifs (if_stack (ifs s)) None) s2).
      assert (ran s s5) as Rn5.
      { destruct Rn as (_ & _ & F3 & F4). unfold ran. subst s5. cbn. auto. }
      destruct (IH s5 p3) as (s4 & p4 & Rn4 & (_ & Hp4) & A4 & C4 & H4).
      { destruct Rn5 as (_ & _ & -> & _). exact Hf. } { exact A2. } { exact C2. } { rewrite (ran_reading _ _ Rn5). exact R. }
      exists s4, p4. split; [eauto using ran_trans|]. split; [split; [intros []|congruence]|]. split; [exact A4|]. split; [exact C4|]. intros k out r Hr.
      cbn [source_of]. rewrite <- !app_assoc.
      eapply (line_directive _ _ _ _ D); [intro; apply Hc|]. unfold o0. rewrite R. apply H2.
      eapply (line_directive _ _ _ _ D2).
      { intro. apply else_cmd with (i := Ifs ((PassingElse, cmd) :: if_stack (ifs s)) (Some c2)); auto; [apply (args_no_newline _ _ _ _ D2)|].
        unfold flip. rewrite E3, E2. unfold is_reading, reading in R. rewrite R. reflexivity. }
      apply H3. unfold o0. rewrite (ran_reading _ _ Rn), R1.
      eapply (line_directive _ _ _ _ D3); [intro; apply endif_cmd; auto; apply (args_no_newline _ _ _ _ D3)|].
      unfold o0. change (is_reading (with_ifs (Ifs (if_stack (ifs s3)) d) s3)) with false. cbn iota. apply H4.
      rewrite <- !settle_app, <- ?app_assoc. exact Hr.
    - destruct (holds_line _ _ _ _ _ s H A C R) as (cmd & w & args & D & Hc). set (s1 := opened s c1 cmd false) in *.
      assert (is_reading s1 = false) as R1 by reflexivity.
      destruct (skip y Ky s1 p R1) as (p2 & d & Hd & (_ & Hp2) & H2). specialize (Hd eq_refl). subst d.
      set (s2 := with_ifs (Ifs ((ReadingElse, cmd) :: if_stack (ifs s)) (Some c2)) s1).
      destruct (IHn s2 p2) as (s3 & p3 & Rn & (_ & Hp3) & A3 & C3 & H3); [exact Hf|exact A|reflexivity|exact R|].
      set (s5 := with_ifs (if_pop (ifs s3)) s3).
      assert (ran s s5) as Rn5.
      { destruct Rn as (F1 & F2 & F3 & F4). unfold ran. subst s5. cbn. rewrite F1. auto. }
      destruct (IH s5 p3) as (s4 & p4 & Rn4 & (_ & Hp4) & A4 & C4 & H4).
      { destruct Rn5 as (_ & _ & -> & _). exact Hf. } { exact A3. } { exact C3. } { rewrite (ran_reading _ _ Rn5). exact R. }
      exists s4, p4. split; [eauto using ran_trans|]. split; [split; [intros []|congruence]|]. split; [exact A4|]. split; [exact C4|]. intros k out r Hr.
      cbn [source_of]. rewrite <- !app_assoc.
      eapply (line_directive _ _ _ _ D); [intro; apply Hc|]. unfold o0. rewrite R. apply H2.
      eapply (line_directive _ _ _ _ D2).
      { intro. apply else_cmd with (i := Ifs ((ReadingElse, cmd) :: if_stack (ifs s)) (Some c2)); auto; [apply (args_no_newline _ _ _ _ D2)|].
        unfold flip. cbn. unfold is_reading, reading in R. rewrite R. reflexivity. }
      unfold o0. change (is_reading (with_ifs (Ifs (if_stack (ifs s1)) None) s1)) with false. cbn iota. apply H3.
      eapply (line_directive _ _ _ _ D3); [intro; apply endif_cmd; auto; apply (args_no_newline _ _ _ _ D3)|].
      unfold o0. rewrite (ran_reading _ _ Rn). change (is_reading s2) with (is_reading s). rewrite R. apply H4.
      rewrite <- !settle_app, <- ?app_assoc. exact Hr.
  Qed.
End Blocks.
