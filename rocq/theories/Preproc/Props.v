(** The preprocessor's properties: C23 - C26 and C46 - C51. *)
From Coq Require Import String.
From Verif Require Import Base.Tactics Base.Bytes Base.Ascii Base.Text Preproc.Model Preproc.Fuel Preproc.Spec Preproc.Expand
  Preproc.BlockSpec Preproc.Blocks Preproc.Invariants Preproc.LexModel Preproc.LexSpec Preproc.LexProofs Preproc.Plain.
Local Open Scope N_scope.
Local Open Scope list_scope.

Definition nothing : names := fun _ => None.

Section Processor.
  Context (checked : bool) (locate : text -> text -> option (text * bool)) (parse : text -> run (list token))
          (project : option (option text * text)) (F : Type) (parse_f64 : text -> option F) (flt fle : F -> F -> bool).
  Notation G := (fns checked locate parse project F parse_f64 flt fle).
  Notation preprocess := (preprocess checked locate parse project F parse_f64 flt fle).
  Notation exec := (exec project F parse_f64 flt fle locate parse).
  Notation holds := (holds project F parse_f64 flt fle).

  Lemma agrees_init path : agrees (Env nothing None) (defs (init path)).
  Proof. split; [reflexivity|exact I]. Qed.
  Lemma yields_preprocess path toks r : parse path = Ok toks ->
    yields checked locate parse project F parse_f64 flt fle (init path) prag_root toks [] r ->
    exists n0, forall n, (n0 <= n)%nat -> preprocess n path =
      ('(s, _, _, out) <- r ;;
       match if_stack (ifs s) with
       | _ :: _ => Err PE18_eoi_ifstate
       | [] => let s := if text_eqb (filename path) (bs "Config.cpp") then add_warning WConfigCase s else s in Ok (s, rev out)
       end).
  Proof.
    intros P [NF [n0 H]]. exists n0. intros n Hn. unfold Model.preprocess. rewrite P. cbn [rbind].
    erewrite file_le; [reflexivity|exact Hn|exact NF|exact H].
  Qed.
  Lemma yields_eoi s p eoi rest out : t_sym eoi = Eoi ->
    yields checked locate parse project F parse_f64 flt fle s p (eoi :: rest) out (Ok (s, p, eoi :: rest, out)).
  Proof. intro E. split; [discriminate|]. exists 1%nat. rewrite file_S. unfold file. rewrite E. reflexivity. Qed.

  (** ** C23 *)
  (** Every properly nested file runs as its blocks read, and ends with no block open. *)
  Theorem C23_blocks_run_as_read path pr eoi g' c' o :
    parse path = Ok (source_of pr ++ [eoi]) -> t_sym eoi = Eoi ->
    exec [path] nothing 0 pr g' c' o ->
    exists n0, forall n, (n0 <= n)%nat -> exists s, preprocess n path = Ok (s, settled o) /\ if_stack (ifs s) = [].
  Proof.
    intros P E X.
    destruct (exec_run checked locate parse project F parse_f64 flt fle _ _ _ _ _ _ _ X (init path) prag_root eq_refl (agrees_init path) eq_refl eq_refl)
      as (s' & p' & (Rs & _) & _ & _ & _ & H).
    cbn in Rs. pose proof (H [eoi] [] _ (yields_eoi s' p' eoi [] _ E)) as Y.
    destruct (yields_preprocess path _ _ P Y) as [n0 Hn]. exists n0. intros n L. rewrite (Hn n L). cbn [rbind]. rewrite Rs.
    eexists. split; [reflexivity|]. destruct (text_eqb _ _); exact Rs.
  Qed.

  (** While some enclosing branch is not taken, a line writes nothing and changes nothing but the conditional stack,
      whatever is on it. *)
  Theorem C23_skipped_lines_inert n s p ts out s' p' ts' out' :
    is_reading s = false -> line (G n) s p ts out = Ok (s', p', ts', out') ->
    out' = out /\ s' = with_ifs (ifs s') s /\ (p' = p \/ p' = clear_line p).
  Proof.
    intros R. unfold line.
    assert (forall ts, skip_ws_out s ts out = (skip_ws ts, out)) as Sk.
    { clear ts. induction ts as [|t ts IH]; auto. cbn [skip_ws_out skip_ws]. destruct (is_space _); auto. unfold emit. rewrite R. cbn [andb]. auto. }
    rewrite Sk. destruct n as [|n]; [discriminate|]. rewrite directive_S. unfold directive. intro H.
    assert (s = with_ifs (ifs s) s) as Es by (destruct s; reflexivity).
    assert (forall tsx, ('(s0, p0, ts0, out0) <- (if is_reading s then c_walk (G (S n)) None None s p tsx out false None true else Ok (s, p, skip_line tsx, out)) ;;
      Ok (s0, clear_line p0, ts0, out0)) = Ok (s', p', ts', out') -> out' = out /\ s' = with_ifs (ifs s') s /\ (p' = p \/ p' = clear_line p)) as No.
    { intros tsx. rewrite R. cbn [rbind]. intro X. injection X as <- <- <- <-. auto. }
    destruct (skip_ws ts) as [|h r]; [cbn [rbind] in H; eauto|]. destruct (t_sym h); cbn [rbind] in H; eauto. destruct r as [|c r]; [cbn [rbind] in H; eauto|].
    destruct (t_sym c); cbn [rbind] in H; eauto.
    unfold directive_command in H. rewrite R, !Bool.andb_false_r in H.
    assert (forall i : ifstates, out = out /\ with_ifs i s = with_ifs (ifs (with_ifs i s)) s /\ (p = p \/ p = clear_line p)) as Yes by (intro; auto).
    repeat match type of H with context [if ?b then _ else _] => destruct b end; cbn [rbind] in H;
      try (injection H as <- <- <- <-; auto; fail).
    - destruct (flip checked c (ifs s)); try discriminate. cbn [rbind] in H. destruct (expect_nothing r); try discriminate. cbn [rbind] in H. injection H as <- <- <- <-. auto.
    - destruct (expect_nothing r); try discriminate. cbn [rbind] in H. injection H as <- <- <- <-. auto.
  Qed.

  Lemma exec_two fs g c a g1 c1 o1 : exec fs g c a g1 c1 o1 -> forall b g2 c2 o2, exec fs g1 c1 b g2 c2 o2 ->
    forall s p, files s = fs -> agrees (Env g None) (defs s) -> counter (defs s) = c -> is_reading s = true ->
    exists s' p', ran s s' /\ agrees (Env g2 None) (defs s') /\ counter (defs s') = c2 /\
      forall rest out r, yields checked locate parse project F parse_f64 flt fle s' p' rest (settle out (o1 ++ o2)) r ->
      yields checked locate parse project F parse_f64 flt fle s p (source_of a ++ source_of b ++ rest) out r.
  Proof.
    intros Xa b g2 c2 o2 Xb s p Ef A C R.
    destruct (exec_run checked locate parse project F parse_f64 flt fle _ _ _ _ _ _ _ Xa s p Ef A C R) as (s1 & p1 & R1 & _ & A1 & C1 & H1).
    destruct (exec_run checked locate parse project F parse_f64 flt fle _ _ _ _ _ _ _ Xb s1 p1) as (s2 & p2 & R2 & _ & A2 & C2 & H2); auto.
    { destruct R1 as (_ & _ & -> & _). exact Ef. } { now rewrite (ran_reading _ _ R1). }
    exists s2, p2. split; [eapply ran_trans; eauto|]. split; [exact A2|]. split; [exact C2|]. intros rest out r Y. apply H1, H2. now rewrite <- settle_app.
  Qed.

  Section Selected.
    Context (defined : text -> bool) (g : names) (Hd : forall w, defined w = true <-> visible (Env g None) w).
    Lemma tidy_good (l : pline) k : tidy_word k l -> exists c, is_directive l c k [] /\ indent l = [].
    Proof.
      intros (N & h & c & E & Th & Tc). exists c. split; [split; [|split; [exact Tc|]]|].
      - split; [exact N|]. rewrite E. intros t [<-|[<-|[]]]; split; congruence.
      - exists [], h. split; [intros ? []|]. rewrite E. auto.
      - unfold indent. rewrite E. cbn. now rewrite Th.
    Qed.
    Lemma tidy_opens (l : pline) : tidy_open l ->
      exists c w args, is_directive l c w args /\ opens w /\ indent l = [] /\ forall n, holds g n l n (taken defined l).
    Proof.
      intros (N & h & c & sp & x & w & E & Th & Tc & Ts & Tx). exists c.
      assert (good l) as Gl.
      { split; [exact N|]. rewrite E. intros t [<-|[<-|[<-|[<-|[]]]]]; split; destruct Tc; congruence. }
      assert (forall k, t_sym c = Word k -> is_directive l c k ([sp] ++ x :: [])) as D.
      { intros k Hk. split; [exact Gl|]. split; [exact Hk|]. exists [], h. split; [intros ? []|]. rewrite E. auto. }
      assert (blank [sp]) as Bs by (intros ? [<-|[]]; rewrite Ts; reflexivity).
      assert (indent l = []) as In0 by (unfold indent; rewrite E; cbn; now rewrite Th).
      assert (tok_text x = w) as Ex by (unfold tok_text; now rewrite Tx).
      destruct Tc as [Tc|Tc]; (eexists _, _; split; [exact (D _ Tc)|]; split; [unfold opens; auto|]; split; [exact In0|]; intro n).
      - eapply H_ifdef with (ws' := []); eauto; [intros ? []|]. unfold taken. rewrite E. unfold tok_text at 1. rewrite Tc. cbn [sym_text].
        rewrite text_eqb_refl, Ex. apply Hd.
      - eapply H_ifndef with (ws' := []); eauto; [intros ? []|]. unfold taken. rewrite E. unfold tok_text at 1. rewrite Tc. cbn [sym_text].
        change (text_eqb (bs "ifndef") (bs "ifdef")) with false. cbn iota. rewrite Ex, <- Hd. destruct (defined w); cbn; intuition congruence.
    Qed.
    Lemma tidy_text (l : pline) : tidy_line defined l -> is_text l.
    Proof.
      intros (N & H). split; [split; [exact N|]|].
      - intros t Ht. specialize (H t Ht). destruct (t_sym t); try contradiction; split; discriminate.
      - assert (forall u, (forall t, In t u -> In t (on l)) -> exists ws ts, blank ws /\ u = ws ++ ts /\ match ts with [] => True | t :: _ => is_space (t_sym t) = false /\ t_sym t <> Hash end) as X.
        { induction u as [|t u IH]; intro Hu; [exists [], []; repeat split; auto; intros ? []|].
          destruct (is_space (t_sym t)) eqn:Es.
          - destruct IH as (ws & ts & B & -> & T); [intros; apply Hu; cbn; auto|]. exists (t :: ws), ts. repeat split; auto. intros x [<-|Hx]; auto.
          - exists [], (t :: u). repeat split; auto; [intros ? []|]. specialize (H t (Hu t (or_introl eq_refl))). destruct (t_sym t); try contradiction; discriminate. }
        apply X. auto.
    Qed.
    Lemma tidy_expand (ts : list token) n : (forall t, In t ts -> match t_sym t with Word w => ~ refused w /\ defined w = false | Hash | DQuote | Newline | Eoi | Escape => False | _ => True end) ->
      expand project (Env g None) None None n ts n (flat_map shown ts).
    Proof.
      induction ts as [|t ts IH]; intro H; [constructor|]. cbn [flat_map]. assert (X := H t (or_introl eq_refl)).
      assert (expand project (Env g None) None None n ts n (flat_map shown ts)) as IH' by (apply IH; intros; apply H; cbn; auto).
      destruct (t_sym t) eqn:Et; try contradiction; try (apply X_plain; [rewrite Et; exact I|exact IH']).
      unfold shown at 1. rewrite Et. cbn [is_comment]. cbn [app]. destruct X as [X1 X2]. eapply X_word; eauto.
      left. rewrite <- Hd. congruence.
    Qed.
    Lemma tidy_skippable (pr : prog) : tidy defined pr -> skippable pr.
    Proof.
      induction pr as [|l rest IH|o y IHy cl rest IH|o y IHy m n IHn cl rest IH]; cbn [tidy]; intro H.
      - constructor.
      - destruct H as [H1 H2]. apply K_text; auto using tidy_text.
      - destruct H as (H1 & H2 & H3 & H4). destruct (tidy_opens _ H1) as (c & w & args & D & O & _). destruct (tidy_good _ _ H3) as (c3 & D3 & _).
        eapply K_if; eauto. intros ? [].
      - destruct H as (H1 & H2 & H3 & H4 & H5 & H6). destruct (tidy_opens _ H1) as (c & w & args & D & O & _). destruct (tidy_good _ _ H3) as (c3 & D3 & _).
        destruct (tidy_good _ _ H5) as (c5 & D5 & _). eapply K_ifelse; eauto; intros ? [].
    Qed.
    Lemma tidy_exec (pr : prog) fs n : tidy defined pr ->
      exec fs g n pr g n (flat_map (fun l => flat_map shown (line_toks l)) (selected defined pr)).
    Proof.
      induction pr as [|l rest IH|o y IHy cl rest IH|o y IHy m no IHn cl rest IH]; cbn [tidy selected]; intro H.
      - constructor.
      - destruct H as [H1 H2]. cbn [flat_map]. unfold line_toks at 1. rewrite flat_map_app, <- app_assoc. cbn [flat_map]. destruct H1 as [Hn H1].
        unfold shown at 2. rewrite Hn. cbn [is_comment app]. eapply E_text; eauto using tidy_expand. apply tidy_text. split; auto.
      - destruct H as (H1 & H2 & H3 & H4). destruct (tidy_opens _ H1) as (c & w & args & D & O & I0 & Hh). destruct (tidy_good _ _ H3) as (c3 & D3 & I3).
        specialize (Hh n). rewrite flat_map_app. destruct (taken defined o).
        + pose proof (E_if_yes project F parse_f64 flt fle locate parse fs g n o y cl rest n c3 [] g n _ g n _ Hh (IHy H2) D3 ltac:(intros ? []) (IH H4)) as X.
          rewrite I0, I3 in X. exact X.
        + pose proof (E_if_no project F parse_f64 flt fle locate parse fs g n o y cl rest n c3 [] g n _ Hh (tidy_skippable _ H2) D3 ltac:(intros ? []) (IH H4)) as X.
          rewrite I0 in X. exact X.
      - destruct H as (H1 & H2 & H3 & H4 & H5 & H6). destruct (tidy_opens _ H1) as (c & w & args & D & O & I0 & Hh). destruct (tidy_good _ _ H3) as (c3 & D3 & I3).
        destruct (tidy_good _ _ H5) as (c5 & D5 & I5). specialize (Hh n). rewrite flat_map_app. destruct (taken defined o).
        + pose proof (E_else_yes project F parse_f64 flt fle locate parse fs g n o y m no cl rest n c3 [] c5 [] g n _ g n _ Hh (IHy H2) D3 ltac:(intros ? []) (tidy_skippable _ H4) D5 ltac:(intros ? []) (IH H6)) as X.
          rewrite I0, I3 in X. exact X.
        + pose proof (E_else_no project F parse_f64 flt fle locate parse fs g n o y m no cl rest n c3 [] c5 [] g n _ g n _ Hh (tidy_skippable _ H2) D3 ltac:(intros ? []) (IHn H4) D5 ltac:(intros ? []) (IH H6)) as X.
          rewrite I0, I5 in X. exact X.
    Qed.
  End Selected.
  Lemma settle_calm o : calm o -> forall acc, calm acc -> settle acc o = rev o ++ acc.
  Proof.
    induction o as [|x o IH]; intros Co acc Ca; [reflexivity|]. cbn [settle rev]. rewrite <- app_assoc. cbn [app].
    assert (settle (x :: acc) o = rev o ++ x :: acc) as E.
    { apply IH; [intros y Hy; apply Co; cbn; auto|]. intros y [<-|Hy]; [apply Co; cbn; auto|auto]. }
    destruct (Co x (or_introl eq_refl)) as (t & -> & _). destruct acc as [|a acc]; [exact E|]. destruct (Ca a (or_introl eq_refl)) as (t' & -> & N').
    cbn [last_sym]. replace (is_escape (t_sym t')) with false by (destruct (t_sym t'); cbn; congruence). rewrite Bool.andb_false_r. exact E.
  Qed.
  Lemma selected_tidy defined (pr : prog) l : tidy defined pr -> In l (selected defined pr) -> tidy_line defined l.
  Proof.
    induction pr as [|l' rest IH|o y IHy cl rest IH|o y IHy m n IHn cl rest IH]; cbn [tidy selected]; intros H Hl.
    - destruct Hl.
    - destruct Hl as [<-|Hl]; [apply H|]. apply IH; tauto.
    - apply in_app_or in Hl. destruct Hl as [Hl|Hl]; [destruct (taken defined o); [|destruct Hl]; apply IHy; tauto|apply IH; tauto].
    - apply in_app_or in Hl. destruct Hl as [Hl|Hl]; [destruct (taken defined o); [apply IHy|apply IHn]; tauto|apply IH; tauto].
  Qed.
  (** After any preamble (which writes [o]), exactly the selected lines are written. *)
  Theorem C23_selected_lines path pre pr eoi g c o defined :
    parse path = Ok (source_of pre ++ source_of pr ++ [eoi]) -> t_sym eoi = Eoi ->
    exec [path] nothing 0 pre g c o -> calm o ->
    (forall w, defined w = true <-> visible (Env g None) w) -> tidy defined pr ->
    exists n0, forall n, (n0 <= n)%nat -> exists s out, preprocess n path = Ok (s, out) /\
      out_text out = out_text o ++ flat_map (fun l => toks_text (line_toks l)) (selected defined pr).
  Proof.
    intros P E X Co Hd T.
    destruct (exec_two _ _ _ _ _ _ _ X pr g c _ (tidy_exec defined g Hd pr [path] c T) (init path) prag_root eq_refl (agrees_init path) eq_refl eq_refl)
      as (s' & p' & (Rs & _) & _ & _ & H).
    cbn in Rs. pose proof (H [eoi] [] _ (yields_eoi s' p' eoi [] _ E)) as Y.
    destruct (yields_preprocess path _ _ P Y) as [n0 Hn]. exists n0. intros n L. rewrite (Hn n L). cbn [rbind]. rewrite Rs.
    do 2 eexists. split; [reflexivity|].
    assert (forall ls, (forall l, In l ls -> tidy_line defined l) -> calm (flat_map (fun l => flat_map shown (line_toks l)) ls)) as Cl.
    { intros ls Hls x Hx. apply in_flat_map in Hx. destruct Hx as (l & Hl & Hx). apply in_flat_map in Hx. destruct Hx as (t & Ht & Hx).
      unfold shown in Hx. destruct (is_comment (t_sym t)); [destruct Hx|]. destruct Hx as [<-|[]]. exists t. split; auto.
      destruct (Hls l Hl) as [N1 N2]. apply in_app_or in Ht. destruct Ht as [Ht|[<-|[]]]; [|congruence]. specialize (N2 t Ht). intro Y'. now rewrite Y' in N2. }
    rewrite settle_calm; [| |intros ? []].
    - rewrite app_nil_r, rev_involutive. unfold out_text. rewrite flat_map_app. unfold toks_text at 1. rewrite flat_map_app. fold (toks_text (flat_map out_toks o)). f_equal.
      set (ls := selected defined pr). clearbody ls. induction ls as [|l ls IH]; [reflexivity|]. cbn [flat_map]. rewrite flat_map_app. rewrite flat_map_app. f_equal; [|exact IH].
      set (ts := line_toks l). clearbody ts. unfold toks_text. induction ts as [|t ts IHt]; [reflexivity|]. cbn [flat_map]. rewrite flat_map_app. rewrite flat_map_app. f_equal; [|exact IHt].
      unfold shown, tok_text. destruct (t_sym t) eqn:Et; cbn; rewrite ?app_nil_r; unfold tok_text; rewrite ?Et; cbn; rewrite ?app_nil_r; reflexivity.
    - intros x Hx. apply in_app_or in Hx. destruct Hx as [Hx|Hx]; [auto|]. eapply Cl; [|exact Hx]. intros l Hl. eapply selected_tidy; eauto.
  Qed.

  (** ** C24 *)
  Ltac names := repeat match goal with |- context [text_eqb ?a ?b] => change (text_eqb a b) with true || change (text_eqb a b) with false end.
  Notation yields := (yields checked locate parse project F parse_f64 flt fle).
  (** A second [#else] of a block whose else branch holds no block and no include is an error, whichever branch is
      taken. *)
  Theorem C24_second_else_rejected path pre open yes else1 no else2 rest g c o b c1 e1 ws1 e2 ws2 :
    parse path = Ok (source_of pre ++ line_toks open ++ source_of yes ++ line_toks else1 ++ source_of no ++ line_toks else2 ++ rest) ->
    exec [path] nothing 0 pre g c o ->
    holds g c open c1 b ->
    (if b then exists g2 c2 o2, exec [path] g c1 yes g2 c2 o2 else skippable yes) ->
    is_directive else1 e1 (bs "else") ws1 -> blank ws1 ->
    (if b then skippable no else exists g2 c2 o2, exec [path] g c1 no g2 c2 o2) -> flat no ->
    is_directive else2 e2 (bs "else") ws2 ->
    exists n0, forall n, (n0 <= n)%nat -> preprocess n path = Err PE17_double_else.
  Proof.
    intros P X Hh Hy D1 B1 Hn Fl D2.
    enough (exists out, yields (init path) prag_root (source_of pre ++ line_toks open ++ source_of yes ++ line_toks else1 ++ source_of no ++ line_toks else2 ++ rest) out (Err PE17_double_else) /\ out = []) as (out & Y & ->).
    { destruct (yields_preprocess path _ _ P Y) as [n0 H]. exists n0. intros n L. rewrite (H n L). reflexivity. }
    exists []. split; [|reflexivity].
    destruct (exec_run checked locate parse project F parse_f64 flt fle _ _ _ _ _ _ _ X (init path) prag_root eq_refl (agrees_init path) eq_refl eq_refl)
      as (s & p & Rn & _ & A & C & H). apply H. clear H.
    assert (files s = [path]) as Ef by apply Rn. assert (if_stack (ifs s) = []) as Es by apply Rn.
    assert (is_reading s = true) as R by (unfold is_reading, reading; now rewrite Es).
    destruct (holds_line checked locate parse project F parse_f64 flt fle _ _ _ _ _ s Hh A C R) as (cmd & w & args & D & Hc).
    set (s1 := opened s c1 cmd b) in *.
    eapply (line_directive _ _ _ _ _ _ _ _ _ _ _ _ D); [intro; apply Hc|].
    assert (forall sx px outx, did_else (ifs sx) = Some e1 -> if_stack (ifs sx) <> [] -> yields sx px (line_toks else2 ++ rest) outx (Err PE17_double_else)) as Last.
    { intros sx px outx Ed En. apply (line_directive_fail _ _ _ _ _ _ _ _ _ _ _ _ D2 sx px rest outx (fun A => @Err A PE17_double_else)); try congruence; auto.
      intro n. unfold directive_command. names. cbn [andb orb]. unfold flip. rewrite Ed. destruct (if_stack (ifs sx)); [congruence|]. reflexivity. }
    destruct b.
    - destruct Hy as (g2 & c2 & o2 & Xy).
      destruct (exec_run checked locate parse project F parse_f64 flt fle _ _ _ _ _ _ _ Xy s1 p Ef A eq_refl R) as (s2 & p2 & Rn2 & _ & A2 & C2 & H2).
      apply H2. assert (if_stack (ifs s2) = [(ReadingIf, cmd)]) as E2 by (destruct Rn2 as (-> & _); cbn; now rewrite Es).
      assert (did_else (ifs s2) = None) as E3 by (apply Rn2; reflexivity).
      eapply (line_directive _ _ _ _ _ _ _ _ _ _ _ _ D1).
      { intro. apply (else_cmd _ _ _ _ _ _ _ _) with (i := Ifs [(PassingElse, cmd)] (Some e1)); auto; [apply D1|]. unfold flip. rewrite E3, E2. reflexivity. }
      destruct (skip checked locate parse project F parse_f64 flt fle no Hn (with_ifs (Ifs [(PassingElse, cmd)] (Some e1)) s2) p2 eq_refl) as (p3 & d & _ & (Hd & _) & H3).
      apply H3. apply Last; [exact (Hd Fl)|discriminate].
    - destruct (skip checked locate parse project F parse_f64 flt fle yes Hy s1 p eq_refl) as (p2 & d & Hd & _ & H2). apply H2. specialize (Hd eq_refl). subst d.
      assert (if_stack (ifs s1) = [(PassingIf, cmd)]) as E2 by (cbn; now rewrite Es).
      eapply (line_directive _ _ _ _ _ _ _ _ _ _ _ _ D1).
      { intro. apply (else_cmd _ _ _ _ _ _ _ _) with (i := Ifs [(ReadingElse, cmd)] (Some e1)); auto; [apply D1|]. unfold flip. cbn [did_else with_ifs ifs if_stack]. rewrite E2. reflexivity. }
      destruct Hn as (g2 & c2 & o2 & Xn).
      destruct (exec_run checked locate parse project F parse_f64 flt fle _ _ _ _ _ _ _ Xn (with_ifs (Ifs [(ReadingElse, cmd)] (Some e1)) (with_ifs (Ifs (if_stack (ifs s1)) None) s1)) p2 Ef A eq_refl eq_refl) as (s3 & p3 & Rn3 & (Fl3 & _) & _ & _ & H3).
      apply H3. apply Last; [rewrite (Fl3 Fl); reflexivity|]. destruct Rn3 as (-> & _). discriminate.
  Qed.

  (** An [#endif] that closes nothing is ignored; an [#else] outside every block makes a checked build panic. *)
  Theorem C24_stray_endif_ignored path pre stray post eoi g c o e ws g2 c2 o2 :
    parse path = Ok (source_of pre ++ line_toks stray ++ source_of post ++ [eoi]) -> t_sym eoi = Eoi ->
    exec [path] nothing 0 pre g c o -> is_directive stray e (bs "endif") ws -> blank ws -> exec [path] g c post g2 c2 o2 ->
    exists n0, forall n, (n0 <= n)%nat -> exists s, preprocess n path = Ok (s, settled (o ++ indent stray ++ o2)).
  Proof.
    intros P E X D B X2.
    destruct (exec_run checked locate parse project F parse_f64 flt fle _ _ _ _ _ _ _ X (init path) prag_root eq_refl (agrees_init path) eq_refl eq_refl)
      as (s & p & Rn & _ & A & C & H).
    assert (files s = [path]) as Ef by apply Rn. assert (if_stack (ifs s) = []) as Es by apply Rn.
    assert (is_reading s = true) as R by (unfold is_reading, reading; now rewrite Es).
    set (s1 := with_ifs (if_pop (ifs s)) s).
    assert (is_reading s1 = true) as R1 by (unfold is_reading, reading, s1; cbn; now rewrite Es).
    destruct (exec_run checked locate parse project F parse_f64 flt fle _ _ _ _ _ _ _ X2 s1 p Ef A C R1) as (s2 & p2 & Rn2 & _ & _ & _ & H2).
    pose proof (yields_eoi s2 p2 eoi [] (settle (settle (settle [] o) (indent stray)) o2) E) as Y. apply H2 in Y.
    assert (yields s p (line_toks stray ++ source_of post ++ [eoi]) (settle [] o) (Ok (s2, p2, [eoi], settle (settle (settle [] o) (indent stray)) o2))) as Y2.
    { eapply (line_directive _ _ _ _ _ _ _ _ _ _ _ _ D); [intro; apply endif_cmd; auto; apply D|]. unfold o0. rewrite R. exact Y. }
    apply H in Y2. destruct (yields_preprocess path _ _ P Y2) as [n0 Hn]. exists n0. intros n L. rewrite (Hn n L). cbn [rbind].
    assert (if_stack (ifs s2) = []) as -> by (destruct Rn2 as (-> & _); cbn; now rewrite Es).
    eexists. cbv zeta. rewrite <- !settle_app. reflexivity.
  Qed.
  Theorem C24_stray_else_panics path pre stray rest g c o e ws :
    checked = true -> parse path = Ok (source_of pre ++ line_toks stray ++ rest) ->
    exec [path] nothing 0 pre g c o -> is_directive stray e (bs "else") ws ->
    exists n0, forall n, (n0 <= n)%nat -> preprocess n path = Panic.
  Proof.
    intros Ck P X D.
    destruct (exec_run checked locate parse project F parse_f64 flt fle _ _ _ _ _ _ _ X (init path) prag_root eq_refl (agrees_init path) eq_refl eq_refl)
      as (s & p & Rn & _ & A & C & H).
    assert (if_stack (ifs s) = []) as Es by apply Rn. assert (did_else (ifs s) = None) as Ed by (apply Rn; reflexivity).
    assert (yields s p (line_toks stray ++ rest) (settle [] o) Panic) as Y.
    { apply (line_directive_fail _ _ _ _ _ _ _ _ _ _ _ _ D s p rest (settle [] o) (fun A => @Panic A)); try congruence; auto.
      intro n. unfold directive_command. names. cbn [andb orb]. unfold flip. rewrite Ed, Es, Ck. reflexivity. }
    apply H in Y. destruct (yields_preprocess path _ _ P Y) as [n0 Hn]. exists n0. intros n L. rewrite (Hn n L). reflexivity.
  Qed.

  (** ** C25 *)
  (** Using a function-like macro leaves the tables as reading its arguments left them, whatever its body does. *)
  Theorem C25_call_restores_tables n site s p id ts out s' p' ts' out' d src at_ params body from :
    c_define_use (G (S n)) site s p (id :: ts) out = Ok (s', p', ts', out') ->
    get_with_gen checked project id site (defs s) = Ok (d, Some (src, Func at_ params body, from)) ->
    exists lp r s1 p1 args, ts = lp :: r /\ c_call_args (G n) site (with_defs d s) p r false 0 [] [] = Ok (s1, p1, ts', args) /\
      length args = length params /\ global (defs s') = global (defs s1) /\ frames (defs s') = frames (defs s1).
  Proof.
    cbn [fns c_define_use]. unfold define_use. cbn [current_word]. destruct (is_word (t_sym id)); [|destruct (is_eoi _); discriminate].
    cbn [rbind]. intros H Hg. rewrite Hg in H. cbn [rbind] in H. destruct ts as [|lp r]; [discriminate|]. destruct (is_lparen _); [|discriminate].
    destruct (c_call_args (G n) site (with_defs d s) p r false 0 [] []) as [[[[s1 p1] ts2] args]| | |] eqn:Ea; try discriminate. cbn [rbind] in H.
    destruct (Nat.eqb_spec (length args) (length params)) as [El|]; [|discriminate]. cbn [negb] in H.
    pose proof (bind_args_after (pad_checked p1 (tok_text id)) params args s1 []) as Ba.
    destruct (bind_args (pad_checked p1 (tok_text id)) params args s1 []) as [s2 tbl]. cbn [fst] in Ba.
    match type of H with context [c_walk _ _ _ ?sx _ _ _ _ _ _] => set (s3 := sx) in * end.
    destruct (c_walk (G n) (Some site) (Some (tok_text id)) s3 p1 (drop_joins body) [] false None true) as [[[[s4 p4] ts4] layer]| | |] eqn:Ew; try discriminate.
    cbn [rbind] in H. injection H as <- <- <- <-. exists lp, r, s1, p1, args. split; [reflexivity|]. split; [exact Ea|]. split; [exact El|].
    pose proof (k_walk _ (always_kept checked locate parse project F parse_f64 flt fle n) _ _ _ _ _ _ _ _ _ _ Ew) as Fo.
    destruct (follows_call _ _ _ _ _ _ Fo) as [G1 G2]. cbn [defs with_defs d_pop global frames]. rewrite G1, G2. destruct Ba as [ws ->]. auto.
  Qed.

  (** Arguments between commas. *)
  Fixpoint listed (comma : token) (args : list (list token)) : list token :=
    match args with
    | [] => []
    | [a] => a
    | a :: r => a ++ comma :: listed comma r
    end.
  (** The body with each parameter replaced by its argument, all at once; comments and [##] vanish. *)
  Definition substituted (params : list token) (args : list (list token)) (body : list token) : list output :=
    flat_map (fun t => match t_sym t with
                       | Word w => match arg_of w params args with
                                   | Some (_, Value a, _) => [Macro t (map Direct a)]
                                   | _ => [Direct t]
                                   end
                       | Join => []
                       | _ => shown t
                       end) body.
  Definition plain_arg (g : names) (a : list token) : Prop :=
    a <> [] /\ forall t, In t a -> match t_sym t with
                                | Word w => ~ visible (Env g None) w
                                | Comma | LParen | RParen | DQuote => False
                                | _ => True
                                end.
  Lemma plain_arguments g site n comma rp rest args : t_sym comma = Comma -> t_sym rp = RParen ->
    Forall (plain_arg g) args -> args <> [] ->
    arguments project (Env g None) site n 0 (listed comma args ++ rp :: rest) n rest args.
  Proof.
    intros Tc Tr. 
    assert (forall a tl l, (forall t, In t a -> match t_sym t with Word w => ~ visible (Env g None) w | Comma | LParen | RParen | DQuote => False | _ => True end) ->
      arguments project (Env g None) site n 0 tl n rest (l) -> forall b l', l = b :: l' -> arguments project (Env g None) site n 0 (a ++ tl) n rest ((a ++ b) :: l')) as Ap.
    { induction a as [|t a IH]; intros tl l Ha Hl b l' ->; [exact Hl|]. cbn [app]. apply A_plain; [apply Ha; cbn; auto|]. eapply IH; eauto. intros; apply Ha; cbn; auto. }
    induction args as [|a args IH]; intros Hp Ne; [congruence|]. inversion Hp as [|? ? [_ Ha] Hr]; subst. destruct args as [|b args].
    - cbn [listed]. pose proof (Ap a (rp :: rest) [[]] Ha (A_close _ _ _ _ _ _ Tr) [] [] eq_refl) as X. now rewrite app_nil_r in X.
    - change (listed comma (a :: b :: args)) with (a ++ comma :: listed comma (b :: args)). rewrite <- app_assoc. cbn [app].
      assert (b :: args <> []) as Nb by discriminate. specialize (IH Hr Nb).
      pose proof (Ap a (comma :: listed comma (b :: args) ++ rp :: rest) ([] :: b :: args) Ha (A_comma _ _ _ _ _ _ _ _ _ _ Tc IH) [] _ eq_refl) as X.
      now rewrite app_nil_r in X.
  Qed.
  Definition plain_body (g : names) (f : text) (params : list token) (args : list (list token)) (body : list token) : Prop :=
    forall t, In t body -> match t_sym t with
                           | Word w => ~ refused w /\ ~ computed w /\ (arg_of w params args <> None \/ g w = None \/ w = f)
                           | Hash | DQuote | Newline | Eoi => False
                           | _ => True
                           end.
  Lemma arg_of_value k params args e : arg_of k params args = Some e -> exists q a, e = (q, Value a, Argument).
  Proof.
    revert args. induction params as [|q params IH]; intros [|a args]; cbn [arg_of]; try discriminate.
    destruct (arg_of k params args) as [e'|] eqn:E; [intro H; injection H as <-; eauto|]. destruct (text_dec _ _); [|discriminate]. intro H. injection H as <-. eauto.
  Qed.
  Lemma substitution_expand g f params args site n body : arg_of f params args = None -> plain_body g f params args body ->
    expand project (enter (Env g None) f params args) (Some site) (Some f) n (drop_joins body) n (substituted params args body).
  Proof.
    intros Nf. induction body as [|t body IH]; intro H; [constructor|].
    assert (Ht := H t (or_introl eq_refl)). assert (IH' := IH (fun x Hx => H x (or_intror Hx))). clear IH.
    unfold drop_joins, substituted in *. cbn [filter flat_map].
    destruct (t_sym t) eqn:Et; try contradiction; cbn [is_join negb]; try (apply X_plain; [rewrite Et; exact I|exact IH']); [|exact IH'].
    destruct Ht as (Nr & Nc & Hw). destruct (arg_of w params args) as [e|] eqn:Ea.
    - destruct (arg_of_value _ _ _ _ Ea) as (q & a & ->). eapply X_use; eauto.
      + right. cbn [lookup enter inside globals]. rewrite Ea. split; [discriminate|]. intros ->. congruence.
      + intros X. injection X as ->. congruence.
      + eapply U_argument; eauto. apply M_macro with (by_ := q); unfold tok_text; rewrite Et; cbn [sym_text]; auto. cbn [lookup enter inside globals]. now rewrite Ea.
    - eapply X_word; eauto. destruct (list_eq_dec N.eq_dec w f) as [->|Nw]; [right; reflexivity|left].
      intros [X|[X Y]]; [contradiction|]. apply X. cbn [lookup enter inside globals]. rewrite Ea. destruct Hw as [Hw|[Hw|Hw]]; congruence.
  Qed.
  Lemma settled_calm o : (forall x, In x o -> match x with Direct t => t_sym t <> Newline | Macro _ _ => True end) -> settled o = o.
  Proof.
    intro H. unfold settled. assert (forall acc, settle acc o = rev o ++ acc) as X; [|rewrite X, app_nil_r; apply rev_involutive].
    induction o as [|x o IH]; intro acc; [reflexivity|]. cbn [settle rev]. rewrite <- app_assoc. cbn [app].
    assert (settle (x :: acc) o = rev o ++ x :: acc) as E by (apply IH; intros; apply H; cbn; auto).
    destruct x as [t|]; auto. destruct acc as [|a acc]; auto. specialize (H (Direct t) (or_introl eq_refl)). cbn in H.
    replace (is_newline (t_sym t)) with false by (destruct (t_sym t); cbn; congruence). exact E.
  Qed.
  (** A call on a line of its own, after any preamble: the body, with the parameters replaced by the arguments. The
      parameters hide macros of the file, the arguments are not looked at again, and the macro's own name stays. *)
  Theorem C25_call_substitutes path pre l eoi g c o id f lp comma rp by_ at_ params body from args :
    parse path = Ok (source_of pre ++ line_toks l ++ [eoi]) -> t_sym eoi = Eoi ->
    exec [path] nothing 0 pre g c o ->
    good l -> on l = id :: lp :: listed comma args ++ [rp] ->
    t_sym id = Word f -> t_sym lp = LParen -> t_sym comma = Comma -> t_sym rp = RParen ->
    g f = Some (by_, Func at_ params body, from) -> ~ computed f -> ~ refused f -> ~ on_lines at_ id ->
    Forall (plain_arg g) args -> length args = length params -> args <> [] -> arg_of f params args = None ->
    plain_body g f params args body ->
    exists n0, forall n, (n0 <= n)%nat -> exists s,
      preprocess n path = Ok (s, settled (o ++ [Macro id (substituted params args body); Direct (newline l)])).
  Proof.
    intros P E X Gl On Ti Tl Tc Tr Hg Nc Nr Nl Ha Len Ne Nf Hb.
    assert (last args [] <> []) as Nlast.
    { destruct (exists_last Ne) as (a0 & al & ->). rewrite last_last. apply Forall_app in Ha. destruct Ha as [_ Ha]. inversion Ha as [|? ? [Na _] _]; subst. exact Na. }
    assert (drop_empty args = args) as De by (unfold drop_empty; destruct (last args []); [congruence|reflexivity]).
    assert (exec [path] g c (Then l Done) g c ([Macro id (substituted params args body)] ++ Direct (newline l) :: [])) as Xl.
    { eapply E_text; [|rewrite On|constructor].
      - split; [exact Gl|]. exists [], (on l). split; [intros ? []|]. split; [reflexivity|]. rewrite On, Ti. split; [reflexivity|discriminate].
      - rewrite <- (app_nil_r [Macro id _]). eapply X_use with (w := f); eauto; [|discriminate| |constructor].
        + right. cbn [lookup inside globals]. split; [congruence|exact I].
        + rewrite <- (settled_calm (substituted params args body)).
          * eapply U_call; eauto.
            -- apply M_macro with (by_ := by_); unfold tok_text; rewrite Ti; cbn [sym_text]; auto; exact Hg.
            -- apply plain_arguments; auto.
            -- rewrite De. exact Len.
            -- rewrite De. now apply substitution_expand.
          * intros x Hx. unfold substituted in Hx. apply in_flat_map in Hx. destruct Hx as (t & Ht & Hx). specialize (Hb t Ht).
            unfold shown in Hx. destruct (t_sym t) eqn:Et; try contradiction; cbn in Hx; try (destruct Hx as [<-|[]]; rewrite Et; discriminate); try (destruct Hx; fail).
            destruct (arg_of w params args) as [[[? []] ?]|]; destruct Hx as [<-|[]]; try rewrite Et; try discriminate; exact I. }
    destruct (exec_two _ _ _ _ _ _ _ X _ _ _ _ Xl (init path) prag_root eq_refl (agrees_init path) eq_refl eq_refl)
      as (s' & p' & (Rs & _) & _ & _ & H).
    cbn in Rs. pose proof (H [eoi] [] _ (yields_eoi s' p' eoi [] _ E)) as Y. cbn [source_of] in Y. rewrite app_nil_r in Y.
    destruct (yields_preprocess path _ _ P Y) as [n0 Hn]. exists n0. intros n L. rewrite (Hn n L). cbn [rbind]. rewrite Rs.
    eexists. reflexivity.
  Qed.

  (** ** C26 *)
  Lemma sget_filter_not_line k m : sget k (filter not_line m) <> Some SLine.
  Proof.
    induction m as [|[k' sc] m IH]; cbn [filter]; [discriminate|]. destruct sc; cbn [not_line snd]; auto; cbn [sget]; destruct (text_dec k k'); congruence.
  Qed.
  (** After a line that is not a directive, no suppression for one line is left, whatever the line does. *)
  Theorem C26_line_scope_ends n s p ts out s' p' ts' out' k :
    line (G n) s p ts out = Ok (s', p', ts', out') ->
    (match skip_ws ts with t :: _ => t_sym t <> Hash | [] => True end) ->
    sget k (suppress p') <> Some SLine.
  Proof.
    unfold line. assert (forall ts out, exists o', skip_ws_out s ts out = (skip_ws ts, o')) as Sk.
    { clear. induction ts as [|t ts IH]; intro out; cbn [skip_ws_out skip_ws]; eauto. destruct (is_space _); eauto. }
    destruct (Sk ts out) as [o' ->]. destruct n as [|n]; [discriminate|]. rewrite directive_S. unfold directive. intros H Hh.
    assert (forall g ts0, ('(s, p, ts, out) <- (if is_reading s then c_walk g None None s p ts0 o' false None true else Ok (s, p, skip_line ts0, o')) ;;
      Ok (s, clear_line p, ts, out)) = Ok (s', p', ts', out') -> sget k (suppress p') <> Some SLine) as Ab.
    { intros g ts0 X. destruct (if is_reading s then _ else _) as [[[[s1 p1] ts1] out1]| | |]; try discriminate. cbn [rbind] in X. injection X as <- <- <- <-.
      apply sget_filter_not_line. }
    destruct (skip_ws ts) as [|h r]; cbn [rbind] in H; [eapply Ab; exact H|]. destruct (t_sym h); try congruence; cbn [rbind] in H; eapply Ab; exact H.
  Qed.
  (** What an included file starts with: what was set for the whole config, and nothing else. *)
  Theorem C26_child_scopes p k : distinct p ->
    sget k (suppress (prag_child p)) = (match sget k (suppress p) with Some SConfig => Some SConfig | _ => None end) /\
    sget k (flags (prag_child p)) = (match sget k (flags p) with Some SConfig => Some SConfig | _ => None end).
  Proof.
    assert (forall m, NoDup (map fst m) -> sget k (filter is_config m) = match sget k m with Some SConfig => Some SConfig | _ => None end) as X.
    { induction m as [|[k' sc] m IH]; cbn [map fst filter sget]; intro H; [reflexivity|]. inversion H as [|? ? Nk Hm]; subst. specialize (IH Hm).
      destruct (text_dec k k') as [->|N].
      - apply (sget_none k' m) in Nk. rewrite Nk in IH. destruct sc; cbn [is_config snd]; try exact IH. cbn [sget]. destruct (text_dec k' k'); congruence.
      - destruct sc; cbn [is_config snd]; try exact IH. cbn [sget]. destruct (text_dec k k'); [congruence|exact IH]. }
    intros [D1 D2]. split; apply X; assumption.
  Qed.
  (** An include runs the file with that, and the includer goes on with what it had. *)
  Theorem C26_include_isolated n s p h c args out done s' p' ts' out' :
    c_directive (G (S n)) s p (h :: c :: args) out = Ok (done, (s', p', ts', out')) ->
    is_reading s = true -> t_sym h = Hash -> t_sym c = Word (bs "include") ->
    p' = p /\ exists found toks s0 s1 p1 ts1, parse found = Ok toks /\ files s0 = found :: files s /\
      c_file (G n) s0 (prag_child p) toks out = Ok (s1, p1, ts1, out').
  Proof.
    intros H R Th Tc. rewrite directive_S in H. unfold directive in H. rewrite Th, Tc in H. unfold directive_command in H. rewrite R in H.
    change (text_eqb (bs "include") (bs "include")) with true in H. cbn [andb] in H. unfold directive_include in H.
    destruct (include_path args) as [[path ts]| | |]; try discriminate. cbn [rbind] in H. destruct (expect_nothing ts) as [ts2| | |]; try discriminate.
    destruct (files s) as [|cur fs] eqn:Ef; [discriminate|]. destruct (locate cur path) as [[found mm]|]; [|discriminate]. cbv zeta in H.
    destruct (parse found) as [toks| | |] eqn:Ep; try discriminate. cbn [rbind] in H.
    match type of H with context [c_file (G n) ?x _ _ _] => set (s0 := x) in * end.
    destruct (c_file (G n) s0 (prag_child p) toks out) as [[[[s1 p1] ts1] out1]| | |] eqn:Ec; try discriminate. cbn [rbind] in H. injection H as <- <- <- <- <-.
    split; [reflexivity|]. exists found, toks, s0, s1, p1, ts1. split; [exact Ep|]. split; [|exact Ec]. subst s0. cbn. rewrite <- Ef. destruct mm; reflexivity.
  Qed.
  (** Within a file, whatever happens (calls, includes, blocks), what was set for the file or the config stays set, and
      no name ever gets two scopes. *)
  Theorem C26_wider_scopes_stay n s p ts out s' p' ts' out' k sc :
    c_file (G n) s p ts out = Ok (s', p', ts', out') ->
    (sget k (suppress p) = Some sc -> sc <> SLine -> exists sc', sget k (suppress p') = Some sc' /\ scope_n sc <= scope_n sc') /\
    (distinct p -> distinct p').
  Proof.
    intro H. pose proof (k_file _ (always_kept checked locate parse project F parse_f64 flt fle n) _ _ _ _ _ H) as Fo.
    split; [intros; eapply (f_suppress _ _ _ _ Fo); eauto|apply Fo].
  Qed.

  (** ** C49: includes *)
  (** An include line stands for the lines of the file it names: they run in its place, with the macros of the
      includer, and the includer goes on with theirs. *)
  Theorem C49_include_in_place path pre l cmd ws q name q' ws' found other inner eoi' post eoi g c o g1 c1 o1 g2 c2 o2 :
    parse path = Ok (source_of pre ++ line_toks l ++ source_of post ++ [eoi]) -> t_sym eoi = Eoi ->
    exec [path] nothing 0 pre g c o ->
    is_directive l cmd (bs "include") (ws ++ q :: name ++ q' :: ws') -> blank ws -> blank ws' ->
    (t_sym q = DQuote /\ t_sym q' = DQuote \/ t_sym q = LAngle /\ t_sym q' = RAngle) ->
    (forall t, In t name -> t_sym t <> t_sym q') ->
    locate path (toks_text name) = Some (found, other) ->
    parse found = Ok (source_of inner ++ [eoi']) -> t_sym eoi' = Eoi ->
    exec [found; path] g c inner g1 c1 o1 ->
    exec [path] g1 c1 post g2 c2 o2 ->
    exists n0, forall n, (n0 <= n)%nat -> exists s, preprocess n path = Ok (s, settled (o ++ indent l ++ o1 ++ o2)).
  Proof.
    intros P E X D B B' Hq Hn Lo Pf E' X1 X2.
    assert (exec [path] g c (Then l post) g2 c2 (indent l ++ o1 ++ o2)) as Xi by (eapply E_include; eauto).
    destruct (exec_two _ _ _ _ _ _ _ X _ _ _ _ Xi (init path) prag_root eq_refl (agrees_init path) eq_refl eq_refl)
      as (s' & p' & (Rs & _) & _ & _ & H).
    cbn in Rs. pose proof (H [eoi] [] _ (yields_eoi s' p' eoi [] _ E)) as Y. cbn [source_of] in Y. rewrite <- app_assoc in Y.
    destruct (yields_preprocess path _ _ P Y) as [n0 Hn0]. exists n0. intros n L. rewrite (Hn0 n L). cbn [rbind]. rewrite Rs.
    eexists. reflexivity.
  Qed.

  (** ** C48: text without directives *)
  Lemma plain_output letter other path src ts :
    (forall c, c < 128 -> letter c = ascii_letter c) ->
    parse_text letter other path src = Ok ts -> parse path = Ok ts ->
    ~ In 35 src -> ~ occurs [92; 10] (uncommented src) -> ~ occurs (bs "__") src ->
    exists n0, forall n, (n0 <= n)%nat -> exists s out, preprocess n path = Ok (s, out) /\
      out_text out = uncommented src /\ (forall o, In o out -> exists t, o = Direct t /\ In t ts) /\ no_rapify s = false.
  Proof.
    intros La Hp P N35 N92 Nu.
    assert (forall t, In t ts -> inert (fun t => In t ts) t \/ t_sym t = Eoi) as In_.
    { intros t Ht. destruct (parse_text_places letter other La path src ts t Hp Ht) as (a & b & z & Es & Tx & _).
      assert (forall k, In k (tok_text t) -> In k src) as Sub.
      { intros k Hk. destruct Tx as [Tx|Tx]; [|unfold tok_text in Hk; rewrite Tx in Hk; destruct Hk]. rewrite Es, <- Tx. apply in_or_app. right. apply in_or_app. auto. }
      unfold inert. destruct (t_sym t) eqn:Et; auto.
      - assert (~ occurs (bs "__") w) as Nw.
        { intros (x & y & Ew). apply Nu. destruct Tx as [Tx|Tx]; [|discriminate]. unfold tok_text in Tx. rewrite Et in Tx. cbn [sym_text] in Tx.
          exists (a ++ x), (y ++ z). rewrite Es, <- Tx, Ew. now rewrite <- !app_assoc. }
        left. split; [|exact Ht]. split.
        + intros [->|X]; [apply Nw; exists [], (bs "EXEC"); reflexivity|]. unfold is_unsupported in X. apply among_in in X. unfold builtin_protest in X. cbn [In] in X.
          repeat (destruct X as [<-|X]; [apply Nw; eexists [], _; reflexivity|]). destruct X.
        + unfold computed. intro X. repeat (destruct X as [->|X]; [apply Nw; eexists [], _; reflexivity|]). subst w. apply Nw. eexists [], _. reflexivity.
      - exfalso. apply N35, Sub. unfold tok_text. rewrite Et. cbn. auto. }
    destruct (file_plain checked locate parse project F parse_f64 flt fle (fun t => In t ts) (init path) (conj eq_refl eq_refl) eq_refl (length ts) ts [] prag_root (le_n _) In_ ltac:(intros ? []) ltac:(unfold unbroken; cbn [rev out_text flat_map toks_text app]; rewrite (parse_text_keeps letter other La path src ts Hp); exact N92))
      as (n0 & p' & l & ts' & out' & Fi & El & Hl & Un & Et & T').
    exists n0. intros n L. unfold Model.preprocess. rewrite P. cbn [rbind]. rewrite (file_up _ _ _ _ _ _ _ _ n0 n _ _ _ _ _ L Fi). cbn [rbind if_stack ifs init].
    do 2 eexists. split; [reflexivity|]. split; [|split; [intros o Ho; apply in_rev in Ho; now apply Un|destruct (text_eqb _ _); reflexivity]].
    rewrite Et. cbn [rev out_text flat_map toks_text app].
    rewrite <- (parse_text_keeps letter other La path src ts Hp), El. unfold toks_text. rewrite flat_map_app.
    destruct ts' as [|e ts']; [cbn; now rewrite app_nil_r|].
    enough (ts' = []) as -> by (cbn; unfold tok_text; rewrite T'; cbn; now rewrite app_nil_r).
    destruct (parse_text_ends letter other path src ts Hp) as (body & z & Eb & Hz & Nb). rewrite El in Eb. clear - Eb Hz Nb T'.
    revert l Eb. induction body as [|b body IH]; intros l Eb.
    - cbn [app] in Eb. destruct Hz as [->|(t & -> & _)]; [destruct l; discriminate|]. destruct l as [|x l]; [now injection Eb|]. injection Eb as _ Eb. destruct l; discriminate.
    - destruct l as [|x l]; cbn [app] in Eb; injection Eb as E1 E2.
      + exfalso. apply (Nb b (or_introl eq_refl)). congruence.
      + eapply IH; [|exact E2]. intros; apply Nb; cbn; auto.
  Qed.

  Theorem C48_plain_text_unchanged letter other path src ts :
    (forall c, c < 128 -> letter c = ascii_letter c) ->
    parse_text letter other path src = Ok ts -> parse path = Ok ts ->
    ~ In 35 src -> ~ occurs [92; 10] (uncommented src) -> ~ occurs (bs "__") src ->
    exists n0, forall n, (n0 <= n)%nat -> exists s out, preprocess n path = Ok (s, out) /\
      out_text out = uncommented src.
  Proof.
    intros La Hp P N35 N92 Nu. destruct (plain_output letter other path src ts La Hp P N35 N92 Nu) as (n0 & H).
    exists n0. intros n L. destruct (H n L) as (s & out & E & T & _ & _). eauto.
  Qed.

  (** ** C50: macros that name each other *)
  Definition names_other (s : state) (a b : text) : Prop :=
    exists ka p fs, find a (global (defs s)) = Some (ka, Value [Tok (Word b) p], FromFile fs).
  Lemma mutual_use n : forall s p site t a b out rest, frames (defs s) = [] -> t_sym t = Word a -> a <> b ->
    ~ computed a -> ~ computed b -> ~ refused a -> ~ refused b -> names_other s a b -> names_other s b a ->
    c_define_use (G n) site s p (t :: rest) out = NoFuel.
  Proof.
    induction n as [n IH] using (well_founded_induction lt_wf). intros s p site t a b out rest Fr Ta Nab Ca Cb Ra Rb (ka & pa & fa & Ha) Hb.
    destruct n as [|n]; [reflexivity|]. cbn [fns c_define_use]. unfold define_use. cbn [current_word]. rewrite Ta. cbn [is_word rbind].
    assert (get_with_gen checked project t site (defs s) = Ok (defs s, Some (ka, Value [Tok (Word b) pa], FromFile fa))) as ->.
    { unfold get_with_gen. unfold tok_text. rewrite Ta. cbn [sym_text]. unfold computed in Ca.
      rewrite !neq_eqb by tauto. unfold get_readonly. rewrite Fr, Ha. reflexivity. }
    cbn [rbind]. destruct n as [|n]; [reflexivity|]. unfold drop_joins. cbn [filter t_sym is_join negb]. rewrite walk_S. unfold walk. cbn [t_sym].
    destruct (refused_false locate parse F parse_f64 b Rb) as [-> ->]. unfold tok_text at 1. rewrite Ta. cbn [sym_text].
    rewrite neq_eqb by congruence. cbn [negb andb].
    assert (contains_key b (defs (with_defs (defs s) s)) = true) as ->.
    { destruct Hb as (kb & pb & fb & Hb). unfold contains_key. cbn [defs with_defs]. rewrite Fr. unfold has. rewrite Hb. destruct (among _ _); reflexivity. }
    rewrite (IH n ltac:(lia) (with_defs (defs s) s) p site (Tok (Word b) pa) b a [] []); auto.
    exists ka, pa, fa. exact Ha.
  Qed.
  Lemma preprocess_up n m path : (n <= m)%nat -> preprocess n path = NoFuel \/ preprocess m path = preprocess n path.
  Proof.
    intro L. unfold Model.preprocess. destruct (parse path) as [toks| | |]; cbn [rbind]; auto.
    destruct (le_file _ _ (fns_le checked locate parse project F parse_f64 flt fle n m L) (init path) prag_root toks []) as [E|E]; rewrite E; auto.
  Qed.
  (** Whatever the fuel, a file that defines two macros as each other and uses one gives no result. *)
  Theorem C50_mutual_macros_diverge_refuted path l1 l2 t a b da db pa pb sp1 sp2 c1 c2 wsa wsb rest :
    is_directive l1 c1 (bs "define") (wsa ++ [da; sp1; Tok (Word b) pb]) -> blank wsa -> t_sym da = Word a -> is_space (t_sym sp1) = true ->
    is_directive l2 c2 (bs "define") (wsb ++ [db; sp2; Tok (Word a) pa]) -> blank wsb -> t_sym db = Word b -> is_space (t_sym sp2) = true ->
    t_sym t = Word a -> a <> b -> is_builtin a = false -> is_builtin b = false ->
    parse path = Ok (line_toks l1 ++ line_toks l2 ++ t :: rest) ->
    forall n, preprocess n path = NoFuel.
  Proof.
    intros D1 B1 T1 S1 D2 B2 T2 S2 Tt Nab Ba Bb P n.
    assert (forall k, is_builtin k = false -> ~ computed k /\ ~ refused k) as Bi.
    { intros k Hk. unfold is_builtin in Hk. apply Bool.orb_false_iff in Hk. destruct Hk as [Hk _]. apply Bool.orb_false_iff in Hk. destruct Hk as [Hk H3].
      apply Bool.orb_false_iff in Hk. destruct Hk as [H1 _]. split; [intro X; apply among_gen in X; congruence|].
      intros [->|X]; [discriminate H3|unfold is_unsupported in X; congruence]. }
    destruct (Bi a Ba) as [Ca Ra], (Bi b Bb) as [Cb Rb].
    assert (tok_text da = a) as Xa by (unfold tok_text; now rewrite T1). assert (tok_text db = b) as Xb by (unfold tok_text; now rewrite T2).
    assert (N1 : t_sym (newline l1) = Newline) by apply D1. assert (N2 : t_sym (newline l2) = Newline) by apply D2.
    enough (preprocess (S (S (S n))) path = NoFuel) as X by (destruct (preprocess_up n (S (S (S n))) path ltac:(lia)); congruence).
    unfold Model.preprocess. rewrite P. cbn [rbind].
    assert (M1 : defines_macro (wsa ++ da :: sp1 :: [] ++ [Tok (Word b) pb]) da (Value [Tok (Word b) pb])).
    { apply D_value with (w := a); auto; [intros ? []|]. intros (x & y & E & Ey). destruct x as [|? [|? ?]]; try discriminate. injection E as <-. discriminate. }
    assert (M2 : defines_macro (wsb ++ db :: sp2 :: [] ++ [Tok (Word a) pa]) db (Value [Tok (Word a) pa])).
    { apply D_value with (w := b); auto; [intros ? []|]. intros (x & y & E & Ey). destruct x as [|? [|? ?]]; try discriminate. injection E as <-. discriminate. }
    assert (Bda : is_builtin (tok_text da) = false) by now rewrite Xa. assert (Bdb : is_builtin (tok_text db) = false) by now rewrite Xb.
    pose proof (args_no_newline _ _ _ _ D1) as [_ A1]. pose proof (args_no_newline _ _ _ _ D2) as [_ A2].
    destruct (define_line _ _ _ M1 Bda (init path) nothing (newline l1) N1 A1 (agrees_init path)) as (s1 & E1 & Rn1 & _ & _ & G1).
    destruct (define_line _ _ _ M2 Bdb s1 _ (newline l2) N2 A2 G1) as (s2 & E2 & Rn2 & _ & _ & G2).
    assert (R1 : is_reading s1 = true) by now rewrite (ran_reading _ _ Rn1).
    assert (R2 : is_reading s2 = true) by now rewrite (ran_reading _ _ Rn2).
    erewrite (line_directive_eq checked locate parse project F parse_f64 flt fle _ _ _ _ D1).
    2:{ unfold directive_command. change (is_reading (init path)) with true. names. cbn [andb]. cbn [app] in E1. rewrite E1. reflexivity. }
    erewrite (line_directive_eq checked locate parse project F parse_f64 flt fle _ _ _ _ D2).
    2:{ unfold directive_command. rewrite R1. names. cbn [andb]. cbn [app] in E2. rewrite E2. reflexivity. }
    apply agrees_top in G2. destruct G2 as [Fr2 G2].
    rewrite file_S. unfold file. rewrite Tt. cbn [is_eoi]. unfold line. cbn [skip_ws_out]. rewrite Tt. cbn [is_space].
    destruct n as [|n]; [reflexivity|]. rewrite directive_S. unfold directive. rewrite Tt. cbn [rbind]. rewrite R2, walk_S. unfold walk. rewrite Tt.
    destruct (refused_false locate parse F parse_f64 a Ra) as [-> ->]. cbn [negb andb].
    assert (find a (global (defs s2)) = Some (da, Value [Tok (Word b) pb], FromFile (files (init path)))) as Fa.
    { rewrite <- G2. unfold update. rewrite Xa, Xb. destruct (text_dec a b); [congruence|]. destruct (text_dec a a); congruence. }
    assert (find b (global (defs s2)) = Some (db, Value [Tok (Word a) pa], FromFile (files s1))) as Fb.
    { rewrite <- G2. unfold update. rewrite Xb. destruct (text_dec b b); congruence. }
    assert (contains_key a (defs s2) = true) as ->.
    { unfold contains_key. rewrite Fr2. unfold has. rewrite Fa. destruct (among _ _); reflexivity. }
    erewrite mutual_use with (a := a) (b := b); eauto; first [reflexivity|do 3 eexists; eassumption].
  Qed.
  (** The same for a file that includes itself. *)
  Theorem C50_self_include_diverges_refuted path l cmd ws q name q' ws' other rest :
    is_directive l cmd (bs "include") (ws ++ q :: name ++ q' :: ws') -> blank ws -> blank ws' ->
    (t_sym q = DQuote /\ t_sym q' = DQuote \/ t_sym q = LAngle /\ t_sym q' = RAngle) ->
    (forall t, In t name -> t_sym t <> t_sym q') ->
    locate path (toks_text name) = Some (path, other) -> parse path = Ok (line_toks l ++ rest) ->
    forall n, preprocess n path = NoFuel.
  Proof.
    intros D B B' Q Np Lo Pa n. pose proof (args_no_newline _ _ _ _ D) as [N Ha]. destruct D as (Gd & Tc & wl & h & Bl & Th & El).
    assert (forall n s p out fs, is_reading s = true -> files s = path :: fs -> c_file (G n) s p (line_toks l ++ rest) out = NoFuel) as Inf.
    { clear n. induction n as [n IH] using (well_founded_induction lt_wf). intros s p out fs R Hf. destruct n as [|[|n]]; [reflexivity| |].
      all: destruct (good_start l rest Gd) as (t & r' & Et & Ei).
      all: assert (skip_ws_out s (line_toks l ++ rest) out = ((h :: cmd :: ws ++ q :: name ++ q' :: ws') ++ newline l :: rest, o0 s l out)) as Sk
        by (apply line_start; auto; exists wl; rewrite Th; auto).
      all: rewrite file_S; unfold file; rewrite Et, Ei, <- Et; unfold line; rewrite Sk.
      { reflexivity. }
      rewrite directive_S. cbn [app]. unfold directive. rewrite Th, Tc. unfold directive_command. rewrite R. names. cbn [andb].
      unfold directive_include. rewrite (include_path_line ws q name q' ws' (newline l :: rest) B Q Np Ha). cbn [rbind].
      rewrite expect_blank by auto. rewrite Hf, Lo, Pa. cbn [rbind].
      rewrite (IH n ltac:(lia) _ _ _ (path :: fs)); [reflexivity| |]; destruct other; cbn; rewrite ?Hf; auto. }
    unfold Model.preprocess. rewrite Pa. cbn [rbind]. erewrite Inf; reflexivity.
  Qed.
End Processor.

(** ** C46, C47: the lexer *)
(** Splitting into tokens loses nothing but comments: the tokens, put together, are the source without them. *)
Theorem C46_tokens_keep_text letter other path src ts :
  (forall c, c < 128 -> letter c = ascii_letter c) ->
  parse_text letter other path src = Ok ts -> toks_text ts = uncommented src.
Proof. intros La. apply parse_text_keeps. exact La. Qed.
(** It ends on every input, with tokens or with an error. *)
Theorem C46_lexer_total letter other path src :
  (forall c, c < 128 -> letter c = ascii_letter c) ->
  (exists ts, parse_text letter other path src = Ok ts) \/ parse_text letter other path src = Err PE24_parse.
Proof.
  intro La. destruct (parse_text_total letter other La path src) as [A B].
  unfold parse_text in *. destruct (lex_all letter other (S (length src)) src) as [ps|e| |] eqn:E; cbn [rbind] in A, B |- *; try congruence; [left; eauto|].
  right. clear A B. assert (e = PE24_parse) as ->; [|reflexivity]. revert E. generalize (S (length src)). intro n. revert src. induction n as [|n IH]; intros src; cbn [lex_all]; [discriminate|].
  destruct src as [|c s]; [discriminate|]. destruct (lex1 letter other (c :: s)) as [[p r]|]; [|congruence].
  specialize (IH r). destruct (lex_all letter other n r); cbn; try discriminate. intro X. apply IH. congruence.
Qed.
(** A name is never cut: a word token (other than a comment kept inside a string, which starts with a slash) starts
    with a letter or an underscore, goes on with letters, digits and underscores, and the source goes on after it
    with something else. *)
Lemma lex_all_word letter other n : forall s ps, lex_all letter other n s = Ok ps -> forall a p b, ps = a ++ p :: b ->
  exists v, s = flat_map pr_text a ++ pr_text p ++ v /\
    forall w, pr_sym p = Word w -> pr_text p = w /\ exists c r, w = c :: r /\ (letter c = true \/ c = 95) /\
      (forall d, In d r -> letter d = true \/ 48 <= d <= 57 \/ d = 95) /\
      (forall d v', v = d :: v' -> ~ (letter d = true \/ 48 <= d <= 57 \/ d = 95)).
Proof.
  assert (Run : forall s x y, word_run letter s = (x, y) ->
    (forall d, In d x -> letter d = true \/ 48 <= d <= 57 \/ d = 95) /\
    (forall d v', y = d :: v' -> ~ (letter d = true \/ 48 <= d <= 57 \/ d = 95))).
  { assert (Wc : forall d, word_char letter d = true <-> (letter d = true \/ 48 <= d <= 57 \/ d = 95)).
    { intro d. unfold word_char, is_digit. rewrite !orb_true_iff, andb_true_iff, !N.leb_le, N.eqb_eq. tauto. }
    induction s as [|c s IH]; intros x y; cbn [word_run].
    - intro H. injection H as <- <-. split; [intros d []|discriminate].
    - destruct (word_char letter c) eqn:E.
      + destruct (word_run letter s) as [x' y'] eqn:Er. intro H. injection H as <- <-. destruct (IH x' y' eq_refl) as [H1 H2].
        split; [|exact H2]. intros d [<-|Hd]; [now apply Wc|auto].
      + intro H. injection H as <- <-. split; [intros d []|]. intros d v' Hd. injection Hd as <- <-. rewrite <- Wc. congruence. }
  assert (One : forall s p r, lex1 letter other s = Some (p, r) -> forall w, pr_sym p = Word w -> pr_text p = w /\ exists c x, w = c :: x /\ (letter c = true \/ c = 95) /\
      (forall d, In d x -> letter d = true \/ 48 <= d <= 57 \/ d = 95) /\
      (forall d v', r = d :: v' -> ~ (letter d = true \/ 48 <= d <= 57 \/ d = 95))).
  { intros s p r H w Hw.
    assert (Pl : forall c s', lex_plain letter other c s' = Some (p, r) -> pr_text p = w /\ exists c x, w = c :: x /\ (letter c = true \/ c = 95) /\
      (forall d, In d x -> letter d = true \/ 48 <= d <= 57 \/ d = 95) /\
      (forall d v', r = d :: v' -> ~ (letter d = true \/ 48 <= d <= 57 \/ d = 95))).
    { intros c s'. unfold lex_plain. destruct (letter c || (c =? 95)) eqn:E.
      - destruct (word_run letter s') as [x y] eqn:Er. intro K. injection K as <- <-. cbn [pr_sym] in Hw. injection Hw as <-.
        split; [reflexivity|]. exists c, x. split; [reflexivity|]. apply orb_prop in E. rewrite N.eqb_eq in E. split; [exact E|]. exact (Run _ _ _ Er).
      - destruct (is_digit c); [intro K; injection K as <- _; discriminate|].
        destruct (if c =? 35 then _ else _); [intro K; injection K as <- _; discriminate|].
        destruct (symbol_of c punctuation) as [y|] eqn:Ey.
        + intro K. injection K as <- _. cbn [pr_sym] in Hw. subst y. exfalso. apply symbol_of_in in Ey. cbn in Ey.
          repeat (destruct Ey as [Ey|Ey]; [discriminate|]). destruct Ey.
        + destruct (other c); [intro K; injection K as <- _; discriminate|discriminate]. }
    unfold lex1 in H. destruct s as [|c s]; [discriminate|].
    destruct (c =? 32); [injection H as <- _; discriminate|]. destruct (c =? 9); [injection H as <- _; discriminate|].
    destruct (c =? 47); [|eauto]. destruct (after_char 42 s) as [r'|].
    - destruct (split_once_str [42; 47] r') as [[x y]|]; [injection H as <- _; discriminate|eauto].
    - destruct (after_char 47 s) as [r'|]; [injection H as <- _; discriminate|eauto]. }
  assert (Text : forall s p r, lex1 letter other s = Some (p, r) -> s = pr_text p ++ r) by (intros s p r H; now apply lex1_spec in H).
  induction n as [|n IH]; intros s ps; cbn [lex_all]; [discriminate|]. destruct s as [|c s].
  - intro H. injection H as <-. intros a p b E. destruct a as [|q a]; [|destruct a; discriminate]. injection E as <- <-.
    exists []. split; [reflexivity|]. intros w Hw. discriminate.
  - destruct (lex1 letter other (c :: s)) as [[p1 r]|] eqn:E1; [|discriminate].
    destruct (lex_all letter other n r) as [l| | |] eqn:El; cbn [rbind]; try discriminate. intro H. injection H as <-.
    intros [|q a] p b E; cbn [app] in E; injection E as <- E.
    + exists r. split; [cbn [flat_map app]; now apply Text|]. intros w Hw. eapply One; eauto.
    + destruct (IH r l El a p b E) as (v & Ev & Hv). exists v. split; [|exact Hv]. cbn [flat_map]. rewrite <- app_assoc, <- Ev. now apply Text.
Qed.
Lemma lex_step_token path st p t : In t (snd (lex_step path st p)) ->
  (exists k, pr_sym p = Comment k /\ t_sym t = Word k) \/ (t_sym t = pr_sym p /\ lc_off (p_start (t_pos t)) = ls_off st).
Proof.
  destruct st as [line col off si di sk]. unfold lex_step.
  destruct (match pr_sym p with Newline => (line + 1, 0, si, di, false) | _ => _ end) as [[[[line' col'] si'] di'] sk']. cbn [snd].
  set (inner := match pr_sym p with Comment c => _ | _ => _ end).
  assert (Hi : In t inner -> exists k, pr_sym p = Comment k /\ t_sym t = Word k).
  { unfold inner. destruct (pr_sym p); try (intros []). destruct (_ && _); [|intros []]. intros [<-|[]]. eexists. split; reflexivity. }
  destruct sk'; [auto|]. intro H. apply in_app_or in H as [H|[<-|[]]]; [auto|]. right. split; reflexivity.
Qed.
Theorem C46_words_whole letter other path src ts t c w :
  parse_text letter other path src = Ok ts -> In t ts -> t_sym t = Word (c :: w) -> c <> 47 ->
  exists pre post, src = pre ++ (c :: w) ++ post /\ lc_off (p_start (t_pos t)) = byte_len pre /\
    (letter c = true \/ c = 95) /\ (forall d, In d w -> letter d = true \/ 48 <= d <= 57 \/ d = 95) /\
    (forall d post', post = d :: post' -> ~ (letter d = true \/ 48 <= d <= 57 \/ d = 95)).
Proof.
  unfold parse_text. destruct (lex_all letter other (S (length src)) src) as [ps| | |] eqn:E; cbn [rbind]; try discriminate.
  intros H Hin Hs Hc. injection H as <-. apply lex_loop_in in Hin as (a & p & b & -> & Hin).
  destruct (lex_all_word letter other _ _ _ E a p b eq_refl) as (v & Ev & Hv).
  assert (Off : forall l st, ls_off (after_matches path st l) = ls_off st + byte_len (flat_map pr_text l)).
  { induction l as [|q l IH]; intro st; [cbn; lia|]. cbn [after_matches flat_map]. rewrite IH, step_off, (byte_len_app ascii_letter ascii_letter (fun c _ => eq_refl)). lia. }
  assert (Hlex : Forall (fun q => forall k, pr_sym q = Comment k -> exists k', k = 47 :: k') (a ++ p :: b)).
  { apply lex_all_spec in E as (ms & -> & _ & Hms). apply Forall_app. split; [|constructor; [discriminate|constructor]].
    eapply Forall_impl; [|exact Hms]. intros q Hq k Hk. destruct Hq as [x Nx _|x _|x|x Hx|y Hy]; cbn [pr_sym] in Hk; try discriminate.
    - injection Hk as ->. destruct Hx as [->|[x' ->]]; [eexists; reflexivity|]. exists (42 :: x' ++ [42; 47]). reflexivity.
    - subst y. cbn in Hy. repeat (destruct Hy as [Hy|Hy]; [discriminate|]). destruct Hy. }
  assert (Hsym : pr_sym p = Word (c :: w) /\ lc_off (p_start (t_pos t)) = ls_off (after_matches path lex_init a)).
  { apply Forall_app in Hlex as [_ Hlex]. inversion Hlex as [|? ? Hq _]. destruct (lex_step_token _ _ _ _ Hin) as [(k & K1 & K2)|[K1 K2]].
    - destruct (Hq k K1) as [k' ->]. congruence.
    - split; congruence. }
  destruct Hsym as [Hsym Hoff]. destruct (Hv _ Hsym) as (Et & c' & r & Ew & H1 & H2 & H3). injection Ew as <- <-.
  exists (flat_map pr_text a), v. rewrite <- Et at 1. split; [exact Ev|]. split; [|auto]. rewrite Hoff, Off. cbn. lia.
Qed.
(** Each token says where in the source it stands. *)
Theorem C47_token_places letter other path src ts t :
  (forall c, c < 128 -> letter c = ascii_letter c) ->
  parse_text letter other path src = Ok ts -> In t ts ->
  exists pre mid post, src = pre ++ mid ++ post /\
    (tok_text t = mid \/ t_sym t = Comment mid) /\
    p_path (t_pos t) = path /\
    lc_off (p_start (t_pos t)) = byte_len pre /\
    (no_string_blocks src -> lc_line (p_start (t_pos t)) = 1 + breaks pre) /\
    (plain_source src -> lc_col (p_start (t_pos t)) = tail_bytes pre 0) /\
    (quoted_comment t mid \/
      lc_off (p_end (t_pos t)) = byte_len (pre ++ mid) /\
      (no_string_blocks src -> lc_line (p_end (t_pos t)) = 1 + breaks (pre ++ mid)) /\
      (plain_source src -> lc_col (p_end (t_pos t)) = tail_bytes (pre ++ mid) 0)).
Proof. intros La. apply parse_text_places. exact La. Qed.

Print Assumptions C23_blocks_run_as_read.
Print Assumptions C23_skipped_lines_inert.
Print Assumptions C23_selected_lines.
Print Assumptions C24_second_else_rejected.
Print Assumptions C24_stray_endif_ignored.
Print Assumptions C24_stray_else_panics.
Print Assumptions C25_call_restores_tables.
Print Assumptions C25_call_substitutes.
Print Assumptions C26_line_scope_ends.
Print Assumptions C26_child_scopes.
Print Assumptions C26_include_isolated.
Print Assumptions C26_wider_scopes_stay.
Print Assumptions C49_include_in_place.
Print Assumptions C48_plain_text_unchanged.
Print Assumptions C50_mutual_macros_diverge_refuted.
Print Assumptions C50_self_include_diverges_refuted.
Print Assumptions C46_tokens_keep_text.
Print Assumptions C46_lexer_total.
Print Assumptions C46_words_whole.
Print Assumptions C47_token_places.
