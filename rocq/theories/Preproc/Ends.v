(** Preprocessing ends when macros and includes descend (C50). *)
From Coq Require Import String.
From Verif Require Import Base.Tactics Base.Bytes Base.Ascii Base.Text Preproc.Model Preproc.Fuel Preproc.Expand Preproc.Invariants Preproc.EndSpec.
Local Open Scope list_scope.

(** ** Thinning *)
Inductive thin : list token -> list token -> Prop :=
| thin_nil : thin [] []
| thin_both t a b : thin a b -> thin (t :: a) (t :: b)
| thin_drop t a b : glue t -> thin a b -> thin (t :: a) b.
Lemma thin_refl l : thin l l.
Proof. induction l; constructor; auto. Qed.
Lemma thin_app a b c d : thin a b -> thin c d -> thin (a ++ c) (b ++ d).
Proof. intros H K. induction H; cbn; [auto|constructor; auto..]. Qed.
Lemma thin_trans a b c : thin a b -> thin b c -> thin a c.
Proof.
  intro H. revert c. induction H as [|t a b H IH|t a b G H IH]; intros c K; auto.
  - inversion K; subst; [constructor; auto|apply thin_drop; auto].
  - apply thin_drop; auto.
Qed.
Lemma thin_last r x b : thin r (x ++ [b]) -> glue b -> thin r x.
Proof.
  intros H G. eapply thin_trans; [exact H|]. rewrite <- (app_nil_r x) at 2. apply thin_app; [apply thin_refl|]. apply thin_drop; auto using thin_nil.
Qed.
Lemma thin_bare a b : thin a b -> forall q, bare q b = bare q a.
Proof.
  induction 1 as [|t a b H IH|t a b G H IH]; intro q; cbn [bare]; auto.
  - destruct (t_sym t); rewrite ?IH; auto.
  - rewrite IH. destruct G as [-> |[-> | ->]]; reflexivity.
Qed.
Lemma thin_find a b : thin a b -> forall x c y, b = x ++ c :: y -> exists x' y', a = x' ++ c :: y' /\ thin x' x /\ thin y' y.
Proof.
  induction 1 as [|t a b H IH|t a b G H IH]; intros x c y E.
  - destruct x; discriminate.
  - destruct x as [|z x]; cbn in E; injection E as -> ->.
    + exists [], a. repeat split; auto using thin_nil.
    + destruct (IH _ _ _ eq_refl) as (x' & y' & -> & H1 & H2). exists (z :: x'), y'. repeat split; auto. now constructor.
  - destruct (IH _ _ _ E) as (x' & y' & -> & H1 & H2). exists (t :: x'), y'. repeat split; auto. now apply thin_drop.
Qed.
Lemma thin_none a : thin a [] -> Forall glue a.
Proof. intro H. remember [] as b eqn:E. revert E. induction H; intro E; try discriminate; constructor; auto. Qed.
Lemma thin_glue a b : thin a b -> Forall glue b -> Forall glue a.
Proof. induction 1 as [|t a b H IH|t a b G H IH]; intro K; [constructor|inversion K; subst|]; constructor; auto. Qed.
Lemma thin_quiet a b : thin a b -> no_directive a -> no_directive b.
Proof.
  intros H Q x h mid c y E Hh Hm. destruct (thin_find _ _ H _ _ _ E) as (x' & y' & -> & _ & H2).
  destruct (thin_find _ _ H2 _ _ _ eq_refl) as (m' & z' & -> & H3 & _).
  eapply Q; [reflexivity|exact Hh|]. eapply thin_glue; eauto.
Qed.
Lemma thin_joins l : thin l (drop_joins l).
Proof.
  induction l as [|t l IH]; [constructor|]. cbn [drop_joins filter]. destruct (is_join (t_sym t)) eqn:E; cbn [negb].
  - apply thin_drop; auto. left. destruct (t_sym t); try discriminate; auto.
  - now constructor.
Qed.

(** ** Suffixes *)
Definition suffix (b a : list token) : Prop := exists x, a = x ++ b.
Lemma suffix_refl a : suffix a a. Proof. now exists []. Qed.
Lemma suffix_trans a b c : suffix a b -> suffix b c -> suffix a c.
Proof. intros [x ->] [y ->]. exists (y ++ x). now rewrite app_assoc. Qed.
Lemma suffix_cons t a b : suffix a b -> suffix a (t :: b). Proof. intros [x ->]. now exists (t :: x). Qed.
Lemma suffix_len a b : suffix a b -> (length a <= length b)%nat.
Proof. intros [x ->]. rewrite app_length. lia. Qed.
Lemma suffix_tl t a b : suffix (t :: a) b -> suffix a b.
Proof. intros [x ->]. exists (x ++ [t]). now rewrite <- app_assoc. Qed.
Lemma suffix_nil a : suffix [] a. Proof. exists a. now rewrite app_nil_r. Qed.
Lemma suffix_in a b t : suffix a b -> In t a -> In t b. Proof. intros [x ->] H. apply in_or_app; auto. Qed.
Lemma quiet_suffix a b : suffix a b -> no_directive b -> no_directive a.
Proof. intros [x ->] Q y h mid c z E Hh Hm. eapply (Q (x ++ y)); eauto. rewrite <- app_assoc, E. reflexivity. Qed.
Lemma bare_suffix a b : suffix a b -> forall q w, In w (bare q a) -> exists q', In w (bare q' b).
Proof.
  intros [x ->] q w H. revert q H. induction x as [|t x IH]; intros q H; [eauto|]. destruct (IH q H) as [q' K]. cbn [app bare].
  destruct (t_sym t) eqn:E; try (exists q'; rewrite ?E; exact K).
  - destruct q'; [exists true|exists false]; cbn; auto.
  - exists (negb q'). rewrite Bool.negb_involutive. exact K.
Qed.

Lemma all_after (ts : list token) : exists post, ts = [] ++ post. Proof. now exists ts. Qed.
#[local] Hint Resolve suffix_refl suffix_cons suffix_nil all_after : suf.

(** ** What the readers leave is a suffix *)
Lemma skip_ws_suffix ts : suffix (skip_ws ts) ts.
Proof. induction ts as [|t r IH]; cbn; auto with suf. destruct (is_space _); auto with suf. Qed.
Lemma skip_line_suffix ts : suffix (skip_line ts) ts.
Proof. induction ts as [|t r IH]; cbn; auto with suf. destruct (is_newline _); auto with suf. Qed.
Lemma skip_line_less t r : (length (skip_line (t :: r)) < length (t :: r))%nat.
Proof. cbn. destruct (is_newline _); [lia|]. pose proof (suffix_len _ _ (skip_line_suffix r)). lia. Qed.
Lemma skip_ws_out_suffix s ts : forall out, suffix (fst (skip_ws_out s ts out)) ts.
Proof. induction ts as [|t r IH]; intro out; cbn; auto with suf. destruct (is_space _); cbn; auto with suf. Qed.
Lemma expect_suffix ts : okP (expect_nothing ts) (fun ts' => suffix ts' ts).
Proof.
  induction ts as [|t r IH]; cbn; [fin; auto with suf|]. destruct (_ || _); [fin; auto with suf|]. destruct (is_space _); [|fin].
  eapply okP_weaken; [exact IH|]. auto with suf.
Qed.
Lemma skip_ws_split ts : exists ws, ts = ws ++ skip_ws ts /\ forall t, In t ws -> is_space (t_sym t) = true.
Proof.
  induction ts as [|t r (ws & E & H)]; [exists []; cbn; auto with *; split; auto; intros ? []|]. cbn [skip_ws].
  destruct (is_space (t_sym t)) eqn:S; [|exists []; split; auto; intros ? []].
  exists (t :: ws). cbn [app]. rewrite <- E. split; auto. intros x [<-|Hx]; auto.
Qed.
Lemma next_word_at ts : okP (next_word ts) (fun '(t, r) => exists ws, ts = ws ++ t :: r /\ (forall x, In x ws -> is_space (t_sym x) = true) /\ is_word (t_sym t) = true).
Proof.
  unfold next_word. destruct (skip_ws_split ts) as (ws & E & H). remember (skip_ws ts) as u. clear Hequ. subst ts.
  destruct u as [|t r]; cbn [current_word rbind]; [fin|]. destruct (is_word (t_sym t)) eqn:W; cbn [rbind]; [fin; eauto|]. destruct (is_eoi _); cbn [rbind]; fin.
Qed.
Lemma next_word_suffix ts : okP (next_word ts) (fun '(_, r) => suffix r ts).
Proof. eapply okP_weaken; [apply next_word_at|]. intros [t r] (ws & -> & _). exists (ws ++ [t]). now rewrite <- app_assoc. Qed.
Lemma read_value_suffix ts : suffix (snd (read_value ts)) ts.
Proof. induction ts as [|t r IH]; cbn; auto with suf. destruct (_ || _); cbn; auto with suf. destruct (read_value r). cbn in *. auto with suf. Qed.
Lemma read_path_at c ts : okP (read_path c ts) (fun '(req, ts') => exists path post, ts = path ++ post /\ suffix ts' post /\ req = toks_text path /\ forall x r, post = x :: r -> t_sym x = c).
Proof.
  induction ts as [|t r IH]; cbn [read_path]; [fin; exists [], []; repeat split; auto with suf; discriminate|].
  destruct (sym_dec (t_sym t) c) as [E|]; [fin; exists [], (t :: r); repeat split; auto with suf; intros x r0 X; injection X as <- <-; exact E|].
  destruct (is_newline _); [fin|]. destruct (is_eoi _); [fin|]. eapply okP_bind; [exact IH|].
  intros [req ts'] (path & post & -> & S & -> & H). fin. exists (t :: path), post. repeat split; auto.
Qed.
Lemma read_params_split ts : forall b args, okP (read_params ts b args) (fun '(_, r) => exists used, ts = used ++ r /\ Forall (fun t => t_sym t <> Newline /\ t_sym t <> DQuote) used).
Proof.
  induction ts as [|t r IH]; intros b args; cbn [read_params]; [fin; exists []; auto|].
  assert (forall b args, t_sym t <> Newline /\ t_sym t <> DQuote -> okP (read_params r b args)
    (fun '(_, r') => exists used, t :: r = used ++ r' /\ Forall (fun t => t_sym t <> Newline /\ t_sym t <> DQuote) used)) as Go.
  { intros b' a' N. eapply okP_weaken; [apply IH|]. intros [a r'] (used & -> & Hu). exists (t :: used). split; auto. }
  destruct (t_sym t) eqn:E; try fin; try (apply Go; split; discriminate).
  - destruct b; [fin|apply Go; split; discriminate].
  - exists [t]. split; auto. constructor; auto. rewrite E. split; discriminate.
  - destruct b; [apply Go; split; discriminate|fin].
Qed.

(** ** Macro bodies *)
Lemma one_line_snoc l t : one_line l -> (t_sym t = Newline -> exists a e, l = a ++ [e] /\ (t_sym e = Escape \/ t_sym e = Eoi)) -> one_line (l ++ [t]).
Proof.
  intros H K a nl b E N. destruct b as [|x b] using rev_ind.
  - apply app_inj_tail in E. destruct E as [-> ->]. auto.
  - rewrite app_comm_cons, app_assoc in E. apply app_inj_tail in E. destruct E as [-> _]. eapply H; eauto.
Qed.
Lemma read_body_at ts : forall r0 acc, thin r0 (rev acc) -> one_line r0 ->
  (forall b l, acc = b :: l -> is_escape (t_sym b) = true -> exists a e, r0 = a ++ [e] /\ (t_sym e = Escape \/ t_sym e = Eoi)) ->
  forall b rest, read_body_go ts acc = (b, rest) -> exists used, suffix rest ts /\ (exists post, ts = used ++ post) /\ thin (r0 ++ used) b /\ one_line (r0 ++ used).
Proof.
  induction ts as [|t r IH]; intros r0 acc T O L b rest E; cbn [read_body_go] in E.
  - injection E as <- <-. exists []. rewrite app_nil_r. repeat split; eauto with suf.
  - destruct (is_newline (t_sym t)) eqn:N.
    + assert (t_sym t = Newline) as Nt by (destruct (t_sym t); try discriminate; auto).
      destruct acc as [|x acc].
      * injection E as <- <-. exists []. rewrite app_nil_r. repeat split; eauto with suf.
      * destruct (is_escape (t_sym x)) eqn:X.
        -- cbn [rev] in T. apply thin_last in T; [|right; left; destruct (t_sym x); try discriminate; auto].
           edestruct (IH (r0 ++ [t]) (t :: acc)) as (used & S & [post P] & T' & O'); [| | |exact E|].
           ++ cbn [rev]. apply thin_app; auto using thin_refl.
           ++ apply one_line_snoc; auto. intros _. eapply L; eauto.
           ++ intros b0 l E0. injection E0 as <- <-. rewrite Nt. discriminate.
           ++ exists (t :: used). rewrite <- app_assoc in T', O'. repeat split; auto with suf. exists post. cbn. now rewrite P.
        -- injection E as <- <-. exists []. rewrite app_nil_r. repeat split; eauto with suf.
    + destruct (is_eoi (t_sym t)) eqn:Eo.
      * assert (t_sym t = Eoi) as Et by (destruct (t_sym t); try discriminate; auto).
        edestruct (IH (r0 ++ [t]) acc) as (used & S & [post P] & T' & O'); [| | |exact E|].
        -- rewrite <- (app_nil_r (rev acc)). apply thin_app; auto. apply thin_drop; [right; right; auto|constructor].
        -- apply one_line_snoc; auto. congruence.
        -- intros. exists r0, t. auto.
        -- exists (t :: used). rewrite <- app_assoc in T', O'. repeat split; auto with suf. exists post. cbn. now rewrite P.
      * edestruct (IH (r0 ++ [t]) (t :: acc)) as (used & S & [post P] & T' & O'); [| | |exact E|].
        -- cbn [rev]. apply thin_app; auto using thin_refl.
        -- apply one_line_snoc; auto. intro X. rewrite X in N. discriminate.
        -- intros b0 l E0 Eb. injection E0 as <- <-. exists r0, t. split; auto. left. destruct (t_sym t); try discriminate; auto.
        -- exists (t :: used). rewrite <- app_assoc in T', O'. repeat split; auto with suf. exists post. cbn. now rewrite P.
Qed.
Lemma one_line_plain l : Forall (fun t => t_sym t <> Newline) l -> one_line l.
Proof. intros H a nl b -> N. apply Forall_app in H. destruct H as [_ H]. inversion H; subst. congruence. Qed.
(** What is stored as a body, given that [l0] stands before it on the line. *)
Lemma read_body_stored l0 ts b rest : Forall (fun t => t_sym t <> Newline) l0 -> read_body ts = (b, rest) ->
  exists ws used post, ts = ws ++ used ++ post /\ suffix rest ts /\ thin used b /\ one_line (l0 ++ ws ++ used) /\ Forall (fun t => is_space (t_sym t) = true) ws.
Proof.
  intros H0 E. unfold read_body in E. destruct (skip_ws_split ts) as (ws & Es & Hs).
  edestruct (read_body_at (skip_ws ts) [] []) as (used & S & [post P] & T & O); [constructor| | |exact E|].
  - intros a nl bb X. destruct a; discriminate.
  - discriminate.
  - exists ws, used, post. cbn [app] in T, O. repeat split; auto.
    + now rewrite <- P.
    + eapply suffix_trans; [exact S|]. apply skip_ws_suffix.
    + assert (Forall (fun t => t_sym t <> Newline) (l0 ++ ws)) as H1.
      { apply Forall_app; split; auto. apply Forall_forall. intros t Ht X. apply Hs in Ht. rewrite X in Ht. discriminate. }
      rewrite app_assoc. revert H1. generalize (l0 ++ ws). intros l H1 a nl bb X N.
      assert (exists a2, a = l ++ a2) as [a2 ->].
      { clear -X N H1. revert a X. induction l as [|y l IH]; intros a X; [now exists a|]. inversion_clear H1 as [|? ? Hy Hl]. destruct a as [|z a]; cbn [app] in X.
        - injection X as E1 E2. congruence.
        - injection X as E1 E2. destruct (IH Hl _ E2) as [a2 ->]. exists a2. now rewrite E1. }
      rewrite <- app_assoc in X. apply app_inv_head in X. destruct (O _ _ _ X N) as (a' & e & -> & He). exists (l ++ a'), e. split; auto. now rewrite app_assoc.
    + now apply Forall_forall.
Qed.

Section Ends.
  Context (checked : bool) (locate : text -> text -> option (text * bool)) (parse : text -> run (list token))
          (project : option (option text * text)) (F : Type) (parse_f64 : text -> option F) (flt fle : F -> F -> bool).
  Context (rank : text -> nat) (MD : macros_descend parse rank).
  Notation G := (fns checked locate parse project F parse_f64 flt fle).

  (** ** The tables hold only macros that descend *)
  Definition fine (k : text) (b : list token) : Prop :=
    no_directive (drop_joins b) /\ forall w, In w (bare false (drop_joins b)) -> rank w < rank k.
  Definition fine_entry (k : text) (e : entry) : Prop :=
    match e with
    | (_, Func _ _ b, _) => fine k b
    | (_, Value b, src) => src = Argument \/ fine k b
    | _ => True
    end.
  Definition fine_table (t : table) : Prop := forall k e, find k t = Some e -> fine_entry k e.
  Definition fine_defs (d : defines) : Prop := fine_table (global d) /\ Forall (fun f => fine_table (snd f)) (frames d).
  Definition known (path : text) : Prop := exists f toks t, parse f = Ok toks /\ In t toks /\ path = p_path (t_pos t).
  Definition at_source (s : state) (ts : list token) : Prop :=
    exists cur rest toks, files s = cur :: rest /\ parse cur = Ok toks /\ suffix ts toks.

  Lemma find_del k k' t e : find k (del k' t) = Some e -> find k t = Some e.
  Proof.
    induction t as [|[x y] t IH]; cbn; auto. destruct (text_dec k' x) as [->|].
    - intro H. destruct (text_dec k x) as [->|]; auto. exfalso. clear IH. revert H. induction t as [|[a b] t IH]; cbn; [discriminate|].
      destruct (text_dec x a); auto. cbn. destruct (text_dec x a); [congruence|auto].
    - cbn. destruct (text_dec k x); auto.
  Qed.
  Lemma fine_del k t : fine_table t -> fine_table (del k t).
  Proof. intros H a e E. apply H. eapply find_del; eauto. Qed.
  Lemma fine_ins k e t : fine_entry k e -> fine_table t -> fine_table (ins k e t).
  Proof. intros He H a x. unfold ins. cbn. destruct (text_dec a k) as [->|]; [congruence|]. intro E. apply H. eapply find_del; eauto. Qed.
  Lemma fine_insert k e d : fine_entry k e -> fine_defs d -> fine_defs (d_insert k e d).
  Proof.
    intros He [H1 H2]. unfold d_insert. destruct (frames d) as [|[n t] r] eqn:E; split; cbn; auto.
    - apply fine_ins; auto.
    - inversion H2; subst. constructor; auto. cbn. apply fine_ins; auto.
  Qed.
  Lemma fine_remove k d : fine_defs d -> fine_defs (snd (d_remove k d)).
  Proof.
    intros [H1 H2]. unfold d_remove. destruct (frames d) as [|[n t] r] eqn:E; split; cbn; auto.
    - apply fine_del; auto.
    - inversion H2; subst. constructor; auto. cbn. apply fine_del; auto.
  Qed.
  Lemma fine_get k d e : fine_defs d -> get_readonly k d = Some e -> fine_entry k e.
  Proof.
    intros [H1 H2]. unfold get_readonly. destruct (frames d) as [|[n t] r]; [apply H1|]. destruct (find k t) eqn:E; [|apply H1].
    inversion H2; subst. intro X. injection X as <-. now apply H3.
  Qed.
  Lemma fine_one k t : (forall w, t_sym t = Word w -> rank w < rank k) -> is_join (t_sym t) = false -> fine k [t].
  Proof.
    intros H J. unfold fine, drop_joins. cbn [filter]. rewrite J. cbn [negb]. split.
    - intros a h mid c b E. apply (f_equal (@length token)) in E. rewrite !app_length in E. cbn in E. rewrite app_length in E. cbn in E. lia.
    - cbn [bare]. destruct (t_sym t) eqn:E; try (intros w []). intros x [<-|[]]. auto.
  Qed.
  Lemma gen_fine key site d : fine_defs d -> known (p_path site) ->
    okP (get_with_gen checked project key site d) (fun '(d', e) => fine_defs d' /\ match e with Some e => fine_entry (tok_text key) e | None => True end).
  Proof.
    intros T (f & toks & t & Pf & It & Ep). destruct (d_file _ _ MD f toks t Pf It) as [H1 H2]. rewrite <- Ep in H1, H2.
    unfold get_with_gen. cbv zeta. unfold text_eqb.
    repeat match goal with |- okP (if (if text_dec ?a ?b then true else false) then _ else _) _ => destruct (text_dec a b) as [Ek|Ek]; [|clear Ek] end.
    - destruct (_ && _); fin. split; [exact T|]. right. apply fine_one; [discriminate|reflexivity].
    - fin. split; [exact T|exact I].
    - fin. split; [exact T|]. right. split.
      + intros a h mid c b E Hh. cbn in E. exfalso.
        assert (In h [Tok DQuote (t_pos key); Tok (Word (file_path_word project (p_path site))) (t_pos key); Tok DQuote (t_pos key)]) as X
          by (rewrite E; apply in_or_app; right; left; reflexivity).
        destruct X as [<-|[<-|[<-|[]]]]; discriminate.
      + intros w [].
    - fin. split; [exact T|]. right. apply fine_one; [|reflexivity]. cbn. intros w X. injection X as <-. now rewrite Ek.
    - fin. split; [exact T|]. right. apply fine_one; [|reflexivity]. cbn. intros w X. injection X as <-. now rewrite Ek.
    - fin. split; [exact T|]. right. apply fine_one; [discriminate|reflexivity].
    - destruct (get_readonly (tok_text key) d) as [[[? def] ?]|] eqn:E; [|fin; auto]. pose proof (fine_get _ _ _ T E) as He.
      destruct def; try (fin; auto). destruct (_ || _); fin; auto.
  Qed.
  Lemma resolve_fine d v : fine_defs d -> okP (resolve checked project d v) (fun '(d', _, _) => fine_defs d').
  Proof.
    intro T. unfold resolve. destruct v as [|t [|t2 v]]; try (fin; exact T).
    eapply okP_bind with (P := fun '(d', _) => fine_defs d').
    - unfold get_with_gen. cbv zeta. repeat match goal with |- okP (if ?b then _ else _) _ => destruct b end; try fin; try exact T.
      destruct (get_readonly (tok_text t) d) as [[[? def] ?]|]; [|fin; exact T]. destruct def; try (fin; exact T). destruct (_ || _); fin; exact T.
    - intros [d' e] Td. destruct e as [[[? def] ?]|]; [destruct def|]; fin; auto.
  Qed.

  (** ** The directives *)
  Lemma word_of t : is_word (t_sym t) = true -> t_sym t = Word (tok_text t).
  Proof. unfold tok_text. destruct (t_sym t); try discriminate. reflexivity. Qed.
  Lemma bare_app_plain a b q : Forall (fun t => t_sym t <> DQuote) a -> forall w, In w (bare q b) -> In w (bare q (a ++ b)).
  Proof.
    induction 1 as [|t a H _ IH]; intros w Hw; auto. cbn [app bare]. destruct (t_sym t); try (apply IH; exact Hw); try congruence.
    destruct q; [apply IH; exact Hw|right; apply IH; exact Hw].
  Qed.
  Lemma define_fine f toks pre h c ts s : fine_defs (defs s) -> parse f = Ok toks -> toks = pre ++ h :: c :: ts ->
    t_sym h = Hash -> t_sym c = Word (bs "define") ->
    okP (directive_define s ts) (fun '(s', ts') => fine_defs (defs s') /\ suffix ts' ts).
  Proof.
    intros T P E Hh Hc. unfold directive_define. eapply okP_bind; [apply next_word_at|]. intros [ident ts1] (ws & -> & Hws & Hw). apply word_of in Hw.
    destruct ts1 as [|next rest]; [fin|]. destruct (is_builtin _); [fin|].
    pose proof (fine_remove (tok_text ident) _ T) as Tr. destruct (d_remove (tok_text ident) (defs s)) as [old d]. cbn [snd] in Tr.
    set (s1 := match old with Some (was, _, FromFile _) => _ | _ => _ end).
    assert (defs s1 = d) as Ed by (subst s1; destruct old as [[[? ?] []]|]; reflexivity). cbv zeta.
    assert (forall l0 ts2 b rest', next :: rest = l0 ++ ts2 -> Forall (fun t => t_sym t <> Newline /\ t_sym t <> DQuote) l0 -> read_body ts2 = (b, rest') ->
      fine (tok_text ident) b /\ suffix rest' ts2) as Body.
    { intros l0 ts2 b rest' E0 H0 Eb.
      assert (Forall (fun t => t_sym t <> Newline) l0) as H0' by (eapply Forall_impl; [|exact H0]; cbn; tauto).
      destruct (read_body_stored l0 ts2 b rest' H0' Eb) as (wb & used & post & E2 & Sf & Th & O & Hwb). split; [|exact Sf].
      destruct (d_body _ _ MD f toks (tok_text ident) (l0 ++ wb ++ used) P) as [R Q].
      { exists pre, h, c, ws, ident, post. repeat split; auto. rewrite E, E0, E2. now rewrite <- !app_assoc. }
      pose proof (thin_trans _ _ _ Th (thin_joins b)) as Th'. split.
      - eapply thin_quiet; [exact Th'|]. eapply quiet_suffix; [|exact Q]. exists (l0 ++ wb). now rewrite <- app_assoc.
      - intros w X. rewrite (thin_bare _ _ Th') in X. apply R. apply bare_app_plain; [eapply Forall_impl; [|exact H0]; cbn; tauto|].
        apply bare_app_plain; auto. eapply Forall_impl; [|exact Hwb]. intros t Ht Y. cbv beta in Ht. rewrite Y in Ht. discriminate. }
    eapply okP_bind with (P := fun '(def, ts2) => fine_entry (tok_text ident) (ident, def, FromFile (files s)) /\ suffix ts2 (next :: rest)).
    - assert (okP (let (body, ts) := read_body (next :: rest) in Ok (Value body, ts))
        (fun '(def, ts2) => fine_entry (tok_text ident) (ident, def, FromFile (files s)) /\ suffix ts2 (next :: rest))) as Val.
      { destruct (read_body (next :: rest)) as [b ts2] eqn:Eb. fin. destruct (Body [] _ _ _ eq_refl (Forall_nil _) Eb) as [B S]. split; [now right|exact S]. }
      destruct (t_sym next) eqn:En; try exact Val.
      + eapply okP_bind; [apply read_params_split|]. intros [args ts2] (used & Er & Hu). destruct (read_body ts2) as [b ts3] eqn:Eb. fin.
        destruct (Body (next :: used) ts2 b ts3) as [B S]; [now rewrite Er|constructor; auto; rewrite En; split; discriminate|exact Eb|].
        split; [exact B|]. eapply suffix_trans; [exact S|]. exists (next :: used). now rewrite Er.
      + fin. split; [exact I|apply suffix_refl].
      + fin. split; [exact I|apply suffix_refl].
    - intros [def ts2] [B S]. fin. split.
      + cbn [defs with_defs add_macro]. rewrite Ed. apply fine_insert; auto. destruct old as [[[? ?] []]|]; exact B.
      + eapply suffix_trans; [exact S|]. exists (ws ++ [ident]). now rewrite <- app_assoc.
  Qed.
  Lemma if_fine s p c ts : fine_defs (defs s) ->
    okP (directive_if checked project F parse_f64 flt fle s p c ts) (fun '(s', ts') => fine_defs (defs s') /\ suffix ts' ts).
  Proof.
    intro T. unfold directive_if. pose proof (read_value_suffix (skip_ws ts)) as S1. destruct (read_value _) as [lhs ts1]. cbn [snd] in S1.
    pose proof (suffix_trans _ _ _ S1 (skip_ws_suffix ts)) as S1'. clear S1.
    destruct (match lhs with [] => false | _ => _ end).
    - destruct (flagged _ _); [fin|fin]. split; auto. eapply suffix_trans; [apply skip_line_suffix|exact S1'].
    - eapply okP_bind; [apply (resolve_fine _ _ T)|]. intros [[d lhs'] ld] Td. cbv zeta. destruct lhs'; [fin|].
      eapply okP_bind with (P := fun '(s', _, _, ts') => fine_defs (defs s') /\ suffix ts' ts).
      + destruct (match skip_ws ts1 with [] => false | _ => _ end).
        * destruct ld; fin. split; auto. eapply suffix_trans; [apply skip_ws_suffix|exact S1'].
        * pose proof (read_value_suffix (skip_ws ts1)) as S2. destruct (read_value (skip_ws ts1)) as [ops ts2]. cbn [snd] in S2.
          pose proof (read_value_suffix (skip_ws ts2)) as S3. destruct (read_value (skip_ws ts2)) as [rhs ts3]. cbn [snd] in S3.
          destruct rhs; [destruct ops; fin|]. eapply okP_bind; [apply resolve_fine; exact Td|]. intros [[d2 rhs'] ?] Td2. fin. split; auto.
          eapply suffix_trans; [exact S3|]. eapply suffix_trans; [apply skip_ws_suffix|]. eapply suffix_trans; [exact S2|].
          eapply suffix_trans; [apply skip_ws_suffix|exact S1'].
      + intros [[[s2 ops] rhs] ts2] [T2 S2]. eapply okP_bind; [apply okP_any|]. intros b _. eapply okP_bind; [apply expect_suffix|]. intros ts3 S3. fin.
        split; auto. exact (suffix_trans _ _ _ S3 S2).
  Qed.
  Lemma ifdef_fine s c b ts : fine_defs (defs s) -> okP (directive_ifdef s c b ts) (fun '(s', ts') => fine_defs (defs s') /\ suffix ts' ts).
  Proof.
    intro T. unfold directive_ifdef. eapply okP_bind; [apply next_word_suffix|]. intros [i ts1] S1. cbv zeta. eapply okP_bind; [apply expect_suffix|].
    intros ts2 S2. fin. split; auto. exact (suffix_trans _ _ _ S2 S1).
  Qed.
  Lemma undef_fine s ts : fine_defs (defs s) -> okP (directive_undef s ts) (fun '(s', ts') => fine_defs (defs s') /\ suffix ts' ts).
  Proof.
    intro T. unfold directive_undef. eapply okP_bind; [apply next_word_suffix|]. intros [i ts1] S1. cbv zeta. eapply okP_bind; [apply expect_suffix|].
    intros ts2 S2. fin. split; [apply fine_remove; auto|]. exact (suffix_trans _ _ _ S2 S1).
  Qed.
  Lemma current_word_suffix ts : okP (current_word ts) (fun '(r, _) => suffix r ts).
  Proof. unfold current_word. destruct ts as [|t r]; [fin|]. destruct (is_word _); [fin; auto with suf|]. destruct (is_eoi _); fin; auto with suf. Qed.
  Lemma pragma_suffix p ts : okP (directive_pragma p ts) (fun '(_, ts') => suffix ts' ts).
  Proof.
    unfold directive_pragma. eapply okP_bind; [apply next_word_suffix|]. intros [w ts1] S1. destruct (negb _); [fin; eapply suffix_trans; [apply skip_line_suffix|exact S1]|].
    eapply okP_bind; [apply next_word_suffix|]. intros [c ts2] S2.
    assert (okP (read_pragma ts2) (fun '(_, _, ts3) => suffix ts3 ts2)) as Rp.
    { unfold read_pragma. eapply okP_bind; [apply next_word_suffix|]. intros [k ts3] S3. eapply okP_bind; [apply current_word_suffix|]. intros [ts4 w4] S4.
      assert (suffix ts4 ts2) as S5 by (eapply suffix_trans; [exact S4|]; eapply suffix_trans; [apply skip_ws_suffix|exact S3]).
      destruct w4; [|fin; exact S5]. destruct (scope_of _); [|fin]. eapply okP_bind; [apply expect_suffix|]. intros ts6 S6. fin. exact (suffix_trans _ _ _ S6 S5). }
    destruct (text_eqb _ _); [|destruct (text_eqb _ _); [|fin]].
    all: eapply okP_bind; [exact Rp|]; intros [[k sc] ts3] S3; eapply okP_bind; [apply okP_any|]; intros p' _; fin;
      eapply suffix_trans; [exact S3|]; eapply suffix_trans; eauto.
  Qed.

  (** ** What every result is like *)
  Definition after_directive (ts : list token) (done : bool) (ts' : list token) : Prop :=
    suffix ts' ts /\
    if done then length ts' < length ts
    else match ts with h :: r => ts' = (if sym_dec (t_sym h) Hash then r else ts) | [] => ts' = [] end.
  Record sound (g : calls) : Prop := {
    s_use : forall c s p ts out, fine_defs (defs s) -> known (p_path c) ->
      okP (c_define_use g c s p ts out) (fun '(s', _, ts', _) =>
        fine_defs (defs s') /\ suffix ts' (tl ts) /\ ts <> [] /\ incl (bare false ts') (bare false ts));
    s_args : forall c s p ts q d args arg, fine_defs (defs s) -> known (p_path c) ->
      okP (c_call_args g c s p ts q d args arg) (fun '(s', _, ts', _) =>
        fine_defs (defs s') /\ suffix ts' ts /\ incl (bare false ts') (bare q ts));
    s_inside : forall c m s p ts out q qp jw, fine_defs (defs s) -> known (p_path c) -> no_directive ts ->
      okP (c_walk g (Some c) (Some m) s p ts out q qp jw) (fun '(s', _, _, _) => fine_defs (defs s'));
    s_outside : forall s p ts out q qp jw, fine_defs (defs s) -> at_source s ts ->
      okP (c_walk g None None s p ts out q qp jw) (fun '(s', _, ts', _) =>
        fine_defs (defs s') /\ suffix ts' ts /\ (forall t r, ts = t :: r -> t_sym t <> Eoi -> length ts' < length ts));
    s_directive : forall s p ts out, fine_defs (defs s) -> at_source s ts ->
      okP (c_directive g s p ts out) (fun '(done, (s', _, ts', _)) => fine_defs (defs s') /\ after_directive ts done ts');
    s_file : forall s p ts out, fine_defs (defs s) -> at_source s ts ->
      okP (c_file g s p ts out) (fun '(s', _, _, _) => fine_defs (defs s')) }.

  Lemma at_suffix s ts ts' : at_source s ts -> suffix ts' ts -> at_source s ts'.
  Proof. intros (cur & rest & toks & Hf & P & S) S'. exists cur, rest, toks. repeat split; auto. eapply suffix_trans; eauto. Qed.
  Lemma at_files s s' ts : at_source s ts -> files s' = files s -> at_source s' ts.
  Proof. intros (cur & rest & toks & Hf & P & S) E. exists cur, rest, toks. rewrite E. auto. Qed.
  Lemma at_known s t r : at_source s (t :: r) -> known (p_path (t_pos t)).
  Proof. intros (cur & rest & toks & Hf & P & S). exists cur, toks, t. repeat split; auto. eapply suffix_in; [exact S|now left]. Qed.
  Lemma quiet_hash h c r : no_directive (h :: c :: r) -> t_sym h = Hash -> among (tok_text c) directive_names = false.
  Proof.
    intros Q Hh. destruct (among (tok_text c) directive_names) eqn:E; auto. exfalso.
    apply (Q [] h [] c r eq_refl Hh (Forall_nil _)). unfold among in E. apply existsb_exists in E. destruct E as (x & Hx & E).
    unfold text_eqb in E. destruct (text_dec (tok_text c) x); [congruence|discriminate].
  Qed.
  Lemma quiet_tl t r : no_directive (t :: r) -> no_directive r.
  Proof. apply quiet_suffix. auto with suf. Qed.
  Lemma bind_fine chk params : forall args s tbl, fine_table tbl -> fine_table (snd (bind_args chk params args s tbl)).
  Proof.
    induction params as [|a params IH]; intros [|v args] s tbl H; cbn [bind_args]; auto. cbv zeta. apply IH. apply fine_ins; auto. now left.
  Qed.
  Lemma bind_defs chk params : forall args s tbl, defs (fst (bind_args chk params args s tbl)) = defs s.
  Proof.
    assert (forall t s, defs (warn_padded t s) = defs s) as W by (intros [t|] s; cbn; [destruct (_ && _)|]; reflexivity).
    induction params as [|a params IH]; intros [|v args] s tbl; cbn [bind_args]; auto. cbv zeta. rewrite IH. destruct chk; rewrite ?W; reflexivity.
  Qed.
  Lemma fine_push n tbl d : fine_defs d -> fine_table tbl -> fine_defs (d_push n tbl d).
  Proof. intros [H1 H2] H. split; cbn; auto. Qed.
  Lemma fine_pop d : fine_defs d -> fine_defs (d_pop d).
  Proof. intros [H1 H2]. split; cbn; auto. destruct (frames d); auto. inversion H2; auto. Qed.
  Lemma fine_quiet k b : fine k b -> no_directive (drop_joins b). Proof. now intros []. Qed.

  Lemma sound_step n : sound (G n) -> sound (G (S n)).
  Proof.
    intro H. pose proof (always_kept checked locate parse project F parse_f64 flt fle n) as K.
    constructor; cbn [fns c_file c_walk c_directive c_define_use c_call_args].
    - (* define_use *)
      intros c s p ts out T Kc. unfold define_use. destruct ts as [|ident ts1]; cbn [current_word]; [cbn [rbind]; fin|].
      destruct (is_word (t_sym ident)) eqn:W; [|destruct (is_eoi _); cbn [rbind]; fin]. cbn [rbind]. apply word_of in W.
      assert (forall ts', suffix ts' ts1 -> incl (bare false ts') (bare false ts1) -> suffix ts' (tl (ident :: ts1)) /\ ident :: ts1 <> [] /\ incl (bare false ts') (bare false (ident :: ts1))) as Rest.
      { intros ts' S I. refine (conj _ (conj _ _)); auto; [discriminate|]. cbn [bare]. rewrite W. now apply incl_tl. }
      eapply okP_bind; [apply (gen_fine ident c _ T Kc)|]. intros [d e] [Td Te]. cbv zeta.
      destruct e as [[[src def] from]|]; [|fin; split; [exact Td|apply Rest; auto using incl_refl with suf]].
      destruct def as [bp params body|body| |]; cbn [fine_entry] in Te.
      + destruct ts1 as [|t r]; [fin|]. destruct (is_lparen (t_sym t)) eqn:L; [|fin].
        eapply okP_bind; [apply (s_args _ H); [exact Td|exact Kc]|]. intros [[[s1 p1] ts2] args] (T1 & S1 & I1). destruct (negb _); [fin|].
        pose proof (bind_fine (pad_checked p1 (tok_text ident)) params args s1 [] (fun k e X => ltac:(discriminate))) as Bf.
        pose proof (bind_defs (pad_checked p1 (tok_text ident)) params args s1 []) as Bd.
        destruct (bind_args _ _ _ _ _) as [s2 tbl]. cbn [fst snd] in Bf, Bd.
        eapply okP_bind; [apply (s_inside _ H); [|exact Kc|apply (fine_quiet _ _ Te)]|].
        { cbn [defs with_defs]. apply fine_push; auto. now rewrite Bd. }
        intros [[[s3 p3] ts3] layer] T3. fin. split; [apply fine_pop; exact T3|]. apply Rest; auto with suf.
        cbn [bare]. destruct (t_sym t); try discriminate. exact I1.
      + assert (okP ('(s0, p0, _, layer) <- c_walk (G n) (Some c) (Some (tok_text ident)) (with_defs d s) p (drop_joins body) [] false None true ;;
           Ok (s0, p0, ts1, Macro ident (rev layer) :: out)) (fun '(s', _, ts', _) =>
           fine_defs (defs s') /\ suffix ts' (tl (ident :: ts1)) /\ ident :: ts1 <> [] /\ incl (bare false ts') (bare false (ident :: ts1))) \/ from = Argument) as V.
        { destruct Te as [->|Te]; [now right|left]. eapply okP_bind; [apply (s_inside _ H); [exact Td|exact Kc|apply (fine_quiet _ _ Te)]|].
          intros [[[s3 p3] ts3] layer] T3. fin. split; [exact T3|]. apply Rest; auto using incl_refl with suf. }
        destruct from; try (destruct V as [V|V]; [exact V|discriminate]). fin. split; [exact Td|]. apply Rest; auto using incl_refl with suf.
      + destruct ts1; fin.
      + fin. split; [exact Td|]. apply Rest; auto using incl_refl with suf.
    - (* call_args *)
      intros c s p ts q d args arg T Kc. unfold call_args. cbv zeta. destruct ts as [|t r]; [fin; split; [exact T|split; [apply suffix_refl|intros ? []]]|].
      assert (forall s' q' d' args' arg', fine_defs (defs s') -> incl (bare q' r) (bare q (t :: r)) ->
        okP (c_call_args (G n) c s' p r q' d' args' arg') (fun '(s', _, ts', _) => fine_defs (defs s') /\ suffix ts' (t :: r) /\ incl (bare false ts') (bare q (t :: r)))) as More.
      { intros s' q' d' args' arg' T' I'. eapply okP_weaken; [apply (s_args _ H); auto|]. intros [[[s1 p1] ts1] a1] (T1 & S1 & I1). refine (conj _ (conj _ _)); auto with suf.
        eapply incl_tran; eauto. }
      destruct q.
      + apply More; auto. cbn [bare]. destruct (t_sym t); cbn [negb]; apply incl_refl.
      + cbn [bare] in More |- *. destruct (t_sym t) eqn:Et; try (apply More; auto using incl_refl; fail).
        * destruct (contains_key _ _); [|apply More; auto using incl_tl, incl_refl].
          eapply okP_bind; [apply (s_use _ H); auto|]. intros [[[s1 p1] ts1] inner] (T1 & S1 & _ & I1).
          eapply okP_weaken; [apply (s_args _ H); auto|]. intros [[[s2 p2] ts2] a2] (T2 & S2 & I2). cbn [tl] in S1. refine (conj _ (conj _ _)); auto.
          -- apply suffix_cons. eapply suffix_trans; eauto.
          -- eapply incl_tran; [exact I2|]. cbn [bare] in I1. rewrite Et in I1. exact I1.
        * destruct (_ =? _)%N; [fin; refine (conj _ (conj _ _)); auto with suf; apply incl_refl|apply More; auto using incl_refl].
    - (* inside a macro *)
      intros c m s p ts out q qp jw T Kc Q. unfold walk. cbv zeta. destruct ts as [|t r]; [fin; exact T|]. pose proof (quiet_tl _ _ Q) as Qr.
      destruct (t_sym t) eqn:Et, q; try (apply (s_inside _ H); auto; fail); try (fin; exact T).
      + destruct (text_eqb _ _); [fin|]. destruct (is_unsupported _); [fin|]. destruct (_ && _); [|apply (s_inside _ H); auto].
        eapply okP_bind; [apply (s_use _ H); auto|]. intros [[[s1 p1] ts1] out1] (T1 & S1 & _ & _). apply (s_inside _ H); auto.
        eapply quiet_suffix; [exact S1|exact Qr].
      + replace (match r with [] => false | c0 :: _ => among (tok_text c0) directive_names end) with false.
        2:{ destruct r as [|c0 r]; auto. symmetry. eapply quiet_hash; eauto. }
        rewrite Bool.andb_false_r. destruct (match r with [] => false | _ => _ end); [|apply (s_inside _ H); auto].
        destruct (_ || _); apply (s_inside _ H); auto.
    - (* outside *)
      intros s p ts out q qp jw T A. unfold walk. cbv zeta.
      destruct ts as [|t r]; [fin; refine (conj _ (conj _ _)); auto with suf; discriminate|].
      assert (at_source s r) as Ar by (eapply at_suffix; eauto with suf).
      assert (forall out q qp jw, okP (c_walk (G n) None None s p r out q qp jw) (fun '(s', _, ts', _) =>
        fine_defs (defs s') /\ suffix ts' (t :: r) /\ (forall t0 r0, t :: r = t0 :: r0 -> t_sym t0 <> Eoi -> length ts' < length (t :: r)))) as Go.
      { intros. eapply okP_weaken; [apply (s_outside _ H); auto|]. intros [[[s1 p1] ts1] o1] (T1 & S1 & L1). refine (conj _ (conj _ _)); auto with suf.
        intros _ _ _ _. apply suffix_len in S1. cbn. lia. }
      assert (forall s' p' ts1 out q qp jw, fine_defs (defs s') -> files s' = files s -> suffix ts1 r -> okP (c_walk (G n) None None s' p' ts1 out q qp jw) (fun '(s', _, ts', _) =>
        fine_defs (defs s') /\ suffix ts' (t :: r) /\ (forall t0 r0, t :: r = t0 :: r0 -> t_sym t0 <> Eoi -> length ts' < length (t :: r)))) as Go'.
      { intros s' p' ts1 o' q' qp' jw' T' Ef S1. eapply okP_weaken; [apply (s_outside _ H); auto; eapply at_files; [eapply at_suffix; [exact Ar|exact S1]|exact Ef]|].
        intros [[[s2 p2] ts2] o2] (T2 & S2 & L2). pose proof (suffix_trans _ _ _ S2 S1) as S3. refine (conj _ (conj _ _)); auto with suf.
        intros _ _ _ _. apply suffix_len in S3. cbn. lia. }
      destruct (t_sym t) eqn:Et, q; try (apply Go; auto; fail).
      all: try (fin; refine (conj _ (conj _ _)); auto with suf; intros t0 r0 X N; injection X as <- <-; cbn; (congruence || lia); fail).
      + destruct (text_eqb _ _); [fin|]. destruct (is_unsupported _); [fin|]. destruct (_ && _); [|apply Go; auto].
        intros x E. destruct (c_define_use (G n) (t_pos t) s p (t :: r) out) as [[[[s1 p1] ts1] out1]| | |] eqn:Eu; try discriminate. cbn [rbind] in E.
        destruct (s_use _ H (t_pos t) s p (t :: r) out T (at_known _ _ _ A) _ Eu) as (T1 & S1 & _ & _).
        eapply (Go' s1 p1 ts1); [exact T1| |exact S1|exact E]. apply (f_files _ _ _ _ (k_use _ K _ _ _ _ _ _ Eu)).
      + destruct (_ && _).
        * intros x E. destruct (c_directive (G n) s p (t :: r) out) as [[d [[[s1 p1] ts1] out1]]| | |] eqn:Eu; try discriminate. cbn [rbind] in E.
          destruct (s_directive _ H _ _ _ _ T A _ Eu) as (T1 & S1 & L1).
          eapply (Go' s1 p1 ts1); [exact T1|apply (f_files _ _ _ _ (k_directive _ K _ _ _ _ _ Eu))| |exact E].
          destruct d.
          -- destruct S1 as [x1 E1]. destruct x1 as [|y x1]; [cbn in E1; subst ts1; cbn in L1; lia|]. injection E1 as <- ->. now exists x1.
          -- rewrite Et in L1. destruct (sym_dec Hash Hash); [|congruence]. subst ts1. apply suffix_refl.
        * apply Go.
    - (* directive *)
      intros s p ts out T A. unfold directive. destruct ts as [|h ts0]; [fin; split; [exact T|split; [apply suffix_refl|reflexivity]]|].
      assert (t_sym h <> Hash -> okP (Ok (false, (s, p, h :: ts0, out))) (fun '(done, (s', _, ts', _)) => fine_defs (defs s') /\ after_directive (h :: ts0) done ts')) as Other.
      { intro N. fin. split; [exact T|]. split; [apply suffix_refl|]. destruct (sym_dec (t_sym h) Hash); [congruence|reflexivity]. }
      destruct (t_sym h) eqn:Eh; try (apply Other; discriminate). clear Other.
      assert (okP (Ok (false, (s, p, ts0, out))) (fun '(done, (s', _, ts', _)) => fine_defs (defs s') /\ after_directive (h :: ts0) done ts')) as NoWord.
      { fin. split; [exact T|]. split; [auto with suf|]. rewrite Eh. reflexivity. }
      destruct ts0 as [|c ts']; [exact NoWord|]. destruct (t_sym c) eqn:Ec; try exact NoWord. clear NoWord.
      assert (forall done ts1, suffix ts1 ts' -> done = true -> after_directive (h :: c :: ts') done ts1) as Af.
      { intros done ts1 S ->. split; [auto with suf|]. apply suffix_len in S. cbn. lia. }
      assert (forall r : run (state * list token), okP r (fun '(s', ts1) => fine_defs (defs s') /\ suffix ts1 ts') ->
        okP ('(s, ts) <- r ;; Ok (true, (s, p, ts, out))) (fun '(done, (s', _, ts1, _)) => fine_defs (defs s') /\ after_directive (h :: c :: ts') done ts1)) as L.
      { intros r Hr. eapply okP_bind; [exact Hr|]. intros [s1 ts1] [T1 S1]. fin. split; auto. }
      unfold directive_command. cbv zeta.
      destruct (text_eqb w (bs "include") && _) eqn:B1.
      { unfold directive_include, include_path. pose proof (skip_ws_suffix ts') as Sw.
        eapply okP_bind with (P := fun '(_, ts1) => suffix ts1 ts').
        { destruct (skip_ws ts') as [|o r]; [fin|]. destruct (t_sym o); try fin.
          all: eapply okP_weaken; [apply read_path_at|]; intros [req ts1] (path & post & -> & S1 & _ & _); eapply suffix_trans; [|exact Sw];
            apply suffix_cons; eapply suffix_trans; [exact S1|]; now exists path. }
        intros [path ts1] S1. destruct (expect_nothing ts1) as [ts2| | |] eqn:Ex; try fin. pose proof (expect_suffix _ _ Ex) as S2.
        destruct (files s) as [|cur fs] eqn:Ef; [fin|]. destruct (locate cur path) as [[found mm]|]; [|fin]. cbv zeta.
        destruct (parse found) as [toks| | |] eqn:Ep; cbn [rbind]; try fin.
        eapply okP_bind; [apply (s_file _ H)|].
        - destruct mm; exact T.
        - exists found, (cur :: fs), toks. refine (conj _ (conj _ _)); auto using suffix_refl. destruct mm; cbn; now rewrite Ef.
        - intros [[[s1 p1] ts3] out1] T1. fin. split; [exact T1|]. apply Af; auto. exact (suffix_trans _ _ _ S2 S1). }
      destruct (text_eqb w (bs "define") && _) eqn:B2.
      { apply L. destruct A as (cur & rest & toks & Hf & P & [pre S]).
        eapply (define_fine cur toks pre h c ts'); auto.
        apply Bool.andb_true_iff in B2. destruct B2 as [B2 _]. unfold text_eqb in B2. destruct (text_dec w (bs "define")); [congruence|discriminate]. }
      repeat match goal with |- okP (if ?b then _ else _) _ => destruct b end; try fin; try apply L;
        auto using undef_fine, if_fine, ifdef_fine, skip_line_suffix.
      + eapply okP_bind; [apply okP_any|]. intros i _. eapply okP_bind; [apply expect_suffix|]. intros ts1 S1. fin. split; auto.
      + eapply okP_bind; [apply expect_suffix|]. intros ts1 S1. fin. split; auto.
      + eapply okP_bind; [apply pragma_suffix|]. intros [p1 ts1] S1. fin. split; auto.
    - (* file *)
      intros s p ts out T A. unfold file. destruct ts as [|t r]; [fin; exact T|]. destruct (is_eoi _); [fin; exact T|].
      unfold line. pose proof (skip_ws_out_suffix s (t :: r) out) as Sw. destruct (skip_ws_out s (t :: r) out) as [ts1 out1]. cbn [fst] in Sw.
      pose proof (at_suffix _ _ _ A Sw) as A1.
      intros x E. destruct (c_directive (G n) s p ts1 out1) as [[d [[[s1 p1] ts2] out2]]| | |] eqn:Eu; try discriminate. cbn [rbind] in E.
      destruct (s_directive _ H _ _ _ _ T A1 _ Eu) as (T1 & S1 & _). pose proof (f_files _ _ _ _ (k_directive _ K _ _ _ _ _ Eu)) as F1.
      assert (at_source s1 ts2) as A2 by (eapply at_files; [eapply at_suffix; eauto|exact F1]).
      destruct d; cbn [rbind] in E; [exact (s_file _ H _ _ _ _ T1 A2 _ E)|].
      destruct (is_reading s1).
      + destruct (c_walk (G n) None None s1 p1 ts2 out2 false None true) as [[[[s2 p2] ts3] out3]| | |] eqn:Ew; try discriminate. cbn [rbind] in E.
        destruct (s_outside _ H _ _ _ _ _ _ _ T1 A2 _ Ew) as (T2 & S2 & _). pose proof (f_files _ _ _ _ (k_walk _ K _ _ _ _ _ _ _ _ _ _ Ew)) as F2.
        apply (s_file _ H s2 (clear_line p2) ts3 out3); [exact T2| |exact E]. eapply at_files; [eapply at_suffix; eauto|exact F2].
      + cbn [rbind] in E. apply (s_file _ H s1 (clear_line p1) (skip_line ts2) out2); [exact T1| |exact E]. eapply at_suffix; [exact A2|apply skip_line_suffix].
  Qed.
  Lemma always_sound n : sound (G n).
  Proof. induction n as [|n IH]; [constructor; intros; apply okP_nofuel|]. now apply sound_step. Qed.

  (** ** Ending *)
  Definition mono {A} (r : nat -> run A) : Prop := forall n m, n <= m -> le_run (r n) (r m).
  Definition ends {A} (r : nat -> run A) : Prop := exists n, r n <> NoFuel.
  Lemma mono_const {A} (x : run A) : mono (fun _ => x). Proof. intros n m _. apply le_refl. Qed.
  Lemma mono_bind {A B} (r : nat -> run A) (k : A -> nat -> run B) : mono r -> (forall a, mono (k a)) -> mono (fun n => rbind (r n) (fun a => k a n)).
  Proof. intros H K n m L. apply le_bind; [apply H; auto|]. intro a. apply K; auto. Qed.
  Lemma ends_const {A} (x : run A) : x <> NoFuel -> ends (fun _ => x). Proof. now exists 0. Qed.
  Lemma ends_bind {A B} (r : nat -> run A) (k : A -> nat -> run B) : mono r -> (forall a, mono (k a)) -> ends r ->
    (forall n a, r n = Ok a -> ends (k a)) -> ends (fun n => rbind (r n) (fun a => k a n)).
  Proof.
    intros Mr Mk [n Hn] K. destruct (r n) as [a|e| |] eqn:E; try (exists n; rewrite E; discriminate); [|congruence].
    destruct (K n a E) as [m Hm]. exists (Nat.max n m).
    destruct (Mr n (Nat.max n m)) as [X|X]; [lia|congruence|]. rewrite X, E. cbn [rbind].
    destruct (Mk a m (Nat.max n m)) as [Y|Y]; [lia|congruence|]. now rewrite Y.
  Qed.
  Lemma ends_S {A} (r : nat -> run A) : ends (fun n => r (S n)) -> ends r.
  Proof. intros [n H]. now exists (S n). Qed.

  Lemma m_walk c m s p ts out q qp jw : mono (fun n => c_walk (G n) c m s p ts out q qp jw).
  Proof. intros a b L. apply (le_walk _ _ (fns_le _ _ _ _ _ _ _ _ _ _ L)). Qed.
  Lemma m_use c s p ts out : mono (fun n => c_define_use (G n) c s p ts out).
  Proof. intros a b L. apply (le_define_use _ _ (fns_le _ _ _ _ _ _ _ _ _ _ L)). Qed.
  Lemma m_args c s p ts q d args arg : mono (fun n => c_call_args (G n) c s p ts q d args arg).
  Proof. intros a b L. apply (le_call_args _ _ (fns_le _ _ _ _ _ _ _ _ _ _ L)). Qed.
  Lemma m_directive s p ts out : mono (fun n => c_directive (G n) s p ts out).
  Proof. intros a b L. apply (le_directive _ _ (fns_le _ _ _ _ _ _ _ _ _ _ L)). Qed.
  Lemma m_file s p ts out : mono (fun n => c_file (G n) s p ts out).
  Proof. intros a b L. apply (le_file _ _ (fns_le _ _ _ _ _ _ _ _ _ _ L)). Qed.
  Hint Resolve m_walk m_use m_args m_directive m_file : mono.
  Ltac mn := first [apply mono_const | apply m_walk | apply m_use | apply m_args | apply m_directive | apply m_file].
  Ltac stop := cbn [rbind]; apply ends_const; discriminate.
  Ltac ebind := match goal with |- ends (fun n => rbind (@?r n) (@?k n)) => apply (ends_bind r (fun a n => k n a)); cbv beta end.
  Ltac mbind := match goal with |- mono (fun n => rbind (@?r n) (@?k n)) => apply (mono_bind r (fun a n => k n a)); cbv beta end.

  (** Inside macros. *)
  Definition below (R : nat) (l : list text) : Prop := forall w, In w l -> rank w < R.
  Definition walks (R : nat) : Prop := forall c m s p ts out q qp jw, fine_defs (defs s) -> known (p_path c) -> no_directive ts -> below R (bare q ts) ->
    ends (fun n => c_walk (G n) (Some c) (Some m) s p ts out q qp jw).
  Definition uses (R L : nat) : Prop := forall c s p ts out, length ts <= L -> fine_defs (defs s) -> known (p_path c) -> below R (bare false ts) ->
    ends (fun n => c_define_use (G n) c s p ts out).
  Definition reads (R L : nat) : Prop := forall c s p ts q d args arg, length ts <= L -> fine_defs (defs s) -> known (p_path c) -> below R (bare q ts) ->
    ends (fun n => c_call_args (G n) c s p ts q d args arg).

  Lemma gen_ends key site d : get_with_gen checked project key site d <> NoFuel.
  Proof.
    unfold get_with_gen. cbv zeta. repeat match goal with |- (if ?b then _ else _) <> _ => destruct b end; try discriminate.
    destruct (get_readonly (tok_text key) d) as [[[? def] ?]|]; [|discriminate]. destruct def; try discriminate. destruct (_ || _); discriminate.
  Qed.
  Lemma uses_step R L : (forall R', R' < R -> walks R') -> (forall L', L' < L -> reads R L') -> uses R L.
  Proof.
    intros W A c s p ts out Ll T Kc B. apply ends_S. cbn [fns c_define_use]. unfold define_use.
    destruct ts as [|ident ts1]; cbn [current_word rbind]; [stop|].
    destruct (is_word (t_sym ident)) eqn:Wd; [|destruct (is_eoi _); cbn [rbind]; stop]. cbn [rbind]. apply word_of in Wd.
    assert (rank (tok_text ident) < R) as Rk by (apply B; cbn [bare]; rewrite Wd; now left).
    pose proof (gen_fine ident c _ T Kc) as Gf. pose proof (gen_ends ident c (defs s)) as Ge.
    destruct (get_with_gen checked project ident c (defs s)) as [[d e]| | |]; cbn [rbind]; try stop; [|congruence].
    destruct (Gf _ eq_refl) as [Td Te]. cbv zeta. destruct e as [[[src def] from]|]; [|stop].
    assert (forall b s', fine (tok_text ident) b -> fine_defs (defs s') -> forall p, ends (fun n => c_walk (G n) (Some c) (Some (tok_text ident)) s' p (drop_joins b) [] false None true)) as Wk.
    { intros b s' [Q Fb] T' p'. apply (W _ Rk); auto. }
    destruct def as [bp params body|body| |]; cbn [fine_entry] in Te.
    - destruct ts1 as [|t r]; [stop|]. destruct (is_lparen (t_sym t)) eqn:Lp; [|stop].
      ebind.
      + mn.
      + intros [[[s1 p1] ts2] args]. cbv beta iota. destruct (negb _); [mn|]. destruct (bind_args _ _ _ _ _) as [s2 tbl].
        mbind; [mn|]. intros [[[s3 p3] ts3] layer]. mn.
      + apply (A (length r)); [cbn in Ll; lia|lia|exact Td|exact Kc|].
        intros w Hw. apply B. cbn [bare]. rewrite Wd. right. destruct (t_sym t); try discriminate. exact Hw.
      + intros n [[[s1 p1] ts2] args] E. cbv beta iota. destruct (s_args _ (always_sound n) c (with_defs d s) p r _ _ _ _ Td Kc _ E) as (T1 & _ & _).
        destruct (negb _); [stop|].
        pose proof (bind_fine (pad_checked p1 (tok_text ident)) params args s1 [] (fun k e X => ltac:(discriminate))) as Bf.
        pose proof (bind_defs (pad_checked p1 (tok_text ident)) params args s1 []) as Bd.
        destruct (bind_args _ _ _ _ _) as [s2 tbl]. cbn [fst snd] in Bf, Bd.
        ebind; [mn|intros [[[s3 p3] ts3] layer]; mn| |intros m [[[s3 p3] ts3] layer] _; stop].
        apply Wk; auto. cbn [defs with_defs]. apply fine_push; auto. now rewrite Bd.
    - assert (fine (tok_text ident) body -> ends (fun n => '(s0, p0, _, layer) <- c_walk (G n) (Some c) (Some (tok_text ident)) (with_defs d s) p (drop_joins body) [] false None true ;;
           Ok (s0, p0, ts1, Macro ident (rev layer) :: out))) as V.
      { intro Fb. ebind; [mn|intros [[[s3 p3] ts3] layer]; mn| |intros m [[[s3 p3] ts3] layer] _; stop].
        apply Wk; auto. }
      destruct Te as [->|Te]; [stop|]. destruct from; [apply V; auto..|stop].
    - destruct ts1; stop.
    - stop.
  Qed.
  Lemma reads_step R L : uses R L -> (forall L', L' < L -> reads R L') -> reads R L.
  Proof.
    intros U A c s p ts q d args arg Ll T Kc B. apply ends_S. cbn [fns c_call_args]. unfold call_args. cbv zeta. destruct ts as [|t r]; [stop|].
    assert (forall q' d' args' arg', incl (bare q' r) (bare q (t :: r)) -> ends (fun n => c_call_args (G n) c s p r q' d' args' arg')) as More.
    { intros q' d' args' arg' I. apply (A (length r)); [cbn in Ll; lia|lia|exact T|exact Kc|]. intros w Hw. apply B. now apply I. }
    destruct q.
    - apply More. cbn [bare]. destruct (t_sym t); cbn [negb]; apply incl_refl.
    - cbn [bare] in More. destruct (t_sym t) eqn:Et; try (apply More; auto using incl_refl; fail).
      + destruct (contains_key _ _); [|apply More; auto using incl_tl, incl_refl].
        ebind; [mn|intros [[[s1 p1] ts1] inner]; mn|apply U; auto|].
        intros n [[[s1 p1] ts1] inner] E. destruct (s_use _ (always_sound n) _ _ _ _ _ T Kc _ E) as (T1 & S1 & _ & I1). cbn [tl] in S1.
        apply suffix_len in S1. apply (A (length ts1)); [cbn in Ll; lia|lia|exact T1|exact Kc|]. intros w' Hw. apply B. now apply I1.
      + destruct (_ =? _)%N; [stop|apply More; auto using incl_refl].
  Qed.
  Lemma uses_reads R : (forall R', R' < R -> walks R') -> forall L, uses R L /\ reads R L.
  Proof.
    intros W L. induction L as [L IH] using (well_founded_induction lt_wf).
    assert (uses R L) as U by (apply uses_step; auto; intros; apply IH; auto). split; auto. apply reads_step; auto. intros; apply IH; auto.
  Qed.
  Lemma walks_from R : (forall L, uses R L) -> walks R.
  Proof.
    intros U c m s p ts. remember (length ts) as L eqn:EL. revert s p ts EL.
    induction L as [L IH] using (well_founded_induction lt_wf). intros s p ts EL out q qp jw T Kc Q B. subst L.
    apply ends_S. cbn [fns c_walk]. unfold walk. cbv zeta. destruct ts as [|t r]; [stop|]. pose proof (quiet_tl _ _ Q) as Qr.
    assert (forall out q' qp jw, incl (bare q' r) (bare q (t :: r)) -> ends (fun n => c_walk (G n) (Some c) (Some m) s p r out q' qp jw)) as Go.
    { intros. eapply IH; eauto; [cbn; lia|]. intros w Hw. auto. }
    cbn [bare] in Go. destruct (t_sym t) eqn:Et, q; try (apply Go; auto using incl_refl; fail); try stop.
    - destruct (text_eqb _ _); [stop|]. destruct (is_unsupported _); [stop|]. destruct (_ && _); [|apply Go; auto using incl_tl, incl_refl].
      ebind; [mn|intros [[[s1 p1] ts1] inner]; mn|apply (U (length (t :: r))); auto|].
      intros n [[[s1 p1] ts1] inner] E. destruct (s_use _ (always_sound n) _ _ _ _ _ T Kc _ E) as (T1 & S1 & _ & I1). cbn [tl] in S1.
      pose proof (suffix_len _ _ S1). eapply IH; eauto; [cbn; lia|eapply quiet_suffix; eauto|]. intros w' Hw. apply B. now apply I1.
    - replace (match r with [] => false | c0 :: _ => among (tok_text c0) directive_names end) with false.
      2:{ destruct r as [|c0 r]; auto. symmetry. eapply quiet_hash; eauto. }
      rewrite Bool.andb_false_r. destruct (match r with [] => false | _ => _ end); [|apply Go; auto using incl_refl].
      destruct (_ || _); apply Go; auto using incl_refl.
  Qed.
  Lemma inside_ends R : walks R /\ forall L, uses R L.
  Proof.
    induction R as [R IH] using (well_founded_induction lt_wf).
    assert (forall L, uses R L) as U by (intro L; apply uses_reads; intros R' H; apply IH; auto). split; auto using walks_from.
  Qed.
  Lemma bounded (l : list text) : exists R, below R l.
  Proof.
    induction l as [|w l [R H]]; [exists 0; intros ? []|]. exists (S (Nat.max R (rank w))). intros x [<-|Hx]; [lia|]. apply H in Hx. lia.
  Qed.
  Lemma use_ends c s p ts out : fine_defs (defs s) -> known (p_path c) -> ends (fun n => c_define_use (G n) c s p ts out).
  Proof. intros T K. destruct (bounded (bare false ts)) as [R H]. apply (proj2 (inside_ends R) (length ts)); auto. Qed.

  (** ** Files *)
  Context (PT : forall f, parse f <> NoFuel) (depth : text -> nat) (ID : includes_descend locate parse depth).
  Definition file_ends (f : text) : Prop := forall s p toks out rest, files s = f :: rest -> parse f = Ok toks -> fine_defs (defs s) ->
    ends (fun n => c_file (G n) s p toks out).

  Lemma next_word_ends ts : next_word ts <> NoFuel.
  Proof. unfold next_word, current_word. destruct (skip_ws ts) as [|t r]; cbn [rbind]; [discriminate|]. destruct (is_word _); cbn [rbind]; [discriminate|]. destruct (is_eoi _); discriminate. Qed.
  Lemma expect_ends ts : expect_nothing ts <> NoFuel.
  Proof. induction ts as [|t r IH]; cbn; [discriminate|]. destruct (_ || _); [discriminate|]. destruct (is_space _); [auto|discriminate]. Qed.
  Lemma bind_ends {A B} (r : run A) (k : A -> run B) : r <> NoFuel -> (forall a, k a <> NoFuel) -> rbind r k <> NoFuel.
  Proof. intros H K. destruct r; cbn; auto; discriminate. Qed.
  Lemma resolve_ends d v : resolve checked project d v <> NoFuel.
  Proof.
    unfold resolve. destruct v as [|t [|t2 v]]; try discriminate. apply bind_ends; [apply gen_ends|]. intros [d' [[[? []] ?]|]]; discriminate.
  Qed.
  Lemma read_params_ends ts : forall b args, read_params ts b args <> NoFuel.
  Proof. induction ts as [|t r IH]; intros b args; cbn; [discriminate|]. destruct (t_sym t); auto; try discriminate; destruct b; auto; discriminate. Qed.
  Lemma read_path_ends c ts : read_path c ts <> NoFuel.
  Proof.
    induction ts as [|t r IH]; cbn; [discriminate|]. destruct (sym_dec _ _); [discriminate|]. destruct (is_newline _); [discriminate|]. destruct (is_eoi _); [discriminate|].
    apply bind_ends; auto. intros []; discriminate.
  Qed.
  Lemma pragma_ends p ts : directive_pragma p ts <> NoFuel.
  Proof.
    assert (forall ts, read_pragma ts <> NoFuel) as R.
    { intro ts0. unfold read_pragma. apply bind_ends; [apply next_word_ends|]. intros [k ts1]. apply bind_ends.
      - unfold current_word. destruct (skip_ws ts1) as [|t r]; [discriminate|]. destruct (is_word _); [discriminate|]. destruct (is_eoi _); discriminate.
      - intros [ts2 [t|]]; [|discriminate]. destruct (scope_of _); [|discriminate]. apply bind_ends; [apply expect_ends|discriminate]. }
    unfold directive_pragma. apply bind_ends; [apply next_word_ends|]. intros [w ts1]. destruct (negb _); [discriminate|]. apply bind_ends; [apply next_word_ends|]. intros [c ts2].
    destruct (text_eqb _ _); [|destruct (text_eqb _ _); [|discriminate]].
    all: apply bind_ends; [apply R|]; intros [[k sc] ts3]; apply bind_ends; [|discriminate].
    - unfold prag_suppress. destruct (among _ _); discriminate.
    - unfold prag_flag. destruct (among _ _); discriminate.
  Qed.
  Lemma define_ends s ts : directive_define s ts <> NoFuel.
  Proof.
    unfold directive_define. apply bind_ends; [apply next_word_ends|]. intros [i [|next rest]]; [discriminate|]. destruct (is_builtin _); [discriminate|].
    destruct (d_remove _ _) as [old d]. cbv zeta. apply bind_ends; [|intros []; discriminate].
    destruct (t_sym next); try (destruct (read_body (next :: rest)); discriminate); try discriminate.
    apply bind_ends; [apply read_params_ends|]. intros [args ts2]. destruct (read_body ts2). discriminate.
  Qed.
  Lemma if_ends s p c ts : directive_if checked project F parse_f64 flt fle s p c ts <> NoFuel.
  Proof.
    unfold directive_if. destruct (read_value _) as [lhs ts1]. destruct (match lhs with [] => false | _ => _ end); [destruct (flagged _ _); discriminate|].
    apply bind_ends; [apply resolve_ends|]. intros [[d lhs'] ld]. cbv zeta. destruct lhs'; [discriminate|]. apply bind_ends.
    - destruct (match skip_ws ts1 with [] => false | _ => _ end); [destruct ld; discriminate|]. destruct (read_value (skip_ws ts1)) as [ops ts2].
      destruct (read_value (skip_ws ts2)) as [rhs ts3]. destruct rhs; [destruct ops; discriminate|]. apply bind_ends; [apply resolve_ends|]. intros [[? ?] ?]; discriminate.
    - intros [[[s2 ops] rhs] ts2]. apply bind_ends; [|intro b; apply bind_ends; [apply expect_ends|discriminate]].
      unfold compare. repeat match goal with |- (if ?b then _ else _) <> _ => destruct b end; try discriminate.
      destruct (parse_f64 _); [|discriminate]. destruct (parse_f64 _); discriminate.
  Qed.
  Lemma directive_ends cur rest s p ts out : (forall f, depth f < depth cur -> file_ends f) -> files s = cur :: rest -> at_source s ts -> fine_defs (defs s) ->
    ends (fun n => c_directive (G n) s p ts out).
  Proof.
    intros IH Hf A T. apply ends_S. cbn [fns c_directive]. unfold directive. destruct ts as [|h [|c ts']]; [stop|destruct (t_sym h); stop|].
    destruct (t_sym h) eqn:Eh; try stop. destruct (t_sym c) eqn:Ec; try stop. unfold directive_command. cbv zeta.
    destruct (text_eqb w (bs "include") && _) eqn:B1.
    - unfold directive_include, include_path. destruct (skip_ws_split ts') as (ws & Ets & Hws). remember (skip_ws ts') as u. clear Hequ.
      destruct u as [|o r]; [stop|].
      assert (w = bs "include") as ->.
      { apply Bool.andb_true_iff in B1. destruct B1 as [B1 _]. unfold text_eqb in B1. destruct (text_dec w (bs "include")); [auto|discriminate]. }
      assert (forall close (C : t_sym o = DQuote /\ close = DQuote \/ t_sym o = LAngle /\ close = RAngle), ends (fun n =>
         '(path, ts) <- read_path close r ;;
          match expect_nothing ts with
          | Ok ts0 =>
              match files s with
              | [] => Panic
              | cur :: _ =>
                  match locate cur path with
                  | None => Err PE12_include_not_found
                  | Some (found, mismatch) =>
                      let s := if mismatch then add_warning (WIncludeCase found) s else s in
                      toks <- parse found ;;
                      let s := add_included found (with_files (found :: files s) s) in
                      '(s, _, _, out) <- c_file (G n) s (prag_child p) toks out ;;
                      Ok (true, (with_files (tl (files s)) s, p, ts0, out))
                  end
              end
          | Err _ => Err PE14_include_suffix | Panic => Panic | NoFuel => NoFuel
          end)) as Inc.
      { intros close C. pose proof (read_path_at close r) as Ra. pose proof (read_path_ends close r) as Re.
        destruct (read_path close r) as [[req ts1]| | |]; cbn [rbind]; try stop; [|congruence].
        destruct (Ra _ eq_refl) as (path & post & Er & _ & Eq & Hp). pose proof (expect_ends ts1) as Ee.
        destruct (expect_nothing ts1) as [ts2| | |]; try stop; [|congruence]. rewrite Hf. destruct (locate cur req) as [[found mm]|] eqn:El; [|stop]. cbv zeta.
        pose proof (PT found) as Pt. destruct (parse found) as [toks| | |] eqn:Ep; cbn [rbind]; try stop; [|congruence].
        ebind; [mn|intros [[[? ?] ?] ?]; mn| |intros m [[[? ?] ?] ?] _; stop].
        destruct A as (cur' & rest' & toks' & Hf' & P' & [pre S]). rewrite Hf in Hf'. injection Hf' as <- <-.
        eapply (IH found); [|reflexivity|exact Ep|destruct mm; exact T].
        eapply ID; [exact P'| |exact El]. exists pre, h, c, ws, o, path, post. rewrite S, Ets, Er.
        refine (conj _ (conj _ (conj _ (conj _ (conj _ _))))); auto. destruct C as [[C ->]|[C ->]]; [left|right]; auto. }
      destruct (t_sym o) eqn:Eo; try stop; [apply (Inc DQuote)|apply (Inc RAngle)]; auto.
    - apply ends_const. clear IH.
      repeat match goal with |- (if ?b then _ else _) <> _ => destruct b end; try discriminate.
      all: apply bind_ends; auto using define_ends, if_ends, pragma_ends; try (intros []; discriminate).
      + unfold directive_undef. apply bind_ends; [apply next_word_ends|]. intros []. cbv zeta. apply bind_ends; [apply expect_ends|discriminate].
      + unfold directive_ifdef. apply bind_ends; [apply next_word_ends|]. intros []. cbv zeta. apply bind_ends; [apply expect_ends|discriminate].
      + unfold directive_ifdef. apply bind_ends; [apply next_word_ends|]. intros []. cbv zeta. apply bind_ends; [apply expect_ends|discriminate].
      + apply bind_ends; [|intro; apply bind_ends; [apply expect_ends|discriminate]]. unfold flip. destruct (did_else _); [destruct (if_stack _); discriminate|].
        destruct (if_stack _) as [|[k kt] bl]; [destruct checked; discriminate|]. destruct (forallb _ _); discriminate.
      + apply bind_ends; [apply expect_ends|discriminate].
  Qed.
  Lemma outside_ends cur rest : (forall f, depth f < depth cur -> file_ends f) -> forall L s p ts out q qp jw, length ts <= L -> files s = cur :: rest ->
    at_source s ts -> fine_defs (defs s) -> ends (fun n => c_walk (G n) None None s p ts out q qp jw).
  Proof.
    intros IH L. induction L as [|L IHL]; intros s p ts out q qp jw Ll Hf A T; apply ends_S; cbn [fns c_walk]; unfold walk; cbv zeta.
    { destruct ts; [stop|cbn in Ll; lia]. }
    destruct ts as [|t r]; [stop|]. cbn [length] in Ll.
    assert (at_source s r) as Ar by (eapply at_suffix; eauto with suf).
    assert (forall out q qp jw, ends (fun n => c_walk (G n) None None s p r out q qp jw)) as Go by (intros; apply IHL; auto; lia).
    destruct (t_sym t) eqn:Et, q; try (apply Go; fail); try stop.
    - destruct (text_eqb _ _); [stop|]. destruct (is_unsupported _); [stop|]. destruct (_ && _); [|apply Go].
      ebind; [mn|intros [[[s1 p1] ts1] inner]; mn|apply use_ends; auto; eapply at_known; eauto|].
      intros n [[[s1 p1] ts1] inner] E. destruct (s_use _ (always_sound n) _ _ _ _ _ T (at_known _ _ _ A) _ E) as (T1 & S1 & _ & _). cbn [tl] in S1.
      pose proof (f_files _ _ _ _ (k_use _ (always_kept _ _ _ _ _ _ _ _ n) _ _ _ _ _ _ E)) as Fi. pose proof (suffix_len _ _ S1).
      apply IHL; auto; [lia|congruence|]. eapply at_files; [eapply at_suffix; eauto|exact Fi].
    - destruct (_ && _).
      + ebind; [mn|intros [d [[[s1 p1] ts1] inner]]; mn|eapply directive_ends; eauto|].
        intros n [d [[[s1 p1] ts1] inner]] E. destruct (s_directive _ (always_sound n) _ _ _ _ T A _ E) as (T1 & S1 & L1).
        pose proof (f_files _ _ _ _ (k_directive _ (always_kept _ _ _ _ _ _ _ _ n) _ _ _ _ _ E)) as Fi.
        apply IHL; auto; [|congruence|eapply at_files; [eapply at_suffix; [exact A|exact S1]|exact Fi]].
        destruct d; [cbn in L1; lia|]. rewrite Et in L1. destruct (sym_dec Hash Hash); [|congruence]. subst ts1. lia.
      + apply Go.
  Qed.
  Lemma mono_if {A} (b : bool) (x y : nat -> run A) : mono x -> mono y -> mono (fun n => if b then x n else y n).
  Proof. destruct b; auto. Qed.
  Lemma file_ends_all : forall f, file_ends f.
  Proof.
    intro f. remember (depth f) as D eqn:ED. revert f ED. induction D as [D IHD] using (well_founded_induction lt_wf). intros cur ->.
    assert (forall f, depth f < depth cur -> file_ends f) as IH by (intros; eapply IHD; eauto). clear IHD.
    intros s0 p0 toks out0 rest Hf0 P T0.
    assert (forall L s p ts out, length ts <= L -> files s = cur :: rest -> suffix ts toks -> fine_defs (defs s) -> ends (fun n => c_file (G n) s p ts out)) as All;
      [|apply (All (length toks)); auto using suffix_refl]. clear s0 p0 out0 Hf0 T0.
    induction L as [|L IHL]; intros s p ts out Ll Hf Sf T; apply ends_S; cbn [fns c_file]; unfold file.
    { destruct ts; [stop|cbn in Ll; lia]. }
    destruct ts as [|t r]; [stop|]. destruct (is_eoi (t_sym t)) eqn:Eo; [stop|].
    assert (at_source s (t :: r)) as A by (exists cur, rest, toks; auto).
    assert (exists ts1 out1, skip_ws_out s (t :: r) out = (ts1, out1) /\ suffix ts1 (t :: r) /\ (ts1 = t :: r \/ suffix ts1 r)) as (ts1 & out1 & Es & Sw & Cs).
    { pose proof (skip_ws_out_suffix s (t :: r) out) as Sw. destruct (skip_ws_out s (t :: r) out) as [ts1 out1] eqn:E. exists ts1, out1. cbn [fst] in Sw. repeat split; auto.
      destruct Sw as [[|x y] X]; [left; auto|right]. injection X as -> ->. now exists y. }
    assert (at_source s ts1) as A1 by (eapply at_suffix; eauto).
    set (rest_of := fun (x : bool * result) n => let '(done, (s, p, ts, out)) := x in
      if done : bool then Ok (s, p, ts, out)
      else '(s, p, ts, out) <- (if is_reading s then c_walk (G n) None None s p ts out false None true else Ok (s, p, skip_line ts, out)) ;;
           Ok (s, clear_line p, ts, out)).
    assert (forall x, mono (rest_of x)) as Mr.
    { intros [[|] [[[s1 p1] ts2] out2]]; subst rest_of; cbv beta iota; [mn|]. mbind; [destruct (is_reading s1); mn|]. intros [[[? ?] ?] ?]. mn. }
    assert (mono (fun n => '(done, (s, p, ts, out)) <- c_directive (G n) s p ts1 out1 ;; rest_of (done, (s, p, ts, out)) n)) as Ml.
    { mbind; [mn|]. intros [? [[[? ?] ?] ?]]. apply Mr. }
    assert (forall n, line (G n) s p (t :: r) out = ('(done, (s, p, ts, out)) <- c_directive (G n) s p ts1 out1 ;; rest_of (done, (s, p, ts, out)) n)) as El.
    { intro n. unfold line. rewrite Es. destruct (c_directive (G n) s p ts1 out1) as [[done [[[? ?] ?] ?]]| | |]; reflexivity. }
    assert (forall n a, line (G n) s p (t :: r) out = Ok a -> let '(s', _, ts', _) := a in fine_defs (defs s') /\ files s' = cur :: rest /\ suffix ts' (t :: r) /\ length ts' <= L) as Post.
    { intros n [[[s' p'] ts'] o'] E. rewrite El in E. destruct (c_directive (G n) s p ts1 out1) as [[done [[[s1 p1] ts2] out2]]| | |] eqn:Ed; try discriminate. cbn [rbind] in E.
      destruct (s_directive _ (always_sound n) _ _ _ _ T A1 _ Ed) as (T1 & S1 & L1).
      pose proof (f_files _ _ _ _ (k_directive _ (always_kept _ _ _ _ _ _ _ _ n) _ _ _ _ _ Ed)) as Fi.
      assert (at_source s1 ts2) as A2 by (eapply at_files; [eapply at_suffix; eauto|exact Fi]).
      pose proof (suffix_trans _ _ _ S1 Sw) as S12. pose proof (suffix_len _ _ Sw) as Lw. cbn [length] in Ll, Lw.
      subst rest_of. cbv beta iota in E. destruct done.
      - injection E as -> -> -> ->. repeat (split; auto); try congruence. lia.
      - assert (t_sym t <> Eoi) as Nt by (intro X; rewrite X in Eo; discriminate).
        assert (ts2 = t :: r \/ length ts2 <= L) as Cl.
        { destruct Cs as [->|Cs]; [|right; apply suffix_len in Cs; apply suffix_len in S1; lia]. cbn in L1. destruct (sym_dec (t_sym t) Hash); [right; subst ts2; lia|left; auto]. }
        destruct (is_reading s1).
        + destruct (c_walk (G n) None None s1 p1 ts2 out2 false None true) as [[[[s2 p2] ts3] out3]| | |] eqn:Ew; try discriminate. cbn [rbind] in E. injection E as -> _ -> _.
          destruct (s_outside _ (always_sound n) _ _ _ _ _ _ _ T1 A2 _ Ew) as (T2 & S2 & L2).
          pose proof (f_files _ _ _ _ (k_walk _ (always_kept _ _ _ _ _ _ _ _ n) _ _ _ _ _ _ _ _ _ _ Ew)) as F2.
          split; [exact T2|]. split; [congruence|]. split; [eapply suffix_trans; eauto|].
          destruct Cl as [->|Cl]; [specialize (L2 _ _ eq_refl Nt); cbn in L2; lia|]. apply suffix_len in S2. lia.
        + cbn [rbind] in E. injection E as -> _ E3 _. subst ts'. split; [exact T1|]. split; [congruence|].
          split; [eapply suffix_trans; [apply skip_line_suffix|exact S12]|].
          destruct Cl as [->|Cl]; [pose proof (skip_line_less t r); cbn in *; lia|]. pose proof (suffix_len _ _ (skip_line_suffix ts2)). lia. }
    ebind.
    - intros a b Lab. rewrite !El. apply Ml, Lab.
    - intros [[[? ?] ?] ?]. mn.
    - assert (ends (fun n => '(done, (s, p, ts, out)) <- c_directive (G n) s p ts1 out1 ;; rest_of (done, (s, p, ts, out)) n)) as [n Hn];
        [|exists n; now rewrite El].
      ebind; [mn|intros [? [[[? ?] ?] ?]]; apply Mr|eapply directive_ends; eauto|].
      intros n [done [[[s1 p1] ts2] out2]] Ed. destruct (s_directive _ (always_sound n) _ _ _ _ T A1 _ Ed) as (T1 & S1 & L1).
      pose proof (f_files _ _ _ _ (k_directive _ (always_kept _ _ _ _ _ _ _ _ n) _ _ _ _ _ Ed)) as Fi.
      assert (at_source s1 ts2) as A2 by (eapply at_files; [eapply at_suffix; eauto|exact Fi]).
      subst rest_of. cbv beta iota. destruct done; [stop|]. ebind; [destruct (is_reading s1); mn|intros [[[? ?] ?] ?]; mn| |intros m [[[? ?] ?] ?] _; stop].
      destruct (is_reading s1); [|stop]. eapply (outside_ends cur rest); eauto. congruence.
    - intros n [[[s1 p1] ts2] out2] E. destruct (Post _ _ E) as (T1 & F1 & S1 & L1). apply IHL; auto. eapply suffix_trans; eauto.
  Qed.

  Theorem preprocess_ends path : exists n r, r <> NoFuel /\ forall m, n <= m -> preprocess checked locate parse project F parse_f64 flt fle m path = r.
  Proof.
    unfold preprocess. pose proof (PT path) as Pt. destruct (parse path) as [toks| | |] eqn:P; cbn [rbind]; try (exists 0; eexists; split; [|reflexivity]; discriminate); [|congruence].
    destruct (file_ends_all path (init path) prag_root toks [] []) as [n Hn]; auto.
    { split; [intros k e X; discriminate|constructor]. }
    exists n. eexists. split; [|intros m L; destruct (m_file (init path) prag_root toks [] n m L) as [X|X]; [congruence|]; rewrite X; reflexivity].
    destruct (c_file (G n) (init path) prag_root toks []) as [[[[s p] ts] out]| | |]; cbn [rbind]; try discriminate; [|congruence].
    destruct (if_stack _); discriminate.
  Qed.
End Ends.
