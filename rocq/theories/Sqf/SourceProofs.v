(** Reading a part of an SQF text again: places do not matter to the grammar, and a part of a text reads as the tokens it
    read as within the whole. *)
From Coq Require Import String.
From Verif Require Import Base.Tactics Base.Bytes Base.Ascii Base.Text Sqf.Ast Sqf.ParseModel Sqf.ParseSpec Sqf.ParseProofs Sqf.ParseComplete
  Sqf.LexModel Sqf.LexSpec Sqf.LexProofs Sqf.SourceModel Sqf.SourceSpec.
Local Open Scope N_scope.
Local Open Scope list_scope.

(** ** Places do not matter *)
Definition toks (ts : list ltoken) : list token := map fst ts.
Lemma toks_app : forall a b, toks (a ++ b) = toks a ++ toks b.
Proof. intros. apply map_app. Qed.
Lemma toks_split : forall a b ts, toks ts = toks (a ++ b) -> exists a' b', ts = a' ++ b' /\ toks a' = toks a /\ toks b' = toks b.
Proof.
  induction a as [|x a IH]; intros b ts H; cbn [app] in H.
  - exists [], ts. auto.
  - destruct ts as [|y ts]; [discriminate|]. injection H as E H. apply IH in H as (a' & b' & -> & Ha & Hb).
    exists (y :: a'), b'. cbn. rewrite E. unfold toks in Ha. rewrite Ha. auto.
Qed.
Lemma toks_cons : forall t sp b ts, toks ts = toks ((t, sp) :: b) -> exists sp' b', ts = (t, sp') :: b' /\ toks b' = toks b.
Proof. intros t sp b [|[t' sp'] ts] H; [discriminate|]. injection H as -> H. eauto. Qed.

Section Respan.
  Context (db : database) (ex ex' : span -> text).
  Lemma operand_respan : forall o sp e, operand db o sp e -> forall sp', exists e', operand db o sp' e' /\ bare e' = bare e.
  Proof. intros o sp e H sp'. destruct H; eexists; (split; [constructor; assumption|reflexivity]). Qed.
  Lemma respan :
    (forall n e ts, spells db ex n e ts -> forall ts', toks ts' = toks ts -> exists e', spells db ex' n e' ts' /\ bare e' = bare e) /\
    (forall es ts, spells_list db ex es ts -> forall ts', toks ts' = toks ts -> exists es', spells_list db ex' es' ts' /\ map bare es' = map bare es) /\
    (forall s ts, spells_statement db ex s ts -> forall ts', toks ts' = toks ts -> exists s', spells_statement db ex' s' ts' /\ bare_stmt s' = bare_stmt s) /\
    (forall ss ts, spells_statements db ex ss ts -> forall ts', toks ts' = toks ts -> exists ss', spells_statements db ex' ss' ts' /\ map bare_stmt ss' = map bare_stmt ss).
  Proof.
    apply (spells_mutual db ex
      (fun n e ts _ => forall ts', toks ts' = toks ts -> exists e', spells db ex' n e' ts' /\ bare e' = bare e)
      (fun es ts _ => forall ts', toks ts' = toks ts -> exists es', spells_list db ex' es' ts' /\ map bare es' = map bare es)
      (fun s ts _ => forall ts', toks ts' = toks ts -> exists s', spells_statement db ex' s' ts' /\ bare_stmt s' = bare_stmt s)
      (fun ss ts _ => forall ts', toks ts' = toks ts -> exists ss', spells_statements db ex' ss' ts' /\ map bare_stmt ss' = map bare_stmt ss)).
    - intros n c a b o sp ta tb I _ IHa _ IHb ts' E. apply toks_split in E as (a' & r & -> & Ea & E). apply toks_cons in E as (sp' & b' & -> & Eb).
      apply IHa in Ea as (ea & Sa & Ba). apply IHb in Eb as (eb & Sb & Bb). exists (EBinary c ea eb sp'). split; [now constructor|]. cbn. now rewrite Ba, Bb.
    - intros n e ts L _ IH ts' E. apply IH in E as (e' & S & B). exists e'. split; auto. now constructor.
    - intros c e o sp ts P _ IH ts' E. apply toks_cons in E as (sp' & b & -> & E). apply IH in E as (e' & S & B). exists (EUnary c e' sp').
      split; [now constructor|]. cbn. now rewrite B.
    - intros o sp e O ts' E. apply (toks_cons o sp []) in E as (sp' & b & -> & E). destruct b; [|discriminate].
      destruct (operand_respan _ _ _ O sp') as (e' & O' & B). exists e'. split; auto. now constructor.
    - intros e ts sp sp' _ IH ts' E. apply (toks_cons _ sp) in E as (s1 & b & -> & E). apply toks_split in E as (m & r & -> & Em & Er).
      apply (toks_cons _ sp' []) in Er as (s2 & r' & -> & Er). destruct r'; [|discriminate]. apply IH in Em as (e' & S & B). exists e'. split; auto. now constructor.
    - intros es ts sp sp' _ IH ts' E. apply (toks_cons _ sp) in E as (s1 & b & -> & E). apply toks_split in E as (m & r & -> & Em & Er).
      apply (toks_cons _ sp' []) in Er as (s2 & r' & -> & Er). destruct r'; [|discriminate]. apply IH in Em as (es' & S & B).
      eexists. split; [apply S_array; exact S|]. cbn. now rewrite B.
    - intros ss ts sp sp' _ IH ts' E. apply (toks_cons _ sp) in E as (s1 & b & -> & E). apply toks_split in E as (m & r & -> & Em & Er).
      apply (toks_cons _ sp' []) in Er as (s2 & r' & -> & Er). destruct r'; [|discriminate]. apply IH in Em as (ss' & S & B).
      eexists. split; [apply S_code; exact S|]. cbn. now rewrite B.
    - intros ts' E. destruct ts'; [|discriminate]. exists []. split; [constructor|reflexivity].
    - intros e ts _ IH ts' E. apply IH in E as (e' & S & B). exists [e']. split; [now constructor|]. cbn. now rewrite B.
    - intros e ts sp es ts' N _ IH1 _ IH2 u E. apply toks_split in E as (a' & r & -> & Ea & E). apply toks_cons in E as (sp' & b' & -> & Eb).
      apply IH1 in Ea as (ea & Sa & Ba). apply IH2 in Eb as (eb & Sb & Bb). exists (ea :: eb). split; [|cbn; now rewrite Ba, Bb].
      constructor; auto. intros ->. destruct es; [contradiction|discriminate].
    - intros x e sp sp' ts N P _ IH ts' E. apply (toks_cons _ sp) in E as (s1 & r & -> & E). apply (toks_cons _ sp') in E as (s2 & r' & -> & E).
      apply IH in E as (e' & S & B). eexists. split; [apply (A_global db ex' x e' s1 s2 r'); auto|]. cbn. now rewrite B.
    - intros p x e sp sp' sp'' ts N P _ IH ts' E. apply (toks_cons _ sp) in E as (s1 & r & -> & E). apply (toks_cons _ sp') in E as (s2 & r' & -> & E).
      apply (toks_cons _ sp'') in E as (s3 & r'' & -> & E). apply IH in E as (e' & S & B). eexists. split; [apply (A_local db ex' p x e' s1 s2 s3 r''); auto|]. cbn. now rewrite B.
    - intros e ts sp _ IH ts' E. apply IH in E as (e' & S & B). exists (SExpr e' (extent ts' sp)). split; [now apply A_expression|]. cbn. now rewrite B.
    - intros ts' E. destruct ts'; [|discriminate]. exists []. split; [constructor|reflexivity].
    - intros s ts _ IH ts' E. apply IH in E as (s' & S & B). exists [s']. split; [now constructor|]. cbn. now rewrite B.
    - intros s ts sp _ IH ts' E. apply toks_split in E as (a' & r & -> & Ea & E). apply (toks_cons _ sp []) in E as (sp' & b' & -> & Eb). destruct b'; [|discriminate].
      apply IH in Ea as (s' & S & B). exists [s']. split; [now constructor|]. cbn. now rewrite B.
    - intros s ts sp ss ts' N _ IH1 _ IH2 u E. apply toks_split in E as (a' & r & -> & Ea & E). apply toks_cons in E as (sp' & b' & -> & Eb).
      apply IH1 in Ea as (ea & Sa & Ba). apply IH2 in Eb as (eb & Sb & Bb). exists (ea :: eb). split; [|cbn; now rewrite Ba, Bb].
      constructor; auto. intros ->. destruct ss; [contradiction|discriminate].
  Qed.
End Respan.

(** ** Comments and empty statements *)
Definition strip (l : bool) (ts : list ltoken) : list ltoken := strip_noop_from l (strip_comments ts).
Definition is_comment (t : token) : bool := match t with TComment _ => true | _ => false end.
Definition state_after (l : bool) (t : token) : bool := if is_comment t then l else opens_noop t.
Definition kept (l : bool) (t : token) : bool := negb (is_comment t) && negb (is_terminator t && l).
Lemma strip_cons : forall l t ts, strip l (t :: ts) = (if kept l (fst t) then [t] else []) ++ strip (state_after l (fst t)) ts.
Proof.
  intros l [t sp] ts. unfold strip, strip_comments, kept, state_after. cbn [filter fst]. destruct t; cbn [is_comment negb andb app strip_noop_from fst is_terminator]; try reflexivity.
  destruct c; destruct l; reflexivity.
Qed.
Definition states (l : bool) (ts : list ltoken) : bool := fold_left state_after (toks ts) l.
Lemma strip_app : forall a l b, strip l (a ++ b) = strip l a ++ strip (states l a) b.
Proof.
  induction a as [|t a IH]; intros l b; [reflexivity|]. cbn [app]. rewrite !strip_cons, IH, app_assoc. reflexivity.
Qed.
Lemma strip_toks : forall ts ts' l, toks ts = toks ts' -> toks (strip l ts) = toks (strip l ts').
Proof.
  induction ts as [|t ts IH]; intros [|t' ts'] l H; try discriminate; [reflexivity|]. injection H as E H. rewrite !strip_cons, !toks_app, E.
  rewrite (IH ts') by auto. f_equal. destruct (kept l (fst t')); cbn; now rewrite ?E.
Qed.
(** What is kept stood in the text, with only dropped tokens between. *)
Lemma strip_find : forall R l A t D, strip l R = A ++ t :: D -> exists R1 R2, R = R1 ++ t :: R2 /\ strip l R1 = A /\
  kept (states l R1) (fst t) = true /\ strip (opens_noop (fst t)) R2 = D.
Proof.
  induction R as [|u R IH]; intros l A t D H; [destruct A; discriminate|]. rewrite strip_cons in H.
  destruct (kept l (fst u)) eqn:K.
  - destruct A as [|x A].
    + injection H as -> H. exists [], R. repeat split; auto. unfold state_after in H. unfold kept in K. apply andb_true_iff in K as [K _].
      apply negb_true_iff in K. now rewrite K in H.
    + injection H as <- H. apply IH in H as (R1 & R2 & -> & H1 & H2 & H3). exists (u :: R1), R2. repeat split; auto.
      rewrite strip_cons, K, H1. reflexivity.
  - apply IH in H as (R1 & R2 & -> & H1 & H2 & H3). exists (u :: R1), R2. repeat split; auto. rewrite strip_cons, K, H1. reflexivity.
Qed.
Lemma kept_any : forall l t, is_terminator t = false -> is_comment t = false -> kept l t = true.
Proof. intros l t H C. unfold kept. now rewrite H, C. Qed.
(** A part of what is kept comes from a part of the text that starts and ends with its ends. *)
Lemma strip_part : forall R l A B C t u sp su, strip l R = A ++ B ++ C -> (exists B', B = (t, sp) :: B') -> (exists B', B = B' ++ [(u, su)]) ->
  is_terminator t = false ->
  exists R1 RB R2, R = R1 ++ RB ++ R2 /\ (exists B', RB = (t, sp) :: B') /\ (exists B', RB = B' ++ [(u, su)]) /\ forall l, strip l RB = B.
Proof.
  intros R l A B C t u sp su H (B1 & ->) (B2 & E) T. cbn [app] in H. apply strip_find in H as (R1 & R2 & -> & _ & K & H).
  cbn [fst] in *. assert (Kc : is_comment t = false) by (unfold kept in K; destruct (is_comment t); [discriminate|reflexivity]).
  destruct B2 as [|x B2].
  - injection E as -> -> ->. exists R1, [(u, su)], R2. repeat split; [now exists []|now exists []|].
    intros l'. rewrite strip_cons. cbn [fst]. rewrite kept_any by auto. reflexivity.
  - injection E as <- ->. rewrite <- app_assoc in H. cbn [app] in H. apply strip_find in H as (R3 & R4 & -> & H1 & H2 & H3). cbn [fst] in *.
    exists R1, ((t, sp) :: R3 ++ [(u, su)]), R4. repeat split.
    + cbn. now rewrite <- app_assoc.
    + eauto.
    + now exists ((t, sp) :: R3).
    + intros l'. rewrite strip_cons. cbn [fst]. rewrite kept_any by auto. unfold state_after. rewrite Kc. cbn [app]. f_equal.
      rewrite strip_app, H1. f_equal. rewrite strip_cons. cbn [fst]. rewrite H2. reflexivity.
Qed.

(** ** No division touches a multiplication *)
Definition op_is (o : operator) (t : token) : bool := match t with TOp ODiv => match o with ODiv => true | _ => false end | TOp OMul => match o with OMul => true | _ => false end | _ => false end.
Fixpoint clash (ts : list token) : bool :=
  match ts with
  | a :: ((b :: _) as r) => (op_is ODiv a && op_is OMul b) || clash r
  | _ => false
  end.
Definition head_is (o : operator) (ts : list token) : bool := match ts with t :: _ => op_is o t | [] => false end.
Definition last_is (o : operator) (ts : list token) : bool := match rev ts with t :: _ => op_is o t | [] => false end.
Lemma last_is_cons : forall o a b r, last_is o (a :: b :: r) = last_is o (b :: r).
Proof. intros. unfold last_is. cbn [rev]. destruct (rev r ++ [b]) as [|x l] eqn:E; [now apply app_eq_nil in E as [_ E]|reflexivity]. Qed.
Lemma clash_app : forall a b, clash (a ++ b) = clash a || clash b || (last_is ODiv a && head_is OMul b).
Proof.
  induction a as [|x a IH]; intros b; [cbn; now rewrite orb_false_r|]. destruct a as [|y a].
  - cbn [app clash]. destruct b as [|z b]; [cbn; now rewrite andb_false_r|]. cbn [clash last_is rev app head_is]. cbn. apply orb_comm.
  - change (clash ((x :: y :: a) ++ b)) with (op_is ODiv x && op_is OMul y || clash ((y :: a) ++ b)).
    change (clash (x :: y :: a)) with (op_is ODiv x && op_is OMul y || clash (y :: a)). rewrite IH, last_is_cons. now rewrite !orb_assoc.
Qed.
Lemma clash_raw : forall ts l, clash (toks ts) = true -> clash (toks (strip l ts)) = true.
Proof.
  induction ts as [|[t sp] ts IH]; intros l H; [discriminate|]. destruct ts as [|[u su] ts]; [discriminate|].
  change (op_is ODiv t && op_is OMul u || clash (toks ((u, su) :: ts)) = true) in H. rewrite strip_cons, toks_app, clash_app. cbn [fst].
  apply orb_true_iff in H as [H|H].
  - apply andb_true_iff in H as [H1 H2]. assert (T : t = TOp ODiv) by (destruct t; try discriminate; destruct o; try discriminate; reflexivity).
    assert (U : u = TOp OMul) by (destruct u; try discriminate; destruct o; try discriminate; reflexivity). subst.
    rewrite strip_cons. cbn. apply orb_true_r.
  - rewrite IH by auto. now rewrite orb_true_r.
Qed.
Lemma head_app : forall o a b, a <> [] -> head_is o (a ++ b) = head_is o a.
Proof. intros o [|x a] b H; [contradiction|reflexivity]. Qed.
Lemma last_app : forall o a b, b <> [] -> last_is o (a ++ b) = last_is o b.
Proof. intros o a b H. unfold last_is. rewrite rev_app_distr. destruct (rev b) eqn:E; [|reflexivity]. apply (f_equal (@rev _)) in E. rewrite rev_involutive in E. contradiction. Qed.
Lemma last_one : forall o t, last_is o [t] = op_is o t.
Proof. reflexivity. Qed.
Section Clash.
  Context (db : database) (ex : span -> text).
  Definition sound_seq (ts : list ltoken) : Prop := clash (toks ts) = false /\ head_is OMul (toks ts) = false /\ last_is ODiv (toks ts) = false.
  Lemma seq_nil : sound_seq [].
  Proof. repeat split. Qed.
  Lemma seq_mid : forall a t sp b, sound_seq a -> sound_seq b -> (a = [] -> op_is OMul t = false) -> (b = [] -> op_is ODiv t = false) -> sound_seq (a ++ (t, sp) :: b).
  Proof.
    intros a t sp b (A1 & A2 & A3) (B1 & B2 & B3) H1 H2. unfold sound_seq. rewrite toks_app. cbn [toks map fst]. fold (toks b).
    change (t :: toks b) with ([t] ++ toks b). rewrite !clash_app, A1, A3, B1, B2. cbn [clash orb andb]. rewrite andb_false_r. repeat split.
    - destruct a as [|x a]; [cbn; now apply H1|]. rewrite head_app; auto. discriminate.
    - rewrite last_app by discriminate. destruct b as [|x b]; [now apply H2|]. rewrite last_app; auto. discriminate.
  Qed.
  Lemma seq_front : forall t sp b, sound_seq b -> op_is OMul t = false -> (b = [] -> op_is ODiv t = false) -> sound_seq ((t, sp) :: b).
  Proof. intros t sp b B H1 H2. apply (seq_mid [] t sp b); auto. apply seq_nil. Qed.
  Lemma spells_sound :
    (forall n e ts, spells db ex n e ts -> sound_seq ts) /\ (forall es ts, spells_list db ex es ts -> sound_seq ts) /\
    (forall s ts, spells_statement db ex s ts -> sound_seq ts) /\ (forall ss ts, spells_statements db ex ss ts -> sound_seq ts).
  Proof.
    assert (NE := spells_nonempty db ex).
    apply (spells_mutual db ex (fun n e ts _ => sound_seq ts) (fun es ts _ => sound_seq ts) (fun s ts _ => sound_seq ts) (fun ss ts _ => sound_seq ts)); auto using seq_nil.
    - intros n c a b o sp ta tb I Sa IHa Sb IHb. apply seq_mid; auto; intros ->; [now apply NE in Sa|now apply NE in Sb].
    - intros c e o sp ts P S IH. apply seq_front; auto; [|intros ->; now apply NE in S]. destruct o; try reflexivity. destruct o; try reflexivity; discriminate.
    - intros o sp e O. apply seq_front; [apply seq_nil| |intros _]; destruct O; reflexivity.
    - intros e ts sp sp' S IH. apply seq_front; auto. apply seq_mid; auto. apply seq_nil.
    - intros es ts sp sp' S IH. apply seq_front; auto. apply seq_mid; auto. apply seq_nil.
    - intros es ts sp sp' S IH. apply seq_front; auto. apply seq_mid; auto. apply seq_nil.
    - intros. apply seq_mid; auto.
    - intros x e sp sp' ts N P S IH. apply seq_front; auto. apply seq_front; auto.
    - intros p x e sp sp' sp'' ts N P S IH. repeat (apply seq_front; auto).
    - intros s ts sp S IH. apply seq_mid; auto. apply seq_nil.
    - intros. apply seq_mid; auto.
  Qed.
End Clash.

(** ** A part of a text reads as it did within the whole *)
(** A text that can follow any token but a line comment. *)
Definition follows (z : text) : Prop := match z with [] => True | c :: _ => In c [32; 41; 93; 44; 125] end.
Section Parts.
  Context (parse_f32 : text -> N) (f32_of : N -> N).
  Notation reads := (reads parse_f32 f32_of).
  Notation written := (written parse_f32 f32_of).
  Lemma follows_precedes : forall t z, is_comment t = false -> follows z -> may_precede t z.
  Proof.
    intros t z C F. refine (conj _ (conj (fun o E => _) (fun x E => _))).
    - intros _ c r ->. cbn in F. unfold constant_start, name_char, letter, digit. lia.
    - subst t. destruct z as [|c z]; [|cbn [follows] in F; cbn [In] in F]; repeat split.
      + intros o' r H. rewrite app_nil_r in H. rewrite H, app_length. lia.
      + intros r H. destruct o; discriminate H.
      + intros r H. destruct o; discriminate H.
      + intros o' r H. destruct o, o'; try (cbn; lia); exfalso; cbn in H; try discriminate H; injection H; intros; subst; lia.
      + intros r H. destruct o; cbn in H; try discriminate H. injection H; intros; subst; lia.
      + intros r H. destruct o; cbn in H; try discriminate H. injection H; intros; subst; lia.
    - subst t. discriminate C.
  Qed.
  Lemma app_prefix : forall (p r a b : text), a ++ b = p ++ r -> (length p <= length a)%nat -> exists r', a = p ++ r'.
  Proof.
    induction p as [|x p IH]; intros r a b H L; [now exists a|]. destruct a as [|y a]; [cbn in L; lia|]. injection H as -> H. cbn in L.
    apply IH in H as (r' & ->); [|lia]. now exists r'.
  Qed.
  Lemma written_star : forall t r, written t (42 :: r) -> t = TOp OMul.
  Proof.
    intros t r W. remember (42 :: r) as s eqn:E. destruct W; try discriminate E.
    - destruct o; try discriminate E. reflexivity.
    - destruct c; discriminate E.
    - destruct H as (c & x & -> & [[H|H]|H] & _); injection E as -> _; lia.
    - destruct w; discriminate E.
    - apply number_text_start in H as (c & x & -> & H). injection E as -> _. unfold digit in H. lia.
  Qed.
  Lemma reads_shift : forall w s ts pos, white w -> reads (pos + N.of_nat (length w)) s ts -> reads pos (w ++ s) ts.
  Proof.
    intros w s ts pos W H. inversion H as [p u U|p u t x rest ts0 U Wr P start stop R]; subst.
    - constructor. now apply Forall_app.
    - rewrite app_assoc. subst stop start. replace (pos + N.of_nat (length w) + N.of_nat (length u)) with (pos + N.of_nat (length (w ++ u))) in *
        by (rewrite app_length; lia).
      apply R_token; auto. now apply Forall_app.
  Qed.
  Lemma may_precede_swap : forall t t2 w s2 x b z, may_precede t (w ++ (s2 ++ x) ++ b) -> white w -> written t2 s2 ->
    op_is ODiv t && op_is OMul t2 = false -> may_precede t (w ++ (s2 ++ x) ++ z).
  Proof.
    intros t t2 w s2 x b z (Hk & Ho & Hc) W Wr NC. destruct (written_solid _ _ _ _ Wr) as (c & s & -> & Sol).
    refine (conj _ (conj (fun o E => _) (fun y E => _))).
    - intros K d r E. destruct w as [|w0 w]; injection E as <- _; eapply Hk; eauto; reflexivity.
    - destruct (Ho o E) as (M & NL & NB). assert (Len : (1 <= length (operator_text o))%nat) by (destruct o; cbn; lia).
      assert (Pre : forall p r, (length p <= 2)%nat -> operator_text o ++ w ++ ((c :: s) ++ x) ++ z = p ++ r -> exists r', operator_text o ++ w ++ ((c :: s) ++ x) ++ b = p ++ r').
      { intros p r L H. rewrite !app_assoc in H. rewrite <- app_assoc in H. rewrite (app_assoc _ _ z) in H. apply app_prefix in H as (r' & H).
        - exists (r' ++ b). rewrite (app_assoc p), <- H. now rewrite <- !app_assoc.
        - rewrite !app_length. cbn. lia. }
      refine (conj _ (conj _ _)).
      + intros o' r H. assert (L : (length (operator_text o') <= 2)%nat) by (destruct o'; cbn; lia). apply Pre in H as (r' & H); eauto.
      + intros r H. apply Pre in H as (r' & H); [|cbn; lia]. now apply NL in H.
      + intros r H. exfalso. subst t. destruct w as [|w0 w].
        * destruct o; cbn in H; try discriminate H. injection H as -> _. apply written_star in Wr as ->. discriminate NC.
        * destruct o; cbn in H; try discriminate H. injection H as -> _. inversion W as [|? ? Ww]. discriminate Ww.
    - specialize (Hc y E). right. destruct Hc as [Hc|[(r & Hc)|[(r & Hc) Hn]]].
      + destruct w; discriminate Hc.
      + destruct w as [|w0 [|w1 w]].
        * injection Hc as -> _. discriminate Sol.
        * injection Hc as -> -> _. discriminate Sol.
        * injection Hc as -> -> _. left. cbn. eauto.
      + right. split; auto. destruct w as [|w0 w]; injection Hc as -> _; cbn; eauto.
  Qed.

  Lemma last_any : forall A (l : list A) x a b, last (x :: l) a = last (x :: l) b.
  Proof. intros A. induction l as [|y l IH]; intros x a b; [reflexivity|]. exact (IH y a b). Qed.
  Lemma reads_part : forall RB R2 t pos s, reads pos s ((t :: RB) ++ R2) -> exists w m b, s = w ++ m ++ b /\ white w /\
    (exists s1 x, m = s1 ++ x /\ written (fst t) s1) /\
    fst (snd t) = pos + N.of_nat (length w) /\ snd (snd (last (t :: RB) t)) = pos + N.of_nat (length w) + N.of_nat (length m) /\
    (is_comment (fst (last (t :: RB) t)) = false -> clash (toks (t :: RB)) = false ->
     forall q z tz, follows z -> reads (q + N.of_nat (length m)) z tz -> exists ts, reads q (m ++ z) (ts ++ tz) /\ toks ts = toks (t :: RB)).
  Proof.
    induction RB as [|t2 RB IH]; intros R2 [t tsp] pos s H; cbn [app] in H; inversion H as [|p w t' s1 rest ts0 W Wr P start stop R]; subst; clear H.
    - exists w, s1, rest. repeat split; auto.
      + exists s1, []. rewrite app_nil_r. auto.
      + cbn [last fst]. intros C _ q z tz F Rz. exists [(t, (q, q + N.of_nat (length s1)))]. split; [|reflexivity].
        cbn [app]. assert (X := R_token parse_f32 f32_of q [] t s1 z tz ltac:(constructor) Wr (follows_precedes t z C F)). cbn zeta in X. cbn [length app] in X.
        rewrite N.add_0_r in X. now apply X.
    - apply (IH R2) in R as (w2 & m2 & b2 & -> & W2 & (s2 & x & -> & Wr2) & E1 & E2 & K).
      exists w, (s1 ++ w2 ++ s2 ++ x), b2. repeat split; auto.
      + now rewrite <- !app_assoc.
      + exists s1, (w2 ++ s2 ++ x). auto.
      + change (last ((t, (start, stop)) :: t2 :: RB) (t, (start, stop))) with (last (t2 :: RB) (t, (start, stop))).
        rewrite (last_any _ RB t2 _ t2), E2. subst stop start. rewrite !app_length. lia.
      + intros C NC q z tz F Rz.
        assert (L : last ((t, (start, stop)) :: t2 :: RB) (t, (start, stop)) = last (t2 :: RB) t2).
        { exact (last_any _ RB t2 _ t2). }
        rewrite L in C. change (op_is ODiv t && op_is OMul (fst t2) || clash (toks (t2 :: RB)) = false) in NC. apply orb_false_iff in NC as [NC1 NC2].
        destruct (K C NC2 (q + N.of_nat (length s1) + N.of_nat (length w2)) z tz F) as (ts & Rts & T).
        { replace (q + N.of_nat (length s1) + N.of_nat (length w2) + N.of_nat (length (s2 ++ x))) with (q + N.of_nat (length (s1 ++ w2 ++ s2 ++ x)))
            by (rewrite !app_length; lia). exact Rz. }
        apply reads_shift in Rts; auto. rewrite <- app_assoc in P.
        assert (P' := may_precede_swap t (fst t2) w2 s2 x b2 z ltac:(rewrite <- !app_assoc in *; exact P) W2 Wr2 NC1).
        assert (X := R_token parse_f32 f32_of q [] t s1 (w2 ++ (s2 ++ x) ++ z) (ts ++ tz) ltac:(constructor) Wr P'). cbn zeta in X. cbn [length app] in X.
        rewrite N.add_0_r in X. specialize (X Rts). eexists ((t, _) :: ts). cbn [app]. rewrite <- !app_assoc in *. split; [exact X|].
        cbn. unfold toks in T. now rewrite T.
  Qed.
End Parts.
