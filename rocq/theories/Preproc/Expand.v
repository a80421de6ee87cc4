(** The processor computes the expansions of Preproc/Spec.v. *)
From Coq Require Import String.
From Verif Require Import Base.Tactics Base.Bytes Base.Ascii Base.Text Preproc.Model Preproc.Fuel Preproc.Spec.
Local Open Scope N_scope.
Local Open Scope list_scope.

(** The processor's tables hold the names in force. *)
Definition agrees (e : env) (d : defines) : Prop :=
  (forall k, globals e k = find k (global d)) /\
  match inside e, frames d with
  | None, [] => True
  | Some (f, ps), (f', t) :: _ => f = f' /\ forall k, ps k = find k t
  | _, _ => False
  end.
(** [s'] is [s] with the counter at [c] and maybe more warnings. *)
Definition after (s : state) (c : N) (s' : state) : Prop :=
  exists ws, s' = St (ifs s) (Defs (global (defs s)) (frames (defs s)) c) (files s) (included s) (macros s) (warnings s ++ ws) (no_rapify s).

Lemma text_eqb_spec a b : reflect (a = b) (text_eqb a b).
Proof. unfold text_eqb. destruct (text_dec a b); constructor; auto. Qed.
Lemma text_eqb_refl a : text_eqb a a = true.
Proof. destruct (text_eqb_spec a a); congruence. Qed.
Lemma among_in k l : among k l = true <-> In k l.
Proof.
  unfold among. rewrite existsb_exists. split.
  - intros (x & Hx & E). destruct (text_eqb_spec k x); [subst; auto|discriminate].
  - intro H. exists k. split; auto using text_eqb_refl.
Qed.
Lemma among_gen k : among k builtin_gen = true <-> computed k.
Proof.
  rewrite among_in. unfold computed. cbn [builtin_gen In]. split; [intros [H|[H|[H|[H|[H|[H|[]]]]]]]; auto 10|].
  intros [H|[H|[H|[H|[H|H]]]]]; auto 10.
Qed.
Lemma among_directive k : among k directive_names = true <-> directive_name k.
Proof.
  rewrite among_in. unfold directive_name, directive_names. cbn [map In].
  split; [intros [H|[H|[H|[H|[H|[H|[H|[H|[H|[]]]]]]]]]]; auto 12|].
  intros [H|[H|[H|[H|[H|[H|[H|[H|H]]]]]]]]; auto 12.
Qed.
Lemma not_true {b : bool} {P : Prop} : (b = true <-> P) -> ~ P -> b = false.
Proof. intros H N. destruct b; auto. exfalso. apply N, H. auto. Qed.

Lemma lookup_readonly e d k : agrees e d -> get_readonly k d = lookup e k.
Proof.
  intros [G I]. unfold get_readonly, lookup. destruct (inside e) as [[f ps]|], (frames d) as [|[f' t] r]; try contradiction.
  - destruct I as [_ I]. rewrite I, G. reflexivity.
  - auto.
Qed.
Lemma visible_contains e d k : agrees e d -> (contains_key k d = true <-> visible e k).
Proof.
  intros A. pose proof (lookup_readonly e d k A) as L. destruct A as [G I]. unfold contains_key, visible.
  destruct (among k builtin_gen) eqn:E.
  - apply among_gen in E. tauto.
  - assert (~ computed k) as C by (intro X; apply among_gen in X; congruence).
    unfold get_readonly in L. unfold has. destruct (inside e) as [[f ps]|], (frames d) as [|[f' t] r]; try contradiction.
    + destruct I as [-> I]. destruct (text_eqb_spec f' k) as [->|].
      * split; [discriminate|]. intros [?|[_ ?]]; congruence.
      * rewrite <- L. destruct (find k t); [|destruct (find k (global d))]; split; try discriminate; auto.
        -- intros _. right. split; congruence.
        -- intros _. right. split; congruence.
        -- intros [?|[? _]]; congruence.
    + rewrite <- L. destruct (find k (global d)); split; try discriminate; auto.
      * intros _. right. split; congruence.
      * intros [?|[? _]]; congruence.
Qed.

Section Expand.
  Context (checked : bool) (locate : text -> text -> option (text * bool)) (parse : text -> run (list token))
          (project : option (option text * text)) (F : Type) (parse_f64 : text -> option F) (flt fle : F -> F -> bool).
  Notation G := (fns checked locate parse project F parse_f64 flt fle).
  Notation le := (fns_le checked locate parse project F parse_f64 flt fle).

  Lemma walk_up n m site im s p ts out q qp jw r : (n <= m)%nat ->
    c_walk (G n) site im s p ts out q qp jw = Ok r -> c_walk (G m) site im s p ts out q qp jw = Ok r.
  Proof. intros H E. exact (le_ok _ _ _ (le_walk _ _ (le n m H) _ _ _ _ _ _ _ _ _) E). Qed.
  Lemma use_up n m site s p ts out r : (n <= m)%nat ->
    c_define_use (G n) site s p ts out = Ok r -> c_define_use (G m) site s p ts out = Ok r.
  Proof. intros H E. exact (le_ok _ _ _ (le_define_use _ _ (le n m H) _ _ _ _ _) E). Qed.
  Lemma args_up n m site s p ts q d args arg r : (n <= m)%nat ->
    c_call_args (G n) site s p ts q d args arg = Ok r -> c_call_args (G m) site s p ts q d args arg = Ok r.
  Proof. intros H E. exact (le_ok _ _ _ (le_call_args _ _ (le n m H) _ _ _ _ _ _ _ _) E). Qed.
  Lemma file_up n m s p ts out r : (n <= m)%nat ->
    c_file (G n) s p ts out = Ok r -> c_file (G m) s p ts out = Ok r.
  Proof. intros H E. exact (le_ok _ _ _ (le_file _ _ (le n m H) _ _ _ _) E). Qed.
  Lemma directive_up n m s p ts out r : (n <= m)%nat ->
    c_directive (G n) s p ts out = Ok r -> c_directive (G m) s p ts out = Ok r.
  Proof. intros H E. exact (le_ok _ _ _ (le_directive _ _ (le n m H) _ _ _ _) E). Qed.

  (** One call deeper. *)
  Lemma walk_S n site im s p ts out q qp jw :
    c_walk (G (S n)) site im s p ts out q qp jw = walk (G n) site im s p ts out q qp jw.
  Proof. reflexivity. Qed.
  Lemma use_S n site s p ts out : c_define_use (G (S n)) site s p ts out = define_use checked project (G n) site s p ts out.
  Proof. reflexivity. Qed.
  Lemma args_S n site s p ts q d args arg :
    c_call_args (G (S n)) site s p ts q d args arg = call_args (G n) site s p ts q d args arg.
  Proof. reflexivity. Qed.

  Lemma after_reading s c s' : after s c s' -> is_reading s' = is_reading s.
  Proof. intros [ws ->]. reflexivity. Qed.
  Lemma after_agrees e s c s' : after s c s' -> agrees e (defs s) -> agrees e (defs s').
  Proof. intros [ws ->]. auto. Qed.
  Lemma after_counter s c s' : after s c s' -> counter (defs s') = c.
  Proof. intros [ws ->]. reflexivity. Qed.
  Lemma after_refl s : after s (counter (defs s)) s.
  Proof. exists []. rewrite app_nil_r. destruct s as [? [? ? ?] ? ? ? ? ?]; reflexivity. Qed.
  Lemma after_trans s c1 s1 c2 s2 : after s c1 s1 -> after s1 c2 s2 -> after s c2 s2.
  Proof. intros [w1 ->] [w2 ->]. exists (w1 ++ w2). cbn. now rewrite app_assoc. Qed.

  Lemma settle_app acc a b : settle acc (a ++ b) = settle (settle acc a) b.
  Proof.
    revert acc. induction a as [|x a IH]; intros acc; cbn [app settle]; [reflexivity|].
    destruct x, acc; auto. destruct (_ && _); auto.
  Qed.
  Lemma emit_settle s t out : is_reading s = true -> emit s t out = settle out (shown t).
  Proof.
    intro R. unfold emit, shown. rewrite R. destruct (is_comment (t_sym t)) eqn:C; cbn [negb andb settle]; auto.
    destruct out; auto.
  Qed.

  (** The meaning of a name, by [get_with_gen]. *)
  Lemma meaning_get e d site id c c' def from :
    agrees e d -> counter d = c -> meaning project e site id c c' (def, from) ->
    (match def with Func at_ _ _ => ~ on_lines at_ id | _ => True end) ->
    exists by_, get_with_gen checked project id site d = Ok (Defs (global d) (frames d) c', Some (by_, def, from)).
  Proof.
    intros A Hc M O. pose proof (lookup_readonly e d (tok_text id) A) as L. destruct d as [gl fr ct]. cbn [counter] in Hc. subst ct.
    unfold get_with_gen. remember (def, from) as x eqn:Hx.
    destruct M as [? K ?|? K|? K|? K|? K|? K|? by_ def' from' K E]; injection Hx as <- <-; try rewrite K.
    - cbn [text_eqb]. change (text_eqb (bs "__COUNTER__") (bs "__COUNTER__")) with true. cbn iota. cbn [counter global frames].
      replace (c =? 65535) with false by (symmetry; apply N.eqb_neq; lia). cbn [andb].
      rewrite N.mod_small by lia. eexists. reflexivity.
    - eexists. reflexivity.
    - eexists. reflexivity.
    - eexists. reflexivity.
    - eexists. reflexivity.
    - eexists. reflexivity.
    - unfold computed in K.
      repeat match goal with |- context [text_eqb ?a ?b] => destruct (text_eqb_spec a b) as [X|_]; [exfalso; tauto|] end.
      rewrite L, E. exists by_. cbn [global frames]. destruct def'; try reflexivity.
      replace (_ || _) with true; [reflexivity|]. symmetry. unfold on_lines in O.
      destruct (text_eqb_spec (p_path (t_pos id)) (p_path p)) as [X|]; cbn [negb orb]; auto.
      apply Bool.orb_true_iff. rewrite !N.ltb_lt. destruct (N.lt_ge_cases (lc_line (p_start (t_pos id))) (lc_line (p_start p))); auto.
      right. apply N.lt_nge. intro. apply O. auto.
  Qed.
  Lemma meaning_own e d site id c c' at_ ps body from :
    agrees e d -> counter d = c -> meaning project e site id c c' (Func at_ ps body, from) -> on_lines at_ id ->
    c' = c /\ get_with_gen checked project id site d = Ok (d, None).
  Proof.
    intros A Hc M O. pose proof (lookup_readonly e d (tok_text id) A) as L. destruct d as [gl fr ct]. cbn [counter] in Hc. subst ct.
    inversion M as [| | | | | |? by_ def' from' K E]; subst. split; auto.
    unfold get_with_gen, computed in *.
    repeat match goal with |- context [text_eqb ?a ?b] => destruct (text_eqb_spec a b) as [X|_]; [exfalso; tauto|] end.
    rewrite L, E. destruct O as [O1 [O2 O3]]. rewrite O1, text_eqb_refl. cbn [negb orb].
    replace (_ <? _) with false by (symmetry; apply N.ltb_ge; auto).
    replace (_ <? _) with false by (symmetry; apply N.ltb_ge; auto). reflexivity.
  Qed.

  (** The frame of a call holds the arguments. *)
  Lemma find_ins k k' e t : find k (ins k' e t) = if text_dec k k' then Some e else find k t.
  Proof.
    unfold ins. cbn [find]. destruct (text_dec k k'); auto.
    induction t as [|[k2 e2] t IH]; cbn [del find]; auto.
    destruct (text_dec k' k2) as [<-|]; [rewrite IH; destruct (text_dec k k'); congruence|].
    cbn [find]. rewrite IH. reflexivity.
  Qed.
  Lemma bind_args_table chk ps : forall vs s t k,
    find k (snd (bind_args chk ps vs s t)) = match arg_of k ps vs with Some m => Some m | None => find k t end.
  Proof.
    induction ps as [|a ps IH]; intros [|v vs] s t k; cbn [bind_args arg_of snd]; auto.
    rewrite IH. destruct (arg_of k ps vs); auto. rewrite find_ins. destruct (text_dec k (tok_text a)); auto.
  Qed.
  Lemma warn_padded_after t s : after s (counter (defs s)) (warn_padded t s).
  Proof.
    unfold warn_padded. destruct t; auto using after_refl. destruct (_ && _); auto using after_refl.
    exists [WPadded t]. destruct s as [? [? ? ?] ? ? ? ? ?]. reflexivity.
  Qed.
  Lemma bind_args_after chk ps : forall vs s t, after s (counter (defs s)) (fst (bind_args chk ps vs s t)).
  Proof.
    induction ps as [|a ps IH]; intros [|v vs] s t; cbn [bind_args fst]; auto using after_refl.
    set (s1 := if chk then _ else s).
    assert (after s (counter (defs s)) s1) as A.
    { subst s1. destruct chk; auto using after_refl.
      eapply after_trans; [apply warn_padded_after|]. rewrite <- (after_counter _ _ _ (warn_padded_after (hd_error v) s)) at 1.
      apply warn_padded_after. }
    eapply after_trans; [exact A|]. rewrite <- (after_counter _ _ _ A). apply IH.
  Qed.

  Definition okend (k : list token) : Prop := match k with [] => True | t :: _ => t_sym t = Newline end.

  Definition P_expand (e : env) site m c ts c' o : Prop :=
    forall s p, agrees e (defs s) -> counter (defs s) = c -> is_reading s = true ->
    exists s', after s c' s' /\
      forall k out r, okend k ->
        (forall jw, exists n, c_walk (G n) site m s' p k (settle out o) false None jw = Ok r) ->
        forall jw, exists n, c_walk (G n) site m s p (ts ++ k) out false None jw = Ok r.
  Definition raw (o : list output) : Prop := forall t, In (Direct t) o -> is_newline (t_sym t) = false.
  Lemma raw_settle o : raw o -> forall out, settle out o = rev o ++ out.
  Proof.
    induction o as [|x o IH]; intros H out; cbn [settle rev app]; auto.
    assert (settle (x :: out) o = (rev o ++ [x]) ++ out) as E by (rewrite IH, <- app_assoc; auto; intros t Ht; apply H; cbn; auto).
    destruct x as [t|]; auto. rewrite (H t) by (cbn; auto). destruct out; auto.
  Qed.
  Definition P_use (e : env) site c ts c' rest o : Prop :=
    raw o /\
    forall s p, agrees e (defs s) -> counter (defs s) = c -> is_reading s = true ->
    exists s', after s c' s' /\
      forall k out, exists n, c_define_use (G n) site s p (ts ++ k) out = Ok (s', p, rest ++ k, rev o ++ out).
  Definition P_args (e : env) site c depth ts c' rest l : Prop :=
    l <> [] /\
    forall s p, agrees e (defs s) -> counter (defs s) = c -> is_reading s = true ->
    exists s', after s c' s' /\
      forall k args arg, exists n, c_call_args (G n) site s p (ts ++ k) false depth args arg
        = Ok (s', p, rest ++ k, rev args ++ drop_empty (match l with a :: l => (rev arg ++ a) :: l | [] => [] end)).

  (** Copying tokens. *)
  Lemma walk_quoted site m s p : is_reading s = true -> forall l,
    (forall t, In t l -> t_sym t <> DQuote /\ t_sym t <> Eoi) -> forall k out r q2,
    t_sym q2 = DQuote ->
    (forall jw, exists n, c_walk (G n) site m s p k (settle (settle out (flat_map shown l)) [Direct q2]) false None jw = r) ->
    forall jw, exists n, c_walk (G n) site m s p (l ++ q2 :: k) out true None jw = r.
  Proof.
    intros R l. induction l as [|t l IH]; intros Hl k out r q2 E2 H jw.
    - destruct (H false) as [n Hn]. exists (S n). rewrite walk_S. unfold walk. cbn [app]. rewrite E2. cbn [negb].
      rewrite (emit_settle s q2 out R). unfold shown. rewrite E2. exact Hn.
    - destruct (Hl t (or_introl eq_refl)) as [H1 H2].
      assert (forall jw, exists n, c_walk (G n) site m s p (l ++ q2 :: k) (settle out (shown t)) true None jw = r) as H'.
      { apply IH; [intros; apply Hl; cbn; auto|auto|]. intros jw'. specialize (H jw'). cbn [flat_map] in H. rewrite settle_app in H. exact H. }
      assert (exists j, forall n, walk (G n) site m s p ((t :: l) ++ q2 :: k) out true None jw
                = c_walk (G n) site m s p (l ++ q2 :: k) (settle out (shown t)) true None j) as [j Hj].
      { cbn [app]. unfold walk. rewrite (emit_settle s t out R).
        destruct (t_sym t); try congruence; eexists; intros; reflexivity. }
      destruct (H' j) as [n Hn]. exists (S n). rewrite walk_S, Hj. exact Hn.
  Qed.

  Lemma refused_false w : ~ refused w -> text_eqb w (bs "__EXEC") = false /\ is_unsupported w = false.
  Proof.
    intro H. unfold refused in H. split.
    - destruct (text_eqb_spec w (bs "__EXEC")); auto. exfalso; tauto.
    - destruct (is_unsupported w); auto. exfalso; tauto.
  Qed.

  Lemma exec_all : forall e, (forall site m c ts c' o, expand project e site m c ts c' o -> P_expand e site m c ts c' o) /\
    (forall site c ts c' rest o, use project e site c ts c' rest o -> P_use e site c ts c' rest o) /\
    (forall site c depth ts c' rest l, arguments project e site c depth ts c' rest l -> P_args e site c depth ts c' rest l).
  Proof.
    apply (expand_ind3 project P_expand P_use P_args); unfold P_expand, P_use, P_args.
    - (* nil *)
      intros e site m c s p A C R. exists s. split; [subst c; apply after_refl|]. intros k out r K H jw. apply H.
    - (* plain *)
      intros e site m c t ts c' o T _ IH s p A C R. destruct (IH s p A C R) as (s' & Af & H). exists s'. split; [exact Af|].
      intros k out r K H1 jw.
      assert (exists j, forall n, walk (G n) site m s p ((t :: ts) ++ k) out false None jw
                = c_walk (G n) site m s p (ts ++ k) (settle out (shown t)) false None j) as [j Hj].
      { cbn [app]. unfold walk. rewrite (emit_settle s t out R). destruct (t_sym t); try contradiction; eexists; intros; reflexivity. }
      destruct (H k (settle out (shown t)) r K) with (jw := j) as [n Hn]; [intro; rewrite <- settle_app; auto|].
      exists (S n). rewrite walk_S, Hj. exact Hn.
    - (* newline *)
      intros e site m c t ts c' o T _ IH s p A C R. destruct (IH s p A C R) as (s' & Af & H). exists s'. split; [exact Af|].
      intros k out r K H1 jw.
      destruct (H k (settle out [Direct t]) r K) with (jw := true) as [n Hn]; [intro; rewrite <- settle_app; auto|].
      exists (S n). rewrite walk_S. cbn [app]. unfold walk. rewrite (emit_settle s t out R). unfold shown. rewrite T. exact Hn.
    - (* quoted *)
      intros e site m c q1 l q2 ts c' o T1 T2 Hl _ IH s p A C R. destruct (IH s p A C R) as (s' & Af & H). exists s'. split; [exact Af|].
      intros k out r K H1 jw.
      destruct (walk_quoted site m s p R l Hl (ts ++ k) (settle out [Direct q1]) (Ok r) q2 T2) with (jw := false) as [n Hn].
      { apply H; auto. intro jw'. rewrite <- !settle_app. exact (H1 jw'). }
      exists (S n). rewrite walk_S. cbn [app]. rewrite <- app_assoc. cbn [app]. unfold walk. rewrite T1, (emit_settle s q1 out R).
      unfold shown. rewrite T1. exact Hn.
    - (* word *)
      intros e site m c t w ts c' o T Rf V _ IH s p A C R. destruct (IH s p A C R) as (s' & Af & H). exists s'. split; [exact Af|].
      intros k out r K H1 jw.
      destruct (H k (settle out [Direct t]) r K) with (jw := false) as [n Hn]; [intro; rewrite <- settle_app; auto|].
      exists (S n). rewrite walk_S. cbn [app]. unfold walk. rewrite T. destruct (refused_false w Rf) as [-> ->].
      replace (negb _ && contains_key w (defs s)) with false.
      + rewrite (emit_settle s t out R). unfold shown. rewrite T. exact Hn.
      + symmetry. destruct V as [V| ->].
        * rewrite (not_true (visible_contains e (defs s) w A) V). apply Bool.andb_false_r.
        * rewrite text_eqb_refl. reflexivity.
    - (* use *)
      intros e site m c t w ts c1 rest o1 c' o T Rf V Nm _ [Rw IU] _ IH s p A C R.
      destruct (IU s p A C R) as (s1 & Af1 & U).
      destruct (IH s1 p (after_agrees _ _ _ _ Af1 A) (after_counter _ _ _ Af1)) as (s2 & Af2 & H);
        [rewrite (after_reading _ _ _ Af1); exact R|].
      exists s2. split; [eauto using after_trans|]. intros k out r K H1 jw.
      destruct (U k out) as [n1 Hn1].
      destruct (H k (settle out o1) r K) with (jw := false) as [n2 Hn2]; [intro; rewrite <- settle_app; auto|].
      exists (S (n1 + n2)). rewrite walk_S. cbn [app] in *. unfold walk. rewrite T. destruct (refused_false w Rf) as [-> ->].
      rewrite (proj2 (visible_contains e (defs s) w A) V).
      replace (match m with Some m => _ | None => _ end) with false
        by (destruct m as [m|]; auto; destruct (text_eqb_spec w m); congruence).
      cbn [negb andb]. rewrite (use_up n1 (n1 + n2) _ _ _ _ _ _ ltac:(lia) Hn1). cbn [rbind].
      rewrite <- (raw_settle o1 Rw out). eapply walk_up; [|exact Hn2]. lia.
    - (* hash *)
      intros e site m c t ts c' o T N _ IH s p A C R. destruct (IH s p A C R) as (s' & Af & H). exists s'. split; [exact Af|].
      intros k out r K H1 jw.
      destruct (H k (settle out [Direct t]) r K) with (jw := jw) as [n Hn]; [intro; rewrite <- settle_app; auto|].
      exists (S n). rewrite walk_S. cbn [app]. unfold walk. rewrite T, (emit_settle s t out R). unfold shown. rewrite T. cbn [is_comment].
      destruct (ts ++ k) as [|x xs] eqn:E.
      + rewrite Bool.andb_false_r. destruct m; exact Hn.
      + assert (among (tok_text x) directive_names = false /\ (m = None \/ (is_word (t_sym x) && contains_key (tok_text x) (defs s)) = false)) as [-> V].
        { destruct ts as [|x' ts'].
          - cbn [app] in E. subst k. cbn [okend] in K. unfold tok_text. rewrite K. split; auto.
          - injection E as -> _. destruct N as [N1 N2]. split; [apply (not_true (among_directive _) N1)|].
            destruct N2 as [->|N2]; auto. right. unfold tok_text. destruct (t_sym x) eqn:Ex; cbn [is_word andb]; auto.
            apply (not_true (visible_contains e (defs s) _ A)). apply N2. reflexivity. }
        rewrite Bool.andb_false_r. destruct V as [->| ->]; [exact Hn|]. destruct m; exact Hn.
    - (* stringify *)
      intros e site m c t x w ts c1 rest o1 c' o Th Tx Nd Rf V Nm Pl _ [Rw IU] _ IH s p A C R.
      destruct (IU s p A C R) as (s1 & Af1 & U).
      destruct (IH s1 p (after_agrees _ _ _ _ Af1 A) (after_counter _ _ _ Af1)) as (s2 & Af2 & H);
        [rewrite (after_reading _ _ _ Af1); exact R|].
      exists s2. split; [eauto using after_trans|]. intros k out r K H1 jw.
      set (dq := Tok DQuote (t_pos t)).
      assert (forall o, emit s dq o = settle o [Direct dq]) as Eq by (intro; apply emit_settle; exact R).
      assert (forall o, emit s1 dq o = settle o [Direct dq]) as Eq1
        by (intro; apply emit_settle; rewrite (after_reading _ _ _ Af1); exact R).
      destruct (U k (settle out [Direct dq])) as [n1 Hn1].
      destruct (H k (settle (settle (settle out [Direct dq]) o1) [Direct dq]) r K) with (jw := false) as [n2 Hn2];
        [intro; rewrite <- !settle_app; exact (H1 jw0)|].
      exists (S (S (n1 + n2))). rewrite walk_S. cbn [app] in *. unfold walk at 1. rewrite Th.
      unfold tok_text. rewrite Tx. cbn [sym_text is_word]. rewrite (not_true (among_directive w) Nd), Bool.andb_false_r.
      rewrite (proj2 (visible_contains e (defs s) w A) V). cbn [andb].
      replace (negb _ || _) with true.
      2:{ symmetry. apply Bool.orb_true_iff. rewrite N.ltb_lt. destruct Pl as [Pl|Pl]; auto. left.
          destruct (text_eqb_spec (p_path (t_pos t)) (p_path site)); auto; congruence. }
      fold dq. rewrite Eq, walk_S. unfold walk. rewrite Tx. destruct (refused_false w Rf) as [-> ->].
      rewrite (proj2 (visible_contains e (defs s) w A) V).
      replace (text_eqb w m) with false by (destruct (text_eqb_spec w m); congruence).
      cbn [negb andb]. rewrite (use_up n1 (n1 + n2) _ _ _ _ _ _ ltac:(lia) Hn1). cbn [rbind]. fold dq.
      rewrite <- (raw_settle o1 Rw), Eq1. eapply walk_up; [|exact Hn2]. lia.
    - (* argument *)
      intros e site c id c1 v rest w T M. split; [intros t [X|[]]; discriminate|]. intros s p A C R.
      destruct (meaning_get e (defs s) site id c c1 _ _ A C M I) as [by_ E].
      exists (with_defs (Defs (global (defs s)) (frames (defs s)) c1) s).
      split; [exists []; rewrite app_nil_r; reflexivity|]. intros k out. exists 1%nat. rewrite use_S. cbn [app]. unfold define_use, current_word.
      rewrite T. cbn [is_word rbind]. rewrite E. reflexivity.
    - (* value *)
      intros e site c id c1 body from rest c2 o w T M Fr _ IH. split; [intros t [X|[]]; discriminate|]. intros s p A C R.
      destruct (meaning_get e (defs s) site id c c1 _ _ A C M I) as [by_ E].
      set (s1 := with_defs (Defs (global (defs s)) (frames (defs s)) c1) s) in *.
      destruct (IH s1 p A eq_refl R) as (s2 & Af & H). exists s2. split.
      { eapply after_trans; [|exact Af]. exists []. rewrite app_nil_r. reflexivity. }
      intros k out.
      destruct (H [] [] (s2, p, [], settle [] o) I) with (jw := true) as [n Hn]; [intro; exists 1%nat; reflexivity|].
      rewrite app_nil_r in Hn. exists (S n). rewrite use_S. cbn [app]. unfold define_use, current_word.
      rewrite T. cbn [is_word rbind]. rewrite E. cbn [rbind]. fold s1. unfold tok_text. rewrite T. cbn [sym_text].
      destruct from; try congruence; rewrite Hn; reflexivity.
    - (* nothing *)
      intros e site c id c1 from rest w T M. split; [intros t []|]. intros s p A C R.
      destruct (meaning_get e (defs s) site id c c1 _ _ A C M I) as [by_ E].
      exists (with_defs (Defs (global (defs s)) (frames (defs s)) c1) s).
      split; [exists []; rewrite app_nil_r; reflexivity|]. intros k out. exists 1%nat. rewrite use_S. cbn [app]. unfold define_use, current_word.
      rewrite T. cbn [is_word rbind]. rewrite E. reflexivity.
    - (* own body *)
      intros e site c id c1 at_ ps body from rest w T M O. split.
      { intros t [X|[]]. injection X as <-. rewrite T. reflexivity. }
      intros s p A C R. destruct (meaning_own e (defs s) site id c c1 _ _ _ _ A C M O) as [-> E].
      exists s. split; [subst c; apply after_refl|]. intros k out. exists 1%nat. rewrite use_S. cbn [app]. unfold define_use, current_word.
      rewrite T. cbn [is_word rbind]. rewrite E. cbn [rbind]. destruct s; reflexivity.
    - (* call *)
      intros e site c id c1 at_ ps body from lp ts c2 rest l c3 o w T M O Tl _ [Hl IA] Len _ IH.
      split; [intros t [X|[]]; discriminate|]. intros s p A C R.
      destruct (meaning_get e (defs s) site id c c1 _ _ A C M O) as [by_ E].
      set (s1 := with_defs (Defs (global (defs s)) (frames (defs s)) c1) s) in *.
      destruct (IA s1 p A eq_refl R) as (s2 & Af2 & H2).
      set (args := drop_empty l) in *.
      destruct (bind_args (pad_checked p w) ps args s2 []) as [s3 tbl] eqn:B.
      assert (after s2 c2 s3) as Af3.
      { pose proof (bind_args_after (pad_checked p w) ps args s2 []) as X. rewrite B, (after_counter _ _ _ Af2) in X. exact X. }
      assert (forall k, arg_of k ps args = find k tbl) as Tb.
      { intro k. pose proof (bind_args_table (pad_checked p w) ps args s2 [] k) as X. rewrite B in X. cbn [snd find] in X.
        rewrite X. destruct (arg_of k ps args); auto. }
      set (s4 := with_defs (d_push w tbl (defs s3)) s3) in *.
      assert (after s1 c2 s3) as Af13 by eauto using after_trans.
      destruct (IH s4 p) as (s5 & Af5 & H5).
      { destruct Af13 as [ws X]. subst s4. rewrite X. split; cbn; [apply A|]. split; auto. }
      { subst s4. cbn. apply (after_counter _ _ _ Af13). }
      { subst s4. change (is_reading s3 = true). rewrite (after_reading _ _ _ Af13). exact R. }
      exists (with_defs (d_pop (defs s5)) s5). split.
      { destruct Af13 as [w1 X1], Af5 as [w2 X2]. exists (w1 ++ w2). rewrite X2. subst s4. rewrite X1. cbn.
        rewrite app_assoc. reflexivity. }
      intros k out.
      destruct (H2 k [] []) as [n2 Hn2].
      destruct (H5 [] [] (s5, p, [], settle [] o) I) with (jw := true) as [n5 Hn5]; [intro; exists 1%nat; reflexivity|].
      rewrite app_nil_r in Hn5. exists (S (n2 + n5)). rewrite use_S. cbn [app]. unfold define_use, current_word.
      rewrite T. cbn [is_word rbind]. rewrite E. cbn [rbind]. fold s1. unfold tok_text. rewrite T, Tl. cbn [sym_text is_lparen].
      rewrite (args_up n2 (n2 + n5) _ _ _ _ _ _ _ _ _ ltac:(lia) Hn2). cbn [rbind rev app].
      replace (match l with a :: l0 => a :: l0 | [] => [] end) with l by (destruct l; reflexivity). fold args.
      rewrite Len, Nat.eqb_refl. cbn [negb]. rewrite B. fold s4.
      rewrite (walk_up n5 (n2 + n5) _ _ _ _ _ _ _ _ _ _ ltac:(lia) Hn5). reflexivity.
    - (* close *)
      intros e site c t ts T. split; [discriminate|]. intros s p A C R. exists s. split; [subst c; apply after_refl|].
      intros k args arg. exists 1%nat. rewrite args_S. cbn [app]. unfold call_args. rewrite T. cbn [N.eqb].
      f_equal. f_equal. rewrite app_nil_r. destruct arg as [|x arg]; cbn [drop_empty rev last].
      + rewrite app_nil_r. reflexivity.
      + unfold drop_empty. cbn [last removelast]. destruct (rev arg ++ [x]) eqn:X; [destruct (rev arg); discriminate|]. reflexivity.
    - (* comma *)
      intros e site c depth t ts c' rest l T _ [Hl IH]. split; [discriminate|]. intros s p A C R.
      destruct (IH s p A C R) as (s' & Af & H). exists s'. split; [exact Af|]. intros k args arg.
      destruct (H k (rev arg :: args) []) as [n Hn]. exists (S n). rewrite args_S. cbn [app]. unfold call_args. rewrite T, Hn.
      f_equal. f_equal. destruct l as [|a l]; [congruence|]. cbn [rev app]. rewrite app_nil_r, <- app_assoc. f_equal.
      unfold drop_empty. change (last (rev arg :: a :: l) []) with (last (a :: l) []). destruct (last (a :: l) []); reflexivity.
    - (* open *)
      intros e site c depth t ts c' rest a l T _ [Hl IH]. split; [discriminate|]. intros s p A C R.
      destruct (IH s p A C R) as (s' & Af & H). exists s'. split; [exact Af|]. intros k args arg.
      destruct (H k args (t :: arg)) as [n Hn]. exists (S n). rewrite args_S. cbn [app]. unfold call_args. rewrite T, Hn.
      cbn [rev]. rewrite <- app_assoc. reflexivity.
    - (* shut *)
      intros e site c depth t ts c' rest a l T _ [Hl IH]. split; [discriminate|]. intros s p A C R.
      destruct (IH s p A C R) as (s' & Af & H). exists s'. split; [exact Af|]. intros k args arg.
      destruct (H k args (t :: arg)) as [n Hn]. exists (S n). rewrite args_S. cbn [app]. unfold call_args. rewrite T.
      replace (depth + 1 =? 0) with false by (symmetry; apply N.eqb_neq; lia). replace (depth + 1 - 1) with depth by lia.
      rewrite Hn. cbn [rev]. rewrite <- app_assoc. reflexivity.
    - (* quoted argument *)
      intros e site c depth q1 v q2 ts c' rest a l T1 T2 Hv _ [Hl IH]. split; [discriminate|]. intros s p A C R.
      destruct (IH s p A C R) as (s' & Af & H). exists s'. split; [exact Af|]. intros k args arg.
      assert (forall v, (forall t, In t v -> t_sym t <> DQuote) -> forall arg, exists n,
        c_call_args (G n) site s p (v ++ q2 :: ts ++ k) true depth args arg
        = Ok (s', p, rest ++ k, rev args ++ drop_empty ((rev arg ++ v ++ q2 :: a) :: l))) as Q.
      { clear v Hv. induction v as [|t v IHv]; intros Hv arg'.
        - destruct (H k args (q2 :: arg')) as [n Hn]. exists (S n). rewrite args_S. cbn [app]. unfold call_args. rewrite T2, Hn.
          cbn [rev]. rewrite <- app_assoc. reflexivity.
        - destruct (IHv (fun t Ht => Hv t (or_intror Ht)) (t :: arg')) as [n Hn]. exists (S n). rewrite args_S. cbn [app]. unfold call_args.
          pose proof (Hv t (or_introl eq_refl)) as Nt. cbn [rev] in Hn. rewrite <- app_assoc in Hn. cbn [app] in Hn.
          destruct (t_sym t); try congruence; exact Hn. }
      destruct (Q v Hv (q1 :: arg)) as [n Hn]. exists (S n). rewrite args_S. cbn [app]. rewrite <- app_assoc. cbn [app].
      unfold call_args. rewrite T1, Hn. cbn [rev]. rewrite <- app_assoc. reflexivity.
    - (* plain *)
      intros e site c depth t ts c' rest a l T _ [Hl IH]. split; [discriminate|]. intros s p A C R.
      destruct (IH s p A C R) as (s' & Af & H). exists s'. split; [exact Af|]. intros k args arg.
      destruct (H k args (t :: arg)) as [n Hn]. exists (S n). rewrite args_S. cbn [app]. unfold call_args.
      cbn [rev] in Hn. rewrite <- app_assoc in Hn. cbn [app] in Hn.
      destruct (t_sym t); try contradiction; try exact Hn.
      rewrite (not_true (visible_contains e (defs s) w A) T). exact Hn.
    - (* use in an argument *)
      intros e site c depth t w ts c1 r1 o c' rest a l T V _ [Rw IU] _ [Hl IH]. split; [discriminate|]. intros s p A C R.
      destruct (IU s p A C R) as (s1 & Af1 & U).
      destruct (IH s1 p (after_agrees _ _ _ _ Af1 A) (after_counter _ _ _ Af1)) as (s2 & Af2 & H);
        [rewrite (after_reading _ _ _ Af1); exact R|].
      exists s2. split; [eauto using after_trans|]. intros k args arg.
      destruct (U k []) as [n1 Hn1]. rewrite app_nil_r in Hn1.
      destruct (H k args (rev (flat_map out_toks o) ++ arg)) as [n2 Hn2].
      exists (S (n1 + n2)). rewrite args_S. cbn [app] in *. unfold call_args. rewrite T.
      rewrite (proj2 (visible_contains e (defs s) w A) V), (use_up n1 (n1 + n2) _ _ _ _ _ _ ltac:(lia) Hn1). cbn [rbind].
      rewrite rev_involutive, (args_up n2 (n1 + n2) _ _ _ _ _ _ _ _ _ ltac:(lia) Hn2).
      rewrite rev_app_distr, rev_involutive, <- app_assoc. reflexivity.
  Qed.
  Lemma exec_expand : forall e site m c ts c' o, expand project e site m c ts c' o -> P_expand e site m c ts c' o.
  Proof. intro e. apply (exec_all e). Qed.
  Lemma exec_use : forall e site c ts c' rest o, use project e site c ts c' rest o -> P_use e site c ts c' rest o.
  Proof. intro e. apply (exec_all e). Qed.
  Lemma exec_args : forall e site c depth ts c' rest l, arguments project e site c depth ts c' rest l -> P_args e site c depth ts c' rest l.
  Proof. intro e. apply (exec_all e). Qed.
End Expand.
