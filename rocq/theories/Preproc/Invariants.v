(** What every run of the processor keeps, whatever the input. *)
From Coq Require Import String.
From Verif Require Import Base.Tactics Base.Bytes Base.Ascii Base.Text Preproc.Model Preproc.Expand.
Local Open Scope N_scope.
Local Open Scope list_scope.

(** [s'] and [p'] may follow [s] and [p]: the files being read are the same, what was recorded is still recorded, macros
    outside the innermost call are untouched, and a pragma that is not for one line stays. *)
Definition frames_kept (d d' : defines) : Prop :=
  map fst (frames d') = map fst (frames d) /\ tl (frames d') = tl (frames d) /\ (frames d <> [] -> global d' = global d).
Definition wider (m m' : smap) : Prop :=
  forall k sc, sget k m = Some sc -> sc <> SLine -> exists sc', sget k m' = Some sc' /\ scope_n sc <= scope_n sc'.
Definition kept (m m' : smap) : Prop := forall k sc, sget k m = Some sc -> exists sc', sget k m' = Some sc' /\ scope_n sc <= scope_n sc'.
Definition grows {A} (l l' : list A) : Prop := exists x, l' = l ++ x.
(** No name has two scopes. *)
Definition distinct (p : pragma) : Prop := NoDup (map fst (suppress p)) /\ NoDup (map fst (flags p)).
Record follows (s : state) (p : pragma) (s' : state) (p' : pragma) : Prop := {
  f_files : files s' = files s;
  f_included : grows (included s) (included s');
  f_macros : grows (macros s) (macros s');
  f_warnings : grows (warnings s) (warnings s');
  f_frames : frames_kept (defs s) (defs s');
  f_root : pr_root p' = pr_root p;
  f_suppress : wider (suppress p) (suppress p');
  f_flags : kept (flags p) (flags p');
  f_distinct : distinct p -> distinct p' }.

Lemma grows_refl {A} (l : list A) : grows l l.
Proof. exists []. now rewrite app_nil_r. Qed.
Lemma grows_trans {A} (a b c : list A) : grows a b -> grows b c -> grows a c.
Proof. intros [x ->] [y ->]. exists (x ++ y). now rewrite app_assoc. Qed.
Lemma grows_one {A} (l : list A) x : grows l (l ++ [x]).
Proof. now exists [x]. Qed.
Lemma kept_refl m : kept m m.
Proof. intros k sc H. exists sc. split; auto. lia. Qed.
Lemma kept_trans a b c : kept a b -> kept b c -> kept a c.
Proof. intros H1 H2 k sc H. destruct (H1 k sc H) as (s1 & E1 & L1). destruct (H2 k s1 E1) as (s2 & E2 & L2). exists s2. split; auto. lia. Qed.
Lemma wider_refl m : wider m m.
Proof. intros k sc H _. exists sc. split; auto. lia. Qed.
Lemma scope_line sc : sc <> SLine <-> 0 < scope_n sc.
Proof. destruct sc; cbn; split; try congruence; intros; try lia; congruence. Qed.
Lemma wider_trans a b c : wider a b -> wider b c -> wider a c.
Proof.
  intros H1 H2 k sc H N. destruct (H1 k sc H N) as (s1 & E1 & L1).
  destruct (H2 k s1 E1) as (s2 & E2 & L2); [apply scope_line; apply scope_line in N; lia|]. exists s2. split; auto. lia.
Qed.
Lemma frames_refl d : frames_kept d d.
Proof. repeat split; auto. Qed.
Lemma frames_nonempty d d' : frames_kept d d' -> frames d <> [] -> frames d' <> [].
Proof. intros (E & _) H X. rewrite X in E. destruct (frames d); [congruence|discriminate]. Qed.
Lemma frames_trans a b c : frames_kept a b -> frames_kept b c -> frames_kept a c.
Proof.
  intros H1 H2. pose proof (frames_nonempty _ _ H1) as N. destruct H1 as (A1 & B1 & C1), H2 as (A2 & B2 & C2).
  repeat split; try congruence. intro X. rewrite C2, C1; auto.
Qed.
Lemma follows_refl s p : follows s p s p.
Proof. constructor; auto using grows_refl, frames_refl, wider_refl, kept_refl. Qed.
Lemma follows_trans s1 p1 s2 p2 s3 p3 : follows s1 p1 s2 p2 -> follows s2 p2 s3 p3 -> follows s1 p1 s3 p3.
Proof.
  intros H1 H2. constructor.
  - rewrite (f_files _ _ _ _ H2). apply H1.
  - eapply grows_trans; [apply H1|apply H2].
  - eapply grows_trans; [apply H1|apply H2].
  - eapply grows_trans; [apply H1|apply H2].
  - eapply frames_trans; [apply H1|apply H2].
  - rewrite (f_root _ _ _ _ H2). apply H1.
  - eapply wider_trans; [apply H1|apply H2].
  - eapply kept_trans; [apply H1|apply H2].
  - intro D. apply H2, H1, D.
Qed.

Definition okP {A} (r : run A) (Q : A -> Prop) : Prop := forall a, r = Ok a -> Q a.
Lemma okP_bind {A B} (r : run A) (k : A -> run B) P Q : okP r P -> (forall a, P a -> okP (k a) Q) -> okP (rbind r k) Q.
Proof. intros H1 H2 b E. destruct r; try discriminate. cbn in E. eapply H2; [apply H1; reflexivity|exact E]. Qed.
Lemma okP_any {A} (r : run A) : okP r (fun _ => True).
Proof. intros a _. exact I. Qed.
Lemma okP_ok {A} (a : A) (Q : A -> Prop) : Q a -> okP (Ok a) Q.
Proof. intros H b E. injection E as <-. exact H. Qed.
Lemma okP_err {A} c (Q : A -> Prop) : okP (Err c) Q. Proof. intros ? E. discriminate. Qed.
Lemma okP_panic {A} (Q : A -> Prop) : okP Panic Q. Proof. intros ? E. discriminate. Qed.
Lemma okP_nofuel {A} (Q : A -> Prop) : okP NoFuel Q. Proof. intros ? E. discriminate. Qed.

Ltac fin :=
  lazymatch goal with
  | |- okP (Err _) _ => apply okP_err
  | |- okP Panic _ => apply okP_panic
  | |- okP NoFuel _ => apply okP_nofuel
  | |- okP (Ok _) _ => apply okP_ok
  end.
(** Changes that matter not. *)
Lemma follows_ifs i s p : follows s p (with_ifs i s) p.
Proof. constructor; auto using grows_refl, frames_refl, wider_refl, kept_refl. Qed.
Lemma follows_warning w s p : follows s p (add_warning w s) p.
Proof. constructor; cbn; auto using grows_refl, frames_refl, wider_refl, kept_refl, grows_one. Qed.
Lemma follows_macro m s p : follows s p (add_macro m s) p.
Proof. constructor; cbn; auto using grows_refl, frames_refl, wider_refl, kept_refl, grows_one. Qed.
Lemma follows_rapify s p : follows s p (set_no_rapify s) p.
Proof. constructor; auto using grows_refl, frames_refl, wider_refl, kept_refl. Qed.
Lemma follows_defs d s p : frames_kept (defs s) d -> follows s p (with_defs d s) p.
Proof. intro. constructor; auto using grows_refl, frames_refl, wider_refl, kept_refl. Qed.
Lemma frames_insert k e d : frames_kept d (d_insert k e d).
Proof.
  unfold d_insert. destruct (frames d) as [|[n t] r] eqn:E; unfold frames_kept; cbn [frames global]; rewrite E; repeat split; auto; congruence.
Qed.
Lemma frames_remove k d : frames_kept d (snd (d_remove k d)).
Proof.
  unfold d_remove. destruct (frames d) as [|[n t] r] eqn:E; unfold frames_kept; cbn [frames global snd]; rewrite E; repeat split; auto; congruence.
Qed.
Lemma frames_counter d c : frames_kept d (Defs (global d) (frames d) c).
Proof. repeat split; auto. Qed.
  Lemma sget_cons k k' sc m : sget k ((k', sc) :: m) = if text_dec k k' then Some sc else sget k m.
  Proof. reflexivity. Qed.
  Lemma sget_others k k' m : k <> k' -> sget k (filter (fun e => negb (text_eqb k' (fst e))) m) = sget k m.
  Proof.
    intro N. induction m as [|[k2 s2] m IH]; auto. cbn [filter fst]. destruct (text_eqb_spec k' k2) as [<-|]; cbn [negb sget].
    - rewrite IH. destruct (text_dec k k'); congruence.
    - rewrite IH. reflexivity.
  Qed.
  Lemma sset_kept k sc m : kept m (sset k sc m).
  Proof.
    intros k' sc' H. unfold sset. destruct (sget k m) as [s0|] eqn:E.
    - destruct (N.ltb_spec (scope_n sc) (scope_n s0)); [exists sc'; split; auto; lia|].
      rewrite sget_cons. destruct (text_dec k' k) as [->|N].
      + exists sc. split; auto. rewrite E in H. injection H as ->. exact H0.
      + rewrite sget_others by auto. exists sc'. split; auto. lia.
    - rewrite sget_cons. destruct (text_dec k' k) as [->|N]; [congruence|]. exists sc'. split; auto. lia.
  Qed.
  Lemma nodup_filter {A B} (f : A -> B) (g : A -> bool) l : NoDup (map f l) -> NoDup (map f (filter g l)).
  Proof.
    induction l as [|x l IH]; cbn [map filter]; auto. intro H. inversion H as [|? ? Nx Hl]; subst. destruct (g x); auto. cbn [map].
    constructor; auto. intro X. apply Nx. apply in_map_iff in X. destruct X as (y & <- & Hy). apply filter_In in Hy. apply in_map. tauto.
  Qed.
  Lemma sget_none k m : sget k m = None <-> ~ In k (map fst m).
  Proof.
    induction m as [|[k' s'] m IH]; cbn [sget map fst In]; [tauto|]. destruct (text_dec k k') as [->|N].
    - split; [discriminate|tauto].
    - rewrite IH. intuition congruence.
  Qed.
  Lemma sset_distinct k sc m : NoDup (map fst m) -> NoDup (map fst (sset k sc m)).
  Proof.
    intro H. unfold sset. destruct (sget k m) as [s0|] eqn:E.
    - destruct (_ <? _); auto. cbn [map fst]. constructor; [|now apply nodup_filter].
      intro X. apply in_map_iff in X. destruct X as ([k' s'] & <- & Hy). apply filter_In in Hy. destruct Hy as [_ Hy]. cbn [fst] in Hy.
      rewrite text_eqb_refl in Hy. discriminate.
    - cbn [map fst]. constructor; auto. now apply sget_none.
  Qed.
  Lemma kept_wider m m' : kept m m' -> wider m m'.
  Proof. intros H k sc E _. apply (H k sc E). Qed.
  Lemma sget_not_line k sc m : sget k m = Some sc -> sc <> SLine -> sget k (filter not_line m) = Some sc.
  Proof.
    induction m as [|[k' s'] m IH]; cbn [sget filter]; [discriminate|]. intros H N. destruct (text_dec k k') as [->|Nk].
    - injection H as ->. unfold not_line at 1. cbn [snd]. destruct sc; [congruence| |]; cbn [sget]; destruct (text_dec k' k'); congruence.
    - destruct (not_line (k', s')); auto. cbn [sget]. destruct (text_dec k k'); [congruence|]. auto.
  Qed.
Section Invariants.
  Context (checked : bool) (locate : text -> text -> option (text * bool)) (parse : text -> run (list token))
          (project : option (option text * text)) (F : Type) (parse_f64 : text -> option F) (flt fle : F -> F -> bool).
  Notation G := (fns checked locate parse project F parse_f64 flt fle).

  Lemma get_frames key site d : okP (get_with_gen checked project key site d) (fun '(d', _) => frames_kept d d').
  Proof.
    unfold get_with_gen. cbv zeta. repeat match goal with |- okP (if ?b then _ else _) _ => destruct b end;
      try fin; try apply frames_refl; try apply frames_counter.
    destruct (get_readonly (tok_text key) d) as [[[? def] ?]|]; [|fin; apply frames_refl].
    destruct def; try (fin; apply frames_refl). destruct (_ || _); fin; apply frames_refl.
  Qed.

  Lemma directive_pragma_follows s p ts : okP (directive_pragma p ts) (fun '(p', _) => follows s p s p').
  Proof.
    unfold directive_pragma. eapply okP_bind; [apply okP_any|]. intros [w ts1] _. destruct (negb _); [fin; apply follows_refl|].
    eapply okP_bind; [apply okP_any|]. intros [c ts2] _.
    destruct (text_eqb _ _); [|destruct (text_eqb _ _); [|fin]];
      (eapply okP_bind; [apply okP_any|]; intros [[k sc] ts3] _; eapply okP_bind with (P := fun p' => follows s p s p');
       [|intros p' Hp; fin; exact Hp]).
    - unfold prag_suppress. destruct (among _ _); [fin|fin].
      constructor; auto using grows_refl, frames_refl, kept_refl. cbn [suppress]. apply kept_wider, sset_kept.
      intros [D1 D2]. split; auto. now apply sset_distinct.
    - unfold prag_flag. destruct (among _ _); [fin|fin].
      constructor; auto using grows_refl, frames_refl, wider_refl. cbn [flags]. apply sset_kept.
      intros [D1 D2]. split; auto. now apply sset_distinct.
  Qed.
  Lemma define_follows s p ts : okP (directive_define s ts) (fun '(s', _) => follows s p s' p).
  Proof.
    unfold directive_define. eapply okP_bind; [apply okP_any|]. intros [ident ts1] _. cbv zeta.
    destruct ts1 as [|nx rs]; [fin|]. destruct (is_builtin _); [fin|].
    pose proof (frames_remove (tok_text ident) (defs s)) as Fr. destruct (d_remove _ _) as [old d]. cbn [snd] in Fr.
    eapply okP_bind; [apply okP_any|]. intros [def ts2] _. fin.
    match goal with |- follows s p (with_defs (d_insert _ _ (defs (add_macro _ ?s1))) _) p => set (sx := s1) end.
    assert (follows s p sx p) as H1.
    { eapply follows_trans; [apply (follows_defs d s p Fr)|]. subst sx. destruct old as [[[? ?] [?| |]]|]; auto using follows_refl, follows_warning. }
    eapply follows_trans; [exact H1|]. eapply follows_trans; [apply follows_macro|]. apply follows_defs, frames_insert.
  Qed.
  Lemma undef_follows s p ts : okP (directive_undef s ts) (fun '(s', _) => follows s p s' p).
  Proof.
    unfold directive_undef. eapply okP_bind; [apply okP_any|]. intros [ident ts1] _.
    eapply okP_bind; [apply okP_any|]. intros ts2 _. fin. apply follows_defs, frames_remove.
  Qed.
  Lemma ifdef_follows s p c b ts : okP (directive_ifdef s c b ts) (fun '(s', _) => follows s p s' p).
  Proof.
    unfold directive_ifdef. eapply okP_bind; [apply okP_any|]. intros [ident ts1] _.
    eapply okP_bind; [apply okP_any|]. intros ts2 _. fin; apply follows_ifs.
  Qed.
  Lemma resolve_frames d v : okP (resolve checked project d v) (fun '(d', _, _) => frames_kept d d').
  Proof.
    unfold resolve. destruct v as [|t [|t2 v]]; try (fin; apply frames_refl).
    eapply okP_bind; [apply get_frames|]. intros [d' e] Hd. destruct e as [[[? def] ?]|]; [destruct def|]; fin; auto.
  Qed.
  Lemma if_follows s p c ts : okP (directive_if checked project F parse_f64 flt fle s p c ts) (fun '(s', _) => follows s p s' p).
  Proof.
    unfold directive_if. destruct (read_value _) as [lhs ts1]. destruct (match lhs with [] => false | _ => _ end).
    - destruct (flagged _ _); [fin|fin]. eapply follows_trans; [apply follows_rapify|apply follows_ifs].
    - eapply okP_bind; [apply resolve_frames|]. intros [[d lhs'] ld] Fd. cbv zeta.
      destruct lhs'; [fin|].
      eapply okP_bind with (P := fun '(s', _, _, _) => follows s p s' p).
      + destruct (match skip_ws ts1 with [] => false | _ => _ end).
        * destruct ld; [fin; apply follows_defs; exact Fd|fin].
        * destruct (read_value (skip_ws ts1)) as [ops ts2]. destruct (read_value (skip_ws ts2)) as [rhs ts3].
          destruct rhs; [destruct ops; [fin|fin]|].
          eapply okP_bind; [apply resolve_frames|]. intros [[d2 rhs'] _b] Fd2. fin.
          eapply follows_trans; [apply (follows_defs d s p Fd)|]. apply follows_defs. exact Fd2.
      + intros [[[s1 ops] rhs] ts2] H1. eapply okP_bind; [apply okP_any|]. intros b _. eapply okP_bind; [apply okP_any|]. intros ts3 _.
        fin. eapply follows_trans; [exact H1|apply follows_ifs].
  Qed.

  Record kept_by (g : calls) : Prop := {
    k_file : forall s p ts out, okP (c_file g s p ts out) (fun '(s', p', _, _) => follows s p s' p');
    k_walk : forall c m s p ts out q qp jw, okP (c_walk g c m s p ts out q qp jw) (fun '(s', p', _, _) => follows s p s' p');
    k_directive : forall s p ts out, okP (c_directive g s p ts out) (fun '(_, (s', p', _, _)) => follows s p s' p');
    k_use : forall c s p ts out, okP (c_define_use g c s p ts out) (fun '(s', p', _, _) => follows s p s' p');
    k_args : forall c s p ts q d args arg, okP (c_call_args g c s p ts q d args arg) (fun '(s', p', _, _) => follows s p s' p') }.

  Lemma follows_clear s p : follows s p s (clear_line p).
  Proof.
    constructor; cbn; auto using grows_refl, frames_refl, kept_refl.
    - intros k sc H N. exists sc. split; [apply sget_not_line; auto|lia].
    - intros [D1 D2]. split; auto. now apply nodup_filter.
  Qed.

  Lemma okP_weaken {A} (r : run A) (P Q : A -> Prop) : okP r P -> (forall a, P a -> Q a) -> okP r Q.
  Proof. intros H1 H2 a E. auto. Qed.

  (** Leaving a call: the table is what it was. *)
  Lemma follows_call s p name tbl s' p' :
    follows (with_defs (d_push name tbl (defs s)) s) p s' p' ->
    global (defs s') = global (defs s) /\ tl (frames (defs s')) = frames (defs s).
  Proof.
    intro H. destruct (f_frames _ _ _ _ H) as (_ & B & C). cbn in *. split; auto. apply C. discriminate.
  Qed.
  Lemma follows_popped s p name tbl s' p' :
    follows (with_defs (d_push name tbl (defs s)) s) p s' p' -> follows s p (with_defs (d_pop (defs s')) s') p'.
  Proof.
    intro H. destruct (follows_call _ _ _ _ _ _ H) as [Hg Hf]. destruct H. constructor; auto.
    unfold frames_kept. cbn. rewrite Hf. auto.
  Qed.
  Lemma after_follows s s' p : after s (counter (defs s)) s' -> follows s p s' p.
  Proof.
    intros [ws ->]. constructor; cbn; auto using grows_refl, wider_refl, kept_refl.
    - now exists ws.
    - apply frames_counter.
  Qed.

  Lemma bodies_kept g : kept_by g ->
    kept_by (Calls (file g) (walk g) (directive checked locate parse project F parse_f64 flt fle g) (define_use checked project g) (call_args g)).
  Proof.
    intro H. constructor; cbn [c_file c_walk c_directive c_define_use c_call_args]; intros.
    - (* file *)
      unfold file. destruct ts as [|t r]; [fin; apply follows_refl|]. destruct (is_eoi _); [fin; apply follows_refl|].
      eapply okP_bind with (P := fun '(s', p', _, _) => follows s p s' p').
      + unfold line. destruct (skip_ws_out _ _ _) as [ts1 out1]. eapply okP_bind; [apply (k_directive _ H)|].
        intros [done [[[s1 p1] ts2] out2]] F1. destruct done; [fin; exact F1|].
        eapply okP_bind with (P := fun '(s', p', _, _) => follows s p s' p').
        * destruct (is_reading s1); [|fin; exact F1]. eapply okP_weaken; [apply (k_walk _ H)|]. intros [[[s2 p2] ts3] out3] F2.
          eapply follows_trans; eauto.
        * intros [[[s2 p2] ts3] out3] F2. fin. eapply follows_trans; [exact F2|apply follows_clear].
      + intros [[[s1 p1] ts1] out1] F1. eapply okP_weaken; [apply (k_file _ H)|]. intros [[[s2 p2] ts3] out3] F2. eapply follows_trans; eauto.
    - (* walk *)
      unfold walk. cbv zeta. destruct ts as [|t r]; [fin; apply follows_refl|].
      destruct (t_sym t), q; try apply (k_walk _ H); try (fin; apply follows_refl).
      + destruct (text_eqb _ _); [fin|]. destruct (is_unsupported _); [fin|]. destruct (_ && _); [|apply (k_walk _ H)].
        eapply okP_bind; [apply (k_use _ H)|]. intros [[[s1 p1] ts1] out1] F1. eapply okP_weaken; [apply (k_walk _ H)|].
        intros [[[s2 p2] ts3] out3] F2. eapply follows_trans; eauto.
      + destruct (jw && _).
        * eapply okP_bind; [apply (k_directive _ H)|]. intros [d [[[s1 p1] ts1] out1]] F1. eapply okP_weaken; [apply (k_walk _ H)|].
          intros [[[s2 p2] ts3] out3] F2. eapply follows_trans; eauto.
        * destruct (match m with Some _ => _ | None => _ end); [|apply (k_walk _ H)].
          destruct c; [|fin]. destruct (_ || _); apply (k_walk _ H).
      + destruct m; [apply (k_walk _ H)|]. fin. apply follows_refl.
    - (* directive *)
      unfold directive. destruct ts as [|h [|c ts']]; [fin; apply follows_refl|destruct (t_sym h); fin; apply follows_refl|].
      destruct (t_sym h); try (fin; apply follows_refl). destruct (t_sym c); try (fin; apply follows_refl).
      unfold directive_command. cbv zeta.
      assert (forall r : run (state * list token), okP r (fun '(s', _) => follows s p s' p) ->
        okP ('(s, ts) <- r ;; Ok (true, (s, p, ts, out))) (fun '(_, (s', p', _, _)) => follows s p s' p')) as L.
      { intros r Hr. eapply okP_bind; [exact Hr|]. intros [s1 ts1] F1. fin. exact F1. }
      repeat match goal with |- okP (if ?b then _ else _) _ => destruct b end; try fin; try apply L;
        auto using define_follows, undef_follows, if_follows, ifdef_follows, follows_ifs, follows_refl.
      + unfold directive_include. eapply okP_bind; [apply okP_any|]. intros [path ts1] _.
        destruct (expect_nothing ts1) as [ts2| | |]; try fin. destruct (files s) as [|cur fs] eqn:Ef; [fin|].
        destruct (locate cur path) as [[found mm]|]; [|fin]. cbv zeta.
        eapply okP_bind; [apply okP_any|]. intros toks _.
        eapply okP_bind; [apply (k_file _ H)|]. intros [[[s1 p1] ts3] out1] F1. fin.
        set (s0 := if mm then add_warning (WIncludeCase found) s else s) in *.
        assert (follows s p s0 p) as F0 by (subst s0; destruct mm; auto using follows_refl, follows_warning).
        eapply follows_trans; [exact F0|]. destruct F1; cbn in *. constructor; cbn; auto using wider_refl, kept_refl.
        * rewrite f_files0. reflexivity.
        * eapply grows_trans; [apply grows_one|exact f_included0].
      + eapply okP_bind; [apply okP_any|]. intros i _. eapply okP_bind; [apply okP_any|]. intros ts1 _. fin. apply follows_ifs.
      + eapply okP_bind; [apply okP_any|]. intros ts1 _. fin. apply follows_ifs.
      + eapply okP_bind; [apply (directive_pragma_follows s)|]. intros [p1 ts1] F1. fin. exact F1.
    - (* define_use *)
      unfold define_use. eapply okP_bind; [apply okP_any|]. intros [ts1 w] _. destruct w as [ident|]; [|fin].
      eapply okP_bind; [apply get_frames|]. intros [d e] Fd. cbv zeta.
      pose proof (follows_defs d s p Fd) as F0. set (s0 := with_defs d s) in *.
      destruct e as [[[src def] from]|]; [|fin; exact F0]. destruct def as [bp params body|body| |].
      + destruct ts1 as [|t r]; [fin|]. destruct (is_lparen _); [|fin].
        eapply okP_bind; [apply (k_args _ H)|]. intros [[[s1 p1] ts2] args] F1. destruct (negb _); [fin|].
        pose proof (bind_args_after (pad_checked p1 (tok_text ident)) params args s1 []) as Ba.
        destruct (bind_args _ _ _ _ _) as [s2 tbl]. cbn [fst] in Ba.
        eapply okP_bind; [apply (k_walk _ H)|]. intros [[[s3 p3] ts3] layer] F3. fin.
        eapply follows_trans; [exact F0|]. eapply follows_trans; [exact F1|]. eapply follows_trans; [apply (after_follows _ _ _ Ba)|].
        eapply follows_popped. exact F3.
      + destruct from; [| |fin; exact F0].
        all: eapply okP_bind; [apply (k_walk _ H)|]; intros [[[s3 p3] ts3] layer] F3; fin; eapply follows_trans; eauto.
      + destruct ts1; fin.
      + fin. exact F0.
    - (* call_args *)
      unfold call_args. cbv zeta. destruct ts as [|t r]; [fin; apply follows_refl|]. destruct q; [apply (k_args _ H)|].
      destruct (t_sym t); try apply (k_args _ H).
      + destruct (contains_key _ _); [|apply (k_args _ H)]. eapply okP_bind; [apply (k_use _ H)|]. intros [[[s1 p1] ts1] inner] F1.
        eapply okP_weaken; [apply (k_args _ H)|]. intros [[[s2 p2] ts3] out3] F2. eapply follows_trans; eauto.
      + destruct (_ =? _); [fin; apply follows_refl|apply (k_args _ H)].
  Qed.
  Theorem always_kept n : kept_by (G n).
  Proof.
    induction n as [|n IH]; [constructor; intros; apply okP_nofuel|]. exact (bodies_kept _ IH).
  Qed.
End Invariants.
