From Coq Require Import String.
From Verif Require Import Base.Tactics Base.Bytes Base.Ascii Base.Text Base.Sort Sqf.Ast Sqf.SourceSpec Sqf.WalkSpec Common.VersionModel Config.PatchModel Sqf.WalkModel.
Local Open Scope N_scope.
Local Open Scope list_scope.

Lemma wiki_lt_spec : forall a b, wiki_lt a b = true <-> earlier a b.
Proof. intros (a1, a2) (b1, b2). unfold wiki_lt, earlier. cbn [fst snd]. rewrite orb_true_iff, andb_true_iff, !N.ltb_lt, N.eqb_eq. tauto. Qed.
Lemma wiki_lt_false : forall a b, wiki_lt a b = false <-> ~ earlier a b.
Proof. intros a b. rewrite <- wiki_lt_spec. destruct (wiki_lt a b); intuition congruence. Qed.
Lemma earlier_trans : forall a b c, earlier a b -> earlier b c -> earlier a c.
Proof. unfold earlier. intros; lia. Qed.
Lemma not_earlier_trans : forall a b c, ~ earlier b a -> ~ earlier c b -> ~ earlier c a.
Proof. unfold earlier. intros; lia. Qed.
Lemma earlier_irrefl : forall a, ~ earlier a a.
Proof. unfold earlier. intros; lia. Qed.

(** ** The walk *)
Definition child (e : expr) : list expr :=
  match e with EUnary _ a _ => [a] | EBinary _ a b _ => [a; b] | EArray l _ => l | ECode c _ _ => map stmt_expr c | _ => [] end.
Lemma within_child : forall e x, within e x <-> e = x \/ exists y, In y (child x) /\ within e y.
Proof.
  intros e x. split.
  - intros H. destruct H as [|c x sp H|c a b sp H|c a b sp H|l x sp Hi H|ss s src sp Hi H]; [now left| | | | |]; right; cbn [child].
    + exists x. split; [now left|exact H].
    + exists a. split; [now left|exact H].
    + exists b. split; [right; now left|exact H].
    + eauto.
    + exists (stmt_expr s). split; [now apply in_map|exact H].
  - intros [->|(y & Hy & H)]; [constructor|]. destruct x; cbn [child] in Hy; try (now destruct Hy).
    + apply in_map_iff in Hy as (s & <- & Hs). eapply within_code; eauto.
    + eapply within_array; eauto.
    + destruct Hy as [<-|[]]. now constructor.
    + destruct Hy as [<-|[<-|[]]]; [now apply within_left|now apply within_right].
Qed.
Lemma within_trans : forall e x y, within e x -> within x y -> within e y.
Proof. intros e x y He Hx. induction Hx; [exact He| | | | |]; [apply within_unary|apply within_left|apply within_right|eapply within_array|eapply within_code]; eauto. Qed.

Section Walk.
  Context {C : Type} (run : target -> list C).
  (** What is run at an expression itself: on it, on its command, on its block and the statements of that. *)
  Definition here (e : expr) : list C :=
    run (OnExpression e) ++
    match e with
    | ENular _ _ | EUnary _ _ _ | EBinary _ _ _ _ => run (OnCommand e)
    | ECode c _ _ => run (OnScript c) ++ flat_map (fun s => run (OnStatement s)) c
    | _ => []
    end.
  Lemma expression_step : forall e x, In x (analyze_expression run e) <-> In x (here e) \/ exists y, In y (child e) /\ In x (analyze_expression run y).
  Proof.
    intros e x. unfold here. destruct e as [c src sp|s sp w|b sp|b sp|l sp|l sp|n sp|c a sp|c a b sp|n sp]; cbn [analyze_expression child]; rewrite !in_app_iff; cbn [In];
      try (split; [tauto|intros [H|(y & [] & _)]; tauto]).
    - rewrite !in_flat_map. split.
      + intros [H|[H|(s & Hs & H)]]; auto. apply in_app_iff in H as [H|H]; [left; right; right; eauto|]. right. exists (stmt_expr s). split; [now apply in_map|]. now destruct s.
      + intros [[H|[H|(s & Hs & H)]]|(y & Hy & H)]; auto; right; right.
        * exists s. split; [exact Hs|]. apply in_app_iff. now left.
        * apply in_map_iff in Hy as (s & <- & Hs). exists s. split; [exact Hs|]. apply in_app_iff. right. now destruct s.
    - rewrite in_flat_map. split; [intros [H|H]; auto|intros [[H|[]]|H]; auto].
    - split; [intros [H|[H|H]]; eauto 6|intros [[H|H]|(y & [<-|[]] & H)]; auto].
    - split; [intros [H|[H|[H|H]]]; eauto 6|intros [[H|H]|(y & [<-|[<-|[]]] & H)]; auto].
  Qed.
  Lemma expression_walk : forall e x, In x (analyze_expression run e) <-> exists y, within y e /\ In x (here y).
  Proof.
    assert (K : (forall e x, In x (analyze_expression run e) <-> exists y, within y e /\ In x (here y)) /\
                (forall s x, In x (analyze_expression run (stmt_expr s)) <-> exists y, within y (stmt_expr s) /\ In x (here y))).
    { assert (S : forall e, (forall y, In y (child e) -> forall x, In x (analyze_expression run y) <-> exists z, within z y /\ In x (here z)) ->
        forall x, In x (analyze_expression run e) <-> exists y, within y e /\ In x (here y)).
      { intros e IH x. rewrite expression_step. split.
        - intros [H|(y & Hy & H)]; [exists e; split; [constructor|exact H]|]. apply (IH y Hy) in H as (z & Hz & H). exists z. split; [|exact H]. apply within_child. eauto.
        - intros (y & Hy & H). apply within_child in Hy as [->|(z & Hz & Hy)]; [now left|]. right. exists z. split; [exact Hz|]. apply (IH z Hz). eauto. }
      apply tree_ind; intros; try (apply S; cbn [child In]; intros ? Hy; tauto); try (cbn [stmt_expr]; now auto).
      - apply S. cbn [child]. intros y Hy. apply in_map_iff in Hy as (st & <- & Hs). rewrite Forall_forall in H. exact (H st Hs).
      - apply S. cbn [child]. intros y Hy. rewrite Forall_forall in H. now apply H.
      - apply S. cbn [child In]. intros y [<-|[]]. exact H.
      - apply S. cbn [child In]. intros y [<-|[<-|[]]]; assumption. }
    exact (proj1 K).
  Qed.
End Walk.

Lemma walk_expressions_spec : forall e x, In x (walk_expressions e) <-> within x e.
Proof.
  assert (S : forall e x, In x (walk_expressions e) <-> e = x \/ exists y, In y (child e) /\ In x (walk_expressions y)).
  { intros e x. destruct e as [c src sp|s sp w|b sp|b sp|l sp|l sp|n sp|c a sp|c a b sp|n sp]; cbn [walk_expressions child In];
      try (split; [intros [H|H]; auto; destruct H|intros [H|(y & [] & _)]; auto]).
    - rewrite in_flat_map. split.
      + intros [H|(s & Hs & H)]; auto. right. exists (stmt_expr s). split; [now apply in_map|now destruct s].
      + intros [H|(y & Hy & H)]; auto. apply in_map_iff in Hy as (s & <- & Hs). right. exists s. split; [exact Hs|now destruct s].
    - rewrite in_flat_map. tauto.
    - split; [intros [H|H]; eauto|intros [H|(y & [<-|[]] & H)]; auto].
    - rewrite in_app_iff. split; [intros [H|[H|H]]; eauto 6|intros [H|(y & [<-|[<-|[]]] & H)]; auto]. }
  assert (K : (forall e x, In x (walk_expressions e) <-> within x e) /\ (forall s x, In x (walk_expressions (stmt_expr s)) <-> within x (stmt_expr s))).
  { assert (T : forall e, (forall y, In y (child e) -> forall x, In x (walk_expressions y) <-> within x y) -> forall x, In x (walk_expressions e) <-> within x e).
    { intros e IH x. rewrite S, within_child. split.
      - intros [H|(y & Hy & H)]; auto. right. exists y. split; [exact Hy|]. now apply IH.
      - intros [H|(y & Hy & H)]; auto. right. exists y. split; [exact Hy|]. now apply (IH y Hy). }
    apply tree_ind; intros; try (apply T; cbn [child In]; intros ? Hy; tauto); try (cbn [stmt_expr]; now auto).
    - apply T. cbn [child]. intros y Hy. apply in_map_iff in Hy as (st & <- & Hs). rewrite Forall_forall in H. exact (H st Hs).
    - apply T. cbn [child]. intros y Hy. rewrite Forall_forall in H. now apply H.
    - apply T. cbn [child In]. intros y [<-|[]]. exact H.
    - apply T. cbn [child In]. intros y [<-|[<-|[]]]; assumption. }
  exact (proj1 K).
Qed.

(** ** Versions *)
Section Versions.
  Context (db : text -> option (N * N)) (unnamed : db [] = None).
  Lemma extract_code : forall c src sp, extract db (ECode c src sp) = Some (script_version db c).
  Proof.
    intros c src sp. cbn [extract]. unfold script_version. f_equal. generalize nothing. induction c as [|s c IH]; intros b; [reflexivity|].
    cbn [fold_left]. rewrite IH. f_equal. unfold better. now destruct s.
  Qed.
  Definition found_in (e : expr) (m : measure) : Prop :=
    (exists y, within y e /\ uses y (fst (fst m)) (snd m) /\ db (fst (fst m)) = Some (snd (fst m))) \/ m = nothing.
  Lemma script_version_from : forall c, script_version db c = nothing \/ exists s, In s c /\ extract db (stmt_expr s) = Some (script_version db c).
  Proof.
    intros c. unfold script_version. induction c as [|s c IH] using rev_ind; [now left|]. rewrite fold_left_app. cbn [fold_left]. unfold better at 1 3.
    assert (Old : fold_left (better db) c nothing = nothing \/ exists s0, In s0 (c ++ [s]) /\ extract db (stmt_expr s0) = Some (fold_left (better db) c nothing)).
    { destruct IH as [IH|(s' & Hs & IH)]; [now left|right; exists s'; split; [apply in_app_iff; now left|exact IH]]. }
    destruct (extract db (stmt_expr s)) as [m|] eqn:E; [|exact Old]. destruct (wiki_lt _ _); [|exact Old].
    right. exists s. split; [apply in_app_iff; right; now left|exact E].
  Qed.
  Lemma script_version_max : forall c s m, In s c -> extract db (stmt_expr s) = Some m -> ~ earlier (snd (fst (script_version db c))) (snd (fst m)).
  Proof.
    intros c s m. unfold script_version. induction c as [|t c IH] using rev_ind; [intros []|]. intros Hs Hm. rewrite fold_left_app. cbn [fold_left].
    unfold better at 1. apply in_app_iff in Hs as [Hs|[->|[]]].
    - specialize (IH Hs Hm). destruct (extract db (stmt_expr t)) as [k|]; [|exact IH]. destruct (wiki_lt _ _) eqn:E; [|exact IH].
      apply wiki_lt_spec in E. intros H. apply IH. eapply earlier_trans; eauto.
    - rewrite Hm. destruct (wiki_lt _ _) eqn:E; [apply earlier_irrefl|]. now apply wiki_lt_false.
  Qed.

  Lemma extract_sound : forall e m, extract db e = Some m -> found_in e m.
  Proof using unnamed.
    assert (Known : forall e m v, found_in e m -> db (fst (fst m)) = Some v ->
      snd (fst m) = v /\ exists y, within y e /\ uses y (fst (fst m)) (snd m) /\ db (fst (fst m)) = Some (snd (fst m))).
    { intros e m v [H| ->] Hv; [|cbn in Hv; congruence]. destruct H as (y & Hy & Hu & Hd). split; [congruence|eauto]. }
    assert (K : (forall e m, extract db e = Some m -> found_in e m) /\ (forall s m, extract db (stmt_expr s) = Some m -> found_in (stmt_expr s) m)).
    { apply tree_ind; try (intros; discriminate); try (intros; cbn [stmt_expr] in *; now auto).
      - intros c src sp IH m. rewrite extract_code. intros [=<-]. destruct (script_version_from c) as [->|(s & Hs & E)]; [now right|].
        rewrite Forall_forall in IH. destruct (IH s Hs _ E) as [(y & Hy & H)|H]; [|right; exact H]. left. exists y. split; [|exact H]. eapply within_code; eauto.
      - intros n sp m. cbn [extract]. destruct (db n) as [v|] eqn:E; [|discriminate]. intros [=<-]. left. exists (ENular n sp). split; [constructor|]. cbn. auto.
      - intros c e sp IH m. cbn [extract]. destruct (db (unary_str c)) as [v|] eqn:E; [|discriminate]. destruct (extract db e) as [l|]; [|discriminate].
        destruct (db (fst (fst l))) as [lv|] eqn:El; [|discriminate]. destruct (Known e l lv (IH l eq_refl) El) as (_ & y & Hy & H).
        destruct (wiki_lt lv v); intros [=<-]; left; [exists (EUnary c e sp); split; [constructor|]; cbn; auto|]. exists y. split; [now constructor|exact H].
      - intros c a b sp IHa IHb m. cbn [extract]. destruct (db (binary_str c)) as [v|] eqn:E; [|discriminate]. destruct (extract db a) as [l|]; [|discriminate].
        destruct (db (fst (fst l))) as [lv|] eqn:El; [|discriminate]. destruct (Known a l lv (IHa l eq_refl) El) as (_ & y & Hy & H).
        destruct (extract db b) as [r|]; [|discriminate]. destruct (db (fst (fst r))) as [rv|] eqn:Er; [|discriminate].
        destruct (Known b r rv (IHb r eq_refl) Er) as (_ & z & Hz & H').
        destruct (wiki_lt lv v && wiki_lt rv v); [|destruct (wiki_lt rv lv)]; intros [=<-]; left; [exists (EBinary c a b sp); split; [constructor|]; cbn; auto| |].
        + exists y. split; [now apply within_left|exact H].
        + exists z. split; [now apply within_right|exact H']. }
    exact (proj1 K).
  Qed.
  (** In a simple expression something is found, and it is the latest. *)
  Lemma extract_simple : forall e, simple db e -> exists m, extract db e = Some m /\ db (fst (fst m)) = Some (snd (fst m)) /\
    forall y n sp v, within y e -> uses y n sp -> db n = Some v -> ~ earlier (snd (fst m)) v.
  Proof using unnamed.
    assert (K : (forall e, simple db e -> exists m, extract db e = Some m /\ db (fst (fst m)) = Some (snd (fst m)) /\
                   forall y n sp v, within y e -> uses y n sp -> db n = Some v -> ~ earlier (snd (fst m)) v) /\
                (forall s, simple db (stmt_expr s) -> exists m, extract db (stmt_expr s) = Some m /\ db (fst (fst m)) = Some (snd (fst m)) /\
                   forall y n sp v, within y (stmt_expr s) -> uses y n sp -> db n = Some v -> ~ earlier (snd (fst m)) v)).
    { apply tree_ind; try (intros; match goal with H : simple _ _ |- _ => inversion H end; fail); try (intros; cbn [stmt_expr] in *; now auto).
      - intros c src sp IH H. inversion H as [| | |? ? ? Hs He]; subst. rewrite extract_code. eexists. split; [reflexivity|]. rewrite Forall_forall in IH.
        assert (Max : forall y n p v, within y (ECode c src sp) -> uses y n p -> db n = Some v -> ~ earlier (snd (fst (script_version db c))) v).
        { intros y n p v Hy Hu Hd. apply within_child in Hy as [->|(z & Hz & Hy)]; [destruct Hu|]. cbn [child] in Hz. apply in_map_iff in Hz as (s & <- & Hi).
          destruct (IH s Hi (Hs s Hi)) as (m & E & _ & Hm). eapply not_earlier_trans; [eapply Hm; eauto|]. eapply script_version_max; eauto. }
        split; [|exact Max]. destruct He as (e & n & p & v & (s & Hi & Hw) & Hu & Hd & Hpos).
        assert (Hne : ~ earlier (snd (fst (script_version db c))) v) by (eapply Max; eauto; eapply within_code; eauto).
        destruct (script_version_from c) as [E|(t & Ht & E)]; [rewrite E in Hne; now destruct Hne|]. destruct (extract_sound _ _ E) as [(y & _ & _ & Hy)|Hn]; [exact Hy|].
        rewrite Hn in Hne. now destruct Hne.
      - intros n sp H. inversion H as [? ? Hn| | |]; subst. cbn [extract]. destruct (db n) as [v|] eqn:E; [|congruence]. eexists. split; [reflexivity|]. split; [exact E|].
        intros y n' p v' Hy Hu Hd. apply within_child in Hy as [->|(z & [] & _)]. cbn in Hu. destruct Hu as (-> & ->). replace v' with v by congruence. apply earlier_irrefl.
      - intros c e sp IH H. inversion H as [|? ? ? Hc He| |]; subst. destruct (IH He) as (l & El & Hl & Hm). cbn [extract]. destruct (db (unary_str c)) as [v|] eqn:Ec; [|congruence].
        rewrite El, Hl. assert (G : forall m : measure, ~ earlier (snd (fst m)) v -> ~ earlier (snd (fst m)) (snd (fst l)) -> forall y n p w, within y (EUnary c e sp) -> uses y n p -> db n = Some w -> ~ earlier (snd (fst m)) w).
        { intros m H1 H2 y n p w Hy Hu Hd. apply within_child in Hy as [->|(z & [<-|[]] & Hy)]; [cbn in Hu; destruct Hu as (-> & ->); congruence|].
          eapply not_earlier_trans; [eapply Hm; eauto|exact H2]. }
        destruct (wiki_lt (snd (fst l)) v) eqn:E; eexists; (split; [reflexivity|]).
        + apply wiki_lt_spec in E. split; [exact Ec|]. apply G; cbn [fst snd]; [apply earlier_irrefl|]. intros X. exact (earlier_irrefl _ (earlier_trans _ _ _ E X)).
        + apply wiki_lt_false in E. split; [exact Hl|]. apply G; [exact E|apply earlier_irrefl].
      - intros c a b sp IHa IHb H. inversion H as [| |? ? ? ? Hc Ha Hb|]; subst. destruct (IHa Ha) as (l & El & Hl & Hml). destruct (IHb Hb) as (r & Er & Hr & Hmr).
        cbn [extract]. destruct (db (binary_str c)) as [v|] eqn:Ec; [|congruence]. rewrite El, Hl, Er, Hr.
        assert (G : forall m : measure, ~ earlier (snd (fst m)) v -> ~ earlier (snd (fst m)) (snd (fst l)) -> ~ earlier (snd (fst m)) (snd (fst r)) ->
          forall y n p w, within y (EBinary c a b sp) -> uses y n p -> db n = Some w -> ~ earlier (snd (fst m)) w).
        { intros m H1 H2 H3 y n p w Hy Hu Hd. apply within_child in Hy as [->|(z & [<-|[<-|[]]] & Hy)]; [cbn in Hu; destruct Hu as (-> & ->); congruence| |].
          - eapply not_earlier_trans; [eapply Hml; eauto|exact H2].
          - eapply not_earlier_trans; [eapply Hmr; eauto|exact H3]. }
        destruct (wiki_lt (snd (fst l)) v && wiki_lt (snd (fst r)) v) eqn:E; [|destruct (wiki_lt (snd (fst r)) (snd (fst l))) eqn:E'];
          eexists; (split; [reflexivity|]); (split; [assumption|]); apply G; cbn [fst snd]; try apply earlier_irrefl;
          rewrite <- ?wiki_lt_false in *; rewrite ?andb_true_iff, ?andb_false_iff, ?wiki_lt_spec, ?wiki_lt_false in *; unfold earlier in *; lia. }
    exact (proj1 K).
  Qed.
End Versions.
