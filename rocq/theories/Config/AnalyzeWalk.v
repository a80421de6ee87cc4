(** Proofs about the analysis of configs, part 1: which lints run, and that the walk gets everywhere. *)
From Coq Require Import String.
From Verif Require Import Base.Tactics Base.Bytes Base.Ascii Base.Text Base.Sort Config.RapModel Config.RapTree Config.RapProofs Config.AnalyzeSpec Config.AnalyzeModel.
From Verif Require Bin.LintModel Bin.LintSpec Bin.LintProps.
Local Open Scope N_scope.
Local Open Scope list_scope.

(** ** Lists *)
Lemma flat_map_ext_in A B (f g : A -> list B) l : (forall x, In x l -> f x = g x) -> flat_map f l = flat_map g l.
Proof. induction l as [|x l IH]; intros H; cbn; [auto|]. rewrite H by (now left). f_equal. apply IH. intros; apply H; now right. Qed.

Definition p05 : LintModel.lint := LintModel.mk_min "external_parent_case" LintModel.warning_config ExecModel.SHelp.
Definition p09 : LintModel.lint := LintModel.mk_min "magwell_missing_magazine" LintModel.error_config ExecModel.SWarning.

Section Run.
  Context (low : bytes -> bytes) (prefix : option bytes) (st : LintModel.settings) (m : LintModel.manager unit)
          (H : LintModel.config_manager st = Some m).
  Notation on l := (LintModel.enabled (LintModel.effective (LintModel.config_settings st) l)).

  Lemma always_on : forall l, In l LintModel.config_lints -> LintModel.minimum l = ExecModel.SError -> on l = true.
  Proof using H.
    intros l Hl Hm. assert (K : LintModel.rapifier_check st = true).
    { unfold LintModel.rapifier_check, LintModel.lint_check. unfold LintModel.config_manager in H. now rewrite H. }
    exact (proj2 (proj1 (LintProps.C38_own_lints st) K l Hl) Hm).
  Qed.

  Lemma run_all : forall t, run low prefix m t =
    flat_map (fun l => runners low prefix t l (LintModel.effective (LintModel.config_settings st) l)) (filter (fun l => on l) LintModel.config_lints).
  Proof using H.
    intros t. unfold run. rewrite (LintProps.C38_runs_as_set _ _ _ _ _ _ H). cbn [filter flat_map]. now rewrite app_nil_r.
  Qed.

  Lemma run_each : forall t, run low prefix m t =
    flat_map (fun l => if on l then runners low prefix t l (LintModel.effective (LintModel.config_settings st) l) else []) LintModel.config_lints.
  Proof using H.
    intros t. rewrite run_all. induction LintModel.config_lints as [|l ls IH]; [reflexivity|]. cbn [filter flat_map].
    destruct (on l); cbn [flat_map app]; now rewrite IH.
  Qed.
  Lemma run_ten : forall t, run low prefix m t =
    flat_map (fun l => if (match LintModel.minimum l with ExecModel.SError => true | _ => on l end)
                       then runners low prefix t l (LintModel.effective (LintModel.config_settings st) l) else []) LintModel.config_lints.
  Proof using H.
    intros t. rewrite run_each. apply flat_map_ext_in. intros l Hl. destruct (LintModel.minimum l) eqn:E; try reflexivity. now rewrite always_on.
  Qed.

  Ltac ten := rewrite run_ten; unfold LintModel.config_lints; cbn [flat_map LintModel.minimum LintModel.mk LintModel.mk_min LintModel.config_severity LintModel.error_config LintModel.warning_config];
    fold p05 p09; unfold runners.
  Ltac name := repeat match goal with |- context [named ?l ?s] => let b := eval vm_compute in (named l s) in change (named l s) with b end; cbv iota.

  Lemma run_config : forall ps, run low prefix m (OnConfig ps) = c02 low ps ++ c03 low ps ++ c04 low ps ++ (if on p09 then c09 low prefix ps else []).
  Proof using H.
    intros ps. ten. name. cbn [app]. destruct (on p05), (on p09); cbn [app]; now rewrite ?app_nil_r.
  Qed.
  Lemma run_class : forall c, run low prefix m (OnClass c) = if on p05 then c05 low c else [].
  Proof using H. intros c. ten. name. destruct (on p05), (on p09); cbn [app]; now rewrite ?app_nil_r. Qed.
  Lemma run_property : forall p, run low prefix m (OnProperty p) = c06 p ++ c07 p ++ c08 p ++ c10 p.
  Proof using H. intros p. ten. name. destruct (on p05), (on p09); cbn [app]; now rewrite ?app_nil_r. Qed.
  Lemma run_value : forall v, run low prefix m (OnValue v) = c01_value v.
  Proof using H. intros v. ten. name. destruct (on p05), (on p09); cbn [app]; now rewrite ?app_nil_r. Qed.
  Lemma run_item : forall i, run low prefix m (OnItem i) = c01_item i.
  Proof using H. intros i. ten. name. destruct (on p05), (on p09); cbn [app]; now rewrite ?app_nil_r. Qed.

  (** ** The walk *)
  Notation analyze_item := (analyze_item low prefix m).
  Notation analyze_value := (analyze_value low prefix m).
  Notation analyze_class := (analyze_class low prefix m).
  Notation analyze_prop := (analyze_prop low prefix m).
  Notation analyze := (analyze low prefix m).

  Definition class_body (c : class) : list property := match c with Root ps | Local _ _ ps _ => ps | External _ => [] end.
  Lemma class_eq : forall c, analyze_class c = (if on p05 then c05 low c else []) ++ flat_map analyze_prop (class_body c).
  Proof using H. intros [ps|n p ps mb|n]; cbn [AnalyzeModel.analyze_class class_body]; rewrite run_class; reflexivity. Qed.

  Lemma items_walk : forall l x, In x (flat_map analyze_item l) <-> x = Some InvalidValue /\ nested l IInvalid.
  Proof using H.
    assert (K : forall i x, In x (analyze_item i) <-> x = Some InvalidValue /\ (i = IInvalid \/ exists l, i = IArr l /\ nested l IInvalid)).
    { induction i as [s|n|l IH|] using item_ind'; intros x; cbn [AnalyzeModel.analyze_item]; rewrite run_item; cbn [c01_item app In].
      - split; [intros []|intros (_ & [E|(? & E & _)]); discriminate].
      - split; [intros []|intros (_ & [E|(? & E & _)]); discriminate].
      - rewrite in_flat_map. rewrite Forall_forall in IH. split.
        + intros (i & Hi & Hx). apply IH in Hx; [|exact Hi]. destruct Hx as [-> [->|(l' & -> & Hn)]]; (split; [reflexivity|]); right; exists l; split; auto.
          * now apply N_here. 
          * eapply N_in; eauto.
        + intros (-> & [E|(l' & E & Hn)]); [discriminate|]. injection E as <-. inversion Hn as [? ? Hi|? l'' ? Hi Hn']; subst.
          * exists IInvalid. split; [exact Hi|]. apply IH; auto.
          * exists (IArr l''). split; [exact Hi|]. apply IH; [exact Hi|]. split; [reflexivity|]. right. eauto.
      - split; [intros [<-|[]]; auto|intros (-> & _); auto]. }
    intros l x. rewrite in_flat_map. split.
    - intros (i & Hi & Hx). apply K in Hx as [-> [->|(l' & -> & Hn)]]; (split; [reflexivity|]); [now apply N_here|eapply N_in; eauto].
    - intros (-> & Hn). inversion Hn as [? ? Hi|? l' ? Hi Hn']; subst.
      + exists IInvalid. split; [exact Hi|]. apply K; auto.
      + exists (IArr l'). split; [exact Hi|]. apply K; eauto.
  Qed.

  (** What the lints of a single property find, with those of its value. *)
  Definition at_property (p : property) (x : finding) : Prop :=
    In x (c06 p ++ c07 p ++ c08 p ++ c10 p) \/
    (x = Some InvalidValue /\ exists n v e, p = Entry n v e /\ (v = VInvalid \/ exists ex l, (v = VArr ex l \/ v = VUnexpectedArr ex l) /\ nested l IInvalid)).

  Lemma value_walk : forall v x, In x (analyze_value v) <->
    x = Some InvalidValue /\ (v = VInvalid \/ exists ex l, (v = VArr ex l \/ v = VUnexpectedArr ex l) /\ nested l IInvalid).
  Proof using H.
    intros v x. unfold AnalyzeModel.analyze_value. rewrite run_value, in_app_iff. split.
    - intros [Hx|Hx].
      + destruct v; cbn in Hx; try (destruct Hx as [<-|[]]); try easy. auto.
      + destruct v; try easy; apply items_walk in Hx as [-> Hn]; (split; [reflexivity|]); right; eauto 6.
    - intros (-> & [->|(ex & l & [->| ->] & Hn)]); [left; cbn; auto| |]; right; now apply items_walk.
  Qed.

  Lemma walk : forall ps x, In x (flat_map analyze_prop ps) <->
    (exists p, within ps p /\ at_property p x) \/
    (exists c, within ps (PClass c) /\ In x (if on p05 then c05 low c else [])).
  Proof using H.
    assert (W : forall ps p, In p ps -> within ps p) by (intros ps p Hp; exists ps; split; [constructor|exact Hp]).
    assert (W' : forall ps c p, In (PClass c) ps -> within (class_body c) p -> within ps p).
    { intros ps c p Hc (b & Hb & Hp). destruct c as [qs|n pa qs mb|n]; cbn [class_body] in Hb.
      - exists b. split; [eapply B_root; eauto|exact Hp].
      - exists b. split; [eapply B_local; eauto|exact Hp].
      - inversion Hb; subst; [destruct Hp|destruct H0|destruct H0]. }
    assert (W'' : forall ps p, within ps p -> In p ps \/ exists c, In (PClass c) ps /\ within (class_body c) p).
    { intros ps p (b & Hb & Hp). inversion Hb; subst; [now left| |]; right; eexists; (split; [eassumption|]); exists b; auto. }
    assert (P : forall p x, (forall c, p = PClass c -> forall x, In x (flat_map analyze_prop (class_body c)) <->
        (exists p, within (class_body c) p /\ at_property p x) \/
        (exists c', within (class_body c) (PClass c') /\ In x (if on p05 then c05 low c' else []))) ->
      (In x (analyze_prop p) <-> at_property p x \/
       (exists c, p = PClass c /\ (In x (if on p05 then c05 low c else []) \/ (exists q, within (class_body c) q /\ at_property q x) \/
          (exists c', within (class_body c) (PClass c') /\ In x (if on p05 then c05 low c' else [])))))).
    { intros p x IH. unfold AnalyzeModel.analyze_prop. rewrite in_app_iff, run_property. destruct p as [n v e|c|n|n].
      - rewrite value_walk. unfold at_property. split.
        + intros [Hx|[-> Hx]]; left; [now left|right; eauto 8].
        + intros [[Hx|(-> & n' & v' & e' & [= <- <- <-] & Hx)]|(c & [=] & _)]; auto.
      - pose proof (IH c eq_refl x) as IHx. rewrite class_eq, (in_app_iff _ (flat_map analyze_prop _)). unfold at_property at 1. split.
        + intros [Hx|[Hx|Hx]]; [left; now left|right; eauto|apply IHx in Hx; right; eauto].
        + intros [[Hx|(-> & n' & v' & e' & [=] & Hx)]|(c' & [= <-] & [Hx|Hx])]; auto. right. right. now apply IHx.
      - cbn [In]. unfold at_property. split; [intros [Hx|[]]; auto|intros [[Hx|(_ & ? & ? & ? & [=] & _)]|(? & [=] & _)]; auto].
      - cbn [In]. unfold at_property. split; [intros [Hx|[]]; auto|intros [[Hx|(_ & ? & ? & ? & [=] & _)]|(? & [=] & _)]; auto]. }
    assert (C : forall ps, Forall (Pprop (fun c => forall x, In x (flat_map analyze_prop (class_body c)) <->
        (exists p, within (class_body c) p /\ at_property p x) \/
        (exists c', within (class_body c) (PClass c') /\ In x (if on p05 then c05 low c' else [])))) ps ->
      forall x, In x (flat_map analyze_prop ps) <->
        (exists p, within ps p /\ at_property p x) \/ (exists c, within ps (PClass c) /\ In x (if on p05 then c05 low c else []))).
    { intros ps F x. rewrite Forall_forall in F. rewrite in_flat_map. split.
      - intros (p & Hp & Hx). apply P in Hx; [|intros c -> ; exact (F _ Hp)].
        destruct Hx as [Hx|(c & -> & [Hx|[(q & Hq & Hx)|(c' & Hc & Hx)]])]; [left|right|left|right]; eauto.
      - intros [(p & Hp & Hx)|(c & Hc & Hx)].
        + destruct (W'' _ _ Hp) as [Hi|(c & Hi & Hw)].
          * exists p. split; [exact Hi|]. apply P; [intros c ->; exact (F _ Hi)|]. now left.
          * exists (PClass c). split; [exact Hi|]. apply P; [intros c' [= <-]; exact (F _ Hi)|]. right. exists c. split; [reflexivity|]. right. left. eauto.
        + destruct (W'' _ _ Hc) as [Hi|(c' & Hi & Hw)].
          * exists (PClass c). split; [exact Hi|]. apply P; [intros c' [= <-]; exact (F _ Hi)|]. right. exists c. auto.
          * exists (PClass c'). split; [exact Hi|]. apply P; [intros c'' [= <-]; exact (F _ Hi)|]. right. exists c'. split; [reflexivity|]. right. right. eauto. }
    assert (D : forall c, forall x, In x (flat_map analyze_prop (class_body c)) <->
        (exists p, within (class_body c) p /\ at_property p x) \/
        (exists c', within (class_body c) (PClass c') /\ In x (if on p05 then c05 low c' else []))).
    { induction c as [ps IH|n pa ps mb IH|n] using class_ind'; cbn [class_body]; [now apply C|now apply C|].
      apply (C []). constructor. }
    intros ps. exact (D (Root ps)).
  Qed.

  Theorem analyzed : forall ps x, In x (analyze ps) <->
    In x (c02 low ps) \/ In x (c03 low ps) \/ In x (c04 low ps) \/ In x (if on p09 then c09 low prefix ps else []) \/
    (exists p, within ps p /\ at_property p x) \/
    (exists c, (c = Root ps \/ within ps (PClass c)) /\ In x (if on p05 then c05 low c else [])).
  Proof using H.
    intros ps x. unfold AnalyzeModel.analyze. rewrite !in_app_iff, run_config, run_class, walk, !in_app_iff. split.
    - intros [[Hx|[Hx|[Hx|Hx]]]|[Hx|[Hx|(c & Hc & Hx)]]]; auto 8; do 5 right; eauto.
    - intros [Hx|[Hx|[Hx|[Hx|[Hx|(c & [->|Hc] & Hx)]]]]]; auto 8. right. right. right. eauto.
  Qed.
End Run.
