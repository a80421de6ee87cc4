(** Proofs about the analysis of configs, part 4: magazines, panics, what can be written, and what the parser makes. *)
From Coq Require Import String.
From Verif Require Import Base.Tactics Base.Bytes Base.Ascii Base.Text Base.Sort Config.RapModel Config.RapTree Config.RapProofs Config.AnalyzeSpec Config.AnalyzeModel Config.AnalyzeWalk Config.AnalyzeProofs Config.AnalyzeMore.
From Verif Require Config.ParseModel.
Local Open Scope N_scope.
Local Open Scope list_scope.

Lemma starts_spec : forall w s, starts_with w s = true <-> exists r, s = w ++ r.
Proof.
  induction w as [|c w IH]; intros s; cbn [starts_with app]; [split; eauto|]. destruct s as [|d s]; [split; [discriminate|intros (r & [=])]|].
  destruct (N.eqb_spec c d) as [<-|Hn]; cbn [andb].
  - rewrite IH. split; intros (r & E); exists r; congruence.
  - split; [discriminate|]. intros (r & [= E _]). congruence.
Qed.

Section Lints.
  Context (low : bytes -> bytes).

  (** ** c09 *)
  Lemma find_named_spec : forall word ps, rootless ps ->
    (exists p, find_named low word ps = Some (Some p) /\ first_named low ps word p) \/
    (find_named low word ps = Some None /\ forall p, ~ first_named low ps word p).
  Proof.
    intros word ps Hr.
    assert (Hr' : forall p qs, In p ps -> p <> PClass (Root qs)) by (intros p qs Hp; apply Hr; exists ps; split; [constructor|exact Hp]). clear Hr.
    induction ps as [|p ps IH]; [right; split; [reflexivity|]; intros p (l & r & n & E & _); destruct l; discriminate|].
    cbn [find_named]. destruct (prop_name p) as [n|] eqn:En.
    2: { exfalso. destruct p as [? ? ?|[qs|? ? ? ?|?]|?|?]; try discriminate. apply (Hr' (PClass (Root qs)) qs); [now left|reflexivity]. }
    assert (M : match p with Entry m _ _ | Delete m | MissingSemicolon m | PClass (Local m _ _ _) | PClass (External m) => n = m | PClass (Root _) => False end).
    { destruct p as [? ? ?|[qs|? ? ? ?|?]|?|?]; cbn in En; congruence. }
    destruct (eqb_bytes (low n) word) eqn:E.
    - apply eqb_bytes_spec in E. left. exists p. split; [reflexivity|]. exists [], ps, n. split; [reflexivity|]. split; [exact M|]. split; [exact E|]. intros q [].
    - apply eqb_bytes_false in E. assert (Mp : match p with Entry m _ _ | Delete m | MissingSemicolon m | PClass (Local m _ _ _) | PClass (External m) => low m <> word | PClass (Root _) => False end).
      { destruct p as [? ? ?|[qs|? ? ? ?|?]|?|?]; cbn in M; try contradiction; congruence. }
      destruct IH as [(q & -> & (l & r & m & -> & H1 & H2 & H3))|(-> & Hn)]; [intros; apply Hr'; now right| |].
      + left. exists q. split; [reflexivity|]. exists (p :: l), r, m. split; [reflexivity|]. split; [exact H1|]. split; [exact H2|]. intros x [<-|Hx]; [exact Mp|exact (H3 x Hx)].
      + right. split; [reflexivity|]. intros q (l & r & m & E' & H1 & H2 & H3). destruct l as [|x l]; injection E' as -> ->.
        * destruct q as [? ? ?|[qs|? ? ? ?|?]|?|?]; cbn in *; try contradiction; congruence.
        * apply (Hn q). exists l, r, m. split; [reflexivity|]. split; [exact H1|]. split; [exact H2|]. intros y Hy. apply H3. now right.
  Qed.
  Lemma first_named_unique : forall ps word p q, first_named low ps word p -> first_named low ps word q -> p = q.
  Proof.
    intros ps word p q (l & r & n & -> & H1 & H2 & H3) (l' & r' & n' & E & H1' & H2' & H3').
    revert l' E H3'. induction l as [|x l IH]; intros [|y l'] E H3'; cbn in E.
    - congruence.
    - injection E as <- _. exfalso. specialize (H3' p (or_introl eq_refl)). destruct p as [? ? ?|[qs|? ? ? ?|?]|?|?]; cbn in *; congruence.
    - injection E as -> _. exfalso. specialize (H3 q (or_introl eq_refl)). destruct q as [? ? ?|[qs|? ? ? ?|?]|?|?]; cbn in *; congruence.
    - injection E as <- E. apply (IH (fun z Hz => H3 z (or_intror Hz)) l' E). intros z Hz. apply H3'. now right.
  Qed.
  Theorem c09_exact : forall prefix ps x, rootless ps ->
    (In x (c09 low prefix ps) <-> exists a s, x = Some (MissingMagazine a s) /\ unknown_magazine low (bs "cfgmagazinewells") (bs "cfgmagazines") prefix ps a s).
  Proof.
    intros prefix ps x Hr. unfold c09.
    destruct (find_named_spec (bs "cfgmagazinewells") ps Hr) as [(w & -> & Hw)|(-> & Hw)].
    2: { split; [intros []|]. intros (a & s & _ & wn & wp & wells & wm & mn & mp & mags & mm & Hw' & _). now apply Hw in Hw'. }
    assert (NW : (forall wn wp wells wm, w <> PClass (Local wn wp wells wm)) -> ~ exists a s, x = Some (MissingMagazine a s) /\ unknown_magazine low (bs "cfgmagazinewells") (bs "cfgmagazines") prefix ps a s).
    { intros N (a & s & _ & wn & wp & wells & wm & mn & mp & mags & mm & Hw' & _). eapply N. eapply first_named_unique; eauto. }
    destruct w as [? ? ?|[?|wn wp wells wm|?]|?|?]; try (split; [intros []|intros Y; exfalso; apply NW in Y; [exact Y|intros; discriminate]]).
    destruct (find_named_spec (bs "cfgmagazines") ps Hr) as [(g & -> & Hg)|(-> & Hg)].
    2: { split; [intros []|]. intros (a & s & _ & wn' & wp' & wells' & wm' & mn & mp & mags & mm & _ & Hg' & _). now apply Hg in Hg'. }
    assert (NG : (forall wn wp wells wm, g <> PClass (Local wn wp wells wm)) -> ~ exists a s, x = Some (MissingMagazine a s) /\ unknown_magazine low (bs "cfgmagazinewells") (bs "cfgmagazines") prefix ps a s).
    { intros N (a & s & _ & wn' & wp' & wells' & wm' & mn & mp & mags & mm & _ & Hg' & _). eapply N. eapply first_named_unique; eauto. }
    destruct g as [? ? ?|[?|mn mp mags mm|?]|?|?]; try (split; [intros []|intros Y; exfalso; apply NG in Y; [exact Y|intros; discriminate]]).
    clear NW NG. set (classes := flat_map _ mags).
    assert (Cl : forall s, In s classes <-> exists p qs b, In (PClass (Local s p qs b)) mags).
    { intros s. unfold classes. rewrite in_flat_map. split.
      - intros (q & Hq & Hs). destruct q as [? ? ?|[?|n p qs b|?]|?|?]; try (now destruct Hs). destruct Hs as [<-|[]]. eauto.
      - intros (p & qs & b & Hq). eexists. split; [exact Hq|]. now left. }
    rewrite in_flat_map. split.
    - intros (well & Hwell & Hx). destruct well as [? ? ?|[?|n p addons b|?]|?|?]; try (now destruct Hx).
      apply in_flat_map in Hx as (addon & Ha & Hx). destruct addon as [name [?|?|?|ex items|? ?|] e|?|?|?]; try (now destruct Hx).
      apply in_flat_map in Hx as (mag & Hm & Hx). destruct mag as [s|?|?|]; try (now destruct Hx).
      destruct (match prefix with Some p => negb (starts_with (low p) (low s)) | None => false end) eqn:Ep; [destruct Hx|].
      destruct (has s classes) eqn:Eh; [destruct Hx|]. destruct Hx as [<-|[]]. exists name, s. split; [reflexivity|].
      exists wn, wp, wells, wm, mn, mp, mags, mm. split; [exact Hw|]. split; [exact Hg|]. split; [exists n, p, addons, b, ex, items, e; auto|]. split.
      + intros p' ->. apply negb_false_iff, starts_spec in Ep. exact Ep.
      + intros p' qs b' Hi. assert (X : has s classes = true) by (apply has_spec, Cl; eauto). congruence.
    - intros (a & s & -> & wn' & wp' & wells' & wm' & mn' & mp' & mags' & mm' & Hw' & Hg' & (n & p & addons & b & ex & items & e & H1 & H2 & H3) & H4 & H5).
      pose proof (first_named_unique _ _ _ _ Hw Hw') as [= <- <- <- <-]. pose proof (first_named_unique _ _ _ _ Hg Hg') as [= <- <- <- <-].
      eexists. split; [exact H1|]. cbv beta iota. apply in_flat_map. eexists. split; [exact H2|]. cbv beta iota. apply in_flat_map. eexists. split; [exact H3|]. cbv beta iota.
      replace (match prefix with Some p => negb (starts_with (low p) (low s)) | None => false end) with false.
      + replace (has s classes) with false; [now left|]. symmetry. apply not_true_iff_false. rewrite has_spec, Cl. intros (p' & qs & b' & Hi). exact (H5 _ _ _ Hi).
      + symmetry. destruct prefix as [p'|]; [|reflexivity]. apply negb_false_iff, starts_spec. now apply H4.
  Qed.

  (** ** Panics *)
  Lemma well_rootless : forall ps, well_made ps -> rootless ps.
  Proof. intros ps H p qs Hp ->. exact (H _ Hp). Qed.
  Lemma within_class : forall ps c p, within ps (PClass c) -> within (class_body c) p -> within ps p.
  Proof.
    intros ps c p (b & Hb & Hc) (b' & Hb' & Hp). revert Hc. induction Hb as [ps|ps qs b Hi Hb IH|ps n pa qs mb b Hi Hb IH]; intros Hc.
    - destruct c as [qs|n pa qs mb|n]; cbn [class_body] in Hb'.
      + exists b'. split; [eapply B_root; eauto|exact Hp].
      + exists b'. split; [eapply B_local; eauto|exact Hp].
      + inversion Hb' as [|? ? ? Hi ?|? ? ? ? ? ? Hi ?]; subst; try (now destruct Hi). destruct Hp.
    - destruct (IH Hc) as (b'' & H1 & H2). exists b''. split; [eapply B_root; eauto|exact H2].
    - destruct (IH Hc) as (b'' & H1 & H2). exists b''. split; [eapply B_local; eauto|exact H2].
  Qed.
  Lemma rootless_class : forall ps c, rootless ps -> within ps (PClass c) -> rootless (class_body c).
  Proof. intros ps c Hr Hc p qs Hp. apply Hr. eapply within_class; eauto. Qed.
  Lemma at_property_some : forall p x, match p with PClass (Local _ None _ true) => False | _ => True end -> at_property p x -> x <> None.
  Proof.
    intros p x Hp [Hx|(-> & _)]; [|discriminate]. rewrite !in_app_iff in Hx. destruct Hx as [Hx|[Hx|[Hx|Hx]]].
    - destruct p as [? [?|?|?|? ?|? ?|] ?|?|?|?]; cbn in Hx; destruct Hx as [<-|[]] || destruct Hx; discriminate.
    - destruct p as [? ? [|]|?|?|?]; cbn in Hx; try (now destruct Hx). destruct v; cbn in Hx; try (now destruct Hx); destruct Hx as [<-|[]]; discriminate.
    - destruct p; cbn in Hx; destruct Hx as [<-|[]] || destruct Hx; discriminate.
    - destruct p as [? ? ?|[?|? [?|] ? [|]|?]|?|?]; cbn in Hx; try (now destruct Hx); destruct Hx as [<-|[]]; discriminate.
  Qed.
  Lemma no_panic : forall st prefix m ps, LintModel.config_manager st = Some m -> well_made ps -> ~ In None (analyze low prefix m ps).
  Proof.
    intros st prefix m ps Hm Hw Hx. pose proof (well_rootless ps Hw) as Hr. apply (analyzed low prefix st m Hm) in Hx as [Hx|[Hx|[Hx|[Hx|[(p & Hp & Hx)|(c & Hc & Hx)]]]]].
    - unfold c02 in Hx. apply in_flat_map in Hx as (e & _ & Hx). destruct ((1 <? length (snd e))%nat && _); [|destruct Hx]. destruct Hx as [[=]|[]].
    - apply c03_exact in Hx as (b & k & _ & _ & [=]).
    - apply c04_exact in Hx as (n & p & [=] & _).
    - destruct (LintModel.enabled _); [|destruct Hx]. apply c09_exact in Hx as (a & s & [=] & _). exact Hr.
    - revert Hx. intros Hx. apply (at_property_some p None); auto. specialize (Hw p Hp). destruct p as [? ? ?|[?|? [?|] ? [|]|?]|?|?]; auto.
    - destruct (LintModel.enabled _); [|destruct Hx]. apply c05_exact in Hx as (n & p & d & [=] & _). destruct Hc as [->|Hc]; [exact Hr|eapply rootless_class; eauto].
  Qed.
  Lemma codes_some : forall l, ~ In None l -> exists xs, codes l = Some xs /\ l = map Some xs.
  Proof.
    induction l as [|[x|] l IH]; intros H; [exists []; auto| |exfalso; apply H; now left].
    destruct IH as (xs & E & ->). { intros Hi. apply H. now right. } exists (x :: xs). cbn [codes]. rewrite E. auto.
  Qed.

  (** ** What can be written *)
  Lemma fold_none : forall A B (f : A -> option B) l,
    fold_right (fun e => option_map2 cons (f e)) (Some []) l = None <-> exists x, In x l /\ f x = None.
  Proof.
    intros A B f l. induction l as [|a l IH]; cbn [fold_right].
    - split; [discriminate|intros (x & [] & _)].
    - destruct (f a) as [b|] eqn:E.
      + cbn [option_map2]. destruct (fold_right _ _ l) eqn:E'.
        * split; [discriminate|]. intros (x & [<-|Hx] & Hn); [congruence|]. assert (X : Some l0 = None) by (apply IH; eauto). discriminate.
        * split; [|auto]. intros _. destruct (proj1 IH eq_refl) as (x & Hx & Hn). exists x. auto using in_cons.
      + cbn. split; [|auto]. intros _. exists a. auto using in_eq.
  Qed.
  Lemma items_none : forall l, tree_items l = None <-> nested l IInvalid.
  Proof.
    assert (I : forall i, tree_item i = None <-> i = IInvalid \/ exists l, i = IArr l /\ nested l IInvalid).
    { induction i as [s|n|l IH|] using item_ind'; cbn [tree_item].
      - split; [discriminate|intros [[=]|(? & [=] & _)]].
      - split; [discriminate|intros [[=]|(? & [=] & _)]].
      - rewrite Forall_forall in IH. destruct (fold_right _ _ l) eqn:E; cbn [option_map].
        + split; [discriminate|]. intros [[=]|(l' & [= <-] & Hn)]. exfalso.
          assert (X : fold_right (fun e => option_map2 cons (tree_item e)) (Some []) l = None); [|congruence]. apply fold_none.
          inversion Hn as [? ? Hi|? l'' ? Hi Hn']; subst; [exists IInvalid; auto|]. exists (IArr l''). split; [exact Hi|]. apply (IH _ Hi). eauto.
        + split; [|auto]. intros _. right. exists l. split; [reflexivity|]. apply fold_none in E as (i & Hi & Hn). apply (IH _ Hi) in Hn as [->|(l' & -> & Hn)]; [now apply N_here|eapply N_in; eauto].
      - split; auto. }
    intros l. unfold tree_items. rewrite fold_none. split.
    - intros (i & Hi & Hn). apply I in Hn as [->|(l' & -> & Hn)]; [now apply N_here|eapply N_in; eauto].
    - intros Hn. inversion Hn as [? ? Hi|? l' ? Hi Hn']; subst; [exists IInvalid; auto|]. exists (IArr l'). split; [exact Hi|]. apply I. eauto.
  Qed.
  Definition bad (p : property) : Prop :=
    match p with
    | Entry _ VInvalid _ | Entry _ (VUnexpectedArr _ _) _ | MissingSemicolon _ | PClass (Root _) => True
    | Entry _ (VArr _ l) _ => nested l IInvalid
    | _ => False
    end.
  Lemma tree_none : forall ps, tree ps = None <-> exists p, within ps p /\ bad p.
  Proof.
    assert (W : forall ps p, In p ps -> within ps p) by (intros ps p Hp; exists ps; split; [constructor|exact Hp]).
    assert (P : forall ps, Forall (Pprop (fun c => tree_class c = None <-> (exists qs, c = Root qs) \/ exists p, within (class_body c) p /\ bad p)) ps ->
      (tree_props ps = None <-> exists p, within ps p /\ bad p)).
    { intros ps F. rewrite Forall_forall in F. unfold tree_props. rewrite fold_none.
      assert (E : forall p, In p ps -> (tree_entry tree_class p = None <-> bad p \/ exists c, p = PClass c /\ exists q, within (class_body c) q /\ bad q)).
      { intros p Hp. specialize (F p Hp). destruct p as [n v e|c|n|n]; cbn [tree_entry].
        - destruct v as [?|?|?|x l|x l|]; cbn [bad]; try (split; [discriminate|intros [[]|(? & [=] & _)]]); try (split; auto).
          + destruct (tree_items l) eqn:El; cbn [option_map]; [discriminate|]. intros _. left. now apply items_none.
          + intros [Hn|(? & [=] & _)]. apply items_none in Hn. now rewrite Hn.
        - cbn [Pprop] in F. rewrite F. split.
          + intros [(qs & ->)|X]; [left; exact I|right; eauto].
          + intros [X|(c' & [= <-] & X)]; [|auto]. destruct c as [qs|? ? ? ?|?]; cbn in X; [eauto|destruct X|destruct X].
        - split; [discriminate|intros [[]|(? & [=] & _)]].
        - cbn [bad]. split; auto. }
      split.
      - intros (p & Hp & Hn). apply (E p Hp) in Hn as [Hb|(c & -> & q & Hq & Hb)]; [eauto|]. exists q. split; [eapply within_class; eauto|exact Hb].
      - intros (p & (b & Hb & Hp) & Hbad). inversion Hb as [|? qs ? Hi Hb'|? n pa qs mb ? Hi Hb']; subst.
        + exists p. split; [exact Hp|]. apply E; auto.
        + eexists. split; [exact Hi|]. apply (E _ Hi). left. exact I.
        + eexists. split; [exact Hi|]. apply (E _ Hi). right. eexists. split; [reflexivity|]. exists p. split; [exists b; auto|exact Hbad]. }
    assert (C : forall c, tree_class c = None <-> (exists qs, c = Root qs) \/ exists p, within (class_body c) p /\ bad p).
    { induction c as [ps IH|n pa ps mb IH|n] using class_ind'; cbn [tree_class class_body].
      - split; eauto.
      - pose proof (P ps IH) as X. unfold tree_props in X. destruct (fold_right _ _ ps); cbn [option_map].
        + split; [discriminate|]. intros [(? & [=])|Y]. apply X in Y. discriminate.
        + split; [|auto]. intros _. right. now apply X.
      - split; [discriminate|]. intros [(? & [=])|(p & (b & Hb & Hp) & _)]. inversion Hb as [|? ? ? Hi ?|? ? ? ? ? ? Hi ?]; subst; try (now destruct Hi). destruct Hp. }
    intros ps. apply P. apply Forall_forall. intros [? ? ?|c|?|?] _; cbn; auto.
  Qed.
  Theorem tree_broken : forall ps, well_made ps -> (tree ps = None <-> broken ps).
  Proof.
    intros ps Hw. rewrite tree_none. unfold broken, unreadable, stray_array, no_semicolon. split.
    - intros (p & Hp & Hb). specialize (Hw p Hp). destruct p as [n [?|?|?|x l|x l|] e|[?|? ? ? ?|?]|n|n]; cbn in Hb; try contradiction.
      + left. exists n, (VArr x l), e. split; [exact Hp|]. right. exists x, l. auto.
      + right. left. exists n, x, l, e. exact Hp.
      + left. exists n, VInvalid, e. auto.
      + right. right. exists n. exact Hp.
    - intros [(n & v & e & Hp & [->|(x & l & [->| ->] & Hn)])|[(n & x & l & e & Hp)|(n & Hp)]]; eexists; (split; [exact Hp|]); cbn; auto.
  Qed.

  (** ** What the parser makes *)
  Section Parse.
    Context (f32_parse : text -> option N) (f32_show : N -> text) (try_eval : text -> option number).
    Definition fine (p : property) : Prop :=
      match p with PClass (Root _) => False | PClass (Local _ None _ true) => False | _ => True end /\ forall n, prop_name p = Some n -> plain n.
    Definition all_fine (ps : list property) : Prop := forall q, within ps q -> fine q.
    Definition made (p : property) : Prop := all_fine [p].
    Lemma made_list : forall ps, Forall made ps -> all_fine ps.
    Proof.
      intros ps F p (b & Hb & Hp). rewrite Forall_forall in F. inversion Hb as [|? qs ? Hi Hb'|? n pa qs mb ? Hi Hb']; subst.
      - apply (F p Hp). exists [p]. split; [constructor|now left].
      - apply (F _ Hi). exists b. split; [eapply B_root; [now left|exact Hb']|exact Hp].
      - apply (F _ Hi). exists b. split; [eapply B_local; [now left|exact Hb']|exact Hp].
    Qed.
    Lemma made_flat : forall p, (forall c, p <> PClass c) -> (forall n, prop_name p = Some n -> plain n) -> made p.
    Proof.
      intros p Hn Hp q (b & Hb & Hq). inversion Hb as [|? qs ? Hi Hb'|? n pa qs mb ? Hi Hb']; subst; try (destruct Hi as [->|[]]; now edestruct Hn).
      destruct Hq as [<-|[]]. split; [|exact Hp]. destruct p; auto. now edestruct Hn.
    Qed.
    Lemma made_external : forall n, plain n -> made (PClass (External n)).
    Proof.
      intros n Hp q (b & Hb & Hq). inversion Hb as [|? qs ? Hi Hb'|? n' pa qs mb ? Hi Hb']; subst; try (destruct Hi as [[=]|[]]). destruct Hq as [<-|[]].
      split; [exact I|]. intros ? [= <-]. exact Hp.
    Qed.
    Lemma made_local : forall n pa ps mb, plain n -> all_fine ps -> (pa = None -> mb = false) -> made (PClass (Local n pa ps mb)).
    Proof.
      intros n pa ps mb Hp Hw Hm q (b & Hb & Hq). inversion Hb as [|? qs ? Hi Hb'|? n' pa' qs mb' ? Hi Hb']; subst; try (destruct Hi as [[= -> -> -> ->]|[]]); try (destruct Hi as [[=]|[]]).
      - destruct Hq as [<-|[]]. split; [|intros ? [= <-]; exact Hp]. destruct pa as [pa|]; [exact I|]. now rewrite Hm.
      - apply Hw. exists b. auto.
    Qed.
    Lemma made_name : forall p, made p -> plain (ParseModel.parsed_name p).
    Proof.
      intros p Hp. assert (X : fine p) by (apply Hp; exists [p]; split; [constructor|now left]). destruct X as [X1 X2].
      destruct p as [n v e|[qs|n pa qs mb|n]|n|n]; cbn [ParseModel.parsed_name]; try (apply X2; reflexivity). destruct X1.
    Qed.
    Lemma repeated_all : forall A (P : A -> Prop) f (p : ParseModel.parser A), (forall s a r, p s = ParseModel.POk a r -> P a) ->
      forall s l r, ParseModel.repeated f p s = ParseModel.POk l r -> Forall P l.
    Proof.
      intros A P f p Hp. induction f as [|f IH]; intros s l r E; cbn [ParseModel.repeated] in E; [discriminate|].
      destruct (p s) as [a r'| | | |] eqn:Ep; try discriminate; [|injection E as <- _; constructor].
      destruct (ParseModel.repeated f p r') as [l' r''| | | |] eqn:Er; try discriminate. injection E as <- _. constructor; eauto.
    Qed.
    Definition yields {A} (P : A -> Prop) (p : ParseModel.parser A) : Prop := forall s a r, p s = ParseModel.POk a r -> P a.
    Lemma yields_bind : forall A B (Q : A -> Prop) (P : B -> Prop) (p : ParseModel.parser A) (k : A -> ParseModel.parser B),
      yields Q p -> (forall a, Q a -> yields P (k a)) -> yields P (ParseModel.pbind p k).
    Proof. intros A B Q P p k Hp Hk s b r E. unfold ParseModel.pbind in E. destruct (p s) eqn:Ep; try discriminate. eapply Hk; eauto. Qed.
    Lemma yields_any : forall A (p : ParseModel.parser A), yields (fun _ => True) p.
    Proof. intros A p s a r _. exact I. Qed.
    Lemma yields_ret : forall A (P : A -> Prop) a, P a -> yields P (ParseModel.pret a).
    Proof. intros A P a H s b r [= <- _]. exact H. Qed.
    Lemma yields_map : forall A B (Q : A -> Prop) (P : B -> Prop) (f : A -> B) p, yields Q p -> (forall a, Q a -> P (f a)) -> yields P (ParseModel.pmap f p).
    Proof. intros A B Q P f p Hp Hf. unfold ParseModel.pmap. eapply yields_bind; [exact Hp|]. intros. now apply yields_ret, Hf. Qed.
    Lemma yields_padded : forall A (P : A -> Prop) p, yields P p -> yields P (ParseModel.padded p).
    Proof. intros A P p Hp s a r E. unfold ParseModel.padded in E. destruct (p (trim_start s)) eqn:Ep; try discriminate. injection E as <- _. eapply Hp; eauto. Qed.
    Lemma yields_alt : forall A (P : A -> Prop) p q, yields P p -> yields P q -> yields P (ParseModel.alt p q).
    Proof. intros A P p q Hp Hq s a r E. unfold ParseModel.alt in E. destruct (p s) eqn:Ep; try discriminate; [injection E as <- _; eapply Hp; eauto|eapply Hq; eauto]. Qed.

    Lemma yields_ident : yields plain ParseModel.ident.
    Proof.
      intros s a r E. unfold ParseModel.ident, ParseModel.at_least in E.
      destruct (ParseModel.repeated (S (length s)) (ParseModel.sat ParseModel.ident_char) s) as [l r'| | | |] eqn:El; try discriminate.
      apply (repeated_all _ (fun c => ParseModel.ident_char c = true)) in El.
      - destruct ((length l <? 1)%nat); [discriminate|]. injection E as <- _. intros Hi. rewrite Forall_forall in El. apply El in Hi. discriminate.
      - intros t c q. unfold ParseModel.sat. destruct t as [|d t]; [discriminate|]. destruct (ParseModel.ident_char d) eqn:Ed; [|discriminate]. intros [= <- _]. exact Ed.
    Qed.
    Lemma yields_head : yields plain ParseModel.class_head.
    Proof. unfold ParseModel.class_head. eapply yields_bind; [apply yields_any|]. intros _ _. apply yields_padded, yields_ident. Qed.
    Lemma property_made : forall f, yields made (ParseModel.property_p f32_parse f32_show try_eval f).
    Proof.
      induction f as [|f IH]; [intros s a r [=]|]. cbn [ParseModel.property_p]. cbv zeta.
      eapply (yields_bind _ _ made); [|intros p Hp; eapply yields_bind; [apply yields_any|]; intros [semi|] _; apply yields_ret;
        [exact Hp|apply made_flat; [intros; discriminate|]; intros ? [= <-]; now apply made_name]].
      apply yields_alt; [|apply yields_alt].
      - eapply (yields_map _ _ (fun c => made (PClass c))); [|auto]. apply yields_alt; [|apply yields_alt].
        + eapply (yields_bind _ _ (fun np => plain (fst np))).
          { apply yields_padded. eapply yields_bind; [apply yields_head|]. intros n Hn. eapply yields_bind; [apply yields_any|]. intros pa _. now apply yields_ret. }
          intros [n pa] Hn. eapply (yields_bind _ _ all_fine).
          * eapply yields_bind; [apply yields_any|]. intros _ _. eapply (yields_bind _ _ all_fine).
            -- apply yields_padded. intros s l r E. apply made_list. eapply repeated_all; [|exact E]. intros s' a r'. apply yields_padded. exact IH.
            -- intros ps Hps. eapply yields_bind; [apply yields_any|]. intros _ _. now apply yields_ret.
          * intros ps Hps. apply yields_ret. apply made_local; auto.
        + apply yields_padded. eapply yields_bind; [apply yields_head|]. intros n Hn. eapply yields_bind; [apply yields_any|]. intros pa _. apply yields_ret.
          apply made_local; [exact Hn| |discriminate]. apply made_list. constructor.
        + eapply yields_map; [apply yields_padded, yields_head|]. intros n Hn. now apply made_external.
      - eapply yields_map; [eapply yields_bind; [apply yields_any|]; intros _ _; apply yields_ident|]. intros n Hn. apply made_flat; [intros; discriminate|]. intros ? [= <-]. exact Hn.
      - eapply yields_bind; [apply yields_padded, yields_ident|]. intros n Hn. eapply yields_bind; [apply yields_any|]. intros [v e] _. apply yields_ret.
        apply made_flat; [intros; discriminate|]. intros ? [= <-]. exact Hn.
    Qed.
    Lemma parsed_fine : forall s c r, ParseModel.parse_config f32_parse f32_show try_eval s = ParseModel.POk c r -> all_fine c.
    Proof.
      intros s c r. unfold ParseModel.parse_config. apply yields_alt.
      - eapply (yields_bind _ _ all_fine).
        + intros s' l r' E. apply made_list. eapply repeated_all; [|exact E]. intros ? ? ?. apply yields_padded. apply property_made.
        + intros ps Hps s' a r' E. destruct s'; [|discriminate]. injection E as <- _. exact Hps.
      - apply yields_padded. eapply (yields_bind _ _ all_fine).
        + apply yields_ret. apply made_list. constructor.
        + intros ps Hps s' a r' E. destruct s'; [|discriminate]. injection E as <- _. exact Hps.
    Qed.
    Theorem parsed_well : forall s c r, ParseModel.parse_config f32_parse f32_show try_eval s = ParseModel.POk c r -> well_made c.
    Proof. intros s c r H p Hp. exact (proj1 (parsed_fine s c r H p Hp)). Qed.
    Theorem parsed_plain : forall s c r p n, ParseModel.parse_config f32_parse f32_show try_eval s = ParseModel.POk c r -> within c p -> prop_name p = Some n -> plain n.
    Proof. intros s c r p n H Hp. exact (proj2 (parsed_fine s c r H p Hp) n). Qed.
  End Parse.
End Lints.
