(** C62 to C65: what the analysis of a config finds, and what becomes of the config. *)
From Coq Require Import String.
From Verif Require Import Base.Tactics Base.Bytes Base.Ascii Base.Text Base.Sort Config.RapModel Config.RapTree Config.RapProofs Config.RapProps
  Config.AnalyzeSpec Config.AnalyzeModel Config.AnalyzeWalk Config.AnalyzeProofs Config.AnalyzeMore Config.AnalyzeTree.
From Verif Require Config.RapSpec Config.ParseModel Bin.LintModel Bin.LintSpec Bin.LintProps.
Local Open Scope N_scope.
Local Open Scope list_scope.

(** The lints that settings can turn off are on or not; the others always are. *)
Definition is_on (st : LintModel.settings) (l : LintModel.lint) : bool := LintModel.enabled (LintModel.effective (LintModel.config_settings st) l).

(** ** One property *)
Definition of_property (p : property) (x : code) : Prop :=
  match x with
  | UnexpectedArray n => exists ex l e, p = Entry n (VUnexpectedArr ex l) e
  | ExpectedArray n => exists v, p = Entry n v true /\ v <> VInvalid /\ forall ex l, v <> VArr ex l
  | NoSemicolon n => p = MissingSemicolon n
  | MissingBraces pa => exists n ps, p = PClass (Local n (Some pa) ps true)
  | InvalidValue => exists n v e, p = Entry n v e /\ (v = VInvalid \/ exists ex l, (v = VArr ex l \/ v = VUnexpectedArr ex l) /\ nested l IInvalid)
  | _ => False
  end.
Lemma at_property_iff : forall p x, at_property p (Some x) <-> of_property p x.
Proof.
  intros p x. unfold at_property. rewrite !in_app_iff. split.
  - intros [[Hx|[Hx|[Hx|Hx]]]|(E & n & v & e & -> & Hv)].
    + destruct p as [n [?|?|?|? ?|? ?|] e|?|?|?]; cbn in Hx; try (now destruct Hx). destruct Hx as [[= <-]|[]]. cbn. eauto.
    + destruct p as [n v [|]|?|?|?]; cbn in Hx; try (now destruct Hx).
      destruct v; cbn in Hx; try (now destruct Hx); destruct Hx as [[= <-]|[]]; cbn; eexists; (split; [reflexivity|]); split; intros; discriminate.
    + destruct p; cbn in Hx; try (now destruct Hx). destruct Hx as [[= <-]|[]]. reflexivity.
    + destruct p as [? ? ?|[?|n [pa|] ps [|]|?]|?|?]; cbn in Hx; try (now destruct Hx); destruct Hx as [E|[]]; try discriminate. injection E as <-. cbn. eauto.
    + injection E as ->. cbn. eauto 8.
  - intros H. destruct x; cbn in H; try contradiction.
    + right. split; [reflexivity|exact H].
    + left. left. destruct H as (ex & l & e & ->). now left.
    + left. right. left. destruct H as (v & -> & H1 & H2). cbn. destruct v; try (now left); [now destruct (H2 expand l)|congruence].
    + left. right. right. left. rewrite H. now left.
    + left. right. right. right. destruct H as (n & ps & ->). now left.
Qed.

Section Any.
  (** For any case conversion, any project prefix, and any settings that the check of the project accepts. *)
  Context (low : bytes -> bytes) (prefix : option bytes) (st : LintModel.settings) (m : LintModel.manager unit)
          (Accepted : LintModel.config_manager st = Some m).
  Notation found c x := (In (Some x) (analyze low prefix m c)).

  Lemma found_iff : forall c x, well_made c -> found c x <->
    match x with
    | DuplicateProperty _ => In (Some x) (c02 low c)
    | DuplicateClasses _ => In (Some x) (c03 low c)
    | ExternalMissing _ _ => In (Some x) (c04 low c)
    | ParentCase n p d => is_on st p05 = true /\ exists b, body c b /\ misspelled low (headers b) n p d
    | MissingMagazine _ _ => is_on st p09 = true /\ In (Some x) (c09 low prefix c)
    | _ => exists p, within c p /\ of_property p x
    end.
  Proof using Accepted.
    intros c x Hw. pose proof (well_rootless c Hw) as Hr. rewrite (analyzed low prefix st m Accepted).
    assert (N2 : In (Some x) (c02 low c) -> exists ns, x = DuplicateProperty ns).
    { unfold c02. intros H. apply in_flat_map in H as (e & _ & H). destruct ((1 <? length (snd e))%nat && _); [|destruct H]. destruct H as [[= <-]|[]]. eauto. }
    assert (N3 : In (Some x) (c03 low c) -> exists ns, x = DuplicateClasses ns) by (intros H; apply c03_exact in H as (? & ? & _ & _ & [= ->]); eauto).
    assert (N4 : In (Some x) (c04 low c) -> exists n p, x = ExternalMissing n p) by (intros H; apply c04_exact in H as (? & ? & [= ->] & _); eauto).
    assert (N9 : In (Some x) (if is_on st p09 then c09 low prefix c else []) <-> is_on st p09 = true /\ In (Some x) (c09 low prefix c)).
    { destruct (is_on st p09); split; [auto|intros [_ H]; auto|intros []|intros [[=] _]]. }
    assert (N9' : In (Some x) (c09 low prefix c) -> exists n p, x = MissingMagazine n p) by (intros H; apply c09_exact in H as (? & ? & [= ->] & _); [eauto|exact Hr]).
    assert (N5 : (exists c', (c' = Root c \/ within c (PClass c')) /\ In (Some x) (if is_on st p05 then c05 low c' else [])) <->
      is_on st p05 = true /\ exists n p d, x = ParentCase n p d /\ exists b, body c b /\ misspelled low (headers b) n p d).
    { destruct (is_on st p05); [|split; [intros (? & _ & [])|intros [[=] _]]]. split.
      - intros (c' & Hc & H). assert (Hr' : rootless (class_body c')) by (destruct Hc as [->|Hc]; [exact Hr|eapply rootless_class; eauto]).
        apply (c05_exact low c' _ Hr') in H as (n & p & d & [= ->] & Hm). split; [reflexivity|]. exists n, p, d. split; [reflexivity|].
        destruct Hc as [->|(b & Hb & Hi)]; [exists c; split; [constructor|exact Hm]|].
        exists (class_body c'). split; [|exact Hm]. clear - Hb Hi Hm. destruct c' as [qs|n' pa qs mb|n'].
        + induction Hb; [eapply B_root; [exact Hi|constructor]|eapply B_root; eauto|eapply B_local; eauto].
        + induction Hb; [eapply B_local; [exact Hi|constructor]|eapply B_root; eauto|eapply B_local; eauto].
        + exfalso. destruct Hm as ([|? ?] & ? & E & _); discriminate.
      - intros (_ & n & p & d & -> & b & Hb & Hm). revert Hr Hw. 
        assert (G : forall c b, body c b -> rootless c -> b = c \/ exists c', within c (PClass c') /\ class_body c' = b).
        { clear. intros c b Hb. induction Hb as [c|c qs b Hi Hb IH|c n pa qs mb b Hi Hb IH]; intros Hr; [now left| |].
          - exfalso. apply (Hr (PClass (Root qs)) qs); [|reflexivity]. exists c. split; [constructor|exact Hi].
          - right. assert (Hw : within c (PClass (Local n pa qs mb))) by (exists c; split; [constructor|exact Hi]).
            destruct IH as [->|(c' & Hc & <-)]; [exact (rootless_class _ _ Hr Hw)|exists (Local n pa qs mb); auto|].
            exists c'. split; [|reflexivity]. exact (within_class _ _ _ Hw Hc). }
        intros Hr Hw. destruct (G c b Hb Hr) as [->|(c' & Hc & <-)].
        + exists (Root c). split; [now left|]. apply c05_exact; [exact Hr|]. eauto 6.
        + exists c'. split; [now right|]. apply c05_exact; [eapply rootless_class; eauto|]. eauto 6. }
    assert (NP : (exists p, within c p /\ at_property p (Some x)) <-> exists p, within c p /\ of_property p x).
    { split; intros (p & Hp & H); exists p; (split; [exact Hp|]); now apply at_property_iff. }
    unfold is_on in *. rewrite NP, N5, N9. clear N5 N9 NP. split.
    - intros [H|[H|[H|[[H0 H]|[H|(H0 & n & p & d & -> & H)]]]]].
      + destruct (N2 H) as (? & ->). exact H.
      + destruct (N3 H) as (? & ->). exact H.
      + destruct (N4 H) as (? & ? & ->). exact H.
      + destruct (N9' H) as (? & ? & ->). auto.
      + destruct H as (p & Hp & H). destruct x; try (now destruct H); eauto.
      + auto.
    - destruct x; intros H; auto 8.
      + right. right. right. right. right. destruct H as [H0 H]. split; [exact H0|]. eauto 6.
  Qed.

  (** C62. Under settings that are accepted, a config either is written or has errors reported against it; the conversion does
      not panic and does not fail. What is written is the raP form of the tree. *)
  Theorem C62_reported_or_written : forall c, well_made c ->
    (exists errors, convert low prefix m c = Reported errors /\ errors <> [] /\ forall x, In x errors <-> found c x) \/
    (~ broken c /\ (forall x, ~ found c x) /\ exists es f, tree c = Some es /\ convert low prefix m c = Written f /\
       (config_ok c -> blen f < 2 ^ 32 -> RapSpec.rap_file true f es)).
  Proof using Accepted.
    intros c Hw. pose proof (no_panic low st prefix m c Accepted Hw) as Hn. destruct (codes_some _ Hn) as (xs & Hc & E).
    assert (F : forall l, filter is_error l = l) by (induction l as [|x l IH]; cbn; [auto|now f_equal]).
    unfold convert. rewrite Hc, F. destruct xs as [|x xs].
    - right. assert (Hf : forall x, ~ found c x) by (intros x; rewrite E; intros []).
      assert (Hb : ~ broken c).
      { intros [(n & v & e & Hp & Hv)|[(n & ex & l & e & Hp)|(n & Hp)]].
        - apply (Hf InvalidValue). apply found_iff; [exact Hw|]. exists (Entry n v e). split; [exact Hp|]. cbn. eauto 6.
        - apply (Hf (UnexpectedArray n)). apply found_iff; [exact Hw|]. eexists. split; [exact Hp|]. cbn. eauto.
        - apply (Hf (NoSemicolon n)). apply found_iff; [exact Hw|]. eexists. split; [exact Hp|]. reflexivity. }
      split; [exact Hb|]. split; [exact Hf|]. destruct (tree c) as [es|] eqn:Et; [|exfalso; apply Hb, tree_broken; auto].
      destruct (C13_lengths_exact c ltac:(congruence)) as (f & Hr & Hl). exists es, f. split; [reflexivity|]. rewrite Hr. split; [reflexivity|].
      intros Hok Hlen. destruct (C12_rapify_decodes c es Et Hok) as (f' & Hr' & Hf' & _). { intros n Hn'. rewrite Hl in Hn'. injection Hn' as <-. exact Hlen. }
      rewrite Hr in Hr'. injection Hr' as <-. exact Hf'.
    - left. exists (x :: xs). split; [reflexivity|]. split; [discriminate|]. intros y. rewrite E. split; [apply in_map|].
      intros H. apply in_map_iff in H as (y' & [= ->] & H). exact H.
  Qed.
  (** What cannot be written is reported, whatever else the settings say. *)
  Theorem C62_broken_reported : forall c, well_made c -> broken c ->
    exists errors x, convert low prefix m c = Reported errors /\ In x errors /\
      (x = InvalidValue \/ (exists n, x = UnexpectedArray n) \/ (exists n, x = NoSemicolon n)).
  Proof using Accepted.
    intros c Hw Hb. destruct (C62_reported_or_written c Hw) as [(errors & E & _ & Hin)|(Hn & _)]; [|contradiction].
    exists errors. destruct Hb as [(n & v & e & Hp & Hv)|[(n & ex & l & e & Hp)|(n & Hp)]].
    - exists InvalidValue. split; [exact E|]. split; [|auto]. apply Hin, found_iff; [exact Hw|]. exists (Entry n v e). split; [exact Hp|]. cbn. eauto 6.
    - exists (UnexpectedArray n). split; [exact E|]. split; [|eauto]. apply Hin, found_iff; [exact Hw|]. eexists. split; [exact Hp|]. cbn. eauto.
    - exists (NoSemicolon n). split; [exact E|]. split; [|eauto]. apply Hin, found_iff; [exact Hw|]. eexists. split; [exact Hp|]. reflexivity.
  Qed.
  (** From the text: whatever config file the parser reads to its end without repairing anything. *)
  Theorem C62_text_converts : forall f32_parse f32_show try_eval s c rest,
    ParseModel.parse_config f32_parse f32_show try_eval s = ParseModel.POk c rest ->
    (exists errors, convert low prefix m c = Reported errors /\ errors <> []) \/ exists f, convert low prefix m c = Written f.
  Proof using Accepted.
    intros fp fs te s c rest Hs. destruct (C62_reported_or_written c (parsed_well fp fs te s c rest Hs)) as [(e & E & Hn & _)|(_ & _ & es & f & _ & E & _)]; eauto.
  Qed.

  (** C63. Two things of one name at one place, not both classes, are reported, once for each name and place, with all the
      names; and nothing else is. *)
  Theorem C63_properties_exact : forall c, well_made c -> dotless low c ->
    exists paths, NoDup paths /\ (forall path, In path paths <-> clash low c path) /\
      filter (fun x => match x with Some (DuplicateProperty _) => true | _ => false end) (analyze low prefix m c) =
      map (fun path => Some (DuplicateProperty (names_at low c path))) paths.
  Proof using Accepted.
    intros c Hw Hd. destruct (c02_exact low c Hd) as (paths & Hnd & Hin & E). exists paths. split; [exact Hnd|]. split; [exact Hin|]. rewrite <- E.
    set (f := fun x : finding => match x with Some (DuplicateProperty _) => true | _ => false end).
    assert (None_ : forall l, (forall ns, ~ In (Some (DuplicateProperty ns)) l) -> filter f l = []).
    { induction l as [|x l IH]; intros H; [reflexivity|]. cbn [filter]. destruct (f x) eqn:Ef.
      - exfalso. destruct x as [[]|]; try discriminate. eapply H. now left.
      - apply IH. intros ns Hi. apply (H ns). now right. }
    assert (All : filter f (c02 low c) = c02 low c).
    { rewrite E. clear. induction paths as [|p ps IH]; [reflexivity|]. cbn [map filter f]. now rewrite IH. }
    change (filter f (analyze low prefix m c) = c02 low c). unfold analyze. rewrite (run_config low prefix st m Accepted), (run_class low prefix st m Accepted), <- !app_assoc, filter_app, All.
    rewrite None_; [apply app_nil_r|]. intros ns Hi. rewrite !in_app_iff in Hi. pose proof (well_rootless c Hw) as Hr.
    destruct Hi as [Hi|[Hi|[Hi|[Hi|Hi]]]].
    - apply c03_exact in Hi as (? & ? & _ & _ & [=]).
    - apply c04_exact in Hi as (? & ? & [=] & _).
    - destruct (LintModel.enabled _); [|destruct Hi]. apply c09_exact in Hi as (? & ? & [=] & _). exact Hr.
    - destruct (LintModel.enabled _); [|destruct Hi]. apply c05_exact in Hi as (? & ? & ? & [=] & _). exact Hr.
    - apply (walk low prefix st m Accepted) in Hi as [(p & _ & Hi)|(c' & Hc & Hi)].
      + now apply at_property_iff in Hi.
      + destruct (LintModel.enabled _); [|destruct Hi]. apply c05_exact in Hi as (? & ? & ? & [=] & _). eapply rootless_class; eauto.
  Qed.
  (** Two classes of one name between the same braces are reported, with all the names, and nothing else is. *)
  Theorem C63_classes_exact : forall c names, well_made c ->
    (found c (DuplicateClasses names) <->
     exists b k, body c b /\ names = classes_called low b k /\ (2 <= length names)%nat).
  Proof using Accepted.
    intros c names Hw. rewrite found_iff by exact Hw. rewrite c03_exact. unfold doubled. split.
    - intros (b & k & Hb & Hl & [= ->]). eauto.
    - intros (b & k & Hb & -> & Hl). eauto 6.
  Qed.

  (** C64. A class whose parent is not declared before it is reported, and no other. *)
  Theorem C64_missing_parents_exact : forall c n p, well_made c -> (found c (ExternalMissing n p) <-> orphan low c n p).
  Proof using Accepted.
    intros c n p Hw. rewrite found_iff by exact Hw. rewrite c04_exact. split; [intros (? & ? & [= <- <-] & H); exact H|eauto].
  Qed.
  (** A parent written otherwise than where it is defined, as seen from the file or from within any one class, is reported, if
      the lint is on. *)
  Theorem C64_parent_case_exact : forall c n p d, well_made c ->
    (found c (ParentCase n p d) <-> is_on st p05 = true /\ exists b, body c b /\ misspelled low (headers b) n p d).
  Proof using Accepted. intros c n p d Hw. now rewrite found_iff by exact Hw. Qed.

  (** C65. The lints of single properties, and of magazines. *)
  Theorem C65_values_exact : forall c, well_made c -> (found c InvalidValue <-> unreadable c).
  Proof using Accepted.
    intros c Hw. rewrite found_iff by exact Hw. unfold unreadable. cbn [of_property]. split.
    - intros (p & Hp & n & v & e & -> & Hv). eauto.
    - intros (n & v & e & Hp & Hv). eauto 8.
  Qed.
  Theorem C65_arrays_exact : forall c n, well_made c ->
    (found c (UnexpectedArray n) <-> stray_array c n) /\
    (found c (ExpectedArray n) <-> exists v, within c (Entry n v true) /\ v <> VInvalid /\ forall ex l, v <> VArr ex l).
  Proof using Accepted.
    intros c n Hw. rewrite !found_iff by exact Hw. unfold stray_array. cbn [of_property]. split; split.
    - intros (p & Hp & ex & l & e & ->). eauto.
    - intros (ex & l & e & Hp). eauto 6.
    - intros (p & Hp & v & -> & Hv). eauto.
    - intros (v & Hp & Hv). eauto 6.
  Qed.
  Theorem C65_punctuation_exact : forall c n, well_made c ->
    (found c (NoSemicolon n) <-> no_semicolon c n) /\
    (found c (MissingBraces n) <-> exists name ps, within c (PClass (Local name (Some n) ps true))).
  Proof using Accepted.
    intros c n Hw. rewrite !found_iff by exact Hw. unfold no_semicolon. cbn [of_property]. split; split.
    - now intros (p & Hp & ->).
    - eauto.
    - intros (p & Hp & name & ps & ->). eauto.
    - intros (name & ps & Hp). eauto 6.
  Qed.
  Theorem C65_magazines_exact : forall c array mag, well_made c ->
    (found c (MissingMagazine array mag) <->
     is_on st p09 = true /\ unknown_magazine low (bs "cfgmagazinewells") (bs "cfgmagazines") prefix c array mag).
  Proof using Accepted.
    intros c array mag Hw. rewrite found_iff by exact Hw. rewrite c09_exact by now apply well_rootless. split.
    - intros (H & a & s & [= <- <-] & Hu). auto.
    - intros (H & Hu). eauto.
  Qed.
End Any.
Print Assumptions C62_reported_or_written.
Print Assumptions C62_broken_reported.
Print Assumptions C62_text_converts.
Print Assumptions C63_properties_exact.
Print Assumptions C63_classes_exact.
Print Assumptions C64_missing_parents_exact.
Print Assumptions C64_parent_case_exact.
Print Assumptions C65_values_exact.
Print Assumptions C65_arrays_exact.
Print Assumptions C65_punctuation_exact.
Print Assumptions C65_magazines_exact.

(** What the parser makes has no dots in its names, as long as lower-casing puts none in. *)
Theorem C63_parsed_dotless : forall low, (forall s, ~ In 46 s -> ~ In 46 (low s)) -> forall fp fs te s c rest,
  ParseModel.parse_config fp fs te s = ParseModel.POk c rest -> well_made c /\ dotless low c.
Proof.
  intros low Hl fp fs te s c rest H. split; [exact (parsed_well fp fs te s c rest H)|]. intros p Hp.
  pose proof (parsed_plain fp fs te s c rest p) as X. destruct p as [n v e|[qs|n pa qs mb|n]|n|n]; auto; apply Hl; apply (X n); auto.
Qed.
Print Assumptions C63_parsed_dotless.

(** ** Cases *)
Definition defaults : LintModel.settings := LintModel.Settings [] [] [].
(** [class A {}; class B: a {};] and the like. *)
Definition local_ (n : string) (p : option string) (ps : list property) : property := PClass (Local (bs n) (option_map bs p) ps false).
Definition entry_ (n : string) (v : value) : property := Entry (bs n) v false.
Definition number_ : value := VNum (Int32 1%Z).
Definition with_manager {A} (st : LintModel.settings) (f : LintModel.manager unit -> A) : option A := option_map f (LintModel.config_manager st).

Example some_settings_accepted : exists m, LintModel.config_manager defaults = Some m.
Proof. eexists. vm_compute. reflexivity. Qed.
Example a_config_is_written : exists f, with_manager defaults (fun m => convert ascii_lower None m [local_ "A" None [entry_ "x" number_]; local_ "B" (Some "A"%string) []]) = Some (Written f).
Proof. eexists. vm_compute. reflexivity. Qed.
Example a_config_is_reported :
  with_manager defaults (fun m => convert ascii_lower None m
    [local_ "A" None [entry_ "x" number_; entry_ "X" VInvalid; PClass (External (bs "X"))]; PClass (External (bs "a")); local_ "B" (Some "C"%string) []; MissingSemicolon (bs "y")]) =
  Some (Reported [DuplicateProperty [bs "x"; bs "X"]; DuplicateClasses [bs "A"; bs "a"]; ExternalMissing (bs "B") (bs "C"); InvalidValue; NoSemicolon (bs "y")]).
Proof. vm_compute. reflexivity. Qed.
Example well_made_case : well_made [local_ "A" None [entry_ "x" number_]; MissingSemicolon (bs "y")] /\ broken [local_ "A" None [entry_ "x" number_]; MissingSemicolon (bs "y")].
Proof.
  split.
  - intros p (b & Hb & Hp). inversion Hb as [?|? ? ? Hi _|? ? ? ? ? ? Hi Hb']; subst.
    + destruct Hp as [<-|[<-|[]]]; exact I.
    + destruct Hi as [[=]|[[=]|[]]].
    + destruct Hi as [[= <- <- <- <-]|[[=]|[]]]. inversion Hb' as [?|? ? ? Hi _|? ? ? ? ? ? Hi _]; subst; [destruct Hp as [<-|[]]; exact I|destruct Hi as [[=]|[]]|destruct Hi as [[=]|[]]].
  - right. right. exists (bs "y"). eexists. split; [constructor|right; now left].
Qed.

(** The severity that a project sets for these lints does not count: what is set to be a warning stops the build. *)
Theorem C62_severity_refuted :
  exists st c m errors, LintModel.config_manager st = Some m /\
    LintModel.config_severity (LintModel.effective (LintModel.config_settings st) p05) = ExecModel.SWarning /\
    convert ascii_lower None m c = Reported errors /\ forall x, In x errors -> exists n p d, x = ParentCase n p d.
Proof.
  exists defaults, [local_ "A" None []; local_ "B" (Some "a"%string) []]. eexists. eexists. split; [vm_compute; reflexivity|].
  split; [vm_compute; reflexivity|]. split; [vm_compute; reflexivity|]. intros x [<-|[]]. eauto.
Qed.
(** Of two classes the inner of which is the only one called as the parent of a third, outside: not reported, although no class
    of that name is there to inherit from. *)
Theorem C64_hidden_parent_refuted :
  exists c n p m, LintModel.config_manager defaults = Some m /\ In (PClass (Local n (Some p) [] false)) c /\
    (forall q, In q c -> match q with PClass (Local k _ _ _) | PClass (External k) => ascii_lower k <> ascii_lower p | _ => True end) /\
    analyze ascii_lower None m c = [].
Proof.
  exists [local_ "A" None [local_ "C" None []]; local_ "B" (Some "C"%string) []], (bs "B"), (bs "C"). eexists. split; [vm_compute; reflexivity|].
  split; [right; now left|]. split; [|vm_compute; reflexivity]. intros q [<-|[<-|[]]]; vm_compute; discriminate.
Qed.
(** A class that inherits from its own name, with no other of that name: not reported. *)
Theorem C64_own_parent_refuted :
  exists m, LintModel.config_manager defaults = Some m /\ analyze ascii_lower None m [local_ "A" (Some "A"%string) []] = [].
Proof. eexists. split; vm_compute; reflexivity. Qed.
(** The names of magazines are compared by case, although classes are not. *)
Theorem C65_magazine_case_refuted :
  exists m c array mag, LintModel.config_manager defaults = Some m /\
    In (Some (MissingMagazine array mag)) (analyze ascii_lower None m c) /\
    exists n p ps b k q qs b', In (PClass (Local n p ps b)) c /\ ascii_lower n = bs "cfgmagazines" /\
      In (PClass (Local k q qs b')) ps /\ ascii_lower k = ascii_lower mag.
Proof.
  eexists. exists [local_ "CfgMagazineWells" None [local_ "Well" None [entry_ "mags" (VArr false [IStr (bs "my_mag")])]]; local_ "CfgMagazines" None [local_ "My_Mag" None []]].
  exists (bs "mags"), (bs "my_mag"). split; [vm_compute; reflexivity|]. split; [vm_compute; auto|].
  exists (bs "CfgMagazines"), None, [local_ "My_Mag" None []], false, (bs "My_Mag"), None, [], false. repeat split; [right; now left|now left].
Qed.
Print Assumptions C62_severity_refuted.
Print Assumptions C64_hidden_parent_refuted.
Print Assumptions C64_own_parent_refuted.
Print Assumptions C65_magazine_case_refuted.
