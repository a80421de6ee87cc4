(** The lints on names and needless words: C76. *)
From Coq Require Import String.
From Verif Require Import Base.Tactics Base.Bytes Base.Ascii Base.Text Base.Sort Sqf.Ast Sqf.ParseModel Sqf.ParseSpec Sqf.ParseProofs Sqf.ParseComplete Sqf.ParseProps Sqf.LexModel Sqf.LexSpec Sqf.LexProofs Sqf.SourceModel Sqf.SourceSpec Sqf.SourceProofs Sqf.SourceBack Sqf.OptimizeModel Sqf.OptimizeSpec
  Sqf.WalkModel Sqf.WalkSpec Sqf.WalkProps Sqf.SuggestSpec Sqf.SuggestProofs Sqf.SuggestProps Sqf.SuggestCases Sqf.NameLintModel Sqf.NameLintSpec.
From Verif Require Bin.ExecModel Bin.LintModel.
Local Open Scope N_scope.
Local Open Scope list_scope.

Lemma upper_iff : forall v, eqb_bytes (map ascii_upper v) v = true <-> no_small_letter v.
Proof.
  intros v. rewrite eqb_bytes_spec. unfold no_small_letter. induction v as [|c v IH]; cbn [map In]; [split; [intros _ c []|auto]|]. split.
  - intros E. injection E as E1 E2. pose proof (proj1 IH E2) as E3. intros d [<-|I]; [|now apply E3]. unfold ascii_upper in E1. destruct (N.leb_spec 97 c), (N.leb_spec c 122); cbn [andb] in E1; lia.
  - intros H. f_equal; [|apply IH; auto]. assert (X := H c (or_introl eq_refl)). unfold ascii_upper. destruct (N.leb_spec 97 c), (N.leb_spec c 122); cbn [andb]; lia.
Qed.
Lemma pattern_iff : forall s v, eqb_bytes s v || match ends_star s with Some p => starts_with p v | None => false end = true <-> pattern s v.
Proof.
  intros s v. unfold pattern. rewrite orb_true_iff, eqb_bytes_spec. apply or_iff_compat_l. unfold ends_star.
  assert (R := rev_involutive s). destruct (rev s) as [|c r] eqn:E; cbn [rev] in R; [subst s; split; [discriminate|]; intros (q & x & H & _); destruct q; discriminate|].
  destruct (N.eq_dec c 42) as [->|D].
  - rewrite starts_with_spec. split; [intros (x & ->); exists (rev r), x; now rewrite <- R|]. intros (q & x & H & ->). exists x. f_equal. rewrite <- R in H. now apply app_inj_tail in H as [-> _].
  - assert (K : match c with 42 => Some (rev r) | _ => None end = None).
    { destruct c as [|p]; [reflexivity|]. do 6 (destruct p as [p|p|]; try reflexivity). congruence. }
    rewrite K. split; [discriminate|]. intros (q & x & H & _). rewrite <- R in H. apply app_inj_tail in H as [_ H]. cbn in H. congruence.
Qed.
Section Props.
  Context (low : text -> text) (wiki : text -> option (text * list text)) (strings : LintModel.config -> text -> list text).
  Context (st : LintModel.settings) (m : LintModel.manager unit).
  Hypothesis manager_of : LintModel.sqf_manager st = Some m.
  Notation findings := (name_findings low wiki strings m).
  Notation on_list := (on_list low).
  (** What the project's settings make of the lints. *)
  Notation of l := (LintModel.effective (LintModel.sqf_settings st) l).
  Notation command_case := (of (LintModel.mk "command_case" LintModel.help_config)).
  Notation banned_commands := (of (LintModel.mk_min "banned_commands" LintModel.error_config ExecModel.SWarning)).
  Notation if_not_else := (of (LintModel.mk "if_not_else" (LintModel.off LintModel.help_config))).
  Notation var_all_caps := (of (LintModel.mk "var_all_caps" LintModel.help_config)).
  Notation call_this := (of (LintModel.mk "this_call" (LintModel.off LintModel.help_config))).

  Lemma managed : LintModel.lints m = LintModel.sqf_lints /\ LintModel.configs m = LintModel.sqf_settings st.
  Proof using manager_of.
    unfold LintModel.sqf_manager, LintModel.build_manager, LintModel.extend in manager_of. destruct (LintModel.check_lints _ _); [|discriminate].
    unfold LintModel.sqf_groups in manager_of. cbn [LintModel.push_groups] in manager_of. unfold LintModel.push_group in manager_of.
    destruct (LintModel.check_lints _ _) in manager_of; [|discriminate]. injection manager_of as <-. split; reflexivity.
  Qed.
  Definition five (e : expr) : list finding :=
    (if LintModel.enabled command_case then s04 low wiki strings command_case e else []) ++ (if LintModel.enabled banned_commands then s09 low wiki strings banned_commands e else []) ++
    (if LintModel.enabled if_not_else then s11 if_not_else e else []) ++ (if LintModel.enabled var_all_caps then s17 strings var_all_caps e else []) ++
    (if LintModel.enabled call_this then s22 call_this e else []).
  Lemma findings_are : forall script x, In x (findings script) <-> exists e, part e script /\ In x (five e).
  Proof using manager_of.
    intros script x. unfold name_findings. rewrite C68_lints_see_everything. destruct managed as [Ml Mc]. rewrite Ml.
    assert (E : forall e, flat_map (LintModel.run_lint (name_lint low wiki strings e) m) LintModel.sqf_lints = five e).
    { intros e. unfold five, LintModel.sqf_lints, LintModel.run_lint. rewrite Mc. cbn [flat_map].
      assert (Z : forall (b : bool), (if b then [] else []) = @nil finding) by now intros [].
      unfold name_lint, named. cbn [LintModel.mk LintModel.mk_min LintModel.ident].
      repeat match goal with |- context [eqb_bytes (bs ?a) (bs ?b)] => let v := eval vm_compute in (eqb_bytes (bs a) (bs b)) in change (eqb_bytes (bs a) (bs b)) with v; cbn iota end.
      rewrite !Z. cbn [app]. rewrite !app_nil_r. reflexivity. }
    split.
    - intros [(c & _ & [])|[(c & s & _ & _ & [])|[(e & P & H)|(e & n & sp & _ & _ & [])]]]. rewrite E in H. eauto.
    - intros (e & P & H). right; right; left. exists e. now rewrite E.
  Qed.
  Lemma command_name_iff : forall e n sp, command_name e = Some (n, sp) <-> uses e n sp.
  Proof using.
    intros e n sp. destruct e; cbn [command_name uses]; (split; [try discriminate; try (intros H; injection H as -> ->; auto; fail)|try contradiction; try (intros [-> ->]; reflexivity)]).
  Qed.
  Lemma listed_iff : forall l n, listed low l n = true <-> on_list l n.
  Proof using. intros l n. unfold listed. rewrite existsb_exists. split; intros (i & I & H); exists i; (split; [exact I|]); now apply eqb_bytes_spec. Qed.
  Lemma listed_not : forall l n, listed low l n = false <-> ~ on_list l n.
  Proof using. intros l n. rewrite <- listed_iff. now rewrite not_true_iff_false. Qed.

  (** What each lint can find. *)
  Lemma s04_iff : forall c e x, In x (s04 low wiki strings c e) <-> exists n w sp g, x = WrongCase n w sp (LintModel.config_severity c) /\ uses e n sp /\ wiki n = Some (w, g) /\ n <> w /\
    ~ on_list (strings c (bs "ignore")) n.
  Proof using.
    intros c e x. unfold s04. split.
    - destruct (command_name e) as [[n sp]|] eqn:U; [|intros []]. apply command_name_iff in U. destruct (listed _ _ _) eqn:G; [intros []|]. apply listed_not in G.
      destruct (wiki n) as [[w g]|] eqn:W; [|intros []]. destruct (eqb_bytes n w) eqn:D; [intros []|]. intros [<-|[]]. exists n, w, sp, g.
      repeat split; auto. intros ->. assert (eqb_bytes w w = true) by now apply eqb_bytes_spec. congruence.
    - intros (n & w & sp & g & -> & U & W & D & G). apply command_name_iff in U. rewrite U. apply listed_not in G. rewrite G, W.
      destruct (eqb_bytes n w) eqn:X; [apply eqb_bytes_spec in X; contradiction|now left].
  Qed.
  Lemma broken_iff : forall g, existsb (eqb_bytes (bs "Broken Commands")) g = true <-> In (bs "Broken Commands") g.
  Proof using. intros g. rewrite existsb_exists. split; [intros (x & I & H); apply eqb_bytes_spec in H; now subst|intros I; eexists; split; [exact I|now apply eqb_bytes_spec]]. Qed.
  Lemma s09_iff : forall c e x, In x (s09 low wiki strings c e) <-> exists n b sp w g, x = Banned n b sp (LintModel.config_severity c) /\ uses e n sp /\ wiki n = Some (w, g) /\
    ~ on_list (strings c (bs "ignore")) n /\ if b then In (bs "Broken Commands") g else ~ In (bs "Broken Commands") g /\ on_list (strings c (bs "banned")) n.
  Proof using.
    intros c e x. unfold s09. split.
    - destruct (command_name e) as [[n sp]|] eqn:U; [|intros []]. apply command_name_iff in U. destruct (listed _ (strings c (bs "ignore")) _) eqn:G; [intros []|]. apply listed_not in G.
      destruct (wiki n) as [[w g]|] eqn:W; [|intros []]. destruct (existsb _ g) eqn:B.
      + apply broken_iff in B. intros [<-|[]]. now exists n, true, sp, w, g.
      + destruct (listed _ _ _) eqn:L; [|intros []]. apply listed_iff in L. intros [<-|[]]. exists n, false, sp, w, g. repeat split; auto. rewrite <- broken_iff. congruence.
    - intros (n & b & sp & w & g & -> & U & W & G & B). apply command_name_iff in U. rewrite U. apply listed_not in G. rewrite G, W. destruct b.
      + apply broken_iff in B. rewrite B. now left.
      + destruct B as [B L]. rewrite <- broken_iff, not_true_iff_false in B. rewrite B. apply listed_iff in L. rewrite L. now left.
  Qed.
  Lemma s11_iff : forall c e x, In x (s11 c e) <-> exists sp, x = NeedlessNot sp (LintModel.config_severity c) /\ not_else e sp.
  Proof using.
    intros c e x. split.
    - destruct e as [| | | | | | | |b e1 e2 sp|]; try (intros []; fail). cbn [s11]. destruct b as [n| | | | | | | | | | | | | | | | | | | | | |]; try (intros []; fail).
      destruct e1 as [| | | | | | |u k s1| |]; try (intros []; fail). destruct u as [i| | |]; try (intros []; fail).
      destruct e2 as [| | | | | | | |b p q s2|]; try (intros []; fail). destruct b; try (intros []; fail). destruct (eqb_bytes _ _) eqn:E; [|intros []]. apply eqb_bytes_spec in E. cbn [negb].
      destruct k as [| | | | | | |u k s3| |]; try (intros []; fail). destruct u; try (intros []; fail). intros [<-|[]]. exists s3. split; [reflexivity|]. now exists n, i, k, p, q, s1, s2, sp.
    - intros (sp & -> & n & i & k & a & b & s1 & s2 & s3 & E & ->). cbn [s11]. apply eqb_bytes_spec in E. rewrite E. now left.
  Qed.
  Lemma s17_iff : forall c e x, In x (s17 strings c e) <-> exists v sp, x = AllCaps v sp (LintModel.config_severity c) /\ e = EVar v sp /\ (forall r, v <> bs "_" ++ r) /\ no_small_letter v /\
    v <> bs "SLX_XEH_COMPILE_NEW" /\ forall p, In p (strings c (bs "ignore")) -> ~ pattern p v.
  Proof using.
    intros c e x. split.
    - destruct e as [| | | | | | | | |v sp]; try (intros []; fail). cbn [s17]. destruct (_ || _ || _) eqn:H; [intros []|]. apply orb_false_iff in H as [H H3]. apply orb_false_iff in H as [H1 H2].
      destruct (existsb _ _) eqn:X; [intros []|]. intros [<-|[]]. exists v, sp. split; [reflexivity|]. split; [reflexivity|]. split; [|split; [|split]].
      + intros r E. assert (K : starts_with (bs "_") v = true) by (apply starts_with_spec; eauto). congruence.
      + apply upper_iff. now apply negb_false_iff in H2.
      + intros ->. vm_compute in H3. discriminate.
      + intros p I P. apply pattern_iff in P. assert (K : existsb (fun s => eqb_bytes s v || match ends_star s with Some p => starts_with p v | None => false end) (strings c (bs "ignore")) = true)
          by (apply existsb_exists; eauto). congruence.
    - intros (v & sp & -> & -> & H1 & H2 & H3 & H4). cbn [s17]. apply upper_iff in H2. rewrite H2.
      destruct (starts_with _ v) eqn:A; [apply starts_with_spec in A as (r & A); now destruct (H1 r)|]. destruct (eqb_bytes v _) eqn:B; [apply eqb_bytes_spec in B; contradiction|]. cbn [negb orb].
      destruct (existsb _ _) eqn:X; [|now left]. apply existsb_exists in X as (p & I & P). apply pattern_iff in P. now destruct (H4 p I).
  Qed.
  Lemma s22_iff : forall c e x, In x (s22 c e) <-> exists sp, x = NeedlessThis sp (LintModel.config_severity c) /\ this_call e sp.
  Proof using.
    intros c e x. split.
    - destruct e as [| | | | | | | |b e1 e2 sp|]; try (intros []; fail). cbn [s22]. destruct b as [n| | | | | | | | | | | | | | | | | | | | | |]; try (intros []; fail).
      destruct (eqb_bytes _ _) eqn:E; [|intros []]. apply eqb_bytes_spec in E. cbn [negb]. destruct e1 as [| | | | | | | | |v s]; try (intros []; fail).
      destruct (eqb_bytes v _) eqn:F; [|intros []]. apply eqb_bytes_spec in F. subst v. intros [<-|[]]. exists s. split; [reflexivity|]. now exists n, e2, sp.
    - intros (sp & -> & n & f & s & E & ->). cbn [s22]. apply eqb_bytes_spec in E. rewrite E. now left.
  Qed.
  Local Ltac wrong X := first [apply s04_iff in X as (? & ? & ? & ? & X & _)|apply s09_iff in X as (? & ? & ? & ? & ? & X & _)|apply s11_iff in X as (? & X & _)
    |apply s17_iff in X as (? & ? & X & _)|apply s22_iff in X as (? & X & _)]; discriminate X.
  Local Ltac sort_out H := rewrite findings_are in H; let e := fresh "e" in let P := fresh "P" in destruct H as (e & P & H); exists e; unfold five in H; rewrite !in_app_iff in H;
    destruct H as [H|[H|[H|[H|H]]]]; (destruct (LintModel.enabled _) in H |- *; [try (exfalso; wrong H)|destruct H]).

  (** A command is reported for its case exactly where it is used under a name other than the wiki's, unless the settings say
      to ignore it or switch the lint off. *)
  Theorem C76_command_case : forall script n w sp sev, In (WrongCase n w sp sev) (findings script) <->
    LintModel.enabled command_case = true /\ sev = LintModel.config_severity command_case /\ (exists e, part e script /\ uses e n sp) /\ (exists g, wiki n = Some (w, g)) /\ n <> w /\
    ~ on_list (strings command_case (bs "ignore")) n.
  Proof using manager_of.
    intros script n w sp sev. split.
    - intros H. assert (K : exists e, part e script /\ LintModel.enabled command_case = true /\ In (WrongCase n w sp sev) (s04 low wiki strings command_case e)).
      { sort_out H. auto. }
      destruct K as (e & P & A & K). apply s04_iff in K as (n' & w' & sp' & g & K & U & W & D & G). injection K as <- <- <- ->. split; [exact A|]. split; [reflexivity|]. eauto 7.
    - intros (A & -> & (e & P & U) & (g & W) & D & G). apply findings_are. exists e. split; [exact P|]. unfold five. rewrite A. apply in_app_iff. left. apply s04_iff. exists n, w, sp, g. auto.
  Qed.
  (** A command is reported as broken exactly where it is used and the wiki has it among the broken ones; as banned exactly where it
      is used, the wiki knows it, it is not broken and the settings list it; unless it is on the list to ignore, or the lint is off. *)
  Theorem C76_banned_commands : forall script n b sp sev, In (Banned n b sp sev) (findings script) <->
    LintModel.enabled banned_commands = true /\ sev = LintModel.config_severity banned_commands /\ (exists e, part e script /\ uses e n sp) /\ ~ on_list (strings banned_commands (bs "ignore")) n /\
    exists w g, wiki n = Some (w, g) /\ if b then In (bs "Broken Commands") g else ~ In (bs "Broken Commands") g /\ on_list (strings banned_commands (bs "banned")) n.
  Proof using manager_of.
    intros script n b sp sev. split.
    - intros H. assert (K : exists e, part e script /\ LintModel.enabled banned_commands = true /\ In (Banned n b sp sev) (s09 low wiki strings banned_commands e)).
      { sort_out H. auto. }
      destruct K as (e & P & A & K). apply s09_iff in K as (n' & b' & sp' & w & g & K & U & W & G & B). injection K as <- <- <- ->. split; [exact A|]. split; [reflexivity|]. eauto 8.
    - intros (A & -> & (e & P & U) & G & w & g & W & B). apply findings_are. exists e. split; [exact P|]. unfold five. rewrite A, !in_app_iff. right; left. apply s09_iff. exists n, b, sp, w, g. auto.
  Qed.
  Theorem C76_needless_not : forall script sp sev, In (NeedlessNot sp sev) (findings script) <->
    LintModel.enabled if_not_else = true /\ sev = LintModel.config_severity if_not_else /\ exists e, part e script /\ not_else e sp.
  Proof using manager_of.
    intros script sp sev. split.
    - intros H. assert (K : exists e, part e script /\ LintModel.enabled if_not_else = true /\ In (NeedlessNot sp sev) (s11 if_not_else e)).
      { sort_out H. auto. }
      destruct K as (e & P & A & K). apply s11_iff in K as (sp' & K & D). injection K as <- ->. eauto 6.
    - intros (A & -> & e & P & D). apply findings_are. exists e. split; [exact P|]. unfold five. rewrite A, !in_app_iff. right; right; left. apply s11_iff. eauto.
  Qed.
  (** A variable is reported exactly where it stands, is not local, has no small letter, and no pattern to ignore fits. *)
  Theorem C76_all_caps : forall script v sp sev, In (AllCaps v sp sev) (findings script) <->
    LintModel.enabled var_all_caps = true /\ sev = LintModel.config_severity var_all_caps /\ part (EVar v sp) script /\ (forall r, v <> bs "_" ++ r) /\ no_small_letter v /\
    v <> bs "SLX_XEH_COMPILE_NEW" /\ forall p, In p (strings var_all_caps (bs "ignore")) -> ~ pattern p v.
  Proof using manager_of.
    intros script v sp sev. split.
    - intros H. assert (K : exists e, part e script /\ LintModel.enabled var_all_caps = true /\ In (AllCaps v sp sev) (s17 strings var_all_caps e)).
      { sort_out H. auto. }
      destruct K as (e & P & A & K). apply s17_iff in K as (v' & sp' & K & -> & D). injection K as <- <- ->. auto.
    - intros (A & -> & P & D). apply findings_are. eexists. split; [exact P|]. unfold five. rewrite A, !in_app_iff. do 3 right; left. apply s17_iff. eauto.
  Qed.
  Theorem C76_needless_this : forall script sp sev, In (NeedlessThis sp sev) (findings script) <->
    LintModel.enabled call_this = true /\ sev = LintModel.config_severity call_this /\ exists e, part e script /\ this_call e sp.
  Proof using manager_of.
    intros script sp sev. split.
    - intros H. assert (K : exists e, part e script /\ LintModel.enabled call_this = true /\ In (NeedlessThis sp sev) (s22 call_this e)).
      { sort_out H. auto. }
      destruct K as (e & P & A & K). apply s22_iff in K as (sp' & K & D). injection K as <- ->. eauto 6.
    - intros (A & -> & e & P & D). apply findings_are. exists e. split; [exact P|]. unfold five. rewrite A, !in_app_iff. do 4 right. apply s22_iff. eauto.
  Qed.
End Props.
Print Assumptions C76_command_case.
Print Assumptions C76_banned_commands.
Print Assumptions C76_needless_not.
Print Assumptions C76_all_caps.
Print Assumptions C76_needless_this.

(** ** What the reported words were for *)
(** Without the [!], and with the blocks exchanged, the expression does the same. *)
Theorem C76_without_not : forall L zero one minus_one array branch pair object nothing, commands L zero one minus_one array branch pair object nothing ->
  forall n i c a s a' b t b' sp s1 s2 s3 r w, to_ascii_lower i = bs "if" -> met L object r w (NeedsBoolean c) ->
  not_else (EBinary (BNamed n) (EUnary (UNamed i) (EUnary UNot c sp) s1) (EBinary BElse (ECode a s a') (ECode b t b') s2) s3) sp ->
  eval L r (EBinary (BNamed n) (EUnary (UNamed i) (EUnary UNot c sp) s1) (EBinary BElse (ECode a s a') (ECode b t b') s2) s3) w =
  eval L r (EBinary (BNamed n) (EUnary (UNamed i) c s1) (EBinary BElse (ECode b t b') (ECode a s a') s2) s3) w.
Proof.
  intros L zero one minus_one array branch pair object nothing C n i c a s a' b t b' sp s1 s2 s3 r w Hi (v & w' & E) (n' & i' & c' & x & y & q1 & q2 & q3 & Hn & D).
  injection D; intros; subst. cbn [eval unary_str binary_str]. rewrite E, Hi, Hn. change (to_ascii_lower (bs "!")) with (bs "!"). change (to_ascii_lower (bs "else")) with (bs "else").
  rewrite (c_not _ _ _ _ _ _ _ _ _ C), !(c_if _ _ _ _ _ _ _ _ _ C), !(c_else _ _ _ _ _ _ _ _ _ C), !(c_then _ _ _ _ _ _ _ _ _ C). now destruct v.
Qed.
(** Without [_this], a call does the same wherever [call] passes it on and the operand leaves it as it is. *)
Theorem C76_without_this : forall L r e sp, this_call e sp ->
  (forall f w, unary_cmd L r (bs "call") f w = binary_cmd L r (bs "call") (this L w) f w) ->
  exists n f s, e = EBinary (BNamed n) (EVar (bs "_this") sp) f s /\
    forall w, (forall v w', eval L r f w = Some (v, w') -> this L w' = this L w) -> eval L r (EUnary (UNamed n) f s) w = eval L r e w.
Proof.
  intros L r e sp (n & f & s & Hn & ->) H. exists n, f, s. split; [reflexivity|]. intros w K. cbn [eval unary_str binary_str].
  change (same_text (to_ascii_lower (bs "_this")) (bs "_this")) with true. cbn iota. rewrite Hn. destruct (eval L r f w) as [[v w']|] eqn:E; [|reflexivity]. now rewrite H, (K v w').
Qed.
Print Assumptions C76_without_not.
Print Assumptions C76_without_this.

(** ** Cases *)
Definition known76 (n : text) : option (text * list text) :=
  if eqb_bytes (to_ascii_lower n) (bs "isnull") then Some (bs "isNull", [bs "Object Manipulation"])
  else if eqb_bytes (to_ascii_lower n) (bs "vehicle") then Some (bs "vehicle", [bs "Broken Commands"])
  else if eqb_bytes (to_ascii_lower n) (bs "and") then Some (bs "and", [])
  else if eqb_bytes (to_ascii_lower n) (bs "max") then Some (bs "max", [])
  else if eqb_bytes (to_ascii_lower n) (bs "&&") then Some (bs "&&", [])
  else if eqb_bytes (to_ascii_lower n) (bs "player") then Some (bs "player", []) else None.
(** An option is given here as the strings themselves, in a row with commas. *)
Fixpoint split76 (acc s : text) : list text := match s with [] => [rev acc] | c :: s => if c =? 44 then rev acc :: split76 [] s else split76 (c :: acc) s end.
Definition strings76 (c : LintModel.config) (k : text) : list text := match LintModel.get (LintModel.options c) k with Some s => split76 [] s | None => [] end.
Definition settings76 : LintModel.settings :=
  LintModel.Settings [] [(bs "banned_commands", LintModel.Override None None [(bs "banned", bs "AND,Player"); (bs "ignore", bs "objNull")]); (bs "if_not_else", LintModel.Override (Some true) None []);
    (bs "var_all_caps", LintModel.Override None None [(bs "ignore", bs "ACE_*,XYZ")]); (bs "this_call", LintModel.Override (Some true) (Some ExecModel.SWarning) [])] [].
Definition lint76 (s : text) : option (list finding) :=
  match LintModel.sqf_manager settings76, read1 s with Some m, Some r => Some (name_findings to_ascii_lower known76 strings76 m (content r)) | _, _ => None end.
Example C76_case : lint76 (bs "x = {if (!isnull Player) then {XYZ} else {ABC}}; ACE_X = vehicle _XYZ;") =
  Some [NeedlessNot (9, 10) ExecModel.SHelp; WrongCase (bs "isnull") (bs "isNull") (10, 16) ExecModel.SHelp; WrongCase (bs "Player") (bs "player") (17, 23) ExecModel.SHelp;
        Banned (bs "Player") false (17, 23) ExecModel.SError; AllCaps (bs "ABC") (42, 45) ExecModel.SHelp; Banned (bs "vehicle") true (57, 64) ExecModel.SError].
Proof. vm_compute. reflexivity. Qed.
(** The words [and], [or] and [not] are gone once a script is parsed: a project that bans [and] does not hear of it. Nor of the case of
    any other operator that is a word. *)
Theorem C76_word_operators_refuted : known76 (bs "and") <> None /\ (exists m, LintModel.sqf_manager settings76 = Some m /\
    on_list to_ascii_lower (strings76 (LintModel.effective (LintModel.sqf_settings settings76) (LintModel.mk_min "banned_commands" LintModel.error_config ExecModel.SWarning)) (bs "banned")) (bs "and")) /\
  lint76 (bs "_a and _b") = Some [] /\ known76 (bs "MAX") = Some (bs "max", []) /\ lint76 (bs "_a MAX _b") = Some [].
Proof.
  split; [discriminate|]. split; [eexists; split; [reflexivity|]; eexists; split; [left; reflexivity|reflexivity]|]. split; [vm_compute; reflexivity|]. split; vm_compute; reflexivity.
Qed.
(** What is suggested for a command in the wrong case is a string: s04:132-134. *)
Definition s04_suggestion (known : text) : text := bs """" ++ known ++ bs """".
Theorem C76_case_suggestion_refuted : forall wiki custom parse_f32 f32_of, (forall e, In e custom -> In CallBinary (snd e) -> reserved (fst e) = None) -> forall known, ~ In 34 known ->
  exists r sp sp', read_sqf (a3_with_workspace wiki custom) parse_f32 f32_of (s04_suggestion known) = Some r /\ content r = [SExpr (EString known sp DoubleQuote) sp'].
Proof.
  intros wiki custom parse_f32 f32_of A known Q. assert (A' := custom_apart wiki custom A).
  destruct (seg_reads_as (a3_with_workspace wiki custom) parse_f32 f32_of A' (s04_suggestion known) (EString known (0, 0) DoubleQuote)) as (r & e & sp & R & C & B).
  - eapply seg_impl; [now apply (seg_string (a3_with_workspace wiki custom) parse_f32 f32_of)|]. intros st. apply shows_weaker; lia.
  - destruct e; try discriminate B. injection B as -> ->. eauto 6.
Qed.
Print Assumptions C76_case_suggestion_refuted.
Print Assumptions C76_word_operators_refuted.
