(** C102: from the text of a script to the archive of its addon: C84 for one script, C81 for the schedules, C92 for the packing. *)
From Coq Require Import String.
From Verif Require Import Base.Tactics Base.Bytes Base.Sort Base.Ascii Base.Text Workspace.PathModel.
From Verif Require Import Bin.PackModel Bin.ConvertModel Bin.ConvertSpec Bin.ConvertProofs Bin.ConvertProps Bin.ArchiveSpec Bin.ArchiveProofs Bin.ArchiveProps.
From Verif Require Bin.PackSpec Bin.PackProps Bin.BinarizeSpec Pbo.Model Pbo.Spec Config.FileSpec Preproc.Model Preproc.Fuel Preproc.Blocks Preproc.LexModel Preproc.LexSpec Workspace.ProcessedModel
  Sqf.Ast Sqf.ParseModel Sqf.ParseSpec Sqf.LexModel Sqf.SourceModel Sqf.OptimizeTotal Sqf.SerializeSpec Sqf.BuildSpec Sqf.ScriptModel Sqf.ScriptSpec Sqf.ScriptProps Preproc.Examples Io.Spec.
Local Open Scope N_scope.
Local Open Scope list_scope.

Section Text.
  Context (checked : bool) (locate : text -> text -> option (text * bool)) (tokens : text -> Preproc.Model.run (list Preproc.Model.token))
          (project : option (option text * text)) (F : Type) (parse_f64 : text -> option F) (flt fle : F -> F -> bool)
          (read : text -> option text)
          (wiki custom : list ParseModel.wiki_entry) (parse_f32 : text -> N) (f32_of : N -> N)
          (fneg fsqrt : N -> N) (fadd fsub fmul fdiv frem : N -> N -> N) (finite : N -> bool)
          (failed : Ast.statements -> ProcessedModel.processed -> bool) (virtual : text -> text).
  Hypothesis no_new_word_operators : forall e, In e custom -> In ParseModel.CallBinary (snd e) -> ParseSpec.reserved (fst e) = None.
  Hypothesis floats1 : (forall s, parse_f32 s < 2 ^ 32) /\ (forall n, f32_of n < 2 ^ 32) /\ (forall x, fneg x < 2 ^ 32) /\ (forall x, fsqrt x < 2 ^ 32).
  Hypothesis floats2 : forall x y, fadd x y < 2 ^ 32 /\ fsub x y < 2 ^ 32 /\ fmul x y < 2 ^ 32 /\ fdiv x y < 2 ^ 32 /\ frem x y < 2 ^ 32.
  Hypothesis virtual_names : forall f, SerializeSpec.is_text (virtual f).
  Context (letter other : N -> bool) (Letters : forall c, c < 128 -> letter c = Preproc.LexModel.ascii_letter c).
  Notation db := (ParseModel.a3_with_workspace wiki custom).
  Notation compile := (ScriptModel.compile_file checked locate tokens project F parse_f64 flt fle read db parse_f32 f32_of fneg fsqrt fadd fsub fmul fdiv frem finite failed virtual).
  Notation does_the_same := (ScriptProps.does_the_same fneg fsqrt fadd fsub fmul fdiv frem finite).
  Context {report error : Type} (glob : text -> option (text -> bool)) (addons : list addon).
  Context (script : vpath -> job report error) (config : vpath -> vpath -> job report error) (st0 st2 : store).

  (** More fuel than enough changes nothing. *)
  Lemma compile_more n m path : (n <= m)%nat -> compile n path <> ScriptModel.TooShort -> compile m path = compile n path.
  Proof.
    intros L H. unfold ScriptModel.compile_file in *.
    assert (E : Preproc.Model.preprocess checked locate tokens project F parse_f64 flt fle m path = Preproc.Model.preprocess checked locate tokens project F parse_f64 flt fle n path); [|now rewrite E].
    unfold Preproc.Model.preprocess in *. destruct (tokens path) as [toks| | |]; try reflexivity. cbn [Preproc.Model.rbind] in *.
    set (fn := Preproc.Model.c_file (Preproc.Model.fns checked locate tokens project F parse_f64 flt fle n) (Preproc.Model.init path) Preproc.Model.prag_root toks []) in *.
    assert (NF : fn <> Preproc.Model.NoFuel) by (intros E; rewrite E in H; apply H; reflexivity).
    unfold fn in *. erewrite Preproc.Blocks.file_le; [reflexivity|exact L|exact NF|reflexivity].
  Qed.

  (** The conversion of the script at [v] is that of C84: what the model says is written is written, and if a part is too large the
      conversion fails. *)
  Definition does_compile (v : vpath) : Prop :=
    forall n0 x, (forall n, (n0 <= n)%nat -> compile n (PathModel.as_str v) = x) ->
      (forall b p, x = ScriptModel.Script b -> sqf_out v = Some p -> output st0 (script v) p b) /\
      (x = ScriptModel.TooLarge -> forall r, ~ ends st0 (script v) (inl r)).
  (** Nothing keeps a file of this name out of the archive. *)
  Definition wanted (lower : bytes -> bytes) (patterns : bytes -> option (bytes -> bool)) (s : settings) (dirs : vpath) (name : bytes) : Prop :=
    ~ PackSpec.matches patterns (p_exclude s) ([47] ++ p_folder s ++ [47] ++ join [47] (dirs ++ [name])) /\
    ~ PackSpec.matches patterns (a_exclude s) (join [47] (dirs ++ [name])) /\
    ~ In (lower name) [bs "$pboprefix$"; bs "$pboprefix$.txt"; bs "pboprefix.txt"; bs "$prefix$"].
  (** No other file that goes in has this name in another case. *)
  Definition alone_of_its_name (lower : bytes -> bytes) (patterns : bytes -> option (bytes -> bool)) (s : settings) (folder dirs : vpath) (name : bytes) : Prop :=
    forall dirs' name' b', goes_in glob addons st0 script config lower patterns s folder dirs' name' b' ->
      lower (join [92] (dirs' ++ [name'])) = lower (join [92] (dirs ++ [name])) -> dirs' = dirs /\ name' = name.

  (** A script with no directives whose text the parser reads as [r], and against which the analysis has nothing: however the
      conversions are scheduled, the archive has the script's text, as it was, and beside it a compiled script whose source is
      that text without comments and which does what [r] does. *)
  Theorem C102_script_to_archive : forall lower sha patterns prefix_of s folder tree iter out dirs nm src r,
    orderly glob addons script config st0 -> converted glob addons script config st0 st2 ->
    lists st2 folder tree -> (forall d, ~ In (Entry d (bs "config.bin") None) tree) ->
    (forall x, length (sha x) = 20%nat) -> (forall l, Permutation (iter l) l) -> PackSpec.settings_ok s -> PackProps.prefixes_ok lower patterns prefix_of s tree ->
    build_pbo lower sha patterns prefix_of s tree iter = inl out ->
    let v := folder ++ dirs ++ [nm ++ bs ".sqf"] in
    nm <> [] -> script_at addons st0 v -> does_compile v ->
    FileSpec.plain_file letter other tokens read (PathModel.as_str v) src ->
    SerializeSpec.is_text (LexSpec.uncommented src) -> LexModel.byte_len (LexSpec.uncommented src) < 2 ^ 31 ->
    SourceModel.read_sqf db parse_f32 f32_of (LexSpec.uncommented src) = Some r -> BuildSpec.short_script r -> forallb OptimizeTotal.no_else_stmt (Ast.content r) = true ->
    (forall p, ProcessedModel.o_text p = LexSpec.uncommented src -> failed r p = false) ->
    wanted lower patterns s dirs (nm ++ bs ".sqf") -> wanted lower patterns s dirs (nm ++ bs ".sqfc") ->
    alone_of_its_name lower patterns s folder dirs (nm ++ bs ".sqf") -> alone_of_its_name lower patterns s folder dirs (nm ++ bs ".sqfc") ->
    exists pbo b p r', Pbo.Model.read out = Pbo.Model.Ok pbo /\
      Pbo.Model.r_file lower (join [92] (dirs ++ [nm ++ bs ".sqf"])) pbo = st0 (Disk v) /\
      Pbo.Model.r_file lower (join [92] (dirs ++ [nm ++ bs ".sqfc"])) pbo = Some b /\
      ProcessedModel.o_text p = LexSpec.uncommented src /\ incl (map fst (ProcessedModel.sources p)) [PathModel.as_str v] /\
      ScriptSpec.is_script p virtual r' b /\ does_the_same r r'.
  Proof using no_new_word_operators floats1 floats2 virtual_names Letters.
    intros lower sha patterns prefix_of s folder tree iter out dirs nm src r OR CV LI NF SH IT SE PR BU v NE SA DC PL TX SM RD ST EL FA W1 W2 U1 U2.
    destruct (ScriptProps.C84_plain_script checked locate tokens project F parse_f64 flt fle read wiki custom parse_f32 f32_of fneg fsqrt fadd fsub fmul fdiv frem finite failed virtual
      no_new_word_operators floats1 floats2 virtual_names letter other Letters (PathModel.as_str v) src r PL TX SM RD ST EL) as (n0 & H).
    destruct (H n0 (le_n n0)) as (p & Et & I & K). rewrite (FA p Et) in K. destruct K as (r' & C & DS).
    assert (More : forall n, (n0 <= n)%nat -> compile n (PathModel.as_str v) = compile n0 (PathModel.as_str v)).
    { intros n L. apply compile_more; [exact L|]. intros X. destruct C as [C|(b & C & _)]; rewrite X in C; discriminate C. }
    destruct (DC n0 _ More) as (Wr & Lg).
    assert (EO : sqf_out v = Some (folder ++ dirs ++ [nm ++ bs ".sqfc"])).
    { unfold v. rewrite !app_assoc. apply C81_outputs; [exact NE|]. destruct SA as (a & d & k & cc & Ha & E & Hc & _). unfold v in E, Hc. rewrite E in Hc. rewrite !app_assoc in E. apply app_inj_tail in E as [_ E].
      pose proof (ArchiveProps.names glob addons script config st0 st2 CV _ _ _ _ Ha Hc) as (_ & NS). rewrite <- E in NS. intros X. apply NS. apply in_or_app. now left. }
    destruct C as [C|(b & C & IS)].
    { exfalso. destruct OR as (_ & _ & _ & (AC & _) & _). destruct (AC v SA) as (rr & E). exact (Lg C rr E). }
    specialize (Wr b _ C EO).
    destruct (C92_archive glob addons script config st0 st2 OR CV lower sha patterns prefix_of s folder tree iter out LI NF SH IT SE PR BU) as (pbo & RDP & _ & _ & FL).
    assert (Hc : exists c, st0 (Disk v) = Some c) by (destruct SA as (a & d & k & cc & _ & _ & Hc & _); eauto). destruct Hc as (c & Hc).
    destruct (C92_script glob addons script config st0 st2 OR CV folder dirs nm b c SA NE Hc Wr) as (A1 & A2).
    assert (NC : forall x y, rev (nm ++ x) = rev y -> nm ++ x = y) by (intros x y E; apply (f_equal (@rev N)) in E; now rewrite !rev_involutive in E).
    assert (Ends : forall x, In x [bs ".sqf"; bs ".sqfc"] -> nm ++ x <> bs "config.cpp" /\ nm ++ x <> bs "addon.toml").
    { clear. intros x Ix. split; intros E; apply (f_equal (@rev N)) in E; rewrite rev_app_distr in E; destruct Ix as [<-|[<-|[]]]; vm_compute in E; discriminate E. }
    exists pbo, b, p, r'. split; [exact RDP|]. split; [|split; [|auto]].
    - rewrite Hc. apply FL; [|exact U1]. destruct (Ends (bs ".sqf") (or_introl eq_refl)) as (E1 & E2). destruct W1 as (X1 & X2 & X3). split; [exact A1|]. split; [intros (X & _); exact (E1 X)|]. auto.
    - apply FL; [|exact U2]. destruct (Ends (bs ".sqfc") (or_intror (or_introl eq_refl))) as (E1 & E2). destruct W2 as (X1 & X2 & X3). split; [exact A2|]. split; [intros (X & _); exact (E1 X)|]. auto.
  Qed.
End Text.
Print Assumptions C102_script_to_archive.

(** ** A case *)
(** An addon with one script. *)
Definition s_src : text := bs "x = {y vectorAdd [1, 2]};// c".
Definition s_path : vpath := at_ "a.sqf".
Definition s_tokens (path : text) := Preproc.LexModel.parse_text Preproc.LexModel.ascii_letter Preproc.LexModel.ascii_other path s_src.
Definition s_compile : nat -> text -> ScriptModel.fate :=
  ScriptModel.compile_file true (fun _ _ => None) s_tokens None N (fun _ => None) N.ltb N.leb (fun _ => Some s_src) (ParseModel.a3_with_workspace ScriptProps.case_wiki []) (fun _ => 0) (fun n => n mod 2 ^ 32)
    (fun _ => 0) (fun _ => 0) (fun _ _ => 0) (fun _ _ => 0) (fun _ _ => 0) (fun _ _ => 0) (fun _ _ => 0) (fun _ => true) (fun _ _ => false) (fun _ => bs "a.sqf").
Definition s_file : bytes := match s_compile 40 (PathModel.as_str s_path) with ScriptModel.Script b => b | _ => [] end.
Lemma s_compiled : s_compile 40 (PathModel.as_str s_path) = ScriptModel.Script s_file.
Proof. vm_compute. reflexivity. Qed.

Section Case.
  (** What the script is compiled to. *)
  Context (b : bytes).
  Definition s_script (v : vpath) : job unit unit :=
    Read v (fun _ => match sqf_out v with Some o => Over (Put (Disk o) [] :: map (Add (Disk o)) [b]) (inl tt) | None => Over [] (inl tt) end).
  Definition s_config (f v : vpath) : job unit unit := Over [] (inl tt).
  Definition s_store0 : store := fun c => match c with Disk p => assoc [(s_path, s_src)] p | _ => None end.
  Definition s_store1 : store := fold_left perform (Put (Disk (at_ "a.sqfc")) [] :: map (Add (Disk (at_ "a.sqfc"))) [b]) s_store0.
  Definition s_tree0 : list entry := [Entry [] (bs "a.sqf") (Some s_src)].
  Definition s_tree1 : list entry := Entry [] (bs "a.sqfc") (Some b) :: s_tree0.
  Lemma s_at v c : s_store0 (Disk v) = Some c -> v = s_path.
  Proof.
    unfold s_store0, assoc. cbn [find fst]. destruct (cell_dec _ _) as [E|_]; [|discriminate]. intros _. apply (f_equal (fun c => match c with Disk q => q | _ => [] end)) in E. cbv beta iota in E. auto.
  Qed.
  Lemma s_is_script v : script_at [(c_dir, None)] s_store0 v -> v = s_path.
  Proof. intros (a & d & n & c & _ & _ & H & _). exact (s_at v c H). Qed.
  Lemma s_no_config glob f v : ~ config_at glob [(c_dir, None)] s_store0 f v.
  Proof.
    intros (r & d & n & c & _ & E & H & X & _). apply s_at in H. subst v. apply (f_equal (fun v => last v [])) in H. unfold s_path in H. rewrite app_assoc, last_last, last_at in H. subst n.
    destruct X as (m & x & E & _ & Ix). apply (f_equal (@rev N)) in E. rewrite rev_app_distr in E. destruct Ix as [<-|[<-|[<-|[]]]]; vm_compute in E; discriminate E.
  Qed.
  Lemma s_script_ends v : exists ws, alone s_store0 (s_script v) [v] ws (inl tt).
  Proof. unfold s_script. destruct (sqf_out v); eexists; constructor; constructor. Qed.
  Lemma s_orderly glob : orderly glob [(c_dir, None)] s_script s_config s_store0.
  Proof.
    split; [repeat constructor|]. split; [|split; [|split; [|split]]].
    - intro v. apply sj_read. intro x. destruct (sqf_out v) eqn:E; [now apply sj_done|apply sj_report].
    - intros f v. apply rj_report.
    - split; [intros v _; destruct (s_script_ends v) as (ws & A); exists tt; do 2 eexists; exact A|intros f v V; now apply s_no_config in V].
    - split; [|split].
      + intros v p w V _ W NE. apply s_is_script in V, W. congruence.
      + intros f v p w V. now apply s_no_config in V.
      + intros f v p g w V. now apply s_no_config in V.
    - intros f v w V. now apply s_no_config in V.
  Qed.
  Lemma s_store1_is p : s_store1 (Disk p) = assoc [(at_ "a.sqfc", b); (s_path, s_src)] p.
  Proof.
    unfold s_store1. cbn [map fold_left perform]. unfold set, s_store0, assoc. cbn [find fst]. destruct (cell_dec (Disk (at_ "a.sqfc")) (Disk p)); [|reflexivity].
    destruct (cell_dec (Disk (at_ "a.sqfc")) (Disk (at_ "a.sqfc"))) as [_|NE]; [reflexivity|now destruct NE].
  Qed.
  Lemma s_lists1 : lists s_store1 c_dir s_tree1.
  Proof. apply c_lists; [|exact s_store1_is]. split; [apply PackProps.names_okb; reflexivity|]. cbn. repeat constructor; cbn; intuition discriminate. Qed.
  Lemma s_converted : converted PackProps.no_glob [(c_dir, None)] s_script s_config s_store0 s_store1.
  Proof.
    exists [Source c_dir None s_tree0], [Source c_dir None s_tree1], s_store1. do 3 eexists. split; [reflexivity|]. split; [|split; [|split; [|split; [|split; [|split; [|split]]]]]].
    - intros a [<-|[]]. apply c_lists; [|reflexivity]. split; [apply PackProps.names_okb; reflexivity|]. cbn. repeat constructor; cbn; intuition discriminate.
    - change (map (fun x => s_script (snd x)) (sqf_entries [Source c_dir None s_tree0])) with [s_script s_path]. cbn [begin map].
      apply (one_act (l := []) (act_start _ _)). apply (one_act (l := []) (act_read _ _ _ _)). apply (one_act (l := []) (act_ready _ _ _ _)).
      do 2 apply (one_act (l := []) (act_write _ _ _ _ _)). apply (one_act (l := []) (act_end _ _ _)). apply run_here.
    - repeat constructor.
    - reflexivity.
    - intros a [<-|[]]. exact s_lists1.
    - reflexivity.
    - apply run_here.
    - constructor.
  Qed.
  Lemma s_prefixes : PackProps.prefixes_ok ascii_lower PackProps.no_glob Some c_settings s_tree1.
  Proof.
    intros e c p (Hin & _) Hf Hc _. exfalso. destruct Hin as [<-|[<-|[]]]; unfold PackSpec.is_prefix_file in Hf; cbn [e_name] in Hf; vm_compute in Hf; intuition discriminate.
  Qed.
  Lemma s_alone n : In n [bs "a.sqf"; bs "a.sqfc"] -> alone_of_its_name PackProps.no_glob [(c_dir, None)] s_script s_config s_store0 ascii_lower PackProps.no_glob c_settings c_dir [] n.
  Proof.
    intros I d m x (A & _) E. apply (C92_files PackProps.no_glob [(c_dir, None)] s_script s_config s_store0 s_store1 (s_orderly _) s_converted) in A.
    rewrite s_store1_is in A. unfold assoc in A. cbn [find fst] in A. unfold s_path, at_ in A.
    assert (K : d = [] /\ In m [bs "a.sqf"; bs "a.sqfc"]).
    { destruct (cell_dec _ _) as [X|_]; [|destruct (cell_dec _ _) as [X|_]; [|discriminate A]];
        apply (f_equal (fun c => match c with Disk q => q | _ => [] end)) in X; cbv beta iota in X; apply app_inv_head in X; change [bs "a.sqfc"] with ([] ++ [bs "a.sqfc"]) in X; change [bs "a.sqf"] with ([] ++ [bs "a.sqf"]) in X;
        apply app_inj_tail in X as (<- & <-); (split; [reflexivity|cbn [In]; auto]). }
    destruct K as (-> & K). split; [reflexivity|]. destruct I as [<-|[<-|[]]], K as [<-|[<-|[]]]; try reflexivity; vm_compute in E; discriminate E.
  Qed.
End Case.

Lemma s_settings : PackSpec.settings_ok c_settings.
Proof. cbn. repeat split; try reflexivity; try (unfold Spec.no_nul; cbn; intuition discriminate); try constructor; discriminate. Qed.
Lemma s_script_at : script_at [(c_dir, None)] s_store0 s_path.
Proof.
  exists (c_dir, None), [], (bs "a.sqf"), s_src. split; [now left|]. split; [reflexivity|]. split; [vm_compute; reflexivity|]. split.
  - exists (bs "a"), (bs "sqf"). vm_compute. intuition discriminate.
  - intros (m & E). apply (f_equal (@rev N)) in E. rewrite rev_app_distr in E. vm_compute in E. discriminate E.
Qed.
Lemma s_plain : FileSpec.plain_file Preproc.LexModel.ascii_letter Preproc.LexModel.ascii_other s_tokens (fun _ => Some s_src) (PathModel.as_str s_path) s_src.
Proof.
  split; [reflexivity|]. split.
  - unfold s_tokens. destruct (Preproc.LexModel.parse_text _ _ _ _) as [ts| | |] eqn:E; [eauto|exfalso..]; vm_compute in E; discriminate.
  - split; [|split].
    + intro H. vm_compute in H. repeat destruct H as [H|H]; discriminate || contradiction.
    + apply Preproc.Examples.occurs_dec. vm_compute. reflexivity.
    + apply Preproc.Examples.occurs_dec. vm_compute. reflexivity.
Qed.
Lemma s_wanted n : In n [bs "a.sqf"; bs "a.sqfc"] -> wanted ascii_lower PackProps.no_glob c_settings [] n.
Proof.
  intros I. split; [intros (p & m & [] & _)|]. split; [intros (p & m & [] & _)|]. destruct I as [<-|[<-|[]]]; vm_compute; intuition discriminate.
Qed.
Lemma s_text : SerializeSpec.is_text (LexSpec.uncommented s_src).
Proof.
  assert (B : forallb (fun c => c <? 128) (LexSpec.uncommented s_src) = true) by (vm_compute; reflexivity). unfold SerializeSpec.is_text. apply Forall_forall. intros c I. rewrite forallb_forall in B.
  specialize (B c I). apply N.ltb_lt in B. unfold Io.Spec.is_scalar. lia.
Qed.
Lemma s_read : exists r, SourceModel.read_sqf (ParseModel.a3_with_workspace ScriptProps.case_wiki []) (fun _ => 0) (fun n => n mod 2 ^ 32) (LexSpec.uncommented s_src) = Some r /\
  BuildSpec.short_script r /\ forallb OptimizeTotal.no_else_stmt (Ast.content r) = true.
Proof. eexists. split; [vm_compute; reflexivity|]. repeat split. Qed.
Lemma s_more n m : (n <= m)%nat -> s_compile n (PathModel.as_str s_path) <> ScriptModel.TooShort -> s_compile m (PathModel.as_str s_path) = s_compile n (PathModel.as_str s_path).
Proof. intros L X. unfold s_compile in *. exact (compile_more _ _ _ _ _ _ _ _ _ _ _ _ _ _ _ _ _ _ _ _ _ _ _ n m (PathModel.as_str s_path) L X). Qed.
Lemma s_settled (f : nat -> ScriptModel.fate) n0 x b : (forall n m, (n <= m)%nat -> f n <> ScriptModel.TooShort -> f m = f n) -> f 40%nat = ScriptModel.Script b -> (forall n, (n0 <= n)%nat -> f n = x) -> x = ScriptModel.Script b.
Proof. intros M E H. rewrite <- (H (Nat.max n0 40) (Nat.le_max_l _ _)), <- E. apply M; [apply Nat.le_max_r|]. rewrite E. discriminate. Qed.
Lemma s_does_compile : does_compile true (fun _ _ => None) s_tokens None N (fun _ => None) N.ltb N.leb (fun _ => Some s_src) ScriptProps.case_wiki [] (fun _ => 0) (fun n => n mod 2 ^ 32)
    (fun _ => 0) (fun _ => 0) (fun _ _ => 0) (fun _ _ => 0) (fun _ _ => 0) (fun _ _ => 0) (fun _ _ => 0) (fun _ => true) (fun _ _ => false) (fun _ => bs "a.sqf") (s_script s_file) s_store0 s_path.
Proof.
  intros n0 x H. pose proof (s_settled (fun n => s_compile n (PathModel.as_str s_path)) n0 x s_file s_more s_compiled H) as E.
  subst x. split; [|discriminate]. intros b p E O. apply (f_equal (fun f => match f with ScriptModel.Script y => y | _ => [] end)) in E. change (s_file = b) in E. rewrite <- E. clear E. exists [s_path], [], [s_file], tt. split; [|split; [intros q []|cbn [concat]; now rewrite app_nil_r]].
  unfold s_script. constructor. rewrite O. cbn [app map]. constructor.
Qed.
(** The case meets what [C102_script_to_archive] asks for. *)
Example C102_case : exists out r,
  orderly PackProps.no_glob [(c_dir, None)] (s_script s_file) s_config s_store0 /\ converted PackProps.no_glob [(c_dir, None)] (s_script s_file) s_config s_store0 (s_store1 s_file) /\
  lists (s_store1 s_file) c_dir (s_tree1 s_file) /\ (forall d, ~ In (Entry d (bs "config.bin") None) (s_tree1 s_file)) /\
  PackSpec.settings_ok c_settings /\ PackProps.prefixes_ok ascii_lower PackProps.no_glob Some c_settings (s_tree1 s_file) /\
  build_pbo ascii_lower PackProps.len20 PackProps.no_glob Some c_settings (s_tree1 s_file) (fun l => l) = inl out /\
  script_at [(c_dir, None)] s_store0 s_path /\
  FileSpec.plain_file Preproc.LexModel.ascii_letter Preproc.LexModel.ascii_other s_tokens (fun _ => Some s_src) (PathModel.as_str s_path) s_src /\
  SerializeSpec.is_text (LexSpec.uncommented s_src) /\ LexModel.byte_len (LexSpec.uncommented s_src) < 2 ^ 31 /\
  SourceModel.read_sqf (ParseModel.a3_with_workspace ScriptProps.case_wiki []) (fun _ => 0) (fun n => n mod 2 ^ 32) (LexSpec.uncommented s_src) = Some r /\
  BuildSpec.short_script r /\ forallb OptimizeTotal.no_else_stmt (Ast.content r) = true /\
  wanted ascii_lower PackProps.no_glob c_settings [] (bs "a.sqf") /\ wanted ascii_lower PackProps.no_glob c_settings [] (bs "a.sqfc") /\
  alone_of_its_name PackProps.no_glob [(c_dir, None)] (s_script s_file) s_config s_store0 ascii_lower PackProps.no_glob c_settings c_dir [] (bs "a.sqf") /\
  alone_of_its_name PackProps.no_glob [(c_dir, None)] (s_script s_file) s_config s_store0 ascii_lower PackProps.no_glob c_settings c_dir [] (bs "a.sqfc").
Proof.
  assert (B : exists out, build_pbo ascii_lower PackProps.len20 PackProps.no_glob Some c_settings (s_tree1 s_file) (fun l => l) = inl out).
  { destruct (build_pbo _ _ _ _ _ _ _) as [out|e] eqn:E; [now exists out|exfalso; vm_compute in E; discriminate E]. }
  destruct B as (out & B). destruct s_read as (r & R & S & L).
  exists out, r. split; [apply s_orderly|]. split; [apply s_converted|]. split; [apply s_lists1|]. split; [intros d [H|[H|[]]]; discriminate H|].
  split; [exact s_settings|]. split; [apply s_prefixes|]. split; [exact B|]. clear B. split; [exact s_script_at|]. split; [exact s_plain|].
  split; [exact s_text|]. split; [vm_compute; reflexivity|]. split; [exact R|]. split; [exact S|]. split; [exact L|].
  split; [apply s_wanted; now left|]. split; [apply s_wanted; right; now left|]. split; [apply s_alone; now left|apply s_alone; right; now left].
Qed.
