(** From the files of an addon to the archive that is built of it (C92): the conversions of Bin/ConvertModel.v, in the order in
    which a build does them, and the packing of Bin/PackModel.v; what a conversion makes of one file is C82 and C84. *)
From Coq Require Import String.
From Verif Require Import Base.Tactics Base.Bytes Base.Sort Base.Ascii Base.Text Workspace.PathModel.
From Verif Require Import Bin.PackModel Bin.ConvertModel Bin.ConvertSpec Bin.ConvertProofs Bin.ConvertProps Bin.ArchiveSpec Bin.ArchiveProofs.
From Verif Require Bin.PackSpec Bin.PackProofs Bin.PackProps Bin.BinarizeSpec Workspace.PathProps Pbo.Model Pbo.Spec.
From Verif Require Config.RapModel Config.RapTree Config.RapSpec Config.ParseModel Config.ParseSpec Config.ParseProps Config.GrammarSpec Config.AnalyzeSpec Config.AnalyzeModel Config.AnalyzeWalk Config.AnalyzeProps Config.FileModel Config.FileSpec Config.FileProps Preproc.Model Preproc.LexModel Preproc.LexSpec Bin.LintModel.
Local Open Scope N_scope.
Local Open Scope list_scope.

Section Build.
  Context {report error : Type} (glob : text -> option (text -> bool)) (addons : list addon).
  Context (script : vpath -> job report error) (config : vpath -> vpath -> job report error) (st0 st2 : store).
  Hypothesis Orderly : orderly glob addons script config st0.
  Hypothesis Converted : converted glob addons script config st0 st2.
  Notation after := (after glob addons st0 script config).
  Notation goes_in := (goes_in glob addons st0 script config).

  (** However the conversions are scheduled, every file then holds what it, or the file it is made of, was converted to from the
      files as they were before, or what it held. *)
  Theorem C92_files : forall p b, st2 (Disk p) = Some b <-> after p b.
  Proof using Orderly Converted.
    destruct Orderly as (SEP & SJ & RJ & AC & IND & ONE). destruct Converted as (l0 & l1 & st1 & es & d1 & d2 & H0 & S0 & R1 & O1 & H1 & S1 & RE & R2 & O2).
    exact (all_files glob addons script config SJ RJ st0 st1 st2 l0 l1 es d1 d2 H0 H1 S0 S1 SEP AC IND ONE R1 O1 RE R2 O2).
  Qed.
  Lemma names : forall a dirs n c, In a addons -> st0 (Disk (fst a ++ dirs ++ [n])) = Some c -> file_name n.
  Proof using Converted.
    destruct Converted as (l0 & l1 & st1 & es & d1 & d2 & H0 & S0 & _). exact (named addons st0 l0 H0 S0).
  Qed.

  (** Files that no conversion can write are what they were: all but .sqfc, .bin, .rvmat and .ext files, so the sources too. *)
  Theorem C92_kept : forall d n b, (forall m x, In x [bs ".sqfc"; bs ".bin"; bs ".rvmat"; bs ".ext"] -> n <> m ++ x) ->
    (after (d ++ [n]) b <-> st0 (Disk (d ++ [n])) = Some b).
  Proof using Orderly Converted.
    intros d n b Hn.
    assert (NC : forall f v, config_at glob addons st0 f v -> rapify_out v <> Some (d ++ [n])).
    { intros f v C O. destruct (config_result glob addons st0 f v _ names C O) as (d' & m & x & Ix & E). apply app_inj_tail in E as [_ E]. apply (Hn m x); [cbn [In] in *; tauto|exact E]. }
    assert (NS : forall v, script_at addons st0 v -> sqf_out v <> Some (d ++ [n])).
    { intros v S O. destruct (script_result addons st0 v _ names S O) as (d' & m & E). apply app_inj_tail in E as [_ E]. apply (Hn m (bs ".sqfc")); [now left|exact E]. }
    split.
    - intros [f v C O _|v S O _|H _ _]; [destruct (NC f v C O)|destruct (NS v S O)|exact H].
    - intros H. apply after_same; [exact H| |]; [intros f v c C O|intros v c S O]; exfalso; [exact (NC f v C O)|exact (NS v S O)].
  Qed.

  Context (lower sha : bytes -> bytes) (patterns : bytes -> option (bytes -> bool)) (prefix_of : bytes -> option bytes) (s : settings).
  Context (folder : vpath) (tree : list entry) (iter : list (bytes * (bytes * Pbo.Model.header)) -> list (bytes * (bytes * Pbo.Model.header))) (out : bytes).
  Hypothesis Tree : lists st2 folder tree.
  (** No folder has the name of a converted config. *)
  Hypothesis NoFolder : forall d, ~ In (Entry d (bs "config.bin") None) tree.

  Lemma packed_is : forall dirs name b k, PackSpec.packed lower patterns s tree (Entry dirs name k) b <-> k = Some b /\ goes_in lower patterns s folder dirs name b.
  Proof using Orderly Converted Tree NoFolder.
    intros dirs name b k. destruct Tree as ((LN & ND) & L). unfold PackSpec.packed, PackSpec.considered, PackSpec.is_prefix_file, ArchiveSpec.goes_in. cbn [e_dirs e_name e_content].
    assert (BIN : (exists e', In e' tree /\ e_dirs e' = dirs /\ e_name e' = bs "config.bin") <-> exists c, after (folder ++ dirs ++ [bs "config.bin"]) c).
    { split.
      - intros ([d n [c|]] & I & E1 & E2); cbn [e_dirs e_name] in E1, E2; subst d n; [|destruct (NoFolder _ I)]. exists c. apply C92_files. now apply L.
      - intros (c & H). apply C92_files, L in H. eexists. split; [exact H|]. split; reflexivity. }
    rewrite BIN. split.
    - intros ((I & NN & NB & NT & P1 & P2) & NP & ->). split; [reflexivity|]. split; [apply C92_files; now apply L|]. auto 10.
    - intros (-> & A & NB & NT & P1 & P2 & NP). apply C92_files, L in A. split; [|split; [exact NP|reflexivity]]. split; [exact A|]. split; [discriminate|]. auto.
  Qed.

  (** A config.cpp that is converted is left out; the config.bin beside it goes in, with what it was converted to, unless it is
      excluded. *)
  Theorem C92_config_cpp : forall dirs b, config_at glob addons st0 folder (folder ++ dirs ++ [bs "config.cpp"]) ->
    output st0 (config folder (folder ++ dirs ++ [bs "config.cpp"])) (folder ++ dirs ++ [bs "config.bin"]) b ->
    (forall c, ~ goes_in lower patterns s folder dirs (bs "config.cpp") c) /\
    forall c, goes_in lower patterns s folder dirs (bs "config.bin") c <->
      c = b /\ ~ PackSpec.matches patterns (p_exclude s) ([47] ++ p_folder s ++ [47] ++ join [47] (dirs ++ [bs "config.bin"])) /\
      ~ PackSpec.matches patterns (a_exclude s) (join [47] (dirs ++ [bs "config.bin"])) /\
      ~ In (lower (bs "config.bin")) [bs "$pboprefix$"; bs "$pboprefix$.txt"; bs "pboprefix.txt"; bs "$prefix$"].
  Proof using Orderly Converted.
    intros dirs b C O. assert (A : after (folder ++ dirs ++ [bs "config.bin"]) b).
    { eapply after_config; [exact C| |exact O]. rewrite !app_assoc. apply (out_cpp (folder ++ dirs) (bs "config")); [split; [discriminate|clear; cbn; intuition discriminate]|discriminate]. }
    split.
    - intros c (_ & N & _). apply N. split; [reflexivity|]. now exists b.
    - intros c. unfold ArchiveSpec.goes_in. split.
      + intros (A' & _ & _ & P1 & P2 & P3). apply C92_files in A, A'. split; [congruence|]. auto.
      + intros (-> & P1 & P2 & P3). split; [exact A|]. split; [intros (K & _); discriminate K|]. split; [discriminate|]. auto.
  Qed.

  (** A script stays, and what it was compiled to is beside it. *)
  Theorem C92_script : forall dirs n b c, script_at addons st0 (folder ++ dirs ++ [n ++ bs ".sqf"]) -> n <> [] ->
    st0 (Disk (folder ++ dirs ++ [n ++ bs ".sqf"])) = Some c ->
    output st0 (script (folder ++ dirs ++ [n ++ bs ".sqf"])) (folder ++ dirs ++ [n ++ bs ".sqfc"]) b ->
    after (folder ++ dirs ++ [n ++ bs ".sqf"]) c /\ after (folder ++ dirs ++ [n ++ bs ".sqfc"]) b.
  Proof using Orderly Converted.
    intros dirs n b c S NE H O. split.
    - rewrite app_assoc in *. apply C92_kept; [|exact H]. clear. intros m x Ix K. apply (f_equal (@rev N)) in K. rewrite !rev_app_distr in K.
      destruct Ix as [<-|[<-|[<-|[<-|[]]]]]; cbn in K; discriminate K.
    - apply (after_script glob addons st0 script config _ _ (folder ++ dirs ++ [n ++ bs ".sqf"])); [exact S| |exact O]. rewrite !app_assoc. apply C81_outputs; [exact NE|].
      destruct S as (a & d & k & cc & Ha & E & Hc & _). rewrite E in Hc. rewrite !app_assoc in E. apply app_inj_tail in E as [_ E]. pose proof (names _ _ _ _ Ha Hc) as (_ & NS). rewrite <- E in NS.
      intros K. apply NS. apply in_or_app. now left.
  Qed.

  Hypothesis Sha : forall x, length (sha x) = 20%nat.
  Hypothesis Iter : forall l, Permutation (iter l) l.
  Hypothesis Settings : PackSpec.settings_ok s.
  Hypothesis Prefixes : PackProps.prefixes_ok lower patterns prefix_of s tree.
  Hypothesis Built : build_pbo lower sha patterns prefix_of s tree iter = inl out.

  (** The archive opens, and holds just the files that go in, under their paths below the addon's folder. *)
  Theorem C92_archive : exists r, Pbo.Model.read out = Pbo.Model.Ok r /\
    NoDup (map Pbo.Model.h_name (Pbo.Model.r_headers r)) /\
    (forall n size, (exists h, In h (Pbo.Model.r_headers r) /\ Pbo.Model.h_name h = n /\ Pbo.Model.h_size h = size) <->
      exists dirs name b, goes_in lower patterns s folder dirs name b /\ n = join [92] (dirs ++ [name]) /\ size = blen b) /\
    (forall dirs name b, goes_in lower patterns s folder dirs name b ->
      (forall dirs' name' b', goes_in lower patterns s folder dirs' name' b' ->
        lower (join [92] (dirs' ++ [name'])) = lower (join [92] (dirs ++ [name])) -> dirs' = dirs /\ name' = name) ->
      Pbo.Model.r_file lower (join [92] (dirs ++ [name])) r = Some b).
  Proof using Orderly Converted Tree NoFolder Sha Iter Settings Prefixes Built.
    destruct (PackProps.C56_archive_contents lower sha patterns prefix_of s tree iter out Sha Iter Settings (proj1 Tree) Prefixes Built) as (r & R & ND & HD & FL & _).
    exists r. split; [exact R|]. split; [exact ND|]. split.
    - intros n size. rewrite HD. split.
      + intros ([d m k] & c & P & -> & ->). apply packed_is in P as (-> & P). exists d, m, c. split; [exact P|]. split; reflexivity.
      + intros (d & m & c & P & -> & ->). exists (Entry d m (Some c)), c. split; [apply packed_is; split; [reflexivity|exact P]|]. split; reflexivity.
    - intros dirs name b G U. apply (FL (Entry dirs name (Some b)) b); [apply packed_is; split; [reflexivity|exact G]|].
      intros [d m k] c P E. apply packed_is in P as (-> & P). cbn [PackSpec.inner_name e_dirs e_name] in E. destruct (U _ _ _ P E) as (-> & ->). f_equal. f_equal.
      destruct P as (P & _). destruct G as (G & _). apply C92_files in P, G. congruence.
  Qed.
End Build.

(** ** From the text of a config to the archive *)
Section Text.
  Context (checked : bool) (locate : text -> text -> option (text * bool)) (tokens : text -> Preproc.Model.run (list Preproc.Model.token))
          (project : option (option text * text)) (F : Type) (parse_f64 : text -> option F) (flt fle : F -> F -> bool)
          (read : text -> option text)
          (f32_parse : text -> option N) (f32_show : N -> text) (try_eval : text -> option RapModel.number)
          (low : bytes -> bytes) (prefix : option bytes) (st : LintModel.settings) (m : LintModel.manager unit)
          (Accepted : LintModel.config_manager st = Some m)
          (Dots : forall s, ~ In 46 s -> ~ In 46 (low s))
          (Words : forall t b, f32_parse t = Some b -> b < 2 ^ 32).
  Context (letter other : N -> bool) (Letters : forall c, c < 128 -> letter c = LexModel.ascii_letter c).
  Context {report error : Type} (glob : text -> option (text -> bool)) (addons : list addon).
  Context (script : vpath -> job report error) (config : vpath -> vpath -> job report error) (st0 st2 : store).
  (** The conversion of the file [v] does what C82 says of it. *)
  Definition does_rapify (f v : vpath) : Prop :=
    forall n0 r, (forall n, (n0 <= n)%nat -> FileModel.rapify_file checked locate tokens project F parse_f64 flt fle read f32_parse f32_show try_eval low prefix m n (PathModel.as_str v) = r) ->
    forall b p, r = FileModel.File b -> rapify_out v = Some p -> output st0 (config f v) p b.

  (** The text of a config.cpp with no directives that says the tree [c], with which nothing is wrong: the archive of the addon
      has, for the config.cpp, a config.bin that is the raP file of [c] and of nothing else. *)
  Theorem C92_text_to_archive : forall lower sha patterns prefix_of s folder tree iter out dirs src c,
    orderly glob addons script config st0 -> converted glob addons script config st0 st2 ->
    lists st2 folder tree -> (forall d, ~ In (Entry d (bs "config.bin") None) tree) ->
    (forall x, length (sha x) = 20%nat) -> (forall l, Permutation (iter l) l) -> PackSpec.settings_ok s -> PackProps.prefixes_ok lower patterns prefix_of s tree ->
    build_pbo lower sha patterns prefix_of s tree iter = inl out ->
    let v := folder ++ dirs ++ [bs "config.cpp"] in
    config_at glob addons st0 folder v -> does_rapify folder v ->
    FileSpec.plain_file letter other tokens read (PathModel.as_str v) src ->
    GrammarSpec.config_text (ParseProps.denotes f32_parse) (ParseProps.kept f32_show try_eval) c (LexSpec.uncommented src) -> ~ In 0 (LexSpec.uncommented src) ->
    (forall x, ~ FileSpec.wrong low (AnalyzeProps.is_on st AnalyzeWalk.p05) (AnalyzeProps.is_on st AnalyzeWalk.p09) prefix c x) ->
    exists r f es, Pbo.Model.read out = Pbo.Model.Ok r /\ RapTree.tree c = Some es /\
      (blen f < 2 ^ 32 -> RapSpec.rap_file true f es /\ forall es', RapSpec.rap_file false f es' -> es' = es) /\
      (forall h, In h (Pbo.Model.r_headers r) -> Pbo.Model.h_name h <> join [92] (dirs ++ [bs "config.cpp"])) /\
      (goes_in glob addons st0 script config lower patterns s folder dirs (bs "config.bin") f ->
       (forall dirs' name' b', goes_in glob addons st0 script config lower patterns s folder dirs' name' b' ->
         lower (join [92] (dirs' ++ [name'])) = lower (join [92] (dirs ++ [bs "config.bin"])) -> dirs' = dirs /\ name' = bs "config.bin") ->
       Pbo.Model.r_file lower (join [92] (dirs ++ [bs "config.bin"])) r = Some f).
  Proof using Accepted Dots Words Letters.
    intros lower sha patterns prefix_of s folder tree iter out dirs src c OR CV LI NF SH IT SE PR BU v CA DR PL SA NU WR.
    destruct (FileProps.C82_plain_file checked locate tokens project F parse_f64 flt fle read f32_parse f32_show try_eval low prefix st m Accepted Dots Words letter other Letters _ src c PL SA NU)
      as (r & n0 & [(errors & _ & NE & H)|(_ & f & es & -> & T & R)] & HN).
    { exfalso. destruct errors as [|x errors]; [now apply NE|]. apply (WR x). apply H. now left. }
    assert (EO : rapify_out v = Some (folder ++ dirs ++ [bs "config.bin"])).
    { unfold v. rewrite !app_assoc. apply (out_cpp (folder ++ dirs) (bs "config")); [split; [discriminate|clear; cbn; intuition discriminate]|discriminate]. }
    pose proof (DR n0 _ HN f _ eq_refl EO) as O.
    destruct (C92_archive glob addons script config st0 st2 OR CV lower sha patterns prefix_of s folder tree iter out LI NF SH IT SE PR BU) as (pbo & RD & _ & HD & FL).
    destruct (C92_config_cpp glob addons script config st0 st2 OR CV lower patterns s folder dirs f CA O) as (NC & _).
    exists pbo, f, es. split; [exact RD|]. split; [exact T|]. split; [exact R|]. split.
    - intros h Ih Eh. destruct (proj1 (HD (Pbo.Model.h_name h) (Pbo.Model.h_size h)) (ex_intro _ h (conj Ih (conj eq_refl eq_refl)))) as (d & n & b & G & En & _). rewrite Eh in En.
      destruct LI as ((LN & _) & L). rewrite Forall_forall in LN.
      assert (OK : forall d n b, after glob addons st0 script config (folder ++ d ++ [n]) b -> Forall PackSpec.name_ok (d ++ [n])).
      { intros d0 n0' b0 A. apply (C92_files glob addons script config st0 st2 OR CV), L, LN in A. cbn in A. apply Forall_app. split; [apply A|constructor; [apply A|constructor]]. }
      assert (A0 : exists b0, after glob addons st0 script config (folder ++ dirs ++ [bs "config.cpp"]) b0).
      { destruct CA as (ra & dd & nn & cc & _ & Ev & Hc & _). exists cc. rewrite app_assoc. apply (C92_kept glob addons script config st0 st2 OR CV); [|rewrite <- app_assoc; exact Hc].
        intros k x Ix K. apply (f_equal (@rev N)) in K. rewrite rev_app_distr in K. destruct Ix as [<-|[<-|[<-|[<-|[]]]]]; cbn in K; discriminate K. }
      destruct A0 as (b0 & A0). apply OK in A0. pose proof (OK _ _ _ (proj1 G)) as A1.
      assert (NS : forall l, Forall PackSpec.name_ok l -> Forall (fun n => ~ In 92 n) l) by (intros l H; eapply Forall_impl; [|exact H]; intros a Ha; apply Ha).
      apply PackProofs.join_inj in En; [|now destruct dirs|now destruct d|auto|auto]. apply app_inj_tail in En as [-> <-]. exact (NC b G).
    - intros G U. apply FL; assumption.
  Qed.
End Text.
Print Assumptions C92_files.
Print Assumptions C92_kept.
Print Assumptions C92_config_cpp.
Print Assumptions C92_script.
Print Assumptions C92_archive.
Print Assumptions C92_text_to_archive.

(** ** A case *)
(** An addon with a config, a script and a text; a conversion puts a 9 before what it reads. *)
Definition c_dir : vpath := [bs "addons"; bs "main"].
Definition at_ (n : string) : vpath := c_dir ++ [bs n].
Definition assoc (fs : list (vpath * bytes)) (p : vpath) : option bytes := option_map snd (find (fun x => if cell_dec (Disk (fst x)) (Disk p) then true else false) fs).
Definition c_script (v : vpath) : job unit unit :=
  Read v (fun x => match sqf_out v with Some o => Over (Put (Disk o) [] :: map (Add (Disk o)) [9 :: match x with Some b => b | None => [] end]) (inl tt) | None => Over [] (inl tt) end).
Definition c_notes (f v : vpath) : list write := if list_eq_dec N.eq_dec (last v []) (bs "config.cpp") then r_notes f [2; 0] else [].
Definition c_config (f v : vpath) : job unit unit :=
  Read v (fun x => match rapify_out v with Some o => Over (c_notes f v ++ Put (Disk o) [] :: map (Add (Disk o)) [9 :: match x with Some b => b | None => [] end]) (inl tt) | None => Over [] (inl tt) end).
Definition c_files0 : list (vpath * bytes) := [(at_ "config.cpp", [1; 2]); (at_ "a.sqf", [3]); (at_ "readme.txt", [4])].
Definition c_store0 : store := fun c => match c with Disk p => assoc c_files0 p | _ => None end.
Definition c_tree0 : list entry := [Entry [] (bs "config.cpp") (Some [1; 2]); Entry [] (bs "a.sqf") (Some [3]); Entry [] (bs "readme.txt") (Some [4])].
Definition c_store1 : store := fold_left perform (Put (Disk (at_ "a.sqfc")) [] :: map (Add (Disk (at_ "a.sqfc"))) [[9; 3]]) c_store0.
Definition c_tree1 : list entry := Entry [] (bs "a.sqfc") (Some [9; 3]) :: c_tree0.
Definition c_store2 : store := fold_left perform (r_notes c_dir [2; 0] ++ Put (Disk (at_ "config.bin")) [] :: map (Add (Disk (at_ "config.bin"))) [[9; 1; 2]]) c_store1.
Definition c_tree2 : list entry := Entry [] (bs "config.bin") (Some [9; 1; 2]) :: c_tree1.
Definition c_settings : settings := PackModel.Settings (bs "addons/main") [] [] [] [] (bs "1") (bs "2") None.

Lemma c_lists st tree : PackSpec.listing tree -> (forall p, st (Disk p) = assoc (flat_map (fun e => match e_content e with Some b => [(c_dir ++ e_dirs e ++ [e_name e], b)] | None => [] end) tree) p) -> lists st c_dir tree.
Proof.
  intros (LN & ND) H. split; [split; assumption|]. intros dirs name c. rewrite H. clear H LN. induction tree as [|[d n k] tree IH]; [split; [intros []|discriminate]|].
  cbn [map] in ND. inversion ND as [|? ? NI ND']; subst. specialize (IH ND'). cbn [flat_map e_content e_dirs e_name In]. destruct k as [b|].
  - cbn [app]. unfold assoc in *. cbn [find fst]. destruct (cell_dec _ _) as [E|NE].
    + cbn [option_map snd]. apply (f_equal (fun c => match c with Disk q => q | _ => [] end)) in E. cbv beta iota in E. apply app_inv_head in E. split.
      * intros [K|K]; [injection K as -> -> ->; reflexivity|]. exfalso. apply NI. cbn [e_dirs e_name]. rewrite E. apply in_map_iff. exists (Entry dirs name (Some c)). split; [reflexivity|exact K].
      * intros [= ->]. left. apply app_inj_tail in E as [-> ->]. reflexivity.
    + rewrite <- IH. split; [intros [K|K]; [|exact K]|auto]. injection K as -> -> ->. now destruct NE.
  - cbn [app]. rewrite <- IH. split; [intros [K|K]; [discriminate|exact K]|auto].
Qed.

Lemma c_at v c : c_store0 (Disk v) = Some c -> v = at_ "config.cpp" \/ v = at_ "a.sqf" \/ v = at_ "readme.txt".
Proof.
  unfold c_store0, assoc, c_files0. cbn [find fst]. do 3 (destruct (cell_dec _ _) as [E|_]; [intros _; apply (f_equal (fun c => match c with Disk q => q | _ => [] end)) in E; cbv beta iota in E; auto|]). discriminate.
Qed.
Lemma last_at n : last (at_ n) [] = bs n. Proof. unfold at_. now rewrite last_last. Qed.
Lemma c_is_script v : script_at [(c_dir, None)] c_store0 v -> v = at_ "a.sqf".
Proof.
  intros (a & d & n & c & _ & E & H & X & _). apply (f_equal (fun v => last v [])) in E. rewrite app_assoc, last_last in E.
  destruct (c_at v c H) as [->|[->| ->]]; [exfalso|reflexivity|exfalso]; rewrite last_at in E; subst n; destruct X as (m & x & E & _ & [<-|[]]);
    apply (f_equal (@rev N)) in E; rewrite rev_app_distr in E; vm_compute in E; discriminate E.
Qed.
Lemma c_is_config glob f v : config_at glob [(c_dir, None)] c_store0 f v -> f = c_dir /\ v = at_ "config.cpp".
Proof.
  intros (r & d & n & c & [EQ|[]] & E & H & X & _). injection EQ as <- <-. split; [reflexivity|]. apply (f_equal (fun v => last v [])) in E. rewrite app_assoc, last_last in E.
  destruct (c_at v c H) as [->|[->| ->]]; [reflexivity|exfalso|exfalso]; rewrite last_at in E; subst n; destruct X as (m & x & E & _ & Ix);
    apply (f_equal (@rev N)) in E; rewrite rev_app_distr in E; destruct Ix as [<-|[<-|[<-|[]]]]; vm_compute in E; discriminate E.
Qed.
Lemma c_script_ends v : exists ws, alone c_store0 (c_script v) [v] ws (inl tt).
Proof. unfold c_script. destruct (sqf_out v); eexists; constructor; constructor. Qed.
Lemma c_config_ends f v : exists ws, alone c_store0 (c_config f v) [v] ws (inl tt).
Proof. unfold c_config. destruct (rapify_out v); eexists; constructor; constructor. Qed.
Lemma c_script_reads v p : reads c_store0 (c_script v) p -> p = v.
Proof. intros (ps & ws & x & A & I). unfold c_script in A. inversion A; subst. destruct (sqf_out v) as [o|]; match goal with H : alone _ (Over _ _) _ _ _ |- _ => inversion H; subst end; now destruct I as [<-|[]]. Qed.
Lemma c_config_reads f v p : reads c_store0 (c_config f v) p -> p = v.
Proof. intros (ps & ws & x & A & I). unfold c_config in A. inversion A; subst. destruct (rapify_out v) as [o|]; match goal with H : alone _ (Over _ _) _ _ _ |- _ => inversion H; subst end; now destruct I as [<-|[]]. Qed.
Lemma c_orderly glob : orderly glob [(c_dir, None)] c_script c_config c_store0.
Proof.
  split; [repeat constructor|]. split; [|split; [|split; [|split]]].
  - intro v. apply sj_read. intro x. destruct (sqf_out v) eqn:E; [now apply sj_done|apply sj_report].
  - intros f v. apply rj_read. intro x. destruct (rapify_out v) eqn:E; [|apply rj_report]. apply rj_done; [|right; eauto]. unfold c_notes.
    destruct (list_eq_dec N.eq_dec _ _); [right; split; [now exists [2; 0], [2; 0]|assumption]|left; split; [reflexivity|assumption]].
  - split; [intros v _; destruct (c_script_ends v) as (ws & A)|intros f v _; destruct (c_config_ends f v) as (ws & A)]; exists tt; do 2 eexists; exact A.
  - split; [|split].
    + intros v p w V _ W NE. apply c_is_script in V, W. congruence.
    + intros f v p w V R W. apply c_config_reads in R. apply c_is_config in V. apply c_is_script in W. destruct V as (_ & ->). subst p w. vm_compute. discriminate.
    + intros f v p g w V _ W NE. apply c_is_config in V, W. destruct V, W. congruence.
  - intros f v w V W _ _. apply c_is_config in V, W. destruct V, W. congruence.
Qed.
Lemma c_store1_is p : c_store1 (Disk p) = assoc ((at_ "a.sqfc", [9; 3]) :: c_files0) p.
Proof. unfold c_store1. cbn [map fold_left perform]. unfold set, c_store0, assoc. cbn [find fst]. destruct (cell_dec (Disk (at_ "a.sqfc")) (Disk p)); [|reflexivity]. vm_compute. reflexivity. Qed.
Lemma c_store2_is p : c_store2 (Disk p) = assoc ((at_ "config.bin", [9; 1; 2]) :: (at_ "a.sqfc", [9; 3]) :: c_files0) p.
Proof.
  transitivity (match find (fun x => if cell_dec (Disk (fst x)) (Disk p) then true else false) [(at_ "config.bin", [9; 1; 2])] with Some x => Some (snd x) | None => c_store1 (Disk p) end).
  - unfold c_store2, r_notes. cbn [app map fold_left perform]. unfold set. cbn [find fst]. destruct (cell_dec (Disk (at_ "config.bin")) (Disk p)); [vm_compute; reflexivity|].
    destruct (cell_dec (Parsed c_dir) (Disk p)); [discriminate|]. destruct (cell_dec (Required c_dir) (Disk p)); [discriminate|reflexivity].
  - rewrite c_store1_is. unfold assoc. cbn [find fst]. destruct (cell_dec (Disk (at_ "config.bin")) (Disk p)); reflexivity.
Qed.
Lemma c_converted : converted PackProps.no_glob [(c_dir, None)] c_script c_config c_store0 c_store2.
Proof.
  exists [Source c_dir None c_tree0], [Source c_dir None c_tree1], c_store1. do 3 eexists. split; [reflexivity|]. split; [|split; [|split; [|split; [|split; [|split; [|split]]]]]].
  - intros a [<-|[]]. apply c_lists; [|reflexivity]. split; [apply PackProps.names_okb; reflexivity|]. cbn. repeat constructor; cbn; intuition discriminate.
  - change (map (fun x => c_script (snd x)) (sqf_entries [Source c_dir None c_tree0])) with [c_script (at_ "a.sqf")]. cbn [begin map].
    apply (one_act (l := []) (act_start _ _)). apply (one_act (l := []) (act_read _ _ _ _)). apply (one_act (l := []) (act_ready _ _ _ _)).
    do 2 apply (one_act (l := []) (act_write _ _ _ _ _)). apply (one_act (l := []) (act_end _ _ _)). apply run_here.
  - repeat constructor.
  - reflexivity.
  - intros a [<-|[]]. apply c_lists; [|exact c_store1_is]. split; [apply PackProps.names_okb; reflexivity|]. cbn. repeat constructor; cbn; intuition discriminate.
  - reflexivity.
  - change (map _ _) with [c_config c_dir (at_ "config.cpp")]. cbn [begin map].
    apply (one_act (l := []) (act_start _ _)). apply (one_act (l := []) (act_read _ _ _ _)). apply (one_act (l := []) (act_ready _ _ _ _)).
    do 4 apply (one_act (l := []) (act_write _ _ _ _ _)). apply (one_act (l := []) (act_end _ _ _)). apply run_here.
  - repeat constructor.
Qed.
(** The case meets what [C92_archive] asks for, and the archive can be seen to have what it says: no config.cpp, the
    config.bin and the .sqfc with what the conversions made, and the other files as they were. *)
Example C92_case :
  orderly PackProps.no_glob [(c_dir, None)] c_script c_config c_store0 /\ converted PackProps.no_glob [(c_dir, None)] c_script c_config c_store0 c_store2 /\
  lists c_store2 c_dir c_tree2 /\ PackSpec.settings_ok c_settings /\ PackProps.prefixes_ok ascii_lower PackProps.no_glob Some c_settings c_tree2 /\
  option_map fst (PackProps.opened c_settings c_tree2) =
    Some [(bs "a.sqf", Some [3]); (bs "a.sqfc", Some [9; 3]); (bs "config.bin", Some [9; 1; 2]); (bs "readme.txt", Some [4])].
Proof.
  split; [apply c_orderly|]. split; [exact c_converted|]. split; [|split; [|split]].
  - apply c_lists; [|exact c_store2_is]. split; [apply PackProps.names_okb; reflexivity|]. cbn. repeat constructor; cbn; intuition discriminate.
  - cbn. repeat split; try reflexivity; try (unfold Spec.no_nul; cbn; intuition discriminate); try constructor; discriminate.
  - intros e c p (Hin & _) Hf Hc _. exfalso. cbn in Hin. repeat (destruct Hin as [<-|Hin]; [vm_compute in Hf; intuition discriminate|]). destruct Hin.
  - vm_compute. reflexivity.
Qed.
