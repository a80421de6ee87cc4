(** The command line of a launch: C78. *)
From Coq Require Import String Sorting.Sorted.
From Verif Require Import Base.Tactics Base.Bytes Base.Ascii Base.Text Base.Sort Common.LaunchModel Common.LaunchSpec Common.LaunchProofs Bin.LaunchLineModel Bin.LaunchLineSpec Bin.LaunchLineProofs.
From Verif Require Bin.AddonModel Bin.PackModel.
Local Open Scope N_scope.
Local Open Scope list_scope.

Section Windows.
  Context (digit : N -> bool) (lower : text -> text) (DC : digit_class digit).
  Context (w : world) (o : options) (DRIVE : prefixed (cwd w) = true).
  Lemma mods_loaded : forall folder mods, (forall x, In x mods <-> wanted digit w o x) ->
    forall m, In m (loaded_mods Windows digit w folder (mods ++ [self_mod Windows w])) <-> load_folder Windows digit w o folder m.
  Proof using DC DRIVE.
    intros folder mods M m. assert (SP := self_prefixed w DRIVE). assert (SN : ~ published_as digit w (self_mod Windows w)) by (intros P; rewrite (digits_not_prefixed digit _ DC (published_digits _ _ _ P)) in SP; discriminate).
    unfold loaded_mods, load_folder. rewrite in_map_iff. split.
    - intros (x & <- & I). apply filter_In in I as [I NP]. apply (not_published digit w x DC) in NP. apply in_app_iff in I as [I|[<-|[]]].
      + right. exists x. split; [now apply M|auto].
      + left. now rewrite join_prefixed.
    - intros [->|(id & W & NP & ->)].
      + exists (self_mod Windows w). split; [now apply join_prefixed|]. apply filter_In. split; [apply in_app_iff; right; now left|]. now apply not_published.
      + exists id. split; [reflexivity|]. apply filter_In. split; [apply in_app_iff; left; now apply M|]. now apply not_published.
  Qed.
  Lemma missing_loaded : forall pl folder mods, missing_mods pl digit w folder mods = [] <-> forall m, In m (loaded_mods pl digit w folder mods) -> there w m = true.
  Proof using.
    intros pl folder mods. unfold missing_mods, loaded_mods. generalize (filter (fun m => negb (same_id (Some m) (meta_id digit w))) mods) as l. induction l as [|x l IH]; cbn [flat_map map].
    - split; [intros _ m []|reflexivity].
    - destruct (there w (join_path pl folder x)) eqn:E; cbn [app].
      + rewrite IH. split; [intros H m [<-|I]; auto|intros H m I; apply H; now right].
      + split; [discriminate|]. intros H. rewrite H in E; [discriminate|now left].
  Qed.
  (** What is started, and that it is. *)
  Lemma windows_runs : forall c folder arma, arma3 w = Some arma -> can_launch Windows digit w o folder ->
    exists args, argument_list Windows digit lower w c o folder args /\
      run Windows digit lower w c o = if copies c o =? 0 then Panicked else Started (repeat (Command (windows_program arma (executable_of o)) args) (N.to_nat (copies c o))).
  Proof using DC DRIVE.
    intros c folder arma AR [L1 L2 L3 L4 L5]. unfold run. rewrite AR. destruct (add_presets digit lower w (presets o) (workshop o) (dlc o) []) as ((mods, ds), es) eqn:PA. cbv zeta.
    apply (presets_added digit lower DC) in PA as (PM & PD & PE). cbn [app] in PE.
    assert (es = []) as ->. { rewrite PE. clear PE PM PD. induction (presets o) as [|p l IH]; [reflexivity|]. cbn [flat_map]. destruct (preset_file w (preset_path p)) eqn:E; [|destruct (L1 p (or_introl eq_refl) E)]. apply IH. intros q I. apply L1. now right. }
    rewrite L2, L3. cbn [negb]. assert (ML := mods_loaded folder mods). assert (W : forall x, In x mods <-> wanted digit w o x).
    { intros x. rewrite PM. unfold wanted, preset_page. split; (intros [H|H]; [auto|right]).
      - destruct H as (p & html & I & F & K). exists html. split; [exists p; auto|exact K].
      - destruct H as (html & (p & I & F) & K). exists p, html. auto. }
    specialize (ML W). assert (missing_mods Windows digit w folder (mods ++ [self_mod Windows w]) = []) as -> by (apply missing_loaded; intros m I; apply L4, ML, I).
    assert (exists mi, match mission o with None => inl [] | Some m => match mission_arg Windows w m with inl a => inl [a] | inr e => inr e end end = inl mi /\
      match mission o with None => mi = [] | Some m => exists p, mission_file Windows w m p /\ mi = [bs """" ++ p ++ bs """"] end) as (mi & EM & MI).
    { destruct (mission o) as [m|]; [|exists []; auto]. destruct (L5 m eq_refl) as (p & F). exists [bs """" ++ p ++ bs """"]. assert (mission_arg Windows w m = inl (bs """" ++ p ++ bs """")) as -> by (apply mission_found; eauto). eauto. }
    rewrite EM. unfold start. fold (copies c o).
    eexists. split; [|destruct (N.eqb_spec (copies c o) 1) as [->|]; [reflexivity|destruct (copies c o =? 0); [reflexivity|reflexivity]]].
    exists (tidy_dlc ds), (tidy (map (shown Windows) (loaded_mods Windows digit w folder (mods ++ [self_mod Windows w])))), mi. rewrite map_map, <- !app_assoc. split; [reflexivity|].
    destruct (tidied N.eqb dlc_key N.eqb_eq (fun a b E => f_equal (hd 0) E) ds) as [SD ID]. split; [|split].
    - fold (tidy_dlc ds) in SD. clear - SD. induction SD as [|a l S IH F]; constructor; [exact IH|]. eapply Forall_impl; [|exact F]. intros b E. cbn in E. unfold N.lt. destruct (a ?= b); [discriminate E|reflexivity|discriminate E].
    - intros d. unfold tidy_dlc. rewrite ID, PD. unfold wanted_dlc, preset_page. split; (intros [H|H]; [auto|right]).
      + destruct H as (p & html & id & I & F & K). exists html, id. split; [exists p; auto|exact K].
      + destruct H as (html & id & (p & I & F) & K). exists p, html, id. auto.
    - unfold shown. rewrite map_id. destruct (tidied eqb_bytes (fun x : text => x) eqb_bytes_spec (fun a b E => E) (loaded_mods Windows digit w folder (mods ++ [self_mod Windows w]))) as [SM IM].
      split; [exact SM|]. split; [|exact MI]. intros m. unfold tidy. rewrite IM. apply ML.
  Qed.
  Lemma windows_needs : forall c l, run Windows digit lower w c o = Started l \/ run Windows digit lower w c o = Panicked -> exists arma folder, arma3 w = Some arma /\ can_launch Windows digit w o folder.
  Proof using DC DRIVE.
    intros c l H. unfold run in H. destruct (arma3 w) as [arma|]; [|destruct H; discriminate]. destruct (add_presets digit lower w (presets o) (workshop o) (dlc o) []) as ((mods, ds), es) eqn:PA. cbv zeta in H.
    apply (presets_added digit lower DC) in PA as (PM & PD & PE). cbn [app] in PE. destruct es as [|e es]; [|destruct H; discriminate]. destruct (ready w) eqn:RW; [|destruct H; discriminate]. cbn [negb] in H.
    destruct (workshop_folder w) as [folder|] eqn:WF; [|destruct H; discriminate]. destruct (missing_mods Windows digit w folder (mods ++ [self_mod Windows w])) eqn:MM; [|destruct H; discriminate].
    exists arma, folder. split; [reflexivity|]. assert (W : forall x, In x mods <-> wanted digit w o x).
    { intros x. rewrite PM. unfold wanted, preset_page. split; (intros [K|K]; [auto|right]).
      - destruct K as (p & html & I & F & K). exists html. split; [exists p; auto|exact K].
      - destruct K as (html & (p & I & F) & K). exists p, html. auto. }
    split; [|exact RW|exact WF| |].
    - intros p I E. assert (In (PresetNotFound p) []); [|contradiction]. rewrite PE. apply in_flat_map. exists p. split; [exact I|]. rewrite E. now left.
    - intros m K. apply (missing_loaded Windows folder (mods ++ [self_mod Windows w])); [exact MM|]. now apply mods_loaded.
    - intros m E. rewrite E in H. destruct (mission_arg Windows w m) as [a|e] eqn:MA; [|destruct H; discriminate]. apply mission_found in MA as (p & F & _). eauto.
  Qed.
End Windows.

(** The game is started, as often as asked, exactly if everything is there; with exactly these arguments. *)
Theorem C78_windows_launch : forall digit lower w c o l, digit_class digit -> prefixed (cwd w) = true ->
  run Windows digit lower w c o = Started l <->
  exists arma folder args, arma3 w = Some arma /\ can_launch Windows digit w o folder /\ copies c o <> 0 /\ argument_list Windows digit lower w c o folder args /\
    l = repeat (Command (windows_program arma (executable_of o)) args) (N.to_nat (copies c o)).
Proof.
  intros digit lower w c o l DC DRIVE. assert (SAME : forall folder a b, argument_list Windows digit lower w c o folder a -> argument_list Windows digit lower w c o folder b -> a = b).
  { intros folder a b (ds & ms & mi & -> & S1 & I1 & S2 & I2 & M) (ds' & ms' & mi' & -> & S1' & I1' & S2' & I2' & M'). assert (SL : forall l, StronglySorted N.lt l -> StronglySorted (fun a b => cmp_bytes (dlc_key a) (dlc_key b) = Lt) l).
    { intros x S. induction S as [|y x S IH F]; constructor; [exact IH|]. eapply Forall_impl; [|exact F]. intros z L. cbn. apply N.compare_lt_iff in L. now rewrite L. }
    assert (ds' = ds) as -> by (apply (sorted_same dlc_key); auto; intros x; rewrite I1, I1'; reflexivity). assert (ms' = ms) as -> by (apply (sorted_same (fun x => x)); auto; intros x; rewrite I2, I2'; reflexivity).
    assert (mi' = mi) as ->; [|reflexivity]. destruct (mission o) as [m|]; [|congruence]. destruct M as (p & F & ->), M' as (p' & F' & ->).
    assert (E : mission_arg Windows w m = inl (bs """" ++ p ++ bs """")) by (apply mission_found; eauto). assert (E' : mission_arg Windows w m = inl (bs """" ++ p' ++ bs """")) by (apply mission_found; eauto). congruence. }
  split.
  - intros H. destruct (windows_needs digit lower DC w o DRIVE c l (or_introl H)) as (arma & folder & A & C). destruct (windows_runs digit lower DC w o DRIVE c folder arma A C) as (args & AL & R).
    rewrite H in R. destruct (N.eqb_spec (copies c o) 0); [discriminate|]. injection R as ->. exists arma, folder, args. auto.
  - intros (arma & folder & args & A & C & NZ & AL & ->). destruct (windows_runs digit lower DC w o DRIVE c folder arma A C) as (args' & AL' & R). rewrite R. destruct (N.eqb_spec (copies c o) 0); [contradiction|].
    now rewrite (SAME folder args args' AL AL').
Qed.
(** Asked for no instance, it panics. *)
Theorem C78_no_instance_refuted : forall digit lower w c o, digit_class digit -> prefixed (cwd w) = true ->
  run Windows digit lower w c o = Panicked <-> copies c o = 0 /\ exists arma folder, arma3 w = Some arma /\ can_launch Windows digit w o folder.
Proof.
  intros digit lower w c o DC DRIVE. split.
  - intros H. destruct (windows_needs digit lower DC w o DRIVE c [] (or_intror H)) as (arma & folder & A & C). destruct (windows_runs digit lower DC w o DRIVE c folder arma A C) as (args & AL & R).
    rewrite H in R. destruct (N.eqb_spec (copies c o) 0); [eauto|discriminate].
  - intros (Z & arma & folder & A & C). destruct (windows_runs digit lower DC w o DRIVE c folder arma A C) as (args & AL & R). now rewrite R, Z.
Qed.

(** ** What is reported *)
Definition truly (pl : platform) (digit : N -> bool) (w : world) (o : options) (e : error) : Prop :=
  match e with
  | ArmaNotFound => arma3 w = None
  | PresetNotFound p => In p (presets o) /\ preset_file w (preset_path p) = None
  | NotReady => ready w = false
  | WorkshopNotFound => workshop_folder w = None
  | ModNotFound m => (wanted digit w o m /\ ~ published_as digit w m \/ m = self_mod pl w) /\ exists f, workshop_folder w = Some f /\ there w (join_path pl f m) = false
  | MissionAbsolute m => mission o = Some m /\ absolute pl m = true
  | MissionNotFound m => mission o = Some m /\ absolute pl m = false /\ forall p, In p (mission_places pl w m) -> is_file w p = false
  | NoFlatpak => pl = Linux /\ flatpak w = None
  end.
(** Whatever is reported is so, on both platforms; and something is. *)
Theorem C78_reports : forall pl digit lower w c o l, digit_class digit -> run pl digit lower w c o = Refused l -> l <> [] /\ forall e, In e l -> truly pl digit w o e.
Proof.
  intros pl digit lower w c o l DC H. unfold run in H. destruct (arma3 w) as [arma|] eqn:AR; [|injection H as <-; split; [discriminate|]; intros e [<-|[]]; exact AR].
  destruct (add_presets digit lower w (presets o) (workshop o) (dlc o) []) as ((mods, ds), es) eqn:PA. cbv zeta in H.
  apply (presets_added digit lower DC) in PA as (PM & _ & PE). cbn [app] in PE. destruct es as [|e0 es].
  2:{ injection H as <-. split; [discriminate|]. intros e I. rewrite PE in I. apply in_flat_map in I as (p & I & J). destruct (preset_file w (preset_path p)) eqn:P; [destruct J|]. destruct J as [<-|[]]. cbn. auto. }
  destruct (ready w) eqn:RW; cbn [negb] in H; [|injection H as <-; split; [discriminate|]; intros e [<-|[]]; exact RW].
  destruct (workshop_folder w) as [folder|] eqn:WF; [|injection H as <-; split; [discriminate|]; intros e [<-|[]]; exact WF].
  destruct (missing_mods pl digit w folder (mods ++ [self_mod pl w])) as [|e0 es] eqn:MM.
  2:{ injection H as <-. split; [discriminate|]. intros e I. rewrite <- MM in I. unfold missing_mods in I. apply in_flat_map in I as (m & I & J). apply filter_In in I as [I NP]. apply (not_published digit w m DC) in NP.
      destruct (there w (join_path pl folder m)) eqn:T; [destruct J|]. destruct J as [<-|[]]. cbn [truly]. split; [|eauto]. apply in_app_iff in I as [I|[<-|[]]]; [left|now right]. split; [|exact NP]. apply PM in I. unfold wanted, preset_page.
      destruct I as [I|(p & html & I & F & K)]; [auto|right]. exists html. split; [exists p; auto|exact K]. }
  assert (ST : forall f exe n a b, start pl w f exe n a b = Refused l -> l = [NoFlatpak] /\ pl = Linux /\ flatpak w = None).
  { clear. intros f exe n a b S. unfold start, linux_command in S. destruct pl; cbv zeta beta iota in S; [destruct (n =? 1); [discriminate|destruct (n =? 0); discriminate]|].
    destruct (flatpak w) as [[]|]; try (destruct (n =? 1); [discriminate|destruct (n =? 0); discriminate]).
    destruct (n =? 1); [injection S as <-; auto|]. destruct (n =? 0); [discriminate|]. injection S as <-. auto. }
  destruct (mission o) as [m|] eqn:EM.
  - destruct (mission_arg pl w m) as [a|e1] eqn:MA.
    + apply ST in H as (-> & K). split; [discriminate|]. intros e [<-|[]]. exact K.
    + injection H as <-. split; [discriminate|]. intros e [<-|[]]. unfold mission_arg in MA. destruct (absolute pl m) eqn:AB; [injection MA as <-; cbn; auto|]. cbv zeta in MA.
      revert MA. set (p1 := if ends_with pl _ _ then _ else _). set (p2 := join_path pl (join_path pl (join_path pl _ _) m) _). intros MA. destruct (is_file w p1) eqn:E1; [rewrite E1 in MA; discriminate|].
      destruct (is_file w p2) eqn:E2; [discriminate|]. injection MA as <-. cbn [truly]. split; [exact EM|]. split; [exact AB|]. intros q [<-|[<-|[]]]; assumption.
  - apply ST in H as (-> & K). split; [discriminate|]. intros e [<-|[]]. exact K.
Qed.

(** ** The program *)
Lemma last_dot_none : forall s i a, ~ In 46 s -> AddonModel.last_dot s i a = a.
Proof. induction s as [|c s IH]; intros i a N0; [reflexivity|]. cbn [AddonModel.last_dot]. destruct (N.eqb_spec c 46) as [->|]; [destruct N0; now left|]. apply IH. intros I. apply N0. now right. Qed.
Lemma last_dot_at : forall b x i a, ~ In 46 x -> AddonModel.last_dot (b ++ 46 :: x) i a = Some (length b + i)%nat.
Proof.
  induction b as [|c b IH]; intros x i a N0; cbn [app AddonModel.last_dot length]; [change (46 =? 46) with true; cbv iota; now rewrite last_dot_none|]. rewrite IH by assumption. f_equal. lia.
Qed.
Lemma stem_at : forall b x, b <> [] -> ~ In 46 x -> AddonModel.stem (b ++ 46 :: x) = b.
Proof.
  intros b x NE N0. unfold AddonModel.stem. rewrite last_dot_at by assumption. rewrite Nat.add_0_r. destruct b as [|c b]; [contradiction|]. cbn [length].
  change (S (length b)) with (length (c :: b)). rewrite firstn_app, Nat.sub_diag, firstn_all. cbn. now rewrite app_nil_r.
Qed.
Lemma stem_none : forall b, ~ In 46 b -> AddonModel.stem b = b.
Proof. intros b N0. unfold AddonModel.stem. now rewrite last_dot_none. Qed.
Lemma last_dot_split : forall s k, AddonModel.last_dot s 0 None = Some k -> exists b x, s = b ++ 46 :: x /\ length b = k /\ ~ In 46 x.
Proof.
  intros s k. destruct (in_dec N.eq_dec 46 s) as [I|N0]; [|rewrite last_dot_none by assumption; discriminate].
  assert (exists b x, s = b ++ 46 :: x /\ ~ In 46 x) as (b & x & -> & N0).
  { clear k. induction s as [|c s IH]; [destruct I|]. destruct (in_dec N.eq_dec 46 s) as [J|J]; [destruct (IH J) as (b & x & -> & N0); exists (c :: b), x; auto|]. destruct I as [->|I]; [|contradiction]. exists [], s. auto. }
  rewrite last_dot_at by assumption. intros [= <-]. exists b, x. repeat split; [lia|exact N0].
Qed.
Lemma join_dot : forall base b, b <> [] -> exists y, y <> [] /\ (forall z, join_path Windows base (b ++ 46 :: z) = y ++ 46 :: z) /\ y = join_path Windows base b.
Proof.
  intros base b NE. exists (join_path Windows base b). destruct b as [|c [|d b]]; [contradiction| |].
  - assert (P : forall z, prefixed ([c] ++ 46 :: z) = false) by (intros z; cbn; now rewrite !Bool.andb_false_r). cbn [join_path prefixed]. destruct (is_sep Windows c) eqn:S.
    + split; [intros E; apply app_eq_nil in E as [_ E]; discriminate|]. split; [|reflexivity]. intros z. rewrite P. cbn [app]. rewrite S, <- app_assoc. reflexivity.
    + unfold under_path. split; [intros E; apply app_eq_nil in E as [_ E]; apply app_eq_nil in E as [_ E]; discriminate|]. split; [|reflexivity]. intros z. rewrite P. cbn [app]. rewrite S, <- !app_assoc. reflexivity.
  - assert (P : forall z, prefixed ((c :: d :: b) ++ 46 :: z) = prefixed (c :: d :: b)) by reflexivity. cbn [join_path]. destruct (prefixed (c :: d :: b)) eqn:PP.
    + split; [discriminate|]. split; [|reflexivity]. intros z. now rewrite P.
    + destruct (is_sep Windows c) eqn:S.
      * split; [intros E; apply app_eq_nil in E as [_ E]; discriminate|]. split; [|reflexivity]. intros z. rewrite P. cbn [app]. rewrite S, <- app_assoc. reflexivity.
      * unfold under_path. split; [intros E; apply app_eq_nil in E as [_ E]; apply app_eq_nil in E as [_ E]; discriminate|]. split; [|reflexivity]. intros z. rewrite P. cbn [app]. rewrite S, <- !app_assoc. reflexivity.
Qed.
(** The program started is the executable of the options in the folder of the game, with [.exe] added or put in lower case. *)
Theorem C78_program : forall arma o e, executable o = Some e \/ executable o = None /\ e = bs "arma3_x64" ->
  (forall b x, b <> [] -> e = b ++ bs "." ++ x -> ascii_lower x = bs "exe" -> windows_program arma (executable_of o) = join_path Windows arma (b ++ bs ".exe")) /\
  (e <> [] -> (forall b x, b <> [] -> e = b ++ bs "." ++ x -> ascii_lower x <> bs "exe") -> windows_program arma (executable_of o) = join_path Windows arma (e ++ bs ".exe")).
Proof.
  intros arma o e OE. assert (EE : executable_of o = if has_exe e then e else e ++ bs ".exe") by (unfold executable_of; destruct OE as [-> | [-> ->]]; reflexivity). unfold windows_program. rewrite EE.
  assert (JS : forall b z, b <> [] -> ~ In 46 z -> AddonModel.stem (join_path Windows arma (b ++ 46 :: z)) ++ bs ".exe" = join_path Windows arma (b ++ bs ".exe")).
  { intros b z NE N0. destruct (join_dot arma b NE) as (y & NY & J & _). change (bs ".exe") with (46 :: bs "exe"). rewrite !J. now rewrite stem_at. }
  assert (X46 : ~ In 46 (bs "exe")) by (cbn; intuition discriminate).
  assert (LX : forall x, ascii_lower x = bs "exe" -> ~ In 46 x).
  { intros x L I. assert (In (if (65 <=? 46) && (46 <=? 90) then 46 + 32 else 46) (ascii_lower x)) by (unfold ascii_lower; now apply (in_map (fun b => if (65 <=? b) && (b <=? 90) then b + 32 else b))).
    rewrite L in H. cbn in H. intuition discriminate. }
  split.
  - intros b x NE -> L. assert (N0 := LX x L). assert (has_exe (b ++ bs "." ++ x) = true) as ->; [|now apply JS].
    unfold has_exe. change (bs "." ++ x) with (46 :: x). rewrite last_dot_at by assumption. rewrite Nat.add_0_r. destruct b as [|c b]; [contradiction|]. cbn [length].
    replace (skipn (S (S (length b))) ((c :: b) ++ 46 :: x)) with x; [rewrite L; reflexivity|]. cbn [app skipn]. clear. induction b as [|d b IH]; [reflexivity|exact IH].
  - intros NE NX. assert (has_exe e = false) as ->; [|now apply JS]. unfold has_exe. destruct (AddonModel.last_dot e 0 None) as [[|k]|] eqn:LD; [reflexivity| |reflexivity].
    apply last_dot_split in LD as (b & x & -> & Lb & N0). destruct (eqb_bytes _ _) eqn:Q; [|reflexivity]. exfalso. apply eqb_bytes_spec in Q. apply (NX b x); [destruct b; [discriminate|discriminate]|reflexivity|].
    rewrite <- Q. f_equal. rewrite <- Lb. clear. induction b as [|d b IH]; [reflexivity|exact IH].
Qed.
(** The page of a preset. *)
Theorem C78_preset_page : forall n, (~ In 46 n -> preset_path n = n ++ bs ".html") /\ (n <> [] -> preset_path (n ++ bs ".html") = n ++ bs ".html").
Proof.
  intros n. unfold preset_path. split; [intros N0; now rewrite stem_none|]. intros NE. f_equal. apply (stem_at n (bs "html") NE). cbn. intuition discriminate.
Qed.

(** ** DLC *)
Lemma trimmed_more : forall k fuel p s, p <> [] -> starts_with p s = false -> (k <= fuel)%nat -> PackModel.trim_start_matches fuel p (concat (repeat p k) ++ s) = s.
Proof.
  induction k as [|k IH]; intros fuel p s NE N0 L.
  - cbn [repeat concat app]. destruct fuel as [|fuel]; [reflexivity|]. cbn [PackModel.trim_start_matches]. now rewrite N0.
  - destruct fuel as [|fuel]; [lia|]. cbn [repeat concat PackModel.trim_start_matches]. rewrite <- app_assoc.
    assert (starts_with p (p ++ concat (repeat p k) ++ s) = true) as -> by (apply starts_with_spec; eauto). rewrite skipn_app, skipn_all, Nat.sub_diag. cbn [app skipn]. apply IH; auto. lia.
Qed.
Lemma trimmed_from : forall fuel p s, exists k, s = concat (repeat p k) ++ PackModel.trim_start_matches fuel p s.
Proof.
  induction fuel as [|fuel IH]; intros p s; [exists O; reflexivity|]. cbn [PackModel.trim_start_matches]. destruct (starts_with p s) eqn:E; [|exists O; reflexivity].
  apply starts_with_spec in E as (r & ->). rewrite skipn_app, skipn_all, Nat.sub_diag. cbn [app skipn]. destruct (IH p r) as (k & E). exists (S k). cbn [repeat concat]. rewrite <- app_assoc, <- E. reflexivity.
Qed.
Lemma named : forall l i s d, NoDup (flat_map (fun x => snd x) l) -> dlc_named l i s = Some d <-> exists k m id nm names, nth_error l k = Some (m, id, nm, names) /\ d = i + N.of_nat k /\ In s names.
Proof.
  induction l as [|(((m, id), nm), names) l IH]; intros i s d D; cbn [dlc_named].
  - split; [discriminate|]. intros ([|k] & ? & ? & ? & ? & H & _); discriminate.
  - cbn [flat_map snd] in D. assert (D' : NoDup (flat_map (fun x : text * text * text * list text => snd x) l)) by (clear - D; induction names as [|a names IHn]; [exact D|cbn [app] in D; inversion D; auto]).
    destruct (existsb (eqb_bytes s) names) eqn:E.
    + apply existsb_exists in E as (x & I & E). apply eqb_bytes_spec in E. subst x. split.
      * intros [= <-]. exists O, m, id, nm, names. repeat split; auto. lia.
      * intros ([|k] & m' & id' & nm' & names' & H & -> & J); [now rewrite N.add_0_r|]. exfalso. cbn [nth_error] in H. clear - D I J H. induction names as [|a names IHn]; [destruct I|]. cbn [app] in D. inversion D as [|? ? NI D']; subst.
        destruct I as [->|I]; [|now apply IHn]. apply NI. apply in_app_iff. right. apply in_flat_map. exists (m', id', nm', names'). split; [eapply nth_error_In; eauto|exact J].
    + rewrite (IH (i + 1) s d D'). split.
      * intros (k & m' & id' & nm' & names' & H & -> & J). exists (S k), m', id', nm', names'. repeat split; auto. lia.
      * intros ([|k] & m' & id' & nm' & names' & H & -> & J).
        -- injection H as <- <- <- <-. exfalso. assert (existsb (eqb_bytes s) names = true) by (apply existsb_exists; exists s; split; [exact J|apply eqb_bytes_refl]). congruence.
        -- exists k, m', id', nm', names'. repeat split; auto. lia.
Qed.
Definition no_dup_texts (l : list text) : bool := (fix go l := match l with [] => true | x :: l => negb (existsb (eqb_bytes x) l) && go l end) l.
Lemma no_dup_texts_spec : forall l, no_dup_texts l = true -> NoDup l.
Proof.
  induction l as [|x l IH]; intros H; [constructor|]. cbn in H. apply andb_prop in H as [H1 H2]. constructor; [|now apply IH]. intros I. assert (existsb (eqb_bytes x) l = true) by (apply existsb_exists; exists x; split; [exact I|apply eqb_bytes_refl]).
  now rewrite H in H1.
Qed.
(** A DLC is understood by exactly its names, in any case and after [Creator DLC: ] however often; its folder, its number and the name shown are among them. *)
Theorem C78_dlc_names : forall lower s d, dlc_of lower s = Some d <->
  exists k m id nm names n, nth_error dlcs (N.to_nat d) = Some (m, id, nm, names) /\ In n names /\ lower s = concat (repeat (bs "creator dlc: ") k) ++ n.
Proof.
  intros lower s d. unfold dlc_of. cbv zeta. rewrite named by (apply no_dup_texts_spec; vm_compute; reflexivity). split.
  - intros (i & m & id & nm & names & H & -> & I). destruct (trimmed_from (length (lower s)) (bs "creator dlc: ") (lower s)) as (k & E). exists k, m, id, nm, names. eexists. split; [|split; [exact I|exact E]].
    replace (N.to_nat (0 + N.of_nat i)) with i by lia. exact H.
  - intros (k & m & id & nm & names & n & H & I & E). exists (N.to_nat d), m, id, nm, names. split; [exact H|]. split; [lia|]. rewrite E, trimmed_more; [exact I|discriminate| |].
    + assert (F : forallb (fun e : text * text * text * list text => forallb (fun n => negb (starts_with (bs "creator dlc: ") n)) (snd e)) dlcs = true) by (vm_compute; reflexivity).
      rewrite forallb_forall in F. apply nth_error_In in H. specialize (F _ H). cbn [snd] in F. rewrite forallb_forall in F. specialize (F n I). now destruct (starts_with _ n).
    + rewrite app_length. assert (forall j, (j <= length (concat (repeat (bs "creator dlc: ") j)))%nat); [|specialize (H0 k); lia].
      induction j as [|j IHj]; [cbn; lia|]. cbn [repeat concat]. rewrite app_length. change (length (bs "creator dlc: ")) with 13%nat. lia.
Qed.
Theorem C78_dlc_shown : forall d m id nm names, nth_error dlcs d = Some (m, id, nm, names) -> forall s, ascii_lower s = m \/ ascii_lower s = id \/ ascii_lower s = ascii_lower nm -> dlc_of ascii_lower s = Some (N.of_nat d).
Proof.
  intros d m id nm names H s E. unfold dlc_of. cbv zeta. do 8 (destruct d as [|d]; [injection H as <- <- <- <-; destruct E as [-> | [-> | ->]]; vm_compute; reflexivity|]). destruct d; discriminate.
Qed.

(** ** Where it is not so *)
(** On Linux the project's own build is looked for below the workshop folder, so that without such a folder there nothing is started. *)
Theorem C78_linux_refuted : forall digit lower w c o l folder, digit_class digit -> workshop_folder w = Some folder ->
  there w (under_path Linux folder (bs "Z:" ++ join_path Linux (cwd w) (bs ".hemttout/dev"))) = false -> run Linux digit lower w c o <> Started l.
Proof.
  intros digit lower w c o l folder DC WF NT H. unfold run in H. destruct (arma3 w) as [arma|]; [|discriminate]. destruct (add_presets digit lower w (presets o) (workshop o) (dlc o) []) as ((mods, ds), es). cbv zeta in H.
  destruct es as [|e0 es]; [|discriminate]. destruct (ready w); [|discriminate]. cbn [negb] in H. rewrite WF in H.
  assert (SP : prefixed (self_mod Linux w) = true) by reflexivity.
  assert (SN : ~ published_as digit w (self_mod Linux w)) by (intros P; rewrite (digits_not_prefixed digit _ DC (published_digits _ _ _ P)) in SP; discriminate).
  assert (In (ModNotFound (self_mod Linux w)) (missing_mods Linux digit w folder (mods ++ [self_mod Linux w]))).
  { unfold missing_mods. apply in_flat_map. exists (self_mod Linux w). split; [apply filter_In; split; [apply in_app_iff; right; now left|now apply not_published]|].
    change (join_path Linux folder (self_mod Linux w)) with (under_path Linux folder (bs "Z:" ++ join_path Linux (cwd w) (bs ".hemttout/dev"))). rewrite NT. now left. }
  destruct (missing_mods Linux digit w folder (mods ++ [self_mod Linux w])) as [|e1 es]; [destruct H0|discriminate].
Qed.
(** On Linux a single instance is never started with file patching, whatever the settings. *)
Theorem C78_linux_file_patching_refuted : forall digit lower w e p n b b' o, copies (Cli e p n b) o = 1 ->
  run Linux digit lower w (Cli e p n b) o = run Linux digit lower w (Cli e p n b') o.
Proof.
  intros digit lower w e p n b b' o C. unfold run, copies in *. cbn [c_instances passthrough no_filepatching] in *. rewrite C. destruct (arma3 w) as [arma|]; [|reflexivity].
  destruct (add_presets digit lower w (presets o) (workshop o) (dlc o) []) as ((mods, ds), es). reflexivity.
Qed.
(** The executable of the command line is not used. *)
Theorem C78_executable_refuted : forall pl digit lower w e e' p n b o, run pl digit lower w (Cli e p n b) o = run pl digit lower w (Cli e' p n b) o.
Proof. reflexivity. Qed.
(** The page of a preset with a dot in its name is not found. *)
Definition ascii_digit : N -> bool := is_digit.
Lemma ascii_digit_class : digit_class ascii_digit.
Proof. split; [reflexivity|]. intros c H. unfold ascii_digit, is_digit, is_ws in *. destruct (48 <=? c) eqn:A; [|reflexivity]. destruct (c <=? 57) eqn:B; [|reflexivity]. exfalso. apply N.leb_le in A, B. assert (K : exists k, (k < 10)%nat /\ c = 48 + N.of_nat k) by (exists (N.to_nat (c - 48)); lia).
  destruct K as (k & L & ->). do 10 (destruct k as [|k]; [discriminate H|]). lia. Qed.
Definition with_presets (ps : list text) : options := Options [] [] ps [] [] None None None None None None.
Definition page (n : text) (t : text) : text -> option text := fun p => if eqb_bytes p n then Some t else None.
Theorem C78_preset_dot_refuted : exists w o p t, In p (presets o) /\ preset_file w (p ++ bs ".html") = Some t /\ run Windows ascii_digit ascii_lower w (Cli None [] None false) o = Refused [PresetNotFound p].
Proof.
  exists (World (Some (bs "C:\g")) (Some (bs "C:\w")) (bs "C:\p") None (page (bs "v1.2.html") []) (fun _ => true) (fun _ => true) None true), (with_presets [bs "v1.2"]), (bs "v1.2"), [].
  split; [now left|]. split; vm_compute; reflexivity.
Qed.
Print Assumptions C78_windows_launch.
Print Assumptions C78_no_instance_refuted.
Print Assumptions C78_reports.
Print Assumptions C78_program.
Print Assumptions C78_preset_page.
Print Assumptions C78_dlc_names.
Print Assumptions C78_dlc_shown.
Print Assumptions C78_linux_refuted.
Print Assumptions C78_linux_file_patching_refuted.
Print Assumptions C78_executable_refuted.
Print Assumptions C78_preset_dot_refuted.

(** ** A case: a preset with two mods and a DLC, one of the mods the project itself. *)
Definition html : text := bs "<a href=""https://steamcommunity.com/sharedfiles/filedetails/?id=45"">x</a><a href=""http://store.steampowered.com/app/1227700""/><a href=""https://steamcommunity.com/sharedfiles/filedetails/?id=7"">".
Definition here : world :=
  World (Some (bs "C:\g")) (Some (bs "C:\w")) (bs "C:\p") (Some (bs "name=""a""; publishedid = 7;")) (page (bs "main.html") html) (fun _ => true) (eqb_bytes (bs "C:\p\.hemtt\missions\t.VR\mission.sqm")) None true.
Definition chosen : options := Options [bs "9"; bs "45"] [4; 2] [bs "main"] [] [bs "-x"] (Some (bs "t.VR")) None None None (Some 2) None.
Example C78_case : digit_class ascii_digit /\ prefixed (cwd here) = true /\
  run Windows ascii_digit ascii_lower here (Cli None [bs "-y"] None false) chosen =
  Started (repeat (Command (bs "C:\g\arma3_x64.exe")
    (map bs ["-mod=""vn"""; "-mod=""ws"""; "-mod=""C:\p\.hemttout/dev"""; "-mod=""C:\w\45"""; "-mod=""C:\w\9"""; "-skipIntro"; "-noSplash"; "-showScriptErrors"; "-debug"; "-x"; "-y"; """C:\p\.hemtt\missions\t.VR\mission.sqm"""; "-filePatching"]%string)) 2).
Proof. split; [exact ascii_digit_class|]. split; [reflexivity|]. vm_compute. reflexivity. Qed.
