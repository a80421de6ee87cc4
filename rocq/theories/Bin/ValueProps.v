(** C104. *)
From Coq Require Import String Permutation Sorted.
From Verif Require Import Base.Tactics Base.Bytes Base.Ascii Base.Text Base.Sort Common.VersionModel Common.VersionSpec Common.VersionProofs Common.ProjectVersionModel Common.ProjectVersionSpec Common.ProjectVersionProps Bin.SettingsModel.
From Verif Require Bin.AddonModel Bin.NewModel Bin.NewSpec Bin.NewProps.
From Verif Require Import Bin.ValueModel.
Local Open Scope N_scope.
Local Open Scope list_scope.

(** The version is known: it is what every question in the run is answered with. *)
Lemma known order opens scans p w v name : fst (get (p_version p) w None) = Ok v ->
  execute order opens scans (Done p) w name = if opens && scans then value order p (Ok v) name else Fails.
Proof.
  unfold execute. destruct (get (p_version p) w None) as [o k] eqn:G. cbn [fst]. intros ->. apply get_kept in G as ->. cbn [get fst version_stops orb].
  destruct opens, scans; reflexivity.
Qed.
Lemma named order p v n : In n names -> exists t, value order p (Ok v) n = Prints t.
Proof.
  intros I. unfold names in I. apply in_map_iff in I as (s & <- & I). cbn [In] in I.
  repeat (destruct I as [<-|I]; [eexists; reflexivity|]). destruct I.
Qed.
Lemma names_in n : existsb (eqb_bytes n) names = true -> In n names.
Proof. intros H. apply existsb_exists in H as (x & I & E). apply eqb_bytes_spec in E as ->. exact I. Qed.
Lemma unnamed order p o n t : value order p o n = Prints t -> In n names \/ n = bs "list".
Proof.
  unfold value.
  repeat match goal with |- (if eqb_bytes n ?l then _ else _) = _ -> _ =>
    let E := fresh "E" in destruct (eqb_bytes n l) eqn:E; [apply eqb_bytes_spec in E; rewrite E; intros _; first [right; reflexivity|left; apply names_in; vm_compute; reflexivity]|clear E] end.
  discriminate.
Qed.
Lemma list_lines order p o : value order p o (bs "list") = Prints (flat_map (fun n => n ++ [10]) names) /\ lines (flat_map (fun n => n ++ [10]) names) = names.
Proof. split; [reflexivity|vm_compute; reflexivity]. Qed.

(** What list prints is exactly what can be asked for. *)
Theorem C104_list : forall order opens scans p w v t,
  fst (get (p_version p) w None) = Ok v -> execute order opens scans (Done p) w (bs "list") = Prints t ->
  forall name, (exists u, execute order opens scans (Done p) w name = Prints u) <-> In name (lines t) \/ name = bs "list".
Proof.
  intros order opens scans p w v t V. rewrite (known _ _ _ _ _ v _ V). destruct (opens && scans) eqn:B; [|discriminate]. intros L name.
  rewrite (proj1 (list_lines order p (Ok v))) in L. assert (T : t = flat_map (fun n => n ++ [10]) names) by congruence. clear L. subst t.
  rewrite (known _ _ _ _ _ v _ V), B, (proj2 (list_lines order p (Ok v))). split.
  - intros (u & U). exact (unnamed _ _ _ _ _ U).
  - intros [I| ->]; [now apply named|]. eexists. reflexivity.
Qed.
(** Any other name gives status 1, whatever the project. *)
Theorem C104_unknown : forall order opens scans p w v t name,
  fst (get (p_version p) w None) = Ok v -> execute order opens scans (Done p) w (bs "list") = Prints t ->
  ~ In name (lines t) -> name <> bs "list" -> execute order opens scans (Done p) w name = Fails.
Proof.
  intros order opens scans p w v t name V L I NE. pose proof (C104_list _ _ _ _ _ _ _ V L name) as X. rewrite (known _ _ _ _ _ v _ V) in *.
  destruct (opens && scans); [|reflexivity]. destruct (value order p (Ok v) name) as [u| | |] eqn:E; [|reflexivity|exfalso|exfalso].
  - destruct (proj1 X (ex_intro _ u eq_refl)); contradiction.
  - revert E. unfold value. repeat match goal with |- context [if eqb_bytes name ?l then _ else _] => destruct (eqb_bytes name l); [discriminate|] end. discriminate.
  - revert E. unfold value. repeat match goal with |- context [if eqb_bytes name ?l then _ else _] => destruct (eqb_bytes name l); [discriminate|] end. discriminate.
Qed.

(** The parts of the version are those of the whole, in decimal notation. *)
Theorem C104_version : forall order p w v, fst (get (p_version p) w None) = Ok v ->
  exists a b c x y, decimal a (major v) /\ decimal b (minor v) /\ decimal c (patch v) /\
    match build v with Some n => exists d, decimal d n /\ x = d | None => x = [] end /\ match hash v with Some h => y = bs "-" ++ h | None => y = [] end /\
    let ask name := execute order true true (Done p) w name in
    ask (bs "project.version.major") = Prints (a ++ [10]) /\ ask (bs "project.version.minor") = Prints (b ++ [10]) /\ ask (bs "project.version.patch") = Prints (c ++ [10]) /\
    ask (bs "project.version.build") = Prints (x ++ [10]) /\
    ask (bs "project.version.short") = Prints (a ++ bs "." ++ b ++ bs "." ++ c ++ [10]) /\
    ask (bs "project.version") = Prints (a ++ bs "." ++ b ++ bs "." ++ c ++ match x with [] => [] | _ => bs "." ++ x end ++ y ++ [10]).
Proof.
  intros order p w v V.
  assert (DC : forall n, decimal (dec n) n).
  { intros n. apply digits_val_decimal; [apply dec_nonempty|]. destruct (dec_spec n) as (ds & -> & _ & _ & H). exact H. }
  exists (dec (major v)), (dec (minor v)), (dec (patch v)), (match build v with Some n => dec n | None => [] end), (match hash v with Some h => bs "-" ++ h | None => [] end).
  split; [apply DC|]. split; [apply DC|]. split; [apply DC|]. split; [destruct (build v); eauto|]. split; [now destruct (hash v)|].
  cbv zeta. rewrite !(known _ _ _ _ _ v _ V). cbn [andb].
  split; [reflexivity|]. split; [reflexivity|]. split; [reflexivity|]. split; [reflexivity|]. split.
  - transitivity (println (dec (major v) ++ [46] ++ dec (minor v) ++ [46] ++ dec (patch v))); [reflexivity|]. unfold println. rewrite <- !app_assoc. reflexivity.
  - transitivity (println (display v)); [reflexivity|]. unfold println, display. rewrite <- !app_assoc.
    assert (NE : forall n, match dec n with [] => [] | _ => bs "." ++ dec n end = bs "." ++ dec n) by (intros n; pose proof (dec_nonempty n); now destruct (dec n)).
    destruct (build v); [rewrite NE|]; rewrite <- ?app_assoc; destruct (hash v); reflexivity.
Qed.
(** What is printed as the version is read back as the version. *)
Theorem C104_reads_back : forall order p w v s, fst (get (p_version p) w None) = Ok v -> try_into s = inl (p_version p) ->
  (forall n, In n [s_major s; s_minor s; s_patch s; s_build s] -> forall x, n = Some x -> x < 2 ^ 32) -> (forall id, head w = Some id -> ~ In 45 id) ->
  exists u, execute order true true (Done p) w (bs "project.version") = Prints (u ++ [10]) /\ try_from u = VOk v.
Proof.
  intros order p w v s V T U H. exists (display v). split; [now rewrite (known _ _ _ _ _ v _ V)|]. now apply (C85_reads_back s (p_version p) w v).
Qed.
(** The version is needed for everything: without numbers, or without git where a commit's name is to follow them, there is no answer at
    all, not even the list. *)
Theorem C104_needs_version : forall order opens scans p w name,
  (exists e, fst (get (p_version p) w None) = Err (BadVersion e)) \/ fst (get (p_version p) w None) = Err NoGit ->
  execute order opens scans (Done p) w name = Fails.
Proof.
  intros order opens scans p w name H. unfold execute. destruct opens; [|reflexivity]. cbn [negb]. destruct (get (p_version p) w None) as [o k]. cbn [fst] in H.
  destruct H as [(e & ->)| ->]; reflexivity.
Qed.
(** So a new project has no values until it is given a version. *)
Theorem C104_new_project : forall lower severity_of kept parse fuel templates a order opens scans w name,
  NewSpec.reads_toml parse -> NewSpec.simple (NewModel.full_name a) -> NewSpec.simple (NewModel.author a) -> NewSpec.simple (NewModel.prefix a) -> NewSpec.simple (NewModel.mainprefix a) ->
  NewModel.prefix a <> [] -> file w (bs "addons/main/script_version.hpp") = Absent ->
  execute order opens scans (read_project lower severity_of kept parse fuel (NewSpec.settings_in (fst (NewModel.execute templates true None a [])))) w name = Fails.
Proof.
  intros lower severity_of kept parse fuel templates a order opens scans w name R (A & A') (B & B') (C & C') (D & D') NE F.
  destruct (NewProps.others_absent templates a) as (H2 & H3).
  rewrite (NewProps.read_table lower severity_of kept parse _ fuel _ (NewModel.full_name a) (NewModel.author a) (NewModel.prefix a) (NewModel.mainprefix a) (NewProps.toml_there templates a) H2 H3); [|clear F H2 H3|exact NE].
  - apply C104_needs_version. left. exists UnknownVersion. unfold get, internal_get, NewProps.plain_project. cbn [p_version defined ProjectVersionModel.path]. rewrite F. reflexivity.
  - rewrite NewProps.replace_absent by now apply NewProps.project_absent. apply R. apply NewProps.project_document; now apply NewProps.between_simple.
Qed.
(** The authority is what the project's key is called in the folder keys. *)
Theorem C104_authority : forall order p w v, fst (get (p_version p) w None) = Ok v ->
  exists k, execute order true true (Done p) w (bs "project.signing.authority") = Prints (k ++ [10]) /\
    forall D (q : AddonModel.project) (a : AddonModel.addon D), AddonModel.loc a = AddonModel.Addons ->
      AddonModel.key_location q (match p_authority p with Some x => x | None => p_prefix p end) (display v) a = [bs "keys"; k ++ bs ".bikey"].
Proof.
  intros order p w v V. eexists. split; [rewrite (known _ _ _ _ _ v _ V); reflexivity|]. intros D q a L. unfold AddonModel.key_location. rewrite L. reflexivity.
Qed.
Lemma split_join : forall l, l <> [] -> Forall (fun x => ~ In 10 x) l -> split_on 10 (join [10] l) = l.
Proof.
  induction l as [|x l IH]; intros NE F; [contradiction|]. inversion F as [|? ? A B]; subst. destruct l as [|y l].
  - cbn [join]. now apply split_on_none.
  - change (join [10] (x :: y :: l)) with (x ++ 10 :: join [10] (y :: l)). rewrite split_on_app by exact A. f_equal. apply IH; [discriminate|exact B].
Qed.
(** The settings, each as it is used: one line for each pattern of the files, for each property its name and its text, in some order. *)
Theorem C104_settings : forall order p w v, fst (get (p_version p) w None) = Ok v -> (forall l, Permutation (order l) l) ->
  let ask name := execute order true true (Done p) w name in
  ask (bs "project.name") = Prints (p_name p ++ [10]) /\ ask (bs "project.prefix") = Prints (p_prefix p ++ [10]) /\
  (forall m, p_mainprefix p = Some m -> ask (bs "project.mainprefix") = Prints (m ++ [10])) /\
  (p_mainprefix p = None -> ask (bs "project.mainprefix") = Prints [10]) /\
  ask (bs "project.version.path") = Prints (path (p_version p) ++ [10]) /\
  (exists d, ask (bs "project.version.git_hash") = Prints (d ++ [10]) /\ decimal d (git_hash (p_version p))) /\
  (p_sign_version p = V2 -> ask (bs "project.signing.version") = Prints (bs "V2" ++ [10])) /\ (p_sign_version p = V3 -> ask (bs "project.signing.version") = Prints (bs "V3" ++ [10])) /\
  (p_include p <> [] -> Forall (fun x => ~ In 10 x) (p_include p) -> exists t, ask (bs "project.files.include") = Prints (t ++ [10]) /\ split_on 10 t = p_include p) /\
  (p_exclude p <> [] -> Forall (fun x => ~ In 10 x) (p_exclude p) -> exists t, ask (bs "project.files.exclude") = Prints (t ++ [10]) /\ split_on 10 t = p_exclude p) /\
  exists l, Permutation l (p_properties p) /\ ask (bs "project.properties") = Prints (List.concat (map (fun kv => fst kv ++ bs ": " ++ snd kv ++ [10]) l) ++ [10]).
Proof.
  intros order p w v V P ask. unfold ask. rewrite !(known _ _ _ _ _ v _ V). cbn [andb].
  split; [reflexivity|]. split; [reflexivity|]. split; [intros m M; transitivity (println (or_empty (p_mainprefix p))); [reflexivity|now rewrite M]|].
  split; [intros M; transitivity (println (or_empty (p_mainprefix p))); [reflexivity|now rewrite M]|]. split; [reflexivity|].
  split.
  { exists (dec (git_hash (p_version p))). split; [reflexivity|]. apply digits_val_decimal; [apply dec_nonempty|]. destruct (dec_spec (git_hash (p_version p))) as (ds & -> & _ & _ & H). exact H. }
  split; [intros M; transitivity (println (show_signs (p_sign_version p))); [reflexivity|now rewrite M]|].
  split; [intros M; transitivity (println (show_signs (p_sign_version p))); [reflexivity|now rewrite M]|].
  split; [intros NE F; exists (join [10] (p_include p)); split; [reflexivity|now apply split_join]|].
  split; [intros NE F; exists (join [10] (p_exclude p)); split; [reflexivity|now apply split_join]|].
  exists (order (p_properties p)). split; [apply P|]. rewrite <- flat_map_concat_map. reflexivity.
Qed.

(** ** What the printed text does not tell *)
Definition of_settings (m : option text) (props : list (text * text)) (ex : list text) : project :=
  Project (bs "Mod") (bs "tst") m (Config (bs "v.hpp") (Some (1, 2, 3, None)) 0) props (included []) ex (Lints [] [] []) Ignore [] [] true Ignore (bs "tst") true true V3 None.
Definition nowhere : around := Around (fun _ => Absent) None.
(** The properties come in the order of a hash map, which can be another one the next time. *)
Theorem C104_order_refuted : exists p w o1 o2, (forall l, Permutation (o1 l) l) /\ (forall l, Permutation (o2 l) l) /\
  execute o1 true true (Done p) w (bs "project.properties") <> execute o2 true true (Done p) w (bs "project.properties").
Proof.
  exists (of_settings None [(bs "a", bs "1"); (bs "b", bs "2")] []), nowhere, (fun l => l), (fun l => rev l).
  split; [intros; apply Permutation_refl|]. split; [intros l; apply Permutation_sym, Permutation_rev|]. vm_compute. discriminate.
Qed.
(** A main prefix that is not set and one that is empty, no pattern and an empty one, are printed alike. *)
Theorem C104_unset_refuted : exists p q w order, p_mainprefix p = None /\ p_mainprefix q = Some [] /\ p_exclude p = [] /\ p_exclude q = [[]] /\
  forall name, execute order true true (Done p) w name = execute order true true (Done q) w name.
Proof.
  exists (of_settings None [] []), (of_settings (Some []) [] [[]]), nowhere, (fun l => l). repeat (split; [reflexivity|]). intros name. reflexivity.
Qed.
Example C104_case : exists v, fst (get (p_version (of_settings None [] [bs "*.md"; bs "x"])) nowhere None) = Ok v /\
  execute (fun l => l) true true (Done (of_settings None [] [bs "*.md"; bs "x"])) nowhere (bs "project.version.short") = Prints (bs "1.2.3" ++ [10]) /\
  execute (fun l => l) true true (Done (of_settings None [] [bs "*.md"; bs "x"])) nowhere (bs "project.signing.authority") = Prints (bs "tst_1.2.3" ++ [10]) /\
  execute (fun l => l) true true (Done (of_settings None [] [bs "*.md"; bs "x"])) nowhere (bs "project.files.exclude") = Prints (bs "*.md" ++ [10] ++ bs "x" ++ [10]) /\
  execute (fun l => l) true true (Done (of_settings None [] [bs "*.md"; bs "x"])) nowhere (bs "project") = Fails.
Proof. eexists. repeat split; vm_compute; reflexivity. Qed.

Print Assumptions C104_list.
Print Assumptions C104_unknown.
Print Assumptions C104_version.
Print Assumptions C104_reads_back.
Print Assumptions C104_needs_version.
Print Assumptions C104_new_project.
Print Assumptions C104_authority.
Print Assumptions C104_settings.
Print Assumptions C104_order_refuted.
Print Assumptions C104_unset_refuted.
