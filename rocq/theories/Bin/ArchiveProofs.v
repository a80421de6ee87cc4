(** Lemmas for C92. *)
From Coq Require Import String.
From Verif Require Import Base.Tactics Base.Bytes Base.Sort Base.Ascii Base.Text Workspace.PathModel.
From Verif Require Import Bin.PackModel Bin.ConvertModel Bin.ConvertSpec Bin.ConvertProofs Bin.ConvertProps Bin.ArchiveSpec.
From Verif Require Bin.PackSpec Bin.BinarizeSpec Bin.BinarizeProofs Workspace.PathProps.
Local Open Scope N_scope.
Local Open Scope list_scope.

(** ** What conversions leave *)
Lemma performs_cell ws : forall a b c, a c = b c -> fold_left perform ws a c = fold_left perform ws b c.
Proof.
  induction ws as [|w ws IH]; intros a b c H; cbn [fold_left]; [exact H|]. apply IH.
  destruct (cell_dec (target w) c) as [E|E]; [|now rewrite !perform_other].
  destruct w as [d x|d x]; cbn in E; subst d; cbn; unfold set; destruct (cell_dec c c); rewrite ?H; congruence.
Qed.
Section Cells.
  Context {report error : Type}.
  Notation job := (job report error).
  Lemma turn_cell (st : store) : forall (js : list job) wss, Forall2 (fun j ws => exists ps r, alone st j ps ws (inl r)) js wss -> ForallOrdPairs (apart st) js ->
    forall cur c, cur c = st c ->
    (exists j ps ws r, In j js /\ alone st j ps ws (inl r) /\ In c (map target ws) /\ fold_left perform (concat wss) cur c = fold_left perform ws st c) \/
    ((forall j, In j js -> ~ writes st j c) /\ fold_left perform (concat wss) cur c = st c).
  Proof.
    intros js wss F. induction F as [|j ws js wss (ps & r & A) F IH]; intros AP cur c Hc.
    - right. split; [intros j []|exact Hc].
    - inversion AP as [|? ? FA AP']; subst. cbn [concat]. rewrite fold_left_app. destruct (in_dec cell_dec c (map target ws)) as [I|NI].
      + left. exists j, ps, ws, r. split; [now left|]. split; [exact A|]. split; [exact I|]. rewrite (performs_cell ws st cur c) by congruence.
        apply performs_other. intros K. rewrite Forall_forall in FA. clear IH AP AP'. induction F as [|j' ws' js wss (ps' & r' & A') F IH']; [destruct K|].
        cbn [concat] in K. rewrite map_app, in_app_iff in K. destruct K as [K|K]; [|apply IH'; [intros x Ix; apply FA; now right|exact K]].
        destruct (FA j') as (Q & _); [now left|]. apply (Q c); [exists ps, ws, (inl r); auto|exists ps', ws', (inl r'); auto].
      + destruct (IH AP' (fold_left perform ws cur) c) as [(j' & ps' & ws' & r' & I' & A' & T' & E)|(NW & E)]; [rewrite performs_other by exact NI; exact Hc| |].
        * left. exists j', ps', ws', r'. split; [now right|]. auto.
        * right. split; [|exact E]. intros j' [<-|I']; [|now apply NW]. intros (ps' & ws' & x' & A' & T'). destruct (alone_fun _ _ _ _ _ A _ _ _ A') as (_ & <- & _). contradiction.
  Qed.
  Lemma run_result (st st' : store) (js : list job) l : ForallOrdPairs (apart st) js -> all_succeed st js -> run (st, begin js) (st', l) -> Forall (fun x => over (snd x)) l ->
    forall c, (exists j ps ws r, In j js /\ alone st j ps ws (inl r) /\ In c (map target ws) /\ st' c = fold_left perform ws st c) \/
    ((forall j, In j js -> ~ writes st j c) /\ st' c = st c).
  Proof.
    intros AP OK R OV c. destruct (C81_any_schedule st js AP OK st' l R OV) as (seq & rs & T & E & _).
    destruct (in_turn_alone st js seq rs AP st (fun _ _ _ _ => eq_refl) T) as (wss & ES & FS & LR).
    assert (F : Forall2 (fun j ws => exists ps r, alone st j ps ws (inl r)) js wss).
    { clear -FS LR. revert rs wss LR FS. induction js as [|j js IH]; intros [|r rs] wss LR FS; try discriminate LR; inversion FS as [|? ? ? ? (ps & A) F']; subst; constructor; [exists ps, r; exact A|].
      apply (IH rs); [now injection LR|exact F']. }
    rewrite E, ES. apply turn_cell; auto.
  Qed.
End Cells.

Section Outputs.
  Context {report error : Type}.
  Notation job := (job report error).
  Lemma adds_content p pieces : forall (st : store) b, st (Disk p) = Some b -> fold_left perform (map (Add (Disk p)) pieces) st (Disk p) = Some (b ++ concat pieces).
  Proof.
    induction pieces as [|x pieces IH]; intros st b H; cbn [map fold_left concat]; [now rewrite app_nil_r|]. rewrite app_assoc. apply IH.
    cbn. unfold set. destruct (cell_dec (Disk p) (Disk p)); [|congruence]. now rewrite H.
  Qed.
  Lemma put_content notes p pieces (st : store) : fold_left perform (notes ++ Put (Disk p) [] :: map (Add (Disk p)) pieces) st (Disk p) = Some (concat pieces).
  Proof.
    rewrite fold_left_app. cbn [fold_left]. apply (adds_content p pieces _ []). cbn. unfold set. destruct (cell_dec (Disk p) (Disk p)); congruence.
  Qed.
  Lemma output_content st (j : job) p b : output st j p b -> forall ps ws x, alone st j ps ws x -> In (Disk p) (map target ws) /\ forall cur, fold_left perform ws cur (Disk p) = Some b.
  Proof.
    intros (ps0 & notes & pieces & r & A & _ & ->) ps ws x A'. destruct (alone_fun _ _ _ _ _ A _ _ _ A') as (_ & <- & _). split; [|intros cur; apply put_content].
    rewrite map_app, in_app_iff. right. now left.
  Qed.
  Lemma output_fun st (j : job) p b b' : output st j p b -> output st j p b' -> b = b'.
  Proof.
    intros O O'. pose proof O as (ps & notes & pieces & r & A & _). destruct (output_content _ _ _ _ O _ _ _ A) as (_ & E). destruct (output_content _ _ _ _ O' _ _ _ A) as (_ & E').
    specialize (E st). specialize (E' st). congruence.
  Qed.
  Lemma adds_targets c p pieces : In c (map target (Put (Disk p) [] :: map (Add (Disk p)) pieces)) -> c = Disk p.
  Proof. cbn. intros [<-|I]; [reflexivity|]. rewrite map_map in I. cbn in I. apply in_map_iff in I as (b & <- & _). reflexivity. Qed.
  Lemma sqf_output st v (j : job) ps ws r p : sqf_job v j -> alone st j ps ws (inl r) -> In (Disk p) (map target ws) ->
    sqf_out v = Some p /\ exists b, output st j p b.
  Proof.
    intros J A. assert (G : forall x, alone st j ps ws x -> In (Disk p) (map target ws) -> sqf_out v = Some p /\ exists pieces, ws = Put (Disk p) [] :: map (Add (Disk p)) pieces).
    { clear A. intros x A. revert J. induction A as [ws x|q k ps ws x _ IH]; intros J I; inversion J as [q' k' K| |out pieces y O]; subst; auto; [destruct I|].
      apply adds_targets in I. injection I as ->. split; [exact O|]. now exists pieces. }
    intros I. destruct (G _ A I) as (O & pieces & ->). split; [exact O|]. exists (concat pieces), ps, [], pieces, r. split; [exact A|]. split; [intros q []|reflexivity].
  Qed.
  Lemma rapify_output st f v (j : job) ps ws r p : rapify_job f v j -> alone st j ps ws (inl r) -> In (Disk p) (map target ws) ->
    rapify_out v = Some p /\ exists b, output st j p b.
  Proof.
    intros J A. assert (G : forall x, alone st j ps ws x -> In (Disk p) (map target ws) -> rapify_out v = Some p /\ exists notes pieces, ws = notes ++ Put (Disk p) [] :: map (Add (Disk p)) pieces /\ forall q, ~ In (Disk q) (map target notes)).
    { clear A. intros x A. revert J. induction A as [ws x|q k ps ws x _ IH]; intros J I; inversion J as [q' k' K| |notes file y HN HF]; subst; auto; [destruct I|].
      assert (NN : forall q, ~ In (Disk q) (map target notes)).
      { intros q. destruct HN as [[-> _]|[(ver & conf & ->) _]]; [intros []|]. cbn. intros [H|[H|[]]]; discriminate. }
      rewrite map_app, in_app_iff in I. destruct I as [I|I]; [now apply NN in I|]. destruct HF as [->|(out & pieces & O & ->)]; [destruct I|].
      apply adds_targets in I. injection I as ->. split; [exact O|]. now exists notes, pieces. }
    intros I. destruct (G _ A I) as (O & notes & pieces & -> & NN). split; [exact O|]. exists (concat pieces), ps, notes, pieces, r. split; [exact A|]. split; [exact NN|reflexivity].
  Qed.
  Lemma alone_output a b (j : job) p c : (forall q, reads a j q -> b (Disk q) = a (Disk q)) -> output a j p c -> output b j p c.
  Proof.
    intros H (ps & notes & pieces & r & A & N1 & E). exists ps, notes, pieces, r. split; [|auto]. apply (alone_same a); [exact A|]. intros q I. apply H. exists ps. eauto.
  Qed.
End Outputs.

(** ** Which files are converted *)
Lemma nodup_inj {A B} (f : A -> B) l : NoDup (map f l) -> forall x y, In x l -> In y l -> f x = f y -> x = y.
Proof.
  induction l as [|a l IH]; intros ND x y Hx Hy E; [destruct Hx|]. cbn [map] in ND. inversion ND as [|? ? NI ND']; subst.
  destruct Hx as [<-|Hx], Hy as [<-|Hy]; auto; exfalso; apply NI; [rewrite E|rewrite <- E]; now apply in_map.
Qed.
Lemma nodup_app {A} (a b : list A) : NoDup a -> NoDup b -> (forall x, In x a -> In x b -> False) -> NoDup (a ++ b).
Proof.
  intros Ha Hb H. induction Ha as [|x a NI Ha IH]; cbn [app]; [exact Hb|]. constructor; [|apply IH; intros y Hy; apply H; now right].
  rewrite in_app_iff. intros [I|I]; [now apply NI|]. apply (H x); [now left|exact I].
Qed.
Lemma selected_all {A} (P : A -> Prop) l r : BinarizeSpec.selected P l r -> forall x, In x r <-> In x l /\ P x.
Proof.
  induction 1 as [|y l r Py _ IH|y l r Py _ IH]; intros x; [cbn; tauto| |]; cbn [In]; rewrite IH; [|].
  - split; [intros [<-|[H1 H2]]; auto|]. intros [[<-|H1] H2]; auto.
  - split; [intros [H1 H2]; auto|]. intros [[<-|H1] H2]; [contradiction|auto].
Qed.
Lemma in_walk l a e : In (a, e) (walk l) <-> In a l /\ In e (c_tree a).
Proof.
  unfold walk. rewrite in_flat_map. split.
  - intros (b & Hb & I). apply in_map_iff in I as (f & [= -> ->] & I). auto.
  - intros (Ha & He). exists a. split; [exact Ha|]. now apply in_map.
Qed.
Section Walks.
  Context (glob : text -> option (text -> bool)) (addons : list addon) (st : store) (l : list source).
  Hypothesis heads : map head l = addons.
  Hypothesis shown : shows st l.
  Lemma named a dirs n c : In a addons -> st (Disk (fst a ++ dirs ++ [n])) = Some c -> file_name n.
  Proof using heads shown.
    intros Ha H. rewrite <- heads in Ha. apply in_map_iff in Ha as (s & <- & Hs). cbn [head fst] in H. destruct (shown s Hs) as ((LN & _) & L).
    apply L in H. rewrite Forall_forall in LN. specialize (LN _ H). cbn in LN. destruct LN as (_ & N1 & N2 & _). split; assumption.
  Qed.
  Lemma entry_content a e c : In a l -> In e (c_tree a) -> (e_content e = Some c <-> st (Disk (place a e)) = Some c).
  Proof using shown.
    intros Ha He. destruct (shown a Ha) as ((LN & ND) & L). unfold place. rewrite <- L. destruct e as [d n k]. cbn [e_dirs e_name e_content]. split.
    - intros ->. exact He.
    - intros He'. assert (E : Entry d n k = Entry d n (Some c)).
      { apply (nodup_inj _ _ ND); auto. }
      now injection E.
  Qed.
  Lemma scripts_in v : In v (map snd (sqf_entries l)) <-> script_at addons st v.
  Proof using heads shown.
    destruct (C81_scripts l) as (ws & S & ->). rewrite map_map. cbn [placed snd]. rewrite in_map_iff. split.
    - intros ((a, e) & <- & I). apply (selected_all _ _ _ S) in I as (I & F & X & NI). apply in_walk in I as (Ha & He). cbn [fst snd] in *. unfold is_file in F.
      destruct (e_content e) as [c|] eqn:Ec; [|contradiction]. exists (head a), (e_dirs e), (e_name e), c. split; [rewrite <- heads; now apply in_map|]. split; [reflexivity|].
      split; [now apply (entry_content a e c Ha He)|]. auto.
    - intros (h & dirs & n & c & Hh & -> & Hc & X & NI). rewrite <- heads in Hh. apply in_map_iff in Hh as (a & <- & Ha). cbn [head fst] in *.
      destruct (shown a Ha) as (_ & L). pose proof Hc as He. apply L in He. exists (a, Entry dirs n (Some c)). split; [reflexivity|]. apply (selected_all _ _ _ S).
      split; [now apply in_walk|]. split; [discriminate|]. auto.
  Qed.
  Lemma configs_in es : rapify_entries glob l = Some es ->
    (forall a v, In (a, v) es -> In a l /\ config_at glob addons st (c_folder a) v) /\
    (forall f v, config_at glob addons st f v -> exists a, In (a, v) es /\ c_folder a = f).
  Proof using heads shown.
    intros RE. apply C81_configs in RE as (_ & ws & S & ->). split.
    - intros a v I. apply in_map_iff in I as ((a', e) & E & I). unfold placed in E. cbn [fst snd] in E. assert (a' = a /\ v = place a e) as [-> ->] by (injection E as -> <-; split; reflexivity).
      apply (selected_all _ _ _ S) in I as (I & F & X & NI). apply in_walk in I as (Ha & He). cbn [fst snd] in *. unfold is_file in F. destruct (e_content e) as [c|] eqn:Ec; [|contradiction].
      split; [exact Ha|]. exists (c_rapify a), (e_dirs e), (e_name e), c. split; [rewrite <- heads; now apply (in_map head)|]. split; [reflexivity|].
      split; [now apply (entry_content a e c Ha He)|]. auto.
    - intros f v (rapify & dirs & n & c & Hh & -> & Hc & X & NI). rewrite <- heads in Hh. apply in_map_iff in Hh as (a & [= <- <-] & Ha).
      destruct (shown a Ha) as (_ & L). pose proof Hc as He. apply L in He. exists a. split; [|reflexivity]. apply in_map_iff. exists (a, Entry dirs n (Some c)). split; [reflexivity|].
      apply (selected_all _ _ _ S). split; [now apply in_walk|]. split; [discriminate|]. split; [exact X|exact NI].
  Qed.
  Lemma proper : separate addons -> proper_tree l.
  Proof using heads shown.
    intros SEP. split.
    - clear glob. assert (SEP' : ForallOrdPairs (fun a b => ~ (exists d, c_folder b = c_folder a ++ d) /\ ~ (exists d, c_folder a = c_folder b ++ d)) l).
      { rewrite <- heads in SEP. clear -SEP. induction l as [|a r IH]; [constructor|]. cbn [map] in SEP. inversion SEP as [|? ? FA SEP']; subst. constructor; [|now apply IH].
        rewrite Forall_forall in *. intros b Hb. apply (FA (head b)). now apply in_map. }
      clear SEP heads. revert shown SEP'. unfold walk. induction l as [|a r IH]; intros shown SEP'; cbn [flat_map map]; [constructor|]. inversion SEP' as [|? ? FA SEP2]; subst.
      rewrite map_app. apply nodup_app.
      + rewrite map_map. cbn [fst snd]. destruct (shown a (or_introl eq_refl)) as ((_ & ND) & _). unfold place. clear -ND. induction (c_tree a) as [|e t IH]; cbn [map] in *; [constructor|].
        inversion ND as [|? ? NI ND']; subst. constructor; [|auto]. intros K. apply NI. apply in_map_iff in K as (e' & E & I). apply app_inv_head in E. apply in_map_iff. eauto.
      + apply IH; [intros b Hb; apply shown; now right|exact SEP2].
      + intros p I1 I2. rewrite map_map in I1. apply in_map_iff in I1 as (e & <- & I1). apply in_map_iff in I2 as ((b, e') & E & I2). apply in_flat_map in I2 as (b' & Hb & I2).
        apply in_map_iff in I2 as (e2 & [= -> ->] & I2). cbn [fst snd] in E. unfold place in E. rewrite Forall_forall in FA. destruct (FA b Hb) as (N1 & N2).
        apply app_eq_app in E as (d & [(E1 & _)|(E1 & _)]); eauto.
    - apply Forall_forall. intros (a, e) I. apply in_walk in I as (Ha & He). cbn [snd]. destruct (shown a Ha) as ((LN & _) & _). rewrite Forall_forall in LN. destruct (LN _ He) as (_ & N1 & N2 & _). split; assumption.
  Qed.
End Walks.

(** ** The names of results *)
Lemma script_result addons st v p : (forall a dirs n c, In a addons -> st (Disk (fst a ++ dirs ++ [n])) = Some c -> file_name n) ->
  script_at addons st v -> sqf_out v = Some p -> exists d m, p = d ++ [m ++ bs ".sqfc"].
Proof.
  intros NM (a & dirs & n & c & Ha & -> & Hc & (m & x & -> & NE & [<-|[]]) & _) O. pose proof (NM _ _ _ _ Ha Hc) as (_ & NS). rewrite app_assoc in O.
  destruct (C81_outputs (fst a ++ dirs) m NE) as (_ & _ & _ & _ & E); [intros K; apply NS; apply in_or_app; now left|].
  change (m ++ bs "." ++ bs "sqf") with (m ++ bs ".sqf") in O. exists (fst a ++ dirs), m. congruence.
Qed.
Lemma config_result glob addons st f v p : (forall a dirs n c, In a addons -> st (Disk (fst a ++ dirs ++ [n])) = Some c -> file_name n) ->
  config_at glob addons st f v -> rapify_out v = Some p -> exists d m x, In x [bs ".bin"; bs ".rvmat"; bs ".ext"] /\ p = d ++ [m ++ x].
Proof.
  intros NM (ra & dirs & n & c & Ha & -> & Hc & (m & x & -> & NE & Ix) & _) O. pose proof (NM _ _ _ _ Ha Hc) as (_ & NS). rewrite app_assoc in O.
  destruct (C81_outputs (f ++ dirs) m NE) as (E1 & _ & E2 & E3 & _); [intros K; apply NS; apply in_or_app; now left|].
  destruct Ix as [<-|[<-|[<-|[]]]].
  - change (m ++ bs "." ++ bs "cpp") with (m ++ bs ".cpp") in O. exists (f ++ dirs), m, (bs ".bin"). split; [now left|]. congruence.
  - change (m ++ bs "." ++ bs "rvmat") with (m ++ bs ".rvmat") in O. exists (f ++ dirs), m, (bs ".rvmat"). split; [right; now left|]. congruence.
  - change (m ++ bs "." ++ bs "ext") with (m ++ bs ".ext") in O. exists (f ++ dirs), m, (bs ".ext"). split; [right; right; now left|]. congruence.
Qed.
Lemma not_sqfc d m x d' m' : In x [bs ".bin"; bs ".rvmat"; bs ".ext"; bs ".cpp"; bs ".sqf"] -> d ++ [m ++ x] <> d' ++ [m' ++ bs ".sqfc"].
Proof.
  intros Ix K. apply app_inj_tail in K as [_ K]. apply (f_equal (@rev N)) in K. rewrite !rev_app_distr in K.
  destruct Ix as [<-|[<-|[<-|[<-|[<-|[]]]]]]; cbn in K; discriminate K.
Qed.
Lemma separate_folder addons a b d e : separate addons -> In a addons -> In b addons -> fst a ++ d = fst b ++ e -> a = b.
Proof.
  intros SEP. induction SEP as [|h r FA _ IH]; intros Ha Hb E; [destruct Ha|]. rewrite Forall_forall in FA.
  apply app_eq_app in E as K. destruct Ha as [<-|Ha], Hb as [<-|Hb]; auto.
  - exfalso. destruct (FA b Hb) as (N1 & N2). destruct K as (k & [(E1 & _)|(E1 & _)]); eauto.
  - exfalso. destruct (FA a Ha) as (N1 & N2). destruct K as (k & [(E1 & _)|(E1 & _)]); eauto.
Qed.

(** ** All conversions *)
Section All.
  Context {report error : Type} (glob : text -> option (text -> bool)) (addons : list addon).
  Context (script : vpath -> job report error) (config : vpath -> vpath -> job report error).
  Hypothesis scripts : forall v, sqf_job v (script v).
  Hypothesis configs : forall f v, rapify_job f v (config f v).
  Context (st0 st1 st2 : store) (l0 l1 : list source) (es : list (source * vpath)) (d1 d2 : list (job report error * progress report error)).
  Hypothesis heads0 : map head l0 = addons.
  Hypothesis heads1 : map head l1 = addons.
  Hypothesis shown0 : shows st0 l0.
  Hypothesis shown1 : shows st1 l1.
  Hypothesis apart_folders : separate addons.
  Hypothesis convert : all_convert glob addons st0 script config.
  Hypothesis indep : independent glob addons st0 script config.
  Hypothesis single : single_config glob addons st0.
  Hypothesis run1 : run (st0, begin (map (fun x => script (snd x)) (sqf_entries l0))) (st1, d1).
  Hypothesis over1 : Forall (fun x => over (snd x)) d1.
  Hypothesis entries : rapify_entries glob l1 = Some es.
  Hypothesis run2 : run (st1, begin (map (fun x => config (c_folder (fst x)) (snd x)) es)) (st2, d2).
  Hypothesis over2 : Forall (fun x => over (snd x)) d2.
  Notation script_at := (script_at addons st0).
  Notation config_at := (config_at glob addons st0).

  Let names0 := named addons st0 l0 heads0 shown0.
  Lemma scripts_nodup : NoDup (map snd (sqf_entries l0)).
  Proof using heads0 shown0 apart_folders.
    destruct (proper addons st0 l0 heads0 shown0 apart_folders) as (ND & _). destruct (C81_scripts l0) as (ws & S & ->). rewrite map_map. cbn [placed snd]. exact (selected_nodup _ _ _ _ S ND).
  Qed.
  Lemma configs_nodup : NoDup (map snd es).
  Proof using heads1 shown1 apart_folders entries.
    destruct (proper addons st1 l1 heads1 shown1 apart_folders) as (ND & _). pose proof entries as RE. apply C81_configs in RE as (_ & ws & S & E). rewrite E, map_map. cbn [placed snd]. exact (selected_nodup _ _ _ _ S ND).
  Qed.
  Lemma nth_map {A B} (f : A -> B) l i y : nth_error (map f l) i = Some y -> exists x, nth_error l i = Some x /\ y = f x.
  Proof using. revert i. induction l as [|a l IH]; intros [|i] H; cbn in *; try discriminate; [injection H as <-; eauto|eauto]. Qed.
  Lemma forall2_map {A B} (R : A -> B -> Prop) (f : A -> B) l : (forall x, In x l -> R x (f x)) -> Forall2 R l (map f l).
  Proof using. induction l as [|a l IH]; intros H; cbn [map]; constructor; [apply H; now left|apply IH; intros x Hx; apply H; now right]. Qed.

  Lemma stage1 : forall c, (exists v p b, c = Disk p /\ script_at v /\ sqf_out v = Some p /\ output st0 (script v) p b /\ st1 c = Some b) \/
    (st1 c = st0 c /\ forall v p b, c = Disk p -> script_at v -> sqf_out v = Some p -> ~ output st0 (script v) p b).
  Proof using scripts heads0 shown0 apart_folders convert indep run1 over1 names0.
    set (js := map (fun x => script (snd x)) (sqf_entries l0)) in *.
    assert (Inv : forall j, In j js -> exists v, script_at v /\ j = script v).
    { intros j I. apply in_map_iff in I as (x & <- & I). exists (snd x). split; [|reflexivity]. apply (scripts_in addons st0 l0 heads0 shown0). now apply in_map. }
    assert (AP : ForallOrdPairs (apart st0) js).
    { apply (scripts_apart l0); [exact (proper addons st0 l0 heads0 shown0 apart_folders)|apply forall2_map; intros x _; apply scripts|].
      intros i k j p E NE R v K. apply nth_map in E as (x & E & ->). assert (NX : v <> snd x).
      { intros ->. apply NE. apply (proj1 (NoDup_nth_error _) scripts_nodup).
        - rewrite map_length. apply (proj1 (nth_error_Some (sqf_entries l0) i)). congruence.
        - rewrite K. rewrite nth_error_map, E. reflexivity. }
      destruct indep as (I1 & _). apply (I1 (snd x) p v); auto; apply (scripts_in addons st0 l0 heads0 shown0); [apply in_map; eapply nth_error_In; eauto|eapply nth_error_In; eauto]. }
    assert (OK : all_succeed st0 js). { intros j I. apply Inv in I as (v & S & ->). exact (proj1 convert v S). }
    intros c. destruct (run_result st0 st1 js d1 AP OK run1 over1 c) as [(j & ps & ws & r & I & A & T & E)|(NW & E)].
    - left. apply Inv in I as (v & S & ->). destruct (sqf_writes v (script v) st0 c (scripts v) (ex_intro _ ps (ex_intro _ ws (ex_intro _ (inl r) (conj A T))))) as (o & -> & _).
      destruct (sqf_output st0 v (script v) ps ws r o (scripts v) A T) as (O & b & B). exists v, o, b. split; [reflexivity|]. split; [exact S|]. split; [exact O|]. split; [exact B|].
      rewrite E. apply (output_content _ _ _ _ B _ _ _ A).
    - right. split; [exact E|]. intros v p b -> S O B. assert (I : In (script v) js).
      { apply (scripts_in addons st0 l0 heads0 shown0) in S. apply in_map_iff in S as (x & <- & S). apply in_map_iff. exists x. auto. }
      apply (NW _ I). pose proof B as (ps & notes & pieces & r & A & _). exists ps. eexists. exists (inl r). split; [exact A|]. apply (output_content _ _ _ _ B _ _ _ A).
  Qed.
  (** Nothing that a config is, or reads, has changed. *)
  Lemma same_named d n : BinarizeSpec.has_extension [bs "cpp"; bs "rvmat"; bs "ext"] n -> st1 (Disk (d ++ [n])) = st0 (Disk (d ++ [n])).
  Proof using scripts heads0 shown0 apart_folders convert indep run1 over1 names0.
    intros (k & x & -> & NE & Ix). destruct (stage1 (Disk (d ++ [k ++ bs "." ++ x]))) as [(w & p & b & EQ & S & O & _)|(E & _)]; [|exact E]. exfalso.
    apply (f_equal (fun c => match c with Disk q => q | _ => [] end)) in EQ. cbv beta iota in EQ. subst p.
    destruct (script_result addons st0 w _ names0 S O) as (d' & m & K).
    revert K. destruct Ix as [<-|[<-|[<-|[]]]]; [change (k ++ bs "." ++ bs "cpp") with (k ++ bs ".cpp")|change (k ++ bs "." ++ bs "rvmat") with (k ++ bs ".rvmat")|change (k ++ bs "." ++ bs "ext") with (k ++ bs ".ext")]; apply not_sqfc; cbn [In]; auto 10.
  Qed.
  Lemma same_configs f v : ArchiveSpec.config_at glob addons st1 f v <-> config_at f v.
  Proof using scripts heads0 shown0 apart_folders convert indep run1 over1 names0.
    split; intros (ra & dirs & n & c & Ha & -> & Hc & X & G); exists ra, dirs, n, c; split; [exact Ha| |exact Ha|]; (split; [reflexivity|]); (split; [|split; [exact X|exact G]]).
    - rewrite app_assoc in *. now rewrite <- same_named.
    - rewrite app_assoc in *. now rewrite same_named.
  Qed.
  Lemma same_reads f v p : config_at f v -> reads st0 (config f v) p -> st1 (Disk p) = st0 (Disk p).
  Proof using scripts heads0 shown0 apart_folders convert indep run1 over1 names0.
    intros C R. destruct (stage1 (Disk p)) as [(w & q & b & [= <-] & S & O & _)|(E & _)]; [|exact E]. exfalso. destruct indep as (_ & I2 & _). exact (I2 f v p w C R S O).
  Qed.
  Lemma same_alone f v ps ws x : config_at f v -> alone st1 (config f v) ps ws x <-> alone st0 (config f v) ps ws x.
  Proof using scripts heads0 shown0 apart_folders convert indep run1 over1 names0.
    intros C. assert (F : forall ps ws x, alone st0 (config f v) ps ws x -> alone st1 (config f v) ps ws x).
    { intros ps0 ws0 x0 A. apply (alone_same st0); [exact A|]. intros p I. apply (same_reads f v); [exact C|]. exists ps0. eauto. }
    split; [|apply F]. intros A. destruct (alone_total st0 (config f v)) as (ps' & ws' & x' & A'). destruct (alone_fun _ _ _ _ _ A _ _ _ (F _ _ _ A')) as (-> & -> & ->). exact A'.
  Qed.
  Lemma folders_one f g v : config_at f v -> config_at g v -> f = g.
  Proof using apart_folders.
    intros (ra & d & n & c & Ha & E & _) (rb & d' & n' & c' & Hb & E' & _). rewrite E in E'.
    assert (X : (f, ra) = (g, rb)) by (apply (separate_folder addons _ _ (d ++ [n]) (d' ++ [n']) apart_folders Ha Hb); exact E'). congruence.
  Qed.
  Lemma configs_one v w p f g : config_at f v -> config_at g w -> rapify_out v = Some p -> rapify_out w = Some p -> v = w.
  Proof using names0 heads0 shown0.
    intros (ra & d & n & c & Ha & -> & Hc & X & _) (rb & d' & n' & c' & Hb & -> & Hc' & X' & _) O O'.
    pose proof (names0 _ _ _ _ Ha Hc) as F. pose proof (names0 _ _ _ _ Hb Hc') as F'. rewrite !app_assoc in *. exact (outs_distinct _ _ _ _ F F' X X' p O O').
  Qed.
  Lemma scripts_one v w p : script_at v -> script_at w -> sqf_out v = Some p -> sqf_out w = Some p -> v = w.
  Proof using names0 heads0 shown0.
    intros (a & d & n & c & Ha & -> & Hc & X & _) (b & d' & n' & c' & Hb & -> & Hc' & X' & _) O O'.
    pose proof (names0 _ _ _ _ Ha Hc) as F. pose proof (names0 _ _ _ _ Hb Hc') as F'. rewrite !app_assoc in *. exact (sqf_distinct _ _ _ _ F F' X X' p O O').
  Qed.

  Lemma stage2 : forall p, (exists f v b, config_at f v /\ rapify_out v = Some p /\ output st0 (config f v) p b /\ st2 (Disk p) = Some b) \/
    (st2 (Disk p) = st1 (Disk p) /\ forall f v b, config_at f v -> rapify_out v = Some p -> ~ output st0 (config f v) p b).
  Proof using scripts configs heads0 shown0 heads1 shown1 apart_folders convert indep single run1 over1 entries run2 over2 names0.
    set (js := map (fun x => config (c_folder (fst x)) (snd x)) es) in *.
    destruct (configs_in glob addons st1 l1 heads1 shown1 es entries) as (In1 & In2).
    assert (Inv : forall j, In j js -> exists f v, config_at f v /\ j = config f v).
    { intros j I. apply in_map_iff in I as ((a, v) & <- & I). apply In1 in I as (_ & I). apply same_configs in I. cbn [fst snd]. eauto. }
    assert (AP : ForallOrdPairs (apart st1) js).
    { apply (rapifier_apart glob l1 es); [exact entries|exact (proper addons st1 l1 heads1 shown1 apart_folders)| |apply forall2_map; intros x _; apply configs|].
      - intros i k a b v w E1 E2 L1 L2 EF. apply (proj1 (NoDup_nth_error _) configs_nodup).
        + rewrite map_length. apply (proj1 (nth_error_Some es i)). congruence.
        + rewrite !nth_error_map, E1, E2. cbn [option_map snd]. f_equal. destruct (In1 _ _ (nth_error_In _ _ E1)) as (_ & C1). destruct (In1 _ _ (nth_error_In _ _ E2)) as (_ & C2).
          apply same_configs in C1, C2. rewrite EF in C1. exact (single _ _ _ C1 C2 L1 L2).
      - intros i k j p E NE R v K. apply nth_map in E as ((a, u) & E & ->). cbn [fst snd] in *. assert (NX : v <> u).
        { intros ->. apply NE. apply (proj1 (NoDup_nth_error _) configs_nodup).
          - rewrite map_length. apply (proj1 (nth_error_Some es i)). congruence.
          - rewrite K. rewrite nth_error_map, E. reflexivity. }
        destruct (In1 _ _ (nth_error_In _ _ E)) as (_ & C). apply same_configs in C. apply nth_map in K as ((b, v') & K & E'). cbn [snd] in E'. subst v'.
        destruct (In1 _ _ (nth_error_In _ _ K)) as (_ & C'). apply same_configs in C'. destruct indep as (_ & _ & I3). apply (I3 _ u p (c_folder b) v C); auto.
        destruct R as (ps & ws & x & A & I). apply (same_alone _ _ _ _ _ C) in A. exists ps. eauto. }
    assert (OK : all_succeed st1 js).
    { intros j I. apply Inv in I as (f & v & C & ->). destruct (proj2 convert f v C) as (r & ps & ws & A). exists r, ps, ws. now apply same_alone. }
    intros p. destruct (run_result st1 st2 js d2 AP OK run2 over2 (Disk p)) as [(j & ps & ws & r & I & A & T & E)|(NW & E)].
    - left. apply Inv in I as (f & v & C & ->). apply (same_alone _ _ _ _ _ C) in A. destruct (rapify_output st0 f v (config f v) ps ws r p (configs f v) A T) as (O & b & B).
      exists f, v, b. split; [exact C|]. split; [exact O|]. split; [exact B|]. rewrite E. apply (output_content _ _ _ _ B _ _ _ A).
    - right. split; [exact E|]. intros f v b C O B. destruct (In2 f v) as (a & I & <-); [now apply same_configs|].
      apply (NW (config (c_folder a) v)); [apply in_map_iff; exists (a, v); auto|]. pose proof B as (ps & notes & pieces & r & A & _). exists ps. eexists. exists (inl r).
      split; [apply same_alone; [exact C|exact A]|]. apply (output_content _ _ _ _ B _ _ _ A).
  Qed.
  Lemma all_files : forall p b, st2 (Disk p) = Some b <-> after glob addons st0 script config p b.
  Proof using scripts configs heads0 shown0 heads1 shown1 apart_folders convert indep single run1 over1 entries run2 over2 names0.
    intros p b. destruct (stage2 p) as [(f & v & b2 & C & O & B & E)|(E & NC)].
    - rewrite E. split; [intros [= <-]; eapply after_config; eauto|]. intros [g w C' O' B'|w S' O' B'|_ NC _].
      + pose proof (configs_one _ _ _ _ _ C C' O O') as <-. pose proof (folders_one _ _ _ C C') as <-. f_equal. exact (output_fun _ _ _ _ _ B B').
      + exfalso. destruct (script_result addons st0 w p names0 S' O') as (d & m & K). destruct (config_result glob addons st0 f v p names0 C O) as (d' & m' & x & Ix & K'). rewrite K' in K.
        revert K. apply not_sqfc. cbn [In] in *. tauto.
      + exfalso. exact (NC f v b2 C O B).
    - rewrite E. destruct (stage1 (Disk p)) as [(v & q & b1 & [= <-] & S & O & B & E1)|(E1 & NS)].
      + rewrite E1. split; [intros [= <-]; eapply after_script; eauto|]. intros [g w C' O' B'|w S' O' B'|_ _ NS].
        * exfalso. exact (NC _ _ _ C' O' B').
        * pose proof (scripts_one _ _ _ S S' O O') as <-. f_equal. exact (output_fun _ _ _ _ _ B B').
        * exfalso. exact (NS _ _ S O B).
      + rewrite E1. split.
        * intros H. apply after_same; [exact H|exact NC|]. intros v c S O. apply (NS v p c eq_refl S O).
        * intros [g w C' O' B'|w S' O' B'|H _ _]; [|exfalso; exact (NS _ p _ eq_refl S' O' B')|exact H]. exfalso. exact (NC _ _ _ C' O' B').
  Qed.
End All.
