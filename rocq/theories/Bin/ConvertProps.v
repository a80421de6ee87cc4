(** C81: the files converted at once give the same result however they are scheduled. *)
From Coq Require Import String.
From Verif Require Import Base.Tactics Base.Bytes Base.Sort Base.Ascii Base.Text Workspace.PathModel.
From Verif Require Import Bin.PackModel Bin.ConvertModel Bin.ConvertSpec Bin.ConvertProofs.
From Verif Require Bin.BinarizeModel Bin.PackSpec Bin.BinarizeSpec Bin.BinarizeProofs Workspace.PathProps.
Local Open Scope N_scope.
Local Open Scope list_scope.

Lemma forall2_in_l {A B} (R : A -> B -> Prop) l l' x : Forall2 R l l' -> In x l -> exists y, In y l' /\ R x y.
Proof. induction 1 as [|a b l l' H _ IH]; intros []; [subst; exists b; split; [now left|exact H]|]. destruct (IH H0) as (y & I & Y). exists y. split; [now right|exact Y]. Qed.

Section Schedules.
  Context {report error : Type}.

  (** ** Every schedule gives what running the jobs in turn gives *)
  Theorem C81_any_schedule : forall (st : store) (js : list (job report error)),
    ForallOrdPairs (apart st) js -> all_succeed st js -> as_in_turn st js.
  Proof.
    intros st js AP OK st' l R OV. destruct (run_keeps st _ _ R (map (fun _ => []) js)) as (E & ds & F & AG & AB).
    { cbn. rewrite begin_fst. exact AP. } { apply begin_invariant. }
    cbn [fst snd] in *. rewrite begin_fst in E.
    destruct (alone_in_turn st js AP OK st) as (seq & rs & T); [auto|].
    destruct (in_turn_alone st js seq rs AP st (fun _ _ _ _ => eq_refl) T) as (wss & ES & FS & LR).
    (* every job is finished with its report *)
    assert (ALL : forall j s, In (j, s) l -> exists r, s = Finished (inl r)).
    { intros j s I. assert (NE : forall j0 e, ~ In (j0, Finished (inr e)) l).
      { intros j0 e I0. destruct (forall2_in_l _ _ _ _ F I0) as (d & _ & S). cbn in S. destruct S as (ps & A).
        destruct (OK j0) as (r & ps' & ws' & A'). { rewrite <- E. change j0 with (fst (j0, @Finished report error (inr e))). now apply in_map. }
        destruct (alone_fun _ _ _ _ _ A _ _ _ A') as (_ & _ & K). discriminate K. }
      rewrite Forall_forall in OV. specialize (OV _ I). cbn in OV. destruct s as [| | |x|]; cbn in OV; try tauto.
      - destruct x as [r|e]; [eauto|]. destruct (NE _ _ I).
      - destruct AB as (j0 & e & I0); [|destruct (NE _ _ I0)]. change (@Abandoned report error) with (snd (j, @Abandoned report error)). now apply in_map. }
    assert (G : forall (l : list (job report error * progress report error)) ds js rs wss, map fst l = js -> Forall2 (status st) l ds -> (forall j s, In (j, s) l -> exists r, s = Finished (inl r)) ->
      Forall2 (fun x ws => exists ps, alone st (fst x) ps ws (inl (snd x))) (combine js rs) wss -> length rs = length js ->
      ds = wss /\ map snd l = map (fun r => Finished (inl r)) rs).
    { clear. intros l ds js rs wss <- F. revert rs wss. induction F as [|(j, s) d l ds S _ IH]; intros rs wss ALL FS L.
      - destruct rs; [|discriminate L]. cbn in FS. inversion FS; subst. auto.
      - destruct rs as [|r rs]; [discriminate L|]. cbn in FS. inversion FS as [|? ws ? wss' (ps & A) FS']; subst. destruct (ALL j s) as (r' & ->); [now left|].
        cbn in S, A. destruct S as (ps' & A'). destruct (alone_fun _ _ _ _ _ A' _ _ _ A) as (_ & -> & K). injection K as ->.
        destruct (IH rs wss') as (-> & EM); [intros; eapply ALL; right; eauto|exact FS'|now injection L|]. split; [reflexivity|]. cbn. now rewrite EM. }
    destruct (G l ds js rs wss E F ALL FS LR) as (-> & EM). exists seq, rs. split; [exact T|]. split; [intro c; now rewrite AG, ES|].
    intro y. split.
    - intro A. inversion A as [l0 rs' EM'|l0 j e _ I]; subst.
      + f_equal. rewrite EM in EM'. clear -EM'. revert rs' EM'. induction rs as [|r rs IH]; intros [|r' rs'] H; try discriminate H; [reflexivity|]. cbn in H. injection H as -> H. f_equal. now apply IH.
      + destruct (ALL _ _ I) as (r & K). discriminate K.
    - intros ->. now constructor.
  Qed.

  (** ** When something fails *)
  Theorem C81_errors : forall (st : store) (js : list (job report error)) st' l,
    ForallOrdPairs (apart st) js -> run (st, begin js) (st', l) -> Forall (fun x => over (snd x)) l ->
    (exists j e, In j js /\ ends st j (inr e)) ->
    (exists e, answer l (inr e)) /\ forall y, answer l y -> exists j e, y = inr e /\ In j js /\ ends st j (inr e).
  Proof.
    intros st js st' l AP R OV (j & e & I & ps & ws & A). destruct (run_keeps st _ _ R (map (fun _ => []) js)) as (E & ds & F & AG & AB).
    { cbn. rewrite begin_fst. exact AP. } { apply begin_invariant. }
    cbn [fst snd] in *. rewrite begin_fst in E. rewrite <- E in I. apply in_map_iff in I as ((j1, s) & E1 & I). cbn in E1. subst j1.
    assert (FA : exists j0 e0, In (j0, Finished (inr e0)) l).
    { pose proof OV as OV'. rewrite Forall_forall in OV'. specialize (OV' _ I). cbn in OV'. destruct s as [| | |x|]; cbn in OV'; try tauto.
      - destruct (forall2_in_l _ _ _ _ F I) as (d & _ & S). cbn in S. destruct S as (ps' & A'). destruct (alone_fun _ _ _ _ _ A _ _ _ A') as (_ & _ & <-). eauto.
      - apply AB. change (@Abandoned report error) with (snd (j, @Abandoned report error)). now apply in_map. }
    destruct FA as (j0 & e0 & I0). split; [exists e0; now apply answer_err with j0|]. intros y Y. inversion Y as [l0 rs EM|l0 j1 e1 _ I1]; subst.
    - exfalso. assert (K : In (Finished (inr e0)) (map snd l)) by (change (Finished (inr e0)) with (snd (j0, @Finished report error (inr e0))); now apply in_map).
      rewrite EM in K. apply in_map_iff in K as (r & K & _). discriminate K.
    - exists j1, e1. split; [reflexivity|]. split; [change j1 with (fst (j1, @Finished report error (inr e1))); now apply in_map|].
      destruct (forall2_in_l _ _ _ _ F I1) as (d & _ & S). cbn in S. destruct S as (ps' & A'). exists ps', d. exact A'.
  Qed.
  (** At the end each job has written all it writes alone, or nothing at all; what no job writes is as it was. *)
  Theorem C81_all_or_nothing : forall (st : store) (js : list (job report error)) st' l,
    ForallOrdPairs (apart st) js -> run (st, begin js) (st', l) -> Forall (fun x => over (snd x)) l ->
    (forall j ps ws x, In j js -> alone st j ps ws x ->
      (forall c, In c (map target ws) -> st' c = fold_left perform ws st c) \/ (forall c, In c (map target ws) -> st' c = st c)) /\
    (forall c, (forall j, In j js -> ~ writes st j c) -> st' c = st c).
  Proof.
    intros st js st' l AP R OV. destruct (run_keeps st _ _ R (map (fun _ => []) js)) as (E & ds & F & AG & AB).
    { cbn. rewrite begin_fst. exact AP. } { apply begin_invariant. }
    cbn [fst snd] in *. rewrite begin_fst in E. split.
    - intros j ps ws x I A. rewrite <- E in I. apply in_map_iff in I as ((j1, s) & E1 & I). cbn in E1. subst j1. apply in_split in I as (l1 & l2 & ->).
      apply Forall2_app_inv_l in F as (d1 & d2' & F1 & F2 & ->). inversion F2 as [|? d ? d2 S F2']; subst.
      rewrite map_app in AP. cbn in AP. pose proof (apart_split _ _ _ _ AP) as AJ.
      assert (OUT : forall c, In c (map target ws) -> ~ In c (map target (concat d1)) /\ ~ In c (map target (concat d2))).
      { intros c IC. split; intro K.
        - destruct (others _ _ _ _ F1 K) as (y & Y & W). destruct (AJ (fst y)) as (Q & _); [apply in_app_iff; left; now apply in_map|]. apply (Q c); [exists ps, ws, x; auto|exact W].
        - destruct (others _ _ _ _ F2' K) as (y & Y & W). destruct (AJ (fst y)) as (Q & _); [apply in_app_iff; right; now apply in_map|]. apply (Q c); [exists ps, ws, x; auto|exact W]. }
      assert (VAL : forall c, In c (map target ws) -> st' c = fold_left perform d (fold_left perform (concat d1) st) c).
      { intros c IC. rewrite AG, concat_app. cbn. rewrite !fold_left_app. apply performs_other. now apply OUT. }
      assert (LOC : forall ds0 a b c, a c = b c -> fold_left perform ds0 a c = fold_left perform ds0 b c).
      { clear. induction ds0 as [|w ds0 IH]; intros a b c H; cbn; [exact H|]. apply IH. destruct w as [q y|q y]; cbn; unfold set; destruct (cell_dec q c); auto. subst. now rewrite H. }
      rewrite Forall_forall in OV. assert (OS : over s) by (apply (OV (j, s)); apply in_app_iff; right; now left). unfold status in S. cbn [fst snd] in S.
      destruct s as [| | |y|]; cbn in OS; try tauto.
      + left. destruct S as (ps' & A'). destruct (alone_fun _ _ _ _ _ A _ _ _ A') as (_ & <- & _). intros c IC. rewrite VAL by exact IC. apply LOC. apply performs_other. now apply OUT.
      + right. subst d. intros c IC. rewrite VAL by exact IC. cbn. apply performs_other. now apply OUT.
    - intros c NW. rewrite AG. apply performs_other. intro K. destruct (others _ _ _ _ F K) as (y & Y & W). apply (NW (fst y)); [|exact W]. rewrite <- E. now apply in_map.
  Qed.
  (** There is no endless schedule, and none gets stuck before the jobs are over. *)
  Theorem C81_every_schedule_ends : forall s, Acc (fun b a => step (report := report) (error := error) a b) s.
  Proof. exact steps_wf. Qed.
  Theorem C81_never_stuck : forall st (l : list (job report error * progress report error)), ~ Forall (fun x => over (snd x)) l -> exists s', step (st, l) s'.
  Proof.
    intros st l H. apply step_possible. apply Exists_exists. destruct (Forall_Exists_dec (fun x : job report error * progress report error => over (snd x))) with (l := l) as [F|X].
    - intros (j, s). destruct s; cbn; auto.
    - now destruct H.
    - now apply Exists_exists in X.
  Qed.
End Schedules.
Print Assumptions C81_any_schedule.
Print Assumptions C81_errors.
Print Assumptions C81_all_or_nothing.
Print Assumptions C81_every_schedule_ends.
Print Assumptions C81_never_stuck.

(** ** Which files are converted *)
Lemma exts_ok : Forall (fun x => x <> [] /\ ~ In 46 x) [bs "cpp"; bs "rvmat"; bs "ext"].
Proof. repeat constructor; try discriminate; cbn; intuition discriminate. Qed.
Lemma sqf_ok : Forall (fun x => x <> [] /\ ~ In 46 x) [bs "sqf"].
Proof. repeat constructor; try discriminate; cbn; intuition discriminate. Qed.
Lemma selected_app {A} (P : A -> Prop) l1 r1 l2 r2 : BinarizeSpec.selected P l1 r1 -> BinarizeSpec.selected P l2 r2 -> BinarizeSpec.selected P (l1 ++ l2) (r1 ++ r2).
Proof. induction 1; cbn; [auto| |]; intro; [now apply BinarizeSpec.selected_keep; auto|now apply BinarizeSpec.selected_drop; auto]. Qed.
Lemma selected_none {A} (P : A -> Prop) l : (forall x, In x l -> ~ P x) -> BinarizeSpec.selected P l [].
Proof. induction l as [|x l IH]; intro H; [constructor|]. apply BinarizeSpec.selected_drop; [apply H; now left|apply IH; intros; apply H; now right]. Qed.

Lemma addon_selected glob a : match rapify_addon glob a with
  | None => exists exclude p, c_rapify a = Some (true, exclude) /\ In p exclude /\ glob p = None
  | Some es => exists ws, BinarizeSpec.selected (config_file glob) (map (pair a) (c_tree a)) ws /\ es = map placed ws
  end.
Proof.
  unfold rapify_addon. destruct (c_rapify a) as [([], exclude)|] eqn:C.
  2:{ exists []. split; [|reflexivity]. apply selected_none. intros (a', e) I. apply in_map_iff in I as (e' & K & _). injection K as <- <-. intros (_ & _ & H). cbn in H. destruct (H _ _ C) as [K _]. discriminate K. }
  1: pose proof (BinarizeProofs.patterns_spec glob exclude) as P.
  2: pose proof (BinarizeProofs.patterns_spec glob []) as P.
  all: destruct (BinarizeModel.patterns glob _) as [ms|] eqn:EM; [|destruct P as (p & I & G); first [destruct I; fail|exists exclude, p; auto]].
  all: assert (SEL : forall e, config_file glob (a, e) <-> e_content e <> None /\ can_rapify (e_name e) = true /\ existsb (fun m : text -> bool => m (PathModel.as_str (place a e))) ms = false)
    by (intro e; unfold config_file, is_file, can_rapify, extension; cbn [fst snd]; rewrite (BinarizeProofs.extension_spec _ _ exts_ok), C;
        split; [intros (H1 & H2 & H3); repeat split; auto; first [destruct (H3 _ _ eq_refl) as [_ NM]; destruct (existsb _ ms) eqn:X; [apply P in X; now destruct NM|reflexivity]|cbn in EM; injection EM as <-; reflexivity]
               |intros (H1 & H2 & H3); split; [exact H1|split; [exact H2|]]; intros on ex K; first [discriminate K|injection K as <- <-; split; [reflexivity|]; intro M; apply P in M; congruence]]).
  all: clear EM; induction (c_tree a) as [|e t IH]; [exists []; split; [constructor|reflexivity]|]; destruct IH as (ws & S & E); cbn [map flat_map]; rewrite E.
  all: destruct (e_content e) eqn:CE; [|exists ws; split; [apply BinarizeSpec.selected_drop; [rewrite SEL; intros (K & _); congruence|exact S]|reflexivity]].
  all: destruct (can_rapify (e_name e)) eqn:CR; [|exists ws; split; [apply BinarizeSpec.selected_drop; [rewrite SEL; intros (_ & K & _); congruence|exact S]|reflexivity]].
  all: destruct (existsb _ ms) eqn:X; [exists ws; split; [apply BinarizeSpec.selected_drop; [rewrite SEL; intros (_ & _ & K); congruence|exact S]|reflexivity]|].
  all: exists ((a, e) :: ws); split; [apply BinarizeSpec.selected_keep; [rewrite SEL; repeat split; auto; congruence|exact S]|reflexivity].
Qed.

(** The files that are rapified are the configs, in the order of the addons; the module fails exactly if a pattern of
    an addon for which rapify is on is not one. *)
Theorem C81_configs : forall glob l es, rapify_entries glob l = Some es <->
  (forall a exclude p, In a l -> c_rapify a = Some (true, exclude) -> In p exclude -> glob p <> None) /\
  exists ws, BinarizeSpec.selected (config_file glob) (walk l) ws /\ es = map placed ws.
Proof.
  intros glob l. assert (FUN : forall {A} (P : A -> Prop) (l : list A) r1 r2, BinarizeSpec.selected P l r1 -> BinarizeSpec.selected P l r2 -> r1 = r2).
  { clear. intros A P l r1 r2 H. revert r2. induction H as [|x l r Px _ IH|x l r Px _ IH]; intros r2 H2; inversion H2; subst; try tauto; try (now f_equal; auto). }
  assert (H : match rapify_entries glob l with
    | None => exists a exclude p, In a l /\ c_rapify a = Some (true, exclude) /\ In p exclude /\ glob p = None
    | Some es => (forall a exclude p, In a l -> c_rapify a = Some (true, exclude) -> In p exclude -> glob p <> None) /\ exists ws, BinarizeSpec.selected (config_file glob) (walk l) ws /\ es = map placed ws
    end).
  { induction l as [|a l IH]; cbn [rapify_entries].
    - split; [intros a ex p []|]. exists []. split; [constructor|reflexivity].
    - pose proof (addon_selected glob a) as SA. destruct (rapify_addon glob a) as [x|] eqn:RA.
      + destruct SA as (w1 & S1 & ->). destruct (rapify_entries glob l) as [y|].
        * destruct IH as (OK & w2 & S2 & ->). split.
          -- intros a' ex p [<-|I] C IP; [|now apply (OK a' ex)]. intro G. unfold rapify_addon in RA. rewrite C in RA.
             pose proof (BinarizeProofs.patterns_spec glob ex) as P. destruct (BinarizeModel.patterns glob ex) as [ms|] eqn:EP; [|discriminate RA].
             clear -IP G EP. revert ms EP. induction ex as [|q ex IH]; intros ms EP; [destruct IP|]. cbn in EP. destruct (glob q) eqn:Q; [|discriminate EP].
             destruct (BinarizeModel.patterns glob ex) eqn:EX; [|discriminate EP]. destruct IP as [->|IP]; [congruence|eapply IH; eauto].
          -- exists (w1 ++ w2). split; [|now rewrite map_app]. unfold walk. cbn [flat_map]. now apply selected_app.
        * destruct IH as (a' & ex & p & I & R). exists a', ex, p. split; [now right|exact R].
      + destruct SA as (ex & p & R). exists a, ex, p. split; [now left|exact R]. }
  intro es. destruct (rapify_entries glob l) as [es'|]; split.
  - intros K. injection K as <-. exact H.
  - intros (_ & ws & S & ->). destruct H as (_ & ws' & S' & ->). now rewrite (FUN _ _ _ _ _ S S').
  - discriminate.
  - intros (OK & _). destruct H as (a & ex & p & I & C & IP & G). destruct (OK a ex p I C IP G).
Qed.
Print Assumptions C81_configs.
Theorem C81_scripts : forall l, exists ws, BinarizeSpec.selected script_file (walk l) ws /\ sqf_entries l = map placed ws.
Proof.
  assert (SEL : forall a e, script_file (a, e) <-> e_content e <> None /\ eqb_bytes (extension (e_name e)) (bs "sqf") && negb (BinarizeModel.ends_with (bs ".inc.sqf") (e_name e)) = true).
  { intros a e. unfold script_file, is_file. cbn [fst snd]. rewrite <- (BinarizeProofs.extension_spec _ _ sqf_ok). rewrite andb_true_iff, negb_true_iff.
    assert (B : existsb (eqb_bytes (snd (split_name (e_name e)))) [bs "sqf"] = eqb_bytes (extension (e_name e)) (bs "sqf")) by (cbn [existsb]; apply orb_false_r). rewrite B.
    rewrite <- (BinarizeProofs.ends_with_spec (bs ".inc.sqf")). destruct (BinarizeModel.ends_with _ _); intuition congruence. }
  induction l as [|a l (w2 & S2 & E2)]; [exists []; split; [constructor|reflexivity]|]. unfold sqf_entries, walk in *. cbn [flat_map].
  assert (H1 : exists w1, BinarizeSpec.selected script_file (map (pair a) (c_tree a)) w1 /\ flat_map (fun e => match e_content e with None => [] | Some _ => if eqb_bytes (extension (e_name e)) (bs "sqf") && negb (BinarizeModel.ends_with (bs ".inc.sqf") (e_name e)) then [(a, place a e)] else [] end) (c_tree a) = map placed w1).
  { induction (c_tree a) as [|e t (w & S & E)]; [exists []; split; [constructor|reflexivity]|]. cbn [map flat_map]. rewrite E. pose proof (SEL a e) as SE. destruct (e_content e) eqn:CE.
    - destruct (_ && _).
      + exists ((a, e) :: w). split; [apply BinarizeSpec.selected_keep; [apply SE; split; [discriminate|reflexivity]|exact S]|reflexivity].
      + exists w. split; [apply BinarizeSpec.selected_drop; [intro K; apply SE in K as [_ K]; discriminate K|exact S]|reflexivity].
    - exists w. split; [apply BinarizeSpec.selected_drop; [intro K; apply SE in K as [K _]; congruence|exact S]|reflexivity]. }
  destruct H1 as (w1 & S1 & E1). exists (w1 ++ w2). split; [now apply selected_app|]. now rewrite map_app, E1, E2.
Qed.
Print Assumptions C81_scripts.

(** ** The rapifier and the script compiler *)
Lemma out_cpp d n : file_name n -> n <> [] -> rapify_out (d ++ [n ++ bs ".cpp"]) = Some (d ++ [n ++ bs ".bin"]) .
Proof.
  intros (_ & NS) NE. unfold rapify_out. rewrite last_last. assert (extension (n ++ bs ".cpp") = bs "cpp") as ->.
  { unfold extension, split_name. assert (rsplit_once 46 (n ++ bs ".cpp") = Some (n, bs "cpp")) as ->; [|now destruct n].
    apply PathProps.rsplit_spec. split; [reflexivity|]. cbn. intuition discriminate. }
  change (eqb_bytes (ascii_lower (bs "cpp")) (bs "cpp")) with true. cbn [andb]. change (n ++ bs ".cpp") with (n ++ bs "." ++ bs "cpp"). change (n ++ bs ".bin") with (n ++ bs "." ++ bs "bin").
  apply (proj1 (PathProps.C79_with_extension d n (bs "cpp") (bs "bin") ltac:(discriminate) ltac:(cbn; intuition discriminate) ltac:(cbn; intuition discriminate) NS)); cbn; intuition discriminate.
Qed.
Lemma lower_ins y : In y (bs "cpp") -> forall c, ascii_lower [c] = [y] -> c <> 46 /\ c <> 47.
Proof. intros I c E. destruct I as [<-|[<-|[<-|[]]]]; split; intros ->; discriminate E. Qed.
Lemma out_cpp_any d n x : file_name n -> n <> [] -> ascii_lower x = bs "cpp" -> rapify_out (d ++ [n ++ bs "." ++ x]) = Some (d ++ [n ++ bs ".bin"]).
Proof.
  intros (_ & NS) NE EX. assert (NX : ~ In 46 x /\ ~ In 47 x).
  { assert (K : forall c, In c x -> c <> 46 /\ c <> 47).
    { intros c I. assert (J : In (hd 0 (ascii_lower [c])) (bs "cpp")). { rewrite <- EX. unfold ascii_lower. cbn. now apply (in_map (fun b => if (65 <=? b) && (b <=? 90) then b + 32 else b)). }
      apply (lower_ins _ J). reflexivity. }
    split; intro I; apply K in I as [I1 I2]; congruence. }
  destruct NX as [N1 N2]. unfold rapify_out. rewrite last_last. assert (extension (n ++ bs "." ++ x) = x) as ->.
  { unfold extension, split_name. assert (rsplit_once 46 (n ++ bs "." ++ x) = Some (n, x)) as ->; [|now destruct n].
    apply PathProps.rsplit_spec. split; [reflexivity|exact N1]. }
  rewrite EX, eqb_bytes_refl. change (n ++ bs ".bin") with (n ++ bs "." ++ bs "bin").
  apply (proj1 (PathProps.C79_with_extension d n x (bs "bin") ltac:(discriminate) ltac:(cbn; intuition discriminate) ltac:(cbn; intuition discriminate) NS)); assumption.
Qed.
Lemma out_other d n x : In x [bs "rvmat"; bs "ext"] -> n <> [] -> rapify_out (d ++ [n ++ bs "." ++ x]) = Some (d ++ [n ++ bs "." ++ x]).
Proof.
  intros IX NE. unfold rapify_out. rewrite last_last. assert (extension (n ++ bs "." ++ x) = x) as ->.
  { unfold extension, split_name. assert (rsplit_once 46 (n ++ bs "." ++ x) = Some (n, x)) as ->; [|now destruct n].
    apply PathProps.rsplit_spec. split; [reflexivity|]. destruct IX as [<-|[<-|[]]]; cbn; intuition discriminate. }
  destruct IX as [<-|[<-|[]]]; reflexivity.
Qed.
(** The result of a config.cpp (or any .cpp, in any case) is the .bin beside it, that of a material or an .ext is the file itself;
    that of a script is the .sqfc beside it. *)
Theorem C81_outputs : forall d n, n <> [] -> ~ In 47 n ->
  rapify_out (d ++ [n ++ bs ".cpp"]) = Some (d ++ [n ++ bs ".bin"]) /\
  (forall x, ascii_lower x = bs "cpp" -> rapify_out (d ++ [n ++ bs "." ++ x]) = Some (d ++ [n ++ bs ".bin"])) /\
  rapify_out (d ++ [n ++ bs ".rvmat"]) = Some (d ++ [n ++ bs ".rvmat"]) /\
  rapify_out (d ++ [n ++ bs ".ext"]) = Some (d ++ [n ++ bs ".ext"]) /\
  sqf_out (d ++ [n ++ bs ".sqf"]) = Some (d ++ [n ++ bs ".sqfc"]).
Proof.
  intros d n NE NS. split; [|split; [|split; [|split]]].
  - now apply out_cpp.
  - intros x EX. now apply out_cpp_any.
  - apply (out_other d n (bs "rvmat")); [now left|exact NE].
  - apply (out_other d n (bs "ext")); [right; now left|exact NE].
  - unfold sqf_out. change (n ++ bs ".sqf") with (n ++ bs "." ++ bs "sqf"). change (n ++ bs ".sqfc") with (n ++ bs "." ++ bs "sqfc").
    apply (proj1 (PathProps.C79_with_extension d n (bs "sqf") (bs "sqfc") ltac:(discriminate) ltac:(cbn; intuition discriminate) ltac:(cbn; intuition discriminate) NS)); cbn; intuition discriminate.
Qed.
Print Assumptions C81_outputs.

Lemma selected_in {A} (P : A -> Prop) l r x : BinarizeSpec.selected P l r -> In x r -> In x l /\ P x.
Proof. induction 1 as [|y l r Py _ IH|y l r Py _ IH]; intro I; [destruct I| |]; [destruct I as [<-|I]; [split; [now left|exact Py]|]|]; destruct (IH I); split; auto; now right. Qed.
Lemma selected_nodup {A B} (P : A -> Prop) (f : A -> B) l r : BinarizeSpec.selected P l r -> NoDup (map f l) -> NoDup (map f r).
Proof.
  induction 1 as [|y l r Py S IH|y l r Py S IH]; cbn; intro ND; [constructor| |]; inversion ND as [|? ? NI ND']; subst; auto.
  constructor; [|auto]. intro I. apply NI. apply in_map_iff in I as (x & E & I). apply in_map_iff. exists x. split; [exact E|]. now apply (selected_in _ _ _ _ S).
Qed.
Lemma ext_cases x e : In x [bs "cpp"; bs "rvmat"; bs "ext"] -> forall n : text, e = n ++ bs "." ++ x -> e = n ++ bs ".cpp" \/ exists y, In y [bs "rvmat"; bs "ext"] /\ e = n ++ bs "." ++ y.
Proof. intros [<-|I] n ->; [now left|right; eauto]. Qed.
(** Different configs have different results. *)
Lemma outs_distinct d1 n1 d2 n2 : file_name n1 -> file_name n2 -> BinarizeSpec.has_extension [bs "cpp"; bs "rvmat"; bs "ext"] n1 -> BinarizeSpec.has_extension [bs "cpp"; bs "rvmat"; bs "ext"] n2 ->
  forall o, rapify_out (d1 ++ [n1]) = Some o -> rapify_out (d2 ++ [n2]) = Some o -> d1 ++ [n1] = d2 ++ [n2].
Proof.
  intros (_ & S1) (_ & S2) (m1 & x1 & E1 & NE1 & I1) (m2 & x2 & E2 & NE2 & I2) o.
  assert (F1 : file_name m1). { split; [exact NE1|]. intro K. apply S1. rewrite E1, in_app_iff. now left. }
  assert (F2 : file_name m2). { split; [exact NE2|]. intro K. apply S2. rewrite E2, in_app_iff. now left. }
  assert (TAIL : forall a b : text, rev a = rev b -> a = b) by (intros a b K; rewrite <- (rev_involutive a), K; apply rev_involutive).
  destruct (ext_cases _ _ I1 _ E1) as [->|(y1 & Y1 & ->)]; destruct (ext_cases _ _ I2 _ E2) as [->|(y2 & Y2 & ->)].
  - rewrite !out_cpp by assumption. intros K1 K2. assert (K : d1 ++ [m1 ++ bs ".bin"] = d2 ++ [m2 ++ bs ".bin"]) by congruence. apply app_inj_tail in K as [-> K]. apply app_inv_tail in K. now subst.
  - rewrite out_cpp, out_other by assumption. intros K1 K2. exfalso. assert (K : d1 ++ [m1 ++ bs ".bin"] = d2 ++ [m2 ++ bs "." ++ y2]) by congruence. apply app_inj_tail in K as [_ K].
    apply (f_equal (@rev N)) in K. destruct Y2 as [<-|[<-|[]]]; rewrite !rev_app_distr in K; cbn in K; discriminate K.
  - rewrite out_cpp, out_other by assumption. intros K1 K2. exfalso. assert (K : d1 ++ [m1 ++ bs "." ++ y1] = d2 ++ [m2 ++ bs ".bin"]) by congruence. apply app_inj_tail in K as [_ K].
    apply (f_equal (@rev N)) in K. destruct Y1 as [<-|[<-|[]]]; rewrite !rev_app_distr in K; cbn in K; discriminate K.
  - rewrite !out_other by assumption. congruence.
Qed.
Lemma sqf_distinct d1 n1 d2 n2 : file_name n1 -> file_name n2 -> BinarizeSpec.has_extension [bs "sqf"] n1 -> BinarizeSpec.has_extension [bs "sqf"] n2 ->
  forall o, sqf_out (d1 ++ [n1]) = Some o -> sqf_out (d2 ++ [n2]) = Some o -> d1 ++ [n1] = d2 ++ [n2].
Proof.
  intros (_ & S1) (_ & S2) (m1 & x1 & -> & NE1 & [<-|[]]) (m2 & x2 & -> & NE2 & [<-|[]]) o.
  assert (F1 : ~ In 47 m1) by (intro K; apply S1; rewrite in_app_iff; now left). assert (F2 : ~ In 47 m2) by (intro K; apply S2; rewrite in_app_iff; now left).
  destruct (C81_outputs d1 m1 NE1 F1) as (_ & _ & _ & _ & O1). destruct (C81_outputs d2 m2 NE2 F2) as (_ & _ & _ & _ & O2). intros H1 H2.
  change (m1 ++ bs "." ++ bs "sqf") with (m1 ++ bs ".sqf") in *. change (m2 ++ bs "." ++ bs "sqf") with (m2 ++ bs ".sqf") in *.
  assert (K : d1 ++ [m1 ++ bs ".sqfc"] = d2 ++ [m2 ++ bs ".sqfc"]) by congruence. apply app_inj_tail in K as [-> K]. apply app_inv_tail in K. now subst.
Qed.

Section Modules.
  Context {report error : Type}.
  Lemma rapify_writes folder v (j : job report error) st c : rapify_job folder v j -> writes st j c ->
    (exists o, c = Disk o /\ rapify_out v = Some o) \/ ((c = Required folder \/ c = Parsed folder) /\ last v [] = bs "config.cpp").
  Proof.
    intros RJ (ps & ws & x & A & I). revert RJ. induction A as [ws x|p k ps ws x _ IH]; intro RJ; inversion RJ as [p' k' RK| |notes file y HN HF]; subst; auto; [destruct I|].
    rewrite map_app, in_app_iff in I. destruct I as [I|I].
    - destruct HN as [[-> _]|[(ver & conf & ->) L]]; [destruct I|]. right. cbn in I. split; [|exact L]. destruct I as [<-|[<-|[]]]; auto.
    - destruct HF as [->|(out & pieces & O & ->)]; [destruct I|]. left. exists out. split; [|exact O]. cbn in I. destruct I as [<-|I]; [reflexivity|]. rewrite map_map in I. cbn in I. apply in_map_iff in I as (b & <- & _). reflexivity.
  Qed.
  Lemma sqf_writes v (j : job report error) st c : sqf_job v j -> writes st j c -> exists o, c = Disk o /\ sqf_out v = Some o.
  Proof.
    intros RJ (ps & ws & x & A & I). revert RJ. induction A as [ws x|p k ps ws x _ IH]; intro RJ; inversion RJ as [p' k' RK| |out pieces y O]; subst; auto; [destruct I|].
    exists out. split; [|exact O]. cbn in I. destruct I as [<-|I]; [reflexivity|]. rewrite map_map in I. cbn in I. apply in_map_iff in I as (b & <- & _). reflexivity.
  Qed.
  Lemma pairs_by_index {A} (R : A -> A -> Prop) (l : list A) : (forall i k a b, (i < k)%nat -> nth_error l i = Some a -> nth_error l k = Some b -> R a b) -> ForallOrdPairs R l.
  Proof.
    induction l as [|x l IH]; intro H; constructor.
    - apply Forall_forall. intros y I. apply In_nth_error in I as (k & K). apply (H O (S k)); [lia|reflexivity|exact K].
    - apply IH. intros i k a b L A1 A2. apply (H (S i) (S k)); [lia|exact A1|exact A2].
  Qed.
  Lemma forall2_nth {A B} (R : A -> B -> Prop) l l' : Forall2 R l l' -> forall i y, nth_error l' i = Some y -> exists x, nth_error l i = Some x /\ R x y.
  Proof. induction 1 as [|a b l l' H _ IH]; intros [|i] y E; cbn in *; try discriminate; [injection E as <-; eauto|eauto]. Qed.
  Lemma nth_same_place (ws : list (source * entry)) i k a b : NoDup (map (fun x => place (fst x) (snd x)) ws) -> nth_error ws i = Some a -> nth_error ws k = Some b -> place (fst a) (snd a) = place (fst b) (snd b) -> i = k.
  Proof.
    intros ND E1 E2 K. apply (proj1 (NoDup_nth_error _) ND i k).
    - rewrite map_length. apply nth_error_Some. congruence.
    - now rewrite (map_nth_error _ _ _ E1), (map_nth_error _ _ _ E2), K.
  Qed.

  (** The rapifier. *)
  Lemma rapifier_apart : forall glob l es (js : list (job report error)) st,
    rapify_entries glob l = Some es -> proper_tree l -> one_config es ->
    Forall2 (fun x j => rapify_job (c_folder (fst x)) (snd x) j) es js ->
    reads_no_output rapify_out st (map snd es) js -> ForallOrdPairs (apart st) js.
  Proof.
    intros glob l es js st RE (ND & NM) ONE RJ RO.
    apply C81_configs in RE as (_ & ws & S & ->). pose proof (selected_nodup _ _ _ _ S ND) as ND'.
    assert (G : forall i k j1 j2, i <> k -> nth_error js i = Some j1 -> nth_error js k = Some j2 -> (forall c, writes st j1 c -> writes st j2 c -> False) /\ (forall p, reads st j1 p -> writes st j2 (Disk p) -> False)).
    { intros i k j1 j2 NE E1 E2. destruct (forall2_nth _ _ _ RJ _ _ E1) as ((a1, v1) & X1 & R1). destruct (forall2_nth _ _ _ RJ _ _ E2) as ((a2, v2) & X2 & R2). cbn in R1, R2. split.
      - intros c W1 W2. destruct (rapify_writes _ _ _ _ _ R1 W1) as [(o & -> & O1)|(C1 & L1)]; destruct (rapify_writes _ _ _ _ _ R2 W2) as [(o2 & K & O2)|(C2 & L2)].
        + injection K as <-. pose proof X1 as Y1. pose proof X2 as Y2. rewrite nth_error_map in Y1, Y2. destruct (nth_error ws i) as [(b1, e1)|] eqn:B1; [|discriminate Y1]. destruct (nth_error ws k) as [(b2, e2)|] eqn:B2; [|discriminate Y2].
          unfold placed in Y1, Y2. cbn [option_map fst snd] in Y1, Y2. assert (b1 = a1 /\ v1 = place a1 e1) as [-> ->] by (injection Y1 as -> ->; split; reflexivity). assert (b2 = a2 /\ v2 = place a2 e2) as [-> ->] by (injection Y2 as -> ->; split; reflexivity).
          apply NE. apply (nth_same_place ws i k _ _ ND' B1 B2). cbn [fst snd]. unfold place in *.
          destruct (selected_in _ _ _ _ S (nth_error_In _ _ B1)) as (I1 & _ & H1 & _). destruct (selected_in _ _ _ _ S (nth_error_In _ _ B2)) as (I2 & _ & H2 & _).
          rewrite Forall_forall in NM. rewrite !app_assoc in *. apply outs_distinct with o; auto; [exact (NM _ I1)|exact (NM _ I2)].
        + destruct C2; discriminate.
        + subst c. destruct C1; discriminate.
        + apply NE. apply (ONE i k a1 a2 v1 v2 X1 X2 L1 L2). destruct C1 as [->| ->]; destruct C2; congruence.
      - intros p RD W2. destruct (rapify_writes _ _ _ _ _ R2 W2) as [(o2 & K & O2)|([C2|C2] & L2)]; try discriminate. injection K as <-.
        apply (RO i k j1 p E1 NE RD v2); [|exact O2]. now apply (map_nth_error snd _ _ X2). }
    apply pairs_by_index. intros i k j1 j2 L E1 E2. destruct (G i k j1 j2 ltac:(lia) E1 E2) as (A & B). destruct (G k i j2 j1 ltac:(lia) E2 E1) as (_ & C). repeat split; auto.
  Qed.
  Theorem C81_rapifier : forall glob l es (js : list (job report error)) st,
    rapify_entries glob l = Some es -> proper_tree l -> one_config es ->
    Forall2 (fun x j => rapify_job (c_folder (fst x)) (snd x) j) es js ->
    reads_no_output rapify_out st (map snd es) js -> all_succeed st js -> as_in_turn st js.
  Proof. intros glob l es js st RE PT ONE RJ RO OK. apply C81_any_schedule; [|exact OK]. eapply rapifier_apart; eauto. Qed.
  Lemma scripts_apart : forall l (js : list (job report error)) st, proper_tree l ->
    Forall2 (fun x j => sqf_job (snd x) j) (sqf_entries l) js ->
    reads_no_output sqf_out st (map snd (sqf_entries l)) js -> ForallOrdPairs (apart st) js.
  Proof.
    intros l js st (ND & NM) RJ RO. destruct (C81_scripts l) as (ws & S & ES). rewrite ES in *. pose proof (selected_nodup _ _ _ _ S ND) as ND'.
    assert (G : forall i k j1 j2, i <> k -> nth_error js i = Some j1 -> nth_error js k = Some j2 -> (forall c, writes st j1 c -> writes st j2 c -> False) /\ (forall p, reads st j1 p -> writes st j2 (Disk p) -> False)).
    { intros i k j1 j2 NE E1 E2. destruct (forall2_nth _ _ _ RJ _ _ E1) as ((a1, v1) & X1 & R1). destruct (forall2_nth _ _ _ RJ _ _ E2) as ((a2, v2) & X2 & R2). cbn in R1, R2. split.
      - intros c W1 W2. destruct (sqf_writes _ _ _ _ R1 W1) as (o & -> & O1). destruct (sqf_writes _ _ _ _ R2 W2) as (o2 & K & O2). injection K as <-.
        pose proof X1 as Y1. pose proof X2 as Y2. rewrite nth_error_map in Y1, Y2. destruct (nth_error ws i) as [(b1, e1)|] eqn:B1; [|discriminate Y1]. destruct (nth_error ws k) as [(b2, e2)|] eqn:B2; [|discriminate Y2].
        unfold placed in Y1, Y2. cbn [option_map fst snd] in Y1, Y2. assert (b1 = a1 /\ v1 = place a1 e1) as [-> ->] by (injection Y1 as -> ->; split; reflexivity). assert (b2 = a2 /\ v2 = place a2 e2) as [-> ->] by (injection Y2 as -> ->; split; reflexivity).
        apply NE. apply (nth_same_place ws i k _ _ ND' B1 B2). cbn [fst snd]. unfold place in *.
        destruct (selected_in _ _ _ _ S (nth_error_In _ _ B1)) as (I1 & _ & H1 & _). destruct (selected_in _ _ _ _ S (nth_error_In _ _ B2)) as (I2 & _ & H2 & _).
        rewrite Forall_forall in NM. rewrite !app_assoc in *. apply sqf_distinct with o; auto; [exact (NM _ I1)|exact (NM _ I2)].
      - intros p RD W2. destruct (sqf_writes _ _ _ _ R2 W2) as (o2 & K & O2). injection K as <-.
        apply (RO i k j1 p E1 NE RD v2); [|exact O2]. now apply (map_nth_error snd _ _ X2). }
    apply pairs_by_index. intros i k j1 j2 L E1 E2. destruct (G i k j1 j2 ltac:(lia) E1 E2) as (A & B). destruct (G k i j2 j1 ltac:(lia) E2 E1) as (_ & C). repeat split; auto.
  Qed.
  (** The script compiler. *)
  Theorem C81_script_compiler : forall l (js : list (job report error)) st, proper_tree l ->
    Forall2 (fun x j => sqf_job (snd x) j) (sqf_entries l) js ->
    reads_no_output sqf_out st (map snd (sqf_entries l)) js -> all_succeed st js -> as_in_turn st js.
  Proof. intros l js st PT RJ RO OK. apply C81_any_schedule; [|exact OK]. eapply scripts_apart; eauto. Qed.
End Modules.
Print Assumptions C81_rapifier.
Print Assumptions C81_script_compiler.

(** ** Where it fails *)
(** A config that includes a file which is itself converted in place: what it sees depends on the schedule. *)
Definition r_dir : vpath := [bs "addons"; bs "main"].
Definition r_ext : vpath := r_dir ++ [bs "shared.ext"].
Definition r_cpp : vpath := r_dir ++ [bs "config.cpp"].
Definition r_bin : vpath := r_dir ++ [bs "config.bin"].
Definition r_tree : list source := [Source r_dir None [Entry [] (bs "config.cpp") (Some []); Entry [] (bs "shared.ext") (Some [])]].
Definition r_notes (d : vpath) (v : bytes) : list write := [Put (Required d) v; Put (Parsed d) v].
Definition r_config : job unit unit := Read r_ext (fun x => Over (r_notes r_dir [1] ++ Put (Disk r_bin) [] :: map (Add (Disk r_bin)) [match x with Some b => b | None => [] end]) (inl tt)).
Definition r_shared : job unit unit := Over ([] ++ Put (Disk r_ext) [] :: map (Add (Disk r_ext)) [[9]]) (inl tt).
Definition r_store : store := fun c => if cell_dec c (Disk r_ext) then Some [7] else None.
Lemma r_config_job : rapify_job r_dir r_cpp r_config.
Proof.
  apply rj_read. intro x. apply rj_done; [right; split; [exists [1], [1]; reflexivity|reflexivity]|]. right. exists r_bin, [match x with Some b => b | None => [] end]. split; reflexivity.
Qed.
Lemma r_shared_job : rapify_job r_dir r_ext r_shared.
Proof. apply rj_done; [left; split; [reflexivity|discriminate]|]. right. exists r_ext, [[9]]. split; reflexivity. Qed.
Lemma r_proper : proper_tree r_tree.
Proof. split; cbn; [|repeat constructor; try discriminate; cbn; intuition discriminate]. repeat constructor; cbn; intuition discriminate. Qed.
Lemma one_act {report error} {st st' st2 l r j s s' x} : act (report := report) (error := error) j st s st' s' -> run (st', l ++ (j, s') :: r) (st2, x) -> run (st, l ++ (j, s) :: r) (st2, x).
Proof. intros A R. eapply run_step; [apply step_act; exact A|exact R]. Qed.

Theorem C81_included_refuted : ~ (forall glob l es (js : list (job unit unit)) st,
  rapify_entries glob l = Some es -> proper_tree l -> one_config es ->
  Forall2 (fun x j => rapify_job (c_folder (fst x)) (snd x) j) es js -> all_succeed st js -> as_in_turn st js).
Proof.
  intro H. specialize (H (fun _ => None) r_tree [(hd (Source [] None []) r_tree, r_cpp); (hd (Source [] None []) r_tree, r_ext)] [r_config; r_shared] r_store).
  destruct (H eq_refl r_proper) with (st' := perform (perform (perform (perform (perform (perform r_store (Put (Disk r_ext) [])) (Add (Disk r_ext) [9])) (Put (Required r_dir) [1])) (Put (Parsed r_dir) [1])) (Put (Disk r_bin) [])) (Add (Disk r_bin) [9]))
    (l := [(r_config, @Finished unit unit (inl tt)); (r_shared, Finished (inl tt))]) as (seq & rs & T & E & _).
  - intros i k a b v w E1 E2 L1 L2 _. destruct i as [|[|[|i]]]; cbn in E1; try discriminate E1; [|injection E1 as _ <-; discriminate L1].
    destruct k as [|[|[|k]]]; cbn in E2; try discriminate E2; [reflexivity|injection E2 as _ <-; discriminate L2].
  - constructor; [exact r_config_job|constructor; [exact r_shared_job|constructor]].
  - intros j [<-|[<-|[]]]; exists tt; do 2 eexists; [constructor; constructor|constructor].
  - cbn [begin map]. apply (one_act (l := [_]) (act_start _ _)). apply (one_act (l := [_]) (act_ready _ _ _ _)). apply (one_act (l := [_]) (act_write _ _ _ _ _)). apply (one_act (l := [_]) (act_write _ _ _ _ _)). apply (one_act (l := [_]) (act_end _ _ _)). cbn [app].
    apply (one_act (l := []) (act_start _ _)). apply (one_act (l := []) (act_read _ _ _ _)). apply (one_act (l := []) (act_ready _ _ _ _)).
    do 4 apply (one_act (l := []) (act_write _ _ _ _ _)). apply (one_act (l := []) (act_end _ _ _)). apply run_here.
  - repeat constructor.
  - specialize (E (Disk r_bin)). inversion T as [|? ? ? ? ? ? ? ? A T1]; subst. inversion A as [|? ? ? ? ? A']; subst. inversion A'; subst. inversion T1 as [|? ? ? ? ? ? ? ? B T2]; subst. inversion B; subst. inversion T2; subst.
    vm_compute in E. discriminate E.
Qed.
Print Assumptions C81_included_refuted.

(** Two config.cpp in one addon: the required version that is kept is that of the last to come. *)
Definition q_sub : vpath := r_dir ++ [bs "sub"; bs "config.cpp"].
Definition q_tree : list source := [Source r_dir None [Entry [] (bs "config.cpp") (Some []); Entry [bs "sub"] (bs "config.cpp") (Some [])]].
Definition q_first : job unit unit := Over (r_notes r_dir [1] ++ []) (inl tt).
Definition q_second : job unit unit := Over (r_notes r_dir [2] ++ []) (inl tt).
Theorem C81_two_configs_refuted : ~ (forall glob l es (js : list (job unit unit)) st,
  rapify_entries glob l = Some es -> proper_tree l ->
  Forall2 (fun x j => rapify_job (c_folder (fst x)) (snd x) j) es js ->
  reads_no_output rapify_out st (map snd es) js -> all_succeed st js -> as_in_turn st js).
Proof.
  intro H. specialize (H (fun _ => None) q_tree [(hd (Source [] None []) q_tree, r_cpp); (hd (Source [] None []) q_tree, q_sub)] [q_first; q_second] (fun _ => None) eq_refl).
  destruct H with (st' := perform (perform (perform (perform (fun _ => None) (Put (Required r_dir) [2])) (Put (Parsed r_dir) [2])) (Put (Required r_dir) [1])) (Put (Parsed r_dir) [1]))
    (l := [(q_first, @Finished unit unit (inl tt)); (q_second, Finished (inl tt))]) as (seq & rs & T & E & _).
  - split; cbn; [|repeat constructor; try discriminate; cbn; intuition discriminate]. repeat constructor; cbn; intuition discriminate.
  - constructor; [|constructor; [|constructor]]; apply rj_done; [right; split; [exists [1], [1]; reflexivity|reflexivity]|now left|right; split; [exists [2], [2]; reflexivity|reflexivity]|now left].
  - intros i k j p E1 _ (ps & ws & x & A & I). exfalso. destruct i as [|[|[|i]]]; cbn in E1; try discriminate E1; injection E1 as <-; inversion A; subst; destruct I.
  - intros j [<-|[<-|[]]]; exists tt; do 2 eexists; constructor.
  - cbn [begin map]. apply (one_act (l := [_]) (act_start _ _)). apply (one_act (l := [_]) (act_ready _ _ _ _)). do 2 apply (one_act (l := [_]) (act_write _ _ _ _ _)). apply (one_act (l := [_]) (act_end _ _ _)). cbn [app].
    apply (one_act (l := []) (act_start _ _)). apply (one_act (l := []) (act_ready _ _ _ _)). do 2 apply (one_act (l := []) (act_write _ _ _ _ _)). apply (one_act (l := []) (act_end _ _ _)). apply run_here.
  - repeat constructor.
  - specialize (E (Required r_dir)). inversion T as [|? ? ? ? ? ? ? ? A T1]; subst. inversion A; subst. inversion T1 as [|? ? ? ? ? ? ? ? B T2]; subst. inversion B; subst. inversion T2; subst.
    vm_compute in E. discriminate E.
Qed.
Print Assumptions C81_two_configs_refuted.

(** If two files fail, which of the two errors is reported is not determined. *)
Theorem C81_which_error_refuted : ~ (forall (js : list (job unit bool)) st st' l y1 y2, ForallOrdPairs (apart st) js ->
  run (st, begin js) (st', l) -> answer l y1 -> answer l y2 -> y1 = y2).
Proof.
  intro H. set (j1 := Over [] (inr true) : job unit bool). set (j2 := Over [] (inr false) : job unit bool).
  specialize (H [j1; j2] (fun _ => None) (fun _ => None) [(j1, Finished (inr true)); (j2, Finished (inr false))] (inr true) (inr false)).
  discriminate H.
  - constructor; [|constructor; [constructor|constructor]]. constructor; [|constructor]. split; [|split].
    + intros c (ps & ws & x & A & I). inversion A; subst. destruct I.
    + intros p (ps & ws & x & A & I). inversion A; subst. destruct I.
    + intros p (ps & ws & x & A & I). inversion A; subst. destruct I.
  - cbn [begin map]. apply (one_act (l := []) (act_start _ _)). apply (one_act (l := []) (act_ready _ _ _ _)). apply (one_act (l := []) (act_end _ _ _)). cbn [app].
    apply (one_act (l := [_]) (act_start _ _)). apply (one_act (l := [_]) (act_ready _ _ _ _)). apply (one_act (l := [_]) (act_end _ _ _)). apply run_here.
  - apply answer_err with j1; [repeat constructor|now left].
  - apply answer_err with j2; [repeat constructor|right; now left].
Qed.
Print Assumptions C81_which_error_refuted.

(** An exclude pattern relative to the addon, such as the documented missions/**/description.ext, excludes nothing:
    a pattern that begins with a letter matches only texts that begin with it, and paths begin with a slash. *)
Theorem C81_relative_exclude_refuted : forall (glob : text -> option (text -> bool)) folder patterns tree, folder <> [] ->
  (forall p, In p patterns -> exists c p' m, p = c :: p' /\ c <> 47 /\ glob p = Some m /\ (forall s, m s = true -> exists s', s = c :: s')) ->
  forall es, rapify_entries glob [Source folder (Some (true, patterns)) tree] = Some es -> forall e, In e tree -> is_file e ->
  BinarizeSpec.has_extension [bs "cpp"; bs "rvmat"; bs "ext"] (e_name e) -> In (folder ++ e_dirs e ++ [e_name e]) (map snd es).
Proof.
  intros glob folder pats tree NF PS es RE e I FI EX. apply C81_configs in RE as (_ & ws & S & ->).
  assert (C : config_file glob (Source folder (Some (true, pats)) tree, e)).
  { split; [exact FI|]. split; [exact EX|]. cbn [fst snd c_rapify]. intros on ex K. assert (on = true /\ ex = pats) as [-> ->] by (split; congruence). split; [reflexivity|].
    intros (p & m & IP & G & M). destruct (PS p IP) as (c & p' & m' & -> & NC & G' & FST). assert (m' = m) as -> by congruence. destruct (FST _ M) as (s' & K').
    destruct folder as [|f folder]; [congruence|]. unfold place in K'. cbn [c_folder PathModel.as_str flat_map app] in K'. injection K' as <- _. now apply NC. }
  assert (IW : In (Source folder (Some (true, pats)) tree, e) (walk [Source folder (Some (true, pats)) tree])).
  { unfold walk. cbn [flat_map c_tree]. rewrite app_nil_r. now apply in_map. }
  assert (IN : forall l r (x : source * entry), BinarizeSpec.selected (config_file glob) l r -> In x l -> config_file glob x -> In x r).
  { clear. intros l r x S. induction S as [|y l r Py _ IH|y l r Py _ IH]; intros I C; [destruct I| |]; destruct I as [<-|I]; [now left|right; auto|tauto|auto]. }
  rewrite map_map. apply in_map_iff. exists (Source folder (Some (true, pats)) tree, e). split; [reflexivity|]. eapply IN; eauto.
Qed.
Print Assumptions C81_relative_exclude_refuted.

(** ** Cases *)
Example ex_entries : rapify_entries (fun _ => None) q_tree = Some [(hd (Source [] None []) q_tree, r_cpp); (hd (Source [] None []) q_tree, q_sub)].
Proof. reflexivity. Qed.
(** A config that includes a header beside a material: the hypotheses of [C81_rapifier] hold. *)
Definition e_head : vpath := r_dir ++ [bs "macros.hpp"].
Definition e_config : job unit unit := Read r_cpp (fun _ => Read e_head (fun x => Over (r_notes r_dir [1] ++ Put (Disk r_bin) [] :: map (Add (Disk r_bin)) [match x with Some b => b | None => [] end; [3]]) (inl tt))).
Example ex_rapifier : exists es, rapify_entries (fun _ => None) r_tree = Some es /\ proper_tree r_tree /\ one_config es /\
  Forall2 (fun x j => rapify_job (c_folder (fst x)) (snd x) j) es [e_config; r_shared] /\ reads_no_output rapify_out r_store (map snd es) [e_config; r_shared] /\ all_succeed r_store [e_config; r_shared].
Proof.
  eexists. split; [reflexivity|]. split; [exact r_proper|]. split; [|split; [|split]].
  - intros i k a b v w E1 E2 L1 L2 _. destruct i as [|[|[|i]]]; cbn in E1; try discriminate E1; [|injection E1 as _ <-; discriminate L1].
    destruct k as [|[|[|k]]]; cbn in E2; try discriminate E2; [reflexivity|injection E2 as _ <-; discriminate L2].
  - constructor; [|constructor; [exact r_shared_job|constructor]]. apply rj_read. intros _. apply rj_read. intro x. apply rj_done; [right; split; [exists [1], [1]; reflexivity|reflexivity]|].
    right. exists r_bin, [match x with Some b => b | None => [] end; [3]]. split; reflexivity.
  - intros i k j p E1 NE (ps & ws & x & A & I) v E2. destruct i as [|[|[|i]]]; cbn in E1; try discriminate E1; injection E1 as <-.
    + destruct k as [|[|[|k]]]; cbn in E2; try discriminate E2; [congruence|]. injection E2 as <-. inversion A as [|? ? ? ? ? A']; subst. inversion A' as [|? ? ? ? ? A2]; subst. inversion A2; subst.
      destruct I as [<-|[<-|[]]]; vm_compute; discriminate.
    + inversion A; subst. destruct I.
  - intros j [<-|[<-|[]]]; exists tt; do 2 eexists; repeat constructor.
Qed.
