(** C85. *)
From Coq Require Import String.
From Verif Require Import Base.Tactics Base.Bytes Base.Ascii Base.Text Common.VersionModel Common.VersionSpec Common.VersionProofs Common.Props.
From Verif Require Import Common.ProjectVersionModel Common.ProjectVersionSpec.
Local Open Scope N_scope.
Local Open Scope list_scope.

Lemma slashed_map a : forall b, slashed a b <-> b = map (fun c => if c =? 92 then 47 else c) a.
Proof.
  induction a as [|c a IH]; intros b; cbn [map].
  - split; [now inversion 1|intros ->; constructor].
  - split.
    + inversion 1 as [|x y H1|x y z H1 H2]; subst.
      * now rewrite (proj1 (IH _) H1).
      * rewrite (proj1 (IH _) H2), (proj2 (N.eqb_neq _ _) H1). reflexivity.
    + intros ->. destruct (c =? 92) eqn:E.
      * apply N.eqb_eq in E as ->. constructor. now apply IH.
      * apply N.eqb_neq in E. constructor; [exact E|now apply IH].
Qed.

(** Which settings are accepted. *)
Theorem C85_settings : forall s, (exists c, try_into s = inl c) <-> complete s \/ absent s.
Proof.
  intros [p ma mi pa b g]. unfold try_into, complete, absent. cbn [s_path s_major s_minor s_patch s_build s_git_hash].
  destruct p, ma, mi, pa; cbn; (split; [intros [c H]|intros H]); try discriminate H; try (eexists; reflexivity);
    first [left; repeat split; congruence | right; repeat split; congruence | destruct H as [(A & B & C & D)|(A & B & C)]; congruence].
Qed.

(** A path beside any of the numbers is the conflict that is reported, before anything else that is wrong; without a path the
    first of the numbers that is not there is. *)
Theorem C85_conflict : forall s,
  (try_into s = inr PathConflict <-> s_path s <> None /\ (s_major s <> None \/ s_minor s <> None \/ s_patch s <> None)) /\
  (s_path s = None -> s_major s = None -> s_minor s <> None \/ s_patch s <> None -> try_into s = inr (BadVersion ExpectedMajor)) /\
  (s_path s = None -> s_major s <> None -> s_minor s = None -> try_into s = inr (BadVersion ExpectedMinor)) /\
  (s_path s = None -> s_major s <> None -> s_minor s <> None -> s_patch s = None -> try_into s = inr (BadVersion ExpectedPatch)).
Proof.
  intros [p ma mi pa b g]. unfold try_into. cbn [s_path s_major s_minor s_patch s_build s_git_hash].
  destruct p, ma, mi, pa; cbn; repeat split; intros; try discriminate; try reflexivity; try congruence; try (left; discriminate); try (right; left; discriminate);
    try (right; right; discriminate); intuition congruence.
Qed.

Lemma try_into_eq s c : try_into s = inl c ->
  git_hash c = match s_git_hash s with Some g => g | None => 8 end /\ version_file s (path c) /\
  (absent s /\ defined c = None \/ exists ma mi pa, s_major s = Some ma /\ s_minor s = Some mi /\ s_patch s = Some pa /\ defined c = Some (ma, mi, pa, s_build s)).
Proof.
  destruct s as [p ma mi pa b g]. unfold try_into, version_file, absent. cbn [s_path s_major s_minor s_patch s_build s_git_hash].
  destruct ma as [ma|].
  - destruct p as [p|]; cbn; [discriminate|]. destruct mi as [mi|]; [|discriminate]. destruct pa as [pa|]; [|discriminate].
    intros [= <-]. cbn. split; [reflexivity|]. split; [reflexivity|]. right. eauto 10.
  - destruct mi, pa; cbn; try (destruct p; cbn; discriminate). destruct p as [p|]; cbn; intros [= <-]; cbn; (split; [reflexivity|]); (split; [|now left]).
    + now apply slashed_map.
    + reflexivity.
Qed.

Lemma numbers_get s c w v : try_into s = inl c ->
  (exists x, internal_get c w = inl x /\ v = Version (major x) (minor x) (patch x) (build x) (hash v)) <-> numbers s w v.
Proof.
  intros T. destruct (try_into_eq s c T) as (_ & P & D). unfold internal_get. destruct v as [ma mi pa b h]. cbn [hash].
  destruct D as [(A & ->)|(a1 & a2 & a3 & E1 & E2 & E3 & ->)].
  - split.
    + intros (x & H & E). destruct (file w (path c)) as [| |t] eqn:F; [discriminate|discriminate|]. destruct (try_from_script_version t) as [x'|] eqn:V; [|discriminate].
      injection H as ->. apply C44_script_version_exact in V as (V1 & V2 & V3 & V4 & _). injection E as -> -> -> ->. now apply in_file with (path c) t.
    + destruct A as (A1 & A2 & A3). intros [B1 B2 B3 B4|p t _ Q F V1 V2 V3 V4]; [congruence|].
      assert (p = path c) as ->. { revert P Q. unfold version_file. destruct (s_path s); [rewrite !slashed_map; congruence|congruence]. }
      rewrite F. exists (Version ma mi pa b None). rewrite (proj2 (C44_script_version_exact t (Version ma mi pa b None))); [now split|]. repeat split; auto; apply V4.
  - split.
    + intros (x & H & E). injection H as <-. cbn in E. injection E as -> -> -> ->. now apply in_project.
    + intros [B1 B2 B3 B4|p t (A1 & _) _ _ _ _ _ _]; [|congruence]. cbn in *. eexists. split; [reflexivity|]. cbn. congruence.
Qed.

Lemma internal_no_hash c w x : internal_get c w = inl x -> hash x = None.
Proof.
  unfold internal_get. destruct (defined c) as [[[[a b] d] e]|]; [now intros [= <-]|]. destruct (file w (path c)) as [| |t]; try discriminate.
  destruct (try_from_script_version t) as [v|] eqn:V; [|discriminate]. intros [= <-]. now apply C44_script_version_exact in V.
Qed.

(** Asked for the first time, the version has the numbers of the project and the beginning of the commit's name. *)
Theorem C85_version : forall s c w v, try_into s = inl c ->
  (fst (get c w None) = Ok v <-> numbers s w v /\ commit s w v).
Proof.
  intros s c w v T. rewrite <- (numbers_get s c w v T). destruct (try_into_eq s c T) as (G & _ & _). unfold get, commit.
  destruct (internal_get c w) as [x|e] eqn:I; [|cbn; split; [discriminate|intros ((x & H & _) & _); discriminate]].
  pose proof (internal_no_hash c w x I) as X. destruct (git_hash c =? 0) eqn:Z.
  - apply N.eqb_eq in Z. rewrite Z in G. cbn. assert (S : s_git_hash s = Some 0) by (destruct (s_git_hash s); congruence). split.
    + intros E. assert (E' : v = x) by congruence. subst v. split; [|now left]. exists x. split; [reflexivity|]. now destruct x.
    + intros ((y & E & V) & C). assert (y = x) as -> by congruence. f_equal. destruct C as [(_ & C)|(n & id & rest & h & [N|(N & _)] & N0 & _)]; [|congruence..].
      rewrite V, C, <- X. now destruct x.
  - apply N.eqb_neq in Z. assert (S : forall n, s_git_hash s = Some n \/ s_git_hash s = None /\ n = 8 -> n = git_hash c).
    { intros n [E|(E & ->)]; rewrite E in G; congruence. }
    assert (S' : s_git_hash s = Some (git_hash c) \/ s_git_hash s = None /\ git_hash c = 8) by (destruct (s_git_hash s); [left|right]; auto; congruence).
    destruct (head w) as [id|]; cbv zeta.
    + destruct (length id <? N.to_nat (git_hash c))%nat eqn:L; cbn [fst].
      * apply Nat.ltb_lt in L. split; [discriminate|]. intros (_ & [(E & _)|(n & id' & rest & h & N & N0 & H & E & K & _)]).
        -- rewrite E in G. congruence.
        -- apply S in N. subst n. injection H as <-. subst id. rewrite app_length in L. lia.
      * apply Nat.ltb_ge in L. split.
        -- intros E. set (h := firstn (N.to_nat (git_hash c)) id) in *. assert (E' : v = Version (major x) (minor x) (patch x) (build x) (Some h)) by congruence. subst v.
           split; [now exists x|]. right. exists (git_hash c), id, (skipn (N.to_nat (git_hash c)) id), h. repeat split; auto.
           ++ unfold h. now rewrite firstn_skipn.
           ++ unfold h. rewrite firstn_length. lia.
        -- intros ((y & E & V) & C). assert (y = x) as -> by congruence. f_equal. destruct C as [(C & _)|(n & id' & rest & h & N & N0 & H & E' & K & HV)].
           ++ rewrite C in G. congruence.
           ++ apply S in N. subst n. injection H as <-. rewrite V, HV. do 2 f_equal. subst id. rewrite firstn_app, K, Nat.sub_diag, <- K, firstn_all. cbn [firstn]. now rewrite app_nil_r.
    + split; [discriminate|]. intros (_ & [(E & _)|(n & id' & rest & h & N & N0 & H & _)]); [rewrite E in G; congruence|discriminate].
Qed.

(** An error is never kept, and nothing but what was answered is. *)
Lemma get_kept c w kept o k : get c w kept = (o, k) -> match o with Ok v => k = Some v | _ => k = None end.
Proof.
  unfold get. destruct kept as [v|]; [now intros [= <- <-]|]. destruct (internal_get c w) as [x|e]; [|now intros [= <- <-]].
  destruct (git_hash c =? 0); [now intros [= <- <-]|]. destruct (head w) as [id|]; [|now intros [= <- <-]]. destruct (length id <? N.to_nat (git_hash c))%nat; now intros [= <- <-].
Qed.

Lemma history_app l : forall kept m, exists k, history kept (l ++ m) = history kept l ++ history k m.
Proof.
  induction l as [|[c w|] l IH]; intros kept m; cbn [app history].
  - now exists kept.
  - destruct (get c w kept) as [o k]. destruct (IH k m) as (k' & ->). now exists k'.
  - apply IH.
Qed.
Lemma history_length l : forall kept, length (history kept l) = questions l.
Proof.
  induction l as [|[c w|] l IH]; intros kept; unfold questions in *; cbn [history filter length]; [reflexivity| |apply IH].
  destruct (get c w kept) as [o k]. cbn [length]. now rewrite IH.
Qed.
Lemma history_kept l v : ~ In Forgotten l -> forall o, In o (history (Some v) l) -> o = Ok v.
Proof.
  induction l as [|[c w|] l IH]; intros F o; cbn [history get].
  - contradiction.
  - intros [<-|H]; [reflexivity|]. apply IH; [|exact H]. intros X. apply F. now right.
  - exfalso. apply F. now left.
Qed.

(** Once it was told, every question of the run gets the same version, whatever becomes of the files, until it is forgotten. *)
Theorem C85_one_version_per_run : forall before c w v between after,
  nth_error (history None (before ++ Asked c w :: between ++ after)) (questions before) = Some (Ok v) ->
  ~ In Forgotten between ->
  forall i, (questions before <= i <= questions before + questions between)%nat ->
  nth_error (history None (before ++ Asked c w :: between ++ after)) i = Some (Ok v).
Proof.
  intros before c w v between after H F i I. destruct (history_app before None (Asked c w :: between ++ after)) as (k & E). rewrite E in *.
  rewrite nth_error_app2 in H |- * by (rewrite history_length; lia). rewrite history_length in H |- *. rewrite Nat.sub_diag in H. cbn [history] in H |- *.
  destruct (get c w k) as [o k'] eqn:G. apply get_kept in G. cbn [nth_error] in H. injection H as ->. subst k'.
  destruct (i - questions before)%nat as [|j] eqn:J; cbn [nth_error]; [reflexivity|].
  destruct (history_app between (Some v) after) as (k2 & E2). rewrite E2, nth_error_app1 by (rewrite history_length; lia).
  destruct (nth_error (history (Some v) between) j) as [o|] eqn:Q.
  - apply nth_error_In in Q. now rewrite (history_kept between v F o Q).
  - apply nth_error_None in Q. rewrite history_length in Q. lia.
Qed.

(** Nothing else is ever answered: the answer to a question is what a first question would get, or an earlier answer of the
    same run since which nothing was forgotten. *)
Theorem C85_answers : forall before c w after o,
  nth_error (history None (before ++ Asked c w :: after)) (questions before) = Some o ->
  o = fst (get c w None) \/
  exists b1 c1 w1 b2 v, before = b1 ++ Asked c1 w1 :: b2 /\ ~ In Forgotten b2 /\ o = Ok v /\ fst (get c1 w1 None) = Ok v.
Proof.
  intros before c w after o.
  assert (K : forall l kept, exists k, history kept (l ++ Asked c w :: after) = history kept l ++ history k (Asked c w :: after) /\
            (k = None \/ (k = kept /\ ~ In Forgotten l) \/ exists b1 c1 w1 b2 v, l = b1 ++ Asked c1 w1 :: b2 /\ ~ In Forgotten b2 /\ k = Some v /\ fst (get c1 w1 None) = Ok v)).
  { induction l as [|[c' w'|] l IH]; intros kept; cbn [app history].
    - exists kept. split; [reflexivity|]. right. left. split; auto.
    - destruct (get c' w' kept) as [o' k'] eqn:G. destruct (IH k') as (k & E & [D|[(D & F)|(b1 & c1 & w1 & b2 & v & D & R)]]); exists k; (split; [cbn [app]; now rewrite E|]).
      + now left.
      + destruct kept as [v|].
        * injection G as <- <-. right. left. split; [exact D|]. intros [X|X]; [discriminate|now apply F].
        * pose proof (get_kept _ _ _ _ _ G) as GK. destruct o' as [v| |]; [|left; congruence..]. right. right. exists [], c', w', l, v. repeat split; auto; [congruence|]. now rewrite G.
      + right. right. exists (Asked c' w' :: b1), c1, w1, b2, v. split; [now rewrite D|exact R].
    - destruct (IH None) as (k & E & [D|[(D & F)|(b1 & c1 & w1 & b2 & v & D & R)]]); exists k; (split; [exact E|]).
      + now left.
      + left. exact D.
      + right. right. exists (Forgotten :: b1), c1, w1, b2, v. split; [now rewrite D|exact R]. }
  destruct (K before None) as (k & E & D). rewrite E, nth_error_app2, history_length, Nat.sub_diag by (rewrite history_length; lia). cbn [history].
  assert (D' : k = None \/ exists b1 c1 w1 b2 v, before = b1 ++ Asked c1 w1 :: b2 /\ ~ In Forgotten b2 /\ k = Some v /\ fst (get c1 w1 None) = Ok v) by (destruct D as [D|[(D & _)|D]]; auto).
  clear D. destruct D' as [->|(b1 & c1 & w1 & b2 & v & D & F & -> & V)].
  - destruct (get c w None) as [o' k']. cbn [nth_error]. intros [= <-]. now left.
  - cbn [get nth_error]. intros [= <-]. right. exists b1, c1, w1, b2, v. auto.
Qed.

(** The version's text reads as the version. *)
Theorem C85_reads_back : forall s c w v, try_into s = inl c -> fst (get c w None) = Ok v ->
  (forall n, In n [s_major s; s_minor s; s_patch s; s_build s] -> forall x, n = Some x -> x < 2 ^ 32) ->
  (forall id, head w = Some id -> ~ In 45 id) -> try_from (display v) = VOk v.
Proof.
  intros s c w v T G U H. apply (C85_version s c w v T) in G as (N & C). apply C20_version_roundtrip.
  - destruct N as [A B D E|p t A P F A1 A2 A3 A4].
    + cbn [In] in U. repeat split; try (eapply U; [|eassumption]; auto). intros b Q. rewrite <- E in Q. eapply U; [|exact Q]. auto.
    + assert (L : forall name n, defines t name n -> n < 2 ^ 32) by (intros name n (? & ? & ? & ? & ? & ? & _ & _ & _ & _ & _ & _ & K); apply K).
      repeat split; eauto. intros b Q. apply A4 in Q. eauto.
  - intros h Q. destruct C as [(_ & C)|(n & id & rest & h' & _ & _ & I & E & _ & C)]; [congruence|]. assert (h' = h) as -> by congruence.
    intros X. apply (H id I). rewrite E. apply in_or_app. now left.
Qed.

(** A commit's name has forty characters: a longer hash is not refused, it crashes. *)
Theorem C85_long_hash_refuted : exists s c w id, try_into s = inl c /\ s_git_hash s = Some 41 /\ head w = Some id /\ length id = 40%nat /\ fst (get c w None) = Panic.
Proof.
  exists (Section_ None (Some 1) (Some 0) (Some 0) None (Some 41)). eexists. exists (Around (fun _ => Absent) (Some (repeat 97 40))), (repeat 97 40).
  split; [reflexivity|]. repeat split.
Qed.
(** A build number without the other numbers is not refused, it is not used. *)
Theorem C85_lone_build_refuted : exists s c w v, s_build s = Some 7 /\ try_into s = inl c /\ fst (get c w None) = Ok v /\ build v = None.
Proof.
  exists (Section_ None None None None (Some 7) (Some 0)). eexists.
  exists (Around (fun _ => Holds (bs "#define MAJOR 1" ++ [10] ++ bs "#define MINOR 2" ++ [10] ++ bs "#define PATCH 3")) None). eexists.
  split; [reflexivity|]. split; [reflexivity|]. split; [vm_compute; reflexivity|reflexivity].
Qed.

(** A case: the file changes between the questions, and again before a hook has run. *)
Definition holding (s : text) : around := Around (fun p => if match p with 97 :: _ => true | _ => false end then Holds s else Absent) (Some (bs "0123456789abcdef")).
Definition defining (n : N) : text := bs "#define MAJOR 1" ++ [10] ++ bs "#define MINOR 2" ++ [10] ++ bs "#define PATCH " ++ [48 + n].
Example C85_case : exists c, try_into (Section_ None None None None None None) = inl c /\
  history None [Asked c (holding []); Asked c (holding (defining 3)); Asked c (holding (defining 4)); Forgotten; Asked c (holding (defining 5))] =
    [Err (BadVersion ExpectedMajor); Ok (Version 1 2 3 None (Some (bs "01234567"))); Ok (Version 1 2 3 None (Some (bs "01234567")));
     Ok (Version 1 2 5 None (Some (bs "01234567")))] /\
  display (Version 1 2 3 None (Some (bs "01234567"))) = bs "1.2.3-01234567".
Proof. eexists. split; [reflexivity|]. split; vm_compute; reflexivity. Qed.
Example C85_case_path : exists c, try_into (Section_ (Some (bs "addons\core\v.hpp")) None None None None (Some 0)) = inl c /\ path c = bs "addons/core/v.hpp" /\
  try_into (Section_ (Some (bs "v.hpp")) (Some 1) None None None None) = inr PathConflict.
Proof. eexists. split; [reflexivity|]. split; reflexivity. Qed.

Print Assumptions C85_settings.
Print Assumptions C85_conflict.
Print Assumptions C85_version.
Print Assumptions C85_one_version_per_run.
Print Assumptions C85_answers.
Print Assumptions C85_reads_back.
Print Assumptions C85_long_hash_refuted.
Print Assumptions C85_lone_build_refuted.
