(** Proofs about unpacking an archive (C88). *)
From Coq Require Import String.
From Verif Require Import Base.Tactics Base.Bytes Base.Sort Base.Ascii Base.Text Io.Model Pbo.Model
  Pbo.UnpackModel Pbo.UnpackSpec.
Local Open Scope N_scope.
Local Open Scope list_scope.

Lemma eqb_path_spec p : forall q, eqb_path p q = true <-> p = q.
Proof.
  induction p as [|a p IH]; intros [|b q]; cbn; try easy.
  rewrite andb_true_iff, eqb_bytes_spec, IH. split; [intros [-> ->]; auto|intros [= -> ->]; auto].
Qed.
Lemma eqb_path_false p q : eqb_path p q = false <-> p <> q.
Proof. rewrite <- not_true_iff_false, eqb_path_spec. tauto. Qed.

Lemma put_same p n d : put p n d p = Some n.
Proof. unfold put. now rewrite (proj2 (eqb_path_spec p p) eq_refl). Qed.
Lemma put_other p n d q : p <> q -> put p n d q = d q.
Proof. intro H. unfold put. now rewrite (proj2 (eqb_path_false p q) H). Qed.

(** ** Pieces of a string *)

Lemma join_middle c l1 p l2 : exists a b, join [c] (l1 ++ p :: l2) = a ++ p ++ b /\
  (a = [] \/ exists a', a = a' ++ [c]) /\ (b = [] \/ exists b', b = c :: b').
Proof.
  induction l1 as [|x r IH]; cbn [app].
  - destruct l2 as [|y l2].
    + exists [], []. cbn. rewrite app_nil_r. auto.
    + exists [], (c :: join [c] (y :: l2)). cbn [join]. split; [reflexivity|]. eauto.
  - destruct IH as (a & b & E & Ha & Hb). exists (x ++ [c] ++ a), b. split; [|split; [|exact Hb]].
    + destruct (r ++ p :: l2) as [|z zs] eqn:Ez; [now destruct r|].
      change (join [c] (x :: z :: zs)) with (x ++ [c] ++ join [c] (z :: zs)). rewrite E, <- !app_assoc. reflexivity.
    + right. destruct Ha as [->|(a' & ->)]; [exists x; now rewrite app_nil_r|].
      exists (x ++ [c] ++ a'). now rewrite <- !app_assoc.
Qed.

Lemma split_in c s p : In p (split_on c s) -> exists a b, s = a ++ p ++ b /\
  (a = [] \/ exists a', a = a' ++ [c]) /\ (b = [] \/ exists b', b = c :: b').
Proof.
  intro H. apply in_split in H as (l1 & l2 & E). destruct (join_middle c l1 p l2) as (a & b & Ej & H).
  exists a, b. split; [|exact H]. now rewrite <- (join_split c s), E.
Qed.

Lemma slashed_dots x : slashed x = bs ".." -> x = bs "..".
Proof.
  unfold slashed. change (bs "..") with [46; 46]. destruct x as [|a [|b [|? ?]]]; cbn; try discriminate.
  destruct (a =? 92) eqn:Ea; [discriminate|]. destruct (b =? 92) eqn:Eb; [discriminate|]. auto.
Qed.

Lemma slashed_sep b : (if b =? 92 then 47 else b) = 47 -> separator b.
Proof. unfold separator. destruct (N.eqb_spec b 92); auto. Qed.

Definition level (name : bytes) : Prop :=
  starts_with [47] (slashed name) = false /\ ~ In dotdot (comps (slashed name)).

Lemma not_climbing name : ~ climbs name -> level name.
Proof.
  intro H. split.
  - destruct (starts_with [47] (slashed name)) eqn:E; [|reflexivity]. exfalso. apply H. left.
    apply starts_with_spec in E as (r & E). destruct name as [|b n]; [discriminate|]. cbn in E.
    exists b, n. split; [reflexivity|]. apply slashed_sep. congruence.
  - intro Hin. apply filter_In in Hin as [Hin _]. apply split_in in Hin as (a & b & E & Ha & Hb).
    apply H. right. unfold slashed in E. apply map_eq_app in E as (a0 & n1 & -> & Ea & E).
    apply map_eq_app in E as (x & b0 & -> & Ex & Eb). exists a0, b0. split; [|split].
    + now rewrite (slashed_dots x Ex).
    + destruct Ha as [->|(a' & ->)]; [left; now apply map_eq_nil in Ea|]. right.
      apply map_eq_app in Ea as (a1 & s1 & -> & _ & Es). destruct s1 as [|s [|? ?]]; try discriminate.
      exists a1, s. split; [reflexivity|]. apply slashed_sep. cbn in Es. congruence.
    + destruct Hb as [->|(b' & ->)]; [left; now apply map_eq_nil in Eb|]. right.
      destruct b0 as [|s b1]; [discriminate|]. cbn in Eb. exists s, b1. split; [reflexivity|].
      apply slashed_sep. congruence.
Qed.

(** ** Making folders *)

Lemma make_dirs_spec cs : forall d at_, ~ In dotdot cs ->
  let (d', f) := make_dirs d at_ cs in
  (f = None \/ f = Some (at_ ++ cs)) /\
  forall p, d' p = d p \/ (d p = None /\ d' p = Some Dir /\ exists a b, a <> [] /\ cs = a ++ b /\ p = at_ ++ a).
Proof.
  induction cs as [|c r IH]; intros d at_ Hn.
  - cbn. split; [right; now rewrite app_nil_r|auto].
  - cbn [make_dirs]. destruct (eqb_bytes c dotdot) eqn:Ec.
    { apply eqb_bytes_spec in Ec. exfalso. apply Hn. now left. }
    assert (Hn' : ~ In dotdot r) by (intro; apply Hn; now right).
    destruct (d (at_ ++ [c])) as [[x|]|] eqn:Ed.
    + cbn. auto.
    + specialize (IH d (at_ ++ [c]) Hn'). destruct (make_dirs d (at_ ++ [c]) r) as [d' f].
      destruct IH as [Hf IH]. rewrite <- app_assoc in Hf. split; [exact Hf|]. intro p.
      destruct (IH p) as [E|(E1 & E2 & a & b & Ha & Hab & Hp)]; [auto|]. right. split; [exact E1|]. split; [exact E2|].
      exists (c :: a), b. split; [easy|]. split; [now rewrite Hab|]. rewrite Hp, <- app_assoc. reflexivity.
    + specialize (IH (put (at_ ++ [c]) Dir d) (at_ ++ [c]) Hn').
      destruct (make_dirs (put (at_ ++ [c]) Dir d) (at_ ++ [c]) r) as [d' f].
      destruct IH as [Hf IH]. rewrite <- app_assoc in Hf. split; [exact Hf|]. intro p.
      destruct (IH p) as [E|(E1 & E2 & a & b & Ha & Hab & Hp)].
      * unfold put in E. destruct (eqb_path (at_ ++ [c]) p) eqn:Ep; [|auto].
        apply eqb_path_spec in Ep. subst p. right. split; [exact Ed|]. split; [exact E|].
        exists [c], r. repeat split; easy.
      * right. unfold put in E1. destruct (eqb_path (at_ ++ [c]) p) eqn:Ep; [discriminate|].
        split; [exact E1|]. split; [exact E2|].
        exists (c :: a), b. split; [easy|]. split; [now rewrite Hab|]. rewrite Hp, <- app_assoc. reflexivity.
Qed.

(** When no folder on the way is a file, all are made. *)
Lemma make_dirs_ok cs : forall d at_, ~ In dotdot cs ->
  (forall a b x, a <> [] -> cs = a ++ b -> d (at_ ++ a) <> Some (File x)) ->
  exists d', make_dirs d at_ cs = (d', Some (at_ ++ cs)) /\
  (forall a b, a <> [] -> cs = a ++ b -> d' (at_ ++ a) = Some Dir) /\
  (forall p, (forall a b, a <> [] -> cs = a ++ b -> p <> at_ ++ a) -> d' p = d p).
Proof.
  induction cs as [|c r IH]; intros d at_ Hn Hf.
  - exists d. cbn. rewrite app_nil_r. split; [reflexivity|]. split; [|auto].
    intros a b Ha E. symmetry in E. apply app_eq_nil in E as [-> _]. congruence.
  - cbn [make_dirs]. destruct (eqb_bytes c dotdot) eqn:Ec.
    { apply eqb_bytes_spec in Ec. exfalso. apply Hn. now left. }
    assert (Hn' : ~ In dotdot r) by (intro; apply Hn; now right).
    assert (K : forall d1, (forall p, p <> at_ ++ [c] -> d1 p = d p) -> d1 (at_ ++ [c]) = Some Dir ->
      exists d', make_dirs d1 (at_ ++ [c]) r = (d', Some (at_ ++ c :: r)) /\
      (forall a b, a <> [] -> c :: r = a ++ b -> d' (at_ ++ a) = Some Dir) /\
      (forall p, (forall a b, a <> [] -> c :: r = a ++ b -> p <> at_ ++ a) -> d' p = d p)).
    { intros d1 H1 H1c. destruct (IH d1 (at_ ++ [c]) Hn') as (d' & E & Hd & Ho).
      - intros a b x Ha E. rewrite <- app_assoc. rewrite H1.
        + apply (Hf (c :: a) b x); [easy|]. now rewrite E.
        + intro E2. apply app_inv_head in E2. cbn in E2. congruence.
      - exists d'. rewrite E, <- app_assoc. split; [reflexivity|]. split.
        + intros [|a0 a] b Ha E2; [congruence|]. cbn in E2. injection E2 as <- E2.
          destruct a as [|a1 a].
          * rewrite Ho; [exact H1c|]. intros a b' Ha' E3 E4.
            rewrite <- (app_nil_r (at_ ++ [c])) in E4 at 1. apply app_inv_head in E4. congruence.
          * specialize (Hd (a1 :: a) b ltac:(easy) E2). now rewrite <- app_assoc in Hd.
        + intros p Hp. rewrite Ho.
          * apply H1. apply (Hp [c] r); easy.
          * intros a b Ha E2. rewrite <- app_assoc. apply (Hp (c :: a) b); [easy|]. now rewrite E2. }
    destruct (d (at_ ++ [c])) as [[x|]|] eqn:Ed.
    + exfalso. apply (Hf [c] r x); easy.
    + apply K; auto.
    + apply K; [|apply put_same]. intros p Hp. apply put_other. congruence.
Qed.

(** ** What stays as it was *)

Definition kept_outside (out : path) (d d' : disk) : Prop := forall p, (forall r, p <> out ++ r) -> d' p = d p.

Lemma kept_put out r n d : kept_outside out d (put (out ++ r) n d).
Proof. intros p H. apply put_other. intro E. now apply (H r). Qed.
Lemma kept_trans out d1 d2 d3 : kept_outside out d1 d2 -> kept_outside out d2 d3 -> kept_outside out d1 d3.
Proof. intros H1 H2 p Hp. rewrite H2, H1; auto. Qed.

Lemma kept_props out props : forall d, kept_outside out d (fst (unpack_props out props d)).
Proof.
  induction props as [|[k v] r IH]; intro d; cbn [unpack_props]; [now intros p|].
  destruct (eqb_bytes k s_prefix).
  - unfold create. destruct (d (out ++ [s_pboprefix])) as [[x|]|]; [| now intros p|];
      (eapply kept_trans; [|apply IH]; eapply kept_trans; apply kept_put).
  - unfold append_to. destruct (d (out ++ [s_properties_txt])) as [[x|]|]; [| now intros p|];
      (eapply kept_trans; [|apply IH]; apply kept_put).
Qed.

Lemma removelast_in {A} (x : A) l : In x (removelast l) -> In x l.
Proof.
  destruct l as [|y l] using rev_ind; [easy|]. rewrite removelast_last. intro. apply in_or_app. now left.
Qed.

Lemma kept_file lower out r h d : level (h_name h) -> kept_outside out d (fst (unpack_file lower out r h d)).
Proof.
  intros [Ha Hd]. unfold unpack_file. rewrite Ha.
  destruct (comps (slashed (h_name h))) as [|c cs] eqn:Ec; [now intros p|].
  assert (Hn : ~ In dotdot (removelast (c :: cs))) by (intro Hin; apply Hd, removelast_in, Hin).
  pose proof (make_dirs_spec (removelast (c :: cs)) d out Hn) as Hm.
  destruct (make_dirs d out (removelast (c :: cs))) as [d1 f]. destruct Hm as [Hf Hm].
  assert (K : kept_outside out d d1).
  { intros p Hp. destruct (Hm p) as [E|(_ & _ & a & b & _ & _ & E)]; [exact E|]. now apply Hp in E. }
  destruct f as [f|]; [|exact K]. destruct Hf as [Hf|Hf]; [discriminate|]. injection Hf as ->.
  destruct (names_a_file _); [|exact K]. unfold create. rewrite <- app_assoc.
  destruct (d1 _) as [[x|]|]; [|exact K|]; (destruct (r_file _ _ _);
    cbn [fst]; [eapply kept_trans; [eapply kept_trans; [exact K|apply kept_put]|apply kept_put]
               |eapply kept_trans; [exact K|apply kept_put]]).
Qed.

Lemma kept_files lower out r hs : forall d, (forall h, In h hs -> level (h_name h)) ->
  kept_outside out d (fst (unpack_files lower out r hs d)).
Proof.
  induction hs as [|h hs IH]; intros d Hc; cbn [unpack_files]; [now intros p|].
  pose proof (kept_file lower out r h d (Hc h (or_introl eq_refl))) as K.
  destruct (unpack_file lower out r h d) as [d1 st]. destruct st; try exact K.
  eapply kept_trans; [exact K|]. apply IH. intros h' Hh. apply Hc. now right.
Qed.

Lemma dotdot_lit : dotdot = bs "..".
Proof. reflexivity. Qed.

Lemma on_the_way_of (a b : path) : a <> [] -> b <> [] -> on_the_way a (a ++ b).
Proof. intros _ Hb. destruct b as [|x b]; [congruence|]. now exists x, b. Qed.

Lemma unpack_outside lower input r out d : read input = Ok r -> ~ In dotdot out ->
  (forall h, In h (r_headers r) -> level (h_name h)) ->
  outside_kept d (fst (unpack lower input out d)) out.
Proof.
  intros Hr Ho Hc. unfold unpack. rewrite Hr. destruct (exists_at d out); [intros p _; now left|].
  pose proof (make_dirs_spec out d [] Ho) as Hm. destruct (make_dirs d [] out) as [d1 f]. destruct Hm as [_ Hm].
  assert (K : outside_kept d d1 out).
  { intros p Hp. destruct (Hm p) as [E|(E1 & E2 & a & b & Ha & Hab & E)]; [now left|]. right. split; [exact E1|].
    split; [exact E2|]. cbn in E. subst p. rewrite Hab. apply on_the_way_of; [exact Ha|]. intros ->.
    apply (Hp []). now rewrite app_nil_r, Hab, app_nil_r. }
  assert (T : forall d2, kept_outside out d1 d2 -> outside_kept d d2 out).
  { intros d2 H p Hp. rewrite (H p Hp). now apply K. }
  destruct f as [f|]; [|exact K]. pose proof (kept_props out (r_props r) d1) as K1.
  destruct (unpack_props out (r_props r) d1) as [d2 st]. cbn [fst] in K1. destruct st; try (now apply T).
  apply T. eapply kept_trans; [exact K1|]. now apply kept_files.
Qed.

(** ** What is written *)

Lemma glued_join ps : Forall ordinary ps -> slashed (glued ps) = join [47] ps.
Proof.
  assert (K : forall p, ordinary p -> slashed p = p).
  { intros p (_ & _ & _ & _ & H). unfold slashed. rewrite <- (map_id p) at 2. apply map_ext_in. intros b Hb.
    destruct (N.eqb_spec b 92) as [->|]; [contradiction|reflexivity]. }
  induction ps as [|p r IH]; intro H; [reflexivity|]. inversion H as [|? ? Hp Hr]; subst.
  destruct r as [|q r]; [now apply K|].
  change (glued (p :: q :: r)) with (p ++ [92] ++ glued (q :: r)).
  change (join [47] (p :: q :: r)) with (p ++ [47] ++ join [47] (q :: r)).
  unfold slashed in *. rewrite !map_app, (IH Hr). f_equal. now apply K.
Qed.

Lemma split_join c ps : ps <> [] -> Forall (fun p => ~ In c p) ps -> split_on c (join [c] ps) = ps.
Proof.
  induction ps as [|p r IH]; [easy|]. intros _ H. inversion H as [|? ? Hp Hr]; subst. destruct r as [|q r].
  - cbn. now apply split_on_none.
  - change (join [c] (p :: q :: r)) with (p ++ c :: join [c] (q :: r)). rewrite split_on_app by exact Hp.
    rewrite IH; [reflexivity|easy|exact Hr].
Qed.

Lemma leads_split name p : leads_to name p -> split_on 47 (slashed name) = p.
Proof.
  intros (-> & Hne & H). rewrite glued_join by exact H. apply split_join; [exact Hne|].
  eapply Forall_impl; [|exact H]. now intros a (_ & _ & _ & ? & _).
Qed.

Lemma ordinary_comp c : ordinary c -> is_comp c = true.
Proof.
  intros (H1 & H2 & _). unfold is_comp. destruct c as [|x c]; [congruence|].
  apply negb_true_iff, eqb_bytes_false. exact H2.
Qed.

Lemma leads_comps name p : leads_to name p -> comps (slashed name) = p.
Proof.
  intros H. unfold comps. rewrite (leads_split _ _ H). destruct H as (_ & _ & H).
  induction H as [|x l Hx Hl IH]; [reflexivity|]. cbn. now rewrite (ordinary_comp _ Hx), IH.
Qed.

Lemma ordinary_last p : p <> [] -> Forall ordinary p -> ordinary (last p []).
Proof.
  destruct p as [|x p] using rev_ind; [easy|]. intros _ H. rewrite last_last. apply Forall_app in H as [_ H].
  now inversion H.
Qed.

Lemma leads_file name p : leads_to name p -> names_a_file (slashed name) = true.
Proof.
  intros H. unfold names_a_file. rewrite (leads_split _ _ H). destruct H as (_ & Hne & H).
  pose proof (ordinary_last _ Hne H) as Hl. rewrite (ordinary_comp _ Hl). cbn.
  apply negb_true_iff, eqb_bytes_false. now destruct Hl as (_ & _ & ? & _).
Qed.

Lemma leads_relative name p : leads_to name p -> starts_with [47] (slashed name) = false.
Proof.
  intros H. pose proof (leads_split _ _ H) as E. destruct H as (_ & Hne & H).
  destruct (starts_with [47] (slashed name)) eqn:Es; [|reflexivity]. exfalso.
  apply starts_with_spec in Es as (r & Es). rewrite Es in E. cbn in E. subst p.
  inversion H as [|? ? (Hb & _) _]; congruence.
Qed.

Lemma leads_dots name p : leads_to name p -> ~ In dotdot p.
Proof. intros (_ & _ & H) Hin. rewrite Forall_forall in H. now destruct (H _ Hin) as (_ & _ & ? & _). Qed.

Lemma leads_level name p : leads_to name p -> level name.
Proof.
  intro H. split; [exact (leads_relative _ _ H)|]. rewrite (leads_comps _ _ H). exact (leads_dots _ _ H).
Qed.

Lemma app_split_prefix (p q : path) x : p ++ [x] = q -> p = removelast q /\ x = last q [].
Proof. intros <-. rewrite removelast_last, last_last. auto. Qed.

Lemma prefix_split (A : Type) (l1 l2 a b : list A) : l1 ++ l2 = a ++ b -> 
  (exists r, a = l1 ++ r /\ l2 = r ++ b) \/ (exists r, l1 = a ++ r /\ b = r ++ l2).
Proof.
  revert a. induction l1 as [|x l1 IH]; intros a E.
  - left. now exists a.
  - destruct a as [|y a]; [right; now exists (x :: l1)|]. cbn in E. injection E as <- E.
    destruct (IH _ E) as [(r & -> & ->)|(r & -> & ->)]; [left|right]; now exists r.
Qed.

Lemma file_exact lower out r h d fs p c : holds_exactly d out fs -> leads_to (h_name h) p ->
  ~ In p (map fst fs) -> (forall q, In q (map fst fs) -> ~ on_the_way p q /\ ~ on_the_way q p) ->
  r_file lower (h_name h) r = Some c ->
  exists d', unpack_file lower out r h d = (d', Done) /\ holds_exactly d' out (fs ++ [(p, c)]).
Proof.
  intros [Hout Hx] Hl Hnew Hap Hc. unfold unpack_file.
  rewrite (leads_comps _ _ Hl), (leads_relative _ _ Hl), (leads_file _ _ Hl), Hc.
  pose proof (leads_dots _ _ Hl) as Hd. destruct Hl as (_ & Hne & _).
  destruct p as [|y p0 _] using rev_ind; [congruence|]. clear Hne.
  destruct (p0 ++ [y]) as [|c0 cs] eqn:Ep; [now destruct p0|]. rewrite <- Ep in *. clear c0 cs Ep.
  rewrite removelast_last, last_last.
  destruct (make_dirs_ok p0 d out) as (d1 & E & Hdir & Hoth).
  { intro Hin. apply Hd, in_or_app. now left. }
  { intros a b x Ha Eab Hf. apply (proj1 (Hx a Ha)) in Hf.
    apply (Hap a); [apply (in_map fst) in Hf; exact Hf|]. rewrite Eab, <- app_assoc.
    destruct b as [|z b]; [exists y, []|exists z, (b ++ [y])]; reflexivity. }
  rewrite E. rewrite <- app_assoc.
  assert (Hp : d1 (out ++ p0 ++ [y]) = d (out ++ p0 ++ [y])).
  { apply Hoth. intros a b _ Eab Ea. apply app_inv_head in Ea. rewrite Eab in Ea.
    rewrite <- (app_nil_r a) in Ea at 2. rewrite <- app_assoc in Ea. apply app_inv_head in Ea.
    now destruct b. }
  assert (Hnd : d (out ++ p0 ++ [y]) <> Some Dir).
  { intro Hf. apply (proj2 (Hx (p0 ++ [y]) ltac:(now destruct p0))) in Hf as (q & c' & Hin & Hw).
    apply (in_map fst) in Hin. exact (proj1 (Hap q Hin) Hw). }
  exists (put (out ++ p0 ++ [y]) (File c) (put (out ++ p0 ++ [y]) (File []) d1)). split.
  { unfold create. rewrite Hp. destruct (d (out ++ p0 ++ [y])) as [[x|]|]; [reflexivity|congruence|reflexivity]. }
  assert (Hd' : forall q, q <> p0 ++ [y] ->
    put (out ++ p0 ++ [y]) (File c) (put (out ++ p0 ++ [y]) (File []) d1) (out ++ q) = d1 (out ++ q)).
  { intros q Hq. rewrite !put_other; [reflexivity| |]; intro E2; apply app_inv_head in E2; congruence. }
  assert (Hd1 : forall q, (forall a b, a <> [] -> p0 = a ++ b -> q <> a) -> d1 (out ++ q) = d (out ++ q)).
  { intros q Hq. apply Hoth. intros a b Ha Eab E2. apply app_inv_head in E2. now apply (Hq a b Ha Eab). }
  assert (Hlen : forall q, on_the_way q (p0 ++ [y]) -> q <> [] -> exists b, p0 = q ++ b).
  { intros q (x & t & E2) _. destruct t as [|z t _] using rev_ind.
    - apply app_inj_tail in E2 as [-> _]. exists []. now rewrite app_nil_r.
    - change (x :: t ++ [z]) with ((x :: t) ++ [z]) in E2. rewrite app_assoc in E2.
      apply app_inj_tail in E2 as [-> _]. now exists (x :: t). }
  split.
  { assert (E0 : d1 (out ++ []) = d (out ++ [])) by (apply Hd1; intros a b Ha _; congruence).
    pose proof (Hd' [] ltac:(now destruct p0)) as E1. rewrite app_nil_r in E0, E1. now rewrite E1, E0. }
  intros q Hq. destruct (eqb_path q (p0 ++ [y])) eqn:Eq.
  { apply eqb_path_spec in Eq. subst q. rewrite put_same. split.
    - intro c'. rewrite in_app_iff. split.
      + intros [= <-]. right. now left.
      + intros [Hin|[[= <-]|[]]]; [|reflexivity]. apply (in_map fst) in Hin. contradiction.
    - split; [discriminate|]. intros (q & c' & Hin & Hw). exfalso. apply in_app_or in Hin as [Hin|[[= <- <-]|[]]].
      + apply (in_map fst) in Hin. exact (proj1 (Hap q Hin) Hw).
      + destruct Hw as (x & t & E2). rewrite <- (app_nil_r (p0 ++ [y])) in E2 at 1. apply app_inv_head in E2. discriminate. }
  apply eqb_path_false in Eq. rewrite Hd' by exact Eq.
  assert (Hsplit : {exists b, p0 = q ++ b} + {forall b, p0 <> q ++ b}).
  { clear. revert q. induction p0 as [|x p IH]; intros [|z q].
    - left. now exists [].
    - right. intros b E. discriminate.
    - left. now exists (x :: p).
    - destruct (eqb_bytes x z) eqn:E.
      + apply eqb_bytes_spec in E. subst z. destruct (IH q) as [H|H]; [left|right].
        * destruct H as (b & ->). now exists b.
        * intros b [= E]. now apply (H b).
      + right. apply eqb_bytes_false in E. intros b [= E2 _]. congruence. }
  destruct Hsplit as [(b & Eb)|Hno].
  - rewrite (Hdir q b Hq Eb). split.
    + intro c'. split; [discriminate|]. rewrite in_app_iff. intros [Hin|[[= E2 _]|[]]]; [|congruence].
      exfalso. apply (in_map fst) in Hin. apply (Hap q Hin). rewrite Eb, <- app_assoc.
      destruct b as [|z b]; [exists y, []|exists z, (b ++ [y])]; reflexivity.
    + split; [|reflexivity]. intros _. exists (p0 ++ [y]), c. split; [apply in_or_app; right; now left|].
      rewrite Eb, <- app_assoc. destruct b as [|z b]; [exists y, []|exists z, (b ++ [y])]; reflexivity.
  - rewrite Hd1. 2:{ intros a b Ha Eab E2. subst q. now apply (Hno b). }
    destruct (Hx q Hq) as [Hf Hdq]. split.
    + intro c'. rewrite Hf, in_app_iff. split; [auto|]. intros [?|[[= E2 _]|[]]]; [assumption|congruence].
    + rewrite Hdq. split.
      * intros (p1 & c1 & Hin & Hw). exists p1, c1. split; [apply in_or_app; now left|exact Hw].
      * intros (p1 & c1 & Hin & Hw). apply in_app_or in Hin as [Hin|[[= <- <-]|[]]]; [now exists p1, c1|].
        destruct (Hlen q Hw Hq) as (b & Eb). exfalso. now apply (Hno b).
Qed.

Lemma files_exact lower out r hs : forall paths bodies d fs, holds_exactly d out fs ->
  Forall2 (fun h p => leads_to (h_name h) p) hs paths ->
  Forall2 (fun h c => r_file lower (h_name h) r = Some c) hs bodies ->
  NoDup (map fst fs ++ paths) ->
  (forall p q, In p (map fst fs ++ paths) -> In q (map fst fs ++ paths) -> ~ on_the_way p q) ->
  exists d', unpack_files lower out r hs d = (d', Done) /\ holds_exactly d' out (fs ++ combine paths bodies).
Proof.
  induction hs as [|h hs IH]; intros paths bodies d fs Hx Hp Hb Hnd Hap.
  - inversion Hp; subst. exists d. cbn. rewrite app_nil_r. auto.
  - inversion Hp as [|? p ? paths' Hl Hp']; subst. inversion Hb as [|? c ? bodies' Hc Hb']; subst.
    cbn [unpack_files combine].
    destruct (file_exact lower out r h d fs p c Hx Hl) as (d1 & E & Hx1); [| |exact Hc|].
    + apply NoDup_remove_2 in Hnd. intro Hin. apply Hnd, in_or_app. now left.
    + intros q Hq. split; apply Hap; try (apply in_or_app; now left); apply in_or_app; right; now left.
    + rewrite E. destruct (IH paths' bodies' d1 (fs ++ [(p, c)]) Hx1 Hp' Hb') as (d' & E' & Hx').
      * rewrite map_app, <- app_assoc. exact Hnd.
      * rewrite map_app, <- app_assoc. exact Hap.
      * exists d'. split; [exact E'|]. now rewrite <- app_assoc in Hx'.
Qed.

(** ** The properties *)

Definition pinv (d : disk) (out : path) (pv tx : option bytes) : Prop :=
  d out = Some Dir /\
  d (out ++ [s_pboprefix]) = option_map File pv /\
  d (out ++ [s_properties_txt]) = option_map File tx /\
  forall q, q <> [] -> q <> [s_pboprefix] -> q <> [s_properties_txt] -> d (out ++ q) = None.

Lemma names_differ : s_pboprefix <> s_properties_txt.
Proof. vm_compute. discriminate. Qed.

Lemma put_below out p n d q : q <> p -> put (out ++ p) n d (out ++ q) = d (out ++ q).
Proof. intro H. apply put_other. intro E. apply app_inv_head in E. congruence. Qed.
Lemma put_below_out out p n d : p <> [] -> put (out ++ p) n d out = d out.
Proof. intro H. apply put_other. intro E. rewrite <- (app_nil_r out) in E at 2. now apply app_inv_head in E. Qed.

Lemma pinv_prefix d out pv tx v : pinv d out pv tx ->
  pinv (put (out ++ [s_pboprefix]) (File v) (put (out ++ [s_pboprefix]) (File []) d)) out (Some v) tx.
Proof.
  intros (H0 & H1 & H2 & H3). pose proof names_differ as Hd. split; [|split; [|split]].
  - now rewrite !put_below_out.
  - now rewrite put_same.
  - rewrite !put_below by congruence. exact H2.
  - intros q Hq Hq1 Hq2. rewrite !put_below by assumption. now apply H3.
Qed.

Lemma pinv_text d out pv tx t : pinv d out pv tx ->
  pinv (put (out ++ [s_properties_txt]) (File t) d) out pv (Some t).
Proof.
  intros (H0 & H1 & H2 & H3). pose proof names_differ as Hd. split; [|split; [|split]].
  - now rewrite put_below_out.
  - rewrite put_below by congruence. exact H1.
  - now rewrite put_same.
  - intros q Hq Hq1 Hq2. rewrite put_below by assumption. now apply H3.
Qed.

Definition other (kv : bytes * bytes) : bool := negb (eqb_bytes (fst kv) (bs "prefix")).

Lemma props_exact out props : forall d pv tx, NoDup (map fst props) -> pinv d out pv tx ->
  exists d' pv' tx', unpack_props out props d = (d', Done) /\ pinv d' out pv' tx' /\
    (forall v, pv' = Some v <-> In (bs "prefix", v) props \/ (~ In (bs "prefix") (map fst props) /\ pv = Some v)) /\
    tx' = match filter other props with
          | [] => tx
          | _ => Some (match tx with Some t => t | None => [] end ++ property_text props)
          end.
Proof.
  induction props as [|[k v] r IH]; intros d pv tx Hnd Hi.
  - exists d, pv, tx. split; [reflexivity|]. split; [exact Hi|]. split; [|reflexivity]. intro v. cbn. tauto.
  - cbn [map fst] in Hnd. inversion Hnd as [|? ? Hk Hr]; subst. cbn [unpack_props].
    pose proof Hi as (_ & H1 & H2 & _).
    change s_prefix with (bs "prefix"). destruct (eqb_bytes k (bs "prefix")) eqn:Ek.
    + pose proof Ek as Ek'. apply eqb_bytes_spec in Ek'. subst k.
      assert (Ec : create d (out ++ [s_pboprefix]) = Some (put (out ++ [s_pboprefix]) (File []) d)).
      { unfold create. rewrite H1. now destruct pv. }
      rewrite Ec. destruct (IH _ _ _ Hr (pinv_prefix _ _ _ _ v Hi)) as (d' & pv' & tx' & E & Hi' & Hp & Ht).
      exists d', pv', tx'. split; [exact E|]. split; [exact Hi'|]. split.
      * intro v'. rewrite Hp. cbn [map fst In]. split.
        -- intros [H|[_ [= <-]]]; [left; now right|left; now left].
        -- intros [[E2|H]|[H _]].
           ++ assert (v = v') by congruence. right. split; [exact Hk|congruence].
           ++ now left.
           ++ exfalso. apply H. now left.
      * rewrite Ht. assert (Ef : filter other ((bs "prefix", v) :: r) = filter other r) by reflexivity.
        assert (Et : property_text ((bs "prefix", v) :: r) = property_text r) by reflexivity.
        rewrite Ef, Et. reflexivity.
    + pose proof Ek as Ek'. apply eqb_bytes_false in Ek'.
      set (line := k ++ [61] ++ v ++ [10]).
      set (t := match tx with Some t => t | None => [] end ++ line).
      assert (Ea : append_to d (out ++ [s_properties_txt]) line = Some (put (out ++ [s_properties_txt]) (File t) d)).
      { unfold append_to. rewrite H2. unfold t. destruct tx; reflexivity. }
      fold line. rewrite Ea.
      destruct (IH _ _ _ Hr (pinv_text _ _ _ _ t Hi)) as (d' & pv' & tx' & E & Hi' & Hp & Ht).
      exists d', pv', tx'. split; [exact E|]. split; [exact Hi'|]. split.
      * intro v'. rewrite Hp. cbn [map fst In]. split.
        -- intros [H|[H ->]]; [left; now right|right]. split; [|reflexivity]. intros [E2|H']; [congruence|contradiction].
        -- intros [[E2|H]|[H ->]]; [congruence|now left|right]. split; [|reflexivity]. intro H'. apply H. now right.
      * rewrite Ht.
        assert (Ef : filter other ((k, v) :: r) = (k, v) :: filter other r).
        { cbn [filter]. unfold other at 1. cbn [fst]. now rewrite Ek. }
        assert (Et : property_text ((k, v) :: r) = line ++ property_text r).
        { unfold property_text.
          change (filter (fun kv : text * text => negb (eqb_bytes (fst kv) (bs "prefix"))) ((k, v) :: r))
            with (filter other ((k, v) :: r)). rewrite Ef. cbn [map concat fst snd]. reflexivity. }
        rewrite Ef, Et. destruct (filter other r) as [|x xs] eqn:E3.
        -- assert (Er : property_text r = []).
           { unfold property_text. change (fun kv : text * text => negb (eqb_bytes (fst kv) (bs "prefix"))) with other.
             now rewrite E3. }
           unfold t. rewrite Er, app_nil_r. reflexivity.
        -- unfold t. now rewrite <- app_assoc.
Qed.

Definition prop_files (pv tx : option bytes) : list (path * bytes) :=
  match pv with Some v => [([s_pboprefix], v)] | None => [] end
  ++ match tx with Some t => [([s_properties_txt], t)] | None => [] end.

Lemma pinv_exact d out pv tx : pinv d out pv tx -> holds_exactly d out (prop_files pv tx).
Proof.
  intros (H0 & H1 & H2 & H3). split; [exact H0|]. intros q Hq. split.
  - intro c. unfold prop_files. destruct (eqb_path q [s_pboprefix]) eqn:E1.
    { apply eqb_path_spec in E1. subst q. rewrite H1, in_app_iff. split.
      - intro H. left. destruct pv; [|discriminate]. injection H as ->. now left.
      - intros [H|H].
        + destruct pv; [|destruct H]. destruct H as [[= ->]|[]]. reflexivity.
        + exfalso. destruct tx; [|destruct H]. destruct H as [H|[]].
          apply names_differ. apply (f_equal (fun x => hd [] (fst x))) in H. symmetry. exact H. }
    apply eqb_path_false in E1. destruct (eqb_path q [s_properties_txt]) eqn:E2.
    { apply eqb_path_spec in E2. subst q. rewrite H2, in_app_iff. split.
      - intro H. right. destruct tx; [|discriminate]. injection H as ->. now left.
      - intros [H|H].
        + exfalso. destruct pv; [|destruct H]. destruct H as [H|[]].
          apply names_differ. apply (f_equal (fun x => hd [] (fst x))) in H. exact H.
        + destruct tx; [|destruct H]. destruct H as [[= ->]|[]]. reflexivity. }
    apply eqb_path_false in E2. rewrite (H3 q Hq E1 E2), in_app_iff. split; [discriminate|].
    intros [H|H]; exfalso.
    + destruct pv; [|destruct H]. destruct H as [H|[]]. apply (f_equal fst) in H. exact (E1 (eq_sym H)).
    + destruct tx; [|destruct H]. destruct H as [H|[]]. apply (f_equal fst) in H. exact (E2 (eq_sym H)).
  - split.
    + intro Hd. exfalso. destruct (eqb_path q [s_pboprefix]) eqn:E1.
      { apply eqb_path_spec in E1. subst q. rewrite H1 in Hd. now destruct pv. }
      apply eqb_path_false in E1. destruct (eqb_path q [s_properties_txt]) eqn:E2.
      { apply eqb_path_spec in E2. subst q. rewrite H2 in Hd. now destruct tx. }
      apply eqb_path_false in E2. rewrite (H3 q Hq E1 E2) in Hd. discriminate.
    + intros (p & c & Hin & x & t & E). exfalso.
      assert (Hl : length p = 1%nat).
      { unfold prop_files in Hin. apply in_app_or in Hin as [H|H].
        - destruct pv; [|destruct H]. destruct H as [H|[]]. apply (f_equal fst) in H. cbn in H. now rewrite <- H.
        - destruct tx; [|destruct H]. destruct H as [H|[]]. apply (f_equal fst) in H. cbn in H. now rewrite <- H. }
      rewrite E, app_length in Hl. cbn in Hl. destruct q; [congruence|]. cbn in Hl. lia.
Qed.

Lemma prop_files_spec props pv tx :
  (forall v, pv = Some v <-> In (bs "prefix", v) props) ->
  tx = match filter other props with [] => None | _ => Some (property_text props) end ->
  property_files props (prop_files pv tx).
Proof.
  intros Hp Ht p c. unfold prop_files. rewrite in_app_iff.
  split.
  - intros [H|H].
    + left. destruct pv as [v|]; [|destruct H]. destruct H as [H|[]].
      assert (p = [s_pboprefix] /\ c = v) as [-> ->] by (split; congruence). split; [reflexivity|]. now apply Hp.
    + right. destruct tx as [t|]; [|destruct H]. destruct H as [H|[]].
      assert (p = [s_properties_txt] /\ c = t) as [-> ->] by (split; congruence). split; [reflexivity|].
      destruct (filter other props) as [|[k v] l] eqn:E; [discriminate|]. injection Ht as ->.
      split; [reflexivity|]. assert (Hin : In (k, v) (filter other props)) by (rewrite E; now left).
      apply filter_In in Hin as [Hin Hk]. exists k, v. split; [exact Hin|].
      unfold other in Hk. apply negb_true_iff, eqb_bytes_false in Hk. exact Hk.
  - intros [[-> H]|(-> & -> & k & v & Hin & Hk)].
    + left. apply Hp in H. subst pv. now left.
    + right. assert (Hf : In (k, v) (filter other props)).
      { apply filter_In. split; [exact Hin|]. unfold other. apply negb_true_iff, eqb_bytes_false. exact Hk. }
      subst tx. destruct (filter other props); [destruct Hf|]. now left.
Qed.

(** ** The whole command *)
From Verif Require Import Pbo.Proofs.

Lemma read_props_nodup fuel : forall props cnt l p c l', NoDup (map fst props) ->
  read_props fuel props cnt l = Ok (p, c, l') -> NoDup (map fst p).
Proof.
  induction fuel as [|f IH]; intros props cnt l p c l' Hn H; [discriminate|]. cbn [read_props] in H.
  destruct (read_cstring l) as [key l1]. destruct key as [|k ks]; [injection H as <- _ _; exact Hn|].
  destruct (read_cstring l1) as [v l2]. eapply IH; [|exact H]. now apply im_insert_nodup.
Qed.

Lemma read_table_nodup fuel : forall props vers heads blob l p v hs b l', NoDup (map fst props) ->
  read_table fuel props vers heads blob l = Ok (p, v, hs, b, l') -> NoDup (map fst p).
Proof.
  induction fuel as [|f IH]; intros props vers heads blob l p v hs b l' Hn H; [discriminate|].
  cbn [read_table] in H. destruct (read_header l) as [[[h cnt] l1]|e]; [|discriminate]. cbn [bind] in H.
  assert (K : match h_name h with
      | [] => Ok (props, vers, heads, blob + cnt, l1)
      | _ :: _ => read_table f props vers (heads ++ [h]) (blob + cnt) l1
      end = Ok (p, v, hs, b, l') -> NoDup (map fst p)).
  { destruct (h_name h); [intros [= <- _ _ _ _]; exact Hn|]. now apply IH. }
  destruct (h_mime h); try (now apply K). clear K.
  destruct (read_props (S (length l1)) props (blob + cnt) l1) as [[[p1 b2] l2]|e] eqn:Ep; [|discriminate].
  cbn [bind] in H. eapply IH; [|exact H]. eapply read_props_nodup; eauto.
Qed.

Lemma read_nodup input r : read input = Ok r -> NoDup (map fst (r_props r)).
Proof.
  unfold read. intro H. destruct (read_table (S (length input)) [] None [] 0 input) as [[[[[p v] hs] b] l]|e] eqn:Et; [|discriminate].
  cbn [bind] in H. destruct (of_opt _) as [[ck l3]|e]; [|discriminate]. cbn [bind] in H.
  destruct l3; [|discriminate]. injection H as <-. cbn. eapply read_table_nodup; [|exact Et]. constructor.
Qed.

Lemma in_prefix_app (a b p : path) : on_the_way a p -> on_the_way a (p ++ b).
Proof. intros (x & r & ->). exists x, (r ++ b). now rewrite <- app_assoc. Qed.

Lemma unpack_exact lower input r out d paths bodies : read input = Ok r -> tree d -> can_be_made d out ->
  Forall2 (fun h p => leads_to (h_name h) p) (r_headers r) paths ->
  Forall2 (fun h c => r_file lower (h_name h) r = Some c) (r_headers r) bodies ->
  apart ([bs "$PBOPREFIX$"] :: [bs "properties.txt"] :: paths) ->
  exists d' pf, unpack lower input out d = (d', Done) /\ property_files (r_props r) pf /\
    holds_exactly d' out (pf ++ combine paths bodies).
Proof.
  intros Hr Ht (Hne & Hdd & Hno & Hway) Hp Hb [Hnd Hap]. unfold unpack. rewrite Hr.
  assert (Ex : exists_at d out = false).
  { unfold exists_at. destruct out; [congruence|]. now rewrite Hno. }
  rewrite Ex. destruct (make_dirs_ok out d [] Hdd) as (d1 & E & Hdir & Hoth).
  { intros a b x Ha Eab Hf. cbn in Hf. destruct b as [|y b].
    - rewrite app_nil_r in Eab. subst a. congruence.
    - apply (Hway a x); [|exact Hf]. now exists y, b. }
  rewrite E. cbn [app] in *.
  assert (Hi : pinv d1 out None None).
  { assert (Hnone : forall q, q <> [] -> d1 (out ++ q) = None).
    { intros q Hq. rewrite Hoth.
      - destruct (d (out ++ q)) as [n|] eqn:Ed; [|reflexivity]. exfalso.
        destruct (Ht out q Hq) as [?|?]; congruence.
      - intros a b _ Eab Ea. apply Hq. rewrite Eab, <- app_assoc in Ea. rewrite <- (app_nil_r a) in Ea at 2.
        apply app_inv_head in Ea. now apply app_eq_nil in Ea. }
    split; [apply (Hdir out []); [exact Hne|now rewrite app_nil_r]|]. split; [now apply Hnone|]. split; [now apply Hnone|].
    intros q Hq _ _. now apply Hnone. }
  destruct (props_exact out (r_props r) d1 None None (read_nodup _ _ Hr) Hi) as (d2 & pv & tx & E2 & Hi2 & Hpv & Htx).
  rewrite E2. pose proof (pinv_exact _ _ _ _ Hi2) as Hx.
  assert (Hsub : incl (map fst (prop_files pv tx)) [[bs "$PBOPREFIX$"]; [bs "properties.txt"]]).
  { intros p Hin. unfold prop_files in Hin. rewrite map_app in Hin. apply in_app_or in Hin as [H|H].
    - destruct pv; [|destruct H]. destruct H as [<-|[]]. now left.
    - destruct tx; [|destruct H]. destruct H as [<-|[]]. right. now left. }
  assert (Hsub2 : incl (map fst (prop_files pv tx) ++ paths) ([bs "$PBOPREFIX$"] :: [bs "properties.txt"] :: paths)).
  { intros p Hin. apply in_app_or in Hin as [H|H]; [|right; now right].
    apply Hsub in H as [<-|[<-|[]]]; [now left|right; now left]. }
  destruct (files_exact lower out r (r_headers r) paths bodies d2 (prop_files pv tx) Hx Hp Hb) as (d' & E3 & Hx').
  - clear Htx Hpv. inversion Hnd as [|? ? Hn1 Hnd1]; subst. inversion Hnd1 as [|? ? Hn2 Hnd2]; subst.
    unfold prop_files. destruct pv; destruct tx; cbn [app map fst].
    + exact Hnd.
    + constructor; [|exact Hnd2]. intro H. apply Hn1. now right.
    + exact Hnd1.
    + exact Hnd2.
  - intros p q H1 H2. apply Hap; now apply Hsub2.
  - exists d', (prop_files pv tx). split; [exact E3|]. split; [|exact Hx'].
    apply prop_files_spec; [|exact Htx]. intro v. rewrite Hpv. split; [intros [?|[_ ?]]; [assumption|discriminate]|auto].
Qed.
