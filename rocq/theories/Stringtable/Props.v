(** C41, C42, C55. *)
From Coq Require Import String.
From Verif Require Import Base.Tactics Base.Bytes Base.Ascii Base.Sort Stringtable.Model Stringtable.Spec.
Local Open Scope N_scope.
Local Open Scope list_scope.

(** Induction over packages. *)
Section Ind.
  Context (P : package -> Prop) (H : forall n k c, Forall P c -> P (Package n k c)).
  Fixpoint package_ind' (p : package) : P p :=
    let '(Package n k c) := p in
    H n k c ((fix go (c : list package) : Forall P c := match c with [] => Forall_nil P | q :: c => Forall_cons q (package_ind' q) (go c) end) c).
End Ind.

(** ** C41 *)
Lemma sort_package_reordered : forall p, reordered p (sort_package p).
Proof.
  induction p as [n k c IH] using package_ind'. cbn [sort_package]. constructor; [symmetry; apply sort_by_perm|].
  induction IH; constructor; auto.
Qed.
Lemma sort_package_order : forall p, keys_in_order (sort_package p).
Proof.
  induction p as [n k c IH] using package_ind'. cbn [sort_package]. constructor; [apply (sort_by_sorted id)|].
  induction IH; constructor; auto.
Qed.
Lemma sort_package_name : forall p, name (sort_package p) = name p.
Proof. now intros []. Qed.
Lemma sort_package_id : forall p, keys_in_order p -> sort_package p = p.
Proof.
  induction p as [n k c IH] using package_ind'. intros H. inversion H as [? ? ? Hs Hc]; subst. cbn [sort_package]. rewrite (sort_by_id id) by exact Hs. f_equal.
  clear H Hs. induction IH; cbn [map]; [auto|]. inversion Hc; subst. f_equal; auto.
Qed.
Lemma sort_names_sorted : forall l, StronglySorted (key_le name) l -> StronglySorted (key_le name) (map sort_package l).
Proof.
  induction 1; cbn [map]; constructor; auto. rewrite Forall_map. eapply Forall_impl; [|eassumption]. intros b. unfold key_le. now rewrite !sort_package_name.
Qed.

(** Sorting reorders packages, and keys within each package and container; nothing is lost, added or changed. *)
Theorem C41_only_reorders : forall p, p_name (sort p) = p_name p /\
  exists l, Permutation (packages p) l /\ Forall2 reordered l (packages (sort p)).
Proof.
  intros p. split; [reflexivity|]. exists (sort_by name (packages p)). split; [symmetry; apply sort_by_perm|].
  unfold sort; cbn [packages]. induction (sort_by name (packages p)); cbn [map]; constructor; auto. apply sort_package_reordered.
Qed.
(** Afterwards packages and keys are in order. *)
Theorem C41_in_order : forall p,
  StronglySorted (fun a b => cmp_bytes (name a) (name b) <> Gt) (packages (sort p)) /\ Forall keys_in_order (packages (sort p)).
Proof.
  intros p. unfold sort; cbn [packages]. split; [apply sort_names_sorted, (sort_by_sorted name)|]. rewrite Forall_map. apply Forall_forall. intros. apply sort_package_order.
Qed.
Lemma map_id_on : forall {A} (f : A -> A) l, Forall (fun x => f x = x) l -> map f l = l.
Proof. induction 1; cbn [map]; congruence. Qed.
(** What is in order already stays as it is; so sorting again changes nothing. *)
Theorem C41_sorted_stays : forall p,
  StronglySorted (fun a b => cmp_bytes (name a) (name b) <> Gt) (packages p) -> Forall keys_in_order (packages p) -> sort p = p.
Proof.
  intros [n l] Hs Hk. unfold sort. cbn [packages p_name] in *. rewrite (sort_by_id name) by exact Hs. f_equal. apply map_id_on.
  eapply Forall_impl; [|exact Hk]. intros a. apply sort_package_id.
Qed.
Theorem C41_idempotent : forall p, sort (sort p) = sort p.
Proof. intros p. destruct (C41_in_order p). now apply C41_sorted_stays. Qed.
(** Keys with the same name keep their order. *)
Lemma insert_filter : forall {A} (key : A -> bytes) x l i, filter (fun y => eqb_bytes (key y) i) (insert_by key x l) = filter (fun y => eqb_bytes (key y) i) (x :: l).
Proof.
  intros A key x l i. induction l as [|y l IH]; cbn [insert_by]; [reflexivity|]. destruct (key_gtb key x y) eqn:E; [|reflexivity].
  cbn [filter]. rewrite IH. cbn [filter]. destruct (eqb_bytes (key x) i) eqn:X, (eqb_bytes (key y) i) eqn:Y; auto.
  apply eqb_bytes_spec in X, Y. unfold key_gtb in E. rewrite X, Y, cmp_bytes_refl in E. discriminate.
Qed.
Theorem C41_stable : forall n k c i, filter (fun y => eqb_bytes (id y) i) (keys (sort_package (Package n k c))) = filter (fun y => eqb_bytes (id y) i) k.
Proof. intros n k c i. cbn [sort_package keys]. induction k as [|x k IH]; cbn [sort_by]; [reflexivity|]. rewrite insert_filter. cbn [filter]. now rewrite IH. Qed.
(** Containers are not put in order, though the command's help says so. *)
Definition empty_key (n : bytes) : key := Key n None None None None None None None None None None None None None None None None None None None None None None None None.
Theorem C41_containers_refuted : exists p c, packages (sort p) = [c] /\ ~ StronglySorted (fun a b => cmp_bytes (name a) (name b) <> Gt) (containers c).
Proof.
  exists (Project (bs "P") [Package (bs "p") [] [Package (bs "b") [] []; Package (bs "a") [] []]]). eexists. split; [reflexivity|].
  cbn [containers]. intros H. inversion H as [|? ? _ F]; subst. inversion F as [|? ? G _]; subst. apply G. reflexivity.
Qed.

(** ** C42 *)
Lemma key_in_all : forall k p, key_in k p <-> In k (all_keys p).
Proof.
  intros k. induction p as [n ks c IH] using package_ind'. cbn [all_keys]. rewrite in_app_iff, in_flat_map. rewrite Forall_forall in IH. split.
  - intros H. inversion H; subst; [auto|]. right. exists p. split; [auto|]. now apply IH.
  - intros [H|(p & Hp & H)]; [now constructor|]. apply (key_inside k _ _ _ p Hp). now apply IH.
Qed.
Definition at_ (l : option language) (t : totals) : N := match l with Some l => of_language t l | None => total t end.
Definition counts (l : option language) (k : key) : bool := match l with Some l => has l k | None => true end.
Lemma when_other : forall {A} (g : totals -> N) (o : option A) i t, (forall t, g (i t) = g t) -> g (when_some o i t) = g t.
Proof. intros A g o i t H. unfold when_some. destruct (is_some o); auto. Qed.
Lemma when_this : forall {A} (g : totals -> N) (o : option A) i t, (forall t, g (i t) = add32 (g t) 1) -> g t < 2 ^ 32 -> g (when_some o i t) = add32 (g t) (if is_some o then 1 else 0).
Proof. intros A g o i t H L. unfold when_some. destruct (is_some o); auto. unfold add32. rewrite N.add_0_r. symmetry. now apply N.mod_small. Qed.
Definition small (t : totals) : Prop := forall l, at_ l t < 2 ^ 32.
Lemma count_key_at : forall l t k, small t -> at_ l (count_key t k) = add32 (at_ l t) (if counts l k then 1 else 0).
Proof.
  intros l t k L. specialize (L l). unfold count_key, steps_of. cbn [fold_left].
  Ltac other g := repeat (rewrite (when_other g) by reflexivity).
destruct l as [l|]; [destruct l|]; cbn [at_ of_language counts] in *; unfold has, text;
    match goal with |- ?g (when_some _ _ _) = _ => other g end.
  25: reflexivity.
  all: match goal with |- ?g (when_some ?o _ ?t) = add32 ?x _ =>
    let H := fresh in assert (H : g t = x) by (other g; reflexivity); rewrite (when_this g) by (reflexivity || (rewrite H; exact L)); rewrite H end; reflexivity.
Qed.
Lemma merge_at : forall l t u, at_ l (merge t u) = add32 (at_ l t) (at_ l u).
Proof. now intros [[]|] t u. Qed.
Lemma add32_small : forall a b, add32 a b < 2 ^ 32.
Proof. intros. apply N.mod_lt. discriminate. Qed.
Lemma count_key_small : forall t k, small t -> small (count_key t k).
Proof. intros t k H l. rewrite count_key_at by auto. apply add32_small. Qed.
Lemma merge_small : forall t u, small (merge t u).
Proof. intros t u l. rewrite merge_at. apply add32_small. Qed.
Lemma none_small : small no_totals.
Proof. now intros [[]|]. Qed.
Lemma add32_mod : forall a b c, add32 (a mod 2 ^ 32) (b mod 2 ^ 32) = c mod 2 ^ 32 <-> (a + b) mod 2 ^ 32 = c mod 2 ^ 32.
Proof. intros. unfold add32. now rewrite <- N.add_mod by discriminate. Qed.
Lemma how_many_app : forall {A} (f : A -> bool) a b, how_many f (a ++ b) = how_many f a + how_many f b.
Proof. intros. unfold how_many. rewrite filter_app, app_length. lia. Qed.
Lemma how_many_cons : forall {A} (f : A -> bool) x b, how_many f (x :: b) = (if f x then 1 else 0) + how_many f b.
Proof. intros. unfold how_many. cbn [filter]. destruct (f x); cbn [length]; lia. Qed.
Lemma count_keys_at : forall l ks t c, small t -> at_ l t = c mod 2 ^ 32 -> at_ l (fold_left count_key ks t) = (c + how_many (counts l) ks) mod 2 ^ 32.
Proof.
  intros l. induction ks as [|k ks IH]; intros t c S H; cbn [fold_left].
  - rewrite H. f_equal. unfold how_many. cbn. lia.
  - rewrite (IH _ (c + (if counts l k then 1 else 0))).
    + rewrite how_many_cons. f_equal. lia.
    + now apply count_key_small.
    + rewrite count_key_at, H by auto. unfold add32. rewrite N.add_mod_idemp_l by discriminate. reflexivity.
Qed.
Lemma small_keys : forall ks t, small t -> small (fold_left count_key ks t).
Proof. induction ks; intros; cbn [fold_left]; auto. apply IHks. now apply count_key_small. Qed.
Lemma package_totals_at : forall l p, at_ l (package_totals p) = how_many (counts l) (all_keys p) mod 2 ^ 32.
Proof.
  intros l. induction p as [n ks c IH] using package_ind'. cbn [package_totals all_keys]. rewrite how_many_app.
  pose proof (count_keys_at l ks no_totals 0 none_small ltac:(now destruct l as [[]|])) as K. rewrite N.add_0_l in K. revert K.
  generalize (fold_left count_key ks no_totals) as t. generalize (how_many (counts l) ks) as m. induction IH as [|p c Hp _ IH]; intros m t K; cbn [fold_left flat_map].
  - rewrite K. f_equal. unfold how_many. cbn. lia.
  - rewrite (IH (m + how_many (counts l) (all_keys p))).
    + rewrite how_many_app. f_equal. lia.
    + rewrite merge_at, Hp, K. unfold add32. now rewrite <- N.add_mod by discriminate.
Qed.
Lemma how_many_le : forall {A} (f g : A -> bool) l, (forall x, f x = true -> g x = true) -> how_many f l <= how_many g l.
Proof. intros A f g l H. induction l as [|x l IH]; [reflexivity|]. rewrite !how_many_cons. specialize (H x). destruct (f x), (g x); try lia; now specialize (H eq_refl). Qed.
Lemma how_many_all : forall {A} (l : list A), how_many (fun _ => true) l = N.of_nat (length l).
Proof. intros. unfold how_many. f_equal. f_equal. induction l; cbn [filter]; congruence. Qed.

(** The totals count all keys, in containers too, and for each language those that have it; exactly, up to [2^32] keys. *)
Theorem C42_counts : forall p, N.of_nat (length (all_keys p)) < 2 ^ 32 ->
  total (package_totals p) = N.of_nat (length (all_keys p)) /\
  (forall l, of_language (package_totals p) l = how_many (has l) (all_keys p)) /\
  (forall l, of_language (package_totals p) l <= total (package_totals p)) /\
  forall l, of_language (package_totals p) l = total (package_totals p) <-> forall k, key_in k p -> has l k = true.
Proof.
  intros p S. assert (T : total (package_totals p) = N.of_nat (length (all_keys p))).
  { change (at_ None (package_totals p) = N.of_nat (length (all_keys p))). rewrite package_totals_at. rewrite <- how_many_all in *. now apply N.mod_small. }
  assert (O : forall l, of_language (package_totals p) l = how_many (has l) (all_keys p)).
  { intros l. change (at_ (Some l) (package_totals p) = how_many (has l) (all_keys p)). rewrite package_totals_at. apply N.mod_small.
    eapply N.le_lt_trans; [|exact S]. rewrite <- how_many_all. apply (how_many_le (has l)). auto. }
  split; [exact T|]. split; [exact O|]. split; intros l.
  - rewrite O, T, <- how_many_all. apply how_many_le. auto.
  - rewrite O, T, <- how_many_all. clear. setoid_rewrite key_in_all. induction (all_keys p) as [|k ks IH]; [split; [intros _ k []|reflexivity]|].
    rewrite !how_many_cons. assert (how_many (has l) ks <= how_many (fun _ => true) ks) by (apply how_many_le; auto). split.
    + intros H1. destruct (has l k) eqn:E; [|lia]. assert (H2 : how_many (has l) ks = how_many (fun _ => true) ks) by lia. intros k' [<-|Hk]; [auto|]. now apply IH.
    + intros H1. rewrite (H1 k (or_introl eq_refl)). f_equal. apply IH. intros k' Hk. apply H1. now right.
Qed.

(** ** The report *)
Lemma same_language_spec : forall a b, same_language a b = true <-> a = b.
Proof. intros a b. split; [destruct a, b; intros H; try discriminate H; reflexivity|intros <-; now destruct a]. Qed.
Lemma languages_all : forall l, In l languages.
Proof. intros l. unfold languages. destruct l; cbn [In]; tauto. Qed.
Lemma languages_nodup : NoDup languages.
Proof.
  assert (K : forall l : list language, (fix go (l : list language) := match l with [] => true | x :: r => negb (existsb (same_language x) r) && go r end) l = true -> NoDup l).
  { induction l as [|x r IH]; intros H; constructor.
    - intros Q. apply andb_true_iff in H as [H _]. apply negb_true_iff in H. assert (existsb (same_language x) r = true); [|congruence]. apply existsb_exists. exists x. split; [auto|]. now apply same_language_spec.
    - apply IH. now apply andb_true_iff in H as [_ H]. }
  apply K. reflexivity.
Qed.
Lemma push_missing_at : forall folder t ls m l, NoDup ls ->
  fold_left (push_missing folder t) ls m l = m l ++ (if existsb (same_language l) ls then if of_language t l =? total t then [] else [folder] else []).
Proof.
  intros folder t. induction ls as [|x ls IH]; intros m l H; cbn [fold_left existsb]; [now rewrite app_nil_r|].
  inversion H as [|? ? Hx Hn]; subst. rewrite IH by auto. unfold push_missing at 1.
  destruct (same_language l x) eqn:E; cbn [orb].
  - apply same_language_spec in E. subst x. assert (existsb (same_language l) ls = false) as ->.
    { apply not_true_is_false. rewrite existsb_exists. intros (y & Hy & Q). apply same_language_spec in Q. subst y. auto. }
    destruct (of_language t l =? total t); rewrite !app_nil_r; [reflexivity|]. assert (same_language l l = true) as -> by now apply same_language_spec. reflexivity.
  - f_equal. destruct (of_language t x =? total t); [reflexivity|]. destruct (same_language x l) eqn:F; [|reflexivity]. apply same_language_spec in F. subst. now rewrite (proj2 (same_language_spec l l) eq_refl) in E.
Qed.
Lemma cover_flat : forall addons s, fold_left cover_addon addons s = fold_left (fun s a => cover_package (fst a) s (snd a)) (report_packages addons) s.
Proof.
  induction addons as [|[f p] addons IH]; intros s; cbn [fold_left report_packages flat_map]; [reflexivity|].
  rewrite fold_left_app, IH. unfold report_packages. f_equal. unfold cover_addon. cbn [fst snd]. revert s. induction (packages p) as [|q l IHl]; intros s; cbn [fold_left map]; auto.
Qed.
Definition cover_all (ps : list (bytes * package)) (s : totals * missing_map) : totals * missing_map :=
  fold_left (fun s a => cover_package (fst a) s (snd a)) ps s.
Lemma cover_total : forall l ps s c, at_ l (fst s) = c mod 2 ^ 32 ->
  at_ l (fst (cover_all ps s)) = (c + how_many (counts l) (flat_map (fun a => all_keys (snd a)) ps)) mod 2 ^ 32.
Proof.
  intros l. induction ps as [|[f p] ps IH]; intros s c Ht; cbn [cover_all fold_left flat_map].
  - change (how_many (counts l) []) with 0. now rewrite N.add_0_r.
  - rewrite how_many_app, N.add_assoc. apply IH. unfold cover_package. cbn [fst snd]. rewrite merge_at, package_totals_at, Ht. unfold add32. now rewrite <- N.add_mod by discriminate.
Qed.
Definition gap (l : language) (a : bytes * package) : bool := negb (of_language (package_totals (snd a)) l =? total (package_totals (snd a))).
Lemma push_all : forall folder p l m, fold_left (push_missing folder (package_totals p)) languages m l = m l ++ (if gap l (folder, p) then [folder] else []).
Proof.
  intros folder p l m. unfold gap. cbn [snd]. generalize (package_totals p) as t. intros t. rewrite push_missing_at by apply languages_nodup. assert (existsb (same_language l) languages = true) as ->.
  { apply existsb_exists. exists l. split; [apply languages_all|now apply same_language_spec]. }
  now destruct (of_language t l =? total t).
Qed.
Lemma cover_missing : forall l ps s, snd (cover_all ps s) l = snd s l ++ map fst (filter (gap l) ps).
Proof.
  intros l. induction ps as [|[f p] ps IH]; intros s.
  - cbn. now rewrite app_nil_r.
  - change (cover_all ((f, p) :: ps) s) with (cover_all ps (cover_package f s p)). rewrite IH. unfold cover_package. cbn [snd]. rewrite push_all, <- app_assoc. f_equal.
    cbn [filter]. destruct (gap l (f, p)); reflexivity.
Qed.
Lemma how_many_part : forall (f : key -> bool) ps (a : bytes * package), In a ps -> how_many f (all_keys (snd a)) <= how_many f (flat_map (fun a => all_keys (snd a)) ps).
Proof. intros f ps a H. apply in_split in H as (x & y & ->). rewrite flat_map_app. cbn [flat_map]. rewrite !how_many_app. lia. Qed.

(** The report has a row for each language some key has: the number of keys with it, the number of keys, and for each package in which
    some key lacks it the folder of its addon. *)
Theorem C42_coverage : forall addons, N.of_nat (length (report_keys addons)) < 2 ^ 32 ->
  coverage addons = flat_map (fun l =>
      if how_many (has l) (report_keys addons) =? 0 then []
      else [(l, how_many (has l) (report_keys addons), N.of_nat (length (report_keys addons)),
             map fst (filter (fun a => existsb (has_not l) (all_keys (snd a))) (report_packages addons)))]) languages.
Proof.
  intros addons S. unfold coverage, cover. rewrite cover_flat. fold (cover_all (report_packages addons) (no_totals, fun _ => [])).
  pose proof (fun l => cover_total l (report_packages addons) (no_totals, fun _ => []) 0 ltac:(now destruct l as [[]|])) as H1.
  pose proof (fun l => cover_missing l (report_packages addons) (no_totals, fun _ => [])) as H2.
  destruct (cover_all _ _) as [g m]. cbn [fst snd] in H1, H2. fold (report_keys addons) in H1.
  assert (T : total g = N.of_nat (length (report_keys addons))).
  { change (at_ None g = N.of_nat (length (report_keys addons))). rewrite H1, N.add_0_l. cbn [counts]. rewrite <- how_many_all in *. now apply N.mod_small. }
  assert (O : forall l, of_language g l = how_many (has l) (report_keys addons)).
  { intros l. change (at_ (Some l) g = how_many (has l) (report_keys addons)). rewrite H1, N.add_0_l. apply N.mod_small.
    eapply N.le_lt_trans; [|exact S]. rewrite <- how_many_all. apply (how_many_le (has l)). auto. }
  rewrite T. apply flat_map_ext. intros l. rewrite O. destruct (_ =? 0); [reflexivity|]. do 2 f_equal. rewrite H2. cbn [app]. f_equal. apply filter_ext_in. intros a Ha.
  destruct (C42_counts (snd a)) as (_ & _ & _ & Q).
  { eapply N.le_lt_trans; [|exact S]. rewrite <- !how_many_all. now apply how_many_part. }
  specialize (Q l). unfold gap. destruct (existsb (has_not l) (all_keys (snd a))) eqn:E.
  - apply negb_true_iff, N.eqb_neq. intros Z. apply existsb_exists in E as (k & Hk & E). unfold has_not in E. rewrite (proj1 Q Z k) in E by now apply key_in_all. discriminate.
  - apply negb_false_iff, N.eqb_eq, Q. intros k Hk. apply key_in_all in Hk. destruct (has l k) eqn:F; [auto|]. exfalso.
    assert (existsb (has_not l) (all_keys (snd a)) = true); [|congruence]. apply existsb_exists. exists k. unfold has_not. now rewrite F.
Qed.
(** So an addon is listed once for each of its packages that has a gap. *)
Definition english_key (n : bytes) : key := Key n None (Some n) None None None None None None None None None None None None None None None None None None None None None None.
Theorem C42_listed_twice_refuted : exists p, coverage [(bs "addons/main", p)] = [(English, 2, 4, [bs "addons/main"; bs "addons/main"])].
Proof.
  exists (Project (bs "P") [Package (bs "a") [english_key (bs "x"); empty_key (bs "y")] []; Package (bs "b") [] [Package (bs "c") [english_key (bs "z"); empty_key (bs "w")] []]]).
  vm_compute. reflexivity.
Qed.

(** ** C55 *)
Lemma starts_app : forall p s, starts p (p ++ s) = Some s.
Proof. induction p as [|a p IH]; intros s; cbn [app starts]; [reflexivity|]. now rewrite N.eqb_refl. Qed.
Lemma unescape_protect : forall s fuel, (length (protect s) < fuel)%nat -> unescape fuel (protect s) = Some s.
Proof.
  unfold protect, replace_byte. induction s as [|c s IH]; intros fuel H; cbn [flat_map] in *; (destruct fuel as [|fuel]; [lia|]); [reflexivity|].
  destruct (N.eqb_spec c 38) as [->|Hc].
  - rewrite app_length in H. change (length amp) with 5%nat in H. change (amp ++ ?x) with (38 :: bs "amp;" ++ x). cbn [unescape]. rewrite N.eqb_refl, starts_app.
    rewrite IH by lia. reflexivity.
  - cbn [app length unescape] in *. apply N.eqb_neq in Hc. rewrite Hc, IH by lia. reflexivity.
Qed.
(** What is in the file is what is kept, entities and all. *)
Lemma text_read_is : forall s, text_read s = Some s.
Proof. intros s. unfold text_read. apply unescape_protect. lia. Qed.

(** How each byte is written. *)
Definition written_byte (x : N) : bytes := if x =? 38 then [38] else if x =? 60 then bs "&amp;lt;" else if x =? 62 then bs "&gt;" else [x].
Lemma unprotect_skip : forall fuel c r, c <> 38 -> unprotect (S fuel) (c :: r) = c :: unprotect fuel r.
Proof. intros fuel c r H. cbn [unprotect]. change (bs "&amp;amp;") with (38 :: bs "amp;amp;"). cbn [starts]. destruct (N.eqb_spec 38 c); [congruence|reflexivity]. Qed.
Lemma escape2 : forall s, partial_escape (minimal_escape s) = flat_map (fun x => if x =? 38 then bs "&amp;amp;" else if x =? 60 then bs "&amp;lt;" else if x =? 62 then bs "&gt;" else [x]) s.
Proof.
  intros s. unfold partial_escape, minimal_escape. induction s as [|c s IH]; cbn [flat_map]; [reflexivity|]. rewrite flat_map_app, IH. f_equal.
  destruct (c =? 38) eqn:A; [reflexivity|]. destruct (c =? 60) eqn:B; [reflexivity|]. cbn [flat_map]. rewrite A, B, app_nil_r. reflexivity.
Qed.
Lemma unprotect_run : forall w r fuel, ~ In 38 w -> (length w <= fuel)%nat -> unprotect fuel (w ++ r) = w ++ unprotect (fuel - length w) r.
Proof.
  induction w as [|c w IH]; intros r fuel H L; cbn [app length] in *; [now rewrite Nat.sub_0_r|]. destruct fuel as [|fuel]; [lia|].
  rewrite unprotect_skip by (intros ->; apply H; now left). rewrite IH by (auto with datatypes || lia). reflexivity.
Qed.
Lemma unprotect_escape2 : forall s fuel, (length (partial_escape (minimal_escape s)) <= fuel)%nat -> unprotect fuel (partial_escape (minimal_escape s)) = flat_map written_byte s.
Proof.
  intros s. rewrite escape2. induction s as [|c s IH]; intros fuel H; cbn [flat_map] in *; [now destruct fuel|]. rewrite app_length in H. unfold written_byte at 1.
  assert (Q : forall w r f, w <> [] -> ~ In 38 w -> starts (bs "amp;amp;") (w ++ r) = None -> (S (length w) <= f)%nat -> unprotect f (38 :: w ++ r) = 38 :: w ++ unprotect (f - S (length w)) r).
  { intros w r f Hw Hn Hs L. destruct f as [|f]; [lia|]. cbn [unprotect]. change (bs "&amp;amp;") with (38 :: bs "amp;amp;"). cbn [starts]. rewrite N.eqb_refl, Hs. rewrite unprotect_run by (auto || lia). reflexivity. }
  destruct (N.eqb_spec c 38) as [->|A]; [|destruct (N.eqb_spec c 60) as [->|B]; [|destruct (N.eqb_spec c 62) as [->|C]]].
  - change (length (bs "&amp;amp;")) with 9%nat in H. destruct fuel as [|fuel]; [lia|]. change (bs "&amp;amp;" ++ ?x) with (38 :: bs "amp;amp;" ++ x). cbn [unprotect].
    change (38 :: bs "amp;amp;" ++ ?x) with (bs "&amp;amp;" ++ x). rewrite starts_app. cbn [app]. f_equal. apply IH. lia.
  - change (bs "&amp;lt;" ++ ?x) with (38 :: bs "amp;lt;" ++ x). change (length (bs "&amp;lt;")) with 8%nat in H. rewrite Q; [|discriminate|cbn; intuition discriminate|reflexivity|change (length _) with (7%nat); lia].
    do 2 f_equal. apply IH. change (length (bs "amp;lt;")) with 7%nat. lia.
  - change (bs "&gt;" ++ ?x) with (38 :: bs "gt;" ++ x). change (length (bs "&gt;")) with 4%nat in H. rewrite Q; [|discriminate|cbn; intuition discriminate|reflexivity|change (length _) with (3%nat); lia].
    do 2 f_equal. apply IH. change (length (bs "gt;")) with 3%nat. lia.
  - cbn [length app] in *. destruct fuel as [|fuel]; [lia|]. rewrite unprotect_skip by auto. f_equal. apply IH. lia.
Qed.
Lemma text_written_is : forall s, text_written s = flat_map written_byte s.
Proof. intros s. unfold text_written. now apply unprotect_escape2. Qed.

(** A translation comes out of reading and writing as it was in the file, entities included, but that a plain [>] becomes its entity;
    so a second time nothing changes. (Text of an XML file has no [<].) *)
Theorem C55_translations_kept : forall s, ~ In 60 s -> exists m, text_read s = Some m /\ text_written m = replace_byte 62 (bs "&gt;") s.
Proof.
  intros s H. exists s. split; [apply text_read_is|]. rewrite text_written_is. unfold replace_byte. induction s as [|c s IH]; cbn [flat_map]; [reflexivity|].
  rewrite IH by auto with datatypes. f_equal. unfold written_byte. destruct (N.eqb_spec c 38) as [->|A]; [reflexivity|]. destruct (N.eqb_spec c 60) as [->|B]; [destruct H; now left|]. reflexivity.
Qed.
Theorem C55_again : forall s m, ~ In 60 s -> ~ In 62 s -> text_read s = Some m -> text_written m = s.
Proof.
  intros s m H G R. destruct (C55_translations_kept s H) as (m' & R' & Q). assert (m' = m) as -> by congruence. rewrite Q. unfold replace_byte. clear - G. induction s as [|c s IH]; cbn [flat_map]; [reflexivity|].
  destruct (N.eqb_spec c 62) as [->|A]; [destruct G; now left|]. cbn [app]. f_equal. apply IH. auto with datatypes.
Qed.
(** Not so the text of a CDATA section with a [<]: it comes out escaped twice, which another program reads as something else. *)
Theorem C55_cdata_refuted : text_written (cdata_read (bs "a<br/>b")) = bs "a&amp;lt;br/&gt;b" /\
  unescape 30 (text_written (cdata_read (bs "a<br/>b"))) = Some (bs "a&lt;br/>b").
Proof. split; reflexivity. Qed.
(** Without a [<], the text of a CDATA section stays: as another program reads the file, it is what it was, ampersands included. *)
Lemma unescape_out : forall (f : N -> bytes) s fuel,
  (forall x, In x s -> (f x = [x] /\ x <> 38) \/ (x = 38 /\ f x = amp) \/ (x = 60 /\ f x = bs "&lt;") \/ (x = 62 /\ f x = bs "&gt;") \/ (x = 34 /\ f x = bs "&quot;")) ->
  (length (flat_map f s) < fuel)%nat -> unescape fuel (flat_map f s) = Some s.
Proof.
  intros f. induction s as [|c s IH]; intros fuel H L; cbn [flat_map] in *; (destruct fuel as [|fuel]; [lia|]); [reflexivity|]. rewrite app_length in L.
  assert (R : forall k, (k < fuel)%nat -> (length (flat_map f s) < k)%nat -> unescape k (flat_map f s) = Some s) by (intros k _ K; apply IH; [intros x I; apply H; now right|exact K]).
  destruct (H c (or_introl eq_refl)) as [[E A]|[[-> E]|[[-> E]|[[-> E]|[-> E]]]]]; rewrite E in *.
  - cbn [app length unescape] in *. apply N.eqb_neq in A. rewrite A, IH by (try (intros x I; apply H; now right); lia). reflexivity.
  - change (length amp) with 5%nat in L. change (amp ++ ?x) with (38 :: bs "amp;" ++ x). cbn [unescape]. rewrite N.eqb_refl, starts_app. rewrite IH by (try (intros x I; apply H; now right); lia). reflexivity.
  - change (length (bs "&lt;")) with 4%nat in L. change (bs "&lt;" ++ ?x) with (38 :: bs "lt;" ++ x). cbn [unescape]. rewrite N.eqb_refl, starts_app.
    change (starts (bs "amp;") (bs "lt;" ++ flat_map f s)) with (@None bytes). cbv iota. rewrite IH by (try (intros x I; apply H; now right); lia). reflexivity.
  - change (length (bs "&gt;")) with 4%nat in L. change (bs "&gt;" ++ ?x) with (38 :: bs "gt;" ++ x). cbn [unescape]. rewrite N.eqb_refl, starts_app.
    change (starts (bs "amp;") (bs "gt;" ++ flat_map f s)) with (@None bytes). change (starts (bs "lt;") (bs "gt;" ++ flat_map f s)) with (@None bytes). cbv iota. rewrite IH by (try (intros x I; apply H; now right); lia). reflexivity.
  - change (length (bs "&quot;")) with 6%nat in L. change (bs "&quot;" ++ ?x) with (38 :: bs "quot;" ++ x). cbn [unescape]. rewrite N.eqb_refl, starts_app.
    change (starts (bs "amp;") (bs "quot;" ++ flat_map f s)) with (@None bytes). change (starts (bs "lt;") (bs "quot;" ++ flat_map f s)) with (@None bytes). change (starts (bs "gt;") (bs "quot;" ++ flat_map f s)) with (@None bytes).
    cbv iota. rewrite IH by (try (intros x I; apply H; now right); lia). reflexivity.
Qed.
Theorem C55_cdata_kept : forall s fuel, ~ In 60 s -> (length (text_written (cdata_read s)) < fuel)%nat -> unescape fuel (text_written (cdata_read s)) = Some s.
Proof.
  intros s fuel H L. rewrite text_written_is in *. unfold cdata_read, protect, replace_byte in *.
  assert (E : flat_map written_byte (flat_map (fun x => if x =? 38 then amp else [x]) s) = flat_map (fun x => if x =? 38 then amp else if x =? 62 then bs "&gt;" else [x]) s).
  { clear L. induction s as [|c s IH]; cbn [flat_map]; [reflexivity|]. rewrite flat_map_app, IH by auto with datatypes. f_equal. destruct (N.eqb_spec c 38) as [->|A]; [reflexivity|].
    cbn [flat_map]. rewrite app_nil_r. unfold written_byte. destruct (N.eqb_spec c 38); [contradiction|]. destruct (N.eqb_spec c 60) as [->|]; [destruct H; now left|]. reflexivity. }
  rewrite E in *. apply unescape_out; [|exact L]. intros x I. destruct (N.eqb_spec x 38) as [->|A]; [right; left; split; reflexivity|]. destruct (N.eqb_spec x 62) as [->|B]; [right; right; right; left; split; reflexivity|]. now left.
Qed.
(** So does a name without an ampersand, and it does not end its attribute early. *)
Theorem C55_names_kept : forall s fuel, ~ In 38 s -> ~ In 34 (name_written s) /\ ~ In 60 (name_written s) /\ ((length (name_written s) < fuel)%nat -> unescape fuel (name_written s) = Some s).
Proof.
  intros s fuel H. assert (E : name_written s = attribute_escape s).
  { unfold name_written. assert (G : forall fuel, (length (attribute_escape s) <= fuel)%nat -> unprotect fuel (attribute_escape s) = attribute_escape s); [|apply G; lia].
    clear fuel. unfold attribute_escape. induction s as [|c s IH]; intros fuel L; cbn [flat_map] in *; [now destruct fuel|]. rewrite app_length in L.
    assert (IH' := IH ltac:(auto with datatypes)). clear IH.
    assert (Q : forall w f, ~ In 38 w -> (forall r, starts (bs "amp;amp;") (w ++ r) = None) -> (S (length w) <= f)%nat -> forall r, unprotect f (38 :: w ++ r) = 38 :: w ++ unprotect (f - S (length w)) r).
    { intros w f Hn Hs Lf r. destruct f as [|f]; [lia|]. cbn [unprotect]. change (bs "&amp;amp;") with (38 :: bs "amp;amp;"). cbn [starts]. rewrite N.eqb_refl, Hs. rewrite unprotect_run by (auto || lia). reflexivity. }
    destruct (N.eqb_spec c 38) as [->|A]; [destruct H; now left|].
    destruct (N.eqb_spec c 60) as [->|B]; [|destruct (N.eqb_spec c 62) as [->|C]; [|destruct (N.eqb_spec c 34) as [->|D]]].
    - change (length (bs "&lt;")) with 4%nat in L. change (bs "&lt;" ++ ?x) with (38 :: bs "lt;" ++ x). rewrite Q; [|cbn; intuition discriminate|reflexivity|change (length (bs "lt;")) with 3%nat; lia].
      rewrite IH' by (change (length (bs "lt;")) with 3%nat; lia). reflexivity.
    - change (length (bs "&gt;")) with 4%nat in L. change (bs "&gt;" ++ ?x) with (38 :: bs "gt;" ++ x). rewrite Q; [|cbn; intuition discriminate|reflexivity|change (length (bs "gt;")) with 3%nat; lia].
      rewrite IH' by (change (length (bs "gt;")) with 3%nat; lia). reflexivity.
    - change (length (bs "&quot;")) with 6%nat in L. change (bs "&quot;" ++ ?x) with (38 :: bs "quot;" ++ x). rewrite Q; [|cbn; intuition discriminate|reflexivity|change (length (bs "quot;")) with 5%nat; lia].
      rewrite IH' by (change (length (bs "quot;")) with 5%nat; lia). reflexivity.
    - cbn [length app] in *. destruct fuel as [|fuel]; [lia|]. rewrite unprotect_skip by auto. f_equal. apply IH'. lia. }
  rewrite E. unfold attribute_escape. split; [|split].
  - intros I. apply in_flat_map in I as (x & _ & I). destruct (N.eqb_spec x 38); [vm_compute in I; intuition discriminate|]. destruct (N.eqb_spec x 60); [vm_compute in I; intuition discriminate|].
    destruct (N.eqb_spec x 62); [vm_compute in I; intuition discriminate|]. destruct (N.eqb_spec x 34); [vm_compute in I; intuition discriminate|]. destruct I as [I|[]]. congruence.
  - intros I. apply in_flat_map in I as (x & _ & I). destruct (N.eqb_spec x 38); [vm_compute in I; intuition discriminate|]. destruct (N.eqb_spec x 60); [vm_compute in I; intuition discriminate|].
    destruct (N.eqb_spec x 62); [vm_compute in I; intuition discriminate|]. destruct (N.eqb_spec x 34); [vm_compute in I; intuition discriminate|]. destruct I as [I|[]]. congruence.
  - intros L. apply unescape_out; [|exact L]. intros x I. destruct (N.eqb_spec x 38) as [->|A]; [contradiction|]. destruct (N.eqb_spec x 60) as [->|B]; [right; right; left; split; reflexivity|].
    destruct (N.eqb_spec x 62) as [->|C]; [right; right; right; left; split; reflexivity|]. destruct (N.eqb_spec x 34) as [->|D]; [right; right; right; right; split; reflexivity|]. now left.
Qed.
(** Not so a name with one: the entity for the ampersand is written as a plain ampersand, which no XML reader accepts. *)
Theorem C55_name_refuted : option_map name_written (text_read (bs "Guns &amp; Ammo")) = Some (bs "Guns & Ammo") /\ unescape 30 (bs "Guns & Ammo") = None /\
  option_map name_written (text_read (bs "Guns & Ammo")) = Some (bs "Guns &amp; Ammo").
Proof. split; [|split]; reflexivity. Qed.

Example kept : option_map text_written (text_read (bs "a &lt;br/&gt; &amp; ""b""")) = Some (bs "a &lt;br/&gt; &amp; ""b""").
Proof. reflexivity. Qed.
Definition small_project : project :=
  Project (bs "P") [Package (bs "b") [english_key (bs "z"); empty_key (bs "a")] [Package (bs "c") [english_key (bs "y"); english_key (bs "x")] []]; Package (bs "a") [] []].
Example sorted_small : sort small_project =
  Project (bs "P") [Package (bs "a") [] []; Package (bs "b") [empty_key (bs "a"); english_key (bs "z")] [Package (bs "c") [english_key (bs "x"); english_key (bs "y")] []]].
Proof. reflexivity. Qed.
Example counted : map (fun p => (total (package_totals p), of_language (package_totals p) English)) (packages small_project) = [(4, 3); (0, 0)].
Proof. reflexivity. Qed.

Print Assumptions C41_only_reorders.
Print Assumptions C41_in_order.
Print Assumptions C41_sorted_stays.
Print Assumptions C41_idempotent.
Print Assumptions C41_stable.
Print Assumptions C41_containers_refuted.
Print Assumptions C42_counts.
Print Assumptions C42_coverage.
Print Assumptions C42_listed_twice_refuted.
Print Assumptions C55_translations_kept.
Print Assumptions C55_again.
Print Assumptions C55_cdata_refuted.
Print Assumptions C55_cdata_kept.
Print Assumptions C55_names_kept.
Print Assumptions C55_name_refuted.
