(** C39, C40, C54. *)
From Coq Require Import String.
From Verif Require Import Base.Tactics Base.Bytes Base.Ascii Base.Sort Io.Model Bin.AddonModel Bin.AddonSpec.
Local Open Scope N_scope.
Local Open Scope list_scope.

Section P.
  Context {D E : Type} (lower : bytes -> bytes) (load : location -> bytes -> D + E).
  Notation addon := (addon D).
  Definition key (a : addon) : location * bytes := (loc a, name a).
  Definition loads (k : location * bytes) : Prop := utf8_valid (snd k) = true /\ exists d, load (fst k) (snd k) = inl d.

  Lemma scan_entries_found : forall l es r, scan_entries load l es = inl r -> map key r = map (pair l) (map fst (filter snd es)).
  Proof.
    intros l es. induction es as [|[n [|]] es IH]; intros r H; cbn [scan_entries filter snd] in *.
    - injection H as <-. reflexivity.
    - destruct (utf8_valid n); [|discriminate]. destruct (load l n) as [d|]; [|discriminate].
      destruct (scan_entries load l es) as [r'|] eqn:R; [|discriminate]. injection H as <-. cbn [map fst]. rewrite (IH r' eq_refl). reflexivity.
    - auto.
  Qed.
  Lemma scan_location_found : forall l f r, scan_location load l f = inl r -> map key r = map (pair l) (dirs f).
  Proof. intros l [es|] r H; [now apply scan_entries_found|]. injection H as <-. reflexivity. Qed.
  Lemma scan_entries_loads : forall l es, (exists r, scan_entries load l es = inl r) <-> Forall loads (map (pair l) (map fst (filter snd es))).
  Proof.
    intros l es. induction es as [|[n [|]] es IH]; cbn [scan_entries filter snd map fst].
    - split; [constructor|eauto].
    - rewrite Forall_cons_iff, <- IH. unfold loads at 1. cbn [fst snd]. destruct (utf8_valid n).
      + destruct (load l n) as [d|e].
        * destruct (scan_entries load l es) as [r|e'].
          -- split; [intros _; split; eauto|eauto].
          -- split; [intros (r & H); discriminate|intros [_ (r & H)]; discriminate].
        * split; [intros (r & H); discriminate|intros [[_ (d & H)] _]; discriminate].
      + split; [intros (r & H); discriminate|intros [[H _] _]; discriminate].
    - exact IH.
  Qed.
  Lemma scan_location_loads : forall l f, (exists r, scan_location load l f = inl r) <-> Forall loads (map (pair l) (dirs f)).
  Proof. intros l [es|]; [apply scan_entries_loads|]. cbn. split; [constructor|eauto]. Qed.

  Definition clashing (a b : location * bytes) : Prop := lower (snd a) = lower (snd b) /\ a <> b.
  Lemma check_none : forall all todo, check_addons (E := E) lower all todo = None <->
    forall x a, In x todo -> In a all -> ~ clashing (key a) (key x).
  Proof.
    intros all todo. unfold clashing, key. induction todo as [|x todo IH]; cbn [check_addons].
    - split; [intros _ x a []|auto].
    - set (p := fun a => same_name lower a x && negb (eqb_bytes (name a) (name x))).
      set (q := fun a => same_name lower a x && negb (same_location (loc a) (loc x))).
      assert (Hp : forall a, p a = true -> lower (name a) = lower (name x) /\ name a <> name x).
      { intros a H. apply andb_true_iff in H as [H1 H2]. apply eqb_bytes_spec in H1. apply negb_true_iff, eqb_bytes_false in H2. auto. }
      assert (Hq : forall a, q a = true -> lower (name a) = lower (name x) /\ loc a <> loc x).
      { intros a H. apply andb_true_iff in H as [H1 H2]. apply eqb_bytes_spec in H1. split; [auto|]. destruct (loc a), (loc x); discriminate. }
      destruct (existsb p all) eqn:Ep; [|destruct (existsb q all) eqn:Eq].
      + split; [discriminate|]. intros H. apply existsb_exists in Ep as (a & Ha & Hpa). apply Hp in Hpa as [H1 H2].
        destruct (H x a (or_introl eq_refl) Ha). split; [auto|]. cbn. congruence.
      + split; [discriminate|]. intros H. apply existsb_exists in Eq as (a & Ha & Hqa). apply Hq in Hqa as [H1 H2].
        destruct (H x a (or_introl eq_refl) Ha). split; [auto|]. cbn. congruence.
      + rewrite IH. split; [|intros H y a Hy; apply H; now right]. intros H y a [<-|Hy] Ha [H1 H2]; [|eapply H; eauto; now split].
        cbn [fst snd] in *. assert (X : ~ existsb p all = true) by congruence. assert (Y : ~ existsb q all = true) by congruence.
        rewrite existsb_exists in X, Y. apply H2. f_equal.
        * destruct (same_location (loc a) (loc x)) eqn:L; [destruct (loc a), (loc x); try discriminate; reflexivity|].
          destruct Y. exists a. split; [auto|]. unfold q. rewrite L. cbn [negb]. rewrite andb_true_r. now apply eqb_bytes_spec.
        * destruct (eqb_bytes (name a) (name x)) eqn:L; [now apply eqb_bytes_spec|].
          destruct X. exists a. split; [auto|]. unfold p. rewrite L. cbn [negb]. rewrite andb_true_r. now apply eqb_bytes_spec.
  Qed.

  Lemma no_two_map : forall {A B} (f : A -> B) (R : B -> B -> Prop) l, no_two R (map f l) -> no_two (fun a b => R (f a) (f b)) l.
  Proof. intros A B f R l H x a y b z ->. apply (H (map f x) (f a) (map f y) (f b) (map f z)). now rewrite map_app; cbn; rewrite map_app. Qed.
  Lemma no_two_of : forall {A} (R : A -> A -> Prop) l, NoDup l -> (forall a b, In a l -> In b l -> a <> b -> ~ R a b) -> no_two R l.
  Proof.
    intros A R l Hn H x a y b z ->. apply H.
    - apply in_or_app. right. now left.
    - apply in_or_app. right. right. apply in_or_app. right. now left.
    - intros <-. apply NoDup_remove_2 in Hn. apply Hn. apply in_or_app. right. apply in_or_app. right. now left.
  Qed.
  Lemma no_two_in : forall {A} (R : A -> A -> Prop) l, (forall a b, R a b -> R b a) -> no_two R l -> forall a b, In a l -> In b l -> a <> b -> ~ R a b.
  Proof.
    intros A R l Hs H a b Ha Hb Hn. apply in_split in Ha as (x & r & ->). apply in_app_or in Hb as [Hb|[Hb|Hb]]; [|congruence|].
    - apply in_split in Hb as (x1 & x2 & ->). intros Q. apply (H x1 b x2 a r); [now rewrite <- app_assoc|]. auto.
    - apply in_split in Hb as (y & z & ->). now apply (H x a y b z).
  Qed.
  Lemma found_nodup : forall a o, folder_ok a -> folder_ok o -> NoDup (found a o).
  Proof.
    intros a o Ha Ho. unfold found, folder_ok in *.
    assert (K : forall l (d : list bytes), NoDup d -> NoDup (map (pair (A := location) l) d)) by (intros; apply FinFun.Injective_map_NoDup; [intros x y [=]; auto|auto]).
    apply K with (l := Addons) in Ha. apply K with (l := Optionals) in Ho. revert Ha. generalize (dirs a) as d. induction d as [|n d IH]; intros H; [exact Ho|].
    cbn [map app] in *. inversion H; subst. constructor; [|auto]. rewrite in_app_iff, !in_map_iff. intros [(m & [= <-] & Hm)|(m & Q & _)]; [|discriminate].
    apply H2. now apply in_map.
  Qed.

  (** The addons found are the directories of the two folders, in order; no two have names that only differ in case,
      nor the same name in both folders. *)
  Theorem C39_names_differ : forall a o r, folder_ok a -> folder_ok o -> scan lower load a o = inl r ->
    map (fun x => (loc x, name x)) r = found a o /\ no_two (fun x y => lower (name x) = lower (name y)) r.
  Proof.
    intros a o r Ha Ho H. unfold scan in H. destruct (scan_location load Addons a) as [ra|] eqn:Ra; [|discriminate].
    destruct (scan_location load Optionals o) as [ro|] eqn:Ro; [|discriminate]. destruct (check_addons _ _ _) eqn:K; [discriminate|]. injection H as <-.
    assert (F : map key (ra ++ ro) = found a o).
    { rewrite map_app. unfold found. f_equal; now apply scan_location_found. }
    split; [exact F|]. apply (no_two_map key (fun k l => lower (snd k) = lower (snd l))). rewrite F. apply no_two_of; [now apply found_nodup|].
    intros k l Hk Hl Hn Q. rewrite <- F in Hk, Hl. apply in_map_iff in Hk as (x & <- & Hx). apply in_map_iff in Hl as (y & <- & Hy).
    rewrite check_none in K. exact (K y x Hy Hx (conj Q Hn)).
  Qed.
  (** Such folders are accepted, and only such, as far as each addon alone can be loaded. *)
  Theorem C39_accepted_iff : forall a o, folder_ok a -> folder_ok o ->
    (exists r, scan lower load a o = inl r) <->
    Forall loads (found a o) /\ no_two (fun x y => lower (snd x) = lower (snd y)) (found a o).
  Proof.
    intros a o Ha Ho. split.
    - intros (r & H). destruct (C39_names_differ a o r Ha Ho H) as [F N]. split.
      + unfold scan in H. destruct (scan_location load Addons a) as [ra|] eqn:Ra; [|discriminate].
        destruct (scan_location load Optionals o) as [ro|] eqn:Ro; [|discriminate]. unfold found. apply Forall_app. split; apply scan_location_loads; eauto.
      + rewrite <- F. intros x p y q z Q. apply map_eq_app in Q as (r1 & r2 & -> & E1 & E2). apply map_eq_cons in E2 as (p' & r3 & -> & E3 & E4).
        apply map_eq_app in E4 as (r4 & r5 & -> & E5 & E6). apply map_eq_cons in E6 as (q' & r6 & -> & E7 & E8). subst. cbn [snd]. now apply (N r1 p' r4 q' r6).
    - intros [L N]. unfold found in L. apply Forall_app in L as [L1 L2]. apply scan_location_loads in L1 as (ra & Ra). apply scan_location_loads in L2 as (ro & Ro).
      unfold scan. rewrite Ra, Ro. assert (F : map key (ra ++ ro) = found a o).
      { rewrite map_app. unfold found. f_equal; now apply scan_location_found. }
      destruct (check_addons _ _ _) eqn:K; [|eauto]. exfalso. assert (Z : check_addons (E := E) lower (ra ++ ro) (ra ++ ro) = None); [|congruence].
      apply check_none. intros x y Hx Hy [Q Hn]. apply (no_two_in _ _ (fun u v => @eq_sym _ _ _) N (key y) (key x)); auto; rewrite <- F; now apply in_map.
  Qed.
End P.

(** ** Paths *)
Lemma last_dot_app : forall a b i at_, last_dot (a ++ b) i at_ = last_dot b (i + length a) (last_dot a i at_).
Proof.
  induction a as [|c a IH]; intros b i at_; cbn [app last_dot length]; [now rewrite Nat.add_0_r|]. rewrite IH. f_equal. lia.
Qed.
Lemma last_dot_none : forall s i at_, no_dot s -> last_dot s i at_ = at_.
Proof.
  induction s as [|c s IH]; intros i at_ H; cbn [last_dot]; [reflexivity|]. destruct (N.eqb_spec c 46) as [->|Hc]; [destruct H; now left|].
  apply IH. intros Q. apply H. now right.
Qed.
Lemma stem_no_dot : forall s, no_dot s -> stem s = s.
Proof. intros s H. unfold stem. now rewrite last_dot_none. Qed.
Lemma stem_ext : forall s e, s <> [] -> no_dot e -> stem (s ++ [46] ++ e) = s.
Proof.
  intros s e Hs He. unfold stem. rewrite last_dot_app. cbn [app last_dot]. rewrite N.eqb_refl, last_dot_none by auto. rewrite Nat.add_0_l.
  destruct s as [|c s]; [contradiction|]. cbn [length]. change (S (length s)) with (length (c :: s)). rewrite firstn_app, firstn_all, Nat.sub_diag. cbn [firstn]. now rewrite app_nil_r.
Qed.
Lemma stem_ne : forall s, s <> [] -> stem s <> [].
Proof. intros s H. unfold stem. destruct (last_dot s 0 None) as [[|i]|]; auto. destruct s; [contradiction|]. cbn [firstn]. discriminate. Qed.
Lemma set_extension_snoc : forall e p s, set_extension e (p ++ [s]) = p ++ [stem s ++ [46] ++ e].
Proof. intros e p s. unfold set_extension. rewrite rev_app_distr. cbn [rev app]. now rewrite rev_involutive. Qed.

(** Where the PBO goes: a folder and a name. *)
Definition folder_of {D} (p : project) (collapse : bool) (a : addon D) : path :=
  if collapse then [bs "addons"]
  else match loc a with
       | Addons => [bs "addons"]
       | Optionals => if optional_mod_folders p then [bs "optionals"; [64] ++ pbo_name (release_folder p) a; bs "addons"] else [bs "optionals"]
       end.
Lemma target_pbo_is : forall {D} p collapse (a : addon D),
  target_pbo p collapse a = folder_of p collapse a ++ [stem (pbo_name (p_prefix p) a) ++ bs ".pbo"].
Proof.
  intros D p collapse a. unfold target_pbo, folder_of. change (bs ".pbo") with ([46] ++ bs "pbo").
  destruct collapse; [apply (set_extension_snoc _ [_])|]. destruct (loc a); [apply (set_extension_snoc _ [_])|].
  destruct (optional_mod_folders p); [apply (set_extension_snoc _ [_; _; _])|apply (set_extension_snoc _ [_])].
Qed.
Lemma ascii_lower_app : forall a b, ascii_lower (a ++ b) = ascii_lower a ++ ascii_lower b.
Proof. intros. unfold ascii_lower. apply map_app. Qed.
Lemma no_dot_app : forall a b, no_dot (a ++ b) <-> no_dot a /\ no_dot b.
Proof. intros a b. unfold no_dot. rewrite in_app_iff. tauto. Qed.

(** The addons of a scan get PBOs of different paths, also for a file system that ignores case, if neither the project's
    prefix nor the names have a dot. *)
Theorem C40_distinct_pbos : forall D E (lower : bytes -> bytes) (load : location -> bytes -> D + E) a o r p collapse,
  lowers_ascii lower -> folder_ok a -> folder_ok o -> scan lower load a o = inl r ->
  no_dot (p_prefix p) -> Forall (fun x => no_dot (name x)) r ->
  no_two (fun x y => clash (target_pbo p collapse x) (target_pbo p collapse y)) r.
Proof.
  intros D E lower load a o r p collapse Hl Ha Ho H Hp Hn x u y v z Q. destruct (C39_names_differ lower load a o r Ha Ho H) as [_ N].
  specialize (N x u y v z Q). intros C. apply N. rewrite Q in Hn. apply Forall_app in Hn as [_ Hn]. inversion Hn as [|? ? Hu Hn']; subst. apply Forall_app in Hn' as [_ Hn'].
  inversion Hn' as [|? ? Hv _]; subst. unfold clash in C. rewrite !target_pbo_is, !map_app in C. apply app_inj_tail in C as [_ C]. cbn [map] in C.
  rewrite !stem_no_dot in C; [|unfold pbo_name; rewrite !no_dot_app; repeat split; auto; intros [X|[]]; discriminate..].
  rewrite !ascii_lower_app in C. apply app_inv_tail in C. unfold pbo_name in C. rewrite !ascii_lower_app in C. apply app_inv_head in C. cbn [ascii_lower map app] in C.
  injection C as C. apply Hl. exact C.
Qed.
(** Without a dot in the prefix, names that agree up to a dot share a file; with one, all addons do. *)
Theorem C40_dotted_names_refuted : exists (a b : addon unit) p, no_dot (p_prefix p) /\ name a <> name b /\ forall collapse, target_pbo p collapse a = target_pbo p collapse b.
Proof.
  exists (Addon (bs "main.a") Addons tt), (Addon (bs "main.b") Addons tt), (Project (bs "abe") (bs "abe") true).
  split; [intros H; cbn in H; intuition discriminate|]. split; [discriminate|]. now intros [|].
Qed.
Theorem C40_dotted_prefix_refuted : exists p, forall a b : addon unit, no_dot (name a) -> no_dot (name b) -> target_pbo p true a = target_pbo p true b.
Proof.
  exists (Project (bs "my.mod") (bs "my.mod") true). intros a b Ha Hb. rewrite !target_pbo_is. cbn [p_prefix folder_of].
  assert (K : forall x : addon unit, no_dot (name x) -> stem (pbo_name (bs "my.mod") x) = bs "my").
  { intros x Hx. change (pbo_name (bs "my.mod") x) with (bs "my" ++ [46] ++ (bs "mod_" ++ name x)). apply stem_ext; [discriminate|].
    apply no_dot_app. split; [intros H; cbn in H; intuition discriminate|auto]. }
  now rewrite !K.
Qed.

(** Signing opens the PBO that was built for the addon, and writes the signature beside it, named like the PBO with the
    key's name and [.bisign] after it. *)
Theorem C54_signs_what_was_built : forall D p authority version (a : addon D),
  let '(target, auth) := sign_pbo p authority version a in
  target = target_pbo p false a /\
  exists folder file, target = folder ++ [file] /\ sig_location p authority version a = folder ++ [file ++ bs "." ++ auth ++ bs ".bisign"].
Proof.
  intros D p authority version a. destruct (sign_pbo p authority version a) as [target auth] eqn:S.
  assert (T : target = target_pbo p false a).
  { unfold sign_pbo in S. unfold target_pbo. destruct (loc a); [injection S as <- _; reflexivity|]. destruct (optional_mod_folders p); injection S as <- _; reflexivity. }
  split; [exact T|]. rewrite target_pbo_is in T. eexists _, _. split; [exact T|]. unfold sig_location. rewrite S, T, set_extension_snoc. do 2 f_equal.
  change (bs ".pbo") with ([46] ++ bs "pbo"). rewrite stem_ext.
  - change (bs "pbo." ++ auth ++ bs ".bisign") with (bs "pbo" ++ [46] ++ auth ++ bs ".bisign"). change (bs ".") with [46]. now rewrite <- !app_assoc.
  - apply stem_ne. unfold pbo_name. now destruct (p_prefix p).
  - intros H. cbn in H. intuition discriminate.
Qed.
(** The key in the file beside an addon is the one its signature names. *)
Theorem C54_key_beside : forall D p authority version (a : addon D),
  exists folder, key_location p authority version a = folder ++ [bs "keys"; snd (sign_pbo p authority version a) ++ bs ".bikey"] /\
    (optional_mod_folders p = true -> loc a = Optionals -> exists file, target_pbo p false a = folder ++ [bs "addons"; file]) .
Proof.
  intros D p authority version a. unfold key_location, sign_pbo. destruct (loc a) eqn:L.
  - exists []. split; [reflexivity|discriminate].
  - destruct (optional_mod_folders p) eqn:O.
    + exists [bs "optionals"; [64] ++ pbo_name (release_folder p) a]. split; [reflexivity|]. intros _ _. rewrite target_pbo_is. unfold folder_of. rewrite L, O. cbn [app]. eauto.
    + exists []. split; [reflexivity|discriminate].
Qed.

(** A case. *)
Definition some_addons : option listing := Some [(bs "main", true); (bs "Common", true); (bs "readme.md", false)].
Definition some_optionals : option listing := Some [(bs "extra", true)].
Definition load_all (l : location) (n : bytes) : unit + unit := inl tt.
Example scanned : exists r, scan ascii_lower load_all some_addons some_optionals = inl r /\ length r = 3%nat /\
  Forall (fun x => no_dot (name x)) r /\ folder_ok some_addons /\ folder_ok some_optionals.
Proof.
  eexists. split; [vm_compute; reflexivity|]. split; [reflexivity|].
  split; [repeat (apply Forall_cons || apply Forall_nil); intros H; cbn in H; intuition discriminate|].
  split; cbv; repeat (apply NoDup_cons || apply NoDup_nil); cbn; intuition discriminate.
Qed.
Example both : scan ascii_lower load_all some_addons (Some [(bs "main", true)]) = inr (Duplicate (bs "main")).
Proof. reflexivity. Qed.
Example spelled : scan ascii_lower load_all some_addons (Some [(bs "MAIN", true)]) = inr (NameDuplicate (bs "main")).
Proof. reflexivity. Qed.
Example signed : sig_location (Project (bs "abe") (bs "abe") true) (bs "abe") (bs "1.2.3") (Addon (bs "x") Optionals tt) =
  [bs "optionals"; bs "@abe_x"; bs "addons"; bs "abe_x.pbo.abe_1.2.3_abe_x.bisign"].
Proof. reflexivity. Qed.

Print Assumptions C39_names_differ.
Print Assumptions C39_accepted_iff.
Print Assumptions C40_distinct_pbos.
Print Assumptions C40_dotted_names_refuted.
Print Assumptions C40_dotted_prefix_refuted.
Print Assumptions C54_signs_what_was_built.
Print Assumptions C54_key_beside.
