(** Proofs about launch profiles. *)
From Coq Require Import String Sorting.Sorted ListDec.
From Verif Require Import Base.Tactics Base.Bytes Base.Ascii Base.Text Base.Sort Common.LaunchModel Common.LaunchSpec.
Local Open Scope N_scope.
Local Open Scope list_scope.

(** ** Lists and settings *)
Section Dedup.
  Context {A : Type} (eqb : A -> A -> bool) (key : A -> list N).
  Hypothesis eqb_iff : forall a b, eqb a b = true <-> a = b.
  Hypothesis key_inj : forall a b, key a = key b -> a = b.
  Lemma dedup_in : forall l x, In x (dedup_list eqb l) <-> In x l.
  Proof.
    induction l as [|a l IH]; intros x; [reflexivity|]. destruct l as [|b l]; [reflexivity|]. change (dedup_list eqb (a :: b :: l)) with (if eqb a b then dedup_list eqb (b :: l) else a :: dedup_list eqb (b :: l)).
    destruct (eqb a b) eqn:E.
    - apply eqb_iff in E. subst b. rewrite IH. cbn. tauto.
    - cbn [In]. rewrite IH. cbn. tauto.
  Qed.
  Lemma dedup_sorted : forall l, StronglySorted (key_le key) l -> StronglySorted (fun a b => cmp_bytes (key a) (key b) = Lt) (dedup_list eqb l).
  Proof.
    induction l as [|a l IH]; intros S; [constructor|]. destruct l as [|b l]; [constructor; [constructor|constructor]|]. inversion S as [|? ? Sl F]; subst.
    change (dedup_list eqb (a :: b :: l)) with (if eqb a b then dedup_list eqb (b :: l) else a :: dedup_list eqb (b :: l)). destruct (eqb a b) eqn:E; [auto|].
    constructor; [auto|]. apply Forall_forall. intros x I. apply (proj1 (dedup_in _ _)) in I. rewrite Forall_forall in F. assert (L := F x I). unfold key_le in L.
    destruct (cmp_bytes (key a) (key x)) eqn:C; [|reflexivity|congruence]. apply cmp_bytes_eq, key_inj in C. subst x. exfalso.
    destruct I as [->|I]; [assert (Z : eqb a a = true) by (now apply eqb_iff); congruence|].
    inversion Sl as [|? ? _ Fb]; subst. rewrite Forall_forall in Fb. assert (L2 := Fb a I). assert (Lb := F b (or_introl eq_refl)).
    assert (X := key_le_antisym key a b Lb L2). apply key_inj in X. subst b. assert (Z : eqb a a = true) by (now apply eqb_iff). congruence.
  Qed.
  Lemma tidied : forall l, StronglySorted (fun a b => cmp_bytes (key a) (key b) = Lt) (dedup_list eqb (sort_by key l)) /\ forall x, In x (dedup_list eqb (sort_by key l)) <-> In x l.
  Proof.
    intros l. split; [apply dedup_sorted, sort_by_sorted|]. intros x. rewrite dedup_in. split; apply Permutation_in; [apply sort_by_perm|apply Permutation_sym, sort_by_perm].
  Qed.
  Lemma sorted_same : forall l l', StronglySorted (fun a b => cmp_bytes (key a) (key b) = Lt) l -> StronglySorted (fun a b => cmp_bytes (key a) (key b) = Lt) l' -> (forall x, In x l <-> In x l') -> l = l'.
  Proof.
    induction l as [|a l IH]; intros l' S S' H.
    - destruct l' as [|b l']; [reflexivity|]. destruct (proj2 (H b)); now left.
    - destruct l' as [|b l']; [destruct (proj1 (H a)); now left|]. inversion S as [|? ? Sl F]; inversion S' as [|? ? Sl' F']; subst. rewrite Forall_forall in F, F'.
      assert (E : a = b).
      { destruct (proj1 (H a) (or_introl eq_refl)) as [->|I]; [reflexivity|]. destruct (proj2 (H b) (or_introl eq_refl)) as [->|J]; [reflexivity|].
        assert (X := F' _ I). assert (Y := F _ J). rewrite cmp_bytes_antisym, Y in X. discriminate. }
      subst b. f_equal. apply IH; auto. intros x. split; intros I.
      + destruct (proj1 (H x) (or_intror I)) as [->|J]; [|exact J]. assert (X := F _ I). rewrite cmp_bytes_refl in X. discriminate.
      + destruct (proj2 (H x) (or_intror I)) as [->|J]; [|exact J]. assert (X := F' _ I). rewrite cmp_bytes_refl in X. discriminate.
  Qed.
End Dedup.
(** A profile's options with those of what it extends laid under them, farthest first. *)
Definition under (l : list options) (acc : options) : options := fold_left (fun a p => overlay p a) l acc.
Lemma under_list : forall {A} (f : options -> list A), (forall a b, f (overlay a b) = f a ++ f b) -> forall l acc x, In x (f (under l acc)) <-> exists p, In p (acc :: l) /\ In x (f p).
Proof.
  intros A f H. induction l as [|q l IH]; intros acc x; cbn [under fold_left].
  - split; [intros I; exists acc; split; [now left|exact I]|]. intros (p & [<-|[]] & I). exact I.
  - change (fold_left (fun a p => overlay p a) l (overlay q acc)) with (under l (overlay q acc)). rewrite IH. split.
    + intros (p & [<-|I] & J); [rewrite H in J; apply in_app_iff in J as [J|J]; [exists q|exists acc]; cbn; auto|exists p; cbn; auto].
    + intros (p & [<-|[<-|I]] & J); [exists (overlay q acc)|exists (overlay q acc)|exists p; cbn; auto]; (split; [now left|]; rewrite H; apply in_app_iff; auto).
Qed.
Lemma under_set : forall {A} (f : options -> option A), (forall a b, f (overlay a b) = over (f a) (f b)) -> forall l acc, first_set f (acc :: l) (under l acc).
Proof.
  intros A f H. induction l as [|q l IH]; intros acc v; cbn [under fold_left].
  - split.
    + intros E. exists [], acc, []. repeat split; auto. intros q [].
    + intros (l1 & p & l2 & E & V & _). destruct l1 as [|x l1]; [injection E as -> _; exact V|destruct l1; discriminate].
  - change (fold_left (fun a p => overlay p a) l (overlay q acc)) with (under l (overlay q acc)). rewrite (IH (overlay q acc) v). split.
    + intros (l1 & p & l2 & E & V & F). destruct l1 as [|x l1]; injection E as E1 E2.
      * subst p l2. rewrite H in V. destruct (f acc) as [a|] eqn:Ea; cbn in V.
        -- exists [], acc, (q :: l). repeat split; [congruence|intros ? []].
        -- exists [acc], q, l. repeat split; [exact V|]. intros x [<-|[]]. exact Ea.
      * subst x l. assert (X := F _ (or_introl eq_refl)). rewrite H in X. exists (acc :: q :: l1), p, l2. repeat split; [exact V|].
        intros x [<-|[<-|I]]; [| |apply F; now right]; destruct (f acc), (f q); cbn in X; congruence.
    + intros (l1 & p & l2 & E & V & F). destruct l1 as [|x l1]; injection E as E1 E2.
      * subst p l2. exists [], (overlay q acc), l. repeat split; [rewrite H, V; reflexivity|intros ? []].
      * subst x. destruct l1 as [|x l1]; injection E2 as E2 E3.
        -- subst p l2. exists [], (overlay q acc), l. repeat split; [|intros ? []]. rewrite H, (F acc (or_introl eq_refl)). exact V.
        -- subst x l. exists (overlay q acc :: l1), p, l2. repeat split; [exact V|]. intros x [<-|I]; [|apply F; cbn; auto].
           rewrite H, (F acc (or_introl eq_refl)), (F q); [reflexivity|cbn; auto].
Qed.
Lemma inherited_under : forall o l, inherited (o :: l) (dedup (under l o)).
Proof.
  assert (K : forall (f : options -> list text), (forall a b, f (overlay a b) = f a ++ f b) -> (forall o, f (dedup o) = tidy (f o)) -> forall o l, joined (fun x => x) f (o :: l) (dedup (under l o))).
  { intros f H D o l. unfold joined. rewrite D. destruct (tidied eqb_bytes (fun x : text => x) eqb_bytes_spec (fun a b E => E) (f (under l o))) as [S I]. split; [exact S|].
    intros x. unfold tidy. rewrite (I x). now apply under_list. }
  assert (D : forall {A} (f : options -> option A), (forall a b, f (overlay a b) = over (f a) (f b)) -> (forall o, f (dedup o) = f o) -> forall o l, first_set f (o :: l) (dedup (under l o))).
  { intros A f H X o l v. rewrite X. now apply under_set. }
  intros o l. split; try (apply K; reflexivity); try (apply D; reflexivity).
  unfold joined. change (dlc (dedup (under l o))) with (tidy_dlc (dlc (under l o))).
  destruct (tidied N.eqb dlc_key N.eqb_eq (fun a b E => f_equal (hd 0) E) (dlc (under l o))) as [S I]. split; [exact S|]. intros x. unfold tidy_dlc. rewrite (I x). now apply under_list.
Qed.
Lemma first_set_same : forall {A} (f : options -> option A) l o o', first_set f l o -> first_set f l o' -> f o = f o'.
Proof.
  intros A f l o o' H H'. destruct (f o) as [v|] eqn:E.
  - apply H, H' in E. congruence.
  - destruct (f o') as [v|] eqn:E'; [|reflexivity]. apply H', H in E'. congruence.
Qed.
Lemma inherited_same : forall l o o', inherited l o -> inherited l o' -> o = o'.
Proof.
  intros l o o' H H'. assert (K : forall {A} (key : A -> list N) (f : options -> list A), joined key f l o -> joined key f l o' -> f o = f o').
  { intros A key f [S I] [S' I']. apply (sorted_same key); auto. intros x. rewrite I, I'. reflexivity. }
  destruct H as [h1 h2 h3 h4 h5 h6 h7 h8 h9 h10 h11], H' as [k1 k2 k3 k4 k5 k6 k7 k8 k9 k10 k11].
  assert (e1 := K _ _ _ h1 k1). assert (e2 := K _ _ _ h2 k2). assert (e3 := K _ _ _ h3 k3).
  assert (e4 := K _ _ _ h4 k4). assert (e5 := K _ _ _ h5 k5).
  assert (e6 := first_set_same _ _ _ _ h6 k6). assert (e7 := first_set_same _ _ _ _ h7 k7). assert (e8 := first_set_same _ _ _ _ h8 k8).
  assert (e9 := first_set_same _ _ _ _ h9 k9). assert (e10 := first_set_same _ _ _ _ h10 k10). assert (e11 := first_set_same _ _ _ _ h11 k11).
  destruct o, o'. cbn in *. congruence.
Qed.

(** ** Steps *)
Lemma repeats : forall l : list text, ~ NoDup l -> exists x l1 l2 l3, l = l1 ++ x :: l2 ++ x :: l3.
Proof.
  induction l as [|a l IH]; intros D; [destruct D; constructor|]. destruct (in_dec (list_eq_dec N.eq_dec) a l) as [I|I].
  - apply in_split in I as (l2 & l3 & ->). now exists a, [], l2, l3.
  - destruct IH as (x & l1 & l2 & l3 & ->); [|now exists x, (a :: l1), l2, l3]. intros D'. destruct D. now constructor.
Qed.
Section Steps.
  Context (s : profiles).
  Notation step := (step s).
  Notation leads := (leads s).
  Notation line := (line s).
  Lemma step_same : forall k x y, step k x -> step k y -> x = y.
  Proof. intros k x y (p & G & E) (q & G' & E'). congruence. Qed.
  (** The chain from [k] stops after [n] steps. *)
  Inductive stops : text -> nat -> Prop :=
  | stops_here : forall k, (forall x, ~ step k x) -> stops k 0
  | stops_later : forall k x n, step k x -> stops x n -> stops k (S n).
  Lemma stops_same : forall k n, stops k n -> forall m, stops k m -> n = m.
  Proof.
    intros k n H. induction H as [k N0|k x n Sx H IH]; intros m M; inversion M as [? M0|? y m' Sy M']; subst; auto.
    - now destruct (N0 y).
    - now destruct (M0 x).
    - rewrite (step_same k y x) in M' by assumption. f_equal. auto.
  Qed.
  Lemma stops_leads : forall k y, leads k y -> forall n, stops k n -> exists m, (m < n)%nat /\ stops y m.
  Proof.
    intros k y H. induction H as [k x Sx|k x y Sx H IH]; intros n T; inversion T as [? T0|? z n' Sz T']; subst; try (now destruct (T0 x)).
    - rewrite (step_same k z x) in T' by assumption. exists n'. split; [lia|exact T'].
    - rewrite (step_same k z x) in T' by assumption. destruct (IH _ T') as (m & L & M). exists m. split; [lia|exact M].
  Qed.
  Lemma stops_no_cycle : forall k n, stops k n -> ~ leads k k.
  Proof. intros k n T L. destruct (stops_leads _ _ L _ T) as (m & Lm & M). assert (n = m) by (eapply stops_same; eauto). lia. Qed.
  Lemma leads_trans : forall x y z, leads x y -> leads y z -> leads x z.
  Proof. intros x y z H. induction H; intros L; eapply leads_more; eauto. Qed.
  Lemma line_stops : forall k l, line k l -> exists n, stops k n.
  Proof.
    intros k l H. induction H as [k p G E|k p x l G E H (n & IH)].
    - exists 0%nat. constructor. intros x (q & G' & E'). congruence.
    - exists (S n). apply (stops_later k x); [exists p; auto|exact IH].
  Qed.
  Lemma line_same : forall k l, line k l -> forall l', line k l' -> l = l'.
  Proof.
    intros k l H. induction H as [k p G E|k p x l G E H IH]; intros l' H'; inversion H' as [? q G' E'|? q y m G' E' M]; subst; try congruence.
    assert (q = p) by congruence. subst q. assert (y = x) by congruence. subst y. f_equal. auto.
  Qed.

  (** ** The loop, standing at profile [y] *)
  Lemma resolved_line : forall fuel k y p acc o, get s y = Some p -> resolve fuel s k (Profile (extends p) acc) = Resolved o ->
    exists l, line y (own p :: l) /\ o = dedup (under l acc).
  Proof.
    induction fuel as [|fuel IH]; intros k y p acc o G H; [discriminate|]. cbn [resolve extends own] in H. destruct (extends p) as [x|] eqn:E.
    - destruct (eqb_bytes x k); [discriminate|]. destruct (get s x) as [q|] eqn:Gx; [|discriminate]. unfold extend in H. cbn [own] in H.
      destruct (IH _ x q _ _ Gx H) as (l & L & ->). exists (own q :: l). split; [econstructor; eauto|reflexivity].
    - injection H as <-. exists []. split; [now constructor|reflexivity].
  Qed.
  Lemma self_leads : forall fuel k y p acc k', get s y = Some p -> resolve fuel s k (Profile (extends p) acc) = ExtendsSelf k' -> k' = k /\ leads y k.
  Proof.
    induction fuel as [|fuel IH]; intros k y p acc k' G H; [discriminate|]. cbn [resolve extends own] in H. destruct (extends p) as [x|] eqn:E; [|discriminate].
    assert (Sx : step y x) by (exists p; auto). destruct (eqb_bytes x k) eqn:X.
    - apply eqb_bytes_spec in X. subst x. injection H as <-. split; [reflexivity|now constructor].
    - destruct (get s x) as [q|] eqn:Gx; [|discriminate]. unfold extend in H. cbn [own] in H. destruct (IH _ x q _ _ Gx H) as (-> & L). split; [reflexivity|]. eapply leads_more; eauto.
  Qed.
  Lemma missing_leads : forall fuel k y p acc k' x, get s y = Some p -> resolve fuel s k (Profile (extends p) acc) = ExtendsMissing k' x ->
    k' = k /\ get s x = None /\ leads y x.
  Proof.
    induction fuel as [|fuel IH]; intros k y p acc k' x G H; [discriminate|]. cbn [resolve extends own] in H. destruct (extends p) as [z|] eqn:E; [|discriminate].
    assert (Sx : step y z) by (exists p; auto). destruct (eqb_bytes z k) eqn:X; [discriminate|].
    destruct (get s z) as [q|] eqn:Gx; [|injection H as <- <-; repeat split; auto; now constructor]. unfold extend in H. cbn [own] in H.
    destruct (IH _ z q _ _ _ Gx H) as (-> & N0 & L). repeat split; auto. eapply leads_more; eauto.
  Qed.
  Lemma line_resolves : forall k y l, line y l -> ~ leads y k -> forall p acc, get s y = Some p -> exists l', l = own p :: l' /\
    resolve (length l) s k (Profile (extends p) acc) = Resolved (dedup (under l' acc)).
  Proof.
    intros k y l H. induction H as [y p G E|y p x l G E H IH]; intros NL q acc Gq; assert (q = p) by congruence; subst q; cbn [length resolve extends own]; rewrite E.
    - exists []. auto.
    - assert (Sx : step y x) by (exists p; auto). destruct (eqb_bytes x k) eqn:X; [apply eqb_bytes_spec in X; subst x; destruct NL; now constructor|].
      inversion H as [? q Gx _|? q ? ? Gx _]; subst; rewrite Gx; unfold extend; cbn [own].
      + destruct (IH (fun L => NL (leads_more _ _ _ _ Sx L)) q (overlay (own q) acc) Gx) as (l' & El & R). injection El as <-. exists [own q]. split; [reflexivity|exact R].
      + destruct (IH (fun L => NL (leads_more _ _ _ _ Sx L)) q (overlay (own q) acc) Gx) as (l' & El & R). injection El as <-. eexists. split; [reflexivity|exact R].
  Qed.
  Lemma leads_self : forall y k, leads y k -> forall p acc, get s y = Some p -> exists fuel, resolve fuel s k (Profile (extends p) acc) = ExtendsSelf k.
  Proof.
    intros y k H. induction H as [y k (q & G & E)|y x k (q & G & E) H IH]; intros p acc Gp; assert (p = q) by congruence; subst p.
    - exists 1%nat. cbn [resolve extends]. rewrite E. now rewrite eqb_bytes_refl.
    - destruct (eqb_bytes x k) eqn:X; [exists 1%nat; cbn [resolve extends]; now rewrite E, X|].
      assert (exists r, get s x = Some r) as (r & Gx) by (inversion H as [? ? (r & Gr & _)|? ? ? (r & Gr & _)]; eauto).
      destruct (IH r (overlay (own r) acc) Gx) as (fuel & R). exists (S fuel). cbn [resolve extends own]. rewrite E, X, Gx. exact R.
  Qed.
  Lemma leads_missing : forall y x, leads y x -> get s x = None -> forall k, ~ leads y k -> forall p acc, get s y = Some p ->
    exists fuel, resolve fuel s k (Profile (extends p) acc) = ExtendsMissing k x.
  Proof.
    intros y x H N0. induction H as [y x (q & G & E)|y z x (q & G & E) H IH]; intros k NL p acc Gp; assert (p = q) by congruence; subst p.
    - exists 1%nat. cbn [resolve extends]. rewrite E. destruct (eqb_bytes x k) eqn:X; [|now rewrite N0].
      apply eqb_bytes_spec in X. subst x. destruct NL. constructor. exists q. auto.
    - assert (Sz : step y z) by (exists q; auto). destruct (eqb_bytes z k) eqn:X; [apply eqb_bytes_spec in X; subst z; destruct NL; now constructor|].
      assert (exists r, get s z = Some r) as (r & Gx) by (inversion H as [? ? (r & Gr & _)|? ? ? (r & Gr & _)]; eauto).
      destruct (IH N0 k (fun L => NL (leads_more _ _ _ _ Sz L)) r (overlay (own r) acc) Gx) as (fuel & R). exists (S fuel). cbn [resolve extends own]. rewrite E, X, Gx. exact R.
  Qed.
  (** ** Endless chains *)
  Inductive walk : text -> list text -> Prop :=
  | walk_one : forall k, walk k [k]
  | walk_on : forall k x l, step k x -> walk x l -> walk k (k :: l).
  Lemma walk_leads : forall k l, walk k l -> forall l1 x l2, l = l1 ++ x :: l2 -> l1 <> [] -> leads k x.
  Proof.
    intros k l H. induction H as [k|k y l Sy H IH]; intros l1 x l2 E N1; (destruct l1 as [|a l1]; [contradiction|]); injection E as <- E; [destruct l1; discriminate|].
    destruct l1 as [|b l1]; [|eapply leads_more; [exact Sy|]; apply (IH (b :: l1) x l2); auto; discriminate].
    cbn in E. subst l. assert (x = y) by (inversion H; auto). subst x. now constructor.
  Qed.
  Lemma walk_from : forall k l, walk k l -> forall l1 x l2, l = l1 ++ x :: l2 -> walk x (x :: l2).
  Proof.
    intros k l H. induction H as [k|k y l Sy H IH]; intros l1 x l2 E; (destruct l1 as [|a l1]; injection E as E1 E2).
    - subst. constructor.
    - destruct l1; discriminate.
    - subst. econstructor; eauto.
    - eauto.
  Qed.
  Lemma known_in : forall k p, get s k = Some p -> In k (map fst s).
  Proof. intros k p G. unfold get in G. destruct (find _ s) as [q|] eqn:F; [|discriminate]. apply find_some in F as [I E]. apply eqb_bytes_spec in E. subst k. now apply in_map. Qed.
  Lemma walk_repeats : forall k l, walk k l -> (forall x, In x l -> get s x <> None) -> (length s < length l)%nat -> exists x, (x = k \/ leads k x) /\ leads x x.
  Proof.
    intros k l W K Len. destruct (NoDup_dec (list_eq_dec N.eq_dec) l) as [D|D].
    - exfalso. assert (X : (length l <= length (map fst s))%nat).
      { apply NoDup_incl_length; [exact D|]. intros x I. destruct (get s x) as [p|] eqn:G; [now apply (known_in x p)|now destruct (K x I)]. }
      rewrite map_length in X. lia.
    - apply repeats in D as (x & l1 & l2 & l3 & E). exists x. split.
      + destruct l1 as [|a l1]; [left; subst l; inversion W; auto|right; eapply walk_leads; eauto; discriminate].
      + assert (Wx := walk_from _ _ W _ _ _ E). apply (walk_leads _ _ Wx (x :: l2) x l3); [reflexivity|discriminate].
  Qed.
  Lemma endless_walk : forall fuel k y p acc, get s y = Some p -> resolve fuel s k (Profile (extends p) acc) = Endless ->
    exists l, walk y l /\ length l = S fuel /\ forall x, In x l -> get s x <> None.
  Proof.
    induction fuel as [|fuel IH]; intros k y p acc G H.
    - exists [y]. split; [constructor|]. split; [reflexivity|]. intros x [<-|[]]. congruence.
    - cbn [resolve extends own] in H. destruct (extends p) as [x|] eqn:E; [|discriminate]. destruct (eqb_bytes x k); [discriminate|]. destruct (get s x) as [q|] eqn:Gx; [|discriminate].
      unfold extend in H. cbn [own] in H. destruct (IH _ x q _ Gx H) as (l & W & Len & K). exists (y :: l). split; [apply (walk_on y x); [exists p; auto|exact W]|].
      split; [cbn [length]; now rewrite Len|]. intros z [<-|I]; [congruence|auto].
  Qed.
End Steps.
